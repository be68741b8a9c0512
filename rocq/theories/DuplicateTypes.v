(** Model of internal/rules/no_duplicate_type_constituents/no_duplicate_type_constituents.go.

    Texts are lists of items and positions count items; white space and comments are left out, so node positions with and
    without them are the same.  A node carries the identity of its type ([TypeChecker.GetTypeAtLocation]).  Types inside other
    types, such as type arguments, are part of the text of a leaf; they are trees of their own for the rule. *)
From Coq Require Import String Ascii Bool List ZArith.
From Verif Require Import Base Fixer.
Import ListNotations.
Open Scope Z_scope.

(** The operators, parentheses, what delimits a template, and anything else. *)
Inductive item := IBar | IAmp | IOpen | IClose | ITick | IHead | IBrace | IWord (n : Z).
(** A type, a type in parentheses, a union or an intersection ([inter]), which may start with its operator ([leading]). *)
Inductive tnode := Leaf (t : Z) (text : list item) | Par (t : Z) (n : tnode) | Op (t : Z) (inter leading : bool) (l : list tnode).
Definition type_of (n : tnode) : Z := match n with Leaf t _ | Par t _ | Op t _ _ _ => t end.
Definition bar (inter : bool) : item := if inter then IAmp else IBar.
Fixpoint print (n : tnode) : list item :=
  match n with
  | Leaf _ x => x
  | Par _ n => IOpen :: print n ++ [IClose]
  | Op _ inter leading l =>
      (if leading then [bar inter] else []) ++
      (fix join l := match l with [] => [] | x :: r => print x ++ match r with [] => [] | _ => bar inter :: join r end end) l
  end.
Definition size (n : tnode) : Z := zlen (print n).

(** ** Reports *)
(** A constituent: its path among constituents of constituents, which stands for the identity of the node, the node and its position. *)
Record place := Place { path : list nat; node : tnode; start : Z }.
Inductive outcome := OError | OFirst | ODuplicate (first : place).
(** A constituent that is looked at, the range of the type it is a constituent of, whether a fix is offered. *)
Record visit := Visit { at_ : place; parent : Z * Z; with_fix : bool; found : outcome }.
Definition cache := list (Z * place).
Fixpoint lookup (t : Z) (c : cache) : option place := match c with [] => None | (u, p) :: c => if u =? t then Some p else lookup t c end.

Definition nonempty {A} (l : list A) : bool := match l with [] => false | _ => true end.
Section Rule.
(** [utils.IsIntrinsicErrorType], [IsTypeFlagSet(t, TypeFlagsUndefined)]. *)
Variables (error undefined : Z -> bool).

(** Lines 190-214 for one constituent; [deeper]: lines 216-238.  The result says whether it is a duplicate. *)
Definition check (me : place) (around : Z * Z) (fx : bool) (deeper : cache -> list visit * cache) (c : cache) : list visit * cache * bool :=
  let t := type_of (node me) in
  if error t then ([Visit me around fx OError], c, false)
  else match lookup t c with
       | Some first => ([Visit me around fx (ODuplicate first)], c, true)
       | None => let (vs, c) := deeper ((t, me) :: c) in (Visit me around fx OFirst :: vs, c, false)
       end.
(** Lines 216-238; [top]: lines 262-270, where a fix is always offered. *)
Fixpoint inside (top inter : bool) (p : list nat) (pos : Z) (n : tnode) (c : cache) : list visit * cache :=
  match n with
  | Leaf _ _ => ([], c)
  | Par _ m => inside top inter p (pos + 1) m c
  | Op _ inter' leading l =>
      if Bool.eqb inter inter' then
        (fix go (i : nat) (at_ : Z) (all_removed : bool) (l : list tnode) (c : cache) : list visit * cache :=
           match l with
           | [] => ([], c)
           | x :: r =>
               let fx := top || nonempty r || negb all_removed in
               let '(vs, c, removed) := check (Place (p ++ [i]) x at_) (pos, pos + size n) fx (inside false inter (p ++ [i]) at_ x) c in
               let (ws, c) := go (S i) (at_ + size x + 1) (all_removed && removed) r c in
               (vs ++ ws, c)
           end) 0%nat (pos + if leading then 1 else 0) true l c
      else ([], c)
  end.
(** Lines 241-271, for a union or an intersection. *)
Definition visits (pos : Z) (n : tnode) : list visit :=
  match n with Op _ inter _ _ => fst (inside true inter [] pos n []) | _ => [] end.

(** Lines 14-31. *)
Inductive message := Duplicate (inter : bool) (previous : list item) | Unnecessary.
Record report := Report { where_ : place; around : Z * Z; fixable : bool; says : message; first_seen : option place }.
(** Lines 14-31 and 74: the texts; [show]: the text of items. *)
Definition message_id (m : message) : bstr := match m with Duplicate _ _ => b "duplicate" | Unnecessary => b "unnecessary" end.
Definition description (show : list item -> bstr) (m : message) : bstr :=
  match m with
  | Duplicate inter previous => (if inter then b "Intersection" else b "Union") ++ b " type constituent is duplicated with " ++ show previous ++ b "."
  | Unnecessary => b "Explicit undefined is unnecessary on an optional parameter."
  end.
(** Lines 69-76: the label and its range. *)
Definition label (show : list item -> bstr) (r : report) : option (bstr * (Z * Z)) :=
  match first_seen r with
  | None => None
  | Some f => Some (b "Type '" ++ show (print (node f)) ++ b "' is first declared here.", (start f, start f + size (node f)))
  end.
(** Lines 206-214 and 290-301; [optional]: the union is the type of a parameter with a question mark. *)
Definition report_of (optional inter : bool) (v : visit) : list report :=
  match found v with
  | OError => []
  | OFirst => if optional && negb inter && undefined (type_of (node (at_ v))) then [Report (at_ v) (parent v) true Unnecessary None] else []
  | ODuplicate first => [Report (at_ v) (parent v) (with_fix v) (Duplicate inter (print (node first))) (Some first)]
  end.
Definition reports (optional : bool) (pos : Z) (n : tnode) : list report :=
  match n with Op _ inter _ _ => flat_map (report_of optional inter) (visits pos n) | _ => [] end.

(** ** Listeners *)
(** Lines 45-62: whether there is a type of this kind around it, with nothing but parentheses between; the parents are given
    innermost first. *)
Inductive kind := KPar | KOp (inter : bool) | KOther.
Fixpoint unwinded (parents : list kind) (inter : bool) : bool :=
  match parents with
  | [] => false
  | KOp i :: ps => Bool.eqb i inter
  | KPar :: ps => unwinded ps inter
  | KOther :: _ => false
  end.
(** Lines 273-305 at all nodes of a type; [optional] is of the type as a whole. *)
Fixpoint listen (ignore_unions ignore_intersections optional : bool) (parents : list kind) (pos : Z) (n : tnode) : list report :=
  match n with
  | Leaf _ _ => []
  | Par _ m => listen ignore_unions ignore_intersections false (KPar :: parents) (pos + 1) m
  | Op _ inter leading l =>
      (if (if inter then ignore_intersections else ignore_unions) then []
       else if unwinded parents inter then [] else reports optional pos n) ++
      (fix all (at_ : Z) (l : list tnode) : list report :=
         match l with
         | [] => []
         | x :: r => listen ignore_unions ignore_intersections false (KOp inter :: parents) at_ x ++ all (at_ + size x + 1) r
         end) (pos + if leading then 1 else 0) l
  end.
End Rule.

(** ** Fixes *)
(** The scanner of typescript-go (not part of /repo): the token at a position, [None] at the end of the text.  A backtick starts a token
    that ends with the next backtick or [${]; a closing brace is a token of its own, also where the parser would go on with the template
    ([ReScanTemplateToken]). *)
Fixpoint template (r : list item) : Z := match r with [] => 0 | (ITick | IHead) :: _ => 1 | _ :: r => 1 + template r end.
Definition scan (text : list item) (p : Z) : option item * Z :=
  match skipn (Z.to_nat p) text with
  | [] => (None, p)
  | ITick :: r => (Some ITick, p + 1 + template r)
  | x :: _ => (Some x, p + 1)
  end.
Notation tfix := (fix_ item).
Definition remove (p q : Z) : tfix := mkFix [] p q.
(** Lines 98-115; [p]: where the token starts. *)
Fixpoint tokens_before (fuel : nat) (text : list item) (p pos : Z) (acc : bool * Z * list (Z * Z)) : bool * Z * list (Z * Z) :=
  match fuel with
  | O => acc
  | S f =>
      if p >=? pos then acc
      else match scan text p with
           | (None, _) => acc
           | (Some (IBar | IAmp), q) => tokens_before f text q pos (true, p, [])
           | (Some IOpen, q) => let '(found, prev, br) := acc in tokens_before f text q pos (found, prev, br ++ [(p, q)])
           | (Some _, q) => tokens_before f text q pos acc
           end
  end.
(** Lines 124-131. *)
Fixpoint closing (text : list item) (p : Z) (brackets : list (Z * Z)) : res (list tfix) :=
  match brackets with
  | [] => Ok []
  | _ :: bs => match scan text p with (Some IClose, q) => let! fs := closing text q bs in Ok (remove p q :: fs) | _ => Panic end
  end.
(** Lines 133-152. *)
Fixpoint tokens_after (fuel : nat) (text : list item) (p stop : Z) (n : nat) : res (list tfix * nat) :=
  match fuel with
  | O => Panic
  | S f =>
      if p >=? stop then Panic
      else match scan text p with
           | (Some (IBar | IAmp), q) => Ok ([remove p q], n)
           | (Some IClose, q) => let! r := tokens_after f text q stop (S n) in Ok (remove p q :: fst r, snd r)
           | _ => Panic
           end
  end.
(** Lines 154-176. *)
Fixpoint opening (times : nat) (text : list item) (p pos : Z) (count : nat) (seen : list (Z * Z)) : res (list tfix) :=
  match times with
  | O => Ok []
  | S t =>
      let '(k, q) := scan text p in
      let seen := match k with Some IOpen => if (List.length seen <? count)%nat then seen ++ [(p, q)] else seen | _ => [] end in
      if p =? pos then if (List.length seen =? count)%nat then Ok [] else Panic
      else let! r := opening t text q pos count seen in Ok (map (fun x => remove (fst x) (snd x)) seen ++ r)
  end.
(** Lines 91-180, for the constituent from [pos] to [stop]; its parent is the union or intersection it is a constituent of. *)
Definition fixes (text : list item) (parent : Z * Z) (pos stop : Z) : res (list tfix) :=
  let '(found, prev, brackets) := tokens_before (List.length text) text (fst parent) pos (false, 0, []) in
  if found then
    let! cl := closing text stop brackets in
    Ok (remove pos stop :: remove prev (prev + 1) :: map (fun x => remove (fst x) (snd x)) brackets ++ cl)
  else
    let! r := tokens_after (S (List.length text)) text stop (snd parent) 0 in
    let! op := opening (snd r) text (fst parent) pos (snd r) [] in
    Ok (remove pos stop :: fst r ++ op).
(** The message with its fixes, for internal/linter/source_code_fixer.go. *)
Definition fix_message (text : list item) (k : nat) (r : report) : res (msg item) :=
  if fixable r then let! fs := fixes text (around r) (start (where_ r)) (start (where_ r) + size (node (where_ r))) in Ok (mkMsg k fs) else Ok (mkMsg k []).
