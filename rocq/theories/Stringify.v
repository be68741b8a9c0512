(** no-base-to-string (internal/rules/no_base_to_string/no_base_to_string.go).

    Types are numbers; what the checker says of them is in [info]. *)
From Coq Require Import String Ascii Bool List ZArith.
From Verif Require Import Base.
Import ListNotations.
Open Scope Z_scope.

(** 42-48. *)
Inductive usefulness := Always | Never | Sometimes.
(** [IsUnionType], [IsIntersectionType], [IsTupleType] with the type arguments, [Checker_isArrayType] with [GetNumberIndexType]; no type is two of these. *)
Inductive class := Union (l : list Z) | Inter (l : list Z) | Tuple (l : list Z) | Array (element : option Z) | Plain.
(** [i_param]: a type parameter with its constraint.  [i_boolean]: [TypeFlagsBooleanLike].  [i_ignored]: the name of the type or of a base type is one of
    [IgnoredTypeNames] (244-248).  [i_methods]: the properties toString, toLocaleString and valueOf, each with whether its declarations are in an interface named Object.
    [i_unknown]: [TypeFlagsUnknown]. *)
Record info := Info {
  i_param : option (option Z); i_boolean : bool; i_ignored : bool; i_class : class; i_methods : list (option (list bool)); i_unknown : bool }.
Definition is_never (u : usefulness) : bool := match u with Never => true | _ => false end.
Definition is_always (u : usefulness) : bool := match u with Always => true | _ => false end.
Definition is_sometimes (u : usefulness) : bool := match u with Sometimes => true | _ => false end.

(** 50-60 [certaintyMemo]. *)
Record memo := Memo { values : list (Z * usefulness); resolving : list Z }.
Definition mem (x : Z) (l : list Z) : bool := existsb (Z.eqb x) l.
Fixpoint lookup (t : Z) (l : list (Z * usefulness)) : option usefulness :=
  match l with [] => None | (x, u) :: l => if x =? t then Some u else lookup t l end.
(** [Panicked]: the panic in line 183.  [Endless]: the recursion has not ended. *)
Inductive outcome (A : Type) := Done (r : A) | Panicked | Endless.
Arguments Done {A}. Arguments Panicked {A}. Arguments Endless {A}.
Definition bind {A B : Type} (o : outcome A) (f : A -> outcome B) : outcome B := match o with Done r => f r | Panicked => Panicked | Endless => Endless end.

Section Get.
Variable S : Type.
(** Where the memo is in the state. *)
Variables (memo_of : S -> memo) (with_memo : S -> memo -> S).
(** 62-77 [certaintyMemo.get]. *)
Definition get (t : Z) (compute : S -> outcome (usefulness * S)) (s : S) : outcome (usefulness * S) :=
  let m := memo_of s in
  match lookup t (values m) with
  | Some u => Done (u, s)
  | None =>
      if mem t (resolving m) then Done (Always, s)
      else bind (compute (with_memo s (Memo (values m) (t :: resolving m)))) (fun '(u, s) =>
             let m := memo_of s in
             Done (u, with_memo s (Memo ((t, u) :: values m) (filter (fun x => negb (x =? t)) (resolving m)))))
  end.
Variable collect : Z -> S -> outcome (usefulness * S).
(** [utils.Map]. *)
Fixpoint all (l : list Z) (s : S) : outcome (list usefulness * S) :=
  match l with
  | [] => Done ([], s)
  | x :: l => bind (collect x s) (fun '(u, s) => bind (all l s) (fun '(us, s) => Done (u :: us, s)))
  end.
(** 129-144 [collectUnionTypeCertainty]. *)
Definition union (l : list Z) (s : S) : outcome (usefulness * S) :=
  bind (all l s) (fun '(us, s) => Done (if forallb is_never us then Never else if forallb is_always us then Always else Sometimes, s)).
(** 146-155 [collectIntersectionTypeCertainty]. *)
Fixpoint inter (l : list Z) (s : S) : outcome (usefulness * S) :=
  match l with
  | [] => Done (Never, s)
  | x :: l => bind (collect x s) (fun '(u, s) => if is_always u then Done (Always, s) else inter l s)
  end.
(** 157-175 [collectTupleCertainty]. *)
Definition tuple (l : list Z) (s : S) : outcome (usefulness * S) :=
  bind (all l s) (fun '(us, s) => Done (if existsb is_never us then Never else if existsb is_sometimes us then Sometimes else Always, s)).
(** 177-186 [collectArrayCertainty]. *)
Definition array (element : option Z) (s : S) : outcome (usefulness * S) := match element with None => Panicked | Some e => collect e s end.
End Get.

Section Types.
Variables (check_unknown : bool) (types : Z -> info).
(** 270-298: the loop over the properties; [fallback]: [foundFallbackOnObject]. *)
Fixpoint methods (l : list (option (list bool))) (fallback : bool) (unknown : bool) : usefulness :=
  match l with
  | [] => if fallback then Never else if check_unknown && unknown then Sometimes else Always
  | None :: l | Some [] :: l => methods l fallback unknown
  | Some declarations :: l => if existsb negb declarations then Always else methods l true unknown
  end.
(** 217-307 [collectToStringCertainty]. *)
Fixpoint to_string (fuel : nat) (visited : list Z) (t : Z) (m : memo) : outcome (usefulness * memo) :=
  match fuel with
  | O => Endless
  | S fuel =>
      if mem t visited then Done (Always, m)
      else get memo (fun m => m) (fun _ m => m) t (fun m =>
        match i_param (types t) with
        | Some (Some c) => to_string fuel visited c m
        | Some None => Done (if check_unknown then Sometimes else Always, m)
        | None =>
            if i_boolean (types t) then Done (Always, m)
            else if i_ignored (types t) then Done (Always, m)
            else match i_class (types t) with
                 | Inter l => inter memo (to_string fuel visited) l m
                 | Union l => union memo (to_string fuel visited) l m
                 | Tuple l => tuple memo (to_string fuel (visited ++ [t])) l m
                 | Array e => array memo (to_string fuel (visited ++ [t])) e m
                 | Plain => Done (methods (i_methods (types t)) false (i_unknown (types t)), m)
                 end
        end) m
  end.
(** 188-215 [collectJoinCertainty]; the state has both memos.  What is visited is empty all along. *)
Record memos := Memos { strings : memo; joins : memo }.
Definition in_strings (f : memo -> outcome (usefulness * memo)) (s : memos) : outcome (usefulness * memos) :=
  bind (f (strings s)) (fun '(u, m) => Done (u, Memos m (joins s))).
Fixpoint join (fuel : nat) (t : Z) (s : memos) : outcome (usefulness * memos) :=
  match fuel with
  | O => Endless
  | S fuel =>
      get memos joins (fun s m => Memos (strings s) m) t (fun s =>
        match i_class (types t) with
        | Union l => union memos (join fuel) l s
        | Inter l => inter memos (join fuel) l s
        | Tuple l => tuple memos (fun x => in_strings (to_string fuel [] x)) l s
        | Array e => array memos (fun x => in_strings (to_string fuel [] x)) e s
        | Plain => Done (Always, s)
        end) s
  end.

(** ** The rule *)
(** An operand: its node and text; whether it is a literal ([IsLiteralExpression]) or [#x]; its type and the constrained type; whether the type is named string. *)
Record operand := Operand { o_node : Z; o_text : bstr; o_literal : bool; o_private : bool; o_type : Z; o_constrained : Z; o_string : bool }.
(** What is called: [String], with [isBuiltInStringCall] (309-324) but for the arguments; a member by its name; something else. *)
Inductive callee := StringName (builtin : bool) | Member (name : bstr) (object : operand) | Otherwise.
(** [+] and [+=]; calls, with whether arguments are spread; templates. *)
Inductive site := Plus (l r : operand) | Call (c : callee) (arguments : list (bool * operand)) | Template (tagged : bool) (spans : list operand).
Record report := Report { r_node : Z; r_id : bstr; r_text : bstr }.
Variable fuel : nat.
(** 14-25 [certaintyToString]. *)
Definition certainty_text (u : usefulness) : bstr := match u with Always => b "always" | Never => b "will" | Sometimes => b "may" end.
(** 34-40. *)
Definition base_to_string (o : operand) (u : usefulness) : report :=
  Report (o_node o) (b "baseToString")
    (b "'" ++ o_text o ++ b "' " ++ certainty_text u ++ b " use Object's default stringification format ('[object Object]') when stringified.").
(** 27-33. *)
Definition base_array_join (o : operand) (u : usefulness) : report :=
  Report (o_node o) (b "baseArrayJoin")
    (b "Using `join()` for " ++ o_text o ++ b " " ++ certainty_text u ++ b " use Object's default stringification format ('[object Object]') when stringified.").
(** 95-114 [checkExpression]. *)
Definition check_expression (o : operand) (s : memos) : outcome (list report * memos) :=
  if o_literal o then Done ([], s)
  else bind (in_strings (to_string fuel [] (o_type o)) s) (fun '(u, s) => Done (if is_always u then [] else [base_to_string o u], s)).
(** 116-127 [checkExpressionForArrayJoin]. *)
Definition check_join (o : operand) (s : memos) : outcome (list report * memos) :=
  bind (join fuel (o_constrained o) s) (fun '(u, s) => Done (if is_always u then [] else [base_array_join o u], s)).
Fixpoint each (l : list operand) (s : memos) : outcome (list report * memos) :=
  match l with
  | [] => Done ([], s)
  | o :: l => bind (check_expression o s) (fun '(rs, s) => bind (each l s) (fun '(rs', s) => Done (rs ++ rs', s)))
  end.
(** 326-372: the listeners. *)
Definition listen (x : site) (s : memos) : outcome (list report * memos) :=
  match x with
  | Plus l r =>
      if o_string l then check_expression r s
      else if o_string r && negb (o_private l) then check_expression l s
      else Done ([], s)
  | Call c args =>
      match (match c, args with StringName true, (false, a) :: _ => Some a | _, _ => None end) with
      | Some a => check_expression a s
      | None =>
          match c with
          | Member name o =>
              if beqb name (b "join") then check_join o s
              else if beqb name (b "toLocaleString") || beqb name (b "toString") then check_expression o s
              else Done ([], s)
          | _ => Done ([], s)
          end
      end
  | Template tagged spans => if tagged then Done ([], s) else each spans s
  end.
(** A file, with the memos of the rule, which are made anew for each file (83-84). *)
Fixpoint sites (l : list site) (s : memos) : outcome (list report * memos) :=
  match l with
  | [] => Done ([], s)
  | x :: l => bind (listen x s) (fun '(rs, s) => bind (sites l s) (fun '(rs', s) => Done (rs ++ rs', s)))
  end.
Definition rule (l : list site) : outcome (list report) := bind (sites l (Memos (Memo [] []) (Memo [] []))) (fun '(rs, _) => Done rs).
End Types.
