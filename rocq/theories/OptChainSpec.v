(** What C60 is measured against: how expressions are evaluated, which values types have, which expressions can be written without further parentheses, what accesses are, when two
    accesses read alike, and chains of && that test an access step by step. *)
From Coq Require Import String Ascii Bool List ZArith.
From Verif Require Import Base OptChain.
Import ListNotations.
Open Scope nat_scope.

(** Values; symbols are among the objects. *)
Inductive value := Undef | Nul | Boolean (x : bool) | Number (z : Z) | NaN | BigInt (z : Z) | String_ (s : bstr) | Object (n : Z).
Definition nullishb (v : value) : bool := match v with Undef | Nul => true | _ => false end.
Definition nullish (v : value) : Prop := v = Undef \/ v = Nul.
Definition truthy (v : value) : bool :=
  match v with
  | Undef | Nul | NaN => false
  | Boolean x => x
  | Number z | BigInt z => negb (Z.eqb z 0)
  | String_ [] => false
  | String_ _ | Object _ => true
  end.
(** 0, "", false, NaN and 0n: where && and ?. differ. *)
Definition falsy_only (v : value) : Prop := truthy v = false /\ ~ nullish v.
(** [Short]: an optional chain was left. *)
Inductive out := Val (v : value) | Short | Throw.
Definition close (x : out) : out := match x with Short => Val Undef | x => x end.
Definition of_option (x : option value) : out := match x with Some v => Val v | None => Throw end.

(** Evaluation without effects: the functions below are arbitrary, what is read or called twice gives the same twice.  None: an exception. *)
Record world := World {
  var : bstr -> option value; this : value; super : value; const : expr -> option value;
  prop : value -> bool -> bstr -> option value; index : value -> value -> option value; call : value -> value -> list value -> option value;
  unary : pre -> value -> option value; step : bstr -> value -> option value; waited : value -> option value; yielded : value -> option value;
  template : bstr -> list value -> list bstr -> option value; type_name : value -> bstr; strict_rest : value -> value -> bool; loose_rest : value -> value -> bool;
  compute : op -> value -> value -> option value }.
Definition strict (w : world) (v u : value) : bool :=
  match v, u with
  | Undef, Undef | Nul, Nul => true
  | Undef, _ | Nul, _ | _, Undef | _, Nul => false
  | v, u => strict_rest w v u
  end.
Definition loose (w : world) (v u : value) : bool := match nullishb v, nullishb u with true, true => true | false, false => loose_rest w v u | _, _ => false end.
Definition after (x : out) (k : value -> out) : out := match close x with Val v => k v | y => y end.
(** One step of an access: from an object that is null or undefined it leaves the chain or throws. *)
Definition link_step (x : out) (q : bool) (k : value -> out) : out :=
  match x with Val v => if nullishb v then (if q then Short else Throw) else k v | y => y end.
Definition binary_out (w : world) (o : op) (v u : value) : out :=
  match o with
  | Eq2 => Val (Boolean (loose w v u)) | Ne2 => Val (Boolean (negb (loose w v u)))
  | Eq3 => Val (Boolean (strict w v u)) | Ne3 => Val (Boolean (negb (strict w v u)))
  | Comma => Val u
  | o => of_option (compute w o v u)
  end.
Definition undefined_name (x : bstr) : bool := beqb x (b "undefined").
(** The result and the receiver for a call. *)
Fixpoint eval (w : world) (e : expr) {struct e} : out * value :=
  match e with
  | Id x => ((if undefined_name x then Val Undef else of_option (var w x)), Undef)
  | This => (Val (this w), Undef)
  | Super => (Val (super w), Undef)
  | Null => (Val Nul, Undef)
  | True_ => (Val (Boolean true), Undef)
  | False_ => (Val (Boolean false), Undef)
  | Str s => (Val (String_ s), Undef)
  | Num _ | Big _ | Raw _ | New _ _ _ | Meta _ _ | Opaque _ _ => (of_option (const w e), Undef)
  | Dot o p n q => let x := fst (eval w o) in (link_step x q (fun v => of_option (prop w v p n)), match x with Val v => v | _ => Undef end)
  | Elem o i q =>
      let x := fst (eval w o) in
      (link_step x q (fun v => after (fst (eval w i)) (fun k => of_option (index w v k))), match x with Val v => v | _ => Undef end)
  | Call f _ args q =>
      let x := eval w f in
      (link_step (fst x) q (fun v => match evals w args with Some vs => of_option (call w v (snd x) vs) | None => Throw end), Undef)
  | NonNull e | As e _ | Cast _ e => eval w e
  | Paren e => let x := eval w e in (close (fst x), snd x)
  | Bin And l r => (after (fst (eval w l)) (fun v => if truthy v then close (fst (eval w r)) else Val v), Undef)
  | Bin Or l r => (after (fst (eval w l)) (fun v => if truthy v then Val v else close (fst (eval w r))), Undef)
  | Bin Coal l r => (after (fst (eval w l)) (fun v => if nullishb v then close (fst (eval w r)) else Val v), Undef)
  | Bin o l r => (after (fst (eval w l)) (fun v => after (fst (eval w r)) (fun u => binary_out w o v u)), Undef)
  | Pre Not e => (after (fst (eval w e)) (fun v => Val (Boolean (negb (truthy v)))), Undef)
  | Pre p e => (after (fst (eval w e)) (fun v => of_option (unary w p v)), Undef)
  | Post k e => (after (fst (eval w e)) (fun v => of_option (step w k v)), Undef)
  | Typeof e =>
      let name := after (fst (eval w e)) (fun v => Val (String_ (type_name w v))) in
      (match unwrap e with Id x => if undefined_name x then name else match var w x with None => Val (String_ (b "undefined")) | Some _ => name end | _ => name end, Undef)
  | Void e => (after (fst (eval w e)) (fun _ => Val Undef), Undef)
  | Await e => (after (fst (eval w e)) (fun v => of_option (waited w v)), Undef)
  | Yield e => (after (fst (eval w e)) (fun v => of_option (yielded w v)), Undef)
  | Tmpl h spans lits => (match evals w spans with Some vs => of_option (template w h vs lits) | None => Throw end, Undef)
  end
with evals (w : world) (es : exprs) {struct es} : option (list value) :=
  match es with
  | Nil => Some []
  | Cons e es => match close (fst (eval w e)), evals w es with Val v, Some vs => Some (v :: vs) | _, _ => None end
  end.
Definition result (w : world) (e : expr) : out := close (fst (eval w e)).

(** Values of types.  [AParam] hides which values there are. *)
Definition conforms (v : value) (a : atom) : bool :=
  match a, v with
  | ANull, Nul | AUndef, Undef | AVoid, Undef => true
  | AAny, _ | AUnknown, _ | AParam, _ => true
  | ABool x, Boolean y => Bool.eqb x y
  | ANum, (Number _ | NaN) | AStr, String_ _ | ABig, BigInt _ | AObject, Object _ => true
  | ANumLit x, Number y | ABigLit x, BigInt y => Z.eqb x y
  | AStrLit x, String_ y => beqb x y
  | _, _ => false
  end.
Definition of_type (v : value) (t : ty) : Prop := exists a, In a t /\ conforms v a = true.
Definition hides (t : ty) : Prop := In AParam t.

(** How close an expression binds, and whether it can be written without further parentheses; the inside of brackets, arguments and templates does not matter for that. *)
Definition op_level (o : op) : nat :=
  match o with Comma => 0 | Assign _ | AssignX _ => 1 | Coal => 2 | Or => 3 | And => 4 | Eq2 | Ne2 | Eq3 | Ne3 => 8 | Rel _ => 9 | Arith _ p => Nat.max 5 (Nat.min p 13) end.
Definition level (e : expr) : nat :=
  match e with
  | Bin o _ _ => op_level o
  | As _ _ => 9
  | Yield _ | Opaque (Maker | Conditional | Other) _ => 1
  | Pre _ _ | Typeof _ | Void _ | Await _ | Cast _ _ | Opaque Delete _ => 14
  | Post _ _ => 15
  | New _ false _ => 16
  | Dot _ _ _ _ | Elem _ _ _ | Call _ _ _ _ | NonNull _ | New _ true _ => 17
  | _ => 19
  end.
Definition mixes (o : op) (e : expr) : bool :=
  match o, e with Coal, Bin (And | Or) _ _ | (And | Or), Bin Coal _ _ => true | _, _ => false end.
Fixpoint fits (e : expr) : Prop :=
  match e with
  | Dot o _ _ _ | Elem o _ _ | Call o _ _ _ => 17 <= level o /\ fits o
  | NonNull e => 17 <= level e /\ fits e
  | Paren e => fits e
  | As e _ => 9 <= level e /\ fits e
  | Bin o l r =>
      fits l /\ fits r /\ mixes o l = false /\ mixes o r = false
      /\ match o with Assign _ | AssignX _ => 17 <= level l /\ 1 <= level r | _ => op_level o <= level l /\ op_level o < level r end
  | Pre _ e | Typeof e | Void e | Await e | Cast _ e => 14 <= level e /\ fits e
  | Post _ e => 17 <= level e /\ fits e
  | Yield e => 1 <= level e /\ fits e
  | _ => True
  end.

(** The operands, joined by [o] from the left, without parentheses around several of them. *)
Definition joined (o : op) (first : expr) (rest : list expr) : expr := fold_left (Bin o) rest first.
Definition join (o : op) (l : list expr) : expr := match l with x :: r => joined o x r | [] => Null end.
(** No operand is itself an expression with [o]. *)
Definition single (o : op) (e : expr) : Prop := forall l r, skip e <> Bin o l r.

(** Accesses: a base and the steps from there; parentheses and non-null assertions do not count. *)
Inductive link := LName (private : bool) (n : bstr) | LIndex (i : expr) | LArgs (types : option (list tynode)) (args : exprs).
(** A [?.] in [e] that is not closed by parentheses. *)
Fixpoint chained (e : expr) : bool :=
  match e with Dot o _ _ q | Elem o _ q | Call o _ _ q => q || chained o | NonNull e | As e _ | Cast _ e => chained e | _ => false end.
Definition simple_base (e : expr) : bool :=
  match e with Id x => negb (undefined_name x) | This | Super | Meta _ _ => true | As e _ | Cast _ e => negb (chained e) | _ => false end.
Fixpoint access_of (e : expr) : option (expr * list (link * bool)) :=
  let add o s := match access_of o with Some (x, l) => Some (x, l ++ [s]) | None => None end in
  match e with
  | Dot o p n q => add o (LName p n, q)
  | Elem o i q => add o (LIndex i, q)
  | Call f t x q => add f (LArgs t x, q)
  | NonNull e | Paren e => access_of e
  | e => if simple_base e then Some (e, []) else None
  end.
(** The steps of [s] are the first of those of [l], which has more. *)
Definition shorter (s l : expr) : Prop :=
  exists x ls ll, access_of s = Some (x, ls) /\ access_of l = Some (x, ll) /\ exists m more, map fst ll = map fst ls ++ m :: more.
Definition steps (e : expr) : nat := match access_of e with Some (_, l) => length l | None => 0 end.
(** No access is shorter than the one before. *)
Fixpoint growing (l : list expr) : Prop := match l with e :: ((e' :: _) as l) => steps e <= steps e' /\ growing l | _ => True end.

(** What an operand asks of an access. *)
Definition nothing (e : expr) : Prop := e = Null \/ e = Id (b "undefined").
Inductive asks := Truth | NotNothing | NotThis (v : expr).
Inductive guard : expr -> expr -> asks -> Prop :=
| g_truth g : guard g g Truth
| g_loose_l a v : nothing v -> guard (Bin Ne2 a v) a NotNothing
| g_loose_r a v : nothing v -> guard (Bin Ne2 v a) a NotNothing
| g_strict_l a v : nothing v -> guard (Bin Ne3 a v) a (NotThis v)
| g_strict_r a v : nothing v -> guard (Bin Ne3 v a) a (NotThis v).
(** The comparison that can stand at the end; the value is no access. *)
Definition equality (o : op) : Prop := o = Eq2 \/ o = Ne2 \/ o = Eq3 \/ o = Ne3.
Definition no_access (v : expr) : Prop := is_access (unwrap v) = false.
Inductive finish : expr -> expr -> option (op * expr) -> Prop :=
| f_truth s : finish s s None
| f_left k a v : equality k -> no_access v -> finish (Bin k a v) a (Some (k, v))
| f_right k a v : equality k -> no_access v -> finish (Bin k v a) a (Some (k, v)).
(** At least one step, and nothing around the last. *)
Definition bare (a : expr) : Prop := match a with Dot _ _ _ _ | Elem _ _ _ | Call _ _ _ _ => True | _ => False end.
(** If the last of the guards tests for null or undefined alone and an earlier one for both, it tests for undefined and has more steps than those before it. *)
Definition guards_ok (gas : list (expr * asks)) : Prop :=
  forall before a v, gas = before ++ [(a, NotThis v)] ->
    Forall (fun p => snd p <> NotNothing) before \/ (v = Id (b "undefined") /\ bare a /\ Forall (fun p => shorter (fst p) a) before).
(** The same result, or two results that are falsy. *)
Definition agrees (x y : out) : Prop := x = y \/ exists u v, x = Val u /\ y = Val v /\ truthy u = false /\ truthy v = false.

(** What two nodes are compared by: without parentheses, non-null assertions, [?.], the types of casts and the arguments of type references. *)
Definition form_ty (t : tynode) : tynode := match t with TyRef n _ => TyRef n [] | t => t end.
Fixpoint form (e : expr) : expr :=
  match e with
  | Dot o p n _ => Dot (form o) false (if p then b "#" ++ n else n) false
  | Elem o i _ => Elem (form o) (form i) false
  | Call f t x _ => Call (form f) (option_map (map form_ty) t) (forms x) false
  | NonNull e | Paren e => form e
  | As e _ => As (form e) []
  | Cast _ e => Cast [] (form e)
  | Bin o l r => Bin o (form l) (form r)
  | Pre p e => Pre p (form e)
  | Typeof e => Typeof (form e)
  | Await e => Await (form e)
  | Tmpl h s l => Tmpl h (forms s) l
  | e => e
  end
with forms (es : exprs) : exprs := match es with Nil => Nil | Cons e es => Cons (form e) (forms es) end.
(** Nodes that can be found equal at all. *)
Definition known_ty (t : tynode) : Prop := match t with TyOther _ => False | _ => True end.
Fixpoint readable (e : expr) : Prop :=
  match e with
  | Dot o _ _ _ => readable o
  | Elem o i _ => readable o /\ readable i
  | Call f t x _ => readable f /\ match t with Some l => Forall known_ty l | None => True end /\ readables x
  | NonNull e | Paren e | As e _ | Cast _ e | Pre _ e | Typeof e | Await e => readable e
  | Bin _ l r => readable l /\ readable r
  | Tmpl _ s _ => readables s
  | Post _ _ | Void _ | Yield _ | New _ _ _ | Opaque _ _ => False
  | _ => True
  end
with readables (es : exprs) : Prop := match es with Nil => True | Cons e es => readable e /\ readables es end.

(** Names after names, from an identifier. *)
Fixpoint dotted (e : expr) : Prop := match e with Id x => x <> b "undefined" | Dot o false _ false => dotted o | _ => False end.
(** [a] is the beginning of [e]: some of the last steps are gone. *)
Inductive begins : expr -> expr -> Prop :=
| b_self e : begins e e
| b_paren a e : begins a e -> begins a (Paren e)
| b_bang a e : begins a e -> begins a (NonNull e)
| b_dot a o p n q : begins a o -> begins a (Dot o p n q)
| b_elem a o i q : begins a o -> begins a (Elem o i q)
| b_call a f t x q : begins a f -> begins a (Call f t x q).
(** [s] reads like the beginning of [l]. *)
Definition reads_first (s l : expr) : Prop := exists a, begins a l /\ readable s /\ form s = form a.
(** What an operand is about: itself, a side of a comparison, or what typeof is asked of there. *)
Inductive about : expr -> expr -> Prop :=
| ab_self n : about n (unwrap n)
| ab_left n k l r : unwrap n = Bin k l r -> about n (skip l)
| ab_right n k l r : unwrap n = Bin k l r -> about n (skip r)
| ab_typeof_left n k l r e : unwrap n = Bin k l r -> skip l = Typeof e -> about n e
| ab_typeof_right n k l r e : unwrap n = Bin k l r -> skip r = Typeof e -> about n e.
(** The operands of [o], parentheses around several of them skipped. *)
Inductive flat (o : op) : expr -> list expr -> Prop :=
| fl_op l r ls rs : flat o l ls -> flat o r rs -> flat o (Bin o l r) (ls ++ rs)
| fl_paren e ls a c : skip e = Bin o a c -> flat o e ls -> flat o (Paren e) ls
| fl_one e : single o e -> flat o e [e].
Fixpoint consecutive {A} (R : A -> A -> Prop) (l : list A) : Prop := match l with x :: ((y :: _) as l) => R x y /\ consecutive R l | _ => True end.

(** Options: [t] is the type of the variable at the root. *)
Definition allowed (o : options) (t : ty) : Prop :=
  (require_nullish o = true /\ (In ANull t \/ In AUndef t)) \/
  ((In AAny t -> check_any o = true) /\ (In AUnknown t -> check_unknown o = true)
   /\ (forall z, In ABig t \/ In (ABigLit z) t -> check_bigint o = true) /\ (forall x, In (ABool x) t -> check_boolean o = true)
   /\ (forall z, In ANum t \/ In (ANumLit z) t -> check_number o = true) /\ (forall s, In AStr t \/ In (AStrLit s) t -> check_string o = true)).
Definition literal (a : atom) : Prop := match a with ABool _ | ANumLit _ | AStrLit _ | ABigLit _ => True | _ => False end.
(** ?. can add undefined to the type of the result unless it is there. *)
Definition has_undefined (t : ty) : Prop := In AUndef t \/ In AAny t \/ In AUnknown t.
