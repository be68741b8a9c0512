(** What C54 (PropsCondition.v) says of conditions: how they are evaluated, what the checker is trusted with, and what a report claims. *)
From Coq Require Import String Ascii Bool List ZArith.
From Verif Require Import Base Types Condition.
Import ListNotations.
Open Scope Z_scope.

(** ** Values *)
Definition is_falsy (v : value) : Prop := exists k, falsy v k.
Definition nullish (v : value) : Prop := v = Undefined \/ v = Null.
Definition nan : value := Num [78; 97; 78].

(** ** Types *)
(** The text of a bigint literal says whether it is zero. *)
Fixpoint bigs (x : sty) : Prop :=
  match x with
  | SBig n s => n = 0 <-> s = [48] \/ s = [48; 110]
  | SInter l | SUnion _ l => (fix all l := match l with [] => True | y :: r => bigs y /\ all r end) l
  | _ => True
  end.
(** No object type that takes primitives, unless there is another type beside it in an intersection. *)
Fixpoint solid (x : sty) : Prop :=
  match x with
  | SWeak _ => False
  | SInter l => (fix any l := match l with [] => False | y :: r => solid y \/ any r end) l
  | SUnion _ l => (fix all l := match l with [] => True | y :: r => solid y /\ all r end) l
  | _ => True
  end.
(** An intersection has a member without null and undefined. *)
Fixpoint definite (x : sty) : Prop :=
  match x with
  | SInter l => exists y, In y l /\ ~ holds y Undefined /\ ~ holds y Null
  | SUnion _ l => (fix all l := match l with [] => True | y :: r => definite y /\ all r end) l
  | _ => True
  end.
(** No intersection of no types. *)
Fixpoint full (x : sty) : Prop :=
  match x with
  | SInter l => l <> [] /\ (fix all l := match l with [] => True | y :: r => full y /\ all r end) l
  | SUnion _ l => (fix all l := match l with [] => True | y :: r => full y /\ all r end) l
  | _ => True
  end.
(** The members of a union are no unions: the checker makes one union of them. *)
Definition level (x : sty) : Prop := match x with SUnion _ l => forall y, In y l -> match y with SUnion _ _ => False | _ => True end | _ => True end.
Definition regular (x : sty) : Prop := bigs x /\ solid x /\ definite x /\ full x /\ level x.
(** Types without intersections, [any] and the like; [never] is not in a union. *)
Fixpoint flat (x : sty) : Prop :=
  match x with
  | SAny | SUnknown | SNever | SWeak _ | SParam _ | SInter _ => False
  | SUnion _ l => (fix all l := match l with [] => True | y :: r => flat y /\ all r end) l
  | _ => True
  end.
(** One value at most. *)
Definition unit_type (x : sty) : Prop :=
  match x with SUndefined | SNull | SBool _ | SStr _ | SNum _ | SBig _ _ | SEnumStr _ _ | SEnumNum _ _ => True | _ => False end.

(** ** Evaluation *)
Section Evaluation.
(** The values of names, literals and other expressions; what an access or call on an object gives; what a comparison gives. *)
Variables (atom : expr -> value -> Prop) (access : expr -> value -> value -> Prop) (compare : relation -> value -> value -> bool).

Definition atomic (e : expr) : Prop :=
  match e with Name _ | TrueWord | FalseWord | NullWord | Digits _ | BigDigits _ | Quoted _ | Other _ _ => True | _ => False end.
Inductive linked : expr -> expr -> bool -> Prop :=
| l_prop e o n : linked (Prop_ e o n) e o | l_elem e o i : linked (Elem e o i) e o | l_call e o a : linked (Call e o a) e o.

(** [evals e v]: [e] may evaluate to [v]; [chain e r]: the chain [e] may give [r], nothing when it ends early.  Parentheses end a chain.  An
    access on null or undefined throws. *)
Inductive evals : expr -> value -> Prop :=
| ev_atom e v : atomic e -> atom e v -> evals e v
| ev_paren e v : evals e v -> evals (Paren e) v
| ev_not_t e v : evals e v -> ~ is_falsy v -> evals (Not e) (Bool false)
| ev_not_f e v : evals e v -> is_falsy v -> evals (Not e) (Bool true)
| ev_and_l l r v : evals l v -> is_falsy v -> evals (Logic And l r) v
| ev_and_r l r v w : evals l v -> ~ is_falsy v -> evals r w -> evals (Logic And l r) w
| ev_or_l l r v : evals l v -> ~ is_falsy v -> evals (Logic Or l r) v
| ev_or_r l r v w : evals l v -> is_falsy v -> evals r w -> evals (Logic Or l r) w
| ev_co_l l r v : evals l v -> ~ nullish v -> evals (Logic Coalesce l r) v
| ev_co_r l r v w : evals l v -> nullish v -> evals r w -> evals (Logic Coalesce l r) w
| ev_assign o l r v : evals (Logic o l r) v -> evals (LogicAssign o l r) v
| ev_compare o l r v w : evals l v -> evals r w -> evals (Compare o l r) (Bool (compare o v w))
| ev_cond_t c x y v w : evals c v -> ~ is_falsy v -> evals x w -> evals (Cond c x y) w
| ev_cond_f c x y v w : evals c v -> is_falsy v -> evals y w -> evals (Cond c x y) w
| ev_value e v : chain e (Some v) -> evals e v
| ev_short e : chain e None -> evals e Undefined
with chain : expr -> option value -> Prop :=
| ch_value e x o v w : linked e x o -> link x v -> ~ nullish v -> access e v w -> chain e (Some w)
| ch_stop e x v : linked e x true -> link x v -> nullish v -> chain e None
| ch_short e x o : linked e x o -> chain x None -> chain e None
(** The value of the object of an access: of an expression that is no chain, or of a chain that has not ended early. *)
with link : expr -> value -> Prop :=
| li_chain x v : chain x (Some v) -> link x v
| li_other x v : (forall y o, ~ linked x y o) -> evals x v -> link x v.

(** JavaScript's comparisons, as far as needed. *)
Definition ordering (o : relation) : Prop := match o with Less | Greater | LessEq | GreaterEq => True | _ => False end.
Definition javascript : Prop :=
  (forall v w, compare StrictEq v w = true <-> v = w /\ v <> nan) /\
  (forall v w, compare StrictNotEq v w = negb (compare StrictEq v w)) /\
  (forall v w, compare NotEq v w = negb (compare Eq v w)) /\
  (forall v w, nullish v -> (compare Eq v w = true <-> nullish w)) /\
  (forall v w, nullish w -> (compare Eq v w = true <-> nullish v)) /\
  (forall o v, ordering o -> compare o Undefined v = false /\ compare o v Undefined = false).

(** ** The checker *)
Variables (number : sty -> Z) (meaning : expr -> option sty) (type_of : expr -> option ty) (is_array is_tuple : ty -> bool) (unchecked_off : bool).
(** [meaning] is what the type the checker gives an expression means, if it gives one; the value is one of that type. *)
Definition typed (e : expr) (v : value) : Prop := forall x, meaning e = Some x -> holds x v /\ regular x.

(** An element of an array, or of a tuple by an index that is not a literal: it may be missing, which the checker does not see unless
    noUncheckedIndexedAccess is on. *)
Fixpoint bare (e : expr) : expr := match e with Paren x => bare x | _ => e end.
Definition of_type (p : ty -> bool) (e : expr) : Prop :=
  exists t, type_of e = Some t /\ exists q, In q (if is_union t then t_parts t else [t]) /\ p q = true.
Definition element (e : expr) : Prop :=
  exists o c i, e = Elem o c i /\ (of_type is_array o \/ (of_type is_tuple o /\ forall x, bare i <> Digits x)).

(** The value may be missing although the type does not say so.  [cut e]: the chain [e] may end early because of this. *)
Inductive missing : expr -> Prop :=
| m_element e : element e -> missing e
| m_paren e : missing e -> missing (Paren e)
| m_cut e : cut e -> missing e
| m_left l r : missing l -> missing (Logic And l r)
| m_right o l r : missing r -> missing (Logic o l r)
| m_assign o l r : missing (Logic o l r) -> missing (LogicAssign o l r)
| m_then c x y : missing x -> missing (Cond c x y)
| m_else c x y : missing y -> missing (Cond c x y)
with cut : expr -> Prop :=
| c_here e x : linked e x true -> missing x -> cut e
| c_inside e x o : linked e x o -> cut x -> cut e.
Definition surprising (e : expr) : Prop := unchecked_off = true /\ missing e.

(** [reaches e q]: [q] is the object of a [?.] in the chain [e]. *)
Inductive reaches : expr -> expr -> Prop :=
| re_here e q : linked e q true -> reaches e q
| re_inside e x o q : linked e x o -> reaches x q -> reaches e q.

(** Chains without parentheses but around elements; what they start with is not missing unless it is an element. *)
Inductive straight : expr -> Prop :=
| st_root e : (forall y o, ~ linked e y o) -> ~ missing e \/ element (bare e) -> straight e
| st_link e x o : linked e x o -> straight x -> straight e.

(** What the checker is trusted with: it types an expression right if it types right what the value comes from; a chain that may end early
    has undefined in its type; an access has the right type unless it is an element that may be missing, which then is undefined. *)
Record sound : Prop := {
  so_atom : forall e v, atomic e -> atom e v -> typed e v;
  so_type : forall e, type_of e = option_map (checked number) (meaning e);
  so_paren : forall e, meaning (Paren e) = meaning e;
  so_not : forall e x, evals (Not e) (Bool x) -> typed (Not e) (Bool x);
  so_left : forall o l r v, evals l v -> typed l v -> (match o with And => is_falsy v | Or => ~ is_falsy v | Coalesce => ~ nullish v end) -> typed (Logic o l r) v;
  so_right : forall o l r v, evals r v -> typed r v -> typed (Logic o l r) v;
  so_assign : forall o l r v, typed (Logic o l r) v -> typed (LogicAssign o l r) v;
  so_compare : forall o l r x, typed (Compare o l r) (Bool x);
  so_cond : forall c x y v, evals x v /\ typed x v \/ evals y v /\ typed y v -> typed (Cond c x y) v;
  so_access : forall e v w, access e v w -> typed e w \/ (unchecked_off = true /\ element e /\ w = Undefined);
  so_chain : forall e q v, reaches e q -> evals q v -> nullish v -> typed q v -> typed e Undefined }.

(** ** Claims *)
Definition claim (r : report) : Prop :=
  (r_id r = b "alwaysTruthy" -> exists e, r_range r = Trimmed e /\ forall v, evals e v -> ~ is_falsy v) /\
  (r_id r = b "alwaysFalsy" -> exists e, r_range r = Trimmed e /\ forall v, evals e v -> is_falsy v) /\
  (r_id r = b "never" -> exists e, r_range r = Trimmed e /\ forall v, ~ evals e v) /\
  (r_id r = b "alwaysNullish" -> exists e, r_range r = Trimmed e /\ forall v, evals e v -> nullish v) /\
  (r_id r = b "neverNullish" -> exists e, r_range r = Trimmed e /\ forall v, evals e v -> ~ nullish v).
(** Two expressions always compare the same. *)
Definition constant (o : relation) (l r : expr) : Prop :=
  forall v w v' w', evals l v -> evals r w -> evals l v' -> evals r w' -> compare o v w = compare o v' w'.

End Evaluation.

(** ** Positions *)
(** The expression under parentheses and negations. *)
Fixpoint core (e : expr) : expr := match e with Paren x | Not x => core x | _ => e end.
(** The conditions in a test: the operands of [&&] and [||] that are neither, under any parentheses and negations; with the expression that
    negations and parentheses make of it and whether the number of negations is odd. *)
Fixpoint conditions (e : expr) (outer : expr) (odd : bool) : list (expr * bool * expr) :=
  match e with
  | Paren x => conditions x outer odd
  | Not x => conditions x outer (negb odd)
  | Logic And l r | Logic Or l r => conditions l l false ++ conditions r r false
  | _ => [(e, odd, outer)]
  end.

(** The expressions a rule comes by. *)
Inductive child : expr -> expr -> Prop :=
| ch_paren x : child x (Paren x) | ch_not x : child x (Not x)
| ch_logic_l o l r : child l (Logic o l r) | ch_logic_r o l r : child r (Logic o l r)
| ch_assign_l o l r : child l (LogicAssign o l r) | ch_assign_r o l r : child r (LogicAssign o l r)
| ch_compare_l o l r : child l (Compare o l r) | ch_compare_r o l r : child r (Compare o l r)
| ch_cond_c c x y : child c (Cond c x y) | ch_cond_x c x y : child x (Cond c x y) | ch_cond_y c x y : child y (Cond c x y)
| ch_prop x o n : child x (Prop_ x o n)
| ch_elem_l x o i : child x (Elem x o i) | ch_elem_r x o i : child i (Elem x o i)
| ch_call_l x o a : child x (Call x o a) | ch_call_r x o a : child a (Call x o a)
| ch_other n a : child a (Other n a) | ch_both_l x y : child x (Both x y) | ch_both_r x y : child y (Both x y).
Inductive inside : expr -> expr -> Prop :=
| in_same e : inside e e
| in_child x y e : inside x y -> child y e -> inside x e.
Definition of_stmt (s : stmt) (e : expr) : Prop :=
  match s with
  | If x | While x | Do x | For (Some x) | Plain x => e = x
  | For None => False
  | Switch x cs => e = x \/ In e cs
  end.
(** What is asked: of tests, tests of loops, left sides of [??], and comparisons at a node. *)
Inductive question := AskTest (e : expr) | AskLoop (e : expr) | AskNullish (e : expr) | AskSame (node l : expr) (o : relation) (r : expr).
Inductive asks : expr -> question -> Prop :=
| as_logic o l r : o <> Coalesce -> asks (Logic o l r) (AskTest l)
| as_assign o l r : o <> Coalesce -> asks (LogicAssign o l r) (AskTest l)
| as_coalesce l r : asks (Logic Coalesce l r) (AskNullish l)
| as_coalesce_assign l r : asks (LogicAssign Coalesce l r) (AskNullish l)
| as_compare o l r : asks (Compare o l r) (AskSame (Compare o l r) l o r)
| as_cond c x y : asks (Cond c x y) (AskTest c).
Inductive asked (l : list stmt) : question -> Prop :=
| ak_if e : In (If e) l -> asked l (AskTest e)
| ak_loop e s : In s [While e; Do e; For (Some e)] -> In s l -> asked l (AskLoop e)
| ak_case e cs c : In (Switch e cs) l -> In c cs -> asked l (AskSame c e StrictEq c)
| ak_inside s e x q : In s l -> of_stmt s e -> inside x e -> asks x q -> asked l q.

(** What is left after shortening. *)
Definition shortened (x y : list Z) : Prop :=
  (List.length x <= 120)%nat /\ y = x \/
  (120 < List.length x)%nat /\ List.length y = 120%nat /\ exists p q, x = p ++ q /\ y = p ++ [46; 46; 46].
