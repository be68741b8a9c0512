(** What C55 (PropsFloating.v) says of promises that nobody waits for: how expressions give promises, which values a statement leaves over, and what
    the checker is trusted with. *)
From Coq Require Import String Ascii Bool List ZArith.
From Verif Require Import Base Js Floating.
Import ListNotations.
Open Scope Z_scope.

(** ** Types *)
Definition looks_promise (t : ptype) : Prop := let 'PType _ l := t in exists th e, In (Part true th e) l.
(** A method [then] that takes two functions. *)
Definition looks_thenable (t : ptype) : Prop :=
  let 'PType _ l := t in exists p parts e signatures more, In (Part p (Some parts) e) l /\ In signatures parts /\ In (true :: true :: more) signatures.
Definition said_safe (t : ptype) : Prop := let 'PType s _ := t in s = true.
Definition matters (thenables : bool) (t : ptype) : Prop := ~ said_safe t /\ (looks_promise t \/ thenables = true /\ looks_thenable t).
Definition array_matters (thenables : bool) (t : ptype) : Prop :=
  let 'PType _ l := t in exists p th e x, In (Part p th e) l /\ matters thenables x /\ (e = ArrayOf x \/ exists ts, e = TupleOf ts /\ In x ts).

(** ** Evaluation *)
(** A promise, whether its rejection is handled or is that of a handled one; an array; anything else.  What is stored counts as handled. *)
Inductive val := Prom (caught : bool) | Arr (l : list val) | Plain.
Definition floating (v : val) : Prop := v = Prom false \/ exists l, v = Arr l /\ In (Prom false) l.

Section Evaluation.
Variables (opts : options) (type_of : tree -> ptype) (callable : tree -> bool) (index_name : Z -> option bstr).
(** The values of expressions that are not taken apart here. *)
Variable opaque : tree -> val -> Prop.

Inductive listed : tree -> list tree -> Prop :=
| ls_one a : (forall l r, a <> Bin OComma l r) -> listed a [a]
| ls_more l r x : listed l x -> listed (Bin OComma l r) (x ++ [r]).
Inductive calls : tree -> tree -> list tree -> Prop :=
| ca_none f : calls (Call0 f) f []
| ca_some f a l : listed a l -> calls (Call f a) f l.
Inductive named : tree -> tree -> bstr -> Prop :=
| na_dot o n : named (Member o n) o n
| na_index o k n : index_name k = Some n -> named (Suf o (SIndex k)) o n.
Definition spread (e : tree) : Prop := exists x, e = Pre USpread x.
(** [e] is a call that gives a promise, the value of [o], the handler [h]. *)
Inductive receives : tree -> tree -> tree -> Prop :=
| rc_catch e f o h l : calls e f (h :: l) -> named f o (b "catch") -> ~ spread h -> receives e o h
| rc_then e f o x h l : calls e f (x :: h :: l) -> named f o (b "then") -> ~ spread x -> ~ spread h -> receives e o h.
Definition passes (e o : tree) : Prop := exists f l, calls e f l /\ named f o (b "finally").
Definition elementary (e : tree) : Prop :=
  match e with
  | Par _ | Cond _ _ _ | Bin OComma _ _ | Bin OAnd _ _ | Bin OOr _ _ | Bin OCoalesce _ _ | Pre UVoid _ | Pre UAwait _ | Pre (UAssign _ _) _ => False
  | Call0 _ | Call _ _ => (forall o h, receives e o h -> callable h = false) /\ forall o, ~ passes e o
  | _ => True
  end.

Inductive evals : tree -> val -> Prop :=
| ev_par t v : evals t v -> evals (Par t) v
| ev_comma l r v : evals r v -> evals (Bin OComma l r) v
| ev_void x : evals (Pre UVoid x) Plain
(** What is awaited is no promise any more. *)
| ev_await x v : opaque (Pre UAwait x) v -> (forall c, v <> Prom c) -> evals (Pre UAwait x) v
| ev_assign n p x v : opaque (Pre (UAssign n p) x) v -> ~ floating v -> evals (Pre (UAssign n p) x) v
| ev_then c x y v : evals x v -> evals (Cond c x y) v
| ev_else c x y v : evals y v -> evals (Cond c x y) v
(** Promises and arrays are truthy and not nullish. *)
| ev_and_l l r : evals l Plain -> evals (Bin OAnd l r) Plain
| ev_and_r l r v : evals r v -> evals (Bin OAnd l r) v
| ev_or_l l r v : evals l v -> evals (Bin OOr l r) v
| ev_or_r l r v : evals r v -> evals (Bin OOr l r) v
| ev_co_l l r v : evals l v -> evals (Bin OCoalesce l r) v
| ev_co_r l r v : evals r v -> evals (Bin OCoalesce l r) v
| ev_caught e o h c : receives e o h -> callable h = true -> evals o (Prom c) -> evals e (Prom true)
| ev_finally e o c : passes e o -> evals o (Prom c) -> evals e (Prom c)
(** A method of this name of something else. *)
| ev_other e o w v : (exists h, receives e o h) \/ passes e o -> evals o w -> (forall c, w <> Prom c) -> opaque e v -> evals e v
| ev_opaque e v : elementary e -> opaque e v -> evals e v.

(** The value of a statement, with those of the operands of a comma, and of [void] if that is to be looked into. *)
Inductive unused : tree -> val -> Prop :=
| un_left l r v : unused l v -> unused (Bin OComma l r) v
| un_right l r v : unused r v -> unused (Bin OComma l r) v
| un_void x v : ignore_void opts = false -> unused x v -> unused (Pre UVoid x) v
| un_value e v : (forall l r, e <> Bin OComma l r) -> evals e v -> unused e v.

(** Everything an expression leaves over: also what is dropped inside. *)
Inductive part_of : tree -> tree -> Prop :=
| po_par t : part_of t (Par t)
| po_pre u t : part_of t (Pre u t)
| po_left o l r : part_of l (Bin o l r)
| po_right o l r : part_of r (Bin o l r)
| po_if c x y : part_of c (Cond c x y)
| po_then c x y : part_of x (Cond c x y)
| po_else c x y : part_of y (Cond c x y)
| po_object e f o n l : calls e f l -> named f o n -> part_of o e.
Inductive dropped : tree -> val -> Prop :=
| dr_comma l r v : evals l v -> dropped (Bin OComma l r) v
| dr_and l r v : evals l v -> v <> Plain -> dropped (Bin OAnd l r) v
| dr_void x v : ignore_void opts = false -> evals x v -> dropped (Pre UVoid x) v
| dr_part x e v : part_of x e -> dropped x v -> dropped e v.
Definition left_over (e : tree) (v : val) : Prop := evals e v \/ dropped e v.

(** ** The checker *)
(** The expressions that count in a statement. *)
Inductive within (s : tree) : tree -> Prop :=
| wi_whole : within s s
| wi_part x e : within s e -> part_of x e -> within s x.
(** Uncaught promises have a type that says so, and is not said to be safe. *)
Definition right (s : tree) : Prop := forall e, within s e ->
  (evals e (Prom false) -> matters (check_thenables opts) (type_of e)) /\
  (forall l, evals e (Arr l) -> In (Prom false) l -> array_matters (check_thenables opts) (type_of e)).
(** Methods with the names of those of promises are those. *)
Definition methods (s : tree) : Prop := forall e o w, within s e -> (exists h, receives e o h) \/ passes e o -> evals o w -> exists c, w = Prom c.
(** Types have values, and parentheses and [void] the right type. *)
Definition inhabited (s : tree) : Prop := forall e, within s e ->
  (elementary e -> matters (check_thenables opts) (type_of e) -> opaque e (Prom false)) /\
  (array_matters (check_thenables opts) (type_of e) -> exists l, evals e (Arr l) /\ In (Prom false) l) /\
  (forall x, e = Par x -> type_of e = type_of x) /\
  (forall x, e = Pre UVoid x -> ~ matters (check_thenables opts) (type_of e)).

(** No parentheses but around a whole statement and around what is not taken apart. *)
Fixpoint bare (e : tree) : tree := match e with Par x => bare x | _ => e end.
Inductive clear : tree -> Prop :=
| cl_par x : elementary (bare x) -> clear (Par x)
| cl_comma l r : clear l -> clear r -> clear (Bin OComma l r)
| cl_logic o l r : In o [OAnd; OOr; OCoalesce] -> clear l -> clear r -> clear (Bin o l r)
| cl_cond c x y : clear x -> clear y -> clear (Cond c x y)
| cl_void x : clear x -> clear (Pre UVoid x)
| cl_finally e o : passes e o -> clear o -> clear e
| cl_other e : (forall x, e <> Par x) -> (forall o l r, e = Bin o l r -> ~ In o [OComma; OAnd; OOr; OCoalesce]) -> (forall c x y, e <> Cond c x y) ->
    (forall x, e <> Pre UVoid x) -> (forall o, ~ passes e o) -> clear e.

(** Where a report is. *)
Inductive place : tree -> tree -> Prop :=
| pl_here e : place e e
| pl_comma l r n : place l n \/ place r n -> place (Bin OComma l r) n
| pl_logic o l r n : In o [OAnd; OOr; OCoalesce] -> place l n \/ place r n -> place (Bin o l r) n
| pl_cond c x y n : place x n \/ place y n -> place (Cond c x y) n
| pl_void x n : place x n -> place (Pre UVoid x) n.
Inductive finallys : tree -> tree -> Prop :=
| fi_here e : finallys e e
| fi_next e o n : passes e o -> finallys o n -> finallys e n
| fi_place e n m : place e n -> finallys n m -> finallys e m.
End Evaluation.

(** A [void] replaced under parentheses. *)
Inductive swapped : tree -> tree -> Prop :=
| sw_here x : swapped (Pre UVoid x) (Pre UAwait x)
| sw_par x y : swapped x y -> swapped (Par x) (Par y).
(** An operator before an expression, with parentheses only if it is none of those that need no others. *)
Inductive simple : tree -> Prop :=
| si_atom a : simple (Atom a)
| si_par x : simple (Par x)
| si_member x n : simple (Member x n)
| si_none f : simple (Call0 f)
| si_some f a : simple (Call f a)
| si_index x k : simple (Suf x (SIndex k))
| si_tagged x k : simple (Suf x (STagged k)).
Definition before (u : prefix) (e new : tree) : Prop := new = Pre u e \/ new = Pre u (Par e) /\ ~ simple e.
