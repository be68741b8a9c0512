(** Expressions of JavaScript as tokens and trees, with their values: identifiers and other operands, parentheses,
    literals, [!], [await] and binary operators.  Specification only; nothing of /repo is modelled here.

    Operands are opaque: any computation that may have effects and may throw.  White space and comments are not
    tokens. *)
From Coq Require Import Bool List ZArith.
From Verif Require Import Base Types.
Import ListNotations.
Open Scope Z_scope.

Inductive op := OOr | OCoalesce | OAnd | OEq (strict negated : bool) | OLess | OPlus.
Definition op_eq_dec (x y : op) : {x = y} + {x <> y}.
Proof. repeat decide equality. Defined.
(** [TId]: an operand that needs no parentheses after [!]; [TPrim]: one like [this] or a class, of which rules do not
    know this. *)
Inductive tok := TId (n : Z) | TPrim (n : Z) | TLit (v : bool) | TOpen | TClose | TBang | TAwait | TOp (o : op).
Inductive tree := Id (n : Z) | Prim (n : Z) | Lit (v : bool) | Par (t : tree) | Not (t : tree) | Await (t : tree) | Bin (o : op) (l r : tree).

Definition lv (o : op) : nat := match o with OOr | OCoalesce => 3 | OAnd => 4 | OEq _ _ => 10 | OLess => 11 | OPlus => 13 end.
Definition level (t : tree) : nat := match t with Bin o _ _ => lv o | Not _ | Await _ => 15 | _ => 20 end.
Definition has_op (o : op) (t : tree) : bool := match t with Bin p _ _ => if op_eq_dec o p then true else false | _ => false end.
(** What may stand left and right of an operator without parentheses; [??] does not mix with [||] and [&&]. *)
Definition left_ok (o : op) (l : tree) : bool :=
  match o with
  | OCoalesce => has_op OCoalesce l || (5 <=? level l)%nat
  | OOr => has_op OOr l || (4 <=? level l)%nat
  | _ => (lv o <=? level l)%nat
  end.
Definition right_level (o : op) : nat := match o with OCoalesce => 5 | _ => S (lv o) end.

Fixpoint print (t : tree) : list tok :=
  match t with
  | Id n => [TId n]
  | Prim n => [TPrim n]
  | Lit v => [TLit v]
  | Par t => TOpen :: print t ++ [TClose]
  | Not t => TBang :: print t
  | Await t => TAwait :: print t
  | Bin o l r => print l ++ TOp o :: print r
  end.
(** The trees of texts. *)
Inductive wf : tree -> Prop :=
| wf_id n : wf (Id n)
| wf_prim n : wf (Prim n)
| wf_lit v : wf (Lit v)
| wf_par t : wf t -> wf (Par t)
| wf_not t : wf t -> (15 <= level t)%nat -> wf (Not t)
| wf_await t : wf t -> (15 <= level t)%nat -> wf (Await t)
| wf_bin o l r : wf l -> wf r -> left_ok o l = true -> (right_level o <= level r)%nat -> wf (Bin o l r).

(** A parser: operators of the level [min] and above. *)
Fixpoint unary (fuel : nat) (ts : list tok) : option (tree * list tok) :=
  match fuel with
  | O => None
  | S fuel =>
      match ts with
      | TId n :: ts => Some (Id n, ts)
      | TPrim n :: ts => Some (Prim n, ts)
      | TLit v :: ts => Some (Lit v, ts)
      | TBang :: ts => match unary fuel ts with Some (t, ts) => Some (Not t, ts) | None => None end
      | TAwait :: ts => match unary fuel ts with Some (t, ts) => Some (Await t, ts) | None => None end
      | TOpen :: ts => match binary fuel 0 ts with Some (t, TClose :: ts) => Some (Par t, ts) | _ => None end
      | _ => None
      end
  end
with binary (fuel min : nat) (ts : list tok) : option (tree * list tok) :=
  match fuel with
  | O => None
  | S fuel => match unary fuel ts with Some (t, ts) => more fuel min t ts | None => None end
  end
with more (fuel min : nat) (l : tree) (ts : list tok) : option (tree * list tok) :=
  match fuel with
  | O => None
  | S fuel =>
      match ts with
      | TOp o :: ts' =>
          if (min <=? lv o)%nat then
            if left_ok o l then match binary fuel (right_level o) ts' with Some (r, ts) => more fuel min (Bin o l r) ts | None => None end else None
          else Some (l, ts)
      | _ => Some (l, ts)
      end
  end.
(** The tree of a text. *)
Definition reads (ts : list tok) (t : tree) : Prop := exists fuel, binary fuel 0 ts = Some (t, []).

(** ** Values *)
Definition value_eq_dec (v w : value) : {v = w} + {v <> w}.
Proof. repeat decide equality. Defined.
Definition same (v w : value) : bool := if value_eq_dec v w then true else false.
Definition truthy (v : value) : bool :=
  match v with
  | Undefined | Null => false
  | Bool x => x
  | Str s => negb (same v (Str []))
  | Num s => negb (same v (Num [48])) && negb (same v (Num [78; 97; 78]))
  | Big n => negb (n =? 0)
  | _ => true
  end.
Definition strict_equal (v w : value) : bool := negb (same v (Num [78; 97; 78])) && same v w.

Section Eval.
Context {state : Type}.
(** An operand, [await], the operators that are of no interest, and [==] outside the cases below. *)
Variable operand : bool -> Z -> state -> option value * state.
Variable awaited : value -> state -> option value * state.
Variable other : op -> value -> value -> state -> option value * state.
Variable convert : value -> value -> state -> option bool * state.
Definition loose_equal (v w : value) (s : state) : option bool * state :=
  match v, w with
  | Undefined, (Undefined | Null) | Null, (Undefined | Null) => (Some true, s)
  | (Undefined | Null), _ | _, (Undefined | Null) => (Some false, s)
  | Bool x, Bool y => (Some (Bool.eqb x y), s)
  | _, _ => convert v w s
  end.
Fixpoint eval (t : tree) (s : state) : option value * state :=
  match t with
  | Id n => operand true n s
  | Prim n => operand false n s
  | Lit v => (Some (Bool v), s)
  | Par t => eval t s
  | Not t => match eval t s with (Some v, s) => (Some (Bool (negb (truthy v))), s) | r => r end
  | Await t => match eval t s with (Some v, s) => awaited v s | r => r end
  | Bin o l r =>
      match eval l s with
      | (Some v, s) =>
          match o with
          | OOr => if truthy v then (Some v, s) else eval r s
          | OAnd => if truthy v then eval r s else (Some v, s)
          | OCoalesce => match v with Undefined | Null => eval r s | _ => (Some v, s) end
          | OEq strict negated =>
              match eval r s with
              | (Some w, s) =>
                  match (if strict then (Some (strict_equal v w), s) else loose_equal v w s) with
                  | (Some x, s) => (Some (Bool (xorb negated x)), s)
                  | (None, s) => (None, s)
                  end
              | e => e
              end
          | _ => match eval r s with (Some w, s) => other o v w s | e => e end
          end
      | e => e
      end
  end.
(** The same effects, and values that are both true or both false in a condition. *)
Definition same_truth (a c : option value * state) : Prop := option_map truthy (fst a) = option_map truthy (fst c) /\ snd a = snd c.
End Eval.

(** ** Contexts *)
Inductive frame := FPar | FNot | FAwait | FLeft (o : op) (r : tree) | FRight (o : op) (l : tree).
(** The innermost frame is first. *)
Fixpoint plug (c : list frame) (t : tree) : tree :=
  match c with
  | [] => t
  | FPar :: c => plug c (Par t)
  | FNot :: c => plug c (Not t)
  | FAwait :: c => plug c (Await t)
  | FLeft o r :: c => plug c (Bin o t r)
  | FRight o l :: c => plug c (Bin o l t)
  end.
Fixpoint before (c : list frame) : list tok :=
  match c with
  | [] => []
  | FPar :: c => before c ++ [TOpen]
  | FNot :: c => before c ++ [TBang]
  | FAwait :: c => before c ++ [TAwait]
  | FLeft _ _ :: c => before c
  | FRight o l :: c => before c ++ print l ++ [TOp o]
  end.
Fixpoint after (c : list frame) : list tok :=
  match c with
  | [] => []
  | FPar :: c => TClose :: after c
  | FLeft o r :: c => TOp o :: print r ++ after c
  | _ :: c => after c
  end.
(** Where only the truth of a value counts. *)
Inductive tested : list frame -> Prop :=
| t_end : tested []
| t_par c : tested c -> tested (FPar :: c)
| t_not c : tested (FNot :: c)
| t_left o r c : o = OAnd \/ o = OOr -> tested c -> tested (FLeft o r :: c)
| t_right o l c : o = OAnd \/ o = OOr -> tested c -> tested (FRight o l :: c).
