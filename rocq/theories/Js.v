(** Expressions of JavaScript with more of their syntax than in JsExpr.v: tokens, trees, a parser, contexts and values.
    Specification only; nothing of /repo is modelled here.

    White space and comments are no tokens.  Left out: [delete], [new] without arguments, optional chains, assignments to
    anything but a variable, [in] in the head of a [for]; the arguments of a call are read as one expression, with commas; an [as] without parentheses left of a tighter operator.  Operands of
    which only the value is of interest are atoms. *)
From Coq Require Import String Ascii Bool List ZArith.
From Verif Require Import Base Types.
Import ListNotations.
Open Scope Z_scope.

(** [AStr], [ANum]: literals by their value; [AOther]: an operand like [this], a function or a template. *)
Inductive atom := AId (name : bstr) | AStr (s : list Z) | ANum (s : list Z) | ABool (v : bool) | AArray (n : Z) | AObject (n : Z) | AOther (n : Z).
Inductive binop := OComma | OOr | OCoalesce | OAnd | OBitOr | OBitXor | OBitAnd | OEq (strict negated : bool) | OLess | OShift | OPlus | OMinus | OMul | OExp.
(** [UArrow]: the parameters and the arrow of a function; [UAssign]: a variable with [=] or [+=]. *)
Inductive prefix := UNot | UTilde | UPlus | UMinus | UTypeof | UVoid | UAwait | UYield | USpread | UArrow (n : Z) | UAssign (name : bstr) (plus : bool).
(** [SNonNull]: [!] of TypeScript; [SIndex]: an index that is of no interest; [STagged]: a template with this tag. *)
Inductive suffix := SNonNull | SIncr | SIndex (n : Z) | STagged (n : Z) | SAs (n : Z) | SSatisfies (type : bstr).
Inductive tok := TAtom (a : atom) | TOpen | TClose | TPre (u : prefix) | TSuf (s : suffix) | TDot | TName (n : bstr) | TBin (o : binop) | TQuest | TColon.
Inductive tree :=
| Atom (a : atom) | Par (t : tree) | Pre (u : prefix) (t : tree) | Suf (t : tree) (s : suffix) | Member (t : tree) (n : bstr)
| Call0 (f : tree) | Call (f a : tree) | Bin (o : binop) (l r : tree) | Cond (c a e : tree).

Definition binop_eq_dec (x y : binop) : {x = y} + {x <> y}.
Proof. repeat decide equality. Defined.
(** How tight operators bind. *)
Definition lv (o : binop) : nat :=
  match o with
  | OComma => 0 | OOr | OCoalesce => 3 | OAnd => 4 | OBitOr => 5 | OBitXor => 6 | OBitAnd => 7 | OEq _ _ => 8 | OLess => 9 | OShift => 10
  | OPlus | OMinus => 11 | OMul => 12 | OExp => 13
  end.
Definition pl (u : prefix) : nat := match u with UNot | UTilde | UPlus | UMinus | UTypeof | UVoid | UAwait => 14 | _ => 1 end.
Definition sl (s : suffix) : nat := match s with SNonNull | SIndex _ | STagged _ => 17 | SIncr => 15 | SAs _ | SSatisfies _ => 9 end.
(** What a suffix may follow. *)
Definition so (s : suffix) : nat := match s with SAs _ | SSatisfies _ => 9 | _ => 17 end.
Definition level (t : tree) : nat :=
  match t with
  | Bin o _ _ => lv o | Pre u _ => pl u | Suf _ s => sl s | Member _ _ | Call0 _ | Call _ _ => 17 | Cond _ _ _ => 2 | _ => 20
  end.
Definition has_op (o : binop) (t : tree) : bool := match t with Bin p _ _ => if binop_eq_dec o p then true else false | _ => false end.
(** Left and right of an operator without parentheses: [??] does not mix with [||] and [&&]; left of [**] no unary
    operator. *)
Definition left_ok (o : binop) (l : tree) : bool :=
  match o with
  | OCoalesce => has_op OCoalesce l || (5 <=? level l)%nat
  | OOr => has_op OOr l || (4 <=? level l)%nat
  | OExp => (15 <=? level l)%nat
  | _ => (lv o <=? level l)%nat
  end.
Definition right_level (o : binop) : nat := match o with OCoalesce => 5 | OExp => 13 | _ => S (lv o) end.

Fixpoint print (t : tree) : list tok :=
  match t with
  | Atom a => [TAtom a]
  | Par t => TOpen :: print t ++ [TClose]
  | Pre u t => TPre u :: print t
  | Suf t s => print t ++ [TSuf s]
  | Member t n => print t ++ [TDot; TName n]
  | Call0 f => print f ++ [TOpen; TClose]
  | Call f a => print f ++ TOpen :: print a ++ [TClose]
  | Bin o l r => print l ++ TBin o :: print r
  | Cond c a e => print c ++ TQuest :: print a ++ TColon :: print e
  end.
(** The trees of texts. *)
Inductive wf : tree -> Prop :=
| wf_atom a : wf (Atom a)
| wf_par t : wf t -> wf (Par t)
| wf_pre u t : wf t -> (pl u <= level t)%nat -> wf (Pre u t)
| wf_suf t s : wf t -> (so s <= level t)%nat -> wf (Suf t s)
| wf_member t n : wf t -> (17 <= level t)%nat -> wf (Member t n)
| wf_call0 f : wf f -> (17 <= level f)%nat -> wf (Call0 f)
| wf_call f a : wf f -> wf a -> (17 <= level f)%nat -> wf (Call f a)
| wf_bin o l r : wf l -> wf r -> left_ok o l = true -> (right_level o <= level r)%nat -> wf (Bin o l r)
| wf_cond c a e : wf c -> wf a -> wf e -> (3 <= level c)%nat -> (1 <= level a)%nat -> (1 <= level e)%nat -> wf (Cond c a e).

(** A parser: operators of the level [min] and above. *)
Fixpoint expr (fuel min : nat) (ts : list tok) : option (tree * list tok) :=
  match fuel with
  | O => None
  | S f =>
      match ts with
      | TAtom a :: ts => more f min (Atom a) ts
      | TOpen :: ts => match expr f 0 ts with Some (t, TClose :: ts) => more f min (Par t) ts | _ => None end
      | TPre u :: ts => if (min <=? pl u)%nat then match expr f (pl u) ts with Some (t, ts) => more f min (Pre u t) ts | None => None end else None
      | _ => None
      end
  end
with more (fuel min : nat) (l : tree) (ts : list tok) : option (tree * list tok) :=
  match fuel with
  | O => None
  | S f =>
      match ts with
      | TBin o :: ts' =>
          if (min <=? lv o)%nat then
            if left_ok o l then match expr f (right_level o) ts' with Some (r, ts) => more f min (Bin o l r) ts | None => None end else None
          else Some (l, ts)
      | TSuf s :: ts' => if (min <=? sl s)%nat then if (so s <=? level l)%nat then more f min (Suf l s) ts' else None else Some (l, ts)
      | TDot :: TName n :: ts' => if (min <=? 17)%nat then if (17 <=? level l)%nat then more f min (Member l n) ts' else None else Some (l, ts)
      | TOpen :: TClose :: ts' => if (min <=? 17)%nat then if (17 <=? level l)%nat then more f min (Call0 l) ts' else None else Some (l, ts)
      | TOpen :: ts' =>
          if (min <=? 17)%nat then
            if (17 <=? level l)%nat then match expr f 0 ts' with Some (a, TClose :: ts) => more f min (Call l a) ts | _ => None end else None
          else Some (l, ts)
      | TQuest :: ts' =>
          if (min <=? 2)%nat then
            if (3 <=? level l)%nat then
              match expr f 1 ts' with
              | Some (a, TColon :: ts) => match expr f 1 ts with Some (e, ts) => more f min (Cond l a e) ts | None => None end
              | _ => None
              end
            else None
          else Some (l, ts)
      | _ => Some (l, ts)
      end
  end.
(** The tree of a text. *)
Definition reads (ts : list tok) (t : tree) : Prop := exists fuel, expr fuel 0 ts = Some (t, []).

(** ** Contexts *)
Inductive frame :=
| FPar | FPre (u : prefix) | FSuf (s : suffix) | FMember (n : bstr) | FCallee0 | FCallee (a : tree) | FArg (f : tree)
| FLeft (o : binop) (r : tree) | FRight (o : binop) (l : tree) | FCond1 (a e : tree) | FCond2 (c e : tree) | FCond3 (c a : tree).
Definition put (f : frame) (t : tree) : tree :=
  match f with
  | FPar => Par t | FPre u => Pre u t | FSuf s => Suf t s | FMember n => Member t n | FCallee0 => Call0 t | FCallee a => Call t a | FArg f => Call f t
  | FLeft o r => Bin o t r | FRight o l => Bin o l t | FCond1 a e => Cond t a e | FCond2 c e => Cond c t e | FCond3 c a => Cond c a t
  end.
(** The innermost frame is first. *)
Fixpoint plug (c : list frame) (t : tree) : tree := match c with [] => t | f :: c => plug c (put f t) end.
Definition fbefore (f : frame) : list tok :=
  match f with
  | FPar => [TOpen] | FPre u => [TPre u] | FArg f => print f ++ [TOpen] | FRight o l => print l ++ [TBin o]
  | FCond2 c _ => print c ++ [TQuest] | FCond3 c a => print c ++ TQuest :: print a ++ [TColon] | _ => []
  end.
Definition fafter (f : frame) : list tok :=
  match f with
  | FPar | FArg _ => [TClose] | FSuf s => [TSuf s] | FMember n => [TDot; TName n] | FCallee0 => [TOpen; TClose] | FCallee a => TOpen :: print a ++ [TClose]
  | FLeft o r => TBin o :: print r | FCond1 a e => TQuest :: print a ++ TColon :: print e | FCond2 _ e => TColon :: print e | _ => []
  end.
Fixpoint before (c : list frame) : list tok := match c with [] => [] | f :: c => before c ++ fbefore f end.
Fixpoint after (c : list frame) : list tok := match c with [] => [] | f :: c => fafter f ++ after c end.

(** ** Values *)
Definition value_eq_dec (v w : value) : {v = w} + {v <> w}.
Proof. repeat decide equality. Defined.
Definition truthy (v : value) : bool :=
  match v with
  | Undefined | Null => false
  | Bool x => x
  | Str s => match s with [] => false | _ => true end
  | Num s => if value_eq_dec v (Num [48]) then false else if value_eq_dec v (Num [78; 97; 78]) then false else true
  | Big n => negb (n =? 0)
  | _ => true
  end.
(** An integer in decimal digits. *)
Fixpoint digits (fuel : nat) (n : Z) : list Z :=
  match fuel with
  | O => []
  | S f => (if n <? 10 then [] else digits f (n / 10)) ++ [48 + n mod 10]
  end.
Definition integer_text (n : Z) : list Z := if n <? 0 then 45 :: digits (S (Z.to_nat (Z.log2 (- n)))) (- n) else digits (S (Z.to_nat (Z.log2 n))) n.
(** The integer with these digits. *)
Definition number_of (ds : list Z) : option Z :=
  match ds with
  | [] => None
  | _ => fold_left (fun acc d => match acc with Some n => if (48 <=? d) && (d <=? 57) then Some (10 * n + (d - 48)) else None | None => None end) ds (Some 0)
  end.
Definition integer_of (ds : list Z) : option Z := match ds with 45 :: ds => option_map Z.opp (number_of ds) | _ => number_of ds end.
(** The low 32 bits as a signed number. *)
Definition int32 (n : Z) : Z := (n + 2 ^ 31) mod 2 ^ 32 - 2 ^ 31.

(** Functions of the language: conversions, and [toString] of strings. *)
Inductive builtin := BigIntF | BooleanF | NumberF | StringF | StringToString.
Section Eval.
Context {state : Type}.
(** Everything of no interest: atoms, operators, properties and calls in the other cases.  [None]: an exception.  A function
    is an object. *)
Variable atom_value : atom -> state -> option value * state.
Variable function : builtin -> Z.
Variable read : bstr -> state -> option value * state.
Variable write : bstr -> value -> state -> option value * state.
Variable prefix_value : prefix -> (state -> option value * state) -> state -> option value * state.
Variable suffix_value : suffix -> value -> state -> option value * state.
Variable binary_value : binop -> value -> value -> state -> option value * state.
Variable property : value -> bstr -> state -> option value * state.
(** Function, [this] and the value of the arguments. *)
Variable call : Z -> value -> option value -> state -> option value * state.
(** [~] of anything but an integer of at most 53 bits, which alone surely are what their digits say; conversions of values of other types. *)
Variable other_bit_not : value -> state -> option value * state.
Variable convert : builtin -> value -> state -> option value * state.

(** A value and, of a property, its object. *)
Notation result := (option (value * value) * state)%type.
Definition plain (r : option value * state) : result := (option_map (fun v => (v, Undefined)) (fst r), snd r).
Definition bit_not (v : value) (s : state) : option value * state :=
  match v with
  | Num ds => match integer_of ds with Some n => if Z.abs n <=? 2 ^ 53 then (Some (Num (integer_text (Z.lnot (int32 n)))), s) else other_bit_not v s | None => other_bit_not v s end
  | _ => other_bit_not v s
  end.
Definition unary (u : prefix) (v : value) (s : state) : option (option value * state) :=
  match u, v with
  | UNot, _ => Some (Some (Bool (negb (truthy v))), s)
  | UPlus, Num _ => Some (Some v, s)
  | UPlus, _ => Some (convert NumberF v s)
  | UTilde, _ => Some (bit_not v s)
  | _, _ => None
  end.
Definition conversion (f : builtin) (v : value) (s : state) : option value * state :=
  match f, v with
  | BooleanF, _ => (Some (Bool (truthy v)), s)
  | StringF, Str _ | NumberF, Num _ | BigIntF, Big _ => (Some v, s)
  | _, _ => convert f v s
  end.
Definition get (v : value) (n : bstr) (s : state) : option value * state :=
  match v with
  | Str _ => if beqb n (b "toString") then (Some (Obj (function StringToString)), s) else property v n s
  | _ => property v n s
  end.
Definition invoke (f this : value) (arg : option value) (s : state) : option value * state :=
  match f with
  | Obj n =>
      if n =? function StringToString then match this, arg with Str _, None => (Some this, s) | _, _ => call n this arg s end
      else match arg with
           | Some v =>
               if n =? function StringF then conversion StringF v s
               else if n =? function NumberF then conversion NumberF v s
               else if n =? function BooleanF then conversion BooleanF v s
               else if n =? function BigIntF then conversion BigIntF v s
               else call n this arg s
           | None => call n this arg s
           end
  | _ => (None, s)
  end.
Definition binary (o : binop) (v w : value) (s : state) : option value * state :=
  match o, v, w with OPlus, Str x, Str y => (Some (Str (x ++ y)), s) | _, _, _ => binary_value o v w s end.
Fixpoint eval (t : tree) (s : state) : result :=
  match t with
  | Atom (AStr x) => (Some (Str x, Undefined), s)
  | Atom (AId x) => plain (read x s)
  | Atom a => plain (atom_value a s)
  | Par t => eval t s
  | Pre (UAssign x true) t =>
      match read x s with
      | (Some v, s) => match eval t s with
                       | (Some (w, _), s) => match binary OPlus v w s with (Some u, s) => plain (write x u s) | r => plain r end
                       | r => r
                       end
      | (None, s) => (None, s)
      end
  | Pre u t =>
      match u with
      | UNot | UPlus | UTilde =>
          match eval t s with
          | (Some (v, _), s) => match unary u v s with Some r => plain r | None => (None, s) end
          | r => r
          end
      | _ => plain (prefix_value u (fun s => let r := eval t s in (option_map fst (fst r), snd r)) s)
      end
  | Suf t (SNonNull | SAs _ | SSatisfies _) => eval t s
  | Suf t x => match eval t s with (Some (v, this), s) => plain (suffix_value x v s) | r => r end
  | Member t n => match eval t s with (Some (v, _), s) => match get v n s with (Some w, s) => (Some (w, v), s) | (None, s) => (None, s) end | r => r end
  | Call0 f => match eval f s with (Some (v, this), s) => plain (invoke v this None s) | r => r end
  | Call f a =>
      match eval f s with
      | (Some (v, this), s) => match eval a s with (Some (w, _), s) => plain (invoke v this (Some w) s) | r => r end
      | r => r
      end
  | Bin o l r =>
      match eval l s with
      | (Some (v, _), s) =>
          let right := match eval r s with (Some (w, _), s) => (Some (w, Undefined), s) | r => r end in
          match o with
          | OOr => if truthy v then (Some (v, Undefined), s) else right
          | OAnd => if truthy v then right else (Some (v, Undefined), s)
          | OCoalesce => match v with Undefined | Null => right | _ => (Some (v, Undefined), s) end
          | OComma => right
          | _ => match eval r s with (Some (w, _), s) => plain (binary o v w s) | r => r end
          end
      | r => r
      end
  | Cond c a e =>
      match eval c s with
      | (Some (v, _), s) => match (if truthy v then eval a s else eval e s) with (Some (w, _), s) => (Some (w, Undefined), s) | r => r end
      | r => r
      end
  end.
(** The same value and effects; [this] only matters for functions. *)
Definition alike (x y : result) : Prop :=
  snd x = snd y /\
  match fst x, fst y with
  | Some (v, this), Some (w, that) => v = w /\ (this = that \/ forall n, v <> Obj n)
  | None, None => True
  | _, _ => False
  end.
End Eval.
