(** C60: prefer-optional-chain finds && chains that test an access step by step, and what it puts in their place means the same. *)
From Coq Require Import String Ascii Bool List ZArith Lia.
From Verif Require Import Base EngineProofs OptChain OptChainSpec OptChainProofs OptChainReport OptChainReading.
Import ListNotations.
Open Scope nat_scope.

(** ** Reading *)
(** A text is that of one expression only. *)
Theorem C60_reading e e' : fits e -> fits e' -> text e = text e' -> e = e'.
Proof. apply one_reading. Qed.
Print Assumptions C60_reading.
(** Nodes are found equal just if they differ in parentheses, assertions, ?., the types of casts and the arguments of type references only. *)
Theorem C60_same a c : same a c = true <-> readable a /\ form a = form c.
Proof. apply same_iff. Qed.
Print Assumptions C60_same.
Theorem C60_prefix a c : prefix a c = true <-> reads_first a c.
Proof. apply prefix_iff. Qed.
Print Assumptions C60_prefix.

(** ** What is reported *)
(** A report is about successive operands; what each is about reads like the beginning of what the next is about. *)
Theorem C60_run opts type_at undeclared width e f : In f (and_fixes opts type_at undeclared width e) ->
  exists all before run after accesses, flat And e all /\ all = before ++ run ++ after /\ 2 <= length run /\ Forall2 about run accesses /\ consecutive reads_first accesses
    /\ (first f = length before \/ (first f = S (length before) /\ undeclared (length before) = true)) /\ S (last_ f) = length before + length run.
Proof. apply fix_run. Qed.
Print Assumptions C60_run.
(** If the first operand is an access itself: what the options say about the type of its root, and the type of the operand. *)
Theorem C60_allowed opts type_at undeclared width all f e x ls : (forall i, undeclared i = false) -> Forall (single And) all -> In f (and_fixes opts type_at undeclared width (join And all)) ->
  nth_error all (first f) = Some e -> access_of e = Some (x, ls) -> match x with As _ _ => False | _ => True end ->
  let t := type_at (first f) (unwrap e) in
  allowed opts (type_at (first f) x) /\ ~ In AVoid t /\ (unsafe opts = false -> (exists a, In a t /\ literal a) -> In ANull t \/ In AUndef t).
Proof. apply fix_allowed. Qed.
Print Assumptions C60_allowed.
(** With requireNullish accesses are left alone if none can be null or undefined. *)
Theorem C60_nullish opts type_at undeclared width all : require_nullish opts = true -> Forall (single And) all -> Forall (fun e => exists x ls, access_of e = Some (x, ls)) all ->
  (forall i e, nth_error all i = Some e -> ~ In ANull (type_at i (unwrap e)) /\ ~ In AUndef (type_at i (unwrap e))) -> (forall i, undeclared i = false) ->
  and_fixes opts type_at undeclared width (join And all) = [].
Proof. apply fix_nullish. Qed.
Print Assumptions C60_nullish.
(** [a.b && a.b.c && a.b.c.d.e] and the like are reported. *)
Theorem C60_reported opts type_at undeclared width all : unsafe opts = false -> require_nullish opts = false -> (forall i, undeclared i = false) -> Forall dotted all -> consecutive shorter all -> 2 <= length all ->
  let e := hd Null all in let t := type_at 0 e in
  allowed opts (type_at 0 (base e)) -> ~ In AVoid t -> ((exists a, In a t /\ literal a) -> In ANull t \/ In AUndef t) ->
  exists f, In f (and_fixes opts type_at undeclared width (join And all)) /\ first f = 0 /\ S (last_ f) = length all.
Proof. apply dotted_reported. Qed.
Print Assumptions C60_reported.
(** Accesses: the change is only offered just if no operand can be undefined already. *)
Theorem C60_offered opts type_at undeclared width all f : (forall i, undeclared i = false) -> Forall (single And) all -> In f (and_fixes opts type_at undeclared width (join And all)) ->
  (forall i e, first f <= i <= last_ f -> nth_error all i = Some e -> exists x ls, access_of e = Some (x, ls)) ->
  suggestion f = true <-> unsafe opts = false /\ forall i e, first f <= i <= last_ f -> nth_error all i = Some e -> ~ has_undefined (type_at i (unwrap e)).
Proof. apply fix_offered. Qed.
Print Assumptions C60_offered.

(** A variable or this found to be null or undefined is never part of a chain. *)
Theorem C60_tested opts type_at undeclared width all f i x v k : (forall i, undeclared i = false) -> Forall (single And) all -> In f (and_fixes opts type_at undeclared width (join And all)) -> first f <= i <= last_ f ->
  (k = Eq2 \/ k = Eq3) -> (v = Null \/ v = Id (b "undefined")) -> (x = This \/ exists n, x = Id n) -> nth_error all i <> Some (Bin k x v) /\ nth_error all i <> Some (Bin k v x).
Proof. apply fix_tested. Qed.
Print Assumptions C60_tested.

(** ** Meaning *)
(** Guards and an access or a comparison at the end.  The new text is one expression, of the operands before, something new, and those after; if the old one gives a value,
    the new one gives the same or both are falsy. *)
Theorem C60_right opts type_at undeclared width all before gs s after gas a fin f : (forall i, undeclared i = false) -> unsafe opts = false ->
  all = before ++ gs ++ s :: after -> Forall (single And) all -> fits (join And all) -> In f (and_fixes opts type_at undeclared width (join And all)) ->
  first f = length before -> last_ f = length before + length gs ->
  Forall2 (fun g p => guard g (fst p) (snd p)) gs gas -> finish s a fin -> Forall (fun p => shorter (fst p) a) gas -> (fin <> None -> bare a) -> (fin = None -> guards_ok gas) ->
  exists news, text (join And (before ++ news ++ after)) = fixed And (join And all) f /\ fits (join And (before ++ news ++ after))
    /\ forall w, Forall2 (fun g p => snd p = Truth -> forall v, result w g = Val v -> ~ falsy_only v) gs gas ->
         match fin with
         | Some (k, v) => exists u, result w v = Val u /\ let t := type_at (length before + length gs) (skip v) in of_type u t /\ ~ hides t
         | None => True
         end ->
         result w (join And all) <> Throw -> agrees (result w (join And all)) (result w (join And (before ++ news ++ after))).
Proof. intros D S. now apply and_fix_right. Qed.
Print Assumptions C60_right.
(** [... a.b !== undefined && a.b !== null] at the end: the last operand stays. *)
Theorem C60_complementary opts type_at undeclared width all before gs p s after gas a f : (forall i, undeclared i = false) -> unsafe opts = false ->
  all = before ++ gs ++ p :: s :: after -> gs <> [] -> Forall (single And) all -> fits (join And all) -> In f (and_fixes opts type_at undeclared width (join And all)) ->
  first f = length before -> last_ f = length before + length gs + 1 ->
  Forall2 (fun g p => guard g (fst p) (snd p)) gs gas -> guard p a (NotThis (Id (b "undefined"))) -> guard s a (NotThis Null) -> bare a -> Forall (fun p => shorter (fst p) a) gas ->
  exists p', text (join And (before ++ p' :: s :: after)) = fixed And (join And all) f /\ fits (join And (before ++ p' :: s :: after))
    /\ forall w, Forall2 (fun g p => snd p = Truth -> forall v, result w g = Val v -> ~ falsy_only v) gs gas ->
         result w (join And all) <> Throw -> agrees (result w (join And all)) (result w (join And (before ++ p' :: s :: after))).
Proof. intros D S. now apply and_fix_complementary. Qed.
Print Assumptions C60_complementary.

(** ** Examples and what does not hold *)
Section Concrete.
(** The default options; every access can be undefined. *)
Let defaults := Options false true true true true true true false.
Let types : nat -> expr -> ty := fun _ e =>
  match e with
  | Null => [ANull] | Str s => [AStrLit s] | Num _ | Pre _ _ => [ANum]
  | Id x => if undefined_name x then [AUndef] else if beqb x (b "v") then [AParam] else [AObject; AUndef]
  | _ => [AObject; AUndef]
  end.
Let fixes := and_fixes defaults types (fun _ => false) (fun _ => 1).
Let texts e := map (fun f => (suggestion f, fixed And e f)) (fixes e).
Let va := Id (b "a"). Let ab := Dot va false (b "b") false. Let abc := Dot ab false (b "c") false. Let abcd := Dot abc false (b "d") false.
Let undef := Id (b "undefined").
Let qab := Dot va false (b "b") true. Let qabc := Dot qab false (b "c") true.
(** The variables and the property of each object; the objects 1, 2, ... have one property only. *)
Let world_of (x : value) (y : Z -> value) : world :=
  World (fun n => if beqb n (b "a") then Some x else if beqb n (b "v") then Some Undef else None) Undef Undef (fun _ => Some (Number 1))
    (fun v _ _ => match v with Object n => Some (y n) | _ => None end) (fun v _ => match v with Object n => Some (y n) | _ => None end) (fun _ _ _ => None) (fun _ _ => None) (fun _ _ => None) (fun _ => None) (fun _ => None)
    (fun _ _ _ => None) (fun v => match v with Undef => b "undefined" | _ => b "object" end) (fun v u => match v, u with Number x, Number y => Z.eqb x y | Object x, Object y => Z.eqb x y | String_ x, String_ y => beqb x y | _, _ => false end) (fun v u => match v, u with Object x, Object y => Z.eqb x y | _, _ => false end)
    (fun o v u => match o, v, u with Arith _ _, Undef, _ => Some NaN | AssignX _, _, u => Some u | Assign _, _, u => Some u | _, _, _ => None end).
(** a is undefined. *)
Let nowhere := world_of Undef (fun _ => Undef).
(** a.b.c...: each is an object but the last, which is [v]. *)
Let deep (n : Z) (v : value) := world_of (Object 1) (fun k => if Z.ltb k n then Object (k + 1) else v).

Ltac shorter_tac :=
  match goal with |- shorter ?s ?l =>
    let r := eval vm_compute in (access_of s) in let t := eval vm_compute in (access_of l) in
    match r with Some (?x, ?ls) => match t with Some (_, ?ll) => exists x, ls, ll; split; [vm_compute; reflexivity|]; split; [vm_compute; reflexivity|]; cbn [map fst app]; do 2 eexists; reflexivity end end
  end.
Example C60_reading_example : (* a && b.c, not (a && b).c *)
  fits (Bin And va abc) /\ text (Bin And va (Dot ab false (b "c") false)) = text (Dot (Bin And va ab) false (b "c") false) /\ ~ fits (Dot (Bin And va ab) false (b "c") false).
Proof. split; [cbn; lia|]. split; [reflexivity|]. cbn. lia. Qed.
Example C60_same_example : (* (a!)?.b and a.b; a.b and a.c *)
  same (Dot (Paren (NonNull va)) false (b "b") true) ab = true /\ same ab (Dot va false (b "c") false) = false /\ same (Call va (Some [TyRef (b "T") (b "X")]) Nil false) (Call va (Some [TyRef (b "T") (b "Y")]) Nil false) = true.
Proof. vm_compute. auto. Qed.
Example C60_prefix_example : prefix ab abcd = true /\ prefix abcd ab = false /\ prefix va (Call abc None (Cons (Id (b "x")) Nil) false) = true.
Proof. vm_compute. auto. Qed.
Example C60_run_example : (* x && a && a.b && a.b.c && y *)
  map (fun f => (first f, last_ f)) (fixes (join And [Id (b "x"); va; ab; abc; Id (b "y")])) = [(1, 3)].
Proof. vm_compute. reflexivity. Qed.
Example C60_allowed_example : (* checkString: false; the root is a string *)
  let strings : nat -> expr -> ty := fun _ e => match e with Id _ => [AStr; AUndef] | _ => [AObject] end in
  and_fixes (Options false true true true true false true false) strings (fun _ => false) (fun _ => 1) (Bin And va ab) = []
  /\ length (and_fixes defaults strings (fun _ => false) (fun _ => 1) (Bin And va ab)) = 1.
Proof. vm_compute. auto. Qed.
Example C60_nullish_example :
  let objects : nat -> expr -> ty := fun _ e => [AObject] in let maybe : nat -> expr -> ty := fun _ e => [AObject; ANull] in
  let o := Options false true true true true true true true in
  and_fixes o objects (fun _ => false) (fun _ => 1) (Bin And va ab) = [] /\ length (and_fixes o maybe (fun _ => false) (fun _ => 1) (Bin And va ab)) = 1.
Proof. vm_compute. auto. Qed.
Example C60_reported_example : Forall dotted [va; ab; abcd] /\ consecutive shorter [va; ab; abcd] /\ allowed defaults (types 0 va)
  /\ texts (join And [va; ab; abcd]) = [(false, text (Dot (Dot (Dot va false (b "b") true) false (b "c") true) false (b "d") false))].
Proof.
  split; [repeat constructor; discriminate|]. split; [|split; [right; cbn; intuition auto|vm_compute; reflexivity]].
  cbn [consecutive]. split; [shorter_tac|]. split; [shorter_tac|easy].
Qed.
Example C60_offered_example : (* nothing can be undefined: offered *)
  map suggestion (and_fixes defaults (fun _ _ => [AObject; ANull]) (fun _ => false) (fun _ => 1) (Bin And va ab)) = [true] /\ map suggestion (fixes (Bin And va ab)) = [false].
Proof. vm_compute. auto. Qed.
Example C60_tested_example : (* a == null && a.b && a.b.c: only the last two *)
  map (fun f => (first f, last_ f)) (fixes (join And [Bin Eq2 va Null; ab; abc])) = [(1, 2)] /\ map (fun f => (first f, last_ f)) (fixes (join And [Bin Ne2 va Null; ab; abc])) = [(0, 2)].
Proof. vm_compute. auto. Qed.
Example C60_right_example : (* a && a.b != null && a.b.c === 1 becomes a?.b?.c === 1 *)
  let one := Num (b "1") in let all := [va; Bin Ne2 ab Null; Bin Eq3 abc one] in
  Forall (single And) all /\ fits (join And all) /\ Forall2 (fun g p => guard g (fst p) (snd p)) [va; Bin Ne2 ab Null] [(va, Truth); (ab, NotNothing)] /\ finish (Bin Eq3 abc one) abc (Some (Eq3, one))
  /\ shorter va abc /\ shorter ab abc /\ texts (join And all) = [(false, text (Bin Eq3 qabc one))]
  /\ result nowhere (join And all) = Val Undef /\ result nowhere (Bin Eq3 qabc one) = Val (Boolean false)
  /\ result (deep 2 (Number 1)) (join And all) = Val (Boolean true) /\ result (deep 2 (Number 1)) (Bin Eq3 qabc one) = Val (Boolean true).
Proof.
  cbv zeta. split; [repeat constructor; discriminate|]. split; [vm_compute; intuition lia|]. split; [repeat constructor|]. split; [constructor; [right; right; now left|reflexivity]|].
  split; [shorter_tac|]. split; [shorter_tac|]. vm_compute. auto 10.
Qed.
Example C60_complementary_example : (* a && a.b !== undefined && a.b !== null becomes a?.b !== undefined && a.b !== null *)
  let all := [va; Bin Ne3 ab undef; Bin Ne3 ab Null] in
  Forall (single And) all /\ fits (join And all) /\ shorter va ab /\ texts (join And all) = [(false, text (join And [Bin Ne3 qab undef; Bin Ne3 ab Null]))]
  /\ result nowhere (join And [Bin Ne3 qab undef; Bin Ne3 ab Null]) = Val (Boolean false).
Proof. cbv zeta. split; [repeat constructor; discriminate|]. split; [vm_compute; intuition lia|]. split; [shorter_tac|]. vm_compute. auto. Qed.

(** A fix that is applied, and the expression it makes of [e]. *)
Let becomes (e e' : expr) : Prop := exists f, In f (fixes e) /\ suggestion f = false /\ fixed And e f = text e' /\ fits e /\ fits e'.
Ltac made_only := match goal with |- becomes ?e _ => exists (hd (Fix false 0 0 [] true) (fixes e)); split; [vm_compute; left; reflexivity|]; split; [vm_compute; reflexivity|]; split; [vm_compute; reflexivity|]; split; cbn; intuition lia end.
(** Calls: a && a.b() becomes a?.b(), and a && a.b && a.b() becomes a?.b?.(). *)
Theorem C60_calls : becomes (Bin And va (Call ab None Nil false)) (Call qab None Nil false) /\ becomes (join And [va; ab; Call ab None Nil false]) (Call qab None Nil true).
Proof. split; made_only. Qed.
Print Assumptions C60_calls.
(** Without the premises. *)
(** a && a.b becomes a?.b, and 0 can have a property. *)
Theorem C60_falsy_refuted : exists e e' w, becomes e e' /\ result w e = Val (Number 0) /\ result w e' = Val (Object 1).
Proof.
  exists (Bin And va ab), qab, (World (fun n => Some (Number 0)) Undef Undef (fun _ => None) (fun _ _ _ => Some (Object 1)) (fun _ _ => None) (fun _ _ _ => None) (fun _ _ => None) (fun _ _ => None) (fun _ => None) (fun _ => None) (fun _ _ _ => None) (fun _ => []) (fun _ _ => false) (fun _ _ => false) (fun _ _ _ => None)).
  split; [made_only|]. vm_compute. auto.
Qed.
Print Assumptions C60_falsy_refuted.
(** Parentheses around operands are cut apart: a && (a.b && a.b.c) && x becomes a?.b?.c) && x. *)
Theorem C60_parens_refuted : exists e f, fits e /\ In f (fixes e) /\ suggestion f = false /\ forall e', fixed And e f <> text e'.
Proof.
  pose (e := join And [va; Paren (Bin And ab abc); Id (b "x")]). exists e, (hd (Fix false 0 0 [] true) (fixes e)). split; [cbn; intuition lia|]. split; [vm_compute; left; reflexivity|]. split; [vm_compute; reflexivity|]. intros e' E.
  pose proof (balanced e') as B. rewrite <- E in B. clear - B. vm_compute in B. discriminate.
Qed.
Print Assumptions C60_parens_refuted.
(** a != null && (a.b) !== undefined becomes (a?.b. *)
Theorem C60_side_refuted : exists e f, fits e /\ In f (fixes e) /\ suggestion f = false /\ forall e', fixed And e f <> text e'.
Proof.
  pose (e := Bin And (Bin Ne2 va Null) (Bin Ne3 (Paren ab) undef)). exists e, (hd (Fix false 0 0 [] true) (fixes e)). split; [cbn; intuition lia|]. split; [vm_compute; left; reflexivity|]. split; [vm_compute; reflexivity|]. intros e' E.
  pose proof (balanced e') as B. rewrite <- E in B. clear - B. vm_compute in B. discriminate.
Qed.
Print Assumptions C60_side_refuted.
(** a && (a.b === 'x') becomes a?.b. *)
Theorem C60_comparison_refuted : exists e e' w, becomes e e' /\ result w e = Val (Boolean false) /\ result w e' = Val (Object 7).
Proof. exists (Bin And va (Paren (Bin Eq3 ab (Str (b "x"))))), qab, (deep 1 (Object 7)). split; [made_only|]. vm_compute. auto. Qed.
Print Assumptions C60_comparison_refuted.
(** a && (a.b = 1) becomes a?.b: the assignment is gone. *)
Theorem C60_assignment_refuted : exists e e' w, becomes e e' /\ result w e = Val (Number 1) /\ result w e' = Val (Object 7).
Proof. exists (Bin And va (Paren (Bin (Assign (b "=")) ab (Num (b "1"))))), qab, (deep 1 (Object 7)). split; [made_only|]. vm_compute. auto. Qed.
Print Assumptions C60_assignment_refuted.
(** a && a.b + 'x' becomes a?.b + 'x', which is 'undefinedx'; here it is NaN for undefined + 1. *)
Theorem C60_arithmetic_refuted : exists e e' w, becomes e e' /\ result w e = Val Undef /\ result w e' = Val NaN.
Proof. exists (Bin And va (Bin (Arith (b "+") 11) ab (Str (b "x")))), (Bin (Arith (b "+") 11) qab (Str (b "x"))), nowhere. split; [made_only|]. vm_compute. auto. Qed.
Print Assumptions C60_arithmetic_refuted.
(** a && a.b && a.b !== null becomes a?.b !== null, which is true if a is undefined. *)
Theorem C60_last_refuted : exists e e' w, becomes e e' /\ result w e = Val Undef /\ result w e' = Val (Boolean true).
Proof. exists (join And [va; ab; Bin Ne3 ab Null]), (Bin Ne3 qab Null), nowhere. split; [made_only|]. vm_compute. auto. Qed.
Print Assumptions C60_last_refuted.
(** a && a.b != null && a.b.c !== null && a.b.c.d becomes a?.b?.c !== null && a.b.c.d, which throws if a is undefined. *)
Theorem C60_loose_refuted : exists e e' w, becomes e e' /\ result w e = Val Undef /\ result w e' = Throw.
Proof. exists (join And [va; Bin Ne2 ab Null; Bin Ne3 abc Null; abcd]), (Bin And (Bin Ne3 qabc Null) abcd), nowhere. split; [made_only|]. vm_compute. auto. Qed.
Print Assumptions C60_loose_refuted.
(** a && a.b !== null && a.b !== undefined becomes a?.b !== null && a.b !== undefined, which throws; it is only offered. *)
Theorem C60_order_refuted : exists e e' f w, In f (fixes e) /\ suggestion f = true /\ fixed And e f = text e' /\ fits e' /\ result w e = Val Undef /\ result w e' = Throw.
Proof.
  pose (e := join And [va; Bin Ne3 ab Null; Bin Ne3 ab undef]). exists e, (Bin And (Bin Ne3 qab Null) (Bin Ne3 ab undef)), (hd (Fix false 0 0 [] false) (fixes e)), nowhere. split; [vm_compute; left; reflexivity|]. split; [vm_compute; reflexivity|]. split; [vm_compute; reflexivity|]. split; [cbn; intuition lia|]. vm_compute. auto.
Qed.
Print Assumptions C60_order_refuted.
(** a.b == null && a.b.c, which throws or is false, becomes a.b?.c. *)
Theorem C60_equal_refuted : exists e e' w, becomes e e' /\ result w e = Val (Boolean false) /\ result w e' = Val (Object 7).
Proof. exists (Bin And (Bin Eq2 ab Null) abc), (Dot ab false (b "c") true), (deep 2 (Object 7)). split; [made_only|]. vm_compute. auto. Qed.
Print Assumptions C60_equal_refuted.
(** a && a.b.c becomes a?.b?.c: an exception is lost. *)
Theorem C60_throw_refuted : exists e e' w, becomes e e' /\ result w e = Throw /\ result w e' = Val Undef.
Proof. exists (Bin And va abc), qabc, (deep 1 Undef). split; [made_only|]. vm_compute. auto. Qed.
Print Assumptions C60_throw_refuted.
(** typeof a !== 'undefined' && a.b && a.b.c becomes a.b?.c, which throws if a is undefined. *)
Theorem C60_typeof_refuted : exists e e' w, becomes e e' /\ result w e = Val (Boolean false) /\ result w e' = Throw.
Proof. exists (join And [Bin Ne3 (Typeof va) (Str (b "undefined")); ab; abc]), (Dot ab false (b "c") true), nowhere. split; [made_only|]. vm_compute. auto. Qed.
Print Assumptions C60_typeof_refuted.
(** x && a.b === 1 && a.b.c becomes x && a.b?.c: the comparison is gone. *)
Theorem C60_middle_refuted : exists e e' w, becomes e e' /\ result w e = Val (Boolean false) /\ result w e' = Val (Object 7).
Proof. exists (join And [True_; Bin Eq3 ab (Num (b "1")); abc]), (Bin And True_ (Dot ab false (b "c") true)), (deep 2 (Object 7)). split; [made_only|]. vm_compute. auto. Qed.
Print Assumptions C60_middle_refuted.
(** a?.[0] != null && a[(0)].b becomes a[(0)]?.b, which throws if a is undefined; it is only offered. *)
Theorem C60_index_refuted : exists e e' f w, In f (fixes e) /\ suggestion f = true /\ fixed And e f = text e' /\ fits e' /\ result w e = Val (Boolean false) /\ result w e' = Throw.
Proof.
  pose (e := Bin And (Bin Ne2 (Elem va (Num (b "0")) true) Null) (Dot (Elem va (Paren (Num (b "0"))) false) false (b "b") false)).
  exists e, (Dot (Elem va (Paren (Num (b "0"))) false) false (b "b") true), (hd (Fix false 0 0 [] false) (fixes e)), nowhere.
  split; [vm_compute; left; reflexivity|]. split; [vm_compute; reflexivity|]. split; [vm_compute; reflexivity|]. split; [cbn; intuition lia|]. vm_compute. auto.
Qed.
Print Assumptions C60_index_refuted.
(** a && a.b === -x.y becomes a?.b === -x.y, which throws if a and x are undefined. *)
Theorem C60_value_refuted : exists e e' w, becomes e e' /\ result w e = Val Undef /\ result w e' = Throw.
Proof.
  exists (Bin And va (Bin Eq3 ab (Pre (Sign (b "-")) (Dot (Id (b "x")) false (b "y") false)))), (Bin Eq3 qab (Pre (Sign (b "-")) (Dot (Id (b "x")) false (b "y") false))), nowhere.
  split; [made_only|]. vm_compute. auto.
Qed.
Print Assumptions C60_value_refuted.
(** a && a.b === v becomes a?.b === v, which is true if both are undefined; the type of v is a type parameter. *)
Theorem C60_parameter_refuted : exists e e' w, becomes e e' /\ result w e = Val Undef /\ result w e' = Val (Boolean true).
Proof. exists (Bin And va (Bin Eq3 ab (Id (b "v")))), (Bin Eq3 qab (Id (b "v"))), nowhere. split; [made_only|]. vm_compute. auto. Qed.
Print Assumptions C60_parameter_refuted.
(** Comments are put in front of the chain: after return a line comment there makes it return nothing. *)
Example C60_comment_example : moved_comments [b " "; b " /* a */ "] = b "/* a */ " /\ exists g, moved_comments [g] = b "// a" ++ ["010"%char].
Proof. split; [vm_compute; reflexivity|]. exists (b " // a" ++ ["010"%char]). vm_compute. reflexivity. Qed.
End Concrete.
