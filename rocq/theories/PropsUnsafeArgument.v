(** * C68: no-unsafe-argument compares arguments with the parameters that receive them *)
From Coq Require Import Bool List Arith Lia.
From Verif Require Import UnsafeArgument UnsafeArgumentSpec UnsafeArgumentProofs.
Import ListNotations.

Section Types.
Context {T : Type} (is_any any_array : T -> bool) (tuple : T -> option (list (T * element))) (iterates : T -> option T) (unsafe : bool -> T -> T -> bool).
Notation check := (check is_any any_array tuple unsafe).
Notation passes := (passes is_any any_array tuple iterates).
Notation fixed := (fixed is_any any_array tuple).

Lemma check_in : forall callee (tagged : bool) g args r, In r (check callee tagged g args) <->
  is_any callee = false /\ In r (check_arguments is_any any_array tuple unsafe g 0 args {| consumed := false; index := if tagged then 1 else 0 |}).
Proof.
  clear iterates. intros callee tagged g args r. unfold UnsafeArgument.check. cbv zeta. replace (if tagged then skip {| consumed := false; index := 0 |} else {| consumed := false; index := 0 |}) with {| consumed := false; index := if tagged then 1 else 0 |} by now destruct tagged.
  generalize {| consumed := false; index := if tagged then 1 else 0 |}. intros s. destruct (existsb _ args) eqn:E; cbn [negb].
  - destruct (is_any callee); cbn [In]; [split; [tauto|intros [H _]; discriminate]|]. split; [auto|]. intros [_ H]. exact H.
  - split; [intros []|]. intros [_ H]. exfalso. revert s H. generalize 0. induction args as [|[c t|t] args IH]; intros i s H; [destruct H| |discriminate].
    cbn [existsb] in E. apply orb_false_iff in E as [-> E]. cbn in H. exact (IH E _ _ H).
Qed.

(** For calls that pass a known number of values - plain arguments and spreads of tuples of fixed length - to a signature that takes so many, whose rest parameter,
    if there is one, is an array or a tuple with a variable element only at the end: exactly the unsafe flows from a value into the parameter that receives it are reported
    (of plain arguments, those that can be unsafe).  The tag of a template passes one value before those of its substitutions. *)
Theorem C68_reported : forall callee (tagged : bool) g args vs i t p, passes 0 args vs -> Forall fixed args -> regular g ->
  let first := if tagged then 1 else 0 in
  let n := first + length vs in
  fits g n ->
  (In (UnsafeArgument i t p) (check callee tagged g args) <->
   is_any callee = false /\ nth_error args i = Some (Plain true t) /\ exists k, nth_error vs k = Some (i, t) /\ receives g n (first + k) p /\ unsafe true t p = true) /\
  (In (UnsafeTupleSpread i t p) (check callee tagged g args) <->
   is_any callee = false /\ (exists u, nth_error args i = Some (Spread u)) /\ exists k, nth_error vs k = Some (i, t) /\ receives g n (first + k) p /\ unsafe false t p = true).
Proof.
  intros callee tagged g args vs i t p P F R first n Ft. rewrite !check_in. fold first.
  rewrite !(fixed_reports is_any any_array tuple iterates unsafe g args 0 vs _ _ P F).
  assert (forall k x, nth_error vs k = Some x -> forall q, next g (step {| consumed := false; index := first |} k) = Some q <-> receives g n (first + k) q) as N.
  { intros k x K q. apply (next_receives g n (first + k) q R Ft). assert (nth_error vs k <> None) as K' by congruence. apply nth_error_Some in K'. unfold n. lia. }
  split; split.
  - intros [A [j [k [a [t' [p' [H1 [H2 [H3 [[-> [U E]]|[u [_ [_ E]]]]]]]]]]]]]; [|discriminate]. injection E as -> -> ->. cbn [Nat.add] in *. apply (N k _ H2) in H3. eauto 8.
  - intros [A [H1 [k [H2 [H3 U]]]]]. split; [exact A|]. exists i, k, (Plain true t), t, p. cbn [Nat.add]. repeat split; auto; [now apply (N k _ H2)|]. left. auto.
  - intros [A [j [k [a [t' [p' [H1 [H2 [H3 [[_ [_ E]]|[u [-> [U E]]]]]]]]]]]]]; [discriminate|]. injection E as -> -> ->. cbn [Nat.add] in *. apply (N k _ H2) in H3. eauto 10.
  - intros [A [[u H1] [k [H2 [H3 U]]]]]. split; [exact A|]. exists i, k, (Spread u), t, p. cbn [Nat.add]. repeat split; auto; [now apply (N k _ H2)|]. right. eauto.
Qed.

(** Spreads of any and of arrays of any are always reported, and nothing else is reported as such. *)
Theorem C68_spread : forall callee (tagged : bool) g args i t,
  (In (UnsafeSpread i t) (check callee tagged g args) <-> is_any callee = false /\ nth_error args i = Some (Spread t) /\ is_any t = true) /\
  (In (UnsafeArraySpread i t) (check callee tagged g args) <-> is_any callee = false /\ nth_error args i = Some (Spread t) /\ is_any t = false /\ any_array t = true).
Proof.
  clear iterates. intros callee tagged g args i t. rewrite !check_in.
  destruct (spread_reports is_any any_array tuple unsafe g args 0 {| consumed := false; index := if tagged then 1 else 0 |} i t) as [H1 H2].
  rewrite H1, H2, Nat.sub_0_r. split; (split; [intros [A [_ H]]; auto|intros [A H]; repeat split; auto; try lia; apply H]).
Qed.

(** Arguments after all the parameters have got their values are compared with the elements of the rest parameter, whatever else is spread in between. *)
Theorem C68_rest : forall callee (tagged : bool) g pre1 pre2 vs t post p r, is_any callee = false -> rest g = RestArray r ->
  passes 0 pre1 vs -> Forall fixed pre1 -> length (parameters g) <= (if tagged then 1 else 0) + length vs ->
  (In (UnsafeArgument (length (pre1 ++ pre2)) t p) (check callee tagged g ((pre1 ++ pre2) ++ Plain true t :: post)) <-> p = r /\ unsafe true t r = true).
Proof.
  intros callee tagged g pre1 pre2 vs t post p r A R P F L. rewrite check_in, plain_after, after_app, (after_fixed is_any any_array tuple iterates pre1 0 vs _ P F).
  unfold next. set (s := step _ _). destruct (after_mono is_any any_array tuple pre2 s) as [M _]. unfold s in M at 1. cbn [step index] in M.
  assert (length (parameters g) <=? index (after is_any any_array tuple pre2 s) = true) as -> by (apply Nat.leb_le; lia). cbn [orb]. rewrite R. split.
  - intros [_ [H U]]. injection H as ->. auto.
  - intros [-> U]. auto.
Qed.

(** After a spread of a tuple with a variable element, arguments are compared with the elements of the rest parameter, of a rest tuple with the last, and with nothing if there is none. *)
Theorem C68_variable : forall callee (tagged : bool) g pre1 u l w pre2 t post p, is_any callee = false -> is_any u = false -> any_array u = false -> tuple u = Some l -> In (w, Variable_) l ->
  (In (UnsafeArgument (length (pre1 ++ Spread u :: pre2)) t p) (check callee tagged g ((pre1 ++ Spread u :: pre2) ++ Plain true t :: post)) <->
   (rest g = RestArray p \/ (exists l' e, rest g = RestTuple (l' ++ [(p, e)])) \/ rest g = RestOther (Some p)) /\ unsafe true t p = true).
Proof.
  clear iterates. intros callee tagged g pre1 u l w pre2 t post p A A1 A2 Tu V. rewrite check_in, plain_after, after_app. cbn [after]. rewrite A1, A2, Tu. cbn [orb].
  assert (combined l = true) as -> by (apply existsb_exists; exists (w, Variable_); auto).
  set (s := consume _). destruct (after_mono is_any any_array tuple pre2 s) as [_ M]. specialize (M eq_refl). unfold next. rewrite M, orb_true_r.
  assert ((match rest g with RestTuple [] => None | RestTuple l0 => option_map fst (nth_error l0 (length l0 - 1)) | RestArray t0 => Some t0 | RestOther t0 => t0 end = Some p) <->
    (rest g = RestArray p \/ (exists l' e, rest g = RestTuple (l' ++ [(p, e)])) \/ rest g = RestOther (Some p))) as E.
  { destruct (rest g) as [r|l0|o].
    - split; [intros H; injection H as ->; auto|]. intros [H|[[l' [e H]]|H]]; [injection H as ->; reflexivity|discriminate|discriminate].
    - split.
      + destruct l0 as [|x l0] using rev_ind; [discriminate|]. clear IHl0. intros H. right. left. exists l0, (snd x).
        assert (option_map fst (nth_error (l0 ++ [x]) (length (l0 ++ [x]) - 1)) = Some p) as H' by (destruct (l0 ++ [x]); [discriminate|exact H]).
        rewrite app_length in H'. cbn [length] in H'. replace (length l0 + 1 - 1) with (length l0) in H' by lia. rewrite nth_error_app2, Nat.sub_diag in H' by lia. cbn in H'. injection H' as <-. now destruct x.
      + intros [H|[[l' [e H]]|H]]; [discriminate| |discriminate]. injection H as ->. 
        assert (option_map fst (nth_error (l' ++ [(p, e)]) (length (l' ++ [(p, e)]) - 1)) = Some p) as H'.
        { rewrite app_length. cbn [length]. replace (length l' + 1 - 1) with (length l') by lia. rewrite nth_error_app2, Nat.sub_diag by lia. reflexivity. }
        now destruct (l' ++ [(p, e)]).
    - split; [intros ->; auto|]. intros [H|[[l' [e H]]|H]]; [discriminate|discriminate|injection H as ->; reflexivity]. }
  rewrite E. tauto.
Qed.
(** A tuple with optional elements takes as many parameters as it has elements, absent or not, and what follows it is still compared with the parameters after these. *)
Theorem C68_optional : forall callee (tagged : bool) g pre vs u l t post p, passes 0 pre vs -> Forall fixed pre ->
  is_any u = false -> any_array u = false -> tuple u = Some l -> (forall v e, In (v, e) l -> e <> Variable_) ->
  let k := (if tagged then 1 else 0) + length vs + length l in
  k < length (parameters g) ->
  (In (UnsafeArgument (S (length pre)) t p) (check callee tagged g (pre ++ Spread u :: Plain true t :: post)) <->
   is_any callee = false /\ nth_error (parameters g) k = Some p /\ unsafe true t p = true).
Proof.
  intros callee tagged g pre vs u l t post p P F A1 A2 Tu V k K. rewrite check_in.
  replace (pre ++ Spread u :: Plain true t :: post) with ((pre ++ [Spread u]) ++ Plain true t :: post) by now rewrite <- app_assoc.
  replace (S (length pre)) with (length (pre ++ [Spread u])) by (rewrite app_length; cbn [length]; lia).
  rewrite (plain_after is_any any_array tuple unsafe g (pre ++ [Spread u])), after_app, (after_fixed is_any any_array tuple iterates pre 0 vs _ P F). cbn [after]. rewrite A1, A2, Tu. cbn [orb].
  assert (combined l = false) as C.
  { unfold combined. apply not_true_is_false. intros H. apply existsb_exists in H as [[v e] [H1 H2]]. apply (V v e H1). cbn [snd] in H2. destruct e; congruence. }
  rewrite C. unfold next, step. cbn [index consumed]. replace ((if tagged then 1 else 0) + length vs + length l) with k by reflexivity.
  rewrite (proj2 (Nat.leb_gt _ _) K). cbn [orb]. tauto.
Qed.

End Types.
Print Assumptions C68_reported.
Print Assumptions C68_spread.
Print Assumptions C68_rest.
Print Assumptions C68_variable.
Print Assumptions C68_optional.

(** Types for the examples. *)
Inductive ty := Any | Unknown | Str | Num | Tup (l : list (ty * element)) | SetOf (t : ty) | Arr (t : ty).
Definition any_ty t := match t with Any => true | _ => false end.
Definition any_arr t := match t with Arr Any => true | _ => false end.
Definition tup_ty t := match t with Tup l => Some l | _ => None end.
Definition iterates_ty t := match t with SetOf t | Arr t => Some t | _ => None end.
Definition unsafe_ty (_ : bool) t p := match t, p with Any, Any => false | Any, Unknown => false | Any, _ => true | _, _ => false end.
Notation check_ty := (check any_ty any_arr tup_ty unsafe_ty Str).
Notation passes_ty := (passes any_ty any_arr tup_ty iterates_ty).
Definition plain (ps : list ty) : signature ty := {| parameters := ps; rest := RestOther None |}.

(** f(1, ...[x, y], z) with f(a: number, b: string, c: unknown, ...d: string[]). *)
Example C68_reported_example :
  let g := {| parameters := [Num; Str; Unknown]; rest := RestArray Str |} in
  let args := [Plain false Num; Spread (Tup [(Any, Required); (Any, Required)]); Plain true Any] in
  check_ty false g args = [UnsafeTupleSpread 1 Any Str; UnsafeArgument 2 Any Str] /\
  passes_ty 0 args [(0, Num); (1, Any); (1, Any); (2, Any)] /\ regular g /\ fits g 4 /\ receives g 4 3 Str /\ receives g 4 2 Unknown.
Proof.
  repeat split; auto.
  - repeat constructor. change [(1, Any); (1, Any); (2, Any)] with (map (pair 1) [Any; Any] ++ [(2, Any)]). eapply PSpread; try reflexivity; repeat constructor.
  - now apply RecArray.
  - now apply RecParameter.
Qed.
(** f`${x}${y}` with f(a: TemplateStringsArray, ...b: [string, ...unknown[]]). *)
Example C68_tagged_example : check_ty true {| parameters := [Arr Str]; rest := RestTuple [(Str, Required); (Unknown, Variable_)] |} [Plain true Any; Plain true Any; Plain true Any] = [UnsafeArgument 0 Any Str].
Proof. reflexivity. Qed.
(** f(x, ...y, ...z, w) with f(a: number, ...b: string[]). *)
Example C68_rest_example :
  check_ty false {| parameters := [Num]; rest := RestArray Str |} [Plain true Num; Spread Any; Spread (SetOf Str); Spread (Arr Any); Plain true Any] = [UnsafeSpread 1 Any; UnsafeArraySpread 3 (Arr Any); UnsafeArgument 4 Any Str].
Proof. reflexivity. Qed.
(** f(...x, y) with f(a?: number, b?: number, c?: string) and x: [number, number?]. *)
Example C68_optional_example :
  check_ty false (plain [Num; Num; Str]) [Spread (Tup [(Num, Required); (Num, Optional)]); Plain true Any] = [UnsafeArgument 1 Any Str].
Proof. reflexivity. Qed.
(** f(...x, y) with f(a: number, b: number, ...c: [string, unknown]) and x: [number, ...number[]]. *)
Example C68_variable_example :
  check_ty false {| parameters := [Num; Num]; rest := RestTuple [(Str, Required); (Unknown, Required)] |} [Spread (Tup [(Num, Required); (Num, Variable_)]); Plain true Any] = [].
Proof. reflexivity. Qed.

(** Not so for tuples with optional elements: in f(...x, y) with x: [string, number?], f(a: string, b: number, c: unknown) the value of y may be what [b] gets; it is compared with the type of [c]. *)
Theorem C68_optional_refuted : exists g args vs i t p k, passes_ty 0 args vs /\ regular g /\ fits g (length vs) /\ nth_error args i = Some (Plain true t) /\ nth_error vs k = Some (i, t) /\
  receives g (length vs) k p /\ unsafe_ty true t p = true /\ check_ty false g args = [].
Proof.
  exists (plain [Str; Num; Unknown]), [Spread (Tup [(Str, Required); (Num, Optional)]); Plain true Any], [(0, Str); (1, Any)], 1, Any, Num, 1. repeat split.
  - change [(0, Str); (1, Any)] with (map (pair 0) [Str] ++ [(1, Any)]). eapply PSpread; try reflexivity; repeat constructor. intros u e [].
  - now apply RecParameter.
Qed.
Print Assumptions C68_optional_refuted.
(** Nor for tuples with a variable element: of f(...x) with x: [string, ...any[]], f(a: string, b?: unknown, ...c: string[]), a value of the rest of [x] may be received by [c]; it is compared with the type of [b] only. *)
Theorem C68_element_refuted : exists g args vs i t p k, passes_ty 0 args vs /\ regular g /\ fits g (length vs) /\ nth_error vs k = Some (i, t) /\
  receives g (length vs) k p /\ unsafe_ty false t p = true /\ check_ty false g args = [].
Proof.
  exists {| parameters := [Str; Unknown]; rest := RestArray Str |}, [Spread (Tup [(Str, Required); (Any, Variable_)])], [(0, Str); (0, Any); (0, Any)], 0, Any, Str, 2. repeat split.
  - change [(0, Str); (0, Any); (0, Any)] with (map (pair 0) [Str; Any; Any] ++ []). eapply PSpread; try reflexivity; [|constructor]. apply TVRequired, TVMore, TVMore, TVStop, TVEnd.
  - now apply RecArray.
Qed.
Print Assumptions C68_element_refuted.
(** Nor for other iterables of any. *)
Theorem C68_iterable_refuted : exists g args vs i t p k, passes_ty 0 args vs /\ regular g /\ fits g (length vs) /\ nth_error vs k = Some (i, t) /\
  receives g (length vs) k p /\ unsafe_ty false t p = true /\ check_ty false g args = [].
Proof.
  exists {| parameters := []; rest := RestArray Str |}, [Spread (SetOf Any)], [(0, Any)], 0, Any, Str, 0. repeat split.
  - change [(0, Any)] with (repeat (0, Any) 1 ++ []). eapply PIterable; try reflexivity. constructor.
  - now apply RecArray.
Qed.
Print Assumptions C68_iterable_refuted.
(** Nor for rest tuples with a variable element in the middle, as the code says: with f(...a: [number, ...string[], unknown]) f(1, x) is reported though the unknown receives x, and f(1, "", x, 2) is not though a string does. *)
Theorem C68_middle_refuted : exists g, ~ regular g /\
  (exists args vs k, passes_ty 0 args vs /\ fits g (length vs) /\ nth_error vs k = Some (k, Any) /\ receives g (length vs) k Unknown /\ (forall p, receives g (length vs) k p -> p = Unknown) /\
     check_ty false g args = [UnsafeArgument k Any Str]) /\
  (exists args vs k, passes_ty 0 args vs /\ fits g (length vs) /\ nth_error vs k = Some (k, Any) /\ receives g (length vs) k Str /\ check_ty false g args = []).
Proof.
  set (l := [(Num, Required); (Str, Variable_); (Unknown, Required)]).
  exists {| parameters := []; rest := RestTuple l |}. split; [|split].
  - intros H. specialize (H [(Num, Required)] Str [(Unknown, Required)] eq_refl). discriminate.
  - exists [Plain true Num; Plain true Any], [(0, Num); (1, Any)], 1. split; [repeat constructor|]. split.
    { right. exists [Num; Unknown]. split; [apply TVRequired, TVStop, TVRequired, TVEnd|reflexivity]. }
    split; [reflexivity|]. split.
    { apply (RecTuple _ _ 1 l [Num; Unknown]); try reflexivity; [auto with arith|apply TVRequired, TVStop, TVRequired, TVEnd]. }
    split; [|reflexivity]. intros p H. inversion H as [k q N|k q L G|k l' ps q L G V N Q]; subst; [discriminate|discriminate|]. cbn in G. injection G as <-. cbn in N, Q.
    unfold l in V. inversion V as [|t1 l1 ts1 V1| | | |]; subst. inversion V1 as [| | | |t2 l2 ts2 V2|t2 l2 ts2 V2]; subst.
    + inversion V2 as [|t3 l3 ts3 V3| | | |]; subst. cbn in Q. now injection Q.
    + exfalso. cbn in N. assert (ts2 = []) as -> by (destruct ts2; [reflexivity|cbn in N; lia]). inversion V2 as [| | | |t3 l3 ts3 V3|]; subst. inversion V3.
  - exists [Plain true Num; Plain true Str; Plain true Any; Plain true Num], [(0, Num); (1, Str); (2, Any); (3, Num)], 2. split; [repeat constructor|]. split.
    { right. exists [Num; Str; Str; Unknown]. split; [apply TVRequired, TVMore, TVMore, TVStop, TVRequired, TVEnd|reflexivity]. }
    split; [reflexivity|]. split; [|reflexivity].
    apply (RecTuple _ _ 2 l [Num; Str; Str; Unknown]); try reflexivity; [auto with arith|apply TVRequired, TVMore, TVMore, TVStop, TVRequired, TVEnd].
Qed.
Print Assumptions C68_middle_refuted.
