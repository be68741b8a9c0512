(** Properties of use-unknown-in-catch-callback-variable (C88). *)
From Coq Require Import Bool Arith ZArith Ascii String List Lia Permutation.
From Verif Require Import Base EngineProofs Fixer FixerSpec FixerProofs FixPieces.
From Verif Require Import UseUnknown UseUnknownSpec UseUnknownProofs.
Import ListNotations.
Open Scope Z_scope.

(** C88: exactly the functions are reported that may be the handler of rejections and do not take the error as unknown. *)
Theorem C88_reported : forall c r, reports c = Some r -> forall i,
  (exists a, In (i, a) r) <-> exists e f, handler c e /\ may_be e f /\ careless f /\ i = fid f.
Proof.
  intros c r R i. unfold reports in R. destruct (flagged c) as [l|] eqn:F; [|discriminate].
  assert (X : (exists a, In (i, a) r) <-> exists f, In f l /\ i = fid f).
  { split.
    - intros (a & H). apply (reports_of_some _ _ R) in H as (f & d & t & H & _ & E & _). eauto.
    - intros (f & H & E). destruct (parameters f) as [|d t] eqn:P.
      + assert (reports_of l = None) by (apply reports_of_none; eauto). congruence.
      + exists (advice_for d). apply (reports_of_some _ _ R). exists f, d, t. auto. }
  rewrite X. destruct (handler_dec c) as [(e & H)|N].
  - rewrite (handler_some _ _ H) in F. split.
    + intros (f & I & E). apply (collect_some _ _ F) in I as [M C]. exists e, f. auto.
    + intros (e' & f & H' & M & C & E). rewrite <- (handler_one _ _ _ H H') in M. exists f. split; auto. apply (collect_some _ _ F). auto.
  - rewrite (handler_none _ N) in F. injection F as <-. split; [intros (f & [] & _)|intros (e & f & H & _); destruct (N _ H)].
Qed.
Print Assumptions C88_reported.

(** C88: the advice is that for the first parameter as written. *)
Theorem C88_advice : forall c r, reports c = Some r -> forall i a, In (i, a) r ->
  exists e f d l, handler c e /\ may_be e f /\ careless f /\ i = fid f /\ parameters f = d :: l /\
  a = match ddots d, annotated d, dname d with
      | true, true, _ => Wrong_rest | true, false, _ => Add_rest
      | false, true, Ident => Wrong | false, false, Ident => Add
      | false, _, ArrayPat => Array_pattern | false, _, ObjectPat => Object_pattern end.
Proof.
  intros c r R i a H. unfold reports in R. destruct (flagged c) as [l|] eqn:F; [|discriminate].
  apply (reports_of_some _ _ R) in H as (f & d & t & H & P & E & A).
  destruct (handler_dec c) as [(e & K)|N].
  - rewrite (handler_some _ _ K) in F. apply (collect_some _ _ F) in H as [M C]. exists e, f, d, t. repeat (split; [assumption|]).
    subst a. unfold advice_for. destruct (ddots d), (annotated d), (dname d); reflexivity.
  - rewrite (handler_none _ N) in F. injection F as <-. destruct H.
Qed.
Print Assumptions C88_advice.

(** C88: the program panics exactly if a function that may be the handler has a rest parameter for an empty tuple, with no careless signature before, or is careless and has no parameter as written. *)
Theorem C88_panics : forall c, reports c = None <->
  exists e f, handler c e /\ may_be e f /\
  ((exists l1 s l2, signatures f = l1 ++ s :: l2 /\ empty_rest s /\ forall s', In s' l1 -> ~ (odd_rest s' \/ exists t, first_type s' t /\ t <> Unknown))
   \/ (flagged c <> None /\ careless f /\ parameters f = [])).
Proof.
  intros c. unfold reports. destruct (handler_dec c) as [(e & H)|N].
  - rewrite (handler_some _ _ H). destruct (collect e) as [l|] eqn:F.
    + rewrite reports_of_none. split.
      * intros (f & I & P). apply (collect_some _ _ F) in I as [M C]. exists e, f. split; auto. split; auto. right. split; [discriminate|auto].
      * intros (e' & f & H' & M & D). rewrite <- (handler_one _ _ _ H H') in M. destruct D as [D|(_ & C & P)].
        -- apply flaggable_none in D. assert (collect e = None) by (apply collect_none; eauto). congruence.
        -- exists f. split; auto. apply (collect_some _ _ F). auto.
    + split; auto. intros _. apply collect_none in F as (f & M & D). exists e, f. split; auto. split; auto. left. apply flaggable_none. auto.
  - rewrite (handler_none _ N). cbn. split; [discriminate|]. intros (e & f & H & _). destruct (N _ H).
Qed.
Print Assumptions C88_panics.

(** C88: so it does not in other calls. *)
Theorem C88_no_panic : forall c,
  (forall e f s, handler c e -> may_be e f -> In s (signatures f) -> ~ empty_rest s) ->
  (forall e f, handler c e -> may_be e f -> careless f -> parameters f <> []) -> reports c <> None.
Proof.
  intros c A B E. apply C88_panics in E as (e & f & H & M & [(l1 & s & l2 & S0 & ER & _)|(_ & C & P)]).
  - eapply A; eauto. rewrite S0. apply in_or_app. right. left. auto.
  - eapply B; eauto.
Qed.
Print Assumptions C88_no_panic.

(** C88 without a condition is false: p.catch((...e: []) => {}) *)
Theorem C88_no_panic_refuted : exists c, access c = true /\ property c = Some (b "catch") /\ thenable c = true /\
  arguments c = [Plain (Fun {| fid := 0; signatures := [[{| dots := true; stype := Tuple [] |}]]; parameters := [{| ddots := true; annotated := true; question := false; dname := Ident |}]; parenless := false |})]
  /\ reports c = None.
Proof. eexists {| access := true; property := Some (b "catch"); thenable := true; arguments := _ |}. repeat split; reflexivity. Qed.
Print Assumptions C88_no_panic_refuted.

(** C88: the reported parameter need not be that of the error: for p.catch(function (this: Window, e: Error) {}) the advice is to change the type of this: two parameters are written, the signature is without this. *)
Theorem C88_error_parameter_refuted : exists f : func,
  signatures f = [[{| dots := false; stype := OtherT |}]] /\ List.length (parameters f) = 2%nat /\
  reports {| access := true; property := Some (b "catch"); thenable := true; arguments := [Plain (Fun f)] |} = Some [(fid f, Wrong)] /\
  parameters f = [{| ddots := false; annotated := true; question := false; dname := Ident |}; {| ddots := false; annotated := true; question := false; dname := Ident |}].
Proof.
  exists {| fid := 0; signatures := [[{| dots := false; stype := OtherT |}]]; parenless := false;
            parameters := [{| ddots := false; annotated := true; question := false; dname := Ident |}; {| ddots := false; annotated := true; question := false; dname := Ident |}] |}.
  repeat split; reflexivity.
Qed.
Print Assumptions C88_error_parameter_refuted.

(** C88: a function whose signatures take the error as the annotations suggest is not reported. *)
Theorem C88_settled : forall f, (forall s p l, In s (signatures f) -> s = p :: l ->
    (dots p = false /\ stype p = Unknown) \/ (dots p = true /\ stype p = Tuple [Unknown])) ->
  forall c r e, reports c = Some r -> handler c e -> e = Fun f -> r = [].
Proof.
  intros f A c r e R H E. subst e. unfold reports in R. rewrite (handler_some _ _ H) in R. cbn in R.
  destruct (flaggable (signatures f)) as [[]|] eqn:F; [|injection R as <-; auto|discriminate].
  exfalso. apply flaggable_some in F. destruct (proj1 F eq_refl) as (s & I & B). destruct s as [|p l]; [destruct (bad_nil B)|].
  destruct (A _ _ _ I eq_refl) as [[D T]|[D T]].
  - apply (bad_plain p l D) in B. congruence.
  - apply (bad_tuple p l _ _ D T) in B. congruence.
Qed.
Print Assumptions C88_settled.

Ltac one := cbn [piece_fixes]; match goal with |- Permutation ?x ?y => replace x with y; [apply Permutation_refl|] end; same_fixes.

(** C88: the texts of the suggestions.  Without an annotation it comes after the name, or after the question mark; an arrow function without parentheses gets them. *)
Theorem C88_add : forall (sf : list (fix_ ascii) -> list (fix_ ascii)) (sm : list (msg ascii) -> list (msg ascii)) n s d (bare : bool),
  correct_sort cmp_fix sf -> correct_sort cmp_msg sm -> ddots d = false -> annotated d = false -> dname d = Ident -> name s <> [] ->
  (bare = true -> question d = false) ->
  apply_rule_fixes sf sm (if question d then question_text s else plain_text s) [mkMsg n (fixes d bare (if question d then question_places s else plain_places s))]
  = Ok ((if bare then before s ++ b "(" ++ name s ++ b ": unknown)" ++ after s
         else if question d then before s ++ name s ++ gap s ++ b "?" ++ b ": unknown" ++ after s
         else before s ++ name s ++ b ": unknown" ++ after s), [], true).
Proof.
  intros sf sm n [p m g co an q] d bare C CM D A N NE B. cbn [name] in NE. pose proof (zlen_pos m NE). pose proof (zlen_nonneg p). pose proof (zlen_nonneg g).
  unfold fixes, advice_for. rewrite D, N, A. destruct bare.
  - rewrite (B eq_refl). unfold plain_text, plain_places. cbn [before name gap colon annotation after name_pos name_end].
    apply pieces_text with (l := [Keep p; Swap [] (b "("); Keep m; Swap [] (b ": unknown)"); Keep q]); auto; try texts.
    + one.
    + discriminate.
    + no_repeats.
  - destruct (question d).
    + unfold question_text, question_places. cbn [before name gap colon annotation after name_pos name_end question_end].
      apply pieces_text with (l := [Keep (p ++ m ++ g ++ b "?"); Swap [] (b ": unknown"); Keep q]); auto; try texts.
      * one.
      * discriminate.
      * no_repeats.
    + unfold plain_text, plain_places. cbn [before name gap colon annotation after name_pos name_end].
      apply pieces_text with (l := [Keep (p ++ m); Swap [] (b ": unknown"); Keep q]); auto; try texts.
      * one.
      * discriminate.
      * no_repeats.
Qed.
Print Assumptions C88_add.

(** C88: an annotation is exchanged. *)
Theorem C88_wrong : forall (sf : list (fix_ ascii) -> list (fix_ ascii)) (sm : list (msg ascii) -> list (msg ascii)) n s d bare q,
  correct_sort cmp_fix sf -> correct_sort cmp_msg sm -> annotated d = true -> (ddots d = true \/ dname d = Ident) ->
  apply_rule_fixes sf sm (annotated_text s q) [mkMsg n (fixes d bare (annotated_places s q))]
  = Ok (before s ++ name s ++ (if q then gap s ++ b "?" else []) ++ colon s ++ (if ddots d then b "[unknown]" else b "unknown") ++ after s, [], true).
Proof.
  intros sf sm n [p m g co an r] d bare q C CM A DN. pose proof (zlen_nonneg p). pose proof (zlen_nonneg m). pose proof (zlen_nonneg co). pose proof (zlen_nonneg an).
  unfold fixes, advice_for. rewrite A.
  assert (E : (if ddots d then Wrong_rest else match dname d with Ident => Wrong | ArrayPat => Array_pattern | ObjectPat => Object_pattern end) = if ddots d then Wrong_rest else Wrong).
  { destruct (ddots d); auto. destruct DN as [DN|DN]; [discriminate|]. rewrite DN. auto. }
  rewrite E. unfold annotated_text, annotated_places. cbn [before name gap colon annotation after type_pos type_end].
  set (w := if q then g ++ b "?" else []). pose proof (zlen_nonneg w).
  destruct (ddots d).
  - apply pieces_text with (l := [Keep (p ++ m ++ w ++ co); Swap an (b "[unknown]"); Keep r]); auto; try texts.
    + one.
    + discriminate.
    + no_repeats.
  - apply pieces_text with (l := [Keep (p ++ m ++ w ++ co); Swap an (b "unknown"); Keep r]); auto; try texts.
    + one.
    + discriminate.
    + no_repeats.
Qed.
Print Assumptions C88_wrong.

(** C88: a rest parameter is annotated as a tuple. *)
Theorem C88_add_rest : forall (sf : list (fix_ ascii) -> list (fix_ ascii)) (sm : list (msg ascii) -> list (msg ascii)) n s d bare,
  correct_sort cmp_fix sf -> correct_sort cmp_msg sm -> ddots d = true -> annotated d = false ->
  apply_rule_fixes sf sm (plain_text s) [mkMsg n (fixes d bare (plain_places s))] = Ok (before s ++ name s ++ b ": [unknown]" ++ after s, [], true).
Proof.
  intros sf sm n [p m g co an q] d bare C CM D A. pose proof (zlen_nonneg p). pose proof (zlen_nonneg m).
  unfold fixes, advice_for. rewrite D, A. unfold plain_text, plain_places. cbn [before name gap colon annotation after name_pos name_end].
  apply pieces_text with (l := [Keep (p ++ m); Swap [] (b ": [unknown]"); Keep q]); auto; try texts.
  - one.
  - discriminate.
  - no_repeats.
Qed.
Print Assumptions C88_add_rest.

Definition ex_f (i : nat) (t : ty) : expr :=
  Fun {| fid := i; signatures := [[{| dots := false; stype := t |}]]; parameters := [{| ddots := false; annotated := false; question := false; dname := Ident |}]; parenless := true |}.
(** p.then(f, g || (c ? h : (x, k))) with h taking unknown *)
Example C88_run : reports {| access := true; property := Some (b "then"); thenable := true;
    arguments := [Plain (ex_f 0 OtherT); Plain (Logical (ex_f 1 OtherT) (Cond (ex_f 2 OtherT) (ex_f 3 Unknown) (Paren (Comma (ex_f 4 OtherT) (ex_f 5 OtherT)))))] |}
  = Some [(1%nat, Add); (5%nat, Add)].
Proof. reflexivity. Qed.
Example C88_spread : reports {| access := true; property := Some (b "then"); thenable := true; arguments := [Spread (Else 0); Plain (ex_f 1 OtherT)] |} = Some [].
Proof. reflexivity. Qed.
Example C88_sample :
  let s := {| before := b "p.catch("; name := b "e"; gap := []; colon := []; annotation := []; after := b " => {});" |} in
  let d := {| ddots := false; annotated := false; question := false; dname := Ident |} in
  apply_rule_fixes fsort msort (plain_text s) [mkMsg 0 (fixes d true (plain_places s))] = Ok (b "p.catch((e: unknown) => {});", [], true).
Proof. vm_compute. reflexivity. Qed.
