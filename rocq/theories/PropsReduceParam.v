(** Properties of prefer-reduce-type-parameter (C86). *)
From Coq Require Import Bool Arith ZArith Ascii String List Lia Permutation.
From Verif Require Import Base EngineProofs Fixer FixerSpec FixerProofs FixPieces.
From Verif Require Import ReduceParam ReduceParamSpec ReduceParamProofs.
Import ListNotations.
Open Scope Z_scope.

(** C86: a call is reported exactly if it is one of reduce, with a second argument that is an assertion its expression fits, on something all parts of which are arrays. *)
Theorem C86_reported : forall c,
  reported c = true <->
  access c = true /\ property c = Some (b "reduce") /\ assignable c = true /\
  (exists k0 k l, arguments c = k0 :: k :: l /\ (k = As \/ k = Angle)) /\ forall a, inside (object c) a -> a = true.
Proof.
  intros c. rewrite <- some_other_false. unfold reported.
  destruct (arguments c) as [|k0 [|k l]].
  1,2: split; [discriminate|intros (_ & _ & _ & (k1 & k2 & l' & E & _) & _); discriminate].
  assert (forall P : Prop, k <> Other -> (P <-> access c = true /\ property c = Some (b "reduce") /\ assignable c = true /\ (exists k1 k2 l', k0 :: k :: l = k1 :: k2 :: l' /\ (k2 = As \/ k2 = Angle)) /\ some_other (object c) = false) <-> (P <-> access c = true /\ property c = Some (b "reduce") /\ assignable c = true /\ some_other (object c) = false)) as X.
  { intros P K. assert (exists k1 k2 l', k0 :: k :: l = k1 :: k2 :: l' /\ (k2 = As \/ k2 = Angle)) as Y by (exists k0, k, l; split; [reflexivity|destruct k; auto; congruence]). tauto. }
  assert (forall (x : bool), ((if negb (access c) then false else match property c with None => false | Some n => if negb (beqb n (b "reduce")) then false else if negb (assignable c) then false else negb (some_other (object c)) end) = true) <-> access c = true /\ property c = Some (b "reduce") /\ assignable c = true /\ some_other (object c) = false) as Y.
  { intros _. destruct (access c); cbn [negb]; [|split; [discriminate|intros (E & _); discriminate]].
    destruct (property c) as [n|]; [|split; [discriminate|intros (_ & E & _); discriminate]].
    destruct (beqb n (b "reduce")) eqn:E; cbn [negb].
    - apply beqb_eq in E. subst n. destruct (assignable c); cbn [negb]; [|split; [discriminate|intros (_ & _ & E & _); discriminate]].
      destruct (some_other (object c)); cbn [negb]; split; try discriminate; auto. intros (_ & _ & _ & E). discriminate.
    - split; [discriminate|]. intros (_ & E' & _). injection E' as ->. rewrite beqb_refl in E. discriminate. }
  destruct k.
  - apply X; [discriminate|]. apply (Y true).
  - apply X; [discriminate|]. apply (Y true).
  - split; [discriminate|]. intros (_ & _ & _ & (k1 & k2 & l' & E & K) & _). injection E as <- <- <-. destruct K; discriminate.
Qed.
Print Assumptions C86_reported.

(** C86: so the method is that of an array, whatever the value of the object. *)
Theorem C86_array : forall c, reported c = true -> forall (value : Type) (is_array : value -> Prop) has v, holds is_array has (object c) v -> is_array v.
Proof.
  intros c R value ia has v H. apply C86_reported in R as (_ & _ & _ & _ & A). revert H A. generalize (object c) as t.
  induction t as [a k|l IH|l IH] using ty_full; intros H A.
  - rewrite (A a (i_plain a k)) in H. inversion H. assumption.
  - inversion H as [| |? t ? I HT|]; subst. rewrite Forall_forall in IH. apply (IH t I HT). intros a Ia. apply A. eapply i_union; eauto.
  - inversion H as [| | |? ? NE HA]; subst. destruct l as [|t l]; [congruence|]. rewrite Forall_forall in IH. apply (IH t (or_introl eq_refl) (HA t (or_introl eq_refl))). intros a Ia. apply A. eapply i_inter; [left; reflexivity|exact Ia].
Qed.
Print Assumptions C86_array.

(** C86 does not hold the other way: an array with further properties is an array, and not reported. *)
Theorem C86_intersection_refuted : exists c, (forall (value : Type) (is_array : value -> Prop) has v, holds is_array has (object c) v -> is_array v) /\
  access c = true /\ property c = Some (b "reduce") /\ assignable c = true /\ arguments c = [Other; As] /\ reported c = false.
Proof.
  exists {| access := true; property := Some (b "reduce"); arguments := [Other; As]; assignable := true; object := InterT [Plain true 0; Plain false 1] |}.
  split; [|repeat split; reflexivity]. intros value ia has v H. inversion H as [| | |? ? _ HA]; subst. specialize (HA _ (or_introl eq_refl)). inversion HA. assumption.
Qed.
Print Assumptions C86_intersection_refuted.

(** C86: of an assertion with as the expression is left, and the type is given to the call unless that has type arguments. *)
Theorem C86_as : forall (sf : list (fix_ ascii) -> list (fix_ ascii)) (sm : list (msg ascii) -> list (msg ascii)) n s ta,
  correct_sort cmp_fix sf -> correct_sort cmp_msg sm -> asserted s <> [] -> expression s <> [] ->
  apply_rule_fixes sf sm (as_text s) [mkMsg n (fixes (as_text s) As ta (as_places s))] = Ok (wanted s ta (space s), [], true).
Proof.
  intros sf sm n [c m sp e kw t q] ta C CM NT NE. cbn [asserted expression] in NT, NE.
  pose proof (zlen_pos t NT). pose proof (zlen_pos e NE). pose proof (zlen_nonneg c). pose proof (zlen_nonneg m). pose proof (zlen_nonneg sp). pose proof (zlen_nonneg kw).
  unfold as_text, as_places, wanted, fixes. cbn [callee middle space expression keyword asserted after callee_end argument_pos expression_pos expression_end type_pos type_end].
  replace (part _ (zlen (c ++ m ++ sp ++ e ++ kw)) (zlen (c ++ m ++ sp ++ e ++ kw ++ t))) with t.
  2:{ symmetry. replace (c ++ m ++ sp ++ e ++ kw ++ t ++ q) with ((c ++ m ++ sp ++ e ++ kw) ++ t ++ q) by (rewrite <- !app_assoc; reflexivity).
      replace (c ++ m ++ sp ++ e ++ kw ++ t) with ((c ++ m ++ sp ++ e ++ kw) ++ t) by (rewrite <- !app_assoc; reflexivity). apply part_middle. }
  destruct ta.
  - apply pieces_text with (l := [Keep (c ++ m ++ sp ++ e); Swap (kw ++ t) []; Keep q]); auto; try texts.
    + cbn [piece_fixes]. match goal with |- Permutation ?x ?y => replace x with y; [apply Permutation_refl|] end. same_fixes.
    + discriminate.
    + no_repeats.
  - apply pieces_text with (l := [Keep c; Swap [] (b "<" ++ t ++ b ">"); Keep (m ++ sp ++ e); Swap (kw ++ t) []; Keep q]); auto; try texts.
    + cbn [piece_fixes]. eapply Permutation_trans; [apply perm_swap|]. match goal with |- Permutation ?x ?y => replace x with y; [apply Permutation_refl|] end. same_fixes.
    + discriminate.
    + no_repeats.
Qed.
Print Assumptions C86_as.

(** C86: likewise of one in angle brackets; the space before it is gone, too. *)
Theorem C86_angle : forall (sf : list (fix_ ascii) -> list (fix_ ascii)) (sm : list (msg ascii) -> list (msg ascii)) n s ta,
  correct_sort cmp_fix sf -> correct_sort cmp_msg sm ->
  apply_rule_fixes sf sm (angle_text s) [mkMsg n (fixes (angle_text s) Angle ta (angle_places s))] = Ok (wanted s ta [], [], true).
Proof.
  intros sf sm n [c m sp e kw t q] ta C CM.
  pose proof (zlen_nonneg t). pose proof (zlen_nonneg c). pose proof (zlen_nonneg m). pose proof (zlen_nonneg sp). pose proof (zlen_nonneg kw).
  assert (zlen (b "<") = 1) by reflexivity. assert (zlen (b ">") = 1) by reflexivity.
  unfold angle_text, angle_places, wanted, fixes. cbn [callee middle space expression keyword asserted after callee_end argument_pos expression_pos expression_end type_pos type_end].
  replace (part _ (zlen (c ++ m ++ sp ++ b "<")) (zlen (c ++ m ++ sp ++ b "<" ++ t))) with t.
  2:{ symmetry. replace (c ++ m ++ sp ++ b "<" ++ t ++ kw ++ b ">" ++ e ++ q) with ((c ++ m ++ sp ++ b "<") ++ t ++ kw ++ b ">" ++ e ++ q) by (rewrite <- !app_assoc; reflexivity).
      replace (c ++ m ++ sp ++ b "<" ++ t) with ((c ++ m ++ sp ++ b "<") ++ t) by (rewrite <- !app_assoc; reflexivity). apply part_middle. }
  destruct ta.
  - apply pieces_text with (l := [Keep (c ++ m); Swap (sp ++ b "<" ++ t ++ kw ++ b ">") []; Keep (e ++ q)]); auto; try texts.
    + cbn [piece_fixes]. match goal with |- Permutation ?x ?y => replace x with y; [apply Permutation_refl|] end. same_fixes.
    + discriminate.
    + no_repeats.
  - apply pieces_text with (l := [Keep c; Swap [] (b "<" ++ t ++ b ">"); Keep m; Swap (sp ++ b "<" ++ t ++ kw ++ b ">") []; Keep (e ++ q)]); auto; try texts.
    + cbn [piece_fixes]. eapply Permutation_trans; [apply perm_swap|]. match goal with |- Permutation ?x ?y => replace x with y; [apply Permutation_refl|] end. same_fixes.
    + discriminate.
    + no_repeats.
Qed.
Print Assumptions C86_angle.

Example C86_examples :
  let c k t := {| access := true; property := Some (b "reduce"); arguments := Other :: k; assignable := true; object := t |} in
  reported (c [As] (Plain true 0)) = true /\ reported (c [Angle; Other] (UnionT [Plain true 0; Plain true 1])) = true /\
  reported (c [As] (UnionT [Plain true 0; Plain false 1])) = false /\ reported (c [Other] (Plain true 0)) = false /\ reported (c [] (Plain true 0)) = false /\
  reported {| access := true; property := Some (b "reduceRight"); arguments := [Other; As]; assignable := true; object := Plain true 0 |} = false /\
  reported {| access := true; property := Some (b "reduce"); arguments := [Other; As]; assignable := false; object := Plain true 0 |} = false.
Proof. repeat split; reflexivity. Qed.
(** [1, 2].reduce(f, [] as number[]) *)
Example C86_sample :
  let s := {| callee := b "[1, 2].reduce"; middle := b "(f,"; space := b " "; expression := b "[]"; keyword := b " as"; asserted := b " number[]"; after := b ");" |} in
  as_text s = b "[1, 2].reduce(f, [] as number[]);" /\ wanted s false (space s) = b "[1, 2].reduce< number[]>(f, []);" /\
  apply_rule_fixes fsort msort (as_text s) [mkMsg 0 (fixes (as_text s) As false (as_places s))] = Ok (wanted s false (space s), [], true).
Proof. repeat split; vm_compute; reflexivity. Qed.
