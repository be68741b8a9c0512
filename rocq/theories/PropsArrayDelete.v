(** Properties of no-array-delete (C85). *)
From Coq Require Import Bool Arith ZArith Ascii String List Lia Permutation.
From Verif Require Import Base Fixer FixerSpec FixerProofs FixPieces.
From Verif Require Import ArrayDelete ArrayDeleteSpec ArrayDeleteProofs.
Import ListNotations.
Open Scope Z_scope.

(** C85: what is reported deletes an element of an array, whatever value it has. *)
Theorem C85_sound : forall o, reported o = true -> exists t, element_of o t /\
  forall (value : Type) (is_array : value -> Prop) has v, holds is_array has t v -> is_array v.
Proof.
  intros o R. unfold reported in R. destruct (skip o) as [t| |] eqn:E; try discriminate. exists t. split; [apply skip_iff, E|].
  intros value ia has v H.
  assert (forall u, array_or_tuple u = true -> holds ia has u v -> ia v) as A.
  { intros u AT HU. destruct u as [a k| |]; try discriminate. cbn in AT. subst a. inversion HU. assumption. }
  destruct t as [a k|l|l]; cbn [underlying_array] in R.
  - exact (A _ R H).
  - rewrite forallb_forall in R. inversion H as [| |? u ? I HU|]; subst. exact (A u (R u I) HU).
  - apply existsb_exists in R as (u & I & AT). inversion H as [| | |? ? HA]; subst. exact (A u AT (HA u I)).
Qed.
Print Assumptions C85_sound.

(** C85: where no union or intersection is inside another, all such deletions are reported. *)
Theorem C85_complete : forall o t, element_of o t -> flat t ->
  (forall (value : Type) (is_array : value -> Prop) has v, holds is_array has t v -> is_array v) -> reported o = true.
Proof.
  intros o t E F H. apply skip_iff in E. unfold reported. rewrite E.
  destruct t as [a k|l|l]; cbn [underlying_array flat] in *.
  - destruct a; [reflexivity|]. exfalso. apply (H unit (fun _ => False) (fun _ _ => True) tt). constructor. exact I.
  - apply forallb_forall. intros u I. rewrite Forall_forall in F. destruct (F u I) as (a & k & ->). destruct a; [reflexivity|]. exfalso.
    apply (H unit (fun _ => False) (fun _ _ => True) tt). eapply h_union; [exact I|]. constructor. exact Logic.I.
  - destruct (existsb array_or_tuple l) eqn:X; [reflexivity|]. exfalso.
    apply (H unit (fun _ => False) (fun _ _ => True) tt). apply h_inter. intros u I. rewrite Forall_forall in F. destruct (F u I) as (a & k & ->). destruct a; [|constructor; exact Logic.I].
    assert (existsb array_or_tuple l = true) as Y by (apply existsb_exists; exists (Plain true k); auto). congruence.
Qed.
Print Assumptions C85_complete.

(** C85 does not hold of a union with an intersection in it: string[] | (string[] & { id: number }). *)
Theorem C85_nested_refuted : exists o t, element_of o t /\ (forall (value : Type) (is_array : value -> Prop) has v, holds is_array has t v -> is_array v) /\ reported o = false.
Proof.
  exists (Element (UnionT [Plain true 0; InterT [Plain true 0; Plain false 1]])), (UnionT [Plain true 0; InterT [Plain true 0; Plain false 1]]).
  split; [constructor|]. split; [|reflexivity]. intros value ia has v H. inversion H as [| |? u ? I HU|]; subst.
  destruct I as [<-|[<-|[]]].
  - inversion HU; assumption.
  - inversion HU as [| | |? ? HA]; subst. specialize (HA (Plain true 0) (or_introl eq_refl)). inversion HA; assumption.
Qed.
Print Assumptions C85_nested_refuted.

(** C85: of delete and the brackets a call of splice results; everything else stays, however the fixes are sorted. *)
Theorem C85_fix : forall (sf : list (fix_ ascii) -> list (fix_ ascii)) (sm : list (msg ascii) -> list (msg ascii)) n s,
  correct_sort cmp_fix sf -> correct_sort cmp_msg sm -> sound s -> question s = [] ->
  apply_rule_fixes sf sm (text (file s)) [mkMsg n (fixes (file s) (node_at s) (array_end s) (index_end s))] = Ok (wanted s, [], true).
Proof.
  intros sf sm n [p s0 s1 op ar s2 qu s3 ix s4 cl af] C CM (S0 & S1 & S2 & S3 & S4 & N) Q.
  unfold file, node_at, array_end, index_end, wanted in *. cbn [before space0 space1 opening array space2 question space3 index space4 closing after] in *. subst qu. cbn [app] in N |- *.
  unfold fixes.
  replace (token_at 0 (p ++ s0 ++ Tok (b "delete") :: s1 ++ op ++ ar ++ s2 ++ Tok (b "[") :: s3 ++ ix ++ s4 ++ Tok (b "]") :: cl ++ af) (zlen (text p))) with (zlen (text (p ++ s0)), zlen (text (p ++ s0)) + zlen (b "delete")).
  2:{ symmetry. apply token_found; auto. eapply tokens_front; exact N. }
  pose (A := p ++ s0 ++ Tok (b "delete") :: s1 ++ op ++ ar).
  assert (FA : p ++ s0 ++ Tok (b "delete") :: s1 ++ op ++ ar ++ s2 ++ Tok (b "[") :: s3 ++ ix ++ s4 ++ Tok (b "]") :: cl ++ af = A ++ s2 ++ Tok (b "[") :: s3 ++ ix ++ s4 ++ Tok (b "]") :: cl ++ af).
  { unfold A. rewrite <- !app_assoc. cbn [app]. rewrite <- !app_assoc. reflexivity. }
  pose (B := A ++ s2 ++ Tok (b "[") :: s3 ++ ix).
  assert (FB : p ++ s0 ++ Tok (b "delete") :: s1 ++ op ++ ar ++ s2 ++ Tok (b "[") :: s3 ++ ix ++ s4 ++ Tok (b "]") :: cl ++ af = B ++ s4 ++ Tok (b "]") :: cl ++ af).
  { rewrite FA. unfold B. rewrite <- !app_assoc. cbn [app]. rewrite <- !app_assoc. reflexivity. }
  replace (p ++ s0 ++ Tok (b "delete") :: s1 ++ op ++ ar ++ s2 ++ Tok (b "[") :: s3 ++ ix) with B.
  2:{ unfold B, A. rewrite <- !app_assoc. cbn [app]. rewrite <- !app_assoc. reflexivity. }
  fold A.
  assert (NA : tokens_not_empty A) by (rewrite FA in N; eapply tokens_front; exact N).
  assert (NB : tokens_not_empty B) by (rewrite FB in N; eapply tokens_front; exact N).
  rewrite FA at 2. rewrite (token_found A s2 (b "[") _ NA S2 _ eq_refl).
  rewrite FB at 2. rewrite (token_found B s4 (b "]") _ NB S4 _ eq_refl).
  assert (zlen (b "delete") = 6) by reflexivity. assert (zlen (b "[") = 1) by reflexivity. assert (zlen (b "]") = 1) by reflexivity.
  apply pieces_text with (l := [Keep (text (p ++ s0)); Swap (b "delete") []; Keep (text (s1 ++ op ++ ar ++ s2)); Swap (b "[") (b ".splice("); Keep (text (s3 ++ ix ++ s4)); Swap (b "]") (b ", 1)"); Keep (text (cl ++ af))]); auto.
  - unfold old_text. cbn [flat_map]. rewrite app_nil_r. unfold text. rewrite !flat_map_app. cbn [flat_map etext]. rewrite !flat_map_app. cbn [flat_map etext]. rewrite !flat_map_app. cbn [flat_map etext]. rewrite !flat_map_app. rewrite <- !app_assoc. reflexivity.
  - unfold new_text. cbn [flat_map]. rewrite app_nil_r. unfold text. rewrite !flat_map_app. rewrite <- !app_assoc. reflexivity.
  - match goal with |- Permutation ?x ?y => replace x with y; [apply Permutation_refl|] end. cbn [piece_fixes]. unfold B, A.
    repeat (apply f_equal2; [apply fix_eq; unfold text; rewrite ?flat_map_app; cbn [flat_map etext]; rewrite ?flat_map_app; cbn [flat_map etext]; rewrite ?flat_map_app, ?zlen_app; lia|]). reflexivity.
  - discriminate.
  - pose proof (zlen_nonneg (text (s1 ++ op ++ ar ++ s2))). pose proof (zlen_nonneg (text (s3 ++ ix ++ s4))). no_repeats.
Qed.
Print Assumptions C85_fix.

(** C85 does not hold of an optional access: the token behind the array is ?. there, and the bracket stays. *)
Theorem C85_optional_refuted : exists s, sound s /\ forall n,
  apply_rule_fixes fsort msort (text (file s)) [mkMsg n (fixes (file s) (node_at s) (array_end s) (index_end s))] = Ok (b " arr.splice([0, 1);", [], true).
Proof.
  exists {| before := []; space0 := []; space1 := [Space (b " ")]; opening := []; array := [Tok (b "arr")]; space2 := []; question := [Tok (b "?.")]; space3 := []; index := [Tok (b "0")]; space4 := []; closing := []; after := [Tok (b ";")] |}.
  split; [|intros n; vm_compute; reflexivity].
  unfold sound, spaces, tokens_not_empty, file. cbn [before space0 space1 opening array space2 question space3 index space4 closing after app].
  split; [intros e []|]. split; [intros e [<-|[]]; eauto|]. split; [intros e []|]. split; [intros e []|]. split; [intros e []|].
  intros t I. cbn [In] in I. repeat (destruct I as [E|I]; [try discriminate E; injection E as <-; discriminate|]). destruct I.
Qed.
Print Assumptions C85_optional_refuted.
(** Nor of an index with a comma: of delete arr[f(), 1] results arr.splice(f(), 1, 1), which removes one element from f() on and puts a 1 there. *)
Theorem C85_comma_refuted : exists s, sound s /\ question s = [] /\ index s = [Tok (b "f"); Tok (b "("); Tok (b ")"); Tok (b ","); Space (b " "); Tok (b "1")] /\ forall n,
  apply_rule_fixes fsort msort (text (file s)) [mkMsg n (fixes (file s) (node_at s) (array_end s) (index_end s))] = Ok (b " arr.splice(f(), 1, 1);", [], true).
Proof.
  exists {| before := []; space0 := []; space1 := [Space (b " ")]; opening := []; array := [Tok (b "arr")]; space2 := []; question := []; space3 := []; index := [Tok (b "f"); Tok (b "("); Tok (b ")"); Tok (b ","); Space (b " "); Tok (b "1")]; space4 := []; closing := []; after := [Tok (b ";")] |}.
  split; [|split; [reflexivity|split; [reflexivity|intros n; vm_compute; reflexivity]]].
  unfold sound, spaces, tokens_not_empty, file. cbn [before space0 space1 opening array space2 question space3 index space4 closing after app].
  split; [intros e []|]. split; [intros e [<-|[]]; eauto|]. split; [intros e []|]. split; [intros e []|]. split; [intros e []|].
  intros t I. cbn [In] in I. repeat (destruct I as [E|I]; [try discriminate E; injection E as <-; discriminate|]). destruct I.
Qed.
Print Assumptions C85_comma_refuted.

Example C85_examples :
  reported (Element (Plain true 0)) = true /\ reported (Parentheses (Parentheses (Element (UnionT [Plain true 0; Plain true 1])))) = true /\
  reported (Element (UnionT [Plain true 0; Plain false 1])) = false /\ reported (Element (InterT [Plain false 0; Plain true 1])) = true /\
  reported OtherOperand = false /\ reported (Element (Plain false 0)) = false.
Proof. repeat split; reflexivity. Qed.
(** if (x) delete (arr [/* i */ 0 ]); *)
Definition sample : source :=
  {| before := [Tok (b "if"); Space (b " "); Tok (b "("); Tok (b "x"); Tok (b ")")]; space0 := [Space (b " ")]; space1 := [Space (b " ")]; opening := [Tok (b "(")]; array := [Tok (b "arr")]; space2 := [Space (b " ")]; question := [];
     space3 := [Space (b "/* i */ ")]; index := [Tok (b "0")]; space4 := [Space (b " ")]; closing := [Tok (b ")")]; after := [Tok (b ";")] |}.
Example C85_sample : text (file sample) = b "if (x) delete (arr [/* i */ 0 ]);" /\ wanted sample = b "if (x)  (arr .splice(/* i */ 0 , 1));" /\
  apply_rule_fixes fsort msort (text (file sample)) [mkMsg 0 (fixes (file sample) (node_at sample) (array_end sample) (index_end sample))] = Ok (wanted sample, [], true).
Proof. repeat split; vm_compute; reflexivity. Qed.
