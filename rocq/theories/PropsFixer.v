(** Properties C18, C19, C20: applying fixes. *)
From Coq Require Import Bool List ZArith Permutation Sorted Lia String.
From Verif Require Import Base Fixer FixerSpec FixerProofs FixerDisjoint.
Import ListNotations.
Open Scope Z_scope.

(** C18. A successful run outputs exactly the edit script of the accepted
    messages; the accepted edits are in order, in range and disjoint. *)
Theorem C18_output_is_edit_script :
  forall (byte : Type) sf sm (code : list byte) ds out un fixed,
  correct_sort cmp_fix sf -> correct_sort cmp_msg sm ->
  Forall (fun d => Forall well_formed_range (mfixes d)) ds ->
  apply_rule_fixes sf sm code ds = Ok (out, un, fixed) ->
  exists applied,
    rewrites 0 code (flat_map mfixes applied) out /\
    disjoint_from 0 (zlen code) (flat_map mfixes applied) /\
    (exists ds', Forall2 same_msg ds ds' /\ Permutation ds' (applied ++ un)) /\
    Forall (fun d => mfixes d <> []) applied /\
    (fixed = true <-> applied <> []).
Proof. intros; eapply apply_ok_spec; eauto using correct_fix_sort, correct_msg_sort. Qed.
Print Assumptions C18_output_is_edit_script.

(** C18, continued: the edit script determines the output. *)
Theorem C18_edit_script_functional :
  forall (byte : Type) p (rest : list byte) es out,
  rewrites p rest es out -> forall out', rewrites p rest es out' -> out = out'.
Proof. exact @rewrites_fun. Qed.
Print Assumptions C18_edit_script_functional.

(** C18, continued: every edit can be undone; each removes exactly the text of
    its range. *)
Theorem C18_edit_script_undo :
  forall (byte : Type) p (rest : list byte) es out,
  rewrites p rest es out ->
  exists dels, Forall2 (fun e del => zlen del = fend e - fpos e) es dels /\
    undoes out (combine (map ftext es) dels) rest.
Proof. exact @rewrites_undo. Qed.
Print Assumptions C18_edit_script_undo.

(** C19. Every message is either applied or returned; a message with edits is
    returned only because of a clash with an applied message that is not after
    it in the processing order. *)
Theorem C19_every_message_accounted :
  forall (byte : Type) sf sm (code : list byte) ds out un fixed,
  correct_sort cmp_fix sf -> correct_sort cmp_msg sm ->
  Forall (fun d => Forall (fun f => 0 <= fpos f) (mfixes d)) ds ->
  apply_rule_fixes sf sm code ds = Ok (out, un, fixed) ->
  exists applied,
    (exists ds', Forall2 same_msg ds ds' /\ Permutation ds' (applied ++ un)) /\
    (fixed = true <-> applied <> []) /\
    (forall d, In d un -> mfixes d = [] \/
       exists a, In a applied /\ clash a d /\ key_le (msg_key a) (msg_key d)) /\
    Forall (fun d => mfixes d <> []) applied.
Proof. intros; eapply apply_ok_reason; eauto using correct_fix_sort, correct_msg_sort. Qed.
Print Assumptions C19_every_message_accounted.

(** C19, continued: a pass makes progress exactly when something is fixable,
    and otherwise is the identity. *)
Theorem C19_progress :
  forall (byte : Type) sf sm (code : list byte) ds out un fixed,
  correct_sort cmp_fix sf -> correct_sort cmp_msg sm ->
  Forall (fun d => Forall (fun f => 0 <= fpos f) (mfixes d)) ds ->
  apply_rule_fixes sf sm code ds = Ok (out, un, fixed) ->
  (fixed = true <-> exists d, In d ds /\ mfixes d <> []) /\
  (fixed = true -> (List.length un < List.length ds)%nat) /\
  (fixed = false -> out = code /\ Permutation un ds).
Proof. intros; eapply apply_progress; eauto using correct_fix_sort, correct_msg_sort. Qed.
Print Assumptions C19_progress.

(** C20. Totality when the edits of each message are in range and do not
    overlap each other. *)
Theorem C20_no_panic_partial :
  forall (byte : Type) sf sm (code : list byte) ds,
  correct_sort cmp_fix sf -> correct_sort cmp_msg sm ->
  Forall (fun d => ForallOrdPairs no_overlap (mfixes d) /\
    Forall (in_range (zlen code)) (mfixes d)) ds ->
  exists r, apply_rule_fixes sf sm code ds = Ok r.
Proof. intros; eapply apply_total; eauto using correct_fix_sort, correct_msg_sort. Qed.
Print Assumptions C20_no_panic_partial.

(** C20. Determinism despite the unstable sorts when there are no ties. *)
Theorem C20_deterministic_partial :
  forall (byte : Type) sf1 sf2 sm1 sm2 (code : list byte) ds,
  correct_sort cmp_fix sf1 -> correct_sort cmp_fix sf2 ->
  correct_sort cmp_msg sm1 -> correct_sort cmp_msg sm2 ->
  no_ties ds ->
  apply_rule_fixes sf1 sm1 code ds = apply_rule_fixes sf2 sm2 code ds.
Proof. intros; apply apply_deterministic_no_ties; auto using correct_fix_sort, correct_msg_sort. Qed.
Print Assumptions C20_deterministic_partial.

(** C20, the full "in-range edits never crash" is false: two overlapping edits
    of one message make the slice expression panic. *)
Theorem C20_no_panic_refuted :
  exists (code : bstr) ds,
    Forall (fun d => Forall (in_range (zlen code)) (mfixes d)) ds /\
    forall sf sm, correct_sort cmp_fix sf -> correct_sort cmp_msg sm ->
      apply_rule_fixes sf sm code ds = Panic.
Proof.
  exists (b "abcd"), [mkMsg 0 [mkFix (b "x") 0 2; mkFix (b "y") 1 3]].
  split.
  - repeat constructor; cbn; unfold in_range, zlen; cbn; try lia.
  - intros sf sm Hf Hm.
    rewrite (apply_deterministic_no_ties sf fsort sm msort); auto using fsort_ok, msort_ok, correct_fix_sort, correct_msg_sort.
    split; repeat constructor; cbn; intuition discriminate.
Qed.
Print Assumptions C20_no_panic_refuted.

(** C20, determinism for all inputs is false: with a tie, two correct sorts
    give different texts. *)
Theorem C20_deterministic_refuted :
  exists (code : bstr) ds r1 r2,
    correct_sort cmp_fix (@fsort Ascii.ascii) /\
    correct_sort cmp_msg (@msort Ascii.ascii) /\ correct_sort cmp_msg (@msort_r Ascii.ascii) /\
    apply_rule_fixes fsort msort code ds = Ok r1 /\
    apply_rule_fixes fsort msort_r code ds = Ok r2 /\ r1 <> r2.
Proof.
  exists (b "ab"), [mkMsg 0 [mkFix (b "x") 1 1]; mkMsg 1 [mkFix (b "y") 1 1]].
  do 2 eexists.
  split; [apply fix_sort_correct, fsort_ok|].
  split; [apply msg_sort_correct, msort_ok|]. split; [apply msg_sort_correct, msort_r_ok|].
  split; [reflexivity|]. split; [reflexivity|]. discriminate.
Qed.
Print Assumptions C20_deterministic_refuted.

(** A concrete case with two applied messages, one clash and one message
    without edits, meeting the hypotheses of all theorems above. *)
Definition ex_code : bstr := b "let a = foo as any".
Definition ex_msgs : list (msg Ascii.ascii) :=
  [ mkMsg 0 [mkFix (b "") 11 18]
  ; mkMsg 1 []
  ; mkMsg 2 [mkFix (b "bar") 8 11; mkFix (b "const") 0 3]
  ; mkMsg 3 [mkFix (b "x") 9 12] ].

Example ex_apply :
  apply_rule_fixes fsort msort ex_code ex_msgs =
  Ok (b "const a = bar",
      [mkMsg 1 []; mkMsg 3 [mkFix (b "x") 9 12]], true).
Proof. reflexivity. Qed.

Example ex_hyps :
  correct_sort cmp_fix (@fsort Ascii.ascii) /\ correct_sort cmp_msg (@msort Ascii.ascii) /\
  Forall (fun d => ForallOrdPairs no_overlap (mfixes d) /\
    Forall (in_range (zlen ex_code)) (mfixes d)) ex_msgs /\ no_ties ex_msgs.
Proof.
  split; [apply fix_sort_correct, fsort_ok|]. split; [apply msg_sort_correct, msort_ok|]. split.
  - unfold ex_msgs.
    repeat match goal with
    | |- Forall _ _ => constructor
    | |- ForallOrdPairs _ _ => constructor
    | |- _ /\ _ => split
    end; unfold in_range, no_overlap, zlen; cbn; try lia.
  - split.
    + unfold ex_msgs. repeat constructor; cbn; intuition discriminate.
    + assert (S0 : forall k, is_span (mkMsg 0 [mkFix (b "") 11 18]) k -> k = (11, 18)).
      { intros k (f & g & Hf & Hg & _ & _ & E). cbn in *.
        destruct Hf as [<-|[]], Hg as [<-|[]]. exact E. }
      assert (S1 : forall k, is_span (mkMsg 1 (@nil (fix_ Ascii.ascii))) k -> False).
      { intros k (f & g & [] & _). }
      assert (S3 : forall k, is_span (mkMsg 3 [mkFix (b "x") 9 12]) k -> k = (9, 12)).
      { intros k (f & g & Hf & Hg & _ & _ & E). cbn in *.
        destruct Hf as [<-|[]], Hg as [<-|[]]. exact E. }
      assert (S2 : forall k, is_span (mkMsg 2 [mkFix (b "bar") 8 11; mkFix (b "const") 0 3]) k ->
                fst k = 0).
      { intros k (f & g & Hf & Hg & L & _ & ->).
        specialize (L _ (or_intror (or_introl eq_refl))).
        destruct Hf as [<-|[<-|[]]]; cbn in *; unfold key_le, fix_key in L; cbn in L; lia. }
      unfold ex_msgs.
      repeat match goal with
      | |- Forall _ _ => constructor
      | |- ForallOrdPairs _ _ => constructor
      end; intros k H1 H2;
      repeat match goal with
      | H : is_span (mkMsg 0 _) _ |- _ => apply S0 in H
      | H : is_span (mkMsg 1 _) _ |- _ => apply S1 in H; exact H
      | H : is_span (mkMsg 2 _) _ |- _ => apply S2 in H
      | H : is_span (mkMsg 3 _) _ |- _ => apply S3 in H
      end; subst; try discriminate.
Qed.

(** C19, continued: reports whose edits stay clear of each other are all applied in one pass,
    whatever order they and their edits are given in, and the output is their joint edit script. *)
Theorem C19_disjoint_reports_all_applied :
  forall (byte : Type) sf sm (code : list byte) given ordered out,
  correct_sort cmp_fix sf -> correct_sort cmp_msg sm ->
  Forall2 (fun d c => Permutation (mfixes d) c) given ordered -> Forall (fun c => c <> []) ordered ->
  ascending 0 (List.concat ordered) -> Forall (fun f => fend f <= zlen code) (List.concat ordered) ->
  rewrites 0 code (List.concat ordered) out ->
  forall given', Permutation given given' ->
  exists fixed, apply_rule_fixes sf sm code given' = Ok (out, [], fixed).
Proof. intros. eapply disjoint_all_applied; eauto using correct_fix_sort, correct_msg_sort. Qed.
Print Assumptions C19_disjoint_reports_all_applied.

(** Two reports with two edits each, given last first; the first ends where the second starts. *)
Example C19_ex_disjoint :
  let one := [mkFix (b "const") 0 3; mkFix (b "bb") 4 5] in
  let two := [mkFix (b ":") 5 6; mkFix (b "!") 11 18] in
  ascending 0 (List.concat [one; two]) /\
  apply_rule_fixes fsort msort ex_code [mkMsg 2 (rev two); mkMsg 1 (rev one)] = Ok (b "const bb:= foo!", [], true).
Proof. split; [cbn; lia|reflexivity]. Qed.
