(** Properties C01-C04: the headless output pipeline. *)
From Coq Require Import String Bool List ZArith NArith Ascii Permutation.
From Verif Require Import Base Stream StreamSpec StreamProofs.
Import ListNotations.
Open Scope N_scope.

(** C01. On exit status 0 stdout is a stream of complete frames: the
    diagnostics, in an order compatible with the order in which each worker
    reported them, then one timing frame if and only if timings were requested.
    [run_err] is the result of the linter: exit status 0 implies success. *)
Theorem C01_success_output_is_frame_stream :
  forall (D : Type) (conv : D -> res (option bstr)) chan_cap run_err timing sts cs s,
  run conv chan_cap run_err timing cs (init sts) = Some s ->
  mph s = MExit 0 ->
  (forall ws w d p, In ws sts -> In w ws -> In d w -> conv d = Ok (Some p) -> fits p) ->
  (forall p, timing = Some (Some p) -> fits p) ->
  exists order,
    staged sts order /\
    Forall (fun d => conv d <> Panic) order /\
    run_err = None /\
    stream (out s)
      (flat_map (fun d => match conv d with Ok (Some p) => [(1, p)] | _ => [] end) order
       ++ match timing with Some (Some p) => [(2, p)] | _ => [] end).
Proof. exact @exit0_spec. Qed.
Print Assumptions C01_success_output_is_frame_stream.

(** C01, continued: bytes split into frames in at most one way. *)
Theorem C01_frames_unique :
  forall bytes f1 f2, stream bytes f1 -> stream bytes f2 -> f1 = f2.
Proof. exact (fun bytes f1 f2 H1 H2 => stream_unique bytes f1 H1 f2 H2). Qed.
Print Assumptions C01_frames_unique.

(** C01, limit: a payload of 4 GiB or more cannot be framed at all: whatever
    bytes the program writes, they do not decode to it. *)
Theorem C01_oversized_payload_refuted :
  exists p, forall bs ty, ~ stream bs [(ty, p)].
Proof.
  exists (repeat "x"%char (N.to_nat 4294967296)). intros bs ty.
  apply oversized_frame. rewrite repeat_length, N2Nat.id. apply N.le_refl.
Qed.
Print Assumptions C01_oversized_payload_refuted.

(** C03. When moreover every diagnostic serialises, the diagnostic frames are a
    permutation of everything reported: nothing lost, nothing duplicated. *)
Theorem C03_nothing_lost_or_duplicated :
  forall (D : Type) (conv : D -> res (option bstr)) (ser : D -> bstr) chan_cap run_err timing sts cs s frames,
  (forall ws w d, In ws sts -> In w ws -> In d w -> conv d = Ok (Some (ser d)) /\ fits (ser d)) ->
  (forall p, timing = Some (Some p) -> fits p) ->
  run conv chan_cap run_err timing cs (init sts) = Some s ->
  mph s = MExit 0 ->
  stream (out s) frames ->
  Permutation (filter (fun f => fst f =? 1) frames)
              (map (fun d => (1, ser d)) (concat (concat sts))).
Proof.
  intros D conv ser chan_cap run_err timing sts cs s frames Hser Ht Hrun Hex Hst.
  destruct (exit0_spec conv chan_cap run_err timing sts cs s Hrun Hex) as (order & Ho & _ & _ & Hs); auto.
  { intros ws w d p H1 H2 H3 H4. destruct (Hser ws w d H1 H2 H3) as [E F].
    rewrite E in H4. inversion H4; subst; auto. }
  rewrite (stream_unique _ _ Hst _ Hs). rewrite filter_app.
  assert (filter (fun f => fst f =? 1) (timing_frames timing) = []) as ->.
  { unfold timing_frames. destruct timing as [[p|]|]; reflexivity. }
  rewrite app_nil_r.
  assert (forall d, In d order -> conv d = Ok (Some (ser d))) as Hc.
  { intros d Hd. destruct (staged_in _ _ Ho _ Hd) as (ws & w & ? & ? & ?).
    eapply Hser; eauto. }
  assert (filter (fun f => fst f =? 1) (flat_map (diag_frames conv) order)
          = map (fun d => (1, ser d)) order) as ->.
  { clear - Hc. induction order as [|d l IH]; auto. cbn [flat_map map].
    rewrite filter_app, IH by (intros; apply Hc; right; auto).
    unfold diag_frames at 1. rewrite (Hc d) by (left; auto). reflexivity. }
  apply Permutation_map. apply staged_permutation. exact Ho.
Qed.
Print Assumptions C03_nothing_lost_or_duplicated.

(** C03, continued: a diagnostic that does not serialise leaves no trace. Two
    sets of diagnostics that differ only in unserialisable ones give, for the
    same arrival order, the same frames. *)
Theorem C03_unserialisable_leaves_no_trace :
  forall (D : Type) (conv : D -> res (option bstr)) l1 d l2,
  conv d = Ok None ->
  flat_map (diag_frames conv) (l1 ++ d :: l2) = flat_map (diag_frames conv) (l1 ++ l2) /\
  forall buf, writer_turn None buf = (if buf_cap - nlen buf <? flush_below then ([buf], []) else ([], buf))
              \/ buf = [].
Proof.
  intros D conv l1 d l2 H. split.
  - rewrite !flat_map_app. cbn. unfold diag_frames at 2. rewrite H. reflexivity.
  - intros [|c buf]; [right; reflexivity|left]. unfold writer_turn, write_message_buf, bufio_flush.
    destruct (buf_cap - nlen (c :: buf) <? flush_below); reflexivity.
Qed.
Print Assumptions C03_unserialisable_leaves_no_trace.

(** C04. No deadlock: every reachable unfinished state has an enabled step; and
    no execution is longer than a bound that depends only on the reports. *)
Theorem C04_no_deadlock :
  forall (D : Type) (conv : D -> res (option bstr)) chan_cap run_err timing sts cs s,
  (1 <= chan_cap)%nat ->
  run conv chan_cap run_err timing cs (init sts) = Some s ->
  alive s = true ->
  exists c s', step conv chan_cap run_err timing c s = Some s'.
Proof. exact @reachable_progress. Qed.
Print Assumptions C04_no_deadlock.

Theorem C04_bounded_executions :
  forall (D : Type) (sts : list (list (list D))),
  exists bound, forall (conv : D -> res (option bstr)) chan_cap run_err timing cs s,
  run conv chan_cap run_err timing cs (init sts) = Some s ->
  (List.length cs <= bound)%nat.
Proof.
  intros D sts. exists (weight (init sts)). intros conv chan_cap run_err timing cs s H.
  apply runs_bounded in H. rewrite H || (eapply PeanoNat.Nat.le_trans; [|exact H]; apply PeanoNat.Nat.le_add_r).
Qed.
Print Assumptions C04_bounded_executions.

(** C04, continued: hence every execution can be completed. *)
Theorem C04_every_execution_finishes :
  forall (D : Type) (conv : D -> res (option bstr)) chan_cap run_err timing sts cs s,
  (1 <= chan_cap)%nat ->
  run conv chan_cap run_err timing cs (init sts) = Some s ->
  exists cs' s', run conv chan_cap run_err timing (cs ++ cs') (init sts) = Some s' /\ alive s' = false.
Proof. exact @can_finish. Qed.
Print Assumptions C04_every_execution_finishes.

(** C02. The full claim: whenever a run ends with status 1 because linting
    failed, stdout is a sequence of complete frames ending with the error
    frame. It is false: the main goroutine writes the error frame without
    waiting for the writer, so the writer's last flush can fall between the
    header and the payload. *)
Theorem C02_error_frame_intact_refuted :
  exists (conv : bstr -> res (option bstr)) run_err sts cs s,
    run conv 4096 run_err None cs (init sts) = Some s /\
    mph s = MExit 1 /\
    forall frames, ~ stream (out s) frames.
Proof.
  exists (fun d => Ok (Some d)), (Some (Some (b "boom"))), [[[b "x"]]],
    [CSend 0; CStage; CRecv; CWrite; CClose; CMain; CEnd; CWrite; CMain; CMain].
  eexists. split; [vm_compute; reflexivity|]. split; [reflexivity|].
  intros frames H. pose proof (decode_complete _ _ H _ (le_n _)) as E.
  vm_compute in E. discriminate.
Qed.
Print Assumptions C02_error_frame_intact_refuted.

(** C02, second defect: the process may exit before the writer flushed, so that
    diagnostics already taken off the queue never appear. *)
Theorem C02_diagnostics_survive_error_refuted :
  exists (conv : bstr -> res (option bstr)) run_err sts cs s,
    run conv 4096 run_err None cs (init sts) = Some s /\
    mph s = MExit 1 /\ recvd s = [b "x"] /\
    stream (out s) [(0, b "boom")].
Proof.
  exists (fun d => Ok (Some d)), (Some (Some (b "boom"))), [[[b "x"]]],
    [CSend 0; CStage; CRecv; CWrite; CClose; CMain; CMain; CMain].
  eexists. split; [vm_compute; reflexivity|]. split; [reflexivity|]. split; [reflexivity|].
  exact (stream_cons "004" "000" "000" "000" "000" (b "boom") [] [] eq_refl stream_nil).
Qed.
Print Assumptions C02_diagnostics_survive_error_refuted.

(** C02, what does hold of every failing run: the exit status is 1, the error
    frame's header and payload are both on stdout in this order, and everything
    else on stdout is, in order, a prefix of the stream of the diagnostics that
    had been received. Missing for the full claim: the three insertion points
    need not be frame boundaries. *)
Theorem C02_error_frame_present_partial :
  forall (D : Type) (conv : D -> res (option bstr)) chan_cap run_err timing sts e cs s code,
  run_err = Some (Some e) ->
  run conv chan_cap run_err timing cs (init sts) = Some s ->
  mph s = MExit code ->
  code = 1%nat /\
  exists recd unsent before between after lost,
    staged sts (recd ++ unsent) /\
    out s = before ++ header 0 (nlen e) ++ between ++ e ++ after /\
    before ++ between ++ after ++ lost = flat_map (enc_diag conv) recd.
Proof.
  exact (fun D conv chan_cap run_err timing sts => @error_run_shape D conv chan_cap run_err timing sts).
Qed.
Print Assumptions C02_error_frame_present_partial.

(** C02, special case where the full claim holds: nothing was reported before
    the failure. *)
Theorem C02_error_only_partial :
  forall (D : Type) (conv : D -> res (option bstr)) chan_cap timing sts e cs s code,
  concat (concat sts) = [] -> fits e ->
  run conv chan_cap (Some (Some e)) timing cs (init sts) = Some s ->
  mph s = MExit code ->
  code = 1%nat /\ stream (out s) [(0, e)].
Proof.
  intros D conv chan_cap timing sts e cs s code Hn Hf H Hm.
  destruct (error_run_shape conv chan_cap (Some (Some e)) timing sts e cs s code eq_refl H Hm)
    as (-> & recd & unsent & a & b' & c & r & Hs & Ho & Hb).
  split; auto. apply staged_permutation in Hs. rewrite Hn in Hs.
  apply Permutation_sym, Permutation_nil in Hs. apply app_eq_nil in Hs. destruct Hs as [-> _].
  cbn in Hb. apply app_eq_nil in Hb. destruct Hb as [-> Hb].
  apply app_eq_nil in Hb. destruct Hb as [-> Hb]. apply app_eq_nil in Hb. destruct Hb as [-> _].
  rewrite Ho. cbn [app]. rewrite app_nil_r.
  rewrite <- (app_nil_r (header _ _ ++ e)). apply stream_header; auto. reflexivity. constructor.
Qed.
Print Assumptions C02_error_only_partial.

(** ** Concrete cases *)

Definition ex_conv (d : bstr) : res (option bstr) := Ok (Some d).
Definition ex_stages : list (list (list bstr)) := [[[b "a1"; b "a2"]; [b "b1"]]; [[b "c"]]].
Definition ex_schedule : list choice :=
  [CSend 1; CSend 0; CRecv; CWrite; CSend 0; CStage; CSend 0; CRecv; CWrite; CStage; CClose;
   CRecv; CWrite; CRecv; CWrite; CEnd; CWrite; CWrite; CWaited; CMain; CMain; CMain].

Example C01_example : exists s,
  run ex_conv 4096 None (Some (Some (b "t"))) ex_schedule (init ex_stages) = Some s /\
  mph s = MExit 0 /\
  out s = header 1 2 ++ b "b1" ++ header 1 2 ++ b "a1" ++ header 1 2 ++ b "a2"
          ++ header 1 1 ++ b "c" ++ header 2 1 ++ b "t".
Proof. eexists. split; [vm_compute; reflexivity|]. split; reflexivity. Qed.

Example C01_example_hypotheses :
  (forall ws w d p, In ws ex_stages -> In w ws -> In d w -> ex_conv d = Ok (Some p) -> fits p) /\
  exists order, staged ex_stages order /\ order = [b "b1"; b "a1"; b "a2"; b "c"].
Proof.
  split.
  - intros ws w d p H1 H2 H3 E. inversion E; subst. cbn in H1.
    repeat match goal with H : _ \/ _ |- _ => destruct H | H : False |- _ => destruct H end;
      subst; cbn in *; repeat match goal with H : _ \/ _ |- _ => destruct H | H : False |- _ => destruct H end;
      subst; cbn in *; repeat match goal with H : _ \/ _ |- _ => destruct H | H : False |- _ => destruct H end;
      subst; reflexivity.
  - eexists. split; [|reflexivity].
    apply (sg_cons _ _ [b "b1"; b "a1"; b "a2"] [b "c"]).
    + apply (il_cons [[b "a1"; b "a2"]] (b "b1") [] []). cbn.
      apply (il_cons [] (b "a1") [b "a2"] [[]]). apply (il_cons [] (b "a2") [] [[]]).
      constructor. repeat constructor.
    + apply (sg_cons _ _ [b "c"] []); [|constructor].
      apply (il_cons [] (b "c") [] []). constructor. repeat constructor.
Qed.

(** Buffer boundaries: a tiny buffer makes the splits visible; the chunks still
    concatenate to the same bytes. *)
Example bufio_example :
  bufio_write 4 (b "abc") (b "defghij") = ([b "abcd"; b "efghij"], []) /\
  bufio_write 4 (b "abc") (b "def") = ([b "abcd"], b "ef").
Proof. split; reflexivity. Qed.

Example C02_partial_example : exists s,
  run ex_conv 4096 (Some (Some (b "boom"))) None [CStage; CClose; CMain; CEnd; CMain; CMain] (init [[[]]]) = Some s /\
  mph s = MExit 1 /\ out s = header 0 4 ++ b "boom".
Proof. eexists. split; [vm_compute; reflexivity|]. split; reflexivity. Qed.

(** A full queue: with capacity 1 the second send is not enabled, but the
    writer can receive. *)
Example C04_example : exists s,
  run ex_conv 1 None None [CSend 0] (init [[[b "x"; b "y"]]]) = Some s /\
  step ex_conv 1 None None (CSend 0) s = None /\
  step ex_conv 1 None None CRecv s <> None.
Proof. eexists. split; [vm_compute; reflexivity|]. split; [reflexivity|discriminate]. Qed.
