(** Proofs about the headless output pipeline. *)
From Coq Require Import Bool List ZArith NArith Ascii Permutation Lia.
From Verif Require Import Base Stream StreamSpec.
Import ListNotations.
Open Scope N_scope.

(** ** Frames *)

Lemma N_ascii_lo : forall n, N_of_ascii (ascii_of_N (n mod 256)) = n mod 256.
Proof.
  intro n. apply N_ascii_embedding. apply N.mod_lt. discriminate.
Qed.

Lemma le32_value : forall n, n < 4294967296 ->
  n mod 256 + 256 * (n / 256 mod 256 + 256 * (n / 65536 mod 256 + 256 * (n / 16777216 mod 256))) = n.
Proof.
  intros n H.
  assert (n / 65536 = n / 256 / 256) as E1 by (rewrite N.div_div by lia; reflexivity).
  assert (n / 16777216 = n / 256 / 256 / 256) as E2 by (rewrite !N.div_div by lia; reflexivity).
  rewrite E1, E2.
  assert (n / 256 / 256 / 256 < 256) as L.
  { rewrite <- E2. apply N.div_lt_upper_bound; lia. }
  rewrite (N.mod_small (n / 256 / 256 / 256)) by exact L.
  pose proof (N.div_mod n 256). pose proof (N.div_mod (n / 256) 256).
  pose proof (N.div_mod (n / 256 / 256) 256). lia.
Qed.

Lemma stream_header : forall ty p rest frames,
  ty < 256 -> fits p -> stream rest frames ->
  stream ((header ty (nlen p) ++ p) ++ rest) ((ty, p) :: frames).
Proof.
  intros ty p rest frames Ht Hp Hs. unfold header, fits, nlen in *.
  rewrite (N.mod_small _ 4294967296) by exact Hp.
  cbn [app].
  pose proof (stream_cons
    (ascii_of_N (N.of_nat (length p) mod 256))
    (ascii_of_N (N.of_nat (length p) / 256 mod 256))
    (ascii_of_N (N.of_nat (length p) / 65536 mod 256))
    (ascii_of_N (N.of_nat (length p) / 16777216 mod 256))
    (ascii_of_N (ty mod 256)) p rest frames) as C.
  rewrite !N_ascii_lo in C. rewrite (N.mod_small ty) in * by exact Ht.
  apply C; auto. apply le32_value. exact Hp.
Qed.

Lemma stream_app : forall b1 f1 b2 f2,
  stream b1 f1 -> stream b2 f2 -> stream (b1 ++ b2) (f1 ++ f2).
Proof.
  intros b1 f1 b2 f2 H1 H2. induction H1; auto.
  cbn [app]. rewrite <- app_assoc. constructor; auto.
Qed.

Lemma app_inj_len : forall (A : Type) (a c x y : list A),
  a ++ x = c ++ y -> length a = length c -> a = c /\ x = y.
Proof.
  induction a as [|h a IH]; destruct c; simpl; intros x y H L; try discriminate; auto.
  inversion H; subst. apply IH in H2; [|lia]. destruct H2; subst; auto.
Qed.

Lemma stream_unique : forall bs f1, stream bs f1 -> forall f2, stream bs f2 -> f1 = f2.
Proof.
  induction 1; intros f2 H2; inversion H2; subst; auto.
  match goal with E : payload0 ++ _ = payload ++ _ |- _ => apply app_inj_len in E end; [|lia].
  intuition subst. f_equal. auto.
Qed.

(** ** bufio *)

Lemma take_drop : forall n l, take n l ++ drop n l = l.
Proof. intros. apply firstn_skipn. Qed.

Lemma bufio_write_bytes : forall cap buf p cs buf',
  bufio_write cap buf p = (cs, buf') -> concat cs ++ buf' = buf ++ p.
Proof.
  intros cap buf p cs buf' H. unfold bufio_write in H.
  destruct (nlen p <=? cap - nlen buf).
  { inversion H; subst. reflexivity. }
  destruct buf as [|c0 bf].
  { inversion H; subst. cbn. rewrite !app_nil_r. reflexivity. }
  set (room := cap - nlen (c0 :: bf)) in *.
  destruct (nlen (drop room p) <=? cap); inversion H; subst; cbn [concat];
    rewrite ?app_nil_r; cbn [app]; rewrite <- ?app_assoc; rewrite take_drop; reflexivity.
Qed.

Lemma bufio_write_chunks : forall cap buf p cs buf',
  bufio_write cap buf p = (cs, buf') -> (length cs <= 2)%nat.
Proof.
  intros cap buf p cs buf' H. unfold bufio_write in H.
  destruct (nlen p <=? cap - nlen buf); [inversion H; simpl; lia|].
  destruct buf; [inversion H; simpl; lia|].
  match type of H with (if ?c then _ else _) = _ => destruct c end; inversion H; simpl; lia.
Qed.

Lemma bufio_flush_bytes : forall buf cs buf',
  bufio_flush buf = (cs, buf') -> concat cs ++ buf' = buf /\ buf' = [] /\ (length cs <= 1)%nat.
Proof.
  intros [|c buf] cs buf' H; inversion H; subst; cbn; rewrite ?app_nil_r; auto.
Qed.

(** Bytes of one serialised message. *)
Definition enc_payload (ty : N) (p : option bstr) : bstr :=
  match p with Some q => header ty (nlen q) ++ q | None => [] end.

Lemma writer_turn_bytes : forall p buf cs buf',
  writer_turn p buf = (cs, buf') ->
  concat cs ++ buf' = buf ++ enc_payload mt_diagnostic p /\ (length cs <= 5)%nat.
Proof.
  intros p buf cs buf' H. unfold writer_turn, write_message_buf in H.
  destruct p as [q|].
  - destruct (bufio_write buf_cap buf (header mt_diagnostic (nlen q))) as [c1 b1] eqn:E1.
    destruct (bufio_write buf_cap b1 q) as [c2 b2] eqn:E2.
    pose proof (bufio_write_chunks _ _ _ _ _ E1). pose proof (bufio_write_chunks _ _ _ _ _ E2).
    apply bufio_write_bytes in E1, E2. cbn [enc_payload].
    assert (concat (c1 ++ c2) ++ b2 = buf ++ header mt_diagnostic (nlen q) ++ q) as E.
    { rewrite concat_app, <- app_assoc, E2, app_assoc, E1, <- app_assoc. reflexivity. }
    destruct (buf_cap - nlen b2 <? flush_below).
    + destruct (bufio_flush b2) as [fs b3] eqn:E3. inversion H; subst cs buf'.
      destruct (bufio_flush_bytes _ _ _ E3) as (F1 & F2 & F3).
      rewrite concat_app, <- app_assoc, F1, E. split; [reflexivity|]. rewrite !app_length. lia.
    + inversion H; subst. split; [exact E|]. rewrite app_length. lia.
  - cbn [enc_payload]. rewrite app_nil_r.
    destruct (buf_cap - nlen buf <? flush_below).
    + destruct (bufio_flush buf) as [fs b3] eqn:E3. inversion H; subst.
      destruct (bufio_flush_bytes _ _ _ E3) as (F1 & F2 & F3). cbn. split; [exact F1|]. lia.
    + inversion H; subst. cbn. split; [reflexivity|]. lia.
Qed.

(** ** Invariant of the pipeline *)

Section Inv.
Context {D : Type}.
Variable conv : D -> res (option bstr).
Variable chan_cap : nat.
Variable run_err : option (option bstr).
Variable timing : option (option bstr).
Notation st := (st D).
Notation step := (step conv chan_cap run_err timing).
Notation run := (run conv chan_cap run_err timing).

Definition enc_diag (d : D) : bstr :=
  match conv d with Ok p => enc_payload mt_diagnostic p | Panic => [] end.
Definition diag_frames (d : D) : list (N * bstr) :=
  match conv d with Ok (Some p) => [(mt_diagnostic, p)] | _ => [] end.

Definition wpending (w : wphase) : bstr :=
  match w with WOut cs | WLast cs => concat cs | _ => [] end.

Definition timing_bytes : bstr :=
  match timing with Some p => enc_payload mt_timing p | None => [] end.

Definition wclosed (w : wphase) : bool :=
  match w with WLast _ | WDone => true | _ => false end.

Variable sts : list (list (list D)).

Record Inv (s : st) : Prop := mkInv {
  inv_order : mph s <> MCrash ->
     forall rest, staged (stages s) rest -> staged sts (recvd s ++ chan s ++ rest);
  inv_closed : closed s = true -> stages s = [];
  inv_run : mph s <> MCrash -> (mph s = MRun <-> closed s = false);
  inv_wlast : wclosed (wph s) = true -> closed s = true /\ chan s = [] /\ buf s = [];
  inv_conv : mph s <> MCrash -> Forall (fun d => conv d <> Panic) (recvd s);
  inv_out : (mph s = MRun \/ mph s = MWait) ->
     out s ++ wpending (wph s) ++ buf s = flat_map enc_diag (recvd s);
  inv_wait : mph s = MWait -> run_err = None;
  inv_main : forall cs, mph s = MOut cs 0 ->
     run_err = None /\ timing <> Some None /\ wph s = WDone /\
     out s ++ concat cs = flat_map enc_diag (recvd s) ++ timing_bytes;
  inv_exit : mph s = MExit 0 ->
     run_err = None /\ timing <> Some None /\ wph s = WDone /\
     out s = flat_map enc_diag (recvd s) ++ timing_bytes
}.

Lemma flat_map_snoc : forall (f : D -> bstr) l x, flat_map f (l ++ [x]) = flat_map f l ++ f x.
Proof. intros. rewrite flat_map_app. cbn. rewrite app_nil_r. reflexivity. Qed.

Lemma take_report_interleave : forall i (ws : list (list D)) d ws' l,
  take_report i ws = Some (d, ws') -> interleave ws' l -> interleave ws (d :: l).
Proof.
  intros i ws d ws' l H HI.
  assert (exists ws1 w ws2, ws = ws1 ++ (d :: w) :: ws2 /\ ws' = ws1 ++ w :: ws2) as (w1 & w & w2 & -> & ->).
  { clear HI. revert i ws' H. induction ws as [|w ws IH]; intros i ws' H; [destruct i; discriminate H|].
    destruct i as [|i].
    - destruct w; cbn in H; inversion H; subst. exists [], w, ws. auto.
    - assert (exists ws'', take_report i ws = Some (d, ws'') /\ ws' = w :: ws'') as (ws'' & E & ->).
      { destruct w; cbn in H; (destruct (take_report i ws) as [[? ?]|]; [|discriminate H]);
          inversion H; subst; eauto. }
      destruct (IH _ _ E) as (w1 & w2 & w3 & -> & ->).
      exists (w :: w1), w2, w3. auto. }
  constructor. exact HI.
Qed.

Lemma all_done_interleave : forall (ws : list (list D)),
  all_done ws = true -> interleave ws [].
Proof.
  intros ws H. constructor. unfold all_done in H. rewrite forallb_forall in H.
  apply Forall_forall. intros x Hx. apply H in Hx. destruct x; auto; discriminate.
Qed.

Lemma inv_init : Inv (init sts).
Proof.
  constructor; cbn; try congruence; auto; try tauto; try discriminate; intros; discriminate.
Qed.

Ltac dmatch H :=
  match type of H with context [match ?x with _ => _ end] => destruct x eqn:?; try discriminate H end.

Lemma inv_step : forall c s s', Inv s -> step c s = Some s' -> Inv s'.
Proof.
  intros c s s' I H. destruct I as [I1 I2 I3 I4 I5 I6 I7 I8 I9].
  destruct s as [sg ch cl wp bf mp ou rc]. unfold Stream.step in H. cbn [stages chan closed wph buf mph out recvd] in *.
  destruct (negb (alive (mkSt sg ch cl wp bf mp ou rc))) eqn:Eal; [discriminate|].
  assert (mp <> MCrash) as Hnc by (intro; subst; discriminate).
  destruct c.
  - (* send *)
    destruct mp; try discriminate. destruct sg as [|ws rest]; [discriminate|].
    destruct (length ch <? chan_cap)%nat; [|discriminate].
    destruct (take_report i ws) as [[d ws']|] eqn:Et; [|discriminate].
    inversion H; subst; clear H. constructor; cbn; auto; try discriminate.
    + intros _ r Hr. inversion Hr; subst.
      specialize (I1 Hnc (d :: l1 ++ l2)). rewrite <- !app_assoc. cbn [app]. apply I1.
      change (d :: l1 ++ l2) with ((d :: l1) ++ l2).
      constructor; auto. eapply take_report_interleave; eauto.
    + intro E. apply I2 in E. discriminate.
    + intro E. apply I4 in E. destruct E as (E1 & _). apply I2 in E1. discriminate.
  - (* stage *)
    destruct mp; try discriminate. destruct sg as [|ws rest]; [discriminate|].
    destruct (all_done ws) eqn:Ed; [|discriminate].
    inversion H; subst; clear H. constructor; cbn; auto; try discriminate.
    + intros _ r Hr. apply I1; auto. change r with ([] ++ r).
      constructor; auto. apply all_done_interleave; auto.
    + intro E. apply I2 in E. discriminate.
  - (* close *)
    destruct mp; try discriminate. destruct sg; [|discriminate].
    inversion H; subst; clear H.
    destruct run_err as [p|] eqn:Er; constructor; cbn;
      try solve [ auto | tauto | intros; discriminate | split; intros; discriminate
                | intros _; split; intros; discriminate
                | intros [E|E]; discriminate
                | let E := fresh in intro E; apply I4 in E; tauto
                | intros; apply I1; auto; discriminate
                | intros; apply I5; discriminate ].
  - (* recv *)
    destruct wp; try discriminate. destruct ch as [|d ds]; [discriminate|].
    destruct (conv d) as [payload|] eqn:Ec.
    + destruct (writer_turn payload bf) as [cs bf'] eqn:Ew.
      inversion H; subst; clear H.
      destruct (writer_turn_bytes _ _ _ _ Ew) as [Eb _].
      constructor; cbn; auto; try discriminate.
      * intros _ r Hr. rewrite <- app_assoc. cbn [app]. apply I1; auto.
      * intros _. apply Forall_app. split; auto. constructor; auto. rewrite Ec; discriminate.
      * intros Hm. rewrite Eb. rewrite flat_map_snoc, <- I6 by auto. cbn [wpending app].
        unfold enc_diag. rewrite Ec, app_assoc. reflexivity.
      * intros cs0 E. apply I8 in E. destruct E as (_ & _ & E & _). discriminate.
      * intros E. apply I9 in E. destruct E as (_ & _ & E & _). discriminate.
    + inversion H; subst; clear H. constructor; cbn;
        try solve [ auto | intros; discriminate | intros [E|E]; discriminate
                  | let X := fresh in intro X; exfalso; apply X; reflexivity ].
  - (* write *)
    destruct wp as [|[|c cs]|[|c cs]|]; try discriminate; inversion H; subst; clear H;
      constructor; cbn [mph stages recvd chan closed wph buf out wclosed] in *; auto; try discriminate.
    1: intros cs0 E; apply I8 in E; destruct E as (_ & _ & E & _); discriminate.
    1: intros E; apply I9 in E; destruct E as (_ & _ & E & _); discriminate.
    1: intros Hm; rewrite <- I6 by auto; cbn [wpending concat]; rewrite <- !app_assoc; reflexivity.
    1: intros cs0 E; apply I8 in E; destruct E as (_ & _ & E & _); discriminate.
    1: intros E; apply I9 in E; destruct E as (_ & _ & E & _); discriminate.
    1: intros cs0 E; apply I8 in E; destruct E as (_ & _ & E & _); discriminate.
    1: intros E; apply I9 in E; destruct E as (_ & _ & E & _); discriminate.
    1: intros Hm; rewrite <- I6 by auto; cbn [wpending concat]; rewrite <- !app_assoc; reflexivity.
    1: intros cs0 E; apply I8 in E; destruct E as (_ & _ & E & _); discriminate.
    1: intros E; apply I9 in E; destruct E as (_ & _ & E & _); discriminate.
  - (* end *)
    destruct wp; try discriminate. destruct ch; [|discriminate]. destruct cl; [|discriminate].
    destruct (bufio_flush bf) as [cs bf'] eqn:Ef. inversion H; subst; clear H.
    destruct (bufio_flush_bytes _ _ _ Ef) as (F1 & F2 & _).
    constructor; cbn; auto; try discriminate.
    + intros Hm. rewrite <- I6 by auto. cbn [wpending app]. rewrite F1. reflexivity.
    + intros cs0 E. apply I8 in E. destruct E as (_ & _ & E & _). discriminate.
    + intros E. apply I9 in E. destruct E as (_ & _ & E & _). discriminate.
  - (* waited *)
    destruct mp; try discriminate. destruct wp; try discriminate.
    inversion H; subst; clear H.
    destruct I4 as (C1 & C2 & C3); auto. subst.
    assert (out (mkSt sg [] true WDone [] MWait ou rc) = flat_map enc_diag rc) as Eo.
    { cbn. rewrite <- I6 by auto. cbn. rewrite app_nil_r. reflexivity. }
    cbn in Eo.
    assert (forall cs, (timing = None /\ cs = [] \/
       exists q, timing = Some (Some q) /\ cs = write_message_direct mt_timing (Some q)) ->
       ou ++ concat cs = flat_map enc_diag rc ++ timing_bytes) as Ht.
    { intros cs [[E ->]|(q & E & ->)]; unfold timing_bytes; rewrite E; cbn [concat write_message_direct enc_payload];
        rewrite ?app_nil_r, Eo; reflexivity. }
    assert (forall m, (m = MOut [] 1 \/ exists cs, m = MOut cs 0 /\ timing <> Some None /\
              ou ++ concat cs = flat_map enc_diag rc ++ timing_bytes) ->
            Inv (mkSt sg [] true WDone [] m ou rc)) as X.
    { intros m [->|(cs & -> & Hn & Hm)]; constructor; cbn;
      try solve [ auto | intros; discriminate | intros [E|E]; discriminate
                | intros; apply I1; auto; discriminate
                | intros; apply I5; discriminate
                | intros _; split; intro E; discriminate ].
      intros cs0 E. inversion E; subst cs0. auto. }
    apply X. destruct timing as [[q|]|] eqn:Et; [right|left|right]; auto.
    + eexists; split; [reflexivity|]. split; [discriminate|]. apply Ht. right. eauto.
    + eexists; split; [reflexivity|]. split; [discriminate|]. apply Ht. left. auto.
  - (* main *)
    destruct mp as [| |[|c cs] code| |]; try discriminate; inversion H; subst; clear H;
      constructor; cbn;
      try solve [ auto | intros; discriminate | intros [E|E]; discriminate
                | intros; apply I1; auto; discriminate
                | intros; apply I5; discriminate
                | intros _; split; intro E; [discriminate|apply I3 in E; [|discriminate]; discriminate] ].
    + intro E. inversion E; subst. destruct (I8 [] eq_refl) as (A1 & A2 & A3 & A4).
      repeat split; auto. cbn in A4. rewrite app_nil_r in A4. exact A4.
    + intros cs0 E. inversion E; subst. destruct (I8 _ eq_refl) as (A1 & A2 & A3 & A4).
      repeat split; auto. cbn in A4. rewrite app_assoc in A4. exact A4.
Qed.

Lemma inv_runs : forall cs s s', Inv s -> run cs s = Some s' -> Inv s'.
Proof.
  induction cs as [|c cs IH]; intros s s' I H; cbn in H.
  - inversion H; subst; auto.
  - destruct (step c s) as [s1|] eqn:E; [|discriminate]. eapply IH; [|exact H].
    eapply inv_step; eauto.
Qed.

Lemma enc_stream : forall l,
  (forall d p, In d l -> conv d = Ok (Some p) -> fits p) ->
  stream (flat_map enc_diag l) (flat_map diag_frames l).
Proof.
  induction l as [|d l IH]; intros Hf; cbn; [constructor|].
  assert (stream (flat_map enc_diag l) (flat_map diag_frames l)) as IHl.
  { apply IH. intros; eapply Hf; cbn; eauto. }
  unfold enc_diag at 1, diag_frames at 1. destruct (conv d) as [[p|]|] eqn:E; cbn; auto.
  apply (stream_header mt_diagnostic p); auto.
  - reflexivity.
  - eapply Hf; cbn; eauto.
Qed.

Definition timing_frames : list (N * bstr) :=
  match timing with Some (Some p) => [(mt_timing, p)] | _ => [] end.

Lemma staged_in : forall (sg : list (list (list D))) l, staged sg l ->
  forall d, In d l -> exists ws w, In ws sg /\ In w ws /\ In d w.
Proof.
  assert (forall (ws : list (list D)) l, interleave ws l -> forall d, In d l -> exists w, In w ws /\ In d w) as HI.
  { induction 1; intros d0 Hin; [destruct Hin|]. destruct Hin as [->|Hin].
    - exists (d0 :: w). split; [apply in_or_app; cbn; auto|cbn; auto].
    - destruct (IHinterleave _ Hin) as (w0 & Hw & Hd). apply in_app_or in Hw. cbn in Hw.
      destruct Hw as [Hw|[<-|Hw]].
      + exists w0. split; auto. apply in_or_app; auto.
      + exists (d :: w). split; [apply in_or_app; cbn; auto|cbn; auto].
      + exists w0. split; auto. apply in_or_app; cbn; auto. }
  induction 1; intros d Hin; [destruct Hin|].
  apply in_app_or in Hin. destruct Hin as [Hin|Hin].
  - destruct (HI _ _ H _ Hin) as (w & ? & ?). exists ws, w. cbn; auto.
  - destruct (IHstaged _ Hin) as (ws' & w & ? & ? & ?). exists ws', w. cbn; auto.
Qed.

Lemma exit0_spec : forall cs s,
  run cs (init sts) = Some s -> mph s = MExit 0 ->
  (forall ws w d p, In ws sts -> In w ws -> In d w -> conv d = Ok (Some p) -> fits p) ->
  (forall p, timing = Some (Some p) -> fits p) ->
  exists order,
    staged sts order /\
    Forall (fun d => conv d <> Panic) order /\
    run_err = None /\
    stream (out s) (flat_map diag_frames order ++ timing_frames).
Proof.
  intros cs s H Hm Hf Ht.
  assert (Inv s) as I by (eapply inv_runs; [apply inv_init|exact H]).
  destruct (inv_exit _ I Hm) as (E1 & E2 & E3 & E4).
  destruct (inv_wlast _ I) as (C1 & C2 & C3); [rewrite E3; reflexivity|].
  assert (mph s <> MCrash) as Hnc by (rewrite Hm; discriminate).
  assert (staged sts (recvd s)) as Hs.
  { pose proof (inv_order _ I Hnc []) as O. rewrite (inv_closed _ I C1), C2 in O.
    cbn in O. rewrite app_nil_r in O. apply O. constructor. }
  exists (recvd s). repeat split; auto.
  - apply (inv_conv _ I Hnc).
  - rewrite E4. apply stream_app.
    + apply enc_stream. intros d p Hin Hc.
      destruct (staged_in _ _ Hs _ Hin) as (ws & w & ? & ? & ?). eauto.
    + unfold timing_bytes, timing_frames. destruct timing as [[p|]|]; cbn [enc_payload]; try constructor.
      rewrite <- (app_nil_r (header _ _ ++ p)). apply (stream_header mt_timing p); auto.
      * reflexivity.
      * constructor.
Qed.

(** ** Progress and termination *)

Definition total (ws : list (list D)) : nat := length (concat ws).
Fixpoint stages_weight (sg : list (list (list D))) : nat :=
  match sg with [] => 0 | ws :: sg' => 1 + 9 * total ws + stages_weight sg' end.
Definition wweight (w : wphase) : nat :=
  match w with WIdle => 3 | WOut cs => 4 + length cs | WLast cs => 1 + length cs | WDone => 0 end.
Definition mweight (m : mphase) : nat :=
  match m with MRun => 6 | MWait => 5 | MOut cs _ => 1 + length cs | MExit _ => 0 | MCrash => 0 end.
Definition weight (s : st) : nat :=
  stages_weight (stages s) + 8 * length (chan s) + wweight (wph s) + mweight (mph s).

Lemma take_report_total : forall i (ws : list (list D)) d ws',
  take_report i ws = Some (d, ws') -> total ws = S (total ws').
Proof.
  intros i ws; revert i. induction ws as [|w ws IH]; intros i d ws' H; [destruct i; discriminate H|].
  destruct i as [|i].
  - destruct w; cbn in H; inversion H; subst. reflexivity.
  - assert (exists ws'', take_report i ws = Some (d, ws'') /\ ws' = w :: ws'') as (ws'' & E & ->).
    { destruct w; cbn in H; (destruct (take_report i ws) as [[? ?]|]; [|discriminate H]);
        inversion H; subst; eauto. }
    apply IH in E. unfold total in *. cbn. rewrite !app_length. lia.
Qed.

Lemma step_decreases : forall c s s', step c s = Some s' -> (weight s' < weight s)%nat.
Proof.
  intros c s s' H. destruct s as [sg ch cl wp bf mp ou rc]. unfold Stream.step in H. cbn [stages chan closed wph buf mph out recvd] in *.
  destruct (negb _); [discriminate|]. unfold weight.
  destruct c.
  - destruct mp; try discriminate. destruct sg as [|ws rest]; [discriminate|].
    destruct (length ch <? chan_cap)%nat; [|discriminate].
    destruct (take_report i ws) as [[d ws']|] eqn:Et; [|discriminate].
    inversion H; subst; cbn [stages chan wph mph stages_weight]. apply take_report_total in Et.
    rewrite app_length. cbn [length]. lia.
  - destruct mp; try discriminate. destruct sg as [|ws rest]; [discriminate|].
    destruct (all_done ws); [|discriminate]. inversion H; subst; cbn [stages chan wph mph stages_weight]. lia.
  - destruct mp; try discriminate. destruct sg; [|discriminate].
    inversion H; subst; cbn [stages chan wph mph stages_weight mweight].
    destruct run_err as [[p|]|]; cbn; lia.
  - destruct wp; try discriminate. destruct ch as [|d ds]; [discriminate|].
    destruct (conv d) as [payload|].
    + destruct (writer_turn payload bf) as [cs bf'] eqn:Ew. inversion H; subst.
      destruct (writer_turn_bytes _ _ _ _ Ew) as [_ L].
      cbn [stages chan wph mph wweight length]. lia.
    + inversion H; subst. cbn [stages chan wph mph wweight mweight length]. lia.
  - destruct wp as [|[|c cs]|[|c cs]|]; try discriminate; inversion H; subst;
      cbn [stages chan wph mph wweight length]; lia.
  - destruct wp; try discriminate. destruct ch; [|discriminate]. destruct cl; [|discriminate].
    destruct (bufio_flush bf) as [cs bf'] eqn:Ef. inversion H; subst.
    destruct (bufio_flush_bytes _ _ _ Ef) as (_ & _ & L).
    cbn [stages chan wph mph wweight length]. lia.
  - destruct mp; try discriminate. destruct wp; try discriminate. inversion H; subst.
    cbn [stages chan wph mph wweight mweight length].
    destruct timing as [[q|]|]; cbn; lia.
  - destruct mp as [| |[|c cs] code| |]; try discriminate; inversion H; subst;
      cbn [stages chan wph mph wweight mweight length]; lia.
Qed.

Lemma runs_bounded : forall cs s s', run cs s = Some s' -> (length cs + weight s' <= weight s)%nat.
Proof.
  induction cs as [|c cs IH]; intros s s' H; cbn in H.
  - inversion H; subst. cbn. lia.
  - destruct (step c s) as [s1|] eqn:E; [|discriminate].
    apply step_decreases in E. apply IH in H. cbn [length]. lia.
Qed.

Lemma take_report_exists : forall ws : list (list D), all_done ws = false ->
  exists i d ws', take_report i ws = Some (d, ws').
Proof.
  induction ws as [|w ws IH]; intro H; cbn in H; [discriminate|].
  destruct w as [|d w].
  - cbn in H. destruct (IH H) as (i & d & ws' & E). exists (S i), d, ([] :: ws'). cbn. rewrite E. auto.
  - exists O, d, (w :: ws). reflexivity.
Qed.

Lemma progress : forall s, (1 <= chan_cap)%nat -> Inv s -> alive s = true ->
  exists c s', step c s = Some s'.
Proof.
  intros s Hc I Ha. destruct I as [I1 I2 I3 I4 I5 I6 I7 I8 I9].
  destruct s as [sg ch cl wp bf mp ou rc]. cbn in *.
  assert (forall c, Stream.step conv chan_cap run_err timing c (mkSt sg ch cl wp bf mp ou rc) <> None ->
     exists c s', step c (mkSt sg ch cl wp bf mp ou rc) = Some s') as X.
  { intros c Hn. destruct (step c (mkSt sg ch cl wp bf mp ou rc)) eqn:E; [|congruence].
    exists c; eauto. }
  destruct wp as [|[|c cs]|[|c cs]|].
  - destruct ch as [|d ds].
    + destruct mp; try discriminate.
      * destruct sg as [|ws rest].
        { apply (X CClose). unfold Stream.step. cbn. destruct run_err; discriminate. }
        destruct (all_done ws) eqn:Ed.
        { apply (X CStage). unfold Stream.step. cbn. rewrite Ed. discriminate. }
        destruct (take_report_exists _ Ed) as (i & d & ws' & E).
        apply (X (CSend i)). unfold Stream.step. cbn [negb alive mph stages chan length].
        replace (0 <? chan_cap)%nat with true by (symmetry; apply Nat.ltb_lt; lia).
        rewrite E. discriminate.
      * assert (cl = true) as ->.
        { destruct cl; auto. destruct I3 as [_ I3]; [discriminate|]. specialize (I3 eq_refl). discriminate. }
        apply (X CEnd). unfold Stream.step. cbn. destruct (bufio_flush bf); discriminate.
      * apply (X CMain). unfold Stream.step. cbn. destruct pending; discriminate.
    + apply (X CRecv). unfold Stream.step. rewrite Ha. cbn.
      destruct (conv d); [destruct (writer_turn a bf)|]; discriminate.
  - apply (X CWrite). unfold Stream.step. rewrite Ha. discriminate.
  - apply (X CWrite). unfold Stream.step. rewrite Ha. discriminate.
  - apply (X CWrite). unfold Stream.step. rewrite Ha. discriminate.
  - apply (X CWrite). unfold Stream.step. rewrite Ha. discriminate.
  - destruct I4 as (C1 & C2 & C3); auto. subst.
    destruct mp; try discriminate.
    + destruct I3 as [I3 _]; [discriminate|]. specialize (I3 eq_refl). discriminate.
    + apply (X CWaited). unfold Stream.step. cbn. discriminate.
    + apply (X CMain). unfold Stream.step. cbn. destruct pending; discriminate.
Qed.

Lemma reachable_progress : forall cs s,
  (1 <= chan_cap)%nat -> run cs (init sts) = Some s -> alive s = true ->
  exists c s', step c s = Some s'.
Proof.
  intros cs s Hc H Ha. apply progress; auto. eapply inv_runs; [apply inv_init|exact H].
Qed.

Lemma run_app : forall cs1 cs2 s s1, run cs1 s = Some s1 -> run (cs1 ++ cs2) s = run cs2 s1.
Proof.
  induction cs1 as [|c cs1 IH]; intros cs2 s s1 H; cbn in *.
  - inversion H; auto.
  - destruct (step c s); [|discriminate]. auto.
Qed.

(** Every execution can be extended to a finished one. *)
Lemma can_finish : forall cs s,
  (1 <= chan_cap)%nat -> run cs (init sts) = Some s ->
  exists cs' s', run (cs ++ cs') (init sts) = Some s' /\ alive s' = false.
Proof.
  intros cs s Hc H. remember (weight s) as n eqn:En.
  revert cs s H En. induction n as [n IH] using lt_wf_ind; intros cs s H En.
  destruct (alive s) eqn:Ea.
  - destruct (reachable_progress _ _ Hc H Ea) as (c & s1 & E).
    assert (run (cs ++ [c]) (init sts) = Some s1) as H1.
    { rewrite (run_app _ _ _ _ H). cbn. rewrite E. reflexivity. }
    destruct (IH (weight s1)) with (cs := cs ++ [c]) (s := s1) as (cs' & s' & H' & A').
    + subst n. eapply step_decreases; eauto.
    + exact H1.
    + reflexivity.
    + exists (c :: cs'), s'. rewrite <- app_assoc in H'. auto.
  - exists [], s. rewrite app_nil_r. auto.
Qed.

(** ** The failing run *)

Definition prefix_of (a l : bstr) : Prop := exists r, l = a ++ r.

Record EInv (e : bstr) (s : st) : Prop := mkEInv {
  einv_run : mph s = MRun -> out s ++ wpending (wph s) ++ buf s = flat_map enc_diag (recvd s);
  einv_wait : mph s <> MWait;
  einv_out : forall cs code, mph s = MOut cs code -> code = 1%nat /\
     ((cs = [header mt_error (nlen e); e] /\
       out s ++ wpending (wph s) ++ buf s = flat_map enc_diag (recvd s)) \/
      (cs = [e] /\ exists a b, out s = a ++ header mt_error (nlen e) ++ b /\
         a ++ b ++ wpending (wph s) ++ buf s = flat_map enc_diag (recvd s)) \/
      (cs = [] /\ exists a b c, out s = a ++ header mt_error (nlen e) ++ b ++ e ++ c /\
         a ++ b ++ c ++ wpending (wph s) ++ buf s = flat_map enc_diag (recvd s)));
  einv_exit : forall code, mph s = MExit code -> code = 1%nat /\ exists a b c,
     out s = a ++ header mt_error (nlen e) ++ b ++ e ++ c /\
     a ++ b ++ c ++ wpending (wph s) ++ buf s = flat_map enc_diag (recvd s)
}.

(** A step that moves bytes from the writer's side to stdout, or adds an encoded
    diagnostic, keeps the shape. [x] is what stdout gains, [y] what the encoding
    gains. *)
Lemma einv_move : forall e m sg ch cl wp bf ou rc sg' ch' cl' wp' bf' rc' x y,
  EInv e (mkSt sg ch cl wp bf m ou rc) ->
  x ++ wpending wp' ++ bf' = wpending wp ++ bf ++ y ->
  flat_map enc_diag rc' = flat_map enc_diag rc ++ y ->
  EInv e (mkSt sg' ch' cl' wp' bf' m (ou ++ x) rc').
Proof.
  intros e m sg ch cl wp bf ou rc sg' ch' cl' wp' bf' rc' x y [E1 E2 E4 E5] Hx Hy.
  constructor; cbn [mph out wph buf recvd] in *; auto.
  - intro Hm. rewrite Hy, <- E1 by auto. rewrite <- !app_assoc, Hx. reflexivity.
  - intros cs code Hm. destruct (E4 _ _ Hm) as (-> & [(-> & H)|[(-> & a & b & H1 & H2)|(-> & a & b & c & H1 & H2)]]);
      split; auto.
    + left. split; auto. rewrite Hy, <- H. rewrite <- !app_assoc, Hx. reflexivity.
    + right; left. split; auto. exists a, (b ++ x). rewrite H1, Hy, <- H2, <- !app_assoc, Hx. auto.
    + right; right. split; auto. exists a, b, (c ++ x). rewrite H1, Hy, <- H2, <- !app_assoc, Hx. auto.
  - intros code Hm. destruct (E5 _ Hm) as (-> & a & b & c & H1 & H2). split; auto.
    exists a, b, (c ++ x). rewrite H1, Hy, <- H2, <- !app_assoc, Hx. auto.
Qed.

Lemma einv_step : forall e c s s', run_err = Some (Some e) ->
  EInv e s -> step c s = Some s' -> mph s' <> MCrash -> EInv e s'.
Proof.
  intros e c s s' Hr I H Hc.
  destruct s as [sg ch cl wp bf mp ou rc]. unfold Stream.step in H.
  cbn [stages chan closed wph buf mph out recvd] in *.
  destruct (negb (alive (mkSt sg ch cl wp bf mp ou rc))) eqn:Eal; [discriminate|].
  assert (forall sg' ch' cl', EInv e (mkSt sg' ch' cl' wp bf mp ou rc)) as Hsame.
  { intros. rewrite <- (app_nil_r ou). eapply einv_move with (y := []); [exact I| |];
      rewrite ?app_nil_r; reflexivity. }
  destruct c.
  - destruct mp; try discriminate. destruct sg as [|ws rest]; [discriminate|].
    destruct (length ch <? chan_cap)%nat; [|discriminate].
    destruct (take_report i ws) as [[d ws']|] eqn:Et; [|discriminate].
    inversion H; subst; clear H. apply Hsame.
  - destruct mp; try discriminate. destruct sg as [|ws rest]; [discriminate|].
    destruct (all_done ws); [|discriminate]. inversion H; subst; clear H. apply Hsame.
  - destruct mp; try discriminate. destruct sg; [|discriminate].
    rewrite Hr in H. inversion H; subst; clear H. destruct I as [E1 E2 E4 E5].
    constructor; cbn [mph out wph buf recvd write_message_direct] in *; try discriminate.
    intros cs code E. inversion E; subst. split; auto.
  - destruct wp; try discriminate. destruct ch as [|d ds]; [discriminate|].
    destruct (conv d) as [payload|] eqn:Ec.
    + destruct (writer_turn payload bf) as [cs bf'] eqn:Ew. inversion H; subst; clear H.
      destruct (writer_turn_bytes _ _ _ _ Ew) as [Eb _].
      rewrite <- (app_nil_r ou). eapply einv_move with (y := enc_payload mt_diagnostic payload); [exact I| |].
      * cbn [wpending app]. exact Eb.
      * rewrite flat_map_snoc. unfold enc_diag at 2. rewrite Ec. reflexivity.
    + inversion H; subst. cbn in Hc. congruence.
  - destruct wp as [|[|c cs]|[|c cs]|]; try discriminate; inversion H; subst; clear H.
    1, 3: rewrite <- (app_nil_r ou); eapply einv_move with (y := []); [exact I| |];
      rewrite ?app_nil_r; reflexivity.
    1, 2: eapply einv_move with (y := []); [exact I| |]; rewrite ?app_nil_r; cbn [wpending concat];
      rewrite <- ?app_assoc; reflexivity.
  - destruct wp; try discriminate. destruct ch; [|discriminate]. destruct cl; [|discriminate].
    destruct (bufio_flush bf) as [cs bf'] eqn:Ef. inversion H; subst; clear H.
    destruct (bufio_flush_bytes _ _ _ Ef) as (F1 & F2 & _).
    rewrite <- (app_nil_r ou); eapply einv_move with (y := []); [exact I| |];
      rewrite ?app_nil_r; cbn [wpending app]; auto.
  - destruct mp; try discriminate. exfalso. apply (einv_wait _ _ I). reflexivity.
  - destruct mp as [| |[|c cs] code| |]; try discriminate; inversion H; subst; clear H;
      destruct I as [E1 E2 E4 E5]; destruct (E4 _ _ eq_refl) as (-> & S);
      constructor; cbn [mph out wph buf recvd] in *; try discriminate.
    + intros code E. inversion E; subst. split; auto. destruct S as [(S & _)|[(S & _)|(_ & S)]]; try discriminate. exact S.
    + intros cs0 code E. inversion E; subst. split; auto.
      destruct S as [(S & S2)|[(S & a & b & -> & S2)|(S & _)]]; try discriminate; inversion S; subst.
      * right; left. split; auto. exists ou, []. rewrite app_nil_r. auto.
      * right; right. split; auto. exists a, b, [].
        rewrite <- !app_assoc, app_nil_r. auto.
Qed.

Lemma crash_dead : forall cs s s', mph s = MCrash -> run cs s = Some s' -> s' = s.
Proof.
  intros [|c cs] s s' Hm H; cbn in H; [congruence|].
  unfold Stream.step, alive in H. rewrite Hm in H. discriminate.
Qed.

Lemma einv_runs : forall e cs s s', run_err = Some (Some e) ->
  EInv e s -> run cs s = Some s' -> mph s' <> MCrash -> EInv e s'.
Proof.
  induction cs as [|c cs IH]; intros s s' Hr I H Hc; cbn in H.
  - inversion H; subst; auto.
  - destruct (step c s) as [s1|] eqn:E; [|discriminate].
    assert (mph s1 <> MCrash) as Hc1.
    { intro X. apply (crash_dead _ _ _ X) in H. subst. auto. }
    eapply IH; [exact Hr| |exact H|exact Hc]. eapply einv_step; eauto.
Qed.

Lemma error_run_shape : forall e cs s code, run_err = Some (Some e) ->
  run cs (init sts) = Some s -> mph s = MExit code ->
  code = 1%nat /\
  exists recd unsent a b' c r, staged sts (recd ++ unsent) /\
    out s = a ++ header mt_error (nlen e) ++ b' ++ e ++ c /\
    a ++ b' ++ c ++ r = flat_map enc_diag recd.
Proof.
  intros e cs s code Hr H Hm.
  assert (mph s <> MCrash) as Hnc by (rewrite Hm; discriminate).
  assert (EInv e s) as I.
  { eapply einv_runs; [exact Hr| |exact H|exact Hnc]. constructor; cbn; try discriminate. auto. }
  assert (Inv s) as I' by (eapply inv_runs; [apply inv_init|exact H]).
  assert (closed s = true) as Hcl.
  { destruct (closed s) eqn:E; auto. apply (inv_run _ I' Hnc) in E. congruence. }
  destruct (einv_exit _ _ I _ Hm) as (-> & a & b' & c & H1 & H2). split; auto.
  exists (recvd s), (chan s), a, b', c, (wpending (wph s) ++ buf s).
  split; [|auto].
  pose proof (inv_order _ I' Hnc []) as O. rewrite (inv_closed _ I' Hcl), app_nil_r in O.
  apply O. constructor.
Qed.

End Inv.

Lemma staged_permutation : forall (D : Type) (sg : list (list (list D))) l,
  staged sg l -> Permutation l (concat (concat sg)).
Proof.
  assert (forall (D : Type) (ws : list (list D)) l, interleave ws l -> Permutation l (concat ws)) as HI.
  { induction 1.
    - assert (concat ws = []) as ->; auto. induction H; auto. subst. auto.
    - rewrite concat_app in *. cbn in *. eapply Permutation_trans; [apply perm_skip; exact IHinterleave|].
      apply Permutation_middle. }
  induction 1; cbn; auto. rewrite concat_app. apply Permutation_app; auto.
Qed.

(** ** Frames that the length field cannot describe *)

Lemma oversized_frame : forall bs ty p, 4294967296 <= N.of_nat (length p) ->
  ~ stream bs [(ty, p)].
Proof.
  intros bs ty p H S. inversion S; subst.
  pose proof (N_ascii_bounded l0). pose proof (N_ascii_bounded l1).
  pose proof (N_ascii_bounded l2). pose proof (N_ascii_bounded l3). lia.
Qed.

(** An executable decoder, used to show that some bytes are no stream. *)
Fixpoint decode (fuel : nat) (bs : bstr) : option (list (N * bstr)) :=
  match fuel, bs with
  | _, [] => Some []
  | S fuel', l0 :: l1 :: l2 :: l3 :: t :: body =>
      let n := N_of_ascii l0 + 256 * (N_of_ascii l1 + 256 * (N_of_ascii l2 + 256 * N_of_ascii l3)) in
      if n <=? N.of_nat (length body) then
        match decode fuel' (skipn (N.to_nat n) body) with
        | Some fs => Some ((N_of_ascii t, firstn (N.to_nat n) body) :: fs)
        | None => None
        end
      else None
  | _, _ => None
  end.

Lemma decode_complete : forall bs fs, stream bs fs ->
  forall fuel, (length bs <= fuel)%nat -> decode fuel bs = Some fs.
Proof.
  induction 1; intros fuel Hf.
  - destruct fuel; reflexivity.
  - destruct fuel as [|fuel]; [cbn in Hf; lia|]. cbn [decode].
    rewrite H, Nnat.Nat2N.id, app_length.
    replace (N.of_nat (length payload) <=? N.of_nat (length payload + length rest)) with true
      by (symmetry; apply N.leb_le; lia).
    rewrite firstn_app, skipn_app, firstn_all, skipn_all, Nat.sub_diag. cbn [firstn skipn app].
    rewrite app_nil_r, IHstream; auto. cbn [length] in Hf. rewrite app_length in Hf. lia.
Qed.
