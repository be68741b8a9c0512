(** Proofs about the fixer model. *)
From Coq Require Import Bool List ZArith Permutation Sorted Lia.
From Verif Require Import Base Fixer FixerSpec.
Import ListNotations.
Open Scope Z_scope.

Lemma zlen_nonneg : forall (A : Type) (l : list A), 0 <= zlen l.
Proof. intros; unfold zlen; lia. Qed.

Lemma slice_ok_inv : forall (A : Type) (s : list A) lo hi l,
  slice s lo hi = Ok l ->
  0 <= lo /\ lo <= hi /\ hi <= zlen s /\
  l = firstn (Z.to_nat (hi - lo)) (skipn (Z.to_nat lo) s).
Proof.
  intros A s lo hi l H. unfold slice in H.
  destruct (0 <=? lo) eqn:E1; simpl in H; [|discriminate].
  destruct (lo <=? hi) eqn:E2; simpl in H; [|discriminate].
  destruct (hi <=? zlen s) eqn:E3; simpl in H; [|discriminate].
  inversion H; subst. repeat split; try lia.
Qed.

Lemma slice_ok : forall (A : Type) (s : list A) lo hi,
  0 <= lo -> lo <= hi -> hi <= zlen s ->
  slice s lo hi = Ok (firstn (Z.to_nat (hi - lo)) (skipn (Z.to_nat lo) s)).
Proof.
  intros. unfold slice.
  replace (0 <=? lo) with true by (symmetry; lia).
  replace (lo <=? hi) with true by (symmetry; lia).
  replace (hi <=? zlen s) with true by (symmetry; lia).
  reflexivity.
Qed.

Lemma skipn_skipn_add : forall (A : Type) (n m : nat) (l : list A),
  skipn n (skipn m l) = skipn (m + n) l.
Proof.
  intros A n m; revert n. induction m as [|m IH]; intros n l; simpl; auto.
  destruct l; simpl; auto. destruct n; reflexivity.
Qed.

Lemma split_at : forall (A : Type) (l : list A) lo hi,
  0 <= lo -> lo <= hi -> hi <= zlen l ->
  skipn (Z.to_nat lo) l =
  firstn (Z.to_nat (hi - lo)) (skipn (Z.to_nat lo) l) ++ skipn (Z.to_nat hi) l.
Proof.
  intros A l lo hi H1 H2 H3.
  rewrite <- (firstn_skipn (Z.to_nat (hi - lo)) (skipn (Z.to_nat lo) l)) at 1.
  f_equal. rewrite skipn_skipn_add. f_equal. lia.
Qed.

Lemma zlen_slice : forall (A : Type) (l : list A) lo hi,
  0 <= lo -> lo <= hi -> hi <= zlen l ->
  zlen (firstn (Z.to_nat (hi - lo)) (skipn (Z.to_nat lo) l)) = hi - lo.
Proof.
  intros. unfold zlen in *. rewrite firstn_length, skipn_length. lia.
Qed.

Section Proofs.
Context {byte : Type}.
Notation fix_ := (fix_ byte).
Notation msg := (msg byte).
Implicit Types (code out : list byte) (fs es : list fix_) (ds un : list msg).

Lemma rewrites_keep_app : forall keep p rest es out,
  rewrites (p + zlen keep) rest es out -> rewrites p (keep ++ rest) es (keep ++ out).
Proof.
  induction keep as [|c keep IH]; intros p rest es out H; simpl.
  - replace (p + zlen (@nil byte)) with p in H by (unfold zlen; simpl; lia). exact H.
  - apply rw_keep. apply IH.
    replace (p + 1 + zlen keep) with (p + zlen (c :: keep)) by (unfold zlen; simpl; lia).
    exact H.
Qed.

Lemma rewrites_slice : forall code lo hi keep es out,
  slice code lo hi = Ok keep ->
  rewrites hi (skipn (Z.to_nat hi) code) es out ->
  rewrites lo (skipn (Z.to_nat lo) code) es (keep ++ out).
Proof.
  intros code lo hi keep es out Hs Hr.
  apply slice_ok_inv in Hs. destruct Hs as (H1 & H2 & H3 & ->).
  rewrite (split_at _ code lo hi) at 1 by lia.
  apply rewrites_keep_app. rewrite zlen_slice by lia.
  replace (lo + (hi - lo)) with hi by lia. exact Hr.
Qed.

Lemma rewrites_edit_at : forall code e es out,
  0 <= fpos e -> fpos e <= fend e -> fend e <= zlen code ->
  rewrites (fend e) (skipn (Z.to_nat (fend e)) code) es out ->
  rewrites (fpos e) (skipn (Z.to_nat (fpos e)) code) (e :: es) (ftext e ++ out).
Proof.
  intros code e es out H1 H2 H3 Hr.
  rewrite (split_at _ code (fpos e) (fend e)) by lia.
  apply rw_edit; auto. rewrite zlen_slice by lia. lia.
Qed.

Lemma write_fixes_mono : forall code fs last o last',
  Forall well_formed_range fs ->
  write_fixes code last fs = Ok (o, last') -> last <= last'.
Proof.
  intros code fs. induction fs as [|f fs IH]; intros last o last' Hw H; simpl in H.
  - inversion H; lia.
  - destruct (slice code last (fpos f)) as [keep|] eqn:Es; simpl in H; [|discriminate].
    destruct (write_fixes code (fend f) fs) as [[o2 l2]|] eqn:Ew; simpl in H; [|discriminate].
    inversion H; subst. inversion Hw; subst.
    apply IH in Ew; auto. apply slice_ok_inv in Es. unfold well_formed_range in *. lia.
Qed.

Lemma write_fixes_rewrites : forall code fs last o last' es out,
  Forall well_formed_range fs ->
  write_fixes code last fs = Ok (o, last') -> last' <= zlen code ->
  rewrites last' (skipn (Z.to_nat last') code) es out ->
  rewrites last (skipn (Z.to_nat last) code) (fs ++ es) (o ++ out).
Proof.
  intros code fs. induction fs as [|f fs IH]; intros last o last' es out Hw H Hl Hr; simpl in *.
  - inversion H; subst. exact Hr.
  - destruct (slice code last (fpos f)) as [keep|] eqn:Es; simpl in H; [|discriminate].
    destruct (write_fixes code (fend f) fs) as [[o2 l2]|] eqn:Ew; simpl in H; [|discriminate].
    inversion H; subst. inversion Hw; subst.
    rewrite <- !app_assoc.
    eapply rewrites_slice; [exact Es|].
    pose proof (write_fixes_mono _ _ _ _ _ H3 Ew).
    apply slice_ok_inv in Es. unfold well_formed_range in *.
    apply rewrites_edit_at; try lia.
    eapply IH; eauto.
Qed.

Lemma write_fixes_disjoint : forall code fs last o last' es hi,
  Forall well_formed_range fs ->
  write_fixes code last fs = Ok (o, last') ->
  disjoint_from last' hi es ->
  disjoint_from last hi (fs ++ es).
Proof.
  intros code fs. induction fs as [|f fs IH]; intros last o last' es hi Hw H Hd; simpl in *.
  - inversion H; subst. exact Hd.
  - destruct (slice code last (fpos f)) as [keep|] eqn:Es; simpl in H; [|discriminate].
    destruct (write_fixes code (fend f) fs) as [[o2 l2]|] eqn:Ew; simpl in H; [|discriminate].
    inversion H; subst. inversion Hw; subst. apply slice_ok_inv in Es.
    unfold well_formed_range in *. repeat split; try lia. eapply IH; eauto.
Qed.

Lemma apply_loop_mono : forall code ds last o last' un fx,
  Forall (fun d => Forall well_formed_range (mfixes d)) ds ->
  apply_loop code last ds = Ok (o, last', un, fx) -> last <= last'.
Proof.
  intros code ds. induction ds as [|d ds IH]; intros last o last' un fx Hw H; simpl in H.
  - inversion H; lia.
  - inversion Hw; subst. destruct (mfixes d) as [|f0 fr] eqn:Ef; [discriminate|].
    destruct (fpos f0 <? last) eqn:El.
    + destruct (apply_loop code last ds) as [[[[o1 l1] u1] x1]|] eqn:Ea; simpl in H; [|discriminate].
      inversion H; subst. eapply IH; eauto.
    + destruct (write_fixes code last (f0 :: fr)) as [[o1 l1]|] eqn:Ew;
        cbn [rbind] in H; [|discriminate].
      destruct (apply_loop code l1 ds) as [[[[o2 l2] u2] x2]|] eqn:Ea; simpl in H; [|discriminate].
      inversion H; subst. apply IH in Ea; auto.
      apply write_fixes_mono in Ew; auto. lia.
Qed.

(** The ghost list of applied messages. *)
Lemma apply_loop_spec : forall code ds last o last' un fx,
  Forall (fun d => Forall well_formed_range (mfixes d)) ds ->
  apply_loop code last ds = Ok (o, last', un, fx) -> last' <= zlen code ->
  exists applied,
    Permutation ds (applied ++ un) /\
    (fx = true <-> applied <> []) /\
    Forall (fun d => mfixes d <> []) applied /\
    disjoint_from last last' (flat_map mfixes applied) /\
    (forall out, rewrites last' (skipn (Z.to_nat last') code) [] out ->
       rewrites last (skipn (Z.to_nat last) code) (flat_map mfixes applied) (o ++ out)).
Proof.
  intros code ds. induction ds as [|d ds IH]; intros last o last' un fx Hw H Hl; simpl in H.
  - inversion H; subst. exists []. simpl. repeat split; auto; try lia; congruence.
  - inversion Hw as [|d' ds' Hd Hds]; subst.
    destruct (mfixes d) as [|f0 fr] eqn:Ef; [discriminate|].
    destruct (fpos f0 <? last) eqn:El.
    + destruct (apply_loop code last ds) as [[[[o1 l1] u1] x1]|] eqn:Ea; simpl in H; [|discriminate].
      inversion H; subst.
      destruct (IH _ _ _ _ _ Hds Ea Hl) as (ap & P & X & N & D & R).
      exists ap. repeat split; auto; try apply X.
      eapply Permutation_trans; [apply perm_skip; exact P|]. apply Permutation_middle.
    + destruct (write_fixes code last (f0 :: fr)) as [[o1 l1]|] eqn:Ew;
        cbn [rbind] in H; [|discriminate].
      destruct (apply_loop code l1 ds) as [[[[o2 l2] u2] x2]|] eqn:Ea; simpl in H; [|discriminate].
      inversion H; subst.
      destruct (IH _ _ _ _ _ Hds Ea Hl) as (ap & P & X & N & D & R).
      exists (d :: ap). simpl. rewrite Ef. split; [|split; [|split; [|split]]].
      * simpl. apply perm_skip. exact P.
      * split; congruence.
      * constructor; auto. rewrite Ef; discriminate.
      * change (disjoint_from last last' ((f0 :: fr) ++ flat_map mfixes ap)).
        eapply write_fixes_disjoint; eauto.
      * intros out Ho. rewrite <- app_assoc.
        change (f0 :: fr ++ flat_map mfixes ap) with ((f0 :: fr) ++ flat_map mfixes ap).
        eapply write_fixes_rewrites; eauto.
        pose proof (apply_loop_mono _ _ _ _ _ _ _ Hds Ea). lia.
Qed.

(** Every skipped message clashes with an applied message that is not after it
    in the processing order. *)
Lemma write_fixes_last : forall code fs last o last',
  write_fixes code last fs = Ok (o, last') -> fs <> [] ->
  exists f, In f fs /\ fend f = last'.
Proof.
  intros code fs. induction fs as [|f fs IH]; intros last o last' H Hne; [congruence|].
  simpl in H.
  destruct (slice code last (fpos f)) as [keep|] eqn:Es; simpl in H; [|discriminate].
  destruct (write_fixes code (fend f) fs) as [[o2 l2]|] eqn:Ew; simpl in H; [|discriminate].
  inversion H; subst. destruct fs as [|g gs].
  - simpl in Ew. inversion Ew; subst. exists f. split; simpl; auto.
  - destruct (IH _ _ _ Ew) as (h & Hh & E); [discriminate|]. exists h. split; simpl in *; auto.
Qed.

Lemma apply_loop_reason : forall code ds last o last' un fx (prev : list msg),
  apply_loop code last ds = Ok (o, last', un, fx) ->
  StronglySorted (fun x y => key_le (msg_key x) (msg_key y)) (prev ++ ds) ->
  (last = 0 \/ exists a f, In a prev /\ In f (mfixes a) /\ fend f = last) ->
  Forall (fun d => Forall (fun f => 0 <= fpos f) (mfixes d)) ds ->
  exists applied,
    Permutation ds (applied ++ un) /\ (fx = true <-> applied <> []) /\
    forall d, In d un -> exists a, In a (prev ++ applied) /\ clash a d /\
      key_le (msg_key a) (msg_key d).
Proof.
  assert (SSmid : forall (l1 l2 : list msg) x y,
    StronglySorted (fun x y => key_le (msg_key x) (msg_key y)) (l1 ++ y :: l2) ->
    In x l1 -> key_le (msg_key x) (msg_key y)).
  { induction l1 as [|z l1 IH]; intros l2 x y Hs Hi; simpl in *; [tauto|].
    inversion Hs; subst. destruct Hi as [->|Hi].
    - rewrite Forall_forall in H2. apply H2. apply in_or_app; simpl; auto.
    - eapply IH; eauto. }
  assert (SSdel : forall (l1 l2 : list msg) y,
    StronglySorted (fun x y => key_le (msg_key x) (msg_key y)) (l1 ++ y :: l2) ->
    StronglySorted (fun x y => key_le (msg_key x) (msg_key y)) (l1 ++ l2)).
  { induction l1 as [|z l1 IH]; intros l2 y Hs; simpl in *.
    - inversion Hs; auto.
    - inversion Hs; subst. constructor; [eapply IH; eauto|].
      rewrite Forall_forall in *. intros w Hw. apply H2.
      apply in_app_or in Hw. apply in_or_app; simpl; tauto. }
  intros code ds. induction ds as [|d ds IH]; intros last o last' un fx prev H Hs Hlast Hpos; simpl in H.
  - inversion H; subst. exists []. simpl. split; [constructor|split; [split; intros; congruence|intros ? []]].
  - inversion Hpos as [|? ? Hd Hds]; subst.
    destruct (mfixes d) as [|f0 fr] eqn:Ef; [discriminate|].
    destruct (fpos f0 <? last) eqn:El.
    + destruct (apply_loop code last ds) as [[[[o1 l1] u1] x1]|] eqn:Ea; simpl in H; [|discriminate].
      inversion H; subst.
      destruct (IH _ _ _ _ _ prev Ea (SSdel _ _ _ Hs) Hlast Hds) as (ap & P & X & R).
      exists ap. split; [|split]; auto.
      * eapply Permutation_trans; [apply perm_skip; exact P|]. apply Permutation_middle.
      * intros d0 [<-|Hin]; auto.
        destruct Hlast as [->|(a & f & Ha & Hf & E)].
        { inversion Hd; subst. lia. }
        exists a. split; [apply in_or_app; auto|]. split.
        { exists f, f0, fr. repeat split; auto. lia. }
        eapply SSmid; eauto.
    + destruct (write_fixes code last (f0 :: fr)) as [[o1 l1]|] eqn:Ew;
        cbn [rbind] in H; [|discriminate].
      destruct (apply_loop code l1 ds) as [[[[o2 l2] u2] x2]|] eqn:Ea; simpl in H; [|discriminate].
      inversion H; subst.
      destruct (write_fixes_last _ _ _ _ _ Ew) as (f & Hf & E); [discriminate|].
      destruct (IH _ _ _ _ _ (prev ++ [d]) Ea) as (ap & P & X & R).
      * rewrite <- app_assoc. exact Hs.
      * right. exists d, f. rewrite Ef. repeat split; auto. apply in_or_app; simpl; auto.
      * exact Hds.
      * exists (d :: ap). split; [|split].
        { simpl. apply perm_skip. exact P. }
        { split; congruence. }
        intros d0 Hin. destruct (R d0 Hin) as (a & Ha & C & K).
        exists a. split; [|split]; auto. rewrite <- app_assoc in Ha. exact Ha.
Qed.

(** Splitting. *)
Lemma split_msgs_same : forall sf ds w u,
  is_fix_sort sf -> split_msgs sf ds = (w, u) ->
  exists ds', Forall2 same_msg ds ds' /\ Permutation ds' (w ++ u) /\
    Forall (fun d => mfixes d <> []) w /\ Forall (fun d => mfixes d = []) u.
Proof.
  intros sf ds. induction ds as [|d ds IH]; intros w u Hs H; simpl in H.
  - inversion H; subst. exists []. repeat split; auto.
  - destruct (split_msgs sf ds) as [w1 u1] eqn:E.
    destruct (IH _ _ Hs eq_refl) as (ds' & F & P & N & U).
    destruct (mfixes d) as [|f fr] eqn:Ef; inversion H; subst.
    + exists (d :: ds'). repeat split; auto.
      * constructor; auto. split; auto.
      * eapply Permutation_trans; [apply perm_skip; exact P|]. apply Permutation_middle.
    + exists (mkMsg (mid d) (sf (f :: fr)) :: ds'). repeat split; auto.
      * constructor; auto. split; simpl; auto. rewrite Ef. apply Hs.
      * simpl. apply perm_skip. exact P.
      * constructor; auto. simpl. intro E0.
        destruct (Hs (f :: fr)) as [P0 _]. rewrite E0 in P0.
        apply Permutation_sym, Permutation_nil in P0. discriminate.
Qed.

Lemma split_msgs_forall : forall sf (Q : fix_ -> Prop) ds w u,
  is_fix_sort sf -> split_msgs sf ds = (w, u) ->
  Forall (fun d => Forall Q (mfixes d)) ds ->
  Forall (fun d => Forall Q (mfixes d)) w.
Proof.
  intros sf Q ds. induction ds as [|d ds IH]; intros w u Hs H HF; simpl in H.
  - inversion H; auto.
  - destruct (split_msgs sf ds) as [w1 u1] eqn:E. inversion HF; subst.
    destruct (mfixes d) as [|f fr] eqn:Ef; inversion H; subst.
    + eapply IH; eauto.
    + constructor; [|eapply IH; eauto]. simpl. destruct (Hs (f :: fr)) as [P0 _].
      rewrite Forall_forall in *. intros x Hx. apply H2.
      eapply Permutation_in; [apply Permutation_sym; exact P0|exact Hx].
Qed.

Lemma perm_forall : forall (A : Type) (P : A -> Prop) l l',
  Permutation l l' -> Forall P l -> Forall P l'.
Proof.
  intros A P l l' Hp HF. rewrite Forall_forall in *. intros x Hx. apply HF.
  eapply Permutation_in; [apply Permutation_sym; eassumption|assumption].
Qed.

Lemma forall2_perm : forall (A B : Type) (R : A -> B -> Prop) l1 l2 l2',
  Forall2 R l1 l2 -> Permutation l2 l2' -> exists l1', Permutation l1 l1' /\ Forall2 R l1' l2'.
Proof.
  intros A B R l1 l2 l2' HF HP. revert l1 HF.
  induction HP; intros l1 HF.
  - inversion HF; subst. exists []. auto.
  - inversion HF; subst. destruct (IHHP _ H3) as (m & Pm & Fm).
    exists (x0 :: m). split; auto.
  - inversion HF; subst. inversion H3; subst.
    exists (x1 :: x0 :: l1). split; auto. apply perm_swap.
  - destruct (IHHP1 _ HF) as (m & Pm & Fm). destruct (IHHP2 _ Fm) as (m' & Pm' & Fm').
    exists m'. split; auto. eapply Permutation_trans; eauto.
Qed.

(** Main lemma on successful runs. *)
Lemma apply_ok_spec : forall sf sm code ds out un fixed,
  is_fix_sort sf -> is_msg_sort sm ->
  Forall (fun d => Forall well_formed_range (mfixes d)) ds ->
  apply_rule_fixes sf sm code ds = Ok (out, un, fixed) ->
  exists applied,
    rewrites 0 code (flat_map mfixes applied) out /\
    disjoint_from 0 (zlen code) (flat_map mfixes applied) /\
    (exists ds', Forall2 same_msg ds ds' /\ Permutation ds' (applied ++ un)) /\
    Forall (fun d => mfixes d <> []) applied /\
    (fixed = true <-> applied <> []).
Proof.
  intros sf sm code ds out un fixed Hf Hm Hw H. unfold apply_rule_fixes in H.
  destruct (split_msgs sf ds) as [w u] eqn:Es.
  destruct (apply_loop code 0 (sm w)) as [[[[o l] sk] fx]|] eqn:Ea; simpl in H; [|discriminate].
  unfold slice_from in H.
  destruct (slice code l (zlen code)) as [t|] eqn:Et; simpl in H; [|discriminate].
  inversion H; subst.
  pose proof (split_msgs_forall _ _ _ _ _ Hf Es Hw) as Hw'.
  destruct (split_msgs_same _ _ _ _ Hf Es) as (ds' & F & P & N & U).
  destruct (Hm w) as [Pw Sw].
  pose proof (slice_ok_inv _ _ _ _ _ Et) as (S1 & S2 & _ & St).
  destruct (apply_loop_spec _ _ _ _ _ _ _ (perm_forall _ _ _ _ Pw Hw') Ea S2)
    as (ap & Pa & X & Na & D & R).
  exists ap. split; [|split; [|split; [|split]]]; auto.
  - apply (R t). rewrite (split_at _ code l (zlen code)) by lia.
    rewrite <- St.
    assert (skipn (Z.to_nat (zlen code)) code = []) as ->.
    { apply skipn_all2. unfold zlen; lia. }
    rewrite app_nil_r. constructor.
  - clear -D S2. revert D. generalize (flat_map mfixes ap). generalize 0.
    intros z l0. revert z. induction l0 as [|f l0 IH]; intros z D; simpl in *; [lia|].
    destruct D as (? & ? & ?). auto.
  - exists ds'. split; auto.
    eapply Permutation_trans; [exact P|].
    eapply Permutation_trans; [apply Permutation_app_tail; eapply Permutation_trans; [exact Pw|exact Pa]|].
    rewrite <- app_assoc. apply Permutation_app_head. apply Permutation_app_comm.
Qed.

Lemma apply_ok_reason : forall sf sm code ds out un fixed,
  is_fix_sort sf -> is_msg_sort sm ->
  Forall (fun d => Forall (fun f => 0 <= fpos f) (mfixes d)) ds ->
  apply_rule_fixes sf sm code ds = Ok (out, un, fixed) ->
  exists applied,
    (exists ds', Forall2 same_msg ds ds' /\ Permutation ds' (applied ++ un)) /\
    (fixed = true <-> applied <> []) /\
    (forall d, In d un -> mfixes d = [] \/
       exists a, In a applied /\ clash a d /\ key_le (msg_key a) (msg_key d)) /\
    Forall (fun d => mfixes d <> []) applied.
Proof.
  intros sf sm code ds out un fixed Hf Hm Hw H. unfold apply_rule_fixes in H.
  destruct (split_msgs sf ds) as [w u] eqn:Es.
  destruct (apply_loop code 0 (sm w)) as [[[[o l] sk] fx]|] eqn:Ea; simpl in H; [|discriminate].
  unfold slice_from in H.
  destruct (slice code l (zlen code)) as [t|] eqn:Et; simpl in H; [|discriminate].
  inversion H; subst.
  pose proof (split_msgs_forall _ _ _ _ _ Hf Es Hw) as Hw'.
  destruct (split_msgs_same _ _ _ _ Hf Es) as (ds' & F & P & N & U).
  destruct (Hm w) as [Pw Sw].
  destruct (apply_loop_reason code (sm w) 0 o l sk fixed [] Ea Sw (or_introl eq_refl)
              (perm_forall _ _ _ _ Pw Hw')) as (ap & Pa & X & R).
  exists ap. split; [|split; [|split]]; auto.
  - exists ds'. split; auto.
    eapply Permutation_trans; [exact P|].
    eapply Permutation_trans; [apply Permutation_app_tail; eapply Permutation_trans; [exact Pw|exact Pa]|].
    rewrite <- app_assoc. apply Permutation_app_head. apply Permutation_app_comm.
  - intros d Hd. apply in_app_or in Hd. destruct Hd as [Hd|Hd].
    + left. rewrite Forall_forall in U. auto.
    + right. apply R in Hd. exact Hd.
  - assert (Forall (fun d => mfixes d <> []) (ap ++ sk)).
    { eapply perm_forall; [exact Pa|]. eapply perm_forall; [exact Pw|exact N]. }
    apply Forall_app in H0. tauto.
Qed.

Lemma apply_progress : forall sf sm code ds out un fixed,
  is_fix_sort sf -> is_msg_sort sm ->
  Forall (fun d => Forall (fun f => 0 <= fpos f) (mfixes d)) ds ->
  apply_rule_fixes sf sm code ds = Ok (out, un, fixed) ->
  (fixed = true <-> exists d, In d ds /\ mfixes d <> []) /\
  (fixed = true -> (length un < length ds)%nat) /\
  (fixed = false -> out = code /\ Permutation un ds).
Proof.
  intros sf sm code ds out un fixed Hf Hm Hw H.
  destruct (apply_ok_reason _ _ _ _ _ _ _ Hf Hm Hw H) as (ap & (ds' & F & P) & X & R & N).
  assert (forall d d' : msg, same_msg d d' -> mfixes d' <> [] -> mfixes d <> []) as SM.
  { intros d d' [_ Pm] Hn E. rewrite E in Pm. apply Permutation_nil in Pm. auto. }
  assert (forall d d' : msg, same_msg d d' -> mfixes d <> [] -> mfixes d' <> []) as SM2.
  { intros d d' [_ Pm] Hn E. rewrite E in Pm. apply Permutation_sym, Permutation_nil in Pm. auto. }
  assert (length ds = length ds') as L by (clear -F; induction F; simpl; auto).
  assert (X2 : fixed = true <-> exists d, In d ds /\ mfixes d <> []).
  { split.
    - intro E. apply X in E. destruct ap as [|a ap]; [congruence|]. inversion N; subst.
      assert (In a ds') as Hin.
      { eapply Permutation_in; [apply Permutation_sym; exact P|simpl; auto]. }
      clear -F Hin SM H2. induction F; simpl in *; [tauto|].
      destruct Hin as [->|Hin].
      + exists x. split; auto. eapply SM; eauto.
      + destruct IHF as (d & ? & ?); auto. exists d; auto.
    - intros (d & Hd & Hn). apply X. intro E. subst ap.
      assert (exists d', In d' ds' /\ mfixes d' <> []) as (d' & Hd' & Hn').
      { clear -F Hd Hn SM2. induction F; simpl in *; [tauto|].
        destruct Hd as [->|Hd].
        - exists y. split; auto. eapply SM2; eauto.
        - destruct IHF as (d' & ? & ?); auto. exists d'; auto. }
      assert (In d' un) as Hu by (eapply Permutation_in; [exact P|exact Hd']).
      destruct (R _ Hu) as [?|(a & [] & _)]. auto. }
  split; [exact X2|split].
  - intro E. apply X in E. apply Permutation_length in P. rewrite app_length in P.
    destruct ap; [congruence|]. simpl in P. lia.
  - intro E. subst fixed. unfold apply_rule_fixes in H.
    assert (forall d, In d ds -> mfixes d = []) as Hall.
    { intros d Hd. destruct (mfixes d) eqn:Em; auto.
      exfalso. assert (false = true); [|discriminate].
      apply X2. exists d. rewrite Em. split; auto. discriminate. }
    assert (split_msgs sf ds = ([], ds)) as Es.
    { clear -Hall. induction ds as [|d ds IH]; auto. simpl.
      rewrite IH by (intros; apply Hall; simpl; auto).
      rewrite Hall by (simpl; auto). reflexivity. }
    rewrite Es in H. destruct (Hm []) as [Pn _]. apply Permutation_nil in Pn. rewrite Pn in H.
    simpl in H. unfold slice_from, slice in H.
    pose proof (zlen_nonneg _ code).
    replace (0 <=? zlen code) with true in H by (symmetry; lia).
    replace (zlen code <=? zlen code) with true in H by (symmetry; lia).
    simpl in H. inversion H; subst. rewrite app_nil_r. split; auto.
    replace (zlen code - 0) with (zlen code) by lia. unfold zlen. rewrite Nat2Z.id. apply firstn_all.
Qed.

(** [rewrites] is a function of the edits, and it can be undone. *)
Lemma rewrites_pos_ge : forall p rest es out,
  rewrites p rest es out -> forall e, In e es -> p <= fpos e.
Proof.
  induction 1; intros e0 Hin; simpl in *; try tauto.
  - apply IHrewrites in Hin. lia.
  - destruct Hin as [->|Hin]; [lia|]. apply IHrewrites in Hin.
    pose proof (zlen_nonneg _ del). lia.
Qed.

Lemma app_inj_len : forall (A : Type) (a c x y : list A),
  a ++ x = c ++ y -> length a = length c -> a = c /\ x = y.
Proof.
  induction a as [|h a IH]; destruct c; simpl; intros x y H L; try discriminate; auto.
  inversion H; subst. apply IH in H2; [|lia]. destruct H2; subst; auto.
Qed.

Lemma rewrites_fun : forall p rest es out,
  rewrites p rest es out -> forall out', rewrites p rest es out' -> out = out'.
Proof.
  induction 1; intros out' H'.
  - remember (@nil fix_) as es0. induction H'; subst; auto; try discriminate.
    f_equal. auto.
  - inversion H'; subst.
    + f_equal. clear -H. remember (@nil fix_) as es0.
      induction H; subst; auto; try discriminate. f_equal; auto.
    + f_equal. auto.
    + exfalso. eapply rewrites_pos_ge with (e := e) in H; simpl; auto. lia.
  - inversion H'; subst.
    + exfalso.
      match goal with X : rewrites (fpos e + 1) _ _ _ |- _ =>
        eapply rewrites_pos_ge with (e := e) in X; simpl; auto; lia end.
    + match goal with E : _ ++ _ = del ++ rest |- _ => apply app_inj_len in E; [destruct E; subst|unfold zlen in *; lia] end.
      f_equal. auto.
Qed.

Lemma rewrites_undo : forall p rest es out,
  rewrites p rest es out ->
  exists dels, Forall2 (fun e del => zlen del = fend e - fpos e) es dels /\
    undoes out (combine (map ftext es) dels) rest.
Proof.
  induction 1.
  - exists []. split; constructor.
  - destruct IHrewrites as (dels & F & U). exists dels. split; auto. constructor; auto.
  - destruct IHrewrites as (dels & F & U). exists (del :: dels). split.
    + constructor; auto. lia.
    + simpl. constructor. auto.
Qed.

Lemma rewrites_length : forall p rest es out,
  rewrites p rest es out ->
  zlen out = zlen rest + fold_right (fun e s => zlen (ftext e) - (fend e - fpos e) + s) 0 es.
Proof.
  assert (zc : forall c (l : list byte), zlen (c :: l) = 1 + zlen l)
    by (intros; unfold zlen; cbn [length]; lia).
  assert (za : forall l l' : list byte, zlen (l ++ l') = zlen l + zlen l')
    by (intros; unfold zlen; rewrite app_length; lia).
  induction 1; cbn [fold_right].
  - lia.
  - rewrite !zc. lia.
  - rewrite !za. lia.
Qed.

(** Totality. *)
Lemma sorted_disjoint : forall fs lo hi,
  StronglySorted (fun x y => key_le (fix_key x) (fix_key y)) fs ->
  ForallOrdPairs no_overlap fs ->
  Forall (fun f => lo <= fpos f /\ fpos f <= fend f /\ fend f <= hi) fs -> lo <= hi ->
  disjoint_from lo hi fs.
Proof.
  induction fs as [|f fs IH]; intros lo hi Hs Hp Hr Hlh; simpl; [lia|].
  inversion Hs; subst. inversion Hp; subst. inversion Hr; subst.
  repeat split; try lia. apply IH; auto; try lia.
  rewrite Forall_forall in *. intros g Hg.
  specialize (H2 g Hg). specialize (H3 g Hg). specialize (H6 g Hg). cbn beta in H6.
  unfold key_le, fix_key, no_overlap in *. simpl in *. lia.
Qed.

Lemma write_fixes_total : forall code fs last,
  0 <= last -> disjoint_from last (zlen code) fs ->
  exists o last', write_fixes code last fs = Ok (o, last') /\ last <= last' /\ last' <= zlen code.
Proof.
  intros code fs. induction fs as [|f fs IH]; intros last H0 Hd; simpl in *.
  - exists [], last. repeat split; auto; lia.
  - destruct Hd as (D1 & D2 & D3).
    destruct (IH (fend f)) as (o & l & E & L1 & L2); auto; try lia.
    assert (forall z fs, disjoint_from z (zlen code) fs -> z <= zlen code) as DL.
    { intros z fs0; revert z; induction fs0; intros z Hz; simpl in Hz; [lia|].
      destruct Hz as (? & ? & Hz). apply IHfs0 in Hz. lia. }
    rewrite slice_ok by (auto; try lia; specialize (DL _ _ D3); lia).
    simpl. rewrite E. simpl. do 2 eexists. split; [reflexivity|]. lia.
Qed.

Lemma apply_loop_total : forall code ds last,
  0 <= last -> last <= zlen code ->
  Forall (fun d => mfixes d <> [] /\ disjoint_from 0 (zlen code) (mfixes d)) ds ->
  exists o last' un fx, apply_loop code last ds = Ok (o, last', un, fx) /\
    0 <= last' <= zlen code.
Proof.
  intros code ds. induction ds as [|d ds IH]; intros last H0 H1 HF; simpl.
  - exists [], last, [], false. split; auto; lia.
  - inversion HF as [|? ? [Hne Hd] Hds]; subst.
    destruct (mfixes d) as [|f0 fr] eqn:Ef; [congruence|].
    destruct (fpos f0 <? last) eqn:El.
    + destruct (IH last H0 H1 Hds) as (o & l & un & fx & E & L). rewrite E. simpl.
      do 4 eexists. split; [reflexivity|]. exact L.
    + destruct (write_fixes_total code (f0 :: fr) last) as (o1 & l1 & E1 & L1 & L2); auto.
      { simpl in *. destruct Hd as (? & ? & ?). repeat split; auto; lia. }
      rewrite E1. cbn [rbind].
      destruct (IH l1) as (o & l & un & fx & E & L); auto; try lia. rewrite E. simpl.
      do 4 eexists. split; [reflexivity|]. exact L.
Qed.

Lemma fop_perm : forall (A : Type) (R : A -> A -> Prop) l l',
  (forall x y, R x y -> R y x) ->
  Permutation l l' -> ForallOrdPairs R l -> ForallOrdPairs R l'.
Proof.
  intros A R l l' Hsym HP. induction HP; intro HF; auto.
  - inversion HF; subst. constructor; auto. eapply perm_forall; eauto.
  - inversion HF; subst. inversion H2; subst. inversion H1; subst.
    constructor; [constructor; auto|]. constructor; auto.
Qed.

Lemma apply_total : forall sf sm code ds,
  is_fix_sort sf -> is_msg_sort sm ->
  Forall (fun d => ForallOrdPairs no_overlap (mfixes d) /\
    Forall (in_range (zlen code)) (mfixes d)) ds ->
  exists r, apply_rule_fixes sf sm code ds = Ok r.
Proof.
  intros sf sm code ds Hf Hm HF. unfold apply_rule_fixes.
  destruct (split_msgs sf ds) as [w u] eqn:Es.
  assert (Forall (fun d => mfixes d <> [] /\ disjoint_from 0 (zlen code) (mfixes d)) w) as Hw.
  { revert w u Es. induction ds as [|d ds IH]; intros w u Es; simpl in Es.
    - inversion Es; auto.
    - destruct (split_msgs sf ds) as [w1 u1]. inversion HF as [|? ? [Hp Hr] Hds]; subst.
      specialize (IH Hds _ _ eq_refl).
      destruct (mfixes d) as [|f fr] eqn:Ef; inversion Es; subst; auto.
      constructor; auto. simpl. destruct (Hf (f :: fr)) as [P S]. split.
      + intro E. rewrite E in P. apply Permutation_sym, Permutation_nil in P. discriminate.
      + apply sorted_disjoint; auto using zlen_nonneg.
        * eapply fop_perm; eauto. unfold no_overlap; intros; tauto.
        * eapply perm_forall; eauto. }
  destruct (Hm w) as [Pw _].
  destruct (apply_loop_total code (sm w) 0) as (o & l & un & fx & E & L);
    auto using zlen_nonneg; try lia.
  { eapply perm_forall; eauto. }
  rewrite E. cbn [rbind]. unfold slice_from. rewrite slice_ok by lia. simpl. eauto.
Qed.

(** Determinism. *)
Lemma key_le_antisym : forall a c, key_le a c -> key_le c a -> a = c.
Proof. intros [x y] [z w]; unfold key_le; simpl; intros. assert (x = z) by lia. assert (y = w) by lia. subst; auto. Qed.

Lemma sorted_unique : forall (A : Type) (key : A -> Z * Z) l l',
  Permutation l l' ->
  StronglySorted (fun x y => key_le (key x) (key y)) l ->
  StronglySorted (fun x y => key_le (key x) (key y)) l' ->
  NoDup (map key l) -> l = l'.
Proof.
  intros A key l. induction l as [|x l IH]; intros l' HP S1 S2 ND.
  - apply Permutation_nil in HP. auto.
  - destruct l' as [|y l']; [apply Permutation_sym, Permutation_nil in HP; discriminate|].
    inversion S1; subst. inversion S2; subst. inversion ND; subst.
    assert (x = y).
    { assert (In x (y :: l')) as Hx by (eapply Permutation_in; [exact HP|simpl; auto]).
      assert (In y (x :: l)) as Hy by (eapply Permutation_in; [apply Permutation_sym; exact HP|simpl; auto]).
      destruct Hx as [->|Hx]; auto. destruct Hy as [->|Hy]; auto.
      rewrite Forall_forall in *. exfalso. apply H5.
      assert (key x = key y) as -> by (apply key_le_antisym; auto).
      apply in_map; auto. }
    subst y. f_equal. apply IH; auto. eapply Permutation_cons_inv; eauto.
Qed.

Lemma apply_deterministic : forall sf1 sf2 sm1 sm2 code ds,
  is_fix_sort sf1 -> is_fix_sort sf2 -> is_msg_sort sm1 -> is_msg_sort sm2 ->
  Forall (fun d => NoDup (map fix_key (mfixes d))) ds ->
  NoDup (map msg_key (fst (split_msgs sf1 ds))) ->
  apply_rule_fixes sf1 sm1 code ds = apply_rule_fixes sf2 sm2 code ds.
Proof.
  intros sf1 sf2 sm1 sm2 code ds H1 H2 H3 H4 HF ND. unfold apply_rule_fixes.
  assert (split_msgs sf1 ds = split_msgs sf2 ds) as E.
  { clear ND. induction ds as [|d ds IH]; auto. inversion HF; subst. simpl. rewrite IH by auto.
    destruct (split_msgs sf2 ds). destruct (mfixes d) as [|f fr] eqn:Ef; auto.
    assert (sf1 (f :: fr) = sf2 (f :: fr)) as ->; [|reflexivity].
    apply (sorted_unique _ fix_key).
    - eapply Permutation_trans; [apply Permutation_sym; apply H1|apply H2].
    - apply H1.
    - apply H2.
    - eapply Permutation_NoDup; [|eassumption]. apply Permutation_map. apply H1. }
  rewrite <- E. destruct (split_msgs sf1 ds) as [w u]. simpl in ND.
  assert (sm1 w = sm2 w) as ->; [|reflexivity].
  apply (sorted_unique _ msg_key).
  - eapply Permutation_trans; [apply Permutation_sym; apply H3|apply H4].
  - apply H3.
  - apply H4.
  - eapply Permutation_NoDup; [|eassumption]. apply Permutation_map. apply H3.
Qed.

Lemma last_cons : forall (l : list fix_) y d, last (y :: l) d = last l y.
Proof.
  induction l as [|z l IH]; intros; auto.
  change (last (y :: z :: l) d) with (last (z :: l) d). rewrite !IH. reflexivity.
Qed.

Lemma sorted_span : forall sf id fs,
  is_fix_sort sf -> fs <> [] -> is_span (mkMsg id fs) (msg_key (mkMsg id (sf fs))).
Proof.
  intros sf id fs Hs Hne. destruct (Hs fs) as [P S]. unfold msg_key. simpl.
  destruct (sf fs) as [|f fr] eqn:E.
  { apply Permutation_sym, Permutation_nil in P. congruence. }
  assert (In (last fr f) (f :: fr)) as Hl.
  { destruct fr; simpl; auto. right.
    assert (forall (l : list fix_) x d, In (last (x :: l) d) (x :: l)) as A.
    { induction l as [|y l IH]; intros; simpl; auto. right. apply (IH y d). }
    apply A. }
  assert (forall (l : list fix_) x h,
    StronglySorted (fun x y => key_le (fix_key x) (fix_key y)) (x :: l) ->
    In h (x :: l) -> key_le (fix_key h) (fix_key (last l x))) as B.
  { induction l as [|y l IH]; intros x h Hss Hin.
    - simpl in *. destruct Hin as [->|[]]. unfold key_le; lia.
    - inversion Hss; subst. inversion H2; subst.
      destruct Hin as [->|Hin].
      + assert (last (y :: l) h = last l y) as ->.
        { apply last_cons. }
        pose proof (IH y y H1 (or_introl eq_refl)). unfold key_le in *. lia.
      + assert (last (y :: l) x = last l y) as ->.
        { apply last_cons. }
        apply IH; auto. }
  exists f, (last fr f). simpl. repeat split.
  - eapply Permutation_in; [apply Permutation_sym; exact P|simpl; auto].
  - eapply Permutation_in; [apply Permutation_sym; exact P|exact Hl].
  - intros h Hh. eapply Permutation_in in Hh; [|exact P]. inversion S; subst.
    destruct Hh as [->|Hh]; [unfold key_le; lia|]. rewrite Forall_forall in *; auto.
  - intros h Hh. eapply Permutation_in in Hh; [|exact P]. apply B; auto.
Qed.

Lemma is_span_id : forall (d : msg) k, is_span d k <-> is_span (mkMsg 0%nat (mfixes d)) k.
Proof. intros. reflexivity. Qed.

Lemma no_ties_nodup : forall sf ds,
  is_fix_sort sf -> no_ties ds -> NoDup (map msg_key (fst (split_msgs sf ds))).
Proof.
  intros sf ds Hs [_ HP]. induction ds as [|d ds IH]; simpl; [constructor|].
  inversion HP as [|? ? Hd Hds]; subst. specialize (IH Hds).
  assert (forall k, In k (map msg_key (fst (split_msgs sf ds))) ->
            exists d', In d' ds /\ is_span d' k) as Hk.
  { clear -Hs. induction ds as [|d ds IH]; simpl; intros k Hin; [tauto|].
    destruct (split_msgs sf ds) as [w u]. destruct (mfixes d) as [|f fr] eqn:Ef; simpl in *.
    - destruct (IH _ Hin) as (d' & ? & ?). exists d'; auto.
    - destruct Hin as [<-|Hin].
      + exists d. split; auto. apply is_span_id. rewrite Ef.
        apply (sorted_span sf 0%nat (f :: fr)); auto. discriminate.
      + destruct (IH _ Hin) as (d' & ? & ?). exists d'; auto. }
  destruct (split_msgs sf ds) as [w u]. destruct (mfixes d) as [|f fr] eqn:Ef; simpl in *; auto.
  constructor; auto. intro Hin. destruct (Hk _ Hin) as (d' & Hd' & Sp).
  rewrite Forall_forall in Hd. eapply Hd; eauto. apply is_span_id. rewrite Ef.
  apply (sorted_span sf 0%nat (f :: fr)); auto. discriminate.
Qed.

Lemma apply_deterministic_no_ties : forall sf1 sf2 sm1 sm2 code ds,
  is_fix_sort sf1 -> is_fix_sort sf2 -> is_msg_sort sm1 -> is_msg_sort sm2 ->
  no_ties ds ->
  apply_rule_fixes sf1 sm1 code ds = apply_rule_fixes sf2 sm2 code ds.
Proof.
  intros. apply apply_deterministic; auto.
  - apply H3.
  - apply no_ties_nodup; auto.
Qed.

End Proofs.

(** A concrete sort (insertion sort, stable), used for the examples. *)
Definition key_leb (a c : Z * Z) : bool :=
  (fst a <? fst c) || ((fst a =? fst c) && (snd a <=? snd c)).

Lemma key_leb_spec : forall a c, key_leb a c = true <-> key_le a c.
Proof. intros [x y] [z w]. unfold key_leb, key_le; simpl. lia. Qed.

Lemma key_leb_total : forall a c, key_leb a c = false -> key_le c a.
Proof. intros [x y] [z w]. unfold key_leb, key_le; simpl. lia. Qed.

Section ISort.
Context {A : Type} (key : A -> Z * Z).
Fixpoint insert (x : A) (l : list A) : list A :=
  match l with
  | [] => [x]
  | y :: l' => if key_leb (key x) (key y) then x :: l else y :: insert x l'
  end.
Fixpoint isort (l : list A) : list A :=
  match l with [] => [] | x :: l' => insert x (isort l') end.

(** The same with ties resolved the other way round. *)
Fixpoint insert_r (x : A) (l : list A) : list A :=
  match l with
  | [] => [x]
  | y :: l' => if key_leb (key y) (key x) then y :: insert_r x l' else x :: l
  end.
Fixpoint isort_r (l : list A) : list A :=
  match l with [] => [] | x :: l' => insert_r x (isort_r l') end.

Notation sorted := (StronglySorted (fun x y => key_le (key x) (key y))).

Lemma insert_perm : forall x l, Permutation (x :: l) (insert x l).
Proof.
  induction l as [|y l IH]; simpl; auto. destruct (key_leb (key x) (key y)); auto.
  eapply Permutation_trans; [apply perm_swap|]. apply perm_skip; auto.
Qed.
Lemma insert_r_perm : forall x l, Permutation (x :: l) (insert_r x l).
Proof.
  induction l as [|y l IH]; simpl; auto. destruct (key_leb (key y) (key x)); auto.
  eapply Permutation_trans; [apply perm_swap|]. apply perm_skip; auto.
Qed.
Lemma key_le_trans : forall a c e, key_le a c -> key_le c e -> key_le a e.
Proof. unfold key_le; intros; lia. Qed.
Lemma insert_sorted : forall x l, sorted l -> sorted (insert x l).
Proof.
  induction l as [|y l IH]; intro H; simpl; [constructor; auto|].
  inversion H; subst. destruct (key_leb (key x) (key y)) eqn:E.
  - apply key_leb_spec in E. constructor; auto. constructor; auto.
    rewrite Forall_forall in *. intros z Hz. eapply key_le_trans; eauto.
  - apply key_leb_total in E. constructor; auto.
    eapply perm_forall; [apply insert_perm|]. constructor; auto.
Qed.
Lemma insert_r_sorted : forall x l, sorted l -> sorted (insert_r x l).
Proof.
  induction l as [|y l IH]; intro H; simpl; [constructor; auto|].
  inversion H; subst. destruct (key_leb (key y) (key x)) eqn:E.
  - apply key_leb_spec in E. constructor; auto.
    eapply perm_forall; [apply insert_r_perm|]. constructor; auto.
  - apply key_leb_total in E. constructor; auto. constructor; auto.
    rewrite Forall_forall in *. intros z Hz. eapply key_le_trans; eauto.
Qed.
Lemma isort_ok : forall l, Permutation l (isort l) /\ sorted (isort l).
Proof.
  induction l as [|x l [P S]]; simpl; [split; constructor|]. split.
  - eapply Permutation_trans; [apply perm_skip; exact P|apply insert_perm].
  - apply insert_sorted; auto.
Qed.
Lemma isort_r_ok : forall l, Permutation l (isort_r l) /\ sorted (isort_r l).
Proof.
  induction l as [|x l [P S]]; simpl; [split; constructor|]. split.
  - eapply Permutation_trans; [apply perm_skip; exact P|apply insert_r_perm].
  - apply insert_r_sorted; auto.
Qed.
End ISort.

Definition fsort {byte} : list (fix_ byte) -> list (fix_ byte) := isort fix_key.
Definition msort {byte} : list (msg byte) -> list (msg byte) := isort msg_key.
Definition msort_r {byte} : list (msg byte) -> list (msg byte) := isort_r msg_key.
Lemma fsort_ok : forall byte, is_fix_sort (@fsort byte).
Proof. intros byte l. apply isort_ok. Qed.
Lemma msort_ok : forall byte, is_msg_sort (@msort byte).
Proof. intros byte l. apply isort_ok. Qed.
Lemma msort_r_ok : forall byte, is_msg_sort (@msort_r byte).
Proof. intros byte l. apply isort_r_ok. Qed.

(** ** The comparison functions *)

Lemma sorted_weaken : forall (A : Type) (R S : A -> A -> Prop) l,
  (forall x y, R x y -> S x y) -> StronglySorted R l -> StronglySorted S l.
Proof.
  intros A R S l HRS H. induction H; constructor; auto.
  eapply Forall_impl; [|exact H0]. auto.
Qed.

Lemma correct_fix_sort : forall (byte : Type) (s : list (fix_ byte) -> list (fix_ byte)),
  correct_sort cmp_fix s -> is_fix_sort s.
Proof.
  intros byte s H l. destruct (H l) as [H1 H2]. split; auto.
  eapply sorted_weaken; [|exact H2]. intros x y E. unfold cmp_fix in E.
  unfold key_le, fix_key. cbn. destruct (Z.eqb_spec (fpos x - fpos y) 0); lia.
Qed.

Lemma correct_msg_sort : forall (byte : Type) (s : list (msg byte) -> list (msg byte)),
  correct_sort cmp_msg s -> is_msg_sort s.
Proof.
  intros byte s H l. destruct (H l) as [H1 H2]. split; auto.
  eapply sorted_weaken; [|exact H2]. intros x y E. unfold cmp_msg, first_pos, last_end in E.
  unfold key_le, msg_key.
  destruct (mfixes x), (mfixes y); cbn [fst snd];
    match type of E with (if ?c then _ else _) <= _ => destruct c eqn:Ez end;
    rewrite ?Z.eqb_eq, ?Z.eqb_neq in Ez; lia.
Qed.

Lemma fix_sort_correct : forall (byte : Type) (s : list (fix_ byte) -> list (fix_ byte)),
  is_fix_sort s -> correct_sort cmp_fix s.
Proof.
  intros byte s H l. destruct (H l) as [H1 H2]. split; auto.
  eapply sorted_weaken; [|exact H2]. intros x y. unfold cmp_fix, key_le, fix_key. cbn.
  destruct (Z.eqb_spec (fpos x - fpos y) 0); lia.
Qed.

Lemma msg_sort_correct : forall (byte : Type) (s : list (msg byte) -> list (msg byte)),
  is_msg_sort s -> correct_sort cmp_msg s.
Proof.
  intros byte s H l. destruct (H l) as [H1 H2]. split; auto.
  eapply sorted_weaken; [|exact H2]. intros x y E. unfold cmp_msg, first_pos, last_end.
  unfold key_le, msg_key in E.
  destruct (mfixes x), (mfixes y); cbn [fst snd] in *;
    match goal with |- (if ?c then _ else _) <= _ => destruct c eqn:Ez end;
    rewrite ?Z.eqb_eq, ?Z.eqb_neq in Ez; lia.
Qed.
