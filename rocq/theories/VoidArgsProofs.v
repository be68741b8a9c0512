From Coq Require Import Bool Arith List Lia Sorted.
From Verif Require Import VoidArgs VoidArgsSpec.
Import ListNotations.

Lemma thenable_iff : forall t, returns_thenable t = true <-> takes_promise t.
Proof.
  intros t. unfold returns_thenable, any_signature_thenable, takes_promise. rewrite existsb_exists. split.
  - intros [s [I E]]. apply existsb_exists in E. destruct E as [r [J E]]. eauto.
  - intros [s [r [I [J E]]]]. exists s. split; auto. apply existsb_exists. eauto.
Qed.
Lemma signatures_void_spec : forall sigs had,
  signatures_void sigs had = if existsb thenable sigs then None else Some (had || existsb void sigs).
Proof.
  induction sigs as [|r l IH]; intros had; cbn [signatures_void existsb].
  - rewrite orb_false_r. reflexivity.
  - destruct (thenable r); cbn [orb]; auto. rewrite IH. destruct (existsb thenable l); auto. rewrite orb_assoc. reflexivity.
Qed.
Lemma parts_void_spec : forall l had,
  parts_void l had = negb (existsb (existsb thenable) l) && (had || existsb (existsb void) l).
Proof.
  induction l as [|s l IH]; intros had; cbn [parts_void existsb].
  - rewrite orb_false_r. reflexivity.
  - rewrite signatures_void_spec. destruct (existsb thenable s); cbn [orb negb andb]; auto. rewrite IH, orb_assoc. reflexivity.
Qed.
Lemma void_iff : forall t, void_returning t = true <-> takes_void t.
Proof.
  intros t. unfold void_returning. rewrite parts_void_spec. cbn [orb]. rewrite andb_true_iff, negb_true_iff. unfold takes_void.
  assert (A : existsb (existsb thenable) (parts t) = false <-> ~ takes_promise t).
  { rewrite <- thenable_iff. unfold returns_thenable. change any_signature_thenable with (existsb thenable). rewrite <- not_true_iff_false. tauto. }
  rewrite A. rewrite existsb_exists. split.
  - intros [N [s [I E]]]. apply existsb_exists in E. destruct E as [r [J E]]. split; eauto.
  - intros [N [s [r [I [J E]]]]]. split; auto. exists s. split; auto. apply existsb_exists. eauto.
Qed.

(** * The events *)
Definition step (s : state) (q : nat * ty) : state := note (snd q) (fst q) s.
Definition both (contextual : nat -> ty) (i : nat) (t : ty) : list (nat * ty) :=
  if Nat.eq_dec (id (contextual i)) (id t) then [(i, t)] else [(i, t); (i, contextual i)].
Definition param_events (contextual : nat -> ty) (n k : nat) (p : param) : list (nat * ty) :=
  match p with
  | One t => both contextual k t
  | Rest t => flat_map (fun i => both contextual i t) (seq k (n - k))
  | RestTuple ts => flat_map (fun q => if Nat.ltb (fst q) n then both contextual (fst q) (snd q) else []) (combine (seq k (List.length ts)) ts)
  | RestOther => []
  end.
Definition sig_events (contextual : nat -> ty) (n k : nat) (ps : list param) : list (nat * ty) :=
  flat_map (fun q => param_events contextual n (fst q) (snd q)) (combine (seq k (List.length ps)) ps).

Lemma check_argument_events : forall c t i s, check_argument c t i s = fold_left step (both c i t) s.
Proof. intros c t i s. unfold check_argument, both. destruct (Nat.eq_dec _ _) as [E|E]; [apply Nat.eqb_eq in E|apply Nat.eqb_neq in E]; rewrite E; reflexivity. Qed.
Lemma check_all_events : forall c t l s, check_all c t l s = fold_left step (flat_map (fun i => both c i t) l) s.
Proof. induction l as [|i l IH]; intros s; cbn [check_all flat_map]; [reflexivity|]. rewrite fold_left_app, IH, check_argument_events. reflexivity. Qed.
Lemma check_tuple_events : forall c n ts k s,
  check_tuple c n ts k s = fold_left step (flat_map (fun q => if Nat.ltb (fst q) n then both c (fst q) (snd q) else []) (combine (seq k (List.length ts)) ts)) s.
Proof.
  induction ts as [|t ts IH]; intros k s; cbn [check_tuple List.length seq combine flat_map fst snd]; [reflexivity|].
  rewrite fold_left_app. destruct (Nat.ltb k n) eqn:E.
  - rewrite IH, check_argument_events. reflexivity.
  - cbn [fold_left]. assert (Z : forall l m, n <= m -> flat_map (fun q : nat * ty => if Nat.ltb (fst q) n then both c (fst q) (snd q) else []) (combine (seq m (List.length l)) l) = []).
    { clear. induction l as [|t l IH]; intros m H; cbn [List.length seq combine flat_map fst snd]; auto.
      replace (Nat.ltb m n) with false by (symmetry; apply Nat.ltb_ge; lia). rewrite IH by lia. reflexivity. }
    apply Nat.ltb_ge in E. rewrite Z by lia. reflexivity.
Qed.
Lemma check_params_events : forall c n ps k s, check_params c n ps k s = fold_left step (sig_events c n k ps) s.
Proof.
  induction ps as [|p ps IH]; intros k s; cbn [check_params]; [reflexivity|].
  unfold sig_events. cbn [List.length seq combine flat_map fst snd]. rewrite fold_left_app, IH. unfold sig_events. f_equal.
  destruct p; cbn [param_events]; [apply check_argument_events|apply check_all_events|apply check_tuple_events|reflexivity].
Qed.
Lemma check_signatures_events : forall c n sigs s, check_signatures c n sigs s = fold_left step (flat_map (sig_events c n 0) sigs) s.
Proof. induction sigs as [|ps l IH]; intros s; cbn [check_signatures flat_map]; [reflexivity|]. rewrite fold_left_app, IH, check_params_events. reflexivity. Qed.

(** * The events of one argument *)
Definition at_ (i : nat) (l : list (nat * ty)) : list ty := flat_map (fun q => if Nat.eq_dec (fst q) i then [snd q] else []) l.
Lemma at_app : forall i a c, at_ i (a ++ c) = at_ i a ++ at_ i c.
Proof. intros. apply flat_map_app. Qed.
Definition follow (c : nat -> ty) (i : nat) (t : ty) : list ty := if Nat.eq_dec (id (c i)) (id t) then [t] else [t; c i].
Lemma at_both : forall c i k t, at_ i (both c k t) = if Nat.eqb k i then follow c i t else [].
Proof.
  intros c i k t. destruct (Nat.eqb k i) eqn:E.
  - apply Nat.eqb_eq in E. subst k. unfold both, follow, at_. destruct (Nat.eq_dec (id (c i)) (id t)); cbn [flat_map fst snd]; destruct (Nat.eq_dec i i); try congruence; reflexivity.
  - apply Nat.eqb_neq in E. unfold both, at_. destruct (Nat.eq_dec (id (c k)) (id t)); cbn [flat_map fst snd]; destruct (Nat.eq_dec k i); try congruence; reflexivity.
Qed.
Lemma at_seq : forall c i t m k, at_ i (flat_map (fun j => both c j t) (seq k m)) = if Nat.leb k i && Nat.ltb i (k + m) then follow c i t else [].
Proof.
  intros c i t. induction m as [|m IH]; intros k; cbn [seq flat_map].
  - replace (Nat.leb k i && Nat.ltb i (k + 0)) with false; [reflexivity|]. symmetry. apply andb_false_iff. destruct (Nat.leb k i) eqn:E; auto. right. apply Nat.leb_le in E. apply Nat.ltb_ge. lia.
  - rewrite at_app, at_both, IH. destruct (Nat.eqb k i) eqn:E.
    + apply Nat.eqb_eq in E. subst k. replace (Nat.leb (S i) i) with false by (symmetry; apply Nat.leb_gt; lia). cbn [andb]. rewrite app_nil_r.
      replace (Nat.leb i i) with true by (symmetry; apply Nat.leb_le; lia). replace (Nat.ltb i (i + S m)) with true by (symmetry; apply Nat.ltb_lt; lia). reflexivity.
    + apply Nat.eqb_neq in E. cbn [app]. replace (S k + m) with (k + S m) by lia. f_equal.
      destruct (Nat.leb k i) eqn:L; [apply Nat.leb_le in L; replace (Nat.leb (S k) i) with true by (symmetry; apply Nat.leb_le; lia)|apply Nat.leb_gt in L; replace (Nat.leb (S k) i) with false by (symmetry; apply Nat.leb_gt; lia)]; reflexivity.
Qed.
Lemma at_tuple : forall c n i ts k, i < n ->
  at_ i (flat_map (fun q => if Nat.ltb (fst q) n then both c (fst q) (snd q) else []) (combine (seq k (List.length ts)) ts))
  = if Nat.leb k i then match nth_error ts (i - k) with Some t => follow c i t | None => [] end else [].
Proof.
  intros c n i ts. induction ts as [|t ts IH]; intros k L; cbn [List.length seq combine flat_map fst snd].
  - destruct (Nat.leb k i); auto. destruct (i - k); reflexivity.
  - rewrite at_app, IH by auto. destruct (Nat.eq_dec k i) as [->|N].
    + replace (Nat.ltb i n) with true by (symmetry; apply Nat.ltb_lt; lia). rewrite at_both, Nat.eqb_refl.
      replace (Nat.leb (S i) i) with false by (symmetry; apply Nat.leb_gt; lia). replace (Nat.leb i i) with true by (symmetry; apply Nat.leb_le; lia).
      replace (i - i) with 0 by lia. cbn [nth_error]. apply app_nil_r.
    + replace (at_ i (if Nat.ltb k n then both c k t else [])) with (@nil ty).
      2:{ destruct (Nat.ltb k n); [|reflexivity]. rewrite at_both. apply Nat.eqb_neq in N. rewrite N. reflexivity. }
      cbn [app]. destruct (Nat.leb k i) eqn:L1.
      * apply Nat.leb_le in L1. replace (Nat.leb (S k) i) with true by (symmetry; apply Nat.leb_le; lia). replace (i - k) with (S (i - S k)) by lia. reflexivity.
      * apply Nat.leb_gt in L1. replace (Nat.leb (S k) i) with false by (symmetry; apply Nat.leb_gt; lia). reflexivity.
Qed.
Lemma at_param : forall c n i k p, i < n -> at_ i (param_events c n k p) = flat_map (follow c i) (says k p i).
Proof.
  intros c n i k [t|t|ts|] L; cbn [param_events says].
  - rewrite at_both. destruct (Nat.eqb k i); cbn [flat_map]; rewrite ?app_nil_r; reflexivity.
  - rewrite at_seq. destruct (Nat.leb k i) eqn:E; cbn [andb flat_map]; auto. apply Nat.leb_le in E.
    replace (Nat.ltb i (k + (n - k))) with true by (symmetry; apply Nat.ltb_lt; lia). rewrite app_nil_r. reflexivity.
  - rewrite at_tuple by auto. destruct (Nat.leb k i); auto. destruct (nth_error ts (i - k)); cbn [flat_map]; rewrite ?app_nil_r; reflexivity.
  - reflexivity.
Qed.
Lemma at_sig : forall c n i ps k, i < n ->
  at_ i (sig_events c n k ps) = flat_map (follow c i) (flat_map (fun q => says (fst q) (snd q) i) (combine (seq k (List.length ps)) ps)).
Proof.
  intros c n i. induction ps as [|p ps IH]; intros k L; [reflexivity|]. unfold sig_events. cbn [List.length seq combine flat_map fst snd].
  rewrite at_app, flat_map_app, at_param by auto. f_equal. apply IH. auto.
Qed.
Lemma at_sigs : forall c n i sigs, i < n -> at_ i (flat_map (sig_events c n 0) sigs) = offered c sigs i.
Proof.
  intros c n i sigs L. unfold offered. fold (follow c i). induction sigs as [|ps l IH]; [reflexivity|]. cbn [flat_map].
  rewrite at_app, flat_map_app, at_sig by auto. f_equal. exact IH.
Qed.

(** * Counting *)
Definition occ (i : nat) (l : list nat) : nat := count_occ Nat.eq_dec l i.
Lemma mem_occ : forall i l, mem i l = negb (Nat.eqb (occ i l) 0).
Proof.
  intros i. induction l as [|x l IH]; auto. unfold mem, occ. cbn [existsb count_occ]. destruct (Nat.eq_dec x i) as [->|N].
  - rewrite Nat.eqb_refl. reflexivity.
  - replace (Nat.eqb i x) with false by (symmetry; apply Nat.eqb_neq; congruence). exact IH.
Qed.
Lemma occ_app : forall i a c, occ i (a ++ c) = occ i a + occ i c.
Proof. intros. apply count_occ_app. Qed.
Lemma occ_one : forall i x, occ i [x] = if Nat.eq_dec x i then 1 else 0.
Proof. intros. unfold occ. cbn [count_occ]. destruct (Nat.eq_dec x i); reflexivity. Qed.
Lemma run_counts : forall i l s v p, counts (at_ i l) v p ->
  occ i (thenables (fold_left step l s)) = occ i (thenables s) + p /\
  occ i (voids (fold_left step l s)) = occ i (voids s) + (if Nat.eqb (occ i (thenables s)) 0 then v else 0).
Proof.
  intros i. induction l as [|[j t] l IH]; intros s v p C.
  - inversion C; subst. cbn [fold_left]. destruct (Nat.eqb _ 0); lia.
  - cbn [fold_left]. unfold step at 2 4. cbn [fst snd]. unfold note.
    unfold at_ in C. cbn [flat_map fst snd] in C. fold (at_ i l) in C. destruct (Nat.eq_dec j i) as [->|N].
    + cbn [app] in C. inversion C as [|? ? v0 p0 T C'|? ? v0 p0 T C'|? ? v0 p0 T T' C']; subst.
      * apply thenable_iff in T. rewrite T. match goal with |- context [fold_left step l ?s0] => destruct (IH s0 v0 p0 C') as [A B] end. cbn [thenables voids] in *.
        rewrite A, B, occ_app, occ_one. destruct (Nat.eq_dec i i); [|congruence]. replace (Nat.eqb (occ i (thenables s) + 1) 0) with false by (symmetry; apply Nat.eqb_neq; lia).
        destruct (Nat.eqb (occ i (thenables s)) 0); split; lia.
      * assert (R : returns_thenable t = false) by (apply not_true_iff_false; rewrite thenable_iff; apply T). rewrite R. apply void_iff in T. rewrite T. cbn [andb].
        rewrite mem_occ, negb_involutive. destruct (Nat.eqb (occ i (thenables s)) 0) eqn:Z.
        -- match goal with |- context [fold_left step l ?s0] => destruct (IH s0 v0 p C') as [A B] end. cbn [thenables voids] in *. rewrite A, B, occ_app, occ_one, Z. destruct (Nat.eq_dec i i); [|congruence]. lia.
        -- destruct (IH s v0 p C') as [A B]. rewrite A, B, Z. lia.
      * assert (R : returns_thenable t = false) by (apply not_true_iff_false; rewrite thenable_iff; exact T). rewrite R.
        assert (R' : void_returning t = false) by (apply not_true_iff_false; rewrite void_iff; exact T'). rewrite R'. cbn [andb]. apply IH. exact C'.
    + cbn [app] in C. destruct (returns_thenable t).
      * match goal with |- context [fold_left step l ?s0] => destruct (IH s0 v p C) as [A B] end. cbn [thenables voids] in *. rewrite A, B, occ_app, occ_one. destruct (Nat.eq_dec j i); [congruence|]. rewrite Nat.add_0_r. split; reflexivity.
      * destruct (void_returning t && negb (mem j (thenables s))); [|apply IH; exact C].
        match goal with |- context [fold_left step l ?s0] => destruct (IH s0 v p C) as [A B] end. cbn [thenables voids] in *. rewrite A, B, occ_app, occ_one. destruct (Nat.eq_dec j i); [congruence|]. split; lia.
Qed.
Lemma occ_delete_first : forall i j l, occ i (delete_first j l) = occ i l - (if Nat.eq_dec j i then 1 else 0).
Proof.
  intros i j. induction l as [|x l IH]; [destruct (Nat.eq_dec j i); reflexivity|]. cbn [delete_first]. destruct (Nat.eqb j x) eqn:E.
  - apply Nat.eqb_eq in E. subst x. unfold occ. cbn [count_occ]. destruct (Nat.eq_dec j i); lia.
  - apply Nat.eqb_neq in E. unfold occ in *. cbn [count_occ]. rewrite IH. destruct (Nat.eq_dec x i); destruct (Nat.eq_dec j i); subst; try congruence; lia.
Qed.
Lemma occ_delete_all : forall i is l, occ i (delete_all is l) = occ i l - occ i is.
Proof.
  intros i. induction is as [|j is IH]; intros l; cbn [delete_all]; [unfold occ; cbn [count_occ]; lia|]. rewrite IH, occ_delete_first. unfold occ. cbn [count_occ]. destruct (Nat.eq_dec j i); lia.
Qed.
Lemma void_arguments_mem : forall c n sigs i v p, i < n -> counts (offered c sigs i) v p ->
  mem i (void_arguments c n sigs) = Nat.ltb p v.
Proof.
  intros c n sigs i v p L C. rewrite mem_occ. unfold void_arguments. rewrite occ_delete_all, check_signatures_events.
  rewrite <- (at_sigs c n) in C by auto. destruct (run_counts i _ {| thenables := []; voids := [] |} v p C) as [A B]. rewrite A, B. cbn [thenables voids]. unfold occ. cbn [count_occ Nat.eqb].
  destruct (Nat.ltb p v) eqn:E; [apply Nat.ltb_lt in E|apply Nat.ltb_ge in E].
  - apply negb_true_iff, Nat.eqb_neq. lia.
  - apply negb_false_iff, Nat.eqb_eq. lia.
Qed.
Lemma counts_total : forall l, exists v p, counts l v p.
Proof.
  induction l as [|t l [v [p C]]]; [exists 0, 0; constructor|]. destruct (returns_thenable t) eqn:T.
  - exists 0, (S p). apply thenable_iff in T. econstructor; eauto.
  - assert (N : ~ takes_promise t) by (rewrite <- thenable_iff; congruence). destruct (void_returning t) eqn:V.
    + exists (S v), p. apply void_iff in V. constructor; auto.
    + exists v, p. apply c_other; auto. rewrite <- void_iff. congruence.
Qed.
Lemma in_report_args : forall v args i k, In i (report_args v args k) <-> k <= i /\ mem i v = true /\ exists a, nth_error args (i - k) = Some a /\ returns_thenable a = true.
Proof.
  intros v. induction args as [|a l IH]; intros i k; cbn [report_args].
  - split; [intros []|]. intros [_ [_ [a [E _]]]]. destruct (i - k); discriminate.
  - rewrite in_app_iff, IH. destruct (Nat.eq_dec i k) as [->|N].
    + replace (k - k) with 0 by lia. cbn [nth_error]. destruct (mem k v && returns_thenable a) eqn:E.
      * apply andb_true_iff in E. destruct E as [E1 E2]. split; [intros _; split; [lia|]; split; auto; eauto|intros _; left; left; reflexivity].
      * split; [intros [[]|[H _]]; lia|]. intros [_ [M [x [X R]]]]. injection X as <-. rewrite M, R in E. discriminate.
    + split.
      * intros [H|[H [M [x [X R]]]]]; [destruct (mem k v && returns_thenable a); [destruct H as [->|[]]; congruence|destruct H]|]. split; [lia|]. split; auto. exists x. replace (i - k) with (S (i - S k)) by lia. auto.
      * intros [H [M [x [X R]]]]. right. split; [lia|]. split; auto. exists x. replace (i - k) with (S (i - S k)) in X by lia. auto.
Qed.
Lemma report_args_sorted : forall v args k, StronglySorted lt (report_args v args k).
Proof.
  intros v. induction args as [|a l IH]; intros k; cbn [report_args]; [constructor|]. destruct (mem k v && returns_thenable a); cbn [app]; auto.
  constructor; auto. apply Forall_forall. intros x I. apply in_report_args in I. lia.
Qed.
Lemma check_arguments_report : forall c sigs args, check_arguments c sigs (Some args) = report_args (void_arguments c (List.length args) sigs) args 0.
Proof.
  intros. unfold check_arguments. destruct (void_arguments c (List.length args) sigs) as [|x l]; [|reflexivity].
  assert (Z : forall k, report_args [] args k = []) by (induction args as [|a l IH]; intros k; [reflexivity|]; cbn [report_args]; rewrite IH; reflexivity). rewrite Z. reflexivity.
Qed.
Lemma counts_none : forall l v p, (forall t, In t l -> ~ takes_promise t) -> counts l v p -> p = 0 /\ (0 < v <-> exists t, In t l /\ takes_void t).
Proof.
  intros l v p H C. induction C as [|t l v p T C IH|t l v p T C IH|t l v p T T' C IH].
  - split; auto. split; [lia|]. intros [t [[] _]].
  - exfalso. apply (H t); [left; reflexivity|exact T].
  - destruct IH as [A B]; [intros u I; apply H; right; exact I|]. split; auto. split; [|lia]. intros _. exists t. split; [left; reflexivity|exact T].
  - destruct IH as [A B]; [intros u I; apply H; right; exact I|]. split; auto. rewrite B. split.
    + intros [u [I U]]. exists u. split; [right; exact I|exact U].
    + intros [u [[<-|I] U]]; [contradiction|]. exists u. auto.
Qed.
Lemma check_accesses_mul : forall k c, check_accesses k c = k * check_access c.
Proof. induction k as [|k IH]; intros c; cbn [check_accesses]; [reflexivity|]. rewrite IH. lia. Qed.
