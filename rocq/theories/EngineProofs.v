From Coq Require Import String Bool List ZArith NArith Permutation Lia.
From Verif Require Import Base Engine EngineSpec.
Import ListNotations.
Open Scope Z_scope.

(** ** Registry *)
Lemma reg_append_lookup {L : Type} (reg : list (Z * list L)) k l k' :
  reg_lookup (reg_append reg k l) k' =
  reg_lookup reg k' ++ (if k =? k' then [l] else []).
Proof.
  induction reg as [|[k0 ls] reg IH]; simpl.
  - now destruct (k =? k').
  - destruct (k0 =? k) eqn:E; simpl.
    + apply Z.eqb_eq in E; subst k0.
      destruct (k =? k') eqn:E'; [reflexivity|].
      now rewrite app_nil_r.
    + destruct (k0 =? k') eqn:E'; [|exact IH].
      destruct (k =? k') eqn:E''; [|now rewrite app_nil_r].
      apply Z.eqb_eq in E', E''; subst. now rewrite Z.eqb_refl in E.
Qed.

Lemma reg_clear_lookup {L : Type} (reg : list (Z * list L)) k :
  reg_lookup (reg_clear reg) k = [].
Proof.
  induction reg as [|[k0 ls] reg IH]; simpl; [reflexivity|].
  now destruct (k0 =? k).
Qed.

Lemma existsb_perm k (l l' : list Z) :
  Permutation l l' -> existsb (Z.eqb k) l = existsb (Z.eqb k) l'.
Proof.
  intros P. apply Bool.eq_iff_eq_true. rewrite !existsb_exists.
  split; intros (x & I & E); exists x; split; auto.
  - now apply (Permutation_in _ P).
  - now apply (Permutation_in _ (Permutation_sym P)).
Qed.

Lemma existsb_notin k l : ~ In k l -> existsb (Z.eqb k) l = false.
Proof.
  intros N. destruct (existsb (Z.eqb k) l) eqn:E; [|reflexivity].
  apply existsb_exists in E. destruct E as (x & I & E). apply Z.eqb_eq in E.
  now subst.
Qed.

Lemma fold_append_lookup {L : Type} (l : L) ks : NoDup ks -> forall reg k,
  reg_lookup (fold_left (fun g k => reg_append g k l) ks reg) k =
  reg_lookup reg k ++ (if existsb (Z.eqb k) ks then [l] else []).
Proof.
  induction 1 as [|x ks Nx ND IH]; intros reg k; simpl.
  - now rewrite app_nil_r.
  - rewrite IH, reg_append_lookup.
    rewrite (Z.eqb_sym k x). destruct (x =? k) eqn:E; simpl.
    + apply Z.eqb_eq in E; subst x. rewrite (existsb_notin _ _ Nx).
      now rewrite app_nil_r.
    + now rewrite app_nil_r.
Qed.

(** ** Lists *)
Lemma set_nth_app {A : Type} (l r : list A) x y :
  set_nth (List.length l) y (l ++ x :: r) = l ++ y :: r.
Proof. induction l; simpl; [reflexivity|now rewrite IHl]. Qed.

Lemma nth_error_mid {A : Type} (l r : list A) x :
  nth_error (l ++ x :: r) (List.length l) = Some x.
Proof. induction l; simpl; auto. Qed.

Lemma nth_mid {A : Type} (l r : list A) x d : nth (List.length l) (l ++ x :: r) d = x.
Proof. induction l; simpl; auto. Qed.

Lemma flat_map_seq {A : Type} (g : nat -> list A) n :
  flat_map g (seq 0 (S n)) = g O ++ flat_map (fun j => g (S j)) (seq 0 n).
Proof.
  simpl. f_equal. rewrite <- seq_shift.
  induction (seq 0 n); simpl; [reflexivity|now rewrite IHl].
Qed.

Lemma map_flat_map {A B C : Type} (g : B -> C) (h : A -> list B) l :
  map g (flat_map h l) = flat_map (fun x => map g (h x)) l.
Proof.
  induction l; simpl; [reflexivity|]. now rewrite map_app, IHl.
Qed.

Lemma beqb_eq x : forall y, beqb x y = true <-> x = y.
Proof.
  induction x as [|c x IH]; intros [|d y]; simpl; split; intros H; try easy.
  - apply andb_true_iff in H. destruct H as [H1 H2].
    apply Ascii.eqb_eq in H1. apply IH in H2. now subst.
  - inversion H; subst. rewrite Ascii.eqb_refl. simpl. now apply IH.
Qed.

Lemma beqb_refl x : beqb x x = true.
Proof. now apply beqb_eq. Qed.

Lemma beqb_sym x y : beqb x y = beqb y x.
Proof.
  destruct (beqb x y) eqn:E; symmetry.
  - apply beqb_eq in E. subst. apply beqb_refl.
  - destruct (beqb y x) eqn:E'; [|reflexivity].
    apply beqb_eq in E'. subst. now rewrite beqb_refl in E.
Qed.

Section EngineProofs.
Context {File Checker R St : Type}.
Notation rule := (@rule File Checker R St).
Notation diag := (@diag File R).
Notation inst := (@inst File Checker R St).
Notation wst := (@wst File Checker R St).
Notation tst := (@tst File Checker R St).

Variable iter : nat -> list Z -> list Z.
Variable rules_for : File -> list rule.
Variable events : File -> list (Z * nat).

Hypothesis ITER : any_order iter.
Hypothesis TABLES : forall f, tables_ok (rules_for f).

(** ** Starting the rules *)
Fixpoint lst (c : Checker) (f : File) (base : nat) (rs : list rule) (k : Z) : list listener :=
  match rs with
  | [] => []
  | r :: rs' =>
      (if existsb (Z.eqb k) (table r c f) then [mkListener (rname r) base] else [])
        ++ lst c f (S base) rs' k
  end.

Lemma fold_set_reg (l : listener) ks : forall (w : wst),
  fold_left (fun w k => set_reg w (reg_append (w_reg w) k l)) ks w =
  set_reg w (fold_left (fun g k => reg_append g k l) ks (w_reg w)).
Proof.
  induction ks as [|k ks IH]; intros w; simpl; [now destruct w|].
  rewrite IH. reflexivity.
Qed.

Lemma start_rules c f rs : tables_ok rs -> forall (w : wst),
  let w' := fold_left (start_rule iter c f) rs w in
  w_file w' = w_file w /\
  w_heap w' = w_heap w ++ map (fun r => (r, start_state r c f)) rs /\
  w_out w' = w_out w ++ flat_map (fun r => map (mkDiag (rname r) (w_file w)) (start_reports r c f)) rs /\
  (forall k, reg_lookup (w_reg w') k =
             reg_lookup (w_reg w) k ++ lst c f (List.length (w_heap w)) rs k).
Proof.
  induction rs as [|r rs IH]; intros T w; simpl.
  - rewrite !app_nil_r. repeat split; auto. intros; now rewrite app_nil_r.
  - assert (T' : tables_ok rs) by (intros r' c' f' I; apply T; now right).
    specialize (IH T' (start_rule iter c f w r)). cbv zeta in IH.
    destruct IH as (F & H & O & G).
    assert (ND : NoDup (table r c f)) by (apply T; now left).
    unfold start_rule in *.
    unfold start_state, start_reports, table in *.
    destruct (rrun r c f) as [[s reps] ks] eqn:E. cbn [fst snd] in *.
    rewrite fold_set_reg in *.
    cbn [w_rule w_file w_heap w_reg w_out set_reg alloc emit set_rule] in *.
    rewrite F, H, O. repeat split; auto.
    + now rewrite <- app_assoc.
    + now rewrite <- app_assoc.
    + intros k. rewrite G. rewrite app_length. cbn [List.length].
      rewrite Nat.add_1_r, fold_append_lookup.
      * rewrite (existsb_perm k _ _ (ITER (List.length (w_heap w)) ks)).
        now rewrite <- app_assoc.
      * apply (Permutation_NoDup (Permutation_sym (ITER _ ks)) ND).
Qed.

(** ** One event *)
Definition hears (c : Checker) (f : File) (r : rule) (k : Z) : bool :=
  existsb (Z.eqb k) (table r c f).

Definition after (c : Checker) (f : File) (e : Z * nat) (i : inst) : inst :=
  if hears c f (fst i) (fst e)
  then (fst i, fst (rfire (fst i) (snd i) (fst e) (snd e))) else i.

Definition says (c : Checker) (f : File) (e : Z * nat) (i : inst) : list R :=
  if hears c f (fst i) (fst e)
  then snd (rfire (fst i) (snd i) (fst e) (snd e)) else [].

Lemma call_mid k n (w : wst) h r s is nm :
  w_heap w = h ++ (r, s) :: is ->
  call k n w (mkListener nm (List.length h)) =
  emit (set_heap (set_rule w nm) (h ++ (r, fst (rfire r s k n)) :: is)) (snd (rfire r s k n)).
Proof.
  intros H. unfold call. cbn [set_rule l_name l_fn w_heap].
  rewrite H, nth_error_mid. destruct (rfire r s k n) as [s' reps]. cbn [fst snd].
  now rewrite set_nth_app.
Qed.

Lemma one_event c f e is : forall h (w : wst),
  w_heap w = h ++ is ->
  let w' := fold_left (call (fst e) (snd e)) (lst c f (List.length h) (map fst is) (fst e)) w in
  w_file w' = w_file w /\ w_reg w' = w_reg w /\
  w_heap w' = h ++ map (after c f e) is /\
  w_out w' = w_out w ++ flat_map (fun i => map (mkDiag (rname (fst i)) (w_file w)) (says c f e i)) is.
Proof.
  induction is as [|[r s] is IH]; intros h w H; simpl.
  - rewrite !app_nil_r in *. auto.
  - unfold after at 1, says at 1, hears. cbn [fst snd].
    rewrite fold_left_app.
    assert (L : S (List.length h) = List.length (h ++ [(r, s)])) by (rewrite app_length; simpl; lia).
    destruct (existsb (Z.eqb (fst e)) (table r c f)).
    + cbn [fold_left]. rewrite (call_mid _ _ _ _ _ _ _ _ H).
      destruct (rfire r s (fst e) (snd e)) as [s' reps]. cbn [fst snd].
      match goal with |- context [fold_left _ _ ?x] => set (w1 := x) end.
      destruct (IH (h ++ [(r, s')]) w1) as (A & B & C & D).
      { unfold w1. simpl. now rewrite <- app_assoc. }
      replace (List.length (h ++ [(r, s')])) with (S (List.length h)) in *
        by (rewrite app_length; simpl; lia).
      rewrite A, B, C, D. unfold w1.
      cbn [w_rule w_file w_heap w_reg w_out set_heap emit].
      repeat split; auto; now rewrite <- app_assoc.
    + cbn [fold_left].
      destruct (IH (h ++ [(r, s)]) w) as (A & B & C & D).
      { now rewrite <- app_assoc. }
      rewrite L. rewrite A, B, C, D.
      repeat split; auto; now rewrite <- app_assoc.
Qed.

Lemma map_fst_after c f e is : map fst (map (after c f e) is) = map fst is.
Proof.
  rewrite map_map. apply map_ext. intros i. unfold after.
  now destruct (hears c f (fst i) (fst e)).
Qed.

(** ** All events *)
Definition from_here (c : Checker) (f : File) (fo : option File) (es : list (Z * nat)) (is : list inst)
  : list diag :=
  flat_map (fun j =>
    flat_map (fun i : inst =>
      map (mkDiag (rname (fst i)) fo)
          (nth j (alone (fst i) (table (fst i) c f) (snd i) es) [])) is)
    (seq 0 (List.length es)).

Lemma all_events c f es : forall is h (w : wst),
  w_heap w = h ++ is ->
  (forall k, reg_lookup (w_reg w) k = lst c f (List.length h) (map fst is) k) ->
  let w' := fold_left run_listeners es w in
  w_file w' = w_file w /\ w_reg w' = w_reg w /\
  w_out w' = w_out w ++ from_here c f (w_file w) es is.
Proof.
  induction es as [|e es IH]; intros is h w H G; cbn [fold_left].
  - unfold from_here. simpl. now rewrite app_nil_r.
  - unfold run_listeners at 2 4 6. rewrite G.
    destruct (one_event c f e is h w H) as (A & B & C & D).
    specialize (IH _ _ _ C).
    rewrite map_fst_after in IH.
    destruct IH as (A' & B' & D').
    { intros k. now rewrite B. }
    cbv zeta. rewrite A', B', D', A, B, D. repeat split.
    rewrite <- app_assoc. f_equal.
    unfold from_here. cbn [List.length]. rewrite flat_map_seq. f_equal.
    + apply flat_map_ext. intros [r s]. unfold says, hears. cbn [fst snd].
      destruct e as [k n]. cbn [alone fst snd].
      now destruct (existsb (Z.eqb k) (table r c f)).
    + apply flat_map_ext. intros j.
      rewrite flat_map_concat_map, map_map, <- flat_map_concat_map.
      apply flat_map_ext. intros [r s]. unfold after, hears. cbn [fst snd].
      destruct e as [k n]. cbn [alone fst snd].
      now destruct (existsb (Z.eqb k) (table r c f)).
Qed.

(** ** One file, then a whole worker *)
Lemma lint_file_exact (w : wst) c f :
  (forall k, reg_lookup (w_reg w) k = []) ->
  let w' := lint_file iter rules_for events w (c, f) in
  (forall k, reg_lookup (w_reg w') k = []) /\
  w_out w' = w_out w ++ required (rules_for f) c f (events f).
Proof.
  intros E. unfold lint_file. cbv zeta.
  destruct (start_rules c f (rules_for f) (TABLES f) (set_file w f)) as (F & H & O & G).
  set (w1 := fold_left (start_rule iter c f) (rules_for f) (set_file w f)) in *.
  cbn [w_file set_file w_heap w_out w_reg] in *.
  destruct (all_events c f (events f) _ _ w1 H) as (F' & G' & O').
  { intros k. rewrite G, E. cbn [app]. rewrite map_map. cbn [fst]. now rewrite map_id. }
  split.
  - intros k. cbn [set_reg w_reg]. apply reg_clear_lookup.
  - cbn [set_reg w_out]. rewrite O', O, F. unfold required. rewrite <- app_assoc.
    do 2 f_equal.
    unfold from_here. apply flat_map_ext. intros j.
    rewrite flat_map_concat_map, map_map, <- flat_map_concat_map.
    reflexivity.
Qed.

Lemma worker_exact_from cfs : forall (w : wst),
  (forall k, reg_lookup (w_reg w) k = []) ->
  w_out (fold_left (lint_file iter rules_for events) cfs w) =
  w_out w ++ flat_map (fun cf => required (rules_for (snd cf)) (fst cf) (snd cf) (events (snd cf))) cfs.
Proof.
  induction cfs as [|[c f] cfs IH]; intros w E; cbn [fold_left flat_map].
  - now rewrite app_nil_r.
  - destruct (lint_file_exact w c f E) as (E' & O).
    rewrite IH by exact E'. rewrite O. now rewrite <- app_assoc.
Qed.

Lemma worker_exact cfs :
  w_out (worker iter rules_for events cfs) =
  flat_map (fun cf => required (rules_for (snd cf)) (fst cf) (snd cf) (events (snd cf))) cfs.
Proof. unfold worker. now rewrite worker_exact_from. Qed.

End EngineProofs.

(** ** Consequences for single rules *)
Section Single.
Context {File Checker R St : Type}.
Notation rule := (@rule File Checker R St).
Notation diag := (@diag File R).

Lemma filter_flat_map {A B : Type} (p : B -> bool) (h : A -> list B) l :
  filter p (flat_map h l) = flat_map (fun x => filter p (h x)) l.
Proof.
  induction l; simpl; [reflexivity|]. now rewrite filter_app, IHl.
Qed.

Lemma filter_signed (r r' : rule) f (qs : list R) :
  filter (fun d : diag => beqb (d_rule d) (rname r)) (map (sign r' f) qs) =
  if beqb (rname r') (rname r) then map (sign r' f) qs else [].
Proof.
  induction qs as [|q qs IH]; simpl; [now destruct (beqb (rname r') (rname r))|].
  rewrite IH. now destruct (beqb (rname r') (rname r)).
Qed.

Lemma flat_map_one (r : rule) rs (g : rule -> list diag) :
  NoDup (map rname rs) -> In r rs ->
  flat_map (fun r' => if beqb (rname r') (rname r) then g r' else []) rs = g r.
Proof.
  induction rs as [|x rs IH]; intros ND I; [easy|].
  inversion ND as [|? ? N1 N2]; subst. simpl. destruct I as [->|I].
  - rewrite beqb_refl.
    assert (Z : flat_map (fun r' => if beqb (rname r') (rname r) then g r' else []) rs = []).
    { clear IH ND N2. induction rs as [|y rs IH]; [reflexivity|].
      simpl in *. destruct (beqb (rname y) (rname r)) eqn:E.
      - apply beqb_eq in E. exfalso. apply N1. left. now symmetry.
      - apply IH. tauto. }
    now rewrite Z, app_nil_r.
  - destruct (beqb (rname x) (rname r)) eqn:E.
    + apply beqb_eq in E. exfalso. apply N1. rewrite E. now apply in_map.
    + now apply IH.
Qed.

Lemma alone_length (r : rule) ks es : forall s, List.length (alone r ks s es) = List.length es.
Proof.
  induction es as [|[k n] es IH]; intros s; simpl; [reflexivity|].
  destruct (existsb (Z.eqb k) ks); simpl; now rewrite IH.
Qed.

Lemma concat_nth_seq {A : Type} (l : list (list A)) :
  flat_map (fun j => nth j l []) (seq 0 (List.length l)) = concat l.
Proof.
  induction l as [|x l IH]; [reflexivity|]. cbn [List.length].
  rewrite flat_map_seq. simpl. now rewrite IH.
Qed.

Lemma required_one (rs : list rule) r c f es :
  NoDup (map rname rs) -> In r rs ->
  filter (fun d : diag => beqb (d_rule d) (rname r)) (required rs c f es) =
  map (sign r f) (alone_on r c f es).
Proof.
  intros ND I. unfold required, alone_on.
  rewrite filter_app, map_app. f_equal.
  - rewrite filter_flat_map.
    erewrite flat_map_ext by (intros; apply filter_signed).
    now apply (flat_map_one r rs (fun r => map (sign r f) (start_reports r c f))).
  - rewrite filter_flat_map.
    rewrite <- concat_nth_seq, map_flat_map, alone_length.
    apply flat_map_ext. intros j.
    rewrite filter_flat_map.
    erewrite flat_map_ext by (intros; apply filter_signed).
    now apply (flat_map_one r rs (fun r =>
      map (sign r f) (nth j (alone r (table r c f) (start_state r c f) es) []))).
Qed.

Lemma required_in (rs : list rule) c f es d :
  In d (required rs c f es) ->
  exists r, In r rs /\ d_rule d = rname r /\ d_file d = Some f /\
            In (d_req d) (alone_on r c f es).
Proof.
  unfold required. intros I. apply in_app_or in I. destruct I as [I|I].
  - apply in_flat_map in I. destruct I as (r & Ir & I).
    apply in_map_iff in I. destruct I as (q & <- & Iq).
    exists r. repeat split; auto. apply in_or_app. now left.
  - apply in_flat_map in I. destruct I as (j & Ij & I).
    apply in_flat_map in I. destruct I as (r & Ir & I).
    apply in_map_iff in I. destruct I as (q & <- & Iq).
    exists r. repeat split; auto. apply in_or_app. right.
    rewrite <- concat_nth_seq. apply in_flat_map. exists j. split; auto.
    rewrite alone_length. exact Ij.
Qed.

End Single.

(** ** Timed path *)
Section TimedProofs.
Context {File Checker R St : Type}.
Notation rule := (@rule File Checker R St).
Notation inst := (@inst File Checker R St).
Notation wst := (@wst File Checker R St).
Notation tst := (@tst File Checker R St).

Variable iter : nat -> list Z -> list Z.
Variable rules_for : File -> list rule.
Variable events : File -> list (Z * nat).
Variable elapsed : nat -> Z.

Definition untag (l : tlistener) : listener := mkListener (tl_name l) (tl_fn l).

Definition erase (t : tst) : wst :=
  mkW (t_rule t) (t_file t) (t_heap t)
      (map (fun e => (fst e, map untag (snd e))) (t_reg t)) (t_out t).

Lemma erase_append reg k l :
  map (fun e : Z * list tlistener => (fst e, map untag (snd e))) (reg_append reg k l) =
  reg_append (map (fun e => (fst e, map untag (snd e))) reg) k (untag l).
Proof.
  induction reg as [|[k0 ls] reg IH]; simpl; [reflexivity|].
  destruct (k0 =? k); simpl; [now rewrite map_app|now rewrite IH].
Qed.

Lemma erase_lookup reg k :
  reg_lookup (map (fun e : Z * list tlistener => (fst e, map untag (snd e))) reg) k =
  map untag (reg_lookup reg k).
Proof.
  induction reg as [|[k0 ls] reg IH]; simpl; [reflexivity|].
  now destruct (k0 =? k).
Qed.

Lemma erase_record i (t : tst) : erase (record_timing elapsed i t) = erase t.
Proof. reflexivity. Qed.

Definition t_reg_step (l : tlistener) (t : tst) (k : Z) : tst :=
  mkT (t_rule t) (t_file t) (t_heap t) (reg_append (t_reg t) k l)
      (t_out t) (t_stats t) (t_local t) (t_clk t).

Lemma erase_regs l ks : forall (t : tst),
  erase (fold_left (t_reg_step l) ks t) =
  fold_left (fun w k => set_reg w (reg_append (w_reg w) k (untag l))) ks (erase t).
Proof.
  induction ks as [|k ks IH]; intros t; [reflexivity|].
  cbn [fold_left]. rewrite IH. f_equal.
  unfold erase, set_reg, t_reg_step. cbn [t_rule t_file t_heap t_reg t_out w_rule w_file w_heap w_reg w_out].
  now rewrite erase_append.
Qed.

Lemma erase_start c f (t : tst) i r :
  erase (t_start_rule iter elapsed c f t (i, r)) = start_rule iter c f (erase t) r.
Proof.
  unfold t_start_rule, start_rule.
  destruct (rrun r c f) as [[s reps] ks].
  match goal with |- erase (fold_left ?g ?l ?t0) = _ =>
    change (fold_left g l t0) with
      (fold_left (t_reg_step (mkTL (rname r) i (List.length (t_heap t)))) l t0) end.
  now rewrite erase_regs.
Qed.

Lemma erase_starts c f rs : forall n (t : tst),
  erase (fold_left (t_start_rule iter elapsed c f) (combine (seq n (List.length rs)) rs) t) =
  fold_left (start_rule iter c f) rs (erase t).
Proof.
  induction rs as [|r rs IH]; intros n t; [reflexivity|].
  cbn [List.length seq combine fold_left]. rewrite IH, erase_start. reflexivity.
Qed.

Lemma erase_call k n (t : tst) l :
  erase (t_call elapsed k n t l) = call k n (erase t) (untag l).
Proof.
  unfold t_call, call. rewrite erase_record.
  cbn [t_heap set_rule w_heap erase untag l_fn].
  destruct (nth_error (t_heap t) (tl_fn l)) as [[r s]|]; [|reflexivity].
  destruct (rfire r s k n) as [s' reps]. reflexivity.
Qed.

Lemma erase_calls k n ls : forall (t : tst),
  erase (fold_left (t_call elapsed k n) ls t) =
  fold_left (call k n) (map untag ls) (erase t).
Proof.
  induction ls as [|l ls IH]; intros t; [reflexivity|].
  cbn [fold_left map]. now rewrite IH, erase_call.
Qed.

Lemma erase_events es : forall (t : tst),
  erase (fold_left (t_run_listeners elapsed) es t) =
  fold_left run_listeners es (erase t).
Proof.
  induction es as [|e es IH]; intros t; [reflexivity|].
  cbn [fold_left]. rewrite IH. f_equal.
  unfold t_run_listeners, run_listeners. rewrite erase_calls.
  f_equal. unfold erase. cbn [w_reg]. now rewrite erase_lookup.
Qed.

Lemma erase_file (t : tst) cf :
  erase (t_lint_file iter rules_for events elapsed t cf) =
  lint_file iter rules_for events (erase t) cf.
Proof.
  destruct cf as [c f]. unfold t_lint_file, lint_file.
  match goal with |- context [set_file (erase t) f] =>
    change (set_file (erase t) f) with
      (erase (mkT (t_rule t) (Some f) (t_heap t) (t_reg t) (t_out t)
        (repeat stat0 (List.length (rules_for f))) (t_local t) (t_clk t))) end.
  rewrite <- (erase_starts c f (rules_for f) 0), <- erase_events.
  match goal with |- context [fold_left (t_run_listeners elapsed) ?e ?t1] =>
    set (t2 := fold_left (t_run_listeners elapsed) e t1) end.
  unfold erase, set_reg. cbn [t_rule t_file t_heap t_reg t_out w_rule w_file w_heap w_reg w_out].
  f_equal. unfold reg_clear. now rewrite !map_map.
Qed.

Lemma erase_worker_from cfs : forall (t : tst),
  erase (fold_left (t_lint_file iter rules_for events elapsed) cfs t) =
  fold_left (lint_file iter rules_for events) cfs (erase t).
Proof.
  induction cfs as [|cf cfs IH]; intros t; [reflexivity|].
  cbn [fold_left]. now rewrite IH, erase_file.
Qed.

Lemma timed_same_output cfs :
  t_out (t_worker iter rules_for events elapsed cfs) =
  w_out (worker iter rules_for events cfs).
Proof.
  unfold t_worker, worker.
  change (t_out ?t) with (w_out (erase t)).
  now rewrite erase_worker_from.
Qed.

(** *** Call counts *)
Hypothesis ITER : any_order iter.
Hypothesis TABLES : forall f, tables_ok (rules_for f).

Fixpoint tlst (c : Checker) (f : File) (i base : nat) (rs : list rule) (k : Z) : list tlistener :=
  match rs with
  | [] => []
  | r :: rs' =>
      (if existsb (Z.eqb k) (table r c f) then [mkTL (rname r) i base] else [])
        ++ tlst c f (S i) (S base) rs' k
  end.

Definition bump (i : nat) (cs : list N) : list N := set_nth i (nth i cs 0 + 1)%N cs.

Lemma map_set_nth {A B : Type} (g : A -> B) i a l :
  map g (set_nth i a l) = set_nth i (g a) (map g l).
Proof. revert i; induction l; intros [|i]; simpl; try easy. now rewrite IHl. Qed.

Lemma record_counts i (t : tst) :
  map snd (t_stats (record_timing elapsed i t)) = bump i (map snd (t_stats t)).
Proof.
  unfold record_timing, bump. cbn [t_stats]. rewrite map_set_nth. cbn [snd].
  change 0%N with (snd stat0). now rewrite map_nth.
Qed.

Lemma fold_t_reg l ks : forall (t : tst),
  fold_left (t_reg_step l) ks t =
  mkT (t_rule t) (t_file t) (t_heap t)
      (fold_left (fun g k => reg_append g k l) ks (t_reg t))
      (t_out t) (t_stats t) (t_local t) (t_clk t).
Proof.
  induction ks as [|k ks IH]; intros t; cbn [fold_left]; [now destruct t|].
  rewrite IH. reflexivity.
Qed.

Lemma bump_mid pre x post : bump (List.length pre) (pre ++ x :: post) = pre ++ (x + 1)%N :: post.
Proof. unfold bump. now rewrite nth_mid, set_nth_app. Qed.

Lemma t_starts c f rs : tables_ok rs -> forall pre post (t : tst),
  map snd (t_stats t) = pre ++ repeat 0%N (List.length rs) ++ post ->
  let t' := fold_left (t_start_rule iter elapsed c f) (combine (seq (List.length pre) (List.length rs)) rs) t in
  map snd (t_stats t') = pre ++ repeat 1%N (List.length rs) ++ post /\
  t_local t' = t_local t /\
  (forall k, reg_lookup (t_reg t') k =
             reg_lookup (t_reg t) k ++ tlst c f (List.length pre) (List.length (t_heap t)) rs k).
Proof.
  induction rs as [|r rs IH]; intros T pre post t H; cbn [List.length seq combine fold_left repeat] in *.
  - repeat split; auto. intros. simpl. now rewrite app_nil_r.
  - assert (T' : tables_ok rs) by (intros r' c' f' I; apply T; now right).
    assert (ND : NoDup (table r c f)) by (apply T; now left).
    set (t1 := t_start_rule iter elapsed c f t (List.length pre, r)).
    assert (E : map snd (t_stats t1) = (pre ++ [1%N]) ++ repeat 0%N (List.length rs) ++ post /\
                t_local t1 = t_local t /\
                List.length (t_heap t1) = S (List.length (t_heap t)) /\
                (forall k, reg_lookup (t_reg t1) k = reg_lookup (t_reg t) k ++
                  (if existsb (Z.eqb k) (table r c f)
                   then [mkTL (rname r) (List.length pre) (List.length (t_heap t))] else []))).
    { unfold t1, t_start_rule. unfold table in *.
      destruct (rrun r c f) as [[s reps] ks]. cbn [snd] in *.
      match goal with |- context [fold_left ?g ?l ?t0] =>
        change (fold_left g l t0) with
          (fold_left (t_reg_step (mkTL (rname r) (List.length pre) (List.length (t_heap t)))) l t0) end.
      rewrite fold_t_reg. cbn [t_stats t_local t_heap t_reg].
      split; [|split; [reflexivity|split]].
      - rewrite record_counts. cbn [t_stats]. rewrite H. cbn [app].
        rewrite bump_mid. now rewrite <- app_assoc.
      - unfold record_timing. cbn [t_heap]. rewrite app_length. simpl. lia.
      - intros k. unfold record_timing. cbn [t_reg].
        rewrite fold_append_lookup by (apply (Permutation_NoDup (Permutation_sym (ITER _ ks)) ND)).
        now rewrite (existsb_perm k _ _ (ITER (List.length (t_heap t)) ks)). }
    destruct E as (E1 & E2 & E3 & E4).
    specialize (IH T' (pre ++ [1%N]) post t1 E1).
    rewrite app_length in IH. cbn [List.length] in IH. rewrite Nat.add_1_r in IH.
    destruct IH as (I1 & I2 & I3). cbv zeta.
    repeat split.
    + rewrite I1. now rewrite <- app_assoc.
    + now rewrite I2.
    + intros k. rewrite I3, E4, E3. cbn [tlst]. now rewrite <- app_assoc.
Qed.

Lemma t_call_counts k n (t : tst) l :
  map snd (t_stats (t_call elapsed k n t l)) = bump (tl_idx l) (map snd (t_stats t)) /\
  t_local (t_call elapsed k n t l) = t_local t /\
  t_reg (t_call elapsed k n t l) = t_reg t.
Proof.
  unfold t_call. rewrite record_counts. unfold record_timing.
  cbn [t_heap t_local t_reg].
  destruct (nth_error (t_heap t) (tl_fn l)) as [[r s]|]; [|auto].
  destruct (rfire r s k n). auto.
Qed.

Lemma t_calls_counts k n ls : forall (t : tst),
  map snd (t_stats (fold_left (t_call elapsed k n) ls t)) =
    fold_left (fun cs l => bump (tl_idx l) cs) ls (map snd (t_stats t)) /\
  t_local (fold_left (t_call elapsed k n) ls t) = t_local t /\
  t_reg (fold_left (t_call elapsed k n) ls t) = t_reg t.
Proof.
  induction ls as [|l ls IH]; intros t; cbn [fold_left]; [auto|].
  destruct (IH (t_call elapsed k n t l)) as (A & B & C).
  destruct (t_call_counts k n t l) as (A' & B' & C').
  rewrite A, B, C, A', B', C'. auto.
Qed.

Definition count_of (c : Checker) (f : File) (es : list (Z * nat)) (r : rule) : N :=
  N.of_nat (List.length (filter (fun e => existsb (Z.eqb (fst e)) (table r c f)) es)).

Lemma bump_tlst c f k rs : forall pre base (cs : list N),
  List.length cs = List.length rs ->
  fold_left (fun cs l => bump (tl_idx l) cs) (tlst c f (List.length pre) base rs k) (pre ++ cs) =
  pre ++ map (fun rc => (snd rc + if existsb (Z.eqb k) (table (fst rc) c f) then 1 else 0)%N)
             (combine rs cs).
Proof.
  induction rs as [|r rs IH]; intros pre base cs L; destruct cs as [|x cs]; try easy.
  cbn [tlst combine map fst snd]. rewrite fold_left_app.
  assert (L' : List.length cs = List.length rs) by (simpl in L; lia).
  assert (E : forall y, S (List.length pre) = List.length (pre ++ [y : N])) by (intros; rewrite app_length; simpl; lia).
  destruct (existsb (Z.eqb k) (table r c f)); cbn [fold_left tl_idx].
  - rewrite bump_mid, (E (x + 1)%N).
    change (pre ++ (x + 1)%N :: cs) with (pre ++ [(x + 1)%N] ++ cs).
    rewrite app_assoc, IH by exact L'. now rewrite <- app_assoc.
  - rewrite (E x). change (pre ++ x :: cs) with (pre ++ [x] ++ cs).
    rewrite app_assoc, IH by exact L'. rewrite N.add_0_r. now rewrite <- app_assoc.
Qed.

Lemma combine_map_r {A B C : Type} (g : A * B -> C) (la : list A) : forall (lb : list B),
  List.length lb = List.length la ->
  combine la (map g (combine la lb)) = map (fun ab => (fst ab, g ab)) (combine la lb).
Proof.
  induction la as [|a la IH]; intros [|b lb] L; try easy. simpl. rewrite IH; auto.
Qed.

Lemma t_events_counts c f rs es : forall base (t : tst),
  List.length (t_stats t) = List.length rs ->
  (forall k, reg_lookup (t_reg t) k = tlst c f 0 base rs k) ->
  let t' := fold_left (t_run_listeners elapsed) es t in
  map snd (t_stats t') =
    map (fun rc => (snd rc + count_of c f es (fst rc))%N) (combine rs (map snd (t_stats t))) /\
  t_local t' = t_local t.
Proof.
  induction es as [|e es IH]; intros base t L G; cbn [fold_left].
  - split; [|reflexivity]. unfold count_of. simpl.
    assert (L' : List.length (map snd (t_stats t)) = List.length rs) by now rewrite map_length.
    revert L'. generalize (map snd (t_stats t)). clear.
    induction rs; intros [|x l] L; try easy. simpl. rewrite N.add_0_r. f_equal. apply IHrs.
    simpl in L. lia.
  - destruct (t_calls_counts (fst e) (snd e) (reg_lookup (t_reg t) (fst e)) t) as (A & B & C).
    fold (t_run_listeners elapsed t e) in A, B, C.
    rewrite G in A. 
    assert (L' : List.length (map snd (t_stats t)) = List.length rs) by now rewrite map_length.
    pose proof (bump_tlst c f (fst e) rs [] base _ L') as BT. cbn [app List.length] in BT.
    rewrite BT in A.
    destruct (IH base (t_run_listeners elapsed t e)) as (A' & B').
    { assert (LL := f_equal (@List.length N) A). rewrite !map_length, combine_length, L' in LL.
      rewrite Nat.min_id in LL. exact LL. }
    { intros k. now rewrite C. }
    cbv zeta. rewrite A', B', B. split; [|reflexivity].
    rewrite A. rewrite combine_map_r by exact L'. rewrite map_map. apply map_ext.
    intros [r x]. unfold count_of. cbn [fst snd filter].
    destruct (existsb (Z.eqb (fst e)) (table r c f)); cbn [List.length]; lia.
Qed.

(** *** Local table *)
Lemma tm_get_set m n s n' :
  tm_get (tm_set m n s) n' = if beqb n n' then s else tm_get m n'.
Proof.
  induction m as [|[n0 s0] m IH]; simpl; [reflexivity|].
  destruct (beqb n0 n) eqn:E; simpl.
  - apply beqb_eq in E; subst. now destruct (beqb n n').
  - rewrite IH. destruct (beqb n0 n') eqn:E'; [|reflexivity].
    apply beqb_eq in E'; subst. destruct (beqb n n') eqn:E''; [|reflexivity].
    apply beqb_eq in E''; subst. now rewrite beqb_refl in E.
Qed.

Lemma tm_set_keys m n s n' :
  In n' (map fst (tm_set m n s)) <-> n' = n \/ In n' (map fst m).
Proof.
  induction m as [|[n0 s0] m IH]; simpl.
  - intuition.
  - destruct (beqb n0 n) eqn:E; simpl.
    + apply beqb_eq in E; subst. intuition. 
    + rewrite IH. tauto.
Qed.

Lemma tm_set_nodup m n s : NoDup (map fst m) -> NoDup (map fst (tm_set m n s)).
Proof.
  induction m as [|[n0 s0] m IH]; simpl; intros ND.
  - constructor; [easy|constructor].
  - inversion ND as [|? ? N1 N2]; subst. destruct (beqb n0 n) eqn:E; simpl.
    + now constructor.
    + constructor; [|now apply IH]. rewrite tm_set_keys. intros [->|I]; [|easy].
      now rewrite beqb_refl in E.
Qed.

Lemma flush_counts rss : forall (m : list (bstr * stat)) n,
  snd (tm_get (fold_left (@flush_stat File Checker R St) rss m) n) =
  (snd (tm_get m n) +
   sumN (map (fun rs => snd (snd rs)) (filter (fun rs => beqb (rname (fst rs)) n) rss)))%N.
Proof.
  induction rss as [|[r s] rss IH]; intros m n; cbn [fold_left filter map sumN]; [lia|].
  rewrite IH. unfold flush_stat. destruct (snd s =? 0)%N eqn:E.
  - apply N.eqb_eq in E. cbn [fst].
    destruct (beqb (rname r) n); cbn [map sumN snd]; lia.
  - rewrite tm_get_set. cbn [fst]. destruct (beqb (rname r) n) eqn:E'.
    + apply beqb_eq in E'. subst. cbn [map sumN snd]. unfold stat_add. cbn [snd]. lia.
    + reflexivity.
Qed.

Lemma flush_keys rss : forall (m : list (bstr * stat)) n,
  (forall rs, In rs rss -> (0 < snd (snd rs))%N) ->
  In n (map fst (fold_left (@flush_stat File Checker R St) rss m)) <->
  In n (map fst m) \/ In n (map (fun rs => rname (fst rs)) rss).
Proof.
  induction rss as [|[r s] rss IH]; intros m n P; cbn [fold_left map].
  - simpl. tauto.
  - rewrite IH by (intros; apply P; now right).
    unfold flush_stat. assert (Q := P _ (or_introl eq_refl)). cbn [snd] in Q.
    destruct (snd s =? 0)%N eqn:E; [apply N.eqb_eq in E; lia|].
    rewrite tm_set_keys. cbn [In fst]. intuition.
Qed.

Lemma flush_nodup rss : forall (m : list (bstr * stat)),
  NoDup (map fst m) -> NoDup (map fst (fold_left (@flush_stat File Checker R St) rss m)).
Proof.
  induction rss as [|[r s] rss IH]; intros m ND; [exact ND|].
  cbn [fold_left]. apply IH. unfold flush_stat.
  destruct (snd s =? 0)%N; [exact ND|now apply tm_set_nodup].
Qed.

Lemma combine_snd_map {A B C D : Type} (g : B -> C) (h : A * C -> D) (la : list A) : forall (lb : list B),
  map (fun ab => h (fst ab, g (snd ab))) (combine la lb) = map h (combine la (map g lb)).
Proof.
  induction la as [|a la IH]; intros [|x lb]; simpl; try reflexivity. now rewrite IH.
Qed.

Lemma file_stats (t : tst) c f :
  (forall k, reg_lookup (t_reg t) k = []) ->
  exists stats,
    t_local (t_lint_file iter rules_for events elapsed t (c, f)) =
      fold_left (@flush_stat File Checker R St) (combine (rules_for f) stats) (t_local t) /\
    map snd stats = map (fun r => calls r c f (events f)) (rules_for f) /\
    (forall k, reg_lookup (t_reg (t_lint_file iter rules_for events elapsed t (c, f))) k = []).
Proof.
  intros E. unfold t_lint_file. cbv zeta.
  set (t1 := mkT (t_rule t) _ _ _ _ _ _ _).
  destruct (t_starts c f (rules_for f) (TABLES f) [] [] t1) as (A & B & G).
  { unfold t1. cbn [t_stats app]. rewrite app_nil_r.
    now induction (List.length (rules_for f)); simpl; [|rewrite IHn]. }
  cbn [List.length] in *.
  set (t2 := fold_left (t_start_rule iter elapsed c f)
               (combine (seq 0 (List.length (rules_for f))) (rules_for f)) t1) in *.
  rewrite app_nil_r in A. cbn [app] in A.
  destruct (t_events_counts c f (rules_for f) (events f) (List.length (t_heap t1)) t2) as (A' & B').
  { assert (LL := f_equal (@List.length N) A). rewrite map_length, repeat_length in LL. exact LL. }
  { intros k. rewrite G. unfold t1 at 1. cbn [t_reg]. now rewrite E. }
  eexists. split; [|split].
  - cbn [t_local]. rewrite B', B. reflexivity.
  - rewrite A', A. unfold count_of, calls.
    clear. induction (rules_for f) as [|r rs IH]; [reflexivity|].
    cbn [List.length repeat combine map fst snd]. now rewrite IH.
  - intros k. cbn [t_reg]. apply reg_clear_lookup.
Qed.

Lemma filter_combine_sum (rs : list rule) stats (g : rule -> N) n :
  map snd stats = map g rs ->
  sumN (map (fun x : rule * stat => snd (snd x)) (filter (fun x => beqb (rname (fst x)) n) (combine rs stats))) =
  sumN (map g (filter (fun r => beqb (rname r) n) rs)).
Proof.
  revert stats. induction rs as [|r rs IH]; intros [|s stats] H; try easy.
  simpl in H. inversion H as [[H1 H2]]. simpl.
  destruct (beqb (rname r) n); simpl; rewrite ?IH by exact H2; congruence.
Qed.

Lemma sumN_app l l' : sumN (l ++ l') = (sumN l + sumN l')%N.
Proof. induction l; simpl; lia. Qed.

Lemma t_worker_from cfs : forall (t : tst),
  (forall k, reg_lookup (t_reg t) k = []) -> NoDup (map fst (t_local t)) ->
  let t' := fold_left (t_lint_file iter rules_for events elapsed) cfs t in
  NoDup (map fst (t_local t')) /\
  (forall n, In n (map fst (t_local t')) <->
     In n (map fst (t_local t)) \/
     exists cf r, In cf cfs /\ In r (rules_for (snd cf)) /\ rname r = n) /\
  (forall n, snd (tm_get (t_local t') n) =
     (snd (tm_get (t_local t) n) + total_calls rules_for events cfs n)%N).
Proof.
  induction cfs as [|[c f] cfs IH]; intros t E ND; cbn [fold_left].
  - split; [exact ND|]. split.
    + intros n. split; [tauto|]. intros [I|(cf & r & [] & _)]; exact I.
    + intros n. unfold total_calls. simpl. lia.
  - destruct (file_stats t c f E) as (stats & L & M & E').
    set (t1 := t_lint_file iter rules_for events elapsed t (c, f)) in *.
    assert (LEN : List.length stats = List.length (rules_for f)).
    { assert (LL := f_equal (@List.length N) M). rewrite !map_length in LL. exact LL. }
    destruct (IH t1 E') as (A & B & C).
    { rewrite L. now apply flush_nodup. }
    split; [exact A|]. split.
    + intros n. rewrite B, L, flush_keys.
      * split.
        -- intros [[I|I]|(cf & r & I1 & I2 & I3)]; [tauto| |].
           ++ right. apply in_map_iff in I. destruct I as ([r s] & Hn & I).
              exists (c, f), r. split; [now left|]. split; [|exact Hn].
              cbn [snd]. eapply in_combine_l, I.
           ++ right. exists cf, r. split; [now right|auto].
        -- intros [I|(cf & r & [<-|I1] & I2 & I3)]; [tauto| |].
           ++ left. right. cbn [snd] in I2. clear - LEN I2 I3.
              revert stats LEN. induction (rules_for f) as [|x rs IHr]; intros [|s stats] LEN; try easy.
              simpl in *. destruct I2 as [->|I2]; [now left|right]. apply IHr; auto.
           ++ right. exists cf, r. auto.
      * intros [r s] I. cbn [snd]. 
        assert (J : In (snd s) (map snd stats)) by (apply in_map; eapply in_combine_r, I).
        rewrite M in J. apply in_map_iff in J. destruct J as (r' & <- & _).
        unfold calls. lia.
    + intros n. rewrite C, L, flush_counts.
      assert (FS := filter_combine_sum _ _ _ n M). unfold stat in *. rewrite FS.
      unfold total_calls at 2. cbn [flat_map fst snd]. rewrite sumN_app.
      unfold total_calls. lia.
Qed.

Lemma timed_counts cfs :
  let m := t_local (t_worker iter rules_for events elapsed cfs) in
  NoDup (map fst m) /\
  (forall n, In n (map fst m) <->
     exists cf r, In cf cfs /\ In r (rules_for (snd cf)) /\ rname r = n) /\
  (forall n, snd (tm_get m n) = total_calls rules_for events cfs n).
Proof.
  destruct (t_worker_from cfs t0) as (A & B & C); [reflexivity|constructor|].
  split; [exact A|]. split; [|exact C].
  intros n. rewrite B. simpl. tauto.
Qed.

End TimedProofs.
