From Coq Require Import Bool List Arith Lia Permutation.
From Verif Require Import PLookup.
Import ListNotations.

Section P.
Context {File Res : Type}.
Variable feqb : File -> File -> bool.
Hypothesis feqb_eq : forall x y, feqb x y = true <-> x = y.
Variable look : File -> Res.
Notation lst := (@lst File Res).
Notation l_step := (@l_step File Res look).
Notation l_run := (@l_run File Res look).

Definition hands (ws : list (@workpc File)) : list File :=
  flat_map (fun w => match w with WHas f => [f] | _ => [] end) ws.
Definition rest_of (m : @mainpc File) : list File := match m with MPush r => r | _ => [] end.
Definition running (ws : list (@workpc File)) : nat :=
  length (filter (fun w => match w with WDone => false | _ => true end) ws).

Definition all_files (s : lst) : list File :=
  map fst (l_got s) ++ map fst (l_out s) ++ hands (l_workers s) ++ l_in s ++ rest_of (l_main s).

Record inv (files : list File) (n : nat) (s : lst) : Prop := mkInv {
  i_cap : l_cap s = length files;
  i_perm : Permutation (all_files s) files;
  i_vals : forall f r, In (f, r) (l_got s ++ l_out s) -> r = look f;
  i_n : length (l_workers s) = n;
  i_open : l_closed s = false -> l_main s <> MDone;
  i_closed : l_closed s = true -> running (l_workers s) = 0;
  i_pc : l_closed s = true -> in_closed s = true;
  i_term : running (l_workers s) < n -> l_in s = [] /\ in_closed s = true;
  i_done : l_main s = MDone -> l_out s = []
}.

Lemma split_nth (ws : list (@workpc File)) i w : nth_error ws i = Some w ->
  exists a b, ws = a ++ w :: b /\ forall w', set_nth_w ws i w' = a ++ w' :: b.
Proof.
  intros H. exists (firstn i ws), (skipn (S i) ws). split.
  - clear -H. revert ws H. induction i as [|i IH]; intros [|x ws] H; try easy.
    + simpl in H. injection H as ->. reflexivity.
    + simpl in *. f_equal. now apply IH.
  - reflexivity.
Qed.

Lemma hands_app a c : hands (a ++ c) = hands a ++ hands c.
Proof. apply flat_map_app. Qed.
Lemma running_app a c : running (a ++ c) = running a + running c.
Proof. unfold running. now rewrite filter_app, app_length. Qed.
Lemma running_len ws : running ws <= length ws.
Proof. unfold running. induction ws as [|[] ws IH]; simpl; lia. Qed.

Lemma running0_hands ws : running ws = 0 -> hands ws = [].
Proof. unfold running. induction ws as [|[] ws IH]; simpl; intros; try lia; auto. Qed.

Lemma running0_forallb ws : running ws = 0 <->
  forallb (fun w : @workpc File => match w with WDone => true | _ => false end) ws = true.
Proof.
  unfold running. induction ws as [|[] ws IH]; simpl; split; intros; try easy; try lia; now apply IH.
Qed.

Lemma inv_init files n : inv files n (l_init files n).
Proof.
  constructor; unfold l_init; cbn [l_cap l_main l_in l_workers l_out l_closed l_got]; try easy.
  - unfold all_files. cbn [l_cap l_main l_in l_workers l_out l_closed l_got map app rest_of]. assert (H : hands (repeat (@WIdle File) n) = []) by (induction n; auto).
    now rewrite H.
  - apply repeat_length.
  - intros H. exfalso. assert (E : running (repeat (@WIdle File) n) = n)
      by (unfold running; clear; induction n; simpl; auto). lia.
Qed.

Ltac perm := 
  repeat rewrite ?map_app, ?hands_app, <- ?app_assoc; simpl;
  repeat rewrite <- ?app_assoc; simpl; auto.

Lemma inv_step files n s t s' : inv files n s -> l_step s t = Some s' -> inv files n s'.
Proof.
  intros I E. destruct I as [C P V LN O CL PC T D]. unfold PLookup.l_step in E.
  destruct t as [| |i].
  - destruct (l_main s) as [[|f rest]| |] eqn:M.
    + injection E as <-. constructor; cbn [l_cap l_main l_in l_workers l_out l_closed l_got in_closed rest_of]; auto; try easy.
      * unfold all_files in *. cbn [l_cap l_main l_in l_workers l_out l_closed l_got in_closed rest_of]. rewrite M in P. exact P.
      * intros H. specialize (T H). destruct T as [T1 T2]. auto.
    + destruct (Nat.ltb_spec (length (l_in s)) (l_cap s)); [|easy]. injection E as <-.
      constructor; cbn [l_cap l_main l_in l_workers l_out l_closed l_got in_closed rest_of]; auto; try easy.
      * unfold all_files in *. cbn [l_cap l_main l_in l_workers l_out l_closed l_got in_closed rest_of]. rewrite M in P. cbn in P. now rewrite <- app_assoc.
      * intros H'. specialize (PC H'). unfold in_closed in PC. now rewrite M in PC.
      * intros H'. specialize (T H'). destruct T as [T1 T2]. unfold in_closed in T2. now rewrite M in T2.
    + destruct (l_out s) as [|r out] eqn:Oq.
      * destruct (l_closed s) eqn:Cs; [|easy]. injection E as <-.
        constructor; cbn [l_cap l_main l_in l_workers l_out l_closed l_got in_closed rest_of]; auto; try easy.
        -- unfold all_files in *. cbn [l_cap l_main l_in l_workers l_out l_closed l_got in_closed rest_of]. rewrite M, Oq in P. exact P.
        -- intros H. specialize (T H). tauto.
      * injection E as <-. constructor; cbn [l_cap l_main l_in l_workers l_out l_closed l_got in_closed rest_of]; auto; try easy.
        -- unfold all_files in *. cbn [l_cap l_main l_in l_workers l_out l_closed l_got in_closed rest_of]. rewrite M, Oq in P. rewrite map_app, <- app_assoc. exact P.
        -- intros f x H. apply V. rewrite <- app_assoc in H. exact H.
        -- intros H. specialize (T H). tauto.
    + easy.
  - destruct (in_closed s && negb (l_closed s) && _) eqn:G; [|easy]. injection E as <-.
    apply andb_true_iff in G. destruct G as [G F]. apply andb_true_iff in G. destruct G as [G1 G2].
    apply running0_forallb in F.
    constructor; cbn [l_cap l_main l_in l_workers l_out l_closed l_got in_closed rest_of]; auto; try easy.
  - destruct (nth_error (l_workers s) i) as [w|] eqn:Nth; [|easy].
    destruct (split_nth _ _ _ Nth) as (a & c & Ws & Set').
    destruct w as [|f|]; [| |easy].
    + destruct (l_in s) as [|f rest] eqn:Iq.
      * destruct (in_closed s) eqn:Ic; [|easy]. injection E as <-. rewrite Set'.
        constructor; cbn [l_cap l_main l_in l_workers l_out l_closed l_got in_closed rest_of]; auto.
        -- unfold all_files in *. cbn [l_cap l_main l_in l_workers l_out l_closed l_got in_closed rest_of]. rewrite Ws, Iq in P. rewrite hands_app in *. exact P.
        -- rewrite <- LN, Ws, !app_length. reflexivity.
        -- intros H. specialize (CL H). rewrite Ws, running_app in CL. rewrite running_app. unfold running in *; simpl in *. lia.
      * injection E as <-. rewrite Set'.
        assert (NC : l_closed s = true -> False).
        { intros H. specialize (CL H). rewrite Ws, running_app in CL. unfold running in CL. simpl in CL. lia. }
        assert (RN : ~ running (l_workers s) < n) by (intros H; specialize (T H); destruct T; easy).
        constructor; cbn [l_cap l_main l_in l_workers l_out l_closed l_got in_closed rest_of]; auto.
        -- unfold all_files in *. cbn [l_cap l_main l_in l_workers l_out l_closed l_got in_closed rest_of]. rewrite Ws, Iq in P. rewrite hands_app in *.
           rewrite <- P. apply Permutation_app_head. apply Permutation_app_head. simpl.
           rewrite <- !app_assoc. apply Permutation_app_head. simpl.
           apply Permutation_middle.
        -- rewrite <- LN, Ws, !app_length. reflexivity.
        -- intros H. now apply NC in H.
        -- intros H. exfalso. apply RN. rewrite Ws. rewrite running_app in *. unfold running in *. simpl in *. lia.
    + destruct (Nat.ltb_spec (length (l_out s)) (l_cap s)); [|easy]. injection E as <-. rewrite Set'.
      assert (NC : l_closed s = true -> False).
      { intros H'. specialize (CL H'). rewrite Ws, running_app in CL. unfold running in CL. simpl in CL. lia. }
      constructor; cbn [l_cap l_main l_in l_workers l_out l_closed l_got in_closed rest_of]; auto.
      * unfold all_files in *. cbn [l_cap l_main l_in l_workers l_out l_closed l_got in_closed rest_of]. rewrite Ws in P. rewrite hands_app in *. rewrite <- P.
        apply Permutation_app_head. rewrite map_app. rewrite <- !app_assoc.
        apply Permutation_app_head. simpl.
        rewrite <- Permutation_middle. reflexivity.
      * intros g r H'. rewrite app_assoc in H'. apply in_app_or in H'. destruct H' as [H'|[[= <- <-]|[]]]; auto.
      * rewrite <- LN, Ws, !app_length. reflexivity.
      * intros H'. now apply NC in H'.
      * intros H'. apply T. rewrite Ws. rewrite running_app in *. unfold running in *. simpl in *. lia.
      * intros H'. exfalso. destruct (l_closed s) eqn:Cs; [now apply NC|]. now apply O.
Qed.

Lemma inv_run files n s sched s' : inv files n s -> l_run s sched = Some s' -> inv files n s'.
Proof.
  revert s. induction sched as [|t sched IH]; intros s I E; simpl in E; [now injection E as <-|].
  destruct (l_step s t) as [s1|] eqn:S1; [|easy]. eapply IH; [|exact E]. eapply inv_step; eauto.
Qed.

(** Progress: unless the main goroutine has returned, some thread can move. *)
Lemma sizes files n s : inv files n s ->
  length (l_got s) + length (l_out s) + length (hands (l_workers s)) + length (l_in s) + length (rest_of (l_main s)) = length files.
Proof.
  intros I. rewrite <- (Permutation_length (i_perm _ _ _ I)). unfold all_files.
  rewrite !app_length, !map_length. lia.
Qed.

Lemma hands_nth ws i f : nth_error ws i = Some (WHas f) -> 1 <= length (hands ws).
Proof.
  intros H. destruct (split_nth _ _ _ H) as (a & c & -> & _). rewrite hands_app, app_length. simpl. lia.
Qed.

Lemma find_running ws : running ws <> 0 -> exists i, nth_error ws i = Some (@WIdle File) \/ exists f, nth_error ws i = Some (WHas f).
Proof.
  unfold running. induction ws as [|[|f|] ws IH]; simpl; intros H; try easy.
  - exists 0. auto.
  - exists 0. right. now exists f.
  - destruct (IH H) as (i & Hi). exists (S i). exact Hi.
Qed.

Lemma progress files n s : 1 <= n -> inv files n s -> l_main s <> MDone ->
  exists t s', l_step s t = Some s'.
Proof.
  intros N I ND. pose proof (sizes _ _ _ I) as Sz. pose proof (i_cap _ _ _ I) as Cap.
  destruct (l_main s) as [[|f rest]| |] eqn:M; [| | |easy].
  - exists TMain. simpl. rewrite M. eauto.
  - exists TMain. simpl. rewrite M. simpl in Sz.
    destruct (Nat.ltb_spec (length (l_in s)) (l_cap s)); [eauto|lia].
  - destruct (l_out s) as [|r out] eqn:Oq; [|exists TMain; simpl; rewrite M, Oq; eauto].
    destruct (l_closed s) eqn:Cl; [exists TMain; simpl; rewrite M, Oq, Cl; eauto|].
    destruct (Nat.eq_dec (running (l_workers s)) 0) as [R|R].
    + exists TCloser. simpl. unfold in_closed. rewrite M, Cl. simpl.
      rewrite (proj1 (running0_forallb _) R). eauto.
    + destruct (find_running _ R) as (i & [Hi|(f & Hi)]); exists (TWorker i); cbn [PLookup.l_step]; rewrite Hi.
      * unfold in_closed. rewrite M. destruct (l_in s); eauto.
      * pose proof (hands_nth _ _ _ Hi). rewrite Oq. simpl in *.
        destruct (Nat.ltb_spec 0 (l_cap s)); [eauto|lia].
Qed.

(** Every step decreases the measure. *)
Definition measure (s : lst) : nat :=
  4 * length (rest_of (l_main s)) + 3 * length (l_in s) + 2 * length (hands (l_workers s)) + length (l_out s)
  + running (l_workers s) + (if l_closed s then 0 else 1)
  + match l_main s with MPush _ => 2 | MCollect => 1 | MDone => 0 end.

Lemma step_measure s t s' : l_step s t = Some s' -> measure s' < measure s.
Proof.
  intros E. unfold PLookup.l_step in E. unfold measure. destruct t as [| |i].
  - destruct (l_main s) as [[|f rest]| |] eqn:M.
    + injection E as <-. cbn [l_main l_in l_workers l_out l_closed l_got rest_of length]. lia.
    + destruct (length (l_in s) <? l_cap s); [|easy]. injection E as <-. cbn [l_main l_in l_workers l_out l_closed l_got rest_of length]. rewrite app_length. cbn [length]. lia.
    + destruct (l_out s) as [|r out] eqn:Oq.
      * destruct (l_closed s); [|easy]. injection E as <-. cbn [l_main l_in l_workers l_out l_closed l_got rest_of length]. lia.
      * injection E as <-. cbn [l_main l_in l_workers l_out l_closed l_got rest_of length]. lia.
    + easy.
  - destruct (in_closed s && negb (l_closed s) && _) eqn:G; [|easy]. injection E as <-.
    destruct (l_closed s); [now rewrite andb_false_r in G|]. cbn [l_main l_in l_workers l_out l_closed l_got rest_of length]. lia.
  - destruct (nth_error (l_workers s) i) as [w|] eqn:Nth; [|easy].
    destruct (split_nth _ _ _ Nth) as (a & c & Ws & Set').
    destruct w as [|f|]; [| |easy].
    + destruct (l_in s) as [|f rest] eqn:Iq.
      * destruct (in_closed s); [|easy]. injection E as <-. cbn [l_main l_in l_workers l_out l_closed l_got]. rewrite Set', Ws.
        rewrite !hands_app, !running_app, !app_length. unfold running. simpl. lia.
      * injection E as <-. cbn [l_main l_in l_workers l_out l_closed l_got]. rewrite Set', Ws.
        rewrite !hands_app, !running_app, !app_length. unfold running. simpl. lia.
    + destruct (length (l_out s) <? l_cap s); [|easy]. injection E as <-.
      cbn [l_main l_in l_workers l_out l_closed l_got]. rewrite Set', Ws.
      rewrite !hands_app, !running_app, !app_length. unfold running. simpl. lia.
Qed.

Lemma run_bound s sched s' : l_run s sched = Some s' -> length sched + measure s' <= measure s.
Proof.
  revert s. induction sched as [|t sched IH]; intros s E; simpl in E; [injection E as <-; simpl; lia|].
  destruct (l_step s t) as [s1|] eqn:S1; [|easy]. apply step_measure in S1. specialize (IH _ E). simpl. lia.
Qed.

(** The final map. *)
Fixpoint get (m : list (File * Res)) (f : File) : option Res :=
  match m with [] => None | (f', r) :: m' => if feqb f f' then Some r else get m' f end.

Lemma put_keys (m : list (File * Res)) f r :
  (forall x, In x (map fst (put feqb m f r)) <-> x = f \/ In x (map fst m)) /\
  (NoDup (map fst m) -> NoDup (map fst (put feqb m f r))) /\
  (forall g x, In (g, x) (put feqb m f r) -> (g, x) = (f, r) \/ In (g, x) m).
Proof.
  induction m as [|[f' r'] m (A & B & C)]; simpl.
  - split; [intros x; split; intros [->|H]; auto; easy|].
    split; [intros _; repeat constructor; easy|]. intros g x [<-|[]]. auto.
  - destruct (feqb f f') eqn:E.
    + apply feqb_eq in E. subst f'. simpl. split; [intros x; split; [intros [->|H]; auto|intros [->|[->|H]]; auto]|].
      split; [auto|]. intros g x [<-|H]; auto.
    + assert (Nf : f <> f') by (intros X; apply feqb_eq in X; congruence).
      simpl. repeat split.
      * intros [->|H]; [auto|]. apply A in H. tauto.
      * intros [->|[->|H]]; [|auto|]; right; apply A; auto.
      * intros H. inversion H as [|a l Hn Hd]; subst. constructor; auto.
        rewrite A. intros [X|X]; congruence.
      * intros g x [[= -> ->]|H]; [auto|]. apply C in H. tauto.
Qed.

Lemma fold_put (l : list (File * Res)) : forall m : list (File * Res),
  NoDup (map fst m) ->
  let m' := fold_left (fun m x => put feqb m (fst x) (snd x)) l m in
  NoDup (map fst m') /\
  (forall x, In x (map fst m') <-> In x (map fst m) \/ In x (map fst l)) /\
  (forall g x, In (g, x) m' -> In (g, x) m \/ In (g, x) l).
Proof.
  induction l as [|[f r] l IH]; intros m ND; simpl.
  - split; [auto|]. split; [intros x; tauto|auto].
  - destruct (put_keys m f r) as (A & B & C). destruct (IH (put feqb m f r) (B ND)) as (X & Y & Z).
    split; [auto|]. split.
    + intros x. rewrite Y, A. split; [intros [[->|H]|H]|intros [H|[->|H]]]; auto.
    + intros g x H. apply Z in H. destruct H as [H|H]; [apply C in H; destruct H as [->|H]|]; auto.
Qed.

Theorem final_result files n sched s :
  1 <= n -> l_run (l_init files n) sched = Some s -> l_main s = MDone ->
  NoDup (map fst (l_result feqb s)) /\
  (forall f, In f (map fst (l_result feqb s)) <-> In f files) /\
  (forall f r, In (f, r) (l_result feqb s) -> r = look f) /\
  Permutation (map fst (l_got s)) files.
Proof.
  intros N E M. pose proof (inv_run _ _ _ _ _ (inv_init files n) E) as I.
  assert (G : Permutation (map fst (l_got s)) files).
  { pose proof (i_perm _ _ _ I) as P. unfold all_files in P. rewrite (i_done _ _ _ I M), M in P.
    destruct (l_closed s) eqn:Cl; [|now destruct (i_open _ _ _ I Cl)].
    pose proof (i_closed _ _ _ I Cl) as R. rewrite (running0_hands _ R) in P.
    simpl in P. rewrite app_nil_r in P.
    assert (Hin : l_in s = []) by (apply (i_term _ _ _ I); lia). rewrite Hin, app_nil_r in P. exact P. }
  destruct (fold_put (l_got s) [] (NoDup_nil _)) as (A & B & C). unfold l_result.
  split; [auto|]. split; [|split; [|auto]].
  - intros f. rewrite B. simpl. split; [intros [[]|H]|intros H; right].
    + eapply Permutation_in; eauto.
    + eapply Permutation_in; [symmetry; eauto|auto].
  - intros f r H. apply C in H. destruct H as [[]|H]. apply (i_vals _ _ _ I). apply in_or_app. now left.
Qed.

End P.
