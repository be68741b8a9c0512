(** Lemmas for C59. *)
From Coq Require Import String Ascii Bool List ZArith Lia.
From Verif Require Import Base EngineProofs Nullish NullishSpec.
Import ListNotations.
Open Scope Z_scope.

Lemma bare_skip e : bare e = skip e.
Proof. induction e; simpl; auto. Qed.
Lemma skip_not_paren e x : skip e <> Paren x.
Proof. induction e; simpl; congruence. Qed.
Lemma skip_skip e : skip (skip e) = skip e.
Proof. induction e; simpl; auto. Qed.
Lemma reads_skip e f : reads (skip e) f -> reads e f.
Proof. induction e; simpl; auto. intros. constructor. auto. Qed.
Lemma tame_skip e : tame e -> tame (skip e).
Proof. induction e; simpl; auto. Qed.
Lemma reads_strip e f : reads (strip e) f -> reads e f.
Proof. unfold strip. intros. apply reads_skip. destruct (skip e); auto. now constructor. Qed.
Lemma tame_strip e : tame e -> tame (strip e).
Proof. unfold strip. intros H. apply tame_skip in H. now destruct (skip e). Qed.
Lemma strip_core e : (forall x, e <> Paren x) -> (forall x, e <> NonNull x) -> strip e = e.
Proof. destruct e; intros H H'; try reflexivity; [elim (H' e)|elim (H e)]; reflexivity. Qed.

Lemma reads_elem e i o f q : reads e o -> reads i f -> exists g, reads (Elem e i q) g /\ forall e' i' q', reads e' o -> (i' = i \/ (forall s, i <> Str s /\ i <> Tmpl s) /\ (forall s, i' <> Str s /\ i' <> Tmpl s) /\ reads i' f) -> reads (Elem e' i' q') g.
Proof.
  intros R S.
  destruct i as [x| | |s|s|s|s|? ? ? ?|? ? ?|?|?|?|? ? ?|? ? ?|? ? ? ?];
  try (exists (SElem o f); split; [constructor; auto; intros; split; discriminate|]; intros e' i' q' R' [-> | (A & B & C)]; constructor; auto; intros; split; discriminate).
  - exists (SDot o (false, s)). split; [now constructor|]. intros e' i' q' R' [-> | (A & B & C)]; [now constructor|]. destruct (A s). congruence.
  - exists (SDot o (false, s)). split; [now constructor|]. intros e' i' q' R' [-> | (A & B & C)]; [now constructor|]. destruct (A s). congruence.
Qed.
Lemma node_equal_reads a : forall c, node_equal a c = true -> exists f, reads a f /\ reads c f.
Proof.
  induction a as [x| | |s|s|s|s|o IHo p n q|o IHo i IHi q|e IHe|e IHe|e IHe|k l IHl r IHr|c0 IHc t IHt f IHf|n s t c0]; intros c H; destruct c as [x'| | |s'|s'|s'|s'|o' p' n' q'|o' i' q'|e'|e'|e'|k' l' r'|c' t' f'|n' s' t' c'];
  simpl in H; try discriminate; try (apply beqb_eq in H as ->; eexists; split; constructor); try now (eexists; split; constructor).
  - apply andb_prop in H as [H H']. apply andb_prop in H as [H H2]. apply andb_prop in H as [P P']. apply beqb_eq in H2 as ->.
    destruct (IHo _ H') as (f & A & B). destruct p, p'; try discriminate. exists (SDot f (false, n')). split; now constructor.
  - apply andb_prop in H as [H H']. destruct (IHi _ H) as (f & A & B). destruct (IHo _ H') as (g & C & D).
    destruct (reads_elem _ _ _ _ q C A) as (h & E & F). exists h. split; [exact E|]. apply F; [exact D|].
    destruct i, i'; simpl in H; try discriminate; try (apply beqb_eq in H as ->; now left); (right; split; [|split]; auto; intros ?; split; discriminate).
Qed.
Lemma similar_reads a : (forall c, fst (similarity a) c = true -> tame a -> tame c -> exists f, reads a f /\ reads c f)
  /\ (forall c, snd (similarity a) c = true -> tame a -> tame c -> exists f, reads a f /\ reads c f).
Proof.
  assert (S : forall a, (forall c, snd (similarity a) c = true -> tame a -> tame c -> exists f, reads a f /\ reads c f) ->
    fst (similarity a) = (fun c => snd (similarity a) (strip c)) ->
    forall c, fst (similarity a) c = true -> tame a -> tame c -> exists f, reads a f /\ reads c f).
  { intros a0 A E c. rewrite E. intros H T T'. destruct (A _ H T (tame_strip _ T')) as (f & R & R'). exists f. split; [exact R|]. now apply reads_strip. }
  assert (K : forall a0, (forall c, node_equal a0 c = true -> tame a0 -> tame c -> exists f, reads a0 f /\ reads c f)) by (intros; now apply node_equal_reads).
  induction a as [x| | |s|s|s|s|o IHo p n q|o IHo i IHi q|e IHe|e IHe|e IHe|k l IHl r IHr|c0 IHc t IHt f IHf|n s t c0];
  try (split; [apply S; [|reflexivity]|]; simpl; intros c H _ _; now apply node_equal_reads).
  - assert (N : forall c, snd (similarity (Dot o p n q)) c = true -> tame (Dot o p n q) -> tame c -> exists f, reads (Dot o p n q) f /\ reads c f).
    { destruct IHo as [IH _]. intros c H [T TN] T'.
      destruct c as [x'| | |s'|s'|s'|s'|o' p' n' q'|o' i' q'|e'|e'|e'|k' l' r'|c' t' f'|n' s' t' c']; cbn [similarity snd object_of] in H; try discriminate.
      - destruct T' as [T' TN']. cbn [access_name] in H.
        assert (X : beqb (if p then b "#" ++ n else n) (if p' then b "#" ++ n' else n') = true /\ fst (similarity o) o' = true).
        { destruct (beqb (if p then b "#" ++ n else n) [] || beqb (if p' then b "#" ++ n' else n') []); destruct (beqb (if p then b "#" ++ n else n) (if p' then b "#" ++ n' else n')) eqn:E; try discriminate; auto. }
        destruct X as [X Y]. apply beqb_eq in X. destruct (IH _ Y T T') as (f & A & B).
        destruct p, p'.
        + injection X as ->. exists (SDot f (true, n')). split; now constructor.
        + elim (TN' eq_refl n). now symmetry.
        + elim (TN eq_refl n'). exact X.
        + subst. exists (SDot f (false, n')). split; now constructor.
      - destruct T' as (T' & NC & TS). cbn [access_name] in H.
        match type of H with (if ?c then _ else _) = true => destruct c eqn:Z end; [discriminate|].
        apply orb_false_iff in Z as [Z Z'].
        match type of H with (if negb (?c) then _ else _) = true => destruct c eqn:X end; [|discriminate]. cbn [negb] in H. apply beqb_eq in X.
        destruct (IH _ H T T') as (f & A & B).
        assert (P : p = false). { destruct p; [|reflexivity]. destruct i'; try discriminate; destruct (TS n) as [T1 T2]; congruence. }
        subst p. exists (SDot f (false, n)). split; [now constructor|].
        destruct i'; try (rewrite beqb_refl in Z'; discriminate); subst; now constructor. }
    split; [apply S; [exact N|reflexivity]|exact N].
  - assert (N : forall c, snd (similarity (Elem o i q)) c = true -> tame (Elem o i q) -> tame c -> exists f, reads (Elem o i q) f /\ reads c f).
    { destruct IHo as [IH _]. intros c H (T & NC & TS) T'.
      destruct c as [x'| | |s'|s'|s'|s'|o' p' n' q'|o' i' q'|e'|e'|e'|k' l' r'|c' t' f'|n' s' t' c']; cbn [similarity snd object_of] in H; try discriminate.
      - destruct T' as [T' TN']. cbn [access_name] in H.
        match type of H with (if ?c then _ else _) = true => destruct c eqn:Z end; [discriminate|].
        apply orb_false_iff in Z as [Z Z'].
        match type of H with (if negb (?c) then _ else _) = true => destruct c eqn:X end; [|discriminate]. cbn [negb] in H. apply beqb_eq in X.
        destruct (IH _ H T T') as (f & A & B).
        assert (P : p' = false). { destruct p'; [|reflexivity]. destruct i; try discriminate; destruct (TS n') as [T1 T2]; congruence. }
        subst p'. exists (SDot f (false, n')). split; [|now constructor].
        destruct i; try (rewrite beqb_refl in Z; discriminate); subst; now constructor.
      - destruct T' as (T' & NC' & TS'). cbn [access_name] in H.
        match type of H with (if ?c then _ else _) = true => destruct c eqn:Z end.
        + destruct (fst (similarity o) o') eqn:Y; [|discriminate]. cbn [negb] in H.
          destruct (IH _ Y T T') as (f & A & B). destruct (node_equal_reads _ _ H) as (g & C & D).
          destruct (reads_elem _ _ _ _ q A C) as (h & E & F). exists h. split; [exact E|]. apply F; [exact B|].
          destruct i, i'; simpl in H; try discriminate; try (apply beqb_eq in H as ->; now left); (right; split; [|split]; auto; intros ?; split; discriminate).
        + apply orb_false_iff in Z as [Z Z'].
          match type of H with (if negb (?c) then _ else _) = true => destruct c eqn:X end; [|discriminate]. cbn [negb] in H. apply beqb_eq in X.
          destruct (IH _ H T T') as (f & A & B).
          exists (SDot f (false, match i with Str s => s | Tmpl s => s | _ => [] end)).
          destruct i; try (rewrite beqb_refl in Z; discriminate); destruct i'; try (rewrite beqb_refl in Z'; discriminate); subst; split; now constructor. }
    split; [apply S; [exact N|reflexivity]|exact N].
  - split.
    + intros c H T T'. destruct IHe as [_ IH]. cbn [similarity fst] in H. destruct (IH _ H T (tame_strip _ T')) as (f & R & R'). exists f. split; [now constructor|now apply reads_strip].
    + simpl. intros c H _ _. now apply node_equal_reads.
  - split.
    + intros c H T T'. destruct IHe as [IH _]. cbn [similarity fst] in H. destruct (IH _ H T T') as (f & R & R'). exists f. split; [now constructor|exact R'].
    + simpl. intros c H _ _. now apply node_equal_reads.
Qed.


(** Reporting. *)
Lemma logical_op_iff k : is_logical_op k = true <-> k = Or \/ k = And \/ k = Coal.
Proof. destruct k; simpl; split; intros H; try discriminate; auto; destruct H as [H|[H|H]]; discriminate. Qed.
Lemma conditional_test_iff ctx : conditional_test ctx = true <-> as_test ctx.
Proof.
  induction ctx as [|f ctx IH]; [split; [discriminate|inversion 1]|].
  assert (P : passes f -> (conditional_test ctx = true <-> as_test (f :: ctx))).
  { intros P. split; intros H; [apply t_passes; [exact P|]; now apply IH|]. inversion H; subst; try (inversion P; fail). now apply IH. }
  destruct f; cbn [conditional_test]; try (apply P; constructor; fail).
  - destruct (is_logical_op o) eqn:E; [apply P; constructor; now apply logical_op_iff|]. split; [discriminate|]. inversion 1 as [| |f' ctx' Q]; subst. inversion Q; subst. match goal with D : _ \/ _ |- _ => apply logical_op_iff in D end. congruence.
  - destruct (is_logical_op o) eqn:E; [apply P; constructor; apply logical_op_iff in E; tauto|].
    destruct o; try (apply P; constructor; tauto); (split; [discriminate|]); inversion 1 as [| |f' ctx' Q]; subst; inversion Q; subst; match goal with D : _ \/ _ |- _ => destruct D as [D|[D|[D|D]]] end; discriminate.
  - split; auto. intros _. apply t_cond.
  - split; auto. intros _. constructor.
  - split; [discriminate|]. inversion 1 as [| |f' ctx' Q]; subst. inversion Q.
  - split; [discriminate|]. inversion 1 as [| |f' ctx' Q]; subst. inversion Q.
  - split; [discriminate|]. inversion 1 as [| |f' ctx' Q]; subst. inversion Q.
Qed.
Lemma is_logical_iff e : is_logical e = true <-> logical_inside e.
Proof.
  induction e; cbn [is_logical]; try (split; [discriminate|inversion 1]; fail).
  - rewrite IHe. split; [now constructor|]. now inversion 1.
  - rewrite IHe. split; [now constructor|]. now inversion 1.
  - rewrite logical_op_iff. split; [intros; now constructor|]. now inversion 1.
Qed.
Lemma boolean_context_iff ctx : forall e, boolean_context ctx e = true <-> to_boolean ctx e.
Proof.
  induction ctx as [|f ctx IH]; intros e; [split; [discriminate|inversion 1]|].
  assert (P : passes f -> (f = FNot -> logical_inside e) -> (boolean_context ctx (plug1 f e) = true <-> to_boolean (f :: ctx) e)).
  { intros P Q. split; intros H; [apply b_passes; auto; now apply IH|]. inversion H; subst; try (inversion P; fail). now apply IH. }
  destruct f; cbn [boolean_context]; try (apply P; [constructor|discriminate]; fail).
  - change (is_logical (Not e)) with (is_logical e). destruct (is_logical e) eqn:E; [apply P; [constructor|intros _; now apply is_logical_iff]|].
    split; [discriminate|]. inversion 1 as [|f' ctx' e' Q R]; subst. specialize (R eq_refl). apply is_logical_iff in R. congruence.
  - destruct (is_logical_op o) eqn:E; [apply P; [constructor; now apply logical_op_iff|discriminate]|]. split; [discriminate|]. inversion 1 as [|f' ctx' e' Q R]; subst. inversion Q; subst. match goal with D : _ \/ _ |- _ => apply logical_op_iff in D end. congruence.
  - destruct (is_logical_op o) eqn:E; [apply P; [constructor; apply logical_op_iff in E; tauto|discriminate]|].
    destruct o; try (apply P; [constructor; tauto|discriminate]); (split; [discriminate|]); inversion 1 as [|f' ctx' e' Q R]; subst; inversion Q; subst; match goal with D : _ \/ _ |- _ => destruct D as [D|[D|[D|D]]] end; discriminate.
  - split; [discriminate|]. inversion 1 as [|f' ctx' e' Q R]; subst. inversion Q.
  - split; [discriminate|]. inversion 1 as [|f' ctx' e' Q R]; subst. inversion Q.
  - split; [intros _; constructor|auto].
  - split; [discriminate|]. inversion 1 as [|f' ctx' e' Q R]; subst. inversion Q.
  - split; [discriminate|]. inversion 1 as [|f' ctx' e' Q R]; subst. inversion Q.
Qed.
Lemma any_iff t : any_or_unknown t = true <-> t = [[TAny]] \/ t = [[TUnknown]].
Proof. destruct t as [|[|[] [|]] [|]]; simpl; split; intros H; try discriminate; auto; destruct H; discriminate. Qed.
Lemma any_iff_not t : any_or_unknown t = false <-> t <> [[TAny]] /\ t <> [[TUnknown]].
Proof. rewrite <- not_true_iff_false, any_iff. tauto. Qed.
Lemma nullable_iff t : is_nullable t = true <-> may_be_nullish t.
Proof.
  unfold is_nullable, may_be_nullish. rewrite orb_true_iff, any_iff, existsb_exists. split.
  - intros [[H|H]|(p & I & M)]; auto. destruct p as [|[] [|]]; try discriminate; auto.
  - intros [H|[H|[H|H]]]; auto; right; eexists; split; try exact H; reflexivity.
Qed.
Lemma ignorable_iff o a : ignorable o a = true <-> ignored o a.
Proof. unfold ignored. destruct a; simpl; split; intros H; try discriminate; try tauto; destruct H as [[H X]|[[H X]|[[H X]|[H X]]]]; try discriminate; auto. Qed.
Lemma eligible_iff o t : eligible_type o t = true <-> type_due o t.
Proof.
  unfold eligible_type, type_due. destruct (is_nullable t) eqn:N; cbn [negb].
  2: { split; [discriminate|]. intros [H _]. apply nullable_iff in H. congruence. }
  apply nullable_iff in N. destruct (nothing_ignorable o) eqn:G.
  - split; auto. intros _. split; [exact N|]. intros (a & A). unfold nothing_ignorable in G. apply negb_true_iff in G. repeat apply orb_false_iff in G as [G ?]. unfold ignored in A. exfalso. destruct A as [[_ A]|[[_ A]|[[_ A]|[_ A]]]]; congruence.
  - assert (X : exists a, ignored o a).
    { unfold nothing_ignorable in G. apply negb_false_iff in G. rewrite !orb_true_iff in G. unfold ignored. destruct G as [[[G|G]|G]|G]; [exists TBigint|exists TBoolean|exists TNumber|exists TString]; tauto. }
    destruct (any_or_unknown t) eqn:A.
    + split; [discriminate|]. intros [_ H]. destruct (H X) as (H1 & H2 & _). apply any_iff in A. tauto.
    + apply any_iff_not in A as [A1 A2]. rewrite negb_true_iff, <- not_true_iff_false. split.
      * intros H. split; [exact N|]. intros _. split; [exact A1|]. split; [exact A2|]. intros part a P Q R. apply H. apply existsb_exists. exists part. split; [exact P|]. apply existsb_exists. exists a. split; [exact Q|]. now apply ignorable_iff.
      * intros [_ H] E. apply existsb_exists in E as (part & P & E). apply existsb_exists in E as (a & Q & E). destruct (H X) as (_ & _ & H'). apply (H' part a P Q). now apply ignorable_iff.
Qed.
Lemma truth_iff o type_of ctx e x : truth_eligible o type_of ctx e x = true <-> truth_due o (type_of x) ctx e.
Proof.
  unfold truth_eligible, truth_due. destruct (eligible_type o (type_of x)) eqn:E; cbn [negb].
  2: { split; [discriminate|]. intros [H _]. apply eligible_iff in H. congruence. }
  apply eligible_iff in E. destruct (ig_conditional o) eqn:C; cbn [andb].
  - destruct (conditional_test ctx) eqn:T.
    { split; [discriminate|]. intros (_ & H & _). elim (H eq_refl). now apply conditional_test_iff. }
    destruct (ig_boolean o) eqn:B; cbn [andb].
    + destruct e as [e|]; cbn [andb].
      2: { split; auto. intros _. split; [exact E|]. split; [|intros _ y Y; discriminate]. intros _ T'. apply conditional_test_iff in T'. congruence. }
      destruct (boolean_context ctx e) eqn:K; cbn [andb].
      * apply boolean_context_iff in K. split.
        -- intros H. split; [exact E|]. split. { intros _ T'. apply conditional_test_iff in T'. congruence. }
           intros _ y Y _. injection Y as <-. destruct e as [| | | | | | | | | | | | |c y n|]; try discriminate. destruct ctx as [|f rest]; [discriminate|]. exists c, y, n, f, rest. split; [reflexivity|]. split; [reflexivity|]. destruct f; try discriminate; auto.
        -- intros (_ & _ & H). destruct (H eq_refl e eq_refl K) as (c & y & n & f & rest & -> & -> & [-> | ->]); reflexivity.
      * split; auto. intros _. split; [exact E|]. split. { intros _ T'. apply conditional_test_iff in T'. congruence. }
        intros _ y Y K'. injection Y as <-. apply boolean_context_iff in K'. congruence.
    + split; auto. intros _. split; [exact E|]. split; [|discriminate]. intros _ T'. apply conditional_test_iff in T'. congruence.
  - destruct (ig_boolean o) eqn:B; cbn [andb].
    + destruct e as [e|]; cbn [andb].
      2: { split; auto. intros _. split; [exact E|]. split; [discriminate|]. intros _ y Y; discriminate. }
      destruct (boolean_context ctx e) eqn:K; cbn [andb].
      * apply boolean_context_iff in K. split.
        -- intros H. split; [exact E|]. split; [discriminate|].
           intros _ y Y _. injection Y as <-. destruct e as [| | | | | | | | | | | | |c y n|]; try discriminate. destruct ctx as [|f rest]; [discriminate|]. exists c, y, n, f, rest. split; [reflexivity|]. split; [reflexivity|]. destruct f; try discriminate; auto.
        -- intros (_ & _ & H). destruct (H eq_refl e eq_refl K) as (c & y & n & f & rest & -> & -> & [-> | ->]); reflexivity.
      * split; auto. intros _. split; [exact E|]. split; [discriminate|]. intros _ y Y K'. injection Y as <-. apply boolean_context_iff in K'. congruence.
    + split; auto. intros _. split; [exact E|]. split; discriminate.
Qed.
(** Mixed with &&. *)
Lemma below_iff e : mixed_below e = true <-> meets_and e.
Proof.
  induction e; cbn [mixed_below]; try (split; [discriminate|inversion 1]; fail).
  - rewrite IHe. split; [now constructor|]. now inversion 1.
  - destruct o; try (split; [discriminate|inversion 1]; fail).
    + rewrite orb_true_iff, IHe1, IHe2. split; [intros [H|H]; [now apply m_left|now apply m_right]|]. inversion 1; auto.
    + split; auto. intros _. constructor.
Qed.
Fixpoint or_skeleton (e : expr) : Prop := match e with Paren e => or_skeleton e | Bin Or _ _ => True | _ => False end.
Lemma or_skeleton_skip e : or_skeleton e -> exists l r, skip e = Bin Or l r /\ is_logical e = true.
Proof. induction e; simpl; try tauto. destruct o; try tauto. intros _. exists e1, e2. auto. Qed.
Lemma plug_meets up : Forall joins up -> forall e, meets_and e -> or_skeleton e -> meets_and (plug up e).
Proof.
  induction 1 as [|f up J F IH]; intros e M O; [exact M|].
  destruct f; try contradiction; cbn [plug plug1]; try (destruct o; try contradiction); apply IH; simpl; auto; try (now constructor); now apply m_right.
Qed.
Lemma meets_below e : meets_and e -> or_skeleton e -> forall l r, skip e = Bin Or l r -> meets_and l \/ meets_and r.
Proof. induction 1; simpl; intros O a c E; try contradiction; auto; injection E as <- <-; auto. Qed.
Lemma below_meets e l r : skip e = Bin Or l r -> meets_and l \/ meets_and r -> meets_and e.
Proof.
  intros E H. assert (M : meets_and (skip e)) by (rewrite E; destruct H; [now apply m_left|now apply m_right]). clear E H.
  induction e; simpl in *; auto. constructor. auto.
Qed.
Lemma above_iff ctx : forall e, or_skeleton e -> (mixed_above ctx e = true \/ meets_and e) <-> among_and ctx e.
Proof.
  induction ctx as [|f ctx IH]; intros e O.
  - split.
    + intros [H|H]; [discriminate|]. exists [], []. simpl. auto.
    + intros (up & rest & E & F & H). destruct up; [|discriminate]. destruct rest; [|discriminate]. simpl in H. destruct H as [H|(? & ? & H & _)]; [auto|discriminate].
  - assert (J : joins f -> (mixed_above (f :: ctx) e = true \/ meets_and e) <-> among_and (f :: ctx) e).
    { intros J. assert (O' : or_skeleton (plug1 f e)) by (destruct f; try contradiction; try (destruct o; try contradiction); simpl; auto).
      destruct (or_skeleton_skip _ O') as (l & r & SK & LG).
      assert (X : mixed_above (f :: ctx) e = mixed_above ctx (plug1 f e) || mixed_below l || mixed_below r).
      { destruct f; try contradiction; cbn [mixed_above]; rewrite LG, SK; reflexivity. }
      rewrite X, !orb_true_iff, !below_iff.
      assert (Y : among_and (f :: ctx) e <-> among_and ctx (plug1 f e)).
      { split.
        - intros (up & rest & E & F & H). destruct up as [|g up].
          + simpl in E. subst rest. destruct H as [H|(g & rest' & H & A)].
            * exists [], ctx. split; [reflexivity|]. split; [constructor|]. left. simpl in *. destruct f; try contradiction; try (destruct o; try contradiction); simpl; try (now constructor); now apply m_right.
            * injection H as <- <-. destruct f; try contradiction; destruct o; contradiction.
          + injection E as <- ->. inversion F; subst. exists up, rest. split; [reflexivity|]. split; [assumption|]. destruct H as [H|H]; [left|now right].
            destruct f; try contradiction; try (destruct o; try contradiction); exact H.
        - intros (up & rest & -> & F & H). exists (f :: up), rest. split; [reflexivity|]. split; [now constructor|]. destruct H as [H|H]; [left|now right].
          destruct f; try contradiction; try (destruct o; try contradiction); exact H. }
      rewrite Y, <- (IH _ O'). split.
      - intros [[[H|H]|H]|H]; auto; right.
        + now apply (below_meets _ _ _ SK); left.
        + now apply (below_meets _ _ _ SK); right.
        + destruct f; try contradiction; try (destruct o; try contradiction); simpl; try (now constructor); now apply m_right.
      - intros [H|H]; [auto|]. destruct (meets_below _ H O' _ _ SK); auto. }
    assert (N : ~ joins f -> ~ and_frame f -> mixed_above (f :: ctx) e = false -> (mixed_above (f :: ctx) e = true \/ meets_and e) <-> among_and (f :: ctx) e).
    { intros NJ NA ->. split.
      - intros [H|H]; [discriminate|]. exists [], (f :: ctx). split; [reflexivity|]. split; [constructor|]. now left.
      - intros (up & rest & E & F & H). destruct up as [|g up].
        + simpl in E. subst rest. destruct H as [H|(g & rest' & H & A)]; [now right|]. injection H as <- <-. contradiction.
        + injection E as <- ->. inversion F; subst. contradiction. }
    assert (A : and_frame f -> (mixed_above (f :: ctx) e = true \/ meets_and e) <-> among_and (f :: ctx) e).
    { intros A. split.
      - intros _. exists [], (f :: ctx). split; [reflexivity|]. split; [constructor|]. right. eauto.
      - intros _. left. destruct f; try contradiction; destruct o; try contradiction; reflexivity. }
    destruct f as [| |k r|l k| | | | | | |]; try (apply J; exact I); try (apply N; simpl; auto; fail).
    + apply N; simpl; auto. now destruct (is_logical e).
    + destruct k; try (apply J; exact I); try (apply A; exact I); apply N; simpl; auto.
    + destruct k; try (apply J; exact I); try (apply A; exact I); apply N; simpl; auto.
Qed.
Lemma mixed_iff ctx l r : mixed ctx (Bin Or l r) l r = true <-> among_and ctx (Bin Or l r).
Proof.
  unfold mixed. rewrite <- above_iff by exact I. rewrite !orb_true_iff, !below_iff. split.
  - intros [[H|H]|H]; auto; right; [now apply m_left|now apply m_right].
  - intros [H|H]; auto. inversion H; auto.
Qed.

(** Tests. *)
Lemma chained_iff e : in_chain e = true <-> chained e.
Proof.
  induction e; cbn [in_chain]; try (split; [discriminate|inversion 1]; fail).
  - rewrite orb_true_iff, IHe. split; [intros [-> |H]; now constructor|]. inversion 1; auto.
  - rewrite orb_true_iff, IHe1. split; [intros [-> |H]; now constructor|]. inversion 1; auto.
  - rewrite IHe. split; [now constructor|]. now inversion 1.
  - split; [intros ->; constructor|]. now inversion 1.
Qed.
Lemma access_iff e : member_like e = true <-> access (bare e).
Proof.
  unfold access. rewrite bare_skip. unfold member_like. destruct (skip e); (split; [intros H|]);
  try (left; eexists; reflexivity); try (right; left; do 4 eexists; reflexivity); try (right; right; left; do 3 eexists; reflexivity); try (right; right; right; apply chained_iff; exact H);
  try (intros _; reflexivity); intros [(? & H)|[(? & ? & ? & ? & H)|[(? & ? & ? & H)|H]]]; try discriminate; apply chained_iff; exact H.
Qed.
Lemma literal_iff e : is_nullish_literal e = true <-> literal e.
Proof.
  unfold is_nullish_literal, literal, undefined. destruct e; simpl; split; intros H; try discriminate; auto; try (destruct H; discriminate).
  - apply beqb_eq in H as ->. auto.
  - destruct H as [H|H]; [discriminate|]. injection H as ->. reflexivity.
Qed.
Lemma is_null_iff e : is_null e = true <-> e = Null.
Proof. destruct e; simpl; split; intros; try discriminate; auto. Qed.
Lemma is_undefined_iff e : is_undefined e = true <-> e = undefined.
Proof. unfold undefined. destruct e; simpl; split; intros H; try discriminate; [apply beqb_eq in H as ->; auto|injection H as ->; reflexivity]. Qed.
Definition op_of (negated loosely : bool) : check_op := if negated then (if loosely then NotEqual else NotStrictEq) else (if loosely then Equal else StrictEqual).
Lemma inspect_truth c ns : inspect c = Some (Empty, ns) <-> ns = [] /\ access (bare c).
Proof.
  rewrite <- access_iff. assert (X : member_like (skip c) = member_like c) by (unfold member_like; now rewrite skip_skip). unfold inspect. rewrite X. destruct (member_like c) eqn:M.
  - split; intros H; [injection H as <-; auto|destruct H as [-> _]; reflexivity].
  - split; [|intros [_ H]; discriminate]. destruct (skip c) as [x| | |s|s|s|s|? ? ? ?|? ? ?|e|e|e|k l r|? ? ?|n s t ch]; try discriminate.
    + destruct (member_like (skip e)); discriminate.
    + destruct k; try discriminate; destruct l; try discriminate; destruct r; try discriminate;
      match goal with |- context [if ?x then _ else _] => destruct x end; try discriminate;
      match goal with |- context [compound ?a ?b ?c] => destruct b, c; discriminate end.
Qed.
Lemma inspect_not c ns : inspect c = Some (Negated, ns) <-> ns = [] /\ exists e, bare c = Not e /\ access (bare e).
Proof.
  rewrite bare_skip. unfold inspect. destruct (member_like (skip c)) eqn:M.
  - split; [discriminate|]. intros [_ (e & E & A)]. unfold member_like in M. rewrite skip_skip, E in M. discriminate.
  - destruct (skip c) as [x| | |s|s|s|s|? ? ? ?|? ? ?|e|e|e|k l r|? ? ?|n s t ch] eqn:E; try (split; [discriminate|intros [_ (e' & E' & _)]; discriminate]; fail).
    + assert (X : member_like (skip e) = member_like e) by (unfold member_like; now rewrite skip_skip). rewrite X. destruct (member_like e) eqn:A.
      * split; intros H; [injection H as <-; split; [reflexivity|]; exists e; split; [reflexivity|]; now apply access_iff|]. destruct H as [-> _]. reflexivity.
      * split; [discriminate|]. intros [_ (e' & E' & A')]. injection E' as <-. apply access_iff in A'. congruence.
    + split; [|intros [_ (e' & E' & _)]; discriminate]. destruct k; try discriminate; destruct l; try discriminate; destruct r; try discriminate;
      match goal with |- context [if ?x then _ else _] => destruct x end; try discriminate;
      match goal with |- context [compound ?a ?b ?c] => destruct b, c; discriminate end.
Qed.
Lemma inspect_compare c negated loosely ns : inspect c = Some (op_of negated loosely, ns) <-> test_compares c negated loosely ns.
Proof.
  split.
  - unfold inspect. destruct (member_like (skip c)) eqn:M; [destruct negated, loosely; discriminate|].
    destruct (skip c) as [x| | |s|s|s|s|? ? ? ?|? ? ?|e|e|e|k l r|? ? ?|n s t ch] eqn:E; try discriminate.
    + destruct (member_like (skip e)); [destruct negated, loosely; discriminate|discriminate].
    + assert (One : forall n' l', op_of n' l' = op_of negated loosely -> n' = negated /\ l' = loosely) by (intros [] [] H; destruct negated, loosely; try discriminate; auto).
      assert (Two : forall k0, (k0 = Or \/ k0 = And) -> k = k0 -> match l, r with
          | Bin kl ll lr, Bin kr rl rr =>
              if is_nullish_literal (skip ll) && is_nullish_literal (skip lr) || is_nullish_literal (skip rl) && is_nullish_literal (skip rr) then None
              else match compound k0 kl kr with Some operator => Some (operator, [skip ll; skip lr; skip rl; skip rr]) | None => None end
          | _, _ => None end = Some (op_of negated loosely, ns) -> test_compares c negated loosely ns).
      { intros k0 K -> H. destruct l as [| | | | | | | | | | | |kl ll lr| |]; try discriminate. destruct r as [| | | | | | | | | | | |kr rl rr| |]; try discriminate.
        destruct (is_nullish_literal (skip ll) && is_nullish_literal (skip lr) || is_nullish_literal (skip rl) && is_nullish_literal (skip rr)) eqn:L; [discriminate|].
        apply orb_false_iff in L as [L1 L2].
        assert (N1 : ~ (literal (bare ll) /\ literal (bare lr))) by (rewrite (bare_skip ll), (bare_skip lr), <- !literal_iff; intros [A B]; rewrite A, B in L1; discriminate).
        assert (N2 : ~ (literal (bare rl) /\ literal (bare rr))) by (rewrite (bare_skip rl), (bare_skip rr), <- !literal_iff; intros [A B]; rewrite A, B in L2; discriminate).
        destruct (compound k0 kl kr) as [operator|] eqn:C; [|discriminate]. injection H as O <-. rewrite <- (bare_skip ll), <- (bare_skip lr), <- (bare_skip rl), <- (bare_skip rr).
        assert (W : forall (n' l1 l2 : bool), k0 = (if n' then And else Or) -> comparison n' l1 kl -> comparison n' l2 kr -> operator = op_of n' (l1 || l2) -> test_compares c negated loosely [bare ll; bare lr; bare rl; bare rr]).
        { intros n' l1 l2 K0 C1 C2 OP. rewrite O in OP. symmetry in OP. destruct (One _ _ OP) as [<- <-]. eapply c_two; eauto. rewrite bare_skip, E, K0. reflexivity. }
        destruct k0; try (destruct K; discriminate); destruct kl; try discriminate; destruct kr; try discriminate; injection C as <-;
        [apply (W false true true)|apply (W false true false)|apply (W false false true)|apply (W false false false)|apply (W true true true)|apply (W true true false)|apply (W true false true)|apply (W true false false)]; reflexivity. }
      assert (S : forall (n' l' : bool), k = (if n' then if l' then Ne2 else Ne3 else if l' then Eq2 else Eq3) -> Some (op_of n' l', [skip l; skip r]) = Some (op_of negated loosely, ns) -> test_compares c negated loosely ns).
      { intros n' l' K H. injection H as H <-. destruct (One _ _ H) as [<- <-]. rewrite <- (bare_skip l), <- (bare_skip r). eapply c_one; [rewrite bare_skip; exact E|exact K]. }
      destruct k; try discriminate.
      * apply (Two Or); auto.
      * apply (Two And); auto.
      * apply (S false true). reflexivity.
      * apply (S true true). reflexivity.
      * apply (S false false). reflexivity.
      * apply (S true false). reflexivity.
  - assert (M : forall k l r, skip c = Bin k l r -> member_like (skip c) = false) by (intros k l r E; unfold member_like; rewrite skip_skip, E; reflexivity).
    intros H. inversion H as [c' n' l' k l r E C|c' n' lo1 lo2 k1 l1 r1 k2 l2 r2 E C1 C2 N1 N2]; subst; rewrite bare_skip in E; unfold inspect; rewrite (M _ _ _ E), E.
    + rewrite (bare_skip l), (bare_skip r). unfold comparison in C. subst k. destruct negated, loosely; reflexivity.
    + rewrite (bare_skip l1), (bare_skip r1), (bare_skip l2), (bare_skip r2) in *. assert (L : is_nullish_literal (skip l1) && is_nullish_literal (skip r1) || is_nullish_literal (skip l2) && is_nullish_literal (skip r2) = false).
      { apply orb_false_iff. split; rewrite <- not_true_iff_false, andb_true_iff, !literal_iff; assumption. }
      rewrite L. unfold comparison in C1, C2. subst k1 k2. destruct negated, lo1, lo2; reflexivity.
Qed.
Lemma inspect_cases c operator ns : inspect c = Some (operator, ns) -> operator = Empty \/ operator = Negated \/ exists n l, operator = op_of n l.
Proof. intros _. destruct operator; auto; right; right; [exists false, true|exists false, false|exists true, true|exists true, false]; reflexivity. Qed.
Lemma scan_eq nodes target : forall n u first, scan nodes target n u first =
  if forallb (fun x => is_nullish_literal x || similar x target) nodes
  then Some (n || existsb is_null nodes, u || existsb is_undefined nodes, match first with Some x => Some x | None => find (fun x => negb (is_nullish_literal x)) nodes end)
  else None.
Proof.
  induction nodes as [|x nodes IH]; intros n u first; cbn [scan forallb existsb find].
  - rewrite !orb_false_r. now destruct first.
  - assert (L : is_nullish_literal x = is_null x || is_undefined x) by reflexivity. destruct (is_null x) eqn:A.
    + assert (B : is_undefined x = false) by (destruct x; try discriminate; reflexivity). rewrite IH, L, B. cbn [orb andb negb]. rewrite !orb_true_r. reflexivity.
    + destruct (is_undefined x) eqn:B; cbn [orb] in L; rewrite L.
      * rewrite IH. cbn [orb andb negb]. rewrite !orb_true_r. reflexivity.
      * cbn [orb]. destruct (similar x target); [|reflexivity]. rewrite IH. cbn [orb andb negb]. destruct first; reflexivity.
Qed.
Lemma first_iff nodes x : find (fun x => negb (is_nullish_literal x)) nodes = Some x <-> first_target nodes x.
Proof.
  induction nodes as [|y nodes IH]; cbn [find]; [split; [discriminate|inversion 1]|].
  destruct (is_nullish_literal y) eqn:E; cbn [negb].
  - rewrite IH. split; [intros; apply f_later; [now apply literal_iff|assumption]|]. inversion 1 as [? ? N|? ? ? L F]; subst; [|exact F]. elim N. now apply literal_iff.
  - assert (N : ~ literal y) by (rewrite <- literal_iff, E; discriminate). split.
    + intros H. injection H as <-. now constructor.
    + inversion 1 as [? ? N'|? ? ? L F]; subst; [reflexivity|contradiction].
Qed.
Lemma in_null nodes : existsb is_null nodes = true <-> In Null nodes.
Proof. rewrite existsb_exists. split; [intros (x & I & E); apply is_null_iff in E as ->; auto|intros I; exists Null; auto]. Qed.
Lemma in_undefined nodes : existsb is_undefined nodes = true <-> In undefined nodes.
Proof. rewrite existsb_exists. split; [intros (x & I & E); apply is_undefined_iff in E as ->; auto|intros I; exists undefined; auto]. Qed.
Lemma has_part t a : a = TNull \/ a = TUndefined -> existsb (fun part => match part, a with [TNull], TNull | [TUndefined], TUndefined => true | _, _ => false end) t = true <-> In [a] t.
Proof.
  intros A. rewrite existsb_exists. split.
  - intros (p & I & E). destruct A as [-> | ->]; destruct p as [|[] [|]]; try discriminate; auto.
  - intros I. exists [a]. split; [exact I|]. destruct A as [-> | ->]; reflexivity.
Qed.
Lemma partial_iff type_of nodes operator loosely target allow :
  (loosely = true <-> operator = Equal \/ allow = true /\ operator = NotEqual) ->
  skip_partial type_of (existsb is_null nodes) (existsb is_undefined nodes) operator target allow = false <-> complete nodes loosely (type_of target).
Proof.
  intros L. unfold skip_partial, complete. rewrite <- in_null, <- in_undefined.
  destruct (existsb is_null nodes) eqn:N; destruct (existsb is_undefined nodes) eqn:U; cbn [andb negb].
  - tauto.
  - assert (X : skip_partial type_of true false operator target allow = false <-> loosely = true \/ any_or_unknown (type_of target) = false /\ ~ In [TUndefined] (type_of target)).
    { unfold skip_partial. cbn [andb negb]. rewrite <- (has_part (type_of target) TUndefined) by auto.
      destruct (any_or_unknown (type_of target)); match goal with |- context [existsb ?f ?t] => destruct (existsb f t) end;
      destruct operator, allow, loosely; cbn [andb]; split; intros H; try discriminate; auto; try (left; apply L; auto; fail); try (right; split; [reflexivity|discriminate]);
      try (destruct H as [H|[H H']]; try discriminate; try (elim H'; reflexivity); destruct (proj1 L eq_refl) as [Q|[Q Q']]; discriminate). }
    unfold skip_partial in X. cbn [andb negb] in X. rewrite X, any_iff_not. intuition (try discriminate).
  - assert (X : skip_partial type_of false true operator target allow = false <-> loosely = true \/ any_or_unknown (type_of target) = false /\ ~ In [TNull] (type_of target)).
    { unfold skip_partial. cbn [andb negb]. rewrite <- (has_part (type_of target) TNull) by auto.
      destruct (any_or_unknown (type_of target)); match goal with |- context [existsb ?f ?t] => destruct (existsb f t) end;
      destruct operator, allow, loosely; cbn [andb]; split; intros H; try discriminate; auto; try (left; apply L; auto; fail); try (right; split; [reflexivity|discriminate]);
      try (destruct H as [H|[H H']]; try discriminate; try (elim H'; reflexivity); destruct (proj1 L eq_refl) as [Q|[Q Q']]; discriminate). }
    unfold skip_partial in X. cbn [andb negb] in X. rewrite X, any_iff_not. intuition (try discriminate).
  - split; [discriminate|]. intuition (try discriminate).
Qed.
Definition wrapped (e : expr) : expr := if negb (strong e) && negb (is_paren e) then Paren e else e.
Lemma forall_nodes nodes target : forallb (fun x => is_nullish_literal x || similar x target) nodes = true <-> forall x, In x nodes -> literal x \/ similar x target = true.
Proof. rewrite forallb_forall. split; intros H x I; specialize (H x I); [apply orb_true_iff in H as [H|H]; [left; now apply literal_iff|now right]|]. apply orb_true_iff. destruct H as [H|H]; [left; now apply literal_iff|now right]. Qed.
Lemma test_nodes c n l nodes : test_compares c n l nodes -> nodes <> [].
Proof. intros H. inversion H; discriminate. Qed.
Lemma tested_access c : access (bare c) -> tested c = bare c.
Proof.
  rewrite bare_skip. unfold tested. destruct (skip c); auto. intros [H|[H|[H|H]]]; repeat match goal with H : exists _, _ |- _ => destruct H as [? H] end; try discriminate; inversion H.
Qed.
Lemma ternary_iff o type_of ctx c t f lhs rhs : check_ternary o type_of ctx c t f = Some (lhs, rhs) <->
  ig_ternary o = false /\ exists n, ternary_due o type_of ctx c t f lhs n /\ rhs = wrapped n.
Proof.
  unfold check_ternary. destruct (ig_ternary o); [split; [discriminate|intros [H _]; discriminate]|].
  split.
  - intros H. split; [reflexivity|]. destruct (inspect c) as [[operator nodes]|] eqn:E; [|discriminate].
    destruct (inspect_cases _ _ _ E) as [-> | [-> | (n & l & ->)]].
    + apply inspect_truth in E as [-> A]. cbv beta iota zeta in H. rewrite (tested_access _ A), <- (bare_skip t) in H.
      destruct (similar (bare c) (bare t)) eqn:S; cbn [negb] in H; [|discriminate]. destruct (truth_eligible o type_of ctx (Some (Cond c t f)) (bare c)) eqn:T; cbn [negb] in H; [|discriminate].
      injection H as <- <-. exists f. split; [|reflexivity]. apply d_truth; auto. now apply truth_iff.
    + apply inspect_not in E as (-> & e & B & A). assert (T : tested c = bare e) by (unfold tested; rewrite <- bare_skip, B; symmetry; apply bare_skip). cbv beta iota zeta in H. rewrite T, <- (bare_skip f) in H.
      destruct (similar (bare e) (bare f)) eqn:S; cbn [negb] in H; [|discriminate]. destruct (truth_eligible o type_of ctx (Some (Cond c t f)) (bare e)) eqn:TE; cbn [negb] in H; [|discriminate].
      injection H as <- <-. exists t. split; [|reflexivity]. eapply d_negated; eauto. now apply truth_iff.
    + apply inspect_compare in E. exists (if n then f else t). assert (NE := test_nodes _ _ _ _ E). destruct nodes as [|x nodes]; [congruence|]. clear NE. set (ns := x :: nodes) in *.
      assert (H' : match scan ns (skip (if n then t else f)) false false None with
          | Some (null, undef, Some lhs) => if skip_partial type_of null undef (op_of n l) lhs true then None else Some (lhs, wrapped (if n then f else t)) | _ => None end = Some (lhs, rhs)) by (destruct n, l; exact H).
      clear H. rewrite scan_eq in H'. cbn [orb] in H'. destruct (forallb _ ns) eqn:F; [|discriminate]. destruct (find _ ns) as [y|] eqn:G; [|discriminate].
      destruct (skip_partial type_of (existsb is_null ns) (existsb is_undefined ns) (op_of n l) y true) eqn:K; [discriminate|]. injection H' as <- <-. split; [|reflexivity].
      eapply d_compare; eauto.
      * rewrite bare_skip. now apply forall_nodes.
      * now apply first_iff.
      * eapply partial_iff; [|exact K]. destruct n, l; simpl; split; intros; auto; try discriminate; destruct H as [H|[_ H]]; discriminate.
  - intros (_ & n & D & ->). inversion D as [A S T E1 E2|e B A S T E1 E2|neg l nodes y E ALL FT C E1 E2]; subst.
    + assert (E : inspect c = Some (Empty, [])) by now apply inspect_truth. rewrite E. cbv beta iota zeta. rewrite (tested_access _ A), <- (bare_skip t), S. cbn [negb].
      apply truth_iff in T. rewrite T. reflexivity.
    + assert (E : inspect c = Some (Negated, [])) by (apply inspect_not; eauto). assert (T' : tested c = bare e) by (unfold tested; rewrite <- bare_skip, B; symmetry; apply bare_skip).
      rewrite E. cbv beta iota zeta. rewrite T', <- (bare_skip f), S. cbn [negb]. apply truth_iff in T. rewrite T. reflexivity.
    + assert (NE := test_nodes _ _ _ _ E). apply inspect_compare in E. rewrite E. destruct nodes as [|x nodes]; [congruence|]. clear NE. set (ns := x :: nodes) in *.
      assert (H' : match scan ns (skip (if neg then t else f)) false false None with
          | Some (null, undef, Some lhs) => if skip_partial type_of null undef (op_of neg l) lhs true then None else Some (lhs, wrapped (if neg then f else t)) | _ => None end = Some (lhs, wrapped (if neg then f else t))).
      { rewrite scan_eq. rewrite <- bare_skip. apply forall_nodes in ALL. rewrite ALL. cbn [orb]. apply first_iff in FT. rewrite FT.
        assert (K : skip_partial type_of (existsb is_null ns) (existsb is_undefined ns) (op_of neg l) lhs true = false).
        { eapply partial_iff; [|exact C]. destruct neg, l; simpl; split; intros; auto; try discriminate; destruct H as [H|[_ H]]; discriminate. }
        rewrite K. reflexivity. }
      destruct neg, l; exact H'.
Qed.
Lemma if_iff o type_of test th has_else lhs rhs : check_if o type_of test th has_else = Some (lhs, rhs) <->
  ig_if o = false /\ has_else = false /\ exists e a l, th = Single e /\ bare e = Bin (Assign a) l rhs /\ access (bare l) /\ if_due o type_of test l
    /\ lhs = (if is_paren l then Paren (bare l) else l).
Proof.
  unfold check_if. destruct (ig_if o); [split; [discriminate|intros [H _]; discriminate]|]. destruct has_else; [split; [discriminate|intros (_ & H & _); discriminate]|].
  split.
  - destruct th as [|e]; [discriminate|]. destruct (skip e) as [| | | | | | | | | | | |k l r| |] eqn:SK; try discriminate. destruct k as [| | | | | | | |a|]; try discriminate.
    destruct (member_like l) eqn:M; [|discriminate]. cbn [negb]. intros H. split; [reflexivity|]. split; [reflexivity|]. exists e, a, l.
    assert (X : if_due o type_of test l /\ (lhs, rhs) = (if is_paren l then Paren (bare l) else l, r)).
    { rewrite (bare_skip l). destruct (inspect test) as [[operator nodes]|] eqn:E; [|discriminate]. destruct (inspect_cases _ _ _ E) as [-> | [-> | (n & lo & ->)]]; [discriminate| |].
      + apply inspect_not in E as (-> & e' & B & A). assert (T : tested test = bare e') by (unfold tested; rewrite <- bare_skip, B; symmetry; apply bare_skip). rewrite T in H.
        destruct (similar (bare e') l) eqn:S; cbn [negb] in H; [|discriminate]. destruct (truth_eligible o type_of [] None (bare e')) eqn:TE; cbn [negb] in H; [|discriminate].
        injection H as <- <-. split; [|reflexivity]. eapply d_not; eauto. now apply truth_iff.
      + destruct n; [destruct lo; discriminate|]. apply inspect_compare in E.
        assert (H' : match scan nodes l false false None with
          | Some (null, undef, Some _) => if skip_partial type_of null undef (op_of false lo) l false then None else Some (if is_paren l then Paren (skip l) else l, r) | _ => None end = Some (lhs, rhs)) by (destruct lo; exact H).
        clear H. rewrite scan_eq in H'. cbn [orb] in H'. destruct (forallb _ nodes) eqn:F; [|discriminate]. destruct (find _ nodes) as [y|] eqn:G; [|discriminate].
        destruct (skip_partial type_of (existsb is_null nodes) (existsb is_undefined nodes) (op_of false lo) l false) eqn:K; [discriminate|]. injection H' as <- <-. split; [|reflexivity].
        eapply d_equal; eauto.
        * now apply forall_nodes.
        * exists y. apply find_some in G as [I N]. split; [exact I|]. rewrite <- literal_iff. now destruct (is_nullish_literal y).
        * eapply partial_iff; [|exact K]. destruct lo; simpl; split; intros; auto; try discriminate; destruct H as [H|[? H]]; discriminate. }
    destruct X as [D X]. injection X as -> ->. split; [reflexivity|]. split; [rewrite bare_skip; exact SK|]. split; [now apply access_iff|]. split; [exact D|reflexivity].
  - intros (_ & _ & e & a & l & -> & B & A & D & ->). rewrite bare_skip in B. rewrite B. apply access_iff in A. rewrite A. cbn [negb]. rewrite (bare_skip l).
    destruct D as [e' E A' S T|lo nodes E ALL (y & I & N) C].
    + assert (X : inspect test = Some (Negated, [])) by (apply inspect_not; eauto). assert (T' : tested test = bare e') by (unfold tested; rewrite <- bare_skip, E; symmetry; apply bare_skip).
      rewrite X, T', S. cbn [negb]. apply truth_iff in T. rewrite T. reflexivity.
    + apply inspect_compare in E. rewrite E.
      assert (H' : match scan nodes l false false None with
          | Some (null, undef, Some _) => if skip_partial type_of null undef (op_of false lo) l false then None else Some (if is_paren l then Paren (skip l) else l, rhs) | _ => None end = Some (if is_paren l then Paren (skip l) else l, rhs)).
      { rewrite scan_eq. apply forall_nodes in ALL. rewrite ALL. cbn [orb]. destruct (find (fun x => negb (is_nullish_literal x)) nodes) as [z|] eqn:G.
        - assert (K : skip_partial type_of (existsb is_null nodes) (existsb is_undefined nodes) (op_of false lo) l false = false).
          { eapply partial_iff; [|exact C]. destruct lo; simpl; split; intros; auto; try discriminate; destruct H as [H|[? H]]; discriminate. }
          rewrite K. reflexivity.
        - apply (find_none _ _ G) in I. apply negb_false_iff in I. apply literal_iff in I. contradiction. }
      destruct lo; exact H'.
Qed.

(** Rewritten || expressions. *)
Definition shielded (e : expr) : expr := if is_logical e && negb (is_paren e) then Paren e else e.
Definition moved (ctx : list frame) (l r : expr) : bool :=
  parent_logical ctx (Bin Or l r) && match l with Bin _ ll _ => is_logical l && negb (is_or ll) | _ => false end.
Definition suggested (ctx : list frame) (l r : expr) : expr :=
  if moved ctx l r then match l with Bin kl ll lr => Bin kl ll (Paren (Bin Coal lr (shielded r))) | _ => l end
  else if parent_logical ctx (Bin Or l r) then Paren (Bin Coal (shielded l) (shielded r)) else Bin Coal (shielded l) (shielded r).
Lemma suggested_text ctx l r : edited l r (or_edits ctx Or l r) = text (suggested ctx l r).
Proof.
  unfold suggested, or_edits, edited. fold (moved ctx l r).
  assert (TL : match l with Bin k ll lr => if is_logical_op k then text ll ++ TOp k :: [] ++ text lr else text l | _ => text l end = text l).
  { destruct l; try reflexivity. cbn [text app]. now destruct (is_logical_op o). }
  assert (P : forall e, is_logical e && negb (is_paren e) = true -> text (shielded e) = TOpen :: text e ++ [TClose]) by (intros e E; unfold shielded; now rewrite E).
  assert (Q : forall e, is_logical e && negb (is_paren e) = false -> text (shielded e) = text e) by (intros e E; unfold shielded; now rewrite E).
  destruct (moved ctx l r) eqn:M.
  - unfold moved in M. apply andb_prop in M as [PL M]. rewrite PL. destruct l as [| | | | | | | | | | | |kl ll lr| |]; try discriminate. apply andb_prop in M as [LG _]. cbn [is_logical] in LG.
    rewrite LG. cbn [text]. rewrite LG. cbn [negb andb app].
    destruct (is_logical r && negb (is_paren r)) eqn:R; [rewrite (P r R)|rewrite (Q r R)]; cbn [text is_logical_op app filter map fst snd spot_eqb]; rewrite <- ?app_assoc; cbn [app]; rewrite <- ?app_assoc; cbn [app]; rewrite <- ?app_assoc; reflexivity.
  - cbn [negb andb]. destruct (parent_logical ctx (Bin Or l r)) eqn:PL;
    destruct (is_logical l && negb (is_paren l)) eqn:L; destruct (is_logical r && negb (is_paren r)) eqn:R;
    cbn [text is_logical_op app filter map fst snd spot_eqb]; cbn [app] in TL; rewrite TL; rewrite ?(P l L), ?(Q l L), ?(P r R), ?(Q r R); cbn [app]; rewrite ?app_nil_r; rewrite <- ?app_assoc; cbn [app]; rewrite <- ?app_assoc; reflexivity.
Qed.
Definition boundary (f : frame) : bool := match f with FTest | FBoolean | FCall | FOther => true | _ => false end.
Definition same_head (a c : expr) : Prop :=
  match a, c with Paren _, Paren _ | Not _, Not _ | Cond _ _ _, Cond _ _ _ => True | Bin k _ _, Bin k' _ _ => k = k' | _, _ => False end.
Lemma fits_same f a c : same_head a c -> fits f a -> fits f c.
Proof. intros S. destruct a; try contradiction; destruct c; try contradiction; simpl in S; subst; destruct f as [| |k ?|? k| | | | | | |]; try (destruct k); simpl; auto. Qed.
Lemma plug1_same f a c : boundary f = false -> same_head (plug1 f a) (plug1 f c).
Proof. destruct f; simpl; auto; discriminate. Qed.
Lemma plug1_writable f a c : boundary f = false -> writable (plug1 f a) -> fits f c -> writable c -> writable (plug1 f c).
Proof.
  destruct f as [| |k ?|? k| | | | | | |]; try discriminate; intros _; cbn [plug1 writable].
  - auto.
  - auto.
  - intros (A & B & C & D) F W. split; [exact F|]. split; [destruct k; exact B|]. auto.
  - intros (A & B & C & D) F W. split; [destruct k; exact A|]. split; [exact F|]. auto.
  - intros (A & B & C & D) F W. simpl in *. tauto.
  - intros (A & B & C & D) F W. simpl in *. tauto.
  - intros (A & B & C & D) F W. simpl in *. tauto.
Qed.
Lemma plug_writable ctx : forall e, writable (plug ctx e) -> writable e.
Proof.
  induction ctx as [|f ctx IH]; intros e W; [exact W|].
  destruct f as [| |k ?|? k| | | | | | |]; cbn [plug plug1] in W; try exact W; apply IH in W; cbn [writable] in W; tauto.
Qed.
Lemma plug_swap ctx : forall a c, writable (plug ctx a) -> writable c -> match ctx with f :: _ => boundary f = false -> fits f c | [] => True end -> writable (plug ctx c).
Proof.
  induction ctx as [|f ctx IH]; intros a c W WC F; [exact WC|].
  destruct (boundary f) eqn:B; [destruct f; try discriminate; exact WC|]. specialize (F eq_refl).
  assert (W' : writable (plug ctx (plug1 f a))) by (destruct f; try discriminate; exact W).
  assert (G : writable (plug ctx (plug1 f c))).
  { apply (IH (plug1 f a)); auto.
    - apply (plug1_writable f a); auto. now apply plug_writable in W'.
    - destruct ctx as [|g ctx]; [exact I|]. intros BG. apply (fits_same g (plug1 f a)); [now apply plug1_same|].
      destruct g as [| |k ?|? k| | | | | | |]; try discriminate; cbn [plug] in W'; apply plug_writable in W'; cbn [plug1 writable] in W'; try tauto; exact I. }
  destruct f; try discriminate; exact G.
Qed.
Lemma shielded_writable e : writable e -> writable (shielded e).
Proof. unfold shielded. now destruct (is_logical e && negb (is_paren e)). Qed.
Lemma shielded_closer e : closer e \/ logical_with Or e \/ logical_with And e -> closer (shielded e).
Proof.
  intros [C|H]; unfold shielded.
  - destruct (is_logical e && negb (is_paren e)); [exact I|exact C].
  - destruct e; try (destruct H; contradiction). destruct H as [H|H]; simpl in H; subst; exact I.
Qed.
Lemma stands_swap ctx a c : stands ctx a -> writable c -> match ctx with f :: _ => fits f c | [] => True end -> stands ctx c.
Proof. intros [W _] WC F. split; [|exact F]. apply (plug_swap ctx a); auto. destruct ctx; auto. Qed.
Lemma under_logical ctx l r : stands ctx (Bin Or l r) -> parent_logical ctx (Bin Or l r) = true -> exists x rest, ctx = FBinL Or x :: rest.
Proof.
  intros [_ F] P. destruct ctx as [|f ctx]; [discriminate|]. unfold parent_logical in P.
  destruct f as [| |k x|x k| | | | | | |]; cbn in P; try discriminate; try contradiction; try (destruct k; simpl in F; try discriminate; firstorder discriminate).
  destruct k; simpl in F; cbn in P; try discriminate; eauto; firstorder discriminate.
Qed.
Lemma moved_cases ctx l r : stands ctx (Bin Or l r) -> ~ entangled ctx l -> moved ctx l r = true ->
  exists ll lr, l = Bin Or ll lr /\ closer lr.
Proof.
  intros S N M. unfold moved in M. apply andb_prop in M as [P M]. destruct (under_logical _ _ _ S P) as (x & rest & ->).
  destruct S as [W _]. apply plug_writable in W. cbn [plug1 writable] in W.
  destruct l as [| | | | | | | | | | | |kl ll lr| |]; try discriminate. apply andb_prop in M as [LG NO]. destruct W as (FL & _ & WL & _). cbn [writable] in WL. destruct WL as (A & B & _).
  destruct kl; try discriminate.
  - exists ll, lr. split; [reflexivity|]. destruct B as [B|B]; [exact B|]. exfalso. apply N. exists x, rest, Or, ll, lr. split; [reflexivity|]. split; [reflexivity|]. right. split; [reflexivity|]. split; [exact B|].
    intros K. destruct ll; try contradiction. simpl in K. subst. discriminate.
  - exfalso. apply N. exists x, rest, And, ll, lr. auto.
  - simpl in FL. firstorder discriminate.
Qed.
Lemma suggested_stands ctx l r : stands ctx (Bin Or l r) -> ~ entangled ctx l -> stands ctx (suggested ctx l r).
Proof.
  intros S N. assert (W := plug_writable _ _ (proj1 S)). cbn [writable] in W. destruct W as (FL & FR & WL & WR).
  assert (CR : closer (shielded r)) by (apply shielded_closer; destruct FR; auto).
  unfold suggested. destruct (moved ctx l r) eqn:M.
  - destruct (moved_cases _ _ _ S N M) as (ll & lr & -> & C). unfold moved in M. apply andb_prop in M as [P _].
    destruct (under_logical _ _ _ S P) as (x & rest & ->). cbn [writable] in WL. destruct WL as (A & B & WA & WB).
    apply (stands_swap _ _ _ S); [|simpl; auto]. cbn [writable]. split; [exact A|]. split; [left; exact I|]. split; [exact WA|]. split; [left; exact C|]. split; [exact CR|]. split; [exact WB|]. now apply shielded_writable.
  - assert (CL : closer (shielded l)) by (apply shielded_closer; exact FL).
    assert (WC : writable (Bin Coal (shielded l) (shielded r))).
    { cbn [writable]. split; [left; exact CL|]. split; [exact CR|]. split; now apply shielded_writable. }
    destruct (parent_logical ctx (Bin Or l r)) eqn:P.
    + destruct (under_logical _ _ _ S P) as (x & rest & ->). apply (stands_swap _ _ _ S); [exact WC|]. left; exact I.
    + apply (stands_swap _ _ _ S); [exact WC|]. destruct S as [_ F]. destruct ctx as [|f ctx]; [exact I|].
      destruct f as [| |k ?|? k| | | | | | |]; simpl in *; auto; try (destruct k; simpl in *; auto; try discriminate; firstorder discriminate).
Qed.
Lemma first_exists nodes : (exists x, In x nodes /\ ~ literal x) -> exists y, first_target nodes y.
Proof.
  induction nodes as [|x nodes IH]; intros (y & I & N); [contradiction|].
  assert (D : literal x \/ ~ literal x).
  { destruct x; try (right; intros [H|H]; discriminate); [|left; now left]. destruct (beqb x (b "undefined")) eqn:E; [apply beqb_eq in E as ->; left; now right|].
    right. intros [H|H]; [discriminate|]. injection H as ->. discriminate. }
  destruct D as [D|D]; [|exists x; now constructor]. destruct I as [->|I]; [contradiction|]. destruct IH as (z & Z); [now exists y|]. exists z. now constructor.
Qed.
(** ||= *)
Lemma or_assign_text o type_of ctx l r ts : stands ctx (Bin (Assign OrA) l r) -> check_or o type_of ctx (Assign OrA) l r = Some ts -> ts = text l ++ TOp (Assign CoalA) :: text r.
Proof.
  intros [_ F]. unfold check_or. destruct (negb _); [discriminate|]. destruct (ig_mixed o && _); [discriminate|]. intros H. injection H as <-. unfold or_edits.
  assert (P : parent_logical ctx (Bin (Assign OrA) l r) = false).
  { destruct ctx as [|f ctx]; [reflexivity|]. destruct f as [| |k x|x k| | | | | | |]; try reflexivity; try contradiction;
    try (destruct k; try reflexivity; simpl in F; firstorder discriminate). }
  rewrite P. cbn [andb app]. unfold edited. cbn [filter map fst snd spot_eqb app]. rewrite app_nil_r.
  f_equal. destruct l; try reflexivity. cbn [text]. now destruct (is_logical_op o0).
Qed.
Lemma or_assign_mixed ctx l r : stands ctx (Bin (Assign OrA) l r) -> mixed ctx (Bin (Assign OrA) l r) l r = true <-> meets_and l \/ meets_and r.
Proof.
  intros [_ F]. unfold mixed. assert (P : mixed_above ctx (Bin (Assign OrA) l r) = false).
  { destruct ctx as [|f ctx]; [reflexivity|]. destruct f as [| |k x|x k| | | | | | |]; try reflexivity; try contradiction;
    try (destruct k; try reflexivity; simpl in F; firstorder discriminate). }
  rewrite P. cbn [orb]. now rewrite orb_true_iff, !below_iff.
Qed.

Section Semantics.
Variable St : Type.
Variables (var : St -> bstr -> value) (this : St -> value) (prop : St -> value -> key -> value).
Variables (set_var : St -> bstr -> value -> St) (set_prop : St -> value -> key -> value -> St).
Variable opaque : Z -> St -> option value * St.
Variables (number bigint : bstr -> value) (other_key : value -> bstr) (strict_rest loose_rest : value -> value -> bool) (compute : bstr -> value -> value -> value).
Notation run := (run St var this prop set_var set_prop opaque number bigint other_key strict_rest loose_rest compute).
Notation resolve := (resolve St var this prop set_var set_prop opaque number bigint other_key strict_rest loose_rest compute).
Notation result := (result St var this prop set_var set_prop opaque number bigint other_key strict_rest loose_rest compute).
Notation exec := (exec St var this prop set_var set_prop opaque number bigint other_key strict_rest loose_rest compute).
Notation exec_if := (exec_if St var this prop set_var set_prop opaque number bigint other_key strict_rest loose_rest compute).
Notation after := (after St).
Notation key_of := (key_of other_key).
Notation strict := (strict strict_rest).
Notation loose := (loose loose_rest).

Fixpoint look (f : form) (s : St) : option value :=
  match f with
  | SId x => Some (if beqb x (b "undefined") then Undef else var s x)
  | SThis => Some (this s)
  | SNull => Some Nul
  | SStr t => Some (String_ t)
  | SNum t => Some (number t)
  | SBig t => Some (bigint t)
  | SDot o k => match look o s with Some v => if nullishb v then None else Some (prop s v k) | None => None end
  | SElem o i => match look o s with Some v => if nullishb v then None else match look i s with Some k => Some (prop s v (false, key_of k)) | None => None end | None => None end
  end.
Lemma no_chain_run e f s : reads e f -> no_chain e -> run e s = (match look f s with Some v => Val v | None => Throw end, s).
Proof.
  induction 1 as [x| | |t|t|t|t|e o p n q R IH|e o t q R IH|e o t q R IH|e i o f q R IH R' IH' N|e f R IH|e f R IH]; cbn [NullishSpec.run look no_chain]; intros NC; try reflexivity.
  - destruct NC as [-> NC]. rewrite (IH NC). destruct (look o s) as [v|]; [|reflexivity]. now destruct (nullishb v).
  - destruct NC as (-> & NC & _). rewrite (IH NC). destruct (look o s) as [v|]; [|reflexivity]. now destruct (nullishb v).
  - destruct NC as (-> & NC & _). rewrite (IH NC). destruct (look o s) as [v|]; [|reflexivity]. now destruct (nullishb v).
  - destruct NC as (-> & NC & NI). rewrite (IH NC). destruct (look o s) as [v|]; [|reflexivity]. destruct (nullishb v); [reflexivity|].
    rewrite (IH' NI). unfold NullishSpec.after. simpl. now destruct (look f s).
  - auto.
  - rewrite (IH NC). simpl. now destruct (look f s).
Qed.
Lemma tame_run e f s : reads e f -> tame e ->
  exists x, run e s = (x, s) /\ match look f s with Some v => x = Val v | None => x = Short \/ x = Val Undef \/ x = Throw end.
Proof.
  induction 1 as [x| | |t|t|t|t|e o p n q R IH|e o t q R IH|e o t q R IH|e i o f q R IH R' IH' N|e f R IH|e f R IH]; cbn [NullishSpec.run look tame]; intros T; try (eexists; split; reflexivity).
  - destruct (IH (proj1 T)) as (x & -> & Q). destruct (look o s) as [v|].
    + subst x. destruct (nullishb v); eexists; (split; [reflexivity|]); auto. destruct q; auto.
    + destruct Q as [-> | [-> | ->]]; eexists; (split; [reflexivity|]); auto. destruct q; auto.
  - destruct (IH (proj1 T)) as (x & -> & Q). destruct (look o s) as [v|].
    + subst x. destruct (nullishb v); eexists; (split; [reflexivity|]); auto. destruct q; auto.
    + destruct Q as [-> | [-> | ->]]; eexists; (split; [reflexivity|]); auto. destruct q; auto.
  - destruct (IH (proj1 T)) as (x & -> & Q). destruct (look o s) as [v|].
    + subst x. destruct (nullishb v); eexists; (split; [reflexivity|]); auto. destruct q; auto.
    + destruct Q as [-> | [-> | ->]]; eexists; (split; [reflexivity|]); auto. destruct q; auto.
  - destruct T as (T & NC & _). destruct (IH T) as (x & -> & Q). rewrite (no_chain_run _ _ s R' NC). destruct (look o s) as [v|].
    + subst x. destruct (nullishb v); [eexists; split; [reflexivity|]; destruct q; auto|]. unfold NullishSpec.after. simpl. destruct (look f s); eexists; (split; [reflexivity|]); simpl; auto.
    + destruct Q as [-> | [-> | ->]]; eexists; (split; [reflexivity|]); auto. destruct q; auto.
  - auto.
  - destruct (IH T) as (x & -> & Q). simpl. eexists. split; [reflexivity|]. destruct (look f s); [now subst|]. destruct Q as [-> | [-> | ->]]; simpl; auto.
Qed.
(** What is read by similar accesses. *)
Definition got (f : form) (s : St) : value := match look f s with Some v => v | None => Undef end.
Lemma tame_result e f s : reads e f -> tame e -> result e s = (Throw, s) \/ result e s = (Val (got f s), s).
Proof.
  intros R T. destruct (tame_run e f s R T) as (x & E & Q). unfold result, got, NullishSpec.result. rewrite E. simpl. destruct (look f s) as [v|].
  - subst. now right.
  - destruct Q as [-> | [-> | ->]]; simpl; auto.
Qed.
Lemma tame_result_some e f s : reads e f -> tame e -> nullishb (got f s) = false -> result e s = (Val (got f s), s).
Proof.
  intros R T N. destruct (tame_run e f s R T) as (x & E & Q). unfold got, NullishSpec.result in *. rewrite E. simpl. destruct (look f s) as [v|]; [now subst|discriminate].
Qed.
Lemma after_result e s k : after (run e s) k = match result e s with (Val v, s) => k v s | (y, s) => (y, s) end.
Proof. unfold NullishSpec.after, NullishSpec.result. destruct (close (fst (run e s))); reflexivity. Qed.
Lemma result_cond c t f s : result (Cond c t f) s = match result c s with (Val v, s) => if truthy v then result t s else result f s | (y, s) => (y, s) end.
Proof.
  unfold NullishSpec.result at 1. cbn [NullishSpec.run]. rewrite after_result. destruct (result c s) as [[v| |] s'] eqn:E; try reflexivity; [|unfold NullishSpec.result in E; injection E as E _; destruct (fst (run c s)); discriminate].
  destruct (truthy v); rewrite after_result; match goal with |- context [match ?r with _ => _ end] => destruct r as [[w| |] s''] eqn:E' end; try reflexivity; unfold NullishSpec.result in E'; injection E' as E' _; [destruct (fst (run t s'))|destruct (fst (run f s'))]; discriminate.
Qed.
Lemma result_coal l r s : result (Bin Coal l r) s = match result l s with (Val v, s) => if nullishb v then result r s else (Val v, s) | (y, s) => (y, s) end.
Proof.
  unfold NullishSpec.result at 1. cbn [NullishSpec.run]. rewrite after_result. destruct (result l s) as [[v| |] s'] eqn:E; try reflexivity; [|unfold NullishSpec.result in E; injection E as E _; destruct (fst (run l s)); discriminate].
  destruct (nullishb v); [|reflexivity]. rewrite after_result. destruct (result r s') as [[w| |] s''] eqn:E'; try reflexivity. unfold NullishSpec.result in E'; injection E' as E' _; destruct (fst (run r s')); discriminate.
Qed.
Lemma result_or l r s : result (Bin Or l r) s = match result l s with (Val v, s) => if truthy v then (Val v, s) else result r s | (y, s) => (y, s) end.
Proof.
  unfold NullishSpec.result at 1. cbn [NullishSpec.run]. rewrite after_result. destruct (result l s) as [[v| |] s'] eqn:E; try reflexivity; [|unfold NullishSpec.result in E; injection E as E _; destruct (fst (run l s)); discriminate].
  destruct (truthy v); [reflexivity|]. rewrite after_result. destruct (result r s') as [[w| |] s''] eqn:E'; try reflexivity. unfold NullishSpec.result in E'; injection E' as E' _; destruct (fst (run r s')); discriminate.
Qed.
Lemma result_and l r s : result (Bin And l r) s = match result l s with (Val v, s) => if truthy v then result r s else (Val v, s) | (y, s) => (y, s) end.
Proof.
  unfold NullishSpec.result at 1. cbn [NullishSpec.run]. rewrite after_result. destruct (result l s) as [[v| |] s'] eqn:E; try reflexivity; [|unfold NullishSpec.result in E; injection E as E _; destruct (fst (run l s)); discriminate].
  destruct (truthy v); [|reflexivity]. rewrite after_result. destruct (result r s') as [[w| |] s''] eqn:E'; try reflexivity. unfold NullishSpec.result in E'; injection E' as E' _; destruct (fst (run r s')); discriminate.
Qed.
Lemma result_not e s : result (Not e) s = match result e s with (Val v, s) => (Val (Boolean (negb (truthy v))), s) | (y, s) => (y, s) end.
Proof.
  unfold NullishSpec.result at 1. cbn [NullishSpec.run]. rewrite after_result. destruct (result e s) as [[v| |] s'] eqn:E; try reflexivity. unfold NullishSpec.result in E; injection E as E _; destruct (fst (run e s)); discriminate.
Qed.
Lemma result_paren e s : result (Paren e) s = result e s.
Proof. unfold NullishSpec.result. cbn [NullishSpec.run fst snd]. now destruct (fst (run e s)). Qed.
Lemma result_skip e s : result (skip e) s = result e s.
Proof. induction e; try reflexivity. cbn [skip]. now rewrite result_paren. Qed.
Lemma result_compare negated loosely k l r s : comparison negated loosely k ->
  result (Bin k l r) s = match result l s with
    | (Val v, s) => match result r s with (Val w, s) => (Val (Boolean (if negated then negb (if loosely then loose v w else strict v w) else if loosely then loose v w else strict v w)), s) | (y, s) => (y, s) end
    | (y, s) => (y, s) end.
Proof.
  intros ->. destruct negated, loosely; unfold NullishSpec.result at 1; cbn [NullishSpec.run]; rewrite after_result;
  (destruct (result l s) as [[v| |] s'] eqn:E; try reflexivity; [|unfold NullishSpec.result in E; injection E as E _; destruct (fst (run l s)); discriminate]);
  rewrite after_result; (destruct (result r s') as [[w| |] s''] eqn:E'; try reflexivity; unfold NullishSpec.result in E'; injection E' as E' _; destruct (fst (run r s')); discriminate).
Qed.

(** What tests say. *)
Lemma inhabits_not t v : clear_type t -> t <> [[TAny]] -> t <> [[TUnknown]] -> inhabits t v -> (v = Undef -> In [TUndefined] t) /\ (v = Nul -> In [TNull] t).
Proof.
  intros C A U (part & I & F). destruct (C part I) as [-> | [-> | [[-> E]|[[-> E]|(a & IA & D)]]]]; try congruence.
  - inversion F as [|? ? H]; subst. simpl in H. subst. split; [discriminate|auto].
  - inversion F as [|? ? H]; subst. simpl in H. subst. split; [auto|discriminate].
  - rewrite Forall_forall in F. specialize (F a IA). split; intros ->; exfalso; destruct D as [-> | [-> | [-> | [-> | [-> | ->]]]]]; simpl in F; unfold nullish in F; (destruct F; discriminate) || (destruct F as [[? F]|F]; discriminate) || tauto.
Qed.
Definition lval (x : expr) : value := match x with Null => Nul | _ => Undef end.
Lemma literal_result x s : literal x -> result x s = (Val (lval x), s).
Proof. intros [-> | ->]; reflexivity. Qed.
Definition matches (v n : value) (lo : bool) : bool := if lo then nullishb v else match n, v with Nul, Nul | Undef, Undef => true | _, _ => false end.
Lemma matches_nullish v n lo : matches v n lo = true -> nullishb v = true.
Proof. unfold matches. destruct lo; [auto|]. destruct n, v; intros; try discriminate; reflexivity. Qed.
Lemma loose_literal v x : literal x -> loose v (lval x) = nullishb v /\ loose (lval x) v = nullishb v.
Proof. intros [-> | ->]; unfold NullishSpec.loose, lval, undefined; simpl; destruct (nullishb v); auto. Qed.
Lemma strict_literal v x : literal x -> strict v (lval x) = matches v (lval x) false /\ strict (lval x) v = matches v (lval x) false.
Proof. intros [-> | ->]; unfold NullishSpec.strict, matches, lval, undefined; destruct v; auto. Qed.
Lemma result_bare e s : result (bare e) s = result e s.
Proof. rewrite bare_skip. apply result_skip. Qed.
Definition flip (negated x : bool) : bool := if negated then negb x else x.
Lemma compare_literal negated lo k l r s v : comparison negated lo k ->
  (literal (bare r) -> result (bare l) s = (Throw, s) \/ result (bare l) s = (Val v, s) ->
    (result (bare l) s = (Throw, s) /\ result (Bin k l r) s = (Throw, s)) \/ (result (bare l) s = (Val v, s) /\ result (Bin k l r) s = (Val (Boolean (flip negated (matches v (lval (bare r)) lo))), s)))
  /\ (literal (bare l) -> result (bare r) s = (Throw, s) \/ result (bare r) s = (Val v, s) ->
    (result (bare r) s = (Throw, s) /\ result (Bin k l r) s = (Throw, s)) \/ (result (bare r) s = (Val v, s) /\ result (Bin k l r) s = (Val (Boolean (flip negated (matches v (lval (bare l)) lo))), s))).
Proof.
  intros C. rewrite (result_compare negated lo k l r s C). split.
  - intros L. assert (E := literal_result _ s L). rewrite result_bare in E. rewrite (result_bare l). intros [H|H]; rewrite H; [now left|right]. split; [reflexivity|]. rewrite E.
    destruct (loose_literal v _ L) as [-> _]. destruct (strict_literal v _ L) as [-> _]. unfold flip, matches. destruct lo; reflexivity.
  - intros L. assert (E := literal_result _ s L). rewrite result_bare in E. rewrite (result_bare r), E. intros [H|H]; rewrite H; [now left|right]. split; [reflexivity|].
    destruct (loose_literal v _ L) as [_ ->]. destruct (strict_literal v _ L) as [_ ->]. unfold flip, matches. destruct lo; reflexivity.
Qed.
Lemma enough nodes lo t v n : (forall x, In x nodes -> literal x -> lval x = n \/ lo = true) -> complete nodes lo t -> clear_type t -> inhabits t v -> (n = Nul \/ n = Undef) ->
  lo = true \/ (v = Nul \/ v = Undef -> v = n).
Proof.
  intros ALL C CT I N. destruct lo; [now left|right]. destruct C as [[A B]|[[_ B]|(NA & NU & C)]]; [|discriminate|].
  - exfalso. destruct (ALL _ A (or_introl eq_refl)) as [E|E]; [|discriminate]. destruct (ALL _ B (or_intror eq_refl)) as [E'|E']; [|discriminate]. simpl in E, E'. congruence.
  - destruct (inhabits_not t v CT NA NU I) as [HU HN]. destruct C as [[A B]|[A B]].
    + destruct (ALL _ A (or_introl eq_refl)) as [E|E]; [|discriminate]. simpl in E. subst n. intros [->| ->]; [reflexivity|]. elim B. auto.
    + destruct (ALL _ A (or_intror eq_refl)) as [E|E]; [|discriminate]. simpl in E. subst n. intros [->| ->]; [|reflexivity]. elim B. auto.
Qed.
Lemma nullishb_iff v : nullishb v = true <-> v = Nul \/ v = Undef.
Proof. destruct v; simpl; split; intros; try discriminate; auto; destruct H; discriminate. Qed.
Lemma lval_cases x : lval x = Nul \/ lval x = Undef.
Proof. destruct x; simpl; auto. Qed.
Lemma matches_exact v n lo : lo = true \/ (v = Nul \/ v = Undef -> v = n) -> n = Nul \/ n = Undef -> matches v n lo = nullishb v.
Proof. unfold matches. intros [-> | H] N; [reflexivity|]. destruct lo; [reflexivity|]. destruct v; simpl; try (destruct N as [-> | ->]; reflexivity); rewrite <- H; auto. Qed.
(** One comparison with a literal. *)
Lemma side negated lo k l r s v : comparison negated lo k -> (literal (bare l) \/ literal (bare r)) -> ~ (literal (bare l) /\ literal (bare r)) ->
  (forall x, In x [bare l; bare r] -> ~ literal x -> result x s = (Throw, s) \/ result x s = (Val v, s)) ->
  exists x n, ((x = bare l /\ n = bare r) \/ (n = bare l /\ x = bare r)) /\ literal n /\ ~ literal x
    /\ ((result x s = (Throw, s) /\ result (Bin k l r) s = (Throw, s)) \/ (result x s = (Val v, s) /\ result (Bin k l r) s = (Val (Boolean (flip negated (matches v (lval n) lo))), s))).
Proof.
  intros K [L|L] N TG; destruct (compare_literal negated lo k l r s v K) as [CL CR].
  - assert (NL : ~ literal (bare r)) by tauto. exists (bare r), (bare l). split; [auto|]. split; [exact L|]. split; [exact NL|]. apply CR; [exact L|]. apply TG; simpl; auto.
  - assert (NL : ~ literal (bare l)) by tauto. exists (bare l), (bare r). split; [auto|]. split; [exact L|]. split; [exact NL|]. apply CL; [exact L|]. apply TG; simpl; auto.
Qed.
(** An honest complete test is true exactly for null and undefined. *)
Lemma test_says c negated lo nodes lhs t s v : test_compares c negated lo nodes -> honest c -> first_target nodes lhs ->
  (forall x, In x nodes -> ~ literal x -> result x s = (Throw, s) \/ result x s = (Val v, s)) ->
  complete nodes lo t -> clear_type t -> (result lhs s = (Val v, s) -> inhabits t v) ->
  result c s = (Throw, s) \/ (result lhs s = (Val v, s) /\ result c s = (Val (Boolean (flip negated (nullishb v))), s)).
Proof.
  intros TC HO FT TG C CT TY.
  assert (DL : forall x, literal x \/ ~ literal x) by (intros x; rewrite <- literal_iff; destruct (is_nullish_literal x); auto).
  inversion TC as [c' n' l' k l r E K|c' n' lo1 lo2 k1 l1 r1 k2 l2 r2 E K1 K2 N1 N2]; subst.
  - assert (L : literal (bare l) \/ literal (bare r)).
    { assert (exists x, In x [bare l; bare r] /\ literal x) as (x & [<- | [<- | []]] & L); auto.
      destruct C as [[A _]|[[[A|A] _]|(_ & _ & [[A _]|[A _]])]]; eexists; (split; [exact A|]); (now left) || now right. }
    assert (N : ~ (literal (bare l) /\ literal (bare r))).
    { intros [A B]. inversion FT as [x rest NL|x rest y L' FT']; subst; [contradiction|]. inversion FT' as [x rest NL|x rest y' L'' FT'']; subst; [contradiction|]. inversion FT''. }
    rewrite <- (result_bare c), E. destruct (side negated lo k l r s v K L N TG) as (x & n & W & LN & NX & [[A B]|[A B]]); [now left|right].
    assert (X : x = lhs).
    { destruct W as [[-> ->]|[-> ->]]; inversion FT as [x rest NL|x rest y L' FT']; subst; auto; try contradiction. inversion FT' as [x rest NL|x rest y' L'' FT'']; subst; auto. contradiction. }
    subst x. split; [exact A|]. rewrite B, (matches_exact v (lval n) lo); [reflexivity| |apply lval_cases].
    apply (enough [bare l; bare r] lo t v); auto; [|apply lval_cases].
    intros x I L'. left. destruct W as [[-> ->]|[-> ->]]; destruct I as [<-|[<-|[]]]; auto; contradiction.
  - assert (H1 : bare c = Bin (if negated then And else Or) (Bin k1 l1 r1) (Bin k2 l2 r2)) by exact E.
    destruct (HO _ _ _ _ _ _ _ E) as [L1 L2]; [destruct negated; auto|].
    destruct (side negated lo1 k1 l1 r1 s v K1 L1 N1) as (x1 & n1 & W1 & LN1 & NX1 & S1); [intros x [<-|[<-|[]]]; apply TG; simpl; auto|].
    destruct (side negated lo2 k2 l2 r2 s v K2 L2 N2) as (x2 & n2 & W2 & LN2 & NX2 & S2); [intros x [<-|[<-|[]]]; apply TG; simpl; auto|].
    assert (X : x1 = lhs).
    { destruct W1 as [[-> ->]|[-> ->]]; inversion FT as [x rest NL|x rest y L' FT']; subst; auto; try contradiction. inversion FT' as [x rest NL|x rest y' L'' FT'']; subst; auto. contradiction. }
    subst x1. rewrite <- (result_bare c), E. clear H1.
    destruct S1 as [[A1 B1]|[A1 B1]].
    { left. destruct negated; [rewrite result_and|rewrite result_or]; rewrite B1; reflexivity. }
    assert (M : nullishb v = true -> matches v (lval n1) lo1 = false -> matches v (lval n2) lo2 = true).
    { intros NV M1. destruct lo1; [unfold matches in M1; congruence|]. destruct lo2; [exact NV|]. simpl orb in C.
      apply nullishb_iff in NV.
      assert (Q : lval n1 = lval n2 \/ lval n1 <> lval n2) by (destruct (lval_cases n1) as [-> | ->], (lval_cases n2) as [-> | ->]; auto; right; discriminate).
      destruct Q as [Q|Q].
      - destruct (enough [bare l1; bare r1; bare l2; bare r2] false t v (lval n1)) as [F|F]; auto; [|apply lval_cases|discriminate|].
        + intros x I L'. left. destruct W1 as [[-> ->]|[-> ->]]; destruct W2 as [[-> ->]|[-> ->]]; destruct I as [<-|[<-|[<-|[<-|[]]]]]; auto; contradiction.
        + specialize (F NV). unfold matches in M1. rewrite F in M1. destruct (lval_cases n1) as [X|X]; rewrite X in M1; discriminate.
      - unfold matches in *. destruct (lval_cases n1) as [X|X], (lval_cases n2) as [Y|Y]; rewrite X, Y in *; try congruence; destruct NV as [-> | ->]; auto; discriminate. }
    destruct negated; cbn [flip] in *.
    + rewrite result_and, B1. simpl truthy. destruct (matches v (lval n1) lo1) eqn:M1; cbn [negb].
      * right. split; [exact A1|]. rewrite (matches_nullish _ _ _ M1). reflexivity.
      * destruct S2 as [[A2 B2]|[A2 B2]]; [now left|right]. split; [exact A1|]. rewrite B2. destruct (nullishb v) eqn:NV; [rewrite (M eq_refl eq_refl); reflexivity|].
        destruct (matches v (lval n2) lo2) eqn:M2; [apply matches_nullish in M2; congruence|reflexivity].
    + rewrite result_or, B1. simpl truthy. destruct (matches v (lval n1) lo1) eqn:M1.
      * right. split; [exact A1|]. rewrite (matches_nullish _ _ _ M1). reflexivity.
      * destruct S2 as [[A2 B2]|[A2 B2]]; [now left|right]. split; [exact A1|]. rewrite B2. destruct (nullishb v) eqn:NV; [rewrite (M eq_refl eq_refl); reflexivity|].
        destruct (matches v (lval n2) lo2) eqn:M2; [apply matches_nullish in M2; congruence|reflexivity].
Qed.

(** Rewriting. *)
Lemma reads_fun e f : reads e f -> forall g, reads e g -> f = g.
Proof.
  induction 1 as [x| | |t|t|t|t|e o p n q R IH|e o t q R IH|e o t q R IH|e i o f q R IH R' IH' N|e f R IH|e f R IH]; intros g G; inversion G; subst; auto;
  try (match goal with H : reads e ?o' |- _ => rewrite (IH _ H) end; auto; fail);
  try (match goal with H : forall s, ?i <> Str s /\ ?i <> Tmpl s |- _ => exfalso; match i with Str ?t => destruct (H t) | Tmpl ?t => destruct (H t) end; congruence end).
  erewrite IH, IH'; eauto.
Qed.
Lemma tame_bare e : tame e -> tame (bare e).
Proof. rewrite bare_skip. apply tame_skip. Qed.
Lemma nodes_tame c negated lo nodes : test_compares c negated lo nodes -> tame c -> forall x, In x nodes -> tame x.
Proof.
  intros TC T. apply tame_bare in T. inversion TC as [c' n' l' k l r E K|c' n' lo1 lo2 k1 l1 r1 k2 l2 r2 E K1 K2 N1 N2]; subst; rewrite E in T; simpl in T;
  intros x I; simpl in I; repeat (destruct I as [<- | I]; [apply tame_bare; tauto|]); contradiction.
Qed.
Lemma similar_form a c : similar a c = true -> tame a -> tame c -> exists f, reads a f /\ reads c f.
Proof. apply (proj1 (similar_reads a)). Qed.
Lemma targets c negated lo nodes target f s : test_compares c negated lo nodes -> tame c -> tame target -> reads target f ->
  (forall x, In x nodes -> literal x \/ similar x target = true) -> forall x, In x nodes -> ~ literal x -> result x s = (Throw, s) \/ result x s = (Val (got f s), s).
Proof.
  intros TC T T' R ALL x I N. destruct (ALL x I) as [L|S]; [contradiction|]. assert (TX := nodes_tame _ _ _ _ TC T x I).
  destruct (similar_form _ _ S TX T') as (g & G1 & G2). rewrite (reads_fun _ _ G2 _ R) in G1. now apply tame_result.
Qed.
Lemma result_wrapped e s : result (wrapped e) s = result e s.
Proof. unfold wrapped. destruct (negb (strong e) && negb (is_paren e)); [apply result_paren|reflexivity]. Qed.
Lemma first_in nodes x : first_target nodes x -> In x nodes /\ ~ literal x.
Proof. induction 1 as [x l N|x l y L F [IH IH']]; simpl; auto. Qed.
Lemma ternary_compare_same c t f negated lo nodes lhs ty s : test_compares c negated lo nodes ->
  (forall x, In x nodes -> literal x \/ similar x (bare (if negated then t else f)) = true) -> first_target nodes lhs -> complete nodes lo ty ->
  honest c -> tame (Cond c t f) -> clear_type ty -> (forall v s', result lhs s = (Val v, s') -> inhabits ty v) -> fst (result (Cond c t f) s) <> Throw ->
  result (Bin Coal lhs (wrapped (if negated then f else t))) s = result (Cond c t f) s.
Proof.
  intros TC ALL FT C HO (T & Tt & Tf) CT TY NT. set (other := if negated then t else f) in *.
  assert (TO : tame (bare other)) by (apply tame_bare; unfold other; destruct negated; assumption).
  assert (TO' : tame other) by (unfold other; destruct negated; assumption).
  destruct (first_in _ _ FT) as [IL NL]. destruct (ALL lhs IL) as [L|S]; [contradiction|].
  destruct (similar_form _ _ S (nodes_tame _ _ _ _ TC T _ IL) TO) as (g & G1 & G2).
  destruct (test_says c negated lo nodes lhs ty s (got g s) TC HO FT) as [E|[E1 E2]]; auto.
  - apply (targets c negated lo nodes (bare other)); auto.
  - intros H. eapply TY; eauto.
  - exfalso. apply NT. rewrite result_cond, E. reflexivity.
  - rewrite result_coal, E1, result_wrapped, result_cond, E2. simpl truthy. unfold flip.
    assert (OS : nullishb (got g s) = false -> result other s = (Val (got g s), s)).
    { intros N. apply tame_result_some; auto. apply reads_skip. rewrite <- bare_skip. exact G2. }
    unfold other in OS. destruct negated, (nullishb (got g s)); simpl; auto; symmetry; auto.
Qed.
Lemma truthy_not_nullish v : truthy v = true -> nullishb v = false.
Proof. destruct v; simpl; auto; discriminate. Qed.
Lemma falsy_nullish v : ~ falsy_only v -> truthy v = negb (nullishb v).
Proof.
  intros N. destruct (truthy v) eqn:T; [now rewrite truthy_not_nullish|]. destruct (nullishb v) eqn:E; [reflexivity|]. elim N. split; [exact T|].
  intros [-> | ->]; discriminate.
Qed.
Lemma similar_value x other f s : similar x (bare other) = true -> tame x -> tame other -> reads x f ->
  (result x s = (Throw, s) \/ result x s = (Val (got f s), s)) /\ (nullishb (got f s) = false -> result other s = (Val (got f s), s)).
Proof.
  intros S T T' R. split; [now apply tame_result|]. intros N. destruct (similar_form _ _ S T (tame_bare _ T')) as (g & G1 & G2).
  rewrite (reads_fun _ _ G1 _ R) in G2. apply tame_result_some; auto. apply reads_skip. rewrite <- bare_skip. exact G2.
Qed.
Lemma ternary_truth_same c t f s : similar (bare c) (bare t) = true -> tame (Cond c t f) -> (forall v s', result (bare c) s = (Val v, s') -> ~ falsy_only v) ->
  result (Bin Coal (bare c) (wrapped f)) s = result (Cond c t f) s.
Proof.
  intros S (T & Tt & Tf) N. destruct (similar_form _ _ S (tame_bare _ T) (tame_bare _ Tt)) as (g & G1 & G2).
  destruct (similar_value _ t g s S (tame_bare _ T) Tt G1) as [[E|E] O]; rewrite result_coal, result_cond, <- (result_bare c), E; [reflexivity|]. cbv beta iota. rewrite result_wrapped.
  rewrite (falsy_nullish _ (N _ _ E)). destruct (nullishb (got g s)); simpl; auto. symmetry. auto.
Qed.
Lemma ternary_negated_same c e t f s : bare c = Not e -> similar (bare e) (bare f) = true -> tame (Cond c t f) -> (forall v s', result (bare e) s = (Val v, s') -> ~ falsy_only v) ->
  result (Bin Coal (bare e) (wrapped t)) s = result (Cond c t f) s.
Proof.
  intros B S (T & Tt & Tf) N. apply tame_bare in T. rewrite B in T. simpl in T. destruct (similar_form _ _ S (tame_bare _ T) (tame_bare _ Tf)) as (g & G1 & G2).
  destruct (similar_value _ f g s S (tame_bare _ T) Tf G1) as [[E|E] O]; rewrite result_coal, result_cond, <- (result_bare c), B, result_not, <- (result_bare e), E; [reflexivity|]. cbv beta iota. rewrite result_wrapped.
  simpl truthy. rewrite (falsy_nullish _ (N _ _ E)). destruct (nullishb (got g s)); simpl; auto. symmetry. auto.
Qed.
(** Assignments. *)
Definition place (f : form) : Prop := match f with SId _ | SDot _ _ | SElem _ _ => True | _ => False end.
Lemma resolve_dot o p n s : resolve (Dot o p n false) s = match run o s with (Val v, s) => if nullishb v then (None, s) else (Some (LProp v (p, n)), s) | (_, s) => (None, s) end.
Proof. reflexivity. Qed.
Lemma resolve_elem o i s : resolve (Elem o i false) s = match run o s with
  | (Val v, s) => if nullishb v then (None, s) else match close (fst (run i s)) with Val k => (Some (LProp v (false, key_of k)), snd (run i s)) | _ => (None, snd (run i s)) end
  | (_, s) => (None, s) end.
Proof. reflexivity. Qed.
Lemma run_assign a l r s : run (Bin (Assign a) l r) s = match resolve l s with
  | (None, s) => (Throw, s)
  | (Some x, s) =>
      match a with
      | Plain => after (run r s) (fun v s => (Val v, put St set_var set_prop s x v))
      | OrA => if truthy (get St var prop s x) then (Val (get St var prop s x), s) else after (run r s) (fun v s => (Val v, put St set_var set_prop s x v))
      | CoalA => if nullishb (get St var prop s x) then after (run r s) (fun v s => (Val v, put St set_var set_prop s x v)) else (Val (get St var prop s x), s)
      | Comp k => let v := get St var prop s x in after (run r s) (fun w s => (Val (compute k v w), put St set_var set_prop s x (compute k v w)))
      end
  end.
Proof. reflexivity. Qed.
Lemma resolve_place e f s : reads e f -> no_chain e -> place f ->
  match look f s with Some v => exists x, resolve e s = (Some x, s) /\ get St var prop s x = v | None => resolve e s = (None, s) end.
Proof.
  induction 1 as [x| | |t|t|t|t|e o p n q R IH|e o t q R IH|e o t q R IH|e i o f q R IH R' IH' N|e f R IH|e f R IH]; cbn [look no_chain place]; intros NC P; try contradiction.
  - eexists. split; reflexivity.
  - destruct NC as [-> NC]. rewrite resolve_dot, (no_chain_run _ _ s R NC). destruct (look o s) as [v|]; [|reflexivity]. destruct (nullishb v); [reflexivity|]. eexists. split; reflexivity.
  - destruct NC as (-> & NC & NI). rewrite resolve_elem, (no_chain_run _ _ s R NC). destruct (look o s) as [v|]; [|reflexivity]. destruct (nullishb v); [reflexivity|]. eexists. split; reflexivity.
  - destruct NC as (-> & NC & NI). rewrite resolve_elem, (no_chain_run _ _ s R NC). destruct (look o s) as [v|]; [|reflexivity]. destruct (nullishb v); [reflexivity|]. eexists. split; reflexivity.
  - destruct NC as (-> & NC & NI). rewrite resolve_elem, (no_chain_run _ _ s R NC). destruct (look o s) as [v|]; [|reflexivity]. destruct (nullishb v); [reflexivity|].
    rewrite (no_chain_run _ _ s R' NI). destruct (look f s); simpl; [eexists; split; reflexivity|reflexivity].
  - apply IH; auto.
  - apply IH; auto.
Qed.
Lemma access_place l f : access (bare l) -> no_chain l -> reads l f -> place f.
Proof.
  intros A NC R. assert (R' : reads (bare l) f). { clear A NC. induction R; simpl; try (now constructor); auto. } clear R.
  assert (NC' : no_chain (bare l)). { clear A R'. induction l; simpl in *; auto. }
  destruct A as [(x & A)|[(o & p & n & q & A)|[(o & i & q & A)|A]]]; try (rewrite A in R'; inversion R'; exact I).
  exfalso. apply chained_iff in A. revert A NC' R'. generalize (bare l). clear. intros e. revert f. induction e; simpl; intros f A NC R; try discriminate.
  - destruct NC as [-> NC]. inversion R; subst. simpl in A. eapply IHe; eauto.
  - destruct NC as (-> & NC & _). inversion R; subst; simpl in A; eapply IHe1; eauto.
  - inversion R; subst. eapply IHe; eauto.
  - inversion R.
Qed.
Lemma resolve_skip e s : resolve (skip e) s = resolve e s.
Proof. induction e; simpl; auto. Qed.
Lemma exec_assign a l r lhs s : lhs = (if is_paren l then Paren (bare l) else l) -> exec (Bin (Assign a) lhs r) s = exec (Bin (Assign a) l r) s.
Proof.
  intros ->. unfold NullishSpec.exec, NullishSpec.result. rewrite !run_assign.
  assert (E : resolve (if is_paren l then Paren (bare l) else l) s = resolve l s). { destruct (is_paren l); [|reflexivity]. rewrite bare_skip. apply (resolve_skip l s). }
  now rewrite E.
Qed.
Lemma exec_bare e s : exec (bare e) s = exec e s.
Proof. unfold NullishSpec.exec. now rewrite result_bare. Qed.
Lemma exec_plain l r s : exec (Bin (Assign Plain) l r) s =
  match resolve l s with (Some x, s') => match result r s' with (Val v, s2) => Some (put St set_var set_prop s2 x v) | _ => None end | _ => None end.
Proof.
  unfold NullishSpec.exec. unfold NullishSpec.result at 1. rewrite run_assign. destruct (resolve l s) as [[x|] s']; [|reflexivity]. rewrite after_result.
  destruct (result r s') as [[v| |] s2] eqn:E; try reflexivity. unfold NullishSpec.result in E. injection E as E _. destruct (fst (run r s')); discriminate.
Qed.
Lemma exec_coal l r s : exec (Bin (Assign CoalA) l r) s =
  match resolve l s with
  | (Some x, s') => if nullishb (get St var prop s' x) then match result r s' with (Val v, s2) => Some (put St set_var set_prop s2 x v) | _ => None end else Some s'
  | _ => None end.
Proof.
  unfold NullishSpec.exec. unfold NullishSpec.result at 1. rewrite run_assign. destruct (resolve l s) as [[x|] s']; [|reflexivity]. destruct (nullishb (get St var prop s' x)); [|reflexivity]. rewrite after_result.
  destruct (result r s') as [[v| |] s2] eqn:E; try reflexivity. unfold NullishSpec.result in E. injection E as E _. destruct (fst (run r s')); discriminate.
Qed.
(** The test is true exactly for null and undefined: then the assignments are the same. *)
Lemma assign_same test e l r lhs f s s' : bare e = Bin (Assign Plain) l r -> lhs = (if is_paren l then Paren (bare l) else l) -> access (bare l) -> no_chain l -> reads l f ->
  result test s = (Val (Boolean (nullishb (got f s))), s) -> exec_if test e s = Some s' -> exec (Bin (Assign CoalA) lhs r) s = Some s'.
Proof.
  intros B LH A NC R T H. rewrite (exec_assign _ _ _ _ _ LH). unfold NullishSpec.exec_if in H. rewrite T in H. simpl truthy in H.
  assert (P := access_place l f A NC R). assert (Q := resolve_place l f s R NC P). rewrite exec_coal. unfold got in H. destruct (look f s) as [v|] eqn:L.
  - destruct Q as (x & E & G). rewrite E, G. destruct (nullishb v) eqn:N; [|exact H]. rewrite <- exec_bare, B, exec_plain, E in H. exact H.
  - rewrite Q. simpl in H. rewrite <- exec_bare, B, exec_plain, Q in H. discriminate.
Qed.

Lemma shielded_result e s : result (shielded e) s = result e s.
Proof. unfold shielded. destruct (is_logical e && negb (is_paren e)); [apply result_paren|reflexivity]. Qed.
Lemma suggested_result ctx l r s :
  stands ctx (Bin Or l r) -> ~ entangled ctx l -> (forall v s', result l s = (Val v, s') -> ~ falsy_only v) ->
  result (suggested ctx l r) s = result (Bin Or l r) s.
Proof.
  intros S N H. unfold suggested. destruct (moved ctx l r) eqn:M.
  - destruct (moved_cases _ _ _ S N M) as (ll & lr & -> & C).
    rewrite (result_or (Bin Or ll lr) r), (result_or ll (Paren _)). rewrite (result_or ll lr) in H |- *.
    destruct (result ll s) as [[v| |] s1]; try reflexivity. destruct (truthy v) eqn:T; [now rewrite T|].
    rewrite result_paren, result_coal. destruct (result lr s1) as [[w| |] s2]; try reflexivity.
    rewrite (falsy_nullish w (H _ _ eq_refl)). rewrite shielded_result. now destruct (nullishb w).
  - assert (E : result (Bin Coal (shielded l) (shielded r)) s = result (Bin Or l r) s).
    { rewrite result_coal, result_or, shielded_result. destruct (result l s) as [[w| |] s2]; try reflexivity.
      rewrite (falsy_nullish w (H _ _ eq_refl)). rewrite shielded_result. now destruct (nullishb w). }
    destruct (parent_logical ctx (Bin Or l r)); [rewrite result_paren|]; exact E.
Qed.
Lemma if_same o type_of test e l r lhs s s' : bare e = Bin (Assign Plain) l r -> lhs = (if is_paren l then Paren (bare l) else l) -> access (bare l) -> if_due o type_of test l ->
  honest test -> tame test -> tame l -> no_chain l -> clear_type (type_of l) ->
  (forall x f v s1, reads x f -> reads l f -> result x s = (Val v, s1) -> inhabits (type_of l) v /\ ((exists y, bare test = Not y) -> ~ falsy_only v)) ->
  exec_if test e s = Some s' -> exec (Bin (Assign CoalA) lhs r) s = Some s'.
Proof.
  intros B LH A D HO T TL NC CT TY H. destruct D as [e0 BT AE S TD|lo nodes TC ALL EX C].
  - assert (TE := tame_bare _ T). rewrite BT in TE. simpl in TE. destruct (similar_form _ _ S (tame_bare _ TE) TL) as (f & G1 & G2).
    assert (R : result test s = (Throw, s) \/ result test s = (Val (Boolean (nullishb (got f s))), s)).
    { rewrite <- (result_bare test), BT, result_not, <- (result_bare e0). destruct (tame_result (bare e0) f s G1 (tame_bare _ TE)) as [E|E]; rewrite E; [now left|right].
      destruct (TY (bare e0) f _ _ G1 G2 E) as [_ N]. rewrite (falsy_nullish _ (N (ex_intro _ e0 BT))). now destruct (nullishb (got f s)). }
    destruct R as [R|R]; [unfold NullishSpec.exec_if in H; rewrite R in H; discriminate|].
    now apply (assign_same test e l r lhs f s s').
  - destruct (first_exists _ EX) as (y & F). destruct (first_in _ _ F) as [I N]. destruct (ALL y I) as [L|S]; [contradiction|].
    destruct (similar_form _ _ S (nodes_tame _ _ _ _ TC T y I) TL) as (f & G1 & G2).
    assert (TG := targets _ _ _ _ _ f s TC T TL G2 ALL).
    destruct (test_says test false lo nodes y (type_of l) s (got f s) TC HO F TG C CT) as [R|[_ R]].
    + intros E. now destruct (TY y f _ _ G1 G2 E).
    + unfold NullishSpec.exec_if in H. rewrite R in H. discriminate.
    + now apply (assign_same test e l r lhs f s s').
Qed.
Lemma or_assign_same l r s : (forall x s', resolve l s = (Some x, s') -> ~ falsy_only (get St var prop s' x)) -> result (Bin (Assign CoalA) l r) s = result (Bin (Assign OrA) l r) s.
Proof.
  intros H. unfold NullishSpec.result. rewrite !run_assign. destruct (resolve l s) as [[x|] s'] eqn:E; [|reflexivity].
  rewrite (falsy_nullish _ (H _ _ eq_refl)). now destruct (nullishb (get St var prop s' x)).
Qed.
End Semantics.

(** Reading a text back. *)
Fixpoint bal (ts : list token) : Z := match ts with [] => 0 | TOpen :: ts => 1 + bal ts | TClose :: ts => bal ts - 1 | _ :: ts => bal ts end.
Lemma bal_app x y : bal (x ++ y) = bal x + bal y.
Proof. induction x as [|[] x IH]; cbn [bal app]; lia. Qed.
Inductive shape : expr -> Prop :=
| s_paren e : shape e -> shape (Paren e)
| s_bin k l r : is_logical_op k = true -> shape l -> shape r -> shape (Bin k l r)
| s_unit e : text e = [TUnit e] -> (forall x, e <> Paren x) -> (forall k l r, is_logical_op k = true -> e <> Bin k l r) -> shape e.
Lemma shape_all e : shape e.
Proof.
  induction e; try (apply s_unit; [reflexivity|discriminate|discriminate]).
  - now apply s_paren.
  - destruct (is_logical_op o) eqn:L; [now apply s_bin|]. apply s_unit; [cbn [text]; now rewrite L|discriminate|]. intros k l r E H. injection H as -> _ _. congruence.
Qed.
Lemma split_app {A} (x y p q : list A) : x ++ y = p ++ q -> (exists m, x = p ++ m /\ q = m ++ y) \/ (exists m, p = x ++ m /\ y = m ++ q).
Proof.
  revert p. induction x as [|a x IH]; intros p E; [right; exists p; auto|]. destruct p as [|c p]; [left; exists (a :: x); auto|].
  cbn [app] in E. injection E as -> E. destruct (IH _ E) as [(m & -> & ->)|(m & -> & ->)]; [left|right]; exists m; auto.
Qed.
Lemma text_bal e : bal (text e) = 0 /\ forall p q, text e = p ++ q -> 0 <= bal p.
Proof.
  induction (shape_all e) as [e S [B P]|k l r L SL [BL PL] SR [BR PR]|e T _ _].
  - cbn [text]. split; [cbn [bal]; rewrite bal_app; cbn [bal]; lia|]. intros p q E. destruct p as [|t p]; [cbn; lia|]. cbn [app] in E. injection E as <- E. cbn [bal].
    destruct (split_app _ _ _ _ E) as [(m & E1 & _)|(m & -> & E2)]; [apply P in E1; lia|]. rewrite bal_app, B. destruct m as [|t m]; [cbn; lia|]. cbn [app] in E2. injection E2 as <- E2. destruct m; [cbn; lia|discriminate].
  - cbn [text]. rewrite L. split; [rewrite bal_app; cbn [bal]; lia|]. intros p q E.
    destruct (split_app _ _ _ _ E) as [(m & E1 & _)|(m & -> & E2)]; [now apply PL in E1|]. rewrite bal_app, BL. destruct m as [|t m]; [cbn; lia|]. cbn [app] in E2. injection E2 as <- E2. apply PR in E2. cbn [bal]. lia.
  - rewrite T. split; [reflexivity|]. intros p q E. destruct p as [|t p]; [cbn; lia|]. cbn [app] in E. injection E as <- E. destruct p; [cbn; lia|discriminate].
Qed.
Fixpoint top_ops (e : expr) : list op := match e with Bin k l r => if is_logical_op k then top_ops l ++ k :: top_ops r else [] | _ => [] end.
Lemma top_in e : forall w k z, text e = w ++ TOp k :: z -> bal w = 0 -> In k (top_ops e).
Proof.
  induction (shape_all e) as [e S IH|k0 l r L SL IHL SR IHR|e T _ _]; intros w k z E B.
  - cbn [text] in E. destruct w as [|t w]; [discriminate|]. cbn [app] in E. injection E as <- E. cbn [bal] in B. exfalso.
    destruct (split_app _ _ _ _ E) as [(m & E1 & _)|(m & -> & E2)]; [apply text_bal in E1; lia|]. rewrite bal_app, (proj1 (text_bal e)) in B. destruct m as [|t m]; [cbn in B; lia|]. cbn [app] in E2. injection E2 as <- E2. destruct m; discriminate.
  - cbn [text top_ops] in *. rewrite L in *. apply in_or_app. destruct (split_app _ _ _ _ E) as [(m & E1 & E2)|(m & -> & E2)].
    + destruct m as [|t m]; cbn [app] in E2; [injection E2 as -> E2; right; left; reflexivity|]. injection E2 as <- E2. left. eapply IHL; [exact E1|exact B].
    + rewrite bal_app, (proj1 (text_bal l)) in B. destruct m as [|t m]; cbn [app] in E2; [injection E2 as -> E2; right; left; reflexivity|]. injection E2 as <- E2. right; right. eapply IHR; [exact E2|]. cbn [bal] in B. lia.
  - rewrite T in E. destruct w as [|t w]; [discriminate|]. cbn [app] in E. injection E as _ E. destruct w; discriminate.
Qed.
Lemma top_closer e : closer e -> top_ops e = [].
Proof. destruct e as [| | | | | | | | | | | |k ? ?| |]; try reflexivity. destruct k; try contradiction; reflexivity. Qed.
Lemma top_and e : writable e -> closer e \/ logical_with And e -> forall k, In k (top_ops e) -> k = And.
Proof.
  induction e as [| | | | | | | | | | | |k l IHl r IHr| |]; intros W [C|C] k0 I; try (rewrite top_closer in I by exact C; contradiction); try contradiction.
  simpl in C. subst k. cbn [writable] in W. destruct W as (A & B & WL & WR). cbn [top_ops is_logical_op] in I. apply in_app_or in I as [I|[<-|I]]; [|reflexivity|].
  - now apply (IHl WL A).
  - rewrite top_closer in I by exact B. contradiction.
Qed.
Lemma top_coal e : writable e -> closer e \/ logical_with Coal e -> forall k, In k (top_ops e) -> k = Coal.
Proof.
  induction e as [| | | | | | | | | | | |k l IHl r IHr| |]; intros W [C|C] k0 I; try (rewrite top_closer in I by exact C; contradiction); try contradiction.
  simpl in C. subst k. cbn [writable] in W. destruct W as (A & B & WL & WR). cbn [top_ops is_logical_op] in I. apply in_app_or in I as [I|[<-|I]]; [|reflexivity|].
  - now apply (IHl WL A).
  - rewrite top_closer in I by exact B. contradiction.
Qed.
Lemma clash k l r k' l' r' w : writable (Bin k l r) -> writable (Bin k' l' r') -> is_logical_op k = true -> is_logical_op k' = true ->
  text l' = text l ++ TOp k :: w -> text r = w ++ TOp k' :: text r' -> False.
Proof.
  intros W W' L L' E1 E2. assert (B := proj1 (text_bal l')). rewrite E1, bal_app, (proj1 (text_bal l)) in B. cbn [bal] in B.
  assert (I1 := top_in _ _ _ _ E1 (proj1 (text_bal l))). assert (I2 := top_in r w k' (text r') E2 ltac:(lia)).
  cbn [writable] in W, W'. destruct W as (A & C & WL & WR), W' as (A' & C' & WL' & WR').
  destruct k; try discriminate; simpl in C; try (rewrite top_closer in I2 by exact C; contradiction).
  apply top_and in I2; auto. subst k'. simpl in A'. apply top_and in I1; auto. discriminate.
Qed.
Lemma one_reading e : forall e', writable e -> writable e' -> text e = text e' -> e = e'.
Proof.
  induction (shape_all e) as [e S IH|k l r L SL IHL SR IHR|e T NP NB]; intros e' W W' E; destruct (shape_all e') as [e' S'|k' l' r' L' SL' SR'|e' T' NP' NB'].
  - cbn [text] in E. injection E as E. apply app_inj_tail in E as [E _]. f_equal. now apply IH.
  - exfalso. cbn [text] in E. rewrite L' in E. assert (I := top_in (Paren e) (text l') k' (text r') E (proj1 (text_bal l'))). contradiction.
  - rewrite T' in E. discriminate.
  - exfalso. cbn [text] in E. rewrite L in E. assert (I := top_in (Paren e') (text l) k (text r) (eq_sym E) (proj1 (text_bal l))). contradiction.
  - cbn [text] in E. rewrite L, L' in E. destruct (split_app _ _ _ _ E) as [(m & E1 & E2)|(m & E1 & E2)].
    + destruct m as [|t m]; cbn [app] in E2.
      * injection E2 as -> E2. rewrite app_nil_r in E1. cbn [writable] in W, W'. f_equal; [apply IHL|apply IHR]; try tauto. now rewrite E2.
      * injection E2 as <- E2. exfalso. apply (clash k' l' r' k l r m); auto.
    + destruct m as [|t m]; cbn [app] in E2.
      * injection E2 as -> E2. rewrite app_nil_r in E1. cbn [writable] in W, W'. f_equal; [apply IHL|apply IHR]; try tauto; now rewrite ?E1.
      * injection E2 as <- E2. exfalso. apply (clash k l r k' l' r' m); auto.
  - exfalso. rewrite T' in E. cbn [text] in E. rewrite L in E. assert (I := top_in e' (text l) k (text r)). rewrite T' in I. specialize (I (eq_sym E) (proj1 (text_bal l))).
    destruct e'; try contradiction. cbn [top_ops] in I. destruct (is_logical_op o) eqn:LO; [|contradiction]. now apply (NB' o e'1 e'2).
  - rewrite T in E. discriminate.
  - exfalso. rewrite T in E. cbn [text] in E. rewrite L' in E. assert (I := top_in e (text l') k' (text r')). rewrite T in I. specialize (I E (proj1 (text_bal l'))).
    destruct e; try contradiction. cbn [top_ops] in I. destruct (is_logical_op o) eqn:LO; [|contradiction]. now apply (NB o e1 e2).
  - rewrite T, T' in E. now injection E.
Qed.

(** Types. *)
Lemma no_primitives o t v : known_type t -> (forall a, a = TString \/ a = TNumber \/ a = TBigint \/ a = TBoolean -> ignored o a) -> type_due o t -> inhabits t v -> ~ falsy_only v.
Proof.
  intros K IG [_ D] (part & I & A) [T N]. assert (X : exists a, ignored o a) by (exists TString; auto). destruct (D X) as (_ & _ & NI).
  rewrite Forall_forall in A. destruct (K part I) as [-> | [-> | [-> | (a & J & E)]]].
  - apply N. right. apply (A TNull). now left.
  - apply N. left. apply (A TUndefined). now left.
  - apply N. left. apply (A TVoid). now left.
  - assert (V := A a J). destruct E as [E|[E|[E|[E|E]]]]; try (apply (NI part a I J), IG; tauto). subst a. destruct V as (n & ->). discriminate.
Qed.
(** Similarity finds all that is usually written. *)
Lemma usual_strip a : usual a -> exists x, usual_core x /\ strip a = x /\ (forall f, reads a f -> reads x f) /\ forall c, similar a c = snd (similarity x) (strip c).
Proof.
  induction 1 as [e C|e C|e U (x & C & S & R & E)].
  - exists e. split; [exact C|]. split; [destruct C; reflexivity|]. split; [auto|]. intros c. unfold similar. destruct C; reflexivity.
  - exists e. split; [exact C|]. split; [reflexivity|]. split; [now inversion 1|reflexivity].
  - exists x. split; [exact C|]. split; [exact S|]. split; [inversion 1; auto|]. intros c. rewrite <- E. reflexivity.
Qed.
Lemma usual_index_equal i : usual_index i -> forall f j, reads i f -> usual_index j -> reads j f -> node_equal i j = true.
Proof.
  induction 1 as [x|t|t| |o n q U IH]; intros f j R UJ RJ; inversion R; subst; inversion RJ; subst; inversion UJ; subst; cbn [node_equal negb andb]; rewrite ?beqb_refl; auto.
  cbn [andb]. eapply IH; eauto.
Qed.
Lemma name_nonempty n : n <> [] -> beqb n [] = false.
Proof. destruct n; [congruence|reflexivity]. Qed.
Lemma usual_similar f : forall a c, usual a -> usual c -> reads a f -> reads c f -> similar a c = true.
Proof.
  induction f as [x| | |t|t|t|o IHo k|o IHo i IHi]; intros a c UA UC RA RC;
  destruct (usual_strip a UA) as (x0 & CA & _ & RA' & E); destruct (usual_strip c UC) as (y & CY & SY & RC' & _); rewrite E, SY; specialize (RA' _ RA); specialize (RC' _ RC);
  clear a c UA UC RA RC E SY; destruct CA as [x1| |oa pa na qa UA NA|oa sa qa UA NA|oa sa qa UA NA|oa ia qa UA IA]; inversion RA'; subst; clear RA';
  try match goal with H : usual_index (Str _) |- _ => inversion H | H : usual_index (Tmpl _) |- _ => inversion H end;
  destruct CY as [x2| |oc pc nc qc UC NC|oc sc qc UC NC|oc sc qc UC NC|oc ic qc UC IC]; inversion RC'; subst; clear RC';
  try match goal with H : usual_index (Str _) |- _ => inversion H | H : usual_index (Tmpl _) |- _ => inversion H end;
  try (match goal with H : forall s, Str ?t <> _ /\ _ |- _ => destruct (H t); congruence | H : forall s, Tmpl ?t <> _ /\ _ |- _ => destruct (H t); congruence end);
  cbn [similarity snd object_of access_name].
  - simpl. apply beqb_refl.
  - reflexivity.
  - destruct pa; [change (b "#" ++ na) with ("#"%char :: na)|]; rewrite ?beqb_refl, ?name_nonempty by (assumption || discriminate); cbn [orb negb]; apply IHo; assumption.
  - rewrite ?beqb_refl, ?name_nonempty by assumption; cbn [orb negb]; apply IHo; assumption.
  - rewrite ?beqb_refl, ?name_nonempty by assumption; cbn [orb negb]; apply IHo; assumption.
  - rewrite ?beqb_refl, ?name_nonempty by assumption; cbn [orb negb]; apply IHo; assumption.
  - rewrite ?beqb_refl, ?name_nonempty by assumption; cbn [orb negb]; apply IHo; assumption.
  - rewrite ?beqb_refl, ?name_nonempty by assumption; cbn [orb negb]; apply IHo; assumption.
  - rewrite ?beqb_refl, ?name_nonempty by assumption; cbn [orb negb]; apply IHo; assumption.
  - rewrite ?beqb_refl, ?name_nonempty by assumption; cbn [orb negb]; apply IHo; assumption.
  - rewrite ?beqb_refl, ?name_nonempty by assumption; cbn [orb negb]; apply IHo; assumption.
  - assert (X : access_name (Elem oa ia qa) = []) by (destruct IA; reflexivity). cbn [access_name] in X. rewrite X. cbn [beqb orb]. 
    match goal with |- context [fst (similarity oa) oc] => assert (Y : fst (similarity oa) oc = true) by (apply IHo; assumption) end. rewrite Y. cbn [negb].
    eapply usual_index_equal; eauto.
Qed.

(** New expressions can be written. *)
Lemma wrapped_iff e x : x = wrapped e <-> guarded e x.
Proof.
  assert (D : negb (strong e) && negb (is_paren e) = false <-> for_itself e).
  { destruct e; simpl; split; try contradiction; try discriminate; auto; [destruct strong|intros ->]; auto; discriminate. }
  unfold wrapped. destruct (negb (strong e) && negb (is_paren e)) eqn:E.
  - assert (N : ~ for_itself e) by (intros H; apply D in H; discriminate). split; [intros ->; now constructor|]. inversion 1; subst; [contradiction|reflexivity].
  - assert (F := proj1 D eq_refl). split; [intros ->; now constructor|]. inversion 1; subst; [reflexivity|contradiction].
Qed.
Lemma writable_bare e : writable e -> writable (bare e).
Proof. induction e; auto. Qed.
Lemma nodes_writable c negated lo nodes : test_compares c negated lo nodes -> writable c -> forall x, In x nodes -> writable x.
Proof.
  intros TC T. apply writable_bare in T. inversion TC as [c' n' l' k l r E K|c' n' lo1 lo2 k1 l1 r1 k2 l2 r2 E K1 K2 N1 N2]; subst; rewrite E in T; cbn [writable] in T;
  intros x I; simpl in I; repeat (destruct I as [<- | I]; [apply writable_bare; tauto|]); contradiction.
Qed.
Lemma similar_closer a c : similar a c = true -> closer a.
Proof. destruct a; try exact (fun _ => I); unfold similar; simpl; discriminate. Qed.
Lemma guarded_closer n r : guarded n r -> writable n -> closer r /\ writable r.
Proof. intros [F|F] W; [|split; [exact I|exact W]]. split; [|exact W]. destruct n; try contradiction; try exact I. simpl in *. auto. Qed.
Lemma ternary_stands o type_of ctx c t f lhs rhs : stands ctx (Cond c t f) -> check_ternary o type_of ctx c t f = Some (lhs, rhs) -> stands ctx (Bin Coal lhs rhs).
Proof.
  intros S H. apply ternary_iff in H as (_ & n & D & G). apply wrapped_iff in G. assert (W := plug_writable _ _ (proj1 S)). cbn [writable] in W. destruct W as (_ & _ & _ & WC & WT & WF).
  assert (X : closer lhs /\ writable lhs /\ writable n).
  { destruct D as [A SI TD|e B A SI TD|negated lo nodes lhs TC ALL FT C].
    - split; [exact (similar_closer _ _ SI)|]. split; [now apply writable_bare|exact WF].
    - split; [exact (similar_closer _ _ SI)|]. split; [|exact WT]. apply writable_bare in WC. rewrite B in WC. cbn [writable] in WC. now apply writable_bare.
    - destruct (first_in _ _ FT) as [I N]. destruct (ALL _ I) as [L|SI]; [contradiction|]. split; [exact (similar_closer _ _ SI)|]. split; [now apply (nodes_writable _ _ _ _ TC WC)|]. now destruct negated. }
  destruct X as (CL & WL & WN). destruct (guarded_closer _ _ G WN) as [CR WR].
  apply (stands_swap _ _ _ S).
  - cbn [writable]. split; [left; exact CL|]. split; [exact CR|]. auto.
  - destruct S as [_ F]. destruct ctx as [|fr ctx]; [exact I|]. destruct fr as [| |k ?|? k| | | | | | |]; simpl in *; auto; try (destruct k; simpl in *; auto; try contradiction; tauto).
Qed.
Lemma if_writable o type_of test e has_else lhs rhs : writable e -> check_if o type_of test (Single e) has_else = Some (lhs, rhs) -> writable (Bin (Assign CoalA) lhs rhs).
Proof.
  intros W H. apply if_iff in H as (_ & _ & e' & a & l & E & B & A & D & ->). injection E as <-. apply writable_bare in W. rewrite B in W. cbn [writable] in *. destruct W as (F & G & WL & WR).
  split; [destruct (is_paren l); [exact I|exact F]|]. split; [exact G|]. split; [|exact WR]. destruct (is_paren l); [cbn [writable]; now apply writable_bare|exact WL].
Qed.

(** What is in parentheses is read on its own. *)
Lemma top_mixed e : writable e -> In Coal (top_ops e) -> In And (top_ops e) -> False.
Proof.
  intros W I J. destruct e as [| | | | | | | | | | | |k l r| |]; try contradiction. assert (W' := W). cbn [writable] in W'. destruct W' as (A & B & WL & WR).
  cbn [top_ops] in I. destruct k; try contradiction; cbn [is_logical_op] in I.
  - assert (N : forall e, writable e -> closer e \/ logical_with Or e \/ logical_with And e -> ~ In Coal (top_ops e)).
    { clear. induction e as [| | | | | | | | | | | |k l IHl r IHr| |]; intros W [C|C] K; try (rewrite top_closer in K by exact C; contradiction); try (destruct C; contradiction).
      cbn [writable] in W. destruct W as (A & B & WL & WR). destruct C as [C|C]; simpl in C; subst k; cbn [top_ops is_logical_op] in K; apply in_app_or in K as [K|[K|K]]; try discriminate.
      - now apply (IHl WL A).
      - simpl in B. apply (IHr WR); tauto.
      - simpl in A. apply (IHl WL); tauto.
      - rewrite top_closer in K by exact B. contradiction. }
    apply (N (Bin Or l r) W); [right; left; reflexivity|]. exact I.
  - apply (top_and _ W) in I; [discriminate|right; reflexivity].
  - apply (top_coal _ W) in J; [discriminate|right; reflexivity].
Qed.
Lemma list_last {A} (l : list A) : l = [] \/ exists l' z, l = l' ++ [z].
Proof. destruct l as [|a l]; [now left|]. destruct (@exists_last _ (a :: l)) as (l' & z & E); [discriminate|]. right. eauto. Qed.
Definition closed_text (y : list token) : Prop := bal y = 0 /\ forall p q, y = p ++ q -> 0 <= bal p.
Lemma paren_inside e : writable e -> forall p y q, text e = p ++ TOpen :: y ++ TClose :: q -> closed_text y -> exists x, writable x /\ text x = y.
Proof.
  induction (shape_all e) as [e S IH|k l r L SL IHL SR IHR|e T _ _]; intros W p y q E C.
  - cbn [text writable] in *. destruct p as [|t p]; cbn [app] in E.
    + injection E as E. destruct (list_last q) as [-> | (q' & z & ->)].
      * apply app_inj_tail in E as [E _]. exists e. auto.
      * exfalso. rewrite app_comm_cons, app_assoc in E. apply app_inj_tail in E as [E _].
        assert (P := proj2 (text_bal e) (y ++ [TClose]) q'). rewrite <- app_assoc in P. specialize (P E). rewrite bal_app, (proj1 C) in P. cbn in P. lia.
    + injection E as <- E. destruct (list_last q) as [-> | (q' & z & ->)].
      * exfalso. rewrite app_comm_cons, app_assoc in E. apply app_inj_tail in E as [E _].
        assert (P := proj1 (text_bal e)). assert (P' := proj2 (text_bal e) _ _ E). rewrite E, bal_app in P. cbn [bal] in P. rewrite (proj1 C) in P. lia.
      * rewrite app_comm_cons, (app_comm_cons q'), app_assoc, app_assoc in E. apply app_inj_tail in E as [E _]. rewrite <- app_assoc in E. exact (IH W p y q' E C).
  - cbn [text writable] in *. rewrite L in E. destruct W as (_ & _ & WL & WR). destruct (split_app _ _ _ _ E) as [(m & E1 & E2)|(m & E1 & E2)].
    + destruct m as [|t m]; cbn [app] in E2; [discriminate|]. injection E2 as <- E2. destruct (split_app _ _ _ _ E2) as [(n & E3 & E4)|(n & E3 & E4)].
      * exfalso. assert (P := proj1 (text_bal l)). assert (P' := proj2 (text_bal l) _ _ E1). rewrite E1, bal_app in P. cbn [bal] in P. assert (Q := proj2 C _ _ E3). lia.
      * destruct n as [|t n]; cbn [app] in E4; [discriminate|]. injection E4 as <- E4. subst m. exact (IHL WL p y n E1 C).
    + destruct m as [|t m]; cbn [app] in E2; [discriminate|]. injection E2 as <- E2. exact (IHR WR m y q E2 C).
  - rewrite T in E. destruct p as [|t p]; [discriminate|]. cbn [app] in E. injection E as _ E. destruct p; discriminate.
Qed.
