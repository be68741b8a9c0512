(** Proofs about no-unsafe-argument. *)
From Coq Require Import Bool List Arith Lia.
From Verif Require Import UnsafeArgument UnsafeArgumentSpec.
Import ListNotations.

Section Types.
Context {T : Type} (is_any any_array : T -> bool) (tuple : T -> option (list (T * element))) (iterates : T -> option T) (unsafe : bool -> T -> T -> bool).
Notation check_arguments := (check_arguments is_any any_array tuple unsafe).
Notation check_tuple := (check_tuple unsafe).
Notation passes := (passes is_any any_array tuple iterates).
Notation fixed := (fixed is_any any_array tuple).

Lemma ends_tail : forall (x : T * element) l, ends (x :: l) -> ends l.
Proof. intros x l H l1 u l2 E. apply (H (x :: l1) u l2). now rewrite E. Qed.

Lemma tv_nth : forall (l : list (T * element)) ps, tuple_values l ps -> ends l -> forall j p, nth_error ps j = Some p ->
  option_map fst (if length l <=? j then nth_error l (length l - 1) else nth_error l j) = Some p.
Proof.
  induction 1 as [|t l ts H IH|t l ts H IH|t l H|t l ts H IH|t l ts H IH]; intros E j p P.
  1, 4: now destruct j.
  1, 2: destruct j as [|j]; [exact P|]; cbn [nth_error] in P; specialize (IH (ends_tail _ _ E) j p P); cbn [length]; rewrite Nat.sub_succ, Nat.sub_0_r;
    change (S (length l) <=? S j) with (length l <=? j); destruct (length l <=? j); [|exact IH];
    destruct l as [|y l]; [destruct j; discriminate|]; cbn [length] in *; rewrite Nat.sub_succ, Nat.sub_0_r in IH; exact IH.
  - assert (l = []) as -> by exact (E [] t l eq_refl). inversion H; subst. destruct j; discriminate.
  - assert (l = []) as -> by exact (E [] t l eq_refl). destruct j as [|j]; [exact P|]. cbn [nth_error] in P. specialize (IH E j p P). cbn in IH |- *. now destruct j.
Qed.

Lemma next_receives : forall (g : signature T) n k p, regular g -> fits g n -> k < n -> (next g {| consumed := false; index := k |} = Some p <-> receives g n k p).
Proof.
  intros g n k p R F L. unfold next. cbn [index consumed]. rewrite orb_false_r. destruct (length (parameters g) <=? k) eqn:E.
  - apply Nat.leb_le in E. unfold regular, fits in *. split.
    + intros H. destruct (rest g) as [t|l|o] eqn:G.
      * injection H as <-. now apply RecArray.
      * destruct F as [F|[ps [V F]]]; [lia|]. destruct (nth_error ps (k - length (parameters g))) as [q|] eqn:Q; [|apply nth_error_None in Q; lia].
        pose proof (tv_nth l ps V R _ _ Q) as W. destruct l as [|x l]; [discriminate|].
        apply (RecTuple g n k (x :: l) ps p E G V F). rewrite Q. rewrite <- W, <- H. now destruct (length (x :: l) <=? k - length (parameters g)).
      * subst. discriminate.
    + intros H. destruct H as [k p N|k p L' G|k l ps p L' G V N Q].
      * assert (nth_error (parameters g) k <> None) as N' by congruence. apply nth_error_Some in N'. lia.
      * now rewrite G.
      * rewrite G in *. pose proof (tv_nth l ps V R _ _ Q) as W. destruct l as [|x l]; [now destruct (k - length (parameters g))|].
        rewrite <- W. now destruct (length (x :: l) <=? k - length (parameters g)).
  - apply Nat.leb_gt in E. split; [apply RecParameter|]. intros H. destruct H as [k p N|k p L' G|k l ps p L' G V N Q]; [exact N|lia|lia].
Qed.

Definition step (s : state) (k : nat) : state := {| consumed := consumed s; index := index s + k |}.
Lemma step_0 : forall s, step s 0 = s.
Proof. intros [c i]. unfold step. cbn [consumed index]. now rewrite Nat.add_0_r. Qed.
Lemma step_skip : forall s k, step (skip s) k = step s (S k).
Proof. intros [c i] k. unfold step, skip. cbn [consumed index]. f_equal. lia. Qed.
Lemma step_step : forall s j k, step (step s j) k = step s (j + k).
Proof. intros [c i] j k. unfold step. cbn [consumed index]. f_equal. lia. Qed.

Lemma tuple_state : forall g i l s, snd (check_tuple g i l s) = step s (length l).
Proof.
  intros g i l. induction l as [|[t e] l IH]; intros s; cbn [UnsafeArgument.check_tuple length].
  - now rewrite step_0.
  - specialize (IH (skip s)). destruct (check_tuple g i l (skip s)) as [rs s']. cbn [snd] in *. rewrite IH. apply step_skip.
Qed.
Lemma tuple_reports : forall g i l s r, In r (fst (check_tuple g i l s)) <->
  exists k t e p, nth_error l k = Some (t, e) /\ next g (step s k) = Some p /\ unsafe false t p = true /\ r = UnsafeTupleSpread i t p.
Proof.
  intros g i l. induction l as [|[t e] l IH]; intros s r; cbn [UnsafeArgument.check_tuple].
  - cbn [fst In]. split; [tauto|]. intros [k [t [e [p [H _]]]]]. now destruct k.
  - specialize (IH (skip s) r). destruct (check_tuple g i l (skip s)) as [rs s']. cbn [fst] in *. rewrite in_app_iff, IH. split.
    + intros [H|[k [t' [e' [p [H1 [H2 H3]]]]]]].
      * destruct (next g s) as [p|] eqn:N; [|contradiction]. destruct (unsafe false t p) eqn:U; [|contradiction]. destruct H as [<-|[]].
        exists 0, t, e, p. rewrite step_0. auto.
      * exists (S k), t', e', p. rewrite <- step_skip. auto.
    + intros [[|k] [t' [e' [p [H1 [H2 [H3 ->]]]]]]].
      * injection H1 as -> ->. rewrite step_0 in H2. left. rewrite H2, H3. now left.
      * right. exists k, t', e', p. rewrite step_skip. auto.
Qed.

Lemma required_values : forall (l : list (T * element)) ts, tuple_values l ts -> (forall u e, In (u, e) l -> e = Required) -> ts = map fst l.
Proof.
  induction 1 as [|t l ts H IH|t l ts H IH|t l H|t l ts H IH|t l ts H IH]; intros R; try (exfalso; specialize (R _ _ (or_introl eq_refl)); discriminate); [reflexivity|].
  cbn [map fst]. f_equal. apply IH. intros u e I'. apply (R u e). now right.
Qed.
Lemma required_combined : forall (l : list (T * element)), (forall u e, In (u, e) l -> e = Required) -> combined l = false.
Proof. intros l R. unfold combined. destruct (existsb _ l) eqn:E; [|reflexivity]. apply existsb_exists in E as [[u e] [I' V]]. rewrite (R u e I') in V. discriminate. Qed.

(** What one argument contributes. *)
Definition kind_of (a : argument T) (i : nat) (t p : T) (r : report T) : Prop :=
  (a = Plain true t /\ unsafe true t p = true /\ r = UnsafeArgument i t p) \/ (exists u, a = Spread u /\ unsafe false t p = true /\ r = UnsafeTupleSpread i t p).

Lemma fixed_reports : forall g args i vs s r, passes i args vs -> Forall fixed args ->
  (In r (check_arguments g i args s) <->
   exists j k a t p, nth_error args j = Some a /\ nth_error vs k = Some (i + j, t) /\ next g (step s k) = Some p /\ kind_of a (i + j) t p r).
Proof.
  intros g args. induction args as [|a args IH]; intros i vs s r P F.
  - inversion P; subst. cbn. split; [tauto|]. intros [j [k [a [t [p [H _]]]]]]. now destruct j.
  - inversion F as [|x y F1 F2]; subst. inversion P as [|i' c t args' vs' P'|i' t l ts args' vs' A1 A2 Tu V P'|i' t u n args' vs' Tu It P']; subst.
    + cbn [UnsafeArgument.check_arguments]. rewrite in_app_iff, (IH (S i) vs' (skip s) r P' F2). split.
      * intros [H|[j [k [a [t' [p [H1 [H2 [H3 H4]]]]]]]]].
        -- destruct c; [|contradiction]. destruct (next g s) as [p|] eqn:N; [|contradiction]. destruct (unsafe true t p) eqn:U; [|contradiction]. destruct H as [<-|[]].
           exists 0, 0, (Plain true t), t, p. rewrite Nat.add_0_r, step_0. repeat split; auto. now left.
        -- exists (S j), (S k), a, t', p. rewrite <- step_skip. replace (i + S j) with (S i + j) by lia. auto.
      * intros [[|j] [[|k] [a [t' [p [H1 [H2 [H3 H4]]]]]]]].
        -- injection H1 as <-. injection H2 as H2 <-. rewrite step_0 in H3. rewrite Nat.add_0_r in H4. left. destruct H4 as [[E [U ->]]|[u [E _]]]; [|discriminate].
           injection E as ->. rewrite H3, U. now left.
        -- exfalso. cbn [nth_error] in H2. rewrite Nat.add_0_r in H2. assert (forall i0 ar v, passes i0 ar v -> forall q, In q v -> i0 <= fst q) as B.
           { clear. induction 1 as [|? ? ? ? ? ? IH|? ? ? ? ? ? ? ? ? ? ? IH|? ? ? ? ? ? ? ? ? IH]; intros q Q.
             - destruct Q.
             - destruct Q as [<-|Q]; [cbn; lia|]. specialize (IH q Q). lia.
             - apply in_app_iff in Q as [Q|Q]; [apply in_map_iff in Q as [z [<- _]]; cbn; lia|]. specialize (IH q Q). lia.
             - apply in_app_iff in Q as [Q|Q]; [apply repeat_spec in Q; subst; cbn; lia|]. specialize (IH q Q). lia. }
           apply nth_error_In in H2. specialize (B _ _ _ P' _ H2). cbn in B. lia.
        -- injection H2 as H2 _. lia.
        -- right. exists j, k, a, t', p. rewrite step_skip. replace (S i + j) with (i + S j) by lia. auto.
    + cbn in F1. destruct F1 as [_ [_ [l' [Tu' R]]]]. rewrite Tu in Tu'. injection Tu' as <-.
      pose proof (required_values l ts V R) as ->. pose proof (required_combined l R) as C.
      cbn [UnsafeArgument.check_arguments]. rewrite A1, A2, Tu, C.
      pose proof (tuple_state g i l s) as S1. pose proof (tuple_reports g i l s r) as S2. destruct (check_tuple g i l s) as [rs s'] eqn:CT. cbn [fst snd] in *. subst s'.
      rewrite in_app_iff, S2, (IH (S i) vs' _ r P' F2). clear CT S2. split.
      * intros [[k [t' [e [p [H1 [H2 [H3 ->]]]]]]]|[j [k [a [t' [p [H1 [H2 [H3 H4]]]]]]]]].
        -- exists 0, k, (Spread t), t', p. rewrite Nat.add_0_r. repeat split; auto.
           ++ rewrite nth_error_app1 by (rewrite !map_length; apply nth_error_Some; congruence). rewrite map_map. now rewrite nth_error_map, H1.
           ++ right. exists t. auto.
        -- exists (S j), (length l + k), a, t', p. replace (i + S j) with (S i + j) by lia. rewrite <- step_step. repeat split; auto.
           rewrite nth_error_app2 by (rewrite !map_length; lia). rewrite !map_length. now replace (length l + k - length l) with k by lia.
      * intros [j [k [a [t' [p [H1 [H2 [H3 H4]]]]]]]]. destruct (Nat.lt_ge_cases k (length l)) as [L|L].
        -- left. rewrite nth_error_app1 in H2 by (rewrite !map_length; lia). rewrite map_map, nth_error_map in H2.
           destruct (nth_error l k) as [[u e]|] eqn:N; [|discriminate]. injection H2 as H2 <-. assert (j = 0) as -> by lia. injection H1 as <-.
           exists k, u, e, p. rewrite Nat.add_0_r in H4. destruct H4 as [[E _]|[w [_ [U ->]]]]; [discriminate|]. auto.
        -- rewrite nth_error_app2 in H2 by (rewrite !map_length; lia). rewrite !map_length in H2. destruct j as [|j].
           ++ exfalso. rewrite Nat.add_0_r in H2. assert (forall i0 ar v, passes i0 ar v -> forall q, In q v -> i0 <= fst q) as B.
              { clear. induction 1 as [|? ? ? ? ? ? IH|? ? ? ? ? ? ? ? ? ? ? IH|? ? ? ? ? ? ? ? ? IH]; intros q Q.
                - destruct Q.
                - destruct Q as [<-|Q]; [cbn; lia|]. specialize (IH q Q). lia.
                - apply in_app_iff in Q as [Q|Q]; [apply in_map_iff in Q as [z [<- _]]; cbn; lia|]. specialize (IH q Q). lia.
                - apply in_app_iff in Q as [Q|Q]; [apply repeat_spec in Q; subst; cbn; lia|]. specialize (IH q Q). lia. }
              apply nth_error_In in H2. specialize (B _ _ _ P' _ H2). cbn in B. lia.
           ++ right. exists j, (k - length l), a, t', p. rewrite step_step. replace (S i + j) with (i + S j) by lia. replace (length l + (k - length l)) with k by lia. auto.
    + cbn in F1. destruct F1 as [_ [_ [l' [Tu' _]]]]. congruence.
Qed.

(** The state after arguments. *)
Fixpoint after (args : list (argument T)) (s : state) : state :=
  match args with
  | [] => s
  | Plain _ _ :: args => after args (skip s)
  | Spread t :: args =>
      if is_any t || any_array t then after args s
      else match tuple t with Some l => after args (if combined l then consume (step s (length l)) else step s (length l)) | None => after args s end
  end.
Lemma arguments_app : forall g pre post i s, check_arguments g i (pre ++ post) s = check_arguments g i pre s ++ check_arguments g (i + length pre) post (after pre s).
Proof.
  intros g pre post. induction pre as [|a pre IH]; intros i s.
  - cbn. now rewrite Nat.add_0_r.
  - destruct a as [c t|t]; cbn [app UnsafeArgument.check_arguments after length]; rewrite <- Nat.add_succ_comm.
    + rewrite IH. now rewrite app_assoc.
    + destruct (is_any t); cbn [orb]; [cbn [app]; now rewrite IH|]. destruct (any_array t); [cbn [app]; now rewrite IH|].
      destruct (tuple t) as [l|]; [|apply IH]. pose proof (tuple_state g i l s) as S1. destruct (check_tuple g i l s) as [rs s']. cbn [snd] in S1. subst s'. rewrite IH. now rewrite app_assoc.
Qed.
Lemma arguments_index : forall g args i s r, In r (check_arguments g i args s) ->
  match r with UnsafeArgument j _ _ | UnsafeSpread j _ | UnsafeArraySpread j _ | UnsafeTupleSpread j _ _ => i <= j < i + length args end.
Proof.
  intros g args. induction args as [|a args IH]; intros i s r H; [destruct H|]. destruct a as [c t|t]; cbn [UnsafeArgument.check_arguments length] in *.
  - apply in_app_iff in H as [H|H]; [|specialize (IH _ _ _ H); destruct r; lia]. destruct c; [|contradiction]. destruct (next g s); [|contradiction]. destruct (unsafe true t t0); [|contradiction]. destruct H as [<-|[]]. lia.
  - destruct (is_any t); [destruct H as [<-|H]; [lia|specialize (IH _ _ _ H); destruct r; lia]|].
    destruct (any_array t); [destruct H as [<-|H]; [lia|specialize (IH _ _ _ H); destruct r; lia]|].
    destruct (tuple t) as [l|]; [|specialize (IH _ _ _ H); destruct r; lia]. pose proof (tuple_reports g i l s r) as S2. destruct (check_tuple g i l s) as [rs s'].
    apply in_app_iff in H as [H|H]; [|specialize (IH _ _ _ H); destruct r; lia]. apply S2 in H as [k [t' [e [p [_ [_ [_ ->]]]]]]]. lia.
Qed.
Lemma spread_reports : forall g args i s j t,
  (In (UnsafeSpread j t) (check_arguments g i args s) <-> i <= j /\ nth_error args (j - i) = Some (Spread t) /\ is_any t = true) /\
  (In (UnsafeArraySpread j t) (check_arguments g i args s) <-> i <= j /\ nth_error args (j - i) = Some (Spread t) /\ is_any t = false /\ any_array t = true).
Proof.
  clear iterates. intros g args. induction args as [|a args IH]; intros i s j t.
  - cbn. split; (split; [tauto|]); intros [_ [H _]]; destruct (j - i); discriminate.
  - assert (forall s, (In (UnsafeSpread j t) (check_arguments g (S i) args s) <-> i < j /\ nth_error (a :: args) (j - i) = Some (Spread t) /\ is_any t = true) /\
      (In (UnsafeArraySpread j t) (check_arguments g (S i) args s) <-> i < j /\ nth_error (a :: args) (j - i) = Some (Spread t) /\ is_any t = false /\ any_array t = true)) as IH'.
    { intros s'. destruct (IH (S i) s' j t) as [I1 I2]. rewrite I1, I2. clear. destruct (Nat.lt_ge_cases i j) as [L|L]; [|split; split; intros [H _]; lia].
      replace (j - i) with (S (j - S i)) by lia. cbn [nth_error]. split; split; intros [_ H]; (split; [lia|exact H]). }
    assert (forall P : Prop, (i <= j /\ nth_error (a :: args) (j - i) = Some (Spread t) /\ P) <-> ((i = j /\ a = Spread t /\ P) \/ (i < j /\ nth_error (a :: args) (j - i) = Some (Spread t) /\ P))) as Sp.
    { intros P. split.
      - intros [L H]. destruct (Nat.eq_dec i j) as [->|N]; [left; rewrite Nat.sub_diag in H; cbn in H; destruct H as [H HP]; injection H as ->; auto|right; split; [lia|exact H]].
      - intros [[-> [-> H]]|[L H]]; [rewrite Nat.sub_diag; cbn; auto|split; [lia|exact H]]. }
    rewrite !Sp. clear IH Sp. destruct a as [c u|u]; cbn [UnsafeArgument.check_arguments].
    + destruct (IH' (skip s)) as [I1 I2]. rewrite !in_app_iff, I1, I2.
      assert (forall r, In r (if c then match next g s with Some p => if unsafe true u p then [UnsafeArgument i u p] else [] | None => [] end else []) -> exists p, r = UnsafeArgument i u p) as B.
      { intros r H. destruct c; [|contradiction]. destruct (next g s) as [p|]; [|contradiction]. destruct (unsafe true u p); [|contradiction]. destruct H as [<-|[]]. eauto. }
      split; (split; [intros [H|H]; [apply B in H as [p H]; discriminate|now right]|intros [[_ [H _]]|H]; [discriminate|now right]]).
    + destruct (is_any u) eqn:A1.
      { destruct (IH' s) as [I1 I2]. cbn [In]. rewrite I1, I2. split; split.
        - intros [H|H]; [injection H as -> ->; left; auto|now right].
        - intros [[-> [H _]]|H]; [injection H as ->; now left|now right].
        - intros [H|H]; [discriminate|now right].
        - intros [[-> [H [H' _]]]|H]; [injection H as ->; congruence|now right]. }
      destruct (any_array u) eqn:A2.
      { destruct (IH' s) as [I1 I2]. cbn [In]. rewrite I1, I2. split; split.
        - intros [H|H]; [discriminate|now right].
        - intros [[-> [H H']]|H]; [injection H as ->; congruence|now right].
        - intros [H|H]; [injection H as -> ->; left; auto|now right].
        - intros [[-> [H _]]|H]; [injection H as ->; now left|now right]. }
      assert (forall b, (i = j /\ Spread u = Spread t /\ is_any t = true) \/ b <-> b) as D1 by (intros b'; split; [intros [[_ [H H']]|H]; [injection H as ->; congruence|exact H]|now right]).
      assert (forall b, (i = j /\ Spread u = Spread t /\ is_any t = false /\ any_array t = true) \/ b <-> b) as D2 by (intros b'; split; [intros [[_ [H [_ H']]]|H]; [injection H as ->; congruence|exact H]|now right]).
      rewrite D1, D2. destruct (tuple u) as [l|]; [|apply IH']. pose proof (tuple_reports g i l s) as S2. destruct (check_tuple g i l s) as [rs s']. cbn [fst] in S2.
      destruct (IH' (if combined l then consume s' else s')) as [I1 I2]. rewrite !in_app_iff, I1, I2.
      split; (split; [intros [H|H]; [apply S2 in H as [k [t' [e [p [_ [_ [_ H]]]]]]]; discriminate|exact H]|now right]).
Qed.

Lemma after_app : forall pre post s, after (pre ++ post) s = after post (after pre s).
Proof.
  induction pre as [|[c t|t] pre IH]; intros post s; cbn [app after]; [reflexivity|apply IH|]. destruct (is_any t || any_array t); [apply IH|]. destruct (tuple t); apply IH.
Qed.
Lemma after_mono : forall args s, index s <= index (after args s) /\ (consumed s = true -> consumed (after args s) = true).
Proof.
  induction args as [|[c t|t] args IH]; intros s; cbn [after].
  - auto.
  - destruct (IH (skip s)) as [H1 H2]. cbn [skip index consumed] in *. split; [lia|exact H2].
  - destruct (is_any t || any_array t); [apply IH|]. destruct (tuple t) as [l|]; [|apply IH].
    destruct (combined l).
    + destruct (IH (consume (step s (length l)))) as [H1 H2]. cbn [consume step index consumed] in *. split; [lia|auto].
    + destruct (IH (step s (length l))) as [H1 H2]. cbn [step index consumed] in *. split; [lia|auto].
Qed.
Lemma after_fixed : forall args i vs s, passes i args vs -> Forall fixed args -> after args s = step s (length vs).
Proof.
  induction args as [|a args IH]; intros i vs s P F; inversion P as [|i' c t args' vs' P'|i' t l ts args' vs' A1 A2 Tu V P'|i' t u n args' vs' Tu It P']; subst; cbn [after length].
  - now rewrite step_0.
  - rewrite (IH _ _ _ P'); [|now inversion F]. apply step_skip.
  - inversion F as [|x y F1 F2]; subst. destruct F1 as [_ [_ [l' [Tu' R]]]]. rewrite Tu in Tu'. injection Tu' as <-. rewrite A1, A2, Tu. cbn [orb]. rewrite (required_combined l R).
    rewrite (IH _ _ _ P' F2), step_step, app_length, map_length. now rewrite (required_values l ts V R), map_length.
  - inversion F as [|x y F1 F2]; subst. destruct F1 as [_ [_ [l' [Tu' R]]]]. congruence.
Qed.

(** An argument after others. *)
Lemma plain_after : forall g pre t post s p, In (UnsafeArgument (length pre) t p) (check_arguments g 0 (pre ++ Plain true t :: post) s) <->
  next g (after pre s) = Some p /\ unsafe true t p = true.
Proof.
  intros g pre t post s p. rewrite arguments_app, in_app_iff. cbn [UnsafeArgument.check_arguments Nat.add]. rewrite in_app_iff. split.
  - intros [H|[H|H]].
    + apply arguments_index in H. lia.
    + destruct (next g (after pre s)) as [q|]; [|contradiction]. destruct (unsafe true t q) eqn:U; [|contradiction]. destruct H as [H|[]]. injection H as ->. auto.
    + apply arguments_index in H. lia.
  - intros [-> ->]. right. left. now left.
Qed.
End Types.
