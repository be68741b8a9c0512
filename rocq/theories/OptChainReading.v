(** A text is read as one expression only. *)
From Coq Require Import String Ascii Bool List ZArith Lia.
From Verif Require Import Base EngineProofs OptChain OptChainSpec OptChainProofs.
Import ListNotations.
Open Scope nat_scope.

(** How close what starts with [t] binds to what stands before it. *)
Definition tok_level (t : tok) : nat :=
  match t with TDot _ _ _ | TIdx _ _ | TArgs _ _ _ | TBang => 17 | TPost _ => 15 | TAs _ => 9 | TOp o => op_level o | _ => 0 end.
Definition assigns (o : op) : bool := match o with Assign _ | AssignX _ => true | _ => false end.
(** [l] goes on with [t] where [n] is the least level. *)
Definition goes (n : nat) (l : expr) (ts : list tok) : bool :=
  match ts with
  | (TDot _ _ _ | TIdx _ _ | TArgs _ _ _ | TBang) :: _ => Nat.leb 17 (level l)
  | TPost _ :: _ => Nat.leb 17 (level l) && Nat.leb n 15
  | TAs _ :: _ => Nat.leb 9 (level l) && Nat.leb n 9
  | TOp o :: _ => Nat.leb n (op_level o) && (if assigns o then Nat.leb 17 (level l) else Nat.leb (op_level o) (level l))
  | _ => false
  end.
Definition under (o : op) : nat := if assigns o then 1 else S (op_level o).
Inductive P : nat -> list tok -> expr -> list tok -> Prop :=
| P_leaf n e ts x r : L n e ts x r -> P n (TLeaf e :: ts) x r
| P_paren n ts e r x r' : P 0 ts e (TClose :: r) -> L n (Paren e) r x r' -> P n (TOpen :: ts) x r'
| P_cast n t ts e r x r' : P 14 ts e r -> L n (Cast t e) r x r' -> P n (TCast t :: ts) x r'
| P_pre n p ts e r x r' : P 14 ts e r -> L n (Pre p e) r x r' -> P n (TPre p :: ts) x r'
| P_typeof n ts e r x r' : P 14 ts e r -> L n (Typeof e) r x r' -> P n (TTypeof :: ts) x r'
| P_void n ts e r x r' : P 14 ts e r -> L n (Void e) r x r' -> P n (TVoid :: ts) x r'
| P_await n ts e r x r' : P 14 ts e r -> L n (Await e) r x r' -> P n (TAwait :: ts) x r'
| P_yield n ts e r x r' : P 1 ts e r -> L n (Yield e) r x r' -> P n (TYield :: ts) x r'
with L : nat -> expr -> list tok -> expr -> list tok -> Prop :=
| L_stop n l ts : goes n l ts = false -> L n l ts l ts
| L_dot n l p m q ts x r : goes n l (TDot p m q :: ts) = true -> L n (Dot l p m q) ts x r -> L n l (TDot p m q :: ts) x r
| L_elem n l i q ts x r : goes n l (TIdx i q :: ts) = true -> L n (Elem l i q) ts x r -> L n l (TIdx i q :: ts) x r
| L_call n l t a q ts x r : goes n l (TArgs t a q :: ts) = true -> L n (Call l t a q) ts x r -> L n l (TArgs t a q :: ts) x r
| L_bang n l ts x r : goes n l (TBang :: ts) = true -> L n (NonNull l) ts x r -> L n l (TBang :: ts) x r
| L_post n l k ts x r : goes n l (TPost k :: ts) = true -> L n (Post k l) ts x r -> L n l (TPost k :: ts) x r
| L_as n l t ts x r : goes n l (TAs t :: ts) = true -> L n (As l t) ts x r -> L n l (TAs t :: ts) x r
| L_bin n l o ts e r x r' : goes n l (TOp o :: ts) = true -> P (under o) ts e r -> L n (Bin o l e) r x r' -> L n l (TOp o :: ts) x r'.
Scheme P_mut := Induction for P Sort Prop with L_mut := Induction for L Sort Prop.
Combined Scheme PL_mut from P_mut, L_mut.
Lemma one_parse : (forall n ts x r, P n ts x r -> forall y r', P n ts y r' -> x = y /\ r = r') /\ (forall n l ts x r, L n l ts x r -> forall y r', L n l ts y r' -> x = y /\ r = r').
Proof.
  apply PL_mut; intros;
  match goal with
  | H : P _ _ ?y ?r' |- _ = ?y /\ _ = ?r' => inversion H; subst
  | H : L _ _ _ ?y ?r' |- _ = ?y /\ _ = ?r' => inversion H; subst; try congruence
  end; try (split; reflexivity);
  repeat match goal with
  | IH : forall y r', P ?n ?ts y r' -> ?e = y /\ _, H : P ?n ?ts ?e' _ |- _ => let E := fresh in let E' := fresh in destruct (IH _ _ H) as [E E']; clear IH; subst; try (injection E' as E'; subst)
  end; match goal with IH : forall y r', L ?n ?l ?ts y r' -> _ , H : L ?n ?l ?ts _ _ |- _ => exact (IH _ _ H) end.
Qed.
(** What comes after [e] does not belong to its end. *)
Definition ends (e : expr) (ts : list tok) : Prop := match ts with [] => True | t :: _ => tok_level t < (if Nat.eqb (level e) 1 then 1 else S (level e)) end.
Lemma ends_lt e ts : match ts with [] => True | t :: _ => tok_level t < level e end -> ends e ts.
Proof. unfold ends. destruct ts; [easy|]. destruct (Nat.eqb (level e) 1) eqn:E; [apply Nat.eqb_eq in E|]; lia. Qed.
Lemma stops n e ts : match ts with [] => True | t :: _ => tok_level t < n end -> n <= 17 -> goes n e ts = false.
Proof.
  destruct ts as [|t ts]; [easy|]. unfold goes. destruct t; try easy; cbn [tok_level]; intros H N; try lia; apply andb_false_iff; (right; apply Nat.leb_gt; lia) || (left; apply Nat.leb_gt; lia).
Qed.
Lemma ends_under e ts : ends e ts -> match ts with [] => True | t :: _ => tok_level t <= level e end.
Proof. unfold ends. destruct ts; [easy|]. destruct (Nat.eqb (level e) 1) eqn:E; [apply Nat.eqb_eq in E|]; lia. Qed.
Lemma op_under o : op_level o <= 13 /\ (assigns o = true -> op_level o = 1).
Proof. split; [|now destruct o]. destruct o; cbn [op_level]; lia. Qed.
Lemma tok_odd t : tok_level t <> 14.
Proof. destruct t; cbn; try lia. pose proof (proj1 (op_under o)). lia. Qed.
Lemma read_back : forall e n ts x r, fits e -> n <= level e -> ends e ts -> L n e ts x r -> P n (text e ++ ts) x r.
Proof.
  assert (PRE : forall ts, (match ts with [] => True | t :: _ => tok_level t <= 14 end) -> match ts with [] => True | t :: _ => tok_level t < 14 end).
  { intros [|t ts]; [easy|]. pose proof (tok_odd t). lia. }
  induction e; intros m ts y r F N E HL; cbn [text]; try (cbn; apply P_leaf; exact HL).
  - cbn [fits level] in *. destruct F as [F1 F2]. rewrite <- app_assoc. apply IHe; [easy|lia|unfold ends; cbn [app tok_level]; destruct (Nat.eqb (level e) 1) eqn:Q; [apply Nat.eqb_eq in Q|]; lia|].
    apply L_dot; [cbn [app goes]; apply Nat.leb_le; lia|exact HL].
  - cbn [fits level] in *. destruct F as [F1 F2]. rewrite <- app_assoc. apply IHe1; [easy|lia|unfold ends; cbn [app tok_level]; destruct (Nat.eqb (level e1) 1) eqn:Q; [apply Nat.eqb_eq in Q|]; lia|].
    apply L_elem; [cbn [app goes]; apply Nat.leb_le; lia|exact HL].
  - cbn [fits level] in *. destruct F as [F1 F2]. rewrite <- app_assoc. apply IHe; [easy|lia|unfold ends; cbn [app tok_level]; destruct (Nat.eqb (level e) 1) eqn:Q; [apply Nat.eqb_eq in Q|]; lia|].
    apply L_call; [cbn [app goes]; apply Nat.leb_le; lia|exact HL].
  - cbn [fits level] in *. destruct F as [F1 F2]. rewrite <- app_assoc. apply IHe; [easy|lia|unfold ends; cbn [app tok_level]; destruct (Nat.eqb (level e) 1) eqn:Q; [apply Nat.eqb_eq in Q|]; lia|].
    apply L_bang; [cbn [app goes]; apply Nat.leb_le; lia|exact HL].
  - cbn [fits level] in *. cbn [app]. rewrite <- app_assoc. eapply P_paren; [|exact HL]. apply IHe; [easy|lia|unfold ends; cbn [app tok_level]; destruct (Nat.eqb (level e) 1); lia|]. now apply L_stop.
  - cbn [fits level] in *. destruct F as [F1 F2]. rewrite <- app_assoc. apply IHe; [easy|lia|unfold ends; cbn [app tok_level]; destruct (Nat.eqb (level e) 1) eqn:Q; [apply Nat.eqb_eq in Q|]; lia|].
    apply L_as; [cbn [app goes]; apply andb_true_iff; split; apply Nat.leb_le; lia|exact HL].
  - cbn [fits level] in *. destruct F as [F1 F2]. cbn [app]. apply ends_under in E. cbn [level] in E. eapply P_cast; [|exact HL]. apply IHe; [easy|lia|apply ends_lt; specialize (PRE ts E); destruct ts; [easy|lia]|]. apply L_stop, stops; [now apply PRE|lia].
  - cbn [fits level] in *. destruct F as (F1 & F2 & _ & _ & F3). pose proof (op_under o) as [O1 O2]. rewrite <- app_assoc. cbn [app].
    assert (Ro : op_level o <= level e1 /\ under o <= level e2 /\ (assigns o = true -> 17 <= level e1)).
    { unfold under. destruct o; cbn [op_level assigns] in *; (split; [|split]); try easy; lia. }
    destruct Ro as (R1 & R2 & R3).
    apply IHe1; [easy|lia| |].
    { unfold ends. cbn [tok_level]. destruct (Nat.eqb (level e1) 1) eqn:Q; [apply Nat.eqb_eq in Q|lia]. destruct (assigns o) eqn:A; [specialize (R3 eq_refl); lia|]. destruct o; cbn [op_level assigns] in *; try lia; easy. }
    eapply L_bin; [cbn [app goes]; apply andb_true_iff; split; [apply Nat.leb_le; lia|]; destruct (assigns o); apply Nat.leb_le; [now apply R3|lia]| |exact HL].
    assert (ET : match ts with [] => True | t :: _ => tok_level t < under o end).
    { unfold ends in E. cbn [level] in E. destruct ts as [|t ts]; [easy|]. unfold under. destruct (Nat.eqb (op_level o) 1) eqn:Q.
      - destruct (assigns o); [exact E|lia].
      - destruct (assigns o); [rewrite O2 in Q by easy; easy|lia]. }
    apply IHe2; [easy|lia|apply ends_lt; destruct ts; [easy|lia]|]. apply L_stop, stops; [exact ET|]. unfold under. destruct (assigns o); lia.
  - cbn [fits level] in *. destruct F as [F1 F2]. cbn [app]. apply ends_under in E. cbn [level] in E. eapply P_pre; [|exact HL]. apply IHe; [easy|lia|apply ends_lt; specialize (PRE ts E); destruct ts; [easy|lia]|]. apply L_stop, stops; [now apply PRE|lia].
  - cbn [fits level] in *. destruct F as [F1 F2]. rewrite <- app_assoc. apply IHe; [easy|lia|unfold ends; cbn [app tok_level]; destruct (Nat.eqb (level e) 1) eqn:Q; [apply Nat.eqb_eq in Q|]; lia|].
    apply L_post; [cbn [app goes]; apply andb_true_iff; split; apply Nat.leb_le; lia|exact HL].
  - cbn [fits level] in *. destruct F as [F1 F2]. cbn [app]. apply ends_under in E. cbn [level] in E. eapply P_typeof; [|exact HL]. apply IHe; [easy|lia|apply ends_lt; specialize (PRE ts E); destruct ts; [easy|lia]|]. apply L_stop, stops; [now apply PRE|lia].
  - cbn [fits level] in *. destruct F as [F1 F2]. cbn [app]. apply ends_under in E. cbn [level] in E. eapply P_void; [|exact HL]. apply IHe; [easy|lia|apply ends_lt; specialize (PRE ts E); destruct ts; [easy|lia]|]. apply L_stop, stops; [now apply PRE|lia].
  - cbn [fits level] in *. destruct F as [F1 F2]. cbn [app]. apply ends_under in E. cbn [level] in E. eapply P_await; [|exact HL]. apply IHe; [easy|lia|apply ends_lt; specialize (PRE ts E); destruct ts; [easy|lia]|]. apply L_stop, stops; [now apply PRE|lia].
  - cbn [fits level] in *. destruct F as [F1 F2]. cbn [app]. unfold ends in E. cbn [level Nat.eqb] in E. eapply P_yield; [|exact HL]. apply IHe; [easy|lia|apply ends_lt; destruct ts; [easy|lia]|]. apply L_stop, stops; [easy|lia].
Qed.
Theorem one_reading e e' : fits e -> fits e' -> text e = text e' -> e = e'.
Proof.
  intros F F' T. assert (R : forall e, fits e -> P 0 (text e) e []).
  { intros x Fx. rewrite <- (app_nil_r (text x)). apply read_back; [easy|lia|easy|]. now apply L_stop. }
  apply R in F, F'. rewrite T in F. exact (proj1 (proj1 one_parse _ _ _ _ F _ _ F')).
Qed.
(** Parentheses come in pairs. *)
Fixpoint count (p : tok -> bool) (ts : list tok) : nat := match ts with [] => 0 | t :: ts => (if p t then 1 else 0) + count p ts end.
Definition opening (t : tok) : bool := match t with TOpen => true | _ => false end.
Definition closing (t : tok) : bool := match t with TClose => true | _ => false end.
Lemma count_app p a c : count p (a ++ c) = count p a + count p c.
Proof. induction a; cbn; lia. Qed.
Lemma balanced e : count opening (text e) = count closing (text e).
Proof. induction e; cbn [text]; rewrite ?count_app; cbn [count opening closing]; rewrite ?count_app; cbn [count opening closing]; lia. Qed.
