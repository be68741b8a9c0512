From Coq Require Import Bool Arith ZArith Ascii String List Lia.
From Verif Require Import Base EngineProofs Fixer.
From Verif Require Import UseUnknown UseUnknownSpec.
Import ListNotations.
Open Scope Z_scope.

Definition bad (s : list sparam) : Prop := odd_rest s \/ exists t, first_type s t /\ t <> Unknown.
Lemma bad_nil : ~ bad [].
Proof. intros [(p & l & E & _)|(t & F & _)]; [discriminate|inversion F]. Qed.
Lemma bad_plain p l : dots p = false -> (bad (p :: l) <-> stype p <> Unknown).
Proof.
  intros D. split.
  - intros [(p' & l' & E & D' & _)|(t & F & N)]; [congruence|]. inversion F; subst; congruence.
  - intros N. right. exists (stype p). split; auto. constructor. auto.
Qed.
Lemma bad_array p l e : dots p = true -> stype p = Arr e -> (bad (p :: l) <-> e <> Unknown).
Proof.
  intros D T. split.
  - intros [(p' & l' & E & D' & X)|(t & F & N)]; [injection E as <- <-; destruct X; congruence|]. inversion F; subst; congruence.
  - intros N. right. exists e. split; auto. constructor; auto.
Qed.
Lemma bad_tuple p l e t : dots p = true -> stype p = Tuple (e :: t) -> (bad (p :: l) <-> e <> Unknown).
Proof.
  intros D T. split.
  - intros [(p' & l' & E & D' & X)|(t' & F & N)]; [injection E as <- <-; destruct X; congruence|]. inversion F; subst; congruence.
  - intros N. right. exists e. split; auto. eapply f_tuple; eauto.
Qed.
Lemma bad_odd p l : dots p = true -> stype p = Unknown \/ stype p = OtherT -> bad (p :: l).
Proof. intros D T. left. exists p, l. auto. Qed.

Definition step_bad (s : list sparam) : option bool :=
  match s with
  | [] => Some false
  | p :: _ => if dots p then match stype p with Arr Unknown => Some false | Arr _ => Some true | Tuple [] => None | Tuple (Unknown :: _) => Some false | Tuple _ => Some true | _ => Some true end
              else match stype p with Unknown => Some false | _ => Some true end
  end.
Lemma flaggable_cons s l : flaggable (s :: l) = match step_bad s with None => None | Some true => Some true | Some false => flaggable l end.
Proof.
  destruct s as [|p s]; [reflexivity|]. cbn. destruct (dots p); destruct (stype p) as [|e|[|e t]|]; try reflexivity; destruct e; reflexivity.
Qed.
Lemma step_some s x : step_bad s = Some x -> (x = true <-> bad s).
Proof.
  destruct s as [|p s]; cbn.
  - intros E. injection E as <-. split; [discriminate|intros H; destruct (bad_nil H)].
  - destruct (dots p) eqn:D.
    + destruct (stype p) as [|e|[|e t]|] eqn:T; try discriminate; intros E.
      * injection E as <-. split; auto. intros _. apply bad_odd; auto.
      * rewrite (bad_array p s e D T). destruct e; injection E as <-; split; congruence || discriminate.
      * rewrite (bad_tuple p s e t D T). destruct e; injection E as <-; split; congruence || discriminate.
      * injection E as <-. split; auto. intros _. apply bad_odd; auto.
    + rewrite (bad_plain p s D). destruct (stype p); intros E; injection E as <-; split; congruence || discriminate.
Qed.
Lemma step_none s : step_bad s = None <-> empty_rest s.
Proof.
  split.
  - destruct s as [|p s]; cbn; [discriminate|]. destruct (dots p) eqn:D; destruct (stype p) as [|[]|[|[] t]|] eqn:T; try discriminate. intros _. exists p, s. auto.
  - intros (p & l & -> & D & T). cbn. rewrite D, T. reflexivity.
Qed.
Lemma flaggable_some l x : flaggable l = Some x -> (x = true <-> exists s, In s l /\ bad s).
Proof.
  revert x. induction l as [|s l IH]; intros x.
  - intros E. injection E as <-. split; [discriminate|intros (s & [] & _)].
  - rewrite flaggable_cons. destruct (step_bad s) as [[]|] eqn:T; [| |discriminate]; intros E.
    + injection E as <-. split; auto. intros _. exists s. split; [left; auto|]. apply (step_some _ _ T). auto.
    + rewrite (IH x E). split; intros (s' & H & B); exists s'; split; auto; [right; auto|].
      destruct H as [<-|H]; auto. apply (step_some _ _ T) in B. discriminate.
Qed.
Lemma flaggable_none l : flaggable l = None <-> exists l1 s l2, l = l1 ++ s :: l2 /\ empty_rest s /\ forall s', In s' l1 -> ~ bad s'.
Proof.
  induction l as [|s l IH].
  - split; [discriminate|]. intros (l1 & s & l2 & E & _). destruct l1; discriminate.
  - rewrite flaggable_cons. destruct (step_bad s) as [[]|] eqn:T.
    + split; [discriminate|]. intros (l1 & s' & l2 & E & ER & N). destruct l1 as [|s1 l1]; cbn in E; injection E as E1 E2.
      * subst s'. apply step_none in ER. congruence.
      * subst s1. destruct (N s (or_introl eq_refl)). apply (step_some _ _ T). auto.
    + rewrite IH. split.
      * intros (l1 & s' & l2 & -> & ER & N). exists (s :: l1), s', l2. split; auto. split; auto. intros s'' [<-|H]; auto. intros B. apply (step_some _ _ T) in B. discriminate.
      * intros (l1 & s' & l2 & E & ER & N). destruct l1 as [|s1 l1]; cbn in E; injection E as E1 E2.
        -- subst s'. apply step_none in ER. congruence.
        -- exists l1, s', l2. split; auto. split; auto. intros s'' H. apply N. right. auto.
    + split; auto. intros _. exists [], s, l. split; auto. split; [apply step_none; auto|intros ? []].
Qed.

Lemma collect_some e : forall l, collect e = Some l -> forall f, In f l <-> may_be e f /\ careless f.
Proof.
  induction e as [g|x IHx y IHy|x _ y IHy|c _ t IHt e IHe|e IHe|k]; intros l E f; cbn in E.
  - destruct (flaggable (signatures g)) as [[]|] eqn:F; try discriminate; injection E as <-; apply flaggable_some in F.
    + split; [intros [<-|[]]; split; [constructor|]; apply F; auto|]. intros [M _]. inversion M. left. auto.
    + split; [intros []|]. intros [M C]. inversion M; subst. apply F in C. discriminate.
  - destruct (collect x) as [lx|]; [|discriminate]. destruct (collect y) as [ly|]; [|discriminate]. injection E as <-.
    rewrite in_app_iff, (IHx _ eq_refl), (IHy _ eq_refl). split.
    + intros [[M C]|[M C]]; split; auto; [apply m_left|apply m_right]; auto.
    + intros [M C]. inversion M; subst; auto.
  - rewrite (IHy _ E). split; intros [M C]; split; auto; [constructor; auto|inversion M; auto].
  - destruct (collect t) as [lx|]; [|discriminate]. destruct (collect e) as [ly|]; [|discriminate]. injection E as <-.
    rewrite in_app_iff, (IHt _ eq_refl), (IHe _ eq_refl). split.
    + intros [[M C]|[M C]]; split; auto; [apply m_true|apply m_false]; auto.
    + intros [M C]. inversion M; subst; auto.
  - rewrite (IHe _ E). split; intros [M C]; split; auto; [constructor; auto|inversion M; auto].
  - injection E as <-. split; [intros []|intros [M _]; inversion M].
Qed.
Lemma collect_none e : collect e = None <-> exists f, may_be e f /\ flaggable (signatures f) = None.
Proof.
  induction e as [g|x IHx y IHy|x _ y IHy|c _ t IHt e IHe|e IHe|k]; cbn.
  - destruct (flaggable (signatures g)) as [[]|] eqn:F.
    1,2: split; [discriminate|intros (f & M & N); inversion M; subst; congruence].
    split; auto. intros _. exists g. split; auto. constructor.
  - destruct (collect x) as [lx|].
    + destruct (collect y) as [ly|].
      * split; [discriminate|]. intros (f & M & N). inversion M; subst; [assert (Some lx = None) by (apply IHx; eauto)|assert (Some ly = None) by (apply IHy; eauto)]; discriminate.
      * split; auto. intros _. destruct (proj1 IHy eq_refl) as (f & M & N). exists f. split; auto. apply m_right. auto.
    + split; auto. intros _. destruct (proj1 IHx eq_refl) as (f & M & N). exists f. split; auto. apply m_left. auto.
  - rewrite IHy. split; intros (f & M & N); exists f; split; auto; [constructor; auto|inversion M; auto].
  - destruct (collect t) as [lx|].
    + destruct (collect e) as [ly|].
      * split; [discriminate|]. intros (f & M & N). inversion M; subst; [assert (Some lx = None) by (apply IHt; eauto)|assert (Some ly = None) by (apply IHe; eauto)]; discriminate.
      * split; auto. intros _. destruct (proj1 IHe eq_refl) as (f & M & N). exists f. split; auto. apply m_false. auto.
    + split; auto. intros _. destruct (proj1 IHt eq_refl) as (f & M & N). exists f. split; auto. apply m_true. auto.
  - rewrite IHe. split; intros (f & M & N); exists f; split; auto; [constructor; auto|inversion M; auto].
  - split; [discriminate|]. intros (f & M & _). inversion M.
Qed.

Lemma handler_none c : (forall e, ~ handler c e) -> flagged c = Some [].
Proof.
  intros H. unfold flagged. destruct (access c) eqn:A; cbn [negb]; auto. destruct (property c) as [n|] eqn:P; auto.
  unfold handler_index. destruct (beqb n (b "catch")) eqn:E1.
  - apply beqb_eq in E1. subst n. destruct (arguments c) as [|a l] eqn:G; [reflexivity|].
    cbn [List.length Nat.ltb Nat.leb plus]. destruct a as [e|e]; [reflexivity|]. cbn [spread_up_to].
    destruct (thenable c) eqn:T; cbn [negb]; auto. destruct (H e). eapply h_catch; eauto.
  - destruct (beqb n (b "then")) eqn:E2; auto. apply beqb_eq in E2. subst n.
    destruct (arguments c) as [|a [|a2 l]] eqn:G; [reflexivity|reflexivity|].
    cbn [List.length Nat.ltb Nat.leb plus]. destruct a as [e0|e0]; [reflexivity|]. destruct a2 as [e|e]; [reflexivity|]. cbn [spread_up_to].
    destruct (thenable c) eqn:T; cbn [negb]; auto. destruct (H e). eapply h_then; eauto.
Qed.
Lemma handler_some c e : handler c e -> flagged c = collect e.
Proof.
  intros [c' e' l A P T G|c' e0 e' l A P T G]; unfold flagged; rewrite A, P, T, G; reflexivity.
Qed.
Lemma handler_dec c : (exists e, handler c e) \/ forall e, ~ handler c e.
Proof.
  destruct (access c) eqn:A; [|right; intros e H; inversion H; congruence].
  destruct (thenable c) eqn:T; [|right; intros e H; inversion H; congruence].
  destruct (property c) as [n|] eqn:P; [|right; intros e H; inversion H; congruence].
  destruct (beqb n (b "catch")) eqn:E1.
  - apply beqb_eq in E1. subst n. destruct (arguments c) as [|[e|e] l] eqn:G; [right| right|left; eexists; eapply h_catch; eauto]; intros x H; inversion H; try congruence;
      match goal with E : property c = Some (b "then") |- _ => rewrite P in E; injection E as E; vm_compute in E; discriminate end.
  - destruct (beqb n (b "then")) eqn:E2.
    + apply beqb_eq in E2. subst n. destruct (arguments c) as [|[e0|e0] [|[e|e] l]] eqn:G; try (left; eexists; eapply h_then; eauto; fail);
        right; intros x H; inversion H; try congruence; match goal with E : property c = Some (b "catch") |- _ => rewrite P in E; injection E as E; vm_compute in E; discriminate end.
    + right. intros x H. inversion H; subst; rewrite P in *; match goal with E : Some _ = Some _ |- _ => injection E as -> end; rewrite beqb_refl in *; discriminate.
Qed.
Lemma handler_one c e e' : handler c e -> handler c e' -> e = e'.
Proof.
  intros H H'. inversion H; inversion H'; subst; try congruence;
    match goal with P : property c = Some _, E : property c = Some _ |- _ => rewrite P in E; vm_compute in E; discriminate end.
Qed.
Lemma reports_of_some l r : reports_of l = Some r -> forall i a, In (i, a) r <-> exists f d t, In f l /\ parameters f = d :: t /\ i = fid f /\ a = advice_for d.
Proof.
  revert r. induction l as [|f l IH]; intros r E i a; cbn in E.
  - injection E as <-. split; [intros []|intros (? & ? & ? & [] & _)].
  - destruct (parameters f) as [|d t] eqn:P; [discriminate|]. destruct (reports_of l) as [q|]; [|discriminate]. injection E as <-.
    cbn [In]. rewrite (IH _ eq_refl). split.
    + intros [E|(f' & d' & t' & H & Q)]; [injection E as <- <-; exists f, d, t; auto|exists f', d', t'; auto].
    + intros (f' & d' & t' & [<-|H] & Q & -> & ->); [left; congruence|right; exists f', d', t'; auto].
Qed.
Lemma reports_of_none l : reports_of l = None <-> exists f, In f l /\ parameters f = [].
Proof.
  induction l as [|f l IH]; cbn; [split; [discriminate|intros (? & [] & _)]|].
  destruct (parameters f) as [|d t] eqn:P.
  - split; auto. intros _. exists f. auto.
  - destruct (reports_of l) as [q|].
    + split; [discriminate|]. intros (f' & [<-|H] & Q); [congruence|]. assert (Some q = None) by (apply IH; eauto). discriminate.
    + split; auto. intros _. destruct (proj1 IH eq_refl) as (f' & H & Q). exists f'. auto.
Qed.
