From Coq Require Import Bool Arith Ascii String List Lia.
From Verif Require Import Base EngineProofs.
From Verif Require Import PromiseTests PromiseTestsSpec.
Import ListNotations.

Lemma takes_iff sig : match sig with Some parts => function_param parts | None => false end = true <-> takes_function sig.
Proof.
  destruct sig as [parts|]; unfold takes_function.
  - unfold function_param. rewrite existsb_exists. split.
    + intros (n & I & E). exists parts, n. split; auto. split; auto. apply negb_true_iff, Nat.eqb_neq in E. lia.
    + intros (p & n & E & I & L). injection E as <-. exists n. split; auto. apply negb_true_iff, Nat.eqb_neq. lia.
  - split; [discriminate|]. intros (p & n & E & _). discriminate.
Qed.
Lemma signature_iff l : thenable_signature l = true <-> exists sigs sig, In sigs l /\ In sig sigs /\ takes_function sig.
Proof.
  induction l as [|x l IH]; cbn [thenable_signature].
  - split; [discriminate|]. intros (s & g & I & _). destruct I.
  - destruct (existsb _ x) eqn:E.
    + split; [|auto]. intros _. apply existsb_exists in E as (sig & I & T). apply takes_iff in T. exists x, sig. split; [left|]; auto.
    + rewrite IH. split; intros (s & g & I & J & T).
      * exists s, g. split; [right|]; auto.
      * destruct I as [->|I]; [|eauto]. assert (existsb (fun p => match p with Some parts => function_param parts | None => false end) s = true) by (apply existsb_exists; exists g; split; auto; apply takes_iff; auto). congruence.
Qed.
Lemma always_iff t : always_thenable t = true <-> promise t.
Proof.
  unfold promise. induction t as [|p t IH]; cbn [always_thenable].
  - split; auto. intros _ p [].
  - destruct p as [th|].
    + destruct (thenable_signature th) eqn:E.
      * rewrite IH. split.
        -- intros H p [<-|I]; auto. apply signature_iff in E as (s & g & I & J & T). exists th, s, g. auto.
        -- intros H p I. apply H. right. exact I.
      * split; [discriminate|]. intros H. destruct (H _ (or_introl eq_refl)) as (th' & s & g & X & I & J & T). injection X as <-. rewrite (proj2 (signature_iff th)) in E; eauto.
    + split; [discriminate|]. intros H. destruct (H _ (or_introl eq_refl)) as (th' & s & g & X & _). discriminate.
Qed.

(** The numbers reported without regard to what was checked before. *)
Fixpoint asks (inside : bool) (e : expr) (test : bool) : list nat :=
  if negb inside && is_assign e then []
  else match e with
       | Paren _ e => asks true e test
       | Logic _ o l r => (if negb (is_nullish o) || test then asks false l test else []) ++ (if test then asks false r test else [])
       | Leaf n t | Plain n t _ _ | Assign n t _ _ | Binary n t _ _ | Tests n t _ _ => if always_thenable t then [n] else []
       end.
Definition entered (e : expr) : list nat :=
  match e with
  | Logic _ _ _ _ | Assign _ _ _ _ | Binary _ _ _ _ => asks false e false
  | Tests _ _ c _ => asks false c true
  | _ => []
  end.
Fixpoint all (e : expr) : list nat :=
  entered e ++ match e with Leaf _ _ => [] | Paren _ e => all e | Plain _ _ l r | Logic _ _ l r | Assign _ _ l r | Binary _ _ l r | Tests _ _ l r => all l ++ all r end.

Lemma asks_mono e : forall i, incl (asks i e false) (asks i e true).
Proof.
  induction e as [n t|n t l IHl r IHr|n e IH|n o l IHl r IHr|n t l IHl r IHr|n t l IHl r IHr|n t l IHl r IHr]; intros i; cbn [asks is_assign]; destruct i; cbn [negb andb]; try apply incl_refl; try apply IH.
  - rewrite orb_true_r, orb_false_r. destruct (negb (is_nullish o)); rewrite app_nil_r; [apply incl_appl, IHl|intros x []].
  - rewrite orb_true_r, orb_false_r. destruct (negb (is_nullish o)); rewrite app_nil_r; [apply incl_appl, IHl|intros x []].
Qed.
Lemma mem_in n l : mem n l = true <-> In n l.
Proof. unfold mem. rewrite existsb_exists. split; [intros (x & I & E); apply Nat.eqb_eq in E; subst; exact I|intros I; exists n; split; auto; apply Nat.eqb_refl]. Qed.

(** Nothing more is reported. *)
Lemma check_sub e : forall i test s, incl (reported (check i e test s)) (asks i e test ++ reported s).
Proof.
  assert (R : forall n t s, incl (reported (report n t s)) ((if always_thenable t then [n] else []) ++ reported s)) by (intros n t s; unfold report; destruct (always_thenable t); apply incl_refl).
  induction e as [n t|n t l IHl r IHr|n e IH|n o l IHl r IHr|n t l IHl r IHr|n t l IHl r IHr|n t l IHl r IHr]; intros i test s; cbn [check asks];
  destruct i; cbn [negb andb is_assign orb]; try apply R;
  try (match goal with |- context [mem ?n ?l] => destruct (mem n l); [apply incl_appr, incl_refl|] end);
  try (match goal with |- context [report ?n ?t (mark ?m ?s)] => apply (R n t (mark m s)) end).
  - apply IH.
  - apply (IH true test (mark _ s)).
  - destruct (negb (is_nullish o) || test) eqn:N; destruct test; cbn [app]; rewrite ?app_nil_r.
    + eapply incl_tran; [apply IHr|]. intros x X. apply in_app_iff in X. rewrite !in_app_iff. destruct X as [X|X]; auto. apply IHl in X. apply in_app_iff in X. tauto.
    + apply IHl.
    + apply IHr.
    + apply incl_refl.
  - destruct (negb (is_nullish o) || test) eqn:N; destruct test; cbn [app]; rewrite ?app_nil_r.
    + eapply incl_tran; [apply IHr|]. intros x X. apply in_app_iff in X. rewrite !in_app_iff. destruct X as [X|X]; auto. apply IHl in X. apply in_app_iff in X. tauto.
    + apply (IHl false false (mark n s)).
    + apply (IHr false true (mark n s)).
    + apply incl_refl.
  - apply incl_refl.
Qed.
Lemma enter_sub e s : incl (reported (enter e s)) (entered e ++ reported s).
Proof. destruct e; cbn [enter entered]; try apply incl_refl; apply check_sub. Qed.
Lemma walk_sub e : forall s, incl (reported (walk e s)) (all e ++ reported s).
Proof.
  induction e as [n t|n t l IHl r IHr|n e IH|n o l IHl r IHr|n t l IHl r IHr|n t l IHl r IHr|n t l IHl r IHr]; intros s; cbn [walk all];
  match goal with |- context [enter ?e s] => pose proof (enter_sub e s) as E end;
  try (intros x X; apply IHr in X; rewrite !in_app_iff in *; destruct X as [X|X]; [tauto|]; apply IHl in X; rewrite !in_app_iff in X; destruct X as [X|X]; [tauto|]; apply E in X; rewrite in_app_iff in X; tauto).
  - rewrite app_nil_r. exact E.
  - intros x X. apply IH in X. rewrite !in_app_iff in *. destruct X as [X|X]; [tauto|]. apply E in X. rewrite in_app_iff in X. tauto.
Qed.

(** Nothing is missed.  A state grows from another one by numbers of an expression. *)
Definition grows (l : list nat) (s s' : state) : Prop := incl (reported s) (reported s') /\ incl (checked s) (checked s') /\ forall n, In n (checked s') -> In n (checked s) \/ In n l.
Lemma grows_refl l s : grows l s s.
Proof. split; [apply incl_refl|]. split; [apply incl_refl|auto]. Qed.
Lemma grows_trans l s s' s'' : grows l s s' -> grows l s' s'' -> grows l s s''.
Proof. intros (A & B & C) (A' & B' & C'). split; [eapply incl_tran; eauto|]. split; [eapply incl_tran; eauto|]. intros n H. apply C' in H as [H|H]; auto. Qed.
Lemma grows_more l l' s s' : incl l l' -> grows l s s' -> grows l' s s'.
Proof. intros I (A & B & C). split; auto. split; auto. intros n H. apply C in H as [H|H]; auto. Qed.
Lemma grows_mark n l s : In n l -> grows l s (mark n s).
Proof. intros I. split; [apply incl_refl|]. split; [intros x X; right; exact X|]. intros x [<-|X]; auto. Qed.
Lemma grows_report n t l s : grows l s (report n t s).
Proof. unfold report. destruct (always_thenable t); [|apply grows_refl]. split; [intros x X; right; exact X|]. split; [apply incl_refl|auto]. Qed.
Lemma check_grows : forall e, forall i test s, grows (numbers e) s (check i e test s).
Proof.
  assert (H : forall e, In (number e) (numbers e)) by (intros [| | | | | |]; left; reflexivity).
  assert (M : forall (i : bool) e s, grows (numbers e) s (if i then s else mark (number e) s)) by (intros [|] e s; [apply grows_refl|apply grows_mark, H]).
  induction e as [n t|n t l IHl r IHr|n e IH|n o l IHl r IHr|n t l IHl r IHr|n t l IHl r IHr|n t l IHl r IHr]; intros i test s; cbn [check];
  match goal with |- context [if ?c then s else _] => destruct c; [apply grows_refl|] end;
  match goal with |- grows ?l s (let s0 := if i then s else mark ?n s in _) => idtac | |- _ => idtac end;
  (eapply grows_trans; [match goal with |- grows (numbers ?e) s _ => apply (M i e s) end|]); cbn [number].
  - apply grows_report.
  - apply grows_report.
  - eapply grows_more; [|apply IH]. intros x X. right. exact X.
  - assert (L : incl (numbers l) (numbers (Logic n o l r))) by (intros x X; right; apply in_app_iff; auto). assert (R : incl (numbers r) (numbers (Logic n o l r))) by (intros x X; right; apply in_app_iff; auto).
    eapply grows_trans with (s' := if negb (is_nullish o) || test then check false l test _ else _).
    + destruct (negb (is_nullish o) || test); [eapply grows_more; [exact L|apply IHl]|apply grows_refl].
    + destruct test; [eapply grows_more; [exact R|apply IHr]|apply grows_refl].
  - apply grows_report.
  - apply grows_report.
  - apply grows_report.
Qed.
Lemma walk_grows : forall e s, grows (numbers e) s (walk e s).
Proof.
  assert (E : forall e s, grows (numbers e) s (enter e s)).
  { intros [n t|n t l r|n e|n o l r|n t l r|n t l r|n t l r] s; cbn [enter]; first [apply grows_refl | match goal with |- grows (numbers ?e) _ (check _ ?e _ _) => apply check_grows end | eapply grows_more; [|apply check_grows]; intros x X; right; apply in_app_iff; auto]. }
  assert (T : forall e l r s, (forall s, grows (numbers l) s (walk l s)) -> (forall s, grows (numbers r) s (walk r s)) -> incl (numbers l ++ numbers r) (numbers e) -> grows (numbers e) s (walk r (walk l (enter e s)))).
  { intros e l r s IHl IHr I. eapply grows_trans; [apply E|]. eapply grows_trans; [eapply grows_more; [|apply IHl]|eapply grows_more; [|apply IHr]]; intros x X; apply I, in_app_iff; auto. }
  induction e as [n t|n t l IHl r IHr|n e IH|n o l IHl r IHr|n t l IHl r IHr|n t l IHl r IHr|n t l IHl r IHr]; intros s; cbn [walk];
  try (apply T; [exact IHl|exact IHr|intros x X; right; exact X]).
  - apply E.
  - eapply grows_trans; [apply E|]. eapply grows_more; [|apply IH]. intros x X. right. exact X.
Qed.

Definition clean (e : expr) (s : state) : Prop := forall n, In n (numbers e) -> ~ In n (checked s).
(** What is checked was asked at least without a test. *)
Fixpoint good (e : expr) (s : state) : Prop :=
  (In (number e) (checked s) -> incl (asks false e false) (reported s)) /\
  match e with
  | Leaf _ _ => True
  | Plain _ _ l r | Assign _ _ l r | Binary _ _ l r | Tests _ _ l r => clean l s /\ clean r s
  | Paren _ e => good e s
  | Logic _ _ l r => good l s /\ good r s
  end.
Lemma clean_good e s : clean e s -> good e s.
Proof.
  induction e as [n t|n t l IHl r IHr|n e IH|n o l IHl r IHr|n t l IHl r IHr|n t l IHl r IHr|n t l IHl r IHr]; intros C; cbn [good number];
  (split; [intros I; destruct (C n (or_introl eq_refl) I)|]); auto;
  try (split; intros x X; apply C; right; apply in_app_iff; auto).
  - apply IH. intros x X. apply C. right. exact X.
  - split; [apply IHl|apply IHr]; intros x X; apply C; right; apply in_app_iff; auto.
Qed.
Lemma clean_frame e l s s' : grows l s s' -> (forall n, In n (numbers e) -> ~ In n l) -> clean e s -> clean e s'.
Proof. intros (A & B & G) D C n I J. apply G in J as [J|J]; [apply (C n I J)|apply (D n I J)]. Qed.
Lemma good_frame e l s s' : grows l s s' -> (forall n, In n (numbers e) -> ~ In n l) -> good e s -> good e s'.
Proof.
  intros G. induction e as [n t|n t a IHa c IHc|n e IH|n o a IHa c IHc|n t a IHa c IHc|n t a IHa c IHc|n t a IHa c IHc]; intros D H; cbn [good number] in *; destruct H as [H K];
  (split; [intros I; destruct G as (A & B & G); apply G in I as [I|I]; [intros x X; apply A, (H I), X|destruct (D n (or_introl eq_refl) I)]|]); auto;
  try (destruct K as [K1 K2]; split; eapply clean_frame; eauto; intros x X; apply D; right; apply in_app_iff; auto).
  - apply IH; auto. intros x X. apply D. right. exact X.
  - destruct K as [K1 K2]. split; [apply IHa|apply IHc]; auto; intros x X; apply D; right; apply in_app_iff; auto.
Qed.
Lemma disjoint_nodup (l r : list nat) : NoDup (l ++ r) -> NoDup l /\ NoDup r /\ forall n, In n l -> ~ In n r.
Proof.
  induction l as [|x l IH]; cbn [app]; intros N; [split; [constructor|]; split; [exact N|intros n []]|]. inversion N as [|? ? H M]; subst. destruct (IH M) as (A & B & C). rewrite in_app_iff in H.
  split; [constructor; tauto|]. split; auto. intros n [<-|I]; auto.
Qed.
Lemma mark_clean n e s : ~ In n (numbers e) -> clean e s -> clean e (mark n s).
Proof. intros N C x X [<-|I]; [auto|apply (C x X I)]. Qed.
Lemma mark_good n e s : ~ In n (numbers e) -> good e s -> good e (mark n s).
Proof. intros N. apply good_frame with (l := [n]); [apply grows_mark; left; reflexivity|]. intros x X [<-|[]]. auto. Qed.
Lemma report_asks n t s : incl (if always_thenable t then [n] else []) (reported (report n t s)).
Proof. unfold report. destruct (always_thenable t); [intros x [<-|[]]; left; reflexivity|intros x []]. Qed.

(** With nothing below checked before a test everything asked is reported. *)
Lemma check_good : forall e, forall i test s, NoDup (numbers e) -> good e s -> (test = true -> clean e s) ->
  incl (asks i e test) (reported (check i e test s)) /\ good e (check i e test s).
Proof.
  assert (B : forall e s n t, own e = Some t -> number e = n -> forall (i test : bool), NoDup (numbers e) -> good e s -> (test = true -> clean e s) -> asks i e test = (if negb i && is_assign e then [] else if always_thenable t then [n] else []) ->
    check i e test s = (if negb i && (is_assign e || mem n (checked s)) then s else report n t (if i then s else mark n s)) ->
    incl (asks i e test) (reported (check i e test s)) /\ good e (check i e test s)).
  { intros e s n t O E i test N G C A K. rewrite K. clear K.
    assert (X : incl (asks false e false) (if always_thenable t then [n] else [])).
    { destruct e; cbn [own number] in *; try discriminate; injection O as ->; subst; cbn [asks is_assign negb andb]; try apply incl_refl; intros x []. }
    assert (Y : forall s', good e s -> checked s' = checked s -> incl (reported s) (reported s') -> good e s').
    { intros s' H E1 E2. apply good_frame with (l := []) (s := s); auto. split; [exact E2|]. rewrite E1. split; [apply incl_refl|auto]. }
    assert (Z : good e (report n t s)).
    { apply Y; auto; unfold report; destruct (always_thenable t); try reflexivity; try apply incl_refl. intros x H. right. exact H. }
    destruct i; cbn [negb andb] in *.
    - rewrite A. split; [apply report_asks|exact Z].
    - destruct (is_assign e) eqn:AE; cbn [orb] in *.
      + rewrite A. split; [intros x []|exact G].
      + destruct (mem n (checked s)) eqn:M.
        * apply mem_in in M. split; [|exact G]. destruct test.
          -- destruct (C eq_refl n); [destruct e; cbn [number numbers] in *; subst; left; reflexivity|exact M].
          -- assert (G1 := G). destruct e; cbn [good number] in G1; destruct G1 as [G1 _]; apply G1; cbn [number] in E; subst; exact M.
        * split; [rewrite A; apply report_asks|].
          assert (W : incl (asks false e false) (reported (report n t (mark n s)))) by (eapply incl_tran; [exact X|apply report_asks]).
          assert (U : checked (report n t (mark n s)) = n :: checked s) by (unfold report; destruct (always_thenable t); reflexivity).
          destruct e as [m u|m u l r|m e|m o l r|m u l r|m u l r|m u l r]; cbn [own number] in *; try discriminate; subst m; cbn [good number] in *; (split; [intros _; exact W|]); auto;
          destruct G as [_ [G1 G2]]; cbn [numbers] in N; inversion N as [|? ? N1 N2]; subst; rewrite in_app_iff in N1;
          (split; [intros x P Q; rewrite U in Q; destruct Q as [<-|Q]; [tauto|exact (G1 x P Q)]|intros x P Q; rewrite U in Q; destruct Q as [<-|Q]; [tauto|exact (G2 x P Q)]]). }
  induction e as [n t|n t l IHl r IHr|n e IH|n o l IHl r IHr|n t l IHl r IHr|n t l IHl r IHr|n t l IHl r IHr]; intros i test s N G C;
  try (eapply B; [reflexivity|reflexivity|exact N|exact G|exact C|reflexivity|reflexivity]).
  - clear B. cbn [check asks is_assign orb number]. cbn [numbers] in N. inversion N as [|? ? N1 N2]; subst. destruct G as [G1 G2]. cbn [number] in G1.
    assert (CE : forall s', checked s' = checked s \/ checked s' = n :: checked s -> test = true -> clean e s').
    { intros s' [E|E] T x X Y; rewrite E in Y; [|destruct Y as [<-|Y]; [auto|]]; apply (C T x); auto; right; exact X. }
    destruct i; cbn [negb andb].
    + destruct (IH true test s N2 G2 (CE s (or_introl eq_refl))) as [I1 I2]. split; [exact I1|]. cbn [good number]. split; [|exact I2].
      intros H. destruct (check_grows e true test s) as (A & _ & K). apply K in H as [H|H]; [|destruct (N1 H)]. eapply incl_tran; [apply (G1 H)|exact A].
    + destruct (mem n (checked s)) eqn:M.
      * apply mem_in in M. split; [|split; auto]. destruct test; [destruct (C eq_refl n (or_introl eq_refl) M)|exact (G1 M)].
      * destruct (IH true test (mark n s) N2 (mark_good n e s N1 G2) (CE (mark n s) (or_intror eq_refl))) as [I1 I2]. split; [exact I1|]. cbn [good number]. split; [|exact I2]. intros _.
        cbn [asks is_assign negb andb]. destruct test; [eapply incl_tran; [apply asks_mono|exact I1]|exact I1].
  - clear B. cbn [check asks is_assign orb number]. cbn [numbers] in N. inversion N as [|? ? N1 N2]; subst. destruct (disjoint_nodup _ _ N2) as (NL & NR & D). rewrite in_app_iff in N1. destruct G as [G1 [GL GR]]. cbn [number] in G1.
    assert (D' : forall x, In x (numbers r) -> ~ In x (numbers l)) by (intros x X Y; exact (D x Y X)).
    (* the two operands, from a state that is good for them *)
    assert (K : forall s1, good l s1 -> good r s1 -> (test = true -> clean l s1 /\ clean r s1) ->
      let s2 := if negb (is_nullish o) || test then check false l test s1 else s1 in let s3 := if test then check false r test s2 else s2 in
      incl ((if negb (is_nullish o) || test then asks false l test else []) ++ (if test then asks false r test else [])) (reported s3) /\ good l s3 /\ good r s3 /\ grows (numbers l ++ numbers r) s1 s3).
    { intros s1 HL HR HC s2 s3.
      assert (L : incl (if negb (is_nullish o) || test then asks false l test else []) (reported s2) /\ good l s2 /\ grows (numbers l) s1 s2).
      { subst s2. destruct (negb (is_nullish o) || test); [|split; [intros x []|split; [exact HL|apply grows_refl]]]. destruct (IHl false test s1 NL HL (fun T => proj1 (HC T))) as [A1 A2]. split; [exact A1|split; [exact A2|apply check_grows]]. }
      destruct L as (L1 & L2 & L3). assert (R0 : good r s2) by (eapply good_frame; eauto).
      assert (R : incl (if test then asks false r test else []) (reported s3) /\ good r s3 /\ grows (numbers r) s2 s3).
      { subst s3. destruct test; [|split; [intros x []|split; [exact R0|apply grows_refl]]]. destruct (IHr false true s2 NR R0) as [A1 A2]; [intros _; eapply clean_frame; [exact L3|exact D'|apply HC; reflexivity]|]. split; [exact A1|split; [exact A2|apply check_grows]]. }
      destruct R as (R1 & R2 & R3). split; [|split; [eapply good_frame; [exact R3|exact D|exact L2]|split; [exact R2|]]].
      - apply incl_app; [eapply incl_tran; [exact L1|apply R3]|exact R1].
      - eapply grows_trans; eapply grows_more; try eassumption; intros x X; apply in_app_iff; auto. }
    assert (CC : forall s', checked s' = checked s \/ checked s' = n :: checked s -> test = true -> clean l s' /\ clean r s').
    { intros s' E T. split; intros x X Y; (destruct E as [E|E]; rewrite E in Y; [|destruct Y as [<-|Y]; [tauto|]]); apply (C T x); auto; right; apply in_app_iff; auto. }
    destruct i; cbn [negb andb].
    + destruct (K s GL GR (CC s (or_introl eq_refl))) as (K1 & K2 & K3 & (K4 & _ & K5)). split; [exact K1|]. cbn [good number]. split; [|split; [exact K2|exact K3]].
      intros H. apply K5 in H as [H|H]; [|rewrite in_app_iff in H; tauto]. eapply incl_tran; [apply (G1 H)|exact K4].
    + destruct (mem n (checked s)) eqn:M.
      * apply mem_in in M. split; [|split; auto]. destruct test; [destruct (C eq_refl n (or_introl eq_refl) M)|]. exact (G1 M).
      * destruct (K (mark n s)) as (K1 & K2 & K3 & _); [apply mark_good; tauto|apply mark_good; tauto|apply CC; right; reflexivity|]. split; [exact K1|]. cbn [good number]. split; [|split; [exact K2|exact K3]]. intros _.
        assert (M2 := asks_mono (Logic n o l r) false). destruct test; [eapply incl_tran; [exact M2|exact K1]|exact K1].
Qed.
Lemma enter_good e s : NoDup (numbers e) -> good e s -> incl (entered e) (reported (enter e s)) /\
  match e with Leaf _ _ => True | Paren _ e => good e (enter (Paren 0 e) s) | Plain _ _ l r | Logic _ _ l r | Assign _ _ l r | Binary _ _ l r | Tests _ _ l r => good l (enter e s) /\ good r (enter e s) end.
Proof.
  intros N G. destruct e as [n t|n t l r|n e|n o l r|n t l r|n t l r|n t l r]; cbn [enter entered].
  - split; [intros x []|exact I].
  - split; [intros x []|]. destruct G as [_ [A B]]. split; apply clean_good; assumption.
  - split; [intros x []|]. destruct G as [_ A]. exact A.
  - destruct (check_good (Logic n o l r) false false s N G ltac:(discriminate)) as [A B]. split; [exact A|]. destruct B as [_ B]. exact B.
  - destruct (check_good (Assign n t l r) false false s N G ltac:(discriminate)) as [A B]. split; [exact A|]. destruct B as [_ [B1 B2]]. split; apply clean_good; assumption.
  - destruct (check_good (Binary n t l r) false false s N G ltac:(discriminate)) as [A B]. split; [exact A|]. destruct B as [_ [B1 B2]]. split; apply clean_good; assumption.
  - destruct G as [_ [A B]]. cbn [numbers] in N. inversion N as [|? ? N1 N2]; subst. destruct (disjoint_nodup _ _ N2) as (NL & NR & D).
    destruct (check_good l false true s NL (clean_good _ _ A) (fun _ => A)) as [X Y]. split; [exact X|]. split; [exact Y|]. apply clean_good. eapply clean_frame; [apply check_grows| |exact B]. intros x P Q. exact (D x Q P).
Qed.
Lemma walk_all : forall e, forall s, NoDup (numbers e) -> good e s -> incl (all e) (reported (walk e s)).
Proof.
  assert (T : forall e l r s, (forall s, NoDup (numbers l) -> good l s -> incl (all l) (reported (walk l s))) -> (forall s, NoDup (numbers r) -> good r s -> incl (all r) (reported (walk r s))) ->
    NoDup (numbers l ++ numbers r) -> incl (entered e) (reported (enter e s)) -> good l (enter e s) -> good r (enter e s) -> incl (entered e ++ all l ++ all r) (reported (walk r (walk l (enter e s))))).
  { intros e l r s IHl IHr N E GL GR. destruct (disjoint_nodup _ _ N) as (NL & NR & D). pose proof (walk_grows l (enter e s)) as W1. pose proof (walk_grows r (walk l (enter e s))) as W2.
    assert (GR' : good r (walk l (enter e s))) by (eapply good_frame; [exact W1| |exact GR]; intros x P Q; exact (D x Q P)).
    apply incl_app; [eapply incl_tran; [exact E|]; eapply incl_tran; [apply W1|apply W2]|]. apply incl_app; [eapply incl_tran; [apply (IHl (enter e s)); assumption|apply W2]|apply IHr; assumption]. }
  induction e as [n t|n t l IHl r IHr|n e IH|n o l IHl r IHr|n t l IHl r IHr|n t l IHl r IHr|n t l IHl r IHr]; intros s N G;
  match goal with |- incl (all ?e) _ => pose proof (enter_good e s N G) as E end; cbn [all walk] in *; destruct E as [E F];
  try (destruct F as [F1 F2]; cbn [numbers] in N; inversion N as [|? ? N1 N2]; subst; apply T; assumption).
  - intros x [].
  - cbn [enter entered app] in *. apply IH; auto. cbn [numbers] in N. inversion N; assumption.
Qed.
Lemma clean_start e : clean e {| checked := []; reported := [] |}.
Proof. intros n _ []. Qed.

(** What is asked, by the spec. *)
Scheme shown_ind := Induction for gives_shown Sort Prop with paren_ind := Induction for gives_paren Sort Prop.
Lemma own_cases e : (exists t, own e = Some t) \/ own e = None.
Proof. destruct (own e); eauto. Qed.
Lemma asks_test : forall e, forall i n, In n (asks i e true) <-> exists x t, (if i then gives_paren x e else gives_shown x e) /\ own x = Some t /\ always_thenable t = true /\ number x = n.
Proof.
  assert (B : forall e n t (i : bool), own e = Some t -> (if i then True else is_assign e = false) -> (In n (if always_thenable t then [number e] else []) <-> exists x t, (if i then gives_paren x e else gives_shown x e) /\ own x = Some t /\ always_thenable t = true /\ number x = n)).
  { intros e n t i O A. split.
    - intros H. destruct (always_thenable t) eqn:T; [|destruct H]. destruct H as [<-|[]]. exists e, t. split; [|auto]. assert (own e <> None) by congruence. destruct i; constructor; auto.
    - intros (x & u & H & P & Q & R). assert (x = e) by (destruct i; inversion H; subst; auto; discriminate). subst x. rewrite O in P. injection P as <-. rewrite Q. left. exact R. }
  induction e as [n t|n t l IHl r IHr|n e IH|n o l IHl r IHr|n t l IHl r IHr|n t l IHl r IHr|n t l IHl r IHr]; intros i m; cbn [asks is_assign];
  try (rewrite andb_false_r; apply (B (Leaf n t) m t i eq_refl) || apply (B (Plain n t l r) m t i eq_refl) || apply (B (Binary n t l r) m t i eq_refl) || apply (B (Tests n t l r) m t i eq_refl); destruct i; reflexivity || exact I).
  - rewrite andb_false_r. rewrite IH. split; intros (x & t & H & P); exists x, t; (split; [|exact P]).
    + destruct i; constructor; exact H.
    + destruct i; inversion H; subst; auto; destruct P as [P _]; discriminate.
  - rewrite andb_false_r, orb_true_r, in_app_iff, IHl, IHr. split.
    + intros [(x & t & H & P)|(x & t & H & P)]; exists x, t; (split; [|exact P]); destruct i; (constructor 3; exact H) || (constructor 4; exact H).
    + intros (x & t & H & P). assert (X : gives_shown x l \/ gives_shown x r) by (destruct i; inversion H; subst; auto; destruct P as [P _]; discriminate). destruct X as [X|X]; [left|right]; exists x, t; auto.
  - destruct i; cbn [negb andb].
    + apply (B (Assign n t l r) m t true eq_refl I).
    + split; [intros []|]. intros (x & u & H & _). inversion H; subst; discriminate.
Qed.
Lemma asks_first : forall e, forall i n, In n (asks i e false) <-> exists x t, first_of x i e /\ own x = Some t /\ always_thenable t = true /\ number x = n.
Proof.
  assert (B : forall e n t (i : bool), own e = Some t -> i || negb (is_assign e) = true -> (In n (if always_thenable t then [number e] else []) <-> exists x t, first_of x i e /\ own x = Some t /\ always_thenable t = true /\ number x = n)).
  { intros e n t i O A. split.
    - intros H. destruct (always_thenable t) eqn:T; [|destruct H]. destruct H as [<-|[]]. exists e, t. split; [|auto]. constructor; [congruence|exact A].
    - intros (x & u & H & P & Q & R). assert (x = e) by (inversion H; subst; auto; discriminate). subst x. rewrite O in P. injection P as <-. rewrite Q. left. exact R. }
  induction e as [n t|n t l IHl r IHr|n e IH|n o l IHl r IHr|n t l IHl r IHr|n t l IHl r IHr|n t l IHl r IHr]; intros i m; cbn [asks is_assign];
  try (rewrite andb_false_r; apply (B (Leaf n t) m t i eq_refl) || apply (B (Plain n t l r) m t i eq_refl) || apply (B (Binary n t l r) m t i eq_refl) || apply (B (Tests n t l r) m t i eq_refl); destruct i; reflexivity).
  - rewrite andb_false_r. rewrite IH. split; intros (x & t & H & P); exists x, t; (split; [|exact P]); [constructor; exact H|]. inversion H; subst; auto. destruct P as [P _]. discriminate.
  - rewrite andb_false_r, orb_false_r, app_nil_r. split.
    + destruct (is_nullish o) eqn:Q; cbn [negb]; [intros []|]. rewrite IHl. intros (x & t & H & P). exists x, t. split; [|exact P]. apply f_left; [intros ->; discriminate|exact H].
    + intros (x & t & H & P). inversion H as [| |? ? ? ? ? NN FF]; subst; [destruct P as [P _]; discriminate|]. replace (negb (is_nullish o)) with true by (destruct o; [reflexivity|reflexivity|congruence]). rewrite IHl. eauto.
  - destruct i; cbn [negb andb].
    + apply (B (Assign n t l r) m t true eq_refl eq_refl).
    + split; [intros []|]. intros (x & u & H & _). inversion H; subst; discriminate.
Qed.
Lemma all_asked : forall e, forall n, In n (all e) <-> exists x t, asked x e /\ own x = Some t /\ always_thenable t = true /\ number x = n.
Proof.
  (* what one node asks *)
  assert (S1 : forall y n, In n (entered y) <-> exists x t, (match y with Tests _ _ c _ => gives_shown x c | Logic _ o l _ => o <> Nullish /\ first_of x false l | Binary _ _ _ _ => x = y | _ => False end) /\ own x = Some t /\ always_thenable t = true /\ number x = n).
  { intros [m t|m t l r|m e0|m o l r|m t l r|m t l r|m t l r] n; cbn [entered]; try (split; [intros []|intros (x & t' & [] & _)]).
    - rewrite asks_first. split; intros (x & t & H & P); exists x, t; (split; [|exact P]).
      + inversion H; subst; [destruct P as [P _]; discriminate|]. auto.
      + destruct H as [H1 H2]. apply f_left; auto.
    - rewrite asks_first. split; intros (x & u & H & P); exists x, u; (split; [|exact P]).
      + inversion H; subst. reflexivity.
      + subst x. constructor; [discriminate|reflexivity].
    - apply (asks_test l false n). }
  intros e n. split.
  - intros H. assert (X : exists y, within y e /\ In n (entered y)).
    { revert H. induction e as [m t|m t l IHl r IHr|m e IH|m o l IHl r IHr|m t l IHl r IHr|m t l IHl r IHr|m t l IHl r IHr]; cbn [all]; rewrite ?in_app_iff; (intros [H|H]; [eexists; split; [apply w_self|exact H]|]).
      - destruct H.
      - destruct H as [H|H]; [destruct (IHl H) as (y & W & Q); exists y; split; [apply w_plain_l; exact W|exact Q]|destruct (IHr H) as (y & W & Q); exists y; split; [apply w_plain_r; exact W|exact Q]].
      - destruct (IH H) as (y & W & Q). exists y. split; [apply w_paren; exact W|exact Q].
      - destruct H as [H|H]; [destruct (IHl H) as (y & W & Q); exists y; split; [apply w_logic_l; exact W|exact Q]|destruct (IHr H) as (y & W & Q); exists y; split; [apply w_logic_r; exact W|exact Q]].
      - destruct H as [H|H]; [destruct (IHl H) as (y & W & Q); exists y; split; [apply w_assign_l; exact W|exact Q]|destruct (IHr H) as (y & W & Q); exists y; split; [apply w_assign_r; exact W|exact Q]].
      - destruct H as [H|H]; [destruct (IHl H) as (y & W & Q); exists y; split; [apply w_binary_l; exact W|exact Q]|destruct (IHr H) as (y & W & Q); exists y; split; [apply w_binary_r; exact W|exact Q]].
      - destruct H as [H|H]; [destruct (IHl H) as (y & W & Q); exists y; split; [apply w_tests_l; exact W|exact Q]|destruct (IHr H) as (y & W & Q); exists y; split; [apply w_tests_r; exact W|exact Q]]. }
    destruct X as (y & W & Q). apply S1 in Q as (x & t & A & P). exists x, t. split; [exists y; auto|exact P].
  - intros (x & t & (y & W & A) & P). assert (Q : In n (entered y)) by (apply S1; exists x, t; auto). clear A P.
    induction W; cbn [all]; rewrite ?in_app_iff; auto. destruct y; cbn [all]; rewrite in_app_iff; auto.
Qed.

(** Reported once: whoever is reported has its outermost parentheses checked. *)
Fixpoint tip (e : expr) : expr := match e with Paren _ e => tip e | _ => e end.
Definition seal (w : option nat) (n : nat) (s : state) : Prop := In n (reported s) -> In (match w with Some p => p | None => n end) (checked s).
Fixpoint sealed (w : option nat) (e : expr) (s : state) : Prop :=
  match e with
  | Leaf n _ => seal w n s
  | Paren n e => sealed (Some (match w with Some p => p | None => n end)) e s
  | Logic n _ l r => sealed None l s /\ sealed None r s
  | Plain n _ l r | Assign n _ l r | Binary n _ l r | Tests n _ l r => seal w n s /\ sealed None l s /\ sealed None r s
  end.
Lemma asks_numbers e : forall i test, incl (asks i e test) (numbers e).
Proof.
  induction e as [n t|n t l IHl r IHr|n e IH|n o l IHl r IHr|n t l IHl r IHr|n t l IHl r IHr|n t l IHl r IHr]; intros i test; cbn [asks numbers]; destruct (negb i && _); try (intros x []; fail);
  try (destruct (always_thenable t); [intros x [<-|[]]; left; reflexivity|intros x []]).
  - intros x X. right. eapply IH; eauto.
  - intros x X. right. apply in_app_iff in X as [X|X]; apply in_app_iff; [left|right].
    + destruct (negb (is_nullish o) || test); [eapply IHl; eauto|destruct X].
    + destruct test; [eapply IHr; eauto|destruct X].
Qed.
(** From one state to a later one, with reports from a list. *)
Definition later (l : list nat) (s s' : state) : Prop := incl (checked s) (checked s') /\ incl (reported s') (l ++ reported s).
Lemma check_later e i test s : later (numbers e) s (check i e test s).
Proof. split; [apply check_grows|]. intros x X. apply check_sub in X. rewrite in_app_iff in *. destruct X as [X|X]; auto. left. eapply asks_numbers; eauto. Qed.
Lemma sealed_frame l s s' : later l s s' -> forall e w, (forall n, In n (numbers e) -> ~ In n l) -> sealed w e s -> sealed w e s'.
Proof.
  intros [A B]. assert (K : forall w n, ~ In n l -> seal w n s -> seal w n s') by (intros w n N H I; apply A, H; apply B, in_app_iff in I; tauto).
  induction e as [n t|n t a IHa c IHc|n e IH|n o a IHa c IHc|n t a IHa c IHc|n t a IHa c IHc|n t a IHa c IHc]; intros w D H; cbn [sealed] in *;
  try (destruct H as [H [H1 H2]]; split; [apply K; [apply D; left; reflexivity|exact H]|]; split; [apply IHa|apply IHc]; auto; intros x X; apply D; right; apply in_app_iff; auto).
  - apply K; auto. apply D. left. reflexivity.
  - apply IH; auto. intros x X. apply D. right. exact X.
  - destruct H as [H1 H2]. split; [apply IHa|apply IHc]; auto; intros x X; apply D; right; apply in_app_iff; auto.
Qed.
Lemma sealed_tip e : forall p s t, own (tip e) = Some t -> sealed (Some p) e s -> seal (Some p) (number (tip e)) s.
Proof. induction e; intros p s u O H; cbn [tip sealed] in *; try tauto; [eapply IHe; eauto|discriminate]. Qed.
Lemma mark_later n s : later [] s (mark n s).
Proof. split; [intros x X; right; exact X|apply incl_refl]. Qed.
Lemma report_later n t s : later [n] s (report n t s).
Proof. unfold report. split; destruct (always_thenable t); try apply incl_refl. intros x X. right. exact X. Qed.
Lemma check_once : forall e (i : bool) w test s, NoDup (numbers e) -> NoDup (reported s) -> sealed w e s ->
  (if i then (exists p, w = Some p /\ In p (checked s)) /\ (forall t, own (tip e) = Some t -> ~ In (number (tip e)) (reported s)) else w = None \/ is_assign e = true \/ (exists n o l r, e = Logic n o l r)) ->
  NoDup (reported (check i e test s)) /\ sealed w e (check i e test s).
Proof.
  (* what makes a value of its own *)
  assert (B : forall (i : bool) w n t s, NoDup (reported s) -> seal w n s -> (if i then (exists p, w = Some p /\ In p (checked s)) /\ ~ In n (reported s) else w = None /\ mem n (checked s) = false) ->
    let s' := report n t (if i then s else mark n s) in NoDup (reported s') /\ seal w n s' /\ later [n] s s').
  { intros i w n t s N H C s'.
    assert (F : ~ In n (reported s)). { destruct i; [apply C|]. destruct C as [-> M]. intros I. apply H, mem_in in I. congruence. }
    assert (L : later [n] s s').
    { subst s'. destruct i; [apply report_later|]. destruct (report_later n t (mark n s)) as [X Y]. split; [intros x I; apply X; right; exact I|exact Y]. }
    assert (N' : NoDup (reported s')). { subst s'. unfold report. destruct i, (always_thenable t); cbn [reported mark]; auto; constructor; auto. }
    split; [exact N'|]. split; [|exact L]. intros _. destruct i.
    - destruct C as [(p & -> & I) _]. apply L. exact I.
    - destruct C as [-> _]. subst s'. apply report_later. left. reflexivity. }
  assert (A : forall e (i : bool) w test s l r n t, numbers e = n :: numbers l ++ numbers r -> own e = Some t -> tip e = e -> number e = n -> (forall s, sealed w e s = (seal w n s /\ sealed None l s /\ sealed None r s)) ->
    check i e test s = (if negb i && (is_assign e || mem n (checked s)) then s else report n t (if i then s else mark n s)) -> NoDup (numbers e) -> NoDup (reported s) -> sealed w e s ->
    (if i then (exists p, w = Some p /\ In p (checked s)) /\ (forall t, own (tip e) = Some t -> ~ In (number (tip e)) (reported s)) else w = None \/ is_assign e = true \/ (exists n o l r, e = Logic n o l r)) ->
    NoDup (reported (check i e test s)) /\ sealed w e (check i e test s)).
  { intros e i w test s l r n t E O T NE SE K N R H C. rewrite K. destruct (negb i && (is_assign e || mem n (checked s))) eqn:Q; [split; assumption|].
    rewrite SE in *. destruct H as [H [H1 H2]].
    destruct (B i w n t s R H) as (B1 & B2 & B3).
    { destruct i; cbn [negb andb] in Q.
      - destruct C as [C1 C2]. split; [exact C1|]. rewrite T in C2. rewrite <- NE. apply (C2 t O).
      - apply orb_false_iff in Q as [Q1 Q2]. split; [|exact Q2]. destruct C as [C|[C|(? & ? & ? & ? & ->)]]; [exact C|congruence|discriminate]. }
    rewrite E in N. inversion N as [|? ? N1 N2]; subst. rewrite in_app_iff in N1. split; [exact B1|]. split; [exact B2|].
    split; (eapply sealed_frame; [exact B3| |assumption]); intros x X [<-|[]]; tauto. }
  induction e as [n t|n t l IHl r IHr|n e IH|n o l IHl r IHr|n t l IHl r IHr|n t l IHl r IHr|n t l IHl r IHr]; intros i w test s N R H C;
  try (eapply (A _ i w test s l r n t); try reflexivity; assumption).
  - cbn [check is_assign orb number]. destruct (negb i && mem n (checked s)) eqn:Q; [split; assumption|]. cbn [sealed] in *.
    destruct (B i w n t s R H) as (B1 & B2 & B3); [|split; assumption]. destruct i; cbn [negb andb] in Q.
    + destruct C as [C1 C2]. split; [exact C1|]. apply (C2 t eq_refl).
    + split; [|exact Q]. destruct C as [C|[C|(? & ? & ? & ? & C)]]; [exact C|discriminate|discriminate].
  - cbn [check is_assign orb number]. cbn [numbers] in N. inversion N as [|? ? N1 N2]; subst. destruct i; cbn [negb andb].
    + cbn [sealed] in *. destruct C as [(p & -> & I) C]. destruct (IH true (Some p) test s N2 R H) as [X Y]; [|split; assumption]. split; [eauto|exact C].
    + assert (w = None) by (destruct C as [C|[C|(? & ? & ? & ? & C)]]; [exact C|discriminate|discriminate]). subst w. destruct (mem n (checked s)) eqn:M; [split; assumption|]. cbn [sealed] in *.
      apply (IH true (Some n) test (mark n s)); auto.
      * eapply sealed_frame; [apply mark_later| |exact H]. intros x X [].
      * split; [exists n; split; [reflexivity|left; reflexivity]|]. intros u O I. apply (sealed_tip e n s u O H) in I. apply mem_in in I. congruence.
  - cbn [check is_assign orb number]. destruct (negb i && mem n (checked s)) eqn:Q; [split; assumption|]. cbn [numbers] in N. inversion N as [|? ? N1 N2]; subst. destruct (disjoint_nodup _ _ N2) as (NL & NR & D). cbn [sealed] in *. destruct H as [H1 H2].
    set (s1 := if i then s else mark n s). assert (L1 : later [] s s1) by (subst s1; destruct i; [split; apply incl_refl|apply mark_later]).
    assert (R1 : NoDup (reported s1)) by (subst s1; destruct i; exact R).
    assert (E1 : sealed None l s1) by (eapply sealed_frame; [exact L1| |exact H1]; intros x X []). assert (E2 : sealed None r s1) by (eapply sealed_frame; [exact L1| |exact H2]; intros x X []).
    set (s2 := if negb (is_nullish o) || test then check false l test s1 else s1).
    assert (P2 : NoDup (reported s2) /\ sealed None l s2 /\ later (numbers l) s1 s2).
    { subst s2. destruct (negb (is_nullish o) || test).
      - destruct (IHl false None test s1 NL R1 E1 (or_introl eq_refl)) as [X Y]. split; [exact X|]. split; [exact Y|apply check_later].
      - split; [exact R1|]. split; [exact E1|]. split; [apply incl_refl|apply incl_appr, incl_refl]. }
    destruct P2 as (R2 & F1 & L2). assert (F2 : sealed None r s2) by (eapply sealed_frame; [exact L2| |exact E2]; intros x X Y; exact (D x Y X)).
    destruct test; [|split; [exact R2|split; assumption]]. destruct (IHr false None true s2 NR R2 F2 (or_introl eq_refl)) as [X Y]. split; [exact X|]. split; [|exact Y]. eapply sealed_frame; [apply check_later|exact D|exact F1].
Qed.
Lemma walk_later e : forall s, later (numbers e) s (walk e s).
Proof.
  intros s. split; [apply walk_grows|]. intros x X. apply walk_sub in X. rewrite in_app_iff in *. destruct X as [X|X]; auto. left. revert X. clear.
  assert (E : forall e, incl (entered e) (numbers e)). { intros e0 y. destruct e0; cbn [entered]; try (intros []; fail); intros H; try (eapply asks_numbers; eauto; fail). apply asks_numbers in H. right. apply in_app_iff. auto. }
  induction e as [n t|n t l IHl r IHr|n e IH|n o l IHl r IHr|n t l IHl r IHr|n t l IHl r IHr|n t l IHl r IHr]; cbn [all]; rewrite ?in_app_iff; intros [H|H]; try (apply E; exact H);
  try (cbn [numbers]; right; rewrite in_app_iff; tauto).
  - right. auto.
Qed.
Lemma walk_once : forall e u w s, no_binary_in_parens u e -> (u = false -> w = None) -> NoDup (numbers e) -> NoDup (reported s) -> sealed w e s -> NoDup (reported (walk e s)).
Proof.
  assert (T : forall l r s, (forall u w s, no_binary_in_parens u l -> (u = false -> w = None) -> NoDup (numbers l) -> NoDup (reported s) -> sealed w l s -> NoDup (reported (walk l s))) ->
    (forall u w s, no_binary_in_parens u r -> (u = false -> w = None) -> NoDup (numbers r) -> NoDup (reported s) -> sealed w r s -> NoDup (reported (walk r s))) ->
    no_binary_in_parens false l -> no_binary_in_parens false r -> NoDup (numbers l ++ numbers r) -> NoDup (reported s) -> sealed None l s -> sealed None r s -> NoDup (reported (walk r (walk l s)))).
  { intros l r s IHl IHr FL FR N R SL SR. destruct (disjoint_nodup _ _ N) as (NL & NR & D). apply (IHr false None); auto.
    - apply (IHl false None); auto.
    - eapply sealed_frame; [apply walk_later| |exact SR]. intros x X Y. exact (D x Y X). }
  induction e as [n t|n t l IHl r IHr|n e IH|n o l IHl r IHr|n t l IHl r IHr|n t l IHl r IHr|n t l IHl r IHr]; intros u w s F U N R H; cbn [walk enter no_binary_in_parens] in *.
  - exact R.
  - destruct F as [F1 F2]. destruct H as [H [H1 H2]]. cbn [numbers] in N; inversion N; subst; apply (T l r); auto.
  - cbn [numbers sealed] in *. inversion N; subst. eapply (IH true); [exact F|discriminate|assumption|exact R|exact H].
  - destruct F as [F1 F2]. destruct (check_once (Logic n o l r) false w false s N R H) as [X [Y1 Y2]]; [right; right; eauto|]. cbn [numbers] in N; inversion N; subst; apply (T l r); auto.
  - destruct F as [F1 F2]. destruct H as [H [H1 H2]]. cbn [numbers] in N; inversion N; subst; apply (T l r); auto.
  - destruct F as [F [F1 F2]]. destruct (check_once (Binary n t l r) false w false s N R H) as [X [Y0 [Y1 Y2]]]; [left; auto|]. cbn [numbers] in N; inversion N; subst; apply (T l r); auto.
  - destruct F as [F1 F2]. destruct H as [H [H1 H2]]. cbn [numbers] in N. inversion N as [|? ? N1 N2]; subst. destruct (disjoint_nodup _ _ N2) as (NL & NR & D).
    destruct (check_once l false None true s NL R H1) as [X Y]; [left; reflexivity|]. apply T; auto. eapply sealed_frame; [apply check_later| |exact H2]. intros x P Q. exact (D x Q P).
Qed.
Lemma sealed_start e : forall w, sealed w e {| checked := []; reported := [] |}.
Proof. induction e; intros w; cbn [sealed]; try (split; [intros []|]); try split; auto. intros []. Qed.
