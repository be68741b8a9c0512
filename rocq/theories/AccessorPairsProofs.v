From Coq Require Import Bool Arith Ascii String List Lia.
From Verif Require Import Base EngineProofs.
From Verif Require Import AccessorPairs AccessorPairsSpec.
Import ListNotations.
Open Scope nat_scope.

Section P.
Context (valid : bstr -> bool).

Lemma nth_snoc {A} (l : list A) x i y : nth_error (l ++ [x]) i = Some y <-> nth_error l i = Some y \/ (i = length l /\ x = y).
Proof.
  destruct (Nat.lt_ge_cases i (length l)).
  - rewrite nth_error_app1 by auto. intuition lia.
  - rewrite nth_error_app2 by auto. destruct (Nat.eq_dec i (length l)) as [->|N].
    + rewrite Nat.sub_diag. cbn. split; [intros [= ->]; auto | intros [Q|[_ ->]]; auto]. rewrite (proj2 (nth_error_None _ _)) in Q by lia. discriminate.
    + replace (i - length l) with (S (i - length l - 1)) by lia. cbn. destruct (i - length l - 1); cbn; (split; [discriminate|]); (intros [Q|[Q _]]; [|lia]); rewrite (proj2 (nth_error_None _ _)) in Q by lia; discriminate.
Qed.
Lemma gets_lt l i n t : gets valid l i n t -> i < length l.
Proof. intros (m & A & _). apply nth_error_Some. congruence. Qed.
Lemma sets_lt l i n t : sets valid l i n t -> i < length l.
Proof. intros (m & A & _). apply nth_error_Some. congruence. Qed.
Lemma gets_snoc l m i n t : gets valid (l ++ [m]) i n t <-> gets valid l i n t \/ (i = length l /\ name_text valid (named m) = n /\ what m = Getter (Some t)).
Proof.
  unfold gets. split.
  - intros (m' & A & B & C). apply nth_snoc in A as [A|[-> <-]]; eauto 10.
  - intros [(m' & A & B & C)|(-> & B & C)]; [exists m' | exists m]; rewrite nth_snoc; auto.
Qed.
Lemma sets_snoc l m i n t : sets valid (l ++ [m]) i n t <-> sets valid l i n t \/ (i = length l /\ name_text valid (named m) = n /\ what m = Setter [t]).
Proof.
  unfold sets. split.
  - intros (m' & A & B & C). apply nth_snoc in A as [A|[-> <-]]; eauto 10.
  - intros [(m' & A & B & C)|(-> & B & C)]; [exists m' | exists m]; rewrite nth_snoc; auto.
Qed.

Lemma find_cons n m v l : find n ((m, v) :: l) = if beqb m n then Some v else find n l. Proof. reflexivity. Qed.
Lemma beqb_false x y : beqb x y = false <-> x <> y.
Proof. split; [intros A ->; rewrite beqb_refl in A; discriminate | intros N; destruct (beqb x y) eqn:E; auto; apply beqb_eq in E; contradiction]. Qed.

(** What the maps hold after [l]. *)
Definition getters_ok (l : list member) (M : list (bstr * (nat * nat))) : Prop :=
  forall n i t, find n M = Some (i, t) <-> getter_first valid l n /\ gets valid l i n t /\ forall k t', gets valid l k n t' -> k <= i.
Definition setters_ok (l : list member) (M : list (bstr * (nat * nat))) : Prop :=
  forall n i t, find n M = Some (i, t) <-> setter_first valid l n /\ sets valid l i n t /\ forall k t', sets valid l k n t' -> k <= i.
Definition reports_ok assignable (l : list member) (r : list (nat * nat)) : Prop :=
  NoDup r /\ forall i j, In (i, j) r <-> exists n t t', gets valid l i n t /\ sets valid l j n t' /\ paired valid l i j n /\ assignable t t' = false.

Lemma gets_fun l i n n' t t' : gets valid l i n t -> gets valid l i n' t' -> n = n' /\ t = t'.
Proof. intros (m & A & B & C) (m' & A' & B' & C'). rewrite A in A'. injection A' as <-. split; congruence. Qed.
Lemma sets_fun l i n n' t t' : sets valid l i n t -> sets valid l i n' t' -> n = n' /\ t = t'.
Proof. intros (m & A & B & C) (m' & A' & B' & C'). rewrite A in A'. injection A' as <-. split; congruence. Qed.

Lemma not_both l n : setter_first valid l n -> getter_first valid l n -> False.
Proof. intros (s & t & A & B) (g & t' & C & D). specialize (B _ _ C). specialize (D _ _ A). lia. Qed.

(** A name with a getter has a first accessor of one kind. *)
Lemma has_last (P : nat -> Prop) (dec : forall i, P i \/ ~ P i) n : (exists i, P i /\ i < n) -> exists i, P i /\ i < n /\ forall k, P k -> k < n -> k <= i.
Proof.
  induction n; intros (i & A & B); [lia|]. destruct (dec n) as [D|D]; [exists n; repeat split; auto; intros; lia|].
  destruct IHn as (j & J1 & J2 & J3). { exists i. split; auto. assert (i <> n) by (intros ->; contradiction). lia. }
  exists j. repeat split; auto. intros k K1 K2. destruct (Nat.eq_dec k n) as [->|]; [contradiction|]. apply J3; auto. lia.
Qed.
Lemma has_first (P : nat -> Prop) (dec : forall i, P i \/ ~ P i) i : P i -> exists j, P j /\ forall k, P k -> j <= k.
Proof.
  induction i as [i IH] using (well_founded_induction lt_wf). intros A.
  destruct (dec i) as [_|D]; [|contradiction].
  assert (X : (exists k, k < i /\ P k) \/ forall k, k < i -> ~ P k).
  { clear - dec. induction i; [right; lia|]. destruct IHi as [(k & A & B)|N]; [left; exists k; auto|]. destruct (dec i) as [D|D]; [left; eauto|]. right. intros k K. destruct (Nat.eq_dec k i) as [->|]; auto. apply N. lia. }
  destruct X as [(k & K & B)|N]; [now apply (IH k)|]. exists i. split; auto. intros k B. destruct (Nat.lt_ge_cases k i); auto. exfalso. eapply N; eauto.
Qed.
Lemma gets_dec l n i : (exists t, gets valid l i n t) \/ ~ (exists t, gets valid l i n t).
Proof.
  unfold gets. destruct (nth_error l i) as [m|] eqn:E; [|right; intros (t & m & A & _); congruence].
  destruct (what m) as [[t|]| |] eqn:W; try (right; intros (t' & m' & A & B & C); congruence).
  destruct (beqb (name_text valid (named m)) n) eqn:Q; [apply beqb_eq in Q; left; eauto | right; intros (t' & m' & A & B & C); apply beqb_false in Q; congruence].
Qed.
Lemma sets_dec l n i : (exists t, sets valid l i n t) \/ ~ (exists t, sets valid l i n t).
Proof.
  unfold sets. destruct (nth_error l i) as [m|] eqn:E; [|right; intros (t & m & A & _); congruence].
  destruct (what m) as [|[|t [|? ?]]|] eqn:W; try (right; intros (t' & m' & A & B & C); congruence).
  destruct (beqb (name_text valid (named m)) n) eqn:Q; [apply beqb_eq in Q; left; eauto | right; intros (t' & m' & A & B & C); apply beqb_false in Q; congruence].
Qed.
Lemma differ_gs l i n n' t t' : gets valid l i n t -> sets valid l i n' t' -> False.
Proof. intros (m & A & B & C) (m' & A' & B' & C'). congruence. Qed.

Lemma none_setter l M n : setters_ok l M -> find n M = None -> ~ setter_first valid l n.
Proof.
  intros O N F. destruct F as (s & t & A & B).
  destruct (has_last (fun i => exists t, sets valid l i n t) (sets_dec l n) (length l)) as (j & [t' J1] & J2 & J3); [exists s; split; eauto; eapply sets_lt; eauto|].
  assert (Q : find n M = Some (j, t')). { apply O. split; [exists s, t; auto|]. split; auto. intros k t'' K. apply J3; eauto. eapply sets_lt; eauto. }
  congruence.
Qed.
Lemma none_getter l M n : getters_ok l M -> find n M = None -> ~ getter_first valid l n.
Proof.
  intros O N F. destruct F as (s & t & A & B).
  destruct (has_last (fun i => exists t, gets valid l i n t) (gets_dec l n) (length l)) as (j & [t' J1] & J2 & J3); [exists s; split; eauto; eapply gets_lt; eauto|].
  assert (Q : find n M = Some (j, t')). { apply O. split; [exists s, t; auto|]. split; auto. intros k t'' K. apply J3; eauto. eapply gets_lt; eauto. }
  congruence.
Qed.
(** With neither kind first, there are no accessors. *)
Lemma some_first l n i t : gets valid l i n t \/ sets valid l i n t -> setter_first valid l n \/ getter_first valid l n.
Proof.
  intros A.
  destruct (has_first (fun i => (exists t, gets valid l i n t) \/ (exists t, sets valid l i n t))
    (fun i => match gets_dec l n i, sets_dec l n i with or_introl g, _ => or_introl (or_introl g) | _, or_introl s => or_introl (or_intror s) | or_intror g, or_intror s => or_intror (fun q => match q with or_introl x => g x | or_intror x => s x end) end) i) as (j & [[t' J]|[t' J]] & F).
  - destruct A; [left|right]; eauto.
  - right. exists j, t'. split; auto. intros s t'' S. assert (j <= s) by (apply F; right; eauto). assert (j <> s) by (intros ->; eapply differ_gs; eauto). lia.
  - left. exists j, t'. split; auto. intros s t'' S. assert (j <= s) by (apply F; left; eauto). assert (j <> s) by (intros ->; eapply differ_gs; eauto). lia.
Qed.

(** Earlier members decide what comes first. *)
Lemma setter_first_snoc l m n : setter_first valid (l ++ [m]) n <-> setter_first valid l n \/ (name_text valid (named m) = n /\ (exists t, what m = Setter [t]) /\ forall i t, ~ gets valid l i n t).
Proof.
  unfold setter_first. split.
  - intros (s & t & A & B). apply sets_snoc in A as [A|(-> & A1 & A2)].
    + left. exists s, t. split; auto. intros g t' G. eapply B. apply gets_snoc. eauto.
    + right. split; auto. split; eauto. intros i t' G. assert (L := gets_lt _ _ _ _ G). assert (length l < i); [|lia]. eapply B. apply gets_snoc. eauto.
  - intros [(s & t & A & B)|(A1 & [t A2] & B)].
    + exists s, t. split; [apply sets_snoc; auto|]. intros g t' G. apply gets_snoc in G as [G|(-> & _)]; [eauto|]. eapply sets_lt; eauto.
    + exists (length l), t. split; [apply sets_snoc; auto|]. intros g t' G. apply gets_snoc in G as [G|(-> & _ & W)]; [exfalso; eapply B; eauto | congruence].
Qed.
Lemma getter_first_snoc l m n : getter_first valid (l ++ [m]) n <-> getter_first valid l n \/ (name_text valid (named m) = n /\ (exists t, what m = Getter (Some t)) /\ forall i t, ~ sets valid l i n t).
Proof.
  unfold getter_first. split.
  - intros (s & t & A & B). apply gets_snoc in A as [A|(-> & A1 & A2)].
    + left. exists s, t. split; auto. intros g t' G. eapply B. apply sets_snoc. eauto.
    + right. split; auto. split; eauto. intros i t' G. assert (L := sets_lt _ _ _ _ G). assert (length l < i); [|lia]. eapply B. apply sets_snoc. eauto.
  - intros [(s & t & A & B)|(A1 & [t A2] & B)].
    + exists s, t. split; [apply gets_snoc; auto|]. intros g t' G. apply sets_snoc in G as [G|(-> & _)]; [eauto|]. eapply gets_lt; eauto.
    + exists (length l), t. split; [apply gets_snoc; auto|]. intros g t' G. apply sets_snoc in G as [G|(-> & _ & W)]; [exfalso; eapply B; eauto | congruence].
Qed.

(** Members that do not matter for [n]. *)
Definition quiet_get (m : member) (n : bstr) : Prop := forall t, name_text valid (named m) = n -> what m <> Getter (Some t).
Definition quiet_set (m : member) (n : bstr) : Prop := forall t, name_text valid (named m) = n -> what m <> Setter [t].
Lemma gets_quiet l m n i t : quiet_get m n -> (gets valid (l ++ [m]) i n t <-> gets valid l i n t).
Proof. intros Q. rewrite gets_snoc. split; [intros [A|(_ & A & B)]; auto; exfalso; eapply Q; eauto | auto]. Qed.
Lemma sets_quiet l m n i t : quiet_set m n -> (sets valid (l ++ [m]) i n t <-> sets valid l i n t).
Proof. intros Q. rewrite sets_snoc. split; [intros [A|(_ & A & B)]; auto; exfalso; eapply Q; eauto | auto]. Qed.
Lemma sfirst_quiet l m n : quiet_set m n -> (setter_first valid (l ++ [m]) n <-> setter_first valid l n).
Proof. intros Q. rewrite setter_first_snoc. split; [intros [A|(A & [t B] & _)]; auto; exfalso; eapply Q; eauto | auto]. Qed.
Lemma gfirst_quiet l m n : quiet_get m n -> (getter_first valid (l ++ [m]) n <-> getter_first valid l n).
Proof. intros Q. rewrite getter_first_snoc. split; [intros [A|(A & [t B] & _)]; auto; exfalso; eapply Q; eauto | auto]. Qed.

(** A pair of members of [l] stays one. *)
Lemma paired_old l m i j n t t' : gets valid l i n t -> sets valid l j n t' -> (paired valid (l ++ [m]) i j n <-> paired valid l i j n).
Proof.
  intros G S. unfold paired. assert (Li := gets_lt _ _ _ _ G). assert (Lj := sets_lt _ _ _ _ S).
  rewrite setter_first_snoc, getter_first_snoc. split.
  - intros [([F|(_ & _ & F)] & A & B)|([F|(_ & _ & F)] & A & B)]; try (exfalso; eapply F; eauto; fail).
    + left. split; auto. split; auto. intros k u K. apply (B k u). apply sets_snoc; auto.
    + right. split; auto. split; auto. intros k u K. apply (B k u). apply gets_snoc; auto.
  - intros [(F & A & B)|(F & A & B)].
    + left. split; auto. split; auto. intros k u K L. apply sets_snoc in K as [K|(-> & _)]; [eauto | lia].
    + right. split; auto. split; auto. intros k u K L. apply gets_snoc in K as [K|(-> & _)]; [eauto | lia].
Qed.

Context (assignable : nat -> nat -> bool).
Definition ok l st : Prop := index st = length l /\ getters_ok l (getters st) /\ setters_ok l (setters st) /\ reports_ok assignable l (reports st).

Lemma nodup_snoc {A} (l : list A) x : NoDup l -> ~ In x l -> NoDup (l ++ [x]).
Proof. intros N I'. apply NoDup_rev in N. rewrite <- (rev_involutive (l ++ [x])), rev_app_distr. apply NoDup_rev. cbn. constructor; auto. now rewrite <- in_rev. Qed.

(** Reports from a new getter or setter. *)
Lemma reports_quiet l m r : reports_ok assignable l r -> (forall n i j t t', (i = length l \/ j = length l) -> gets valid (l ++ [m]) i n t -> sets valid (l ++ [m]) j n t' -> paired valid (l ++ [m]) i j n -> assignable t t' = false -> False) -> reports_ok assignable (l ++ [m]) r.
Proof.
  intros [N R] Q. split; auto. intros i j. rewrite R. split.
  - intros (n & t & t' & A & B & C & D). exists n, t, t'. split; [apply gets_snoc; auto|]. split; [apply sets_snoc; auto|]. split; auto. apply (proj2 (paired_old l m i j n t t' A B)); auto.
  - intros (n & t & t' & A & B & C & D).
    assert (A' := A). assert (B' := B). apply gets_snoc in A' as [A'|(E & A1 & A2)]; [|exfalso; eapply (Q n i j t t'); eauto]. apply sets_snoc in B' as [B'|(E & B1 & B2)]; [|exfalso; eapply (Q n i j t t'); eauto].
    exists n, t, t'. split; auto. split; auto. split; auto. apply (proj1 (paired_old l m i j n t t' A' B')); auto.
Qed.
Lemma reports_more l m r i j n t t' : reports_ok assignable l r -> (i = length l \/ j = length l) -> gets valid (l ++ [m]) i n t -> sets valid (l ++ [m]) j n t' -> paired valid (l ++ [m]) i j n ->
  (forall n i' j' t t', (i' = length l \/ j' = length l) -> gets valid (l ++ [m]) i' n t -> sets valid (l ++ [m]) j' n t' -> paired valid (l ++ [m]) i' j' n -> i' = i /\ j' = j) ->
  reports_ok assignable (l ++ [m]) (if negb (assignable t t') then r ++ [(i, j)] else r).
Proof.
  intros RO E G S P U. destruct (assignable t t') eqn:AS; cbn [negb].
  - apply reports_quiet; auto. intros n' i' j' u u' E' G' S' P' AS'. destruct (U n' i' j' u u' E' G' S' P') as [-> ->].
    destruct (gets_fun _ _ _ _ _ _ G G') as [_ <-]. destruct (sets_fun _ _ _ _ _ _ S S') as [_ <-]. congruence.
  - destruct RO as [N R]. split.
    + apply nodup_snoc; auto. intros H. apply R in H as (n' & u & u' & G' & S' & _). apply gets_lt in G'. apply sets_lt in S'. lia.
    + intros i' j'. rewrite in_app_iff, R. cbn [In]. split.
      * intros [(n' & u & u' & G' & S' & P' & A')|[Q|[]]].
        -- exists n', u, u'. split; [apply gets_snoc; auto|]. split; [apply sets_snoc; auto|]. split; auto. apply (proj2 (paired_old l m i' j' n' u u' G' S')); auto.
        -- injection Q as <- <-. exists n, t, t'. auto.
      * intros (n' & u & u' & G' & S' & P' & A'). assert (G2 := G'). assert (S2 := S').
        apply gets_snoc in G2 as [G2|(E1 & _)]; [|right; left; destruct (U n' i' j' u u' (or_introl E1) G' S' P') as [-> ->]; auto].
        apply sets_snoc in S2 as [S2|(E1 & _)]; [|right; left; destruct (U n' i' j' u u' (or_intror E1) G' S' P') as [-> ->]; auto].
        left. exists n', u, u'. split; auto. split; auto. split; auto. apply (proj1 (paired_old l m i' j' n' u u' G2 S2)); auto.
Qed.

Lemma setters_quiet l m M : setters_ok l M -> (forall n, quiet_set m n) -> setters_ok (l ++ [m]) M.
Proof.
  intros B Q n i t. rewrite (B n i t), sfirst_quiet, sets_quiet by auto.
  split; intros (X & Y & Z); (split; [auto|]); (split; [auto|]); intros k u K; apply (Z k u).
  - now apply sets_quiet in K.
  - now apply sets_quiet.
Qed.
Lemma getters_quiet l m M : getters_ok l M -> (forall n, quiet_get m n) -> getters_ok (l ++ [m]) M.
Proof.
  intros B Q n i t. rewrite (B n i t), gfirst_quiet, gets_quiet by auto.
  split; intros (X & Y & Z); (split; [auto|]); (split; [auto|]); intros k u K; apply (Z k u).
  - now apply gets_quiet in K.
  - now apply gets_quiet.
Qed.

Lemma step_getter l st m t : ok l st -> what m = Getter (Some t) -> ok (l ++ [m]) (step valid assignable st m).
Proof.
  intros (I' & G & S' & R) W. set (n := name_text valid (named m)).
  assert (QS : forall n, quiet_set m n) by (intros n' u _; congruence).
  assert (NG : gets valid (l ++ [m]) (length l) n t) by (apply gets_snoc; auto).
  unfold step. rewrite W. fold n. destruct (find n (setters st)) as [[j u]|] eqn:F.
  - apply S' in F as (F1 & F2 & F3). split; [cbn [index]; rewrite I', app_length; cbn; lia|]. split; [|split]; cbn [getters setters reports].
    + intros n' i t'. destruct (beqb n n') eqn:E.
      * apply beqb_eq in E as <-. split.
        -- intros Q. apply G in Q as (Q & _). exfalso. eapply not_both; eauto.
        -- intros (Q & _). exfalso. apply (not_both (l ++ [m]) n); auto; apply sfirst_quiet; auto.
      * apply beqb_false in E. assert (QG : quiet_get m n') by (intros u' X; unfold n in E; congruence).
        rewrite (G n' i t'), gfirst_quiet, gets_quiet by auto.
        split; intros (X & Y & Z); (split; [auto|]); (split; [auto|]); intros k v K; apply (Z k v); [now apply gets_quiet in K | now apply gets_quiet].
    + apply setters_quiet; auto.
    + unfold check_pair. cbn [fst snd]. rewrite I'. assert (J := sets_lt _ _ _ _ F2). apply (reports_more l m (reports st) (length l) j n t u); auto.
      * apply sets_quiet; auto.
      * left. split; [apply sfirst_quiet; auto|]. split; auto. intros k v K _. apply sets_quiet in K; eauto.
      * intros n' i' j' t1 t2 E G' S2 P'. apply sets_quiet in S2; auto. assert (J' := sets_lt _ _ _ _ S2). destruct E as [->| ->]; [|lia].
        destruct (gets_fun _ _ _ _ _ _ NG G') as [<- _]. split; auto. destruct P' as [(_ & P1 & P2)|(P' & _)].
        -- assert (j <= j') by (eapply P2; [apply sets_quiet; eauto | lia]). assert (j' <= j) by eauto. lia.
        -- exfalso. apply (not_both (l ++ [m]) n); auto; apply sfirst_quiet; auto.
  - assert (NS := none_setter _ _ _ S' F). split; [cbn [index]; rewrite I', app_length; cbn; lia|]. split; [|split]; cbn [getters setters reports].
    + intros n' i t'. rewrite find_cons, I'. destruct (beqb n n') eqn:E.
      * apply beqb_eq in E as <-. split.
        -- intros [= <- <-]. split; [|split; auto; intros k u K; apply gets_lt in K; rewrite app_length in K; cbn in K; lia].
           apply getter_first_snoc. destruct (find n (getters st)) as [[g u]|] eqn:F2.
           ++ apply G in F2 as (F2 & _). auto.
           ++ right. split; auto. split; eauto. intros i v X. assert (NG2 := none_getter _ _ _ G F2). destruct (some_first l n i v); auto.
        -- intros (X & Y & Z). assert (E : i = length l). { assert (length l <= i) by eauto. apply gets_lt in Y. rewrite app_length in Y. cbn in Y. lia. }
           subst i. destruct (gets_fun _ _ _ _ _ _ NG Y) as [_ <-]. reflexivity.
      * apply beqb_false in E. assert (QG : quiet_get m n') by (intros u' X; unfold n in E; congruence).
        rewrite (G n' i t'), gfirst_quiet, gets_quiet by auto.
        split; intros (X & Y & Z); (split; [auto|]); (split; [auto|]); intros k v K; apply (Z k v); [now apply gets_quiet in K | now apply gets_quiet].
    + apply setters_quiet; auto.
    + apply reports_quiet; auto. intros n' i' j' t1 t2 E G' S2 P' _. apply sets_quiet in S2; auto. assert (J' := sets_lt _ _ _ _ S2). destruct E as [->| ->]; [|lia].
      destruct (gets_fun _ _ _ _ _ _ NG G') as [<- _]. destruct P' as [(P' & _)|(_ & P' & _)]; [|lia]. apply NS. apply sfirst_quiet in P'; auto.
Qed.

Lemma step_setter l st m t : ok l st -> what m = Setter [t] -> ok (l ++ [m]) (step valid assignable st m).
Proof.
  intros (I' & G & S' & R) W. set (n := name_text valid (named m)).
  assert (QG : forall n, quiet_get m n) by (intros n' u _; congruence).
  assert (NG : sets valid (l ++ [m]) (length l) n t) by (apply sets_snoc; auto).
  unfold step. rewrite W. fold n. destruct (find n (getters st)) as [[j u]|] eqn:F.
  - apply G in F as (F1 & F2 & F3). split; [cbn [index]; rewrite I', app_length; cbn; lia|]. split; [|split]; cbn [getters setters reports].
    + apply getters_quiet; auto.
    + intros n' i t'. destruct (beqb n n') eqn:E.
      * apply beqb_eq in E as <-. split.
        -- intros Q. apply S' in Q as (Q & _). exfalso. eapply not_both; eauto.
        -- intros (Q & _). exfalso. apply (not_both (l ++ [m]) n); auto; apply gfirst_quiet; auto.
      * apply beqb_false in E. assert (QS : quiet_set m n') by (intros u' X; unfold n in E; congruence).
        rewrite (S' n' i t'), sfirst_quiet, sets_quiet by auto.
        split; intros (X & Y & Z); (split; [auto|]); (split; [auto|]); intros k v K; apply (Z k v); [now apply sets_quiet in K | now apply sets_quiet].
    + unfold check_pair. cbn [fst snd]. rewrite I'. assert (J := gets_lt _ _ _ _ F2). apply (reports_more l m (reports st) j (length l) n u t); auto.
      * apply gets_quiet; auto.
      * right. split; [apply gfirst_quiet; auto|]. split; auto. intros k v K _. apply gets_quiet in K; eauto.
      * intros n' i' j' t1 t2 E G' S2 P'. apply gets_quiet in G'; auto. assert (J' := gets_lt _ _ _ _ G'). destruct E as [->| ->]; [lia|].
        destruct (sets_fun _ _ _ _ _ _ NG S2) as [<- _]. split; auto. destruct P' as [(P' & _)|(_ & P1 & P2)].
        -- exfalso. apply (not_both (l ++ [m]) n); auto; apply gfirst_quiet; auto.
        -- assert (j <= i') by (eapply P2; [apply gets_quiet; eauto | lia]). assert (i' <= j) by eauto. lia.
  - assert (NS := none_getter _ _ _ G F). split; [cbn [index]; rewrite I', app_length; cbn; lia|]. split; [|split]; cbn [getters setters reports].
    + apply getters_quiet; auto.
    + intros n' i t'. rewrite find_cons, I'. destruct (beqb n n') eqn:E.
      * apply beqb_eq in E as <-. split.
        -- intros [= <- <-]. split; [|split; auto; intros k u K; apply sets_lt in K; rewrite app_length in K; cbn in K; lia].
           apply setter_first_snoc. destruct (find n (setters st)) as [[g u]|] eqn:F2.
           ++ apply S' in F2 as (F2 & _). auto.
           ++ right. split; auto. split; eauto. intros i v X. assert (NG2 := none_setter _ _ _ S' F2). destruct (some_first l n i v); auto.
        -- intros (X & Y & Z). assert (E : i = length l). { assert (length l <= i) by eauto. apply sets_lt in Y. rewrite app_length in Y. cbn in Y. lia. }
           subst i. destruct (sets_fun _ _ _ _ _ _ NG Y) as [_ <-]. reflexivity.
      * apply beqb_false in E. assert (QS : quiet_set m n') by (intros u' X; unfold n in E; congruence).
        rewrite (S' n' i t'), sfirst_quiet, sets_quiet by auto.
        split; intros (X & Y & Z); (split; [auto|]); (split; [auto|]); intros k v K; apply (Z k v); [now apply sets_quiet in K | now apply sets_quiet].
    + apply reports_quiet; auto. intros n' i' j' t1 t2 E G' S2 P' _. apply gets_quiet in G'; auto. assert (J' := gets_lt _ _ _ _ G'). destruct E as [->| ->]; [lia|].
      destruct (sets_fun _ _ _ _ _ _ NG S2) as [<- _]. destruct P' as [(_ & P' & _)|(P' & _)]; [lia|]. apply NS. apply gfirst_quiet in P'; auto.
Qed.

Lemma step_other l st m : ok l st -> (forall n, quiet_get m n) -> (forall n, quiet_set m n) ->
  step valid assignable st m = {| index := S (index st); getters := getters st; setters := setters st; reports := reports st |} -> ok (l ++ [m]) (step valid assignable st m).
Proof.
  intros (I' & G & S' & R) QG QS ->. split; [cbn [index]; rewrite I', app_length; cbn; lia|]. split; [now apply getters_quiet|]. split; [now apply setters_quiet|].
  cbn [reports]. apply reports_quiet; auto. intros n i j t t' E A B _ _. apply gets_quiet in A; auto. apply sets_quiet in B; auto. apply gets_lt in A. apply sets_lt in B. lia.
Qed.

Lemma step_ok l st m : ok l st -> ok (l ++ [m]) (step valid assignable st m).
Proof.
  intros O. destruct (what m) as [[t|]|ps|] eqn:W.
  - eapply step_getter; eauto.
  - apply step_other; auto; try (intros n u _; congruence). unfold step. now rewrite W.
  - destruct ps as [|t [|u ps]].
    + apply step_other; auto; try (intros n v _; congruence). unfold step. now rewrite W.
    + eapply step_setter; eauto.
    + apply step_other; auto; try (intros n v _; congruence). unfold step. now rewrite W.
  - apply step_other; auto; try (intros n u _; congruence). unfold step. now rewrite W.
Qed.

Lemma start_ok : ok [] {| index := 0; getters := []; setters := []; reports := [] |}.
Proof.
  assert (NG : forall i n t, ~ gets valid [] i n t) by (intros i n t (m & A & _); destruct i; discriminate).
  assert (NS : forall i n t, ~ sets valid [] i n t) by (intros i n t (m & A & _); destruct i; discriminate).
  split; [reflexivity|]. split; [|split].
  - intros n i t. split; [discriminate|]. intros (_ & A & _). exfalso. eapply NG; eauto.
  - intros n i t. split; [discriminate|]. intros (_ & A & _). exfalso. eapply NS; eauto.
  - split; [constructor|]. intros i j. split; [intros [] | intros (n & t & t' & A & _); eapply NG; eauto].
Qed.
Lemma fold_ok todo : forall l st, ok l st -> ok (l ++ todo) (fold_left (step valid assignable) todo st).
Proof. induction todo as [|m todo IH]; intros l st O; cbn [fold_left]; [now rewrite app_nil_r|]. change (l ++ m :: todo) with (l ++ [m] ++ todo). rewrite app_assoc. apply IH, step_ok, O. Qed.
Lemma check_ok l : reports_ok assignable l (check_members valid assignable l).
Proof. exact (proj2 (proj2 (proj2 (fold_ok l [] _ start_ok)))). Qed.

Lemma paired_one l i j n t t' : one_each valid l -> gets valid l i n t -> sets valid l j n t' -> paired valid l i j n.
Proof.
  intros [U1 U2] G S'. assert (i <> j) by (intros ->; eapply differ_gs; eauto). destruct (Nat.lt_ge_cases i j).
  - right. split; [|split; auto; intros k u K _; now rewrite (U1 k i n u t K G)]. exists i, t. split; auto. intros s u K. now rewrite (U2 s j n u t' K S').
  - left. split; [|split; [lia|]; intros k u K _; now rewrite (U2 k j n u t' K S')]. exists j, t'. split; auto. intros s u K. rewrite (U1 s i n u t K G). lia.
Qed.

(** Names. *)
Lemma text_key n n' k k' : proper_identifiers valid -> proper valid n -> proper valid n' -> plain n -> plain n' -> has_key n k -> has_key n' k' -> (name_text valid n = name_text valid n' <-> k = k').
Proof.
  intros V P P' L L' K K'.
  assert (QV : forall t r, valid t = true -> quote ++ r <> t). { intros t r E Q. destruct (V t E) as [_ X]. apply X. exists r. now rewrite <- Q. }
  assert (HV : forall t r, valid t = true -> starts "#"%char r -> r <> t). { intros t r E S Q. subst. destruct (V t E) as [X _]. auto. }
  assert (HQ : forall t r, starts "#"%char r -> quote ++ t <> r). { intros t r [x ->] Q. discriminate. }
  assert (QQ : forall t t', quote ++ t ++ quote = quote ++ t' ++ quote -> t = t'). { intros t t' Q. apply app_inv_head in Q. now apply app_inv_tail in Q. }
  destruct K, K'; cbn [proper plain name_text] in *; try contradiction;
    repeat match goal with |- context [valid ?t] => let E := fresh "E" in destruct (valid t) eqn:E end; cbn [negb];
    (split; [intros Q; first [ now rewrite Q | f_equal; now apply QQ | exfalso; symmetry in Q; first [eapply QV; now eauto | eapply HV; now eauto | eapply HQ; now eauto] | exfalso; first [eapply QV; now eauto | eapply HV; now eauto | eapply HQ; now eauto] | idtac ]
            | intros [= Q]; subst; first [reflexivity | congruence] ]).
Qed.
End P.
