(** The analysis of the members of a condition's type depends on the set of members only. *)
From Coq Require Import Bool List ZArith Lia Permutation.
From Verif Require Import Base Types StrictBool.
Import ListNotations.
Open Scope Z_scope.

Lemma veqb a c : variant_eqb a c = true <-> a = c.
Proof. unfold variant_eqb. destruct (variant_eq_dec a c); split; auto; discriminate. Qed.
Lemma veqb_refl a : variant_eqb a a = true.
Proof. now apply veqb. Qed.
Lemma existsb_veqb v l : existsb (variant_eqb v) l = true <-> In v l.
Proof.
  rewrite existsb_exists. split.
  - intros (x & I & E). apply veqb in E. now subst.
  - intros I. exists v. split; [auto|apply veqb_refl].
Qed.

Definition start := Loop [] false false false false.
Definition prim (p : info) : bool := is_primitive (i_variant p).

(** What the loop computes. *)
Lemma loop_spec ps : forall s, NoDup (l_variants s) ->
  let r := fold_left round ps s in
  NoDup (l_variants r) /\
  (forall v, In v (l_variants r) <-> In v (l_variants s) \/ exists p, In p ps /\ i_variant p = v) /\
  (l_nullable r = true <-> l_nullable s = true \/ exists p, In p ps /\ i_variant p = VNullish) /\
  (l_enum r = true <-> l_enum s = true \/ exists p, In p ps /\ i_enum p = true).
Proof.
  induction ps as [|p ps IH]; intros s ND; cbn [fold_left].
  - split; [auto|]. split; [|split]; intros; (split; [auto|]); intros [X|(? & [] & _)]; auto.
  - assert (R : NoDup (l_variants (round s p)) /\ (forall v, In v (l_variants (round s p)) <-> i_variant p = v \/ In v (l_variants s)) /\
      l_nullable (round s p) = variant_eqb (i_variant p) VNullish || l_nullable s /\ l_enum (round s p) = i_enum p || l_enum s).
    { unfold round. set (vs := if existsb (variant_eqb (i_variant p)) (l_variants s) then _ else _).
      assert (V : NoDup vs /\ forall v, In v vs <-> i_variant p = v \/ In v (l_variants s)).
      { subst vs. destruct (existsb (variant_eqb (i_variant p)) (l_variants s)) eqn:E.
        - apply existsb_veqb in E. split; [auto|]. intros v. split; [auto|]. intros [<-|X]; auto.
        - split; [|intros v; reflexivity]. constructor; [|auto]. intros X. apply existsb_veqb in X. congruence. }
      destruct V as [V1 V2]. destruct (is_primitive (i_variant p)); [destruct (l_met s)|]; cbn; auto. }
    destruct R as (R1 & R2 & R3 & R4). specialize (IH (round s p) R1). cbn beta zeta in IH.
    destruct IH as (I1 & I2 & I3 & I4). split; [auto|]. split; [|split].
    + intros v. rewrite I2, R2. split.
      * intros [[X|X]|(q & Q & X)]; [right; exists p; split; [now left|auto]|auto|right; exists q; split; [now right|auto]].
      * intros [X|(q & [->|Q] & X)]; [auto|auto|]. right. eauto.
    + rewrite I3, R3, orb_true_iff, veqb. split.
      * intros [[X|X]|(q & Q & X)]; [right; exists p; split; [now left|auto]|auto|right; exists q; split; [now right|auto]].
      * intros [X|(q & [->|Q] & X)]; [auto|auto|]. right. eauto.
    + rewrite I4, R4, orb_true_iff. split.
      * intros [[X|X]|(q & Q & X)]; [right; exists p; split; [now left|auto]|auto|right; exists q; split; [now right|auto]].
      * intros [X|(q & [->|Q] & X)]; [auto|auto|]. right. eauto.
Qed.
Lemma truthy_loop ps : forall s, (l_met s = true -> l_truthy s = false) ->
  l_truthy (fold_left round ps s) = true <->
  l_met s = false /\ (forall p, In p ps -> prim p = true -> i_truthy p = true) /\
  (l_truthy s = true \/ exists p, In p ps /\ prim p = true).
Proof.
  induction ps as [|p ps IH]; intros s M; cbn [fold_left].
  - split.
    + intros T. split; [destruct (l_met s); [now rewrite M in T|reflexivity]|]. split; [intros p []|now left].
    + intros (_ & _ & [X|(? & [] & _)]). auto.
  - assert (PR : forall q, prim q = is_primitive (i_variant q)) by reflexivity.
    assert (R : (prim p = false /\ l_met (round s p) = l_met s /\ l_truthy (round s p) = l_truthy s) \/
                (prim p = true /\ l_met s = true /\ l_met (round s p) = true /\ l_truthy (round s p) = l_truthy s) \/
                (prim p = true /\ l_met s = false /\ l_met (round s p) = negb (i_truthy p) /\ l_truthy (round s p) = i_truthy p)).
    { unfold round. rewrite PR. destruct (is_primitive (i_variant p)); [|left; auto].
      destruct (l_met s) eqn:E; right; [left|right]; cbn; auto. }
    assert (M' : l_met (round s p) = true -> l_truthy (round s p) = false).
    { destruct R as [(_ & R1 & R2)|[(_ & R1 & R2 & R3)|(_ & R1 & R2 & R3)]].
      - now rewrite R1, R2.
      - rewrite R3. auto.
      - rewrite R2, R3. now destruct (i_truthy p). }
    rewrite (IH _ M'). destruct R as [(P & R1 & R2)|[(P & R1 & R2 & R3)|(P & R1 & R2 & R3)]].
    + rewrite R1, R2. split.
      * intros (A & B & D). split; [auto|]. split.
        -- intros q [->|Q] X; [congruence|auto].
        -- destruct D as [D|(q & Q & X)]; [auto|]. right. exists q. split; [now right|auto].
      * intros (A & B & D). split; [auto|]. split; [intros q Q; apply B; now right|].
        destruct D as [D|(q & [->|Q] & X)]; [auto|congruence|]. right. eauto.
    + rewrite R1, R2. split; intros (A & _); discriminate.
    + rewrite R1, R2, R3. split.
      * intros (A & B & D). split; [auto|]. apply negb_false_iff in A. split.
        -- intros q [<-|Q] X; auto.
        -- right. exists p. split; [now left|auto].
      * intros (_ & B & _). assert (T : i_truthy p = true) by (apply B; [now left|auto]). rewrite T. split; [reflexivity|].
        split; [|auto]. intros q Q. apply B. now right.
Qed.

(** The variant of a whole type, from the set of variants of its members. *)
Definition is_order (order : list variant -> list variant) : Prop := forall l, Permutation (order l) l.
Definition whole (ps : list info) (v : variant) : Prop :=
  (exists p, In p ps /\ i_variant p = v) /\ (forall p, In p ps -> i_variant p = v) \/
  v <> VNullish /\ (exists p, In p ps /\ i_variant p = v) /\ (exists p, In p ps /\ i_variant p = VNullish) /\
  (forall p, In p ps -> i_variant p = v \/ i_variant p = VNullish).

Lemma analyze_spec order l : is_order order ->
  let ps := map analyze_part l in
  let r := analyze_parts order l in
  (i_nullable r = true <-> exists p, In p ps /\ i_variant p = VNullish) /\
  (i_enum r = true <-> exists p, In p ps /\ i_enum p = true) /\
  (i_truthy r = true <-> (forall p, In p ps -> prim p = true -> i_truthy p = true) /\ exists p, In p ps /\ prim p = true) /\
  (whole ps (i_variant r) \/ i_variant r = VMixed /\ forall v, ~ whole ps v).
Proof.
  intros OR. cbn zeta. set (ps := map analyze_part l). unfold analyze_parts. fold ps. fold start.
  destruct (loop_spec ps start (NoDup_nil _)) as (ND & V & N & E).
  pose proof (truthy_loop ps start (fun X => match Bool.diff_false_true X with end)) as T.
  set (s := fold_left round ps start) in *.
  assert (V' : forall v, In v (l_variants s) <-> exists p, In p ps /\ i_variant p = v).
  { intros v. rewrite V. cbn. split; [intros [[]|X]; auto|auto]. }
  assert (N' : l_nullable s = true <-> exists p, In p ps /\ i_variant p = VNullish).
  { rewrite N. cbn. split; [intros [X|X]; [discriminate|auto]|auto]. }
  split; [exact N'|]. split; [cbn [i_enum]; rewrite E; cbn; split; [intros [X|X]; [discriminate|auto]|auto]|].
  split; [cbn [i_truthy]; rewrite T; cbn; split; [intros (_ & A & [X|X]); [discriminate|auto]|intros (A & B); auto]|].
  cbn [i_variant]. clear T E N. set (vs := l_variants s) in *. specialize (OR vs).
  destruct (Nat.eqb_spec (List.length vs) 1) as [L1|L1].
  - destruct vs as [|v [|w vs0]] eqn:Evs; [discriminate| |cbn in L1; lia].
    apply Permutation_sym in OR. apply Permutation_length_1_inv in OR. rewrite OR. cbn [last].
    left. left. split; [apply V'; now left|]. intros p P. assert (X : In (i_variant p) [v]) by (apply V'; eauto). destruct X as [X|[]]. auto.
  - destruct (Nat.eqb_spec (List.length vs) 2) as [L2|L2]; cbn [andb].
    + destruct (l_nullable s) eqn:NL.
      * assert (XN : In VNullish vs) by now apply V', N'.
        destruct vs as [|v [|w [|z vs0]]] eqn:Evs; try (cbn in L2; lia). clear L1 L2.
        inversion ND as [|? ? ND1 _]; subst.
        assert (exists u, u <> VNullish /\ (forall x, In x [v; w] <-> x = u \/ x = VNullish)) as (u & U & UI).
        { destruct XN as [->|[->|[]]]; [exists w|exists v]; (split; [intros ->; apply ND1; now left|]); intros x; cbn; intuition auto. }
        destruct (find (fun x => negb (variant_eqb x VNullish)) (order [v; w])) as [x|] eqn:F.
        -- apply find_some in F. destruct F as [F1 F2].
           assert (x = u) as ->.
           { assert (X : In x [v; w]) by (eapply Permutation_in; eauto). apply UI in X. destruct X as [X| ->]; [auto|]. rewrite veqb_refl in F2. discriminate. }
           left. right. split; [auto|]. split; [apply V', UI; now left|]. split; [apply V'; auto|].
           intros p P. apply UI, V'. eauto.
        -- exfalso. assert (X : In u (order [v; w])) by (eapply Permutation_in; [apply Permutation_sym, OR|apply UI; now left]).
           apply (find_none _ _ F) in X. apply negb_false_iff, veqb in X. auto.
      * right. split; [reflexivity|]. intros v [[A B]|(A & B & D & _)].
        -- destruct vs as [|x [|y [|z vs0]]] eqn:Evs; try (cbn in L2; lia). inversion ND as [|? ? ND1 _]; subst.
           assert (x = v) as -> by (assert (X : In x [x; y]) by (now left); apply V' in X; destruct X as (p & P & <-); auto).
           assert (y = v) as -> by (assert (X : In y [v; y]) by (right; now left); apply V' in X; destruct X as (p & P & <-); auto).
           apply ND1. now left.
        -- apply N' in D. discriminate.
    + right. split; [reflexivity|]. intros v H.
      assert (SUB : exists a, incl vs [v; a] /\ (a = v \/ a = VNullish /\ v <> VNullish)).
      { destruct H as [[A B]|(A & B & D & G)].
        - exists v. split; [|now left]. intros x X. apply V' in X. destruct X as (p & P & <-). left. symmetry. auto.
        - exists VNullish. split; [|auto]. intros x X. apply V' in X. destruct X as (p & P & <-). destruct (G p P) as [->| ->]; cbn; auto. }
      destruct SUB as (a & S & K). pose proof (NoDup_incl_length ND S) as LE. cbn [List.length] in LE.
      assert (List.length vs = 0%nat) as L0 by lia. destruct vs; [|discriminate].
      assert (exists p, In p ps /\ i_variant p = v) as X by (destruct H as [[A _]|(_ & A & _)]; auto). apply V' in X. destruct X.
Qed.

Lemma whole_unique ps v w : whole ps v -> whole ps w -> v = w.
Proof.
  intros [[(p & P & A) B]|(A & (p & P & B) & (q & Q & D) & G)] [[(p' & P' & A') B']|(A' & (p' & P' & B') & (q' & Q' & D') & G')].
  - rewrite <- (B p' P'). auto.
  - specialize (B p' P'). congruence.
  - specialize (B' p P). congruence.
  - destruct (G' p P) as [X|X]; congruence.
Qed.

(** Lists with the same members have the same analysis, whatever the map order. *)
Lemma analyze_set order order' l l' : is_order order -> is_order order' -> (forall t, In t l <-> In t l') ->
  analyze_parts order l = analyze_parts order' l'.
Proof.
  intros O O' S. pose proof (analyze_spec order l O) as A. pose proof (analyze_spec order' l' O') as B. cbn zeta in *.
  assert (M : forall p, In p (map analyze_part l) <-> In p (map analyze_part l')).
  { intros p. rewrite !in_map_iff. split; intros (t & E & I); exists t; (split; [auto|]); now apply S. }
  assert (X : forall a c : bool, (a = true <-> c = true) -> a = c).
  { intros [|] [|] [P Q]; try reflexivity; [symmetry; apply P|apply Q]; reflexivity. }
  destruct A as (A1 & A2 & A3 & A4), B as (B1 & B2 & B3 & B4).
  assert (EX : forall P : info -> Prop, (exists p, In p (map analyze_part l) /\ P p) <-> exists p, In p (map analyze_part l') /\ P p).
  { intros P. split; intros (p & I & Q); exists p; (split; [now apply M|auto]). }
  assert (W : forall v, whole (map analyze_part l) v <-> whole (map analyze_part l') v).
  { intros v. unfold whole.
    assert (AL : forall P : info -> Prop, (forall p, In p (map analyze_part l) -> P p) <-> forall p, In p (map analyze_part l') -> P p).
    { intros P. split; intros Q p I; apply Q; now apply M. }
    rewrite !(EX (fun p => i_variant p = _)), !(AL (fun p => i_variant p = v)), (AL (fun p => i_variant p = v \/ i_variant p = VNullish)). reflexivity. }
  destruct (analyze_parts order l) as [v1 n1 t1 e1], (analyze_parts order' l') as [v2 n2 t2 e2]. cbn [i_variant i_nullable i_truthy i_enum] in *.
  f_equal.
  - destruct A4 as [A4|[-> A4]], B4 as [B4|[-> B4]]; auto.
    + apply W in A4. eapply whole_unique; eauto.
    + apply W in A4. destruct (B4 _ A4).
    + apply W in B4. destruct (A4 _ B4).
  - apply X. rewrite A1, B1. apply EX.
  - apply X. rewrite A3, B3. rewrite (EX (fun p => prim p = true)).
    split; intros (P & Q); (split; [|auto]); intros p I; apply P; now apply M.
  - apply X. rewrite A2, B2. apply EX.
Qed.
