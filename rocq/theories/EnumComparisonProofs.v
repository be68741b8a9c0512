(** Proofs about no-unsafe-enum-comparison. *)
From Coq Require Import Bool List Arith NArith Lia.
From Verif Require Import EnumComparison EnumComparisonSpec.
Import ListNotations.

Lemma str_eqb_eq : forall a c, str_eqb a c = true <-> a = c.
Proof.
  induction a as [|x a IH]; intros [|y c]; cbn; split; intros H; try discriminate; try reflexivity.
  - apply andb_true_iff in H as [H1 H2]. apply N.eqb_eq in H1. apply IH in H2. congruence.
  - injection H as -> ->. rewrite N.eqb_refl. now apply IH.
Qed.

(** * Quoting *)
Lemma small : forall c, (c <=? 31)%N = true -> In c (map N.of_nat (seq 0 32)).
Proof. intros c H. apply N.leb_le in H. apply in_map_iff. exists (N.to_nat c). split; [apply N2Nat.id|]. apply in_seq. lia. Qed.
Lemma scan_char : forall c s, scan (quote_char c ++ s) = cons_value c (scan s).
Proof.
  intros c s. unfold quote_char.
  repeat match goal with |- context [(c =? ?n)%N] => let E := fresh in destruct (c =? n)%N eqn:E; [apply N.eqb_eq in E; subst c; reflexivity|] end. cbn [orb].
  destruct (c <=? 31)%N eqn:L.
  - apply small in L. cbn in L. repeat (destruct L as [<-|L]; [reflexivity|]). destruct L.
  - cbn [app scan]. rewrite H6, H5, H4, H3. cbn [orb]. reflexivity.
Qed.
Lemma scan_quote : forall s r, scan (flat_map quote_char s ++ 39%N :: r) = Some (s, r).
Proof. induction s as [|c s IH]; intros r; [reflexivity|]. cbn [flat_map]. rewrite <- app_assoc, scan_char, IH. reflexivity. Qed.
Lemma hex_digit_range : forall c, (c < 16)%N -> (48 <= hex_digit c <= 70)%N.
Proof. intros c H. unfold hex_digit. destruct (c <? 10)%N eqn:E; [apply N.ltb_lt in E|apply N.ltb_ge in E]; lia. Qed.
Lemma quote_char_safe : forall c x, In x (quote_char c) -> (32 <= x)%N /\ x <> 133%N /\ x <> 8232%N /\ x <> 8233%N.
Proof.
  intros c x. unfold quote_char.
  repeat match goal with |- context [(c =? ?n)%N] => let E := fresh in destruct (c =? n)%N eqn:E; [apply N.eqb_eq in E; subst c; cbn; intros HH; repeat (destruct HH as [<-|HH]; [lia|]); destruct HH|] end. cbn [orb].
  destruct (c <=? 31)%N eqn:L.
  - apply small in L. intros HH. cbn in L. repeat (destruct L as [<-|L]; [cbn in HH; repeat (destruct HH as [<-|HH]; [lia|]); destruct HH|]). destruct L.
  - apply N.leb_gt in L. intros [<-|[]]. repeat match goal with E : (c =? _)%N = false |- _ => apply N.eqb_neq in E end. repeat split; auto. lia.
Qed.
Lemma scan_app : forall s v r t, scan s = Some (v, r) -> scan (s ++ t) = Some (v, r ++ t).
Proof.
  intros s. assert (forall n s, length s <= n -> forall v r t, scan s = Some (v, r) -> scan (s ++ t) = Some (v, r ++ t)) as G.
  { clear s. induction n as [|n IH]; intros s L v r t H; (destruct s as [|c s]; [discriminate|]); cbn [length] in L; [lia|].
    assert (forall s' c' v r, length s' <= n -> cons_value c' (scan s') = Some (v, r) -> cons_value c' (scan (s' ++ t)) = Some (v, r ++ t)) as C.
    { intros s' c' v' r' L' H'. destruct (scan s') as [[v2 r2]|] eqn:S'; [|discriminate]. injection H' as <- <-. now rewrite (IH s' L' _ _ t S'). }
    cbn [scan app] in *. destruct (c =? 39)%N; [injection H as <- <-; reflexivity|]. destruct ((c =? 10) || (c =? 13))%N; [discriminate|]. destruct (c =? 92)%N; [|apply C; [lia|exact H]].
    destruct s as [|e s]; [discriminate|]. cbn [app length] in *. destruct (e =? 117)%N.
    - destruct s as [|d1 [|d2 [|d3 [|d4 s]]]]; try discriminate. cbn [app length] in *. destruct (hex_value d1), (hex_value d2), (hex_value d3), (hex_value d4); try discriminate. apply C; [lia|exact H].
    - destruct (single_escape e); [|discriminate]. apply C; [lia|exact H]. }
  intros v r t. exact (G (length s) s (le_n _) v r t).
Qed.

(** * Types *)
Lemma violates : forall l r, type_violates l r = true <-> like_all l r.
Proof.
  intros l r. unfold type_violates, like_all.
  assert (forall f : part -> bool, (forall q, In q r -> f q = true) <-> forallb f r = true) as A by (intros f; symmetry; apply forallb_forall).
  assert (existsb (fun p => match enum_value_type p with ENumber => forallb number_like r | EString => forallb string_like r | ENone => false end) l = true <->
    exists p, In p l /\ enum_like p = true /\ ((number_literal p = true /\ forall q, In q r -> number_like q = true) \/ (number_literal p = false /\ forall q, In q r -> string_like q = true))) as E.
  { rewrite existsb_exists. split; intros [p [I' H]]; exists p; (split; [exact I'|]); unfold enum_value_type in *.
    - destruct (enum_like p); [|discriminate]. split; [reflexivity|]. rewrite !A. destruct (number_literal p); auto.
    - destruct H as [-> H]. rewrite !A in H. destruct (number_literal p); destruct H as [[H1 H2]|[H1 H2]]; try discriminate; exact H2. }
  destruct (forallb number_like r) eqn:N1; destruct (forallb string_like r) eqn:S1; cbn [negb andb]; try exact E.
  rewrite <- E. split; [discriminate|]. intros H. rewrite existsb_exists in H. destruct H as [p [_ H]]. destruct (enum_value_type p); discriminate.
Qed.
Lemma mismatched_spec : forall l r, mismatched l r = true <->
  ((exists p, (In p l \/ In p r) /\ enum_literal p = true) /\ ~ shares_enum l r /\ ~ shares_part l r /\ (like_all l r \/ like_all r l)).
Proof.
  intros l r. unfold mismatched.
  assert ((length (enum_types l) =? 0) && (length (enum_types r) =? 0) = true <-> ~ exists p, (In p l \/ In p r) /\ enum_literal p = true) as E1.
  { assert (forall a, (length (enum_types a) =? 0) = true <-> forall p, In p a -> enum_literal p = false) as B.
    { intros a. unfold enum_types. rewrite map_length, Nat.eqb_eq. split.
      - intros H p I'. destruct (enum_literal p) eqn:L; [|reflexivity]. assert (In p (filter enum_literal a)) as F by (apply filter_In; auto). destruct (filter enum_literal a); [destruct F|discriminate].
      - intros H. destruct (filter enum_literal a) as [|x f] eqn:F; [reflexivity|]. assert (In x (filter enum_literal a)) as X by (rewrite F; now left). apply filter_In in X as [X1 X2]. rewrite (H x X1) in X2. discriminate. }
    rewrite andb_true_iff, !B. split.
    - intros [H1 H2] [p [[I'|I'] L]]; [rewrite (H1 p I') in L|rewrite (H2 p I') in L]; discriminate.
    - intros H. split; intros p I'; destruct (enum_literal p) eqn:L; try reflexivity; exfalso; apply H; exists p; auto. }
  assert (existsb (fun x => existsb (Nat.eqb x) (enum_types r)) (enum_types l) = true <-> shares_enum l r) as E2.
  { rewrite existsb_exists. unfold shares_enum, enum_types. split.
    - intros [x [I1 I2]]. apply existsb_exists in I2 as [y [I2 I3]]. apply Nat.eqb_eq in I3. subst y. apply in_map_iff in I1 as [p [<- I1]]. apply in_map_iff in I2 as [q [B I2]].
      apply filter_In in I1 as [I1 L1]. apply filter_In in I2 as [I2 L2]. exists p, q. auto 6.
    - intros [p [q [I1 [I2 [L1 [L2 B]]]]]]. exists (base p). split; [apply in_map, filter_In; auto|]. apply existsb_exists. exists (base q). split; [apply in_map, filter_In; auto|]. now apply Nat.eqb_eq. }
  assert (existsb (fun p => existsb (fun q => Nat.eqb (id p) (id q)) r) l = true <-> shares_part l r) as E3.
  { rewrite existsb_exists. unfold shares_part. split.
    - intros [p [I1 I2]]. apply existsb_exists in I2 as [q [I2 I3]]. apply Nat.eqb_eq in I3. eauto 6.
    - intros [p [q [I1 [I2 B]]]]. exists p. split; [exact I1|]. apply existsb_exists. exists q. split; [exact I2|]. now apply Nat.eqb_eq. }
  destruct ((length (enum_types l) =? 0) && (length (enum_types r) =? 0)).
  { split; [discriminate|]. intros [H _]. exfalso. now apply E1. }
  destruct (existsb (fun x => existsb (Nat.eqb x) (enum_types r)) (enum_types l)).
  { split; [discriminate|]. intros [_ [H _]]. exfalso. now apply H, E2. }
  destruct (existsb (fun p => existsb (fun q => Nat.eqb (id p) (id q)) r) l).
  { split; [discriminate|]. intros [_ [_ [H _]]]. exfalso. now apply H, E3. }
  rewrite orb_true_iff, !violates. split; [|tauto]. intros H. split.
  - destruct (existsb (fun p => enum_literal p) (l ++ r)) eqn:X.
    + apply existsb_exists in X as [p [I' L]]. apply in_app_iff in I'. eauto.
    + exfalso. assert (false = true) as Y; [|discriminate]. apply E1. intros [p [I' L]]. assert (existsb (fun p => enum_literal p) (l ++ r) = true) as Z; [|congruence].
      apply existsb_exists. exists p. split; [now apply in_app_iff|exact L].
  - split; [intros S'; apply E2 in S'; discriminate|]. split; [intros S'; apply E3 in S'; discriminate|exact H].
Qed.

Section Numbers.
Context {Nu Q : Type} (neg : Nu -> Nu) (add : Nu -> Nu -> Nu) (num_eqb : Nu -> Nu -> bool) (num_str : Nu -> str) (is_identifier : str -> bool).
Notation static_value := (@static_value Nu Q neg add num_str).
Notation evaluates := (@evaluates Nu Q neg add num_str).

Lemma static_spec : forall (e : operand Nu Q) v, static_value e = Some v <-> evaluates e v.
Proof.
  induction e as [s|n|e IH|e IH|e IH|e IH|e IH|l IHl r IHr|q s|q s a|i]; intros v; cbn [EnumComparison.static_value]; split; intros H; try discriminate; try (inversion H; fail).
  - injection H as <-. constructor.
  - inversion H. reflexivity.
  - injection H as <-. constructor.
  - inversion H. reflexivity.
  - constructor. now apply IH.
  - inversion H; subst. now apply IH.
  - destruct (static_value e) as [[s|n]|]; try discriminate. injection H as <-. constructor. now apply IH.
  - inversion H as [| | | |e' n E| |]; subst. apply IH in E. now rewrite E.
  - destruct (static_value e) as [[s|n]|]; try discriminate. injection H as <-. constructor. now apply IH.
  - inversion H as [| | | | |e' n E|]; subst. apply IH in E. now rewrite E.
  - constructor. now apply IH.
  - inversion H; subst. now apply IH.
  - destruct (static_value l) as [a|] eqn:L; [|discriminate]. destruct (static_value r) as [c|] eqn:R; [|destruct a; discriminate].
    assert (v = plus add num_str a c) as -> by (destruct a, c; injection H as <-; reflexivity). constructor; [now apply IHl|now apply IHr].
  - inversion H as [| | | | | |l' r' a c E1 E2]; subst. apply IHl in E1. apply IHr in E2. rewrite E1, E2. now destruct a, c.
Qed.

Notation enum_key := (@enum_key Nu Q num_eqb is_identifier).
Lemma access_spec : forall (e : operand Nu Q) d q, from_access e d = Some q -> exists q', q = FromAccess q' /\ accesses e q' d.
Proof.
  induction e as [s|n|e IH|e IH|e IH|e IH|e IH|l IHl r IHr|q0 s|q0 s a|i]; intros d q H; try discriminate; cbn [from_access] in H.
  - destruct (IH d q H) as [q' [-> A]]. exists q'. split; [reflexivity|now constructor].
  - destruct s as [d'|]; [|discriminate]. destruct (d' =? d) eqn:E; [|discriminate]. apply Nat.eqb_eq in E. subst. injection H as <-. eexists. split; [reflexivity|constructor].
  - destruct (match s with Some d' => d' =? d | None => false end) eqn:E1.
    + destruct s as [d'|]; [|discriminate]. apply Nat.eqb_eq in E1. subst. injection H as <-. eexists. split; [reflexivity|constructor].
    + cbn [orb] in H. destruct a as [d'|]; [|discriminate]. destruct (d' =? d) eqn:E; [|discriminate]. apply Nat.eqb_eq in E. subst. injection H as <-. eexists. split; [reflexivity|constructor].
Qed.
Lemma type_spec : forall type_text scope d (q : qualifier Q), from_type is_identifier type_text scope d = Some q ->
  q = FromType (type_text d) /\ (In 46%N (type_text d) \/ In (type_text d, Some d) scope).
Proof.
  intros type_text scope d q H. unfold from_type in H. destruct (negb _); [discriminate|]. destruct (existsb (fun c => (c =? 46)%N) (type_text d)) eqn:E.
  - injection H as <-. split; [reflexivity|]. left. apply existsb_exists in E as [c [I' C]]. apply N.eqb_eq in C. now subst.
  - destruct (existsb _ scope) eqn:X; [|discriminate]. injection H as <-. split; [reflexivity|]. right. apply existsb_exists in X as [[n o] [I' C]]. cbn [fst snd] in C.
    apply andb_true_iff in C as [C1 C2]. apply str_eqb_eq in C1. destruct o as [d'|]; [|discriminate]. apply Nat.eqb_eq in C2. now subst.
Qed.
Lemma key_spec : forall type_text scope side literals v q s, enum_key type_text scope side literals v = Some (q, s) ->
  exists m, In (Some m) literals /\ matches num_eqb (constant m) v = true /\ s = suffix is_identifier (m_name m) /\ m_name m <> NOther /\
   ((exists q', q = FromAccess q' /\ accesses side q' (decl m)) \/ (q = FromType (type_text (decl m)) /\ (In 46%N (type_text (decl m)) \/ In (type_text (decl m), Some (decl m)) scope))).
Proof.
  intros type_text scope side literals v q s. induction literals as [|[m|] l IH]; intros H; cbn [EnumComparison.enum_key] in H; [discriminate| |].
  2:{ destruct (IH H) as [m [I' M]]. exists m. split; [now right|exact M]. }
  assert (enum_key type_text scope side l v = Some (q, s) -> exists m', In (Some m') (Some m :: l) /\ matches num_eqb (constant m') v = true /\ s = suffix is_identifier (m_name m') /\ m_name m' <> NOther /\
   ((exists q', q = FromAccess q' /\ accesses side q' (decl m')) \/ (q = FromType (type_text (decl m')) /\ (In 46%N (type_text (decl m')) \/ In (type_text (decl m'), Some (decl m')) scope)))) as IH'.
  { intros H'. destruct (IH H') as [m' [I' M]]. exists m'. split; [now right|exact M]. }
  destruct (matches num_eqb (constant m) v) eqn:M; cbn [negb] in H; [|exact (IH' H)].
  destruct (suffix is_identifier (m_name m)) as [|c s'] eqn:S'; [exact (IH' H)|].
  assert (m_name m <> NOther) as NO by (intros E; rewrite E in S'; discriminate).
  destruct (from_access side (decl m)) as [q'|] eqn:A.
  - injection H as <- <-. apply access_spec in A as [q2 [-> A]]. exists m. split; [now left|]. repeat split; auto. left. eauto.
  - destruct (from_type is_identifier type_text scope (decl m)) as [q'|] eqn:Ty; [|exact (IH' H)]. injection H as <- <-. apply type_spec in Ty as [-> Ty]. exists m. split; [now left|]. repeat split; auto.
Qed.

Lemma split_dots_shape : forall s, exists x l, split_dots s = x :: l /\ ~ In 46%N x /\ (s = x /\ l = [] \/ exists t, s = x ++ 46%N :: t /\ split_dots t = l).
Proof.
  clear num_eqb is_identifier. induction s as [|c s [x [l [E [N K]]]]]; [exists [], []; repeat split; auto|]. cbn [split_dots]. destruct (c =? 46)%N eqn:C.
  - apply N.eqb_eq in C. subst c. exists [], (split_dots s). split; [reflexivity|]. split; [intros []|]. right. exists s. split; reflexivity.
  - rewrite E. exists (c :: x), l. split; [reflexivity|]. apply N.eqb_neq in C. split; [intros [E'|I']; [now apply C|now apply N]|]. destruct K as [[-> ->]|[t [-> K]]]; [left; auto|right; exists t; split; [reflexivity|exact K]].
Qed.
Lemma dotted_spec : forall s, forallb is_identifier (split_dots s) = true <-> dotted is_identifier s.
Proof.
  clear num_eqb. intros s. split.
  - remember (length s) as n eqn:L. revert s L. induction n as [n IH] using lt_wf_ind. intros s -> H. destruct (split_dots_shape s) as [x [l [E [N K]]]]. rewrite E in H. cbn [forallb] in H. apply andb_true_iff in H as [H1 H2].
    destruct K as [[-> ->]|[t [-> <-]]]; [now apply DOne|]. apply DMore; auto. apply (IH (length t)); auto. rewrite app_length. cbn. lia.
  - induction 1 as [s I' N|s t I' N D IH].
    + destruct (split_dots_shape s) as [x [l [E [N' K]]]]. rewrite E. destruct K as [[-> ->]|[t [-> _]]]; [cbn; now rewrite I'|]. exfalso. apply N, in_app_iff. right. now left.
    + destruct (split_dots_shape (s ++ 46%N :: t)) as [x [l [E [N' K]]]]. rewrite E. destruct K as [[K _]|[t' [K <-]]].
      * exfalso. apply N'. rewrite <- K. apply in_app_iff. right. now left.
      * assert (x = s /\ t' = t) as [-> ->]. { clear - N N' K. revert x K N'. induction s as [|c s IH]; intros [|c' x] K N'; cbn [app] in K.
          - injection K as K. auto.
          - injection K as K1 K2. exfalso. apply N'. now left.
          - injection K as K1 K2. exfalso. apply N. now left.
          - injection K as K1 K2. destruct (IH (fun I' => N (or_intror I')) x K2 (fun I' => N' (or_intror I'))) as [-> ->]. split; [now subst|reflexivity]. }
        cbn [forallb]. now rewrite I', IH.
Qed.
Lemma access_complete : forall (e : operand Nu Q) q d, accesses e q d -> exists q', from_access e d = Some q'.
Proof.
  induction 1 as [e q d A IH|q d|q d a|q s d]; cbn [from_access]; auto; rewrite ?Nat.eqb_refl, ?orb_true_r; cbn [orb]; eexists; reflexivity.
Qed.
Lemma from_type_spec : forall type_text scope d, (exists q : qualifier Q, from_type is_identifier type_text scope d = Some q) <-> dotted is_identifier (type_text d) /\ (In 46%N (type_text d) \/ In (type_text d, Some d) scope).
Proof.
  clear num_eqb. intros type_text scope d. rewrite <- dotted_spec. unfold from_type. destruct (forallb is_identifier (split_dots (type_text d))); cbn [negb]; [|split; [intros [q H]; discriminate|intros [H _]; discriminate]].
  destruct (existsb (fun c => (c =? 46)%N) (type_text d)) eqn:E.
  - split; [|eauto]. intros _. split; [reflexivity|]. left. apply existsb_exists in E as [c [I' C]]. apply N.eqb_eq in C. now subst.
  - destruct (existsb _ scope) eqn:X.
    + split; [|eauto]. intros _. split; [reflexivity|]. right. apply existsb_exists in X as [[n o] [I' C]]. cbn [fst snd] in C. apply andb_true_iff in C as [C1 C2]. apply str_eqb_eq in C1. destruct o as [d'|]; [|discriminate]. apply Nat.eqb_eq in C2. now subst.
    + split; [intros [q H]; discriminate|]. intros [_ [I'|I']].
      * exfalso. apply not_true_iff_false in E. apply E, existsb_exists. exists 46%N. auto.
      * exfalso. apply not_true_iff_false in X. apply X, existsb_exists. exists (type_text d, Some d). split; [exact I'|]. cbn [fst snd]. rewrite Nat.eqb_refl, andb_true_r. now apply str_eqb_eq.
Qed.
Lemma fits_spec : forall m v, fits num_eqb m v <-> m_name m <> NOther /\ matches num_eqb (constant m) v = true.
Proof.
  intros m v. unfold fits, matches. destruct (constant m) as [[a|a]|], v as [c|c]; try (split; intros [? ?]; easy). rewrite str_eqb_eq. tauto.
Qed.
Lemma suffix_other : forall n, suffix is_identifier n = [] <-> n = NOther.
Proof. clear num_eqb. intros [s|s|t|]; cbn [suffix]; [split; discriminate|destruct (is_identifier s); split; discriminate|split; discriminate|tauto]. Qed.
Lemma key_found : forall type_text scope side literals v, (exists k, enum_key type_text scope side literals v = Some k) <-> exists m, In (Some m) literals /\ fits num_eqb m v /\ reachable is_identifier type_text scope side (decl m).
Proof.
  intros type_text scope side literals v. induction literals as [|[m|] l IH]; cbn [EnumComparison.enum_key].
  - split; [intros [k H]; discriminate|intros [m [[] _]]].
  - assert ((exists m', In (Some m') (Some m :: l) /\ fits num_eqb m' v /\ reachable is_identifier type_text scope side (decl m')) <-> (fits num_eqb m v /\ reachable is_identifier type_text scope side (decl m)) \/ exists m', In (Some m') l /\ fits num_eqb m' v /\ reachable is_identifier type_text scope side (decl m')) as R.
    { split; [intros [m' [[E|I'] F]]; [injection E as ->; now left|right; eauto]|intros [F|[m' [I' F]]]; [exists m; split; [now left|exact F]|exists m'; split; [now right|exact F]]]. }
    rewrite R, <- IH. clear R IH. rewrite fits_spec.
    destruct (matches num_eqb (constant m) v) eqn:M; cbn [negb]; [|split; [now right|intros [[[_ H] _]|H]; [discriminate|exact H]]].
    destruct (suffix is_identifier (m_name m)) as [|c s'] eqn:S'.
    + apply suffix_other in S'. split; [now right|intros [[[H _] _]|H]; [contradiction|exact H]].
    + assert (m_name m <> NOther) as NO by (intros E; rewrite E in S'; discriminate).
      destruct (from_access side (decl m)) as [q'|] eqn:A.
      * split; [|eauto]. intros _. left. split; [auto|]. left. apply access_spec in A as [q2 [_ A]]. eauto.
      * destruct (from_type is_identifier type_text scope (decl m)) as [q'|] eqn:Ty.
        -- split; [|eauto]. intros _. left. split; [auto|]. right. apply from_type_spec. eauto.
        -- split; [now right|]. intros [[_ [[q D]|D]]|H]; [| |exact H].
           ++ apply access_complete in D as [q' D]. congruence.
           ++ apply from_type_spec in D as [q D]. congruence.
  - rewrite IH. split; intros [m [I' F]]; exists m; (split; [|exact F]); [now right|destruct I' as [E|I']; [discriminate|exact I']].
Qed.
Lemma last_snoc : forall (A : Type) (l : list A) x d, last (l ++ [x]) d = x.
Proof. intros A l x d. apply last_last. Qed.
Lemma suffix_denotes : forall literal n s, named is_identifier literal n s -> denotes is_identifier literal (suffix is_identifier n) = Some s.
Proof.
  intros literal n s H. destruct H as [s I'|s|t s R]; cbn [suffix].
  - unfold denotes. cbn. now rewrite I'.
  - destruct (is_identifier s) eqn:I'; [unfold denotes; cbn; now rewrite I'|]. unfold denotes, quote.
    change (91 =? 46)%N with false. change (91 =? 91)%N with true. cbn iota. rewrite last_snoc, removelast_last. change (93 =? 93)%N with true. cbn iota. unfold read_literal. cbn [app]. change (39 =? 39)%N with true. cbn iota. now rewrite scan_quote.
  - unfold denotes. change (91 =? 46)%N with false. change (91 =? 91)%N with true. cbn iota. rewrite last_snoc, removelast_last. exact R.
Qed.
End Numbers.
