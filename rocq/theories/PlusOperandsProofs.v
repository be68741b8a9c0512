From Coq Require Import Bool Ascii String List Lia.
From Verif Require Import Base EngineProofs.
From Verif Require Import PlusOperands PlusOperandsSpec.
Import ListNotations.

Lemma is_eq : forall a c, is a c = true <-> a = c.
Proof. intros a c. split; [destruct a, c; cbn; congruence|]. intros ->. destruct c; reflexivity. Qed.
Lemma has_in : forall l a, has l a = true <-> In a l.
Proof. intros l a. unfold has. rewrite existsb_exists. split; [intros (c & I' & E); apply is_eq in E as ->; auto|]. intros I'. exists a. split; auto. now apply is_eq. Qed.
Lemma in_parts : forall p t, In p (parts t) <-> in_type p t.
Proof.
  intros p [q|l]; cbn [parts]; unfold in_type; split.
  - intros [->|[]]. auto.
  - intros [[= ->]|(l & H & _)]; [now left|discriminate].
  - intros H. right. eauto.
  - intros [H|(m & [= ->] & H)]; [discriminate|auto].
Qed.
Lemma own_number : forall t a, has (own_flags t) a = true <-> t = Single (Atom a).
Proof.
  intros t a. rewrite has_in. destruct t as [[c|l]|l]; cbn; split; try tauto; try discriminate.
  - intros [->|[]]. reflexivity.
  - intros [= ->]. auto.
Qed.

Section Options.
Context (o : options).
Lemma invalid_flag : forall other p, existsb (has (flags p)) (invalid_flags o) = true -> invalid o other p.
Proof.
  intros other p H. apply existsb_exists in H as (a & I' & H). apply has_in in H. destruct p as [c|l]; [|destruct H]. destruct H as [->|[]].
  unfold invalid_flags in I'. cbn [app In] in I'. destruct I' as [<-|[<-|[<-|I']]]; try (apply INever; cbn [In]; tauto).
  rewrite !in_app_iff in I'. destruct I' as [I'|[I'|I']].
  - destruct (allow_any o) eqn:E; cbn in I'; [tauto|]. destruct I' as [<-|[]]. now apply IAny.
  - destruct (allow_boolean o) eqn:E; cbn in I'; [tauto|]. destruct I' as [<-|[]]. now apply IBoolean.
  - destruct (allow_nullish o) eqn:E; cbn in I'; [tauto|]. apply INullish; auto. cbn [In]. tauto.
Qed.
Lemma objects : forall l, forallb object_like l = true <-> forall a, In a l -> a = Object_ \/ a = RegExp.
Proof. intros l. rewrite forallb_forall. split; intros H a I'; specialize (H a I'); [destruct a; try discriminate; auto|destruct H as [-> | ->]; reflexivity]. Qed.
Lemma invalid_or : forall other p, invalid o other p <-> existsb (has (flags p)) (invalid_flags o) = true \/ found_invalid o other p = true.
Proof.
  intros other p. split.
  - assert (forall c a, In a (invalid_flags o) -> c = a -> existsb (has (flags (Atom c))) (invalid_flags o) = true) as S by (intros c a I' ->; apply existsb_exists; exists a; split; auto; apply has_in; now left).
    intros H. destruct H as [a A|A|A|a A B|A|l A].
    + cbn [In] in A. destruct A as [<-|[<-|[<-|[<-|[]]]]]; try (left; eapply S; [|reflexivity]; unfold invalid_flags; cbn [app In]; tauto). right. cbn. destruct (allow_any o); reflexivity.
    + left. eapply S; [|reflexivity]. unfold invalid_flags. rewrite A. cbn. auto.
    + left. eapply S; [|reflexivity]. unfold invalid_flags. rewrite A, !in_app_iff. cbn. auto.
    + left. eapply S; [|reflexivity]. unfold invalid_flags. rewrite A, !in_app_iff. cbn [In] in *. cbn [negb]. cbn [In]. tauto.
    + right. cbn [found_invalid]. destruct A as [-> | ->]; [reflexivity|]. cbn. now rewrite andb_false_r.
    + right. cbn [found_invalid]. rewrite (proj2 (objects l) A). cbn [negb]. now rewrite andb_false_r.
  - intros [H|H]; [now apply invalid_flag|]. destruct p as [a|l].
    + destruct a; cbn in H; try (destruct (allow_any o); discriminate); try (apply INever; cbn [In]; tauto).
      * destruct (allow_any o) eqn:E; cbn in H; [discriminate|]. now apply IAny.
      * apply IRegExp. apply negb_true_iff, andb_false_iff in H as [H|H]; auto. right. apply negb_false_iff in H. now apply own_number.
    + apply IObjects. apply objects. unfold found_invalid in H. cbn [flags has existsb negb] in H. rewrite orb_true_r in H. cbn [andb] in H. now apply negb_true_iff, negb_false_iff in H.
Qed.
Lemma check_parts_bad : forall other l found bad, snd (check_parts o other l found bad) = true <-> bad = true \/ exists p, In p l /\ invalid o other p.
Proof.
  intros other. induction l as [|p l IH]; intros found bad; cbn [check_parts].
  - cbn. split; auto. intros [H|(p & [] & _)]; auto.
  - destruct (existsb (has (flags p)) (invalid_flags o)) eqn:E.
    + cbn [snd]. split; auto. intros _. right. exists p. split; [now left|]. apply invalid_or. auto.
    + rewrite IH, orb_true_iff. split.
      * intros [[H|H]|(q & I' & H)]; auto; right; [exists p; split; [now left|apply invalid_or; auto]|exists q; split; [now right|auto]].
      * intros [H|(q & [->|I'] & H)]; auto; [|right; eauto]. apply invalid_or in H as [H|H]; [congruence|auto].
Qed.
Lemma check_parts_found : forall other l found bad, snd (check_parts o other l found bad) = false -> fst (check_parts o other l found bad) = found ++ flat_map flags l.
Proof.
  intros other. induction l as [|p l IH]; intros found bad H; cbn [check_parts] in *.
  - now rewrite app_nil_r.
  - destruct (existsb (has (flags p)) (invalid_flags o)); [discriminate|]. rewrite IH by auto. cbn [flat_map]. now rewrite app_assoc.
Qed.
Lemma operand_bad : forall t other, snd (check_operand o t other) = true <-> invalid_operand o t other.
Proof.
  intros t other. unfold check_operand, invalid_operand. rewrite check_parts_bad. split; [intros [H|(p & I' & H)]; [discriminate|]; exists p; split; auto; now apply in_parts|]. intros (p & I' & H). right. exists p. split; auto. now apply in_parts.
Qed.
Lemma operand_found : forall t other a, snd (check_operand o t other) = false -> (has (fst (check_operand o t other)) a = true <-> in_type (Atom a) t).
Proof.
  intros t other a H. unfold check_operand in *. rewrite (check_parts_found _ _ _ _ H). cbn [app]. rewrite has_in, in_flat_map. split.
  - intros (p & I' & F). destruct p as [c|l]; [|destruct F]. destruct F as [->|[]]. now apply in_parts.
  - intros I'. exists (Atom a). split; [now apply in_parts|now left].
Qed.
Lemma mismatched_ok : forall t other t' other' r, snd (check_operand o t other) = false -> snd (check_operand o t' other') = false ->
  (In r (check_mismatched o (fst (check_operand o t other)) (fst (check_operand o t' other'))) <-> clash o r t t' /\ (r = BigintAndNumber -> ~ clash o Mismatched t t')).
Proof.
  intros t other t' other' r H H'. unfold check_mismatched.
  assert (negb (allow_number_and_string o) && has (fst (check_operand o t other)) String_ && (has (fst (check_operand o t' other')) Number || has (fst (check_operand o t' other')) BigInt) = true <-> clash o Mismatched t t') as M.
  { rewrite !andb_true_iff, orb_true_iff, negb_true_iff, (operand_found t other _ H), !(operand_found t' other' _ H'). cbn [clash]. split.
    - intros [[A B] [C|C]]; split; auto; eauto 6.
    - intros [A (n & [-> | ->] & B & C)]; auto. }
  assert (has (fst (check_operand o t other)) Number && has (fst (check_operand o t' other')) BigInt = true <-> clash o BigintAndNumber t t') as N.
  { rewrite !andb_true_iff, (operand_found t other _ H), !(operand_found t' other' _ H'). cbn [clash]. tauto. }
  destruct (negb (allow_number_and_string o) && has (fst (check_operand o t other)) String_ && (has (fst (check_operand o t' other')) Number || has (fst (check_operand o t' other')) BigInt)).
  - cbn [In]. split; [intros [<-|[]]; split; [now apply M|discriminate]|]. intros [C D]. destruct r; cbn [clash] in C; try contradiction; auto. exfalso. apply D; auto. now apply M.
  - destruct (has (fst (check_operand o t other)) Number && has (fst (check_operand o t' other')) BigInt).
    + cbn [In]. split; [intros [<-|[]]; split; [now apply N|intros _ X; apply M in X; discriminate]|]. intros [C D]. destruct r; cbn [clash] in C; try contradiction; auto. assert (false = true) by (now apply M). discriminate.
    + split; [intros []|]. intros [C D]. destruct r; cbn [clash] in C; try contradiction; [assert (false = true) by (now apply M)|assert (false = true) by (now apply N)]; discriminate.
Qed.
End Options.

Lemma invalid_plain_atom : forall o other a, ~ invalid o other (Atom a) -> a <> Void -> In a [String_; Number; BigInt] \/ allowed o a.
Proof.
  intros o other a H V. destruct a; try (left; cbn [In]; tauto); try (exfalso; apply H; apply INever; cbn [In]; tauto); try congruence; right.
  - destruct (allow_boolean o) eqn:E; [now constructor|]. exfalso. apply H. now apply IBoolean.
  - destruct (allow_nullish o) eqn:E; [now constructor|]. exfalso. apply H. apply INullish; auto. cbn [In]. tauto.
  - destruct (allow_nullish o) eqn:E; [now constructor|]. exfalso. apply H. apply INullish; auto. cbn [In]. tauto.
  - destruct (allow_any o) eqn:E; [now constructor|]. exfalso. apply H. now apply IAny.
  - destruct (allow_regexp o) eqn:E; [now constructor|]. exfalso. apply H. apply IRegExp. auto.
Qed.
Lemma single_in : forall a p, in_type p (Single (Atom a)) -> p = Atom a.
Proof. intros a p [[= ->]|(l & H & _)]; [auto|discriminate]. Qed.
Lemma primitive_valid : forall o a, In a [String_; Number; BigInt] -> ~ invalid_operand o (Single (Atom a)) (Single (Atom a)).
Proof.
  intros o a I' (p & P & H). apply single_in in P as ->. inversion H; subst; cbn [In] in *; intuition congruence.
Qed.
Lemma primitive_clash : forall o r a, ~ clash o r (Single (Atom a)) (Single (Atom a)).
Proof.
  intros o [| | |] a; cbn [clash]; auto.
  - intros (_ & n & N & A & B). apply single_in in A, B. injection A as <-. injection B as B. destruct N; congruence.
  - intros (A & B). apply single_in in A, B. congruence.
Qed.
Lemma same_primitive : forall t, has (own_flags t) BigInt || has (own_flags t) Number || has (own_flags t) String_ = true -> exists a, In a [String_; Number; BigInt] /\ t = Single (Atom a).
Proof. intros t H. rewrite !orb_true_iff, !own_number in H. destruct H as [[->| ->]| ->]; eexists; (split; [|reflexivity]); cbn [In]; tauto. Qed.

Definition nothing_invalid o l r := ~ invalid_operand o l r /\ ~ invalid_operand o r l.
Lemma plus_exact : forall o same l r, (same = true -> l = r) ->
  let out := check_plus o same l r in
  (In InvalidLeft out <-> invalid_operand o l r) /\
  (In InvalidRight out <-> invalid_operand o r l) /\
  (In Mismatched out <-> nothing_invalid o l r /\ (clash o Mismatched l r \/ (clash o Mismatched r l /\ ~ clash o BigintAndNumber l r))) /\
  (In BigintAndNumber out <-> nothing_invalid o l r /\ ((clash o BigintAndNumber l r /\ ~ clash o Mismatched l r) \/ (clash o BigintAndNumber r l /\ ~ clash o Mismatched l r /\ ~ clash o Mismatched r l))) /\
  List.length out <= 2 /\ (nothing_invalid o l r -> List.length out <= 1).
Proof.
  intros o same l r S. cbv zeta. unfold check_plus.
  destruct (same && (has (own_flags l) BigInt || has (own_flags l) Number || has (own_flags l) String_)) eqn:E.
  - apply andb_true_iff in E as [E F]. specialize (S E). subst r. apply same_primitive in F as (a & A & ->). pose proof (primitive_valid o a A) as V. unfold nothing_invalid.
    pose proof (primitive_clash o Mismatched a). pose proof (primitive_clash o BigintAndNumber a). cbn [In List.length]. intuition lia.
  - clear E S. rewrite (surjective_pairing (check_operand o l r)), (surjective_pairing (check_operand o r l)).
    pose proof (operand_bad o l r) as L. pose proof (operand_bad o r l) as R. unfold nothing_invalid.
    destruct (snd (check_operand o l r)) eqn:EL, (snd (check_operand o r l)) eqn:ER; cbn [orb app In List.length];
    try (assert (invalid_operand o l r) by (now apply L)); try (assert (~ invalid_operand o l r) by (intros X; apply L in X; discriminate));
    try (assert (invalid_operand o r l) by (now apply R)); try (assert (~ invalid_operand o r l) by (intros X; apply R in X; discriminate)).
    + split; [tauto|]. split; [tauto|]. split; [intuition congruence|]. split; [intuition congruence|]. split; [auto|tauto].
    + split; [tauto|]. split; [intuition congruence|]. split; [intuition congruence|]. split; [intuition congruence|]. split; [auto|tauto].
    + split; [intuition congruence|]. split; [tauto|]. split; [intuition congruence|]. split; [intuition congruence|]. split; [auto|tauto].
    + pose proof (mismatched_ok o l r r l) as M. pose proof (mismatched_ok o r l l r) as N.
      assert (forall f g, List.length (check_mismatched o f g) <= 1) as K.
      { intros f g. unfold check_mismatched. destruct (_ && _ && _); [cbn; lia|]. destruct (_ && _); cbn; lia. }
      destruct (check_mismatched o (fst (check_operand o l r)) (fst (check_operand o r l))) as [|x xs] eqn:C.
      * pose proof (N InvalidLeft ER EL) as N1. pose proof (N InvalidRight ER EL) as N2. pose proof (N Mismatched ER EL) as N3. pose proof (N BigintAndNumber ER EL) as N4.
        pose proof (M Mismatched EL ER) as M3. pose proof (M BigintAndNumber EL ER) as M4. cbn [In] in M3, M4.
        assert (~ clash o Mismatched l r) by (intros X; apply M3; split; auto; discriminate). assert (~ clash o BigintAndNumber l r) by (intros X; apply M4; split; auto).
        rewrite N1, N2, N3, N4. cbn [clash] in N1, N2. 
        split; [cbn [clash]; tauto|]. split; [cbn [clash]; tauto|]. split; [split; [tauto|]; intros [_ [X|[X _]]]; [tauto|split; [auto|discriminate]]|].
        split; [split; [intros [X Y]; split; [tauto|]; right; tauto|]; intros [_ [[X _]|(X & _ & Y)]]; [tauto|auto]|]. specialize (K (fst (check_operand o r l)) (fst (check_operand o l r))). split; [lia|auto].
      * assert (xs = []) as ->. { specialize (K (fst (check_operand o l r)) (fst (check_operand o r l))). rewrite C in K. cbn in K. destruct xs; [auto|cbn in K; lia]. }
        pose proof (M InvalidLeft EL ER) as M1. pose proof (M InvalidRight EL ER) as M2. pose proof (M Mismatched EL ER) as M3. pose proof (M BigintAndNumber EL ER) as M4.
        rewrite M1, M2, M3, M4. cbn [In List.length] in *. cbn [clash] in M1, M2.
        assert (x = Mismatched \/ x = BigintAndNumber) as X. { destruct x; auto; [assert (False /\ _) as [[] _] by (apply M1; auto)|assert (False /\ _) as [[] _] by (apply M2; auto)]. }
        split; [cbn [clash]; tauto|]. split; [cbn [clash]; tauto|]. destruct X as [-> | ->].
        -- assert (clash o Mismatched l r) by (apply M3; auto). assert (~ (clash o BigintAndNumber l r /\ (BigintAndNumber = BigintAndNumber -> ~ clash o Mismatched l r))) by tauto.
           split; [split; [tauto|]; intros _; split; [auto|discriminate]|]. split; [tauto|]. split; lia.
        -- assert (clash o BigintAndNumber l r) by (apply M4; auto). assert (~ clash o Mismatched l r) by (apply M4; auto).
           split; [tauto|]. split; [tauto|]. split; lia.
Qed.

Fixpoint prefixb (w s : bstr) : bool := match w, s with [], _ => true | c :: w, d :: s => Ascii.eqb c d && prefixb w s | _, [] => false end.
Fixpoint infixb (w s : bstr) : bool := prefixb w s || match s with [] => false | _ :: s => infixb w s end.
Lemma prefixb_ok : forall w s, prefixb w s = true <-> exists y, s = w ++ y.
Proof.
  induction w as [|c w IH]; intros s; cbn [prefixb].
  - split; auto. intros _. now exists s.
  - destruct s as [|d s]; [split; [discriminate|intros (y & H); discriminate]|]. rewrite andb_true_iff, IH. split.
    + intros [E (y & ->)]. apply Ascii.eqb_eq in E as ->. now exists y.
    + intros (y & [= -> ->]). split; [apply Ascii.eqb_refl|eauto].
Qed.
Lemma infixb_ok : forall w s, infixb w s = true <-> contains s w.
Proof.
  intros w. induction s as [|d s IH]; cbn [infixb]; unfold contains in *; rewrite orb_true_iff, prefixb_ok.
  - split; [intros [(y & E)|H]; [exists [], y; exact E|discriminate]|]. intros (x & y & E). left. destruct x; [now exists y|discriminate].
  - rewrite IH. split.
    + intros [(y & E)|(x & y & ->)]; [exists [], y; exact E|]. now exists (d :: x), y.
    + intros ([|e x] & y & E); [left; now exists y|]. injection E as _ ->. right. eauto.
Qed.
