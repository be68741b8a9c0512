From Coq Require Import Bool Arith ZArith List Permutation Sorted Lia.
From Verif Require Import TypeArguments TypeArgumentsSpec.
Import ListNotations.
Open Scope nat_scope.

Lemma same_list_ok l : forall m, same_list l m = true <-> l = m.
Proof.
  induction l as [|x l IH]; intros [|y m]; cbn [same_list]; try (split; [discriminate | discriminate || auto]); [tauto|].
  rewrite andb_true_iff, IH, Nat.eqb_eq. split; [intros [-> ->]; auto | intros [= -> ->]; auto].
Qed.
Lemma match_ok reference den d a : faithful reference den -> (types_match reference d a = true <-> den d = den a).
Proof.
  intros [F I']. unfold types_match. rewrite orb_true_iff, Nat.eqb_eq. split.
  - intros [->|H]; auto. unfold for_comparison in H. destruct (reference d) as [[x l]|] eqn:D, (reference a) as [[y m]|] eqn:A; apply andb_true_iff in H as [H1 H2]; apply Nat.eqb_eq in H1; apply same_list_ok in H2; subst.
    + destruct (F _ _ _ D) as [-> _], (F _ _ _ A) as [-> _]. reflexivity.
    + destruct (F _ _ _ D) as [_ X]. congruence.
    + destruct (F _ _ _ A) as [_ X]. congruence.
    + reflexivity.
  - intros E. destruct (I' _ _ E) as [->|[[x l] [A B]]]; auto. right. unfold for_comparison. rewrite A, B. rewrite Nat.eqb_refl. cbn. now apply same_list_ok.
Qed.

Lemma tnode_rec' (P : tnode -> Prop) : (forall i l, Forall P l -> P (Node i l)) -> forall n, P n.
Proof. intros A. fix IH 1. intros [i l]. apply A. clear A. revert l. fix IL 1. intros [|x l]; constructor; [apply IH | apply IL]. Qed.
Lemma mentions_ok symbols n : mentions symbols n = true <-> exists s, In s symbols /\ named_in s n.
Proof.
  induction n as [i l H] using tnode_rec'. cbn [mentions]. rewrite orb_true_iff, existsb_exists. rewrite Forall_forall in H. split.
  - intros [A|[n [A B]]].
    + destruct i as [s|]; [|discriminate]. apply existsb_exists in A as [s' [A B]]. apply Nat.eqb_eq in B as <-. exists s. split; auto. constructor.
    + apply (H n A) in B as [s [B C]]. exists s. split; auto. eapply NBelow; eauto.
  - intros [s [A B]]. inversion B as [l' Q|i' l' n C D Q]; subst.
    + left. apply existsb_exists. exists s. split; auto. apply Nat.eqb_refl.
    + right. exists n. split; auto. apply H; eauto.
Qed.
Lemma can_infer_ok u ps : can_infer u ps = true <-> exists p, In p ps /\ may_say u (symbol p).
Proof.
  unfold can_infer, may_say. destruct (new_ u); cbn [negb orb]; [|split; [discriminate | intros (p & _ & Q & _); discriminate]].
  destruct (Nat.eqb_spec (value_arguments u) 0) as [Z|Z]; [split; [discriminate | intros (p & _ & _ & Q & _); contradiction]|].
  assert (X : (match signature_types u with None => false | Some l => existsb (mentions (map symbol ps)) l end) = true <-> exists p, In p ps /\ true = true /\ value_arguments u <> 0 /\ exists l n, signature_types u = Some l /\ In n l /\ named_in (symbol p) n).
  { destruct (signature_types u) as [l|].
    - rewrite existsb_exists. split.
      + intros [n [A B]]. apply mentions_ok in B as [s [B C]]. apply in_map_iff in B as [p [<- B]]. exists p. split; auto. split; auto. split; auto. exists l, n. auto.
      + intros (p & A & _ & _ & l' & n & [= <-] & B & C). exists n. split; auto. apply mentions_ok. exists (symbol p). split; auto. now apply in_map.
    - split; [discriminate|]. intros (p & _ & _ & _ & l' & n & Q & _). discriminate. }
  destruct ps as [|p ps]; [split; [discriminate | intros (p & [] & _)]|]. exact X.
Qed.

Lemma check_ok reference den u arguments ps : faithful reference den ->
  (check reference u arguments ps = true <-> exists l p a d, ps = Some l /\ arguments <> [] /\ nth_error l (length arguments - 1) = Some p /\ nth_error arguments (length arguments - 1) = Some a /\
     default p = Some d /\ den d = den a /\ (length arguments = 1 -> forall q, In q l -> ~ may_say u (symbol q))).
Proof.
  intros F. unfold check. destruct ps as [l|]; [|split; [discriminate | intros (l & ? & ? & ? & Q & _); discriminate]].
  destruct (Nat.eqb_spec (length arguments) 0) as [Z|Z]; cbn [orb].
  { split; [discriminate|]. intros (l' & p & a & d & _ & N & _). destruct arguments; [contradiction | discriminate]. }
  assert (NZ : arguments <> []) by (intros ->; contradiction).
  destruct (Nat.eqb_spec (length l) 0) as [Y|Y].
  { split; [discriminate|]. intros (l' & p & a & d & [= <-] & _ & N & _). assert (length arguments - 1 < length l) by (apply nth_error_Some; congruence); lia. }
  destruct (Nat.leb_spec (length l) (length arguments - 1)) as [B|B].
  { split; [discriminate|]. intros (l' & p & a & d & [= <-] & _ & N & _). assert (length arguments - 1 < length l) by (apply nth_error_Some; congruence). lia. }
  destruct (nth_error l (length arguments - 1)) as [p|] eqn:P; [|split; [discriminate | intros (l' & p & a & d & [= <-] & _ & N & _); congruence]].
  destruct (nth_error arguments (length arguments - 1)) as [a|] eqn:A; [|split; [discriminate | intros (l' & p' & a & d & [= <-] & _ & _ & N & _); congruence]].
  destruct (default p) as [d|] eqn:D; [|split; [discriminate | intros (l' & p' & a' & d & [= <-] & _ & N & _ & N' & _); congruence]].
  rewrite andb_true_iff, (match_ok reference den), negb_true_iff by auto. split.
  - intros [M C]. exists l, p, a, d. do 5 (split; [auto|]). split; [auto|]. intros E q Q W.
    assert (X : can_infer u l = true) by (apply can_infer_ok; eauto). rewrite X, E in C. discriminate.
  - intros (l' & p' & a' & d' & [= <-] & _ & N & N' & N2 & M & C). assert (p' = p) by congruence. subst p'. assert (a' = a) by congruence. subst a'. assert (d' = d) by congruence. subst d'. split; auto.
    destruct (Nat.eqb_spec (length arguments - 1) 0) as [E|E]; cbn [andb]; auto. destruct (can_infer u l) eqn:X; auto. exfalso. apply can_infer_ok in X as (q & Q & W). eapply C; eauto. lia.
Qed.

(** Substitution leaves types without the parameters alone. *)
Lemma ty_rec' (P : ty -> Prop) : (forall s, P (Par s)) -> (forall c l, Forall P l -> P (App c l)) -> forall t, P t.
Proof. intros A B. fix IH 1. intros [s|c l]; [apply A|]. apply B. clear A B. revert l. fix IL 1. intros [|x l]; constructor; [apply IH | apply IL]. Qed.
Lemma subst_closed env t : (forall s u, In (s, u) env -> ~ occurs_in s t) -> subst env t = t.
Proof.
  induction t as [s|c l H] using ty_rec'; intros N; cbn [subst].
  - destruct (find _ env) as [[s' u]|] eqn:F; auto. exfalso. apply find_some in F as [F1 F2]. cbn in F2. apply Nat.eqb_eq in F2 as ->. eapply N; eauto. constructor.
  - f_equal. rewrite Forall_forall in H. rewrite <- (map_id l) at 2. apply map_ext_in. intros x X. apply H; auto. intros s u Q O. eapply N; eauto. econstructor; eauto.
Qed.

Lemma drop_last den ps : forall env args a r k p d, filled den env ps (args ++ [a]) r -> k = length args -> nth_error ps k = Some p -> default p = Some d -> den d = a ->
  (forall s, (In s (map symbol ps) \/ In s (map fst env)) -> ~ occurs_in s a) -> filled den env ps args r.
Proof.
  induction ps as [|q ps IH]; intros env args a r k p d F K P D E N; [destruct k; discriminate|].
  destruct args as [|x args].
  - cbn in K. subst k. cbn in P. injection P as ->. cbn [app] in F. inversion F; subst.
    assert (X : subst env (den d) = den d). { apply subst_closed. intros s u I'. apply N. right. apply in_map_iff. now exists (s, u). }
    rewrite <- X at 1. apply FDefault; auto. now rewrite X.
  - cbn in K. subst k. cbn in P. cbn [app] in F. inversion F; subst. apply FWritten. eapply IH; eauto. intros s [Q|Q]; apply N; cbn; auto. cbn in Q. tauto.
Qed.

Lemma no_candidates den c ps : forall env r, (forall p, In p ps -> c (symbol p) = None) -> filled den env ps [] r -> inferred den c env ps r.
Proof. induction ps as [|p ps IH]; intros env r N F; inversion F; subst; [constructor|]. apply IDefault; auto; [apply N; now left|]. apply IH; auto. intros q Q. apply N. now right. Qed.

(** Declarations. *)
Lemma of_types_ok d : of_types d = true <-> declares_type d.
Proof. destruct d; cbn; split; intros; try discriminate; try constructor; try (now inversion H). Qed.
Lemma first_says l ps : first_parameters l = Some ps -> exists before d after, l = before ++ d :: after /\ says d ps /\ forall x qs, In x before -> ~ says x qs.
Proof.
  induction l as [|d l IH]; cbn [first_parameters]; [discriminate|].
  assert (G : says d ps -> exists before d0 after, d :: l = before ++ d0 :: after /\ says d0 ps /\ (forall x qs, In x before -> ~ says x qs)) by (intros S; exists [], d, l; repeat split; auto).
  assert (R : (forall qs, ~ says d qs) -> first_parameters l = Some ps -> exists before d0 after, d :: l = before ++ d0 :: after /\ says d0 ps /\ (forall x qs, In x before -> ~ says x qs)).
  { intros S H. apply IH in H as (before & d0 & after & -> & A & B). exists (d :: before), d0, after. split; auto. split; auto. intros x qs [<-|I']; auto. }
  destruct d as [qs|qs|qs|[qs|]|]; try (intros [= ->]; apply G; constructor); apply R; intros qs Q; inversion Q.
Qed.
Lemma first_none l : first_parameters l = None <-> forall d qs, In d l -> ~ says d qs.
Proof.
  induction l as [|d l IH]; cbn [first_parameters]; [split; auto; intros _ d qs []|].
  destruct d as [qs|qs|qs|[qs|]|]; try (split; [discriminate | intros H; exfalso; eapply H; [now left | constructor]]);
    rewrite IH; (split; [intros H d qs [<-|I'] Q; [inversion Q | eapply H; eauto] | intros H d qs I'; apply H; now right]).
Qed.

Lemma compare_fits types x y : (0 <= compare types y x)%Z <-> (fits types y -> fits types x).
Proof.
  assert (K : forall d, {of_types d = true /\ declares_type d} + {of_types d = false /\ ~ declares_type d}).
  { intros d. destruct (of_types d) eqn:E; [left | right]; (split; auto); [now apply of_types_ok | intros Q; apply of_types_ok in Q; congruence]. }
  unfold compare, fits. destruct types; cbn [negb]; destruct (K x) as [[-> ?]|[-> ?]], (K y) as [[-> ?]|[-> ?]]; cbn; split; intros; try tauto; try lia.
Qed.

Lemma declarations_ok sort types l ps : sorts sort -> parameters_from_type sort types l = Some ps -> exists d, In d l /\ says d ps /\ (fits types d \/ forall d' qs, In d' l -> fits types d' -> ~ says d' qs).
Proof.
  intros SO H. destruct (SO types l) as [P S]. unfold parameters_from_type in H. apply first_says in H as (before & d & after & E & A & B). rewrite E in P, S.
  exists d. split; [apply (Permutation_in d P), in_or_app; right; now left|]. split; auto.
  assert (D : fits types d \/ ~ fits types d). { unfold fits. destruct (of_types d) eqn:O; [assert (declares_type d) by now apply of_types_ok | assert (~ declares_type d) by (intros Q; apply of_types_ok in Q; congruence)]; destruct types; tauto. }
  destruct D as [D|D]; auto. right. intros d' qs I' F Q. apply (Permutation_in d' (Permutation_sym P)) in I'. apply in_app_or in I' as [I'|[<-|I']]; [eapply B; eauto | contradiction|].
  clear - S I' F D. induction before as [|x before IH]; cbn [app] in S; inversion S as [|? ? S1 S2]; subst; [|auto]. rewrite Forall_forall in S2. specialize (S2 d' I'). apply D. apply (proj1 (compare_fits types d d') S2). exact F.
Qed.
Lemma declarations_none sort types l : sorts sort -> (parameters_from_type sort types l = None <-> forall d qs, In d l -> ~ says d qs).
Proof.
  intros SO. destruct (SO types l) as [P _]. unfold parameters_from_type. rewrite first_none. split; intros H d qs I'; apply H; [apply (Permutation_in d (Permutation_sym P)) | apply (Permutation_in d P)]; auto.
Qed.

(** Text. *)
Lemma list_end_ok {A} (l : list (list A * list A)) : forall from, list_end from (sizes l) = from + length (list_text l).
Proof. induction l as [|[n c] l IH]; intros from; cbn [sizes map list_end list_text flat_map fst snd length]; [lia|]. fold (sizes l). rewrite IH. unfold list_text. rewrite !app_length. lia. Qed.
Lemma node_end_ok {A} (l l' : list (list A * list A)) n c : forall from, node_end from (sizes (l ++ (n, c) :: l')) (length l) = from + length (list_text l) + length n.
Proof. induction l as [|[n' c'] l IH]; intros from; cbn [app sizes map length node_end fst snd list_text flat_map]; [lia|]. fold (sizes (l ++ (n, c) :: l')). rewrite IH. unfold list_text. rewrite !app_length. lia. Qed.
Lemma remove_mid {A} (x y z : list A) i j : i = length x -> j = length x + length y -> remove_range (i, j) (x ++ y ++ z) = x ++ z.
Proof.
  intros -> ->. unfold remove_range. cbn [fst snd]. rewrite firstn_app, Nat.sub_diag, firstn_O, app_nil_r, firstn_all. f_equal.
  rewrite skipn_app, skipn_all2 by lia. replace (length x + length y - length x) with (length y) by lia. rewrite skipn_app, skipn_all, Nat.sub_diag. reflexivity.
Qed.
