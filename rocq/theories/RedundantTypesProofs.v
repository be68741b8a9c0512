(** Proofs for C53. *)
From Coq Require Import String Ascii Bool List ZArith Lia Permutation.
From Verif Require Import Base EngineProofs Types RedundantTypes RedundantTypesSpec.
Import ListNotations.
Open Scope Z_scope.

Lemma boolean_is x : is_boolean x = true -> x = boolean.
Proof.
  destruct x; cbn; try discriminate. destruct symbol; [discriminate|].
  destruct l as [|[] [|[] []]]; try discriminate. destruct x, x0; cbn; intros; try discriminate. reflexivity.
Qed.
Lemma primitive_eqb_eq j k : primitive_eqb j k = true <-> j = k.
Proof. destruct j, k; cbn; split; congruence. Qed.
Lemma is_kind_eq o k : is_kind o k = true <-> o = Some k.
Proof. destruct o; cbn; [rewrite primitive_eqb_eq|]; split; congruence. Qed.
Lemma nonempty_eq {A} (l : list A) : nonempty l = true <-> l <> [].
Proof. destruct l; cbn; split; congruence. Qed.
Lemma join_joined l : join l = joined l.
Proof.
  destruct l as [|x l]; [reflexivity|]. cbn [joined]. revert x. induction l as [|y l IH]; intros x; [cbn; now rewrite app_nil_r|].
  change (join (x :: y :: l)) with (x ++ b " | " ++ join (y :: l)). rewrite IH. cbn [map concat]. now rewrite !app_assoc.
Qed.
Lemma word_name k : primitive_name k = word k. Proof. now destruct k. Qed.
Lemma word_inj j k : word j = word k -> j = k.
Proof. destruct j, k; cbn; intros; try discriminate; reflexivity. Qed.
Lemma joined_nonempty x y l : joined (x :: y :: l) <> [].
Proof. cbn. destruct x; discriminate. Qed.

(** ** Numbered lists *)
Lemma numbered_from {A} (l : list A) n i x : In (i, x) (combine (seq n (List.length l)) l) <-> (n <= i)%nat /\ nth_error l (i - n) = Some x.
Proof.
  revert n. induction l as [|y l IH]; intros n; cbn [List.length seq combine In].
  - split; [easy|]. intros [_ H]. now destruct (i - n)%nat.
  - rewrite IH. split.
    + intros [H | [L H]].
      * injection H as <- <-. rewrite Nat.sub_diag. now split.
      * split; [lia|]. replace (i - n)%nat with (S (i - S n)) by lia. exact H.
    + intros [L H]. destruct (Nat.eq_dec i n) as [->|N].
      * rewrite Nat.sub_diag in H. injection H as <-. now left.
      * right. split; [lia|]. replace (i - n)%nat with (S (i - S n)) in H by lia. exact H.
Qed.
Lemma numbered_in {A} (l : list A) i x : In (i, x) (numbered l) <-> nth_error l i = Some x.
Proof. unfold numbered. rewrite numbered_from, Nat.sub_0_r. split; [easy|]. intros; split; [lia|easy]. Qed.
Lemma numbered_map {A B} (f : A -> B) l : numbered (map f l) = map (fun x => (fst x, f (snd x))) (numbered l).
Proof.
  unfold numbered. rewrite map_length. generalize 0%nat. induction l as [|x l IH]; intros n; [reflexivity|]. cbn. now rewrite IH.
Qed.
Lemma numbered_nodup {A} (l : list A) : NoDup (map fst (numbered l)).
Proof.
  unfold numbered. assert (H : forall n, map fst (combine (seq n (List.length l)) l) = seq n (List.length l)).
  { induction l as [|x l IH]; intros n; [reflexivity|]. cbn. now rewrite IH. }
  rewrite H. apply seq_NoDup.
Qed.

Lemma flat_map_map {A B C} (f : A -> B) (g : B -> list C) (h : A -> list C) l :
  (forall x, In x l -> g (f x) = h x) -> flat_map g (map f l) = flat_map h l.
Proof. induction l as [|x l IH]; intros H; [reflexivity|]. cbn. rewrite H by now left. rewrite IH; [reflexivity|]. intros. apply H. now right. Qed.

Lemma find_numbered {A} (f : nat * A -> bool) (l : list A) j x :
  find f (numbered l) = Some (j, x) <-> nth_error l j = Some x /\ f (j, x) = true /\ forall i y, (i < j)%nat -> nth_error l i = Some y -> f (i, y) = false.
Proof.
  unfold numbered.
  assert (G : forall n, find f (combine (seq n (List.length l)) l) = Some (j, x) <->
    (n <= j)%nat /\ nth_error l (j - n) = Some x /\ f (j, x) = true /\ forall i y, (n <= i < j)%nat -> nth_error l (i - n) = Some y -> f (i, y) = false).
  { induction l as [|a l IH]; intros n; cbn [List.length seq combine find].
    - split; [discriminate|]. intros (_ & H & _). now destruct (j - n)%nat.
    - destruct (f (n, a)) eqn:E.
      + split.
        * intros H. injection H as <- <-. rewrite Nat.sub_diag. repeat split; try easy; lia.
        * intros (L & H & F & G). destruct (Nat.eq_dec j n) as [->|D]; [rewrite Nat.sub_diag in H; now injection H as ->|].
          rewrite (G n a) in E; [discriminate|lia|now rewrite Nat.sub_diag].
      + rewrite IH. split.
        * intros (L & H & F & G). repeat split; try lia; try easy.
          -- replace (j - n)%nat with (S (j - S n)) by lia. exact H.
          -- intros i y I Y. destruct (Nat.eq_dec i n) as [->|D]; [rewrite Nat.sub_diag in Y; now injection Y as <-|].
             apply G; [lia|]. replace (i - n)%nat with (S (i - S n)) in Y by lia. exact Y.
        * intros (L & H & F & G). destruct (Nat.eq_dec j n) as [->|D].
          -- rewrite Nat.sub_diag in H. injection H as ->. congruence.
          -- repeat split; try lia; try easy.
             ++ replace (j - n)%nat with (S (j - S n)) in H by lia. exact H.
             ++ intros i y I Y. apply G; [lia|]. replace (i - n)%nat with (S (i - S n)) by lia. exact Y. }
  rewrite G. rewrite Nat.sub_0_r. split.
  - intros (_ & H & F & Q). repeat split; try easy. intros i y I Y. apply Q; [lia|]. now rewrite Nat.sub_0_r.
  - intros (H & F & Q). repeat split; try easy; try lia. intros i y I Y. rewrite Nat.sub_0_r in Y. apply (Q i); [lia|easy].
Qed.
Lemma primitive_for_eq seen d ps k :
  primitive_for seen d ps = Some k <-> (forall p, In p ps -> exists j, literal_of p = Some j /\ seen j = true) /\ last (map literal_of ps) d = Some k.
Proof.
  revert d. induction ps as [|p ps IH]; intros d; cbn [primitive_for].
  - cbn. split; [intros H; split; [easy|exact H]|easy].
  - destruct (literal_of p) as [j|] eqn:E.
    + destruct (seen j) eqn:Q.
      * rewrite IH. split.
        -- intros [A L]. split; [intros q [<-|I]; [eauto|auto]|]. cbn [map]. rewrite E. destruct (map literal_of ps) eqn:M; [exact L|].
           cbn [last]. cbn [last] in L. clear -L. revert L. generalize o. induction l as [|y l IH]; intros o' L; [exact L|]. cbn [last] in *. exact (IH y L).
        -- intros [A L]. split; [intros q I; apply A; now right|]. cbn [map] in L. rewrite E in L. destruct (map literal_of ps) eqn:M; [exact L|].
           cbn [last] in *. clear -L. revert L. generalize o. induction l as [|y l IH]; intros o' L; [exact L|]. cbn [last] in *. exact (IH y L).
      * split; [discriminate|]. intros [A _]. destruct (A p) as (j' & H & S'); [now left|]. congruence.
    + split; [discriminate|]. intros [A _]. destruct (A p) as (j' & H & _); [now left|]. congruence.
Qed.

Lemma NoDup_keyed {A B K} (g : A -> K) (key : B -> K) (f : A -> list B) l :
  NoDup (map g l) -> (forall x, In x l -> NoDup (f x)) -> (forall x y, In x l -> In y (f x) -> key y = g x) -> NoDup (flat_map f l).
Proof.
  induction l as [|x l IH]; intros N F KE; [constructor|]. cbn. inversion_clear N as [|? ? NI N'].
  assert (R : NoDup (flat_map f l)) by (apply IH; [easy|intros; apply F; now right|intros; apply KE; [now right|easy]]).
  specialize (F x (or_introl eq_refl)). assert (KX : forall y, In y (f x) -> key y = g x) by (intros; apply KE; [now left|easy]).
  revert F KX. generalize (f x). intros fx. induction fx as [|y fx IHx]; intros F KX; [exact R|]. cbn. inversion_clear F as [|? ? YI F'].
  constructor; [|apply IHx; [easy|intros; apply KX; now right]]. rewrite in_app_iff. intros [I|I]; [easy|].
  apply in_flat_map in I. destruct I as (z & Z & I). apply NI. rewrite <- (KX y (or_introl eq_refl)), (KE z y (or_intror Z) I). now apply in_map.
Qed.
Lemma NoDup_join {A} (l m : list A) : NoDup l -> NoDup m -> (forall x, In x l -> ~ In x m) -> NoDup (l ++ m).
Proof.
  induction l as [|x l IH]; intros N M D; [exact M|]. cbn. inversion_clear N. constructor; [|apply IH; auto; intros; apply D; now right].
  rewrite in_app_iff. intros [I|I]; [easy|]. exact (D x (or_introl eq_refl) I).
Qed.
Lemma NoDup_keys {A K} (g : A -> K) l : NoDup (map g l) -> NoDup l.
Proof. apply NoDup_map_inv. Qed.
Lemma NoDup_filter_key {A B} (g : A * B -> bool) (l : list (A * B)) : NoDup (map fst l) -> NoDup (map fst (filter g l)).
Proof.
  induction l as [|x l IH]; intros N; [constructor|]. cbn in *. inversion_clear N as [|? ? NI N']. destruct (g x); [|auto]. cbn. constructor; [|auto].
  intros I. apply NI. apply in_map_iff in I. destruct I as (y & E & I). apply filter_In in I. apply in_map_iff. exists y. easy.
Qed.

Section Facts.
Variables (number : sty -> Z) (show : ty -> bstr) (quoted : bstr -> bstr).
Hypothesis apart : forall x, number x = number boolean -> x = boolean.
Notation parts := (parts (number boolean)).
Notation name := (name show quoted).

(** ** Constituents *)
Definition pieces (s : source) : list part :=
  match s with AKeyword k => [PKeyword k] | ALiteral l => [PLiteral l] | AType x => map (fun y => PType (typed number y)) (members x) end.
Lemma typed_member y : member y -> typed number y = checked number y.
Proof. unfold typed. destruct (is_boolean y) eqn:E; [|reflexivity]. apply boolean_is in E. subst y. now cbn. Qed.
Lemma parts_written s : proper s -> parts (written number s) = pieces s.
Proof.
  destruct s as [k|l|x]; cbn; try reflexivity. intros [_ N].
  unfold members, typed. destruct (is_boolean x) eqn:E.
  - apply boolean_is in E. subst x. cbn. now rewrite Z.eqb_refl.
  - assert (Q : (t_id (checked number x) =? number boolean) = false).
    { apply Z.eqb_neq. intros H. assert (x = boolean) by (apply apart; now destruct x). subst x. discriminate E. }
    rewrite Q. destruct x; cbn [union_parts is_union is_set checked t_flags existsb flag_eqb t_parts map orb];
      try (cbn; unfold typed; cbn; reflexivity).
    cbn. rewrite map_map. apply map_ext_in. intros y I. destruct N as (_ & _ & N & _). rewrite Forall_forall in N.
    f_equal. symmetry. apply (typed_member y). auto.
Qed.
Lemma literal_of_typed y : literal_of (PType (typed number y)) = literal_type y.
Proof.
  unfold typed, literal_of. destruct (is_boolean y) eqn:E; [apply boolean_is in E; now subst|]. now destruct y.
Qed.
Lemma primitive_of_typed y : primitive_of (PType (typed number y)) = primitive_type y.
Proof.
  unfold typed, primitive_of. destruct (is_boolean y) eqn:E; [apply boolean_is in E; now subst|]. now destruct y.
Qed.
Lemma name_typed y : name (PType (typed number y)) = type_name number show quoted y.
Proof.
  unfold type_name, name, RedundantTypes.name, typed. destruct (is_boolean y) eqn:E; [apply boolean_is in E; now subst|]. now destruct y.
Qed.
Lemma literal_of_piece s k : map name (filter (fun p => is_kind (literal_of p) k) (pieces s)) = literal_names number show quoted s k.
Proof.
  destruct s as [w|l|x]; cbn [pieces literal_names].
  - cbn [filter]. destruct w; reflexivity.
  - cbn [filter]. destruct (same_kind (Some (literal_kind l)) k) as [e|e].
    + injection e as <-. destruct l; reflexivity.
    + assert (F : is_kind (literal_of (PLiteral l)) k = false).
      { destruct (is_kind (literal_of (PLiteral l)) k) eqn:Q; [|reflexivity]. apply is_kind_eq in Q. destruct l; cbn in *; congruence. }
      now rewrite F.
  - unfold picks. generalize (members x). intros l. induction l as [|y l IH]; [reflexivity|]. cbn [map filter]. rewrite literal_of_typed.
    destruct (same_kind (literal_type y) k) as [e|e].
    + rewrite (proj2 (is_kind_eq _ _) e). cbn [map]. now rewrite IH, name_typed.
    + destruct (is_kind (literal_type y) k) eqn:Q; [apply is_kind_eq in Q; congruence|]. exact IH.
Qed.
Lemma literals_exist s k : filter (fun p => is_kind (literal_of p) k) (pieces s) <> [] <-> literal_names number show quoted s k <> [].
Proof. rewrite <- literal_of_piece. destruct (filter _ _); cbn; split; congruence. Qed.
Lemma primitive_exists s k : (exists p, In p (pieces s) /\ primitive_of p = Some k) <-> has_primitive false s k.
Proof.
  destruct s as [w|l|x]; cbn [pieces has_primitive].
  - split; [intros (p & [<-|[]] & H); now destruct w | intros H; exists (PKeyword w); split; [now left | now destruct w]].
  - split; [|easy]. intros (p & [<-|[]] & H). now destruct l.
  - split.
    + intros (p & I & H). apply in_map_iff in I. destruct I as (y & <- & I). rewrite primitive_of_typed in H. left. eauto.
    + intros [(y & I & H) | (Q & _)]; [|discriminate]. exists (PType (typed number y)). split; [apply in_map_iff; eauto|].
      now rewrite primitive_of_typed.
Qed.
Lemma flag_exists s k : proper s ->
  (exists p, In p (pieces s) /\ existsb (flag_eqb (primitive_flag k)) (flags p) = true) <-> has_primitive true s k.
Proof.
  intros P.
  assert (T : forall y, existsb (flag_eqb (primitive_flag k)) (flags (PType (typed number y))) = true <-> primitive_type y = Some k \/ (is_boolean y = true /\ k = Boolean)).
  { intros y. unfold typed. destruct (is_boolean y) eqn:E.
    - apply boolean_is in E. subst y. destruct k; cbn; intuition congruence.
    - destruct k, y; cbn; intuition congruence. }
  destruct s as [w|l|x]; cbn [pieces has_primitive].
  - split; [intros (p & [<-|[]] & H) | intros H; exists (PKeyword w); split; [now left|]]; destruct w, k; cbn in *; congruence.
  - split; [|easy]. intros (p & [<-|[]] & H). destruct l, k; cbn in *; congruence.
  - split.
    + intros (p & I & H). apply in_map_iff in I. destruct I as (y & <- & I). apply T in H. destruct H as [H|[H ->]]; [left; eauto|].
      right. split; [reflexivity|]. split; [|reflexivity]. revert I. unfold members. destruct (is_boolean x) eqn:E; [easy|].
      destruct x; try (intros [<-|[]]; congruence). intros I. exfalso.
      apply boolean_is in H. subst y. destruct P as (_ & _ & _ & P & _). rewrite Forall_forall in P. exact (P _ I).
    + intros [(y & I & H) | (_ & E & ->)].
      * exists (PType (typed number y)). split; [apply in_map_iff; eauto|]. apply T. now left.
      * exists (PType (typed number x)). split; [|apply T; now right]. apply in_map_iff. exists x. split; [reflexivity|].
        unfold members. rewrite E. now left.
Qed.

(** ** Top and bottom types *)
Lemma called_whole x e n : called number show (AType x) e n -> n = show (typed number x) /\ x = match e with Any => SAny | Unknown => SUnknown | Never => SNever end.
Proof. destruct x, e; cbn; try easy; intros (y & H & ->); injection H as <-; easy. Qed.
Definition flag_of (e : extreme) : flag := match e with Any => FAny | Unknown => FUnknown | Never => FNever end.
Lemma extreme_piece s e n : proper s ->
  (exists p, In p (pieces s) /\ flags p = [flag_of e] /\ name p = n) <-> called number show s e n.
Proof.
  intros P. destruct s as [w|l|x]; cbn [pieces].
  - split; [intros (p & [<-|[]] & F & <-) | intros H; exists (PKeyword w); split; [now left|]]; destruct w, e; cbn in *; try easy; subst; easy.
  - split; [|now destruct l, e]. intros (p & [<-|[]] & F & <-). destruct l, e; cbn in *; easy.
  - split.
    + intros (p & I & F & <-). apply in_map_iff in I. destruct I as (y & <- & I). rewrite name_typed.
      assert (E : y = match e with Any => SAny | Unknown => SUnknown | Never => SNever end).
      { revert F. unfold typed. cbn. destruct (is_boolean y); [now destruct e|]. destruct y, e; cbn; easy. }
      assert (y = x).
      { revert I. unfold members. destruct (is_boolean x); [intros [->|[]]; reflexivity|]. destruct x; try (intros [<-|[]]; reflexivity).
        intros I. destruct P as (_ & _ & _ & P & _). rewrite Forall_forall in P. apply P in I. subst y. now destruct e. }
      subst x. subst y. destruct e; cbn; eauto.
    + intros H. apply called_whole in H. destruct H as [-> ->]. exists (PType (typed number match e with Any => SAny | Unknown => SUnknown | Never => SNever end)).
      destruct e; cbn; repeat split; now left.
Qed.
Lemma extreme_only s e n : proper s -> called number show s e n -> exists p, pieces s = [p] /\ flags p = [flag_of e] /\ name p = n.
Proof.
  intros P C. pose proof C as D. apply (extreme_piece _ _ _ P) in D. destruct D as (p & I & F & N). exists p. split; [|easy].
  destruct s as [w|l|x]; cbn in *.
  - destruct I as [->|[]]. reflexivity.
  - destruct I as [->|[]]. reflexivity.
  - apply called_whole in C. destruct C as [_ ->]. destruct e; cbn in *; destruct I as [->|[]]; reflexivity.
Qed.

Variable l : list source.
Hypothesis ok : Forall proper l.
Notation nodes := (map (written number) l).
Lemma parts_nth s : In s l -> parts (written number s) = pieces s.
Proof. intros I. apply parts_written. rewrite Forall_forall in ok. auto. Qed.
Lemma node_nth i n : nth_error nodes i = Some n <-> exists s, nth_error l i = Some s /\ n = written number s.
Proof.
  rewrite nth_error_map. destruct (nth_error l i); cbn; split.
  - intros H. injection H as <-. eauto.
  - intros (s' & H & ->). now injection H as <-.
  - discriminate.
  - intros (s' & H & _). discriminate.
Qed.
Lemma all_parts : flat_map parts nodes = flat_map pieces l.
Proof.
  apply flat_map_map. exact parts_nth.
Qed.
Lemma extremes_in f i m :
  In (Report i m) (extremes (number boolean) f nodes) <-> exists s p, nth_error l i = Some s /\ In p (pieces s) /\ f p = Some m.
Proof.
  unfold extremes. rewrite in_flat_map. split.
  - intros ((j & n) & I & H). apply numbered_in, node_nth in I. destruct I as (s & I & ->). cbn [fst snd] in H.
    rewrite parts_nth in H by (eapply nth_error_In; eauto).
    apply in_flat_map in H. destruct H as (p & P & H). destruct (f p) eqn:F; [|easy]. destruct H as [H|[]]. injection H as <- <-. eauto.
  - intros (s & p & N & P & F). exists (i, written number s). split; [apply numbered_in, node_nth; eauto|]. cbn [fst snd].
    rewrite parts_nth by (eapply nth_error_In; eauto). apply in_flat_map. exists p. split; [easy|]. rewrite F. now left.
Qed.
Lemma proper_nth i s : nth_error l i = Some s -> proper s.
Proof. intros H. apply nth_error_In in H. rewrite Forall_forall in ok. auto. Qed.

(** ** Unions *)
Lemma seen_union returned k : seen_primitive show quoted (number boolean) returned k nodes = true <-> exists t, In t l /\ has_primitive true t k.
Proof.
  unfold seen_primitive. rewrite all_parts, existsb_exists. split.
  - intros (p & I & H). apply in_flat_map in I. destruct I as (t & T & I). exists t. split; [easy|]. apply flag_exists; [rewrite Forall_forall in ok; auto|].
    exists p. split; [easy|]. now destruct (union_extreme _ _ _ p).
  - intros (t & T & H). apply flag_exists in H; [|rewrite Forall_forall in ok; auto]. destruct H as (p & I & H). exists p.
    split; [apply in_flat_map; eauto|]. unfold union_extreme. destruct (flags p) as [|[] []] eqn:F; try exact H; destruct k; discriminate H.
Qed.
Lemma overridden_in i k ps : In (i, ps) (overridden (number boolean) k nodes) <->
  exists s, nth_error l i = Some s /\ ps = filter (fun p => is_kind (literal_of p) k) (pieces s) /\ ps <> [].
Proof.
  unfold overridden. rewrite filter_In, in_map_iff. cbn [snd]. rewrite nonempty_eq. split.
  - intros [((j & n) & H & I) N]. cbn [fst snd] in H. injection H as -> <-. apply numbered_in, node_nth in I. destruct I as (s & I & ->).
    rewrite parts_nth in * by (eapply nth_error_In; eauto). eauto.
  - intros (s & I & -> & N). split; [|easy]. exists (i, written number s). cbn [fst snd]. rewrite parts_nth by (eapply nth_error_In; eauto).
    split; [reflexivity|]. apply numbered_in, node_nth. eauto.
Qed.
Variable order : primitive -> list (nat * list part) -> list (nat * list part).
Hypothesis shuffled : forall k x, Permutation (order k x) x.

Theorem union_exact returned i m :
  In (Report i m) (union_rule show quoted (number boolean) order returned nodes) <-> union_report number show quoted returned l i m.
Proof.
  unfold union_rule. rewrite in_app_iff, extremes_in, in_flat_map. split.
  - intros [(s & p & N & P & F) | (k & _ & H)].
    + unfold union_extreme in F. destruct (flags p) as [|[] []] eqn:E; try discriminate F.
      * injection F as <-. apply (ur_any _ _ _ _ _ i s (name p)); [easy|]. apply extreme_piece; [eapply proper_nth; eauto|]. eauto.
      * injection F as <-. apply (ur_unknown _ _ _ _ _ i s (name p)); [easy|]. apply extreme_piece; [eapply proper_nth; eauto|]. eauto.
      * destruct returned eqn:R; [discriminate|]. injection F as <-. apply (ur_never _ _ _ _ _ i s (name p)); [easy..|].
        apply extreme_piece; [eapply proper_nth; eauto|]. eauto.
    + destruct (seen_primitive _ _ _ returned k nodes) eqn:Q; [|easy]. apply seen_union in Q. apply in_map_iff in H. destruct H as ((j & ps) & H & I).
      cbn [fst snd] in H. injection H as -> <-. apply (Permutation_in _ (shuffled _ _)) in I. apply overridden_in in I. destruct I as (s & I & -> & N).
      rewrite join_joined, word_name, literal_of_piece. apply ur_literal; [easy| |easy]. now apply literals_exist in N.
  - destruct 1 as [i s n N C | i s n N C | i s n R N C | i s k N L S].
    + left. apply extreme_piece in C; [|eapply proper_nth; eauto]. destruct C as (p & I & F & <-). exists s, p. split; [easy|]. split; [easy|].
      unfold union_extreme. now rewrite F.
    + left. apply extreme_piece in C; [|eapply proper_nth; eauto]. destruct C as (p & I & F & <-). exists s, p. split; [easy|]. split; [easy|].
      unfold union_extreme. now rewrite F.
    + left. apply extreme_piece in C; [|eapply proper_nth; eauto]. destruct C as (p & I & F & <-). exists s, p. split; [easy|]. split; [easy|].
      unfold union_extreme. now rewrite F, R.
    + right. exists k. split; [destruct k; cbn; tauto|]. apply (seen_union returned) in S. rewrite S. apply in_map_iff.
      exists (i, filter (fun p => is_kind (literal_of p) k) (pieces s)). split.
      * cbn [fst snd]. now rewrite join_joined, word_name, literal_of_piece.
      * apply (Permutation_in _ (Permutation_sym (shuffled _ _))). apply overridden_in. exists s. split; [easy|]. split; [easy|]. now apply literals_exist.
Qed.

(** ** Intersections *)
Lemma pieces_several s : (2 <= List.length (pieces s))%nat <-> several s.
Proof. destruct s; cbn; try (split; [lia|easy]). now rewrite map_length. Qed.
Lemma unions_in i n : In (i, n) (unions (number boolean) nodes) <-> exists s, nth_error l i = Some s /\ n = written number s /\ several s.
Proof.
  unfold unions. rewrite filter_In, numbered_in, node_nth. cbn [snd]. rewrite Nat.leb_le. split.
  - intros [(s & I & ->) H]. rewrite parts_nth in H by (eapply nth_error_In; eauto). apply pieces_several in H. eauto.
  - intros (s & I & -> & H). split; [eauto|]. rewrite parts_nth by (eapply nth_error_In; eauto). now apply pieces_several.
Qed.
Lemma primitive_nodes_in i k : In i (primitive_nodes (number boolean) k nodes) <-> exists s, nth_error l i = Some s /\ has_primitive false s k.
Proof.
  unfold primitive_nodes. rewrite in_flat_map. split.
  - intros ((j & n) & I & H). apply numbered_in, node_nth in I. destruct I as (s & I & ->). cbn [fst snd] in H.
    rewrite parts_nth in H by (eapply nth_error_In; eauto). apply in_map_iff in H. destruct H as (p & <- & H). apply filter_In in H. destruct H as [H K].
    apply is_kind_eq in K. exists s. split; [easy|]. apply primitive_exists. eauto.
  - intros (s & I & H). exists (i, written number s). split; [apply numbered_in, node_nth; eauto|]. cbn [fst snd].
    rewrite parts_nth by (eapply nth_error_In; eauto). apply primitive_exists in H. destruct H as (p & P & H). apply in_map_iff. exists p. split; [easy|].
    apply filter_In. split; [easy|]. now apply is_kind_eq.
Qed.
Lemma primitive_seen k : nonempty (primitive_nodes (number boolean) k nodes) = true <-> exists t, In t l /\ has_primitive false t k.
Proof.
  rewrite nonempty_eq. split.
  - destruct (primitive_nodes (number boolean) k nodes) as [|i r] eqn:E; [easy|]. intros _.
    assert (I : In i (primitive_nodes (number boolean) k nodes)) by (rewrite E; now left). apply primitive_nodes_in in I. destruct I as (s & I & H).
    exists s. split; [eapply nth_error_In; eauto|easy].
  - intros (t & I & H) E. apply In_nth_error in I. destruct I as (i & I). assert (Q : In i (primitive_nodes (number boolean) k nodes)) by (apply primitive_nodes_in; eauto).
    rewrite E in Q. easy.
Qed.
Lemma literals_eq k : map name (literals (number boolean) k nodes) = concat (map (fun t => literal_names number show quoted t k) l).
Proof.
  unfold literals. rewrite all_parts. clear ok order shuffled. induction l as [|s r IH]; [reflexivity|]. cbn [flat_map map concat].
  rewrite filter_app, map_app, IH, literal_of_piece. reflexivity.
Qed.
Lemma literals_some k : literals (number boolean) k nodes <> [] <-> exists t, In t l /\ literal_names number show quoted t k <> [].
Proof.
  assert (E : literals (number boolean) k nodes <> [] <-> concat (map (fun t => literal_names number show quoted t k) l) <> []).
  { rewrite <- literals_eq. destruct (literals _ _ _); cbn; split; congruence. }
  rewrite E. clear E ok order shuffled. induction l as [|s r IH]; cbn [map concat].
  - split; [easy|]. now intros (t & [] & _).
  - destruct (literal_names number show quoted s k) as [|x y] eqn:Q; cbn [app].
    + rewrite IH. split; [intros (t & I & H); exists t; split; [now right|easy] | intros (t & [<-|I] & H); [congruence|eauto]].
    + split; [intros _; exists s; split; [now left|congruence] | discriminate].
Qed.
Lemma all_literal_pieces seen x : (forall k, seen k = true <-> exists t, In t l /\ has_primitive false t k) ->
  (forall p, In p (pieces (AType x)) -> exists j, literal_of p = Some j /\ seen j = true) <-> all_literal l x.
Proof.
  intros S. unfold all_literal. cbn [pieces]. split.
  - intros H y I. destruct (H (PType (typed number y))) as (j & L & Q); [apply in_map_iff; eauto|]. rewrite literal_of_typed in L. apply S in Q. destruct Q as (t & Q & R). eauto.
  - intros H p I. apply in_map_iff in I. destruct I as (y & <- & I). destruct (H _ I) as (k & t & L & T & P). exists k. rewrite literal_of_typed. split; [easy|]. apply S. eauto.
Qed.
Lemma last_literal x : last (map literal_of (pieces (AType x))) None = last (map literal_type (members x)) None.
Proof. cbn [pieces]. rewrite map_map. f_equal. apply map_ext. intros. apply literal_of_typed. Qed.
Lemma names_eq x : map name (pieces (AType x)) = map (type_name number show quoted) (members x).
Proof. cbn [pieces]. rewrite map_map. apply map_ext. intros. apply name_typed. Qed.

Lemma union_reports_text seen text us i m : text <> [] ->
  In (Report i m) (union_reports show quoted (number boolean) seen text us) <->
  exists n k, In (i, n) us /\ primitive_for seen None (parts n) = Some k /\ m = PrimitiveOverridden (primitive_name k) text.
Proof.
  intros T. assert (NT : nonempty text = true) by now apply nonempty_eq. induction us as [|(j & n) us IH]; cbn [union_reports].
  - split; [easy|]. now intros (n & k & [] & _).
  - destruct (primitive_for seen None (parts n)) as [k|] eqn:E.
    + rewrite NT. cbn [In]. rewrite IH. split.
      * intros [H | (n' & k' & I & P & H)]; [injection H as <- <-; exists n, k; split; [now left|easy] | exists n', k'; split; [now right|easy]].
      * intros (n' & k' & [I|I] & P & ->); [injection I as -> ->; left; congruence | right; eauto].
    + rewrite IH. split.
      * intros (n' & k' & I & P & H). exists n', k'. split; [now right|easy].
      * intros (n' & k' & [I|I] & P & ->); [injection I as -> ->; congruence | eauto].
Qed.
Lemma union_reports_in seen us i m : (forall j n, In (j, n) us -> (2 <= List.length (parts n))%nat) ->
  In (Report i m) (union_reports show quoted (number boolean) seen [] us) <->
  exists n k j n0, In (i, n) us /\ primitive_for seen None (parts n) = Some k /\
    find (fun x => match primitive_for seen None (parts (snd x)) with Some _ => true | None => false end) us = Some (j, n0) /\
    m = PrimitiveOverridden (primitive_name k) (join (map name (parts n0))).
Proof.
  induction us as [|(j & n) us IH]; intros L; cbn [union_reports find].
  - split; [easy|]. now intros (n & k & j & n0 & [] & _).
  - cbn [snd]. destruct (primitive_for seen None (parts n)) as [k|] eqn:E.
    + cbn [nonempty]. cbn [In]. rewrite union_reports_text.
      * split.
        -- intros [H | (n' & k' & I & P & H)]; [injection H as <- <-; exists n, k, j, n; split; [now left|easy] | exists n', k', j, n; split; [now right|easy]].
        -- intros (n' & k' & j' & n0 & I & P & F & ->). injection F as <- <-. destruct I as [I|I]; [injection I as -> ->; left; congruence | right; eauto].
      * rewrite join_joined. specialize (L j n (or_introl eq_refl)). destruct (parts n) as [|x [|y r]]; cbn in L; try lia. apply joined_nonempty.
    + rewrite IH by (intros; apply (L j0); now right). split.
      * intros (n' & k' & j' & n0 & I & H). exists n', k', j', n0. split; [now right|easy].
      * intros (n' & k' & j' & n0 & [I|I] & P & H); [injection I as -> ->; congruence | exists n', k', j', n0; easy].
Qed.
Lemma find_filter {A} (f g : A -> bool) x : find f (filter g x) = find (fun y => g y && f y) x.
Proof. induction x as [|y x IH]; [reflexivity|]. cbn. destruct (g y); cbn; [now rewrite IH|exact IH]. Qed.

Theorem inter_exact i m :
  In (Report i m) (inter_rule show quoted (number boolean) nodes) <-> inter_report number show quoted l i m.
Proof.
  unfold inter_rule. rewrite in_app_iff, extremes_in.
  assert (SEEN : forall k, nonempty (primitive_nodes (number boolean) k nodes) = true <-> exists t, In t l /\ has_primitive false t k) by apply primitive_seen.
  set (seen := fun k => nonempty (primitive_nodes (number boolean) k nodes)) in *.
  assert (PF : forall s k, In s l -> several s -> primitive_for seen None (parts (written number s)) = Some k <-> exists x, s = AType x /\ all_literal l x /\ last (map literal_type (members x)) None = Some k).
  { intros s k I V. rewrite parts_nth by easy. rewrite primitive_for_eq. destruct s as [w|y|x]; try easy. rewrite (all_literal_pieces seen x SEEN), last_literal.
    split; [intros [A L]; eauto | intros (x' & H & A); now injection H as <-]. }
  assert (FN : forall j n0, find (fun x => match primitive_for seen None (parts (snd x)) with Some _ => true | None => false end) (unions (number boolean) nodes) = Some (j, n0) <->
    exists y, nth_error l j = Some (AType y) /\ n0 = written number (AType y) /\ several (AType y) /\ all_literal l y /\
      forall j' z, (j' < j)%nat -> nth_error l j' = Some (AType z) -> several (AType z) -> ~ all_literal l z).
  { assert (AL : forall x, several (AType x) -> all_literal l x -> exists k, last (map literal_type (members x)) None = Some k).
    { intros x V A. cbn in V. clear -A V. unfold all_literal in A. destruct (members x) as [|a r]; [cbn in V; lia|]. clear V. revert a A.
      induction r as [|c r IH]; intros a A.
      - destruct (A a) as (k & _ & H & _); [now left|]. exists k. exact H.
      - destruct (IH c) as (k & H); [intros y I; apply A; now right|]. exists k. exact H. }
    intros j n0. unfold unions. rewrite find_filter, find_numbered, node_nth. cbn [snd]. split.
    - intros ((s & I & ->) & F & B). apply andb_prop in F. destruct F as [V F]. rewrite Nat.leb_le, parts_nth, pieces_several in V by (eapply nth_error_In; eauto).
      destruct (primitive_for seen None (parts (written number s))) as [k|] eqn:E; [|easy]. apply PF in E; [|eapply nth_error_In; eauto|easy].
      destruct E as (x & -> & A & _). exists x. repeat split; try easy. intros j' z J Z V' A'.
      assert (Q : (2 <=? List.length (parts (written number (AType z))))%nat && match primitive_for seen None (parts (written number (AType z))) with Some _ => true | None => false end = false).
      { apply (B j'); [easy|]. apply node_nth. eauto. }
      apply andb_false_iff in Q. destruct Q as [Q|Q].
      + apply Nat.leb_gt in Q. rewrite parts_nth in Q by (eapply nth_error_In; eauto). apply pieces_several in V'. lia.
      + destruct (AL _ V' A') as (k' & K'). destruct (primitive_for seen None (parts (written number (AType z)))) eqn:E; [easy|].
        assert (W : primitive_for seen None (parts (written number (AType z))) = Some k') by (apply PF; [eapply nth_error_In; eauto|easy|eauto]). congruence.
    - intros (y & I & -> & V & A & B). split; [eauto|]. destruct (AL _ V A) as (k & K). split.
      + apply andb_true_intro. split; [apply Nat.leb_le; rewrite parts_nth by (eapply nth_error_In; eauto); now apply pieces_several|].
        replace (primitive_for seen None (parts (written number (AType y)))) with (Some k); [reflexivity|].
        symmetry. apply PF; [eapply nth_error_In; eauto|easy|eauto].
      + intros j' n' J N. apply node_nth in N. destruct N as (s & N & ->). apply andb_false_iff.
        destruct (2 <=? List.length (parts (written number s)))%nat eqn:V'; [|now left]. right.
        rewrite Nat.leb_le, parts_nth, pieces_several in V' by (eapply nth_error_In; eauto).
        destruct (primitive_for seen None (parts (written number s))) as [k'|] eqn:E; [|easy]. apply PF in E; [|eapply nth_error_In; eauto|easy].
        destruct E as (x & -> & A' & _). exfalso. exact (B _ _ J N V' A'). }
  split.
  - intros [(s & p & N & P & F) | H].
    + unfold inter_extreme in F. destruct (flags p) as [|[] []] eqn:E; try discriminate F; injection F as <-.
      * apply (ir_any _ _ _ _ i s (name p)); [easy|]. apply extreme_piece; [eapply proper_nth; eauto|]. eauto.
      * apply (ir_unknown _ _ _ _ i s (name p)); [easy|]. apply extreme_piece; [eapply proper_nth; eauto|]. eauto.
      * apply (ir_never _ _ _ _ i s (name p)); [easy|]. apply extreme_piece; [eapply proper_nth; eauto|]. eauto.
    + destruct (unions (number boolean) nodes) as [|u us] eqn:U.
      * apply in_flat_map in H. destruct H as (k & _ & H). unfold overriding in H.
        destruct (literals (number boolean) k nodes) as [|a r] eqn:L; [easy|]. rewrite <- L in H. apply in_map_iff in H. destruct H as (j & H & I).
        injection H as -> <-. apply primitive_nodes_in in I. destruct I as (s & I & P). rewrite join_joined, word_name, literals_eq.
        apply (ir_primitive _ _ _ _ i s k); [|easy|easy|apply literals_some; congruence].
        intros t T V. apply In_nth_error in T. destruct T as (j & T). assert (In (j, written number t) (unions (number boolean) nodes)) by (apply unions_in; eauto).
        rewrite U in *. easy.
      * destruct (existsb seen primitives); [|easy]. rewrite <- U in *. apply union_reports_in in H.
        -- destruct H as (n & k & j & n0 & I & P & F & ->). apply unions_in in I. destruct I as (s & I & -> & V). apply PF in P; [|eapply nth_error_In; eauto|easy].
           destruct P as (x & -> & A & K). apply FN in F. destruct F as (y & Y & -> & V' & A' & B).
           rewrite join_joined, word_name, (parts_nth (AType y)), names_eq by (eapply nth_error_In; eauto). exact (ir_union number show quoted l i x k j y A I V K Y V' A' B).
        -- intros j n I. apply unions_in in I. destruct I as (s & I & -> & V). rewrite parts_nth by (eapply nth_error_In; eauto). now apply pieces_several.
  - destruct 1 as [i s n N C | i s n N C | i s n N C | i s k V N P L | i x k first y A N V K N' V' A' B].
    + left. apply extreme_piece in C; [|eapply proper_nth; eauto]. destruct C as (p & I & F & <-). exists s, p. split; [easy|]. split; [easy|].
      unfold inter_extreme. now rewrite F.
    + left. apply extreme_piece in C; [|eapply proper_nth; eauto]. destruct C as (p & I & F & <-). exists s, p. split; [easy|]. split; [easy|].
      unfold inter_extreme. now rewrite F.
    + left. apply extreme_piece in C; [|eapply proper_nth; eauto]. destruct C as (p & I & F & <-). exists s, p. split; [easy|]. split; [easy|].
      unfold inter_extreme. now rewrite F.
    + right. destruct (unions (number boolean) nodes) as [|(j & u) us] eqn:U.
      * apply in_flat_map. exists k. split; [destruct k; cbn; tauto|]. unfold overriding. apply literals_some in L.
        destruct (literals (number boolean) k nodes) as [|a r] eqn:Q; [easy|]. rewrite <- Q. apply in_map_iff. exists i.
        rewrite join_joined, word_name, literals_eq. split; [easy|]. apply primitive_nodes_in. eauto.
      * exfalso. assert (I : In (j, u) (unions (number boolean) nodes)) by (rewrite U; now left). apply unions_in in I. destruct I as (s' & I & _ & Q).
        exact (V s' (nth_error_In _ _ I) Q).
    + right. assert (I : In (i, written number (AType x)) (unions (number boolean) nodes)) by (apply unions_in; eauto).
      destruct (unions (number boolean) nodes) as [|u us] eqn:U; [easy|]. rewrite <- U in *.
      assert (S : existsb seen primitives = true).
      { apply existsb_exists. destruct (members x) as [|a r] eqn:M; [unfold several in V; rewrite M in V; cbn in V; lia|].
        assert (AM : In a (members x)) by (rewrite M; now left). destruct (A a AM) as (k' & t & _ & T & P).
        exists k'. split; [destruct k'; cbn; tauto|]. apply SEEN. eauto. }
      rewrite S. apply union_reports_in.
      * intros j n J. apply unions_in in J. destruct J as (s & J & -> & W). rewrite parts_nth by (eapply nth_error_In; eauto). now apply pieces_several.
      * exists (written number (AType x)), k, first, (written number (AType y)). split; [easy|]. split; [apply PF; [eapply nth_error_In; eauto|easy|eauto]|].
        split; [apply FN; eauto 8|].
        rewrite (parts_nth (AType y)) by (eapply nth_error_In; eauto). now rewrite names_eq, join_joined.
Qed.

(** ** Every report once *)
Lemma extremes_once f : (forall p m, f p = Some m -> exists e, flags p = [flag_of e]) -> NoDup (extremes (number boolean) f nodes).
Proof.
  intros F. unfold extremes. apply (NoDup_keyed fst at_); [apply numbered_nodup| |].
  - intros (i & n) I. apply numbered_in, node_nth in I. destruct I as (s & I & ->). cbn [fst snd]. rewrite parts_nth by (eapply nth_error_In; eauto).
    assert (one : forall p, NoDup (flat_map (fun p => match f p with Some m => [Report i m] | None => [] end) [p])).
    { intros p. cbn. destruct (f p); cbn; repeat constructor. easy. }
    destruct s as [w|y|x]; cbn [pieces]; try apply one.
    pose proof (proper_nth _ _ I) as P. destruct x; try apply one. unfold members. destruct (is_boolean (SUnion symbol l0)); [apply one|].
    replace (flat_map _ _) with (@nil report); [constructor|].
    destruct P as (_ & _ & _ & P & _). symmetry. clear I. induction l0 as [|y r IH]; [reflexivity|]. inversion_clear P as [|? ? P1 P2]. cbn [map flat_map].
    destruct (f (PType (typed number y))) as [m|] eqn:E; [|exact (IH P2)]. apply F in E. destruct E as (e & E). exfalso. rewrite (typed_member y P1) in E.
    destruct y, e; cbn in *; easy.
  - intros (i & n) r _ I. apply in_flat_map in I. destruct I as (p & _ & I). destruct (f p); [|easy]. destruct I as [<-|[]]. reflexivity.
Qed.
Lemma union_extreme_flags returned p m : union_extreme show quoted returned p = Some m -> exists e, flags p = [flag_of e].
Proof. unfold union_extreme. destruct (flags p) as [|[] []]; try discriminate; intros _; [exists Any|exists Unknown|exists Never]; reflexivity. Qed.
Lemma inter_extreme_flags p m : inter_extreme show quoted p = Some m -> exists e, flags p = [flag_of e].
Proof. unfold inter_extreme. destruct (flags p) as [|[] []]; try discriminate; intros _; [exists Any|exists Unknown|exists Never]; reflexivity. Qed.
Definition about_literal (m : message) : bool := match m with LiteralOverridden _ _ | PrimitiveOverridden _ _ => true | _ => false end.
Lemma extremes_kind f i m : (forall p m, f p = Some m -> about_literal m = false) -> In (Report i m) (extremes (number boolean) f nodes) -> about_literal m = false.
Proof. intros F H. apply extremes_in in H. destruct H as (s & p & _ & _ & E). eauto. Qed.
Definition named (m : message) : option bstr := match m with LiteralOverridden _ p | PrimitiveOverridden _ p => Some p | _ => None end.
Lemma words_once : NoDup (map (fun k => Some (primitive_name k)) primitives).
Proof. cbn. repeat constructor; cbn; intuition congruence. Qed.

Theorem union_once returned : NoDup (union_rule show quoted (number boolean) order returned nodes).
Proof.
  unfold union_rule. apply NoDup_join.
  - apply extremes_once. intros p m. apply union_extreme_flags.
  - apply (NoDup_keyed (fun k => Some (primitive_name k)) (fun r => named (says r))); [apply words_once| |].
    + intros k _. destruct (seen_primitive _ _ _ returned k nodes); [|constructor]. apply (NoDup_keys at_). rewrite map_map. cbn [at_].
      eapply Permutation_NoDup; [apply Permutation_map, Permutation_sym, shuffled|]. unfold overridden. apply NoDup_filter_key. rewrite map_map. cbn [fst].
      apply numbered_nodup.
    + intros k r _ I. destruct (seen_primitive _ _ _ returned k nodes); [|easy]. apply in_map_iff in I. destruct I as (x & <- & _). reflexivity.
  - intros (i & m) I J. apply extremes_kind in I.
    + apply in_flat_map in J. destruct J as (k & _ & J). destruct (seen_primitive _ _ _ returned k nodes); [|easy]. apply in_map_iff in J. destruct J as (x & H & _).
      injection H as _ <-. discriminate I.
    + intros p m'. unfold union_extreme, any_message. destruct (flags p) as [|[] []]; try discriminate; [destruct (beqb _ _)| |destruct returned]; intros H; try discriminate; injection H as <-; reflexivity.
Qed.
Lemma primitive_nodes_once k : NoDup (primitive_nodes (number boolean) k nodes).
Proof.
  unfold primitive_nodes. apply (NoDup_keyed fst (fun i => i)); [apply numbered_nodup| |].
  - intros (i & n) I. apply numbered_in, node_nth in I. destruct I as (s & I & ->). cbn [fst snd]. rewrite parts_nth by (eapply nth_error_In; eauto).
    assert (one : forall p, NoDup (map (fun _ : part => i) (filter (fun p => is_kind (primitive_of p) k) [p]))).
    { intros p. cbn. destruct (is_kind _ _); cbn; repeat constructor. easy. }
    destruct s as [w|y|x]; cbn [pieces]; try apply one.
    pose proof (proper_nth _ _ I) as P. destruct x; try apply one. unfold members. destruct (is_boolean (SUnion symbol l0)); [apply one|].
    destruct P as (_ & _ & N & _). clear I. induction l0 as [|y r IH]; [constructor|]. inversion_clear N as [|? ? N1 N2]. cbn [map filter]. rewrite primitive_of_typed.
    destruct (is_kind (primitive_type y) k) eqn:E; [|exact (IH N2)]. apply is_kind_eq in E.
    replace (filter _ (map _ r)) with (@nil part); [repeat constructor; easy|]. symmetry. clear IH N2. induction r as [|z r IH]; [reflexivity|]. cbn [map filter].
    rewrite primitive_of_typed. destruct (is_kind (primitive_type z) k) eqn:E'.
    + apply is_kind_eq in E'. exfalso. apply N1. left. destruct y, z; cbn in *; congruence.
    + apply IH. intros Q. apply N1. now right.
  - intros (i & n) j _ I. apply in_map_iff in I. destruct I as (p & <- & _). reflexivity.
Qed.
Lemma union_reports_at seen text us i m : In (Report i m) (union_reports show quoted (number boolean) seen text us) -> In i (map fst us).
Proof.
  revert text. induction us as [|(j & n) us IH]; intros text; cbn [union_reports]; [easy|]. destruct (primitive_for _ _ _).
  - intros [H|H]; [injection H as -> _; now left|]. right. eauto.
  - intros H. right. eauto.
Qed.
Lemma union_reports_once seen text us : NoDup (map fst us) -> NoDup (union_reports show quoted (number boolean) seen text us).
Proof.
  revert text. induction us as [|(j & n) us IH]; intros text N; cbn [union_reports]; [constructor|]. cbn in N. inversion_clear N as [|? ? N1 N2].
  destruct (primitive_for _ _ _); [|auto]. constructor; [|auto]. intros I. apply N1. eapply union_reports_at; eauto.
Qed.
Lemma union_reports_kind seen text us i m : In (Report i m) (union_reports show quoted (number boolean) seen text us) -> about_literal m = true.
Proof.
  revert text. induction us as [|(j & n) us IH]; intros text; cbn [union_reports]; [easy|]. destruct (primitive_for _ _ _); [|apply IH].
  intros [H|H]; [injection H as _ <-; reflexivity|]. exact (IH _ H).
Qed.
Theorem inter_once : NoDup (inter_rule show quoted (number boolean) nodes).
Proof.
  unfold inter_rule. apply NoDup_join.
  - apply extremes_once. intros p m. apply inter_extreme_flags.
  - destruct (unions (number boolean) nodes) as [|u us] eqn:U.
    + apply (NoDup_keyed (fun k => Some (primitive_name k)) (fun r => named (says r))); [apply words_once| |].
      * intros k _. unfold overriding. destruct (literals _ _ _); [constructor|]. apply (NoDup_keys at_). rewrite map_map. cbn [at_]. rewrite map_id.
        apply primitive_nodes_once.
      * intros k r _ I. unfold overriding in I. destruct (literals _ _ _); [easy|]. apply in_map_iff in I. destruct I as (x & <- & _). reflexivity.
    + destruct (existsb _ _); [|constructor]. rewrite <- U. apply union_reports_once. apply NoDup_filter_key, numbered_nodup.
  - intros (i & m) I J. apply extremes_kind in I.
    + assert (Q : about_literal m = true); [|congruence]. destruct (unions (number boolean) nodes).
      * apply in_flat_map in J. destruct J as (k & _ & J). unfold overriding in J. destruct (literals _ _ _); [easy|]. apply in_map_iff in J. destruct J as (x & H & _).
        injection H as _ <-. reflexivity.
      * destruct (existsb _ _); [|easy]. eapply union_reports_kind; eauto.
    + intros p m'. unfold inter_extreme, any_message. destruct (flags p) as [|[] []]; try discriminate; [destruct (beqb _ _)| |]; intros H; injection H as <-; reflexivity.
Qed.
End Facts.
