From Coq Require Import Bool Arith List Lia.
From Verif Require Import ReturnThis ReturnThisSpec.
Import ListNotations.

Fixpoint size (t : node) : nat := match t with ParenNode t => S (size t) | UnionNode l => S (list_sum (map size l)) | _ => 1 end.
Lemma size_in : forall l t, In t l -> size t <= list_sum (map size l).
Proof. unfold list_sum; induction l as [|x l IH]; intros t; cbn; [tauto|]. intros [->|I']; [lia|]. specialize (IH t I'). lia. Qed.

Section Skips.
Context (skips : bool).
Definition find_parts (n : name) := fix parts (i : nat) (l : list node) : option (list nat) :=
  match l with
  | [] => None
  | t :: l => match find_name skips n t with Some p => Some (i :: p) | None => parts (S i) l end
  end.
Lemma find_parts_cons : forall n i t l, find_parts n i (t :: l) = match find_name skips n t with Some p => Some (i :: p) | None => find_parts n (S i) l end.
Proof. reflexivity. Qed.
Lemma find_union : forall n l, find_name skips n (UnionNode l) = find_parts n 0 l.
Proof. reflexivity. Qed.
Lemma find_ok : forall k t n, size t <= k -> match find_name skips n t with Some p => reference skips n p t /\ forall q, reference skips n q t -> q = p \/ before p q | None => forall q, ~ reference skips n q t end.
Proof.
  induction k as [|k IH]; intros t n L; [destruct t; cbn in L; lia|]. destruct t as [m| |t|l|j].
  - cbn [find_name]. destruct (Nat.eqb_spec m n) as [->|N]; [split; [constructor|intros q R; inversion R; auto]|intros q R; inversion R; congruence].
  - intros q R. inversion R.
  - cbn [find_name]. destruct skips eqn:S.
    + cbn [size] in L. specialize (IH t n ltac:(lia)). destruct (find_name true n t) as [p|]; cbn [option_map].
      * destruct IH as [A B]. split; [now constructor|]. intros q R. inversion R; subst. destruct (B _ H2) as [->|X]; auto. right. now constructor.
      * intros q R. inversion R; subst. eapply IH; eauto.
    + intros q R. inversion R. congruence.
  - rewrite find_union. cbn [size] in L.
    assert (forall m i, (forall t, In t m -> size t <= k) -> match find_parts n i m with
      | Some p => exists j q t, p = (i + j) :: q /\ nth_error m j = Some t /\ reference skips n q t /\ (forall q', reference skips n q' t -> q' = q \/ before q q') /\ forall j' t' q', nth_error m j' = Some t' -> reference skips n q' t' -> j <= j'
      | None => forall t q, In t m -> ~ reference skips n q t end) as G.
    { induction m as [|t m IHm]; intros i S; [intros t q []|]. rewrite find_parts_cons. pose proof (IH t n (S t (or_introl eq_refl))) as T. destruct (find_name skips n t) as [p|].
      - destruct T as [A B]. exists 0, p, t. rewrite Nat.add_0_r. split; [reflexivity|]. split; [reflexivity|]. split; [auto|]. split; [auto|]. intros; lia.
      - specialize (IHm (Datatypes.S i) (fun x I' => S x (or_intror I'))). destruct (find_parts n (Datatypes.S i) m) as [p|].
        + destruct IHm as (j & q & u & -> & E & R & F & M). exists (Datatypes.S j), q, u. split; [f_equal; lia|]. split; [exact E|]. split; [auto|]. split; [auto|]. intros [|j'] t' q' E' R'; [cbn in E'; injection E' as <-; exfalso; eapply T; eauto|]. cbn in E'. specialize (M _ _ _ E' R'). lia.
        + intros u q [<-|I'] R; [eapply T; eauto|eapply IHm; eauto]. }
    specialize (G l 0 (fun t I' => Nat.le_trans _ _ _ (size_in l t I') (le_S_n _ _ L))). destruct (find_parts n 0 l) as [p|].
    + destruct G as (j & q & t & -> & E & R & F & M). split; [econstructor; eauto|]. intros q' R'. inversion R'; subst. pose proof (M _ _ _ H0 H2) as LE. destruct (Nat.eq_dec j i) as [->|D].
      * cbn [Nat.add]. assert (t0 = t) as -> by congruence. destruct (F _ H2) as [->|X]; auto. right. now constructor.
      * right. constructor. cbn. lia.
    + intros q R. inversion R; subst. eapply G; [eapply nth_error_In|]; eauto.
  - intros q R. inversion R.
Qed.
Lemma reference_place : forall n p t, reference skips n p t -> at_place p t (Ref n).
Proof. intros n p t R. induction R; econstructor; eauto. Qed.
End Skips.

Section Classes.
Context (sub : name -> name -> Prop) (own : name).
Lemma set_nth_same : forall f l i t, nth_error l i = Some t -> nth_error (set_nth i f l) i = Some (f t).
Proof. intros f. induction l as [|x l IH]; intros [|i] t E; cbn in *; try discriminate; [now injection E as ->|auto]. Qed.
Lemma set_nth_other : forall f l i j, i <> j -> nth_error (set_nth i f l) j = nth_error l j.
Proof. intros f. induction l as [|x l IH]; intros [|i] [|j] N; cbn; try reflexivity; try congruence. apply IH. congruence. Qed.
Lemma replaced_takes : forall p t u v, at_place p t u -> (takes sub own (replace_at p t) v <-> v = Self \/ takes_beside sub own p t v).
Proof.
  intros p t u v A. induction A as [t|p t u A IH|i p l t u E A IH]; cbn [replace_at].
  - split; [intros T; inversion T; auto|]. intros [->|B]; [constructor|inversion B].
  - split.
    + intros T. inversion T as [| | |t' v' T'| |]; subst. apply IH in T' as [->|B]; auto. right. now constructor.
    + intros [->|B]; constructor; apply IH; auto. inversion B; subst. auto.
  - split.
    + intros T. inversion T as [| | | |l' x v' I' T'|]; subst. apply In_nth_error in I' as (j & EJ). destruct (Nat.eq_dec i j) as [<-|D].
      * rewrite (set_nth_same _ _ _ _ E) in EJ. injection EJ as <-. apply IH in T' as [->|B]; auto. right. econstructor; eauto.
      * rewrite set_nth_other in EJ by auto. right. eapply BOther; eauto.
    + intros H. assert (v = Self \/ takes_beside sub own p t v -> takes sub own (UnionNode (set_nth i (replace_at p) l)) v) as G.
      { intros X. eapply TUnion; [eapply nth_error_In, set_nth_same; eauto|]. now apply IH. }
      destruct H as [->|B]; [auto|]. inversion B; subst; [assert (t0 = t) by congruence; subst; auto|]. eapply TUnion; [|eassumption]. apply (nth_error_In _ j). rewrite set_nth_other by congruence; assumption.
Qed.
Lemma takes_split : forall p t n v, at_place p t (Ref n) -> takes sub own t v -> takes sub own (Ref n) v \/ takes_beside sub own p t v.
Proof.
  intros p t n v A. remember (Ref n) as u. induction A as [t|p t u A IH|i p l t u E A IH]; subst; intros T.
  - auto.
  - inversion T as [| | |t' v' T'| |]; subst. destruct (IH eq_refl T'); auto. right. now constructor.
  - inversion T as [| | | |l' x v' I' T'|]; subst. apply In_nth_error in I' as (j & EJ). destruct (Nat.eq_dec j i) as [->|D].
    + assert (x = t) as -> by congruence. destruct (IH eq_refl T'); auto. right. econstructor; eauto.
    + right. eapply BOther; eauto.
Qed.
End Classes.
Lemma loop_ok : forall known l this_, fst (loop known l this_) = (known && existsb (fun r => match r with ClassType => true | _ => false end) l)
  /\ (fst (loop known l this_) = false -> snd (loop known l this_) = this_ || existsb (fun r => match r with Keyword => true | ThisType => known | _ => false end) l).
Proof.
  intros known. induction l as [|r l IH]; intros this_; cbn [loop existsb].
  - cbn. rewrite andb_false_r, orb_false_r. auto.
  - destruct r, known; cbn [negb]; try (destruct (IH this_) as [A B]); try (destruct (IH true) as [C D]); cbn [orb andb fst snd] in *; rewrite ?orb_true_r, ?orb_false_r in *; auto; split; auto; discriminate.
Qed.
