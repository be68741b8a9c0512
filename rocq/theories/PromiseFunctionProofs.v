From Coq Require Import Bool Ascii String List Lia.
From Verif Require Import Base EngineProofs.
From Verif Require Import PromiseFunction PromiseFunctionSpec.
Import ListNotations.

Fixpoint type_ind' (P : type -> Prop) (HA : P AnyOrUnknown) (HU : forall l, Forall P l -> P (Union l)) (HI : forall l, Forall P l -> P (Intersection l)) (HC : forall n l, Forall P l -> P (Class n l)) (HO : forall n, P (Other n)) (t : type) : P t :=
  let go := (fix go l : Forall P l := match l with [] => Forall_nil P | t :: l => Forall_cons t (type_ind' P HA HU HI HC HO t) (go l) end) in
  match t with AnyOrUnknown => HA | Union l => HU l (go l) | Intersection l => HI l (go l) | Class n l => HC n l (go l) | Other n => HO n end.

Lemma belongs_union : forall v l, belongs v (Union l) <-> exists t, In t l /\ belongs v t.
Proof.
  intros v l. cbn [belongs]. induction l as [|t l IH]; [split; [tauto|intros (t & [] & _)]|]. rewrite IH. cbn [In]. split.
  - intros [H|(u & H1 & H2)]; eauto.
  - intros (u & [->|H1] & H2); eauto.
Qed.
Lemma every_forall : forall (Q : type -> Prop) l, (fix every l := match l with [] => True | t :: l => Q t /\ every l end) l <-> Forall Q l.
Proof.
  intros Q l. induction l as [|t l IH]; [split; auto|]. rewrite IH. split; [intros [H1 H2]; auto|]. intros H. inversion H; auto.
Qed.
Lemma belongs_intersection : forall v l, belongs v (Intersection l) <-> Forall (belongs v) l.
Proof. intros. apply every_forall. Qed.
Lemma belongs_class : forall v n l, belongs v (Class n l) <-> has_name v n /\ Forall (belongs v) l.
Proof. intros v n l. cbn [belongs]. now rewrite every_forall. Qed.
Lemma everywhere_in : forall P t l, everywhere P t -> (t = Union l \/ t = Intersection l \/ exists n, t = Class n l) -> Forall (everywhere P) l.
Proof. intros P t l H [->|[->|[n ->]]]; cbn [everywhere] in H; now apply (every_forall (everywhere P)). Qed.
Lemma everywhere_self : forall (P : type -> Prop) t, everywhere P t -> P t.
Proof. intros P t H. destruct t; apply H. Qed.

Section Names.
Context (names : list bstr).
Notation contains := (contains names).
Notation promise := (promise names).
Lemma named_ok : forall n, named names n = true <-> exists m, n = Some m /\ In m names.
Proof.
  intros [n|]; cbn [named].
  - rewrite existsb_exists. split; [intros (m & H & E); apply beqb_eq in E as ->; eauto|]. intros (m & [= ->] & H). exists m. split; auto. apply beqb_refl.
  - split; [discriminate|]. intros (m & H & _). discriminate.
Qed.
Lemma named_promise : forall n v, named names n = true -> has_name v n -> promise v.
Proof. intros n v N H. apply named_ok in N as (m & -> & I'). exists m. auto. Qed.

Lemma contains_all : forall t, parts t -> contains true t = true -> forall v, belongs v t -> promise v.
Proof.
  intros t. induction t as [|l IH|l IH|n l IH|n] using type_ind'; intros W C v B.
  - discriminate.
  - apply belongs_union in B as (t & I' & B). cbn in C. rewrite forallb_forall in C. rewrite Forall_forall in IH. apply (IH t I'); auto. pose proof (everywhere_in _ _ l W ltac:(auto)) as W'. rewrite Forall_forall in W'. now apply W'.
  - destruct l as [|t l]; [destruct (everywhere_self _ _ W); reflexivity|]. apply belongs_intersection in B. inversion B; subst. inversion IH; subst. cbn in C. apply andb_true_iff in C as [C _].
    pose proof (everywhere_in _ _ _ W ltac:(eauto)) as W'. inversion W'; subst. eauto.
  - apply belongs_class in B as [B1 B2]. cbn in C. apply orb_true_iff in C as [C|C]; [now apply (named_promise n)|]. apply existsb_exists in C as (t & I' & C). rewrite Forall_forall in *. apply (IH t I'); auto.
    pose proof (everywhere_in _ _ l W ltac:(eauto)) as W'. rewrite Forall_forall in W'. now apply W'.
  - now apply (named_promise n).
Qed.

Lemma belongs_more : forall t v w, incl v w -> belongs v t -> belongs w t.
Proof.
  intros t. induction t as [|l IH|l IH|n l IH|n] using type_ind'; intros v w S B.
  - exact I.
  - apply belongs_union in B as (t & I' & B). apply belongs_union. exists t. rewrite Forall_forall in IH. eauto.
  - apply belongs_intersection in B. apply belongs_intersection. rewrite Forall_forall in *. eauto.
  - apply belongs_class in B as [B1 B2]. apply belongs_class. split; [destruct n; cbn in *; auto|]. rewrite Forall_forall in *. eauto.
  - destruct n; cbn in *; auto.
Qed.
(** One value for several types. *)
Lemma several : forall l, (forall t, In t l -> exists v, belongs v t /\ ~ promise v) -> exists v, Forall (belongs v) l /\ ~ promise v.
Proof.
  induction l as [|t l IH]; intros H; [exists []; split; auto; intros (n & _ & [])|].
  destruct (H t) as (v & B & N); [now left|]. destruct IH as (w & F & N'); [intros; apply H; now right|].
  exists (v ++ w). split.
  - apply Forall_cons; [eapply belongs_more; [|exact B]; intros x; rewrite in_app_iff; auto|]. rewrite Forall_forall in *. intros x I'. eapply belongs_more; [|now apply F]. intros y. rewrite in_app_iff. auto.
  - intros (n & I' & V). apply in_app_iff in V as [V|V]; [apply N|apply N']; exists n; auto.
Qed.
Lemma with_name : forall n l, named names n = false -> (exists v, Forall (belongs v) l /\ ~ promise v) -> exists v, belongs v (Class n l) /\ ~ promise v.
Proof.
  intros n l N (v & F & P). destruct n as [n|]; [|exists v; split; auto; apply belongs_class; cbn; auto].
  exists (n :: v). split.
  - apply belongs_class. split; [now left|]. rewrite Forall_forall in *. intros t I'. eapply belongs_more; [|now apply F]. intros x; now right.
  - intros (m & I' & [->|V]); [|apply P; exists m; auto]. assert (named names (Some m) = true) by (apply named_ok; eauto). congruence.
Qed.
Lemma existsb_false {A} (f : A -> bool) l : existsb f l = false <-> forall x, In x l -> f x = false.
Proof.
  split; [|intros H; apply not_true_is_false; intros E; apply existsb_exists in E as (x & I' & E); rewrite (H x I') in E; discriminate].
  intros H x I'. apply not_true_is_false. intros E. assert (existsb f l = true) by (apply existsb_exists; eauto). congruence.
Qed.
Lemma forallb_false {A} (f : A -> bool) l : forallb f l = false -> exists x, In x l /\ f x = false.
Proof. induction l as [|x l IH]; cbn; [discriminate|]. destruct (f x) eqn:E; [|eauto]. intros H. destruct (IH H) as (y & I' & Y). eauto. Qed.

Lemma not_all : forall t, no_intersection t -> contains true t = false -> exists v, belongs v t /\ ~ promise v.
Proof.
  intros t. induction t as [|l IH|l IH|n l IH|n] using type_ind'; intros W C.
  - exists []. split; [exact I|]. intros (n & _ & []).
  - cbn in C. apply forallb_false in C as (t & I' & C). rewrite Forall_forall in IH. pose proof (everywhere_in _ _ l W ltac:(auto)) as W'. rewrite Forall_forall in W'. destruct (IH t I' (W' t I') C) as (v & B & P).
    exists v. split; auto. apply belongs_union. eauto.
  - destruct (everywhere_self _ _ W).
  - cbn in C. apply orb_false_iff in C as [C1 C2]. apply with_name; auto. apply several. intros t I'. rewrite Forall_forall in IH. pose proof (everywhere_in _ _ l W ltac:(eauto)) as W'. rewrite Forall_forall in W'.
    apply (IH t I'); [now apply W'|]. now apply (proj1 (existsb_false _ _) C2).
  - cbn in C. destruct (with_name n [] C) as (v & B & P); [exists []; split; auto; intros (m & _ & [])|]. exists v. split; auto. apply belongs_class in B as [B _]. exact B.
Qed.
Lemma not_some : forall t, parts t -> one_base t -> contains false t = false -> exists v, belongs v t /\ ~ promise v.
Proof.
  intros t. induction t as [|l IH|l IH|n l IH|n] using type_ind'; intros W O C.
  - exists []. split; [exact I|]. intros (n & _ & []).
  - cbn in C. pose proof (proj1 (existsb_false _ _) C) as C'. destruct l as [|t l]; [destruct (everywhere_self _ _ W); reflexivity|]. inversion IH; subst.
    pose proof (everywhere_in _ _ _ W ltac:(auto)) as W'. inversion W'; subst. pose proof (everywhere_in _ _ _ O ltac:(auto)) as O'. inversion O'; subst.
    destruct H1 as (v & B & P); auto; [apply C'; now left|]. exists v. split; auto. apply belongs_union. exists t. split; [now left|auto].
  - cbn in C. pose proof (proj1 (existsb_false _ _) C) as C'. rewrite Forall_forall in IH. pose proof (everywhere_in _ _ l W ltac:(auto)) as W'. pose proof (everywhere_in _ _ l O ltac:(auto)) as O'. rewrite Forall_forall in *.
    destruct (several l) as (v & F & P); [intros t I'; apply IH; [auto|now apply W'|now apply O'|auto]|]. exists v. split; auto. now apply belongs_intersection.
  - cbn in C. apply orb_false_iff in C as [C1 C2]. apply with_name; auto. apply several. intros t I'. rewrite Forall_forall in IH.
    pose proof (everywhere_in _ _ l W ltac:(eauto)) as W'. pose proof (everywhere_in _ _ l O ltac:(eauto)) as O'. rewrite Forall_forall in W', O'. apply (IH t I'); [now apply W'|now apply O'|].
    pose proof (everywhere_self _ _ O) as L. cbn in L. destruct l as [|u [|w l]]; [destruct I'| |cbn in L; lia]. destruct I' as [->|[]]. cbn in C2. now apply andb_false_iff in C2 as [C2|C2].
  - cbn in C. destruct (with_name n [] C) as (v & B & P); [exists []; split; auto; intros (m & _ & [])|]. exists v. split; auto. apply belongs_class in B as [B _]. exact B.
Qed.
Lemma some_is_all : forall t, no_union t -> contains false t = true -> forall v, belongs v t -> promise v.
Proof.
  intros t. induction t as [|l IH|l IH|n l IH|n] using type_ind'; intros W C v B.
  - discriminate.
  - destruct (everywhere_self _ _ W).
  - apply belongs_intersection in B. cbn in C. apply existsb_exists in C as (t & I' & C). rewrite Forall_forall in *. pose proof (everywhere_in _ _ l W ltac:(auto)) as W'. rewrite Forall_forall in W'. apply (IH t I'); auto; now apply W'.
  - apply belongs_class in B as [B1 B2]. cbn in C. apply orb_true_iff in C as [C|C]; [now apply (named_promise n)|]. destruct l as [|t l]; [discriminate|]. inversion IH; subst. inversion B2; subst.
    pose proof (everywhere_in _ _ _ W ltac:(eauto)) as W'. inversion W'; subst. cbn in C. apply andb_true_iff in C as [C _]. eauto.
  - now apply (named_promise n).
Qed.

Lemma every_ok : forall allow ex l acc,
  (every_signature names allow ex l acc = None <-> allow = false /\ In AnyOrUnknown l) /\
  (forall r, every_signature names allow ex l acc = Some r <-> ~ (allow = false /\ In AnyOrUnknown l) /\ r = acc && forallb (contains ex) l).
Proof.
  intros allow ex. induction l as [|t l IH]; intros acc.
  - cbn. split; [split; [discriminate|tauto]|]. intros r. rewrite andb_true_r. split; [intros [= ->]; split; auto; tauto|intros [_ ->]; auto].
  - cbn [every_signature]. destruct (negb allow && match t with AnyOrUnknown => true | _ => false end) eqn:E.
    + apply andb_true_iff in E as [E1 E2]. destruct allow; [discriminate|]. destruct t; try discriminate. cbn [In]. split; [split; auto|]. intros r. split; [discriminate|]. intros [H _]. exfalso. apply H. auto.
    + destruct (IH (acc && contains ex t)) as [H1 H2]. assert (allow = false /\ In AnyOrUnknown (t :: l) <-> allow = false /\ In AnyOrUnknown l) as K.
      { cbn [In]. split; [|tauto]. intros [-> [->|H]]; [discriminate|auto]. }
      rewrite K, H1. split; [tauto|]. intros r. rewrite H2, K. cbn [forallb]. now rewrite andb_assoc.
Qed.
End Names.
