From Coq Require Import Bool Arith List Lia.
Import ListNotations.
From Verif Require Import VoidReturn VoidReturnSpec.

Lemma visit_node a l : visit a (Node l) = flat_map (visit a) l.
Proof. induction l as [|t l IH]; [reflexivity|]. cbn [flat_map]. rewrite <- IH. reflexivity. Qed.

Lemma in_parts r p : In p (parts r) <-> (r = One p \/ exists l, r = UnionOf l /\ In p l).
Proof.
  destruct r as [q|l]; cbn [parts]; split.
  - intros [E|[]]. left. subst. reflexivity.
  - intros [E|(l & E & _)]; [inversion E; left; reflexivity|discriminate].
  - intros E. right. eauto.
  - intros [E|(l' & E & I)]; [discriminate|]. inversion E; subst. exact I.
Qed.
Lemma allowed_part_false a p : allowed_part a p = false <-> p <> VoidPart /\ p <> UndefinedPart /\ p <> NeverPart /\ (a = true -> p <> AnyPart).
Proof.
  destruct p; cbn; split; try discriminate; try (intros _; repeat split; congruence); try (intros (A & B & C & D); congruence).
  - intros E. repeat split; congruence.
  - intros (A & B & C & D). destruct a; [exfalso; apply D; reflexivity|reflexivity].
Qed.
Lemma not_forallb {A} (f : A -> bool) l : forallb f l = false <-> exists x, In x l /\ f x = false.
Proof.
  induction l as [|x l IH]; cbn.
  - split; [discriminate|intros (x & [] & _)].
  - rewrite andb_false_iff, IH. split.
    + intros [E|(y & I & E)]; [exists x|exists y]; auto.
    + intros (y & [->|I] & E); [left; exact E|right; eauto].
Qed.
Lemma allowed_false a r : allowed a r = false <-> unwanted a r.
Proof.
  unfold allowed, unwanted. rewrite not_forallb. split.
  - intros (p & I & E). exists p. split; [apply in_parts, I|apply allowed_part_false, E].
  - intros (p & I & E). exists p. split; [apply in_parts, I|apply allowed_part_false, E].
Qed.

Section TreeInd.
Context (P : tree -> Prop).
Context (HF : forall l, P (Function l)) (HR : forall id, P (Return id None)) (HV : forall id r e, P e -> P (Return id (Some (r, e)))) (HN : forall l, Forall P l -> P (Node l)).
Fixpoint tree_full (t : tree) : P t :=
  match t with
  | Function l => HF l
  | Return id None => HR id
  | Return id (Some (r, e)) => HV id r e (tree_full e)
  | Node l => HN l ((fix all (l : list tree) : Forall P l := match l with [] => Forall_nil P | x :: l => Forall_cons x (tree_full x) (all l) end) l)
  end.
End TreeInd.

Lemma visit_in a t id : In id (visit a t) <-> exists r, belongs t id r /\ unwanted a r.
Proof.
  induction t as [l|j|j r e IH|l IH] using tree_full.
  - cbn. split; [intros []|intros (r & B & _); inversion B].
  - cbn. split; [intros []|intros (r & B & _); inversion B].
  - cbn [visit]. rewrite in_app_iff, IH. split.
    + intros [I|(q & B & U)].
      * destruct (allowed a r) eqn:E; [destruct I|]. destruct I as [->|[]]. exists r. split; [apply bl_return|apply allowed_false, E].
      * exists q. split; [apply bl_inside, B|exact U].
    + intros (q & B & U). inversion B as [? ? ? A1 A2|? ? ? ? ? B' A1|]; subst.
      * left. apply allowed_false in U. rewrite U. left. reflexivity.
      * right. eauto.
  - rewrite Forall_forall in IH. rewrite visit_node, in_flat_map. split.
    + intros (t & I & V). apply (IH t I) in V as (r & B & U). exists r. split; [eapply bl_node; eauto|exact U].
    + intros (r & B & U). inversion B as [| |? t ? ? I B']; subst. exists t. split; [exact I|]. apply (IH t I). eauto.
Qed.

Lemma results_false a g : forallb (allowed a) (results g) = false <-> exists t, In t (results g) /\ unwanted a t.
Proof. rewrite not_forallb. split; intros (t & I & U); exists t; split; try exact I; apply allowed_false, U. Qed.

Lemma holds_parts r v : holds r v <-> exists p, In p (parts r) /\ part_holds p v.
Proof.
  destruct r as [p|l]; cbn; [|reflexivity]. split; [intros H; exists p; auto|intros (q & [<-|[]] & H); exact H].
Qed.
Lemma unwanted_holds a r : unwanted a r -> exists v, holds r v /\ v <> Undefined.
Proof.
  intros (p & I & A & B & C & D). apply in_parts in I.
  assert (exists v, part_holds p v /\ v <> Undefined) as (v & H & N).
  { destruct p; try congruence.
    - exists Null. split; [apply h_null|discriminate].
    - exists Null. split; [apply h_any|discriminate].
    - exists Null. split; [apply h_parameter|discriminate].
    - exists (Something 0). split; [apply h_other|discriminate]. }
  exists v. split; [|exact N]. apply holds_parts. eauto.
Qed.
Lemma allowed_holds a r v : ~ unwanted a r -> holds r v -> v = Undefined \/ (a = true /\ has_any r).
Proof.
  intros U H. apply holds_parts in H as (p & I & H).
  destruct (allowed_part a p) eqn:E.
  - destruct p; try discriminate; inversion H; subst; auto. right. split; [exact E|]. apply in_parts, I.
  - exfalso. apply U. exists p. split; [apply in_parts, I|]. apply allowed_part_false, E.
Qed.
Lemma void_function_iff t : void_function t = true <-> expects_nothing t.
Proof.
  unfold void_function, expects_nothing. rewrite andb_true_iff, forallb_forall. split.
  - intros [N H]. split.
    + destruct (concat t) as [|r rs] eqn:E; [discriminate|].
      assert (In r (concat t)) as I by (rewrite E; left; reflexivity). apply in_concat in I as (l & Il & Ir). exists l. split; [exact Il|]. intros ->. destruct Ir.
    + intros l r Il Ir. assert (In r (concat t)) as I by (apply in_concat; eauto). specialize (H r I). rewrite forallb_forall in H.
      destruct r as [p|ps]; cbn [parts] in H.
      * left. specialize (H p (or_introl eq_refl)). destruct p; try discriminate. reflexivity.
      * right. exists ps. split; [reflexivity|]. intros p Ip. specialize (H p Ip). destruct p; try discriminate. reflexivity.
  - intros [(l & Il & N) H]. split.
    + destruct (concat t) as [|r rs] eqn:E; [|reflexivity]. destruct l as [|r l]; [congruence|].
      assert (In r (concat t)) as I by (apply in_concat; exists (r :: l); split; [exact Il|left; reflexivity]). rewrite E in I. destruct I.
    + intros r I. apply in_concat in I as (l' & Il' & Ir). rewrite forallb_forall. intros p Ip.
      destruct (H l' r Il' Ir) as [->|(ps & -> & A)]; cbn [parts] in Ip.
      * destruct Ip as [<-|[]]. reflexivity.
      * rewrite (A p Ip). reflexivity.
Qed.
Lemma check_expression_iff e : check_expression e = true <-> exists t, e = Some t /\ expects_nothing t.
Proof.
  destruct e as [t|]; cbn.
  - rewrite void_function_iff. split; [eauto|intros (t' & E & H); inversion E; subst; exact H].
  - split; [discriminate|intros (t & E & _); discriminate].
Qed.
Lemma wanted_iff sigs i r : In r (expected_results sigs i) <-> wanted sigs i r.
Proof.
  unfold expected_results, wanted. rewrite in_flat_map. split.
  - intros (s & Is & I). destruct (nth_error s i) as [t|] eqn:E; [|destruct I]. apply in_concat in I as (l & Il & Ir). exists s, t, l. auto.
  - intros (s & t & l & Is & E & Il & Ir). exists s. split; [exact Is|]. unfold signature, ftype in *. rewrite E. apply in_concat. eauto.
Qed.
