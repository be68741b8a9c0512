(** Proofs about JsExpr.v: printed trees are read back, reading is unique, contexts. *)
From Coq Require Import Bool List ZArith Lia.
From Verif Require Import Base Types JsExpr.
Import ListNotations.

Lemma unary_S f ts : unary (S f) ts =
  match ts with
  | TId n :: ts => Some (Id n, ts)
  | TPrim n :: ts => Some (Prim n, ts)
  | TLit v :: ts => Some (Lit v, ts)
  | TBang :: ts => match unary f ts with Some (t, ts) => Some (Not t, ts) | None => None end
  | TAwait :: ts => match unary f ts with Some (t, ts) => Some (Await t, ts) | None => None end
  | TOpen :: ts => match binary f 0 ts with Some (t, TClose :: ts) => Some (Par t, ts) | _ => None end
  | _ => None
  end.
Proof. reflexivity. Qed.
Lemma binary_S f m ts : binary (S f) m ts = match unary f ts with Some (t, ts) => more f m t ts | None => None end.
Proof. reflexivity. Qed.
Lemma more_S f m l ts : more (S f) m l ts =
  match ts with
  | TOp o :: ts' => if (m <=? lv o)%nat then if left_ok o l then match binary f (right_level o) ts' with Some (r, ts) => more f m (Bin o l r) ts | None => None end else None else Some (l, ts)
  | _ => Some (l, ts)
  end.
Proof. reflexivity. Qed.

(** More fuel does not matter. *)
Lemma fuel_le : forall f,
  (forall ts x, unary f ts = Some x -> forall g, (f <= g)%nat -> unary g ts = Some x) /\
  (forall m ts x, binary f m ts = Some x -> forall g, (f <= g)%nat -> binary g m ts = Some x) /\
  (forall m l ts x, more f m l ts = Some x -> forall g, (f <= g)%nat -> more g m l ts = Some x).
Proof.
  induction f as [|f (IU & IB & IM)]; [repeat split; intros; discriminate|]. repeat split.
  - intros ts x E [|g] L; [lia|]. rewrite unary_S in E |- *. destruct ts as [|[n|n|v| | | | |o] ts]; auto.
    + destruct (binary f 0 ts) as [[t r]|] eqn:B; [|discriminate]. rewrite (IB _ _ _ B g) by lia. exact E.
    + destruct (unary f ts) as [[t r]|] eqn:B; [|discriminate]. rewrite (IU _ _ B g) by lia. exact E.
    + destruct (unary f ts) as [[t r]|] eqn:B; [|discriminate]. rewrite (IU _ _ B g) by lia. exact E.
  - intros m ts x E [|g] L; [lia|]. rewrite binary_S in E |- *. destruct (unary f ts) as [[t r]|] eqn:B; [|discriminate]. rewrite (IU _ _ B g) by lia. apply (IM _ _ _ _ E). lia.
  - intros m l ts x E [|g] L; [lia|]. rewrite more_S in E |- *. destruct ts as [|[n|n|v| | | | |o] ts]; auto.
    destruct (m <=? lv o)%nat; [|exact E]. destruct (left_ok o l); [|exact E]. destruct (binary f (right_level o) ts) as [[t r]|] eqn:B; [|discriminate]. rewrite (IB _ _ _ B g) by lia. apply (IM _ _ _ _ E). lia.
Qed.
Lemma reads_unique ts t u : reads ts t -> reads ts u -> t = u.
Proof.
  intros [f F] [g G]. apply (proj1 (proj2 (fuel_le f))) with (g := (f + g)%nat) in F; [|lia]. apply (proj1 (proj2 (fuel_le g))) with (g := (f + g)%nat) in G; [|lia]. congruence.
Qed.

Definition right_of (t : tree) : nat := match t with Bin o _ _ => right_level o | _ => 20%nat end.
(** The next token is no operator of this level. *)
Definition below (m : nat) (ts : list tok) : Prop := match ts with TOp o :: _ => (lv o < m)%nat | _ => True end.
Lemma lv_right o : (lv o < right_level o)%nat.
Proof. destruct o; cbn; lia. Qed.
Lemma level_right t : (level t <= right_of t)%nat.
Proof. destruct t; cbn; try lia. pose proof (lv_right o). lia. Qed.
Lemma lv_below o : (lv o < 15)%nat.
Proof. destruct o; cbn; lia. Qed.
Lemma left_right o l : left_ok o l = true -> (lv o < right_of l)%nat.
Proof.
  intros H. destruct l as [| | | | | |p l r]; cbn [right_of]; try (pose proof (lv_below o); lia).
  destruct o, p; cbn in *; try (apply Nat.leb_le in H); try lia; try discriminate H; try (destruct (op_eq_dec _ _); [discriminate|]; cbn in H; discriminate).
Qed.
Lemma below_le m n ts : (m <= n)%nat -> below m ts -> below n ts.
Proof. intros L. destruct ts as [|[n0|n0|v| | | | |o] ts]; cbn; auto. lia. Qed.
Lemma stops m t ts : below m ts -> forall f, more (S f) m t ts = Some (t, ts).
Proof.
  intros B f. rewrite more_S. destruct ts as [|[n|n|v| | | | |o] ts]; auto. cbn in B. destruct (Nat.leb_spec m (lv o)); [lia|reflexivity].
Qed.

Lemma read_tree : forall t, wf t ->
  (forall ts, (15 <= level t)%nat -> exists f, forall g, (f <= g)%nat -> unary g (print t ++ ts) = Some (t, ts)) /\
  (forall m ts, (m <= level t)%nat -> below (right_of t) ts -> exists f h, forall g, (f <= g)%nat -> binary (h + g) m (print t ++ ts) = more g m t ts).
Proof.
  assert (ONE : forall t, (forall ts, exists f, forall g, (f <= g)%nat -> unary g (print t ++ ts) = Some (t, ts)) ->
    forall m ts, exists f h, forall g, (f <= g)%nat -> binary (h + g) m (print t ++ ts) = more g m t ts).
  { intros t H m ts. destruct (H ts) as [f F]. exists f, 1%nat. intros g G. rewrite Nat.add_1_l, binary_S, F by lia. reflexivity. }
  intros t W. induction W as [n|n|v|t W (IU & IB)|t W (IU & IB) L|t W (IU & IB) L|o l r WL (LU & LB) WR (RU & RB) LO RO].
  - assert (H : forall ts, exists f, forall g, (f <= g)%nat -> unary g (print (Id n) ++ ts) = Some (Id n, ts)) by (intros ts; exists 1%nat; intros [|g] G; [lia|reflexivity]). split; auto.
  - assert (H : forall ts, exists f, forall g, (f <= g)%nat -> unary g (print (Prim n) ++ ts) = Some (Prim n, ts)) by (intros ts; exists 1%nat; intros [|g] G; [lia|reflexivity]). split; auto.
  - assert (H : forall ts, exists f, forall g, (f <= g)%nat -> unary g (print (Lit v) ++ ts) = Some (Lit v, ts)) by (intros ts; exists 1%nat; intros [|g] G; [lia|reflexivity]). split; auto.
  - assert (H : forall ts, exists f, forall g, (f <= g)%nat -> unary g (print (Par t) ++ ts) = Some (Par t, ts)); [|split; auto]. intros ts. destruct (IB 0%nat (TClose :: ts)) as (f & h & F); [lia|exact I|].
    exists (S (h + S f)). intros g G. cbn [print app]. rewrite <- app_assoc. cbn [app]. destruct g as [|g]; [lia|]. rewrite unary_S. replace g with (h + (g - h))%nat by lia. rewrite F by lia.
    destruct (g - h)%nat as [|k] eqn:K; [lia|]. rewrite stops by exact I. reflexivity.
  - assert (H : forall ts, exists f, forall g, (f <= g)%nat -> unary g (print (Not t) ++ ts) = Some (Not t, ts)); [|split; auto]. intros ts. destruct (IU ts L) as (f & F). exists (S f). intros [|g] G; [lia|]. cbn [print app]. rewrite unary_S, F by lia. reflexivity.
  - assert (H : forall ts, exists f, forall g, (f <= g)%nat -> unary g (print (Await t) ++ ts) = Some (Await t, ts)); [|split; auto]. intros ts. destruct (IU ts L) as (f & F). exists (S f). intros [|g] G; [lia|]. cbn [print app]. rewrite unary_S, F by lia. reflexivity.
  - split; [intros ts H; cbn in H; pose proof (lv_below o); lia|]. intros m ts M B. cbn [level right_of] in M, B. cbn [print]. rewrite <- app_assoc. cbn [app].
    assert (ML : (lv o <= level l)%nat). { destruct o, l as [| | | | | |p l1 l2]; cbn in *; try lia; try (apply Nat.leb_le in LO; lia); destruct p; cbn in *; lia || discriminate. }
    destruct (LB m (TOp o :: print r ++ ts)) as (f & h & F); [lia|cbn; now apply left_right|].
    destruct (RB (right_level o) ts RO) as (f' & h' & F'); [eapply below_le; [|exact B]; pose proof (level_right r); lia|].
    exists (f + S (S f') + h')%nat, (S h). intros g G. replace (S h + g)%nat with (h + S g)%nat by lia. rewrite F by lia. rewrite more_S. rewrite (proj2 (Nat.leb_le _ _)) by lia. rewrite LO.
    replace g with (h' + (g - h'))%nat at 1 by lia. rewrite F' by lia. destruct (g - h')%nat as [|k] eqn:K; [lia|]. rewrite (stops (right_level o)) by exact B. reflexivity.
Qed.
(** A printed tree is read back, and as nothing else. *)
Theorem reads_print t : wf t -> reads (print t) t.
Proof.
  intros W. destruct (proj2 (read_tree t W) 0%nat []) as (f & h & F); [lia|exact I|]. exists (h + S f)%nat. rewrite <- (app_nil_r (print t)). rewrite F by lia. apply (stops 0%nat t []). exact I.
Qed.

(** ** Contexts *)
Lemma print_plug c : forall t, print (plug c t) = before c ++ print t ++ after c.
Proof.
  induction c as [|[| | |o r|o l] c IH]; intros t; cbn [plug before after]; [now rewrite app_nil_r| | | | |]; rewrite IH; cbn [print]; rewrite <- ?app_assoc; cbn [app]; rewrite <- ?app_assoc; reflexivity.
Qed.
Lemma wf_hole c : forall t, wf (plug c t) -> wf t.
Proof.
  induction c as [|[| | |o r|o l] c IH]; intros t W; cbn [plug] in W; auto; apply IH in W; inversion W; auto.
Qed.
(** A tree may take the place of another that binds no tighter; [ops]: the same operator on top does as well. *)
Definition fits (t u : tree) : Prop := (forall o, left_ok o t = true -> left_ok o u = true) /\ (level t <= level u)%nat.
Lemma fits_level t u : (level t < level u)%nat \/ (level t = level u /\ (5 <= level u)%nat) -> (5 <= level t)%nat -> fits t u.
Proof.
  intros L H. split; [|lia]. intros o. destruct o; cbn [left_ok]; rewrite ?orb_true_iff; rewrite ?Nat.leb_le; try lia; auto.
Qed.
Lemma wf_plug c : forall t u, wf (plug c t) -> wf u -> fits t u -> wf (plug c u).
Proof.
  induction c as [|[| | |o r|o l] c IH]; intros t u W U F; cbn [plug] in *; auto.
  - apply (IH _ (Par u) W); [now constructor|]. split; [intros o H; destruct o; exact H|cbn; lia].
  - pose proof (wf_hole _ _ W) as V. inversion V; subst. destruct F as [F1 F2]. apply (IH _ (Not u) W); [constructor; [auto|lia]|]. split; [intros o H; destruct o; exact H|cbn; lia].
  - pose proof (wf_hole _ _ W) as V. inversion V; subst. destruct F as [F1 F2]. apply (IH _ (Await u) W); [constructor; [auto|lia]|]. split; [intros o H; destruct o; exact H|cbn; lia].
  - pose proof (wf_hole _ _ W) as V. inversion V; subst. destruct F as [F1 F2]. apply (IH _ (Bin o u r) W); [constructor; auto|]. split; [intros p H; destruct p; exact H|cbn; lia].
  - pose proof (wf_hole _ _ W) as V. inversion V; subst. destruct F as [F1 F2]. apply (IH _ (Bin o l u) W); [constructor; auto; lia|]. split; [intros p H; destruct p; exact H|cbn; lia].
Qed.

Section Eval.
Context {state : Type} (operand : bool -> Z -> state -> option value * state) (awaited : value -> state -> option value * state)
  (other : op -> value -> value -> state -> option value * state) (convert : value -> value -> state -> option bool * state).
Notation ev := (eval operand awaited other convert).
Lemma eval_plug c : forall t u, (forall s, ev t s = ev u s) -> forall s, ev (plug c t) s = ev (plug c u) s.
Proof.
  induction c as [|[| | |o r|o l] c IH]; intros t u E s; cbn [plug]; auto; apply IH; intros s'; cbn [eval]; rewrite ?E; auto.
  destruct (ev l s') as [[v|] s1]; [|reflexivity]. destruct o; rewrite ?E; auto; destruct (truthy v); auto; destruct v; auto.
Qed.
End Eval.
