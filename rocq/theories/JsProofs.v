(** Proofs about Js.v: printed trees are read back, reading is unique, contexts, values in contexts. *)
From Coq Require Import Bool List ZArith Lia.
From Verif Require Import Base Types Js.
Import ListNotations.

Lemma expr_S f m ts : expr (S f) m ts =
  match ts with
  | TAtom a :: ts => more f m (Atom a) ts
  | TOpen :: ts => match expr f 0 ts with Some (t, TClose :: ts) => more f m (Par t) ts | _ => None end
  | TPre u :: ts => if (m <=? pl u)%nat then match expr f (pl u) ts with Some (t, ts) => more f m (Pre u t) ts | None => None end else None
  | _ => None
  end.
Proof. reflexivity. Qed.
Lemma more_S f m l ts : more (S f) m l ts =
  match ts with
  | TBin o :: ts' =>
      if (m <=? lv o)%nat then
        if left_ok o l then match expr f (right_level o) ts' with Some (r, ts) => more f m (Bin o l r) ts | None => None end else None
      else Some (l, ts)
  | TSuf s :: ts' => if (m <=? sl s)%nat then if (so s <=? level l)%nat then more f m (Suf l s) ts' else None else Some (l, ts)
  | TDot :: TName n :: ts' => if (m <=? 17)%nat then if (17 <=? level l)%nat then more f m (Member l n) ts' else None else Some (l, ts)
  | TOpen :: TClose :: ts' => if (m <=? 17)%nat then if (17 <=? level l)%nat then more f m (Call0 l) ts' else None else Some (l, ts)
  | TOpen :: ts' =>
      if (m <=? 17)%nat then
        if (17 <=? level l)%nat then match expr f 0 ts' with Some (a, TClose :: ts) => more f m (Call l a) ts | _ => None end else None
      else Some (l, ts)
  | TQuest :: ts' =>
      if (m <=? 2)%nat then
        if (3 <=? level l)%nat then
          match expr f 1 ts' with
          | Some (a, TColon :: ts) => match expr f 1 ts with Some (e, ts) => more f m (Cond l a e) ts | None => None end
          | _ => None
          end
        else None
      else Some (l, ts)
  | _ => Some (l, ts)
  end.
Proof. reflexivity. Qed.

(** More fuel does not matter. *)
Lemma fuel_le : forall f,
  (forall m ts x, expr f m ts = Some x -> forall g, (f <= g)%nat -> expr g m ts = Some x) /\
  (forall m l ts x, more f m l ts = Some x -> forall g, (f <= g)%nat -> more g m l ts = Some x).
Proof.
  induction f as [|f (IE & IM)]; [split; intros; discriminate|].
  split.
  - intros m ts x E [|g] L; [lia|]. rewrite expr_S in E |- *. destruct ts as [|k ts]; [discriminate|]. destruct k; try discriminate.
    + apply (IM _ _ _ _ E). lia.
    + destruct (expr f 0 ts) as [[t r]|] eqn:B; [|discriminate]. rewrite (IE _ _ _ B g) by lia. destruct r as [|[| | | | | | | | |] r]; try discriminate. apply (IM _ _ _ _ E). lia.
    + destruct (m <=? pl u)%nat; [|discriminate]. destruct (expr f (pl u) ts) as [[t r]|] eqn:B; [|discriminate]. rewrite (IE _ _ _ B g) by lia. apply (IM _ _ _ _ E). lia.
  - intros m l ts x E [|g] L; [lia|]. rewrite more_S in E |- *. destruct ts as [|k ts]; auto. destruct k; auto.
    + assert (CALL : (if (m <=? 17)%nat then if (17 <=? level l)%nat then match expr f 0 ts with Some (a, TClose :: ts) => more f m (Call l a) ts | _ => None end else None else Some (l, TOpen :: ts)) = Some x ->
        (if (m <=? 17)%nat then if (17 <=? level l)%nat then match expr g 0 ts with Some (a, TClose :: ts) => more g m (Call l a) ts | _ => None end else None else Some (l, TOpen :: ts)) = Some x).
      { destruct (m <=? 17)%nat; auto. destruct (17 <=? level l)%nat; auto. destruct (expr f 0 ts) as [[t r]|] eqn:B; [|discriminate]. rewrite (IE _ _ _ B g) by lia.
        destruct r as [|[| | | | | | | | |] r]; try discriminate. intros H. apply (IM _ _ _ _ H). lia. }
      destruct ts as [|[| | | | | | | | |] ts]; auto. destruct (m <=? 17)%nat; auto. destruct (17 <=? level l)%nat; auto. apply (IM _ _ _ _ E). lia.
    + destruct (m <=? sl s)%nat; auto. destruct (so s <=? level l)%nat; auto. apply (IM _ _ _ _ E). lia.
    + destruct ts as [|[| | | | | | | | |] ts]; auto. destruct (m <=? 17)%nat; auto. destruct (17 <=? level l)%nat; auto. apply (IM _ _ _ _ E). lia.
    + destruct (m <=? lv o)%nat; auto. destruct (left_ok o l); auto. destruct (expr f (right_level o) ts) as [[t r]|] eqn:B; [|discriminate]. rewrite (IE _ _ _ B g) by lia. apply (IM _ _ _ _ E). lia.
    + destruct (m <=? 2)%nat; auto. destruct (3 <=? level l)%nat; auto. destruct (expr f 1 ts) as [[t r]|] eqn:B; [|discriminate]. rewrite (IE _ _ _ B g) by lia.
      destruct r as [|[| | | | | | | | |] r]; try discriminate. destruct (expr f 1 r) as [[t' r']|] eqn:B'; [|discriminate]. rewrite (IE _ _ _ B' g) by lia. apply (IM _ _ _ _ E). lia.
Qed.
Lemma reads_unique ts t u : reads ts t -> reads ts u -> t = u.
Proof.
  intros [f F] [g G]. apply (proj1 (fuel_le f)) with (g := (f + g)%nat) in F; [|lia]. apply (proj1 (fuel_le g)) with (g := (f + g)%nat) in G; [|lia]. congruence.
Qed.

(** What the last part of a tree would take. *)
Definition right_of (t : tree) : nat := match t with Bin o _ _ => right_level o | Pre u _ => pl u | Cond _ _ _ => 1 | _ => 20%nat end.
Definition op_level (ts : list tok) : option nat :=
  match ts with
  | TBin o :: _ => Some (lv o) | TSuf s :: _ => Some (sl s) | TDot :: TName _ :: _ => Some 17%nat | TOpen :: _ => Some 17%nat | TQuest :: _ => Some 2%nat | _ => None
  end.
Definition below (m : nat) (ts : list tok) : Prop := match op_level ts with Some n => (n < m)%nat | None => True end.
Lemma below_le m n ts : (m <= n)%nat -> below m ts -> below n ts.
Proof. unfold below. destruct (op_level ts); auto. lia. Qed.
Lemma stops m t ts : below m ts -> forall f, more (S f) m t ts = Some (t, ts).
Proof.
  intros B f. unfold below in B. rewrite more_S. destruct ts as [|k ts]; auto. destruct k; auto; cbn [op_level] in B.
  - rewrite (proj2 (Nat.leb_gt m 17)) by lia. destruct ts as [|[| | | | | | | | |] ts]; auto.
  - rewrite (proj2 (Nat.leb_gt m (sl s))) by lia. auto.
  - destruct ts as [|[| | | | | | | | |] ts]; auto. rewrite (proj2 (Nat.leb_gt m 17)) by lia. auto.
  - rewrite (proj2 (Nat.leb_gt m (lv o))) by lia. auto.
  - rewrite (proj2 (Nat.leb_gt m 2)) by lia. auto.
Qed.
Lemma level_right m t : (m <= level t)%nat -> m <> 2%nat -> (m <= right_of t)%nat.
Proof. destruct t as [a|t|u t|t x|t n|f|f a|o l r|c a e]; cbn [level right_of]; try lia; [destruct x; cbn [sl]; lia|destruct o; cbn [lv right_level]; lia]. Qed.
Lemma left_level o l : left_ok o l = true -> (lv o <= level l)%nat.
Proof.
  unfold left_ok, has_op. intros H. destruct o; cbn [lv]; try (apply Nat.leb_le in H; cbn [lv] in H; lia);
    (apply orb_true_iff in H; destruct H as [H|H]; [|apply Nat.leb_le in H; lia]; destruct l; try discriminate; destruct (binop_eq_dec _ _); [subst; cbn; lia|discriminate]).
Qed.
Lemma left_right o l : left_ok o l = true -> (lv o < right_of l)%nat.
Proof.
  intros H. pose proof (left_level o l H) as L. destruct l as [a|t|u t|t s|t n|f|f a|p l r|c a e]; cbn [right_of level] in *; try (destruct o; cbn [lv] in *; lia).
  - unfold left_ok, level in H. destruct u, o; cbn [pl lv] in *; try lia; try (apply Nat.leb_le in H; lia).
  - unfold left_ok, has_op, level in H. destruct o, p; cbn [lv right_level] in *; try lia; try (apply Nat.leb_le in H; lia); try discriminate H;
      destruct (binop_eq_dec _ _); try discriminate; cbn in H; try discriminate H.
Qed.
Lemma suffix_right s l : (so s <= level l)%nat -> (sl s < right_of l)%nat.
Proof.
  intros H. destruct l as [a|t|u t|t x|t n|f|f a|p l r|c a e]; cbn [right_of level] in *; try (destruct s; cbn [sl]; lia).
  - destruct u, s; cbn [pl so sl] in *; lia.
  - destruct p, s; cbn [lv so sl right_level] in *; lia.
  - destruct s; cbn [so sl] in *; lia.
Qed.
Lemma call_right l : (17 <= level l)%nat -> (17 < right_of l)%nat.
Proof. destruct l as [a|t|u t|t x|t n|f|f a|p l r|c a e]; cbn [right_of level]; try lia; [destruct u; cbn; lia|destruct p; cbn; lia]. Qed.
Lemma cond_right l : (3 <= level l)%nat -> (2 < right_of l)%nat.
Proof. destruct l as [a|t|u t|t x|t n|f|f a|p l r|c a e]; cbn [right_of level]; try lia; destruct p; cbn; lia. Qed.
Lemma not_two o : right_level o <> 2%nat.
Proof. destruct o; cbn; lia. Qed.
Lemma pl_two u : pl u <> 2%nat.
Proof. destruct u; cbn; lia. Qed.
Lemma print_first t : exists k ts, print t = k :: ts /\ k <> TClose.
Proof.
  induction t as [a|t _|u t _|t (k & ts & E & N) s|t (k & ts & E & N) n|f (k & ts & E & N)|f (k & ts & E & N) a _|o l (k & ts & E & N) r _|c (k & ts & E & N) a _ e _]; cbn [print];
    try (eexists; eexists; split; [reflexivity|discriminate]); rewrite E; cbn [app]; eexists; eexists; (split; [reflexivity|exact N]).
Qed.

Lemma read_tree : forall t, wf t -> forall m ts, (m <= level t)%nat -> below (right_of t) ts ->
  exists f h, forall g, (f <= g)%nat -> expr (h + g) m (print t ++ ts) = more g m t ts.
Proof.
  intros t W. induction W as [a|t W IH|u t W IH L|t s W IH L|t n W IH L|f W IH L|f a W IH WA IA L|o l r WL IL WR IR LO RO|c a e WC IC WA IA WE IE LC LA LE]; intros m ts M B; cbn [print level right_of] in *.
  - exists 0%nat, 1%nat. intros g _. reflexivity.
  - destruct (IH 0%nat (TClose :: ts)) as (f & h & F); [lia|exact I|]. exists (S (f + h)), 1%nat. intros g G. cbn [app Nat.add]. rewrite expr_S, <- app_assoc. cbn [app].
    replace g with (h + (g - h))%nat at 1 by lia. rewrite F by lia. destruct (g - h)%nat as [|k] eqn:K; [lia|]. rewrite stops by exact I. reflexivity.
  - destruct (IH (pl u) ts L) as (f & h & F); [eapply below_le; [|exact B]; apply level_right; [exact L|apply pl_two]|]. exists (S (f + h)), 1%nat. intros g G. cbn [app Nat.add]. rewrite expr_S. rewrite (proj2 (Nat.leb_le _ _)) by lia.
    replace g with (h + (g - h))%nat at 1 by lia. rewrite F by lia. destruct (g - h)%nat as [|k] eqn:K; [lia|]. rewrite stops by exact B. reflexivity.
  - destruct (IH m (TSuf s :: ts)) as (f & h & F); [destruct s; cbn [so sl] in *; lia|unfold below; cbn [op_level]; now apply suffix_right|]. exists f, (S h). intros g G. rewrite <- app_assoc. cbn [app].
    replace (S h + g)%nat with (h + S g)%nat by lia. rewrite F by lia. rewrite more_S. rewrite (proj2 (Nat.leb_le _ _)) by lia. now rewrite (proj2 (Nat.leb_le _ _)) by lia.
  - destruct (IH m (TDot :: TName n :: ts)) as (f & h & F); [lia|unfold below; cbn [op_level]; now apply call_right|]. exists f, (S h). intros g G. rewrite <- app_assoc. cbn [app].
    replace (S h + g)%nat with (h + S g)%nat by lia. rewrite F by lia. rewrite more_S. rewrite (proj2 (Nat.leb_le _ _)) by lia. now rewrite (proj2 (Nat.leb_le _ _)) by lia.
  - destruct (IH m (TOpen :: TClose :: ts)) as (k & h & F); [lia|unfold below; cbn [op_level]; now apply call_right|]. exists k, (S h). intros g G. rewrite <- app_assoc. cbn [app].
    replace (S h + g)%nat with (h + S g)%nat by lia. rewrite F by lia. rewrite more_S. rewrite (proj2 (Nat.leb_le _ _)) by lia. now rewrite (proj2 (Nat.leb_le _ _)) by lia.
  - destruct (IH m (TOpen :: print a ++ TClose :: ts)) as (k & h & F); [lia|unfold below; cbn [op_level]; now apply call_right|].
    destruct (IA 0%nat (TClose :: ts)) as (k' & h' & F'); [lia|exact I|]. exists (k + S (S k') + h')%nat, (S h). intros g G. rewrite <- app_assoc. cbn [app]. rewrite <- app_assoc. cbn [app].
    replace (S h + g)%nat with (h + S g)%nat by lia. rewrite F by lia. rewrite more_S.
    assert (V : expr g 0 (print a ++ TClose :: ts) = Some (a, TClose :: ts)). { replace g with (h' + (g - h'))%nat by lia. rewrite F' by lia. destruct (g - h')%nat as [|q] eqn:K; [lia|]. now rewrite stops by exact I. }
    destruct (print_first a) as (k1 & ks & E & NC). rewrite E in *. cbn [app] in *. rewrite (proj2 (Nat.leb_le _ _)) by lia. rewrite (proj2 (Nat.leb_le _ _)) by lia. rewrite V. destruct k1; try reflexivity. now destruct NC.
  - assert (LL := left_level _ _ LO). rewrite <- app_assoc. cbn [app].
    destruct (IL m (TBin o :: print r ++ ts)) as (f & h & F); [lia|unfold below; cbn [op_level]; now apply left_right|].
    destruct (IR (right_level o) ts RO) as (f' & h' & F'); [eapply below_le; [|exact B]; apply level_right; [exact RO|apply not_two]|].
    exists (f + S (S f') + h')%nat, (S h). intros g G. replace (S h + g)%nat with (h + S g)%nat by lia. rewrite F by lia. rewrite more_S. rewrite (proj2 (Nat.leb_le _ _)) by lia. rewrite LO.
    replace g with (h' + (g - h'))%nat at 1 by lia. rewrite F' by lia. destruct (g - h')%nat as [|k] eqn:K; [lia|]. rewrite (stops (right_level o)) by exact B. reflexivity.
  - rewrite <- app_assoc. cbn [app]. rewrite <- app_assoc. cbn [app].
    destruct (IC m (TQuest :: print a ++ TColon :: print e ++ ts)) as (f & h & F); [lia|unfold below; cbn [op_level]; now apply cond_right|].
    destruct (IA 1%nat (TColon :: print e ++ ts)) as (f1 & h1 & F1); [lia|exact I|].
    destruct (IE 1%nat ts LE) as (f2 & h2 & F2); [eapply below_le; [|exact B]; apply level_right; [exact LE|lia]|].
    exists (f + S (S f1) + h1 + S (S f2) + h2)%nat, (S h). intros g G. replace (S h + g)%nat with (h + S g)%nat by lia. rewrite F by lia. rewrite more_S. rewrite (proj2 (Nat.leb_le _ _)) by lia. rewrite (proj2 (Nat.leb_le _ _)) by lia.
    replace g with (h1 + (g - h1))%nat at 1 by lia. rewrite F1 by lia. destruct (g - h1)%nat as [|k] eqn:K; [lia|]. rewrite (stops 1%nat a) by exact I.
    replace g with (h2 + (g - h2))%nat at 1 by lia. rewrite F2 by lia. destruct (g - h2)%nat as [|k2] eqn:K2; [lia|]. rewrite (stops 1%nat) by exact B. reflexivity.
Qed.
(** A printed tree is read back, and as nothing else. *)
Theorem reads_print t : wf t -> reads (print t) t.
Proof.
  intros W. destruct (read_tree t W 0%nat []) as (f & h & F); [lia|exact I|]. exists (h + S f)%nat. rewrite <- (app_nil_r (print t)). rewrite F by lia. apply (stops 0%nat t []). exact I.
Qed.

(** ** Contexts *)
Lemma print_put f t : print (put f t) = fbefore f ++ print t ++ fafter f.
Proof. destruct f; cbn [put print fbefore fafter]; rewrite <- ?app_assoc; cbn [app]; rewrite <- ?app_assoc, ?app_nil_r; cbn [app]; rewrite ?app_nil_r; reflexivity. Qed.
Lemma print_plug c : forall t, print (plug c t) = before c ++ print t ++ after c.
Proof. induction c as [|f c IH]; intros t; cbn [plug before after]; [now rewrite app_nil_r|]. rewrite IH, print_put, <- !app_assoc. reflexivity. Qed.
Lemma plug_app c d t : plug (c ++ d) t = plug d (plug c t).
Proof. revert t. induction c as [|f c IH]; intros t; cbn [app plug]; auto. Qed.
Lemma wf_put f t : wf (put f t) -> wf t.
Proof. destruct f; cbn [put]; intros W; inversion W; auto. Qed.
Lemma wf_hole c : forall t, wf (plug c t) -> wf t.
Proof. induction c as [|f c IH]; intros t W; cbn [plug] in W; auto. apply IH in W. now apply wf_put in W. Qed.
(** A tree may take the place of another that binds no tighter. *)
Definition fits (t u : tree) : Prop := (forall o, left_ok o t = true -> left_ok o u = true) /\ (level t <= level u)%nat.
Lemma fits_high t u : (15 <= level u)%nat -> (level t <= level u)%nat -> fits t u.
Proof. intros H L. split; [|exact L]. intros o _. unfold left_ok. destruct o; rewrite ?orb_true_iff, ?Nat.leb_le; cbn [lv]; try lia; right; lia. Qed.
Lemma fits_put f t u : fits (put f t) (put f u).
Proof. destruct f; (split; [intros q H; destruct q; exact H|cbn [put level]; lia]). Qed.
Lemma put_wf f t u : wf (put f t) -> wf u -> fits t u -> wf (put f u).
Proof.
  intros W U [F1 F2]. destruct f; cbn [put] in *; inversion W; subst; constructor; auto; lia.
Qed.
Lemma wf_plug c : forall t u, wf (plug c t) -> wf u -> fits t u -> wf (plug c u).
Proof.
  induction c as [|f c IH]; intros t u W U F; cbn [plug] in *; auto. apply (IH _ (put f u) W); [|apply fits_put]. apply put_wf with t; auto. eapply wf_hole; exact W.
Qed.

(** ** Values *)
Section Eval.
Context {state : Type} (atom_value : atom -> state -> option value * state) (function : builtin -> Z) (read : bstr -> state -> option value * state)
  (write : bstr -> value -> state -> option value * state) (prefix_value : prefix -> (state -> option value * state) -> state -> option value * state)
  (suffix_value : suffix -> value -> state -> option value * state) (binary_value : binop -> value -> value -> state -> option value * state)
  (property : value -> bstr -> state -> option value * state) (call : Z -> value -> option value -> state -> option value * state)
  (other_bit_not : value -> state -> option value * state) (convert : builtin -> value -> state -> option value * state).
(** Operators act on what their operand does, however it is written. *)
Hypothesis extensional : forall u m n, (forall s, m s = n s) -> forall s, prefix_value u m s = prefix_value u n s.
Notation ev := (eval atom_value function read write prefix_value suffix_value binary_value property call other_bit_not convert).
Lemma alike_refl (x : option (value * value) * state) : alike x x.
Proof. destruct x as [[[v t]|] s]; split; cbn; auto. Qed.
Lemma alike_trans (x y z : option (value * value) * state) : alike x y -> alike y z -> alike x z.
Proof.
  destruct x as [[[v t]|] s], y as [[[v' t']|] s'], z as [[[v'' t'']|] s'']; intros [E F] [E' F']; cbn in *; subst; split; cbn; auto; try tauto.
  destruct F as [-> F], F' as [-> F']. split; auto. destruct F as [-> |F]; auto.
Qed.
Lemma alike_sym (x y : option (value * value) * state) : alike x y -> alike y x.
Proof. destruct x as [[[v t]|] s], y as [[[v' t']|] s']; intros [E F]; cbn in *; subst; split; cbn; auto. destruct F as [-> [-> |F]]; auto. Qed.
Lemma alike_put f t u : (forall s, alike (ev t s) (ev u s)) -> forall s, alike (ev (put f t) s) (ev (put f u) s).
Proof.
  intros E s.
  assert (STEP : forall (k : value -> value -> state -> option (value * value) * state), (forall v this that s, this = that \/ (forall n, v <> Obj n) -> alike (k v this s) (k v that s)) ->
    forall s, alike (match ev t s with (Some (v, this), s) => k v this s | r => r end) (match ev u s with (Some (v, this), s) => k v this s | r => r end)).
  { intros k K s'. destruct (E s') as [E1 E2]. destruct (ev t s') as [[[v this]|] s1], (ev u s') as [[[w that]|] s2]; cbn in E1, E2; try tauto; subst; [|apply alike_refl]. destruct E2 as [-> E2]. now apply K. }
  assert (STEPC : forall (k : value -> state -> option (value * value) * state) s, alike (match ev t s with (Some (v, _), s) => k v s | r => r end) (match ev u s with (Some (v, _), s) => k v s | r => r end)).
  { intros k. apply (STEP (fun v _ => k v)). intros; apply alike_refl. }
  destruct f; cbn [put].
  - apply E.
  - destruct u0; cbn [eval]; try (apply STEPC);
      try (match goal with |- alike (plain (prefix_value ?x ?m ?s)) (plain (prefix_value ?x ?n ?s)) => rewrite (extensional x m n); [apply alike_refl|];
        intros s'; destruct (E s') as [E1 E2]; destruct (ev t s') as [[[v this]|] s1], (ev u s') as [[[w that]|] s2]; cbn in *; try tauto; subst; auto; destruct E2 as [-> _]; reflexivity end).
    destruct plus.
    + destruct (read name s) as [[v|] s']; [|apply alike_refl]. apply (STEPC (fun w s => match binary binary_value OPlus v w s with (Some u, s) => plain (write name u s) | r => plain r end)).
    + rewrite (extensional (UAssign name false) (fun s => let r := ev t s in (option_map fst (fst r), snd r)) (fun s => let r := ev u s in (option_map fst (fst r), snd r))); [apply alike_refl|].
      intros s'. destruct (E s') as [E1 E2]. destruct (ev t s') as [[[v this]|] s1], (ev u s') as [[[w that]|] s2]; cbn in *; try tauto; subst; auto. destruct E2 as [-> _]. reflexivity.
  - destruct s0; cbn [eval]; try apply E; apply (STEPC (fun v s => plain (suffix_value _ v s))).
  - cbn [eval]. apply (STEPC (fun v s => match get function property v n s with (Some w, s) => (Some (w, v), s) | (None, s) => (None, s) end)).
  - cbn [eval]. apply (STEP (fun v this s => plain (invoke function call convert v this None s))). intros v this that s' [-> |H]; [apply alike_refl|]. destruct v; try apply alike_refl. now destruct (H n).
  - cbn [eval]. apply (STEP (fun v this s => match ev a s with (Some (w, _), s) => plain (invoke function call convert v this (Some w) s) | r => r end)). intros v this that s' [-> |H]; [apply alike_refl|].
    destruct v; try apply alike_refl. now destruct (H n).
  - cbn [eval]. destruct (ev f s) as [[[v this]|] s']; [|apply alike_refl]. apply (STEPC (fun w s => plain (invoke function call convert v this (Some w) s))).
  - cbn [eval]. apply STEPC.
  - cbn [eval]. destruct (ev l s) as [[[v this]|] s']; [|apply alike_refl].
    assert (R : alike (match ev t s' with (Some (w, _), s) => (Some (w, Undefined), s) | r => r end) (match ev u s' with (Some (w, _), s) => (Some (w, Undefined), s) | r => r end)) by (apply (STEPC (fun w s => (Some (w, Undefined), s)))).
    destruct o; try (apply (STEPC (fun w s => plain (binary binary_value _ v w s)))); try exact R; destruct (truthy v); try exact R; try apply alike_refl; destruct v; try exact R; apply alike_refl.
  - cbn [eval]. apply STEPC.
  - cbn [eval]. destruct (ev c s) as [[[v this]|] s']; [|apply alike_refl]. destruct (truthy v); [|apply alike_refl]. apply (STEPC (fun w s => (Some (w, Undefined), s))).
  - cbn [eval]. destruct (ev c s) as [[[v this]|] s']; [|apply alike_refl]. destruct (truthy v); [apply alike_refl|]. apply (STEPC (fun w s => (Some (w, Undefined), s))).
Qed.
Lemma alike_plug c : forall t u, (forall s, alike (ev t s) (ev u s)) -> forall s, alike (ev (plug c t) s) (ev (plug c u) s).
Proof. induction c as [|f c IH]; intros t u E s; cbn [plug]; auto. apply IH. intros s'. now apply alike_put. Qed.
End Eval.
