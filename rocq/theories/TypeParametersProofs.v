From Coq Require Import Bool List Arith Lia.
From Verif Require Import TypeParameters TypeParametersSpec.
Import ListNotations.

(** * Uses *)
Lemma as_map : forall a r l u, as_ a r l u <-> u = map (fun t => (t, a, r)) l.
Proof.
  intros a r l u. split.
  - induction 1 as [|t i l u E H IH]; [reflexivity|]. cbn [map]. now subst.
  - intros ->. induction l as [|t l IH]; cbn [map]; constructor; auto.
Qed.
Lemma maybe_optional : forall o a l, maybe o a l <-> l = optional o a.
Proof.
  intros [t|] a l; unfold maybe, optional; split.
  - intros [H _]. now apply H.
  - intros ->. split; [intros t' [= <-]; reflexivity|discriminate].
  - intros [_ H]. now apply H.
  - intros ->. split; [discriminate|reflexivity].
Qed.
Lemma signature_uses_eq : forall g u, signature_uses g u <-> u = signature_items g.
Proof.
  intros g u. unfold signature_items. split.
  - intros [this params tps ret A B C D E F]. apply maybe_optional in A. apply as_map in B. apply as_map in C. subst. f_equal. f_equal. f_equal.
    destruct (predicate_type g) as [t|]; [now apply D|]. destruct (return_type g) as [t|]; [now apply E|now apply F].
  - intros ->. apply SUses.
    + now apply maybe_optional.
    + now apply as_map.
    + now apply as_map.
    + intros t ->. reflexivity.
    + intros t -> ->. reflexivity.
    + intros -> ->. reflexivity.
Qed.
Lemma signatures_use_eq : forall l u, signatures_use l u <-> u = flat_map signature_items l.
Proof.
  intros l u. split.
  - induction 1 as [|g l u v G H IH]; [reflexivity|]. apply signature_uses_eq in G. cbn [flat_map]. now subst.
  - intros ->. induction l as [|g l IH]; cbn [flat_map]; constructor; [now apply signature_uses_eq|exact IH].
Qed.
Lemma object_uses_eq : forall o u, object_uses o u <-> u = object_items o.
Proof.
  intros o u. unfold object_items. split.
  - intros [props p c num str calls news A B C D E F G H I' J]. apply as_map in A. apply maybe_optional in G. apply maybe_optional in H. apply signatures_use_eq in I'. apply signatures_use_eq in J. subst props num str calls news.
    f_equal. rewrite app_assoc. f_equal. destruct (mapping o) as [m|].
    + specialize (B m eq_refl). apply maybe_optional in B. subst p. f_equal. destruct (property_types o) as [|x l]; [|now apply F].
      destruct (template_type m) as [t|] eqn:T; [exact (D m t eq_refl eq_refl T)|]. apply maybe_optional. exact (E m eq_refl eq_refl T).
    + destruct (C eq_refl) as [-> ->]. reflexivity.
  - intros ->. destruct (mapping o) as [m|] eqn:M.
    + rewrite <- app_assoc. apply OUses; try (now apply as_map); try (now apply maybe_optional); try (now apply signatures_use_eq).
      * intros m' E. assert (m' = m) as -> by congruence. now apply maybe_optional.
      * congruence.
      * intros m' t E P T. assert (m' = m) as -> by congruence. rewrite P, T. reflexivity.
      * intros m' E P T. assert (m' = m) as -> by congruence. rewrite P, T. now apply maybe_optional.
      * intros P. destruct (property_types o); [contradiction|reflexivity].
    + apply (OUses o _ [] []); try (now apply as_map); try (now apply maybe_optional); try (now apply signatures_use_eq); try congruence; auto.
Qed.
Lemma twice_flag : forall fc a r k, argument_flag fc a r k = true <-> twice fc a r k.
Proof. intros [] [] [] [[]|[]|]; cbn; intuition congruence. Qed.
Lemma uses_eq : forall fc n a r u, uses fc n a r u <-> u = edges fc n a r.
Proof.
  intros fc n a r u. unfold edges. split.
  - intros [l N A|l v A B C|o i A B C|k l f v A B C D N F V|l v A B C D E V|c e A B C D E F|o v A B C D E F G V|v A B C D E F G V].
    + apply as_map in A. destruct (alias_arguments n); [contradiction|exact A].
    + rewrite A, B. now apply as_map.
    + now rewrite A, B, C.
    + rewrite A, B, C, D. destruct l as [|x l]; [contradiction|]. apply as_map in V. rewrite V. assert (f = argument_flag fc a r k) as ->; [|reflexivity].
      pose proof (twice_flag fc a r k). destruct f, (argument_flag fc a r k); intuition congruence.
    + rewrite A, B, C. apply as_map in V. destruct (reference n) as [[k [|x l']]|]; [| specialize (D k (x :: l') eq_refl); discriminate|]; now rewrite E.
    + rewrite A, B, C. destruct (reference n) as [[k [|x l']]|]; [| specialize (D k (x :: l') eq_refl); discriminate|]; now rewrite E, F.
    + rewrite A, B, C. apply object_uses_eq in V. destruct (reference n) as [[k [|x l']]|]; [| specialize (D k (x :: l') eq_refl); discriminate|]; now rewrite E, F, G.
    + rewrite A, B, C. apply maybe_optional in V. destruct (reference n) as [[k [|x l']]|]; [| specialize (D k (x :: l') eq_refl); discriminate|]; now rewrite E, F, G.
  - intros ->. destruct (alias_arguments n) as [|x0 l0] eqn:A; [|apply UAlias; [congruence|rewrite A; now apply as_map]].
    destruct (parts n) as [l|] eqn:B; [apply (UParts fc n a r l); auto; now apply as_map|].
    destruct (indexed n) as [[o i]|] eqn:C; [now apply UIndexed|].
    assert (forall k l, reference n = Some (k, l) -> l = [] \/ exists x l', l = x :: l') as _ by (intros k [|x l] _; eauto).
    destruct (reference n) as [[k [|x l]]|] eqn:D.
    2:{ eapply (UReference fc n a r k (x :: l) (argument_flag fc a r k)); auto; [discriminate|apply twice_flag|now apply as_map]. }
    all: assert (forall k l, reference n = Some (k, l) -> l = []) as D' by (intros k' l'; rewrite D; congruence).
    all: destruct (template_parts n) as [l'|] eqn:E; [apply (UTemplate fc n a r l'); auto; now apply as_map|].
    all: destruct (conditional n) as [[c e]|] eqn:F; [now apply UConditional|].
    all: destruct (object_ n) as [o|] eqn:G; [apply (UObject fc n a r o); auto; now apply object_uses_eq|apply UTarget; auto; now apply maybe_optional].
Qed.
Definition heads (l : list item) : list nat := map (fun i => fst (fst i)) l.
Lemma in_heads : forall t a r l, In (t, a, r) l -> In t (heads l).
Proof. intros t a r l H. unfold heads. apply in_map_iff. exists (t, a, r). auto. Qed.
Lemma heads_in : forall t l, In t (heads l) -> exists a r, In (t, a, r) l.
Proof. intros t l H. apply in_map_iff in H as [[[t' a] r] [E I']]. cbn in E. subst. eauto. Qed.
Lemma heads_map : forall a r l, heads (map (fun t => (t, a, r)) l) = l.
Proof. intros a r l. unfold heads. rewrite map_map. cbn. apply map_id. Qed.
Lemma heads_edges : forall fc n a r a' r', heads (edges fc n a r) = heads (edges fc n a' r').
Proof.
  intros fc n a r a' r'. unfold edges. destruct (alias_arguments n); [|reflexivity]. destruct (parts n); [now rewrite !heads_map|]. destruct (indexed n) as [[o i]|]; [reflexivity|].
  assert (heads match template_parts n with Some l => map (fun t => (t, a, false)) l | None => match conditional n with Some (c, e) => [(c, a, false); (e, a, false)] | None => match object_ n with Some o => object_items o | None => optional (target n) a end end end
    = heads match template_parts n with Some l => map (fun t => (t, a', false)) l | None => match conditional n with Some (c, e) => [(c, a', false); (e, a', false)] | None => match object_ n with Some o => object_items o | None => optional (target n) a' end end end) as E.
  { destruct (template_parts n); [now rewrite !heads_map|]. destruct (conditional n) as [[c e]|]; [reflexivity|]. destruct (object_ n); [reflexivity|]. now destruct (target n). }
  destruct (reference n) as [[k [|x l]]|]; [exact E| now rewrite !heads_map|exact E].
Qed.
Lemma key_eqb_eq : forall x y, key_eqb x y = true <-> x = y.
Proof. intros [a|] [c|]; cbn; rewrite ?Nat.eqb_eq; split; intros H; congruence. Qed.
Lemma hooks_in : forall d k t, In (k, t) (hooks d) <-> hook d k t.
Proof.
  intros d k t. unfold hooks. rewrite in_app_iff. split.
  - intros [H|H].
    + destruct (constraint d) as [[c t']|] eqn:C; [|destruct H]. destruct H as [[= <- <-]|[]]. now apply HConstraint.
    + destruct (default_type d) as [t'|] eqn:C; [|destruct H]. destruct H as [[= <- <-]|[]]. now apply HDefault.
  - intros [c t' C|t' C]; rewrite C; [left|right]; now left.
Qed.
Lemma visited_in : forall k st, existsb (key_eqb k) (visited st) = true <-> In k (visited st).
Proof. intros k st. rewrite existsb_exists. split; [intros [k' [I' E]]; apply key_eqb_eq in E; now subst|intros I'; exists k; split; [exact I'|now apply key_eqb_eq]]. Qed.

Section Walk.
Context (types : nat -> node) (targets : list nat) (from_class : bool).
Notation visit := (visit types targets from_class).
Notation increment := (increment targets).
Notation edges := (edges from_class).
Notation uses_of := (uses_of types from_class).
Notation reached := (reached types from_class).
Notation hooked := (hooked types from_class).
Notation hook_uses := (hook_uses types from_class).

(** * Runs *)
Inductive step : item -> state -> state -> Prop :=
| VDone i st : remaining st = 0 -> step i st st
| VBlocked t a r st : remaining st <> 0 -> 9 <= usages st t -> step (t, a, r) st (use t st)
| VUnknown t a r st : remaining st <> 0 -> usages st t < 9 -> parameter (types t) = Some None -> step (t, a, r) st (use t st)
| VParameter t a r st d st' : remaining st <> 0 -> usages st t < 9 -> parameter (types t) = Some (Some d) -> hsteps d (hooks d) (increment (symbol d) a (use t st)) st' -> step (t, a, r) st st'
| VType t a r st st' : remaining st <> 0 -> usages st t < 9 -> parameter (types t) = None -> steps (edges (types t) a r) (use t st) st' -> step (t, a, r) st st'
with steps : list item -> state -> state -> Prop :=
| VNil st : steps [] st st
| VCons i l st st1 st2 : step i st st1 -> steps l st1 st2 -> steps (i :: l) st st2
with hsteps : decl -> list (key * nat) -> state -> state -> Prop :=
| VHNil d st : hsteps d [] st st
| VHSkip d k t l st st' : In k (visited st) -> hsteps d l st st' -> hsteps d ((k, t) :: l) st st'
| VHCons d k t l st st1 st2 : hook d k t -> ~ In k (visited st) -> step (plain t) (mark k st) st1 -> hsteps d l st1 st2 -> hsteps d ((k, t) :: l) st st2.
Scheme step_mut := Induction for step Sort Prop with steps_mut := Induction for steps Sort Prop with hsteps_mut := Induction for hsteps Sort Prop.
Combined Scheme run_ind from step_mut, steps_mut, hsteps_mut.

Lemma use_usages : forall t st x, usages (use t st) x = if x =? t then S (usages st t) else usages st x.
Proof. reflexivity. Qed.
Lemma increment_usages : forall s a st, usages (increment s a st) = usages st /\ visited (increment s a st) = visited st.
Proof. intros s a st. unfold TypeParameters.increment. destruct (_ =? 0); [auto|]. destruct (negb _); [auto|]. destruct (2 <? _); auto. Qed.

Lemma visit_step : forall fuel i st st', visit fuel i st = Some st' -> step i st st'.
Proof.
  induction fuel as [|fuel IH]; intros [[t a] r] st st' H; [discriminate|]. cbn [TypeParameters.visit] in H. destruct (remaining st =? 0) eqn:R; [injection H as <-; apply VDone; now apply Nat.eqb_eq|].
  apply Nat.eqb_neq in R. cbv zeta in H. rewrite use_usages, Nat.eqb_refl in H. destruct (9 <? S (usages st t)) eqn:B.
  - apply Nat.ltb_lt in B. injection H as <-. apply VBlocked; [exact R|lia].
  - apply Nat.ltb_ge in B. assert (forall l st st', visit_list (visit fuel) l st = Some st' -> steps l st st') as L.
    { clear - IH. induction l as [|i l IHl]; intros st st' H; cbn [visit_list] in H; [injection H as <-; constructor|]. destruct (visit fuel i st) as [st1|] eqn:V; [|discriminate]. econstructor; eauto. }
    destruct (parameter (types t)) as [[d|]|] eqn:P.
    + apply VParameter with (d := d); auto. assert (forall l st st', incl l (hooks d) -> visit_hooks (visit fuel) l st = Some st' -> hsteps d l st st') as LH; [|apply LH; [apply incl_refl|exact H]].
      clear - IH. induction l as [|[k t] l IHl]; intros st st' I' H; cbn [visit_hooks] in H; [injection H as <-; constructor|]. assert (incl l (hooks d)) as I2 by (intros x Hx; apply I'; now right).
      destruct (existsb (key_eqb k) (visited st)) eqn:E.
      * apply VHSkip; [now apply visited_in|now apply IHl].
      * destruct (visit fuel (plain t) (mark k st)) as [st1|] eqn:V; [|discriminate]. apply VHCons with (st1 := st1); auto; [apply hooks_in, I'; now left|]. rewrite <- visited_in. congruence.
    + injection H as <-. apply VUnknown; auto.
    + apply VType; auto.
Qed.
Lemma visit_steps : forall fuel l st st', visit_list (visit fuel) l st = Some st' -> steps l st st'.
Proof.
  intros fuel. induction l as [|i l IHl]; intros st st' H; cbn [visit_list] in H; [injection H as <-; constructor|]. destruct (visit fuel i st) as [st1|] eqn:V; [|discriminate].
  econstructor; [exact (visit_step _ _ _ _ V)|now apply IHl].
Qed.

(** * Monotone *)
Definition grows (st st' : state) : Prop := (forall s, found st s <= found st' s) /\ remaining st' <= remaining st /\ (forall t, usages st t <= usages st' t) /\ exists ks, visited st' = ks ++ visited st.
Lemma grows_refl : forall st, grows st st.
Proof. intros st. repeat split; auto. now exists []. Qed.
Lemma grows_trans : forall a c d, grows a c -> grows c d -> grows a d.
Proof.
  intros a c d [A1 [A2 [A3 [k A4]]]] [C1 [C2 [C3 [k' C4]]]]. repeat split; intros; try (etransitivity; eauto; fail). exists (k' ++ k). rewrite C4, A4. now rewrite app_assoc.
Qed.
Lemma grows_use : forall t st, grows st (use t st).
Proof. intros t st. repeat split; auto; [|now exists []]. intros x. rewrite use_usages. destruct (x =? t) eqn:E; [apply Nat.eqb_eq in E; subst|]; lia. Qed.
Lemma grows_mark : forall k st, grows st (mark k st).
Proof. intros k st. repeat split; auto. now exists [k]. Qed.
Lemma grows_increment : forall s a st, grows st (increment s a st).
Proof.
  intros s a st. unfold TypeParameters.increment. destruct (_ =? 0); [apply grows_refl|]. destruct (negb _); [apply grows_refl|]. destruct (2 <? _); [apply grows_refl|]. repeat split; cbn [found remaining usages visited]; auto; [| |now exists []].
  - intros x. unfold update. destruct (x =? s) eqn:E; [apply Nat.eqb_eq in E; subst|]; lia.
  - match goal with |- context [2 <? ?x] => destruct (2 <? x) end; lia.
Qed.
Lemma run_grows : (forall i st st', step i st st' -> grows st st') /\ (forall l st st', steps l st st' -> grows st st') /\ (forall d l st st', hsteps d l st st' -> grows st st').
Proof.
  apply run_ind; intros.
  - apply grows_refl.
  - apply grows_use.
  - apply grows_use.
  - eapply grows_trans; [apply grows_use|]. eapply grows_trans; [apply grows_increment|eassumption].
  - eapply grows_trans; [apply grows_use|eassumption].
  - apply grows_refl.
  - eapply grows_trans; eassumption.
  - apply grows_refl.
  - assumption.
  - eapply grows_trans; [apply grows_mark|]. eapply grows_trans; eassumption.
Qed.

(** * Remaining targets *)
Definition good (st : state) : Prop := remaining st = length (filter (fun s => found st s <=? 2) targets).
Context (ND : NoDup targets).
Lemma filter_update : forall f s v, In s targets -> f s <= 2 -> f s <= v -> length (filter (fun x => update f s v x <=? 2) targets) = length (filter (fun x => f x <=? 2) targets) - (if 2 <? v then 1 else 0).
Proof.
  intros f s v. induction ND as [|x l N D IH]; intros I' F V; [destruct I'|]. cbn [filter]. destruct (x =? s) eqn:E.
  - apply Nat.eqb_eq in E. subst x. assert (filter (fun x => update f s v x <=? 2) l = filter (fun x => f x <=? 2) l) as R.
    { apply filter_ext_in. intros y Y. unfold update. destruct (y =? s) eqn:E; [apply Nat.eqb_eq in E; subst; contradiction|reflexivity]. }
    unfold update at 1. rewrite Nat.eqb_refl, R. assert (f s <=? 2 = true) as -> by now apply Nat.leb_le. cbn [length]. destruct (2 <? v) eqn:L.
    + apply Nat.ltb_lt in L. assert (v <=? 2 = false) as -> by (apply Nat.leb_gt; lia). lia.
    + apply Nat.ltb_ge in L. assert (v <=? 2 = true) as -> by (apply Nat.leb_le; lia). cbn [length]. lia.
  - apply Nat.eqb_neq in E. destruct I' as [I'|I']; [congruence|]. unfold update at 1. assert (x =? s = false) as -> by now apply Nat.eqb_neq. specialize (IH D I' F V).
    assert (1 <= length (filter (fun x => f x <=? 2) l)) as Q.
    { assert (In s (filter (fun x => f x <=? 2) l)) as Q by (apply filter_In; split; [exact I'|now apply Nat.leb_le]). destruct (filter (fun x => f x <=? 2) l); [destruct Q|cbn; lia]. }
    destruct (f x <=? 2); cbn [length]; destruct (2 <? v); lia.
Qed.
Lemma good_increment : forall s a st, good st -> good (increment s a st).
Proof.
  intros s a st G. unfold TypeParameters.increment. destruct (remaining st =? 0); [exact G|]. destruct (existsb (Nat.eqb s) targets) eqn:E; cbn [negb]; [|exact G]. destruct (2 <? found st s) eqn:F; [exact G|]. apply Nat.ltb_ge in F.
  apply existsb_exists in E as [s' [I' E]]. apply Nat.eqb_eq in E. subst s'. unfold good in *. cbn [found remaining]. rewrite filter_update; auto; [|lia]. rewrite <- G. match goal with |- context [2 <? ?x] => destruct (2 <? x) end; lia.
Qed.
Lemma run_good : (forall i st st', step i st st' -> good st -> good st') /\ (forall l st st', steps l st st' -> good st -> good st') /\ (forall d l st st', hsteps d l st st' -> good st -> good st').
Proof. apply run_ind; intros; auto. apply H. now apply good_increment. Qed.
Lemma good_remaining : forall s st, good st -> In s targets -> found st s <= 2 -> remaining st <> 0.
Proof.
  intros s st G I' F. rewrite G. assert (In s (filter (fun s => found st s <=? 2) targets)) as Q by (apply filter_In; split; [exact I'|now apply Nat.leb_le]). destruct (filter _ targets); [destruct Q|discriminate].
Qed.
Lemma increment_found : forall s s' a st, found (increment s' a st) s = found st s \/ (s = s' /\ In s targets /\ found (increment s' a st) s = found st s + (if a then 2 else 1)).
Proof.
  intros s s' a st. unfold TypeParameters.increment. destruct (_ =? 0); [auto|]. destruct (existsb (Nat.eqb s') targets) eqn:E; cbn [negb]; [|auto]. destruct (2 <? _); [auto|]. cbn. unfold update. destruct (s =? s') eqn:Q; [|auto].
  apply Nat.eqb_eq in Q. subst. apply existsb_exists in E as [x [I' E]]. apply Nat.eqb_eq in E. subst x. auto.
Qed.
Lemma increment_exact : forall s a st, remaining st <> 0 -> In s targets -> found st s <= 2 -> found (increment s a st) s = found st s + (if a then 2 else 1).
Proof.
  intros s a st R I' F. unfold TypeParameters.increment. apply Nat.eqb_neq in R. rewrite R. assert (existsb (Nat.eqb s) targets = true) as -> by (apply existsb_exists; exists s; split; [exact I'|apply Nat.eqb_refl]). cbn [negb].
  assert (2 <? found st s = false) as -> by (apply Nat.ltb_ge; lia). cbn. unfold update. now rewrite Nat.eqb_refl.
Qed.

(** * Every count is found in the types *)
Lemma uses_of_app : forall s l m l' n, uses_of s l m -> uses_of s l' n -> uses_of s (l ++ l') (m + n).
Proof.
  intros s l m l' n H H'. induction H as [l|i l m H IH|t a r l m d P S' H IH|t a r l u k m P U Hu IHu H IH]; cbn [app].
  - cbn. induction l as [|i l IH]; [exact H'|]. cbn [app]. now apply USkip.
  - now apply USkip.
  - rewrite <- Nat.add_assoc. eapply UHere; eauto.
  - rewrite <- Nat.add_assoc. eapply UInside; eauto.
Qed.
Lemma uses_of_cons : forall s i l n, uses_of s (i :: l) n -> exists m k, uses_of s [i] m /\ uses_of s l k /\ n = m + k.
Proof.
  intros s i l n H. inversion H as [l'|i' l' n' H'|t a r l' n' d P S' H'|t a r l' u m n' P U Hu H']; subst.
  - exists 0, 0. repeat split; constructor.
  - exists 0, n. repeat split; [constructor|exact H'].
  - exists (if a then 2 else 1), n'. repeat split; [|exact H']. replace (if a then 2 else 1) with ((if a then 2 else 1) + 0) by lia. eapply UHere; eauto. constructor.
  - exists m, n'. repeat split; [|exact H']. replace m with (m + 0) by lia. eapply UInside; eauto. constructor.
Qed.
Lemma uses_of_one : forall s t a r n, uses_of s [(t, a, r)] n -> n = 0 \/ (exists d, parameter (types t) = Some (Some d) /\ symbol d = s /\ n = if a then 2 else 1) \/ (parameter (types t) = None /\ uses_of s (edges (types t) a r) n).
Proof.
  assert (forall s l n, uses_of s l n -> l = [] -> n = 0) as Z by (induction 1; intros E; [reflexivity|discriminate..]).
  intros s t a r n H. inversion H as [l'|i' l' n' H'|t' a' r' l' n' d P S' H'|t' a' r' l' u m n' P U Hu H']; subst.
  - now left.
  - left. exact (Z _ _ _ H' eq_refl).
  - right. left. exists d. rewrite (Z _ _ _ H' eq_refl). repeat split; auto.
  - right. right. split; [exact P|]. rewrite (Z _ _ _ H' eq_refl), Nat.add_0_r. apply uses_eq in U. now subst u.
Qed.
Lemma hook_uses_app : forall s R ks h ks' h', hook_uses s R ks h -> hook_uses s R ks' h' -> (forall k, In k ks -> In k ks' -> False) -> hook_uses s R (ks ++ ks') (h + h').
Proof.
  intros s R ks h ks' h' H H'. induction H as [|k ks t m n N K U H IH]; intros D; [exact H'|]. cbn [app]. rewrite <- Nat.add_assoc. eapply HMore; eauto.
  - intros I'. apply in_app_iff in I' as [I'|I']; [contradiction|]. apply (D k); [now left|exact I'].
  - apply IH. intros k' A B. apply (D k'); [now right|exact B].
Qed.
Lemma run_sound : forall s R,
  (forall i st st', step i st st' -> reached R (fst (fst i)) -> exists ks m h, uses_of s [i] m /\ hook_uses s R ks h /\ found st' s = found st s + m + h /\ visited st' = ks ++ visited st /\ forall k, In k ks -> ~ In k (visited st)) /\
  (forall l st st', steps l st st' -> (forall i, In i l -> reached R (fst (fst i))) -> exists ks m h, uses_of s l m /\ hook_uses s R ks h /\ found st' s = found st s + m + h /\ visited st' = ks ++ visited st /\ forall k, In k ks -> ~ In k (visited st)) /\
  (forall d l st st', hsteps d l st st' -> (forall k t, hook d k t -> hooked R k t /\ reached R t) -> exists ks h, hook_uses s R ks h /\ found st' s = found st s + h /\ visited st' = ks ++ visited st /\ forall k, In k ks -> ~ In k (visited st)).
Proof.
  intros s R. apply run_ind.
  - intros i st _ _. exists [], 0, 0. repeat split; try constructor; cbn; auto with arith; lia.
  - intros t a r st _ _ _. exists [], 0, 0. repeat split; try constructor; cbn; auto; lia.
  - intros t a r st _ _ _ _. exists [], 0, 0. repeat split; try constructor; cbn; auto; lia.
  - intros t a r st d st' _ _ P _ IH Re. cbn [fst] in Re. destruct IH as [ks [h [Hk [F [V D]]]]].
    { intros k t' Hk. split; [exists t, d; auto|]. exact (RHook _ _ _ _ _ _ _ Re P Hk). }
    pose proof (increment_usages (symbol d) a (use t st)) as [_ EV]. rewrite EV in V, D. change (visited (use t st)) with (visited st) in V, D.
    destruct (increment_found s (symbol d) a (use t st)) as [E|[E1 [_ E]]]; rewrite E in F; change (found (use t st) s) with (found st s) in F.
    + exists ks, 0, h. repeat split; auto; [constructor|lia].
    + exists ks, (if a then 2 else 1), h. repeat split; auto. replace (if a then 2 else 1) with ((if a then 2 else 1) + 0) by lia. eapply UHere; eauto. constructor.
  - intros t a r st st' _ _ P _ IH Re. cbn [fst] in Re. destruct IH as [ks [m [h [U [Hk [F [V D]]]]]]].
    { intros [[t' a'] r'] I'. cbn [fst]. eapply RUse; eauto. now apply uses_eq. }
    exists ks, m, h. repeat split; auto. replace m with (m + 0) by lia. eapply UInside; [exact P|now apply uses_eq|exact U|constructor].
  - intros st _. exists [], 0, 0. repeat split; try constructor; cbn; auto; lia.
  - intros i l st st1 st2 _ IH1 _ IH2 Re. destruct IH1 as [ks1 [m1 [h1 [U1 [K1 [F1 [V1 D1]]]]]]]; [apply Re; now left|]. destruct IH2 as [ks2 [m2 [h2 [U2 [K2 [F2 [V2 D2]]]]]]]; [intros j J; apply Re; now right|].
    exists (ks2 ++ ks1), (m1 + m2), (h2 + h1). split; [|split; [|split; [lia|split]]].
    + exact (uses_of_app s [i] m1 l m2 U1 U2).
    + apply hook_uses_app; auto. intros k A B. apply (D2 k A). rewrite V1. apply in_app_iff. now left.
    + rewrite V2, V1. now rewrite app_assoc.
    + intros k K. apply in_app_iff in K as [K|K]; [|now apply D1]. intros I'. apply (D2 k K). rewrite V1. apply in_app_iff. now right.
  - intros d st _. exists [], 0. repeat split; try constructor; cbn; auto.
  - intros d k t l st st' _ _ IH Re. now apply IH.
  - intros d k t l st st1 st2 Hh N _ IH1 _ IH2 Re. destruct (Re k t Hh) as [Hd Ht]. destruct IH1 as [ks1 [m1 [h1 [U1 [K1 [F1 [V1 D1]]]]]]]; [exact Ht|]. destruct (IH2 Re) as [ks2 [h2 [K2 [F2 [V2 D2]]]]].
    cbn [visited mark] in V1, D1. change (found (mark k st) s) with (found st s) in F1.
    exists (ks2 ++ ks1 ++ [k]), (h2 + (h1 + (m1 + 0))). split; [|split; [lia|split]].
    + apply hook_uses_app; [exact K2| |].
      * apply hook_uses_app; [exact K1|apply (HMore types from_class s R k [] t m1 0); [intros []|exact Hd|exact U1|constructor]|]. intros k' A [<-|[]]. apply (D1 k A). now left.
      * intros k' A B. apply (D2 k' A). rewrite V1. apply in_app_iff in B as [B|[<-|[]]]; apply in_app_iff; [now left|right; now left].
    + rewrite V2, V1. rewrite <- !app_assoc. reflexivity.
    + intros k' K. apply in_app_iff in K as [K|K]; [|apply in_app_iff in K as [K|[<-|[]]]; [|exact N]].
      * intros I'. apply (D2 k' K). rewrite V1. apply in_app_iff. right. now right.
      * intros I'. apply (D1 k' K). now right.
Qed.

(** * Types with uses are not blocked *)
Definition contains (s t : nat) : Prop := exists a r n, uses_of s [(t, a, r)] (S n).
Inductive depth (s : nat) : nat -> nat -> Prop :=
| D0 t d : parameter (types t) = Some (Some d) -> symbol d = s -> depth s 0 t
| DS k t t1 : parameter (types t) = None -> In t1 (heads (edges (types t) false false)) -> depth s k t1 -> depth s (S k) t.
Lemma uses_depth : forall s l n, uses_of s l n -> n <> 0 -> exists t k, In t (heads l) /\ depth s k t.
Proof.
  intros s l n H. induction H as [l|i l n H IH|t a r l n d P S' H IH|t a r l u m n P U Hu IHu H IH]; intros N.
  - contradiction.
  - destruct (IH N) as [t [k [I' D]]]. exists t, k. split; [now right|exact D].
  - exists t, 0. split; [now left|econstructor; eauto].
  - destruct m as [|m].
    + destruct (IH N) as [t' [k [I' D]]]. exists t', k. split; [now right|exact D].
    + destruct IHu as [t1 [k [I' D]]]; [discriminate|]. exists t, (S k). split; [now left|]. apply uses_eq in U. subst u. eapply DS; eauto. now rewrite (heads_edges from_class (types t) false false a r).
Qed.
Lemma contains_depth : forall s t, contains s t -> exists k, depth s k t.
Proof. intros s t [a [r [n H]]]. destruct (uses_depth _ _ _ H) as [t' [k [[<-|[]] D]]]; [discriminate|]. eauto. Qed.
Lemma run_calls : forall t t1, t <> t1 -> parameter (types t) = None -> In t1 (heads (edges (types t) false false)) ->
  (forall i st st', step i st st' -> remaining st' <> 0 -> min 9 (usages st' t) + usages st t1 + (if fst (fst i) =? t1 then 1 else 0) <= usages st' t1 + min 9 (usages st t)) /\
  (forall l st st', steps l st st' -> remaining st' <> 0 -> min 9 (usages st' t) + usages st t1 + (if existsb (Nat.eqb t1) (heads l) then 1 else 0) <= usages st' t1 + min 9 (usages st t)) /\
  (forall d l st st', hsteps d l st st' -> remaining st' <> 0 -> min 9 (usages st' t) + usages st t1 <= usages st' t1 + min 9 (usages st t)).
Proof.
  intros t t1 N P I'. assert (t1 =? t = false) as N1 by (apply Nat.eqb_neq; congruence). assert (t =? t1 = false) as N2 by now apply Nat.eqb_neq. apply run_ind.
  - intros i st Z R. contradiction.
  - intros x a r st _ B _. cbn [fst]. rewrite !use_usages. rewrite (Nat.eqb_sym t1 x). destruct (t =? x) eqn:E1; destruct (x =? t1) eqn:E2; try (apply Nat.eqb_eq in E1; subst x); try (apply Nat.eqb_eq in E2; subst x); lia || congruence.
  - intros x a r st _ B Px _. cbn [fst]. rewrite !use_usages. rewrite (Nat.eqb_sym t1 x). destruct (t =? x) eqn:E1; [apply Nat.eqb_eq in E1; subst x; congruence|]. destruct (x =? t1) eqn:E2; try (apply Nat.eqb_eq in E2; subst x); lia.
  - intros x a r st d st' _ B Px _ IH R. specialize (IH R). destruct (increment_usages (symbol d) a (use x st)) as [EU _]. rewrite EU in IH. rewrite !use_usages in IH. cbn [fst]. rewrite (Nat.eqb_sym t1 x) in IH.
    destruct (t =? x) eqn:E1; [apply Nat.eqb_eq in E1; subst x; congruence|]. destruct (x =? t1) eqn:E2; try (apply Nat.eqb_eq in E2; subst x); lia.
  - intros x a r st st' _ B Px _ IH R. specialize (IH R). rewrite !use_usages in IH. cbn [fst]. rewrite (Nat.eqb_sym t1 x) in IH. destruct (t =? x) eqn:E1.
    + apply Nat.eqb_eq in E1. subst x. rewrite N2 in *. assert (existsb (Nat.eqb t1) (heads (edges (types t) a r)) = true) as X.
      { apply existsb_exists. exists t1. split; [now rewrite (heads_edges from_class (types t) a r false false)|apply Nat.eqb_refl]. }
      rewrite X in IH. lia.
    + destruct (existsb _ _); destruct (x =? t1) eqn:E2; try (apply Nat.eqb_eq in E2; subst x); lia.
  - intros st _. cbn. lia.
  - intros i l st st1 st2 H1 IH1 H2 IH2 R. assert (remaining st1 <> 0) as R1 by (destruct (proj1 (proj2 run_grows) _ _ _ H2) as [_ [Q _]]; lia). specialize (IH1 R1). specialize (IH2 R).
    cbn [heads map existsb]. fold (heads l). rewrite (Nat.eqb_sym t1 (fst (fst i))). destruct (fst (fst i) =? t1), (existsb (Nat.eqb t1) (heads l)); cbn [orb]; lia.
  - intros d st _. lia.
  - intros d k x l st st' _ _ IH R. now apply IH.
  - intros d k x l st st1 st2 _ _ H1 IH1 H2 IH2 R. assert (remaining st1 <> 0) as R1 by (destruct (proj2 (proj2 run_grows) _ _ _ _ H2) as [_ [Q _]]; lia). specialize (IH1 R1). specialize (IH2 R). cbn [usages mark fst plain] in IH1. destruct (x =? t1); lia.
Qed.
Lemma found_le : forall st st' s, grows st st' -> found st' s <= 2 -> found st s <= 2.
Proof. intros st st' s [G _] F. specialize (G s). lia. Qed.
Lemma run_parameter : forall s t d, In s targets -> parameter (types t) = Some (Some d) -> symbol d = s ->
  (forall i st st', step i st st' -> good st -> found st' s <= 2 -> usages st t <= found st s -> usages st' t <= found st' s) /\
  (forall l st st', steps l st st' -> good st -> found st' s <= 2 -> usages st t <= found st s -> usages st' t <= found st' s) /\
  (forall d l st st', hsteps d l st st' -> good st -> found st' s <= 2 -> usages st t <= found st s -> usages st' t <= found st' s).
Proof.
  intros s t d T P S'. apply run_ind.
  - auto.
  - intros x a r st R B G F U. rewrite use_usages. change (found (use x st) s) with (found st s) in *. destruct (t =? x) eqn:E; [apply Nat.eqb_eq in E; subst x; lia|exact U].
  - intros x a r st R B Px G F U. rewrite use_usages. change (found (use x st) s) with (found st s) in *. destruct (t =? x) eqn:E; [apply Nat.eqb_eq in E; subst x; congruence|exact U].
  - intros x a r st d' st' R B Px Hh IH G F U. apply IH; [apply good_increment; exact G|exact F|]. destruct (increment_usages (symbol d') a (use x st)) as [-> _]. rewrite use_usages.
    pose proof (found_le _ _ s (proj2 (proj2 run_grows) _ _ _ _ Hh) F) as F1. pose proof (grows_increment (symbol d') a (use x st)) as [F2 _]. specialize (F2 s). change (found (use x st) s) with (found st s) in F2.
    destruct (t =? x) eqn:E; [|lia]. apply Nat.eqb_eq in E. subst x. assert (d' = d) as -> by congruence. subst s. rewrite increment_exact; [|exact R|exact T|]; change (found (use t st) (symbol d)) with (found st (symbol d)); [destruct a; lia|lia].
  - intros x a r st st' R B Px Hh IH G F U. apply IH; [exact G|exact F|]. rewrite use_usages. destruct (t =? x) eqn:E; [apply Nat.eqb_eq in E; subst x; congruence|exact U].
  - auto.
  - intros i l st st1 st2 H1 IH1 H2 IH2 G F U. pose proof (found_le _ _ s (proj1 (proj2 run_grows) _ _ _ H2) F) as F1. apply IH2; auto. exact (proj1 run_good _ _ _ H1 G).
  - auto.
  - auto.
  - intros d' k x l st st1 st2 _ _ H1 IH1 H2 IH2 G F U. pose proof (found_le _ _ s (proj2 (proj2 run_grows) _ _ _ _ H2) F) as F1. apply IH2; auto. exact (proj1 run_good _ _ _ H1 G).
Qed.
Lemma steps_bounded : forall s l st st', In s targets -> steps l st st' -> good st -> found st' s <= 2 -> (forall t, usages st t = 0) -> forall t, contains s t -> usages st' t <= 2.
Proof.
  intros s l st st' T H G F Z t C. apply contains_depth in C as [k D]. cut (usages st' t <= found st' s); [lia|]. induction D as [t d P S'|k t t1 P I' D IH].
  - apply (proj1 (proj2 (run_parameter s t d T P S')) l st st' H G F). rewrite Z. lia.
  - destruct (Nat.eq_dec t t1) as [->|N]; [exact IH|]. assert (remaining st' <> 0) as R by (apply (good_remaining s); auto; exact (proj1 (proj2 run_good) _ _ _ H G)).
    pose proof (proj1 (proj2 (run_calls t t1 N P I')) l st st' H R) as Q. rewrite !Z in Q. destruct (existsb _ _); lia.
Qed.

(** * Everything reached is visited *)
Definition finished (st : state) (t : nat) : Prop :=
  (parameter (types t) = None -> forall t1, In t1 (heads (edges (types t) false false)) -> 0 < usages st t1) /\
  (forall d k t1, parameter (types t) = Some (Some d) -> hook d k t1 -> In k (visited st)).
Lemma finished_grows : forall st st' t, grows st st' -> finished st t -> finished st' t.
Proof.
  intros st st' t [_ [_ [U [ks V]]]] [A B]. split.
  - intros P t1 I'. specialize (A P t1 I'). specialize (U t1). lia.
  - intros d k t1 P Hk. rewrite V. apply in_app_iff. right. eapply B; eauto.
Qed.
Lemma run_finished :
  (forall i st st', step i st st' -> remaining st' <> 0 -> 0 < usages st' (fst (fst i)) /\ forall t, 0 < usages st' t -> 0 < usages st t \/ finished st' t) /\
  (forall l st st', steps l st st' -> remaining st' <> 0 -> (forall i, In i l -> 0 < usages st' (fst (fst i))) /\ forall t, 0 < usages st' t -> 0 < usages st t \/ finished st' t) /\
  (forall d l st st', hsteps d l st st' -> remaining st' <> 0 -> (forall k t, In (k, t) l -> In k (visited st')) /\ forall t, 0 < usages st' t -> 0 < usages st t \/ finished st' t).
Proof.
  apply run_ind.
  - intros i st Z R. contradiction.
  - intros t a r st _ B _. cbn [fst]. split; [rewrite use_usages, Nat.eqb_refl; lia|]. intros x. rewrite use_usages. destruct (x =? t) eqn:E; [apply Nat.eqb_eq in E; subst x; lia|auto].
  - intros t a r st _ B P _. cbn [fst]. split; [rewrite use_usages, Nat.eqb_refl; lia|]. intros x. rewrite use_usages. destruct (x =? t) eqn:E; [|auto]. apply Nat.eqb_eq in E. subst x. right. split; intros; congruence.
  - intros t a r st d st' _ B P Hh IH R. cbn [fst]. destruct (IH R) as [V Fi]. pose proof (proj2 (proj2 run_grows) _ _ _ _ Hh) as [_ [_ [U _]]]. destruct (increment_usages (symbol d) a (use t st)) as [EU _]. rewrite EU in U, Fi.
    split; [specialize (U t); rewrite use_usages, Nat.eqb_refl in U; lia|]. intros x Hx. destruct (Fi x Hx) as [Q|Q]; [|auto]. rewrite use_usages in Q. destruct (x =? t) eqn:E; [|auto]. apply Nat.eqb_eq in E. subst x. right.
    split; [congruence|]. intros d' k t1 P' Hk. assert (d' = d) as -> by congruence. apply hooks_in in Hk. eapply V; eauto.
  - intros t a r st st' _ B P Hh IH R. cbn [fst]. destruct (IH R) as [V Fi]. pose proof (proj1 (proj2 run_grows) _ _ _ Hh) as [_ [_ [U _]]].
    split; [specialize (U t); rewrite use_usages, Nat.eqb_refl in U; lia|]. intros x Hx. destruct (Fi x Hx) as [Q|Q]; [|auto]. rewrite use_usages in Q. destruct (x =? t) eqn:E; [|auto]. apply Nat.eqb_eq in E. subst x. right.
    split; [|intros; congruence]. intros _ t1 I'. rewrite (heads_edges from_class (types t) false false a r) in I'. apply heads_in in I' as [a' [r' I']]. exact (V _ I').
  - intros st _. split; [intros i []|auto].
  - intros i l st st1 st2 H1 IH1 H2 IH2 R. pose proof (proj1 (proj2 run_grows) _ _ _ H2) as G2. assert (remaining st1 <> 0) as R1 by (destruct G2 as [_ [Q _]]; lia). destruct (IH1 R1) as [A1 B1]. destruct (IH2 R) as [A2 B2]. split.
    + intros j [<-|J]; [|now apply A2]. destruct G2 as [_ [_ [U _]]]. specialize (U (fst (fst i))). lia.
    + intros t Ht. destruct (B2 t Ht) as [Q|Q]; [|auto]. destruct (B1 t Q) as [Q'|Q']; [auto|]. right. exact (finished_grows _ _ _ G2 Q').
  - intros d st _. split; [intros k t []|auto].
  - intros d k t l st st' I' Hh IH R. destruct (IH R) as [A B]. split; [|exact B]. intros k' t' [E|J]; [|eapply A; eauto]. injection E as <- <-. destruct (proj2 (proj2 run_grows) _ _ _ _ Hh) as [_ [_ [_ [ks ->]]]]. apply in_app_iff. now right.
  - intros d k t l st st1 st2 _ _ H1 IH1 H2 IH2 R. pose proof (proj2 (proj2 run_grows) _ _ _ _ H2) as G2. assert (remaining st1 <> 0) as R1 by (destruct G2 as [_ [Q _]]; lia). destruct (IH1 R1) as [A1 B1]. destruct (IH2 R) as [A2 B2]. split.
    + intros k' t' [E|J]; [|eapply A2; eauto]. injection E as <- <-. destruct G2 as [_ [_ [_ [ks ->]]]]. destruct (proj1 run_grows _ _ _ H1) as [_ [_ [_ [ks' ->]]]]. apply in_app_iff. right. apply in_app_iff. right. now left.
    + intros x Hx. destruct (B2 x Hx) as [Q|Q]; [|auto]. destruct (B1 x Q) as [Q'|Q']; [auto|]. right. exact (finished_grows _ _ _ G2 Q').
Qed.
Lemma run_keys : forall R,
  (forall i st st', step i st st' -> reached R (fst (fst i)) -> remaining st' <> 0 -> forall k, In k (visited st') -> In k (visited st) \/ exists t, hooked R k t /\ 0 < usages st' t) /\
  (forall l st st', steps l st st' -> (forall i, In i l -> reached R (fst (fst i))) -> remaining st' <> 0 -> forall k, In k (visited st') -> In k (visited st) \/ exists t, hooked R k t /\ 0 < usages st' t) /\
  (forall d l st st', hsteps d l st st' -> (forall k t, hook d k t -> hooked R k t /\ reached R t) -> remaining st' <> 0 -> forall k, In k (visited st') -> In k (visited st) \/ exists t, hooked R k t /\ 0 < usages st' t).
Proof.
  intros R. apply run_ind.
  - auto.
  - auto.
  - auto.
  - intros t a r st d st' _ _ P Hh IH Re Rm k K. cbn [fst] in Re. destruct (IH) with (k := k) as [Q|Q]; auto.
    + intros k' t' Hk. split; [exists t, d; auto|]. exact (RHook _ _ _ _ _ _ _ Re P Hk).
    + left. now rewrite (proj2 (increment_usages (symbol d) a (use t st))) in Q.
  - intros t a r st st' _ _ P Hh IH Re Rm k K. cbn [fst] in Re. destruct (IH) with (k := k) as [Q|Q]; auto.
    intros [[t' a'] r'] I'. cbn [fst]. eapply RUse; eauto. now apply uses_eq.
  - auto.
  - intros i l st st1 st2 H1 IH1 H2 IH2 Re Rm k K. pose proof (proj1 (proj2 run_grows) _ _ _ H2) as G2. assert (remaining st1 <> 0) as R1 by (destruct G2 as [_ [Q _]]; lia).
    destruct (IH2 (fun j J => Re j (or_intror J)) Rm k K) as [Q|Q]; [|auto]. destruct (IH1 (Re i (or_introl eq_refl)) R1 k Q) as [Q'|[t [Ht U]]]; [auto|]. right. exists t. split; [exact Ht|]. destruct G2 as [_ [_ [G2 _]]]. specialize (G2 t). lia.
  - auto.
  - auto.
  - intros d k t l st st1 st2 Hk N H1 IH1 H2 IH2 Re Rm k' K. pose proof (proj2 (proj2 run_grows) _ _ _ _ H2) as G2. assert (remaining st1 <> 0) as R1 by (destruct G2 as [_ [Q _]]; lia).
    destruct (Re k t Hk) as [Hd Ht]. destruct G2 as [_ [_ [G2 _]]]. destruct (IH2 Re Rm k' K) as [Q|Q]; [|auto]. destruct (IH1 Ht R1 k' Q) as [[<-|Q']|[t' [Ht' U]]]; [|auto|].
    + right. exists t. split; [exact Hd|]. pose proof (proj1 (proj1 run_finished _ _ _ H1 R1)) as U. cbn [fst plain] in U. specialize (G2 t). lia.
    + right. exists t'. split; [exact Ht'|]. specialize (G2 t'). lia.
Qed.
Lemma steps_reached : forall R st st', coherent types from_class R -> steps R st st' -> remaining st' <> 0 -> (forall t, usages st t = 0) -> visited st = [] -> forall t, reached R t -> 0 < usages st' t.
Proof.
  intros R st st' Co H Rm Z V t Re. destruct (proj1 (proj2 run_finished) _ _ _ H Rm) as [A B]. assert (forall t, 0 < usages st' t -> finished st' t) as Fi by (intros x Hx; destruct (B x Hx) as [Q|Q]; [rewrite Z in Q; lia|exact Q]).
  induction Re as [t a r I'|t a r u t' a' r' Re IH P U I'|t d k t' Re IH P Hk].
  - exact (A _ I').
  - apply (proj1 (Fi t IH) P). apply uses_eq in U. subst u. rewrite (heads_edges from_class (types t) false false a r). eapply in_heads; eauto.
  - pose proof (proj2 (Fi t IH) d k t' P Hk) as K. destruct (proj1 (proj2 (run_keys R)) _ _ _ H) with (k := k) as [Q|[t2 [Hd U]]]; auto.
    + intros [[x a] r] I'. cbn [fst]. eapply RRoot; eauto.
    + rewrite V in Q. destruct Q.
    + assert (t' = t2) as ->; [|exact U]. apply (Co k); [exists t, d; auto|exact Hd].
Qed.
Lemma steps_hooked : forall R st st', coherent types from_class R -> steps R st st' -> remaining st' <> 0 -> (forall t, usages st t = 0) -> visited st = [] -> forall k t, hooked R k t -> In k (visited st').
Proof.
  intros R st st' Co H Rm Z V k t [t0 [d [Re [P Hk]]]]. destruct (proj1 (proj2 run_finished) _ _ _ H Rm) as [A B].
  pose proof (steps_reached R st st' Co H Rm Z V t0 Re) as U. destruct (B t0 U) as [Q|Q]; [rewrite Z in Q; lia|]. exact (proj2 Q d k t P Hk).
Qed.

(** * Every use is counted, up to two *)
Definition sum (g : key -> nat) (ks : list key) : nat := fold_right (fun k n => g k + n) 0 ks.
Lemma sum_app : forall g a c, sum g (a ++ c) = sum g a + sum g c.
Proof. intros g a c. unfold sum. induction a as [|k a IH]; cbn; lia. Qed.
Definition unblocked (s : nat) (st : state) : Prop := found st s <= 2 /\ forall t, contains s t -> usages st t <= 2.
Lemma unblocked_grows : forall s st st', grows st st' -> unblocked s st' -> unblocked s st.
Proof. intros s st st' [F [_ [U _]]] [A B]. split; [specialize (F s); lia|]. intros t C. specialize (B t C). specialize (U t). lia. Qed.
Lemma run_complete : forall s R g, In s targets -> (forall k t, hooked R k t -> uses_of s [plain t] (g k)) ->
  (forall i st st', step i st st' -> reached R (fst (fst i)) -> good st -> unblocked s st' -> exists ks, visited st' = ks ++ visited st /\ forall m, uses_of s [i] m -> found st s + m + sum g ks <= found st' s) /\
  (forall l st st', steps l st st' -> (forall i, In i l -> reached R (fst (fst i))) -> good st -> unblocked s st' -> exists ks, visited st' = ks ++ visited st /\ forall m, uses_of s l m -> found st s + m + sum g ks <= found st' s) /\
  (forall d l st st', hsteps d l st st' -> (forall k t, hook d k t -> hooked R k t /\ reached R t) -> good st -> unblocked s st' -> exists ks, visited st' = ks ++ visited st /\ found st s + sum g ks <= found st' s).
Proof.
  intros s R g T Hg. apply run_ind.
  - intros i st Z _ G [F _]. exfalso. exact (good_remaining s st G T F Z).
  - intros t a r st _ B _ G [F U]. exists []. split; [reflexivity|]. intros [|m] Hm; [cbn; lia|]. exfalso. assert (contains s t) as C by (exists a, r, m; exact Hm). specialize (U t C). rewrite use_usages, Nat.eqb_refl in U. lia.
  - intros t a r st _ B P _ G [F U]. exists []. split; [reflexivity|]. intros m Hm. apply uses_of_one in Hm as [->|[[d [P' _]]|[P' _]]]; [cbn; lia|congruence|congruence].
  - intros t a r st d st' Rm B P Hh IH Re G U. cbn [fst] in Re. destruct IH as [ks [V F]]; [|now apply good_increment|exact U|].
    { intros k t' Hk. split; [exists t, d; auto|]. exact (RHook _ _ _ _ _ _ _ Re P Hk). }
    exists ks. split; [now rewrite (proj2 (increment_usages (symbol d) a (use t st))) in V|]. intros m Hm. pose proof (unblocked_grows _ _ _ (proj2 (proj2 run_grows) _ _ _ _ Hh) U) as [F1 _].
    pose proof (proj1 (grows_increment (symbol d) a (use t st)) s) as F2. change (found (use t st) s) with (found st s) in F2. apply uses_of_one in Hm as [->|[[d' [P' [S' ->]]]|[P' _]]]; [lia| |congruence].
    assert (d' = d) as -> by congruence. subst s. rewrite increment_exact in F; auto; change (found (use t st) (symbol d)) with (found st (symbol d)) in *; lia.
  - intros t a r st st' Rm B P Hh IH Re G U. cbn [fst] in Re. destruct IH as [ks [V F]]; auto.
    { intros [[t' a'] r'] I'. cbn [fst]. eapply RUse; eauto. now apply uses_eq. }
    exists ks. split; [exact V|]. intros m Hm. apply uses_of_one in Hm as [->|[[d' [P' _]]|[_ Hm]]]; [|congruence|].
    + specialize (F 0 (UNone _ _ _ _)). change (found (use t st) s) with (found st s) in F. exact F.
    + exact (F m Hm).
  - intros st _ G U. exists []. split; [reflexivity|]. intros m Hm. assert (m = 0) as -> by (inversion Hm; reflexivity). cbn. lia.
  - intros i l st st1 st2 H1 IH1 H2 IH2 Re G U. pose proof (proj1 (proj2 run_grows) _ _ _ H2) as G2. destruct IH1 as [k1 [V1 F1]]; auto; [apply Re; now left|exact (unblocked_grows _ _ _ G2 U)|].
    destruct IH2 as [k2 [V2 F2]]; auto; [intros j J; apply Re; now right|exact (proj1 run_good _ _ _ H1 G)|]. exists (k2 ++ k1). split; [rewrite V2, V1; now rewrite app_assoc|].
    intros m Hm. apply uses_of_cons in Hm as [m1 [m2 [M1 [M2 ->]]]]. specialize (F1 m1 M1). specialize (F2 m2 M2). rewrite sum_app. lia.
  - intros d st _ G U. exists []. split; [reflexivity|]. cbn. lia.
  - intros d k t l st st' _ _ IH Re G U. now apply IH.
  - intros d k t l st st1 st2 Hk N H1 IH1 H2 IH2 Re G U. pose proof (proj2 (proj2 run_grows) _ _ _ _ H2) as G2. destruct (Re k t Hk) as [Hd Ht].
    destruct IH1 as [k1 [V1 F1]]; auto; [exact (unblocked_grows _ _ _ G2 U)|]. destruct IH2 as [k2 [V2 F2]]; auto; [exact (proj1 run_good _ _ _ H1 G)|].
    exists (k2 ++ k1 ++ [k]). split; [rewrite V2, V1; cbn [visited mark]; rewrite <- !app_assoc; reflexivity|]. specialize (F1 (g k) (Hg k t Hd)). change (found (mark k st) s) with (found st s) in F1. rewrite !sum_app. cbn [sum fold_right]. lia.
Qed.
Lemma hook_function : forall s R ks h, coherent types from_class R -> hook_uses s R ks h -> exists g, (forall k t, hooked R k t -> uses_of s [plain t] (g k)) /\ sum g ks = h /\ (forall k, ~ In k ks -> g k = 0).
Proof.
  intros s R ks h Co H. induction H as [|k ks t m n N K U H [g [A [B C]]]].
  - exists (fun _ => 0). repeat split; auto. intros k t _. constructor.
  - exists (fun k' => if key_eqb k k' then m else g k'). split; [|split].
    + intros k' t' Hk. destruct (key_eqb k k') eqn:E; [|now apply A]. apply key_eqb_eq in E. subst k'. assert (t' = t) as -> by exact (Co k t' t Hk K). exact U.
    + cbn [sum fold_right]. assert (key_eqb k k = true) as -> by now apply key_eqb_eq. f_equal. rewrite <- B. clear - N. induction ks as [|k' ks IH]; [reflexivity|]. cbn. assert (key_eqb k k' = false) as ->.
      { destruct (key_eqb k k') eqn:E; [|reflexivity]. apply key_eqb_eq in E. subst. exfalso. apply N. now left. }
      f_equal. apply IH. intros I'. apply N. now right.
    + intros k' I'. destruct (key_eqb k k') eqn:E; [apply key_eqb_eq in E; subst; exfalso; apply I'; now left|]. apply C. intros J. apply I'. now right.
Qed.
Lemma hook_uses_nodup : forall s R ks h, hook_uses s R ks h -> NoDup ks /\ forall k, In k ks -> exists t, hooked R k t.
Proof.
  induction 1 as [|k ks t m n N K U H [A B]]; [split; [constructor|intros k []]|]. split; [now constructor|]. intros k' [<-|I']; eauto.
Qed.
Lemma sum_incl : forall g ks vs, NoDup ks -> incl ks vs -> sum g ks <= sum g vs.
Proof.
  intros g. induction ks as [|k ks IH]; intros vs N I'; [cbn; lia|]. inversion N as [|k' ks' N1 N2]; subst. assert (In k vs) as K by (apply I'; now left). apply in_split in K as [v1 [v2 ->]].
  rewrite sum_app. cbn [sum fold_right]. fold (sum g ks) (sum g v2). specialize (IH (v1 ++ v2) N2). rewrite sum_app in IH. enough (sum g ks <= sum g v1 + sum g v2) by lia. apply IH. intros x X. assert (In x (v1 ++ k :: v2)) as Y by (apply I'; now right).
  apply in_app_iff in Y as [Y|[<-|Y]]; [apply in_app_iff; now left|contradiction|apply in_app_iff; now right].
Qed.

(** * Nodes *)
Notation total := (total types from_class).
Notation collect := (collect types targets from_class).
Notation count := (count types targets from_class).
Lemma total_zero : forall s R, total s R 0.
Proof. intros s R. exists [], 0, 0. repeat split; constructor. Qed.
Lemma collect_sound : forall fuel R st st' s, collect fuel R st = Some st' -> exists n, total s R n /\ found st' s = found st s + n.
Proof.
  intros fuel R st st' s H. unfold TypeParameters.collect in H. apply visit_steps in H. destruct (proj1 (proj2 (run_sound s R)) _ _ _ H) as [ks [m [h [U [K [F _]]]]]].
  { intros [[t a] r] I'. cbn [fst]. eapply RRoot; eauto. }
  cbn [found] in F. exists (m + h). split; [exists ks, m, h; auto|lia].
Qed.
Lemma collect_good : forall fuel R st st', collect fuel R st = Some st' -> good st -> good st'.
Proof. intros fuel R st st' H G. apply visit_steps in H. exact (proj1 (proj2 run_good) _ _ _ H G). Qed.
Lemma collect_grows : forall fuel R st st' s, collect fuel R st = Some st' -> found st s <= found st' s.
Proof. intros fuel R st st' s H. apply visit_steps in H. exact (proj1 (proj1 (proj2 run_grows) _ _ _ H) s). Qed.
Lemma collect_complete : forall fuel R st st' s, coherent types from_class R -> good st -> collect fuel R st = Some st' -> In s targets -> found st' s <= 2 -> forall n, total s R n -> found st s + n <= found st' s.
Proof.
  intros fuel R st st' s Co G H T F n [ks [m [h [U [K ->]]]]]. pose proof (collect_good _ _ _ _ H G) as G'. apply visit_steps in H. pose proof (good_remaining s st' G' T F) as Rm.
  destruct (hook_function s R ks h Co K) as [g [A [B _]]]. destruct (hook_uses_nodup _ _ _ _ K) as [N1 N2].
  destruct (proj1 (proj2 (run_complete s R g T A)) _ _ _ H) as [vs [V Fi]].
  - intros [[t a] r] I'. cbn [fst]. eapply RRoot; eauto.
  - exact G.
  - split; [exact F|]. apply (steps_bounded s _ _ _ T H); auto.
  - cbn [visited] in V. rewrite app_nil_r in V. specialize (Fi m U). cbn [found] in Fi. assert (sum g ks <= sum g vs) as S'; [|lia]. apply sum_incl; [exact N1|]. intros k I'. rewrite <- V. destruct (N2 k I') as [t Ht].
    apply (steps_hooked R _ _ Co H Rm) with (t := t); auto.
Qed.
Lemma totals_zero : forall s gs, totals types from_class s gs 0.
Proof. intros s. induction gs as [|g gs IH]; [constructor|]. change 0 with (0 + 0). constructor; [apply total_zero|exact IH]. Qed.
Lemma count_spec : forall s, In s targets -> forall fuel gs st st', count fuel gs st = Some st' -> good st ->
  (exists n, totals types from_class s gs n /\ found st' s = found st s + n) /\ good st' /\
  ((forall g, In g gs -> coherent types from_class g) -> found st' s <= 2 -> forall n, totals types from_class s gs n -> found st s + n <= found st' s).
Proof.
  intros s T fuel. induction gs as [|g gs IH]; intros st st' H G; cbn [TypeParameters.count] in H.
  - injection H as <-. split; [exists 0; split; [constructor|lia]|]. split; [exact G|]. intros _ _ n Hn. inversion Hn. lia.
  - destruct (remaining st =? 0) eqn:R.
    + injection H as <-. split; [exists 0; split; [apply totals_zero|lia]|]. split; [exact G|]. intros _ F. exfalso. apply Nat.eqb_eq in R. exact (good_remaining s st G T F R).
    + destruct (collect fuel g st) as [st1|] eqn:C; [|discriminate]. pose proof (collect_good _ _ _ _ C G) as G1. destruct (IH st1 st' H G1) as [[n [Hn F]] [G' Co]]. destruct (collect_sound _ _ _ _ s C) as [m [Hm F1]].
      split; [exists (m + n); split; [now constructor|lia]|]. split; [exact G'|]. intros Cg F2 k Hk. inversion Hk as [|g' gs' m' n' Hm' Hn']; subst. assert (found st1 s <= 2) as F3 by lia.
      pose proof (collect_complete _ _ _ _ s (Cg g (or_introl eq_refl)) G C T F3 m' Hm') as Q1. specialize (Co (fun x X => Cg x (or_intror X)) F2 n' Hn'). lia.
Qed.
Lemma start_good : good (start targets).
Proof. unfold good, start. cbn. assert (forall l : list nat, filter (fun _ => true) l = l) as E by (induction l as [|x l IH]; cbn; congruence). now rewrite E. Qed.

(** * Fuel *)
Definition weight (l : list nat) (st : state) : nat := fold_right (fun t n => (9 - usages st t) + n) 0 l.
Lemma weight_grows : forall l st st', grows st st' -> weight l st' <= weight l st.
Proof. intros l st st' [_ [_ [U _]]]. induction l as [|t l IH]; cbn [weight fold_right]; [lia|]. specialize (U t). fold (weight l st) (weight l st'). lia. Qed.
Lemma weight_use : forall l t st, In t l -> usages st t < 9 -> weight l (use t st) < weight l st.
Proof.
  intros l t st I' U. apply in_split in I' as [l1 [l2 ->]]. assert (forall l l' st, weight (l ++ l') st = weight l st + weight l' st) as A by (clear; induction l as [|x l IH]; intros l' st; [reflexivity|]; cbn [app weight fold_right]; fold (weight (l ++ l') st) (weight l st); rewrite IH; lia).
  rewrite !A. pose proof (weight_grows l1 _ _ (grows_use t st)). pose proof (weight_grows l2 _ _ (grows_use t st)). cbn [weight fold_right]. fold (weight l2 st) (weight l2 (use t st)). rewrite use_usages, Nat.eqb_refl. lia.
Qed.
Lemma visit_total : forall l, closed types from_class l -> forall fuel i st, In (fst (fst i)) l -> weight l st < fuel -> exists st', visit fuel i st = Some st'.
Proof.
  intros l [_ [C1 C2]]. induction fuel as [|fuel IH]; intros [[t a] r] st I' W; [lia|]. cbn [fst] in I'. cbn [TypeParameters.visit]. destruct (remaining st =? 0); [eauto|]. cbv zeta. rewrite use_usages, Nat.eqb_refl. destruct (9 <? S (usages st t)) eqn:B; [eauto|].
  apply Nat.ltb_ge in B. assert (weight l (use t st) < weight l st) as W1 by (apply weight_use; auto; lia). destruct (parameter (types t)) as [[d|]|] eqn:P.
  - assert (forall hs st0, incl hs (hooks d) -> weight l st0 < fuel -> exists st', visit_hooks (visit fuel) hs st0 = Some st') as L.
    { induction hs as [|[k t1] hs IHh]; intros st0 In0 W0; cbn [visit_hooks]; [eauto|]. assert (incl hs (hooks d)) as In1 by (intros x X; apply In0; now right). destruct (existsb _ _); [now apply IHh|].
      destruct (IH (plain t1) (mark k st0)) as [st1 E].
      - cbn [fst plain]. apply (C2 t d k t1 I' P). apply hooks_in, In0. now left.
      - exact W0.
      - rewrite E. apply IHh; [exact In1|]. apply visit_step in E. pose proof (weight_grows l _ _ (proj1 run_grows _ _ _ E)). change (weight l (mark k st0)) with (weight l st0) in H. lia. }
    apply L; [apply incl_refl|]. pose proof (weight_grows l _ _ (grows_increment (symbol d) a (use t st))). lia.
  - eauto.
  - assert (forall is st0, incl is (edges (types t) a r) -> weight l st0 < fuel -> exists st', visit_list (visit fuel) is st0 = Some st') as L.
    { induction is as [|[[t1 a1] r1] is IHi]; intros st0 In0 W0; cbn [visit_list]; [eauto|]. assert (incl is (edges (types t) a r)) as In1 by (intros x X; apply In0; now right).
      destruct (IH (t1, a1, r1) st0) as [st1 E].
      - cbn [fst]. apply (C1 t a r (edges (types t) a r) t1 a1 r1 I' P); [now apply uses_eq|]. apply In0. now left.
      - exact W0.
      - rewrite E. apply IHi; [exact In1|]. apply visit_step in E. pose proof (weight_grows l _ _ (proj1 run_grows _ _ _ E)). lia. }
    apply L; [apply incl_refl|lia].
Qed.
Lemma weight_bound : forall l st, weight l st <= 9 * length l.
Proof. intros l st. induction l as [|t l IH]; cbn [weight fold_right length]; [lia|]. fold (weight l st). lia. Qed.
Lemma collect_total : forall l, closed types from_class l -> forall fuel R st, (forall t a r, In (t, a, r) R -> In t l) -> 9 * length l < fuel -> exists st', collect fuel R st = Some st'.
Proof.
  intros l C fuel R st I' W. unfold TypeParameters.collect. set (st0 := {| found := found st; remaining := remaining st; usages := fun _ => 0; visited := [] |}). clearbody st0. revert st0. induction R as [|[[t a] r] R IH]; intros st0; cbn [visit_list]; [eauto|].
  destruct (visit_total l C fuel (t, a, r) st0) as [st1 E].
  - cbn [fst]. apply (I' t a r). now left.
  - pose proof (weight_bound l st0). lia.
  - rewrite E. apply IH. intros t' a' r' J. apply (I' t' a' r'). now right.
Qed.
Lemma count_total : forall l, closed types from_class l -> forall fuel gs st, (forall g t a r, In g gs -> In (t, a, r) g -> In t l) -> 9 * length l < fuel -> exists st', count fuel gs st = Some st'.
Proof.
  intros l C fuel gs. induction gs as [|g gs IH]; intros st I' W; cbn [TypeParameters.count]; [eauto|]. destruct (remaining st =? 0); [eauto|].
  destruct (collect_total l C fuel g st) as [st1 E]; [intros t a r J; apply (I' g t a r); [now left|exact J]|exact W|]. rewrite E. apply IH; [|exact W]. intros g' t a r J. apply I'. now right.
Qed.
End Walk.

Lemma counted_dec : forall p body r, (if (fst r <? snd p) && (fst p <? snd r) then false else if match body with Some x => x <? fst r | None => false end then false else true) = true <-> counted p body r.
Proof.
  intros p body r. unfold counted. destruct (Nat.ltb_spec (fst r) (snd p)) as [A|A], (Nat.ltb_spec (fst p) (snd r)) as [B|B]; cbn [andb].
  1: split; [discriminate|intros [[H|H] _]; lia].
  all: destruct body as [x|]; [destruct (Nat.ltb_spec x (fst r)) as [C|C]|]; (split; [intros H; first [discriminate H|split; [lia|intros y H'; first [discriminate H'|injection H' as <-; lia]]]|intros [_ H]; try reflexivity; specialize (H _ eq_refl); lia]).
Qed.
Lemma repeated_from_spec : forall p body references total, repeated_from total p references body = true <-> exists n, picks (counted p body) (S n) references /\ 2 <= total + S n.
Proof.
  intros p body. induction references as [|r l IH]; intros total; cbn [repeated_from].
  - split; [discriminate|intros [n [H _]]; inversion H].
  - pose proof (counted_dec p body r) as C. destruct ((fst r <? snd p) && (fst p <? snd r)).
    { rewrite IH. split; intros [n [H L]]; exists n; (split; [|exact L]); [now constructor|]. inversion H as [|n' x l' H'|n' x l' Cr H']; subst; [exact H'|]. apply C in Cr. discriminate. }
    destruct (match body with Some x => x <? fst r | None => false end).
    { rewrite IH. split; intros [n [H L]]; exists n; (split; [|exact L]); [now constructor|]. inversion H as [|n' x l' H'|n' x l' Cr H']; subst; [exact H'|]. apply C in Cr. discriminate. }
    assert (counted p body r) as Cr by now apply C. destruct (Nat.leb_spec 2 (S total)) as [T|T].
    + split; [|reflexivity]. intros _. exists 0. split; [apply PTake; [exact Cr|constructor]|lia].
    + rewrite IH. assert (total = 0) as -> by lia. split.
      * intros [n [H L]]. exists (S n). split; [now apply PTake|lia].
      * intros [n [H L]]. destruct n as [|n]; [lia|]. inversion H as [|n' x l' H'|n' x l' _ H']; subst; [exists (S n); split; [exact H'|lia]|exists n; split; [exact H'|lia]].
Qed.
