From Coq Require Import Bool List Arith Lia.
From Verif Require Import UnnecessaryQualifier UnnecessaryQualifierSpec.
Import ListNotations.

Lemma node_rec' (P : node -> Prop) :
  (forall d l, Forall P l -> P (Enum d l)) -> (forall d l, Forall P l -> P (Module_ d l)) -> (forall o l, Forall P l -> P (Block o l)) ->
  (forall a l, Forall P l -> P (Access a l)) -> (forall l, Forall P l -> P (Other l)) -> forall n, P n.
Proof.
  intros A1 A2 A3 A4 A5. fix IH 1.
  assert (L : forall l, Forall P l) by (fix IL 1; intros [|x l]; constructor; [apply IH | apply IL]).
  intros [d l|d l|o l|a l|l]; [apply A1 | apply A2 | apply A3 | apply A4 | apply A5]; clear A1 A2 A3 A4 A5;
    (revert l; fix IL 1; intros [|x l]; constructor; [apply IH | apply IL]).
Qed.

Lemma entity_dotted e : entity_name e = true <-> dotted e.
Proof.
  induction e; cbn [entity_name].
  - split; [constructor | auto].
  - rewrite IHe. split; [now constructor | now inversion 1].
  - split; [discriminate | inversion 1].
Qed.

Section P.
Context (p : program).

Lemma exists_mem ds ns : existsb (fun d => existsb (Nat.eqb d) ns) ds = true <-> exists d, In d ds /\ In d ns.
Proof.
  rewrite existsb_exists. split.
  - intros [d [A B]]. apply existsb_exists in B as [e [B C]]. apply Nat.eqb_eq in C as <-. eauto.
  - intros [d [A B]]. exists d. split; auto. apply existsb_exists. exists d. split; auto. apply Nat.eqb_refl.
Qed.

Lemma in_scope_ok fuel : forall ns s, ends p fuel s -> (in_scope p fuel ns s = Some true <-> exists d, In d ns /\ denotes p s d).
Proof.
  induction fuel as [|fuel IH]; intros ns s E; [inversion E|]. cbn [in_scope].
  destruct (existsb _ _) eqn:X.
  - apply exists_mem in X as [d [X Y]]. split; auto. intros _. exists d. split; auto. now constructor.
  - assert (N : ~ exists d, In d (declarations p s) /\ In d ns) by (intros Q; apply exists_mem in Q; congruence).
    inversion E; subst.
    + rewrite H0. split; [discriminate|]. intros [d [A B]]. exfalso. inversion B; subst; [apply N; eauto | congruence].
    + rewrite H0. rewrite IH by auto. split; intros [d [A B]]; exists d; split; auto.
      * eapply DAlias; eauto.
      * inversion B; subst; [exfalso; apply N; eauto|]. rewrite H0 in H. injection H as ->. auto.
Qed.

Lemma lookup_ok n t s : lookup n t = Some s <-> in_table n s t.
Proof.
  induction t as [|[m s'] t IH]; cbn [lookup].
  - split; [discriminate | inversion 1].
  - destruct (Nat.eqb_spec m n) as [->|N].
    + split; [intros [= ->]; constructor | inversion 1; subst; congruence].
    + rewrite IH. split; [now constructor | inversion 1; subst; congruence].
Qed.

Lemma symbol_in_scope_ok fs n ts : forall s, symbol_in_scope p fs n ts = Some s <-> means p (fun f => In f fs) n ts s.
Proof.
  induction ts as [|t ts IH]; intros s; cbn [symbol_in_scope].
  - split; [discriminate | inversion 1].
  - destruct (lookup n t) as [s0|] eqn:L.
    + apply lookup_ok in L as L'. destruct (existsb _ _) eqn:X.
      * apply exists_mem in X as [f [X Y]]. split.
        -- intros [= <-]. eapply MHere; eauto.
        -- inversion 1; subst.
           ++ apply lookup_ok in H2. congruence.
           ++ exfalso. eapply H2; eauto.
      * assert (N : ~ exists d, In d (flags p s0) /\ In d fs) by (intros Q; apply exists_mem in Q; congruence).
        rewrite IH. split.
        -- intros M. apply MOuter; auto. intros s' f A B C. apply lookup_ok in A. rewrite L in A. injection A as <-. eauto.
        -- inversion 1; subst; auto. apply lookup_ok in H2. rewrite L in H2. injection H2 as <-. exfalso; eauto.
    + rewrite IH. split.
      * intros M. apply MOuter; auto. intros s' f A. apply lookup_ok in A. congruence.
      * inversion 1; subst; auto. apply lookup_ok in H2. congruence.
Qed.

Definition looked_at (a : access) : bool := match qualifier a with Some e => entity_name e | None => true end.
Definition fails fuel ns a : bool := looked_at a && unnecessary p fuel ns a.

Lemma unnecessary_nil fuel a : (forall s, ends p fuel s) -> unnecessary p fuel [] a = false.
Proof.
  intros E. unfold unnecessary. destruct (qualifier_symbol a) as [q|]; auto. destruct (in_scope p fuel [] q) as [[|]|] eqn:S; auto.
  apply in_scope_ok in S as [d [[] _]]; auto.
Qed.

Lemma fails_ok fuel ns path a : (forall s, ends p fuel s) -> (forall d, In d ns <-> inside path d) -> (fails fuel ns a = true <-> dispensable p path a).
Proof.
  intros E I'. unfold fails, looked_at, dispensable. rewrite andb_true_iff.
  assert (X : match qualifier a with Some e => entity_name e | None => true end = true <-> (forall e, qualifier a = Some e -> dotted e)).
  { destruct (qualifier a) as [e|].
    - rewrite entity_dotted. split; [intros D e' [= <-]; auto | auto].
    - split; [discriminate | auto]. }
  rewrite X. clear X.
  assert (U : unnecessary p fuel ns a = true <-> exists q d s s', qualifier_symbol a = Some q /\ inside path d /\ denotes p q d /\ name_symbol a = Some s /\ means p (fun f => In f (flags p s)) (name a) (scopes a) s' /\ export_symbol p s' = s).
  { unfold unnecessary. destruct (qualifier_symbol a) as [q|].
    2:{ split; [discriminate | intros (q & d & s & s' & A & _); discriminate]. }
    split.
    - destruct (in_scope p fuel ns q) as [[|]|] eqn:S; try discriminate. apply in_scope_ok in S as [d [S1 S2]]; auto.
      destruct (name_symbol a) as [s|]; try discriminate. destruct (symbol_in_scope _ _ _ _) as [s'|] eqn:T; try discriminate.
      intros Q. apply Nat.eqb_eq in Q. apply symbol_in_scope_ok in T. exists q, d, s, s'. rewrite <- I'. auto 10.
    - intros (q' & d & s & s' & [= <-] & A & B & C & D & F). apply I' in A.
      assert (S : in_scope p fuel ns q = Some true) by (apply in_scope_ok; eauto). rewrite S, C.
      apply symbol_in_scope_ok in D. rewrite D. apply Nat.eqb_eq. auto. }
  rewrite U. tauto.
Qed.

Fixpoint collect fuel (ns : list nat) (n : node) : list nat :=
  match n with
  | Enum d l => flat_map (collect fuel (d :: ns)) l
  | Module_ _ l | Other l | Block None l => flat_map (collect fuel ns) l
  | Block (Some d) l => flat_map (collect fuel (d :: ns)) l
  | Access a l => if fails fuel ns a then [id a] else flat_map (collect fuel ns) l
  end.

Lemma walk_failed fuel n : forall st i, failed st = Some i -> ~ In i (accesses n) -> walk p fuel n st = st.
Proof.
  assert (LI : forall l, Forall (fun n => forall st i, failed st = Some i -> ~ In i (accesses n) -> walk p fuel n st = st) l ->
     forall st i, failed st = Some i -> ~ In i (flat_map accesses l) -> walk_list (walk p fuel) l st = st).
  { induction 1; intros st i A B; cbn [walk_list]; auto. cbn [flat_map] in B. rewrite in_app_iff in B. rewrite (H st i) by tauto. apply (IHForall st i); tauto. }
  induction n as [d l H|d l H|o l H|a l H|l H] using node_rec'; intros st i A B; cbn [walk accesses] in *.
  - rewrite (LI l H (enter d st) i) by auto. now destruct st.
  - eapply LI; eauto.
  - destruct o as [d|]; [|eapply LI; eauto]. rewrite (LI l H (enter d st) i) by auto. now destruct st.
  - unfold visit_access. assert (V : (if negb match qualifier a with Some e => entity_name e | None => true end then st else match failed st with Some _ => st | None =>
        match stack st with [] => st | _ => if unnecessary p fuel (stack st) a then {| stack := stack st; failed := Some (id a); reports := reports st ++ [id a] |} else st end end) = st).
    { destruct (negb _); auto. now rewrite A. }
    rewrite V. cbn [In] in B. rewrite (LI l H st i) by tauto. unfold reset. rewrite A.
    destruct (Nat.eqb_spec i (id a)); [exfalso; subst; tauto | auto].
  - eapply LI; eauto.
Qed.

Lemma walk_ok fuel n : (forall s, ends p fuel s) -> forall st, failed st = None -> NoDup (accesses n) ->
  walk p fuel n st = {| stack := stack st; failed := None; reports := reports st ++ collect fuel (stack st) n |}.
Proof.
  intros E.
  assert (ND : forall (l m : list nat), NoDup (l ++ m) -> NoDup l /\ NoDup m).
  { induction l; cbn [app]; intros m N; [split; [constructor|auto]|]. inversion N; subst. apply IHl in H2 as [A B]. split; auto. constructor; auto. intros Q; apply H1, in_or_app; auto. }
  assert (LI : forall l, Forall (fun n => forall st, failed st = None -> NoDup (accesses n) ->
      walk p fuel n st = {| stack := stack st; failed := None; reports := reports st ++ collect fuel (stack st) n |}) l ->
     forall st, failed st = None -> NoDup (flat_map accesses l) ->
      walk_list (walk p fuel) l st = {| stack := stack st; failed := None; reports := reports st ++ flat_map (collect fuel (stack st)) l |}).
  { induction 1; intros st A B; cbn [walk_list flat_map].
    - rewrite app_nil_r. destruct st; cbn in *; now subst.
    - cbn [flat_map] in B. apply ND in B as [B1 B2]. rewrite H by auto. rewrite IHForall by auto. cbn [stack reports]. now rewrite app_assoc. }
  induction n as [d l H|d l H|o l H|a l H|l H] using node_rec'; intros st A B; cbn [walk accesses collect] in *.
  - rewrite (LI l H) by auto. reflexivity.
  - now rewrite (LI l H) by auto.
  - destruct o as [d|]; rewrite (LI l H) by auto; reflexivity.
  - inversion B; subst. unfold visit_access, fails. fold (looked_at a). destruct (looked_at a); cbn [negb andb].
    2:{ rewrite (LI l H) by auto. reflexivity. }
    rewrite A. destruct (stack st) as [|d ns] eqn:S.
    + rewrite unnecessary_nil by auto. rewrite (LI l H) by auto. rewrite S. reflexivity.
    + destruct (unnecessary p fuel (d :: ns) a) eqn:U.
      * assert (W : forall st' , failed st' = Some (id a) -> walk_list (walk p fuel) l st' = st').
        { clear - H2. induction l as [|x l IH]; intros st' F; cbn [walk_list]; auto. cbn [flat_map] in H2. rewrite in_app_iff in H2.
          rewrite (walk_failed fuel x st' (id a)) by tauto. apply IH; tauto. }
        rewrite W by auto. unfold reset; cbn [failed stack reports]. rewrite Nat.eqb_refl. reflexivity.
      * rewrite (LI l H) by auto. rewrite S. reflexivity.
  - now rewrite (LI l H) by auto.
Qed.

Lemma on_top n path m : on n path m <-> (path = [] /\ m = n) \/ exists c path', In c (children n) /\ on c path' m /\ path = path' ++ [n].
Proof.
  split.
  - induction 1 as [|path m c O IH IC]; auto. right. destruct IH as [[-> ->]|(c' & path' & A & B & ->)].
    + exists c, []. repeat split; auto; constructor.
    + exists c', (m :: path'). repeat split; auto. econstructor; eauto.
  - intros [[-> ->]|(c & path' & A & B & ->)]; [constructor|].
    induction B as [|path' m c0 B IH IC].
    + apply (Child n [] n c); auto. constructor.
    + cbn [app]. econstructor; eauto.
Qed.

(** What is reported below [outer]. *)
Definition good (outer : list node) (i : nat) (n : node) : Prop :=
  exists path a l, on n path (Access a l) /\ id a = i /\ dispensable p (path ++ outer) a /\ (forall inner a' l' rest, path = inner ++ Access a' l' :: rest -> ~ dispensable p (rest ++ outer) a').

Lemma good_below outer i n : (forall a l, n <> Access a l) \/ (exists a l, n = Access a l /\ ~ dispensable p outer a) ->
  (good outer i n <-> exists c, In c (children n) /\ good (n :: outer) i c).
Proof.
  intros K. unfold good. split.
  - intros (path & a & l & O & <- & D & N). apply on_top in O as [[-> Q]|(c & path' & A & B & ->)].
    + exfalso. destruct K as [K|(a' & l' & -> & K)]; [now apply (K a l)|]. injection Q as <- <-. apply K. exact D.
    + exists c. split; auto. exists path', a, l. rewrite <- app_assoc in D. repeat split; auto; try apply D.
      intros inner a' l' rest ->. intros X. apply (N inner a' l' (rest ++ [n])); [now rewrite <- app_assoc|]. now rewrite <- app_assoc.
  - intros (c & A & path & a & l & O & <- & D & N). exists (path ++ [n]), a, l. split; [apply on_top; right; eauto|]. split; auto. rewrite <- app_assoc. split; auto.
    intros inner a' l' rest Q. destruct (exists_last (l := Access a' l' :: rest)) as (rest' & z & Z); [discriminate|].
    rewrite Z, app_assoc in Q. apply app_inj_tail in Q as [-> <-]. destruct rest' as [|y rest'].
    + cbn [app] in Z. injection Z as Z1 Z2. subst rest. cbn [app]. destruct K as [K|(a2 & l2 & -> & K)]; [exfalso; eapply K; eauto|]. now injection Z1 as <- <-.
    + cbn [app] in Z. injection Z as <- ->. rewrite <- app_assoc. cbn [app]. eapply N; eauto.
Qed.

Lemma collect_ok fuel n : (forall s, ends p fuel s) -> forall outer ns i, (forall d, In d ns <-> inside outer d) -> (In i (collect fuel ns n) <-> good outer i n).
Proof.
  intros E.
  assert (LI : forall l, Forall (fun n => forall outer ns i, (forall d, In d ns <-> inside outer d) -> (In i (collect fuel ns n) <-> good outer i n)) l ->
    forall outer ns i, (forall d, In d ns <-> inside outer d) -> (In i (flat_map (collect fuel ns) l) <-> exists c, In c l /\ good outer i c)).
  { intros l F outer ns i K. rewrite in_flat_map. rewrite Forall_forall in F. split; intros (c & A & B); exists c; (split; [auto|]); eapply F; eauto. }
  assert (SAME : forall outer ns n, (forall d, In d ns <-> inside outer d) -> (forall d path, ~ (exists l, n = Enum d l) -> ~ (exists l, n = Block (Some d) l) -> (inside (n :: path) d <-> inside path d))).
  { intros outer ns m _ d path A B. split; [inversion 1; subst; auto; exfalso; eauto | now constructor]. }
  assert (NEW : forall outer ns d l x, (forall d, In d ns <-> inside outer d) -> (In x (d :: ns) <-> inside (Enum d l :: outer) x) /\ (In x (d :: ns) <-> inside (Block (Some d) l :: outer) x)).
  { intros outer ns d l x K. cbn [In]. rewrite K. split; (split; [intros [->|Q]; constructor; auto | inversion 1; subst; auto]). }
  induction n as [d l H|d l H|o l H|a l H|l H] using node_rec'; intros outer ns i K; cbn [collect].
  - rewrite good_below by (left; discriminate). cbn [children]. apply (LI l H). intros x. now apply NEW.
  - rewrite good_below by (left; discriminate). cbn [children]. apply (LI l H). intros x. rewrite K. split; [now constructor | inversion 1; subst; auto].
  - rewrite good_below by (left; discriminate). cbn [children]. destruct o as [d|]; apply (LI l H); intros x; [now apply NEW|]. rewrite K. split; [now constructor | inversion 1; subst; auto].
  - destruct (fails fuel ns a) eqn:F.
    + apply (fails_ok fuel ns outer a E K) in F. cbn [In]. split.
      * intros [<-|[]]. exists [], a, l. split; [constructor|]. split; auto. split; auto. intros inner ? ? ? Q. destruct inner; discriminate.
      * intros (path & a' & l' & O & <- & D & N). apply on_top in O as [[-> Q]|(c & path' & A & B & ->)].
        -- injection Q as <- <-. auto.
        -- exfalso. apply (N path' a l []); auto.
    + assert (F' : ~ dispensable p outer a) by (intros Q; apply (fails_ok fuel ns outer a E K) in Q; congruence).
      rewrite good_below by (right; eauto). cbn [children]. apply (LI l H). intros x. rewrite K. split; [now constructor | inversion 1; subst; auto].
  - rewrite good_below by (left; discriminate). cbn [children]. apply (LI l H). intros x. rewrite K. split; [now constructor | inversion 1; subst; auto].
Qed.

Lemma lint_collect fuel n : (forall s, ends p fuel s) -> NoDup (accesses n) -> lint p fuel n = collect fuel [] n.
Proof. intros E N. unfold lint. rewrite walk_ok by auto. reflexivity. Qed.

Lemma lint_ok fuel n i : (forall s, ends p fuel s) -> NoDup (accesses n) -> (In i (lint p fuel n) <-> exists a, id a = i /\ outermost_dispensable p n a).
Proof.
  intros E N. rewrite lint_collect by auto. rewrite (collect_ok fuel n E [] []) by (intros d; split; [intros [] | inversion 1]).
  unfold good, outermost_dispensable. split.
  - intros (path & a & l & O & <- & D & X). rewrite app_nil_r in D. exists a. split; auto. exists path, l. split; auto. split; auto.
    intros inner a' l' rest Q. specialize (X inner a' l' rest Q). now rewrite app_nil_r in X.
  - intros (a & <- & path & l & O & D & X). exists path, a, l. rewrite app_nil_r. split; auto. split; auto. split; auto.
    intros inner a' l' rest Q. rewrite app_nil_r. eauto.
Qed.

Lemma some_app {A} (l l' m m' : list A) : some_of l m -> some_of l' m' -> some_of (l ++ l') (m ++ m').
Proof. induction 1; intros S'; cbn [app]; auto; [apply SSkip | apply STake]; auto. Qed.
Lemma some_none {A} (m : list A) : some_of [] m. Proof. induction m; constructor; auto. Qed.
Lemma collect_some fuel n : forall ns, some_of (collect fuel ns n) (accesses n).
Proof.
  assert (LI : forall l, Forall (fun n => forall ns, some_of (collect fuel ns n) (accesses n)) l -> forall ns, some_of (flat_map (collect fuel ns) l) (flat_map accesses l)).
  { induction 1; intros ns; cbn [flat_map]; [constructor|]. apply some_app; auto. }
  induction n as [d l H|d l H|o l H|a l H|l H] using node_rec'; intros ns; cbn [collect accesses]; auto.
  - destruct o; auto.
  - destruct (fails _ _ _); [apply STake, some_none | apply SSkip; auto].
Qed.

Lemma same_meaning n ts s s' : (forall x, incl (flags p (export_symbol p x)) (flags p x)) -> export_symbol p s' = s ->
  means p (fun f => In f (flags p s)) n ts s' -> forall f, In f (flags p s) -> means p (eq f) n ts s'.
Proof.
  intros I' Q M f F. induction M.
  - apply (MHere p (eq f) n t ts s0 f); auto. apply I'. now rewrite Q.
  - apply MOuter; auto. intros x g A B <-. eapply H; eauto.
Qed.
End P.
