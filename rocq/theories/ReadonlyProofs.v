(** Proofs for C56: the visit computes the writes of each class (Readonly.v, ReadonlySpec.v). *)
From Coq Require Import String Ascii Bool List ZArith Lia.
From Verif Require Import Base EngineProofs Readonly ReadonlySpec.
Import ListNotations.
Open Scope Z_scope.

(** ** Trees *)
Section Trees.
Variable P : node -> Prop.
Hypothesis H : forall k cs, Forall P cs -> P (Node k cs).
Fixpoint node_all (n : node) : P n :=
  match n with
  | Node k cs => H k cs ((fix go (l : list node) : Forall P l := match l with [] => Forall_nil P | x :: l => Forall_cons x (node_all x) (go l) end) cs)
  end.
End Trees.
Section Tys.
Variable P : ty -> Prop.
Hypothesis HI : forall l, Forall P l -> P (Inter l).
Hypothesis HU : forall l, Forall P l -> P (Union l).
Hypothesis HL : forall id, P (Leaf id).
Fixpoint ty_all (t : ty) : P t :=
  match t with
  | Inter l => HI l ((fix go (l : list ty) : Forall P l := match l with [] => Forall_nil P | x :: l => Forall_cons x (ty_all x) (go l) end) l)
  | Union l => HU l ((fix go (l : list ty) : Forall P l := match l with [] => Forall_nil P | x :: l => Forall_cons x (ty_all x) (go l) end) l)
  | Leaf id => HL id
  end.
End Tys.

(** A list from the children, each with its place. *)
Fixpoint over {A} (f : path -> node -> list A) (k : kind) (p : path) (i : nat) (l : list node) : list A :=
  match l with [] => [] | c :: l => f ((k, i) :: p) c ++ over f k p (S i) l end.
Lemma classes_eq p k cs : classes p (Node k cs) = (match k with Class => [(p, cs)] | _ => [] end) ++ over classes k p 0 cs.
Proof.
  cbn [classes]. f_equal. generalize 0%nat. induction cs as [|c cs IH]; intros i; cbn [over]; [reflexivity|]. f_equal. apply IH.
Qed.
Lemma over_in {A} (f : path -> node -> list A) k p i l x :
  In x (over f k p i l) <-> exists j c, nth_error l j = Some c /\ In x (f ((k, (i + j)%nat) :: p) c).
Proof.
  revert i. induction l as [|c l IH]; intros i; cbn [over].
  - split; [easy|]. intros (j & c & E & _). now destruct j.
  - rewrite in_app_iff, IH. split.
    + intros [I | (j & d & E & I)].
      * exists 0%nat, c. rewrite Nat.add_0_r. now split.
      * exists (S j), d. rewrite <- plus_n_Sm. now split.
    + intros ([|j] & d & E & I).
      * left. injection E as <-. now rewrite Nat.add_0_r in I.
      * right. exists j, d. rewrite <- plus_n_Sm in I. now split.
Qed.

(** ** Events *)
Inductive event := EAccess (name : bstr) (p : path) | EConstructor (ps : list decl).
Definition event_of (p : path) (k : kind) : list event :=
  match k with Access n => [EAccess n p] | Constructor ps => [EConstructor ps] | _ => [] end.
Fixpoint events (p : path) (n : node) : list event :=
  let 'Node k cs := n in
  match k with
  | Class => []
  | _ => event_of p k ++ (fix all (i : nat) (l : list node) : list event := match l with [] => [] | c :: l => events ((k, i) :: p) c ++ all (S i) l end) 0%nat cs
  end.
Lemma events_eq p k cs : k <> Class -> events p (Node k cs) = event_of p k ++ over events k p 0 cs.
Proof.
  intros N. assert (E : forall i l, (fix all (i : nat) (l : list node) : list event := match l with [] => [] | c :: l => events ((k, i) :: p) c ++ all (S i) l end) i l = over events k p i l).
  { intros i l. revert i. induction l as [|c l IH]; intros i; cbn [over]; [reflexivity|]. f_equal. apply IH. }
  cbn [events]. rewrite <- E. destruct k; try reflexivity. now elim N.
Qed.
(** The depth of the constructor at a place. *)
Fixpoint depth (p : path) : Z :=
  match p with
  | [] => -1
  | (Class, _) :: _ => -1
  | (Constructor _, _) :: _ => 0
  | (Function, _) :: p => if depth p =? -1 then -1 else depth p + 1
  | _ :: p => depth p
  end.
Lemma depth_ge p : -1 <= depth p.
Proof. induction p as [|[k i] p IH]; [cbn; lia|]. destruct k; cbn [depth]; try lia. destruct (Z.eqb_spec (depth p) (-1)); lia. Qed.

Fixpoint fine (p : path) (n : node) : Prop :=
  let 'Node k cs := n in
  (match k with Constructor _ => exists i q, p = (Class, i) :: q | _ => True end) /\
  (fix all (i : nat) (l : list node) : Prop := match l with [] => True | c :: l => fine ((k, i) :: p) c /\ all (S i) l end) 0%nat cs.
Fixpoint fine_from (k : kind) (p : path) (i : nat) (l : list node) : Prop :=
  match l with [] => True | c :: l => fine ((k, i) :: p) c /\ fine_from k p (S i) l end.
Lemma fine_eq p k cs : fine p (Node k cs) = ((match k with Constructor _ => exists i q, p = (Class, i) :: q | _ => True end) /\ fine_from k p 0 cs).
Proof. cbn [fine]. f_equal. generalize 0%nat. induction cs as [|c cs IH]; intros i; cbn [fine_from]; [reflexivity|]. now rewrite <- IH. Qed.
Lemma formed_fine root : formed root -> fine [] root.
Proof.
  intros F. assert (G : forall n p, at_ root p n -> fine p n).
  { refine (node_all _ _). intros k cs IH p A. rewrite fine_eq. split.
    - destruct k; auto. eapply F, A.
    - assert (L : forall i l, (forall j c, nth_error l j = Some c -> nth_error cs (i + j) = Some c) -> fine_from k p i l).
      { intros i l. revert i. induction l as [|c l IHl]; intros i Q; cbn [fine_from]; [exact I|]. split.
        - rewrite Forall_forall in IH. specialize (Q 0%nat c eq_refl). rewrite Nat.add_0_r in Q. apply IH; [eapply nth_error_In, Q|]. econstructor; eassumption.
        - apply IHl. intros j d E. specialize (Q (S j) d E). now rewrite <- plus_n_Sm in Q. }
      apply L. auto. }
  apply G. constructor.
Qed.

Section Rule.
Variable oil : bool.
Variables (types : Z -> info) (fuel : nat) (type_at : path -> ty) (symbol_of : path -> option Z).
Notation addmod := (add_modification types fuel type_at symbol_of).
Notation adddecl := (add_declared oil).
Notation visit' := (visit oil types fuel type_at symbol_of).

Definition defer (s : scope) (l : list report) : scope :=
  Scope (sc_class s) (sc_depth s) (sc_modified s) (sc_constructed s) (sc_members s) (sc_statics s) (sc_static_modified s) (sc_deferred s ++ l).
Definition step (s : scope) (e : event) : scope :=
  match e with
  | EAccess n p => if modifies p then with_depth (addmod (with_depth s (depth p)) n p) (sc_depth s) else s
  | EConstructor ps => fold_left adddecl (filter d_private ps) s
  end.
Definition scope_of (q : path) (ms : list node) : scope := fold_left step (over events Class q 0 ms) (new_scope oil q ms).
Definition own_reports (x : path * list node) : list report := reports (scope_of (fst x) (snd x)).

Lemma defer_nil s : defer s [] = s.
Proof. destruct s. unfold defer. cbn. now rewrite app_nil_r. Qed.
Lemma defer_app s l l' : defer (defer s l) l' = defer s (l ++ l').
Proof. destruct s. unfold defer. cbn. now rewrite app_assoc. Qed.
Lemma adddecl_defer s d l : adddecl (defer s l) d = defer (adddecl s d) l.
Proof. destruct s. unfold add_declared, defer, with_members, with_statics. cbn. now destruct (modifiable oil d), (d_static d). Qed.
Lemma adddecls_defer ds s l : fold_left adddecl ds (defer s l) = defer (fold_left adddecl ds s) l.
Proof. revert s. induction ds as [|d ds IH]; intros s; cbn [fold_left]; [reflexivity|]. rewrite adddecl_defer. apply IH. Qed.
Lemma step_defer s e l : step (defer s l) e = defer (step s e) l.
Proof.
  destruct e as [n p|ps]; cbn [step]; [|apply adddecls_defer]. destruct (modifies p); [|reflexivity].
  destruct s. unfold add_modification, with_depth, defer. cbn. destruct (relate _ _ _ _); cbn; try reflexivity. now destruct (depth p =? 0).
Qed.
Lemma steps_defer es s l : fold_left step es (defer s l) = defer (fold_left step es s) l.
Proof. revert s. induction es as [|e es IH]; intros s; cbn [fold_left]; [reflexivity|]. rewrite step_defer. apply IH. Qed.
Lemma adddecl_keeps s d : sc_depth (adddecl s d) = sc_depth s /\ sc_class (adddecl s d) = sc_class s /\ sc_deferred (adddecl s d) = sc_deferred s /\
  sc_modified (adddecl s d) = sc_modified s /\ sc_constructed (adddecl s d) = sc_constructed s /\ sc_static_modified (adddecl s d) = sc_static_modified s.
Proof. destruct s. unfold add_declared. destruct (modifiable oil d), (d_static d); cbn; auto 10. Qed.
Lemma adddecls_keep ds s : let t := fold_left adddecl ds s in sc_depth t = sc_depth s /\ sc_class t = sc_class s /\ sc_deferred t = sc_deferred s /\
  sc_modified t = sc_modified s /\ sc_constructed t = sc_constructed s /\ sc_static_modified t = sc_static_modified s.
Proof.
  revert s. induction ds as [|d ds IH]; intros s; cbn [fold_left]; [cbn; auto 10|].
  cbn zeta in *. destruct (IH (adddecl s d)) as (A & B & C & D & E & F), (adddecl_keeps s d) as (A' & B' & C' & D' & E' & F').
  rewrite A, B, C, D, E, F. auto 10.
Qed.
Lemma addmod_keeps s n p : sc_depth (addmod s n p) = sc_depth s /\ sc_class (addmod s n p) = sc_class s /\ sc_deferred (addmod s n p) = sc_deferred s /\
  sc_members (addmod s n p) = sc_members s /\ sc_statics (addmod s n p) = sc_statics s.
Proof. unfold add_modification. destruct (relate _ _ _ _); cbn; auto. destruct (sc_depth s =? 0); cbn; auto. Qed.
Lemma step_keeps s e : sc_depth (step s e) = sc_depth s /\ sc_class (step s e) = sc_class s /\ sc_deferred (step s e) = sc_deferred s.
Proof.
  destruct e as [n p|ps]; cbn [step].
  - destruct (modifies p); [|auto]. destruct (addmod_keeps (with_depth s (depth p)) n p) as (A & B & C & _). cbn. now rewrite B, C.
  - destruct (adddecls_keep (filter d_private ps) s) as (A & B & C & _). auto.
Qed.
Lemma steps_keep es s : sc_depth (fold_left step es s) = sc_depth s /\ sc_class (fold_left step es s) = sc_class s /\ sc_deferred (fold_left step es s) = sc_deferred s.
Proof.
  revert s. induction es as [|e es IH]; intros s; cbn [fold_left]; [auto|].
  destruct (IH (step s e)) as (A & B & C), (step_keeps s e) as (A' & B' & C'). rewrite A, B, C. auto.
Qed.
Lemma with_depth_same s : with_depth s (sc_depth s) = s.
Proof. now destruct s. Qed.
Lemma with_depth_twice s x y : with_depth (with_depth s x) y = with_depth s y.
Proof. now destruct s. Qed.
Lemma adddecl_depth s d x : adddecl (with_depth s x) d = with_depth (adddecl s d) x.
Proof. destruct s. unfold add_declared, with_members, with_statics, with_depth. cbn. now destruct (modifiable oil d), (d_static d). Qed.
Lemma adddecls_depth ds s x : fold_left adddecl ds (with_depth s x) = with_depth (fold_left adddecl ds s) x.
Proof. revert s. induction ds as [|d ds IH]; intros s; cbn [fold_left]; [reflexivity|]. rewrite adddecl_depth. apply IH. Qed.
Lemma step_depth s e x : step (with_depth s x) e = with_depth (step s e) x.
Proof.
  destruct e as [n p|ps]; cbn [step]; [|apply adddecls_depth]. destruct (modifies p); [|reflexivity].
  rewrite !with_depth_twice. reflexivity.
Qed.
Lemma steps_depth es s x : fold_left step es (with_depth s x) = with_depth (fold_left step es s) x.
Proof. revert s. induction es as [|e es IH]; intros s; cbn [fold_left]; [reflexivity|]. rewrite step_depth. apply IH. Qed.

(** ** The visit *)
Fixpoint visits (k : kind) (p : path) (i : nat) (l : list node) (st : state) : state :=
  match l with [] => st | c :: l => visits k p (S i) l (visit' ((k, i) :: p) c st) end.
Lemma visit_eq p k cs st : visit' p (Node k cs) st = exit k (visits k p 0 cs (enter oil types fuel type_at symbol_of p k cs st)).
Proof.
  cbn [visit]. f_equal. generalize (enter oil types fuel type_at symbol_of p k cs st). generalize 0%nat.
  induction cs as [|c cs IH]; intros i st'; cbn [visits]; [reflexivity|]. apply IH.
Qed.

Lemma visits_some k p : forall l i s st o,
  Forall (fun n => forall p s l o, fine p n -> sc_depth s = depth p ->
    visit' p n (State (s :: l) o) = State (defer (fold_left step (events p n) s) (flat_map own_reports (classes p n)) :: l) o) l ->
  fine_from k p i l -> (forall i, sc_depth s = depth ((k, i) :: p)) ->
  visits k p i l (State (s :: st) o) = State (defer (fold_left step (over events k p i l) s) (flat_map own_reports (over classes k p i l)) :: st) o.
Proof.
  intros l. induction l as [|c l IH]; intros i s st o F W D; cbn [visits over].
  - cbn. now rewrite defer_nil.
  - inversion F; subst. destruct W as [W1 W2]. rewrite H1; auto.
    rewrite IH; auto.
    + rewrite steps_defer, defer_app, fold_left_app, flat_map_app. reflexivity.
    + intros j. cbn [defer sc_depth]. destruct (steps_keep (events ((k, i) :: p) c) s) as (-> & _). apply D.
Qed.
Lemma reports_defer s l : reports (defer s l) = reports s.
Proof. reflexivity. Qed.
Lemma new_scope_keeps q ms : let t := new_scope oil q ms in sc_depth t = -1 /\ sc_class t = q /\ sc_deferred t = [] /\ sc_modified t = [] /\ sc_constructed t = [] /\ sc_static_modified t = [].
Proof. apply adddecls_keep. Qed.
Lemma class_flush p cs st :
  visits Class p 0 cs (State (new_scope oil p cs :: stack st) (out st)) =
    State (defer (scope_of p cs) (flat_map own_reports (over classes Class p 0 cs)) :: stack st) (out st) ->
  visit' p (Node Class cs) st =
    match stack st with
    | [] => State [] (out st ++ flat_map own_reports (classes p (Node Class cs)))
    | s :: l => State (defer s (flat_map own_reports (classes p (Node Class cs))) :: l) (out st)
    end.
Proof.
  intros V. rewrite visit_eq. cbn [enter exit]. rewrite V. unfold flush. cbn [stack out]. rewrite reports_defer.
  rewrite classes_eq. cbn [flat_map app]. unfold own_reports at 2. cbn [fst snd].
  assert (D : sc_deferred (scope_of p cs) = []).
  { unfold scope_of. destruct (steps_keep (over events Class p 0 cs) (new_scope oil p cs)) as (_ & _ & ->). apply (new_scope_keeps p cs). }
  cbn [defer sc_deferred]. rewrite D. cbn [app]. destruct (stack st); reflexivity.
Qed.
Lemma class_depth k p : k <> Class -> (forall ps, k <> Constructor ps) -> k <> Function -> forall i, depth ((k, i) :: p) = depth p.
Proof. intros A B C i. destruct k; reflexivity || congruence. Qed.

Lemma visit_some n : forall p s l o, fine p n -> sc_depth s = depth p ->
  visit' p n (State (s :: l) o) = State (defer (fold_left step (events p n) s) (flat_map own_reports (classes p n)) :: l) o.
Proof.
  revert n. refine (node_all _ _). intros k cs IH p s l o W D. rewrite fine_eq in W. destruct W as [W1 W2].
  assert (V : forall s', (forall i, sc_depth s' = depth ((k, i) :: p)) ->
    visits k p 0 cs (State (s' :: l) o) = State (defer (fold_left step (over events k p 0 cs) s') (flat_map own_reports (over classes k p 0 cs)) :: l) o)
    by (intros s' D'; apply visits_some; auto).
  assert (G : k <> Class -> (forall ps, k <> Constructor ps) -> k <> Function -> (forall n, k <> Access n) ->
    visit' p (Node k cs) (State (s :: l) o) = State (defer (fold_left step (events p (Node k cs)) s) (flat_map own_reports (classes p (Node k cs))) :: l) o).
  { intros A B C E. rewrite visit_eq, events_eq, classes_eq by auto.
    assert (enter oil types fuel type_at symbol_of p k cs (State (s :: l) o) = State (s :: l) o) as -> by (destruct k; reflexivity || congruence).
    rewrite V by (intros i; now rewrite class_depth).
    destruct k; reflexivity || congruence. }
  destruct k; try (apply G; congruence).
  - (* Access *)
    rewrite visit_eq, events_eq, classes_eq by congruence. cbn [enter on_top stack out exit event_of].
    assert (E : (if modifies p then addmod s name p else s) = step s (EAccess name p)).
    { cbn [step]. destruct (modifies p); [|reflexivity]. rewrite <- D, with_depth_same. symmetry.
      destruct (addmod_keeps s name p) as (Q & _). rewrite <- Q. apply with_depth_same. }
    rewrite E. rewrite V; [cbn [app flat_map]; reflexivity|]. intros i. rewrite class_depth by congruence. destruct (step_keeps s (EAccess name p)) as (-> & _). exact D.
  - (* Function *)
    rewrite visit_eq, events_eq, classes_eq by congruence. cbn [enter on_top stack out exit event_of app].
    unfold enter_function. rewrite D. destruct (Z.eqb_spec (depth p) (-1)) as [Q|Q].
    + rewrite V by (intros i; cbn [depth]; rewrite Q; cbn; now rewrite D, Q). unfold on_top. cbn [stack out]. f_equal. f_equal. unfold exit_function. cbn [defer sc_depth].
      destruct (steps_keep (over events Function p 0 cs) s) as (-> & _). rewrite D, Q. cbn. reflexivity.
    + rewrite V by (intros i; cbn [depth sc_depth with_depth]; destruct (Z.eqb_spec (depth p) (-1)); congruence || reflexivity).
      unfold on_top. cbn [stack out]. f_equal. f_equal. rewrite steps_depth. unfold exit_function. cbn [defer sc_depth with_depth].
      pose proof (depth_ge p). destruct (Z.eqb_spec (depth p + 1) (-1)); [lia|]. unfold defer, with_depth. cbn. f_equal.
      destruct (steps_keep (over events Function p 0 cs) s) as (-> & _). lia.
  - (* Constructor *)
    destruct W1 as (i & q & ->).
    rewrite visit_eq, events_eq, classes_eq by congruence. cbn [enter on_top stack out exit event_of app]. unfold enter_constructor. rewrite adddecls_depth.
    rewrite V by reflexivity. unfold on_top. cbn [stack out]. f_equal. f_equal. rewrite steps_depth.
    unfold exit_constructor, defer, with_depth. cbn [app fold_left step]. cbn. f_equal.
    destruct (steps_keep (over events (Constructor parameters) ((Class, i) :: q) 0 cs) (fold_left adddecl (filter d_private parameters) s)) as (-> & _).
    destruct (adddecls_keep (filter d_private parameters) s) as (-> & _). now rewrite D.
  - (* Class *)
    rewrite (class_flush p cs (State (s :: l) o)); [reflexivity|]. cbn [stack out].
    apply visits_some; auto. intros i. apply (new_scope_keeps p cs).
Qed.
Lemma visit_none n : forall p o, fine p n -> visit' p n (State [] o) = State [] (o ++ flat_map own_reports (classes p n)).
Proof.
  revert n. refine (node_all _ _). intros k cs IH p o W. rewrite fine_eq in W. destruct W as [W1 W2].
  destruct (match k with Class => true | _ => false end) eqn:K.
  - destruct k; try discriminate. rewrite class_flush; [reflexivity|]. cbn [stack out]. apply visits_some; auto.
    + apply Forall_forall. intros n _. apply visit_some.
    + intros i. apply (new_scope_keeps p cs).
  - rewrite visit_eq, classes_eq.
    assert (enter oil types fuel type_at symbol_of p k cs (State [] o) = State [] o) as -> by (destruct k; reflexivity || discriminate).
    assert (X : forall st, stack st = [] -> exit k st = st) by (intros [st o'] E; cbn in E; subst; destruct k; reflexivity).
    assert (V : forall l i o, Forall (fun n => forall p o, fine p n -> visit' p n (State [] o) = State [] (o ++ flat_map own_reports (classes p n))) l -> fine_from k p i l ->
      visits k p i l (State [] o) = State [] (o ++ flat_map own_reports (over classes k p i l))).
    { induction l as [|c l IHl]; intros i o' F W; cbn [visits over]; [cbn; now rewrite app_nil_r|]. inversion F; subst. destruct W as [Wa Wb].
      rewrite H1, IHl by auto. now rewrite flat_map_app, app_assoc. }
    rewrite V by auto. rewrite X by reflexivity. destruct k; reflexivity || discriminate.
Qed.
Lemma run_eq root : formed root -> run oil types fuel type_at symbol_of root = flat_map own_reports (classes [] root).
Proof. intros F. unfold run. rewrite visit_none by (now apply formed_fine). reflexivity. Qed.
End Rule.

(** ** Writing *)
Lemma destructuring_below k p : destructuring k p = true <-> below k p.
Proof.
  split.
  - revert k. induction p as [|[l i] p IH]; intros k D; [discriminate|]. cbn [destructuring] in D.
    destruct l; cbn [binary andb] in D; try discriminate.
    + (* Assign *) destruct (is_access k) eqn:A; cbn [negb] in D; [discriminate|]. destruct plain; [|discriminate]. apply Nat.eqb_eq in D. subst i.
      constructor. intros n ->. discriminate.
    + destruct (is_access k); cbn [negb] in D; discriminate.
    + apply bl_literal; cbn; auto.
    + apply bl_literal; cbn; auto.
    + destruct p as [|[m j] p]; [discriminate|]. destruct m; cbn [binary andb] in D; try discriminate. apply bl_spread. apply IH, D.
    + apply bl_literal; cbn; auto.
  - induction 1 as [k p N|k l i p I B IH|k i j p B IH].
    + cbn [destructuring binary andb]. destruct k; cbn; try reflexivity. now elim (N name).
    + cbn [destructuring]. destruct I as [<- | [<- | [<- | []]]]; exact IH.
    + cbn [destructuring] in *. exact IH.
Qed.
Lemma modifies_counted p : modifies p = true <-> counted p.
Proof.
  split.
  - destruct p as [|[k i] p]; [discriminate|]. cbn [modifies]. destruct (binary k) eqn:B.
    + destruct k; try discriminate. intros E. apply Nat.eqb_eq in E. subst. constructor.
    + intros M. assert (C : k = Delete \/ destructuring k p = true \/ k = Update).
      { destruct k; auto; destruct (destructuring _ p); auto; discriminate. }
      destruct C as [-> | [D | ->]]; [constructor| |constructor]. apply destructuring_below in D. apply ct_below; auto; intros; intros ->; discriminate.
  - intros C. inversion C as [plain q|i q|i q|k i q N1 N2 B]; subst; cbn [modifies]; try reflexivity.
    + cbn. destruct (destructuring Update q); reflexivity.
    + apply destructuring_below in B. destruct (binary k) eqn:E; [destruct k; try discriminate; [now elim (N2 plain)|now elim N1]|].
      rewrite B. now destruct k.
Qed.
Lemma recognized_counted p : recognized p -> counted p.
Proof.
  assert (F : forall p, flat p -> forall k, (forall n, k <> Access n) -> below k p).
  { induction 1 as [q|i q F IH]; intros k N; [now constructor|]. apply bl_literal; [cbn; auto|]. apply IH. discriminate. }
  destruct 1; try constructor; try (intros; discriminate); auto using F.
  - apply F; [assumption|]. discriminate.
  - apply bl_literal; [cbn; auto|]. apply F; [assumption|discriminate].
  - apply bl_literal; [cbn; auto|]. apply F; [assumption|discriminate].
  - apply bl_literal; [cbn; auto|]. apply F; [assumption|discriminate].
  - apply F; [assumption|]. discriminate.
Qed.
Lemma flat_pattern p : flat p -> pattern p.
Proof. induction 1; [constructor|]. apply pt_piece, pc_element. assumption. Qed.
Lemma flat_target p : flat p -> target p.
Proof. destruct 1; [constructor|]. apply tg_piece, pc_element, flat_pattern. assumption. Qed.
Lemma recognized_target p : recognized p -> target p.
Proof.
  destruct 1; try constructor; try (constructor; apply flat_pattern; assumption). apply flat_target. assumption.
Qed.

(** ** Types *)
Section Relation.
Variable types : Z -> info.
Lemma mem_in x l : mem x l = true <-> In x l.
Proof. unfold mem. rewrite existsb_exists. split; [intros (y & I & E); apply Z.eqb_eq in E; now subst|]. intros I. exists x. split; [assumption|]. apply Z.eqb_refl. Qed.
Definition next (t : Z) : list Z := if i_class (types t) then i_bases (types t) else [].
Definition todo (seen universe : list Z) : nat := list_sum (map (fun t => if mem t seen then 0%nat else List.length (i_bases (types t))) universe).
Lemma todo_cons seen x u : todo seen (x :: u) = ((if mem x seen then 0%nat else List.length (i_bases (types x))) + todo seen u)%nat.
Proof. reflexivity. Qed.
Lemma mem_cons x t seen : mem x (t :: seen) = (x =? t) || mem x seen.
Proof. reflexivity. Qed.
Lemma todo_out t seen universe : ~ In t universe -> todo (t :: seen) universe = todo seen universe.
Proof.
  induction universe as [|x u IH]; intros N; [reflexivity|]. cbn [In] in N. rewrite !todo_cons, IH, mem_cons by tauto.
  destruct (Z.eqb_spec x t) as [->|]; [tauto|reflexivity].
Qed.
Lemma todo_in t seen universe : NoDup universe -> In t universe -> mem t seen = false -> (todo (t :: seen) universe + List.length (i_bases (types t)) = todo seen universe)%nat.
Proof.
  induction 1 as [|x u N D IH]; intros I M; [easy|]. rewrite !todo_cons, mem_cons. destruct (Z.eqb_spec x t) as [->|NE].
  - rewrite todo_out by assumption. rewrite M. cbn [orb]. lia.
  - destruct I as [->|I]; [contradiction|]. specialize (IH I M). cbn [orb]. lia.
Qed.
Lemma search_spec s universe : NoDup universe -> (forall t x, In t universe -> In x (next t) -> In x universe) ->
  forall fuel stack seen, (forall t, In t stack -> In t universe) ->
  (forall t, In t seen -> i_symbol (types t) <> Some s /\ forall x, In x (next t) -> In x seen \/ In x stack) ->
  (List.length stack + todo seen universe < fuel)%nat ->
  exists r, search types fuel s stack seen = Some r /\
    (r = true -> exists t, In t stack /\ derives types s t) /\
    (r = false -> forall t, In t stack \/ In t seen -> ~ derives types s t).
Proof.
  intros ND CL fuel. induction fuel as [|fuel IH]; intros stack seen ST SE FU; [lia|]. cbn [search].
  destruct stack as [|t stack].
  - exists false. split; [reflexivity|]. split; [discriminate|]. intros _ t [[]|I] D. induction D as [t E|t x C IB D IHD].
    + now apply (proj1 (SE t I)).
    + apply IHD. assert (X : In x (next t)) by (unfold next; now rewrite C). destruct (proj2 (SE t I) x X) as [J|[]]. exact J.
  - destruct (mem t seen) eqn:M.
    + destruct (IH stack seen) as (r & E & T & F).
      * intros x I. apply ST. now right.
      * intros x I. destruct (SE x I) as [A B]. split; [exact A|]. intros y Y. destruct (B y Y) as [J|[<-|J]]; auto. left. now apply mem_in.
      * cbn [List.length] in FU. lia.
      * exists r. split; [exact E|]. split.
        -- intros R. destruct (T R) as (x & I & D). exists x. split; [now right|assumption].
        -- intros R x [[<-|I]|I]; apply (F R); auto. right. now apply mem_in.
    + assert (U : In t universe) by (apply ST; now left).
      assert (REST : i_symbol (types t) <> Some s -> exists r, search types fuel s (if i_class (types t) then rev (i_bases (types t)) ++ stack else stack) (t :: seen) = Some r /\
        (r = true -> exists x, In x (t :: stack) /\ derives types s x) /\ (r = false -> forall x, In x (t :: stack) \/ In x seen -> ~ derives types s x)).
      { intros NS. set (stack' := if i_class (types t) then rev (i_bases (types t)) ++ stack else stack).
        assert (SI : forall x, In x stack' <-> In x (next t) \/ In x stack).
        { intros x. unfold stack', next. destruct (i_class (types t)); [rewrite in_app_iff, <- in_rev; tauto|cbn; tauto]. }
        destruct (IH stack' (t :: seen)) as (r & E & T & F).
        - intros x I. apply SI in I. destruct I as [I|I]; [eapply CL; eassumption|]. apply ST. now right.
        - intros x [<-|I].
          + split; [exact NS|]. intros y Y. right. apply SI. now left.
          + destruct (SE x I) as [A B]. split; [exact A|]. intros y Y. destruct (B y Y) as [J|[<-|J]].
            * left. now right.
            * left. now left.
            * right. apply SI. now right.
        - pose proof (todo_in t seen universe ND U M) as Q. cbn [List.length] in FU. unfold stack'.
          destruct (i_class (types t)); [rewrite app_length, rev_length|]; lia.
        - exists r. split; [exact E|]. split.
          + intros R. destruct (T R) as (x & I & D). apply SI in I. destruct I as [I|I].
            * exists t. split; [now left|]. unfold next in I. destruct (i_class (types t)) eqn:C; [|easy]. now apply de_base with x.
            * exists x. split; [now right|assumption].
          + intros R x [[<-|I]|I].
            * apply (F R). right. now left.
            * apply (F R). left. apply SI. now right.
            * apply (F R). right. now right. }
      destruct (i_symbol (types t)) as [y|] eqn:Y; [|apply REST; discriminate]. destruct (Z.eqb_spec y s) as [->|NE].
      * exists true. split; [reflexivity|]. split; [|discriminate]. intros _. exists t. split; [now left|]. now constructor.
      * apply REST. intros [= Q]. contradiction.
Qed.
Variable fuel : nat.
Lemma has_base_spec s id : enough types fuel id -> has_base types fuel id (Some s) = true <-> derives types s id.
Proof.
  intros (u & I & ND & CL & FU). unfold has_base.
  destruct (search_spec s u ND) with (fuel := fuel) (stack := [id]) (seen := @nil Z) as (r & E & T & F).
  - intros t x J K. unfold next in K. destruct (i_class (types t)) eqn:C; [|easy]. eapply CL; eassumption.
  - intros t [<-|[]]. exact I.
  - easy.
  - cbn [List.length]. assert (Q : todo [] u = list_sum (map (fun t => List.length (i_bases (types t))) u)) by reflexivity. lia.
  - rewrite E. destruct r.
    + split; [|reflexivity]. intros _. destruct (T eq_refl) as (t & [<-|[]] & D). exact D.
    + split; [discriminate|]. intros D. elim (F eq_refl id); auto. left. now left.
Qed.
Lemma relate_means s t : regular types s t -> (forall id, part_of id t -> enough types fuel id) ->
  means (relate types fuel (Some s) t) (instance_of types s t) (class_of types s t).
Proof.
  revert t. refine (ty_all _ _ _ _).
  - (* Inter *)
    intros l F R EN. inversion R as [|l' H|]; subst l'. rewrite Forall_forall in F. cbn [relate].
    set (inst l := exists x, In x l /\ instance_of types s x). set (cls l := exists x, In x l /\ class_of types s x).
    set (go := fix go (result : relation) (l : list ty) {struct l} : relation :=
      match l with [] => result | x :: l => match join result (relate types fuel (Some s) x) with inl r => r | inr r => go r l end end).
    assert (G : forall l2 l1 r, l = l1 ++ l2 -> r <> ClassAndInstance -> means r (inst l1) (cls l1) -> means (go r l2) (inst l) (cls l)).
    { induction l2 as [|x l2 IH]; intros l1 r E NC M.
      - rewrite app_nil_r in E. now subst.
      - cbn [go]. assert (IX : In x l) by (subst l; apply in_or_app; right; now left).
        assert (E' : l = (l1 ++ [x]) ++ l2) by (now rewrite <- app_assoc).
        assert (PX : means (relate types fuel (Some s) x) (instance_of types s x) (class_of types s x)).
        { apply F; [exact IX|apply H, IX|]. intros id P. apply EN. now apply po_inter with x. }
        assert (NB : ~ (instance_of types s x /\ class_of types s x)) by (apply H, IX).
        assert (I1 : inst (l1 ++ [x]) <-> inst l1 \/ instance_of types s x).
        { unfold inst. split.
          - intros (y & J & K). apply in_app_or in J. destruct J as [J|[<-|[]]]; [left; eauto|now right].
          - intros [(y & J & K)|K]; [exists y|exists x]; split; auto; apply in_or_app; cbn; auto. }
        assert (C1 : cls (l1 ++ [x]) <-> cls l1 \/ class_of types s x).
        { unfold cls. split.
          - intros (y & J & K). apply in_app_or in J. destruct J as [J|[<-|[]]]; [left; eauto|now right].
          - intros [(y & J & K)|K]; [exists y|exists x]; split; auto; apply in_or_app; cbn; auto. }
        assert (SUB : forall P : ty -> Prop, (exists y, In y (l1 ++ [x]) /\ P y) -> exists y, In y l /\ P y).
        { intros P (y & J & K). exists y. split; [|exact K]. subst l. rewrite E'. apply in_or_app. now left. }
        destruct (relate types fuel (Some s) x); cbn [means] in PX; destruct r; cbn [join means] in *; try tauto; try congruence;
          try (apply (IH (l1 ++ [x])); [exact E'|discriminate|]; cbn [means]; rewrite I1, C1; tauto);
          cbn [means]; split; apply SUB; fold (inst (l1 ++ [x])); fold (cls (l1 ++ [x])); rewrite ?I1, ?C1; tauto. }
    specialize (G l [] NoRelation eq_refl ltac:(discriminate)). 
    assert (M : means NoRelation (inst []) (cls [])) by (cbn; split; intros (x & [] & _)).
    specialize (G M). assert (EI : inst l <-> instance_of types s (Inter l)).
    { split; [intros (x & I & K); now apply io_inter with x|]. intros K. inversion K; subst. eexists; eauto. }
    assert (EC : cls l <-> class_of types s (Inter l)).
    { split; [intros (x & I & K); now apply co_inter with x|]. intros K. inversion K; subst. eexists; eauto. }
    destruct (go NoRelation l); cbn [means] in *; tauto.
  - (* Union *)
    intros l F R EN. inversion R as [| |l' H]; subst l'. rewrite Forall_forall in F. cbn [relate]. destruct l as [|x l].
    + cbn. split; intros K; inversion K; subst; easy.
    + assert (IX : In x (x :: l)) by now left.
      assert (PX : means (relate types fuel (Some s) x) (instance_of types s x) (class_of types s x)).
      { apply F; [exact IX|apply (H x x IX IX)|]. intros id P. apply EN. now apply po_union with x. }
      assert (EI : instance_of types s (Union (x :: l)) <-> instance_of types s x).
      { split; [|intros K; now apply io_union with x]. intros K. inversion K as [| |l' y J Q]; subst. now apply (H y x J IX). }
      assert (EC : class_of types s (Union (x :: l)) <-> class_of types s x).
      { split; [|intros K; now apply co_union with x]. intros K. inversion K as [| |l' y J Q]; subst. now apply (H y x J IX). }
      destruct (relate types fuel (Some s) x); cbn [means] in *; tauto.
  - (* Leaf *)
    intros id _ EN. cbn [relate]. specialize (EN id (po_leaf id)). pose proof (has_base_spec s id EN) as HB.
    assert (EI : instance_of types s (Leaf id) <-> i_symbol (types id) <> None /\ i_anonymous (types id) = false /\ derives types s id).
    { split; [intros K; now inversion K|]. intros (A & B & C). now constructor. }
    assert (EC : class_of types s (Leaf id) <-> i_symbol (types id) <> None /\ i_anonymous (types id) = true /\ derives types s id).
    { split; [intros K; now inversion K|]. intros (A & B & C). now constructor. }
    destruct (i_symbol (types id)) as [y|] eqn:Y; cbn [negb orb].
    + destruct (has_base types fuel id (Some s)); cbn [negb].
      * destruct (i_anonymous (types id)); cbn [means]; rewrite EI, EC; intuition congruence.
      * cbn [means]; rewrite EI, EC; intuition congruence.
    + cbn [means]; rewrite EI, EC; intuition congruence.
Qed.
Lemma relate_none t : relate types fuel None t = NoRelation.
Proof.
  revert t. refine (ty_all _ _ _ _).
  - intros l F. cbn [relate]. induction F as [|x l E F IH]; [reflexivity|]. rewrite E. cbn [join]. exact IH.
  - intros l F. cbn [relate]. destruct F; [reflexivity|assumption].
  - intros id. cbn [relate has_base negb]. now rewrite orb_true_r.
Qed.
End Relation.

(** ** Places *)
Lemma at_app root p n above m : at_ root p n -> at_ n above m -> at_ root (above ++ p) m.
Proof. intros A B. induction B as [|q k cs i c B IH N]; [exact A|]. cbn [app]. econstructor; eassumption. Qed.
Lemma at_split root above p m : at_ root (above ++ p) m -> exists n, at_ root p n /\ at_ n above m.
Proof.
  revert m. induction above as [|[k i] above IH]; intros m A; cbn [app] in A.
  - exists m. split; [exact A|constructor].
  - inversion A as [|q k' cs i' c A' N]; subst. destruct (IH _ A') as (n & B & C). exists n. split; [exact B|]. econstructor; eassumption.
Qed.
Lemma at_one k cs i c : nth_error cs i = Some c -> at_ (Node k cs) [(k, i)] c.
Proof. intros N. econstructor; [constructor|exact N]. Qed.
Lemma at_top k cs above m : at_ (Node k cs) above m <-> (above = [] /\ m = Node k cs) \/ exists i c rest, nth_error cs i = Some c /\ at_ c rest m /\ above = rest ++ [(k, i)].
Proof.
  split.
  - intros A. induction A as [|p k' cs' i c A IH N]; [now left|]. right. destruct IH as [[-> E]|(j & d & rest & M & B & ->)].
    + injection E as -> ->. exists i, c, []. split; [exact N|]. split; [constructor|reflexivity].
    + exists j, d, ((k', i) :: rest). split; [exact M|]. split; [econstructor; eassumption|reflexivity].
  - intros [[-> ->]|(i & c & rest & N & A & ->)]; [constructor|]. eapply at_app; [|exact A]. now apply at_one.
Qed.
Lemma at_det root p n m : at_ root p n -> at_ root p m -> n = m.
Proof.
  intros A. revert m. induction A as [|p k cs i c A IH N]; intros m B; inversion B as [|p' k' cs' i' c' B' N']; subst; [reflexivity|].
  specialize (IH _ B'). injection IH as <-. congruence.
Qed.
Lemma events_in n : forall p nm p', In (EAccess nm p') (events p n) <->
  exists above cs, p' = above ++ p /\ at_ n above (Node (Access nm) cs) /\ Forall (fun x => fst x <> Class) above.
Proof.
  revert n. refine (node_all _ _). intros k cs IH p nm p'. rewrite Forall_forall in IH.
  destruct (match k with Class => true | _ => false end) eqn:K.
  - destruct k; try discriminate. cbn [events]. split; [easy|]. intros (above & cs' & -> & A & F). apply at_top in A.
    destruct A as [[_ E]|(i & c & rest & _ & _ & ->)]; [discriminate|]. apply Forall_app in F. destruct F as [_ F]. inversion F. now elim H1.
  - assert (NK : k <> Class) by (intros ->; discriminate). rewrite events_eq by exact NK. rewrite in_app_iff, over_in. split.
    + intros [I|(j & c & N & I)].
      * destruct k; cbn in I; try easy; destruct I as [I|[]]; [|discriminate]. injection I as -> ->.
        exists [], cs. split; [reflexivity|]. split; constructor.
      * apply (IH c (nth_error_In _ _ N)) in I. destruct I as (above & cs' & -> & A & F). exists (above ++ [(k, j)]), cs'.
        split; [now rewrite <- app_assoc|]. split; [apply at_top; right; exists j, c, above; auto|]. apply Forall_app. split; [exact F|]. constructor; [exact NK|constructor].
    + intros (above & cs' & -> & A & F). apply at_top in A. destruct A as [[-> E]|(i & c & rest & N & A & ->)].
      * left. injection E as <- <-. now left.
      * right. exists i, c. split; [exact N|]. apply (IH c (nth_error_In _ _ N)). exists rest, cs'. apply Forall_app in F. cbn. rewrite <- app_assoc. tauto.
Qed.
Lemma class_events root q ms nm p : at_ root q (Node Class ms) ->
  In (EAccess nm p) (over events Class q 0 ms) <-> (exists cs, at_ root p (Node (Access nm) cs)) /\ own q p.
Proof.
  intros A. rewrite over_in. split.
  - intros (j & c & N & I). apply events_in in I. destruct I as (above & cs & -> & B & F). split.
    + exists cs. eapply at_app; [|exact B]. econstructor; eassumption.
    + exists above, j. auto.
  - intros [(cs & B) (above & i & -> & F)]. apply at_split in B. destruct B as (c & B & C). inversion B as [|p' k' cs' i' c' B' N]; subst.
    pose proof (at_det _ _ _ _ A B') as E. injection E as <-. exists i, c. split; [exact N|]. apply events_in. exists above, cs. auto.
Qed.
Lemma classes_in n : forall p q ms, In (q, ms) (classes p n) <-> exists above, q = above ++ p /\ at_ n above (Node Class ms).
Proof.
  revert n. refine (node_all _ _). intros k cs IH p q ms. rewrite Forall_forall in IH. rewrite classes_eq, in_app_iff, over_in. split.
  - intros [I|(j & c & N & I)].
    + destruct k; cbn in I; try easy. destruct I as [I|[]]. injection I as -> ->. exists []. split; [reflexivity|constructor].
    + apply (IH c (nth_error_In _ _ N)) in I. destruct I as (above & -> & A). exists (above ++ [(k, j)]). split; [now rewrite <- app_assoc|].
      apply at_top. right. exists j, c, above. auto.
  - intros (above & -> & A). apply at_top in A. destruct A as [[-> E]|(i & c & rest & N & A & ->)].
    + left. injection E as <- <-. now left.
    + right. exists i, c. split; [exact N|]. apply (IH c (nth_error_In _ _ N)). exists rest. split; [now rewrite <- app_assoc|exact A].
Qed.
Lemma own_depth root q p n : formed root -> at_ root p n -> own q p -> (depth p = 0 <-> directly q p).
Proof.
  intros W A (above & i & -> & F). split.
  - revert n A F. induction above as [|[k x] above IH]; intros n A F D; [discriminate|].
    cbn [app] in *. inversion A as [|p' k' cs i' c A' N]; subst. inversion F as [|? ? NC F']; subst. cbn [fst] in NC.
    specialize (IH _ A' F').
    assert (G : depth (above ++ (Class, i) :: q) = 0 -> k <> Function -> directly q ((k, x) :: above ++ (Class, i) :: q)).
    { intros D' NF. destruct (IH D') as (l & ps & a & j & E & G). exists ((k, x) :: l), ps, a, j. rewrite E. split; [reflexivity|]. constructor; [auto|exact G]. }
    destruct k; try (apply G; [exact D|discriminate]).
    + cbn [depth] in D. pose proof (depth_ge (above ++ (Class, i) :: q)). destruct (Z.eqb_spec (depth (above ++ (Class, i) :: q)) (-1)); lia.
    + destruct (W _ _ _ A') as (i' & q' & E). destruct above as [|y above].
      * exists [], parameters, x, i. split; [reflexivity|constructor].
      * cbn [app] in E. injection E as -> _. inversion F'. now elim H1.
    + now elim NC.
  - intros (l & ps & a & j & E & G). rewrite E. clear -G. induction l as [|[k x] l IH]; [reflexivity|]. inversion G as [|? ? [N1 N2] G']; subst. cbn [fst] in *.
    specialize (IH G'). cbn [app]. destruct k; try reflexivity; try congruence; exact IH.
Qed.

(** ** Declarations *)
Section Declared.
Variable oil : bool.
Lemma modifiable_open d : modifiable oil d = true <-> open oil d.
Proof.
  unfold modifiable, open. destruct (d_private d), (d_hash d), (d_frozen d), (d_computed d), oil, (d_lambda d), (d_name d); cbn; intuition congruence.
Qed.
Definition grow (st : bool) (ds l : list decl) : list decl :=
  fold_left (fun l d => if modifiable oil d && Bool.eqb (d_static d) st then set_decl l d else l) ds l.
Lemma set_in l d x : NoDup (map d_name l) -> (In x (set_decl l d) <-> x = d \/ (In x l /\ d_name x <> d_name d)).
Proof.
  induction l as [|y l IH]; intros N; cbn [set_decl].
  - cbn. intuition.
  - cbn [map] in N. inversion N as [|? ? N1 N2]; subst. specialize (IH N2). destruct (beqb (d_name y) (d_name d)) eqn:E.
    + apply beqb_eq in E. cbn [In]. split.
      * intros [<-|I]; [now left|]. right. split; [now right|]. intros Q. apply N1. rewrite E, <- Q. now apply in_map.
      * intros [->|[[<-|I] Q]]; [now left|congruence|now right].
    + cbn [In]. rewrite IH. split.
      * intros [<-|[->|[I Q]]]; [|now left|right; auto]. right. split; [now left|]. intros Q. apply beqb_eq in Q. congruence.
      * intros [->|[[<-|I] Q]]; auto.
Qed.
Lemma set_names l d : NoDup (map d_name l) -> NoDup (map d_name (set_decl l d)) /\ forall x, In x (map d_name (set_decl l d)) <-> x = d_name d \/ In x (map d_name l).
Proof.
  induction l as [|y l IH]; intros N; cbn [set_decl].
  - split; [repeat constructor; easy|]. cbn. intuition.
  - cbn [map] in N. inversion N as [|? ? N1 N2]; subst. destruct (IH N2) as [A B]. destruct (beqb (d_name y) (d_name d)) eqn:E.
    + apply beqb_eq in E. cbn [map]. split; [constructor; [now rewrite <- E|exact N2]|]. intros x. cbn [In]. rewrite E. intuition.
    + cbn [map]. split.
      * constructor; [|exact A]. rewrite B. intros [Q|I]; [apply beqb_eq in Q; congruence|contradiction].
      * intros x. cbn [In]. rewrite B. intuition.
Qed.
Lemma grow_app st ds ds' l : grow st (ds ++ ds') l = grow st ds' (grow st ds l).
Proof. apply fold_left_app. Qed.
Lemma grow_names st ds l : NoDup (map d_name l) -> NoDup (map d_name (grow st ds l)).
Proof.
  revert l. induction ds as [|d ds IH]; intros l N; [exact N|]. cbn [grow fold_left]. apply IH.
  destruct (modifiable oil d && Bool.eqb (d_static d) st); [now apply set_names|exact N].
Qed.
Lemma grow_in st ds d : In d (grow st ds []) <-> latest oil ds d /\ d_static d = st.
Proof.
  induction ds as [|x ds IH] using rev_ind.
  - cbn. split; [easy|]. intros [(l1 & l2 & E & _) _]. now destruct l1.
  - rewrite grow_app. cbn [grow fold_left].
    assert (ND : NoDup (map d_name (grow st ds []))) by (apply grow_names; constructor).
    assert (L : latest oil (ds ++ [x]) d <-> (d = x /\ open oil x) \/ (latest oil ds d /\ (open oil x -> d_static x = d_static d -> d_name x <> d_name d))).
    { split.
      - intros (l1 & l2 & E & O & L). destruct (@exists_last _ (d :: l2)) as (l' & y & E'); [discriminate|]. rewrite E', app_assoc in E. apply app_inj_tail in E. destruct E as [-> <-].
        destruct l2 as [|z l2].
        + left. destruct l' as [|? [|]]; try discriminate. injection E' as ->. auto.
        + right. destruct l' as [|z' l']; [discriminate|]. injection E' as <- E'. rewrite E' in L. split.
          * exists l1, l'. split; [reflexivity|]. split; [exact O|]. intros w I. apply L. apply in_or_app. now left.
          * apply L. apply in_or_app. right. now left.
      - intros [[-> O]|[(l1 & l2 & -> & O & L) N]].
        + exists ds, []. split; [reflexivity|]. split; [exact O|easy].
        + exists l1, (l2 ++ [x]). split; [now rewrite <- app_assoc|]. split; [exact O|]. intros w I. apply in_app_or in I. destruct I as [I|[<-|[]]]; auto. }
    rewrite L. destruct (modifiable oil x) eqn:M; cbn [andb].
    + apply modifiable_open in M. destruct (Bool.eqb (d_static x) st) eqn:S.
      * apply eqb_prop in S. rewrite set_in by exact ND. rewrite IH. split.
        -- intros [->|[[A B] N]]; [auto|]. split; [right|exact B]. split; [exact A|]. intros; congruence.
        -- intros [[[-> _]|[A N]] B]; [now left|]. right. split; [auto|]. intros Q. apply (N M); congruence.
      * apply eqb_false_iff in S. rewrite IH. split.
        -- intros [A B]. split; [right|exact B]. split; [exact A|]. intros; congruence.
        -- intros [[[-> _]|[A N]] B]; [congruence|]. auto.
    + assert (NO : ~ open oil x) by (intros O; apply modifiable_open in O; congruence). rewrite IH. split.
      * intros [A B]. split; [right|exact B]. split; [exact A|]. intros; contradiction.
      * intros [[[-> O]|[A N]] B]; [contradiction|]. auto.
Qed.
Lemma set_new l d : ~ In (d_name d) (map d_name l) -> set_decl l d = l ++ [d].
Proof.
  induction l as [|y l IH]; intros N; [reflexivity|]. cbn [set_decl]. cbn [map In] in N. destruct (beqb (d_name y) (d_name d)) eqn:E.
  - apply beqb_eq in E. tauto.
  - cbn [app]. rewrite IH; tauto.
Qed.
Lemma grow_filter st ds l : NoDup (map d_name l ++ map d_name (filter (fun d => modifiable oil d && Bool.eqb (d_static d) st) ds)) ->
  grow st ds l = l ++ filter (fun d => modifiable oil d && Bool.eqb (d_static d) st) ds.
Proof.
  revert l. induction ds as [|d ds IH]; intros l N; cbn [grow fold_left filter]; [now rewrite app_nil_r|]. cbn [filter] in N.
  destruct (modifiable oil d && Bool.eqb (d_static d) st).
  - cbn [map] in N. fold (grow st ds (set_decl l d)). rewrite set_new.
    + rewrite IH; [now rewrite <- app_assoc|]. rewrite map_app, <- app_assoc. exact N.
    + intros I. apply NoDup_remove_2 in N. apply N. apply in_or_app. now left.
  - now apply IH.
Qed.
End Declared.

(** ** Classes *)
Section Class_.
Variable oil : bool.
Variables (types : Z -> info) (fuel : nat) (type_at : path -> ty) (symbol_of : path -> option Z).
Notation addmod := (add_modification types fuel type_at symbol_of).
Notation adddecl := (add_declared oil).
Notation step' := (step oil types fuel type_at symbol_of).
Notation scope' := (scope_of oil types fuel type_at symbol_of).
Definition parameters_of (es : list event) : list decl := flat_map (fun e => match e with EConstructor ps => filter d_private ps | _ => [] end) es.
Lemma adddecls_grow ds s : sc_members (fold_left adddecl ds s) = grow oil false ds (sc_members s) /\ sc_statics (fold_left adddecl ds s) = grow oil true ds (sc_statics s).
Proof.
  revert s. induction ds as [|d ds IH]; intros s; [split; reflexivity|]. cbn [fold_left grow]. destruct (IH (adddecl s d)) as [-> ->].
  unfold grow, add_declared. destruct (modifiable oil d), (d_static d); cbn [negb andb Bool.eqb with_members with_statics sc_members sc_statics]; split; reflexivity.
Qed.
Lemma steps_grow es s : sc_members (fold_left step' es s) = grow oil false (parameters_of es) (sc_members s) /\
  sc_statics (fold_left step' es s) = grow oil true (parameters_of es) (sc_statics s).
Proof.
  revert s. induction es as [|e es IH]; intros s; [split; reflexivity|]. cbn [fold_left parameters_of flat_map]. destruct (IH (step' s e)) as [-> ->].
  rewrite !grow_app. destruct e as [n p|ps]; cbn [step].
  - cbn [grow fold_left]. destruct (modifies p); [|split; reflexivity]. cbn [with_depth sc_members sc_statics].
    destruct (addmod_keeps types fuel type_at symbol_of (with_depth s (depth p)) n p) as (_ & _ & _ & -> & ->). split; reflexivity.
  - destruct (adddecls_grow (filter d_private ps) s) as [-> ->]. split; reflexivity.
Qed.
Lemma fine_from_nth k p i l j c : fine_from k p i l -> nth_error l j = Some c -> fine ((k, (i + j)%nat) :: p) c.
Proof.
  revert i j. induction l as [|x l IH]; intros i j F N; [now destruct j|]. destruct F as [F1 F2]. destruct j as [|j].
  - injection N as <-. now rewrite Nat.add_0_r.
  - rewrite <- plus_n_Sm. apply (IH (S i)); assumption.
Qed.
Lemma no_constructors n : forall p, fine p n -> (forall i q, p <> (Class, i) :: q) -> parameters_of (events p n) = [].
Proof.
  revert n. refine (node_all _ _). intros k cs IH p W N. rewrite fine_eq in W. destruct W as [W1 W2].
  destruct (match k with Class => true | _ => false end) eqn:K; [destruct k; try discriminate; reflexivity|].
  assert (NK : k <> Class) by (intros ->; discriminate). rewrite events_eq by exact NK. unfold parameters_of. rewrite flat_map_app.
  assert (E : flat_map (fun e => match e with EConstructor ps => filter d_private ps | _ => [] end) (event_of p k) = []).
  { destruct k; try reflexivity. destruct W1 as (i & q & ->). now elim (N i q). }
  rewrite E. cbn [app]. clear E W1 K. revert W2. generalize 0%nat. induction cs as [|c cs IHc]; intros i W2; [reflexivity|]. cbn [over]. inversion IH; subst. destruct W2 as [Wa Wb].
  rewrite flat_map_app. rewrite IHc by assumption. unfold parameters_of in H1. rewrite H1; [reflexivity|exact Wa|]. intros j q [= E _ _]. contradiction.
Qed.
Lemma class_parameters q ms i : fine_from Class q i ms ->
  parameters_of (over events Class q i ms) = flat_map (fun n => match n with Node (Constructor ps) _ => filter d_private ps | _ => [] end) ms.
Proof.
  revert i. induction ms as [|[k cs] ms IH]; intros i W; [reflexivity|]. destruct W as [W1 W2]. cbn [over flat_map]. unfold parameters_of in *. rewrite flat_map_app, IH by exact W2. f_equal.
  rewrite fine_eq in W1. destruct W1 as [_ W1].
  destruct (match k with Class => true | _ => false end) eqn:K; [destruct k; try discriminate; reflexivity|].
  assert (NK : k <> Class) by (intros ->; discriminate). rewrite events_eq by exact NK. rewrite flat_map_app.
  assert (E : flat_map (fun e => match e with EConstructor ps => filter d_private ps | _ => [] end) (over events k ((Class, i) :: q) 0 cs) = []).
  { clear K IH W2. revert W1. generalize 0%nat. induction cs as [|c cs IHc]; intros j W1; [reflexivity|]. destruct W1 as [Wa Wb]. cbn [over]. rewrite flat_map_app, IHc by exact Wb.
    pose proof (no_constructors c _ Wa) as Q. unfold parameters_of in Q. rewrite Q; [reflexivity|]. intros j' q' [= E _ _]. contradiction. }
  rewrite E, app_nil_r. destruct k; try reflexivity. cbn. apply app_nil_r.
Qed.
Lemma fine_at root q n : fine [] root -> at_ root q n -> fine q n.
Proof.
  intros W A. induction A as [|p k cs i c A IH N]; [exact W|]. rewrite fine_eq in IH. destruct IH as [_ IH].
  apply (fine_from_nth _ _ _ _ _ _ IH N).
Qed.
Lemma scope_members root q ms : formed root -> at_ root q (Node Class ms) ->
  sc_members (scope' q ms) = grow oil false (declared ms) [] /\ sc_statics (scope' q ms) = grow oil true (declared ms) [].
Proof.
  intros W A. unfold scope_of. destruct (steps_grow (over events Class q 0 ms) (new_scope oil q ms)) as [-> ->].
  apply formed_fine in W. pose proof (fine_at _ _ _ W A) as Q. rewrite fine_eq in Q. destruct Q as [_ Q]. rewrite class_parameters by exact Q.
  unfold new_scope. destruct (adddecls_grow (properties ms) (Scope q (-1) [] [] [] [] [] [])) as [-> ->]. cbn [sc_members sc_statics].
  unfold declared. rewrite !grow_app. split; reflexivity.
Qed.

(** *** Modifications *)
Definition rel (q p : path) : relation := relate types fuel (symbol_of q) (type_at p).
Lemma steps_modified es s nm :
  (In nm (sc_modified (fold_left step' es s)) <-> In nm (sc_modified s) \/ exists p, In (EAccess nm p) es /\ modifies p = true /\
     (rel (sc_class s) p = OfInstance /\ depth p <> 0 \/ rel (sc_class s) p = ClassAndInstance)) /\
  (In nm (sc_constructed (fold_left step' es s)) <-> In nm (sc_constructed s) \/ exists p, In (EAccess nm p) es /\ modifies p = true /\
     rel (sc_class s) p = OfInstance /\ depth p = 0) /\
  (In nm (sc_static_modified (fold_left step' es s)) <-> In nm (sc_static_modified s) \/ exists p, In (EAccess nm p) es /\ modifies p = true /\
     (rel (sc_class s) p = OfClass \/ rel (sc_class s) p = ClassAndInstance)).
Proof.
  revert s. induction es as [|e es IH]; intros s; [cbn; repeat split; auto; intros [I|(p & [] & _)]; auto|].
  cbn [fold_left]. destruct (IH (step' s e)) as (A & B & C). destruct (step_keeps oil types fuel type_at symbol_of s e) as (_ & K & _). rewrite K in *.
  assert (X : forall P : path -> Prop, (exists p, In (EAccess nm p) (e :: es) /\ P p) <-> (exists p, e = EAccess nm p /\ P p) \/ exists p, In (EAccess nm p) es /\ P p).
  { intros P. split.
    - intros (p & [->|I] & H); [left|right]; eauto.
    - intros [(p & -> & H)|(p & I & H)]; exists p; split; auto; [now left|now right]. }
  rewrite !X, A, B, C. clear IH A B C X K. destruct e as [n p|ps].
  - assert (EX : forall P : path -> Prop, (exists p', EAccess n p = EAccess nm p' /\ P p') <-> n = nm /\ P p).
    { intros P. split; [intros (p' & [= -> ->] & H); auto|]. intros [-> H]. eauto. }
    rewrite !EX. cbn [step]. destruct (modifies p); [|intuition congruence].
    unfold add_modification, rel. cbn [with_depth sc_class sc_depth]. destruct (relate types fuel (symbol_of (sc_class s)) (type_at p)) eqn:R; cbn [with_depth sc_modified sc_constructed sc_static_modified In].
    + intuition congruence.
    + intuition congruence.
    + destruct (Z.eqb_spec (depth p) 0); cbn [with_depth sc_modified sc_constructed sc_static_modified In]; intuition congruence.
    + intuition congruence.
  - cbn [step]. destruct (adddecls_keep oil (filter d_private ps) s) as (_ & _ & _ & -> & -> & ->).
    assert (EX : forall P : path -> Prop, (exists p', EConstructor ps = EAccess nm p' /\ P p') <-> False).
    { intros P. split; [intros (p' & E & _); discriminate|easy]. }
    rewrite !EX. tauto.
Qed.
Lemma has_in n l : has n l = true <-> In n l.
Proof. unfold has. rewrite existsb_exists. split; [intros (x & I & E); apply beqb_eq in E; now subst|]. intros I. exists n. split; [exact I|apply beqb_refl]. Qed.
Lemma rel_cases root q p nm cs : sane types fuel type_at symbol_of root -> at_ root p (Node (Access nm) cs) ->
  match symbol_of q with
  | Some s => means (rel q p) (instance_of types s (type_at p)) (class_of types s (type_at p))
  | None => rel q p = NoRelation
  end.
Proof.
  intros S A. unfold rel. destruct (symbol_of q) as [s|] eqn:E; [|apply relate_none]. destruct (S q s p nm cs A E) as [R F]. now apply relate_means.
Qed.
Lemma class_modified root q ms nm : formed root -> sane types fuel type_at symbol_of root -> at_ root q (Node Class ms) ->
  let w := write types type_at symbol_of root q nm in
  (In nm (sc_modified (scope' q ms)) <-> w yes any no \/ w yes yes any) /\
  (In nm (sc_constructed (scope' q ms)) <-> w yes no yes) /\
  (In nm (sc_static_modified (scope' q ms)) <-> w any yes any).
Proof.
  intros W S A w. unfold scope_of. destruct (steps_modified (over events Class q 0 ms) (new_scope oil q ms) nm) as (M & C & T).
  destruct (new_scope_keeps oil q ms) as (_ & K & _ & E1 & E2 & E3). rewrite K, E1, E2, E3 in *.
  rewrite M, C, T. clear M C T K E1 E2 E3.
  assert (EQ : forall P (i c d : Prop -> Prop),
    (forall p cs, at_ root p (Node (Access nm) cs) -> own q p -> (P p <-> exists s, symbol_of q = Some s /\ i (instance_of types s (type_at p)) /\ c (class_of types s (type_at p)) /\ d (directly q p))) ->
    (exists p, In (EAccess nm p) (over events Class q 0 ms) /\ modifies p = true /\ P p) <-> w i c d).
  { intros P i c d H. split.
    - intros (p & I & Mo & X). apply (class_events root) in I; [|exact A]. destruct I as [(cs & B) O]. apply (H p cs B O) in X. destruct X as (s & X1 & X2).
      exists p, cs, s. apply modifies_counted in Mo. tauto.
    - intros (p & cs & s & B & O & Co & E & X). exists p. split; [apply (class_events root _ _ _ _ A); eauto|]. split; [now apply modifies_counted|].
      apply (H p cs B O). exists s. tauto. }
  assert (SP : forall p cs, at_ root p (Node (Access nm) cs) -> own q p -> (depth p = 0 <-> directly q p)) by (intros p cs B O; eapply own_depth; eassumption).
  assert (RC : forall p cs (P : Prop), at_ root p (Node (Access nm) cs) -> own q p ->
     match symbol_of q with
     | Some s => means (rel q p) (instance_of types s (type_at p)) (class_of types s (type_at p))
     | None => rel q p = NoRelation end) by (intros p cs _ B O; eapply rel_cases; eassumption).
  assert (SOME : forall (P : Z -> Prop), (exists s, symbol_of q = Some s /\ P s) <-> match symbol_of q with Some s => P s | None => False end).
  { intros P. destruct (symbol_of q) as [s|]; split; [intros (s' & [= ->] & H); exact H|eauto|intros (s' & E & _); discriminate|easy]. }
  split; [|split].
  - assert (D : (exists p, In (EAccess nm p) (over events Class q 0 ms) /\ modifies p = true /\ (rel q p = OfInstance /\ depth p <> 0 \/ rel q p = ClassAndInstance)) <->
      (exists p, In (EAccess nm p) (over events Class q 0 ms) /\ modifies p = true /\ ((rel q p = OfInstance \/ rel q p = ClassAndInstance) /\ depth p <> 0)) \/
      (exists p, In (EAccess nm p) (over events Class q 0 ms) /\ modifies p = true /\ rel q p = ClassAndInstance)).
    { split.
      - intros (p & I & Mo & [[R D]|R]); [left|right]; exists p; tauto.
      - intros [(p & I & Mo & [R|R] & D)|(p & I & Mo & R)]; exists p; tauto. }
    rewrite D. clear D. rewrite (EQ (fun p => (rel q p = OfInstance \/ rel q p = ClassAndInstance) /\ depth p <> 0) yes any no), (EQ (fun p => rel q p = ClassAndInstance) yes yes any); [cbn [In]; tauto| |].
    + intros p cs B O. rewrite SOME. specialize (RC p cs True B O). unfold yes, any, no. destruct (symbol_of q) as [s|]; [destruct (rel q p); cbn [means] in RC; intuition congruence|rewrite RC; intuition congruence].
    + intros p cs B O. rewrite SOME. specialize (RC p cs True B O). specialize (SP p cs B O). unfold yes, any, no. destruct (symbol_of q) as [s|]; [destruct (rel q p); cbn [means] in RC; rewrite <- SP; intuition congruence|rewrite RC; intuition congruence].
  - rewrite (EQ (fun p => rel q p = OfInstance /\ depth p = 0) yes no yes); [cbn [In]; tauto|].
    intros p cs B O. rewrite SOME. specialize (RC p cs True B O). specialize (SP p cs B O). unfold yes, any, no. destruct (symbol_of q) as [s|]; [destruct (rel q p); cbn [means] in RC; rewrite <- SP; intuition congruence|rewrite RC; intuition congruence].
  - rewrite (EQ (fun p => rel q p = OfClass \/ rel q p = ClassAndInstance) any yes any); [cbn [In]; tauto|].
    intros p cs B O. rewrite SOME. specialize (RC p cs True B O). unfold yes, any, no. destruct (symbol_of q) as [s|]; [destruct (rel q p); cbn [means] in RC; intuition congruence|rewrite RC; intuition congruence].
Qed.
End Class_.
