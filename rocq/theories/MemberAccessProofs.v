From Coq Require Import Bool Arith List Lia.
Import ListNotations.
From Verif Require Import MemberAccess MemberAccessSpec.

Section Node_full.
Context (P : node -> Prop).
Hypothesis HA : forall i opt o, P o -> P (Access i opt o None).
Hypothesis HAx : forall i opt o x, P o -> P x -> P (Access i opt o (Some x)).
Hypothesis HH : forall i l, Forall P l -> P (Heritage i l).
Hypothesis HL : forall i, P (Literal i).
Hypothesis HU : forall i n, P n -> P (Update i n).
Hypothesis HT : forall i, P (This i).
Hypothesis HP : forall i n, P n -> P (Paren i n).
Hypothesis HC : forall i n l, P n -> Forall P l -> P (Call i n l).
Hypothesis HO : forall i l, Forall P l -> P (Other i l).
Fixpoint node_full (n : node) : P n :=
  match n with
  | Access i opt o None => HA i opt o (node_full o)
  | Access i opt o (Some x) => HAx i opt o x (node_full o) (node_full x)
  | Heritage i l => HH i l ((fix all (l : list node) : Forall P l := match l with [] => Forall_nil P | n :: l => Forall_cons n (node_full n) (all l) end) l)
  | Literal i => HL i
  | Update i n => HU i n (node_full n)
  | This i => HT i
  | Paren i n => HP i n (node_full n)
  | Call i n l => HC i n l (node_full n) ((fix all (l : list node) : Forall P l := match l with [] => Forall_nil P | n :: l => Forall_cons n (node_full n) (all l) end) l)
  | Other i l => HO i l ((fix all (l : list node) : Forall P l := match l with [] => Forall_nil P | n :: l => Forall_cons n (node_full n) (all l) end) l)
  end.
End Node_full.

Section Proofs.
Context (allow nit : bool) (any cany : nat -> bool).
Notation check := (check allow nit any cany).
Notation walk := (walk allow nit any cany).
Notation unsafe := (unsafe allow any).
Notation origin := (origin allow any).
Notation passed := (passed allow).

Fixpoint walk_all (h : bool) (l : list node) (c : cache) : cache * list report :=
  match l with [] => (c, []) | n :: l => let '(c, r) := walk h n c in let '(c, q) := walk_all h l c in (c, r ++ q) end.
Lemma walk_heritage : forall h i l c, walk h (Heritage i l) c = walk_all true l c.
Proof. intros h i l. cbn. induction l as [|n l IH]; intros c; cbn; auto. destruct (walk true n c). rewrite IH. auto. Qed.
Lemma walk_other : forall h i l c, walk h (Other i l) c = walk_all h l c.
Proof. intros h i l. cbn. induction l as [|n l IH]; intros c; cbn; auto. destruct (walk h n c). rewrite IH. auto. Qed.
Lemma walk_call : forall h i n l c, walk h (Call i n l) c = let '(c, r) := walk h n c in let '(c, q) := walk_all h l c in (c, r ++ q).
Proof.
  intros h i n l c. cbn. destruct (walk h n c) as [c1 r]. 
  match goal with |- (let '(_, _) := ?x in _) = _ => replace x with (walk_all h l c1); auto end.
  revert c1. induction l as [|m l IH]; intros c1; cbn; auto. destruct (walk h m c1). rewrite IH. auto.
Qed.

Lemma inside_trans : forall h1 a h2 x h3 y, inside h1 a h2 x -> inside h2 x h3 y -> inside h1 a h3 y.
Proof. intros until 1. induction H; intros; auto. econstructor; eauto. Qed.
Lemma inside_child : forall h1 a h2 x h3 y, inside h1 a h2 x -> child h2 x h3 y -> inside h1 a h3 y.
Proof. intros. eapply inside_trans; eauto. econstructor; eauto. constructor. Qed.

Lemma props_app : forall a b, props (a ++ b) = props a ++ props b.
Proof. intros. unfold props. apply flat_map_app. Qed.

Context (file : node).
Hypothesis Num : numbered file.

(* what holds of a cache and of all reports so far *)
Record good (c : cache) (r : list report) : Prop := {
  g_state : forall n i s, inside false file false n -> access_id n i -> c i = Some s -> (s = Unsafe <-> unsafe n);
  g_done : forall n i, inside false file false n -> access_id n i -> (In i (props r) <-> c i <> None /\ origin n);
  g_only : forall i, In i (props r) -> exists n, inside false file false n /\ access_id n i;
  g_this : forall i t, In (Property i t) r -> exists n, inside false file false n /\ access_id n i /\ t = about_this nit cany n;
  g_once : NoDup (props r) }.

Lemma passed_dec : forall opt, {passed opt} + {~ passed opt}.
Proof. intros opt. unfold MemberAccessSpec.passed. destruct allow, opt; [left|right|right|right]; intuition congruence. Qed.
Lemma passed_test : forall opt, allow && opt = true <-> passed opt.
Proof. intros. unfold MemberAccessSpec.passed. rewrite andb_true_iff. tauto. Qed.

Lemma put_eq : forall c i s, put c i s i = Some s.
Proof. intros. unfold put. rewrite Nat.eqb_refl. auto. Qed.
Lemma put_ne : forall c i s j, i <> j -> put c i s j = c j.
Proof. intros. unfold put. destruct (Nat.eqb_spec i j); congruence. Qed.

Lemma same : forall n m i, inside false file false n -> inside false file false m -> access_id n i -> access_id m i -> n = m.
Proof. intros n m i A B (o1 & p1 & x1 & E1) (o2 & p2 & x2 & E2). subst. destruct (Num _ _ _ _ A B) as [E _]; auto. Qed.

Lemma good_put_quiet : forall c r n i s h,
  good c r -> inside false file h n -> access_id n i -> (h = false -> (s = Unsafe <-> unsafe n) /\ ~ origin n) -> good (put c i s) r.
Proof.
  intros c r n i s h [G1 G2 G3 G4 G5] N A S. constructor; auto.
  - intros m j t M B E. destruct (Nat.eq_dec i j) as [->|D].
    + rewrite put_eq in E. injection E as <-. destruct A as (? & ? & ? & ->), B as (? & ? & ? & ->).
      destruct (Num _ _ _ _ N M) as [X ->]; auto. rewrite <- X. apply S. auto.
    + rewrite put_ne in E by auto. eauto.
  - intros m j M B. destruct (Nat.eq_dec i j) as [->|D].
    + rewrite put_eq. pose proof A as A'. pose proof B as B'. destruct A' as (? & ? & ? & ->), B' as (? & ? & ? & ->).
      destruct (Num _ _ _ _ N M) as [X ->]; auto. rewrite <- X in *. rewrite (G2 _ _ N A).
      destruct S as [_ S]; auto. tauto.
    + rewrite put_ne by auto. apply G2; auto.
Qed.
Lemma good_put_report : forall c r n i,
  good c r -> inside false file false n -> access_id n i -> unsafe n -> origin n -> c i = None ->
  good (put c i Unsafe) (r ++ [Property i (about_this nit cany n)]).
Proof.
  intros c r n i [G1 G2 G3 G4 G5] N A U O E0.
  assert (NI : ~ In i (props r)) by (rewrite (G2 _ _ N A); rewrite E0; tauto).
  constructor.
  - intros m j t M B E. destruct (Nat.eq_dec i j) as [->|D].
    + rewrite put_eq in E. injection E as <-. rewrite (same m n j); tauto.
    + rewrite put_ne in E by auto. eauto.
  - intros m j M B. rewrite props_app, in_app_iff. cbn. destruct (Nat.eq_dec i j) as [->|D].
    + rewrite put_eq. rewrite (same m n j) by auto. split; [split; auto; discriminate|tauto].
    + rewrite put_ne by auto. rewrite (G2 _ _ M B). intuition congruence.
  - intros j. rewrite props_app, in_app_iff. cbn. intros [X|[X|[]]]; auto. subst. eauto.
  - intros j t. rewrite in_app_iff. cbn. intros [X|[X|[]]]; auto. injection X as <- <-. eauto.
  - rewrite props_app. cbn. clear - G5 NI. induction (props r) as [|a l IH]; cbn; [repeat constructor; auto|].
    inversion G5; subst. constructor. rewrite in_app_iff. cbn in *. intuition. apply IH; auto. cbn in NI. tauto.
Qed.

Lemma unsafe_access : forall n, unsafe n -> exists i, access_id n i.
Proof. destruct 1; unfold access_id; eauto. Qed.


Definition inner (h : bool) (o : node) (c : cache) : option state * cache * list report :=
  match o with Access _ _ _ _ => let '(s, c, r) := check h o c in (Some s, c, r) | _ => (None, c, []) end.
Lemma check_access : forall h i opt o x c, check h (Access i opt o x) c =
  if allow && opt then (Chained, put c i Chained, [])
  else match c i with
  | Some s => (s, c, [])
  | None =>
      if h then (Safe, c, [])
      else
        let '(s, c, r) := inner h o c in
        match s with
        | Some Unsafe => (Unsafe, put c i Unsafe, r)
        | _ => if any (id_of o) then (Unsafe, put c i Unsafe, r ++ [Property i (about_this nit cany (Access i opt o x))]) else (Safe, put c i Safe, r)
        end
  end.
Proof. reflexivity. Qed.

Definition sum (l : list nat) : nat := fold_right plus 0 l.
Fixpoint size (n : node) : nat :=
  match n with
  | Access _ _ o x => S (size o + match x with Some x => size x | None => 0 end)
  | Heritage _ l | Other _ l => S (sum (map size l))
  | Literal _ | This _ => 1
  | Update _ n | Paren _ n => S (size n)
  | Call _ n l => S (size n + sum (map size l))
  end.
Lemma size_in : forall n l, In n l -> size n <= sum (map size l).
Proof. induction l as [|m l IH]; cbn; [tauto|]. unfold sum in IH. intros [->|H]; [lia|]. apply IH in H. lia. Qed.
Lemma size_child : forall h n h1 m, child h n h1 m -> size m < size n.
Proof. destruct 1; cbn [size]; try lia; try (destruct x; lia); apply size_in in H; lia. Qed.
Lemma size_inside : forall h n h1 m, inside h n h1 m -> size m <= size n.
Proof. induction 1; auto. apply size_child in H. lia. Qed.

Lemma check_good : forall n h i c r0, inside false file h n -> access_id n i -> good c r0 ->
  let '(s, c1, r) := check h n c in
  good c1 (r0 ++ r) /\ (h = false -> (s = Unsafe <-> unsafe n) /\ c1 i <> None) /\ (forall j, c j <> None -> c1 j <> None)
  /\ (forall x, In x r -> exists j t, x = Property j t)
  /\ (forall j, c1 j <> c j -> exists m h', inside h n h' m /\ access_id m j).
Proof.
  induction n as [n IH] using (well_founded_induction (Wf_nat.well_founded_ltof _ size)). unfold Wf_nat.ltof in IH.
  intros h i c r0 N A G. pose proof A as A'. destruct A' as (opt & o & x & ->). rewrite check_access.
  destruct (allow && opt) eqn:PA; [apply passed_test in PA|assert (NP : ~ passed opt) by (rewrite <- passed_test; congruence)].
  { rewrite app_nil_r. split; [|split; [|split; [|split; [intros ? []|]]]].
    - apply good_put_quiet with (n := Access i opt o x) (h := h); auto; intros _; split; [split; [discriminate|inversion 1; tauto]|cbn; tauto].
    - intros _. split; [split; [discriminate|inversion 1; tauto]|rewrite put_eq; discriminate].
    - intros j Hj. destruct (Nat.eq_dec i j) as [->|D]; [rewrite put_eq; discriminate|rewrite put_ne; auto].
    - intros j Hj. destruct (Nat.eq_dec i j) as [->|D]; [eexists _, _; split; [constructor|auto]|rewrite put_ne in Hj; congruence]. }
  destruct (c i) as [s|] eqn:CI.
  { rewrite app_nil_r. split; [auto|]. split; [|split; [auto|split; [intros ? []|intros; congruence]]].
    intros ->. split; [eapply g_state; eauto|congruence]. }
  destruct h.
  { rewrite app_nil_r. split; [auto|]. split; [discriminate|]. split; [auto|split; [intros ? []|intros; congruence]]. }
  assert (NO : inside false file false o) by (eapply inside_child; eauto; constructor).
  assert (Q : let '(s, c1, r) := inner false o c in good c1 (r0 ++ r) /\ (s = Some Unsafe <-> unsafe o) /\ (forall j, c j <> None -> c1 j <> None)
     /\ (forall x, In x r -> exists j t, x = Property j t) /\ (forall j, c1 j <> c j -> exists m h', inside false o h' m /\ access_id m j)).
  { unfold inner. destruct o as [j opt' o' x'| | | | | | | ];
      try (rewrite app_nil_r; split; [auto|]; split; [split; [discriminate|inversion 1]|]; split; [auto|]; split; [intros ? []|intros; congruence]).
    assert (L : size (Access j opt' o' x') < size (Access i opt (Access j opt' o' x') x)) by (cbn; lia).
    specialize (IH _ L false j c r0 NO (ex_intro _ _ (ex_intro _ _ (ex_intro _ _ eq_refl))) G).
    destruct (check false (Access j opt' o' x') c) as [[s1 c1] r1]. destruct IH as (G1 & B & M & P & D). destruct (B eq_refl) as [B1 B2].
    split; [auto|]. split; [|auto]. rewrite <- B1. split; congruence. }
  destruct (inner false o c) as [[s c1] r]. destruct Q as (G1 & U & M & P & D).
  assert (C1 : c1 i = None).
  { destruct (c1 i) eqn:E; auto. exfalso. destruct (D i) as (m & h' & I1 & I2); [congruence|].
    assert (I3 : inside false file h' m) by (eapply inside_trans; eauto).
    pose proof I2 as (opt2 & o2 & x2 & ->). destruct (Num _ _ _ _ N I3) as [E2 _]; auto.
    rewrite <- E2 in I1. apply size_inside in I1. cbn in I1. lia. }
  assert (M2 : forall t j, c j <> None -> put c1 i t j <> None).
  { intros t j Hj. destruct (Nat.eq_dec i j) as [->|Dj]; [rewrite put_eq; discriminate|rewrite put_ne; auto]. }
  assert (D2 : forall t j, put c1 i t j <> c j -> exists m h', inside false (Access i opt o x) h' m /\ access_id m j).
  { intros t j Hj. destruct (Nat.eq_dec i j) as [->|Dj]; [eexists _, _; split; [constructor|auto]|]. rewrite put_ne in Hj by auto.
    destruct (D j Hj) as (m & h' & I1 & I2). exists m, h'. split; auto. econstructor; [apply c_object|auto]. }
  assert (F : s = Some Unsafe \/ s <> Some Unsafe) by (destruct s as [[]|]; auto; right; discriminate).
  destruct F as [F|F].
  - rewrite F. assert (UO : unsafe o) by tauto. assert (UN : unsafe (Access i opt o x)) by (apply u_inner; auto).
    split; [|split; [|split; [auto|split; [auto|apply D2]]]].
    + apply good_put_quiet with (n := Access i opt o x) (h := false); auto; intros _; split; [tauto|]. cbn. tauto.
    + intros _. rewrite put_eq. split; [tauto|discriminate].
  - assert (UO : ~ unsafe o) by tauto.
    assert (E : forall A (a b : A), match s with Some Unsafe => a | _ => b end = b) by (intros; destruct s as [[]|]; congruence).
    rewrite E. destruct (any (id_of o)) eqn:AO.
    + assert (UN : unsafe (Access i opt o x)) by (apply u_any; auto).
      split; [|split; [|split; [auto|split; [|apply D2]]]].
      * rewrite app_assoc. apply good_put_report; auto. cbn. auto.
      * intros _. rewrite put_eq. split; [tauto|discriminate].
      * intros y. rewrite in_app_iff. intros [Y|[<-|[]]]; eauto.
    + assert (UN : ~ unsafe (Access i opt o x)) by (intros Y; inversion Y; subst; congruence || tauto).
      split; [|split; [|split; [auto|split; [auto|apply D2]]]].
      * apply good_put_quiet with (n := Access i opt o x) (h := false); auto; intros _; split; [split; [discriminate|tauto]|]. cbn. intuition congruence.
      * intros _. rewrite put_eq. split; [split; [discriminate|tauto]|discriminate].
Qed.

Lemma good_index : forall c r q, good c r -> (forall x, In x q -> exists j, x = Index j) -> good c (r ++ q).
Proof.
  intros c r q [G1 G2 G3 G4 G5] Q.
  assert (E : props (r ++ q) = props r).
  { rewrite props_app. replace (props q) with (@nil nat); [apply app_nil_r|]. induction q as [|y q IH]; cbn; auto.
    destruct (Q y) as [j ->]; [left; auto|]. cbn. apply IH. intros. apply Q. right. auto. }
  constructor; try (rewrite E; auto); auto.
  intros i t. rewrite in_app_iff. intros [X|X]; auto. destruct (Q _ X). discriminate.
Qed.
Lemma check_index_only : forall opt x y, In y (check_index allow any opt x) -> exists j, y = Index j.
Proof. intros opt x y. unfold check_index. destruct (allow && opt); [intros []|]. destruct x; try (intros []); destruct (any _); cbn; intuition eauto. Qed.
Lemma check_index_spec : forall opt x y, In y (check_index allow any opt x) <-> y = Index (id_of x) /\ bad_index allow any opt x.
Proof.
  intros opt x y. unfold check_index, bad_index. destruct (allow && opt) eqn:E.
  - apply andb_true_iff in E. cbn. tauto.
  - apply andb_false_iff in E. assert (~ (allow = true /\ opt = true)) by (intuition congruence).
    destruct x as [? ? ? ?|i l|i|i n|i|i n|i n l|i l]; cbn [id_of];
      try (split; [intros []|intros (_ & _ & _ & _ & X); destruct (X _ _ eq_refl)] || (split; [intros []|intros (_ & _ & _ & X & _); destruct (X _ eq_refl)]));
      match goal with |- In _ (if any ?k then _ else _) <-> _ => destruct (any k) eqn:AK; cbn end;
      (split; [intros [<-|[]]; repeat split; auto; intros; discriminate|intros (-> & _); auto] || (split; [intros []|intros (_ & _ & X & _); congruence])).
Qed.

(* every access below has been looked at *)
Definition seen (h : bool) (n : node) (c : cache) : Prop :=
  forall m i, inside h n false m -> access_id m i -> c i <> None.
Lemma seen_mono : forall h n (c c1 : cache), seen h n c -> (forall j, c j <> None -> c1 j <> None) -> seen h n c1.
Proof. unfold seen. eauto. Qed.

Definition indexed (h : bool) (n : node) (j : nat) : Prop :=
  exists h' i opt o x, inside h n h' (Access i opt o (Some x)) /\ j = id_of x /\ bad_index allow any opt x.
Definition fine (h : bool) (n : node) : Prop := forall c r0, inside false file h n -> good c r0 ->
  let '(c1, r) := walk h n c in
  good c1 (r0 ++ r) /\ (forall j, c j <> None -> c1 j <> None) /\ seen h n c1 /\ (forall j, In (Index j) r <-> indexed h n j).
Definition fine_all (h : bool) (l : list node) : Prop := forall c r0, (forall n, In n l -> inside false file h n) -> good c r0 ->
  let '(c1, r) := walk_all h l c in
  good c1 (r0 ++ r) /\ (forall j, c j <> None -> c1 j <> None) /\ (forall n, In n l -> seen h n c1) /\ (forall j, In (Index j) r <-> exists n, In n l /\ indexed h n j).
Lemma walk_all_fine : forall h l, (forall n, In n l -> fine h n) -> fine_all h l.
Proof.
  intros h l. induction l as [|n l IH]; intros F c r0 I0 G; cbn.
  - rewrite app_nil_r. split; auto. split; auto. split; [intros ? []|]. intros j. split; [intros []|intros (? & [] & _)].
  - pose proof (F n (or_introl eq_refl) c r0 (I0 n (or_introl eq_refl)) G) as H. destruct (walk h n c) as [c1 r1].
    destruct H as (G1 & M1 & S1 & X1).
    assert (IH' : fine_all h l) by (apply IH; intros; apply F; right; auto).
    specialize (IH' c1 (r0 ++ r1) (fun m Hm => I0 m (or_intror Hm)) G1). destruct (walk_all h l c1) as [c2 r2].
    destruct IH' as (G2 & M2 & S2 & X2). rewrite app_assoc. split; auto. split; auto. split.
    + intros m [<-|Hm]; auto. eapply seen_mono; eauto.
    + intros j. rewrite in_app_iff, X1, X2. split.
      * intros [Y|(m & Hm & Y)]; [exists n|exists m]; intuition.
      * intros (m & [<-|Hm] & Y); [left|right]; eauto.
Qed.

Lemma inside_inv : forall h n h' m, inside h n h' m -> (h' = h /\ m = n) \/ exists h1 k, child h n h1 k /\ inside h1 k h' m.
Proof. destruct 1; eauto. Qed.
Ltac below I := apply inside_inv in I; destruct I as [[? ?]|(?h & ?k & I & ?I)]; [|inversion I; subst; clear I].

Lemma walk_fine : forall n h, fine h n.
Proof.
  induction n as [n IH] using (well_founded_induction (Wf_nat.well_founded_ltof _ size)). unfold Wf_nat.ltof in IH.
  intros h c r0 I0 G.
  assert (IHc : forall h1 m, child h n h1 m -> fine h1 m) by (intros h1 m C; apply IH; eapply size_child; eauto).
  assert (INc : forall h1 m, child h n h1 m -> inside false file h1 m) by (intros; eapply inside_child; eauto).
  destruct n as [i opt o x|i l|i|i n|i|i n|i n l|i l].
  - assert (AI : access_id (Access i opt o x) i) by (unfold access_id; eauto).
    pose proof (check_good _ h i c r0 I0 AI G) as K. cbn [MemberAccess.walk].
    destruct (check h (Access i opt o x) c) as [[s c1] r1]. destruct K as (G1 & B & M1 & P & _).
    pose proof (good_index _ _ (match x with Some x => check_index allow any opt x | None => [] end) G1) as G1'.
    assert (Q : forall y, In y (match x with Some x => check_index allow any opt x | None => [] end) -> exists j, y = Index j).
    { destruct x; [apply check_index_only|intros ? []]. }
    specialize (G1' Q).
    pose proof (IHc _ _ (c_object h i opt o x) c1 _ (INc _ _ (c_object h i opt o x)) G1') as W.
    destruct (walk h o c1) as [c2 r3]. destruct W as (G2 & M2 & S2 & X2).
    destruct x as [x|].
    + pose proof (IHc _ _ (c_index h i opt o x) c2 _ (INc _ _ (c_index h i opt o x)) G2) as W.
      destruct (walk h x c2) as [c3 r4]. destruct W as (G3 & M3 & S3 & X3).
      split; [rewrite !app_assoc in *; auto|]. split; [auto|]. split.
      * intros m j I A. below I.
        -- subst. destruct A as (? & ? & ? & A). injection A as <- <- <- <-. apply M3, M2. exact (proj2 (B eq_refl)).
        -- apply M3. eapply S2; eauto.
        -- eapply S3; eauto.
      * intros j. rewrite !in_app_iff, X2, X3, check_index_spec. split.
        -- intros [Y|[[Y1 Y2]|[Y|Y]]].
           ++ destruct (P _ Y) as (? & ? & ?). discriminate.
           ++ injection Y1 as ->. exists h, i, opt, o, x. split; [constructor|auto].
           ++ destruct Y as (h' & i' & opt' & o' & x' & Y & Z). exists h', i', opt', o', x'. split; auto. econstructor; [apply c_object|auto].
           ++ destruct Y as (h' & i' & opt' & o' & x' & Y & Z). exists h', i', opt', o', x'. split; auto. econstructor; [apply c_index|auto].
        -- intros (h' & i' & opt' & o' & x' & Y & Z & Z'). below Y.
           ++ injection H0 as -> -> -> ->. right. left. subst. auto.
           ++ right. right. left. unfold indexed. eauto 10.
           ++ right. right. right. unfold indexed. eauto 10.
    + split; [rewrite app_nil_r in *; rewrite !app_assoc in *; rewrite app_nil_r; auto|]. split; [auto|]. split.
      * intros m j I A. below I.
        -- subst. destruct A as (? & ? & ? & A). injection A as <- <- <- <-. apply M2. exact (proj2 (B eq_refl)).
        -- eauto.
      * intros j. rewrite !in_app_iff, X2. split.
        -- intros [Y|[[]|[Y|[]]]].
           ++ destruct (P _ Y) as (? & ? & ?). discriminate.
           ++ destruct Y as (h' & i' & opt' & o' & x' & Y & Z). exists h', i', opt', o', x'. split; auto. econstructor; [apply c_object|auto].
        -- intros (h' & i' & opt' & o' & x' & Y & Z & Z'). below Y.
           ++ discriminate.
           ++ right. right. left. unfold indexed. eauto 10.
  - rewrite walk_heritage. assert (F : fine_all true l) by (apply walk_all_fine; intros; apply IHc; constructor; auto).
    specialize (F c r0 (fun m Hm => INc _ _ (c_heritage h i l m Hm)) G). destruct (walk_all true l c) as [c1 r]. destruct F as (G1 & M1 & S1 & X1).
    split; auto. split; auto. split.
    + intros m j I A. below I; [subst; destruct A as (? & ? & ? & A); discriminate|]. eapply S1; eauto.
    + intros j. rewrite X1. split.
      * intros (n & Hn & h' & i' & opt' & o' & x' & Y & Z). exists h', i', opt', o', x'. split; auto. econstructor; [apply c_heritage; eauto|auto].
      * intros (h' & i' & opt' & o' & x' & Y & Z & Z'). below Y; [discriminate|]. unfold indexed. eauto 15.
  - cbn. rewrite app_nil_r. split; auto. split; auto. split.
    + intros m j I A. below I. subst; destruct A as (? & ? & ? & A); discriminate.
    + intros j. split; [intros []|]. intros (h' & i' & opt' & o' & x' & Y & Z & Z'). below Y. discriminate.
  - cbn [MemberAccess.walk]. pose proof (IHc _ _ (c_update h i n) c r0 (INc _ _ (c_update h i n)) G) as W. destruct (walk h n c) as [c1 r]. destruct W as (G1 & M1 & S1 & X1).
    split; auto. split; auto. split.
    + intros m j I A. below I; [subst; destruct A as (? & ? & ? & A); discriminate|]. eapply S1; eauto.
    + intros j. rewrite X1. split; intros (h' & i' & opt' & o' & x' & Y & Z).
      * exists h', i', opt', o', x'. split; auto. econstructor; [apply c_update|auto].
      * below Y; [discriminate|]. unfold indexed. eauto 15.
  - cbn. rewrite app_nil_r. split; auto. split; auto. split.
    + intros m j I A. below I. subst; destruct A as (? & ? & ? & A); discriminate.
    + intros j. split; [intros []|]. intros (h' & i' & opt' & o' & x' & Y & Z & Z'). below Y. discriminate.
  - cbn [MemberAccess.walk]. pose proof (IHc _ _ (c_paren h i n) c r0 (INc _ _ (c_paren h i n)) G) as W. destruct (walk h n c) as [c1 r]. destruct W as (G1 & M1 & S1 & X1).
    split; auto. split; auto. split.
    + intros m j I A. below I; [subst; destruct A as (? & ? & ? & A); discriminate|]. eapply S1; eauto.
    + intros j. rewrite X1. split; intros (h' & i' & opt' & o' & x' & Y & Z).
      * exists h', i', opt', o', x'. split; auto. econstructor; [apply c_paren|auto].
      * below Y; [discriminate|]. unfold indexed. eauto 15.
  - rewrite walk_call. pose proof (IHc _ _ (c_callee h i n l) c r0 (INc _ _ (c_callee h i n l)) G) as W. destruct (walk h n c) as [c1 r1]. destruct W as (G1 & M1 & S1 & X1).
    assert (F : fine_all h l) by (apply walk_all_fine; intros; apply IHc; constructor; auto).
    specialize (F c1 _ (fun m Hm => INc _ _ (c_argument h i n l m Hm)) G1). destruct (walk_all h l c1) as [c2 r2]. destruct F as (G2 & M2 & S2 & X2).
    rewrite app_assoc. split; auto. split; auto. split.
    + intros m j I A. below I; [subst; destruct A as (? & ? & ? & A); discriminate| |]. apply M2; eapply S1; eauto. eapply S2; eauto.
    + intros j. rewrite in_app_iff, X1, X2. split.
      * intros [(h' & i' & opt' & o' & x' & Y & Z)|(m & Hm & h' & i' & opt' & o' & x' & Y & Z)]; exists h', i', opt', o', x'; (split; [|auto]).
        econstructor; [apply c_callee|auto]. econstructor; [apply c_argument; eauto|auto].
      * intros (h' & i' & opt' & o' & x' & Y & Z & Z'). below Y; [discriminate| |]; unfold indexed; [left|right]; eauto 15.
  - rewrite walk_other. assert (F : fine_all h l) by (apply walk_all_fine; intros; apply IHc; constructor; auto).
    specialize (F c r0 (fun m Hm => INc _ _ (c_other h i l m Hm)) G). destruct (walk_all h l c) as [c1 r]. destruct F as (G1 & M1 & S1 & X1).
    split; auto. split; auto. split.
    + intros m j I A. below I; [subst; destruct A as (? & ? & ? & A); discriminate|]. eapply S1; eauto.
    + intros j. rewrite X1. split.
      * intros (n & Hn & h' & i' & opt' & o' & x' & Y & Z). exists h', i', opt', o', x'. split; auto. econstructor; [apply c_other; eauto|auto].
      * intros (h' & i' & opt' & o' & x' & Y & Z & Z'). below Y; [discriminate|]. unfold indexed. eauto 15.
Qed.

Lemma this_begins : forall n t, this_expression n = Some t <-> begins n t.
Proof.
  intros n t. split.
  - induction n as [i opt o IH|i opt o x IH _|i l _|i|i n _|i|i n IH|i n l IH _|i l _] using node_full; cbn; intros E; try discriminate; try (constructor; auto).
    injection E as ->. constructor.
  - induction 1; cbn; auto.
Qed.

Lemma good_empty : good (fun _ => None) [].
Proof. constructor; cbn; try tauto; try (intros; discriminate); try constructor; intros; try tauto. Qed.

Lemma in_props : forall i r, In i (props r) <-> exists t, In (Property i t) r.
Proof.
  intros i r. unfold props. rewrite in_flat_map. split.
  - intros ([j t|j] & H & X); cbn in X; [destruct X as [->|[]]; eauto|tauto].
  - intros (t & H). exists (Property i t). cbn. auto.
Qed.
Lemma run_good : let r := run allow nit any cany file in
  NoDup (props r)
  /\ (forall i, (exists t, In (Property i t) r) <-> exists n, inside false file false n /\ access_id n i /\ origin n)
  /\ (forall i t, In (Property i t) r -> exists n, inside false file false n /\ access_id n i /\ t = about_this nit cany n)
  /\ (forall j, In (Index j) r <-> indexed false file j).
Proof.
  pose proof (walk_fine file false (fun _ => None) [] (i_here _ _) good_empty) as W. unfold run.
  destruct (walk false file (fun _ => None)) as [c r]. cbn in *. destruct W as ([G1 G2 G3 G4 G5] & _ & S & X).
  split; auto. split; [|split; auto].
  intros i. rewrite <- in_props. split.
  - intros H. destruct (G3 _ H) as (n & N & A). exists n. split; auto. split; auto. eapply G2; eauto.
  - intros (n & N & A & O). eapply G2; eauto.
Qed.
End Proofs.
