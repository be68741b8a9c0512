(** Induction over type nodes and the order of visits, for C51 (PropsDuplicateTypes.v). *)
From Coq Require Import Bool List ZArith Lia Sorted.
From Verif Require Import Base Fixer DuplicateTypes.
Import ListNotations.
Open Scope Z_scope.

Section Ind.
Variable P : tnode -> Prop.
Hypotheses (HL : forall t x, P (Leaf t x)) (HP : forall t n, P n -> P (Par t n)) (HO : forall t i d l, Forall P l -> P (Op t i d l)).
Fixpoint tnode_ind' (n : tnode) : P n :=
  match n with
  | Leaf t x => HL t x
  | Par t m => HP t m (tnode_ind' m)
  | Op t i d l => HO t i d l ((fix all l : Forall P l := match l with [] => Forall_nil P | x :: r => Forall_cons x (tnode_ind' x) (all r) end) l)
  end.
End Ind.

(** The text of the constituents. *)
Fixpoint joined (inter : bool) (l : list tnode) : list item := match l with [] => [] | x :: r => print x ++ match r with [] => [] | _ => bar inter :: joined inter r end end.
Lemma print_op t inter leading l : print (Op t inter leading l) = (if leading then [bar inter] else []) ++ joined inter l.
Proof. cbn [print]. f_equal. induction l as [|x r IH]; [reflexivity|]. cbn [joined]. destruct r; [reflexivity|]. do 2 f_equal. exact IH. Qed.

Section Rule.
Variable error : Z -> bool.
Fixpoint loop (top inter : bool) (p : list nat) (par : Z * Z) (i : nat) (at_ : Z) (all_removed : bool) (l : list tnode) (c : cache) : list visit * cache :=
  match l with
  | [] => ([], c)
  | x :: r =>
      let fx := top || nonempty r || negb all_removed in
      let '(vs, c, removed) := check error (Place (p ++ [i]) x at_) par fx (inside error false inter (p ++ [i]) at_ x) c in
      let (ws, c) := loop top inter p par (S i) (at_ + size x + 1) (all_removed && removed) r c in
      (vs ++ ws, c)
  end.
Lemma inside_op top inter p pos t inter' leading l c : inside error top inter p pos (Op t inter' leading l) c =
  if Bool.eqb inter inter' then loop top inter p (pos, pos + size (Op t inter' leading l)) 0 (pos + if leading then 1 else 0) true l c else ([], c).
Proof.
  cbn [inside]. destruct (Bool.eqb inter inter'); [|reflexivity]. set (par := (pos, _)). generalize 0%nat (pos + (if leading then 1 else 0)) true c. clearbody par.
  induction l as [|x r IH]; intros i a ar d; [reflexivity|]. cbn [loop]. destruct (check _ _ _ _ _ _) as [[vs d'] rm]. rewrite IH. reflexivity.
Qed.

(** The outcome of each visit follows from what was cached before. *)
Definition judged (c : cache) (v : visit) : Prop :=
  if error (type_of (node (at_ v))) then found v = OError
  else match lookup (type_of (node (at_ v))) c with Some f => found v = ODuplicate f | None => found v = OFirst end.
Definition cached (c : cache) (v : visit) : cache := match found v with OFirst => (type_of (node (at_ v)), at_ v) :: c | _ => c end.
Inductive run : cache -> list visit -> cache -> Prop :=
| run_nil c : run c [] c
| run_cons c v vs c' : judged c v -> run (cached c v) vs c' -> run c (v :: vs) c'.
Lemma run_app c vs c1 ws c2 : run c vs c1 -> run c1 ws c2 -> run c (vs ++ ws) c2.
Proof. induction 1; intros H'; cbn [app]; auto. constructor; auto. Qed.
Lemma run_check me par fx deeper c : (forall d, run d (fst (deeper d)) (snd (deeper d))) -> let r := check error me par fx deeper c in run c (fst (fst r)) (snd (fst r)).
Proof.
  intros D. unfold check. destruct (error (type_of (node me))) eqn:E.
  - cbn. constructor; [|constructor]. red. cbn. now rewrite E.
  - destruct (lookup _ c) as [f|] eqn:L.
    + cbn. constructor; [|constructor]. red. cbn. now rewrite E, L.
    + specialize (D ((type_of (node me), me) :: c)). destruct (deeper _) as [vs c'] eqn:DE. cbn in *. constructor; [|exact D]. red. cbn. now rewrite E, L.
Qed.
Lemma run_inside n : forall top inter p pos c, run c (fst (inside error top inter p pos n c)) (snd (inside error top inter p pos n c)).
Proof.
  induction n as [t x|t n IH|t i d l IH] using tnode_ind'; intros top inter p pos c.
  - constructor.
  - cbn [inside]. apply IH.
  - rewrite inside_op. destruct (Bool.eqb inter i); [|constructor]. set (par := (pos, _)). generalize 0%nat (pos + (if d then 1 else 0)) true c. clearbody par. clear c.
    induction IH as [|x r HX HR IHr]; intros k a ar c; [constructor|]. cbn [loop].
    pose proof (run_check (Place (p ++ [k]) x a) par (top || nonempty r || negb ar) (inside error false inter (p ++ [k]) a x) c (fun d => HX false inter (p ++ [k]) a d)) as RC.
    destruct (check _ _ _ _ _ _) as [[vs d'] rm]. cbn in RC. specialize (IHr (S k) (a + size x + 1) (ar && rm) d'). destruct (loop _ _ _ _ _ _ _ _ _) as [ws d2]. cbn in *. eapply run_app; eauto.
Qed.
End Rule.

(** ** Which constituents are visited *)
From Verif Require Import DuplicateTypesSpec.
Lemma bar_operator i : bar i = operator i.
Proof. reflexivity. Qed.
Section Visited.
Variable error : Z -> bool.
Notation ins := (inside error).
Notation lp := (loop error).
(** A visit, with the visits inside it if it is the first of its type. *)
Lemma check_visits me par fx deeper c : exists v, at_ v = me /\ parent v = par /\ with_fix v = fx /\
  let r := check error me par fx deeper c in
  (fst (fst r) = [v] /\ found v <> OFirst /\ (snd r = true <-> exists f, found v = ODuplicate f) \/ exists d, fst (fst r) = v :: fst (deeper d) /\ found v = OFirst /\ snd r = false).
Proof.
  unfold check. destruct (error (type_of (node me))); [|destruct (lookup _ c) as [f|]].
  - exists (Visit me par fx OError). repeat split; auto. left. cbn. repeat split; try discriminate. intros (f & F); discriminate.
  - exists (Visit me par fx (ODuplicate f)). repeat split; auto. left. cbn. repeat split; try discriminate; eauto.
  - exists (Visit me par fx OFirst). repeat split; auto. right. exists ((type_of (node me), me) :: c). cbn. destruct (deeper _) as [vs c']. cbn. auto.
Qed.
(** The constituents from the [i]th on and what is inside them. *)
Lemma loop_cons top inter p par i a ar x r c : exists v d vs, at_ v = Place (p ++ [i]) x a /\ parent v = par /\ with_fix v = top || nonempty r || negb ar /\
  (vs = [] /\ found v <> OFirst \/ vs = fst (ins false inter (p ++ [i]) a x d) /\ found v = OFirst) /\
  exists rm c', (rm = true <-> exists f, found v = ODuplicate f) /\ fst (lp top inter p par i a ar (x :: r) c) = v :: vs ++ fst (lp top inter p par (S i) (a + size x + 1) (ar && rm) r c').
Proof.
  cbn [loop]. set (fx := top || nonempty r || negb ar). destruct (check_visits (Place (p ++ [i]) x a) par fx (ins false inter (p ++ [i]) a x) c) as (v & V1 & V2 & V3 & H).
  destruct (check _ _ _ _ _ _) as [[vs c1] rm]. cbn in H. destruct (lp top inter p par (S i) (a + size x + 1) (ar && rm) r c1) as [ws c2] eqn:L. cbn [fst].
  destruct H as [(H1 & H2 & H3)|(d & H1 & H2 & H3)].
  - exists v, c, []. repeat split; auto. exists rm, c1. split; [exact H3|]. rewrite L. now rewrite H1.
  - exists v, d, (fst (ins false inter (p ++ [i]) a x d)). repeat split; auto. exists rm, c1. split; [|rewrite L; now rewrite H1]. rewrite H3. split; [discriminate|]. intros (f & F). congruence.
Qed.
(** Paths below [p]. *)
Definition under (p : list nat) (v : visit) : Prop := exists i q, path (at_ v) = p ++ i :: q.
Definition from (p : list nat) (k : nat) (v : visit) : Prop := exists i q, path (at_ v) = p ++ i :: q /\ (k <= i)%nat.
Lemma loop_from n_under top inter p par : forall l, Forall (fun x => forall top p pos c, Forall (under p) (fst (ins top inter p pos x c))) l -> n_under = true -> forall i a ar c, Forall (from p i) (fst (lp top inter p par i a ar l c)).
Proof.
  intros l F _. induction F as [|x r HX HR IH]; intros i a ar c; [constructor|].
  destruct (loop_cons top inter p par i a ar x r c) as (v & d & vs & V1 & V2 & V3 & V4 & rm & c' & _ & ->). constructor.
  - exists i, []. rewrite V1. cbn. split; auto.
  - apply Forall_app. split.
    + destruct V4 as [[-> _]|[-> _]]; [constructor|]. eapply Forall_impl; [|apply HX]. intros w (j & q & E). exists i, (j :: q). rewrite E, <- app_assoc. cbn. split; auto.
    + eapply Forall_impl; [|apply IH]. intros w (j & q & E & L). exists j, q. split; auto. lia.
Qed.
Lemma inside_under inter n : forall top p pos c, Forall (under p) (fst (ins top inter p pos n c)).
Proof.
  induction n as [t x|t n IH|t i d l IH] using tnode_ind'; intros top p pos c.
  - constructor.
  - cbn [inside]. apply IH.
  - rewrite inside_op. destruct (Bool.eqb inter i); [|constructor]. eapply Forall_impl; [|apply (loop_from true); auto]. intros w (j & q & E & _). exists j, q. auto.
Qed.
Lemma loop_paths top inter p par l i a ar c : Forall (from p i) (fst (lp top inter p par i a ar l c)).
Proof. apply (loop_from true); auto. apply Forall_forall. intros x _ t q pos d. apply inside_under. Qed.
Notation order := (fun v w : visit => precedes (path (at_ v)) (path (at_ w))).
Lemma sorted_app {A} (R : A -> A -> Prop) l m : StronglySorted R l -> StronglySorted R m -> (forall x y, In x l -> In y m -> R x y) -> StronglySorted R (l ++ m).
Proof.
  induction 1 as [|x l HL IH HF]; intros M C; cbn [app]; auto. constructor.
  - apply IH; auto. intros; apply C; cbn; auto.
  - apply Forall_app. split; auto. apply Forall_forall. intros y Y. apply C; cbn; auto.
Qed.
Lemma inside_sorted inter n : forall top p pos c, StronglySorted order (fst (ins top inter p pos n c)).
Proof.
  induction n as [t x|t n IH|t i d l IH] using tnode_ind'; intros top p pos c.
  - constructor.
  - cbn [inside]. apply IH.
  - rewrite inside_op. destruct (Bool.eqb inter i); [|constructor]. set (par := (pos, _)). generalize 0%nat (pos + (if d then 1 else 0)) true c. clearbody par. clear c.
    induction IH as [|x r HX HR IHr]; intros k a ar c; [constructor|].
    destruct (loop_cons top inter p par k a ar x r c) as (v & e & vs & V1 & V2 & V3 & V4 & rm & c' & _ & ->).
    assert (U : forall w, In w vs -> exists j q, path (at_ w) = (p ++ [k]) ++ j :: q). { intros w W. destruct V4 as [[-> _]|[-> _]]; [destruct W|]. exact (proj1 (Forall_forall _ _) (inside_under inter x false (p ++ [k]) a e) w W). }
    assert (T : forall w, In w (fst (lp top inter p par (S k) (a + size x + 1) (ar && rm) r c')) -> from p (S k) w) by (apply Forall_forall, loop_paths).
    constructor.
    + apply sorted_app; auto.
      * destruct V4 as [[-> _]|[-> _]]; [constructor|]. apply HX.
      * intros w z W Z. destruct (U w W) as (j & q & E). destruct (T z Z) as (j' & q' & E' & L). rewrite E, E', <- app_assoc. cbn. apply pr_left. lia.
    + rewrite V1. cbn [path]. apply Forall_app. split; apply Forall_forall; intros w W.
      * destruct (U w W) as (j & q & E). rewrite E. apply pr_in.
      * destruct (T w W) as (j & q & E & L). rewrite E. apply (pr_left p k j [] q). lia.
Qed.
Lemma precedes_irrefl p : ~ precedes p p.
Proof.
  intros H. remember p as q in H at 2. revert Heqq. destruct H as [p i q|p i j q r L]; intros E.
  - rewrite <- (app_nil_r p) in E at 2. apply app_inv_head in E. discriminate.
  - apply app_inv_head in E. injection E as E _. lia.
Qed.
(** Positions in the loop. *)
Definition texts (inter : bool) (pre : list tnode) : list item := concat (map (fun y => print y ++ [operator inter]) pre).
Lemma texts_snoc inter pre x : zlen (texts inter (pre ++ [x])) = zlen (texts inter pre) + size x + 1.
Proof. unfold texts, size, zlen. rewrite map_app, concat_app. cbn [map concat]. rewrite !app_length. cbn [length]. lia. Qed.
Lemma zlen_app {A} (x y : list A) : zlen (x ++ y) = zlen x + zlen y.
Proof. unfold zlen. rewrite app_length. lia. Qed.
Definition lastp {A} (l : list A) : bool := match l with [] => true | _ => false end.
Lemma directly_loop inter n pos p k t leading pre x post : peeled n k (Op t inter leading (pre ++ x :: post)) ->
  directly inter n pos p (p ++ [length pre]) x (pos + Z.of_nat k + (if leading then 1 else 0) + zlen (texts inter pre)) (pos + Z.of_nat k, pos + Z.of_nat k + size (Op t inter leading (pre ++ x :: post))) (lastp post).
Proof. intros H. exists k, t, leading, pre, post. repeat split; auto. rewrite zlen_app. unfold texts. destruct leading; unfold zlen; cbn [length]; lia. Qed.
Lemma peeled_fun n : forall k t i d l k' t' i' d' l', peeled n k (Op t i d l) -> peeled n k' (Op t' i' d' l') -> k = k' /\ Op t i d l = Op t' i' d' l'.
Proof.
  induction n as [t0 x|t0 n IH|t0 i0 d0 l0 _] using tnode_ind'; intros k t i d l k' t' i' d' l' H H'; inversion H; inversion H'; subst; auto.
  match goal with A : peeled n ?a (Op t i d l), B : peeled n ?b (Op t' i' d' l') |- _ => destruct (IH _ _ _ _ _ _ _ _ _ _ A B) as [E1 E2] end. subst. auto.
Qed.
(** Every direct constituent is visited. *)
Lemma loop_direct top inter p par : forall post i a ar c pre x,
  exists v, In v (fst (lp top inter p par i a ar (pre ++ x :: post) c)) /\ at_ v = Place (p ++ [i + length pre]%nat) x (a + zlen (texts inter pre)) /\ parent v = par.
Proof.
  intros post i a ar c pre. revert i a ar c. induction pre as [|y pre IH]; intros i a ar c x.
  - cbn [app]. destruct (loop_cons top inter p par i a ar x post c) as (v & d & vs & V1 & V2 & V3 & V4 & rm & c' & _ & ->). exists v. split; [now left|]. split; auto. rewrite V1. cbn. unfold zlen. cbn [length]. now rewrite Nat.add_0_r, Z.add_0_r.
  - cbn [app]. destruct (loop_cons top inter p par i a ar y (pre ++ x :: post) c) as (v & d & vs & V1 & V2 & V3 & V4 & rm & c' & _ & ->).
    destruct (IH (S i) (a + size y + 1) (ar && rm) c' x) as (w & W1 & W2 & W3). exists w. split; [right; apply in_or_app; auto|]. split; auto. rewrite W2.
    assert (EI : (S i + length pre = i + length (y :: pre))%nat) by (cbn [length]; lia). rewrite EI.
    f_equal. unfold texts, size, zlen. cbn [map concat]. rewrite !app_length. cbn [length]. lia.
Qed.
Lemma inside_peeled n k m : peeled n k m -> forall top inter p pos c, ins top inter p pos n c = ins top inter p (pos + Z.of_nat k) m c.
Proof. induction 1 as [n|t n k m H IH]; intros top inter p pos c; [cbn [Z.of_nat]; now rewrite Z.add_0_r|]. cbn [inside]. rewrite IH. f_equal. lia. Qed.
Lemma inside_direct top inter p pos n c q x a par la : directly inter n pos p q x a par la -> exists v, In v (fst (ins top inter p pos n c)) /\ at_ v = Place q x a /\ parent v = par.
Proof.
  intros (k & t & leading & pre & post & PE & -> & -> & -> & _). rewrite (inside_peeled _ _ _ PE), inside_op, Bool.eqb_reflx.
  destruct (loop_direct top inter p (pos + Z.of_nat k, pos + Z.of_nat k + size (Op t inter leading (pre ++ x :: post))) post 0%nat (pos + Z.of_nat k + (if leading then 1 else 0)) true c pre x) as (v & V1 & V2 & V3).
  exists v. split; [exact V1|]. split; [rewrite V2|exact V3]. cbn [Nat.add]. f_equal. rewrite zlen_app. unfold texts. destruct leading; unfold zlen; cbn [length]; lia.
Qed.
(** What is inside a first one is visited. *)
Lemma inside_closed inter n : forall top p pos c w, In w (fst (ins top inter p pos n c)) -> found w = OFirst -> forall r y a' par' la, directly inter (node (at_ w)) (start (at_ w)) (path (at_ w)) r y a' par' la ->
  exists v, In v (fst (ins top inter p pos n c)) /\ at_ v = Place r y a' /\ parent v = par'.
Proof.
  induction n as [t x|t n IH|t i d l IH] using tnode_ind'; intros top p pos c w W F r y a' par' la D.
  - destruct W.
  - cbn [inside] in *. eapply IH; eauto.
  - rewrite inside_op in *. destruct (Bool.eqb inter i); [|destruct W]. revert W. set (par := (pos, _)). generalize 0%nat (pos + (if d then 1 else 0)) true c. clearbody par. clear c.
    induction IH as [|x rr HX HR IHr]; intros k a ar c W; [destruct W|].
    destruct (loop_cons top inter p par k a ar x rr c) as (v & e & vs & V1 & V2 & V3 & V4 & rm & c' & _ & EQ). rewrite EQ in W |- *.
    destruct W as [<-|W]; [|apply in_app_or in W; destruct W as [W|W]].
    + destruct V4 as [[_ V4]|[V4 _]]; [contradiction|]. rewrite V1 in D. cbn in D. destruct (inside_direct false inter (p ++ [k]) a x e _ _ _ _ _ D) as (u & U1 & U2 & U3). exists u. split; auto. right. apply in_or_app. left. now rewrite V4.
    + destruct V4 as [[-> V4]|[-> V4]]; [destruct W|]. destruct (HX false (p ++ [k]) a e w W F _ _ _ _ _ D) as (u & U1 & U2). exists u. split; auto. right. apply in_or_app. now left.
    + destruct (IHr _ _ _ _ W) as (u & U1 & U2). exists u. split; auto. right. apply in_or_app. now right.
Qed.
(** Nothing else is visited; the flag for a fix. *)
Definition fix_flag (top : bool) (p : list nat) (vs : list visit) (v : visit) (la : bool) : Prop :=
  exists i, path (at_ v) = p ++ [i] /\ (with_fix v = true <-> top = true \/ la = false \/ exists w j, In w vs /\ path (at_ w) = p ++ [j] /\ (j < i)%nat /\ forall f, found w <> ODuplicate f).
Lemma fix_flag_more top p xs ys v la : (forall w, In w xs -> In w ys) -> (forall w j, In w ys -> path (at_ w) = p ++ [j] -> In w xs) -> fix_flag top p xs v la -> fix_flag top p ys v la.
Proof.
  intros A B (i & E & H). exists i. split; auto. rewrite H. split; intros [C|[C|(w & j & W & P & L & D)]]; auto; right; right; exists w, j; repeat split; auto. eapply B; eauto.
Qed.
Definition sound (inter : bool) (n : tnode) : Prop := forall top p pos c v, let vs := fst (ins top inter p pos n c) in In v vs ->
  (exists la, directly inter n pos p (path (at_ v)) (node (at_ v)) (start (at_ v)) (parent v) la /\ fix_flag top p vs v la) \/
  exists w la, In w vs /\ found w = OFirst /\ directly inter (node (at_ w)) (start (at_ w)) (path (at_ w)) (path (at_ v)) (node (at_ v)) (start (at_ v)) (parent v) la /\ fix_flag false (path (at_ w)) vs v la.
Lemma directly_path inter n pos p q x a par la : directly inter n pos p q x a par la -> exists i, q = p ++ [i].
Proof. intros (k & t & d & pre & post & _ & E & _). eauto. Qed.
Lemma loop_sound top inter p par : forall l, Forall (sound inter) l -> forall i a ar c v, let vs := fst (lp top inter p par i a ar l c) in In v vs ->
  (exists pre x post, l = pre ++ x :: post /\ at_ v = Place (p ++ [i + length pre]%nat) x (a + zlen (texts inter pre)) /\ parent v = par /\
     (with_fix v = true <-> top = true \/ lastp post = false \/ ar = false \/ exists w j, In w vs /\ path (at_ w) = p ++ [j] /\ (j < i + length pre)%nat /\ forall f, found w <> ODuplicate f)) \/
  exists w la, In w vs /\ found w = OFirst /\ directly inter (node (at_ w)) (start (at_ w)) (path (at_ w)) (path (at_ v)) (node (at_ v)) (start (at_ v)) (parent v) la /\ fix_flag false (path (at_ w)) vs v la.
Proof.
  intros l F. induction F as [|x r HX HR IH]; intros i a ar c v vs V; [destruct V|]. subst vs.
  destruct (loop_cons top inter p par i a ar x r c) as (v0 & e & xs & V1 & V2 & V3 & V4 & rm & c' & RM & EQ). rewrite EQ in V |- *.
  set (ws := fst (lp top inter p par (S i) (a + size x + 1) (ar && rm) r c')) in *.
  assert (U : forall w, In w xs -> exists j q, path (at_ w) = (p ++ [i]) ++ j :: q). { intros w W. destruct V4 as [[-> _]|[-> _]]; [destruct W|]. exact (proj1 (Forall_forall _ _) (inside_under inter x false (p ++ [i]) a e) w W). }
  assert (T : forall w, In w ws -> from p (S i) w) by (apply Forall_forall, loop_paths).
  destruct V as [<-|V]; [|apply in_app_or in V; destruct V as [V|V]].
  - left. exists [], x, r. cbn [app length]. rewrite Nat.add_0_r. replace (a + zlen (texts inter [])) with a by (unfold texts, zlen; cbn; lia). repeat split; auto.
    + rewrite V3. intros H. apply orb_prop in H. destruct H as [H|H]; [apply orb_prop in H; destruct H as [H|H]; auto|].
      * right. left. destruct r; [discriminate|reflexivity].
      * right. right. left. now apply negb_true_iff.
    + rewrite V3. intros [-> |[H|[-> |(w & j & [<-|W] & P & L & D)]]]; auto.
      * destruct r; [discriminate|]. cbn. now rewrite orb_true_r.
      * cbn. now rewrite orb_true_r.
      * rewrite V1 in P. cbn in P. apply app_inv_head in P. injection P as P. lia.
      * exfalso. apply in_app_or in W. destruct W as [W|W].
        -- destruct (U w W) as (j' & q & E). rewrite E, <- app_assoc in P. apply app_inv_head in P. discriminate.
        -- destruct (T w W) as (j' & q & E & L'). rewrite E in P. apply app_inv_head in P. injection P as P _. lia.
  - right. destruct V4 as [[-> _]|[EX V4]]; [destruct V|]. rewrite EX in V.
    assert (M : forall w q j, In w (v0 :: xs ++ ws) -> path (at_ w) = (p ++ i :: q) ++ [j] -> In w xs).
    { intros w q j [<-|W] P; [|apply in_app_or in W; destruct W as [W|W]]; auto.
      - rewrite V1 in P. cbn in P. rewrite <- app_assoc in P. apply app_inv_head in P. destruct q; discriminate.
      - destruct (T w W) as (j' & q' & E & L'). rewrite E, <- app_assoc in P. apply app_inv_head in P. injection P as P _. lia. }
    destruct (HX false (p ++ [i]) a e v V) as [(la & D & G)|(w & la & W1 & W2 & D & G)].
    + exists v0, la. repeat split; auto; [now left|rewrite V1; exact D|]. rewrite V1. cbn [path]. eapply fix_flag_more; [| |exact G]; rewrite <- EX.
      * intros w W. right. apply in_or_app. now left.
      * intros w j W P. apply (M w [] j W). exact P.
    + rewrite <- EX in W1, G. exists w, la. repeat split; auto; [right; apply in_or_app; now left|]. eapply fix_flag_more; [| |exact G].
      * intros z Z. right. apply in_or_app. now left.
      * intros z j Z P. destruct (U w W1) as (j' & q & E). rewrite <- app_assoc in E. cbn [app] in E. rewrite E in P. exact (M z (j' :: q) j Z P).
  - destruct (IH (S i) (a + size x + 1) (ar && rm) c' v V) as [(pre & y & post & EL & A & PA & FX)|(w & la & W1 & W2 & D & G)]; fold ws in W1, G || fold ws in FX.
    + left. exists (x :: pre), y, post. repeat split.
      * now rewrite EL.
      * rewrite A. cbn [length]. replace (S i + length pre)%nat with (i + S (length pre))%nat by lia. f_equal. unfold texts, size, zlen. cbn [map concat]. rewrite !app_length. cbn [length]. lia.
      * exact PA.
      * intros H. apply FX in H. destruct H as [H|[H|[H|(w & j & W & P & L & D)]]]; auto.
        -- apply andb_false_iff in H. destruct H as [H|H]; auto. right. right. right. exists v0, i. split; [now left|]. rewrite V1. cbn. repeat split; [lia|]. intros f E. assert (rm = true) by (apply RM; eauto). congruence.
        -- right. right. right. exists w, j. split; [right; apply in_or_app; now right|]. repeat split; auto. cbn [length]. lia.
      * intros H. apply FX. destruct H as [H|[H|[-> |(w & j & W & P & L & D)]]]; auto. destruct W as [<-|W]; [|apply in_app_or in W; destruct W as [W|W]].
        -- right. right. left. apply andb_false_iff. right. destruct rm; auto. destruct (proj1 RM eq_refl) as (f & E). destruct (D f E).
        -- destruct (U w W) as (j' & q & E). rewrite E, <- app_assoc in P. apply app_inv_head in P. discriminate.
        -- right. right. right. exists w, j. repeat split; auto. cbn [length] in L. lia.
    + right. exists w, la. repeat split; auto; [right; apply in_or_app; now right|]. destruct (T w W1) as (j' & q & E & L'). eapply fix_flag_more; [| |exact G].
      * intros z Z. right. apply in_or_app. now right.
      * intros z j [<-|Z] P; [|apply in_app_or in Z; destruct Z as [Z|Z]]; auto; exfalso; rewrite E, <- app_assoc in P.
        -- rewrite V1 in P. cbn in P. apply app_inv_head in P. injection P as P _. lia.
        -- destruct (U z Z) as (j2 & q2 & E2). rewrite E2, <- app_assoc in P. apply app_inv_head in P. injection P as P _. lia.
Qed.
Lemma directly_peeled inter n pos p q x a par la t : directly inter n (pos + 1) p q x a par la -> directly inter (Par t n) pos p q x a par la.
Proof.
  intros (k & t' & d & pre & post & P & -> & -> & -> & ->). exists (S k), t', d, pre, post. repeat split; [now constructor| |]; rewrite Nat2Z.inj_succ; f_equal; lia.
Qed.
Lemma inside_sound inter n : sound inter n.
Proof.
  induction n as [t x|t n IH|t i d l IH] using tnode_ind'; intros top p pos c v vs V; subst vs.
  - destruct V.
  - cbn [inside] in *. destruct (IH _ _ _ _ _ V) as [(la & D & G)|H]; [|now right]. left. exists la. split; auto. now apply directly_peeled.
  - rewrite inside_op in *. destruct (Bool.eqb inter i) eqn:EI; [|destruct V]. apply eqb_prop in EI. subst i.
    destruct (loop_sound top inter p _ l IH _ _ _ _ _ V) as [(pre & x & post & EL & A & PA & FX)|H]; [|now right].
    left. exists (lastp post). split.
    + rewrite A, PA. cbn [path node start]. subst l. pose proof (directly_loop inter _ pos p 0 t d pre x post (pe_here _)) as D. cbn [Z.of_nat] in D. rewrite Z.add_0_r in D. exact D.
    + exists (length pre). rewrite A. split; [reflexivity|]. rewrite FX. cbn [Nat.add]. split; intros H; [destruct H as [H|[H|[H|H]]]|destruct H as [H|[H|H]]]; auto; discriminate.
Qed.
End Visited.

(** ** Outcomes *)
Section Outcomes.
Variable error : Z -> bool.
Notation order := (fun v w : visit => precedes (path (at_ v)) (path (at_ w))).
Definition judged_in (vs : list visit) (v : visit) : Prop :=
  match found v with
  | OError => error (type_of (node (at_ v))) = true
  | OFirst => error (type_of (node (at_ v))) = false /\ forall w, In w vs -> found w = OFirst -> order w v -> type_of (node (at_ w)) <> type_of (node (at_ v))
  | ODuplicate f => error (type_of (node (at_ v))) = false /\ exists w, In w vs /\ found w = OFirst /\ order w v /\ type_of (node (at_ w)) = type_of (node (at_ v)) /\ at_ w = f
  end.
Definition cache_of (vs : list visit) (c : cache) : Prop :=
  (forall t f, lookup t c = Some f -> exists w, In w vs /\ found w = OFirst /\ at_ w = f /\ type_of (node f) = t) /\
  (forall w, In w vs -> found w = OFirst -> lookup (type_of (node (at_ w))) c <> None).
Lemma run_judged c vs c' : run error c vs c' -> forall us, cache_of us c -> StronglySorted order (us ++ vs) -> (forall v w, In v (us ++ vs) -> In w (us ++ vs) -> order v w -> order w v -> False) -> forall v, In v vs -> judged_in (us ++ vs) v.
Proof.
  induction 1 as [c|c v vs c' J R IH]; intros us C S X u U; [destruct U|].
  destruct U as [<-|U].
  - red in J. red. destruct (error (type_of (node (at_ v)))) eqn:E; [now rewrite J|]. destruct C as [C1 C2].
    assert (B : forall w, In w (us ++ v :: vs) -> order w v -> In w us).
    { intros w W O. apply in_app_or in W. destruct W as [W|W]; auto. exfalso. assert (S' : StronglySorted order (v :: vs)). { clear -S. induction us as [|x us IH]; auto. inversion S; subst; auto. }
      apply StronglySorted_inv in S'. destruct S' as [_ F]. destruct W as [<-|W]; [exact (precedes_irrefl _ O)|]. rewrite Forall_forall in F. apply (X v w); auto using in_or_app, in_cons, in_eq. }
    destruct (lookup _ c) as [f|] eqn:L; rewrite J.
    + split; auto. destruct (C1 _ _ L) as (w & W & F & A & T). exists w. repeat split; auto using in_or_app; [|now rewrite A].
      clear -S W. induction us as [|x us IH]; [destruct W|]. inversion S; subst. destruct W as [->|W]; auto. rewrite Forall_forall in H2. apply H2. apply in_or_app. right. now left.
    + split; auto. intros w W F O T. apply (C2 w (B w W O) F). now rewrite T.
  - replace (us ++ v :: vs) with ((us ++ [v]) ++ vs) in * by (rewrite <- app_assoc; reflexivity). apply IH; auto. destruct C as [C1 C2]. red in J. unfold cached. split.
    + intros t f L. assert (OLD : lookup t c = Some f -> exists w, In w (us ++ [v]) /\ found w = OFirst /\ at_ w = f /\ type_of (node f) = t). { intros L'. destruct (C1 _ _ L') as (w & W & H). exists w. split; auto using in_or_app. }
      destruct (found v) eqn:F; auto. cbn in L. destruct (Z.eqb_spec (type_of (node (at_ v))) t) as [E|E]; auto. injection L as <-. exists v. repeat split; auto. apply in_or_app. right. now left.
    + intros w W F. apply in_app_or in W. destruct W as [W|[<-|[]]].
      * specialize (C2 w W F). destruct (found v); auto. cbn. destruct (_ =? _); [discriminate|auto].
      * rewrite F. cbn. rewrite Z.eqb_refl. discriminate.
Qed.
End Outcomes.
Fixpoint plt (p q : list nat) : Prop :=
  match p, q with [], _ :: _ => True | i :: p, j :: q => (i < j)%nat \/ i = j /\ plt p q | _, _ => False end.
Lemma precedes_plt p q : precedes p q -> plt p q.
Proof.
  intros [a i r|a i j r t L].
  - induction a as [|x a IH]; cbn; auto.
  - induction a as [|x a IH]; cbn; auto.
Qed.
Lemma plt_asym : forall p q, plt p q -> plt q p -> False.
Proof. induction p as [|i p IH]; intros [|j q]; cbn; auto. intros [A|[A B]] [C|[C D]]; try lia. eapply IH; eauto. Qed.
Lemma precedes_asym p q : precedes p q -> precedes q p -> False.
Proof. intros A B. exact (plt_asym _ _ (precedes_plt _ _ A) (precedes_plt _ _ B)). Qed.

Section All.
Variables (error : Z -> bool) (t : Z) (inter leading : bool) (l : list tnode) (pos : Z).
Notation root := (Op t inter leading l).
Notation vs := (visits error pos root).
Notation order := (fun v w : visit => precedes (path (at_ v)) (path (at_ w))).
Lemma visits_sorted : StronglySorted order vs.
Proof. apply inside_sorted. Qed.
Lemma visits_judged v : In v vs -> judged_in error vs v.
Proof.
  intros V. apply (run_judged error [] vs (snd (inside error true inter [] pos root [])) (run_inside error root true inter [] pos []) []); cbn [app]; auto using visits_sorted.
  - split; [discriminate|intros w []].
  - intros a c _ _. apply precedes_asym.
Qed.
Lemma sorted_unique (us : list visit) : StronglySorted order us -> forall v w, In v us -> In w us -> path (at_ v) = path (at_ w) -> v = w.
Proof.
  induction 1 as [|x us S IH F]; intros v w V W E; [destruct V|]. rewrite Forall_forall in F. destruct V as [<-|V], W as [<-|W]; auto.
  - specialize (F _ W). cbn in F. rewrite E in F. destruct (precedes_irrefl _ F).
  - specialize (F _ V). cbn in F. rewrite E in F. destruct (precedes_irrefl _ F).
Qed.
Lemma visits_unique v w : In v vs -> In w vs -> path (at_ v) = path (at_ w) -> v = w.
Proof. apply sorted_unique, visits_sorted. Qed.
Lemma visits_path v : In v vs -> path (at_ v) <> [].
Proof. intros V E. pose proof (proj1 (Forall_forall _ _) (inside_under error inter root true [] pos []) v V) as (i & q & H). rewrite E in H. discriminate. Qed.
Definition firsts (q : list nat) : Prop := exists w, In w vs /\ path (at_ w) = q /\ found w = OFirst.
Lemma visits_looked v : In v vs -> exists la, looked inter firsts root pos (path (at_ v)) (node (at_ v)) (start (at_ v)) (parent v) la /\
  (with_fix v = true <-> length (path (at_ v)) = 1%nat \/ la = false \/
     exists w p i j, In w vs /\ path (at_ v) = p ++ [i] /\ path (at_ w) = p ++ [j] /\ (j < i)%nat /\ forall f, found w <> ODuplicate f).
Proof.
  remember (length (path (at_ v))) as k eqn:EK. revert v EK. induction k as [k IH] using lt_wf_ind. intros v EK V.
  assert (SIB : forall top p la, fix_flag top p vs v la -> (with_fix v = true <-> top = true \/ la = false \/
     exists w p i j, In w vs /\ path (at_ v) = p ++ [i] /\ path (at_ w) = p ++ [j] /\ (j < i)%nat /\ forall f, found w <> ODuplicate f)).
  { intros top p la (i & E & H). rewrite H. split; intros [A|[A|A]]; auto; right; right.
    - destruct A as (w & j & W & P & L & D). exists w, p, i, j. auto.
    - destruct A as (w & p' & i' & j & W & P & P' & L & D). rewrite E in P. apply app_inj_tail in P. destruct P as [-> ->]. exists w, j. auto. }
  destruct (inside_sound error inter root true [] pos [] v V) as [(la & D & G)|(w & la & W1 & W2 & D & G)].
  - exists la. split; [now apply lk_top|]. rewrite (SIB _ _ _ G). destruct (directly_path _ _ _ _ _ _ _ _ _ D) as (i & E). rewrite EK, E. cbn [app length]. tauto.
  - destruct (directly_path _ _ _ _ _ _ _ _ _ D) as (i & E). destruct (IH (length (path (at_ w)))) with (v := w) as (la' & K & _); auto.
    { rewrite EK, E, app_length. cbn. lia. }
    exists la. split; [eapply lk_in; [exact K|exists w; auto|exact D]|]. rewrite (SIB _ _ _ G), EK, E, app_length. cbn [length].
    assert (NE : length (path (at_ w)) <> 0%nat). { intros H. apply length_zero_iff_nil in H. exact (visits_path w W1 H). }
    split; intros [A|[A|A]]; auto; [discriminate|lia].
Qed.
Lemma looked_visits q x a par la : looked inter firsts root pos q x a par la -> exists v, In v vs /\ at_ v = Place q x a /\ parent v = par.
Proof.
  induction 1 as [q x a par la D|q x a par la r y a' par' la' K IH (w & W & P & F) D].
  - exact (inside_direct error true inter [] pos root [] _ _ _ _ _ D).
  - destruct IH as (v & V & A & _). assert (v = w) by (apply visits_unique; auto; now rewrite A, P). subst w.
    apply (inside_closed error inter root true [] pos [] v V F) with (la := la'). now rewrite A.
Qed.
End All.

(** ** Meaning *)
Fixpoint kids (inter : bool) (n : tnode) : list tnode :=
  match n with Leaf _ _ => [] | Par _ m => kids inter m | Op _ i _ l => if Bool.eqb inter i then l else [] end.
Fixpoint at_path (inter : bool) (n : tnode) (r : list nat) : option tnode :=
  match r with [] => Some n | i :: r => match nth_error (kids inter n) i with Some x => at_path inter x r | None => None end end.
Lemma at_path_app inter : forall p n q, at_path inter n (p ++ q) = match at_path inter n p with Some x => at_path inter x q | None => None end.
Proof. induction p as [|i p IH]; intros n q; cbn [app at_path]; auto. destruct (nth_error (kids inter n) i); auto. Qed.
Lemma kids_peeled inter n k m : peeled n k m -> kids inter n = kids inter m.
Proof. induction 1; auto. Qed.
Lemma nth_error_mid {A} (x : A) pre post : nth_error (pre ++ x :: post) (length pre) = Some x.
Proof. rewrite nth_error_app2, Nat.sub_diag; auto. Qed.
Lemma directly_kid inter n pos p q x a par la : directly inter n pos p q x a par la -> exists i, q = p ++ [i] /\ nth_error (kids inter n) i = Some x.
Proof.
  intros (k & t & d & pre & post & P & -> & _). exists (length pre). split; auto. rewrite (kids_peeled _ _ _ _ P). cbn. rewrite Bool.eqb_reflx. apply nth_error_mid.
Qed.
Lemma looked_path inter first n pos q x a par la : looked inter first n pos q x a par la -> at_path inter n q = Some x.
Proof.
  induction 1 as [q x a par la D|q x a par la r y a' par' la' K IH F D]; destruct (directly_kid _ _ _ _ _ _ _ _ _ D) as (i & -> & E); cbn [app at_path].
  - now rewrite E.
  - rewrite at_path_app, IH. cbn. now rewrite E.
Qed.
Section Named.
Context {value : Type}.
Variable mean : Z -> value -> Prop.
Fixpoint kept (gone : list nat -> bool) (inter : bool) (p : list nat) (i : nat) (l : list tnode) : list tnode :=
  match l with [] => [] | x :: r => if gone (p ++ [i]) then kept gone inter p (S i) r else without gone inter (p ++ [i]) x :: kept gone inter p (S i) r end.
Lemma without_op gone inter p t inter' d l : without gone inter p (Op t inter' d l) = if Bool.eqb inter inter' then Op t inter' d (kept gone inter p 0 l) else Op t inter' d l.
Proof.
  cbn [without]. destruct (Bool.eqb inter inter'); auto. f_equal. generalize 0%nat. induction l as [|x r IH]; intros i; auto. cbn [kept]. rewrite IH. reflexivity.
Qed.
Lemma den_all t d l v : den mean (Op t true d l) v <-> forall x, In x l -> den mean x v.
Proof.
  cbn [den]. induction l as [|x r IH]; [split; [intros _ y []|auto]|]. rewrite IH. split.
  - intros [A B] y [<-|Y]; auto.
  - intros H. split; [apply H; now left|intros y Y; apply H; now right].
Qed.
Lemma den_any t d l v : den mean (Op t false d l) v <-> exists x, In x l /\ den mean x v.
Proof.
  cbn [den]. induction l as [|x r IH]; [split; [intros []|intros (y & [] & _)]|]. rewrite IH. split.
  - intros [A|(y & Y & D)]; [exists x|exists y]; split; auto; [now left|now right].
  - intros (y & [<-|Y] & D); eauto.
Qed.
Lemma in_kept gone inter p l : forall i y, In y (kept gone inter p i l) <-> exists k x, nth_error l k = Some x /\ gone (p ++ [i + k]%nat) = false /\ y = without gone inter (p ++ [i + k]%nat) x.
Proof.
  induction l as [|x r IH]; intros i y; cbn [kept].
  - split; [intros []|]. intros ([|k] & z & E & _); discriminate.
  - assert (T : In y (kept gone inter p (S i) r) <-> exists k z, nth_error (x :: r) (S k) = Some z /\ gone (p ++ [i + S k]%nat) = false /\ y = without gone inter (p ++ [i + S k]%nat) z).
    { rewrite IH. split; intros (k & z & H); exists k, z; cbn [nth_error]; now replace (i + S k)%nat with (S i + k)%nat in * by lia. }
    destruct (gone (p ++ [i])) eqn:G.
    + rewrite T. split; [intros (k & z & H); exists (S k), z; exact H|]. intros ([|k] & z & E & H); [rewrite Nat.add_0_r in H; destruct H; congruence|]. eauto.
    + cbn [In]. rewrite T. split.
      * intros [<-|(k & z & H)]; [exists 0%nat, x; rewrite Nat.add_0_r; auto|exists (S k), z; exact H].
      * intros ([|k] & z & E & H); [left|right; eauto]. rewrite Nat.add_0_r in H. cbn in E. injection E as <-. symmetry. apply H.
Qed.
(** Nothing is added by leaving something out. *)
Lemma without_le gone (inter : bool) v : forall n p, if inter then den mean n v -> den mean (without gone inter p n) v else den mean (without gone inter p n) v -> den mean n v.
Proof.
  induction n as [t x|t n IH|t i d l IH] using tnode_ind'; intros p.
  - destruct inter; auto.
  - cbn [without den]. apply IH.
  - rewrite without_op. destruct (Bool.eqb inter i) eqn:E; [|destruct inter; auto]. apply eqb_prop in E. subst i. rewrite Forall_forall in IH. destruct inter.
    + rewrite !den_all. intros H y Y. apply in_kept in Y. destruct Y as (k & x & N & _ & ->). apply (IH x); eauto using nth_error_In.
    + rewrite !den_any. intros (y & Y & H). apply in_kept in Y. destruct Y as (k & x & N & _ & ->). exists x. split; eauto using nth_error_In.
Qed.
Definition good (inter : bool) (K P : Prop) : Prop := if inter then K -> P else P -> K.
Lemma good_kid inter K n v i x : good inter K (den mean n v) -> nth_error (kids inter n) i = Some x -> good inter K (den mean x v).
Proof.
  revert i x. induction n as [t y|t n IH|t j d l _] using tnode_ind'; intros i x G N; cbn [kids] in N.
  - destruct i; discriminate.
  - eapply IH; eauto.
  - destruct (Bool.eqb inter j) eqn:E; [|destruct i; discriminate]. apply eqb_prop in E. subst j. unfold good in *. destruct inter.
    + intros k. apply (proj1 (den_all t d l v) (G k)). eauto using nth_error_In.
    + intros H. apply G. apply den_any. eauto using nth_error_In.
Qed.
Lemma good_path inter K v : forall r n x, good inter K (den mean n v) -> at_path inter n r = Some x -> good inter K (den mean x v).
Proof.
  induction r as [|i r IH]; intros n x G A; cbn in A; [now injection A as <-|]. destruct (nth_error (kids inter n) i) as [y|] eqn:N; [|discriminate]. eapply IH; [|exact A]. eapply good_kid; eauto.
Qed.
(** What was left out is covered by what comes before it. *)
Section Cover.
Variables (inter : bool) (gone : list nat -> bool) (root : tnode) (v : value) (K : Prop) (firsts : list nat -> tnode -> Prop).
Definition left_of (p q : list nat) : Prop := exists a i j r s, p = a ++ i :: r /\ q = a ++ j :: s /\ (i < j)%nat.
Hypothesis first_path : forall q x, firsts q x -> at_path inter root q = Some x.
Hypothesis gone_ok : forall q x, gone q = true -> at_path inter root q = Some x -> good inter K (den mean x v) \/ exists p y, firsts p y /\ left_of p q /\ (den mean x v <-> den mean y v).
Lemma cover : forall x q, (forall i r, at_path inter root (q ++ i :: r) = at_path inter x (i :: r)) -> good inter K (den mean (without gone inter q x) v) ->
  (forall p y, firsts p y -> left_of p q -> good inter K (den mean y v)) -> good inter K (den mean x v).
Proof.
  induction x as [t x|t n IH|t i d l IH] using tnode_ind'; intros q A G H; auto.
  - cbn [without den] in *. apply (IH q); auto.
  - rewrite without_op in G. destruct (Bool.eqb inter i) eqn:E; [|exact G]. apply eqb_prop in E. subst i. rewrite Forall_forall in IH.
    assert (KEEP : forall k x, nth_error l k = Some x -> gone (q ++ [k]) = false -> good inter K (den mean (without gone inter (q ++ [k]) x) v)).
    { intros k x N GK. assert (I : In (without gone inter (q ++ [k]) x) (kept gone inter q 0 l)) by (apply in_kept; exists k, x; auto). unfold good in *. destruct inter.
      - intros kk. exact (proj1 (den_all t d _ v) (G kk) _ I).
      - intros D. apply G. apply den_any. eauto. }
    assert (AT : forall k, at_path inter root (q ++ [k]) = nth_error l k). { intros k. rewrite A. cbn [at_path kids]. rewrite Bool.eqb_reflx. now destruct (nth_error l k). }
    assert (EACH : forall k x, nth_error l k = Some x -> good inter K (den mean x v)).
    { induction k as [k IHk] using lt_wf_ind. intros x N.
      assert (LEFT : forall p y, firsts p y -> left_of p (q ++ [k]) -> good inter K (den mean y v)).
      { intros p y F (a & i & j & r & s & E1 & E2 & L). destruct (exists_last (l := j :: s) ltac:(discriminate)) as (s' & z & E3). rewrite E3, app_assoc in E2. apply app_inj_tail in E2. destruct E2 as [E2 <-].
        destruct s' as [|j' s'].
        - cbn in E3. injection E3 as -> ->. rewrite app_nil_r in E2. subst a. pose proof (first_path _ _ F) as AP. rewrite E1, A in AP. cbn [at_path kids] in AP. rewrite Bool.eqb_reflx in AP.
          destruct (nth_error l i) as [u|] eqn:NU; [|discriminate]. eapply good_path; [|exact AP]. eapply IHk; eauto.
        - cbn in E3. injection E3 as <- ->. apply (H p y F). exists a, i, j, r, s'. auto. }
      destruct (gone (q ++ [k])) eqn:GK.
      - destruct (gone_ok _ x GK) as [OK|(p & y & F & L & D)]; [now rewrite AT|exact OK|]. pose proof (LEFT _ _ F L) as GY. unfold good in *. destruct inter; tauto.
      - apply (IH x) with (q := q ++ [k]); eauto using nth_error_In. intros i r. rewrite <- app_assoc. cbn [app]. rewrite A. cbn [at_path kids]. rewrite Bool.eqb_reflx, N. reflexivity. }
    unfold good in *. destruct inter.
    + intros kk. apply den_all. intros x X. apply In_nth_error in X. destruct X as (k & N). eapply EACH; eauto.
    + intros D. apply den_any in D. destruct D as (x & X & D). apply In_nth_error in X. destruct X as (k & N). eapply EACH; eauto.
Qed.
End Cover.
End Named.
