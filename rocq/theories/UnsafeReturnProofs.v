From Coq Require Import Bool Arith Ascii String List Lia.
From Verif Require Import Base EngineProofs.
From Verif Require Import UnsafeReturn UnsafeReturnSpec.
Import ListNotations.
Open Scope nat_scope.

Lemma mem_iff t v : mem t v = true <-> In t v.
Proof. unfold mem. rewrite existsb_exists. split; [intros (x & H & E); apply Nat.eqb_eq in E; subst; auto|intros H; exists t; split; auto; apply Nat.eqb_refl]. Qed.
Section S.
Context (info : nat -> type_info).
Lemma array_iff t : any_array info t = true <-> array_of_any info t.
Proof. unfold any_array, array_of_any. destruct (element (info t)) as [e|]; split; try discriminate; [eauto| |]; intros (x & E & H); try discriminate. injection E as ->. auto. Qed.

(** The search ends: every step but the last visits a type that was not visited. *)
Lemma ends types : (forall t u a, In t types -> In u (leaves (info t)) -> awaited (info u) = Some a -> In a types) ->
  forall n t v, In t types -> NoDup v -> incl v types -> List.length types - List.length v < n ->
  exists d v', discriminate_any info n t v = Some (d, v') /\ NoDup v' /\ incl v' types /\ List.length v <= List.length v'.
Proof.
  intros C. induction n; intros t v T N I L; [lia|]. cbn [discriminate_any]. destruct (mem t v) eqn:M; [exists Safe, v; auto|].
  assert (M' : ~ In t v) by (rewrite <- mem_iff; congruence).
  assert (N' : NoDup (t :: v)) by (constructor; auto). assert (I' : incl (t :: v) types) by (intros x [<-|X]; auto).
  assert (L' : List.length (t :: v) <= List.length types) by (apply NoDup_incl_length; auto). cbn [List.length] in L'.
  destruct (any (info t)); [exists Any, (t :: v); cbn [List.length]; repeat split; auto|]. destruct (any_array info t); [exists Any_array, (t :: v); cbn [List.length]; repeat split; auto|].
  match goal with |- context [some_part ?f _ _] => set (g := f) end.
  assert (K : forall l w, incl l (leaves (info t)) -> NoDup w -> incl w types -> List.length v < List.length w -> exists r w', some_part g l w = Some (r, w') /\ NoDup w' /\ incl w' types /\ List.length w <= List.length w').
  { induction l as [|u l IH]; intros w U Nw Iw Lw; cbn [some_part]; [exists false, w; auto|].
    assert (P : exists r w', g u w = Some (r, w') /\ NoDup w' /\ incl w' types /\ List.length w <= List.length w').
    { unfold g. destruct (negb (thenable (info u))); [exists false, w; auto|]. destruct (awaited (info u)) as [a|] eqn:A; [|exists false, w; auto].
      destruct (IHn a w) as (d & w' & E & R); auto; [eapply C; eauto; apply U; left; auto|lia|]. rewrite E. destruct d; eexists _, w'; eauto. }
    destruct P as (r & w' & E & Nw' & Iw' & Lw'). rewrite E. destruct r; [exists true, w'; auto|].
    destruct (IH w') as (r & w'' & E' & ? & ? & ?); auto; [intros x X; apply U; right; auto|lia|]. exists r, w''. repeat split; auto. lia. }
  destruct (K (leaves (info t)) (t :: v)) as (r & w & E & Nw & Iw & Lw); auto; [intros x X; auto|]. cbn [List.length] in Lw. rewrite E. destruct r; [exists Promise_any, w|exists Safe, w]; repeat split; auto; lia.
Qed.

(** What is found is so. *)
Lemma found_any n t v v' : discriminate_any info n t v = Some (Any, v') -> any (info t) = true.
Proof.
  destruct n; cbn [discriminate_any]; [discriminate|]. destruct (mem t v); [discriminate|]. destruct (any (info t)); auto. destruct (any_array info t); [discriminate|].
  destruct (some_part _ _ _) as [[[] w]|]; discriminate.
Qed.
Lemma found_part n l v v' : some_part (fun u v =>
                   if negb (thenable (info u)) then Some (false, v)
                   else match awaited (info u) with
                        | None => Some (false, v)
                        | Some a => match discriminate_any info n a v with Some (Any, v) => Some (true, v) | Some (_, v) => Some (false, v) | None => None end
                        end) l v = Some (true, v') -> exists u a, In u l /\ thenable (info u) = true /\ awaited (info u) = Some a /\ any (info a) = true.
Proof.
  revert v. induction l as [|u l IH]; intros v; cbn [some_part]; [discriminate|].
  destruct (thenable (info u)) eqn:T; cbn [negb].
  - destruct (awaited (info u)) as [a|] eqn:A.
    + destruct (discriminate_any info n a v) as [[[] w]|] eqn:D; try discriminate.
      * intros _. exists u, a. apply found_any in D. repeat split; auto. left. auto.
      * intros H. apply IH in H as (x & y & I & R). exists x, y. split; auto. right. auto.
      * intros H. apply IH in H as (x & y & I & R). exists x, y. split; auto. right. auto.
      * intros H. apply IH in H as (x & y & I & R). exists x, y. split; auto. right. auto.
    + intros H. apply IH in H as (x & y & I & R). exists x, y. split; auto. right. auto.
  - intros H. apply IH in H as (x & y & I & R). exists x, y. split; auto. right. auto.
Qed.
Lemma sound n t v v' d : discriminate_any info n t v = Some (d, v') -> d <> Safe -> kind_of info t d.
Proof.
  destruct n; cbn [discriminate_any]; [discriminate|]. destruct (mem t v); [congruence|]. destruct (any (info t)) eqn:A; [intros [= <- _] _; apply k_any; auto|].
  destruct (any_array info t) eqn:R; [intros [= <- _] _; apply k_array; auto; apply array_iff; auto|].
  destruct (some_part _ _ _) as [[[] w]|] eqn:P; try discriminate; [|congruence]. intros [= <- _] _. apply found_part in P. apply k_promise; auto. rewrite <- array_iff. congruence.
Qed.

(** Of an awaited type that is settled, nothing further is visited. *)
Lemma no_promises f l v : (forall u, In u l -> f u v = Some (false, v)) -> some_part f l v = Some (false, v).
Proof. induction l as [|u l IH]; intros H; cbn [some_part]; auto. rewrite H by (left; auto). apply IH. intros x X. apply H. right. auto. Qed.
Lemma settled_step n a v d v' : (forall w, In w (leaves (info a)) -> thenable (info w) = false) -> discriminate_any info n a v = Some (d, v') ->
  (forall x, In x v -> any (info x) = false) -> any (info a) = false -> d <> Any /\ (forall x, In x v' -> any (info x) = false).
Proof.
  intros W. destruct n; cbn [discriminate_any]; [discriminate|]. intros H V A. rewrite A in H. destruct (mem a v); [injection H as <- <-; split; [discriminate|auto]|].
  assert (V' : forall x, In x (a :: v) -> any (info x) = false) by (intros x [<-|X]; auto).
  destruct (any_array info a); [injection H as <- <-; split; [discriminate|auto]|].
  rewrite no_promises in H by (intros u U; rewrite (W u U); auto). injection H as <- <-. split; [discriminate|auto].
Qed.
Lemma complete n t v v' d : settled info -> discriminate_any info n t v = Some (d, v') -> ~ In t v -> (forall x, In x v -> any (info x) = false) -> kind_of info t d.
Proof.
  intros S H M V. destruct d; try (apply (sound _ _ _ _ _ H); discriminate). destruct n; [discriminate|]. cbn [discriminate_any] in H.
  destruct (mem t v) eqn:E; [apply mem_iff in E; tauto|]. destruct (any (info t)) eqn:A; [discriminate|]. destruct (any_array info t) eqn:R; [discriminate|].
  match type of H with context [some_part ?f _ _] => set (g := f) in H end.
  apply k_safe; auto; [rewrite <- array_iff; congruence|]. intros (u & a & U & T & W & Y).
  assert (K : forall l w, In u l -> (forall x, In x w -> any (info x) = false) -> forall w', some_part g l w <> Some (false, w')).
  { induction l as [|x l IH]; intros w I Vw w'; [destruct I|]. cbn [some_part]. destruct (Nat.eq_dec x u) as [->|X].
    - unfold g at 1. rewrite T, W. cbn [negb]. destruct (discriminate_any info n a w) as [[d w1]|] eqn:D; [|discriminate].
      assert (d = Any); [|subst; discriminate]. destruct n; [discriminate|]. cbn [discriminate_any] in D. destruct (mem a w) eqn:Ma; [apply mem_iff in Ma; apply Vw in Ma; congruence|]. rewrite Y in D. congruence.
    - destruct I as [I|I]; [congruence|]. unfold g at 1. destruct (thenable (info x)) eqn:Tx; cbn [negb]; [|apply IH; auto]. destruct (awaited (info x)) as [y|] eqn:Wx; [|apply IH; auto].
      destruct (any (info y)) eqn:Ay.
      + destruct (discriminate_any info n y w) as [[d w1]|] eqn:D; [|discriminate]. destruct n; [discriminate|]. cbn [discriminate_any] in D.
        destruct (mem y w) eqn:My; [apply mem_iff in My; apply Vw in My; congruence|]. rewrite Ay in D. injection D as <- <-. discriminate.
      + destruct (discriminate_any info n y w) as [[d w1]|] eqn:D; [|discriminate]. apply settled_step in D as [D V1]; auto; [|intros z Z; eapply S; eauto].
        destruct d; [congruence| | |]; apply IH; auto. }
  destruct (some_part g (leaves (info t)) (t :: v)) as [[[] w]|] eqn:P; try discriminate. apply (K _ _ U) in P; auto. intros x [<-|X]; auto.
Qed.

Lemma only_found l s : s <> [] -> only_one l (Some s) = (if existsb (fun x : list signature => match x with [] => false | _ => true end) l then [] else s).
Proof. intros N. induction l as [|[|x y] l IH]; cbn [only_one existsb]; auto. Qed.
Lemma no_sigs l : existsb (fun x : list signature => match x with [] => false | _ => true end) l = false -> forall x, In x l -> x = [].
Proof. induction l as [|[|y z] l IH]; cbn [existsb]; intros H x; [intros []| |discriminate]. intros [<-|X]; auto. Qed.
Lemma some_sigs l : existsb (fun x : list signature => match x with [] => false | _ => true end) l = true -> exists k u m, l = k ++ u :: m /\ u <> [].
Proof. intros H. apply existsb_exists in H as (x & I & N). apply in_split in I as (k & m & ->). exists k, x, m. split; auto. destruct x; discriminate. Qed.
Lemma collect_spec c : signature_list c (collect c).
Proof.
  destruct c as [l|l|l]; cbn [collect]; [apply s_union| |apply s_plain].
  assert (K : forall m k, (forall x, In x k -> x = []) -> signature_list (C_intersection (k ++ m)) (only_one m None)); [|apply (K l []); intros x []].
  induction m as [|[|x y] m IH]; intros k E; cbn [only_one].
  - apply s_none. intros s S. apply in_app_iff in S as [S|[]]. auto.
  - replace (k ++ [] :: m) with ((k ++ [[]]) ++ m) by (rewrite <- app_assoc; reflexivity). apply IH. intros z Z. apply in_app_iff in Z as [Z|[Z|[]]]; auto.
  - rewrite only_found by discriminate. destruct (existsb _ m) eqn:X.
    + apply some_sigs in X as (k' & u & m' & -> & U). apply s_more; [discriminate|auto].
    + apply s_one; auto; [discriminate|]. apply no_sigs. auto.
Qed.
Lemma judged_spec f : judged f (signatures_of f).
Proof.
  unfold judged, signatures_of, contextual_type. destruct (expression f) eqn:E; [|right; split; auto; apply collect_spec].
  destruct (contextual f) as [c|] eqn:C; [left; exists c; split; [|split]; auto; apply collect_spec|right; split; auto; apply collect_spec].
Qed.

Lemma judged_one f ls : judged f ls -> ls = signatures_of f.
Proof.
  assert (K : forall c l, signature_list c l -> l = collect c).
  { intros c r H. destruct H as [l|l|l H|l m s H H0 H1|k l m s u H H0]; cbn [collect]; auto.
    - induction l as [|s l IH]; auto. cbn [only_one]. rewrite (H s) by (left; auto). apply IH. intros x X. apply H. right. auto.
    - induction l as [|x l IH]; cbn [app only_one].
      + destruct s as [|s0 s1]; [congruence|]. rewrite only_found by discriminate. destruct (existsb _ m) eqn:E; auto. apply some_sigs in E as (a & u & c & -> & U). destruct U. apply H1. apply in_app_iff. right. left. auto.
      + rewrite (H0 x) by (left; auto). apply IH. intros y Y. apply H0. right. auto.
    - assert (Q : forall a, a <> [] -> forall k l, existsb (fun x : list signature => match x with [] => false | _ => true end) (k ++ a :: l) = true).
      { intros a N k' l'. rewrite existsb_app. cbn [existsb]. destruct a; [congruence|]. apply orb_true_r. }
      induction k as [|x k IH]; cbn [app only_one].
      + destruct s as [|s0 s1]; [congruence|]. rewrite only_found by discriminate. rewrite Q; auto.
      + destruct x as [|x0 x1]; [apply IH|]. rewrite only_found by discriminate. rewrite Q; auto. }
  unfold judged, signatures_of, contextual_type. intros [(c & E & C & H)|[E H]]; apply K in H; subst.
  - rewrite E, C. auto.
  - destruct (expression f); auto. destruct E as [E | ->]; [discriminate|auto].
Qed.

Lemma loose_iff t : loose info t = true <-> any_or_unknown info t.
Proof. unfold loose, any_or_unknown. apply orb_true_iff. Qed.
Lemma intended_iff y r s : intended info y r s = true <-> agrees info y r s.
Proof.
  unfold intended, agrees. destruct (Nat.eqb_spec r (returns s)) as [->|N]; cbn [orb]; [tauto|].
  destruct (loose info (returns s)) eqn:L; [apply loose_iff in L; tauto|]. assert (L' : ~ any_or_unknown info (returns s)) by (rewrite <- loose_iff; congruence).
  destruct y; [|split; [discriminate|]; intros [H|[H|[H _]]]; [congruence|tauto|discriminate]]. cbv zeta. rewrite orb_true_iff.
  assert (E : same (awaited (info (returns s))) (awaited (info r)) = true <-> awaited (info (returns s)) = awaited (info r)).
  { destruct (awaited (info (returns s))), (awaited (info r)); cbn [same]; try (split; congruence). rewrite Nat.eqb_eq. split; congruence. }
  rewrite E. split.
  - intros [H|H]; right; right; split; auto. right. destruct (awaited (info (returns s))) as [a|]; [|discriminate]. apply loose_iff in H. eauto.
  - intros [H|[H|(_ & [H|(a & -> & H)])]]; [congruence|tauto|tauto|]. right. apply loose_iff. auto.
Qed.
Lemma meant_iff f r l : match written f with Some _ => existsb (intended info (async f) r) l | None => false end = true <-> meant info f r l.
Proof.
  unfold meant. destruct (written f); [|split; [discriminate|intros [H _]; congruence]]. rewrite existsb_exists. split.
  - intros (s & I & H). split; [discriminate|]. exists s. rewrite <- intended_iff. auto.
  - intros (_ & s & I & H). exists s. rewrite intended_iff. auto.
Qed.
Lemma takes_iff d s : takes info d s = true <-> receives info s d.
Proof.
  destruct d; cbn [takes].
  - split; [apply r_any|intros H; inversion H; auto].
  - split.
    + destruct (awaited (info (returns s))) as [a|] eqn:A; [|discriminate]. apply r_promise. auto.
    + intros H. inversion H. rewrite H0. auto.
  - unfold unknown_array. split.
    + destruct (element (info (returns s))) as [e|] eqn:A; [|discriminate]. apply r_array. auto.
    + intros H. inversion H. rewrite H0. auto.
  - split; [discriminate|intros H; inversion H].
Qed.
Lemma takes_some d l : existsb (takes info d) l = true <-> exists s, In s l /\ receives info s d.
Proof. rewrite existsb_exists. split; intros (s & I & H); exists s; split; auto; apply takes_iff; auto. Qed.
Lemma this_iff e t : this_expression e = Some t <-> begins_with t e.
Proof.
  split.
  - induction e; cbn [this_expression]; intros H; try discriminate; [apply b_parens|apply b_call|apply b_access|injection H as ->; apply b_this]; auto.
  - induction 1; auto.
Qed.
End S.
