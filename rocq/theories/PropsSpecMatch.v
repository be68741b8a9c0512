(** C45: what a specifier matches. *)
From Coq Require Import String Ascii Bool List ZArith Lia.
From Verif Require Import Base EngineProofs Specifier SpecMatch.
Import ListNotations.
Open Scope Z_scope.

(** ** Specification: paths and packages *)

(** A path is read as segments between slashes of either kind. *)
Definition clean (s : bstr) : Prop := ~ In slash s /\ ~ In backslash s.
Inductive reads : bstr -> list bstr -> Prop :=
| rd_last s : clean s -> reads s [s]
| rd_more s c p l : clean s -> c = slash \/ c = backslash -> reads p l -> reads (s ++ c :: p) (s :: l).
(** The package that the segments after a [node_modules] begin with. *)
Inductive named : list bstr -> bstr -> Prop :=
| nm_plain name rest : name <> [] -> name <> b "." -> name <> b ".." -> (forall x, name <> b "@" ++ x) -> named (name :: rest) name
| nm_scoped x name rest : name <> [] -> named ((b "@" ++ x) :: name :: rest) ((b "@" ++ x) ++ b "/" ++ name).
(** The package of a path: after the last [node_modules] that is followed by one. *)
Definition package_is (segs : list bstr) (n : bstr) : Prop :=
  exists before after, segs = before ++ b "node_modules" :: after /\ named after n /\
    forall mid after' m, after = mid ++ b "node_modules" :: after' -> ~ named after' m.
(** An absolute path. *)
Definition absolute_path (segs : list bstr) : bstr := match segs with [] => [slash] | _ => flat_map (fun s => slash :: s) segs end.

(** ** Proof: paths *)
Lemma normalize_clean s : clean s -> normalize_slashes s = s.
Proof.
  intros [N1 N2]. induction s as [|c s IH]; [reflexivity|]. cbn [normalize_slashes map]. destruct (Ascii.eqb_spec c backslash) as [->|X]; [destruct N2; now left|].
  f_equal. apply IH; intros I; [apply N1|apply N2]; now right.
Qed.
Lemma normalize_app x y : normalize_slashes (x ++ y) = normalize_slashes x ++ normalize_slashes y.
Proof. apply map_app. Qed.
Lemma normalize_sep c p : c = slash \/ c = backslash -> normalize_slashes (c :: p) = slash :: normalize_slashes p.
Proof. intros [->| ->]; reflexivity. Qed.
Lemma split_one s : ~ In slash s -> split_slash s = [s].
Proof.
  induction s as [|c s IH]; intros N; [reflexivity|]. cbn [split_slash]. destruct (Ascii.eqb_spec c slash) as [->|X]; [destruct N; now left|]. rewrite IH; [reflexivity|]. intros I. apply N. now right.
Qed.
Lemma split_more s p : ~ In slash s -> split_slash (s ++ slash :: p) = s :: split_slash p.
Proof.
  induction s as [|c s IH]; intros N; [reflexivity|]. cbn [split_slash app]. destruct (Ascii.eqb_spec c slash) as [->|X]; [destruct N; now left|]. rewrite IH; [reflexivity|]. intros I. apply N. now right.
Qed.
Lemma reads_split p l : reads p l -> split_slash (normalize_slashes p) = l.
Proof.
  induction 1 as [s C|s c p l C S R IH]; [rewrite normalize_clean by auto; apply split_one, C|]. rewrite normalize_app, normalize_clean, normalize_sep, split_more, IH by (auto; apply C). reflexivity.
Qed.
(** Every path is read in exactly one way. *)
Theorem C45_path_is_read_once : forall p, exists l, reads p l /\ forall l', reads p l' -> l' = l.
Proof.
  intros p. assert (X : exists l, reads p l).
  { induction p as [|c p [l R]]; [exists [[]]; apply rd_last; split; intros []|].
    destruct (Ascii.eqb_spec c slash) as [E|N1]; [exists ([] :: l); apply (rd_more [] c); auto; split; intros []|].
    destruct (Ascii.eqb_spec c backslash) as [E|N2]; [exists ([] :: l); apply (rd_more [] c); auto; split; intros []|].
    inversion R as [s C|s d q l' C S R']; subst.
    - exists [c :: p]. apply rd_last. destruct C as [C1 C2]; split; intros [I|I]; auto.
    - exists ((c :: s) :: l'). apply (rd_more (c :: s)); auto. destruct C as [C1 C2]; split; intros [I|I]; auto. }
  destruct X as [l R]. exists l. split; [auto|]. intros l' R'. apply reads_split in R, R'. congruence.
Qed.
Print Assumptions C45_path_is_read_once.

(** *** node_modules *)
Definition enc (l : list bstr) : bstr := flat_map (fun s => slash :: s) l ++ [slash].
Lemma enc_head l : exists r, enc l = slash :: r.
Proof. destruct l as [|s l]; [exists []; reflexivity|]. exists (s ++ enc l). unfold enc. cbn. now rewrite <- app_assoc. Qed.
Lemma reads_enc p l : reads p l -> b "/" ++ normalize_slashes p ++ b "/" = enc l.
Proof.
  induction 1 as [s C|s c p l C S R IH]; [rewrite normalize_clean by auto; unfold enc; cbn; now rewrite app_nil_r|].
  rewrite normalize_app, normalize_clean, normalize_sep by auto. rewrite <- app_assoc. cbn [app b]. cbn [app b] in IH. unfold slash in *. rewrite IH. unfold enc. cbn. now rewrite <- app_assoc.
Qed.
Lemma prefix_segment w : forall s r, ~ In slash w -> ~ In slash s -> (has_prefix (w ++ [slash]) (s ++ slash :: r) = true <-> w = s).
Proof.
  induction w as [|c w IH]; intros s r NW NS.
  - destruct s as [|d s]; cbn [app has_prefix]; [rewrite Ascii.eqb_refl; cbn; tauto|].
    destruct (Ascii.eqb_spec slash d) as [<-|X]; [destruct NS; now left|]. cbn. split; [discriminate|intros [=]].
  - destruct s as [|d s]; cbn [app has_prefix].
    + destruct (Ascii.eqb_spec c slash) as [->|X]; [destruct NW; now left|]. cbn. split; [discriminate|intros [=]].
    + destruct (Ascii.eqb_spec c d) as [->|X]; cbn [andb]; [|split; [discriminate|congruence]].
      rewrite IH; [split; congruence| |]; intros I; [apply NW|apply NS]; now right.
Qed.
Lemma contains_skip p s r : ~ In slash s -> (exists p', p = slash :: p') -> contains p (s ++ r) = contains p r.
Proof.
  intros N [p' ->]. induction s as [|c s IH]; [reflexivity|]. cbn [app contains has_prefix]. destruct (Ascii.eqb_spec slash c) as [<-|X]; [destruct N; now left|]. cbn [andb orb]. apply IH. intros I. apply N. now right.
Qed.
Lemma contains_enc w l : ~ In slash w -> Forall (fun s => ~ In slash s) l -> (contains (slash :: w ++ [slash]) (enc l) = true <-> In w l).
Proof.
  intros NW F. induction F as [|s l NS F IH].
  - cbn. destruct w; cbn; [split; [discriminate|intros []]|]. split; [rewrite ?andb_false_r; discriminate|intros []].
  - change (enc (s :: l)) with ((slash :: s) ++ flat_map (fun s => slash :: s) l ++ [slash] ) || (unfold enc at 1; cbn [flat_map]; rewrite <- app_assoc).
    fold (enc l). cbn [app contains has_prefix]. rewrite Ascii.eqb_refl. cbn [andb]. rewrite orb_true_iff, contains_skip; [|auto|eauto]. rewrite IH.
    destruct (enc_head l) as [r ->]. rewrite prefix_segment by auto. cbn. split; intros [->|H]; auto.
Qed.
Lemma reads_clean p l : reads p l -> Forall clean l.
Proof. induction 1; constructor; auto. Qed.
(** The test for a [node_modules] segment looks at whole segments. *)
Theorem C45_node_modules_segment : forall p l, reads p l -> (contains_node_modules p = true <-> In (b "node_modules") l).
Proof.
  intros p l R. unfold contains_node_modules. rewrite (reads_enc p l R). change (b "/node_modules/") with (slash :: node_modules ++ [slash]). apply contains_enc.
  - cbn. intuition discriminate.
  - eapply Forall_impl; [|apply (reads_clean p l R)]. intros s [N _]. exact N.
Qed.
Print Assumptions C45_node_modules_segment.

(** *** Package names in paths *)
Lemma has_prefix_at s : has_prefix (b "@") s = true <-> exists x, s = b "@" ++ x.
Proof.
  destruct s as [|c s]; [cbn; split; [discriminate|intros [x E]; discriminate]|]. change (has_prefix (b "@") (c :: s)) with (Ascii.eqb "@" c && true). rewrite andb_true_r, Ascii.eqb_eq.
  split; [intros <-; exists s; reflexivity|intros [x E]; injection E as -> _; reflexivity].
Qed.
Lemma package_after_spec l n : package_after l = Some n <-> named l n.
Proof.
  destruct l as [|name rest]; [split; [discriminate|inversion 1]|]. unfold package_after. split.
  - destruct (beqb name []) eqn:B0; [discriminate|]. destruct (beqb name (b ".")) eqn:B1; [discriminate|]. destruct (beqb name (b "..")) eqn:B2; [discriminate|]. cbn [orb].
    destruct (has_prefix (b "@") name) eqn:P.
    + apply has_prefix_at in P. destruct P as [x ->]. destruct rest as [|second rest]; [discriminate|]. destruct (beqb second []) eqn:B3; [discriminate|]. intros [= <-]. apply nm_scoped. intros ->. discriminate.
    + intros [= <-]. constructor.
      * intros ->. discriminate.
      * intros ->. discriminate.
      * intros ->. discriminate.
      * intros x E. assert (has_prefix (b "@") name = true) by (apply has_prefix_at; eauto). congruence.
  - intros H. inversion H as [? ? N0 N1 N2 N3|x second ? N0]; subst.
    + destruct (beqb n []) eqn:B0; [apply beqb_eq in B0; contradiction|]. destruct (beqb n (b ".")) eqn:B1; [apply beqb_eq in B1; contradiction|]. destruct (beqb n (b "..")) eqn:B2; [apply beqb_eq in B2; contradiction|]. cbn [orb].
      destruct (has_prefix (b "@") n) eqn:P; [|reflexivity]. apply has_prefix_at in P. destruct P as [x P]. destruct (N3 x P).
    + destruct (beqb second []) eqn:B3; [apply beqb_eq in B3; contradiction|]. reflexivity.
Qed.
Lemma named_fun l n m : named l n -> named l m -> n = m.
Proof. intros A B. apply package_after_spec in A, B. congruence. Qed.
Lemma package_loop_spec back : forall after, (forall mid a m, after = mid ++ node_modules :: a -> ~ named a m) ->
  match package_loop back after with
  | Some n => package_is (rev back ++ after) n
  | None => forall n, ~ package_is (rev back ++ after) n
  end.
Proof.
  induction back as [|s back IH]; intros after H; cbn [package_loop].
  - intros n (x & a & E & N & _). cbn in E. eapply H; eauto.
  - cbn [rev]. rewrite <- app_assoc. cbn [app]. destruct (beqb s node_modules) eqn:B; cbn [negb].
    + apply beqb_eq in B. subst s. destruct (package_after after) as [n|] eqn:P.
      * apply package_after_spec in P. exists (rev back), after. split; [reflexivity|]. split; [auto|]. exact H.
      * apply IH. intros [|x mid] a m E.
        -- injection E as <-. intros N. apply package_after_spec in N. congruence.
        -- injection E as _ E. eapply H; eauto.
    + apply IH. intros [|x mid] a m E; [injection E as -> _; assert (X : beqb node_modules node_modules = true) by (now apply beqb_eq); congruence|]. injection E as _ E. eapply H; eauto.
Qed.
(** The name taken from a path is that of the innermost package. *)
Theorem C45_package_of_path :
  forall p l, reads p l -> forall n, package_of_path p = Some n <-> package_is l n.
Proof.
  intros p l R n. unfold package_of_path. rewrite (reads_split p l R). pose proof (package_loop_spec (rev l) []) as S. rewrite rev_involutive, app_nil_r in S.
  assert (H : forall mid a m, [] = mid ++ node_modules :: a -> ~ named a m) by (intros [|? ?] a m E; discriminate). specialize (S H).
  destruct (package_loop (rev l) []) as [m|]; [|split; [discriminate|intros P; destruct (S n P)]]. split; [intros [= <-]; auto|]. intros P. f_equal.
  destruct S as (b1 & a1 & E1 & N1 & L1), P as (b2 & a2 & E2 & N2 & L2). rewrite E1 in E2.
  assert (X : a1 = a2); [|subst; eapply named_fun; eauto]. clear - E2 N1 N2 L1 L2. revert b2 E2. induction b1 as [|x b1 IH]; intros [|y b2] E2.
  - injection E2 as E2. exact E2.
  - injection E2 as _ E2. subst a1. destruct (L1 _ _ _ eq_refl N2).
  - injection E2 as _ E2. subst a2. destruct (L2 _ _ _ eq_refl N1).
  - injection E2 as _ E2. eauto.
Qed.
Print Assumptions C45_package_of_path.

(** *** package.json *)
Definition unnamed (o : option bstr) : Prop := o = None \/ o = Some [].
Lemma rev_flat_last l s : rev (flat_map (fun s => slash :: s) (l ++ [s])) = rev s ++ slash :: rev (flat_map (fun s => slash :: s) l).
Proof. rewrite flat_map_app. cbn. rewrite app_nil_r, rev_app_distr. cbn. now rewrite <- app_assoc. Qed.
Lemma drop_trailing_skip s r : ~ In slash s -> drop_trailing (rev s ++ slash :: r) = slash :: r.
Proof.
  intros N. assert (N' : ~ In slash (rev s)) by (intros I; apply in_rev in I; auto). revert N'. generalize (rev s). intros t NT. induction t as [|c t IH]; cbn [app drop_trailing]; [now rewrite Ascii.eqb_refl|].
  destruct (Ascii.eqb_spec c slash) as [->|X]; [destruct NT; now left|]. apply IH. intros I. apply NT. now right.
Qed.
Definition up_of (back : bstr) : bstr :=
  rev (match drop_trailing (match back with e :: back' => if Ascii.eqb e slash then back' else back | [] => [] end) with _ :: t => t | [] => [] end).
Lemma directory_long d r : directory (slash :: d :: r) = match up_of (rev (slash :: d :: r)) with [] => [slash] | _ => up_of (rev (slash :: d :: r)) end.
Proof. reflexivity. Qed.
Lemma directory_up l s : clean s -> s <> [] -> directory (absolute_path (l ++ [s])) = absolute_path l.
Proof.
  intros [C _] NE. assert (E : absolute_path (l ++ [s]) = flat_map (fun s => slash :: s) (l ++ [s])) by (unfold absolute_path; destruct l; reflexivity). rewrite E.
  assert (H : exists d r, flat_map (fun s => slash :: s) (l ++ [s]) = slash :: d :: r).
  { destruct l as [|x l]; [destruct s as [|d s]; [contradiction|]; now exists d, (s ++ [])|]. destruct x as [|d x]; [|now exists d, (x ++ flat_map (fun s => slash :: s) (l ++ [s]))].
    destruct l as [|y l]; [now exists slash, (s ++ [])|now exists slash, (y ++ flat_map (fun s => slash :: s) (l ++ [s]))]. }
  destruct H as (d & r & H). rewrite H. rewrite directory_long, <- H, rev_flat_last. unfold up_of.
  assert (NR : exists c t, rev s = c :: t /\ c <> slash).
  { destruct (rev s) as [|c t] eqn:R; [apply (f_equal (@rev ascii)) in R; rewrite rev_involutive in R; contradiction|]. exists c, t. split; [auto|]. intros ->. apply C. apply in_rev. rewrite R. now left. }
  destruct NR as (c & t & R & NC). rewrite R. cbn [app]. destruct (Ascii.eqb_spec c slash); [contradiction|].
  replace (c :: t ++ slash :: rev (flat_map (fun s => slash :: s) l)) with (rev s ++ slash :: rev (flat_map (fun s => slash :: s) l)) by now rewrite R.
  rewrite drop_trailing_skip by auto. cbv beta iota. rewrite rev_involutive. unfold absolute_path. destruct l as [|x l]; [reflexivity|]. cbn. reflexivity.
Qed.
Lemma absolute_reads l : Forall clean l -> l <> [] -> reads (absolute_path l) ([] :: l).
Proof.
  intros F NE. destruct l as [|s l]; [contradiction|]. unfold absolute_path. cbn [flat_map]. change (reads (@nil ascii ++ slash :: (s ++ flat_map (fun s0 : list ascii => slash :: s0) l)) ([] :: s :: l)).
  apply rd_more; [split; intros []|auto|]. inversion F as [|? ? C F']; subst. clear - C F'. revert s C. induction F' as [|x l Cx F IH]; intros s C; cbn [flat_map]; [rewrite app_nil_r; now apply rd_last|]. apply (rd_more s slash); auto.
Qed.
Lemma absolute_node_modules l : Forall clean l -> (contains_node_modules (absolute_path l) = true <-> In (b "node_modules") l).
Proof.
  intros F. destruct l as [|s l]; [split; [discriminate|intros []]|]. rewrite (C45_node_modules_segment _ _ (absolute_reads (s :: l) F ltac:(discriminate))). cbn. split; [intros [X|X]; [discriminate|auto]|auto].
Qed.
Lemma absolute_length l : (List.length l <= List.length (absolute_path l))%nat.
Proof. destruct l as [|s l]; [cbn; lia|]. unfold absolute_path. induction (s :: l) as [|x k IH]; cbn; [lia|]. rewrite app_length. lia. Qed.
Lemma app_last_inv {A} (k rest l : list A) s : k ++ rest = l ++ [s] -> (rest = [] /\ k = l ++ [s]) \/ exists r, rest = r ++ [s] /\ l = k ++ r.
Proof.
  destruct rest as [|y r] using rev_ind; intros E; [left; rewrite app_nil_r in E; auto|]. right. exists r. rewrite app_assoc in E. apply app_inj_tail in E. destruct E as [E ->]. auto.
Qed.

Section PackageJson.
Variable package_json : bstr -> option bstr.
(** The nearest directory, inside a [node_modules], whose [package.json] has a name. *)
Definition nearest_is (dirs : list bstr) (n : bstr) : Prop :=
  exists k rest, dirs = k ++ rest /\ In (b "node_modules") k /\ package_json (absolute_path k) = Some n /\ n <> [] /\
    forall r r', rest = r ++ r' -> r <> [] -> unnamed (package_json (absolute_path (k ++ r))).
Lemma nearest_loop_spec l : forall fuel, Forall clean l -> Forall (fun s => s <> []) l -> (List.length l < fuel)%nat ->
  forall n, nearest_loop package_json fuel (absolute_path l) = Some n <-> nearest_is l n.
Proof.
  induction l as [|s l IH] using rev_ind; intros fuel F NE L n.
  - destruct fuel; [lia|]. cbn. split; [discriminate|]. intros (k & rest & E & I & _). symmetry in E. apply app_eq_nil in E. destruct E as [-> _]. destruct I.
  - destruct fuel as [|fuel]; [lia|]. apply Forall_app in F, NE. destruct F as [F Fs], NE as [NE NEs]. inversion Fs as [|? ? Cs _]; subst. inversion NEs as [|? ? Ns _]; subst.
    cbn [nearest_loop]. rewrite directory_up by auto.
    assert (NN : beqb (absolute_path (l ++ [s])) [] = false) by (unfold absolute_path; destruct l; reflexivity). rewrite NN. cbn [negb andb].
    assert (DIFF : beqb (absolute_path l) (absolute_path (l ++ [s])) = false).
    { destruct (beqb (absolute_path l) (absolute_path (l ++ [s]))) eqn:B; [|auto]. apply beqb_eq in B. destruct l as [|x l]; [destruct s; [contradiction|discriminate]|].
      unfold absolute_path in B. cbn [app] in B. rewrite <- app_comm_cons in B || idtac. change (x :: l ++ [s]) with ((x :: l) ++ [s]) in B. rewrite flat_map_app in B.
      rewrite <- (app_nil_r (flat_map (fun s0 : list ascii => slash :: s0) (x :: l))) in B at 1. apply app_inv_head in B. discriminate. }
    rewrite DIFF. assert (FA : Forall clean (l ++ [s])) by (apply Forall_app; auto). pose proof (absolute_node_modules _ FA) as NM. rewrite app_length in L. cbn in L.
    destruct (contains_node_modules (absolute_path (l ++ [s]))) eqn:CN.
    2:{ split; [discriminate|]. intros (k & rest & E & I & _). assert (X : In (b "node_modules") (l ++ [s])) by (rewrite E; apply in_or_app; auto). apply NM in X. discriminate. }
    assert (REC : forall m, nearest_loop package_json fuel (absolute_path l) = Some m <-> nearest_is l m) by (apply IH; auto; lia).
    assert (UP : unnamed (package_json (absolute_path (l ++ [s]))) -> (nearest_loop package_json fuel (absolute_path l) = Some n <-> nearest_is (l ++ [s]) n)).
    { intros U. rewrite REC. split.
      - intros (k & rest & -> & I & P & N0 & R). exists k, (rest ++ [s]). split; [now rewrite app_assoc|]. split; [auto|]. split; [auto|]. split; [auto|].
        intros r r' E NR. symmetry in E. destruct (app_last_inv _ _ _ _ E) as [[-> ->]|(t & -> & ->)]; [now rewrite app_assoc|eauto].
      - intros (k & rest & E & I & P & N0 & R). symmetry in E. destruct (app_last_inv _ _ _ _ E) as [[-> ->]|(t & -> & ->)].
        + destruct U as [U|U]; rewrite P in U; [discriminate|injection U as ->; contradiction].
        + exists k, t. split; [auto|]. split; [auto|]. split; [auto|]. split; [auto|]. intros r r' ET NR. subst t. apply (R r (r' ++ [s])); [now rewrite app_assoc|auto]. }
    destruct (package_json (absolute_path (l ++ [s]))) as [m|] eqn:P; [|apply UP; now left].
    destruct (beqb m []) eqn:B; cbn [negb]; [apply beqb_eq in B; subst m; apply UP; now right|].
    assert (M0 : m <> []) by (intros ->; discriminate). split.
    + intros [= <-]. exists (l ++ [s]), []. split; [now rewrite app_nil_r|]. split; [now apply NM|]. split; [auto|]. split; [auto|]. intros r r' E NR. symmetry in E. apply app_eq_nil in E. destruct E. contradiction.
    + intros (k & rest & E & I & P' & N0 & R). symmetry in E. destruct (app_last_inv _ _ _ _ E) as [[-> ->]|(t & -> & ->)]; [congruence|].
      specialize (R (t ++ [s]) [] ltac:(now rewrite app_nil_r) ltac:(destruct t; discriminate)). rewrite app_assoc in R. rewrite P in R. destruct R as [R|R]; [discriminate|congruence].
Qed.

(** The package of a file: the name in the nearest [package.json] that has one, otherwise the name in the
    path; none outside [node_modules]. *)
Theorem C45_source_file_package :
  forall dirs name, Forall clean (dirs ++ [name]) -> Forall (fun s => s <> []) (dirs ++ [name]) ->
    forall n, source_file_package package_json (absolute_path (dirs ++ [name])) = Some n <->
      In (b "node_modules") (dirs ++ [name]) /\ (nearest_is dirs n \/ ((forall m, ~ nearest_is dirs m) /\ package_is (dirs ++ [name]) n)).
Proof.
  intros dirs name C NE n. set (p := absolute_path (dirs ++ [name])).
  assert (RD : reads p ([] :: dirs ++ [name])) by (apply absolute_reads; [auto|destruct dirs; discriminate]).
  assert (NP : normalize_slashes p = p).
  { unfold p, absolute_path. destruct (dirs ++ [name]) as [|x l0]; [reflexivity|]. clear - C. induction C as [|y l Cy C IH]; [reflexivity|]. cbn [flat_map]. transitivity (normalize_slashes ([slash] ++ y ++ flat_map (fun s => slash :: s) l)); [reflexivity|].
    rewrite (normalize_app [slash]), (normalize_app y), (normalize_clean y Cy). rewrite IH. reflexivity. }
  unfold source_file_package. rewrite NP. pose proof (absolute_node_modules _ C) as NM. fold p in NM. destruct (contains_node_modules p) eqn:CN; cbn [negb].
  2:{ split; [discriminate|]. intros [I _]. apply NM in I. discriminate. }
  unfold nearest_package. apply Forall_app in C, NE. destruct C as [Cd Cn], NE as [Nd Nn]. inversion Cn; subst. inversion Nn; subst.
  assert (DP : directory p = absolute_path dirs) by (apply directory_up; auto). rewrite DP.
  assert (N : forall m, nearest_loop package_json (S (List.length p)) (absolute_path dirs) = Some m <-> nearest_is dirs m).
  { apply nearest_loop_spec; auto. pose proof (absolute_length (dirs ++ [name])) as AL. fold p in AL. rewrite app_length in AL. cbn in AL. lia. }
  assert (PI : package_is ([] :: dirs ++ [name]) n <-> package_is (dirs ++ [name]) n).
  { split; intros (bf & af & E & X & Y).
    - destruct bf as [|z bf]; [discriminate|]. injection E as _ E. exists bf, af. auto.
    - exists ([] :: bf), af. split; [now rewrite E|auto]. }
  destruct (nearest_loop package_json (S (List.length p)) (absolute_path dirs)) as [m|] eqn:E.
  - assert (Q : nearest_is dirs m) by now apply N. split.
    + intros [= <-]. split; [now apply NM|auto].
    + intros [_ [Q'|[Q' _]]]; [|destruct (Q' m Q)]. apply N in Q'. congruence.
  - rewrite (C45_package_of_path p _ RD), PI. split.
    + intros Q. split; [now apply NM|]. right. split; [|auto]. intros m X. apply N in X. congruence.
    + intros [_ [Q|[_ Q]]]; [apply N in Q; congruence|auto].
Qed.
End PackageJson.
Print Assumptions C45_source_file_package.

(** So a file can be counted to another package than the one it lies in: the inner package has no name in its
    [package.json], the outer one has. *)
Theorem C45_inner_package_refuted :
  exists package_json p l n, reads p l /\ package_is l (b "bar") /\ source_file_package package_json p = Some n /\ n <> b "bar".
Proof.
  set (dirs := [b "node_modules"; b "foo"; b "node_modules"; b "bar"]).
  exists (fun d => if beqb d (absolute_path [b "node_modules"; b "foo"]) then Some (b "foo") else None), (absolute_path (dirs ++ [b "a"])), ([] :: dirs ++ [b "a"]), (b "foo").
  assert (C : Forall clean (dirs ++ [b "a"])). { repeat constructor; cbn; intuition discriminate. }
  split; [apply absolute_reads; [exact C|discriminate]|]. split; [|split; [reflexivity|discriminate]].
  exists [[]; b "node_modules"; b "foo"], [b "bar"; b "a"]. split; [reflexivity|]. split; [constructor; discriminate|]. intros [|x [|y [|z mid]]] a m E; try discriminate. 
Qed.
Print Assumptions C45_inner_package_refuted.

Example C45_ex_file :
  let json d := if beqb d (b "/p/node_modules/a") then Some (b "real-a") else if beqb d (b "/p/node_modules/a/dist") then Some [] else None in
  source_file_package json (b "/p/node_modules/a/dist/i.d.ts") = Some (b "real-a") /\ source_file_package json (b "/p/node_modules/c/i.d.ts") = Some (b "c") /\
  source_file_package (fun _ => Some (b "root")) (b "/p/src/i.ts") = None.
Proof. repeat split; reflexivity. Qed.
