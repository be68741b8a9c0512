From Coq Require Import String Ascii Bool List ZArith Permutation Lia.
From Verif Require Import Base TsDiag PLookup PLookupProofs Run RunSpec EngineProofs.
Import ListNotations.
Open Scope nat_scope.

Lemma norm_slashed p : forall f, slashed p f <-> norm p = f.
Proof.
  induction p as [|c p IH]; intros f.
  - split; [inversion 1; auto|intros <-; constructor].
  - cbn [norm map]. fold (norm p). destruct (Ascii.eqb_spec c "\"%char) as [->|N].
    + split; [inversion 1; subst; [f_equal; now apply IH|easy]|].
      intros <-. constructor. now apply IH.
    + split; [inversion 1; subst; [easy|f_equal; now apply IH]|].
      intros <-. constructor; [auto|]. now apply IH.
Qed.

Section P.
Context {Opt Impl SF Prog : Type}.
Notation hconfig := (@hconfig Opt).
Notation event := (@event Opt Impl SF).

Lemma in_norm_files (cfgs : list hconfig) f : In f (norm_files cfgs) <-> requested cfgs f.
Proof.
  unfold norm_files, requested, names. rewrite in_flat_map. split.
  - intros (c & I & H). apply in_map_iff in H. destruct H as (p & <- & Ip).
    exists c. split; [auto|]. exists p. split; [auto|]. now apply norm_slashed.
  - intros (c & I & p & Ip & S). exists c. split; [auto|]. apply in_map_iff. exists p.
    apply norm_slashed in S. auto.
Qed.

Lemma get_put {A} (m : list (bstr * A)) k v k' :
  get (put beqb m k v) k' = if beqb k' k then Some v else get m k'.
Proof.
  induction m as [|[x a] m IH]; cbn [put get].
  - destruct (beqb k' k); reflexivity.
  - destruct (beqb k x) eqn:E; cbn [get].
    + apply beqb_eq in E. subst x. destruct (beqb k' k); reflexivity.
    + rewrite IH. destruct (beqb k' x) eqn:E'; [|reflexivity].
      apply beqb_eq in E'. subst k'. rewrite beqb_sym in E. now rewrite E.
Qed.

Lemma get_paths (v : list (@hrule Opt)) f ps : forall m,
  get (fold_left (fun m p => put beqb m (norm p) v) ps m) f =
  if existsb (fun p => beqb f (norm p)) ps then Some v else get m f.
Proof.
  induction ps as [|p ps IH]; intros m; cbn [fold_left existsb]; [reflexivity|].
  rewrite IH, get_put. destruct (beqb f (norm p)); cbn [orb]; [|reflexivity].
  destruct (existsb _ ps); reflexivity.
Qed.

Lemma names_b (c : hconfig) f : existsb (fun p => beqb f (norm p)) (c_paths c) = true <-> names c f.
Proof.
  rewrite existsb_exists. unfold names. split; intros (p & I & H); exists p; (split; [auto|]).
  - apply norm_slashed. apply beqb_eq in H. auto.
  - apply beqb_eq. symmetry. now apply norm_slashed.
Qed.

Lemma get_configs (cfgs : list hconfig) f : forall rs,
  get (file_configs cfgs) f = Some rs <-> last_group cfgs f rs.
Proof.
  unfold file_configs. induction cfgs as [|c cfgs IH] using rev_ind; intros rs.
  - split; [easy|]. intros ([|? ?] & c & post & E & _); discriminate.
  - rewrite fold_left_app. cbn [fold_left]. rewrite get_paths.
    destruct (existsb _ (c_paths c)) eqn:E.
    + apply names_b in E. split.
      * intros [= <-]. exists cfgs, c, []. repeat split; auto; try easy.
      * intros (pre & c' & post & Ec & N & -> & NP).
        destruct post as [|x post _] using rev_ind.
        -- apply app_inj_tail in Ec. destruct Ec as [_ ->]. reflexivity.
        -- exfalso. rewrite app_comm_cons, app_assoc in Ec. apply app_inj_tail in Ec.
           destruct Ec as [_ ->]. apply (NP x); [apply in_or_app; simpl; auto|auto].
    + assert (NN : ~ names c f) by (intros X; apply names_b in X; congruence).
      rewrite IH. split.
      * intros (pre & c' & post & -> & N & -> & NP). exists pre, c', (post ++ [c]).
        split; [now rewrite <- app_assoc|]. split; [auto|]. split; [auto|].
        intros x I. apply in_app_or in I. destruct I as [I|[<-|[]]]; auto.
      * intros (pre & c' & post & Ec & N & -> & NP).
        destruct post as [|x post _] using rev_ind.
        -- apply app_inj_tail in Ec. destruct Ec as [_ ->]. easy.
        -- rewrite app_comm_cons, app_assoc in Ec. apply app_inj_tail in Ec.
           destruct Ec as [-> ->]. exists pre, c', post. repeat (split; [auto|]).
           intros y I. apply NP. apply in_or_app. auto.
Qed.

Lemma get_table (all : list (bstr * Impl)) n x :
  get (by_name all) n = Some x <-> fst x = n /\ registered all n (snd x).
Proof.
  unfold by_name, registered. revert x. induction all as [|r all IH] using rev_ind; intros x.
  - simpl. split; [easy|]. intros (_ & [|? ?] & post & E & _); discriminate.
  - rewrite fold_left_app. cbn [fold_left]. rewrite get_put.
    destruct (beqb n (fst r)) eqn:E.
    + apply beqb_eq in E. subst n. split.
      * intros [= <-]. split; [auto|]. exists all, []. destruct r. simpl. auto.
      * intros (Hx & pre & post & Ea & NI). destruct post as [|y post _] using rev_ind.
        -- apply app_inj_tail in Ea. destruct Ea as [_ ->]. destruct x. simpl in *. now subst.
        -- exfalso. rewrite app_comm_cons, app_assoc in Ea. apply app_inj_tail in Ea.
           destruct Ea as [_ ->]. apply NI. rewrite map_app, in_app_iff. simpl. auto.
    + rewrite IH. split.
      * intros (Hx & pre & post & -> & NI). split; [auto|]. exists pre, (post ++ [r]).
        rewrite <- app_assoc. split; [auto|]. rewrite map_app, in_app_iff. simpl.
        intros [H|[H|[]]]; [auto|]. rewrite H, beqb_refl in E. easy.
      * intros (Hx & pre & post & Ea & NI). split; [auto|].
        destruct post as [|y post _] using rev_ind.
        -- apply app_inj_tail in Ea. destruct Ea as [_ ->]. simpl in E. rewrite beqb_refl in E. easy.
        -- rewrite app_comm_cons, app_assoc in Ea. apply app_inj_tail in Ea.
           destruct Ea as [-> ->]. exists pre, post. split; [auto|].
           intros H. apply NI. rewrite map_app, in_app_iff. auto.
Qed.

Lemma resolve_ok (all : list (bstr * Impl)) (rs : list (@hrule Opt)) : forall xs,
  resolve (by_name all) rs = Ok xs <-> Forall2 (runs_as all) rs xs.
Proof.
  induction rs as [|r rs IH]; intros xs; cbn [resolve].
  - split; [intros [= <-]; constructor|inversion 1; auto].
  - destruct (get (by_name all) (h_name r)) as [[n i]|] eqn:E.
    + apply get_table in E. destruct E as [En R]. simpl in En, R. subst n.
      destruct (resolve (by_name all) rs) as [ys|] eqn:Er; cbn [rbind].
      * split.
        -- intros [= <-]. constructor; [exists i; auto|now apply IH].
        -- intros H. inversion H as [|? x ? zs (i' & R' & ->) F]; subst. apply IH in F. injection F as ->.
           f_equal. f_equal. f_equal. f_equal.
           assert (G : get (by_name all) (h_name r) = Some (h_name r, i)) by (now apply get_table).
           assert (G' : get (by_name all) (h_name r) = Some (h_name r, i')) by (now apply get_table).
           congruence.
      * split; [easy|]. intros H. inversion H as [|? x ? zs _ F]; subst. apply IH in F. easy.
    + split; [easy|]. intros H. inversion H as [|? x ? zs (i' & R' & ->) F]; subst.
      assert (G' : get (by_name all) (h_name r) = Some (h_name r, i')) by (now apply get_table).
      congruence.
Qed.

(** Assignment. *)
Notation progs := (list (bstr * list bstr)).

Lemma append_to_spec (m : progs) k f :
  (forall k' l, In (k', l) (append_to m k f) -> In (k', l) m \/ k' = k) /\
  (NoDup (map fst m) -> NoDup (map fst (append_to m k f))) /\
  (forall x, In x (map fst (append_to m k f)) <-> x = k \/ In x (map fst m)) /\
  (forall k' g, NoDup (map fst m) -> (exists l, In (k', l) (append_to m k f) /\ In g l) <->
                (k' = k /\ g = f) \/ (exists l, In (k', l) m /\ In g l)) /\
  (NoDup (map fst m) -> (forall l, In (k, l) m -> ~ In f l) -> (forall k' l, In (k', l) m -> NoDup l) ->
     forall k' l, In (k', l) (append_to m k f) -> NoDup l).
Proof.
  induction m as [|[k0 l0] m (A & B & C & D & E)]; cbn [append_to].
  - split; [intros k' l [[= <- <-]|[]]; auto|]. split; [intros _; repeat constructor; easy|].
    split; [intros x; simpl; intuition|]. split.
    + intros k' g _. split.
      * intros (l & [[= <- <-]|[]] & [<-|[]]). auto.
      * intros [[-> ->]|(l & [] & _)]. exists [f]. simpl. auto.
    + intros _ _ _ k' l [[= <- <-]|[]]. repeat constructor. easy.
  - destruct (beqb k k0) eqn:Ek.
    + apply beqb_eq in Ek. subst k0.
      split; [intros k' l [[= <- <-]|I]; [auto|left; now right]|].
      split; [auto|]. split; [intros x; simpl; intuition|]. split.
      * intros k' g ND. split.
        -- intros (l & [[= <- <-]|I] & Ig).
           ++ apply in_app_or in Ig. destruct Ig as [Ig|[<-|[]]]; [|auto]. right. exists l0. simpl. auto.
           ++ right. exists l. simpl. auto.
        -- intros [[-> ->]|(l & [[= <- <-]|I] & Ig)].
           ++ exists (l0 ++ [f]). split; [now left|]. apply in_or_app. simpl. auto.
           ++ exists (l0 ++ [f]). split; [now left|]. apply in_or_app. auto.
           ++ exists l. simpl. auto.
      * intros ND NF Hn k' l [[= <- <-]|I]; [|eapply Hn; right; eauto].
        rewrite <- (rev_involutive (l0 ++ [f])). apply NoDup_rev. rewrite rev_app_distr. simpl.
        constructor; [rewrite <- in_rev; apply NF; now left|]. apply NoDup_rev. eapply Hn. now left.
    + assert (Nk : k <> k0) by (intros X; apply beqb_eq in X; congruence).
      split; [intros k' l [[= <- <-]|I]; [left; now left|apply A in I; destruct I; [left; now right|auto]]|].
      split.
      { intros ND. inversion ND; subst. constructor; [|auto]. rewrite C. intros [X|X]; simpl in *; [congruence|auto]. }
      split; [intros x; simpl; rewrite C; intuition|]. split.
      * intros k' g ND. inversion ND as [|? ? NI ND']; subst. specialize (D k' g ND'). split.
        -- intros (l & [[= <- <-]|I] & Ig); [right; exists l0; simpl; auto|].
           destruct (proj1 D) as [H|(l' & I' & Ig')]; [eauto|auto|]. right. exists l'. simpl. auto.
        -- intros [[-> ->]|(l & [[= <- <-]|I] & Ig)].
           ++ destruct (proj2 D) as (l & I & Ig); [auto|]. exists l. simpl. auto.
           ++ exists l0. simpl. auto.
           ++ destruct (proj2 D) as (l' & I' & Ig'); [right; eauto|]. exists l'. simpl. auto.
      * intros ND NF Hn k' l [[= <- <-]|I]; [eapply Hn; now left|].
        inversion ND; subst. eapply E; eauto.
        -- intros l' I'. apply NF. now right.
        -- intros k2 l2 I2. eapply Hn. right. eauto.
Qed.

Record assigned (result : list (bstr * bstr)) (w : progs * list bstr) : Prop := {
  as_keys : NoDup (map fst (fst w));
  as_ne : forall k, In k (map fst (fst w)) -> k <> [] /\ exists f, In (f, k) result;
  as_in : forall k g, (exists l, In (k, l) (fst w) /\ In g l) <-> In (g, k) result /\ k <> [];
  as_nd : forall k l, In (k, l) (fst w) -> NoDup l;
  as_un : forall g, In g (snd w) <-> In (g, []) result;
  as_und : NoDup (snd w)
}.

Lemma NoDup_snoc {A} (l : list A) x : NoDup l -> ~ In x l -> NoDup (l ++ [x]).
Proof.
  intros H N. rewrite <- (rev_involutive (l ++ [x])). apply NoDup_rev. rewrite rev_app_distr. simpl.
  constructor; [rewrite <- in_rev; auto|now apply NoDup_rev].
Qed.

Lemma assign_ok result : NoDup (map fst result) -> assigned result (assign result).
Proof.
  induction result as [|[f c] result IH] using rev_ind; intros ND.
  - unfold assign. constructor; simpl; try easy; try constructor; try (intros (l & [] & _)); try (intros [[] _]).
  - rewrite map_app in ND. simpl in ND. apply NoDup_remove in ND. rewrite app_nil_r in ND.
    destruct ND as [ND NI]. specialize (IH ND).
    replace (assign (result ++ [(f, c)])) with
      (match c with [] => (fst (assign result), snd (assign result) ++ [f])
       | _ => (append_to (fst (assign result)) c f, snd (assign result)) end)
      by (unfold assign; rewrite fold_left_app; reflexivity).
    set (w := assign result) in *. clearbody w. destruct IH as [K NE I N U UN].
    assert (NR : forall c', ~ In (f, c') result).
    { intros c' X. apply NI. apply in_map_iff. exists (f, c'). auto. }
    destruct c as [|c0 c1].
    + constructor; cbn [fst snd]; auto.
      * intros k Hk. destruct (NE k Hk) as (? & g & Hg). split; [auto|]. exists g. apply in_or_app. auto.
      * intros k g. rewrite I, in_app_iff. simpl. split; [tauto|]. intros [[H|[[= <- <-]|[]]] H']; easy.
      * intros g. rewrite !in_app_iff, U. simpl. split.
        -- intros [H|[->|[]]]; auto.
        -- intros [H|[[= <-]|[]]]; auto.
      * apply NoDup_snoc; auto. rewrite U. apply NR.
    + destruct (append_to_spec (fst w) (c0 :: c1) f) as (A & B & C & D & E).
      set (k0 := c0 :: c1) in *. assert (Hk0 : k0 <> []) by easy. clearbody k0.
      constructor; cbn [fst snd]; auto.
      * intros k Hk. apply C in Hk. destruct Hk as [->|Hk].
        -- split; [auto|]. exists f. apply in_or_app. simpl. auto.
        -- destruct (NE k Hk) as (? & g & Hg). split; [auto|]. exists g. apply in_or_app. auto.
      * intros k g. rewrite (D k g K), I, in_app_iff. simpl. split.
        -- intros [[-> ->]|[H H']]; auto.
        -- intros [[H|[[= <- <-]|[]]] H']; auto.
      * apply E; auto. intros l Hl X. destruct (proj1 (I k0 f)) as [H _]; [eauto|]. now apply NR in H.
      * intros g. rewrite in_app_iff, U. simpl. split; [auto|]. intros [H|[[= _ X]|[]]]; [auto|congruence].
Qed.

(** Matching of the files of a program. *)
Variable sf_name : SF -> bstr.

Lemma mem_b_in k l : mem_b k l = true <-> In k l.
Proof.
  unfold mem_b. rewrite existsb_exists. split.
  - intros (x & I & E). apply beqb_eq in E. now subst.
  - intros I. exists k. split; [auto|apply beqb_refl].
Qed.

Lemma to_set_ok l : NoDup (to_set l) /\ forall f, In f (to_set l) <-> In f l.
Proof.
  unfold to_set. induction l as [|x l [A B]] using rev_ind; [split; [constructor|easy]|].
  rewrite fold_left_app. cbn [fold_left]. set (s := fold_left _ l []) in *. clearbody s.
  destruct (mem_b x s) eqn:E.
  - apply mem_b_in in E. split; [auto|]. intros f. rewrite in_app_iff, B. simpl. split; [auto|].
    intros [H|[<-|[]]]; [auto|now apply B].
  - assert (NI : ~ In x s) by (intros H; apply mem_b_in in H; congruence).
    split; [now apply NoDup_snoc|]. intros f. rewrite !in_app_iff, B. reflexivity.
Qed.

Lemma match_files_ok (sfs : list SF) : forall set a left,
  match_files sf_name set sfs = (a, left) ->
  NoDup (map sf_name a) /\ incl a sfs /\
  (forall f, In f set <-> In f (map sf_name a) \/ In f left) /\
  (forall f, In f (map sf_name a) -> ~ In f left) /\
  (forall sf, In sf sfs -> ~ In (sf_name sf) left).
Proof.
  induction sfs as [|sf sfs IH]; intros set a left E; cbn [match_files] in E.
  - injection E as <- <-. split; [constructor|]. split; [easy|]. split; [intros f; simpl; tauto|]. split; easy.
  - destruct (mem_b (sf_name sf) set) eqn:M.
    + apply mem_b_in in M.
      destruct (match_files sf_name (filter _ set) sfs) as [a' rest] eqn:E'. injection E as <- <-.
      destruct (IH _ _ _ E') as (A & B & C & D & F).
      assert (FI : forall f, In f (filter (fun k => negb (beqb (sf_name sf) k)) set) <-> In f set /\ f <> sf_name sf).
      { intros f. rewrite filter_In, negb_true_iff. split; intros [H H']; (split; [auto|]).
        - intros ->. rewrite beqb_refl in H'. easy.
        - destruct (beqb (sf_name sf) f) eqn:X; [|auto]. apply beqb_eq in X. congruence. }
      assert (NS : ~ In (sf_name sf) (map sf_name a') /\ ~ In (sf_name sf) rest).
      { split; intros H; assert (X : In (sf_name sf) (filter (fun k => negb (beqb (sf_name sf) k)) set))
          by (apply C; auto); apply FI in X; easy. }
      split; [simpl; constructor; [tauto|auto]|].
      split; [intros x [<-|H]; [now left|right; auto]|]. split; [|split].
      * intros f. simpl. split.
        -- intros H. destruct (list_eq_dec ascii_dec (sf_name sf) f) as [Y|Y]; [auto|].
           assert (X : In f (filter (fun k => negb (beqb (sf_name sf) k)) set)) by (apply FI; auto).
           apply C in X. tauto.
        -- intros [[<-|H]|H]; [auto| |]; assert (X : In f (filter (fun k => negb (beqb (sf_name sf) k)) set))
             by (apply C; auto); apply FI in X; tauto.
      * simpl. intros f [<-|H]; [tauto|auto].
      * intros x [<-|H]; [tauto|auto].
    + assert (NI : ~ In (sf_name sf) set) by (intros H; apply mem_b_in in H; congruence).
      destruct (IH _ _ _ E) as (A & B & C & D & F).
      split; [auto|]. split; [intros x H; right; auto|]. split; [auto|]. split; [auto|].
      intros x [<-|H]; [|auto]. intros H. apply NI. apply C. auto.
Qed.

(** Events of a run. *)
Notation lints := (@lints Opt Impl SF).

Lemma lints_app c l1 l2 : lints c (l1 ++ l2) = lints c l1 ++ lints c l2.
Proof. apply flat_map_app. Qed.
Lemma lints_int c ds : lints c (map EInt ds) = [].
Proof. induction ds; simpl; auto. Qed.

Variable ts_diags : Prog -> list SF -> list internal.
Variable shuffle : list SF -> list SF.
Hypothesis Hsh : reorders shuffle.
Variable cfgs : list hconfig.
Variable all : list (bstr * Impl).

Definition rules_good (e : event) : Prop :=
  match e with
  | EInt _ => True
  | ELint _ sf rs => rules_for sf_name cfgs all sf = Ok rs
  end.

Lemma lint_all_ok c sfs : forall evs,
  lint_all sf_name cfgs all c sfs = Ok evs ->
  lints c evs = sfs /\ (forall c', c' <> c -> lints c' evs = []) /\ Forall rules_good evs.
Proof.
  induction sfs as [|sf sfs IH]; intros evs E; cbn [lint_all] in E.
  - injection E as <-. repeat split; auto.
  - destruct (rules_for sf_name cfgs all sf) as [rs|] eqn:R; [|easy].
    destruct (lint_all sf_name cfgs all c sfs) as [rest|] eqn:L; [|easy]. injection E as <-.
    destruct (IH _ eq_refl) as (A & B & C). split; [|split].
    + cbn [RunSpec.lints flat_map]. fold (lints c rest). rewrite A.
      destruct c as [c|]; [|reflexivity]. destruct (list_eq_dec ascii_dec c c); [reflexivity|easy].
    + intros c' N. cbn [RunSpec.lints flat_map]. fold (lints c' rest). rewrite (B c' N).
      destruct c as [c|], c' as [c'|]; try reflexivity; try easy.
      destruct (list_eq_dec ascii_dec c' c); [congruence|reflexivity].
    + constructor; auto.
Qed.

Lemma run_program_ok c p sfs evs :
  run_program sf_name ts_diags shuffle cfgs all c p sfs = Ok evs ->
  Permutation (lints c evs) sfs /\ (forall c', c' <> c -> lints c' evs = []) /\ Forall rules_good evs.
Proof.
  unfold run_program. destruct (lint_all _ _ _ _ _) as [ls|] eqn:L; [|easy]. intros [= <-].
  destruct (lint_all_ok _ _ _ L) as (A & B & C). rewrite lints_app, lints_int, A. split; [apply Hsh|]. split.
  - intros c' N. rewrite lints_app, lints_int. simpl. auto.
  - apply Forall_app. split; [|auto]. apply Forall_forall. intros e I. apply in_map_iff in I.
    destruct I as (d & <- & _). exact Coq.Init.Logic.I.
Qed.

Variable create : bstr -> created Prog.
Variable prog_files : Prog -> list SF.
Variable inferred : list bstr -> Prog.
Variable get_sf : Prog -> bstr -> option SF.

Definition program_done (log : list event) (c : bstr) (files : list bstr) : Prop :=
  (exists p, create c = CProg p /\ incl (lints (Some c) log) (prog_files p) /\
     NoDup (map sf_name (lints (Some c) log)) /\
     forall f, In f files <-> In f (map sf_name (lints (Some c) log))) \/
  (exists ds, create c = CDiags ds /\ incl (map EInt ds) log /\ lints (Some c) log = []).

Notation run_programs := (run_programs sf_name ts_diags shuffle create prog_files cfgs all).

Lemma run_programs_ok ps : forall log, NoDup (map fst ps) ->
  run_programs ps = RDone log ->
  (forall c files, In (c, files) ps -> program_done log c files) /\
  (forall c, ~ In c (map fst ps) -> lints (Some c) log = []) /\ lints None log = [] /\
  Forall rules_good log.
Proof.
  induction ps as [|[c files] ps IH]; intros log ND E; cbn [Run.run_programs] in E.
  - injection E as <-. repeat split; easy.
  - simpl in ND. inversion ND as [|? ? NI ND']; subst.
    destruct (create c) as [|ds|p] eqn:Cr; [easy| |].
    + destruct (run_programs ps) as [l| |] eqn:R; try easy. injection E as <-.
      destruct (IH _ ND' eq_refl) as (A & B & C & D). split; [|split; [|split]].
      * intros c' f' [[= <- <-]|I].
        -- right. exists ds. split; [auto|]. split; [intros x; rewrite in_app_iff; auto|].
           rewrite lints_app, lints_int. simpl. auto.
        -- specialize (A _ _ I). unfold program_done in *. rewrite lints_app, lints_int. simpl.
           destruct A as [A|(ds' & H1 & H2 & H3)]; [auto|]. right. exists ds'.
           split; [auto|]. split; [|auto]. intros x Hx. apply in_or_app. auto.
      * intros c' N. rewrite lints_app, lints_int. simpl. apply B. intros X. apply N. now right.
      * rewrite lints_app, lints_int. auto.
      * apply Forall_app. split; [|auto]. apply Forall_forall. intros e I. apply in_map_iff in I.
        destruct I as (d & <- & _). exact Coq.Init.Logic.I.
    + destruct (match_files sf_name (to_set files) (prog_files p)) as [sfs left] eqn:M.
      destruct left; [|easy].
      destruct (run_program _ _ _ _ _ _ _ _) as [evs|] eqn:RP; [|easy].
      destruct (run_programs ps) as [l| |] eqn:R; try easy. injection E as <-.
      destruct (IH _ ND' eq_refl) as (A & B & C & D).
      destruct (run_program_ok _ _ _ _ RP) as (P1 & P2 & P3).
      destruct (match_files_ok _ _ _ _ M) as (M1 & M2 & M3 & _).
      destruct (to_set_ok files) as [_ TS].
      split; [|split; [|split]].
      * intros c' f' [[= <- <-]|I].
        -- left. exists p. split; [auto|]. rewrite lints_app, (B c NI), app_nil_r.
           split; [intros x Hx; apply M2; eapply Permutation_in; eauto|].
           assert (PN : Permutation (map sf_name sfs) (map sf_name (lints (Some c) evs)))
             by (apply Permutation_map; symmetry; auto).
           split; [eapply Permutation_NoDup; eauto|].
           intros f. rewrite <- TS, M3. split.
           ++ intros [H|[]]. eapply Permutation_in; eauto.
           ++ intros H. left. eapply Permutation_in; [symmetry; eauto|auto].
        -- assert (Nc : Some c' <> Some c).
           { intros [= ->]. apply NI. apply in_map_iff. exists (c, f'). auto. }
           specialize (A _ _ I). unfold program_done in *. rewrite lints_app, (P2 _ Nc). simpl.
           destruct A as [A|(ds' & H1 & H2 & H3)]; [auto|]. right. exists ds'.
           split; [auto|]. split; [|auto]. intros x Hx. apply in_or_app. auto.
      * intros c' N. rewrite lints_app, P2, B; [auto| |].
        -- intros X. apply N. now right.
        -- intros [= ->]. apply N. now left.
      * rewrite lints_app, P2, C by easy. auto.
      * apply Forall_app. auto.
Qed.

(** Internal diagnostics of a run. *)
Notation ints := (@ints Opt Impl SF).
Lemma ints_app l1 l2 : ints (l1 ++ l2) = ints l1 ++ ints l2.
Proof. apply flat_map_app. Qed.
Lemma ints_int ds : ints (map EInt ds) = ds.
Proof. induction ds; simpl; f_equal; auto. Qed.
Lemma ints_lint_all c sfs : forall evs, lint_all sf_name cfgs all c sfs = Ok evs -> ints evs = [].
Proof.
  induction sfs as [|sf sfs IH]; intros evs E; cbn [lint_all] in E; [injection E as <-; reflexivity|].
  destruct (rules_for sf_name cfgs all sf) as [rs|] eqn:R; [|easy].
  destruct (lint_all sf_name cfgs all c sfs) as [rest|] eqn:L; [|easy]. injection E as <-.
  simpl. now apply IH.
Qed.
Lemma ints_program c p sfs evs :
  run_program sf_name ts_diags shuffle cfgs all c p sfs = Ok evs -> ints evs = ts_diags p sfs.
Proof.
  unfold run_program. destruct (lint_all _ _ _ _ _) as [ls|] eqn:L; [|easy]. intros [= <-].
  now rewrite ints_app, ints_int, (ints_lint_all _ _ _ L), app_nil_r.
Qed.

Notation due := (due create ts_diags).
Lemma due_app log1 log2 c ds : lints (Some c) log1 = lints (Some c) log2 -> due log1 c ds -> due log2 c ds.
Proof.
  intros E [H|(p & sfs & H1 & H2 & H3)]; [now left|]. right. exists p, sfs. rewrite <- E. auto.
Qed.

Lemma Forall2_imp {A B} (R1 R2 : A -> B -> Prop) l l' :
  (forall x y, In x l -> R1 x y -> R2 x y) -> Forall2 R1 l l' -> Forall2 R2 l l'.
Proof.
  intros H F. induction F; constructor; [apply H; [now left|auto]|].
  apply IHF. intros a c I. apply H. now right.
Qed.

Lemma ints_programs ps : forall log, NoDup (map fst ps) -> run_programs ps = RDone log ->
  exists parts, ints log = concat parts /\ Forall2 (due log) (map fst ps) parts.
Proof.
  induction ps as [|[c files] ps IH]; intros log ND E.
  - cbn [Run.run_programs] in E. injection E as <-. exists []. split; [reflexivity|constructor].
  - pose proof (run_programs_ok _ _ ND E) as (_ & _ & _ & _). cbn [Run.run_programs] in E.
    simpl in ND. inversion ND as [|? ? NI ND']; subst.
    destruct (create c) as [|ds|p] eqn:Cr; [easy| |].
    + destruct (run_programs ps) as [l| |] eqn:R; try easy. injection E as <-.
      destruct (IH _ ND' eq_refl) as (parts & A & B). exists (ds :: parts).
      rewrite ints_app, ints_int, A. split; [reflexivity|]. simpl. constructor; [now left|].
      eapply Forall2_imp; [|exact B]. intros x y _. apply due_app. now rewrite lints_app, lints_int.
    + destruct (match_files sf_name (to_set files) (prog_files p)) as [sfs left] eqn:M.
      destruct left; [|easy].
      destruct (run_program _ _ _ _ _ _ _ _) as [evs|] eqn:RP; [|easy].
      destruct (run_programs ps) as [l| |] eqn:R; try easy. injection E as <-.
      destruct (IH _ ND' eq_refl) as (parts & A & B).
      destruct (run_programs_ok _ _ ND' R) as (_ & B2 & _).
      destruct (run_program_ok _ _ _ _ RP) as (P1 & P2 & P3).
      exists (ts_diags p sfs :: parts). rewrite ints_app, (ints_program _ _ _ _ RP), A.
      split; [reflexivity|]. simpl. constructor.
      * right. exists p, sfs. split; [auto|]. split; [|auto].
        rewrite lints_app, (B2 c NI), app_nil_r. now symmetry.
      * eapply Forall2_imp; [|exact B]. intros x y I. apply due_app. rewrite lints_app, P2; [auto|].
        intros [= ->]. auto.
Qed.

Lemma get_all_ok p fs : forall sfs, get_all get_sf p fs = Ok sfs <-> map (get_sf p) fs = map Some sfs.
Proof.
  induction fs as [|f fs IH]; intros sfs; cbn [get_all map].
  - destruct sfs; split; easy.
  - destruct (get_sf p f) as [sf|].
    + destruct (get_all get_sf p fs) as [r|] eqn:G; cbn [rbind].
      * specialize (proj1 (IH r) eq_refl) as X. split.
        -- intros [= <-]. simpl. now rewrite X.
        -- destruct sfs as [|x sfs]; [easy|]. simpl. intros [= <- E]. apply IH in E. congruence.
      * split; [easy|]. destruct sfs as [|x sfs]; [easy|]. simpl. intros [= <- E]. apply IH in E. easy.
    + split; [easy|]. destruct sfs; easy.
Qed.

Variable iterp : list (bstr * list bstr) -> list (bstr * list bstr).
Variable sorter : list bstr -> list bstr.
Hypothesis Hit : reorders iterp.
Hypothesis Hso : reorders sorter.

Theorem headless_ok look result log :
  looked_up look cfgs result ->
  headless sf_name ts_diags shuffle create prog_files inferred get_sf iterp sorter cfgs all result = RDone log ->
  (forall f, requested cfgs f -> look f <> [] ->
    (exists p, create (look f) = CProg p /\
       exists l1 sf l2, lints (Some (look f)) log = l1 ++ sf :: l2 /\ sf_name sf = f /\ In sf (prog_files p) /\
         ~ In f (map sf_name (l1 ++ l2))) \/
    (exists ds, create (look f) = CDiags ds /\ incl (map EInt ds) log)) /\
  (forall c sf, In sf (lints (Some c) log) -> requested cfgs (sf_name sf) /\ look (sf_name sf) = c) /\
  (exists us, NoDup us /\ (forall f, In f us <-> requested cfgs f /\ look f = []) /\
     Permutation (map Some (lints None log)) (map (get_sf (inferred us)) us) /\
     exists cs parts sfs, NoDup cs /\ (forall c, In c cs <-> c <> [] /\ exists f, requested cfgs f /\ look f = c) /\
       Forall2 (due log) cs parts /\ Permutation sfs (lints None log) /\
       ints log = concat parts ++ ts_diags (inferred us) sfs) /\
  Forall rules_good log.
Proof.
  intros (n & sched & s & N & Run & MD & PR) E.
  destruct (final_result beqb beqb_eq look (norm_files cfgs) n sched s N Run MD) as (R1 & R2 & R3 & _).
  assert (ND : NoDup (map fst result)).
  { eapply Permutation_NoDup; [apply Permutation_map; symmetry; exact PR|auto]. }
  assert (RI : forall f c, In (f, c) result <-> requested cfgs f /\ c = look f).
  { intros f c. split.
    - intros I. assert (I' : In (f, c) (l_result beqb s)) by (eapply Permutation_in; eauto).
      split; [apply in_norm_files; apply R2; apply in_map_iff; exists (f, c); auto|auto].
    - intros [Rq ->]. apply in_norm_files, R2 in Rq. apply in_map_iff in Rq.
      destruct Rq as ([f' c'] & <- & I). simpl. rewrite <- (R3 _ _ I).
      eapply Permutation_in; [symmetry; eauto|auto]. }
  destruct (assign_ok result ND) as [K NE I NL U UN].
  unfold headless in E. set (w := assign result) in *. clearbody w.
  set (programs := map (fun x => (fst x, sorter (snd x))) (fst w)) in *.
  unfold run_linter in E.
  destruct (run_programs (iterp programs)) as [l1| |] eqn:RP; try easy.
  destruct (get_all get_sf (inferred (snd w)) (snd w)) as [sfs|] eqn:GA; [|easy].
  destruct (run_program _ _ _ _ _ _ _ _) as [evs|] eqn:RU; [|easy]. injection E as <-.
  assert (KP : map fst programs = map fst (fst w)).
  { unfold programs. rewrite map_map. reflexivity. }
  assert (ND' : NoDup (map fst (iterp programs))).
  { eapply Permutation_NoDup; [apply Permutation_map; symmetry; apply Hit|]. now rewrite KP. }
  destruct (run_programs_ok _ _ ND' RP) as (A & B & C & D).
  destruct (run_program_ok _ _ _ _ RU) as (P1 & P2 & P3).
  assert (LS : forall c, lints (Some c) (l1 ++ evs) = lints (Some c) l1).
  { intros c. rewrite lints_app, P2 by easy. apply app_nil_r. }
  assert (PI : forall c files, In (c, files) (fst w) -> program_done l1 c (sorter files)).
  { intros c files H. apply A. eapply Permutation_in; [symmetry; apply Hit|].
    unfold programs. apply in_map_iff. exists (c, files). auto. }
  split; [|split; [|split]].
  - intros f Rq Hc. assert (X : In (f, look f) result) by (apply RI; auto).
    destruct (proj2 (I (look f) f)) as (files & If & Hf); [auto|].
    specialize (PI _ _ If). destruct PI as [(p & Cp & In1 & Nd & Fs)|(ds & Cd & In1 & _)].
    + left. exists p. split; [auto|]. rewrite LS.
      assert (Hf' : In f (sorter files)) by (eapply Permutation_in; [symmetry; apply Hso|auto]).
      apply Fs in Hf'. apply in_map_iff in Hf'. destruct Hf' as (sf & Es & Is).
      apply in_split in Is. destruct Is as (a & c & Ea). rewrite Ea in *.
      exists a, sf, c. split; [auto|]. split; [auto|]. split; [apply In1; apply in_or_app; simpl; auto|].
      rewrite map_app in Nd. simpl in Nd. apply NoDup_remove_2 in Nd. rewrite map_app. now rewrite <- Es.
    + right. exists ds. split; [auto|]. intros x Hx. apply in_or_app. auto.
  - intros c sf Hs. rewrite LS in Hs.
    assert (Hk : In c (map fst (iterp programs))).
    { destruct (in_dec (list_eq_dec ascii_dec) c (map fst (iterp programs))) as [Y|Y]; [auto|].
      rewrite (B c Y) in Hs. easy. }
    assert (Hk' : In c (map fst (fst w))).
    { rewrite <- KP. eapply Permutation_in; [apply Permutation_map; apply Hit|auto]. }
    apply in_map_iff in Hk'. destruct Hk' as ([c' files] & <- & If). simpl in *.
    specialize (PI _ _ If). destruct PI as [(p & Cp & In1 & Nd & Fs)|(ds & Cd & In1 & E0)].
    + assert (Hf : In (sf_name sf) files).
      { eapply Permutation_in; [apply Hso|]. apply Fs. apply in_map. auto. }
      destruct (proj1 (I c' (sf_name sf))) as [X _]; [eauto|]. apply RI in X. destruct X as [? X]. auto.
    + rewrite E0 in Hs. easy.
  - exists (snd w). split; [auto|]. split.
    + intros f. rewrite U, RI. split; intros [H H']; auto.
    + split; [rewrite lints_app, C; simpl; apply get_all_ok in GA; rewrite GA; now apply Permutation_map|].
      destruct (ints_programs _ _ ND' RP) as (parts & I1 & I2).
      exists (map fst (iterp programs)), parts, sfs. split; [auto|]. split; [|split; [|split]].
      * intros c. assert (X : In c (map fst (iterp programs)) <-> In c (map fst (fst w))).
        { rewrite <- KP. split; intros H; (eapply Permutation_in; [|exact H]);
            [|symmetry]; apply Permutation_map; apply Hit. }
        rewrite X. split.
        -- intros H. destruct (NE c H) as [Hc (f & Hf)]. split; [auto|]. exists f. apply RI in Hf.
           destruct Hf as [? ->]. auto.
        -- intros (Hc & f & Rq & <-). destruct (proj2 (I (look f) f)) as (l & Hl & _).
           { split; [apply RI; auto|auto]. }
           apply in_map_iff. exists (look f, l). auto.
      * eapply Forall2_imp; [|exact I2]. intros x y _. apply due_app. now rewrite LS.
      * rewrite lints_app, C. simpl. now symmetry.
      * rewrite ints_app, I1, (ints_program _ _ _ _ RU). reflexivity.
  - apply Forall_app. auto.
Qed.

(** The rules that were run. *)
Lemma rules_good_spec c sf rs : rules_good (ELint c sf rs) ->
  (exists hs, last_group cfgs (sf_name sf) hs /\ Forall2 (runs_as all) hs rs) \/
  ((forall hs, ~ last_group cfgs (sf_name sf) hs) /\ rs = []).
Proof.
  cbn [rules_good]. unfold rules_for. intros H.
  destruct (get (file_configs cfgs) (sf_name sf)) as [hs|] eqn:G.
  - left. exists hs. split; [now apply get_configs|now apply resolve_ok].
  - right. split.
    + intros hs L. apply get_configs in L. congruence.
    + injection H as <-. reflexivity.
Qed.

Lemma requested_last f : requested cfgs f -> exists hs, last_group cfgs f hs.
Proof.
  destruct (get (file_configs cfgs) f) as [hs|] eqn:G; [intros _; exists hs; now apply get_configs|].
  intros (c & I & Nm). exfalso. revert G. unfold file_configs. revert I.
  generalize cfgs. intros cs. induction cs as [|x cs IH] using rev_ind; [easy|].
  intros I. rewrite fold_left_app. cbn [fold_left]. rewrite get_paths.
  destruct (existsb _ (c_paths x)) eqn:E; [easy|]. apply in_app_or in I. destruct I as [I|[<-|[]]]; [auto|].
  apply names_b in Nm. congruence.
Qed.

(** A run completes unless there is a reason not to. *)
Lemma lint_all_total c sfs :
  (forall sf, In sf sfs -> exists rs, rules_for sf_name cfgs all sf = Ok rs) ->
  exists evs, lint_all sf_name cfgs all c sfs = Ok evs.
Proof.
  induction sfs as [|sf sfs IH]; intros H; cbn [lint_all]; [eauto|].
  destruct (H sf (or_introl eq_refl)) as (rs & ->). cbn [rbind].
  destruct IH as (evs & ->); [intros x I; apply H; now right|]. cbn [rbind]. eauto.
Qed.

Lemma run_program_total c p sfs :
  (forall sf, In sf sfs -> exists rs, rules_for sf_name cfgs all sf = Ok rs) ->
  exists evs, run_program sf_name ts_diags shuffle cfgs all c p sfs = Ok evs.
Proof.
  intros H. unfold run_program. destruct (lint_all_total c (shuffle sfs)) as (evs & ->).
  - intros sf I. apply H. eapply Permutation_in; [apply Hsh|auto].
  - cbn [rbind]. eauto.
Qed.

Lemma run_programs_total ps :
  (forall c files, In (c, files) ps -> create c <> CErr /\
     forall p, create c = CProg p -> forall f, In f files ->
       (exists sf, In sf (prog_files p) /\ sf_name sf = f)) ->
  (forall c files f, In (c, files) ps -> In f files -> forall sf, sf_name sf = f -> exists rs, rules_for sf_name cfgs all sf = Ok rs) ->
  exists log, run_programs ps = RDone log.
Proof.
  induction ps as [|[c files] ps IH]; intros H HR; cbn [Run.run_programs]; [eauto|].
  destruct IH as (log & ->).
  { intros c' f' I. apply H. now right. }
  { intros c' f' f I. apply (HR c' f'). now right. }
  destruct (H c files (or_introl eq_refl)) as [NE HP].
  destruct (create c) as [|ds|p] eqn:Cr; [easy|eauto|].
  destruct (match_files sf_name (to_set files) (prog_files p)) as [sfs left] eqn:M.
  destruct (match_files_ok _ _ _ _ M) as (M1 & M2 & M3 & M4 & M5).
  destruct (to_set_ok files) as [_ TS].
  destruct left as [|f left].
  - destruct (run_program_total (Some c) p sfs) as (evs & ->); [|eauto].
    intros sf I. apply (HR c files (sf_name sf)); [now left| |auto]. apply TS, M3. left. now apply in_map.
  - exfalso. assert (If : In f files) by (apply TS, M3; right; now left).
    destruct (HP p eq_refl f If) as (sf & Is & <-). apply (M5 sf Is). now left.
Qed.

Theorem headless_total look result :
  looked_up look cfgs result ->
  (forall f, requested cfgs f -> look f <> [] -> create (look f) <> CErr /\
     forall p, create (look f) = CProg p -> exists sf, In sf (prog_files p) /\ sf_name sf = f) ->
  (forall us f, (forall g, In g us <-> requested cfgs g /\ look g = []) -> In f us -> get_sf (inferred us) f <> None) ->
  (forall f hs h, last_group cfgs f hs -> In h hs -> exists i, In (h_name h, i) all) ->
  exists log, headless sf_name ts_diags shuffle create prog_files inferred get_sf iterp sorter cfgs all result = RDone log.
Proof.
  intros (n & sched & s & N & Run & MD & PR) HC HU HK.
  destruct (final_result beqb beqb_eq look (norm_files cfgs) n sched s N Run MD) as (R1 & R2 & R3 & _).
  assert (ND : NoDup (map fst result)).
  { eapply Permutation_NoDup; [apply Permutation_map; symmetry; exact PR|auto]. }
  assert (RI : forall f c, In (f, c) result -> requested cfgs f /\ c = look f).
  { intros f c I. assert (I' : In (f, c) (l_result beqb s)) by (eapply Permutation_in; eauto).
    split; [apply in_norm_files; apply R2; apply in_map_iff; exists (f, c); auto|auto]. }
  assert (RI' : forall f, requested cfgs f -> In (f, look f) result).
  { intros f Rq. apply in_norm_files, R2 in Rq. apply in_map_iff in Rq.
    destruct Rq as ([f' c'] & <- & I). simpl. rewrite <- (R3 _ _ I).
    eapply Permutation_in; [symmetry; eauto|auto]. }
  assert (RF : forall sf, exists rs, rules_for sf_name cfgs all sf = Ok rs).
  { intros sf. unfold rules_for. destruct (get (file_configs cfgs) (sf_name sf)) as [hs|] eqn:G; [|simpl; eauto].
    apply get_configs in G. assert (HK' : forall h, In h hs -> exists i, In (h_name h, i) all) by (intros h; now apply (HK (sf_name sf))).
    clear G.
    induction hs as [|h hs IH]; cbn [resolve]; [eauto|].
    destruct (get (by_name all) (h_name h)) as [[m i]|] eqn:G.
    - destruct IH as (rs & ->); [intros h' I; apply HK'; now right|]. cbn [rbind]. eauto.
    - exfalso. destruct (HK' h (or_introl eq_refl)) as (i & Ii).
      revert G Ii. unfold by_name. generalize all. clear. intros al. induction al as [|x al IH] using rev_ind; [easy|].
      rewrite fold_left_app. cbn [fold_left]. rewrite get_put.
      destruct (beqb (h_name h) (fst x)) eqn:E; [easy|]. intros G I. apply in_app_or in I.
      destruct I as [I|[X|[]]]; [auto|]. rewrite X in E. simpl in E. rewrite beqb_refl in E. easy. }
  destruct (assign_ok result ND) as [K NE I NL U UN].
  unfold headless. set (w := assign result) in *. clearbody w.
  unfold run_linter.
  match goal with |- context[Run.run_programs _ _ _ _ _ _ _ ?x] => set (ps := x) end.
  destruct (run_programs_total ps) as (log & EQ).
  { intros c files Hin. unfold ps in Hin. apply (Permutation_in _ (Hit _)) in Hin.
    apply in_map_iff in Hin. destruct Hin as ([c' files'] & [= <- <-] & If).
    assert (Hc : c' <> [] /\ create c' <> CErr).
    { destruct (NE c') as [H (f & Hf)]; [apply in_map_iff; exists (c', files'); auto|].
      split; [auto|]. apply RI in Hf. destruct Hf as [Rq ->]. now apply HC. }
    split; [apply Hc|]. intros p Cp f Hf. apply (Permutation_in _ (Hso _)) in Hf.
    destruct (proj1 (I c' f)) as [X _]; [eauto|]. apply RI in X. destruct X as [Rq ->].
    eapply HC; eauto. apply Hc. }
  { intros. apply RF. }
  rewrite EQ.
  assert (GA : exists sfs, get_all get_sf (inferred (snd w)) (snd w) = Ok sfs).
  { assert (HU' : forall f, In f (snd w) -> get_sf (inferred (snd w)) f <> None).
    { intros f. apply HU. intros g. rewrite U. split.
      - intros H. apply RI in H. destruct H; auto.
      - intros [H H']. rewrite <- H'. auto. }
    revert HU'. generalize (inferred (snd w)). generalize (snd w). clear.
    induction l as [|f l IH]; intros p H; cbn [get_all]; [eauto|].
    destruct (get_sf p f) as [sf|] eqn:G; [|exfalso; apply (H f); [now left|auto]].
    destruct (IH p) as (sfs & ->); [intros g Ig; apply H; now right|]. cbn [rbind]. eauto. }
  destruct GA as (sfs & ->).
  destruct (run_program_total None (inferred (snd w)) sfs) as (evs & ->); [intros; apply RF|]. eauto.
Qed.

End P.

Lemma create_diags_nonempty {P : Type} ex r pd pe np sup ds :
  @create_program P ex r pd pe np sup = CDiags ds -> ds <> [].
Proof.
  unfold create_program. destruct ex; cbn [negb]; [|easy].
  destruct (Nat.ltb_spec 0 (List.length pd)) as [H|H].
  - intros [= <-]. destruct pd; [simpl in H; lia|easy].
  - destruct (0 <? List.length pe) eqn:H2; cbn [andb].
    + destruct sup; cbn [negb].
      * destruct np as [[p d]|]; [|easy]. rewrite andb_false_r. easy.
      * intros [= <-]. apply Nat.ltb_lt in H2. destruct pe; [simpl in H2; lia|easy].
    + destruct np as [[p d]|]; [|easy]. destruct (0 <? List.length d) eqn:H3; cbn [andb]; [|easy].
      destruct sup; cbn [negb]; [easy|]. intros [= <-]. apply Nat.ltb_lt in H3.
      destruct d; [simpl in H3; lia|easy].
Qed.
