From Coq Require Import Bool List Arith Lia.
From Verif Require Import Base Bfs BfsSpec BfsProofs TsConfig TsConfigSpec EngineProofs.
Import ListNotations.
Open Scope nat_scope.

Section P.
Variable load : bstr -> option cfg.
Variable possibly : cfg -> bstr -> bool.
Variable case_sensitive : bool.
Variables to_path base : bstr -> bstr.
Variable fold : bstr -> bstr -> bool.
Variable compute : bstr -> bool -> bstr.
Variable reg_up : bstr -> bstr -> bstr -> bstr.
Hypothesis laws : path_laws case_sensitive to_path base fold.
Hypothesis no_empty_config : load [] = None.

Notation nbs := (cfg_neighbors load).
Notation visit := (cfg_visit load possibly case_sensitive to_path base fold).
Notation owns := (owns load possibly to_path).
Notation ref_walk := (ref_walk load).
Notation ancestor := (ancestor to_path compute reg_up).
Notation up := (up compute reg_up).
Notation find_config := (find_config load possibly case_sensitive to_path base fold compute reg_up).

Lemma file_matches_ok file f :
  file_matches case_sensitive to_path base fold (to_path file) f = true <-> to_path f = to_path file.
Proof.
  unfold file_matches. destruct laws as [L1 L2 L3 L4].
  destruct case_sensitive.
  - destruct (beqb f (to_path file)) eqn:E.
    + apply beqb_eq in E. subst f. split; auto.
    + destruct (beqb (base f) (base (to_path file))) eqn:E2; cbn [negb].
      * apply beqb_eq.
      * split; [easy|]. intros H. rewrite (L3 eq_refl f file H), beqb_refl in E2. easy.
  - destruct (fold f (to_path file)) eqn:E.
    + split; auto.
    + destruct (fold (base f) (base (to_path file))) eqn:E2; cbn [negb].
      * apply beqb_eq.
      * split; [easy|]. intros H. rewrite (L4 eq_refl f file H) in E2. easy.
Qed.

Lemma visit_cases file n : visit file (to_path file) n = (true, true) \/ visit file (to_path file) n = (false, false).
Proof.
  unfold cfg_visit. destruct (load n) as [c|]; auto. destruct (c_files c); auto.
  destruct (c_composite c && negb (possibly c file)); auto.
  destruct (existsb _ _); auto.
Qed.

Lemma visit_owns file n : visit file (to_path file) n = (true, true) <-> owns file n.
Proof.
  unfold cfg_visit, TsConfigSpec.owns. split.
  - destruct (load n) as [c|] eqn:Ln; [|easy]. intros H. exists c. split; [reflexivity|].
    destruct (c_files c) as [|f0 fs] eqn:Fs; [easy|].
    destruct (c_composite c && negb (possibly c file)) eqn:C; [easy|].
    destruct (existsb _ _) eqn:E; [|easy].
    apply existsb_exists in E. destruct E as (f & If & Mf). apply file_matches_ok in Mf.
    split; [eauto|]. intros Cc. rewrite Cc in C. simpl in C. now apply negb_false_iff in C.
  - intros (c & -> & (f & If & Ef) & Cc). destruct (c_files c) as [|f0 fs] eqn:Fs; [easy|].
    assert (C : c_composite c && negb (possibly c file) = false).
    { destruct (c_composite c); [|easy]. rewrite Cc by auto. easy. }
    rewrite C. assert (E : existsb (file_matches case_sensitive to_path base fold (to_path file)) (f0 :: fs) = true).
    { apply existsb_exists. exists f. split; [auto|]. now apply file_matches_ok. }
    now rewrite E.
Qed.

Lemma nbs_refers n m : In m (nbs n) <-> refers load n m.
Proof.
  unfold cfg_neighbors. split.
  - destruct (load n) as [c|] eqn:Ln; [|easy]. intros H.
    apply refers_intro with c; auto; destruct (c_projrefs c); easy.
  - intros [n' c m' Ln P I]. rewrite Ln. destruct (c_projrefs c); easy.
Qed.

Lemma walk_ref W a n k : walk nbs W a n k -> ref_walk a n k.
Proof. induction 1; [constructor|]. econstructor; eauto. now apply nbs_refers. Qed.

(** Sets of configs that contain no owner and all their references. *)
Definition dead (file : bstr) (W : list bstr) : Prop :=
  (forall n, In n W -> ~ owns file n) /\ (forall n m, In n W -> refers load n m -> In m W).

Lemma ref_walk_avoids file W a n k : dead file W -> ref_walk a n k -> ~ In n W -> walk nbs W a n k.
Proof.
  intros [_ D]. induction 1 as [|n m k H IH R]; intros NI; [now constructor|].
  apply w_edge with n; [apply IH|now apply nbs_refers|auto].
  intros I. apply NI. eapply D; eauto.
Qed.

Lemma owner_walk file W a n k : dead file W -> ref_walk a n k -> owns file n -> walk nbs W a n k.
Proof. intros D H O. apply ref_walk_avoids with file; auto. intros I. now apply (proj1 D n). Qed.

(** One breadth-first search. *)
Lemma search_stopped file bfuel W a r : dead file W ->
  bfs beqb nbs (visit file (to_path file)) bfuel W a = Some r -> r_stopped r = true ->
  exists n q, r_path r = n :: q /\ owns file n /\ ref_walk a n (length q) /\
    forall c d, owns file c -> ref_walk a c d -> length q <= d.
Proof.
  intros D E St. pose proof (bfs_sound beqb beqb_eq nbs _ W a bfuel r E) as O.
  unfold outcome in O. rewrite St in O. destruct O as (d & F).
  pose proof (first_stop beqb beqb_eq _ _ _ _ _ _ _ F) as M.
  destruct F as (n & q & o & P & _ & S & Lq & Dn & _).
  exists n, q. split; [exact P|]. split; [now apply visit_owns|].
  split; [rewrite Lq; eapply walk_ref; apply Dn|].
  intros c k Oc Hc. rewrite Lq. apply M with c; [now apply visit_owns|]. eapply owner_walk; eauto.
Qed.

Lemma search_done file bfuel W a r : dead file W ->
  bfs beqb nbs (visit file (to_path file)) bfuel W a = Some r -> r_stopped r = false ->
  r_path r = [] /\ dead file (b_vis (r_st r)) /\
  forall c d, ref_walk a c d -> ~ owns file c.
Proof.
  intros D E St. pose proof (bfs_sound beqb beqb_eq nbs _ W a bfuel r E) as O.
  unfold outcome in O. rewrite St in O. destruct O as (_ & V & Wk & NS & _ & P).
  assert (NR : forall n, In n (b_order (r_st r)) -> ~ results (visit file (to_path file)) n).
  { intros n I R. apply (NS n I). unfold results in R. unfold stops.
    destruct (visit_cases file n) as [X|X]; rewrite X in *; easy. }
  split; [|split].
  - destruct (r_path r) as [|n q]; [easy|]. destruct P as (_ & R & _ & o1 & o2 & Eo & _).
    exfalso. apply (NR n); [rewrite Eo; apply in_or_app; simpl; auto|auto].
  - split.
    + intros n I O. apply V in I. destruct I as [I|I]; [now apply (proj1 D n)|].
      apply (NS n I). now apply visit_owns.
    + intros n m I R. apply V in I. apply V. destruct I as [I|I]; [left; eapply (proj2 D); eauto|].
      destruct (In_dec_eqb beqb beqb_eq m W) as [X|X]; [auto|]. right.
      apply Wk in I. destruct I as (k & Hk). apply Wk. exists (S k).
      apply w_edge with n; auto. now apply nbs_refers.
  - intros c d H O. assert (I : In c (b_order (r_st r))).
    { apply Wk. exists d. eapply owner_walk; eauto. }
    apply (NS c I). now apply visit_owns.
Qed.

(** The whole lookup from an ancestor on. *)
Inductive up_chain (file : bstr) : nat -> bstr -> bstr -> Prop :=
| uc_0 a : up_chain file 0 a a
| uc_S k a n : up file (to_path file) a <> [] -> up_chain file k (up file (to_path file) a) n ->
    up_chain file (S k) a n.

Definition best_from (file a c : bstr) : Prop :=
  owns file c /\ exists k b d, up_chain file k a b /\ ref_walk b c d /\
    (forall c' d', owns file c' -> ref_walk b c' d' -> d <= d') /\
    (forall k' b' c' d', k' < k -> up_chain file k' a b' -> ref_walk b' c' d' -> ~ owns file c').

Lemma owns_nonempty file c : owns file c -> c <> [].
Proof. intros (x & L & _) ->. congruence. Qed.

Lemma is_empty_ok s : is_empty s = true <-> s = [].
Proof. destruct s; simpl; split; easy. Qed.

Lemma find_config_sound bfuel file : forall fuel W a c, dead file W ->
  find_config bfuel fuel file (to_path file) a W None = Some c ->
  (c <> [] /\ best_from file a c) \/
  (c = [] /\ forall k b x d, up_chain file k a b -> ref_walk b x d -> ~ owns file x).
Proof.
  induction fuel as [|fuel IH]; intros W a c D E; [easy|].
  cbn [TsConfig.find_config] in E.
  destruct (bfs beqb nbs (visit file (to_path file)) bfuel W a) as [r|] eqn:B; [|easy].
  destruct (r_stopped r) eqn:St.
  - destruct (search_stopped file bfuel W a r D B St) as (n & q & P & O & H & M).
    rewrite P in E. injection E as <-. left. split; [eapply owns_nonempty; eauto|].
    split; [auto|]. exists 0, a, (length q). split; [constructor|]. split; [auto|]. split; [auto|].
    intros k' b' c' d' Lk. lia.
  - destruct (search_done file bfuel W a r D B St) as (P & D' & NO).
    rewrite P in E. cbn [is_empty] in E.
    assert (E' : (if is_empty (up file (to_path file) a) then Some []
                  else find_config bfuel fuel file (to_path file) (up file (to_path file) a) (b_vis (r_st r)) None) = Some c).
    { destruct (stored load to_path (b_order (r_st r)) a) as [x|]; [destruct (c_disable x)|]; exact E. }
    clear E. destruct (is_empty (up file (to_path file) a)) eqn:U.
    + injection E' as <-. right. split; [reflexivity|]. apply is_empty_ok in U.
      intros k b x d C H. inversion C; subst; [eapply NO; eauto|]. congruence.
    + assert (U' : up file (to_path file) a <> []) by (intros X; apply is_empty_ok in X; congruence).
      destruct (IH _ _ _ D' E') as [[Nc (O & k & b & d & C & H & M & F)]|[-> F]].
      * left. split; [auto|]. split; [auto|]. exists (S k), b, d. split; [now constructor|].
        split; [auto|]. split; [auto|]. intros k' b' c' d' Lk C' H'.
        inversion C'; subst; [eapply NO; eauto|]. eapply F; eauto. lia.
      * right. split; [reflexivity|]. intros k b x d C H. inversion C; subst; [eapply NO; eauto|].
        eapply F; eauto.
Qed.

Lemma ancestor_up file skip k n :
  ancestor file skip (S k) n <-> exists m, ancestor file skip k m /\ up file (to_path file) m = n /\ n <> [].
Proof.
  unfold TsConfig.up. split.
  - intros H. inversion H as [|k' m A Hne|k' m A He Hne]; subst; exists m; (split; [auto|]).
    + destruct (is_empty _) eqn:X; [apply is_empty_ok in X; easy|auto].
    + rewrite He. simpl. auto.
  - intros (m & A & U & Hne). destruct (is_empty (reg_up file (to_path file) m)) eqn:X; subst n.
    + apply is_empty_ok in X. now apply anc_up.
    + apply anc_reg; auto.
Qed.

Lemma uc_snoc file k a b : up_chain file k a b -> up file (to_path file) b <> [] ->
  up_chain file (S k) a (up file (to_path file) b).
Proof. induction 1; intros; repeat (constructor; auto). Qed.

Lemma uc_last file k a c : up_chain file (S k) a c ->
  exists b, up_chain file k a b /\ up file (to_path file) b = c /\ c <> [].
Proof.
  revert a. induction k as [|k IH]; intros a H; inversion H as [|k' a' n' Hne C]; subst.
  - inversion C; subst. exists a. split; [constructor|auto].
  - destruct (IH _ C) as (b & Cb & E & Hc). exists b. split; [now constructor|auto].
Qed.

Lemma ancestor_chain file skip : compute file skip <> [] -> forall k n,
  ancestor file skip k n <-> up_chain file k (compute file skip) n.
Proof.
  intros Hne. induction k as [|k IH]; intros n.
  - split; intros H; inversion H; subst; [constructor|now constructor].
  - rewrite ancestor_up. split.
    + intros (m & A & <- & Hn). apply IH in A. now apply uc_snoc.
    + intros H. apply uc_last in H. destruct H as (m & C & E & Hc). exists m. rewrite IH. auto.
Qed.

Lemma no_ancestor file skip : compute file skip = [] -> forall k n, ~ ancestor file skip k n.
Proof. intros E. induction k; intros n H; inversion H; subst; try congruence; eapply IHk; eauto. Qed.

Notation lookup := (lookup load possibly case_sensitive to_path base fold compute reg_up).

Theorem lookup_sound bfuel fuel file skip c : lookup bfuel fuel file skip = Some c ->
  (c <> [] /\ best load possibly to_path compute reg_up file skip c) \/
  (c = [] /\ no_owner load possibly to_path compute reg_up file skip).
Proof.
  unfold TsConfig.lookup. destruct (is_empty (compute file skip)) eqn:X.
  - intros [= <-]. apply is_empty_ok in X. right. split; [reflexivity|].
    intros k a c d A. now apply no_ancestor in A.
  - assert (Hne : compute file skip <> []) by (intros Y; apply is_empty_ok in Y; congruence).
    intros E. apply find_config_sound in E; [|split; [intros n []|intros n m []]].
    destruct E as [[Nc (O & k & b & d & C & H & M & F)]|[-> F]].
    + left. split; [auto|]. split; [auto|]. exists k, b, d. split; [now apply ancestor_chain|].
      split; [auto|]. split; [auto|]. intros k' b' c' d' L A. apply ancestor_chain in A; auto.
      eapply F; eauto.
    + right. split; [reflexivity|]. intros k a c d A. apply ancestor_chain in A; auto.
      eapply F; eauto.
Qed.

(** Ties are broken by the order of the references. *)
Lemma find_config_order bfuel file : forall fuel W a c, dead file W ->
  find_config bfuel fuel file (to_path file) a W None = Some c -> c <> [] ->
  exists k b W' q o, up_chain file k a b /\ (forall n, In n W' -> ~ owns file n) /\
    fifo nbs (visit file (to_path file)) [[b]] (fun m => In m W') None [] (true, c :: q, o).
Proof.
  induction fuel as [|fuel IH]; intros W a c D E Nc; [easy|].
  cbn [TsConfig.find_config] in E.
  destruct (bfs beqb nbs (visit file (to_path file)) bfuel W a) as [r|] eqn:B; [|easy].
  pose proof (bfs_fifo beqb beqb_eq _ _ _ _ _ _ B) as F.
  destruct (r_stopped r) eqn:St.
  - destruct (search_stopped file bfuel W a r D B St) as (n & q & P & _).
    rewrite P in *. injection E as <-. exists 0, a, W, q, (b_order (r_st r)).
    split; [constructor|]. split; [apply D|]. exact F.
  - destruct (search_done file bfuel W a r D B St) as (P & D' & NO).
    rewrite P in E. cbn [is_empty] in E.
    assert (E' : (if is_empty (up file (to_path file) a) then Some []
                  else find_config bfuel fuel file (to_path file) (up file (to_path file) a) (b_vis (r_st r)) None) = Some c).
    { destruct (stored load to_path (b_order (r_st r)) a) as [x|]; [destruct (c_disable x)|]; exact E. }
    clear E. destruct (is_empty (up file (to_path file) a)) eqn:U; [congruence|].
    assert (U' : up file (to_path file) a <> []) by (intros X; apply is_empty_ok in X; congruence).
    destruct (IH _ _ _ D' E' Nc) as (k & b & W' & q & o & C & DW & F').
    exists (S k), b, W', q, o. split; [now constructor|]. auto.
Qed.

(** Termination. *)
Lemma find_config_total U depth bfuel file :
  (forall n, In n U -> incl (nbs n) U) ->
  (forall n, up file (to_path file) n <> [] -> In n U -> In (up file (to_path file) n) U /\
             depth (up file (to_path file) n) < depth n) ->
  length U + 2 <= bfuel ->
  forall fuel a W fb, In a U -> depth a < fuel ->
  exists c, find_config bfuel fuel file (to_path file) a W fb = Some c.
Proof.
  intros G Up Lb. induction fuel as [|fuel IH]; intros a W fb I L; [lia|].
  cbn [TsConfig.find_config].
  destruct (bfs_total beqb beqb_eq nbs (visit file (to_path file)) W a U bfuel) as (r & ->); [split; auto|auto|].
  destruct (r_stopped r); [eauto|].
  cbv zeta. set (fb' := if is_empty _ then fb else _) in *.
  assert (T : exists c, (if is_empty (up file (to_path file) a)
     then match fb' with Some f => Some f | None => Some [] end
     else find_config bfuel fuel file (to_path file) (up file (to_path file) a) (b_vis (r_st r)) fb') = Some c).
  { destruct (is_empty (up file (to_path file) a)) eqn:X; [destruct fb'; eauto|].
    assert (Hne : up file (to_path file) a <> []) by (intros Y; apply is_empty_ok in Y; congruence).
    destruct (Up a Hne I) as [I' Ld]. apply IH; [auto|lia]. }
  destruct (stored load to_path (b_order (r_st r)) a) as [x|]; [|exact T].
  destruct (c_disable x); [|exact T]. destruct fb'; eauto.
Qed.

End P.

(** The option DisableSolutionSearching. *)
Definition forget (c : cfg) : cfg :=
  mkCfg (c_files c) (c_projrefs c) (c_refs c) (c_composite c) false.
Definition forget_all (load : bstr -> option cfg) (n : bstr) : option cfg := option_map forget (load n).

Section Disable.
Variable load : bstr -> option cfg.
Variable possibly : cfg -> bstr -> bool.
Variable case_sensitive : bool.
Variables to_path base : bstr -> bstr.
Variable fold : bstr -> bstr -> bool.
Variable compute : bstr -> bool -> bstr.
Variable reg_up : bstr -> bstr -> bstr -> bstr.
Hypothesis possibly_forget : forall c f, possibly (forget c) f = possibly c f.
Notation fm := (file_matches case_sensitive to_path base fold).

Lemma visit_results (ld : bstr -> option cfg) file path n :
  cfg_visit ld possibly case_sensitive to_path base fold file path n = (true, true) \/
  cfg_visit ld possibly case_sensitive to_path base fold file path n = (false, false).
Proof.
  unfold cfg_visit. destruct (ld n) as [c|]; auto. destruct (c_files c); auto.
  destruct (c_composite c && negb (possibly c file)); auto.
  destruct (existsb _ _); auto.
Qed.

Lemma no_fallback ld file path bfuel W a r :
  bfs beqb (cfg_neighbors ld) (cfg_visit ld possibly case_sensitive to_path base fold file path) bfuel W a = Some r ->
  r_stopped r = false -> r_path r = [].
Proof.
  intros E St. pose proof (bfs_sound beqb beqb_eq _ _ W a bfuel r E) as O.
  unfold outcome in O. rewrite St in O. destruct O as (_ & V & Wk & NS & _ & P).
  destruct (r_path r) as [|n q]; [easy|]. destruct P as (_ & R & _ & o1 & o2 & Eo & _).
  exfalso. apply (NS n); [rewrite Eo; apply in_or_app; simpl; auto|].
  unfold results in R. unfold stops. destruct (visit_results ld file path n) as [X|X]; rewrite X in *; easy.
Qed.

Lemma find_config_forget bfuel file path : forall fuel a W,
  find_config load possibly case_sensitive to_path base fold compute reg_up bfuel fuel file path a W None =
  find_config (forget_all load) possibly case_sensitive to_path base fold compute reg_up bfuel fuel file path a W None.
Proof.
  induction fuel as [|fuel IH]; intros a W; [reflexivity|].
  cbn [find_config].
  assert (B : bfs beqb (cfg_neighbors load) (cfg_visit load possibly case_sensitive to_path base fold file path) bfuel W a =
              bfs beqb (cfg_neighbors (forget_all load)) (cfg_visit (forget_all load) possibly case_sensitive to_path base fold file path) bfuel W a).
  { apply bfs_ext.
    - intros n. unfold cfg_neighbors, forget_all. destruct (load n); reflexivity.
    - intros n. unfold cfg_visit, forget_all. destruct (load n) as [c|]; [|reflexivity].
      cbn [option_map]. rewrite possibly_forget. reflexivity. }
  rewrite <- B. destruct (bfs beqb (cfg_neighbors load) _ bfuel W a) as [r|] eqn:E; [|reflexivity].
  destruct (r_stopped r) eqn:St; [reflexivity|].
  rewrite (no_fallback _ _ _ _ _ _ _ E St). cbn [is_empty].
  rewrite IH.
  destruct (stored load to_path _ a) as [c|]; [destruct (c_disable c)|];
    (destruct (stored (forget_all load) to_path _ a) as [c'|]; [destruct (c_disable c')|]; reflexivity).
Qed.
End Disable.
