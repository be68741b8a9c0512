From Coq Require Import Bool List Arith Sorted Lia.
From Verif Require Import Bfs BfsSpec.
Import ListNotations.

Section P.
Context {N : Type}.
Variable eqb : N -> N -> bool.
Hypothesis eqb_eq : forall x y, eqb x y = true <-> x = y.
Variable neighbors : N -> list N.
Variable visit : N -> bool * bool.
Variable W : list N.
Variable s0 : N.

Notation walk := (walk neighbors W s0).
Notation dist := (dist neighbors W s0).
Notation chain := (chain neighbors s0).
Notation do_level := (do_level eqb neighbors visit).
Notation levels := (levels eqb neighbors visit).

Lemma mem_in n l : mem eqb n l = true <-> In n l.
Proof.
  unfold mem. rewrite existsb_exists. split.
  - intros (x & I & E). apply eqb_eq in E. now subst.
  - intros I. exists n. split; [exact I|now apply eqb_eq].
Qed.

Lemma mem_notin n l : mem eqb n l = false <-> ~ In n l.
Proof.
  rewrite <- mem_in. destruct (mem eqb n l); split; try easy.
Qed.

(** A stop node / a result node. *)
Definition stops (n : N) : Prop := visit n = (true, true).
Definition results (n : N) : Prop := fst (visit n) = true.

(** Jobs of level [d]: real paths of [d] edges whose parents were visited. *)
Definition good_job (d : nat) (j : list N) : Prop :=
  exists n p, j = n :: p /\ chain j /\ length p = d /\ (~ In n W -> walk n d).

Definition keys (L : list (list N)) : list N := flat_map (fun j => match j with n :: _ => [n] | [] => [] end) L.

Lemma keys_in n L : In n (keys L) <-> exists p, In (n :: p) L.
Proof.
  unfold keys. rewrite in_flat_map. split.
  - intros ([|m p] & I & H); simpl in H; [easy|]. destruct H as [<-|[]]. eauto.
  - intros (p & I). exists (n :: p). split; [exact I|now left].
Qed.

Lemma add_children_ok d n p cs : forall next,
  incl cs (neighbors n) ->
  chain (n :: p) -> length p = d -> walk n d ->
  (forall j, In j next -> good_job (S d) j) ->
  let next' := add_children eqb (n :: p) cs next in
  (forall j, In j next' -> good_job (S d) j) /\
  (forall m, In m (keys next') <-> In m (keys next) \/ In m cs).
Proof.
  induction cs as [|c cs IH]; intros next I C L Wk G; cbn [add_children].
  - split; [exact G|]. intros m. simpl. tauto.
  - assert (I' : incl cs (neighbors n)) by (intros x Hx; apply I; now right).
    destruct (existsb (fun j' => eqb c (node_of c j')) next) eqn:E.
    + destruct (IH next I' C L Wk G) as (A & B). split; [exact A|].
      intros m. rewrite B. cbn [In].
      assert (K : In c (keys next)).
      { apply existsb_exists in E. destruct E as (j & Ij & Ej). apply eqb_eq in Ej.
        destruct (G j Ij) as (x & q & -> & _). cbn [node_of] in Ej. subst x.
        apply keys_in. eauto. }
      split; [tauto|]. intros [H|[<-|H]]; auto.
    + destruct (IH (next ++ [c :: n :: p]) I' C L Wk) as (A & B).
      { intros j Ij. apply in_app_or in Ij. destruct Ij as [Ij|[<-|[]]]; [auto|].
        exists c, (n :: p). split; [reflexivity|]. split; [|split].
        - constructor; [exact C|]. apply I. now left.
        - simpl. now rewrite L.
        - intros Hc. apply w_edge with n; auto. apply I. now left. }
      split; [exact A|]. intros m. rewrite B. unfold keys at 1. rewrite flat_map_app.
      rewrite in_app_iff. cbn [flat_map app In]. fold (keys next). tauto.
Qed.

(** Invariant while processing level [d]: [rest] jobs still to do, [next] built so far,
    [vd] the nodes of distance [d] already visited on this level. *)
Record linv (d : nat) (rest next : list (list N)) (s : bst) : Prop := mkL {
  l_vis : forall n, In n (b_vis s) <-> In n W \/ In n (b_order s);
  l_nd : NoDup (b_order s);
  l_sound : forall n, In n (b_order s) -> exists k, k <= d /\ dist n k;
  l_lower : forall n k, k < d -> dist n k -> In n (b_order s);
  l_rest : forall j, In j rest -> good_job d j;
  l_cover : forall n, dist n d -> In n (b_order s) \/ In n (keys rest);
  l_next : forall j, In j next -> good_job (S d) j;
  l_nextcov : forall n m, In n (b_order s) -> dist n d -> In m (neighbors n) -> In m (keys next);
  l_sorted : StronglySorted (no_further neighbors W s0) (b_order s);
  l_nostop : forall n, In n (b_order s) -> ~ stops n;
  l_fall : match b_fall s with
           | None => forall n, In n (b_order s) -> ~ results n
           | Some p => exists n q o1 o2, p = n :: q /\ chain p /\ results n /\
                       b_order s = o1 ++ n :: o2 /\ (forall m, In m o1 -> ~ results m) /\
                       dist n (length q)
           end
}.

Lemma dist_fun n d d' : dist n d -> dist n d' -> d = d'.
Proof. intros [A B] [A' B']. specialize (B _ A'). specialize (B' _ A). lia. Qed.

Lemma walk_notW n k : walk n k -> ~ In n W.
Proof. destruct 1; auto. Qed.


(** The nodes reached by walks of exactly [k] edges, as a list; so walks are decidable. *)
Fixpoint wset (k : nat) : list N :=
  match k with
  | O => if mem eqb s0 W then [] else [s0]
  | S k' => filter (fun m => negb (mem eqb m W)) (flat_map neighbors (wset k'))
  end.

Lemma wset_walk k : forall n, In n (wset k) <-> walk n k.
Proof.
  induction k as [|k IH]; intros n; cbn [wset].
  - destruct (mem eqb s0 W) eqn:E.
    + split; [easy|]. intros H. inversion H; subst. apply mem_in in E. easy.
    + apply mem_notin in E. split.
      * intros [<-|[]]. now constructor.
      * intros H. inversion H; subst. now left.
  - rewrite filter_In, in_flat_map. split.
    + intros ((m & Im & In') & Hn). apply negb_true_iff, mem_notin in Hn.
      apply w_edge with m; auto. now apply IH.
    + intros H. inversion H; subst. split.
      * exists n0. split; [now apply IH|auto].
      * apply negb_true_iff, mem_notin. auto.
Qed.

Lemma In_dec_eqb (n : N) l : In n l \/ ~ In n l.
Proof. destruct (mem eqb n l) eqn:E; [left; now apply mem_in|right; now apply mem_notin]. Qed.

Lemma walk_dec n k : walk n k \/ ~ walk n k.
Proof. destruct (In_dec_eqb n (wset k)) as [H|H]; rewrite wset_walk in H; auto. Qed.

Lemma shorter_dec n k : (exists k', k' < k /\ walk n k') \/ ~ (exists k', k' < k /\ walk n k').
Proof.
  induction k as [|k IH]; [right; intros (? & ? & _); lia|].
  destruct IH as [(k' & L & H)|IH]; [left; exists k'; split; [lia|auto]|].
  destruct (walk_dec n k) as [H|H]; [left; exists k; split; [lia|auto]|].
  right. intros (k' & L & H'). destruct (Nat.eq_dec k' k) as [->|]; [easy|].
  apply IH. exists k'. split; [lia|auto].
Qed.

Lemma walk_dist n k : walk n k -> exists d, d <= k /\ dist n d.
Proof.
  revert n. induction k as [k IH] using lt_wf_ind. intros n Hk.
  destruct (shorter_dec n k) as [(k' & L & H)|H].
  - destruct (IH k' L n H) as (d & Ld & Hd). exists d. split; [lia|auto].
  - exists k. split; [lia|]. split; [auto|]. intros k' H'.
    destruct (le_lt_dec k k'); auto. exfalso. apply H. eauto.
Qed.

Lemma dist_pred m d : dist m (S d) -> exists n, dist n d /\ In m (neighbors n).
Proof.
  intros [H M]. inversion H as [|n m' k Hn Im Hm]; subst.
  exists n. split; [|auto]. split; [auto|].
  intros k Hk. specialize (M (S k) (w_edge _ _ _ _ _ _ Hk Im Hm)). lia.
Qed.

Lemma sorted_snoc (R : N -> N -> Prop) l x :
  StronglySorted R l -> (forall y, In y l -> R y x) -> StronglySorted R (l ++ [x]).
Proof.
  induction 1 as [|a l S IH F]; intros H; simpl; [repeat constructor|].
  constructor; [apply IH; intros y Hy; apply H; now right|].
  apply Forall_app. split; [auto|]. constructor; [apply H; now left|constructor].
Qed.

Definition final_stop (d : nat) (p : list N) (s : bst) : Prop :=
  exists n q o, p = n :: q /\ chain p /\ stops n /\ length q = d /\ dist n d /\
    b_order s = o ++ [n] /\ NoDup (b_order s) /\
    (forall m, In m (b_vis s) <-> In m W \/ In m (b_order s)) /\
    (forall m, In m o -> ~ stops m) /\
    (forall m k, k < d -> dist m k -> In m o) /\
    (forall m, In m (b_order s) -> exists k, k <= d /\ dist m k) /\
    StronglySorted (no_further neighbors W s0) (b_order s).

Lemma do_level_ok d : forall rest next s,
  linv d rest next s ->
  match do_level rest next s with
  | Stop p s' => final_stop d p s'
  | Next next' s' => linv d [] next' s' /\
      ((b_order s' = b_order s /\ next' = next) \/ length (b_order s) < length (b_order s'))
  end.
Proof.
  induction rest as [|j rest IH]; intros next s I; cbn [Bfs.do_level].
  - split; auto.
  - destruct (l_rest _ _ _ _ I j (or_introl eq_refl)) as (n & p & -> & C & Lp & Wk).
    destruct (mem eqb n (b_vis s)) eqn:E.
    + apply mem_in in E. apply (l_vis _ _ _ _ I) in E.
      apply IH. destruct I. constructor; auto.
      * intros j Hj. apply l_rest0. now right.
      * intros m Hm. destruct (l_cover0 m Hm) as [H|H]; [auto|].
        cbn [keys flat_map app] in H. destruct H as [<-|H]; [|auto].
        destruct E as [E|E]; [|auto]. destruct Hm as [Hm _]. now apply walk_notW in Hm.
    + apply mem_notin in E. rewrite (l_vis _ _ _ _ I) in E.
      assert (NW : ~ In n W) by tauto. assert (NO : ~ In n (b_order s)) by tauto.
      specialize (Wk NW).
      assert (D : dist n d).
      { destruct (walk_dist n d Wk) as (k & Lk & Hk).
        destruct (Nat.eq_dec k d) as [->|]; [auto|].
        exfalso. apply NO. apply (l_lower _ _ _ _ I) with k; [lia|auto]. }
      assert (ND : NoDup (b_order s ++ [n])).
      { rewrite <- (rev_involutive (b_order s ++ [n])). apply NoDup_rev.
        rewrite rev_app_distr. simpl. constructor; [rewrite <- in_rev; auto|].
        apply NoDup_rev. apply (l_nd _ _ _ _ I). }
      assert (SS : StronglySorted (no_further neighbors W s0) (b_order s ++ [n])).
      { apply sorted_snoc; [apply (l_sorted _ _ _ _ I)|]. intros m Hm k Hk.
        destruct (l_sound _ _ _ _ I m Hm) as (k' & Lk' & Dk').
        exists k'. split; [|apply Dk']. destruct D as [_ D]. specialize (D k Hk). lia. }
      assert (VI : forall m, In m (b_vis s ++ [n]) <-> In m W \/ In m (b_order s ++ [n])).
      { intros m. rewrite !in_app_iff, (l_vis _ _ _ _ I). tauto. }
      assert (SO : forall m, In m (b_order s ++ [n]) -> exists k, k <= d /\ dist m k).
      { intros m Hm. apply in_app_or in Hm. destruct Hm as [Hm|[<-|[]]].
        - apply (l_sound _ _ _ _ I m Hm).
        - exists d. auto. }
      destruct (visit n) as [isR stop] eqn:V. cbn [b_vis b_order b_fall].
      destruct (isR && stop) eqn:RS.
      * apply andb_true_iff in RS. destruct RS as [-> ->].
        exists n, p, (b_order s). cbn [b_vis b_order].
        repeat (split; [solve [auto | apply (l_nostop _ _ _ _ I) | apply (l_lower _ _ _ _ I)]|]).
        auto.
      * assert (NS : ~ stops n).
        { unfold stops. rewrite V. intros [= -> ->]. easy. }
        destruct (add_children_ok d n p (neighbors n) next (incl_refl _) C Lp Wk (l_next _ _ _ _ I)) as (A & B).
        set (next1 := add_children eqb (n :: p) (neighbors n) next) in *. clearbody next1.
        match goal with |- context[Bfs.do_level _ _ _ rest next1 ?x] => set (s1 := x) end.
        assert (I1 : linv d rest next1 s1).
        { constructor; unfold s1; cbn [b_vis b_order b_fall]; auto.
          - intros m k Lk Hk. apply in_or_app. left. apply (l_lower _ _ _ _ I) with k; auto.
          - intros j Hj. apply (l_rest _ _ _ _ I). now right.
          - intros m Hm. destruct (l_cover _ _ _ _ I m Hm) as [H|H]; [left; apply in_or_app; auto|].
            cbn [keys flat_map app] in H. destruct H as [<-|H]; [left; apply in_or_app; simpl; auto|auto].
          - intros m m' Hm Dm Im'. apply B. apply in_app_or in Hm. destruct Hm as [Hm|[<-|[]]]; [|auto].
            left. apply (l_nextcov _ _ _ _ I) with m; auto.
          - intros m Hm. apply in_app_or in Hm. destruct Hm as [Hm|[<-|[]]]; [|auto].
            apply (l_nostop _ _ _ _ I); auto.
          - pose proof (l_fall _ _ _ _ I) as F. destruct (b_fall s) as [pf|].
            + destruct F as (x & q & o1 & o2 & -> & Cx & Rx & O & M & Dx).
              destruct isR; exists x, q, o1, (o2 ++ [n]); repeat (split; [solve [auto]|]);
                (split; [rewrite O, <- app_assoc; reflexivity|auto]).
            + destruct isR.
              * exists n, p, (b_order s), []. repeat (split; [solve [auto]|]).
                split; [unfold results; now rewrite V|].
                split; [reflexivity|]. split; [auto|]. now rewrite Lp.
              * intros m Hm. apply in_app_or in Hm. destruct Hm as [Hm|[<-|[]]]; [auto|].
                unfold results. rewrite V. discriminate. }
        specialize (IH next1 s1 I1). destruct (do_level rest next1 s1) as [p' s'|nx s']; [exact IH|].
        destruct IH as [X [[Y _]|Y]].
        -- split; [exact X|right]. rewrite Y. unfold s1. cbn [b_order]. rewrite app_length. simpl. lia.
        -- split; [exact X|right]. unfold s1 in Y. cbn [b_order] in Y. rewrite app_length in Y. simpl in Y. lia.
Qed.

Lemma linv_step d next s : linv d [] next s -> linv (S d) next [] s.
Proof.
  intros []. constructor; auto.
  - intros n Hn. destruct (l_sound0 n Hn) as (k & L & H). exists k. split; [lia|auto].
  - intros n k Lk H. destruct (Nat.eq_dec k d) as [->|]; [|apply l_lower0 with k; [lia|auto]].
    destruct (l_cover0 n H) as [?|[]]; auto.
  - intros n H. right. destruct (dist_pred n d H) as (m & Dm & Im).
    apply l_nextcov0 with m; auto. destruct (l_cover0 m Dm) as [?|[]]; auto.
  - intros ? [].
  - intros n m Hn Dn. destruct (l_sound0 n Hn) as (k & L & H).
    pose proof (dist_fun _ _ _ Dn H). lia.
Qed.

Definition final_done (p : list N) (s : bst) : Prop :=
  NoDup (b_order s) /\
  (forall m, In m (b_vis s) <-> In m W \/ In m (b_order s)) /\
  (forall m, In m (b_order s) <-> exists k, walk m k) /\
  (forall m, In m (b_order s) -> ~ stops m) /\
  StronglySorted (no_further neighbors W s0) (b_order s) /\
  match p with
  | [] => forall n, In n (b_order s) -> ~ results n
  | n :: q => chain p /\ results n /\ dist n (length q) /\
      exists o1 o2, b_order s = o1 ++ n :: o2 /\ forall m, In m o1 -> ~ results m
  end.

Lemma done_ok d s : linv d [] [] s -> (forall n, ~ dist n d) ->
  final_done (match b_fall s with Some p => p | None => [] end) s.
Proof.
  intros I E.
  assert (A : forall k n, d <= k -> ~ dist n k).
  { induction k as [|k IH]; intros n L H.
    - assert (d = 0) as -> by lia. now apply (E n).
    - destruct (Nat.eq_dec d (S k)) as [->|]; [now apply (E n)|].
      destruct (dist_pred _ _ H) as (m & Dm & _). apply (IH m); [lia|auto]. }
  split; [apply (l_nd _ _ _ _ I)|]. split; [apply (l_vis _ _ _ _ I)|].
  split.
  { intros m. split.
    - intros H. destruct (l_sound _ _ _ _ I m H) as (k & _ & [X _]). eauto.
    - intros (k & Hk). destruct (walk_dist m k Hk) as (k' & _ & Dk).
      apply (l_lower _ _ _ _ I) with k'; auto.
      destruct (le_lt_dec d k'); auto. exfalso. now apply (A k' m). }
  split; [apply (l_nostop _ _ _ _ I)|]. split; [apply (l_sorted _ _ _ _ I)|].
  pose proof (l_fall _ _ _ _ I) as F. destruct (b_fall s) as [p|]; [|exact F].
  destruct F as (n & q & o1 & o2 & -> & C & R & O & M & D). eauto 10.
Qed.

Lemma init_linv : linv 0 [[s0]] [] (mkBst W [] None).
Proof.
  constructor; cbn [b_vis b_order b_fall]; try easy; try (intros; simpl; tauto).
  - constructor.
  - intros j [<-|[]]. exists s0, []. repeat split; auto using c_start, w_start.
  - intros n [H _]. right. inversion H; subst. simpl. auto.
  - constructor.
Qed.

Definition outcome (r : bres) : Prop :=
  if r_stopped r then exists d, final_stop d (r_path r) (r_st r)
  else final_done (r_path r) (r_st r).


Definition fresh (d : nat) (s : bst) : Prop :=
  forall n, In n (b_order s) -> exists k, k < d /\ dist n k.

Lemma step_fresh d next s : linv d [] next s -> fresh (S d) s.
Proof.
  intros I n Hn. destruct (l_sound _ _ _ _ I n Hn) as (k & L & H). exists k. split; [lia|auto].
Qed.

Lemma levels_sound : forall fuel d L s r,
  linv d L [] s -> fresh d s -> levels fuel L s = Some r -> outcome r.
Proof.
  induction fuel as [|fuel IH]; intros d L s r I F E; [easy|].
  cbn [Bfs.levels] in E. destruct L as [|j L].
  - injection E as <-. unfold outcome. cbn [r_stopped r_path r_st].
    apply done_ok with d; [exact I|]. intros n Dn.
    destruct (l_cover _ _ _ _ I n Dn) as [H|[]].
    destruct (F n H) as (k & Lk & Dk). pose proof (dist_fun _ _ _ Dn Dk). lia.
  - pose proof (do_level_ok d _ _ _ I) as X.
    destruct (do_level (j :: L) [] s) as [p s'|nx s'].
    + injection E as <-. unfold outcome. cbn [r_stopped r_path r_st]. exists d. exact X.
    + destruct X as [X _]. eapply IH; [apply linv_step; exact X|apply step_fresh with nx; exact X|exact E].
Qed.

Lemma walk_in_U U n k : closed_graph neighbors U s0 -> walk n k -> In n U.
Proof. intros [A B] H. induction H; auto. apply (B n); auto. Qed.

Lemma order_len U d L nx s : closed_graph neighbors U s0 -> linv d L nx s ->
  length (b_order s) <= length U.
Proof.
  intros G I. apply NoDup_incl_length; [apply (l_nd _ _ _ _ I)|].
  intros n Hn. destruct (l_sound _ _ _ _ I n Hn) as (k & _ & [X _]).
  eapply walk_in_U; eauto.
Qed.

Lemma levels_total U : closed_graph neighbors U s0 -> forall fuel d L s,
  linv d L [] s -> length U - length (b_order s) + 2 <= fuel ->
  exists r, levels fuel L s = Some r.
Proof.
  intros G. induction fuel as [|fuel IH]; intros d L s I Lf; [lia|].
  cbn [Bfs.levels]. destruct L as [|j L]; [eauto|].
  pose proof (do_level_ok d _ _ _ I) as X.
  destruct (do_level (j :: L) [] s) as [p s'|nx s']; [eauto|].
  destruct X as [X Y]. pose proof (order_len U _ _ _ _ G X) as Lu.
  destruct Y as [[Y ->]|Y].
  - destruct fuel; [lia|]. simpl. eauto.
  - eapply IH; [apply linv_step; exact X|]. lia.
Qed.

Theorem bfs_total U fuel : closed_graph neighbors U s0 -> length U + 2 <= fuel ->
  exists r, bfs eqb neighbors visit fuel W s0 = Some r.
Proof.
  intros G L. apply levels_total with U 0; auto using init_linv. simpl. lia.
Qed.

Theorem bfs_sound fuel r : bfs eqb neighbors visit fuel W s0 = Some r -> outcome r.
Proof.
  intros E. eapply levels_sound with (d := 0); [apply init_linv| |exact E]. intros n [].
Qed.

(** Nodes at distance [d]. *)
Lemma first_stop d p s : final_stop d p s -> forall m k, stops m -> walk m k -> d <= k.
Proof.
  intros (n & q & o & _ & _ & _ & _ & _ & _ & _ & _ & NS & LO & _) m k Sm Hk.
  destruct (walk_dist m k Hk) as (k' & Lk & Dk).
  destruct (le_lt_dec d k'); [lia|]. exfalso. apply (NS m); [apply (LO m k'); auto|auto].
Qed.

End P.

(** The search depends on its callbacks only through their values. *)
Section Ext.
Context {N : Type}.
Variable eqb : N -> N -> bool.
Variables nb nb' : N -> list N.
Variables v v' : N -> bool * bool.
Hypothesis Hn : forall n, nb n = nb' n.
Hypothesis Hv : forall n, v n = v' n.

Lemma do_level_ext jobs : forall next s, do_level eqb nb v jobs next s = do_level eqb nb' v' jobs next s.
Proof.
  induction jobs as [|[|n p] jobs IH]; intros next s; cbn [do_level]; auto.
  destruct (mem eqb n (b_vis s)); auto. rewrite Hv, Hn. destruct (v' n) as [r st].
  destruct (r && st); auto.
Qed.

Lemma levels_ext fuel : forall L s, levels eqb nb v fuel L s = levels eqb nb' v' fuel L s.
Proof.
  induction fuel as [|fuel IH]; intros L s; cbn [levels]; auto.
  destruct L; auto. rewrite do_level_ext. destruct (do_level eqb nb' v' _ _ _); auto.
Qed.

Lemma bfs_ext fuel W a : bfs eqb nb v fuel W a = bfs eqb nb' v' fuel W a.
Proof. apply levels_ext. Qed.
End Ext.

(** The level-wise search is the textbook one. *)
Section Fifo.
Context {N : Type}.
Variable eqb : N -> N -> bool.
Hypothesis eqb_eq : forall x y, eqb x y = true <-> x = y.
Variable nb : N -> list N.
Variable v : N -> bool * bool.
Notation fifo := (fifo nb v).

(** [thin V Q L]: [L] is [Q] without some jobs whose node is in [V] or occurs earlier in [Q]. *)
Inductive thin : (N -> Prop) -> list (list N) -> list (list N) -> Prop :=
| t_nil V : thin V [] []
| t_keep V n p Q L : thin (fun m => m = n \/ V m) Q L -> thin V ((n :: p) :: Q) ((n :: p) :: L)
| t_drop (V : N -> Prop) n p Q L : V n -> thin V Q L -> thin V ((n :: p) :: Q) L.

Lemma thin_mono V Q L : thin V Q L -> forall V' : N -> Prop, (forall m, V m -> V' m) -> thin V' Q L.
Proof.
  induction 1; intros V' S; constructor; auto. apply IHthin. intuition.
Qed.

Lemma thin_snoc_keep V Q L : thin V Q L -> forall c q, thin V (Q ++ [c :: q]) (L ++ [c :: q]).
Proof.
  induction 1; intros c q; simpl; try (constructor; auto; fail).
  constructor. constructor.
Qed.

Lemma thin_snoc_drop V Q L : thin V Q L -> forall c q p, In (c :: q) L -> thin V (Q ++ [c :: p]) L.
Proof.
  assert (D : forall V Q L, thin V Q L -> forall c p, V c -> thin V (Q ++ [c :: p]) L).
  { induction 1; intros c p' Vc; simpl.
    - apply t_drop; [auto|constructor].
    - apply t_keep. apply IHthin. auto.
    - apply t_drop; auto. }
  induction 1; intros c q p' I; simpl.
  - easy.
  - destruct I as [[= -> ->]|I]; apply t_keep; [apply D; auto|eauto].
  - apply t_drop; eauto.
Qed.

Lemma add_children_thin j cs : forall Q L, thin (fun _ => False) Q L ->
  thin (fun _ => False) (Q ++ map (fun c => c :: j) cs) (add_children eqb j cs L).
Proof.
  induction cs as [|c cs IH]; intros Q L T; cbn [add_children map].
  - now rewrite app_nil_r.
  - replace (Q ++ (c :: j) :: map (fun c0 => c0 :: j) cs)
      with ((Q ++ [c :: j]) ++ map (fun c0 => c0 :: j) cs) by (now rewrite <- app_assoc).
    destruct (existsb (fun j' => eqb c (node_of c j')) L) eqn:E; apply IH.
    + apply existsb_exists in E. destruct E as (j' & I & Ej). apply eqb_eq in Ej.
      assert (NE : exists m q, j' = m :: q).
      { clear -T I. induction T; try easy; auto. destruct I as [<-|I]; eauto. }
      destruct NE as (m & q & ->). simpl in Ej. subst m. eapply thin_snoc_drop; eauto.
    + now apply thin_snoc_keep.
Qed.

Lemma fifo_ext Q V fb o r : fifo Q V fb o r -> forall V' : N -> Prop, (forall m, V m <-> V' m) -> fifo Q V' fb o r.
Proof.
  induction 1; intros V' S.
  - constructor.
  - apply f_old; [now apply S|auto].
  - apply f_stop; [now rewrite <- S|auto].
  - eapply f_new; eauto; [now rewrite <- S|]. apply IHfifo. intros m. rewrite S. tauto.
Qed.

Definition Vis (s : @bst N) (m : N) : Prop := In m (b_vis s).

Lemma do_level_fifo rest : forall next s Q NQ,
  thin (Vis s) Q rest -> thin (fun _ => False) NQ next ->
  match do_level eqb nb v rest next s with
  | Stop p s' => fifo (Q ++ NQ) (Vis s) (b_fall s) (b_order s) (true, p, b_order s')
  | Next nx s' => exists NQ', thin (fun _ => False) NQ' nx /\
      forall r, fifo NQ' (Vis s') (b_fall s') (b_order s') r ->
                fifo (Q ++ NQ) (Vis s) (b_fall s) (b_order s) r
  end.
Proof.
  induction rest as [|j rest IH]; intros next s Q NQ T TN.
  - cbn [do_level]. exists NQ. split; [auto|]. intros r F.
    remember (@nil (list N)) as L eqn:EL. induction T; try easy. simpl. apply f_old; auto.
  - remember (j :: rest) as L eqn:EL.
    remember (Vis s) as V eqn:EV. induction T as [|V n p Q L T IT|V n p Q L Vn T IT]; try easy.
    + injection EL as <- ->. cbn [do_level].
      destruct (mem eqb n (b_vis s)) eqn:E.
      * apply (mem_in eqb eqb_eq) in E. assert (Vn : V n) by (now subst V).
        assert (T' : thin (Vis s) Q rest).
        { rewrite <- EV. eapply thin_mono; [exact T|]. intros m [->|H]; auto. }
        specialize (IH next s Q NQ T' TN). rewrite EV in *.
        destruct (do_level eqb nb v rest next s) as [p' s'|nx s'].
        -- simpl. apply f_old; auto.
        -- destruct IH as (NQ' & TN' & F). exists NQ'. split; [auto|]. intros r Hr. simpl. apply f_old; auto.
      * apply (mem_notin eqb eqb_eq) in E. assert (Vn : ~ V n) by (now subst V).
        destruct (v n) as [isR stop] eqn:Vv. cbn [b_vis b_order b_fall].
        destruct (isR && stop) eqn:RS.
        -- cbn [b_order]. apply andb_true_iff in RS. destruct RS as [-> ->]. simpl. apply f_stop; auto.
        -- match goal with |- context[do_level _ _ _ rest ?n1 ?x] => set (next1 := n1); set (s1 := x) end.
           assert (EVs : forall m, Vis s1 m <-> m = n \/ V m).
           { intros m. unfold Vis, s1. cbn [b_vis]. rewrite in_app_iff, EV. unfold Vis. simpl. intuition. }
           assert (T1 : thin (Vis s1) Q rest).
           { eapply thin_mono; [exact T|]. intros m. apply EVs. }
           assert (TN1 : thin (fun _ => False) (NQ ++ map (fun c => c :: n :: p) (nb n)) next1)
             by (now apply add_children_thin).
           specialize (IH next1 s1 Q _ T1 TN1).
           assert (FB : b_fall s1 = match b_fall s with Some q => Some q | None => if isR then Some (n :: p) else None end).
           { unfold s1. cbn [b_fall]. destruct isR, (b_fall s); reflexivity. }
           destruct (do_level eqb nb v rest next1 s1) as [p' s'|nx s'].
           ++ simpl. eapply f_new; eauto. rewrite <- app_assoc, <- FB.
              eapply fifo_ext; [exact IH|]. exact EVs.
           ++ destruct IH as (NQ' & TN' & F). exists NQ'. split; [auto|]. intros r Hr.
              simpl. eapply f_new; eauto. rewrite <- app_assoc, <- FB.
              eapply fifo_ext; [apply F; exact Hr|]. exact EVs.
    + subst L V. specialize (IT eq_refl eq_refl).
      destruct (do_level eqb nb v (j :: rest) next s) as [p' s'|nx s'].
      * simpl. apply f_old; auto.
      * destruct IT as (NQ' & TN' & F). exists NQ'. split; [auto|]. intros r Hr. simpl. apply f_old; auto.
Qed.

Lemma levels_fifo fuel : forall L s Q r, thin (fun _ => False) Q L ->
  levels eqb nb v fuel L s = Some r ->
  fifo Q (Vis s) (b_fall s) (b_order s) (r_stopped r, r_path r, b_order (r_st r)).
Proof.
  induction fuel as [|fuel IH]; intros L s Q r T E; [easy|]. cbn [levels] in E.
  destruct L as [|j L].
  - injection E as <-. cbn [r_stopped r_path r_st].
    inversion T; subst; [constructor|easy].
  - assert (T' : thin (Vis s) Q (j :: L)) by (eapply thin_mono; [exact T|easy]).
    pose proof (do_level_fifo (j :: L) [] s Q [] T' (t_nil _)) as X.
    rewrite app_nil_r in X.
    destruct (do_level eqb nb v (j :: L) [] s) as [p s'|nx s'].
    + injection E as <-. exact X.
    + destruct X as (NQ' & TN' & F). apply F. eapply IH; eauto.
Qed.

Theorem bfs_fifo fuel W s r : bfs eqb nb v fuel W s = Some r ->
  fifo [[s]] (fun m => In m W) None [] (r_stopped r, r_path r, b_order (r_st r)).
Proof.
  intros E. apply (levels_fifo fuel [[s]] (mkBst W [] None) [[s]] r); [|exact E].
  repeat constructor.
Qed.
End Fifo.

Lemma fifo_fun {N} (nb : N -> list N) v Q V fb o r : fifo nb v Q V fb o r -> forall r', fifo nb v Q V fb o r' -> r' = r.
Proof.
  induction 1 as [V fb o|n p Q V fb o r Vn _ IH|n p Q V fb o Vn Vs|n p Q V fb o r isR st Vn Vv RS _ IH];
    intros r' F; inversion F; subst; try congruence; try tauto; auto.
  - match goal with E : v n = (?a, ?c), E' : ?a && ?c = false |- _ => rewrite Vs in E; injection E as <- <-; easy end.
  - rewrite Vv in *. match goal with E : (_, _) = (true, true) |- _ => injection E as -> ->; easy end.
  - apply IH. match goal with E : v n = (?a, ?c) |- _ => rewrite Vv in E; injection E as <- <- end. auto.
Qed.

Lemma fifo_fext {N} (nb nb' : N -> list N) v v' Q V fb o r : (forall n, nb n = nb' n) -> (forall n, v n = v' n) ->
  fifo nb v Q V fb o r -> fifo nb' v' Q V fb o r.
Proof.
  intros Hn Hv. induction 1.
  - constructor.
  - now apply f_old.
  - apply f_stop; congruence.
  - eapply f_new; eauto; [congruence|]. now rewrite <- Hn.
Qed.
