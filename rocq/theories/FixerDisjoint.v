(** Messages whose edits do not touch each other's are all applied in one pass. *)
From Coq Require Import Bool List ZArith Lia Permutation Sorted.
From Verif Require Import Base Fixer FixerSpec FixerProofs.
Import ListNotations.
Open Scope Z_scope.

Section Disjoint.
Context {byte : Type}.
Notation fix_ := (fix_ byte).
Notation msg := (msg byte).

(** Edits in ascending order, none starting before the previous one has ended and no two at
    the same place. *)
Fixpoint ascending (lo : Z) (l : list fix_) : Prop :=
  match l with
  | [] => True
  | f :: r => lo <= fpos f /\ fpos f <= fend f /\ ascending (Z.max (fend f) (fpos f + 1)) r
  end.
Definition after (f g : fix_) : Prop := fend f <= fpos g /\ fpos f < fpos g.

Lemma ascending_ge l : forall lo, ascending lo l -> Forall (fun f => lo <= fpos f /\ fpos f <= fend f) l.
Proof.
  induction l as [|f r IH]; intros lo A; [auto|]. destruct A as (A1 & A2 & A3). constructor; [lia|].
  eapply Forall_impl; [|apply IH, A3]. intros g. cbn beta. lia.
Qed.
Lemma ascending_weak l lo lo' : lo' <= lo -> ascending lo l -> ascending lo' l.
Proof. destruct l; [auto|]. intros L (A & B & D). repeat split; auto; lia. Qed.
Lemma ascending_pairs l : forall lo, ascending lo l -> ForallOrdPairs after l.
Proof.
  induction l as [|f r IH]; intros lo A; [constructor|]. destruct A as (A1 & A2 & A3). constructor; [|eauto].
  eapply Forall_impl; [|apply ascending_ge, A3]. intros g. unfold after. cbn beta. lia.
Qed.
Lemma ascending_app l r : forall lo, ascending lo (l ++ r) -> ascending lo l /\ exists lo', lo <= lo' /\ ascending lo' r.
Proof.
  induction l as [|f l IH]; intros lo A; [split; [exact I|exists lo; split; [lia|exact A]]|]. destruct A as (A1 & A2 & A3).
  apply IH in A3. destruct A3 as (B1 & lo' & B2 & B3). repeat split; auto. exists lo'. split; [lia|auto].
Qed.

(** An ascending list is the only disjoint arrangement of its edits. *)
Lemma ascending_unique l : forall l' lo lo' hi, ascending lo l -> disjoint_from lo' hi l' -> Permutation l l' -> l = l'.
Proof.
  induction l as [|f r IH]; intros l' lo lo' hi A D P.
  - symmetry. now apply Permutation_nil.
  - destruct l' as [|g r']; [apply Permutation_sym, Permutation_nil in P; discriminate|].
    destruct A as (A1 & A2 & A3). destruct D as (D1 & D2 & D3).
    assert (DG : forall (l : list fix_) lo, disjoint_from lo hi l -> Forall (fun f : fix_ => lo <= fpos f /\ fpos f <= fend f) l).
    { clear. induction l as [|f r IH]; intros lo D; [auto|]. destruct D as (D1 & D2 & D3). constructor; [lia|].
      eapply Forall_impl; [|apply IH, D3]. intros g. cbn beta. lia. }
    assert (f = g).
    { assert (If : In f (g :: r')) by (eapply Permutation_in; [exact P|now left]).
      assert (Ig : In g (f :: r)) by (eapply Permutation_in; [apply Permutation_sym, P|now left]).
      destruct If as [->|If]; [auto|]. destruct Ig as [->|Ig]; [auto|]. exfalso.
      pose proof (ascending_ge _ _ A3) as X. rewrite Forall_forall in X. apply X in Ig.
      apply DG in D3. rewrite Forall_forall in D3. apply D3 in If. lia. }
    subst g. f_equal. eapply IH; eauto. now apply Permutation_cons_inv in P.
Qed.

Lemma flat_map_concat_perm (ds : list msg) cs : Forall2 (fun d c => Permutation (mfixes d) c) ds cs -> Permutation (flat_map mfixes ds) (concat cs).
Proof. induction 1; cbn [flat_map concat]; [constructor|]. now apply Permutation_app. Qed.

Definition apart (d e : msg) : Prop :=
  (forall f g, In f (mfixes d) -> In g (mfixes e) -> after f g) \/ (forall f g, In f (mfixes d) -> In g (mfixes e) -> after g f).
Lemma apart_sym d e : apart d e -> apart e d.
Proof. intros [X|X]; [right|left]; intros f g F G; now apply X. Qed.

Lemma concat_apart (ds : list msg) cs : Forall2 (fun d c => Permutation (mfixes d) c) ds cs -> forall lo, ascending lo (concat cs) -> ForallOrdPairs apart ds.
Proof.
  induction 1 as [|d c ds cs P F IH]; intros lo A; [constructor|]. cbn [concat] in A.
  pose proof (ascending_pairs _ _ A) as AP. apply ascending_app in A. destruct A as (A1 & lo' & _ & A2). constructor; [|eauto].
  apply Forall_forall. intros e Ie. left. intros f g If Ig.
  assert (Ic : In f c) by (eapply Permutation_in; eauto).
  assert (Ig' : In g (concat cs)).
  { eapply Permutation_in; [apply (flat_map_concat_perm ds cs F)|]. apply in_flat_map. eauto. }
  clear - AP Ic Ig'. induction c as [|x c IH]; [easy|]. cbn [app] in AP. inversion AP as [|? ? X Y]; subst.
  destruct Ic as [->|Ic]; [|now apply IH]. rewrite Forall_forall in X. apply X. apply in_or_app. auto.
Qed.

Theorem disjoint_all_applied (sf : list fix_ -> list fix_) (sm : list msg -> list msg) code ds0 ds cs out :
  is_fix_sort sf -> is_msg_sort sm -> Permutation ds0 ds ->
  Forall2 (fun d c => Permutation (mfixes d) c) ds0 cs -> Forall (fun c => c <> []) cs ->
  ascending 0 (concat cs) -> Forall (fun f => fend f <= zlen code) (concat cs) ->
  rewrites 0 code (concat cs) out ->
  exists fixed, apply_rule_fixes sf sm code ds = Ok (out, [], fixed).
Proof.
  intros Hf Hm PM F2 NE A HI RW.
  assert (PA : Permutation (flat_map mfixes ds) (concat cs)).
  { etransitivity; [apply Permutation_sym, Permutation_flat_map, PM|]. now apply flat_map_concat_perm. }
  assert (BACK : forall d, In d ds -> In d ds0) by (intros d; apply Permutation_in, Permutation_sym, PM).
  assert (NEd : forall d, In d ds -> mfixes d <> []).
  { intros d Id. apply BACK in Id. clear - Id F2 NE. revert NE Id. induction F2 as [|x c l l' P _ IH]; intros NE Id; [easy|].
    inversion NE; subst. destruct Id as [->|Id]; [|auto]. intros E. rewrite E in P. apply Permutation_nil in P. auto. }
  assert (IN : forall d f, In d ds -> In f (mfixes d) -> In f (concat cs)).
  { intros d f Id If. eapply Permutation_in; [exact PA|]. apply in_flat_map. eauto. }
  assert (RNG : forall f, In f (concat cs) -> in_range (zlen code) f).
  { intros f If. pose proof (ascending_ge _ _ A) as X. rewrite Forall_forall in X, HI. specialize (X f If). specialize (HI f If). unfold in_range. cbn beta in *. lia. }
  destruct (apply_total sf sm code ds Hf Hm) as [[[o un] fx] OK].
  { apply Forall_forall. intros d Id. split; [|apply Forall_forall; eauto].
    assert (exists c, Permutation (mfixes d) c /\ exists lo, ascending lo c) as (c & P & lo & Ac).
    { apply BACK in Id. clear - F2 A Id. revert A. generalize 0. induction F2 as [|d' c ds cs P F IH]; intros lo A; [easy|]. cbn [concat] in A.
      apply ascending_app in A. destruct A as (A1 & lo' & _ & A2). destruct Id as [->|Id]; [eauto|]. eapply IH; eauto. }
    apply fop_perm with (l := c).
    - intros x y [X|X]; [right|left]; auto.
    - now apply Permutation_sym.
    - apply ascending_pairs in Ac. clear - Ac. induction Ac as [|f l X _ IH]; constructor; auto.
      eapply Forall_impl; [|exact X]. intros g [G _]. now left. }
  assert (W0 : Forall (fun d => Forall (fun f => 0 <= fpos f) (mfixes d)) ds).
  { apply Forall_forall. intros d Id. apply Forall_forall. intros f If. apply (RNG f). eauto. }
  assert (W1 : Forall (fun d => Forall well_formed_range (mfixes d)) ds).
  { apply Forall_forall. intros d Id. apply Forall_forall. intros f If. apply (RNG f). eauto. }
  assert (UN : un = []).
  { destruct (apply_ok_reason sf sm code ds o un fx Hf Hm W0 OK) as (ap & (ds' & S & P) & _ & R & NEap).
    destruct un as [|d un]; [reflexivity|]. exfalso.
    assert (FA : ForallOrdPairs apart ds').
    { pose proof (fop_perm _ _ _ _ apart_sym PM (concat_apart ds0 cs F2 0 A)) as X. clear - X S. revert ds' S. induction X as [|d ds X _ IH]; intros ds' S; inversion S; subst; constructor; auto.
      apply Forall_forall. intros e Ie.
      assert (exists e0, In e0 ds /\ same_msg e0 e) as (e0 & I0 & [_ P0]).
      { clear - H3 Ie. induction H3; [easy|]. destruct Ie as [->|Ie]; [exists x; split; [now left|auto]|]. destruct (IHForall2 Ie) as (z & Z1 & Z2). exists z. split; [now right|auto]. }
      rewrite Forall_forall in X. specialize (X e0 I0). destruct H1 as [_ P1].
      destruct X as [X|X]; [left|right]; intros f g If Ig; apply X; (eapply Permutation_in; [apply Permutation_sym; eassumption|auto]). }
    assert (FA2 : ForallOrdPairs apart (ap ++ d :: un)) by (eapply fop_perm; eauto using apart_sym).
    destruct (R d (or_introl eq_refl)) as [E|(a & Ia & (f & g & fr & If & Eg & LT) & K)].
    - assert (Id : In d ds') by (eapply Permutation_in; [apply Permutation_sym, P|apply in_or_app; right; now left]).
      clear - S Id E NEd. revert NEd Id. induction S as [|x y l l' [_ Q] _ IH]; intros NEd Id; [easy|].
      destruct Id as [->|Id]; [|apply IH; auto; intros z Iz; apply NEd; now right].
      rewrite E in Q. apply Permutation_sym, Permutation_nil in Q. revert Q. apply NEd. now left.
    - assert (AP : apart a d).
      { clear - FA2 Ia. induction ap as [|x ap IH]; [easy|]. cbn [app] in FA2. inversion FA2 as [|? ? X Y]; subst.
        destruct Ia as [->|Ia]; [|now apply IH]. rewrite Forall_forall in X. apply X. apply in_or_app. right. now left. }
      assert (Gd : In g (mfixes d)) by (rewrite Eg; now left).
      destruct AP as [AP|AP].
      + specialize (AP f g If Gd). unfold after in AP. lia.
      + unfold msg_key in K. rewrite Eg in K. destruct (mfixes a) as [|f0 fr0] eqn:Ea; [easy|].
        assert (X : after g f0) by (apply AP; [now left|auto]). unfold key_le, after in *. cbn [fst snd] in K. lia. }
  subst un. exists fx.
  destruct (apply_ok_spec sf sm code ds o [] fx Hf Hm W1 OK) as (ap & RW2 & DJ & (ds' & S & P) & _ & _).
  rewrite app_nil_r in P.
  assert (E : concat cs = flat_map mfixes ap).
  { eapply ascending_unique; eauto. etransitivity; [apply Permutation_sym, PA|].
    transitivity (flat_map mfixes ds').
    - clear - S. induction S as [|x y l l' [_ X] _ IH]; [constructor|]. cbn [flat_map]. now apply Permutation_app.
    - now apply Permutation_flat_map. }
  rewrite <- E in RW2. rewrite OK. f_equal. f_equal. f_equal. eapply rewrites_fun; eauto.
Qed.
End Disjoint.
