(** Properties C14-C17: the lint traversal. The theorems hold for every value
    of the kind constants and every notion of left-hand-side expression. *)
From Coq Require Import Bool List ZArith Lia.
From Verif Require Import Visit VisitSpec VisitProofs.
Import ListNotations.
Open Scope Z_scope.

(** C14. Events are well bracketed along the tree: the traversal is a
    concatenation of complete, properly nested brackets of children of the
    file, in source order, each with at most one bracket per child. *)
Theorem C14_events_bracketed :
  forall k_arr k_obj k_spe k_spa k_prop k_bin k_eq is_lhs root,
  forest k_arr k_obj k_spe k_spa k_prop k_bin (children root)
    (visit_lint_nodes k_arr k_obj k_spe k_spa k_prop k_bin k_eq is_lhs root).
Proof. exact visit_all_forest. Qed.
Print Assumptions C14_events_bracketed.

(** C14, continued: no node's enter event is fired twice. *)
Theorem C14_no_double_visit :
  forall k_arr k_obj k_spe k_spa k_prop k_bin k_eq is_lhs root,
  kinds_ok k_arr k_obj k_spe k_spa k_prop k_bin root -> NoDup (ids root) ->
  NoDup (map snd (filter (fun e => fst e <? 1000)
    (visit_lint_nodes k_arr k_obj k_spe k_spa k_prop k_bin k_eq is_lhs root))).
Proof. exact enters_once. Qed.
Print Assumptions C14_no_double_visit.

(** C15. The full claim "every node below the file is visited" is false: the
    computed key in [({[f()]: a} = o)] is never visited. Here node 5 is the
    call [f()] under the computed name 4 of property assignment 3. *)
Definition k_ident : Z := 80.
Definition ex_kinds {A : Type} (f : Z -> Z -> Z -> Z -> Z -> Z -> Z -> A) : A :=
  f 209 210 230 305 303 226 64.
Definition ex_lhs (n : node) : bool :=
  match n with NArr _ _ | NObj _ _ => true | NGen _ k _ => k =? k_ident | _ => false end.
Definition ex_visit : node -> list event := ex_kinds visit_lint_nodes ex_lhs.
Definition ident (i : nat) : node := NGen i k_ident [].
Definition eq_tok (i : nat) : node := NGen i 64 [].

Definition computed_key_tree : node :=
  NGen 0 307 [NGen 1 244 [NBin 2
    (NObj 3 [NProp 4 [NGen 5 167 [NGen 6 213 [ident 7]]] (ident 8)])
    (eq_tok 9) (ident 10)]].

Theorem C15_reaches_every_node_refuted :
  exists root m, NoDup (ids root) /\ sub root m /\ m <> root /\
    forall code, ~ In (code, id_of m) (ex_visit root).
Proof.
  exists computed_key_tree, (NGen 6 213 [ident 7]).
  split. { repeat constructor; cbn; intuition discriminate. }
  split.
  { do 6 (eapply sub_child; [cbn; left; reflexivity|]). apply sub_refl. }
  split; [discriminate|].
  intros code H. vm_compute in H.
  repeat (destruct H as [H|H]; [discriminate H|]). exact H.
Qed.
Print Assumptions C15_reaches_every_node_refuted.

(** C15, what holds. Missing for the full claim: exactly the keys of property
    assignments inside assignment patterns. Every other node gets both its
    enter and its exit event. *)
Theorem C15_reaches_all_but_pattern_keys_partial :
  forall k_arr k_obj k_spe k_spa k_prop k_bin k_eq is_lhs root m,
  kinds_ok k_arr k_obj k_spe k_spa k_prop k_bin root -> NoDup (ids root) ->
  sub root m -> m <> root ->
  (In (kind_of k_arr k_obj k_spe k_spa k_prop k_bin m, id_of m)
     (visit_lint_nodes k_arr k_obj k_spe k_spa k_prop k_bin k_eq is_lhs root) /\
   In (kind_of k_arr k_obj k_spe k_spa k_prop k_bin m + 1000, id_of m)
     (visit_lint_nodes k_arr k_obj k_spe k_spa k_prop k_bin k_eq is_lhs root))
  \/ exists i keys value key,
       target k_arr k_obj k_spe k_spa k_prop k_bin k_eq is_lhs (fun _ => false) root (NProp i keys value) /\
       In key keys /\ sub key m.
Proof.
  intros k_arr k_obj k_spe k_spa k_prop k_bin k_eq is_lhs root m K N Hs Hn.
  destruct (visited_iff _ _ _ _ _ _ k_eq is_lhs root m K N Hs) as [V1 V2].
  destruct (reached_or_key k_arr k_obj k_spe k_spa k_prop k_bin k_eq is_lhs root m Hs Hn)
    as [H|(i & h & e & c & Hp & Hc & Hx)].
  - left. split; [apply V1|apply V2]; exact H.
  - right. exists i, h, e, c. split; auto.
    exact (position_target _ _ _ _ _ _ _ _ (fun _ => false) _ _ _ Hp).
Qed.
Print Assumptions C15_reaches_all_but_pattern_keys_partial.

(** C15, in particular: a file without destructuring by property value visits
    everything. *)
Theorem C15_reaches_every_node_partial :
  forall k_arr k_obj k_spe k_spa k_prop k_bin k_eq is_lhs root m,
  kinds_ok k_arr k_obj k_spe k_spa k_prop k_bin root -> NoDup (ids root) ->
  (forall i keys value, ~ target k_arr k_obj k_spe k_spa k_prop k_bin k_eq is_lhs (fun _ => false) root (NProp i keys value)) ->
  sub root m -> m <> root ->
  In (kind_of k_arr k_obj k_spe k_spa k_prop k_bin m, id_of m)
     (visit_lint_nodes k_arr k_obj k_spe k_spa k_prop k_bin k_eq is_lhs root) /\
  In (kind_of k_arr k_obj k_spe k_spa k_prop k_bin m + 1000, id_of m)
     (visit_lint_nodes k_arr k_obj k_spe k_spa k_prop k_bin k_eq is_lhs root).
Proof.
  intros k_arr k_obj k_spe k_spa k_prop k_bin k_eq is_lhs root m K N Ht Hs Hn.
  destruct (C15_reaches_all_but_pattern_keys_partial _ _ _ _ _ _ k_eq is_lhs root m K N Hs Hn)
    as [H|(i & h & e & c & Hp & _)]; auto.
  exfalso. eapply Ht; eauto.
Qed.
Print Assumptions C15_reaches_every_node_partial.

(** C16. The full claim: a literal is announced as a pattern exactly when it is
    an assignment target. False in one direction: the target of a nested
    default ([[[a] = b] = c]) and the initializer of a for-of are announced as
    plain literals. *)
Definition nested_default_tree : node :=
  NGen 0 307 [NGen 1 244 [NBin 2
    (NArr 3 [NBin 4 (NArr 5 [ident 6]) (eq_tok 7) (ident 8)]) (eq_tok 9) (ident 10)]].
Definition for_of_tree : node :=
  NGen 0 307 [NGen 1 250 [NArr 2 [ident 3]; ident 4; NGen 5 241 []]].
Definition ex_for (k : Z) : bool := (k =? 249) || (k =? 250).

Theorem C16_targets_announced_refuted :
  exists root1 root2 m1 m2,
    NoDup (ids root1) /\ NoDup (ids root2) /\ literal m1 /\ literal m2 /\
    ex_kinds target ex_lhs ex_for root1 m1 /\
    ex_kinds target ex_lhs ex_for root2 m2 /\
    In (listener_on_not_allow_pattern 209, id_of m1) (ex_visit root1) /\
    ~ In (listener_on_allow_pattern 209, id_of m1) (ex_visit root1) /\
    In (listener_on_not_allow_pattern 209, id_of m2) (ex_visit root2) /\
    ~ In (listener_on_allow_pattern 209, id_of m2) (ex_visit root2).
Proof.
  exists nested_default_tree, for_of_tree, (NArr 5 [ident 6]), (NArr 2 [ident 3]).
  split. { repeat constructor; cbn; intuition discriminate. }
  split. { repeat constructor; cbn; intuition discriminate. }
  split; [exact I|]. split; [exact I|].
  split.
  { apply (tg_left _ _ _ _ _ _ _ _ _ _ 4 _ (eq_tok 7) (ident 8)); [|split; reflexivity].
    do 4 (eapply sub_child; [cbn; left; reflexivity|]). apply sub_refl. }
  split.
  { apply (tg_loop _ _ _ _ _ _ _ _ _ _ 1 250 [] _ (ident 4) (NGen 5 241 [])); [|reflexivity].
    eapply sub_child; [cbn; left; reflexivity|]. apply sub_refl. }
  split; [vm_compute; tauto|].
  split; [vm_compute; intuition discriminate|].
  split; [vm_compute; tauto|]. vm_compute; intuition discriminate.
Qed.
Print Assumptions C16_targets_announced_refuted.

(** C16, what holds (1): only assignment targets are announced as patterns.
    Missing for the full claim: the two classes of targets above. *)
Theorem C16_pattern_events_sound_partial :
  forall k_arr k_obj k_spe k_spa k_prop k_bin k_eq is_lhs is_for root m,
  kinds_ok k_arr k_obj k_spe k_spa k_prop k_bin root -> NoDup (ids root) -> sub root m ->
  In (listener_on_allow_pattern (kind_of k_arr k_obj k_spe k_spa k_prop k_bin m), id_of m)
     (visit_lint_nodes k_arr k_obj k_spe k_spa k_prop k_bin k_eq is_lhs root) ->
  target k_arr k_obj k_spe k_spa k_prop k_bin k_eq is_lhs is_for root m.
Proof.
  intros k_arr k_obj k_spe k_spa k_prop k_bin k_eq is_lhs is_for root m K N Hs H.
  apply (allow_pattern_iff _ _ _ _ _ _ k_eq is_lhs root m K N Hs) in H.
  exact (position_target _ _ _ _ _ _ _ _ is_for _ _ _ H).
Qed.
Print Assumptions C16_pattern_events_sound_partial.

(** C16, what holds (2): the exact classification. A literal gets the pattern
    event iff it is in target position, the plain event iff it is in plain
    position, and never both. *)
Theorem C16_classification_exact_partial :
  forall k_arr k_obj k_spe k_spa k_prop k_bin k_eq is_lhs root m,
  kinds_ok k_arr k_obj k_spe k_spa k_prop k_bin root -> NoDup (ids root) ->
  sub root m -> literal m ->
  let events := visit_lint_nodes k_arr k_obj k_spe k_spa k_prop k_bin k_eq is_lhs root in
  let k := kind_of k_arr k_obj k_spe k_spa k_prop k_bin m in
  let at_ := position k_arr k_obj k_spe k_spa k_prop k_bin k_eq is_lhs root m in
  (In (listener_on_allow_pattern k, id_of m) events <-> at_ Target) /\
  (In (listener_on_not_allow_pattern k, id_of m) events <-> at_ Plain) /\
  ~ (at_ Target /\ at_ Plain).
Proof.
  intros k_arr k_obj k_spe k_spa k_prop k_bin k_eq is_lhs root m K N Hs Hl events k at_.
  split; [apply allow_pattern_iff; auto|].
  split; [apply not_allow_pattern_iff; auto|].
  intros [A B]. eapply position_fun; eauto.
Qed.
Print Assumptions C16_classification_exact_partial.

(** C17. Event codes are pairwise different and fit 16 bits. [code] names the
    six events of a kind. *)
Theorem C17_codes_distinct :
  forall e1 k1 e2 k2, 0 <= k1 < 1000 -> 0 <= k2 < 1000 ->
  code e1 k1 = code e2 k2 -> e1 = e2 /\ k1 = k2.
Proof. exact codes_distinct. Qed.
Print Assumptions C17_codes_distinct.

Theorem C17_codes_fit_int16 :
  forall e k, 0 <= k < 1000 -> 0 <= code e k < 32768.
Proof. exact codes_int16. Qed.
Print Assumptions C17_codes_fit_int16.

(** ** Concrete cases *)

(** [[a, ...{b: c}] = [d]]: nested pattern, a key, a plain literal. *)
Definition ex_tree : node :=
  NGen 0 307 [NGen 1 244 [NBin 2
    (NArr 3 [ident 4; NSpread 5 true (NObj 6 [NProp 7 [ident 8] (ident 9)])])
    (eq_tok 10) (NArr 11 [ident 12])]].

Example ex_tree_hyps :
  kinds_ok 209 210 230 305 303 226 ex_tree /\ NoDup (ids ex_tree).
Proof.
  split.
  - intros m H. apply sub_nodes in H. vm_compute in H.
    repeat (destruct H as [<-|H]; [cbn; lia|]). destruct H.
  - repeat constructor; cbn; intuition discriminate.
Qed.

Example ex_tree_events : ex_visit ex_tree =
  [ (244, 1%nat); (226, 2%nat);
    (209, 3%nat); (2209, 3%nat);
      (80, 4%nat); (2080, 4%nat); (3080, 4%nat); (1080, 4%nat);
      (230, 5%nat); (2230, 5%nat);
        (210, 6%nat); (2210, 6%nat);
          (303, 7%nat); (2303, 7%nat);
            (80, 9%nat); (2080, 9%nat); (3080, 9%nat); (1080, 9%nat);
          (3303, 7%nat); (1303, 7%nat);
        (3210, 6%nat); (1210, 6%nat);
      (3230, 5%nat); (1230, 5%nat);
    (3209, 3%nat); (1209, 3%nat);
    (64, 10%nat); (1064, 10%nat);
    (209, 11%nat); (4209, 11%nat); (80, 12%nat); (1080, 12%nat); (5209, 11%nat); (1209, 11%nat);
    (1226, 2%nat); (1244, 1%nat) ].
Proof. reflexivity. Qed.

(** The hypothesis of [C15_reaches_every_node_partial] is met by a tree with a
    destructuring assignment that has no property values. *)
Example ex_no_keys : forall i keys value,
  ~ ex_kinds target ex_lhs (fun _ => false) nested_default_tree (NProp i keys value).
Proof.
  assert (forall m, ex_kinds target ex_lhs (fun _ => false) nested_default_tree m ->
    sub nested_default_tree m) as X.
  { assert (forall n m, sub n m -> forall c, In c (children m) -> sub n c) as Y.
    { induction 1; intros d Hd; econstructor; eauto. constructor. }
    induction 1; try (eapply Y; [eassumption|cbn; auto]).
    - discriminate.
    - apply in_or_app; cbn; auto. }
  intros i keys value H. apply X, sub_nodes in H. vm_compute in H.
  repeat (destruct H as [H|H]; [discriminate H|]). destruct H.
Qed.
