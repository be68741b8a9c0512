(** Properties of no-misused-spread (C89). *)
From Coq Require Import Bool Arith ZArith Ascii String List Lia Permutation.
From Verif Require Import Base EngineProofs Fixer FixerSpec FixerProofs FixPieces.
From Verif Require Import MisusedSpread MisusedSpreadSpec MisusedSpreadProofs.
Import ListNotations.
Open Scope Z_scope.

Lemma in_reports c f l i m : check_for c = Some f -> (In (i, m) (reports c l) <-> exists a t, In (Spread i a t) l /\ f a t = Some m).
Proof.
  intros E. unfold reports. rewrite E, in_flat_map. split.
  - intros ([j a t|j] & H & X); [|destruct X]. destruct (f a t) as [m'|] eqn:F; [|destruct X]. destruct X as [X|[]]. injection X as -> ->. eauto.
  - intros (a & t & H & F). exists (Spread i a t). split; auto. rewrite F. left. auto.
Qed.

(** C89: in arrays and arguments of calls exactly the spreads of strings are reported, those of allowed types apart. *)
Theorem C89_lists : forall c l, in_list c -> forall i m, In (i, m) (reports c l) <->
  m = String_spread /\ exists t, In (Spread i false t) l /\ says String_spread t.
Proof.
  intros c l C i m. assert (E : check_for c = Some check_list) by (destruct C; reflexivity). rewrite (in_reports _ _ _ _ _ E). split.
  - intros (a & t & H & X). unfold check_list in X. destruct a; [discriminate|]. cbn [negb andb] in X. destruct (is_string t) eqn:T; [|discriminate]. injection X as <-.
    split; auto. exists t. split; auto. apply (test_says String_spread). auto.
  - intros (-> & t & H & X). exists false, t. split; auto. apply (test_says String_spread) in X. cbn in X. unfold check_list. rewrite X. auto.
Qed.
Print Assumptions C89_lists.

(** C89: in objects and JSX attributes a spread is reported with the first message that is true of some part of its type. *)
Theorem C89_objects : forall c l, in_object c -> forall i m, In (i, m) (reports c l) <->
  rank m <> None /\ exists t, In (Spread i false t) l /\ says m t /\ forall m', earlier m' m -> ~ says m' t.
Proof.
  intros c l C i m. assert (E : check_for c = Some check_object) by (destruct C; reflexivity). rewrite (in_reports _ _ _ _ _ E). split.
  - intros (a & t & H & X). destruct a; [discriminate|]. apply object_first in X as (R & T & N). split; auto. exists t. split; auto. split; [apply test_says; auto|].
    intros m' L S. apply test_says in S. rewrite (N m' L) in S. discriminate.
  - intros (R & t & H & S & N). exists false, t. split; auto. apply object_first. split; auto. split; [apply test_says; auto|].
    intros m' L. destruct (test m' t) eqn:T; auto. apply test_says in T. destruct (N _ L T).
Qed.
Print Assumptions C89_objects.

(** C89: a spread in an object is reported as soon as one of the messages is true. *)
Theorem C89_not_missed : forall c l i t m, in_object c -> In (Spread i false t) l -> rank m <> None -> says m t -> exists m', In (i, m') (reports c l).
Proof.
  intros c l i t m C H R S.
  assert (X : check_object false t <> None).
  { apply test_says in S. unfold check_object. destruct m; cbn in R; try congruence; cbn [test] in S;
    repeat match goal with |- (if ?x then _ else _) <> None => destruct x; try discriminate end. }
  destruct (check_object false t) as [m'|] eqn:E; [|congruence]. exists m'.
  assert (F : check_for c = Some check_object) by (destruct C; reflexivity). rewrite (in_reports _ _ _ _ _ F). eauto.
Qed.
Print Assumptions C89_not_missed.

(** C89: no spread has two messages, when spreads have their own numbers; there is none in patterns. *)
Theorem C89_one_message : forall c l i m m', (forall a t a' t', In (Spread i a t) l -> In (Spread i a' t') l -> a = a' /\ t = t') ->
  In (i, m) (reports c l) -> In (i, m') (reports c l) -> m = m'.
Proof.
  intros c l i m m' U H H'. destruct (check_for c) as [f|] eqn:E; [|unfold reports in H; rewrite E in H; destruct H].
  apply (in_reports _ _ _ _ _ E) in H as (a & t & H & X). apply (in_reports _ _ _ _ _ E) in H' as (a' & t' & H' & X').
  destruct (U _ _ _ _ H H') as [-> ->]. congruence.
Qed.
Print Assumptions C89_one_message.
Theorem C89_patterns : forall l, reports (Array_literal true) l = [] /\ reports (Object_literal true) l = [].
Proof. intros. split; reflexivity. Qed.
Print Assumptions C89_patterns.

(** C89: that strings are reported wherever they are spread into arguments is false: those of new are not looked at. *)
Theorem C89_new_refuted : exists l t, l = [Spread 0 false t] /\ says String_spread t /\ reports New_arguments l = [].
Proof.
  pose (k := {| promise := false; calls := 0; properties := 0; map_like := false; array := false; iterable := true; string_like := true; constructs := false; declarations := []; instantiated := false; class_value := false |}).
  exists [Spread 0 false (Leaf k)], (Leaf k). split; [reflexivity|]. split; [|reflexivity]. exists k. split; [constructor|reflexivity].
Qed.
Print Assumptions C89_new_refuted.

(** C89: there is a suggestion for a map exactly if each part of the union has a map in it. *)
Theorem C89_map_suggested : forall t, map_suggested t = true <->
  match t with Union l => forall t', In t' l -> says Map_spread t' | _ => says Map_spread t end.
Proof.
  intros t. unfold map_suggested. rewrite forallb_forall. destruct t as [k|l|l]; cbn [union_parts].
  - split; [intros H; apply (test_says Map_spread), H; left; auto|intros H t' [<-|[]]; apply (test_says Map_spread) in H; exact H].
  - split; intros H t' I; [apply (test_says Map_spread), H; auto|apply H, (test_says Map_spread) in I; exact I].
  - split; [intros H; apply (test_says Map_spread), H; left; auto|intros H t' [<-|[]]; apply (test_says Map_spread) in H; exact H].
Qed.
Print Assumptions C89_map_suggested.

Ltac one := cbn [piece_fixes]; match goal with |- Permutation ?x ?y => replace x with y; [apply Permutation_refl|] end; same_fixes.
Ltac lengths := repeat match goal with x : bstr |- _ => lazymatch goal with H : 0 <= zlen x |- _ => fail | _ => pose proof (zlen_nonneg x) end end.

(** C89: the argument is awaited, inside of its parentheses, with new ones unless it binds strongly. *)
Theorem C89_await : forall (sf : list (fix_ ascii) -> list (fix_ ascii)) (sm : list (msg ascii) -> list (msg ascii)) n s strong,
  correct_sort cmp_fix sf -> correct_sort cmp_msg sm -> argument s <> [] ->
  apply_rule_fixes sf sm (text s) [mkMsg n (await_fixes strong (text_places s))]
  = Ok (before s ++ b "{" ++ gap s ++ b "..." ++ gap2 s ++ opening s ++ (if strong then b "await " ++ argument s else b "await (" ++ argument s ++ b ")") ++ closing s ++ tail s ++ gap3 s ++ b "}" ++ after s, [], true).
Proof.
  intros sf sm n [p g g2 op a cl ta g3 q] strong C CM NE. cbn [argument] in NE. pose proof (zlen_pos a NE). lengths.
  unfold text, text_places, await_fixes. cbn [before gap gap2 opening argument closing tail gap3 after inner_pos inner_end].
  destruct strong.
  - apply pieces_text with (l := [Keep (p ++ b "{" ++ g ++ b "..." ++ g2 ++ op); Swap [] (b "await "); Keep (a ++ cl ++ ta ++ g3 ++ b "}" ++ q)]); auto; try texts.
    + one.
    + discriminate.
    + no_repeats.
  - apply pieces_text with (l := [Keep (p ++ b "{" ++ g ++ b "..." ++ g2 ++ op); Swap [] (b "await ("); Keep a; Swap [] (b ")"); Keep (cl ++ ta ++ g3 ++ b "}" ++ q)]); auto; try texts.
    + one.
    + discriminate.
    + no_repeats.
Qed.
Print Assumptions C89_await.

(** C89: the map is given to Object.fromEntries; if it is the only property the call takes the place of the object. *)
Theorem C89_map : forall (sf : list (fix_ ascii) -> list (fix_ ascii)) (sm : list (msg ascii) -> list (msg ascii)) n s only,
  correct_sort cmp_fix sf -> correct_sort cmp_msg sm -> argument s <> [] ->
  apply_rule_fixes sf sm (text s) [mkMsg n (map_fixes only (text_places s))]
  = Ok (if only then before s ++ gap s ++ b "Object.fromEntries(" ++ gap2 s ++ opening s ++ argument s ++ closing s ++ b ")" ++ gap3 s ++ after s
        else before s ++ b "{" ++ gap s ++ b "..." ++ gap2 s ++ b "Object.fromEntries(" ++ opening s ++ argument s ++ closing s ++ b ")" ++ tail s ++ gap3 s ++ b "}" ++ after s, [], true).
Proof.
  intros sf sm n [p g g2 op a cl ta g3 q] only C CM NE. cbn [argument] in NE. pose proof (zlen_pos a NE). lengths.
  assert (zlen (b "{") = 1) by reflexivity. assert (zlen (b "}") = 1) by reflexivity. assert (zlen (b "...") = 3) by reflexivity.
  unfold text, text_places, map_fixes. cbn [before gap gap2 opening argument closing tail gap3 after argument_pos argument_end brace dots properties_end object_end].
  destruct only.
  - apply pieces_text with (l := [Keep p; Swap (b "{") []; Keep g; Swap (b "...") (b "Object.fromEntries("); Keep (g2 ++ op ++ a ++ cl); Swap ta (b ")"); Keep g3; Swap (b "}") []; Keep q]); auto; try texts.
    + one.
    + discriminate.
    + no_repeats.
  - apply pieces_text with (l := [Keep (p ++ b "{" ++ g ++ b "..." ++ g2); Swap [] (b "Object.fromEntries("); Keep (op ++ a ++ cl); Swap [] (b ")"); Keep (ta ++ g3 ++ b "}" ++ q)]); auto; try texts.
    + one.
    + discriminate.
    + no_repeats.
Qed.
Print Assumptions C89_map.

Definition ex_leaf (p m s : bool) (d : list bool) : ty :=
  Leaf {| promise := p; calls := 0; properties := 1; map_like := m; array := false; iterable := m || s; string_like := s; constructs := false; declarations := d; instantiated := false; class_value := false |}.
Example C89_run :
  reports (Object_literal false) [Spread 0 false (Union [ex_leaf false true false [true]; Inter [ex_leaf true false false []]]); Plain 1; Spread 2 false (ex_leaf false true false [true]); Spread 3 true (ex_leaf true true false []); Spread 4 false (ex_leaf false false true [])]
  = [(0%nat, Promise_spread); (2%nat, Map_spread)].
Proof. reflexivity. Qed.
Example C89_run_list : reports Call_arguments [Spread 0 false (Union [ex_leaf false false false []; ex_leaf false false true []]); Spread 1 false (ex_leaf true true false [])] = [(0%nat, String_spread)].
Proof. reflexivity. Qed.
(** const o = { ...m, }; *)
Example C89_sample :
  let s := {| before := b "const o = "; gap := b " "; gap2 := []; opening := []; argument := b "m"; closing := []; tail := b ","; gap3 := b " "; after := b ";" |} in
  text s = b "const o = { ...m, };" /\ apply_rule_fixes fsort msort (text s) [mkMsg 0 (map_fixes true (text_places s))] = Ok (b "const o =  Object.fromEntries(m) ;", [], true).
Proof. split; vm_compute; reflexivity. Qed.
