(** C54: no-unnecessary-condition says of a test or a left side of [??] only what is true of its value, and of a comparison only that it always
    gives the same; and it says so of every test whose type allows it.

    The checker is trusted ([sound]) with the types of expressions but for elements of arrays, which may be missing unless
    noUncheckedIndexedAccess is on; [meaning] is what the type of an expression means, [number] gives type objects their identity. *)
From Coq Require Import String Ascii Bool List ZArith Lia Permutation.
From Verif Require Import Base EngineProofs Types Condition ConditionSpec ConditionProofs ConditionRuleProofs.
Import ListNotations.
Open Scope Z_scope.

(** ** Types *)
(** Always truthy and always falsy are true of all values of the type. *)
Theorem C54_type_sound : forall number x v, bigs x -> holds x v ->
  (snd (check_type (checked number x)) = true -> is_falsy v) /\ (fst (check_type (checked number x)) = true -> solid x -> ~ is_falsy v).
Proof. exact check_sound. Qed.
Print Assumptions C54_type_sound.

(** For types without intersections, [any] and the like they are exact. *)
Theorem C54_type_exact : forall number x, flat x -> bigs x ->
  (fst (check_type (checked number x)) = true <-> forall v, holds x v -> ~ is_falsy v) /\
  (snd (check_type (checked number x)) = true <-> forall v, holds x v -> is_falsy v).
Proof. exact check_exact. Qed.
Print Assumptions C54_type_exact.

(** Objects are not always truthy: an object type that takes primitives, such as [{}], has 0. *)
Theorem C54_empty_object_refuted : exists x v, holds x v /\ is_falsy v /\ forall number, check_type (checked number x) = (true, false).
Proof. exists (SWeak 0), (Num [48]). split; [split; discriminate|]. split; [eexists; constructor | reflexivity]. Qed.
Print Assumptions C54_empty_object_refuted.

Example C54_types : forall number,
  map (fun x => check_type (checked number x))
    [SNever; SNull; SVoid; SBool true; SBool false; SStr []; SStr [65]; SNum [48]; SNum [78; 97; 78]; SNum [49]; SBig 0 [48; 110]; SBig 7 [55];
     SString; SObject 3; SSymbol; SUnion None [SNull; SNum [48]]; SUnion None [SObject 1; SStr [65]]; SUnion None [SObject 1; SNull];
     SInter [SString; SWeak 1]; SInter [SStr []; SWeak 1]; SInter [SStr [65]; SWeak 1]] =
  [(false, true); (false, true); (false, true); (true, false); (false, true); (false, true); (true, false); (false, true); (false, true); (true, false);
   (false, true); (true, false); (false, false); (true, false); (true, false); (false, true); (true, false); (false, false);
   (false, false); (false, true); (true, false)].
Proof. intros. reflexivity. Qed.

(** ** What is asked *)
Section Rule.
Variables (raw_type type_of : expr -> option ty) (show : ty -> list Z).
Variables (is_array is_tuple : ty -> bool) (optional_member : expr -> bool).
Variables (prop_type : ty -> list Z -> option ty) (index_keys : ty -> list (list Z)) (type_name : ty -> list Z).
Variables (strict unchecked_off : bool).
Notation rule := (rule raw_type type_of show is_array is_tuple optional_member prop_type index_keys type_name strict unchecked_off).
Notation answer := (answer raw_type type_of show is_array is_tuple optional_member prop_type index_keys type_name strict unchecked_off).
Notation visit := (visit raw_type type_of show is_array is_tuple optional_member prop_type index_keys type_name strict unchecked_off).
Notation check_leaf := (check_leaf type_of show is_array is_tuple unchecked_off).
Notation element := (element type_of is_array is_tuple).
Notation surprising := (surprising type_of is_array is_tuple unchecked_off).
Notation straight := (straight type_of is_array is_tuple).

(** The reports are the answers to the questions that the statements and the expressions in them ask. *)
Theorem C54_asked : forall v r l, In r (rule v l) <-> exists q, asked l q /\ In r (answer v q).
Proof. intros. apply rule_asked. Qed.

(** The conditions in a test are each looked at once, by the test or by the operator they belong to. *)
Theorem C54_once : forall v e, Permutation (rule v [If e])
  (flat_map (fun p => check_leaf (fst (fst p)) (snd (fst p)) (snd p)) (conditions e e false) ++ flat_map (fun p => visit (fst (fst p))) (conditions e e false)).
Proof. intros v e. unfold Condition.rule. cbn [flat_map statement]. rewrite app_nil_r. apply conditions_once. Qed.

(** Loops: a constant may be allowed. *)
Theorem C54_loops : forall v e,
  answer v (AskLoop e) = answer v (AskTest e) \/
  answer v (AskLoop e) = [] /\
    (v = Word (b "only-allowed-literals") /\ In (bare e) [TrueWord; FalseWord; Digits (b "0"); Digits (b "1")] \/
     (v = Word (b "always") \/ v = Flag true) /\ (bare e = TrueWord \/ exists t, type_of e = Some t /\ is_set t [FBooleanLiteral] = true /\ t_text t = true_text)).
Proof.
  intros v e. unfold ConditionRuleProofs.answer, check_loop. rewrite skip_bare.
  destruct (beqb (mode v) (b "only-allowed-literals") && allowed_literal e) eqn:A.
  - right. split; [reflexivity|]. left. apply andb_true_iff in A as [A B]. apply beqb_eq in A. split.
    + destruct v as [|[|]|x]; cbn in A; try discriminate. now subst.
    + unfold allowed_literal in B. rewrite skip_bare in B. destruct (bare e); try discriminate; [now left | right; now left|].
      apply orb_true_iff in B as [B | B]; apply beqb_eq in B; subst; cbn; tauto.
  - destruct (beqb (mode v) (b "always") && _) eqn:B; [|now left]. right. split; [reflexivity|]. right. apply andb_true_iff in B as [B C]. apply beqb_eq in B. split.
    + destruct v as [|[|]|x]; cbn in B; try discriminate; [now right | left; now subst].
    + apply orb_true_iff in C as [C | C]; [left; now destruct (bare e) | right]. destruct (type_of e) as [t|]; [|discriminate]. exists t. split; [reflexivity|].
      apply andb_true_iff in C as [C D]. split; [exact C | now apply eq_text_eq].
Qed.
(** What is allowed is not reported. *)
Theorem C54_loops_allowed : forall e,
  (In (bare e) [TrueWord; FalseWord; Digits (b "0"); Digits (b "1")] -> answer (Word (b "only-allowed-literals")) (AskLoop e) = []) /\
  (bare e = TrueWord \/ (exists t, type_of e = Some t /\ is_set t [FBooleanLiteral] = true /\ t_text t = true_text) ->
     answer (Word (b "always")) (AskLoop e) = [] /\ answer (Flag true) (AskLoop e) = []) /\
  answer Missing (AskLoop e) = answer Missing (AskTest e) /\ answer (Flag false) (AskLoop e) = answer Missing (AskTest e) /\
  answer (Word (b "never")) (AskLoop e) = answer Missing (AskTest e).
Proof.
  intros e. unfold ConditionRuleProofs.answer, check_loop, allowed_literal. change (skip e) with (bare e). split; [|split].
  - cbn [mode]. intros [<- | [<- | [<- | [<- | []]]]]; reflexivity.
  - intros [-> | [t [-> [A B]]]]; [split; reflexivity|]. unfold true_type. rewrite A, B. cbn [mode andb]. rewrite eq_text_refl, orb_true_r. split; reflexivity.
  - repeat split; reflexivity.
Qed.

(** ** Claims *)
Section Claims.
Variables (atom : expr -> value -> Prop) (access : expr -> value -> value -> Prop) (compare : relation -> value -> value -> bool).
Variables (number : sty -> Z) (meaning : expr -> option sty).
Hypothesis trust : sound atom access compare number meaning type_of is_array is_tuple unchecked_off.
Hypothesis js : javascript compare.

(** What is reported of a value is true, unless the value may be missing without the type saying so; of a left side of [??] that is a chain
    without parentheses it is true, too. *)
Theorem C54_sound : forall v r l, In r (rule v l) ->
  (forall e, r_range r = Trimmed e -> ~ surprising (core e) \/ r_id r = b "neverNullish" /\ straight e) -> claim atom access compare r.
Proof.
  intros v r l I P. apply rule_asked in I as [q [_ I]].
  assert (T : forall e, In r (answer v (AskTest e)) -> claim atom access compare r).
  { clear I. intros e I. cbn [ConditionRuleProofs.answer] in I. apply (in_node _ _ _ _ _ r e false None e) in I; [|constructor|now right]. destruct I as [x [m [o [I [W L]]]]].
    pose proof (leaf_element type_of show is_array is_tuple unchecked_off _ _ _ _ I) as [R _].
    destruct (P o R) as [S | [N _]].
    - apply (leaf_claim type_of show is_array is_tuple unchecked_off atom access compare number meaning trust r x m o I W). rewrite (wraps_core _ _ _ W), (leaf_core _ L) in S. exact S.
    - exfalso. unfold Condition.check_leaf in I. destruct (unchecked_off && _); [destruct I|]. destruct (type_of x) as [t|]; [|destruct I]. destruct (always_necessary t); [destruct I|].
      destruct (is_set t [FNever]); [destruct I as [<- | []]; vm_compute in N; discriminate|]. destruct (check_type t) as [[|] [|]], m;
        (destruct I as [<- | []]; vm_compute in N; discriminate) || destruct I. }
  destruct q as [e | e | e | node a o c]; [now apply (T e) | | |].
  - apply (T e). destruct (C54_loops v e) as [E | [E _]]; rewrite E in I; [exact I | destruct I].
  - cbn [ConditionRuleProofs.answer] in I.
    destruct (nullish_claim _ _ _ _ _ _ _ _ _ _ atom access compare number meaning trust r e I) as [x [R [C [B K]]]].
    apply K. destruct (P x R) as [S | [N S]]; [left; now rewrite <- C | right]. split; [exact N|]. rewrite <- B.
    assert (Q : x = bare x).
    { unfold check_nullish in I. destruct (type_of e) as [t|]; [|destruct I]. destruct (always_necessary t); [destruct I|].
      destruct (is_set t [FNever]); [destruct I as [<- | []]; vm_compute in N; discriminate|]. destruct (always_nullish t); [destruct I as [<- | []]; vm_compute in N; discriminate|].
      destruct (negb _ && _); [|destruct I]. cbv zeta in I. destruct (negb _ || _); [|destruct I]. destruct I as [<- | []]. cbn [r_range typed_value] in R. injection R as <-.
      rewrite skip_bare. symmetry. apply bare_bare. }
    now rewrite <- Q.
  - exact (comparison_ids type_of show strict atom access compare r node a c o I).
Qed.

(** Comparisons always give the same when they are said to, unless an operand may be missing or null is ordered. *)
Theorem C54_comparisons : forall v r l, In r (rule v l) -> r_id r = b "comparisonBetweenLiteralTypes" \/ r_id r = b "noOverlapBooleanExpression" ->
  exists node a o c, asked l (AskSame node a o c) /\ In r (answer v (AskSame node a o c)) /\
    (~ surprising a -> ~ surprising c -> (ordering o -> meaning a <> Some SNull /\ meaning c <> Some SNull) -> constant atom access compare o a c) /\
    (r_id r = b "comparisonBetweenLiteralTypes" -> ~ surprising a -> ~ surprising c -> constant atom access compare o a c).
Proof.
  intros v r l I P. apply rule_asked in I as [q [A I]].
  assert (T : forall e, ~ In r (answer v (AskTest e))).
  { clear I. intros e I. cbn [ConditionRuleProofs.answer] in I. apply (in_node _ _ _ _ _ r e false None e) in I; [|constructor|now right]. destruct I as [x [m [o [I [W L]]]]].
    unfold Condition.check_leaf in I. destruct (unchecked_off && _); [destruct I|]. destruct (type_of x) as [t|]; [|destruct I]. destruct (always_necessary t); [destruct I|].
    destruct (is_set t [FNever]); [destruct I as [<- | []]; destruct P as [P | P]; vm_compute in P; discriminate|]. destruct (check_type t) as [[|] [|]], m;
        (destruct I as [<- | []]; destruct P as [P | P]; vm_compute in P; discriminate) || destruct I. }
  destruct q as [e | e | e | node a o c]; [now destruct (T e) | | |].
  - destruct (T e). destruct (C54_loops v e) as [E | [E _]]; rewrite E in I; [exact I | destruct I].
  - exfalso. cbn [ConditionRuleProofs.answer] in I. unfold check_nullish in I. destruct (type_of e) as [t|]; [|destruct I]. destruct (always_necessary t); [destruct I|].
    destruct (is_set t [FNever]); [destruct I as [<- | []]; destruct P as [P | P]; vm_compute in P; discriminate|].
    destruct (always_nullish t); [destruct I as [<- | []]; destruct P as [P | P]; vm_compute in P; discriminate|].
    destruct (negb _ && _); [|destruct I]. cbv zeta in I. destruct (negb _ || _); [|destruct I]. destruct I as [<- | []]; destruct P as [P | P]; vm_compute in P; discriminate.
  - exists node, a, o, c. split; [exact A|]. split; [exact I|]. cbn [ConditionRuleProofs.answer] in I.
    assert (L : r_id r = b "comparisonBetweenLiteralTypes" -> ~ surprising a -> ~ surprising c -> constant atom access compare o a c)
      by (intros E; exact (static_same type_of show is_array is_tuple strict unchecked_off atom access compare number meaning trust node a c o r I E)).
    split; [|exact L]. intros SA SC O. destruct P as [E | E]; [now apply L|].
    exact (overlap_same type_of show is_array is_tuple strict unchecked_off atom access compare number meaning trust js node a c o r I E SA SC O).
Qed.
End Claims.

(** Elements of arrays are not said to be truthy, falsy or not nullish. *)
Theorem C54_elements : forall v r l e, In r (rule v l) -> r_range r = Trimmed e -> unchecked_off = true ->
  (r_id r = b "alwaysTruthy" \/ r_id r = b "alwaysFalsy" -> ~ element (core e)) /\ (r_id r = b "neverNullish" -> ~ element e).
Proof.
  intros v r l e I R U. apply rule_asked in I as [q [_ I]].
  assert (T : forall x, In r (answer v (AskTest x)) -> ~ element (core e) /\ r_id r <> b "neverNullish").
  { clear I. intros e' I. cbn [ConditionRuleProofs.answer] in I. apply (in_node _ _ _ _ _ r e' false None e') in I; [|constructor|now right]. destruct I as [x [m [o [I [W L]]]]].
    pose proof (leaf_element type_of show is_array is_tuple unchecked_off _ _ _ _ I) as [R' N]. rewrite R in R'. injection R' as <-.
    rewrite (wraps_core _ _ _ W), (leaf_core _ L). split; [intros E; apply N; split; [exact U|]; destruct x; try exact E; destruct L|].
    intros Q. unfold Condition.check_leaf in I. destruct (unchecked_off && _); [destruct I|]. destruct (type_of x) as [t|]; [|destruct I]. destruct (always_necessary t); [destruct I|].
    destruct (is_set t [FNever]); [destruct I as [<- | []]; vm_compute in Q; discriminate|]. destruct (check_type t) as [[|] [|]], m;
        (destruct I as [<- | []]; vm_compute in Q; discriminate) || destruct I. }
  destruct q as [x | x | x | node a o c].
  - destruct (T x I). split; [now intros _ | now intros Q].
  - destruct (C54_loops v x) as [E | [E _]]; rewrite E in I; [|destruct I]. destruct (T x I). split; [now intros _ | now intros Q].
  - cbn [ConditionRuleProofs.answer] in I. unfold check_nullish in I. destruct (type_of x) as [t|]; [|destruct I]. destruct (always_necessary t); [destruct I|].
    destruct (is_set t [FNever]); [destruct I as [<- | []]; split; [intros [P | P] | intros P]; vm_compute in P; discriminate|].
    destruct (always_nullish t); [destruct I as [<- | []]; split; [intros [P | P] | intros P]; vm_compute in P; discriminate|].
    destruct (negb _ && _); [|destruct I]. cbv zeta in I. destruct (negb _ || _) eqn:K; [|destruct I]. destruct I as [<- | []].
    split; [intros [P | P]; vm_compute in P; discriminate|]. intros _ E. cbn [r_range typed_value] in R. injection R as <-. rewrite skip_bare in *.
    rewrite U in K. cbn [negb orb] in K. apply andb_true_iff in K as [K _]. apply negb_true_iff in K.
    assert (X : Condition.array_index type_of is_array is_tuple (bare x) = true) by (apply array_index_iff; now rewrite bare_bare). congruence.
  - cbn [ConditionRuleProofs.answer] in I. unfold check_comparison in I. destruct (type_of a) as [lt|]; [|destruct I]. destruct (type_of c) as [rt|]; [|destruct I].
    destruct (static lt && static rt); [|destruct (negb strict); [destruct I|]; match type of I with In _ (if ?x then _ else _) => destruct x; [|destruct I] end];
      destruct I as [<- | []]; (split; [intros [P | P] | intros P]); vm_compute in P; discriminate.
Qed.

(** ** Everything is said *)
(** A test that is no [&&], [||], negation or in parentheses, whose type is without intersections and not empty, is reported iff its values are
    all truthy or all falsy. *)
Theorem C54_tests_complete : forall v number e x,
  type_of e = Some (checked number x) -> flat x -> bigs x -> (exists w, holds x w) -> is_leaf e -> ~ (unchecked_off = true /\ element e) ->
  ((exists r, In r (answer v (AskTest e)) /\ r_id r = b "alwaysTruthy") <-> forall w, holds x w -> ~ is_falsy w) /\
  ((exists r, In r (answer v (AskTest e)) /\ r_id r = b "alwaysFalsy") <-> forall w, holds x w -> is_falsy w).
Proof.
  intros v number e x T F B [w0 W0] L N.
  assert (A : answer v (AskTest e) = check_leaf e false e) by (cbn [ConditionRuleProofs.answer]; destruct e; try reflexivity; try destruct L; destruct o; reflexivity || destruct L).
  rewrite A. unfold Condition.check_leaf.
  assert (G : unchecked_off && Condition.array_index type_of is_array is_tuple e = false).
  { destruct unchecked_off; [|reflexivity]. cbn [andb]. destruct (Condition.array_index type_of is_array is_tuple e) eqn:E; [|reflexivity].
    destruct N. split; [reflexivity|]. apply array_index_iff in E. destruct e; try exact E; destruct L. }
  rewrite G, T.
  assert (AN : always_necessary (checked number x) = false).
  { destruct x; try destruct F; try reflexivity. rewrite necessary_union. clear -F. rewrite flat_all in F. destruct (existsb _ l) eqn:E; [|reflexivity].
    apply existsb_exists in E as [y [I E]]. specialize (F y I). destruct y; try discriminate; destruct F. }
  assert (NV : is_set (checked number x) [FNever] = false) by (destruct x; try destruct F; reflexivity).
  rewrite AN, NV. destruct (check_exact number x F B) as [P Q]. destruct (check_type (checked number x)) as [tr fa]. cbn [fst snd] in P, Q.
  split.
  - rewrite <- P. destruct fa, tr; split; try (intros [r [[<- | []] E]]; vm_compute in E; discriminate); try (intros [r [[] _]]); try discriminate; try reflexivity.
    + intros _. exfalso. destruct (proj1 P eq_refl w0 W0). now apply (proj1 Q eq_refl).
    + intros _. eexists. split; [now left | reflexivity].
  - rewrite <- Q. destruct fa, tr; split; try (intros [r [[<- | []] E]]; vm_compute in E; discriminate); try (intros [r [[] _]]); try discriminate; try reflexivity.
    + intros _. exfalso. destruct (proj1 P eq_refl w0 W0). now apply (proj1 Q eq_refl).
    + intros _. eexists. split; [now left | reflexivity].
Qed.

(** A left side of [??] whose type is without intersections is reported iff no value is nullish, unless it is an optional property or an
    element that may be missing. *)
Theorem C54_nullish_complete : forall v number e x,
  type_of e = Some (checked number x) -> flat x -> nullable_member raw_type optional_member prop_type index_keys type_name e = false ->
  ~ (unchecked_off = true /\ (element (bare e) \/ chain_index type_of is_array is_tuple (bare e) = true)) ->
  ((exists r, In r (answer v (AskNullish e)) /\ r_id r = b "neverNullish") <-> forall w, holds x w -> ~ nullish w) /\
  ((exists r, In r (answer v (AskNullish e)) /\ r_id r = b "alwaysNullish") <-> x = SNull \/ x = SUndefined \/ x = SVoid).
Proof.
  intros v number e x T F M N. cbn [ConditionRuleProofs.answer]. unfold check_nullish. rewrite T.
  assert (AN : always_necessary (checked number x) = false).
  { destruct x; try destruct F; try reflexivity. rewrite necessary_union. clear -F. rewrite flat_all in F. destruct (existsb _ l) eqn:E; [|reflexivity].
    apply existsb_exists in E as [y [I E]]. specialize (F y I). destruct y; try discriminate; destruct F. }
  assert (NV : is_set (checked number x) [FNever] = false) by (destruct x; try destruct F; reflexivity).
  rewrite AN, NV, M.
  assert (KD : known x /\ definite x).
  { clear -F. induction x as [x L | l IH | s l IH] using sty_ind'; [destruct x; try destruct F; try destruct L; split; exact I | destruct F |].
    rewrite flat_all in F. rewrite Forall_forall in IH. split; [apply known_all | apply definite_all]; intros y I; now apply (IH y I (F y I)). }
  assert (AL : always_nullish (checked number x) = true <-> x = SNull \/ x = SUndefined \/ x = SVoid).
  { destruct x; (split; [try discriminate; tauto | try reflexivity]); intros [? | [? | ?]]; discriminate. }
  destruct (always_nullish (checked number x)) eqn:A.
  - split; split.
    + intros [r [[<- | []] E]]. vm_compute in E. discriminate.
    + intros H. exfalso. destruct (proj1 AL eq_refl) as [-> | [-> | ->]]; [apply (H Null); [reflexivity | now right] | | ]; (apply (H Undefined); [reflexivity | now left]).
    + intros _. now apply AL.
    + intros _. eexists. split; [now left | reflexivity].
  - rewrite skip_bare. cbv zeta.
    assert (G : negb unchecked_off || negb (Condition.array_index type_of is_array is_tuple (bare e)) && negb (has_optional (bare e) && chain_index type_of is_array is_tuple (bare e)) = true).
    { destruct unchecked_off; [|reflexivity]. cbn [negb orb]. destruct (Condition.array_index type_of is_array is_tuple (bare e)) eqn:E.
      - destruct N. split; [reflexivity|]. left. apply array_index_iff in E. now rewrite bare_bare in E.
      - cbn [negb andb]. destruct (chain_index type_of is_array is_tuple (bare e)) eqn:Q; [destruct N; split; [reflexivity | now right]|]. now rewrite andb_false_r. }
    rewrite G. destruct (is_nullish (checked number x)) eqn:NU; cbn [negb andb]; split; split.
    + intros [r [[] _]].
    + intros H. exfalso. destruct (has_nullish number x NU) as [w [W1 W2]]. now apply (H w).
    + intros [r [[] _]].
    + intros H. apply AL in H. congruence.
    + intros _ w W. destruct KD as [K D]. now apply (never_nullish number x w K D NU).
    + intros _. eexists. split; [now left | reflexivity].
    + intros [r [[<- | []] E]]. vm_compute in E. discriminate.
    + intros H. apply AL in H. congruence.
Qed.

(** A comparison, not a loose one, with undefined or null is reported iff the other side is a literal or never has that value. *)
Theorem C54_comparisons_complete : forall v number node a o c x,
  strict = true -> o <> Eq -> o <> NotEq -> flat x ->
  forall n, (n = SUndefined \/ n = SNull) ->
  (type_of a = Some (checked number n) /\ type_of c = Some (checked number x) \/ type_of a = Some (checked number x) /\ type_of c = Some (checked number n)) ->
  (answer v (AskSame node a o c) <> [] <-> unit_type x \/ ~ holds x (match n with SUndefined => Undefined | _ => Null end)).
Proof.
  intros v number node a o c x S O1 O2 F n N T.
  assert (LO : loose o = false) by (destruct o; reflexivity || congruence).
  assert (FU : full x).
  { clear -F. induction x as [x L | l IH | s l IH] using sty_ind'; [destruct x; try destruct F; try destruct L; exact I | destruct F |].
    rewrite flat_all in F. rewrite Forall_forall in IH. apply full_all. intros y I. now apply (IH y I (F y I)). }
  assert (SN : static (checked number n) = true) by (destruct N as [-> | ->]; reflexivity).
  cbn [ConditionRuleProofs.answer]. unfold check_comparison.
  assert (U : (holds x Undefined <-> comparable o [FUndefined; FVoid] (checked number x) = true)).
  { split; [|now apply has_undefined]. intros H. destruct (comparable o [FUndefined; FVoid] (checked number x)) eqn:E; [reflexivity|].
    destruct (apart number o [FUndefined; FVoid] x Undefined eq_refl eq_refl E FU H) as [P _]. destruct (P eq_refl). discriminate. }
  assert (V : (holds x Null <-> comparable o [FNull] (checked number x) = true)).
  { split; [|now apply has_null]. intros H. destruct (comparable o [FNull] (checked number x)) eqn:E; [reflexivity|].
    destruct (apart number o [FNull] x Null eq_refl eq_refl E FU H) as [_ P]. destruct (P eq_refl). discriminate. }
  assert (OU : only FUndefined (checked number x) = true -> unit_type x) by (intros E; apply only_undefined in E; now subst).
  assert (ON : only FNull (checked number x) = true -> unit_type x) by (intros E; apply only_null in E; now subst).
  rewrite <- (static_unit number). rewrite <- (static_unit number) in OU, ON.
  destruct T as [[-> ->] | [-> ->]]; rewrite SN, S; cbn [negb andb]; rewrite ?andb_true_r;
    destruct (static (checked number x)) eqn:SX;
    try (split; [intros _; now left | discriminate]);
    (assert (OU' : only FUndefined (checked number x) = false) by (destruct (only FUndefined _); [now discriminate OU | reflexivity]));
    (assert (ON' : only FNull (checked number x) = false) by (destruct (only FNull _); [now discriminate ON | reflexivity]));
    rewrite OU', ON'; destruct N as [-> | ->]; cbn [checked only t_flags]; rewrite ?U, ?V;
    change (flag_eqb FUndefined FUndefined) with true; change (flag_eqb FNull FUndefined) with false; change (flag_eqb FUndefined FNull) with false;
    change (flag_eqb FNull FNull) with true; cbn [andb orb]; rewrite ?orb_false_r;
    [destruct (comparable o [FUndefined; FVoid] (checked number x)) | destruct (comparable o [FNull] (checked number x)) |
     destruct (comparable o [FUndefined; FVoid] (checked number x)) | destruct (comparable o [FNull] (checked number x))];
    cbn [negb]; (split; intros H; [(now destruct H) || (right; discriminate) | discriminate || (destruct H as [H | H]; [discriminate | now destruct H])]).
Qed.
End Rule.
Print Assumptions C54_asked.
Print Assumptions C54_once.
Print Assumptions C54_loops.
Print Assumptions C54_loops_allowed.
Print Assumptions C54_sound.
Print Assumptions C54_comparisons.
Print Assumptions C54_elements.
Print Assumptions C54_tests_complete.
Print Assumptions C54_nullish_complete.
Print Assumptions C54_comparisons_complete.

(** ** Texts *)
(** No type is shown of these. *)
Definition literal (e : expr) : Prop := match bare e with TrueWord | FalseWord | NullWord | Digits _ | BigDigits _ | Quoted _ => True | _ => False end.
Definition sentences : list (bstr * bstr) :=
  [(b "alwaysTruthy", b "Unnecessary conditional, value is always truthy."); (b "alwaysFalsy", b "Unnecessary conditional, value is always falsy.");
   (b "never", b "Unnecessary conditional, value is `never`."); (b "alwaysNullish", b "Unnecessary conditional, value is always nullish.");
   (b "neverNullish", b "Unnecessary optional chain on a non-nullish value.")].

Lemma truncate_shortened x : shortened x (truncate x).
Proof.
  unfold truncate, shortened. destruct (120 <? List.length x)%nat eqn:E.
  - apply Nat.ltb_lt in E. right. split; [exact E|]. split; [rewrite app_length, firstn_length; change (List.length (text (b "..."))) with 3%nat; lia|].
    exists (firstn 117 x), (skipn 117 x). split; [symmetry; apply firstn_skipn | reflexivity].
  - apply Nat.ltb_ge in E. left. split; [exact E | reflexivity].
Qed.

Section Texts.
Variables (raw_type type_of : expr -> option ty) (show : ty -> list Z).
Variables (is_array is_tuple : ty -> bool) (optional_member : expr -> bool).
Variables (prop_type : ty -> list Z -> option ty) (index_keys : ty -> list (list Z)) (type_name : ty -> list Z).
Variables (strict unchecked_off : bool).
Notation rule := (rule raw_type type_of show is_array is_tuple optional_member prop_type index_keys type_name strict unchecked_off).
(** Every type has a name, and parentheses do not change the type. *)
Hypothesis shown : forall t, show t <> [].
Hypothesis parens : forall e, type_of (Paren e) = type_of e.

Definition labelled (r : report) (x : expr) : Prop :=
  exists t, type_of x = Some t /\
    (literal x /\ r_labels r = [] \/ ~ literal x /\ exists y, shortened (show t) y /\ r_labels r = [([84; 121; 112; 101; 58; 32] ++ y, Trimmed x)]).
Lemma typed_labelled id txt rg x t : type_of x = Some t -> labelled (typed_value show id txt rg x t) x.
Proof.
  intros T. exists t. split; [exact T|]. unfold typed_value, name_for_node, self_explanatory, literal. change (skip x) with (bare x). cbn [r_labels].
  assert (N : truncate (show t) <> []).
  { unfold truncate. destruct (120 <? List.length (show t))%nat; [|apply shown]. intros E. apply app_eq_nil in E as [_ E]. vm_compute in E. discriminate. }
  destruct (bare x); try (left; split; [exact I | reflexivity]); (right; split; [tauto|]; exists (truncate (show t)); split; [apply truncate_shortened|]; destruct (truncate (show t)); [congruence | reflexivity]).
Qed.

(** What is said of a value, with its type unless the value is a literal; the types of both sides of a comparison. *)
Theorem C54_texts : forall v r l, In r (rule v l) ->
  (In (r_id r, r_text r) sentences /\ exists e, r_range r = Trimmed e /\
     (r_id r = b "alwaysTruthy" \/ r_id r = b "alwaysFalsy" -> labelled r (core e)) /\ (labelled r (core e) \/ labelled r e)) \/
  exists node x o y tx ty sx sy, asked l (AskSame node x o y) /\ type_of x = Some tx /\ type_of y = Some ty /\ shortened (show tx) sx /\ shortened (show ty) sy /\
    r_range r = (match node with Compare _ _ _ | Logic _ _ _ | LogicAssign _ _ _ => Operator node | _ => Trimmed node end) /\
    (r_id r = b "comparisonBetweenLiteralTypes" /\ r_text r = b "Unnecessary comparison between literal values." /\
       r_labels r = [([84; 121; 112; 101; 58; 32] ++ sx, Trimmed x); ([84; 121; 112; 101; 58; 32] ++ sy, Trimmed y)] \/
     r_id r = b "noOverlapBooleanExpression" /\ r_text r = b "This condition will always return the same value since the types have no overlap." /\
       r_labels r = [([84; 121; 112; 101; 58; 32] ++ sx, Full x); ([84; 121; 112; 101; 58; 32] ++ sy, Full y)]).
Proof.
  intros v r l I. apply rule_asked in I as [q [A I]].
  assert (T : forall e, In r (check_node type_of show is_array is_tuple unchecked_off e false None) -> In (r_id r, r_text r) sentences /\ exists e, r_range r = Trimmed e /\
     (r_id r = b "alwaysTruthy" \/ r_id r = b "alwaysFalsy" -> labelled r (core e)) /\ (labelled r (core e) \/ labelled r e)).
  { clear I A. intros e I. apply (in_node _ _ _ _ _ r e false None e) in I; [|constructor|now right]. destruct I as [x [m [o [I [W L]]]]].
    assert (G : In (r_id r, r_text r) sentences /\ r_range r = Trimmed o /\ labelled r x).
    { unfold Condition.check_leaf in I. destruct (unchecked_off && _); [destruct I|]. destruct (type_of x) as [t|] eqn:T; [|destruct I]. destruct (always_necessary t); [destruct I|].
      destruct (is_set t [FNever]); [destruct I as [<- | []]; split; [cbn; tauto|]; split; [reflexivity | now apply typed_labelled]|].
      destruct (check_type t) as [[|] [|]], m; (destruct I as [<- | []]; split; [cbn; tauto|]; split; [reflexivity | now apply typed_labelled]) || destruct I. }
    destruct G as [G [R B]]. split; [exact G|]. exists o. split; [exact R|]. rewrite (wraps_core _ _ _ W), (leaf_core _ L). split; [now intros _ | now left]. }
  destruct q as [e | e | e | node a o c]; cbn [ConditionRuleProofs.answer] in I.
  - left. now apply (T e).
  - left. apply (T e). unfold check_loop in I. destruct (_ && _); [destruct I|]. destruct (_ && _); [destruct I | exact I].
  - left. unfold check_nullish in I. destruct (type_of e) as [t|] eqn:E; [|destruct I]. destruct (always_necessary t); [destruct I|].
    destruct (is_set t [FNever]); [destruct I as [<- | []]; split; [cbn; tauto|]; exists e; split; [reflexivity|]; split; [intros [Q | Q]; vm_compute in Q; discriminate | right; now apply typed_labelled]|].
    destruct (always_nullish t); [destruct I as [<- | []]; split; [cbn; tauto|]; exists e; split; [reflexivity|]; split; [intros [Q | Q]; vm_compute in Q; discriminate | right; now apply typed_labelled]|].
    destruct (negb _ && _); [|destruct I]. cbv zeta in I. destruct (negb _ || _); [|destruct I]. destruct I as [<- | []].
    split; [cbn; tauto|]. exists (skip e). split; [reflexivity|]. split; [intros [Q | Q]; vm_compute in Q; discriminate|]. right.
    apply typed_labelled. rewrite <- E. clear -parens. induction e; try reflexivity. cbn [skip]. now rewrite IHe, parens.
  - right. unfold check_comparison in I. destruct (type_of a) as [lt|] eqn:TA; [|destruct I]. destruct (type_of c) as [rt|] eqn:TC; [|destruct I].
    exists node, a, o, c, lt, rt, (truncate (show lt)), (truncate (show rt)).
    split; [exact A|]. split; [exact TA|]. split; [exact TC|]. split; [apply truncate_shortened|]. split; [apply truncate_shortened|].
    destruct (static lt && static rt); [destruct I as [<- | []]; split; [now destruct node|]; left; now repeat split|].
    destruct (negb strict); [destruct I|]. match type of I with In _ (if ?x then _ else _) => destruct x; [|destruct I] end.
    destruct I as [<- | []]. split; [now destruct node|]. right. now repeat split.
Qed.
End Texts.
Print Assumptions C54_texts.

(** ** Callbacks *)
Definition returned (constraint : ty -> option ty) (s : signature) (t : ty) : Prop :=
  is_set (s_returns s) [FTypeParameter] = true /\ constraint (s_returns s) = Some t \/
  (is_set (s_returns s) [FTypeParameter] = false \/ constraint (s_returns s) = None) /\ t = s_returns s.
(** What is said of a callback of [filter] and the like is true of one of its signatures: what it returns or that it guards by a type its parameter has. *)
Theorem C54_callbacks : forall assignable constraint guards r l, In r (callback assignable constraint guards l) ->
  exists s, In s l /\
  match r with
  | Guard p g => guards = true /\ assignable p g = true /\ exists i, s_guard s = Some (i, g) /\ 0 <= i /\ nth_error (s_params s) (Z.to_nat i) = Some p
  | ReturnsTruthy t => returned constraint s t /\ forall number x v, t = checked number x -> bigs x -> solid x -> holds x v -> ~ is_falsy v
  | ReturnsFalsy t => returned constraint s t /\ forall number x v, t = checked number x -> bigs x -> holds x v -> is_falsy v
  end.
Proof.
  intros assignable constraint guards r l. induction l as [|s l IH]; [intros []|]. cbn [callback]. destruct (guard_report assignable guards s) as [g|] eqn:G.
  - intros [<- | []]. exists s. split; [now left|]. unfold guard_report in G. destruct (s_guard s) as [[i g']|]; [|discriminate].
    destruct (guards && (0 <=? i)) eqn:E; [|discriminate]. apply andb_true_iff in E as [E1 E2]. apply Z.leb_le in E2.
    destruct (nth_error (s_params s) (Z.to_nat i)) as [p|] eqn:N; [|discriminate]. destruct (assignable p g') eqn:A; [|discriminate]. injection G as <-.
    split; [exact E1|]. split; [exact A|]. exists i. now repeat split.
  - set (t := if is_set (s_returns s) [FTypeParameter] then _ else _).
    assert (R : returned constraint s t).
    { unfold t, returned. destruct (is_set (s_returns s) [FTypeParameter]); [|right; split; [now left | reflexivity]].
      destruct (constraint (s_returns s)); [now left | right; split; [now right | reflexivity]]. }
    clearbody t. destruct (check_type t) as [tr fa] eqn:C. intros I. apply in_app_or in I as [I | I].
    + exists s. split; [now left|]. destruct tr; [|destruct fa; [|destruct I]]; destruct I as [<- | []]; (split; [exact R|]); intros number x v ->.
      * intros B S H. apply (check_sound number x v B H); [now rewrite C | exact S].
      * intros B H. apply (check_sound number x v B H). now rewrite C.
    + destruct (IH I) as [s' [J P]]. exists s'. split; [now right | exact P].
Qed.
Print Assumptions C54_callbacks.

(** It is said of every signature when there are no guards to look at. *)
Theorem C54_callbacks_complete : forall assignable constraint guards l s t number x,
  (forall s, In s l -> guards = false \/ s_guard s = None) -> In s l -> returned constraint s t -> t = checked number x -> flat x -> bigs x -> (exists v, holds x v) ->
  ((forall v, holds x v -> ~ is_falsy v) -> In (ReturnsTruthy t) (callback assignable constraint guards l)) /\
  ((forall v, holds x v -> is_falsy v) -> In (ReturnsFalsy t) (callback assignable constraint guards l)).
Proof.
  intros assignable constraint guards l s t number x G I R E F B [w W].
  destruct (check_exact number x F B) as [P Q]. rewrite <- E in P, Q.
  assert (NB : fst (check_type t) = true -> snd (check_type t) = false).
  { intros K. destruct (snd (check_type t)) eqn:K2; [|reflexivity]. destruct (proj1 P K w W). now apply (proj1 Q eq_refl). }
  rewrite <- P, <- Q. clear P Q. induction l as [|s' l IH]; [destruct I|]. cbn [callback].
  assert (N : guard_report assignable guards s' = None).
  { unfold guard_report. destruct (G s' (or_introl eq_refl)) as [-> | ->]; [destruct (s_guard s') as [[]|]; reflexivity | reflexivity]. }
  rewrite N. destruct I as [-> | I].
  - assert (T : (if is_set (s_returns s) [FTypeParameter] then match constraint (s_returns s) with Some c => c | None => s_returns s end else s_returns s) = t).
    { destruct R as [[-> ->] | [[-> | R] ->]]; try reflexivity. rewrite R. now destruct (is_set (s_returns s) [FTypeParameter]). }
    rewrite T. destruct (check_type t) as [tr fa]. cbn [fst snd] in *. split; intros ->; [now left|]. destruct tr; [discriminate (NB eq_refl) | now left].
  - destruct (IH (fun y J => G y (or_intror J)) I) as [P Q]. set (t' := if is_set (s_returns s') _ then _ else _). destruct (check_type t') as [tr fa]. split; intros K; apply in_or_app; right; auto.
Qed.
Print Assumptions C54_callbacks_complete.

(** What is said of one signature need not be true of the function: of an overloaded one that returns true for some arguments it is said that it
    returns what is always truthy, though it may return false. *)
Theorem C54_overloads_refuted : exists l t s v,
  In (ReturnsTruthy t) (callback (fun _ _ => false) (fun _ => None) false l) /\
  In s l /\ s_returns s = checked (fun _ => 0) (SUnion None [SBool true; SBool false]) /\ holds (SUnion None [SBool true; SBool false]) v /\ is_falsy v.
Proof.
  set (s := Signature None [] (checked (fun _ => 0) (SUnion None [SBool true; SBool false]))).
  exists [Signature None [] (checked (fun _ => 0) (SBool true)); s], (checked (fun _ => 0) (SBool true)), s, (Bool false).
  split; [vm_compute; now left|]. split; [cbn; tauto|]. split; [reflexivity|]. split; [right; left; reflexivity | eexists; constructor].
Qed.
Print Assumptions C54_overloads_refuted.

Example C54_callback_reports : let c := checked (fun _ => 0) in
  callback (fun _ _ => true) (fun _ => Some (c (SNum [48]))) true
    [Signature (Some (-1, c SString)) [c SString] (c (SParam 1)); Signature None [] (c SString); Signature (Some (1, c SNumber)) [c SString] (c (SObject 1));
     Signature (Some (0, c SNumber)) [c SString] (c (SObject 1)); Signature None [] (c SNull)]
  = [ReturnsFalsy (c (SNum [48])); ReturnsTruthy (c (SObject 1)); Guard (c SString) (c SNumber)].
Proof. vm_compute. reflexivity. Qed.


(** ** A program *)
Definition expr_eq_dec (x y : expr) : {x = y} + {x <> y}.
Proof. repeat decide equality. Defined.
Definition value_eq_dec (x y : value) : {x = y} + {x <> y}.
Proof. repeat decide equality. Defined.

(** [arr] is an array of objects; [o] is an object, [n] a number. *)
Definition arr := Name 0.
Definition flag_ := Name 1.
Definition o_ := Name 2.
Definition undef := Name 3.
Definition n_ := Name 4.
Definition both := Name 5.
Definition arr0 := Elem arr false (Digits (b "0")).
Definition arr0_b := Prop_ arr0 true (b "b").
Definition arr0_b_c := Prop_ (Paren arr0_b) true (b "c").
Definition either := Cond flag_ arr0 o_.
Definition meanings : list (expr * sty) :=
  [(arr, SObject 100); (o_, SObject 1); (undef, SUndefined); (n_, SNumber); (NullWord, SNull); (both, SUnion None [SNull; SUndefined]);
   (arr0, SObject 1); (arr0_b, SObject 2); (arr0_b_c, SObject 3); (either, SObject 1)].
Definition meaning_ (e : expr) : option sty := option_map snd (find (fun p => if expr_eq_dec (fst p) (bare e) then true else false) meanings).
Definition number_ (x : sty) : Z := match x with SObject n => n | _ => 0 end.
Definition type_of_ (e : expr) : option ty := option_map (checked number_) (meaning_ e).
Definition is_array_ (t : ty) : bool := t_id t =? 100.
Definition is_tuple_ (t : ty) : bool := false.
Definition show_ (t : ty) : list Z := [63].
Definition atom_ (e : expr) (v : value) : Prop :=
  match e with
  | Name 0 => v = Obj 1
  | Name 1 => v = Bool true
  | Name 2 => v = Obj 2
  | Name 3 => v = Undefined
  | Name 4 => exists s, v = Num s
  | Name 5 => nullish v
  | NullWord => v = Null
  | _ => False
  end.
(** The array may be empty. *)
Definition access_ (e : expr) (v w : value) : Prop := e = arr0 /\ (w = Undefined \/ w = Obj 3).
Definition strict_ (v w : value) : bool := if value_eq_dec v w then (if value_eq_dec v nan then false else true) else false.
Definition loose_ (v w : value) : bool :=
  match v, w with
  | (Undefined | Null), (Undefined | Null) => true
  | (Undefined | Null), _ | _, (Undefined | Null) => false
  | _, _ => strict_ v w
  end.
(** Of the order only that null is less than 1. *)
Definition compare_ (o : relation) (v w : value) : bool :=
  match o with
  | StrictEq => strict_ v w | StrictNotEq => negb (strict_ v w) | Eq => loose_ v w | NotEq => negb (loose_ v w)
  | Less | LessEq => match v, w with Null, Num [49] => true | _, _ => false end
  | _ => false
  end.

Lemma meaning_cases e x : meaning_ e = Some x -> In (bare e, x) meanings.
Proof.
  unfold meaning_. destruct (find _ meanings) as [[k y]|] eqn:E; [|discriminate]. intros H. injection H as <-. apply find_some in E as [I E]. cbn [fst snd] in *.
  destruct (expr_eq_dec k (bare e)) as [-> |]; [exact I | discriminate].
Qed.
Lemma meanings_regular e x : In (e, x) meanings -> regular x.
Proof.
  intros I. repeat (destruct I as [I | I]; [injection I as <- <-; cbv [regular bigs solid definite full level]; repeat split; cbn; try tauto; intros y [<- | [<- | []]]; exact I|]). destruct I.
Qed.
Lemma javascript_ : javascript compare_.
Proof.
  assert (L : forall v w, nullish v -> (loose_ v w = true <-> nullish w)).
  { intros v w [-> | ->]; destruct w; cbn; unfold nullish; split; try discriminate; try tauto; intros [K | K]; discriminate. }
  assert (R : forall v w, nullish w -> (loose_ v w = true <-> nullish v)).
  { intros v w [-> | ->]; destruct v; cbn; unfold nullish; split; try discriminate; try tauto; intros [K | K]; discriminate. }
  split; [|split; [reflexivity | split; [reflexivity | split; [exact L | split; [exact R|]]]]].
  - intros v w. cbn [compare_]. unfold strict_. destruct (value_eq_dec v w); [destruct (value_eq_dec v nan)|]; split; try discriminate; tauto.
  - intros o v O. destruct o; try destruct O; destruct v; split; reflexivity.
Qed.
Ltac pick I := cbn [bare meanings In] in I; repeat match type of I with _ \/ _ => destruct I as [I | I] end; try discriminate; try contradiction.
Lemma sound_ : sound atom_ access_ compare_ number_ meaning_ type_of_ is_array_ is_tuple_ true.
Proof.
  assert (W : forall e v, (forall x, In (bare e, x) meanings -> holds x v) -> typed meaning_ e v).
  { intros e v H x M. apply meaning_cases in M. split; [now apply H | now apply (meanings_regular (bare e))]. }
  constructor.
  - intros e v A V. apply W. intros x I. destruct e; try destruct A; try (now destruct V); pick I.
    + injection I as <- <-. rewrite V. now eexists.
    + injection I as <- <-. rewrite V. now eexists.
    + injection I as <- <-. exact V.
    + injection I as <- <-. exact V.
    + injection I as <- <-. destruct V as [-> | ->]; cbn; tauto.
    + injection I as <-. exact V.
  - reflexivity.
  - reflexivity.
  - intros e x _. apply W. intros y I. pick I.
  - intros o l r v _ _ _. apply W. intros y I. pick I.
  - intros o l r v _ _. apply W. intros y I. pick I.
  - intros o l r v _. apply W. intros y I. pick I.
  - intros o l r x. apply W. intros y I. pick I.
  - intros c x y v H. apply W. intros z I. pick I. injection I as <- <- <- <-.
    destruct H as [[_ T] | [_ T]]; exact (proj1 (T (SObject 1) eq_refl)).
  - intros e v w [-> [-> | ->]].
    + right. split; [reflexivity|]. split; [|reflexivity]. exists arr, false, (Digits (b "0")). split; [reflexivity|]. left. exists (checked number_ (SObject 100)). split; [reflexivity|].
      exists (checked number_ (SObject 100)). split; [now left | reflexivity].
    + left. apply W. intros x I. pick I. injection I as <-. now eexists.
  - intros e q v R E N T. apply W. intros x I. exfalso.
    assert (K : typed meaning_ q v -> meaning_ q = Some (SObject 1) \/ meaning_ q = Some (SObject 2) -> False).
    { intros H [M | M]; destruct (proj1 (H _ M)) as [k ->]; destruct N; discriminate. }
    destruct e; try (now inversion R as [? ? L | ? ? ? ? L _]; inversion L); pick I.
    + injection I as <- <- <- _. inversion R as [? ? L | ? ? ? ? L R']; subst; inversion L; subst; [apply K; [exact T | now left]|].
      inversion R' as [? ? L' | ? ? ? ? L' R'']; subst; inversion L'; subst. inversion R'' as [? ? L'' | ? ? ? ? L'' _]; inversion L''.
    + injection I as <- <- <- _. inversion R as [? ? L | ? ? ? ? L R']; subst; inversion L; subst; [apply K; [exact T | now right]|].
      inversion R' as [? ? L' | ? ? ? ? L' R'']; inversion L'.
    + injection I as <- <- <- _. inversion R as [? ? L | ? ? ? ? L R']; subst; inversion L; subst. inversion R' as [? ? L' | ? ? ? ? L' R'']; inversion L'.
Qed.

(** The claim of [C54_sound] is false where elements may be missing behind other expressions, in each case for a checker that is right: *)
Definition rule_ := rule type_of_ type_of_ show_ is_array_ is_tuple_ (fun _ => false) (fun _ _ => None) (fun _ => []) (fun _ => []) true true Missing.
Definition evals_ := evals atom_ access_ compare_.
Lemma arr0_evals w : w = Undefined \/ w = Obj 3 -> chain atom_ access_ compare_ arr0 (Some w).
Proof.
  intros H. apply (ch_value _ _ _ arr0 arr false (Obj 1)); [constructor | | intros [K | K]; discriminate | split; [reflexivity | exact H]].
  apply li_other; [intros y o K; inversion K|]. now constructor.
Qed.
Lemma arr0_b_evals : evals_ arr0_b Undefined.
Proof. apply ev_short. apply (ch_stop _ _ _ arr0_b arr0 Undefined); [constructor | apply li_chain; apply arr0_evals; now left | now left]. Qed.

(** [if (arr[0]?.b)] *)
Theorem C54_chain_refuted : exists type_of is_array is_tuple number meaning atom access compare e r,
  sound atom access compare number meaning type_of is_array is_tuple true /\ javascript compare /\
  In r (rule type_of type_of show_ is_array is_tuple (fun _ => false) (fun _ _ => None) (fun _ => []) (fun _ => []) true true Missing [If e]) /\
  r_id r = b "alwaysTruthy" /\ r_range r = Trimmed e /\ evals atom access compare e Undefined.
Proof.
  exists type_of_, is_array_, is_tuple_, number_, meaning_, atom_, access_, compare_, arr0_b. eexists.
  split; [exact sound_|]. split; [exact javascript_|]. split; [vm_compute; now left|]. split; [reflexivity|]. split; [reflexivity | exact arr0_b_evals].
Qed.
Print Assumptions C54_chain_refuted.

(** [if (flag ? arr[0] : o)] *)
Theorem C54_conditional_refuted : exists r, In r (rule_ [If either]) /\ r_id r = b "alwaysTruthy" /\ r_range r = Trimmed either /\ evals_ either Undefined.
Proof.
  eexists. split; [vm_compute; now left|]. split; [reflexivity|]. split; [reflexivity|].
  apply (ev_cond_t _ _ _ _ _ _ (Bool true)); [now constructor | intros [k K]; inversion K|]. apply ev_value. apply arr0_evals. now left.
Qed.
Print Assumptions C54_conditional_refuted.

(** [(arr[0]?.b)?.c ?? n]: parentheses hide the element. *)
Theorem C54_hidden_refuted : exists r, In r (rule_ [Plain (Logic Coalesce arr0_b_c n_)]) /\ r_id r = b "neverNullish" /\ r_range r = Trimmed arr0_b_c /\ evals_ arr0_b_c Undefined.
Proof.
  eexists. split; [vm_compute; now left|]. split; [reflexivity|]. split; [reflexivity|].
  apply ev_short. apply (ch_stop _ _ _ arr0_b_c (Paren arr0_b) Undefined); [constructor | | now left]. apply li_other; [intros y o K; inversion K|]. apply ev_paren. exact arr0_b_evals.
Qed.
Print Assumptions C54_hidden_refuted.

(** [arr[0] === undefined] is said to be always the same. *)
Theorem C54_element_compared_refuted : let e := Compare StrictEq arr0 undef in
  exists r, In r (rule_ [If e]) /\ r_id r = b "noOverlapBooleanExpression" /\ evals_ e (Bool true) /\ evals_ e (Bool false).
Proof.
  intros e. eexists. split; [vm_compute; now left|]. split; [reflexivity|]. split.
  - change (Bool true) with (Bool (compare_ StrictEq Undefined Undefined)). constructor; [apply ev_value; apply arr0_evals; now left | now constructor].
  - change (Bool false) with (Bool (compare_ StrictEq (Obj 3) Undefined)). constructor; [apply ev_value; apply arr0_evals; now right | now constructor].
Qed.
Print Assumptions C54_element_compared_refuted.

(** [null < n] is said to be always the same. *)
Theorem C54_null_ordered_refuted : let e := Compare Less NullWord n_ in
  exists r, In r (rule_ [If e]) /\ r_id r = b "noOverlapBooleanExpression" /\ evals_ e (Bool true) /\ evals_ e (Bool false).
Proof.
  intros e. eexists. split; [vm_compute; now left|]. split; [reflexivity|]. split.
  - change (Bool true) with (Bool (compare_ Less Null (Num [49]))). constructor; [now constructor | constructor; [exact I | now eexists]].
  - change (Bool false) with (Bool (compare_ Less Null (Num [48]))). constructor; [now constructor | constructor; [exact I | now eexists]].
Qed.
Print Assumptions C54_null_ordered_refuted.

(** The left side of [??] that is null or undefined is not said to be always nullish. *)
Theorem C54_both_nullish_refuted : rule_ [Plain (Logic Coalesce both n_)] = [] /\ (exists v, evals_ both v) /\ forall v, evals_ both v -> nullish v.
Proof.
  split; [vm_compute; reflexivity|]. split; [exists Null; constructor; [exact I | now right]|]. intros v E. inversion E; subst; try assumption.
  - match goal with H : chain _ _ _ _ _ |- _ => inversion H; subst; match goal with L : linked _ _ _ |- _ => inversion L end end.
  - now left.
Qed.
Print Assumptions C54_both_nullish_refuted.

(** [if (!(arr)) ... while (o || !o) ... if (arr[0] && null === o) ... arr[0] ?? n; o ?? n; o ??= n; null ?? n; undefined === null], with the options. *)
Definition program : list stmt :=
  [If (Not (Paren arr)); While (Logic Or o_ (Not o_)); If (Logic And arr0 (Compare StrictEq NullWord o_)); Plain (Logic Coalesce arr0 n_);
   Plain (Logic Coalesce (Paren o_) n_); Plain (LogicAssign Coalesce o_ n_); Plain (Logic Coalesce NullWord n_); Plain (Compare Eq undef NullWord); For None; If n_].
Example C54_program : map (fun r => (r_id r, r_range r, List.length (r_labels r))) (rule_ program) =
  [(b "alwaysFalsy", Trimmed (Not (Paren arr)), 1%nat); (b "alwaysFalsy", Trimmed (Not o_), 1%nat); (b "alwaysTruthy", Trimmed o_, 1%nat);
   (b "noOverlapBooleanExpression", Operator (Compare StrictEq NullWord o_), 2%nat);
   (b "neverNullish", Trimmed o_, 1%nat); (b "neverNullish", Trimmed o_, 1%nat); (b "alwaysNullish", Trimmed NullWord, 0%nat);
   (b "comparisonBetweenLiteralTypes", Operator (Compare Eq undef NullWord), 2%nat)].
Proof. vm_compute. reflexivity. Qed.
