(** Proofs about the rule of Condition.v: what is asked, and what the answers claim. *)
From Coq Require Import String Ascii Bool List ZArith Lia Permutation.
From Verif Require Import Base EngineProofs Types Condition ConditionSpec ConditionProofs.
Import ListNotations.
Open Scope Z_scope.

(** [o] is [x] under parentheses and negations, an odd number of them if [n]. *)
Inductive wraps : expr -> expr -> bool -> Prop :=
| w_same e : wraps e e false
| w_paren o x n : wraps o (Paren x) n -> wraps o x n
| w_not o x n : wraps o (Not x) n -> wraps o x (negb n).
Lemma wraps_core o x n : wraps o x n -> core o = core x.
Proof. induction 1; [reflexivity | exact IHwraps | exact IHwraps]. Qed.

Definition is_leaf (x : expr) : Prop := match x with Paren _ | Not _ | Logic And _ _ | Logic Or _ _ => False | _ => True end.
Lemma leaf_core x : is_leaf x -> core x = x.
Proof. destruct x; cbn; tauto. Qed.
Lemma skip_bare e : skip e = bare e.
Proof. induction e; cbn; auto. Qed.

Section Eval.
Variables (atom : expr -> value -> Prop) (access : expr -> value -> value -> Prop) (compare : relation -> value -> value -> bool).
Notation evals := (evals atom access compare).
Notation chain := (chain atom access compare).
Lemma no_chain e r : (forall x o, ~ linked e x o) -> ~ chain e r.
Proof. intros N C. destruct C; eapply N; eassumption. Qed.
Ltac nochain := match goal with C : ConditionSpec.chain _ _ _ _ _ |- _ => exfalso; eapply no_chain; [|exact C]; intros ? ? L; inversion L end.
Lemma evals_paren e v : evals (Paren e) v -> evals e v.
Proof. intros E. inversion E; subst; [now destruct H | exact H0 | nochain | nochain]. Qed.
Lemma evals_not e v : evals (Not e) v -> exists w, evals e w /\ (is_falsy v <-> ~ is_falsy w).
Proof.
  intros E. inversion E; subst; [now destruct H | | | nochain | nochain].
  - exists v0. split; [exact H0|]. split; [tauto | intros _; eexists; constructor].
  - exists v0. split; [exact H0|]. split; [intros [k F]; inversion F | tauto].
Qed.
Lemma wraps_evals o x n v : wraps o x n -> evals o v -> exists w, evals x w /\ (is_falsy v <-> if n then ~ is_falsy w else is_falsy w).
Proof.
  induction 1 as [e | o x n W IH | o x n W IH]; intros E.
  - exists v. now split.
  - destruct (IH E) as [w [P F]]. exists w. split; [now apply evals_paren | exact F].
  - destruct (IH E) as [w [P F]]. apply evals_not in P as [u [P G]]. exists u. split; [exact P|]. rewrite F. destruct n; cbn [negb]; rewrite G.
    + destruct (falsy_or u); tauto.
    + reflexivity.
Qed.
Lemma evals_bare e v : evals e v -> evals (bare e) v.
Proof. revert v. induction e; intros v E; try exact E. cbn [bare]. apply IHe, evals_paren, E. Qed.
Lemma bare_evals e v : evals (bare e) v -> evals e v.
Proof. revert v. induction e; intros v E; try exact E. apply ev_paren, IHe, E. Qed.
End Eval.

Section Rule.
Variables (raw_type type_of : expr -> option ty) (show : ty -> list Z).
Variables (is_array is_tuple : ty -> bool) (optional_member : expr -> bool).
Variables (prop_type : ty -> list Z -> option ty) (index_keys : ty -> list (list Z)) (type_name : ty -> list Z).
Variables (strict unchecked_off : bool).
Notation check_leaf := (check_leaf type_of show is_array is_tuple unchecked_off).
Notation check_node := (check_node type_of show is_array is_tuple unchecked_off).
Notation check_loop := (check_loop type_of show is_array is_tuple unchecked_off).
Notation check_nullish := (check_nullish raw_type type_of show is_array is_tuple optional_member prop_type index_keys type_name unchecked_off).
Notation check_comparison := (check_comparison type_of show strict).
Notation listen := (listen raw_type type_of show is_array is_tuple optional_member prop_type index_keys type_name strict unchecked_off).
Notation visit := (visit raw_type type_of show is_array is_tuple optional_member prop_type index_keys type_name strict unchecked_off).
Notation rule := (rule raw_type type_of show is_array is_tuple optional_member prop_type index_keys type_name strict unchecked_off).
Notation array_index := (array_index type_of is_array is_tuple).
Notation element := (element type_of is_array is_tuple).
Notation missing := (missing type_of is_array is_tuple).
Notation cut := (cut type_of is_array is_tuple).

(** ** Elements *)
Lemma some_part_iff p e : some_part type_of p e = true <-> of_type type_of p e.
Proof.
  unfold some_part, of_type, union_parts. destruct (type_of e) as [t|]; [|split; [discriminate | intros [t [E _]]; discriminate]].
  rewrite existsb_exists. split.
  - intros [q [I P]]. exists t. split; [reflexivity|]. now exists q.
  - intros [u [E [q [I P]]]]. injection E as <-. now exists q.
Qed.
Lemma array_index_iff e : array_index e = true <-> element (bare e).
Proof.
  unfold Condition.array_index, ConditionSpec.element. rewrite skip_bare. destruct (bare e) as [ | | | | | | | | | | | | | |o c i| | | | ];
    try (split; [discriminate | intros [? [? [? [? _]]]]; discriminate]).
  rewrite orb_true_iff, andb_true_iff, !some_part_iff, skip_bare. split.
  - intros [A | [A D]]; exists o, c, i; (split; [reflexivity|]); [now left | right]. split; [exact A|]. intros x X. rewrite X in D. discriminate.
  - intros [o' [c' [i' [E D]]]]. injection E as <- <- <-. destruct D as [A | [A D]]; [now left | right]. split; [exact A|]. destruct (bare i); try reflexivity. now destruct (D x).
Qed.

(** ** Chains *)
Lemma straight_missing x : straight type_of is_array is_tuple x -> missing x -> array_index x = true \/ cut x.
Proof.
  intros S M. destruct S as [e N [R | R] | e y o L S].
  - now destruct R.
  - left. now apply array_index_iff.
  - destruct M; try (now right); try (now inversion L).
    left. apply array_index_iff. destruct H as [o' [c [i [-> D]]]]. now exists o', c, i.
Qed.
Lemma straight_cut x : straight type_of is_array is_tuple x -> cut x -> has_optional x = true /\ chain_index type_of is_array is_tuple x = true.
Proof.
  induction 1 as [e N R | e y o L S IH]; intros C.
  - destruct C; exfalso; eapply N; eassumption.
  - assert (D : (o = true /\ missing y) \/ cut y).
    { destruct C as [e x L' M | e x o' L' M]; destruct L; inversion L'; subst; auto. }
    assert (K : cut y -> match y with Prop_ _ _ _ | Elem _ _ _ | Call _ _ _ => chain_index type_of is_array is_tuple y | _ => false end = chain_index type_of is_array is_tuple y).
    { intros C'. destruct C' as [? ? L' ? | ? ? ? L' ?]; destruct L'; reflexivity. }
    assert (Q : (o = true /\ array_index y = true) \/ cut y).
    { destruct D as [[O M] | D]; [|now right]. destruct (straight_missing y S M); auto. }
    destruct Q as [[O A] | Q].
    + destruct L; cbn [has_optional chain_index]; rewrite A, O; split; reflexivity.
    + destruct (IH Q) as [H1 H2]. rewrite <- (K Q) in H2. destruct L; cbn [has_optional chain_index]; rewrite H1, H2, !orb_true_r; now split.
Qed.

(** ** Which expressions are looked at *)
Lemma in_node r e n rep outer : wraps outer e n -> rep = Some outer \/ rep = None /\ n = false /\ outer = e ->
  In r (check_node e n rep) -> exists x m o, In r (check_leaf x m o) /\ wraps o x m /\ is_leaf x.
Proof.
  revert n rep outer. induction e; intros n' rep outer W R I; cbn [Condition.check_node] in I;
    match type of W with wraps _ ?e _ => assert (O : match rep with Some r => r | None => e end = outer) by (destruct R as [-> | [-> [_ ->]]]; reflexivity) end;
    try (rewrite O in I; eexists; eexists; eexists; split; [exact I|]; split; [exact W | exact Logic.I]).
  - rewrite O in I. apply (IHe _ _ outer) in I; [exact I | now apply w_paren | now left].
  - rewrite O in I. apply (IHe _ _ outer) in I; [exact I | now apply w_not | now left].
  - destruct o.
    + apply (IHe2 _ _ e2) in I; [exact I | constructor | right; auto].
    + apply (IHe2 _ _ e2) in I; [exact I | constructor | right; auto].
    + rewrite O in I. eexists. eexists. eexists. split; [exact I|]. split; [exact W | exact Logic.I].
Qed.

Lemma visit_step r e : In r (visit e) <-> In r (listen e) \/ exists y, child y e /\ In r (visit y).
Proof.
  destruct e; cbn [Condition.visit]; rewrite !in_app_iff; (split; [intros [A | A]; [now left|] | intros [A | [y [C A]]]; [now left | right; inversion C; subst; tauto]]);
    try (now destruct A); right; repeat (destruct A as [A|A]);
    first [ now (eexists; split; [constructor | exact A]) | now (eexists; split; [apply ch_logic_r | exact A]) | now (eexists; split; [apply ch_assign_r | exact A])
          | now (eexists; split; [apply ch_compare_r | exact A]) | now (eexists; split; [apply ch_elem_r | exact A]) | now (eexists; split; [apply ch_cond_x | exact A])
          | now (eexists; split; [apply ch_cond_y | exact A]) | now (eexists; split; [apply ch_call_r | exact A]) | now (eexists; split; [apply ch_both_r | exact A]) ].
Qed.
Lemma inside_step x e : inside x e <-> x = e \/ exists y, child y e /\ inside x y.
Proof. split; [intros I; destruct I; [now left | right; eauto] | intros [-> | [y [C I]]]; [constructor | econstructor; eassumption]]. Qed.
Lemma in_visit r e : In r (visit e) <-> exists x, inside x e /\ In r (listen x).
Proof.
  assert (G : forall e, (forall y, child y e -> (In r (visit y) <-> exists x, inside x y /\ In r (listen x))) ->
    (In r (visit e) <-> exists x, inside x e /\ In r (listen x))).
  { clear e. intros e IH. rewrite visit_step. split.
    - intros [L | [y [C V]]]; [exists e; split; [constructor | exact L]|]. apply (IH y C) in V as [x [I L]]. exists x. split; [|exact L]. apply inside_step. right. now exists y.
    - intros [x [I L]]. apply inside_step in I as [-> | [y [C I]]]; [now left|]. right. exists y. split; [exact C|]. apply (IH y C). now exists x. }
  induction e; apply G; intros y C; inversion C; subst; assumption.
Qed.
(** What is answered to a question. *)
Definition answer (v : option_value) (q : question) : list report :=
  match q with
  | AskTest e => check_node e false None
  | AskLoop e => check_loop v e
  | AskNullish e => check_nullish e
  | AskSame node l o r => check_comparison node l r o
  end.
Lemma in_listen v r e : In r (listen e) <-> exists q, asks e q /\ In r (answer v q).
Proof.
  split.
  - destruct e; try (now intros []); cbn [Condition.listen].
    + destruct o; intros I; [exists (AskTest e1) | exists (AskTest e1) | exists (AskNullish e1)]; (split; [|exact I]); constructor; discriminate.
    + destruct o; intros I; [exists (AskTest e1) | exists (AskTest e1) | exists (AskNullish e1)]; (split; [|exact I]); constructor; discriminate.
    + intros I. exists (AskSame (Compare o e1 e2) e1 o e2). split; [constructor | exact I].
    + intros I. exists (AskTest e1). split; [constructor | exact I].
  - intros [q [A I]]. destruct A; try exact I; destruct o; try exact I; congruence.
Qed.
Lemma rule_asked v r l : In r (rule v l) <-> exists q, asked l q /\ In r (answer v q).
Proof.
  unfold Condition.rule. rewrite in_flat_map. split.
  - intros [s [I R]].
    assert (V : forall e, of_stmt s e -> In r (visit e) -> exists q, asked l q /\ In r (answer v q)).
    { intros e O W. apply in_visit in W as [x [N L]]. apply (in_listen v) in L as [q [A L]]. exists q. split; [|exact L]. eapply ak_inside; eassumption. }
    destruct s as [e|e|e|[e|]|e cs|e]; cbn [statement] in R; try (now destruct R); try (apply in_app_or in R as [R | R]).
    + exists (AskTest e). split; [now constructor | exact R].
    + apply (V e); [reflexivity | exact R].
    + exists (AskLoop e). split; [eapply ak_loop; [|exact I]; cbn; tauto | exact R].
    + apply (V e); [reflexivity | exact R].
    + exists (AskLoop e). split; [eapply ak_loop; [|exact I]; cbn; tauto | exact R].
    + apply (V e); [reflexivity | exact R].
    + exists (AskLoop e). split; [eapply ak_loop; [|exact I]; cbn; tauto | exact R].
    + apply (V e); [reflexivity | exact R].
    + apply (V e); [now left | exact R].
    + apply in_flat_map in R as [c [J R]]. apply in_app_or in R as [R | R]; [|apply (V c); [now right | exact R]].
      exists (AskSame c e StrictEq c). split; [eapply ak_case; eassumption | exact R].
    + apply (V e); [reflexivity | exact R].
  - intros [q [A R]]. destruct A as [e I | e s M I | e cs c I J | s e x q I O N A].
    + exists (If e). split; [exact I|]. cbn [statement]. apply in_or_app. now left.
    + exists s. split; [exact I|]. destruct M as [<- | [<- | [<- | []]]]; cbn [statement]; apply in_or_app; now left.
    + exists (Switch e cs). split; [exact I|]. cbn [statement]. apply in_or_app. right. apply in_flat_map. exists c. split; [exact J|]. apply in_or_app. now left.
    + assert (W : In r (visit e)) by (apply in_visit; exists x; split; [exact N | apply (in_listen v); now exists q]).
      exists s. split; [exact I|]. destruct s as [y|y|y|[y|]|y cs|y]; cbn [of_stmt] in O; try subst e; cbn [statement]; try (apply in_or_app; now right); try exact W; try (now destruct O).
      destruct O as [-> | J]; apply in_or_app; [now left | right]. apply in_flat_map. exists e. split; [exact J|]. apply in_or_app. now right.
Qed.

(** ** Every condition once *)
Lemma conditions_once e : Permutation (check_node e false None ++ visit e)
  (flat_map (fun p => check_leaf (fst (fst p)) (snd (fst p)) (snd p)) (conditions e e false) ++ flat_map (fun p => visit (fst (fst p))) (conditions e e false)).
Proof.
  assert (G : forall e n o, (forall rep, rep = Some o \/ rep = None /\ o = e -> Permutation (check_node e n rep ++ visit e)
    (flat_map (fun p => check_leaf (fst (fst p)) (snd (fst p)) (snd p)) (conditions e o n) ++ flat_map (fun p => visit (fst (fst p))) (conditions e o n)))).
  { clear e. induction e; intros n' out rep R;
      match type of R with _ \/ _ /\ _ = ?e => assert (O : match rep with Some r => r | None => e end = out) by (destruct R as [-> | [-> ->]]; reflexivity) end;
      cbn [Condition.check_node conditions] in *; try rewrite O;
      try (cbn [flat_map fst snd]; rewrite !app_nil_r; apply Permutation_refl).
    - apply IHe. now left.
    - apply IHe. now left.
    - destruct o; try (rewrite O; cbn [flat_map fst snd]; rewrite !app_nil_r; apply Permutation_refl).
      + rewrite !flat_map_app. cbn [Condition.visit Condition.listen].
        specialize (IHe1 false e1 None (or_intror (conj eq_refl eq_refl))). specialize (IHe2 false e2 None (or_intror (conj eq_refl eq_refl))).
        set (A := check_node e1 false None) in *. set (B := check_node e2 false None) in *.
        transitivity ((A ++ visit e1) ++ (B ++ visit e2)).
        { rewrite (Permutation_app_comm B). rewrite <- !app_assoc. do 2 apply Permutation_app_head. apply Permutation_app_comm. }
        rewrite IHe1, IHe2. rewrite <- !app_assoc. apply Permutation_app_head. rewrite !app_assoc. apply Permutation_app_tail. apply Permutation_app_comm.
      + rewrite !flat_map_app. cbn [Condition.visit Condition.listen].
        specialize (IHe1 false e1 None (or_intror (conj eq_refl eq_refl))). specialize (IHe2 false e2 None (or_intror (conj eq_refl eq_refl))).
        set (A := check_node e1 false None) in *. set (B := check_node e2 false None) in *.
        transitivity ((A ++ visit e1) ++ (B ++ visit e2)).
        { rewrite (Permutation_app_comm B). rewrite <- !app_assoc. do 2 apply Permutation_app_head. apply Permutation_app_comm. }
        rewrite IHe1, IHe2. rewrite <- !app_assoc. apply Permutation_app_head. rewrite !app_assoc. apply Permutation_app_tail. apply Permutation_app_comm.
      + cbn [flat_map fst snd]. rewrite !app_nil_r. apply Permutation_refl. }
  apply G. now right.
Qed.

(** ** Claims *)
Section Claims.
Variables (atom : expr -> value -> Prop) (access : expr -> value -> value -> Prop) (compare : relation -> value -> value -> bool) (number : sty -> Z) (meaning : expr -> option sty).
Notation evals := (evals atom access compare).
Notation surprising := (surprising type_of is_array is_tuple unchecked_off).
Hypothesis trust : sound atom access compare number meaning type_of is_array is_tuple unchecked_off.
Let has e t (T : type_of e = Some t) := meant atom access compare number meaning type_of is_array is_tuple unchecked_off trust e t T.
Let ok := trusted atom access compare number meaning type_of is_array is_tuple unchecked_off trust.

Lemma leaf_element r x n o : In r (check_leaf x n o) -> r_range r = Trimmed o /\ ~ (unchecked_off = true /\ element (bare x)).
Proof.
  unfold Condition.check_leaf. rewrite <- array_index_iff. destruct (unchecked_off && array_index x) eqn:U; [intros []|].
  intros I. split; [|intros [A B]; rewrite A, B in U; discriminate].
  destruct (type_of x) as [t|]; [|destruct I]. destruct (always_necessary t); [destruct I|].
  destruct (is_set t [FNever]); [destruct I as [<- | []]; reflexivity|]. destruct (check_type t) as [tr fa].
  destruct fa; [|destruct tr]; destruct n; (destruct I as [<- | []]; reflexivity) || destruct I.
Qed.
Lemma leaf_claim r x n o : In r (check_leaf x n o) -> wraps o x n -> ~ surprising x -> claim atom access compare r.
Proof.
  intros I W N.
  unfold Condition.check_leaf in I. destruct (unchecked_off && array_index x); [destruct I|].
  destruct (type_of x) as [t|] eqn:Ty; [|destruct I]. destruct (always_necessary t); [destruct I|].
  destruct (has x t Ty) as [y [M ->]].
  assert (T' : forall v, evals x v -> holds y v /\ regular y) by (intros v E; exact (ok x v E N y M)).
  destruct (is_set (checked number y) [FNever]) eqn:NV.
  { destruct I as [<- | []]. repeat split; cbn [r_id typed_value]; intros Q; try (vm_compute in Q; discriminate).
    exists o. split; [reflexivity|]. intros v E. destruct (wraps_evals atom access compare o x n v W E) as [w [Ew _]].
    destruct (T' w Ew) as [H _]. now apply (never_empty number y w). }
  assert (S : forall v, evals o v -> exists w, (is_falsy v <-> if n then ~ is_falsy w else is_falsy w) /\
      (snd (check_type (checked number y)) = true -> is_falsy w) /\ (fst (check_type (checked number y)) = true -> ~ is_falsy w)).
  { intros v E. destruct (wraps_evals atom access compare o x n v W E) as [w [Ew F]]. exists w. split; [exact F|].
    destruct (T' w Ew) as [H [B [So _]]]. destruct (check_sound number y w B H) as [P Q]. split; [exact P | intros G; now apply Q]. }
  destruct (check_type (checked number y)) as [tr fa]. cbn [fst snd] in S.
  destruct fa; [|destruct tr]; destruct n; destruct I as [<- | []] || destruct I; repeat split; cbn [r_id typed_value]; intros Q; try (vm_compute in Q; discriminate);
    exists o; (split; [reflexivity|]); intros v E; destruct (S v E) as [w [F [A C]]]; rewrite F; try (now apply A); try (now apply C).
  intros G. apply G. now apply A.
Qed.
Lemma not_linked_missing e : (forall x o, ~ linked e x o) -> missing e -> match e with Paren x => missing x | Logic And l r => missing l \/ missing r | Logic _ _ r => missing r
  | LogicAssign o l r => missing (Logic o l r) | Cond _ x y => missing x \/ missing y | _ => False end.
Proof.
  intros N M. destruct M as [e [a [c [i [-> _]]]] | | e C | | o l r | | |]; auto.
  - destruct (N a c). constructor.
  - destruct C as [e x L C | e x o L C]; destruct (N _ _ L).
  - destruct o; auto.
Qed.
Lemma missing_core e : missing e -> missing (core e).
Proof.
  induction e; intros M; try exact M; cbn [core].
  - apply IHe. apply not_linked_missing in M; [exact M|]. intros ? ? L. inversion L.
  - exfalso. apply not_linked_missing in M; [exact M|]. intros ? ? L. inversion L.
Qed.
Lemma core_bare e : core (bare e) = core e.
Proof. induction e; try reflexivity. exact IHe. Qed.
Lemma bare_bare e : bare (bare e) = bare e.
Proof. induction e; try reflexivity. exact IHe. Qed.
Lemma missing_bare e : missing e <-> missing (bare e).
Proof.
  induction e; try reflexivity. cbn [bare]. rewrite <- IHe. split; [|apply m_paren].
  intros M. apply not_linked_missing in M; [exact M|]. intros ? ? L. inversion L.
Qed.
Lemma nullish_claim r e : In r (check_nullish e) -> exists x, r_range r = Trimmed x /\ core x = core e /\ bare x = bare e /\
  (~ surprising (core e) \/ r_id r = b "neverNullish" /\ straight type_of is_array is_tuple (bare e) -> claim atom access compare r).
Proof.
  intros I. unfold Condition.check_nullish in I. destruct (type_of e) as [t|] eqn:Ty; [|destruct I].
  destruct (has e t Ty) as [y [M ->]].
  assert (T' : ~ surprising (core e) -> forall v, evals e v -> holds y v /\ regular y).
  { intros N v E. apply (ok e v E); [|exact M]. intros [U M']. apply N. split; [exact U | now apply missing_core]. }
  destruct (always_necessary (checked number y)) eqn:AN; [destruct I|]. destruct (is_set (checked number y) [FNever]) eqn:NV.
  { destruct I as [<- | []]. exists e. split; [reflexivity|]. split; [reflexivity|]. split; [reflexivity|]. intros [N | [Q _]]; [|vm_compute in Q; discriminate].
    repeat split; cbn [r_id typed_value]; intros Q; try (vm_compute in Q; discriminate).
    exists e. split; [reflexivity|]. intros v E. destruct (T' N v E) as [H _]. now apply (never_empty number y v). }
  destruct (always_nullish (checked number y)) eqn:AL.
  { destruct I as [<- | []]. exists e. split; [reflexivity|]. split; [reflexivity|]. split; [reflexivity|]. intros [N | [Q _]]; [|vm_compute in Q; discriminate].
    repeat split; cbn [r_id typed_value]; intros Q; try (vm_compute in Q; discriminate).
    exists e. split; [reflexivity|]. intros v E. destruct (T' N v E) as [H _]. now apply (always_nullish_sound number y v). }
  destruct (negb (is_nullish (checked number y)) && _) eqn:G; [|destruct I]. apply andb_true_iff in G as [G _]. apply negb_true_iff in G. cbv zeta in I.
  destruct (negb unchecked_off || _) eqn:K; [|destruct I]. destruct I as [<- | []]. rewrite skip_bare in *.
  exists (bare e). split; [reflexivity|]. split; [apply core_bare|]. split; [apply bare_bare|]. intros P.
  assert (N : ~ surprising e).
  { destruct P as [N | [_ S]]; [intros [U M']; apply N; split; [exact U | now apply missing_core]|]. intros [U M']. rewrite missing_bare in M'. rewrite U in K. cbn [negb orb] in K.
    apply andb_true_iff in K as [A C]. destruct (straight_missing _ S M') as [A' | C']; [rewrite A' in A; discriminate|]. destruct (straight_cut _ S C') as [H1 H2]. rewrite H1, H2 in C. discriminate. }
  repeat split; cbn [r_id typed_value]; intros Q; try (vm_compute in Q; discriminate).
  exists (bare e). split; [reflexivity|]. intros v E. apply bare_evals in E.
  destruct (ok e v E N y M) as [H [B [So [D [F L]]]]].
  apply (never_nullish number y v); auto. now apply (known_of number).
Qed.
(** Claims of comparisons. *)
Lemma comparison_ids r node l rr o : In r (check_comparison node l rr o) -> claim atom access compare r.
Proof.
  unfold Condition.check_comparison. destruct (type_of l) as [lt|], (type_of rr) as [rt|]; try (intros []; fail).
  destruct (static lt && static rt); [|destruct (negb strict); [intros []|]; match goal with |- In _ (if ?c then _ else _) -> _ => destruct c end];
    try (intros []; fail); intros I; destruct I as [<- | []]; repeat split; cbn [r_id comparison]; intros Q; vm_compute in Q; discriminate.
Qed.
Lemma static_same node l rr o r : In r (check_comparison node l rr o) -> r_id r = b "comparisonBetweenLiteralTypes" ->
  ~ surprising l -> ~ surprising rr -> constant atom access compare o l rr.
Proof.
  unfold Condition.check_comparison. intros I Q NL NR v w v' w' E1 E2 E3 E4.
  destruct (type_of l) as [lt|] eqn:TL; [|destruct I]. destruct (type_of rr) as [rt|] eqn:TR; [|destruct I].
  destruct (has _ _ TL) as [x [ML ->]]. destruct (has _ _ TR) as [y [MR ->]].
  destruct (static (checked number x) && static (checked number y)) eqn:S.
  - apply andb_true_iff in S as [S1 S2]. apply static_unit in S1, S2.
    rewrite (unit_single x v v' S1 (proj1 (ok l v E1 NL x ML)) (proj1 (ok l v' E3 NL x ML))).
    now rewrite (unit_single y w w' S2 (proj1 (ok rr w E2 NR y MR)) (proj1 (ok rr w' E4 NR y MR))).
  - exfalso. destruct (negb strict); [destruct I|]. match type of I with In _ (if ?c then _ else _) => destruct c end; [|destruct I]. destruct I as [<- | []]. vm_compute in Q. discriminate.
Qed.
Hypothesis js : javascript compare.
(** Reports on comparisons with undefined or null. *)
Lemma overlap_same node l rr o r : In r (check_comparison node l rr o) -> r_id r = b "noOverlapBooleanExpression" ->
  ~ surprising l -> ~ surprising rr -> (ordering o -> meaning l <> Some SNull /\ meaning rr <> Some SNull) -> constant atom access compare o l rr.
Proof.
  unfold Condition.check_comparison. intros I Q NL NR OR v w v' w' E1 E2 E3 E4.
  destruct (type_of l) as [lt|] eqn:TL; [|destruct I]. destruct (type_of rr) as [rt|] eqn:TR; [|destruct I].
  destruct (has _ _ TL) as [x [ML ->]]. destruct (has _ _ TR) as [y [MR ->]]. rewrite ML, MR in OR.
  destruct (static (checked number x) && static (checked number y)); [destruct I as [<- | []]; vm_compute in Q; discriminate|].
  destruct (negb strict); [destruct I|]. match type of I with In _ (if ?c then _ else _) => destruct c eqn:C end; [|destruct I]. clear I Q.
  assert (X : forall a, evals l a -> holds x a /\ full x) by (intros a A; destruct (ok l a A NL x ML) as [? [? [? [? [? ?]]]]]; now split).
  assert (Y : forall a, evals rr a -> holds y a /\ full y) by (intros a A; destruct (ok rr a A NR y MR) as [? [? [? [? [? ?]]]]]; now split).
  destruct js as [J1 [J2 [J3 [J4 [J5 J6]]]]].
  assert (core : forall a c, (a = Undefined \/ a = Null /\ ~ ordering o) -> c <> a -> (loose o = true -> ~ nullish c) ->
     compare o a c = match o with NotEq | StrictNotEq => true | _ => false end /\ compare o c a = match o with NotEq | StrictNotEq => true | _ => false end).
  { intros a c A NE LO.
    assert (NA : nullish a) by (destruct A as [-> | [-> _]]; [now left | now right]).
    assert (SE : compare StrictEq a c = false /\ compare StrictEq c a = false).
    { split; (destruct (compare StrictEq _ _) eqn:E; [|reflexivity]); apply J1 in E as [E _]; congruence. }
    assert (LE : loose o = true -> compare Eq a c = false /\ compare Eq c a = false).
    { intros L. split; (destruct (compare Eq _ _) eqn:E; [|reflexivity]); exfalso; apply (LO L); [now apply (J4 a c NA) | now apply (J5 c a NA)]. }
    destruct o; try (destruct A as [-> | [_ A]]; [apply J6; exact Logic.I | destruct A; exact Logic.I]).
    - now apply LE.
    - exact SE.
    - rewrite !J3. destruct (LE eq_refl) as [-> ->]. now split.
    - rewrite !J2. destruct SE as [-> ->]. now split. }
  apply orb_true_iff in C as [C | C]; [apply orb_true_iff in C as [C | C]; [apply orb_true_iff in C as [C | C]|]|];
    apply andb_true_iff in C as [U C]; apply negb_true_iff in C; (apply only_undefined in U || apply only_null in U); subst.
  - assert (K : forall a c, evals l a -> evals rr c -> compare o a c = match o with NotEq | StrictNotEq => true | _ => false end).
    { intros a c A Cc. destruct (X a A) as [Ha _]. cbn in Ha. subst a. destruct (Y c Cc) as [Hc Fc]. destruct (apart number o [FUndefined; FVoid] y c eq_refl eq_refl C Fc Hc) as [P1 P2].
      apply (core Undefined c); [now left | intros Z; subst; destruct P1 as [_ P1]; [reflexivity | discriminate] | intros L [Z | Z]; [destruct (P1 Z) | destruct (P2 Z)]; congruence]. }
    now rewrite (K v w E1 E2), (K v' w' E3 E4).
  - assert (K : forall a c, evals l a -> evals rr c -> compare o a c = match o with NotEq | StrictNotEq => true | _ => false end).
    { intros a c A Cc. destruct (Y c Cc) as [Hc _]. cbn in Hc. subst c. destruct (X a A) as [Ha Fa]. destruct (apart number o [FUndefined; FVoid] x a eq_refl eq_refl C Fa Ha) as [P1 P2].
      apply (core Undefined a); [now left | intros Z; subst; destruct P1 as [_ P1]; [reflexivity | discriminate] | intros L [Z | Z]; [destruct (P1 Z) | destruct (P2 Z)]; congruence]. }
    now rewrite (K v w E1 E2), (K v' w' E3 E4).
  - assert (K : forall a c, evals l a -> evals rr c -> compare o a c = match o with NotEq | StrictNotEq => true | _ => false end).
    { intros a c A Cc. destruct (X a A) as [Ha _]. cbn in Ha. subst a. destruct (Y c Cc) as [Hc Fc]. destruct (apart number o [FNull] y c eq_refl eq_refl C Fc Hc) as [P1 P2].
      apply (core Null c); [right; split; [reflexivity | intros O; now destruct (OR O)] | intros Z; subst; destruct P2 as [_ P2]; [reflexivity | discriminate] | intros L [Z | Z]; [destruct (P1 Z) | destruct (P2 Z)]; congruence]. }
    now rewrite (K v w E1 E2), (K v' w' E3 E4).
  - assert (K : forall a c, evals l a -> evals rr c -> compare o a c = match o with NotEq | StrictNotEq => true | _ => false end).
    { intros a c A Cc. destruct (Y c Cc) as [Hc _]. cbn in Hc. subst c. destruct (X a A) as [Ha Fa]. destruct (apart number o [FNull] x a eq_refl eq_refl C Fa Ha) as [P1 P2].
      apply (core Null a); [right; split; [reflexivity | intros O; now destruct (OR O)] | intros Z; subst; destruct P2 as [_ P2]; [reflexivity | discriminate] | intros L [Z | Z]; [destruct (P1 Z) | destruct (P2 Z)]; congruence]. }
    now rewrite (K v w E1 E2), (K v' w' E3 E4).
Qed.
End Claims.
End Rule.
