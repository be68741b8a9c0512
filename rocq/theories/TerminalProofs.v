(** Lemmas for C112 (Terminal.v, TerminalSpec.v). *)
From Coq Require Import Bool Arith Ascii String List Lia DecimalString DecimalNat Sorting.Sorted Sorting.Permutation.
From Verif Require Import Base.
From Verif Require Import Terminal TerminalSpec.
Import ListNotations.
Local Open Scope list_scope.

Lemma beqb_iff x y : beqb x y = true <-> x = y.
Proof.
  revert y. induction x as [|c x IH]; intros [|d y]; cbn [beqb]; split; intros H; try discriminate; try reflexivity.
  - apply andb_true_iff in H as [H K]. apply Ascii.eqb_eq in H. apply IH in K. congruence.
  - injection H as -> ->. rewrite Ascii.eqb_refl. apply IH. reflexivity.
Qed.

Lemma decimal_written n : written n (decimal n).
Proof. exists (Nat.to_uint n), (NilEmpty.string_of_uint (Nat.to_uint n)). split; [reflexivity|]. split; [apply NilEmpty.usu|apply DecimalNat.Unsigned.of_to]. Qed.

Lemma split_commas s : commas (split_comma s) s.
Proof.
  induction s as [|c s IH]; cbn [split_comma].
  - constructor. intros [].
  - destruct (Ascii.eqb_spec c ",").
    + subst c. apply (commas_more [] (split_comma s) s); [intros []|exact IH].
    + inversion IH as [p P E F|p ps t P Q E F]; subst.
      * constructor. intros [X|X]; [congruence|exact (P X)].
      * apply (commas_more (c :: p) ps t); [intros [X|X]; [congruence|exact (P X)]|exact Q].
Qed.

Lemma app_comma p q s t : ~ In ","%char p -> ~ In ","%char q -> p ++ ","%char :: s = q ++ ","%char :: t -> p = q /\ s = t.
Proof.
  revert q. induction p as [|c p IH]; intros [|d q] P Q E; cbn [app] in E.
  - injection E as E. auto.
  - injection E as E1 E2. subst d. destruct Q. left. reflexivity.
  - injection E as E1 E2. subst c. destruct P. left. reflexivity.
  - injection E as E1 E2. subst d. destruct (IH q) as [-> ->]; auto.
    + intros X. apply P. right. exact X.
    + intros X. apply Q. right. exact X.
Qed.
Lemma commas_unique ps s : commas ps s -> forall qs, commas qs s -> ps = qs.
Proof.
  induction 1 as [p P|p ps s P C IH]; intros qs D; inversion D as [q Q E F|q qs' t Q D' E F]; subst.
  - reflexivity.
  - destruct P. apply in_app_iff. right. left. reflexivity.
  - destruct Q. apply in_app_iff. right. left. reflexivity.
  - apply app_comma in F as [-> ->]; auto. f_equal. apply IH. exact D'.
Qed.

Definition ok_piece (p : bstr) : Prop := p = [] \/ p = b "timings".
Lemma debug_loop_inl ps : forall t u, debug_loop t ps = inl u <-> (forall p, In p ps -> ok_piece p) /\ (u = true <-> t = true \/ In (b "timings") ps).
Proof.
  induction ps as [|p ps IH]; intros t u; cbn [debug_loop].
  - split.
    + intros H. injection H as <-. split; [intros p []|]. cbn [In]. tauto.
    + intros [_ H]. f_equal. cbn [In] in H. destruct t, u; auto; destruct H as [H K]; [symmetry; apply K; auto|destruct (H eq_refl) as [X|[]]; discriminate].
  - destruct p as [|c p].
    + rewrite IH. split; intros [A B]; (split; [|]).
      * intros q [<-|Q]; [left; reflexivity|exact (A q Q)].
      * rewrite B. cbn [In]. split; intros [X|X]; auto. destruct X as [X|X]; [discriminate|auto].
      * intros q Q. apply A. right. exact Q.
      * rewrite B. cbn [In]. split; intros [X|X]; auto. destruct X as [X|X]; [discriminate|auto].
    + destruct (beqb (c :: p) (b "timings")) eqn:E.
      * apply beqb_iff in E. rewrite E. rewrite IH. split; intros [A B]; (split; [|]).
        -- intros q [<-|Q]; [right; reflexivity|exact (A q Q)].
        -- rewrite B. split; intros _; [right; left; reflexivity|left; reflexivity].
        -- intros q Q. apply A. right. exact Q.
        -- rewrite B. split; intros _; [left; reflexivity|right; left; reflexivity].
      * split; [discriminate|]. intros [A _]. destruct (A (c :: p) (or_introl eq_refl)) as [X|X]; [discriminate|]. apply beqb_iff in X. congruence.
Qed.
Lemma debug_loop_inr ps : forall t o, debug_loop t ps = inr o <-> exists x y, ps = x ++ o :: y /\ (forall p, In p x -> ok_piece p) /\ ~ ok_piece o.
Proof.
  induction ps as [|p ps IH]; intros t o; cbn [debug_loop].
  - split; [discriminate|]. intros [[|q x] [y [E _]]]; discriminate.
  - assert (G : forall t', ok_piece p -> (debug_loop t' ps = inr o <-> exists x y, p :: ps = x ++ o :: y /\ (forall q, In q x -> ok_piece q) /\ ~ ok_piece o)).
    { intros t' K. rewrite IH. split.
      - intros [x [y [-> [A B]]]]. exists (p :: x), y. split; [reflexivity|]. split; [|exact B]. intros q [<-|Q]; [exact K|exact (A q Q)].
      - intros [[|q x] [y [E [A B]]]]; injection E as E1 E2; [subst o; contradiction|]. exists x, y. split; [exact E2|]. split; [|exact B]. intros r R. apply A. right. exact R. }
    destruct p as [|c p]; [apply G; left; reflexivity|]. destruct (beqb (c :: p) (b "timings")) eqn:E; [apply G; right; apply beqb_iff; exact E|].
    assert (N : ~ ok_piece (c :: p)) by (intros [X|X]; [discriminate|apply beqb_iff in X; congruence]). split.
    + intros H. injection H as <-. exists [], ps. split; [reflexivity|]. split; [intros q []|exact N].
    + intros [[|q x] [y [F [A B]]]]; injection F as F1 F2; [subst; reflexivity|]. subst q. destruct N. apply A. left. reflexivity.
Qed.
Lemma parse_debug_inl s t : parse_debug s = inl t <-> asks s t.
Proof.
  assert (L : parse_debug s = inl t <-> debug_loop false (split_comma s) = inl t) by (destruct s; reflexivity).
  rewrite L, debug_loop_inl. unfold asks. split.
  - intros [A B]. exists (split_comma s). split; [apply split_commas|]. split; [exact A|]. rewrite B. split; [intros [X|X]; [discriminate|exact X]|auto].
  - intros [ps [C [A B]]]. rewrite (commas_unique _ _ (split_commas s) _ C). split; [exact A|]. rewrite B. split; [auto|intros [X|X]; [discriminate|exact X]].
Qed.
Lemma parse_debug_inr s o : parse_debug s = inr o <-> debug_loop false (split_comma s) = inr o.
Proof. destruct s; reflexivity. Qed.

(** ** Files *)
Lemma cut_prefix_iff pre : forall s r, cut_prefix s pre = Some r <-> s = pre ++ r.
Proof.
  induction pre as [|c pre IH]; intros s r.
  - destruct s; cbn [cut_prefix app]; split; intros H; [injection H as <-; reflexivity|subst; reflexivity|injection H as <-; reflexivity|subst; reflexivity].
  - destruct s as [|d s]; cbn [cut_prefix app]; [split; discriminate|]. destruct (Ascii.eqb_spec c d).
    + subst d. rewrite IH. split; [intros ->; reflexivity|intros H; injection H as H; exact H].
    + split; [discriminate|]. intros H. injection H as H _. congruence.
Qed.
Lemma contains_iff part : forall s, contains s part = true <-> exists x y, s = x ++ part ++ y.
Proof.
  assert (P : forall s r, cut_prefix s part = Some r -> exists x y, s = x ++ part ++ y) by (intros s r H; apply cut_prefix_iff in H as ->; exists [], r; reflexivity).
  induction s as [|c s IH]; cbn [contains]; destruct (cut_prefix _ part) as [r|] eqn:E.
  - split; [intros _; exact (P _ _ E)|reflexivity].
  - split; [discriminate|]. intros [[|d x] [y H]]; [|discriminate]. symmetry in H. cbn [app] in H. destruct part; [discriminate|discriminate].
  - split; [intros _; exact (P _ _ E)|reflexivity].
  - rewrite IH. split.
    + intros [x [y ->]]. exists (c :: x), y. reflexivity.
    + intros [[|d x] [y H]].
      * cbn [app] in H. assert (X : cut_prefix (c :: s) part = Some y) by (apply cut_prefix_iff; exact H). congruence.
      * injection H as -> ->. exists x, y. reflexivity.
Qed.
Lemma pick_kept dir l : kept (wanted dir) l (map fst (pick dir l)) /\ Forall2 (fun f n => path f = dir ++ n) (map fst (pick dir l)) (map snd (pick dir l)).
Proof.
  induction l as [|f l [K F]]; cbn [pick]; [split; constructor|].
  destruct (contains (path f) (b "/node_modules/")) eqn:C.
  - split; [|exact F]. constructor; [|exact K]. intros [_ W]. apply W. apply contains_iff in C. exact C.
  - assert (N : ~ exists x y, path f = x ++ b "/node_modules/" ++ y) by (intros H; apply contains_iff in H; congruence).
    destruct (cut_prefix (path f) dir) as [r|] eqn:E; cbn [map fst snd].
    + apply cut_prefix_iff in E. split; constructor; auto. split; [eauto|exact N].
    + split; [|exact F]. constructor; [|exact K]. intros [[r R] _]. apply cut_prefix_iff in R. congruence.
Qed.
Lemma kept_unique {A} (P : A -> Prop) l k : kept P l k -> forall k', kept P l k' -> k = k'.
Proof.
  induction 1 as [|x l k X K IH|x l k X K IH]; intros k' D; inversion D; subst; auto; try contradiction. f_equal. auto.
Qed.
Lemma insert_perm f l : Permutation (f :: l) (insert f l).
Proof.
  induction l as [|g l IH]; cbn [insert]; [reflexivity|]. destruct (size g <? size f); [reflexivity|]. rewrite perm_swap. constructor. exact IH.
Qed.
Lemma insert_sorted f l : longest_first l -> longest_first (insert f l).
Proof.
  unfold longest_first. induction l as [|g l IH]; intros H; cbn [insert].
  - constructor; [constructor|constructor].
  - apply StronglySorted_inv in H as [H1 H2]. destruct (Nat.ltb_spec (size g) (size f)).
    + constructor; [constructor; assumption|]. constructor; [lia|]. eapply Forall_impl; [|exact H2]. cbn. intros; lia.
    + constructor; [apply IH; exact H1|]. rewrite Forall_forall in H2 |- *. intros x X. apply (Permutation_in _ (Permutation_sym (insert_perm f l))) in X as [<-|X]; [assumption|]. apply H2. exact X.
Qed.
Lemma by_size_ok l : Permutation l (by_size l) /\ longest_first (by_size l).
Proof.
  unfold by_size. assert (G : forall l acc, longest_first acc -> Permutation (acc ++ l) (fold_left (fun acc f => insert f acc) l acc) /\ longest_first (fold_left (fun acc f => insert f acc) l acc)).
  { clear l. induction l as [|f l IH]; intros acc A; cbn [fold_left].
    - rewrite app_nil_r. split; [reflexivity|exact A].
    - destruct (IH (insert f acc) (insert_sorted f acc A)) as [P Q]. split; [|exact Q]. rewrite <- P, <- insert_perm. cbn [app]. symmetry. apply Permutation_middle. }
  apply (G l []). constructor.
Qed.
Lemma ensure_slashed p q : slashed p q <-> q = ensure_trailing p.
Proof.
  assert (R : slashed p (ensure_trailing p)).
  { unfold ensure_trailing, slashed. destruct (rev p) as [|c r] eqn:E.
    - assert (p = []) by (rewrite <- (rev_involutive p), E; reflexivity). subst p. right. split; [|reflexivity]. intros [|x r] H; discriminate.
    - assert (P : p = rev r ++ [c]) by (rewrite <- (rev_involutive p), E; reflexivity). destruct (Ascii.eqb_spec c "/").
      + left. exists (rev r). split; [rewrite P; subst c; reflexivity|reflexivity].
      + right. split; [|reflexivity]. intros x H. rewrite P in H. change (b "/") with ["/"%char] in H. apply app_inj_tail in H as [_ H]. congruence. }
  split; [|intros ->; exact R]. intros H. destruct H as [[r [A ->]]|[A ->]], R as [[r' [A' B']]|[A' B']]; congruence.
Qed.

(** ** The table *)
Lemma spaces_blank n : blank (spaces n).
Proof. intros c H. apply repeat_spec in H. exact H. Qed.
Lemma spaces_length n : List.length (spaces n) = n.
Proof. apply repeat_length. Qed.
Lemma pad_left_length n s : List.length s <= n -> List.length (pad_left n s) = n.
Proof. intros H. unfold pad_left. rewrite app_length, spaces_length. lia. Qed.
Lemma pad_right_length n s : List.length s <= n -> List.length (pad_right n s) = n.
Proof. intros H. unfold pad_right. rewrite app_length, spaces_length. lia. Qed.
Lemma fold_max {A} (g : A -> nat) l : forall m, m <= fold_left (fun w r => Nat.max w (g r)) l m /\ forall x, In x l -> g x <= fold_left (fun w r => Nat.max w (g r)) l m.
Proof.
  induction l as [|y l IH]; intros m; cbn [fold_left]; [split; [lia|intros x []]|].
  destruct (IH (Nat.max m (g y))) as [M0 M1]. split; [lia|]. intros x [<-|X]; [lia|exact (M1 x X)].
Qed.
Lemma fold_max_least {A} (g : A -> nat) l : forall m, fold_left (fun w r => Nat.max w (g r)) l m = m \/ exists x, In x l /\ g x = fold_left (fun w r => Nat.max w (g r)) l m.
Proof.
  induction l as [|y l IH]; intros m; cbn [fold_left]; [left; reflexivity|].
  destruct (IH (Nat.max m (g y))) as [M0|[x [X E]]].
  - rewrite M0. destruct (Nat.max_spec m (g y)) as [[_ M]|[_ M]]; rewrite M; [right; exists y; split; [left; reflexivity|reflexivity]|left; reflexivity].
  - right. exists x. split; [right; exact X|exact E].
Qed.
Lemma total_sum rs : total rs = list_sum (map spent rs).
Proof.
  unfold total. assert (G : forall t, fold_left (fun t r => t + spent r) rs t = t + list_sum (map spent rs)); [|rewrite G; reflexivity].
  induction rs as [|r rs IH]; intros t; cbn [fold_left map]; [cbn; lia|]. rewrite IH. change (list_sum (spent r :: map spent rs)) with (spent r + list_sum (map spent rs)). lia.
Qed.

(** ** Streams *)
Lemma stdout_app x y : stdout (x ++ y) = stdout x ++ stdout y.
Proof. apply flat_map_app. Qed.
Lemma stderr_app x y : stderr (x ++ y) = stderr x ++ stderr y.
Proof. apply flat_map_app. Qed.

Lemma nested_app x : nested x -> forall y, nested y -> nested (x ++ y).
Proof.
  induction 1 as [|s es H IH|s es H IH|es ks H IH K IK|es ks H IH K IK]; intros y Y; cbn [app]; auto; try (constructor; auto).
  - rewrite <- app_assoc. cbn [app]. constructor; auto.
  - rewrite <- app_assoc. cbn [app]. constructor; auto.
Qed.
Definition writes (es : list event) : Prop := forall e, In e es -> exists s, e = Out s \/ e = Err s.
Lemma writes_nested es : writes es -> nested es.
Proof.
  induction es as [|e es IH]; intros W; [constructor|]. assert (nested es) by (apply IH; intros x X; apply W; right; exact X).
  destruct (W e (or_introl eq_refl)) as [s [->| ->]]; constructor; assumption.
Qed.

(** ** The run *)
Section World.
Variable diag : Type.
Variable print : diag -> bstr.
Variable w : world diag.

Lemma config_iff cwd name config empty : choose_config diag w cwd name = Some (config, empty) <-> config_is diag w cwd name config empty.
Proof.
  unfold choose_config, config_is. destruct name as [|c name].
  - split.
    + intros H. injection H as <- <-. left. split; [reflexivity|]. split; [reflexivity|]. destruct (file_exists _ w _); cbn; split; congruence.
    + intros [[_ [-> E]]|[X _]]; [|congruence]. f_equal. f_equal. destruct (file_exists _ w _), empty; cbn; intuition congruence.
  - split.
    + destruct (file_exists _ w _) eqn:E; [|discriminate]. intros H. injection H as <- <-. right. split; [discriminate|]. auto.
    + intros [[X _]|[_ [-> [E ->]]]]; [discriminate|]. rewrite E. reflexivity.
Qed.
Lemma trace_cases out : (exists e, record_trace diag w out = inr e /\ ~ trace_ok diag w out) \/
  (trace_ok diag w out /\ ((out = [] /\ record_trace diag w out = inl ([], [])) \/ (out <> [] /\ record_trace diag w out = inl ([TraceStart], [TraceStop])))).
Proof.
  unfold record_trace, trace_ok. destruct out as [|c out]; [right; auto|]. destruct (trace_fails _ w) as [e|].
  - left. eexists. split; [reflexivity|]. intros [X|X]; discriminate.
  - right. split; [auto|]. right. split; [discriminate|reflexivity].
Qed.
Lemma cpu_cases out : (exists e, record_cpuprof diag w out = inr e /\ ~ cpu_ok diag w out) \/
  (cpu_ok diag w out /\ ((out = [] /\ record_cpuprof diag w out = inl ([], [])) \/ (out <> [] /\ record_cpuprof diag w out = inl ([CpuStart], [CpuStop])))).
Proof.
  unfold record_cpuprof, cpu_ok. destruct out as [|c out]; [right; auto|]. destruct (cpu_create_fails _ w) as [e|].
  - left. eexists. split; [reflexivity|]. intros [X|[X _]]; discriminate.
  - destruct (cpu_start_fails _ w) as [e|].
    + left. eexists. split; [reflexivity|]. intros [X|[_ X]]; discriminate.
    + right. split; [auto|]. right. split; [discriminate|reflexivity].
Qed.
Lemma run_lint_writes f t : writes (fst (run_lint diag print w f t)).
Proof.
  unfold run_lint. destruct (getwd _ w); [|intros e [<-|[]]; eauto]. destruct (choose_config _ _ _ _) as [[config laid]|]; [|intros e [<-|[]]; eauto].
  destruct (create _ _ _ _ _ _) as [[sources|]|]; [|intros e [<-|[]]; eauto|intros e [<-|[]]; eauto].
  cbv zeta. destruct (lint _ _ _ _) as [ds [e|]]; cbn [fst]; intros x X; apply in_app_iff in X as [X|X].
  - destruct (list_files f); [destruct X as [<-|[]]; eauto|destruct X].
  - destruct X as [<-|[<-|[]]]; eauto.
  - destruct (list_files f); [destruct X as [<-|[]]; eauto|destruct X].
  - apply in_app_iff in X as [X|X]; [destruct X as [<-|[<-|[]]]; eauto|]. destruct t; [destruct X as [<-|[]]; eauto|destruct X].
Qed.
(** The state in which the linter is called. *)
Definition stage (f : flags) (t : bool) (dir : bstr) (sources : list source) : Prop :=
  exists cwd config laid, getwd _ w = inl cwd /\ choose_config diag w (normalize _ w cwd) (tsconfig f) = Some (config, laid) /\
    create _ w (single_threaded f) (directory _ w config) config laid = inl (Some sources) /\ dir = ensure_trailing (to_path _ w (directory _ w config)).
Lemma run_lint_cases f t : (forall dir sources, ~ stage f t dir sources) /\ snd (run_lint diag print w f t) = 1 /\ stdout (fst (run_lint diag print w f t)) = [] \/
  exists dir sources, stage f t dir sources.
Proof.
  unfold run_lint, stage. destruct (getwd _ w) as [cwd|e] eqn:G; [|left; split; [intros dir sources [c [g [l [X _]]]]; congruence|split; reflexivity]].
  destruct (choose_config _ _ _ _) as [[config laid]|] eqn:C; [|left; split; [intros dir sources [c [g [l [X [Y _]]]]]; congruence|split; reflexivity]].
  destruct (create _ w (single_threaded f) (directory _ w config) config laid) as [[sources|]|e] eqn:K; [right|left|left].
  - exists (ensure_trailing (to_path _ w (directory _ w config))), sources, cwd, config, laid. auto.
  - split; [intros dir sources [c [g [l [X [Y [Z _]]]]]]; congruence|split; reflexivity].
  - split; [intros dir sources [c [g [l [X [Y [Z _]]]]]]; congruence|split; reflexivity].
Qed.
Lemma run_lint_stage f t dir sources : stage f t dir sources ->
  run_lint diag print w f t =
  let picked := pick dir sources in
  let listed := if list_files f then [Out (flat_map (fun p => b "Found file: " ++ snd p ++ newline) picked)] else [] in
  let files := by_size (map fst picked) in
  let '(ds, e) := lint _ w files all_rules in
  match e with
  | Some e => (listed ++ [Out (firstn (flushed _ w) (report _ print ds)); Err (b "error running linter: " ++ e ++ newline)], 1)
  | None => (listed ++ [Out (report _ print ds); Out (summary (List.length ds) (List.length files) (List.length all_rules) (elapsed _ w) (if single_threaded f then 1 else procs _ w))] ++
             (if t then [Out (table (millis_of _ w) (percent_of _ w) (timings _ w))] else []), 0)
  end.
Proof. intros [cwd [config [laid [G [C [K ->]]]]]]. unfold run_lint. rewrite G, C, K. reflexivity. Qed.
Lemma reaches_iff f t dir sources : reaches diag w f t dir sources <->
  help f = false /\ parse_debug (debug f) = inl t /\ trace_ok diag w (trace_out f) /\ cpu_ok diag w (cpuprof_out f) /\ stage f t dir sources.
Proof.
  unfold reaches, stage. rewrite parse_debug_inl. split.
  - intros [H [A [T [C [cwd [config [empty [G [K [R D]]]]]]]]]]. repeat (split; [assumption|]). exists cwd, config, empty. split; [exact G|]. split; [apply config_iff; exact K|]. split; [exact R|]. apply ensure_slashed. exact D.
  - intros [H [A [T [C [cwd [config [empty [G [K [R D]]]]]]]]]]. repeat (split; [assumption|]). exists cwd, config, empty. split; [exact G|]. split; [apply config_iff; exact K|]. split; [exact R|]. apply ensure_slashed. exact D.
Qed.
(** With the flags read, what comes before and after the linter writes the warning and nothing else. *)
Lemma run_flags_ready f t : help f = false -> parse_debug (debug f) = inl t -> trace_ok diag w (trace_out f) -> cpu_ok diag w (cpuprof_out f) ->
  stdout (fst (run_flags diag print w f)) = stdout (fst (run_lint diag print w f t)) /\
  stderr (fst (run_flags diag print w f)) = warning ++ stderr (fst (run_lint diag print w f t)) /\
  snd (run_flags diag print w f) = snd (run_lint diag print w f t).
Proof.
  intros H P T C. unfold run_flags. rewrite H, P.
  destruct (trace_cases (trace_out f)) as [[e [_ X]]|[_ TT]]; [contradiction|]. destruct (cpu_cases (cpuprof_out f)) as [[e [_ X]]|[_ CC]]; [contradiction|].
  destruct (run_lint diag print w f t) as [es st]. destruct TT as [[_ ->]|[_ ->]], CC as [[_ ->]|[_ ->]]; cbn [fst snd app stdout stderr flat_map];
    rewrite ?flat_map_app; cbn [flat_map app]; rewrite ?flat_map_app; cbn [flat_map app]; rewrite ?app_nil_r; repeat split; reflexivity.
Qed.
Lemma run_flags_not_ready f : help f = false -> (forall t, parse_debug (debug f) = inl t -> ~ (trace_ok diag w (trace_out f) /\ cpu_ok diag w (cpuprof_out f))) ->
  stdout (fst (run_flags diag print w f)) = [] /\ snd (run_flags diag print w f) = 1.
Proof.
  intros H P. unfold run_flags. rewrite H. destruct (parse_debug (debug f)) as [t|o]; [|split; reflexivity]. specialize (P t eq_refl).
  destruct (trace_cases (trace_out f)) as [[e [-> X]]|[T TT]]; [split; reflexivity|]. destruct (cpu_cases (cpuprof_out f)) as [[e [-> X]]|[C CC]]; [|tauto].
  destruct TT as [[_ ->]|[_ ->]]; split; reflexivity.
Qed.
End World.
