(** * C77: unbound-method reports references to methods where they lose their object *)
From Coq Require Import Bool Ascii String List Lia.
From Verif Require Import Base EngineProofs.
From Verif Require Import UnboundMethod UnboundMethodSpec UnboundMethodProofs.
Import ListNotations.

(** * Places *)
(** A use is taken as safe exactly if a harmless place follows after parentheses, assertions, || and the right sides of &&. *)
Theorem C77_positions : forall above, safe_use above = true <-> exists pre f rest, above = pre ++ f :: rest /\ Forall passes pre /\ harmless f.
Proof. apply safe_ok. Qed.
Print Assumptions C77_positions.

(** No safe use gets anywhere without its object, except calls of || and &&, and values of assignments from super to this. *)
Theorem C77_safe : forall above, safe_use above = true -> escapes true above ->
  (exists pre g mid f rest, above = pre ++ g :: mid ++ f :: rest /\ (g = Left Or \/ exists k, g = Right Or k \/ g = Right And k) /\ (f = Callee \/ f = Tag)) \/
  (exists pre rest, above = pre ++ Right Assign true :: rest).
Proof.
  intros above S E. apply safe_ok in S as (pre & f & rest & -> & P & N). destruct (safe_escapes _ _ _ _ P N E) as [[F [H|(g & I' & G)]]|H]; [discriminate| |subst; right; eauto].
  left. apply in_split in I' as (l1 & l2 & ->). exists l1, g, l2, f, rest. split; [|auto]. now rewrite <- app_assoc.
Qed.
Print Assumptions C77_safe.

(** Not so: all safe uses are safe.  [(foo.method || other)()] calls the method without foo. *)
Theorem C77_call_refuted : exists above, safe_use above = true /\ escapes true above.
Proof.
  exists [Left Or; Parenthesized; Callee; Statement]. split; [reflexivity|]. apply EValue; [cbn [In]; auto 8|]. apply EKeeps; [now left|]. apply ECalled. now left.
Qed.
Print Assumptions C77_call_refuted.
(** [const f = (this.x = super.x)]. *)
Theorem C77_super_refuted : exists above, safe_use above = true /\ escapes true above /\ ~ In Callee above /\ ~ In Tag above.
Proof.
  exists [Right Assign true; Parenthesized; Elsewhere]. split; [reflexivity|]. split; [|cbn [In]; intuition discriminate]. apply EValue; [cbn [In]; auto 10|]. apply EKeeps; [now left|]. apply EPassed. cbn [In]. auto.
Qed.
Print Assumptions C77_super_refuted.
(** Not so: what is not safe loses its object.  [do {} while (foo.method)], [if (foo.method ?? x)], [(foo.method satisfies T)()]. *)
Theorem C77_kept : forall above, In above [[DoCondition]; [Left Coalesce; IfCondition]; [Satisfies; Parenthesized; Callee; Statement]; [Statement]] -> safe_use above = false /\ ~ escapes true above.
Proof.
  intros above H. cbn [In] in H. destruct H as [<-|[<-|[<-|[<-|[]]]]]; (split; [reflexivity|]); intros E;
    repeat match goal with H : escapes _ (_ :: _) |- _ => inversion H; clear H; subst; cbn [In] in *; try (intuition congruence) end.
Qed.
Print Assumptions C77_kept.
Theorem C77_kept_refuted : exists above, safe_use above = false /\ ~ escapes true above.
Proof. exists [DoCondition]. apply C77_kept. now left. Qed.
Print Assumptions C77_kept_refuted.
Example C77_positions_example : (* (a || foo.method!) && x, if (!(foo.method)), f(foo.method), foo.method(), x = foo.method, foo.method = x *)
  map safe_use [[NonNull; Right Or false; Parenthesized; Left And; Statement]; [Parenthesized; Prefix Exclamation; IfCondition]; [CallArgument; Statement]; [Callee; Statement]; [Right Assign false; Statement]; [Left Assign; Statement]]
  = [true; true; false; true; false; true] /\ escapes true [CallArgument; Statement] /\ escapes true [NonNull; Right Or false; Parenthesized; CallArgument; Statement].
Proof.
  split; [reflexivity|]. split; [apply EPassed; now left|]. apply EKeeps; [cbn [In]; auto|]. apply EValueRight; [cbn [In]; auto|]. apply EKeeps; [now left|]. apply EPassed. now left.
Qed.

(** * Methods *)
(** Functions are dangerous unless they say [this: void], or are static and those are ignored; the hint is for those that do not name [this]. *)
Theorem C77_methods : forall d s ps ignore hint, function_of d s ps ->
  (check_and_report ignore (Some d) = Reported hint <-> ~ this_typed ps None /\ ~ this_typed ps (Some true) /\ (ignore = true -> s = false) /\ (hint = true <-> ~ names_this ps)) /\
  (check_and_report ignore (Some d) = Failure <-> this_typed ps None).
Proof.
  intros d s ps ignore hint F. unfold check_and_report. rewrite (check_function d s ps ignore F).
  destruct (check_method_cases s ps ignore) as [[T ->]|[(v & T & ->)|[N ->]]].
  - split; split; try discriminate; auto. intros [H _]. contradiction.
  - assert (names_this ps) as NT by (exists (Some v); auto). assert (~ this_typed ps None) as NN by (intros T'; pose proof (typed_fun _ _ _ T T'); discriminate).
    split.
    + destruct v; cbn [negb andb].
      * split; [discriminate|]. intros (_ & H & _). contradiction.
      * assert (~ this_typed ps (Some true)) as NV by (intros T'; pose proof (typed_fun _ _ _ T T'); discriminate).
        destruct ignore, s; cbn [negb orb]; split; try discriminate.
        -- intros (_ & _ & H & _). discriminate (H eq_refl).
        -- intros [= <-]. split; [auto|split; [auto|split; [congruence|split; [discriminate|tauto]]]].
        -- intros (_ & _ & _ & H). f_equal. destruct hint; auto. exfalso. tauto.
        -- intros [= <-]. split; [auto|split; [auto|split; [congruence|split; [discriminate|tauto]]]].
        -- intros (_ & _ & _ & H). f_equal. destruct hint; auto. exfalso. tauto.
        -- intros [= <-]. split; [auto|split; [auto|split; [congruence|split; [discriminate|tauto]]]].
        -- intros (_ & _ & _ & H). f_equal. destruct hint; auto. exfalso. tauto.
    + destruct (negb v && _); split; try discriminate; contradiction.
  - assert (forall t, ~ this_typed ps t) as NT by (intros t T; apply N; now exists t).
    split; [|destruct (negb ignore || negb s); split; try discriminate; intros H; exfalso; eapply NT; eauto].
    destruct ignore, s; cbn [negb orb]; split; try discriminate; try (intros [= <-]; split; [apply NT|split; [apply NT|split; [congruence|split; auto]]]).
    + intros (_ & _ & H & _). discriminate (H eq_refl).
    + intros (_ & _ & _ & H). f_equal. cbn [negb]. symmetry. tauto.
    + intros (_ & _ & _ & H). f_equal. cbn [negb]. symmetry. tauto.
    + intros (_ & _ & _ & H). f_equal. cbn [negb]. symmetry. tauto.
Qed.
Print Assumptions C77_methods.
(** Properties of classes are reported if they are initialised with a function expression, never with the hint; other declarations never. *)
Theorem C77_others : forall ignore o d, (forall s ps, ~ function_of d s ps) ->
  (check_and_report ignore (Some d) = o <-> (o = Reported false /\ exists s ps, d = PropertyDeclaration s (Some (FunctionExpression ps))) \/ (o = Nothing /\ forall s ps, d <> PropertyDeclaration s (Some (FunctionExpression ps)))).
Proof.
  intros ignore o d N. destruct d as [s [[ps|]|]|[ps|]|s ps|ps|]; try (exfalso; eapply N; constructor); cbn; split; try (intros <-); try (right; split; [reflexivity|discriminate]); try (intros [[-> (s' & ps' & H)]|[-> H]]; [discriminate|reflexivity]).
  - left. eauto.
  - intros [[-> _]|[-> H]]; auto. exfalso. eapply H; eauto.
Qed.
Print Assumptions C77_others.
(** Not so: the rule never fails.  [class A { m(this) {} }] with [const f = a.m]. *)
Theorem C77_fails_refuted : exists ignore members above a d s ps, function_of d s ps /\ check_access ignore members above a (Some d) = Failure.
Proof.
  exists false, [], [Elsewhere], {| object_name := None; property_name := None; declared_elsewhere := false; global_object := false; library_property := false |},
    (MethodDeclaration false [{| parameter_name := Some (b "this"); parameter_type := None |}]), false, [{| parameter_name := Some (b "this"); parameter_type := None |}]. split; [constructor|reflexivity].
Qed.
Print Assumptions C77_fails_refuted.
(** Not so: what needs no object is not reported.  [class A { static m = function (this: void) {} }], also if static methods are ignored. *)
Theorem C77_void_refuted : exists d ps, d = PropertyDeclaration true (Some (FunctionExpression ps)) /\ this_typed ps (Some true) /\ check_and_report true (Some d) = Reported false.
Proof.
  exists (PropertyDeclaration true (Some (FunctionExpression [{| parameter_name := Some (b "this"); parameter_type := Some true |}]))), [{| parameter_name := Some (b "this"); parameter_type := Some true |}].
  split; [reflexivity|]. split; [|reflexivity]. do 2 eexists. split; [reflexivity|]. split; reflexivity.
Qed.
Print Assumptions C77_void_refuted.
Example C77_methods_example :
  let this t := {| parameter_name := Some (b "this"); parameter_type := t |} in let x := {| parameter_name := Some (b "x"); parameter_type := None |} in
  map (fun d => check_and_report true (Some d)) [MethodDeclaration false [x]; MethodDeclaration true [x]; MethodDeclaration false [this (Some false); x]; MethodSignature [this (Some true)]; MethodSignature [x; this None]; PropertyAssignment (FunctionExpression [])]
  = [Reported true; Nothing; Reported false; Nothing; Reported true; Reported true] /\ this_typed [this (Some true)] (Some true) /\ ~ names_this [x].
Proof. cbv zeta. split; [vm_compute; reflexivity|]. split; [do 2 eexists; repeat split; reflexivity|]. intros (t & p & l & E & N & _). injection E as <- _. discriminate. Qed.

(** * Accesses *)
Theorem C77_access : forall ignore members above a d o,
  check_access ignore members above a d = o <->
  ((safe_use above = true \/ (exists n p ps, object_name a = Some n /\ property_name a = Some p /\ declared_elsewhere a = true /\ In (n, ps) members /\ In p ps) \/ (global_object a = true /\ library_property a = true)) /\ o = Nothing)
  \/ (safe_use above = false /\ (forall n p ps, object_name a = Some n -> property_name a = Some p -> declared_elsewhere a = true -> In (n, ps) members -> ~ In p ps) /\ (global_object a = true -> library_property a = false) /\ o = check_and_report ignore d).
Proof.
  intros ignore members above a d o. unfold check_access.
  assert (natively_bound members a = true <-> (exists n p ps, object_name a = Some n /\ property_name a = Some p /\ declared_elsewhere a = true /\ In (n, ps) members /\ In p ps) \/ (global_object a = true /\ library_property a = true)) as NB.
  { unfold natively_bound. rewrite orb_true_iff, andb_true_iff. apply or_iff_compat_r. destruct (object_name a) as [n|]; [|split; [discriminate|intros (n & p & ps & H & _); discriminate]].
    destruct (property_name a) as [p|]; [|split; [discriminate|intros (n' & p & ps & _ & H & _); discriminate]]. rewrite andb_true_iff, existsb_exists. split.
    - intros [D [[n' ps] [I1 H]]]. cbn [fst snd] in H. apply andb_true_iff in H as [H1 H2]. apply beqb_eq in H1 as ->. apply existsb_exists in H2 as [p' [I2 H2]]. apply beqb_eq in H2 as ->. eauto 10.
    - intros (n' & p' & ps & [= <-] & [= <-] & D & I1 & I2). split; auto. exists (n, ps). split; auto. cbn [fst snd]. rewrite beqb_refl. cbn [andb]. apply existsb_exists. exists p. split; auto. apply beqb_refl. }
  destruct (safe_use above); cbn [orb].
  - split; [intros <-; left; auto|]. intros [[_ ->]|[H _]]; [reflexivity|discriminate].
  - destruct (natively_bound members a).
    + split; [intros <-; left; split; [right; now apply NB|reflexivity]|]. intros [[_ ->]|(_ & H1 & H2 & ->)]; [reflexivity|]. exfalso. destruct (proj1 NB eq_refl) as [(n & p & ps & A & B & C & D & E)|[A B]]; [eapply H1; eauto|]. rewrite (H2 A) in B. discriminate.
    + split.
      * intros <-. right. repeat split.
        -- intros n p ps A B C D E. assert (false = true) as H by (apply NB; left; eauto 10). discriminate.
        -- intros A. apply not_true_is_false. intros B. assert (false = true) as H by (apply NB; right; auto). discriminate.
      * intros [[[H|H] _]|(_ & _ & _ & ->)]; [discriminate|apply NB in H; discriminate|reflexivity].
Qed.
Print Assumptions C77_access.
Example C77_access_example :
  let members := [(b "Number", [b "isNaN"; b "parseInt"])] in let m := Some (MethodDeclaration false []) in
  let a n p e := {| object_name := Some (b n); property_name := Some (b p); declared_elsewhere := e; global_object := false; library_property := false |} in
  check_access false members [CallArgument] (a "Number" "isNaN" true)%string m = Nothing /\ check_access false members [CallArgument] (a "Number" "isNaN" false)%string m = Reported true /\ check_access false members [Callee] (a "foo" "m" false)%string m = Nothing /\
  check_access false members [CallArgument] (a "Number" "foo" true)%string m = Reported true.
Proof. vm_compute. auto. Qed.

(** * Patterns *)
(** A property of a pattern is reported at most once, for the first of what it may come from that is dangerous: what the pattern is initialised with, and the parts of its type. *)
Theorem C77_property : forall ignore initial pattern like o,
  check_property ignore initial pattern like = o <-> first_of (map (check_and_report ignore) (sources initial pattern like)) o.
Proof. intros ignore initial pattern like o. rewrite (first_fun _ _ o (property_first ignore initial pattern like)). split; auto. Qed.
Print Assumptions C77_property.
Example C77_property_example : (* function ({ nativelyBound }: Foo = NativeObject), const { nativelyBound } = NativeObject, const { m } = foo with foo: A | B *)
  let m s := MethodDeclaration s [] in let t := Parts [Basic None; Parts [Basic (Some (MethodSignature []))]] in
  check_property true (Some (true, Some (m false))) t true = Reported true /\ check_property true (Some (true, Some (m false))) t false = Nothing /\ check_property true None t false = Reported true /\
  check_property true (Some (false, Some (m true))) (Basic None) false = Nothing /\ check_property false (Some (false, Some (m true))) (Basic None) false = Reported true /\
  sources (Some (false, Some (m true))) t false = [Some (m true); None; Some (MethodSignature [])].
Proof. vm_compute. auto 10. Qed.

(** Which properties are looked at. *)
Theorem C77_assignment : forall ignore view l o, In o (check_assignment ignore view l) <->
  exists e, In e l /\ spread e = false /\ name e <> Computed /\ first_of (map (check_and_report ignore) (sources (Some (fst (view e))) (snd (view e)) true)) o.
Proof.
  intros ignore view l o. unfold check_assignment. rewrite in_map_iff. split.
  - intros (e & E & I'). apply filter_In in I' as [I' L]. apply C77_property in E. exists e. unfold looked_at_in_assignment in L. destruct (spread e), (name e) eqn:N; try discriminate; repeat split; auto; discriminate.
  - intros (e & I' & S & N & F). exists e. split; [now apply C77_property|]. apply filter_In. split; auto. unfold looked_at_in_assignment. rewrite S. destruct (name e); auto.
Qed.
Print Assumptions C77_assignment.
Theorem C77_binding : forall ignore above ow view l o, In o (check_binding ignore above ow view l) <->
  inside_type_declaration above = false /\ exists e n, In e l /\ spread e = false /\ name e = Identifier n /\
    first_of (map (check_and_report ignore) (sources (if match ow with OfOther => true | _ => false end then None else fst (view e)) (snd (view e)) (match ow with OfElement | OfParameter => true | _ => false end))) o.
Proof.
  intros ignore above ow view l o. unfold check_binding. destruct (inside_type_declaration above); [split; [intros []|intros [H _]; discriminate]|]. rewrite in_map_iff. split.
  - intros (e & E & I'). split; auto. apply filter_In in I' as [I' L]. unfold looked_at_in_binding in L. destruct (spread e) eqn:S, (name e) eqn:N; try discriminate. exists e, n. repeat split; auto.
    destruct ow; cbn [owner_initial] in E; now apply C77_property in E.
  - intros (_ & e & n & I' & S & N & F). exists e. split; [destruct ow; cbn [owner_initial]; now apply C77_property|]. apply filter_In. split; auto. unfold looked_at_in_binding. now rewrite S, N.
Qed.
Print Assumptions C77_binding.
(** Not so: both kinds of patterns look at the same names.  [({ 'm': x } = foo)] and [const { 'm': x } = foo]. *)
Theorem C77_names_refuted : exists e d, In (Reported true) (check_assignment false (fun _ => ((false, Some d), Basic None)) [e]) /\ check_binding false [] OfVariable (fun _ => (Some (false, Some d), Basic None)) [e] = [].
Proof. exists {| spread := false; name := Literal (b "m") |}, (MethodDeclaration false []). split; [left|]; reflexivity. Qed.
Print Assumptions C77_names_refuted.
(** Patterns are left out only where there is no code. *)
Theorem C77_no_code : forall above, inside_type_declaration above = true -> exists a, In a above /\ no_code a.
Proof. apply inside_no_code. Qed.
Print Assumptions C77_no_code.
(** Not so: wherever there is no code.  Type literals, overloads of methods and ambient namespaces. *)
Theorem C77_no_code_refuted : exists a, no_code a /\ inside_type_declaration [a] = false.
Proof. exists TypeLiteral. split; [unfold no_code; cbn [In]; tauto|reflexivity]. Qed.
Print Assumptions C77_no_code_refuted.
(** Patterns are left out exactly inside declared classes and variables, abstract methods, functions without a body, function types, interfaces and type aliases. *)
Theorem C77_type_places : forall above, inside_type_declaration above = true <->
  exists a, In a above /\ ((exists x, a = Method true x) \/ In a [ClassDeclaration true; FunctionDeclaration false; FunctionType; InterfaceDeclaration; TypeAliasDeclaration; VariableStatement true]).
Proof.
  induction above as [|a above IH]; [split; [discriminate | intros (a & [] & _)]|]. cbn [inside_type_declaration].
  assert (On : inside_type_declaration above = true -> exists c, In c (a :: above) /\ ((exists x, c = Method true x) \/ In c [ClassDeclaration true; FunctionDeclaration false; FunctionType; InterfaceDeclaration; TypeAliasDeclaration; VariableStatement true])).
  { intros H. apply IH in H as (c & I' & N). exists c. split; [now right | exact N]. }
  split.
  - intros H. destruct a as [[]|[] y|[]| | | |[]| |y|y|]; cbn [negb] in H; try (apply On; exact H);
      eexists; (split; [left; reflexivity|]); solve [left; eauto | right; cbn [In]; tauto].
  - intros (c & [<- | I'] & N).
    + destruct N as [[x ->] | N]; [reflexivity|]. cbn [In] in N. decompose [or] N; subst; try reflexivity; contradiction.
    + assert (H : inside_type_declaration above = true) by (apply IH; eauto). rewrite H. destruct a as [[]|[] y|[]| | | |[]| |y|y|]; reflexivity.
Qed.
Print Assumptions C77_type_places.
Example C77_binding_example :
  let x n := {| spread := false; name := n |} in let view (e : element) := (Some (false, Some (MethodDeclaration false [])), Basic None) in
  check_binding false [OtherNode; FunctionDeclaration true] OfParameter view [x (Identifier (b "m")); x (Literal (b "m")); {| spread := true; name := Identifier (b "m") |}; x Pattern] = [Reported true] /\
  check_binding false [Method true false] OfParameter view [x (Identifier (b "m"))] = [] /\ check_binding false [Method false true] OfOther view [x (Identifier (b "m"))] = [Nothing] /\
  check_assignment false (fun _ => ((false, Some (MethodDeclaration false [])), Basic None)) [x Computed; x (Literal (b "m")); {| spread := true; name := Identifier (b "m") |}] = [Reported true] /\
  map inside_type_declaration [[OtherNode; InterfaceDeclaration]; [FunctionDeclaration false]; [VariableStatement false; ClassDeclaration true]; [Method false true; ClassDeclaration false]] = [true; true; true; false].
Proof. vm_compute. auto 10. Qed.
