(** Properties of strict-void-return (C83). *)
From Coq Require Import Bool Arith List Lia.
Import ListNotations.
From Verif Require Import VoidReturn VoidReturnSpec VoidReturnProofs.

(** C83: of a function that is written out the return statements that are its own (not those of functions within it) and give something are reported. *)
Theorem C83_returns : forall a g id,
  In (TheReturn id) (judge a g) <->
  (exists t, In t (results g) /\ unwanted a t) /\ literal g = true /\ generator g = false /\ async g = false /\ fbody g <> ExpressionBody /\ written g <> Some false /\
  exists r, returns g id r /\ unwanted a r.
Proof.
  intros a g id. unfold judge, returns.
  destruct (forallb (allowed a) (results g)) eqn:E.
  { split; [intros []|]. intros (U & _). apply results_false in U. congruence. }
  apply results_false in E.
  assert (forall l, In (TheReturn id) (map TheReturn (flat_map (visit a) l)) <-> exists r, (exists t, In t l /\ belongs t id r) /\ unwanted a r) as V.
  { intros l. rewrite in_map_iff. split.
    - intros (j & Ej & I). inversion Ej; subst. apply in_flat_map in I as (t & It & I). apply visit_in in I as (r & B & U). eauto.
    - intros (r & (t & It & B) & U). exists id. split; [reflexivity|]. apply in_flat_map. exists t. split; [exact It|]. apply visit_in. eauto. }
  destruct (literal g); cbn [negb]; [|split; [intros [H|[]]; discriminate|intros (_ & H & _); discriminate]].
  destruct (generator g); [split; [intros [H|[]]; discriminate|intros (_ & _ & H & _); discriminate]|].
  destruct (async g); [split; [intros [H|[]]; discriminate|intros (_ & _ & _ & H & _); discriminate]|].
  destruct (fbody g); try (split; [intros [H|[]]; discriminate|intros (_ & _ & _ & _ & H & _); congruence]).
  all: destruct (written g) as [[]|]; try (split; [intros [H|[]]; discriminate|intros (_ & _ & _ & _ & _ & H & _); congruence]).
  all: rewrite V; split; [intros H; split; [exact E|]; split; [reflexivity|]; split; [reflexivity|]; split; [reflexivity|]; split; [discriminate|]; split; [discriminate|exact H]|intros (_ & _ & _ & _ & _ & _ & H); exact H].
Qed.
Print Assumptions C83_returns.

(** C83: a function that is not reported returns nothing but undefined (where any is allowed: or any). *)
Theorem C83_quiet : forall a g, inferred g -> judge a g = [] -> fbody g <> NoBody ->
  forall t v, In t (results g) -> holds t v -> v = Undefined \/ (a = true /\ exists r, (In r (results g) \/ exists id, returns g id r) /\ has_any r).
Proof.
  intros a g [INF WR] J NB t v It Hv. unfold judge in J.
  destruct (forallb (allowed a) (results g)) eqn:E.
  { rewrite forallb_forall in E. destruct (allowed_holds a t v) as [H|[Ha H]]; auto.
    - intros U. apply allowed_false in U. rewrite (E t It) in U. discriminate.
    - right. split; [exact Ha|]. exists t. auto. }
  destruct (literal g) eqn:L; [|discriminate]. cbn [negb] in J.
  destruct (generator g) eqn:G; [discriminate|]. destruct (async g) eqn:A; [discriminate|].
  destruct (fbody g) eqn:B; [congruence|discriminate|].
  destruct (written g) as [[]|] eqn:W; [|discriminate|].
  - rewrite (WR eq_refl ltac:(discriminate) eq_refl eq_refl eq_refl t It) in Hv. inversion Hv. auto.
  - destruct (INF eq_refl eq_refl eq_refl eq_refl eq_refl t v It Hv) as [H|(id & r & R & H)]; [auto|].
    destruct (allowed_holds a r v) as [H'|[Ha H']]; [|exact H|auto|right; split; [exact Ha|exists r; eauto]].
    intros U. destruct R as (x & Ix & R).
    assert (In (TheReturn id) (map TheReturn (flat_map (visit a) (below g)))) as I.
    { apply in_map. apply in_flat_map. exists x. split; [exact Ix|]. apply visit_in. eauto. }
    rewrite J in I. destruct I.
Qed.
Print Assumptions C83_quiet.

(** C83: what is reported may return something other than undefined. *)
Theorem C83_reported : forall a g, judge a g <> [] -> exists t v, In t (results g) /\ holds t v /\ v <> Undefined.
Proof.
  intros a g J. unfold judge in J. destruct (forallb (allowed a) (results g)) eqn:E; [congruence|].
  apply results_false in E as (t & I & U). destruct (unwanted_holds a t U) as (v & H & N). eauto.
Qed.
Print Assumptions C83_reported.

(** C83: what is reported where the function cannot be judged by its return statements: one thing, and which. *)
Theorem C83_whole : forall a g, (exists t, In t (results g) /\ unwanted a t) ->
  (literal g = false \/ generator g = true -> judge a g = [WholeFunction]) /\
  (literal g = true -> generator g = false -> async g = true -> judge a g = [AsyncFunction]) /\
  (literal g = true -> generator g = false -> async g = false ->
     (fbody g = ExpressionBody -> judge a g = [TheBody]) /\
     (fbody g <> ExpressionBody -> written g = Some false -> judge a g = [TheType])).
Proof.
  intros a g U. apply results_false in U. unfold judge. rewrite U.
  split; [intros [->| ->]; [|destruct (literal g)]; reflexivity|].
  split; [intros -> -> ->; reflexivity|].
  intros -> -> ->. cbn [negb]. split; [intros ->; reflexivity|]. intros N ->. destruct (fbody g); congruence.
Qed.
Print Assumptions C83_whole.

(** C83: which arguments are looked at: those that no spread is, where the expected type asks for nothing and, with overloads, all callbacks may as well; or some callback results in void and all in nothing, null or any. *)
Theorem C83_arguments : forall sigs l i,
  nth_error (call_judged sigs l) i = Some true <->
  exists e, nth_error l i = Some (Plain e) /\
   (((length sigs = 1 \/ forall r, wanted sigs i r -> exists p, r = One p /\ In p [VoidPart; UndefinedPart; NullPart; AnyPart; NeverPart; ParameterPart]) /\
     exists t, e = Some t /\ expects_nothing t)
    \/ (wanted sigs i (One VoidPart) /\ forall r, wanted sigs i r -> exists p, r = One p /\ In p [VoidPart; UndefinedPart; NullPart; AnyPart; NeverPart])).
Proof.
  intros sigs l i.
  assert (forall l k i, nth_error (judged_from sigs k l) i = option_map (argument_judged sigs (k + i)) (nth_error l i)) as N.
  { clear. induction l as [|x l IH]; intros k [|i]; cbn; try reflexivity.
    - rewrite Nat.add_0_r. reflexivity.
    - rewrite IH. do 2 f_equal. lia. }
  unfold call_judged. rewrite N. cbn [Nat.add].
  assert (forall q, nullish_or_any q = true <-> exists p, q = One p /\ In p [VoidPart; UndefinedPart; NullPart; AnyPart; NeverPart]) as NA.
  { intros [[]|ps]; cbn; split; try discriminate; try (intros _; eexists; split; [reflexivity|cbn; tauto]); intros (p & E & I); try discriminate; try reflexivity; inversion E; subst; repeat destruct I as [I|I]; try discriminate; destruct I. }
  assert (forall q, is_void q || nullish_or_any q || is_parameter q = true <-> exists p, q = One p /\ In p [VoidPart; UndefinedPart; NullPart; AnyPart; NeverPart; ParameterPart]) as NP.
  { intros [[]|ps]; cbn; split; try discriminate; try (intros _; eexists; split; [reflexivity|cbn; tauto]); intros (p & E & I); try discriminate; try reflexivity; inversion E; subst; repeat destruct I as [I|I]; try discriminate; destruct I. }
  assert (forall q, is_void q = true <-> q = One VoidPart) as V.
  { intros [[]|ps]; cbn; split; congruence. }
  destruct (nth_error l i) as [[|e]|]; cbn [option_map argument_judged].
  - split; [discriminate|intros (e & E & _); discriminate].
  - assert (forall x y : bool, (if x then true else y) = true <-> x = true \/ y = true) as IFB by (intros [] []; intuition).
    transitivity ((Nat.eqb (length sigs) 1 = true \/ forallb (fun r => is_void r || nullish_or_any r || is_parameter r) (expected_results sigs i) = true) /\ check_expression e = true
       \/ existsb is_void (expected_results sigs i) = true /\ forallb nullish_or_any (expected_results sigs i) = true).
    + rewrite <- orb_true_iff, <- !andb_true_iff, <- IFB. split; [intros E; injection E; auto|intros E; f_equal; exact E].
    + rewrite Nat.eqb_eq, !forallb_forall, check_expression_iff, existsb_exists.
      assert (forall P Q : rtype -> Prop, (forall r, P r <-> Q r) -> (forall r, In r (expected_results sigs i) -> P r) <-> (forall r, wanted sigs i r -> Q r)) as FA.
      { intros P Q PQ. split; intros H r I; apply PQ, H, wanted_iff, I. }
      rewrite (FA _ _ NP), (FA _ _ NA).
      split.
      * intros H. exists e. split; [reflexivity|]. destruct H as [H|[(r & I & Vr) H]]; [left; exact H|]. right. split; [|exact H]. apply V in Vr. subst. apply wanted_iff, I.
      * intros (e' & E & H). inversion E; subst e'. destruct H as [H|[W H]]; [left; exact H|]. right. split; [|exact H]. exists (One VoidPart). split; [apply wanted_iff, W|reflexivity].
  - split; [discriminate|intros (e & E & _); discriminate].
Qed.
Print Assumptions C83_arguments.

(** C83: which members are looked at. *)
Theorem C83_members : forall h m hb initial,
  (is_static m = false ->
     (method_judged h m hb = true <-> hb = true /\ exists t, overrides h m t /\ expects_nothing t) /\
     (property_judged h m initial = true <-> exists e, initial = Some e /\ ((exists t, overrides h m t /\ expects_nothing t) \/ exists t, e = Some t /\ expects_nothing t))) /\
  forall computed t, object_method_judged computed t = true <-> computed = false /\ exists u, t = Some u /\ expects_nothing u.
Proof.
  intros h m hb initial. split.
  - intros S0.
    assert (existsb void_function (base_members h m) = true <-> exists t, overrides h m t /\ expects_nothing t) as B.
    { rewrite existsb_exists. unfold base_members, overrides. rewrite S0. split.
      - intros (t & I & V). apply in_flat_map in I as (c & Ic & I). destruct (instance_members c (mname m)) as [u|] eqn:E; [|destruct I]. destruct I as [->|[]].
        exists t. split; [eauto|apply void_function_iff, V].
      - intros (t & (c & Ic & E) & V). exists t. split; [|apply void_function_iff, V]. apply in_flat_map. exists c. split; [exact Ic|]. rewrite E. left. reflexivity. }
    split.
    + unfold method_judged. rewrite andb_true_iff, B. reflexivity.
    + unfold property_judged. destruct initial as [e|].
      * rewrite orb_true_iff, B, check_expression_iff. split; [intros H; exists e; auto|intros (e' & E & H); inversion E; subst; exact H].
      * split; [discriminate|intros (e & E & _); discriminate].
  - intros [] t; cbn.
    + split; [discriminate|intros (E & _); discriminate].
    + split; [|intros [_ H]; destruct t; [apply void_function_iff|]; destruct H as (u & E & H); inversion E; subst; exact H].
      destruct t as [t|]; [|discriminate]. intros H. split; [reflexivity|]. exists t. split; [reflexivity|apply void_function_iff, H].
Qed.
Print Assumptions C83_members.

(** C83 does not hold for static members: a static method is judged by a member of instances although it takes the place of nothing. *)
Theorem C83_static_refuted : exists h m, is_static m = true /\ method_judged h m true = true /\ forall t, ~ overrides h m t.
Proof.
  exists [{| instance_members := fun _ => Some [[One VoidPart]]; static_members := fun _ => None |}], {| mname := 0; is_static := true |}.
  split; [reflexivity|]. split; [reflexivity|]. intros t (c & [<-|[]] & E). discriminate.
Qed.
Print Assumptions C83_static_refuted.

(** C83 does not hold after a spread: f(...pair, () => 1) is judged by the second parameter, which asks for nothing, where the value goes to the third, which asks for a number. *)
Theorem C83_spread_refuted : exists s l sizes i j t,
  nth_error (call_judged [s] l) i = Some true /\ place sizes i l = Some j /\ nth_error s j = Some t /\ ~ expects_nothing t /\ exists lr, In lr t /\ In (One (OtherPart 0)) lr.
Proof.
  exists [[[One (OtherPart 1)]]; [[One VoidPart]]; [[One (OtherPart 0)]]], [Spread; Plain None], [2], 1, 2, [[One (OtherPart 0)]].
  split; [reflexivity|]. split; [reflexivity|]. split; [reflexivity|]. split.
  - intros H. apply void_function_iff in H. discriminate.
  - exists [One (OtherPart 0)]. split; left; reflexivity.
Qed.
Print Assumptions C83_spread_refuted.

(** C83 does not hold with overloads: a callback is judged although the overload that its expected type is from asks for any. *)
Theorem C83_overload_refuted : exists sigs t, In [t] sigs /\ call_judged sigs [Plain (Some t)] = [true] /\ ~ expects_nothing t.
Proof.
  exists [[[[One VoidPart]]]; [[[One AnyPart]]]], [[One AnyPart]].
  split; [right; left; reflexivity|]. split; [reflexivity|]. intros H. apply void_function_iff in H. discriminate.
Qed.
Print Assumptions C83_overload_refuted.

Definition sample (rs : list rtype) (l : list tree) (w : option bool) : given := {| literal := true; generator := false; async := false; fbody := BlockBody; written := w; below := l; results := rs |}.
(** () => { if (x) return 1; [1].map(() => { return 2; }); return undefined; return null as any; } *)
Example C83_sample :
  let l := [Node [Return 0 (Some (One (OtherPart 0), Node []))]; Node [Function [Return 1 (Some (One (OtherPart 0), Node []))]]; Return 2 (Some (One UndefinedPart, Node [])); Return 3 (Some (One AnyPart, Node [])); Return 4 None] in
  judge false (sample [UnionOf [OtherPart 0; UndefinedPart]; One AnyPart] l None) = [TheReturn 0; TheReturn 3] /\
  judge true (sample [UnionOf [OtherPart 0; UndefinedPart]] l None) = [TheReturn 0] /\
  judge true (sample [UnionOf [AnyPart; UndefinedPart]] l None) = [] /\
  judge false (sample [One (OtherPart 1)] l (Some false)) = [TheType].
Proof. repeat split; reflexivity. Qed.
Example C83_calls :
  let v := [[One VoidPart]] in let n := [[One (OtherPart 0)]] in
  call_judged [[v; n]; [v]] [Plain (Some v); Plain (Some v)] = [true; false] /\
  call_judged [[v]] [Plain (Some n); Plain (Some v)] = [true; true] /\
  call_judged [[v]; [n]] [Plain (Some v)] = [false] /\
  call_judged [[v]; [[[UnionOf [VoidPart; NullPart]]]]] [Plain None] = [false] /\
  call_judged [[[[One ParameterPart]]]; [v]] [Plain (Some v)] = [true] /\
  void_function [[]; [UnionOf [VoidPart]]] = true /\ void_function [[]] = false.
Proof. repeat split; reflexivity. Qed.
(** The hypotheses of C83_quiet and what it says, of () => { if (x) return f(); } with f of type void. *)
Example C83_inferred :
  let g := sample [UnionOf [VoidPart; UndefinedPart]] [Node [Return 0 (Some (One VoidPart, Node []))]] None in
  inferred g /\ judge false g = [] /\ fbody g <> NoBody /\ exists t, In t (results g) /\ holds t Undefined.
Proof.
  split; [|split; [reflexivity|split; [discriminate|]]].
  - split.
    + intros _ _ _ _ _ t v [<-|[]] (p & [<-|[<-|[]]] & H); inversion H; left; reflexivity.
    + discriminate.
  - eexists. split; [left; reflexivity|]. exists VoidPart. split; [left; reflexivity|apply h_void].
Qed.
