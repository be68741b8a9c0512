(** C47: comparisons with [true] and [false] (BoolCompare.v). *)
From Coq Require Import String Bool List ZArith Lia.
From Verif Require Import Base EngineProofs Types Fixer FixerSpec FixerProofs FixOne JsExpr JsExprProofs BoolCompare BoolCompareProofs.
Import ListNotations.
Open Scope Z_scope.

(** ** Specification *)
(** The literal [v], maybe in parentheses. *)
Inductive is_literal (v : bool) : tree -> Prop :=
| il_lit : is_literal v (Lit v)
| il_par t : is_literal v t -> is_literal v (Par t).
(** Type objects: the checker says it is a boolean; it is a union with a part that is [null] or [undefined] and a part that is a boolean. *)
Definition boolean_object (t : ty) : Prop := In FBoolean (t_flags t) \/ In FBooleanLiteral (t_flags t).
Definition nullable_object (t : ty) : Prop :=
  In FUnion (t_flags t) /\ (exists p, In p (t_parts t) /\ (In FUndefined (t_flags p) \/ In FNull (t_flags p))) /\ exists p, In p (t_parts t) /\ boolean_object p.
(** The messages. *)
Inductive says : bool -> bool -> bool -> bstr -> Prop :=
| says_direct v : says false v false (b "direct")
| says_negated v : says false v true (b "negated")
| says_true : says true true false (b "comparingNullableToTrueDirect")
| says_not_true : says true true true (b "comparingNullableToTrueNegated")
| says_false neg : says true false neg (b "comparingNullableToFalse").
(** What the checker makes of a type (Types.v); [boolean] itself has the flag of a union too. *)
Inductive object_of (number : sty -> Z) : sty -> ty -> Prop :=
| oo_boolean i : object_of number (SUnion None [SBool false; SBool true]) (Ty i [FBoolean; FUnion] [] None (map (checked number) [SBool false; SBool true]))
| oo_other x : object_of number x (checked number x).
(** Only [null], [undefined] and booleans. *)
Definition nullable_boolean (x : sty) : Prop := exists s l, x = SUnion s l /\ Forall (fun y => y = SUndefined \/ y = SNull \/ exists v, y = SBool v) l.

Lemma has_flag t m : is_set t m = true <-> exists f, In f (t_flags t) /\ In f m.
Proof.
  unfold is_set. rewrite existsb_exists. split; intros (f & I & H); exists f; (split; [exact I|]).
  - apply existsb_exists in H. destruct H as (g & J & E). unfold flag_eqb in E. destruct (flag_eq_dec f g); [now subst|discriminate].
  - apply existsb_exists. exists f. split; auto. unfold flag_eqb. now destruct (flag_eq_dec f f).
Qed.
Lemma boolean_spec t : is_boolean_type (Some t) = true <-> boolean_object t.
Proof. cbn [is_boolean_type]. rewrite has_flag. unfold boolean_object, BooleanLike. split; [intros (f & I & [<-|[<-|[]]]); auto|intros [H|H]; eexists; (split; [exact H|]); cbn; auto]. Qed.
Lemma nullable_spec t : is_nullable_boolean (Some t) = true <-> nullable_object t.
Proof.
  cbn [is_nullable_boolean]. unfold nullable_object. assert (U : is_union t = true <-> In FUnion (t_flags t)). { unfold is_union. rewrite has_flag. split; [intros (f & I & [<-|[]]); auto|intros H; eexists; split; [exact H|cbn; auto]]. }
  rewrite <- U. destruct (is_union t); cbn [negb]; [|intuition discriminate]. rewrite andb_true_iff, !existsb_exists. split.
  - intros [(p & P & Q) (q & R & S)]. split; [reflexivity|]. split; [exists p; split; auto; apply has_flag in Q; destruct Q as (f & I & [<-|[<-|[]]]); auto|exists q; split; auto; now apply boolean_spec in S].
  - intros (_ & (p & P & Q) & q & R & S). split; [exists p; split; auto; apply has_flag; destruct Q; eexists; (split; [eassumption|]); cbn; auto|exists q; split; auto; now apply boolean_spec].
Qed.
Lemma literal_spec v t : deconstruct (skip_parentheses t) = Some v <-> is_literal v t.
Proof.
  split.
  - induction t; cbn; try discriminate; intros H; [injection H as ->; constructor|constructor; auto].
  - induction 1; auto.
Qed.

(** ** What is reported *)
(** A comparison by [==], [===], [!=] or [!==] with a literal on one side, the right one first, when the type of the
    other side is a boolean, or a union of nullish and boolean parts and the option for that literal is off. *)
Theorem C47_reports : forall constraint_info allow_true allow_false o l r e v neg nul id,
  report constraint_info allow_true allow_false o l r = Some (Comparison e v neg nul, id) <->
  (exists strict, o = OEq strict neg) /\
  (is_literal v r /\ e = l \/ (forall w, ~ is_literal w r) /\ is_literal v l /\ e = r) /\
  says nul v neg id /\
  exists t parameter, constraint_info e = (Some t, parameter) /\
  (nul = false /\ boolean_object t \/
   nul = true /\ ~ boolean_object t /\ nullable_object t /\ (if v then allow_true else allow_false) = false).
Proof.
  intros ci at_ af o l r e v neg nul id. unfold report, get_comparison.
  assert (SIDE : forall e v, (match deconstruct (skip_parentheses r) with Some v => Some (l, v) | None => match deconstruct (skip_parentheses l) with Some v => Some (r, v) | None => None end end = Some (e, v)) <-> (is_literal v r /\ e = l \/ (forall w, ~ is_literal w r) /\ is_literal v l /\ e = r)).
  { intros e0 v0. destruct (deconstruct (skip_parentheses r)) as [w|] eqn:D.
    - apply literal_spec in D. split; [intros [= <- <-]; auto|]. intros [[L ->]|[N _]]; [|now destruct (N w)]. apply literal_spec in D, L. rewrite D in L. injection L as ->. reflexivity.
    - assert (N : forall w, ~ is_literal w r) by (intros w L; apply literal_spec in L; congruence). destruct (deconstruct (skip_parentheses l)) as [w|] eqn:DL.
      + split; [intros [= <- <-]; right; repeat split; auto; now apply literal_spec|]. intros [[L _]|(_ & L & ->)]; [now destruct (N v0)|]. apply literal_spec in L. rewrite DL in L. injection L as ->. reflexivity.
      + split; [discriminate|]. intros [[L _]|(_ & L & _)]; [now destruct (N v0)|]. apply literal_spec in L. congruence. }
  destruct o as [| | |strict neg'| |]; try (split; [discriminate|intros ((? & ?) & _); discriminate]).
  destruct (match deconstruct (skip_parentheses r) with Some v => Some (l, v) | None => match deconstruct (skip_parentheses l) with Some v => Some (r, v) | None => None end end) as [[e0 v0]|] eqn:S.
  - pose proof (proj1 (SIDE _ _) eq_refl) as S1. destruct (ci e0) as [[t|] p] eqn:CI.
    + replace (p && false)%bool with false by (now destruct p).
      assert (FWD : forall n, (if is_boolean_type (Some t) then Some (Comparison e0 v0 neg' false) else if is_nullable_boolean (Some t) then Some (Comparison e0 v0 neg' true) else None) = Some n <->
        n = Comparison e0 v0 neg' false /\ boolean_object t \/ n = Comparison e0 v0 neg' true /\ ~ boolean_object t /\ nullable_object t).
      { intros n. rewrite <- boolean_spec, <- nullable_spec. destruct (is_boolean_type (Some t)), (is_nullable_boolean (Some t)); split; intros H; intuition (try congruence). }
      split.
      * destruct (if is_boolean_type (Some t) then _ else _) as [n|]; [|discriminate]. intros R. pose proof (proj1 (FWD n) eq_refl) as F.
        destruct F as [(-> & B)|(-> & NB & N)]; cbn [nullable literal negated andb] in R.
        -- assert (R2 : (e, v, neg, nul, id) = (e0, v0, neg', false, if neg' then b "negated" else b "direct")) by (injection R as <- <- <- <- <-; reflexivity). injection R2 as -> -> -> -> ->. split; [eauto|]. split; [exact S1|]. split; [destruct neg'; constructor|]. exists t, p. auto.
        -- destruct (v0 && at_ || negb v0 && af)%bool eqn:A; [discriminate|]. assert (R2 : (e, v, neg, nul) = (e0, v0, neg', true)) by (injection R as <- <- <- <- _; reflexivity). assert (R3 : id = if v0 then if neg' then b "comparingNullableToTrueNegated" else b "comparingNullableToTrueDirect" else b "comparingNullableToFalse") by (injection R as _ _ _ _ <-; reflexivity).
           injection R2 as -> -> -> ->. subst id. split; [eauto|]. split; [exact S1|]. split; [destruct v0, neg'; constructor|]. exists t, p. split; auto. right. split; [reflexivity|]. split; [exact NB|]. split; [exact N|]. destruct v0; cbn in A; rewrite ?orb_false_r in A; auto.
      * intros ((st & [= <- <-]) & SD & SY & t' & p' & CI' & T). apply SIDE in SD. injection SD as <- <-. rewrite CI in CI'. injection CI' as <- <-.
        destruct T as [(-> & B)|(-> & NB & N & A)].
        -- rewrite (proj2 (FWD (Comparison e0 v0 neg' false))) by auto. cbn [nullable literal negated andb]. inversion SY; subst; reflexivity.
        -- rewrite (proj2 (FWD (Comparison e0 v0 neg' true))) by auto. cbn [nullable literal negated andb]. destruct v0; rewrite A; cbn; inversion SY; subst; reflexivity.
    + split; [destruct p; discriminate|]. intros (_ & SD & _ & t' & p' & CI' & _). apply SIDE in SD. injection SD as <- <-. congruence.
  - split; [discriminate|]. intros (_ & SD & _). apply SIDE in SD. discriminate.
Qed.
Print Assumptions C47_reports.
(** [true === (x as boolean | undefined)]: not with the option; [(true) != b]. *)
Example C47_reports_example :
  let t := checked (fun _ => 0) (SUnion None [SUndefined; SBool false; SBool true]) in
  let u := checked (fun _ => 0) (SBool true) in
  let ci e := match e with Id 1 => (Some t, false) | _ => (Some u, false) end in
  report ci false false (OEq true false) (Lit true) (Id 1) = Some (Comparison (Id 1) true false true, b "comparingNullableToTrueDirect") /\
  report ci true false (OEq true false) (Lit true) (Id 1) = None /\
  report ci true true (OEq false true) (Par (Lit true)) (Id 2) = Some (Comparison (Id 2) true true false, b "negated") /\
  report ci true true OLess (Par (Lit true)) (Id 2) = None.
Proof. now vm_compute. Qed.

(** ** What the fix does *)
Section Fix.
Context {state : Type}.
Variables (operand : bool -> Z -> state -> option value * state) (awaited : value -> state -> option value * state)
  (other : op -> value -> value -> state -> option value * state) (convert : value -> value -> state -> option bool * state).
Notation ev := (eval operand awaited other convert).
(** The checker is right about the values of [e]. *)
Definition has_type (x : sty) (e : tree) : Prop := forall (s : state) v s', ev e s = (Some v, s') -> holds x v.
Lemma boolean_values number x t v : object_of number x t -> boolean_object t -> holds x v -> exists w, v = Bool w.
Proof.
  intros O B H. destruct O as [i|x].
  - cbn in H. destruct H as [->|[->|[]]]; eauto.
  - destruct x; cbn in B; unfold boolean_object in B; cbn in B; intuition (try discriminate). cbn in H. eauto.
Qed.
Lemma nullable_values x v : nullable_boolean x -> holds x v -> boolish v \/ nullish v.
Proof.
  intros (s & l & -> & F) H. cbn in H. induction F as [|y l Y F IH]; [contradiction|]. destruct H as [H|H]; [|auto].
  destruct Y as [->|[->|(w & ->)]]; cbn in H; unfold nullish, boolish; eauto.
Qed.

Variables (constraint_info : tree -> option ty * bool) (number : sty -> Z)
  (sort_fixes : list (fix_ tok) -> list (fix_ tok)) (sort_msgs : list (msg tok) -> list (msg tok)).
Hypotheses (sorts_fixes : correct_sort cmp_fix sort_fixes) (sorts_msgs : correct_sort cmp_msg sort_msgs) (stable_fixes : stable sort_fixes).

Lemma fix_correct allow_true allow_false c o l r e v neg nul id x t parameter :
  report constraint_info allow_true allow_false o l r = Some (Comparison e v neg nul, id) ->
  wf (plug c (Bin o l r)) ->
  constraint_info e = (Some t, parameter) -> object_of number x t -> has_type x e -> (nul = true -> nullable_boolean x) ->
  (forall k outer, c = repeat FPar k ++ FNot :: outer -> neg = v -> nul && negb v = false -> wf (plug outer e)) ->
  exists ts u, fixed_text sort_fixes sort_msgs c (Bin o l r) (Comparison e v neg nul) = Ok ts /\ reads ts u /\
  (nul = false \/ v = false \/ Bool.eqb (negb (Bool.eqb neg v)) (is_under c) = true -> forall s, ev (plug c (Bin o l r)) s = ev u s) /\
  (tested (outer_of c) -> forall s, same_truth (ev (plug c (Bin o l r)) s) (ev u s)).
Proof.
  intros R W CI O T NB OUT. apply C47_reports in R. destruct R as ((strict & ->) & SD & _ & t' & p' & CI' & TY). rewrite CI in CI'. injection CI' as <- <-.
  pose proof (wf_hole _ _ W) as WB. destruct (eq_operands _ _ _ neg strict WB eq_refl) as (LL & LR & WL & WR).
  assert (E : (10 <= level e)%nat /\ wf e) by (destruct SD as [[_ ->]|(_ & _ & ->)]; auto). destruct E as [LE WE].
  eexists. exists (plug (outer_of c) (new_tree (negs c (Comparison e v neg nul)) (nuls (Comparison e v neg nul)) e)).
  split; [apply fixed_is; auto|]. cbn [expression]. unfold negs, nuls. cbn [negated literal nullable].
  set (n := Bool.eqb (negb (Bool.eqb neg v)) (is_under c)). destruct (outer_plug c) as (k & PL).
  split.
  - apply reads_print. destruct (is_under c) eqn:U.
    + rewrite PL in W. pose proof (wf_hole _ _ W) as WN. destruct (n || (nul && negb v))%bool eqn:NN.
      * apply wf_plug with (t := Not (plug (repeat FPar k) (Bin (OEq strict neg) l r))); auto; [apply new_wf; auto|]. apply new_fits15; [cbn; lia|reflexivity|]. apply orb_true_iff in NN. tauto.
      * apply orb_false_iff in NN. destruct NN as [N1 N2]. rewrite N1, N2. unfold new_tree. cbn [andb]. unfold is_under in U. unfold outer_of. destruct (unary_negation c) as [outer|] eqn:UN; [|discriminate].
        destruct (proj1 (unary_split _ _) UN) as (j & J). eapply OUT; eauto. unfold n in N1. rewrite eqb_false_iff in N1. destruct neg, v; auto; now destruct N1.
    + rewrite PL in W. apply wf_plug with (t := Bin (OEq strict neg) l r); auto; [apply new_wf; auto|]. apply new_fits; auto; cbn; lia.
  - assert (Y : yields operand awaited other convert (fun x => boolish x \/ nul = true /\ nullish x) e).
    { intros s w s' H. specialize (T _ _ _ H). destruct TY as [(-> & B)|(-> & _)]; [left; eapply boolean_values; eauto|]. destruct (nullable_values _ _ (NB eq_refl) T); auto. }
    assert (SD' : deconstruct (skip_parentheses r) = Some v /\ e = l \/ deconstruct (skip_parentheses l) = Some v /\ e = r) by (destruct SD as [[L ->]|(_ & L & ->)]; [left|right]; (split; [now apply literal_spec|reflexivity])).
    assert (CV : forall s, ev (Bin (OEq strict neg) l r) s = compared neg v (ev e s)). { apply comparison_value; auto. intros s w s' H. destruct (Y _ _ _ H) as [B|[_ B]]; auto. }
    destruct (new_value operand awaited other convert (is_under c) neg v nul e k _ Y CV) as [N1 N2]. fold n in N1, N2. split.
    + intros X s. rewrite PL. apply eval_plug. auto.
    + intros TE s. rewrite PL. apply tested_truth; auto.
Qed.

(** In any context [c] the new text is read as an expression with the same effects and the same value: the compared
    operand is a boolean, or is compared with [false].  Where it is [!(e === false)] or [!(e !== true)] and the [!] goes, [e] must be
    able to stand in its place. *)
Theorem C47_fix : forall allow_true allow_false c o l r e v neg nul id x t parameter,
  report constraint_info allow_true allow_false o l r = Some (Comparison e v neg nul, id) ->
  wf (plug c (Bin o l r)) ->
  constraint_info e = (Some t, parameter) -> object_of number x t -> has_type x e -> (nul = true -> nullable_boolean x) ->
  (forall k outer, c = repeat FPar k ++ FNot :: outer -> neg = v -> nul && negb v = false -> wf (plug outer e)) ->
  nul = false \/ v = false ->
  exists ts u, fixed_text sort_fixes sort_msgs c (Bin o l r) (Comparison e v neg nul) = Ok ts /\ reads ts u /\
  forall s, ev (plug c (Bin o l r)) s = ev u s.
Proof.
  intros at_ af c o l r e v neg nul id x t p R W CI O T NB OUT Q. destruct (fix_correct _ _ _ _ _ _ _ _ _ _ _ _ _ _ R W CI O T NB OUT) as (ts & u & F & RD & E & _).
  exists ts, u. repeat split; auto. apply E. tauto.
Qed.
(** Compared with [true], an operand that may be nullish: the same value when the result is negated once, [e !== true] or [!(e === true)]. *)
Theorem C47_fix_negated : forall allow_true allow_false c o l r e neg id x t parameter,
  report constraint_info allow_true allow_false o l r = Some (Comparison e true neg true, id) ->
  wf (plug c (Bin o l r)) ->
  constraint_info e = (Some t, parameter) -> object_of number x t -> has_type x e -> nullable_boolean x ->
  (if neg then forall k outer, c <> repeat FPar k ++ FNot :: outer else exists k outer, c = repeat FPar k ++ FNot :: outer) ->
  exists ts u, fixed_text sort_fixes sort_msgs c (Bin o l r) (Comparison e true neg true) = Ok ts /\ reads ts u /\
  forall s, ev (plug c (Bin o l r)) s = ev u s.
Proof.
  intros at_ af c o l r e neg id x t p R W CI O T NB Q.
  assert (U : is_under c = negb neg). { unfold is_under. destruct (unary_negation c) as [u|] eqn:UN; [apply unary_split in UN; destruct UN as (k & UN)|]; destruct neg; auto; [now destruct (Q k u)|]. destruct Q as (k & u & Q). assert (X : unary_negation c = Some u) by (apply unary_split; eauto). congruence. }
  destruct (fix_correct _ _ _ _ _ _ _ _ _ _ _ _ _ _ R W CI O T (fun _ => NB)) as (ts & u & F & RD & E & _).
  - intros k outer EC -> _. now destruct (Q k outer).
  - exists ts, u. repeat split; auto. apply E. right. right. rewrite U. now destruct neg.
Qed.
(** In the other two forms, [e === true] and [!(e !== true)], the new value is the same in a condition: where only truth counts. *)
Theorem C47_truth : forall allow_true allow_false c outer o l r e v neg nul id x t parameter,
  report constraint_info allow_true allow_false o l r = Some (Comparison e v neg nul, id) ->
  wf (plug c (Bin o l r)) ->
  constraint_info e = (Some t, parameter) -> object_of number x t -> has_type x e -> (nul = true -> nullable_boolean x) ->
  (exists k, c = repeat FPar k ++ FNot :: outer) /\ (neg = v -> nul && negb v = false -> wf (plug outer e)) \/
  (forall k u, c <> repeat FPar k ++ FNot :: u) /\ outer = c ->
  tested outer ->
  exists ts u, fixed_text sort_fixes sort_msgs c (Bin o l r) (Comparison e v neg nul) = Ok ts /\ reads ts u /\
  forall s, same_truth (ev (plug c (Bin o l r)) s) (ev u s).
Proof.
  intros at_ af c outer o l r e v neg nul id x t p R W CI O T NB Q TE.
  assert (OO : outer_of c = outer). { unfold outer_of. destruct Q as [(Q & _)|(Q & ->)]; [apply unary_split in Q; now rewrite Q|]. destruct (unary_negation c) as [u|] eqn:UN; [|reflexivity]. apply unary_split in UN. destruct UN as (k & UN). now destruct (Q k u). }
  destruct (fix_correct _ _ _ _ _ _ _ _ _ _ _ _ _ _ R W CI O T NB) as (ts & u & F & RD & _ & E).
  - intros k out EC. assert (X : unary_negation c = Some out) by (apply unary_split; eauto). destruct Q as [(Q & WO)|(Q & _)]; [|now destruct (Q k out)]. apply unary_split in Q. rewrite X in Q. injection Q as ->. auto.
  - exists ts, u. repeat split; auto; apply E; now rewrite OO.
Qed.
End Fix.
Print Assumptions C47_fix.
Print Assumptions C47_fix_negated.
Print Assumptions C47_truth.

(** [x && !((a < y) !== false)] as [x && !(a < y)]; [a === false] for [boolean | undefined] as [!(a ?? true)]; [await p === false] in a sum. *)
Definition text_of (c : list frame) (node : tree) (cmp : comparison) := fixed_text fsort msort c node cmp.
Example C47_fix_example :
  text_of [FPar; FNot; FRight OAnd (Id 1)] (Bin (OEq true true) (Bin OLess (Id 2) (Id 3)) (Lit false)) (Comparison (Bin OLess (Id 2) (Id 3)) false true false) = Ok [TId 1; TOp OAnd; TBang; TOpen; TId 2; TOp OLess; TId 3; TClose] /\
  text_of [] (Bin (OEq true false) (Id 1) (Lit false)) (Comparison (Id 1) false false true) = Ok [TBang; TOpen; TId 1; TOp OCoalesce; TLit true; TClose] /\
  text_of [FPar; FLeft OPlus (Id 1)] (Bin (OEq false false) (Await (Id 2)) (Par (Lit false))) (Comparison (Await (Id 2)) false false true) = Ok [TOpen; TBang; TOpen; TOpen; TAwait; TId 2; TClose; TOp OCoalesce; TLit true; TClose; TClose; TOp OPlus; TId 1] /\
  correct_sort cmp_fix (@fsort tok) /\ correct_sort cmp_msg (@msort tok) /\ stable (@fsort tok).
Proof.
  repeat split; try (vm_compute; reflexivity); try apply fix_sort_correct, fsort_ok; try apply msg_sort_correct, msort_ok; apply fsort_stable.
Qed.
(** A use of the theorem: operands 1 and 2, numbers in an array, the second one throws. *)
Example C47_fix_used :
  let ci (_ : tree) := (Some (checked (fun _ => 0) (SUnion None [SNull; SBool true])), false) in
  let operand (_ : bool) n (s : Z) := if n =? 1 then (Some Null, s + 1) else (None, s) in
  let ev := eval operand (fun v s => (Some v, s)) (fun _ v _ s => (Some v, s)) (fun _ _ s => (None, s)) in
  report ci false false (OEq true false) (Id 1) (Lit false) = Some (Comparison (Id 1) false false true, b "comparingNullableToFalse") /\
  ev (plug [FLeft OAnd (Id 2)] (Bin (OEq true false) (Id 1) (Lit false))) 7 = (Some (Bool false), 8) /\
  ev (Bin OAnd (Not (Par (Bin OCoalesce (Id 1) (Lit true)))) (Id 2)) 7 = (Some (Bool false), 8) /\
  reads [TBang; TOpen; TId 1; TOp OCoalesce; TLit true; TClose; TOp OAnd; TId 2] (Bin OAnd (Not (Par (Bin OCoalesce (Id 1) (Lit true)))) (Id 2)).
Proof. repeat split; try (vm_compute; reflexivity). exists 20%nat. vm_compute. reflexivity. Qed.

(** ** Where the fix is wrong *)
(** The rule fixes without asking; the claim "the fixed text has the same value" has four exceptions. *)
(** 1. A nullish operand compared with [true]: [undefined === true] is [false], the fixed text gives [undefined]. *)
Theorem C47_value_refuted : exists ci c o l r e v neg nul id x t,
  report ci false false o l r = Some (Comparison e v neg nul, id) /\ wf (plug c (Bin o l r)) /\
  ci e = (Some t, false) /\ object_of (fun _ => 0) x t /\ nullable_boolean x /\
  let ev := eval (fun _ _ (s : unit) => (Some Undefined, s)) (fun v s => (Some v, s)) (fun _ v _ s => (Some v, s)) (fun _ _ s => (None, s)) in
  holds x Undefined /\
  exists ts u, fixed_text fsort msort c (Bin o l r) (Comparison e v neg nul) = Ok ts /\ reads ts u /\
  ev (plug c (Bin o l r)) tt = (Some (Bool false), tt) /\ ev u tt = (Some Undefined, tt).
Proof.
  exists (fun _ => (Some (checked (fun _ => 0) (SUnion None [SUndefined; SBool true])), false)), [], (OEq true false), (Id 1), (Lit true), (Id 1), true, false, true, (b "comparingNullableToTrueDirect"), (SUnion None [SUndefined; SBool true]), (checked (fun _ => 0) (SUnion None [SUndefined; SBool true])).
  split; [reflexivity|]. split; [cbn; repeat constructor|]. split; [reflexivity|]. split; [constructor|]. split; [do 2 eexists; split; [reflexivity|]; repeat (apply Forall_cons || apply Forall_nil); eauto|]. split; [cbn; auto|].
  exists [TId 1], (Id 1). repeat split; try (vm_compute; reflexivity). exists 5%nat. vm_compute. reflexivity.
Qed.
Print Assumptions C47_value_refuted.
(** 2. A union with other parts too, say [string | boolean | undefined], counts as a nullable boolean: ["a" === true] is [false], the fixed text is true even in a condition. *)
Theorem C47_other_types_refuted : exists ci c o l r e v neg nul id x t,
  report ci false false o l r = Some (Comparison e v neg nul, id) /\ wf (plug c (Bin o l r)) /\
  ci e = (Some t, false) /\ object_of (fun _ => 0) x t /\
  let ev := eval (fun _ _ (s : unit) => (Some (Str [97]), s)) (fun v s => (Some v, s)) (fun _ v _ s => (Some v, s)) (fun _ _ s => (None, s)) in
  holds x (Str [97]) /\
  exists ts u, fixed_text fsort msort c (Bin o l r) (Comparison e v neg nul) = Ok ts /\ reads ts u /\
  ev (plug c (Bin o l r)) tt = (Some (Bool false), tt) /\ ev u tt = (Some (Str [97]), tt) /\ truthy (Str [97]) = true.
Proof.
  set (x := SUnion None [SUndefined; SString; SBool false; SBool true]).
  exists (fun _ => (Some (checked (fun _ => 0) x), false)), [], (OEq true false), (Id 1), (Lit true), (Id 1), true, false, true, (b "comparingNullableToTrueDirect"), x, (checked (fun _ => 0) x).
  split; [reflexivity|]. split; [cbn; repeat constructor|]. split; [reflexivity|]. split; [constructor|]. split; [cbn; eauto|].
  exists [TId 1], (Id 1). repeat split; try (vm_compute; reflexivity). exists 5%nat. vm_compute. reflexivity.
Qed.
Print Assumptions C47_other_types_refuted.
(** 3. [!] is dropped with the parentheses after it: [c === !((a === b) ...)] without parentheses around the first comparison, [c === !(a === b !== true)], becomes [c === a === b]. *)
Theorem C47_precedence_refuted : exists ci c o l r e v neg nul id x t,
  report ci false false o l r = Some (Comparison e v neg nul, id) /\ wf (plug c (Bin o l r)) /\
  ci e = (Some t, false) /\ object_of (fun _ => 0) x t /\
  let ev := eval (fun _ n (s : unit) => (Some (if n =? 1 then Bool false else Num [n + 48]), s)) (fun v s => (Some v, s)) (fun _ v _ s => (Some v, s)) (fun _ _ s => (None, s)) in
  holds x (Bool false) /\ ev e tt = (Some (Bool false), tt) /\
  exists ts u, fixed_text fsort msort c (Bin o l r) (Comparison e v neg nul) = Ok ts /\ reads ts u /\
  ev (plug c (Bin o l r)) tt = (Some (Bool true), tt) /\ ev u tt = (Some (Bool false), tt).
Proof.
  set (x := SUnion None [SBool false; SBool true]). set (t := Ty 0 [FBoolean; FUnion] [] None (map (checked (fun _ => 0)) [SBool false; SBool true])).
  exists (fun _ => (Some t, false)), [FPar; FNot; FRight (OEq true false) (Id 1)], (OEq true true), (Bin (OEq true false) (Id 2) (Id 3)), (Lit true), (Bin (OEq true false) (Id 2) (Id 3)), true, true, false, (b "negated"), x, t.
  split; [reflexivity|]. split; [cbn; repeat (constructor; cbn; try lia; auto)|]. split; [reflexivity|]. split; [constructor|]. split; [cbn; auto|]. split; [reflexivity|].
  exists [TId 1; TOp (OEq true false); TId 2; TOp (OEq true false); TId 3], (Bin (OEq true false) (Bin (OEq true false) (Id 1) (Id 2)) (Id 3)). repeat split; try (vm_compute; reflexivity). exists 9%nat. vm_compute. reflexivity.
Qed.
Print Assumptions C47_precedence_refuted.
(** 4. [slices.SortFunc] may put fixes with the same range in any order: a correct sort, and [(!a < b)]. *)
Theorem C47_unstable_refuted : exists sf ci c o l r e v neg nul id x t,
  correct_sort cmp_fix sf /\
  report ci false false o l r = Some (Comparison e v neg nul, id) /\ wf (plug c (Bin o l r)) /\
  ci e = (Some t, false) /\ object_of (fun _ => 0) x t /\
  fixed_text sf msort c (Bin o l r) (Comparison e v neg nul) = Ok [TOpen; TBang; TId 1; TOp OLess; TId 2; TClose] /\
  fixed_text fsort msort c (Bin o l r) (Comparison e v neg nul) = Ok [TBang; TOpen; TId 1; TOp OLess; TId 2; TClose].
Proof.
  set (x := SUnion None [SBool false; SBool true]). set (t := Ty 0 [FBoolean; FUnion] [] None (map (checked (fun _ => 0)) [SBool false; SBool true])).
  exists (isort_r fix_key), (fun _ => (Some t, false)), [], (OEq true false), (Bin OLess (Id 1) (Id 2)), (Lit false), (Bin OLess (Id 1) (Id 2)), false, false, false, (b "direct"), x, t.
  split; [apply fix_sort_correct; intros l; apply isort_r_ok|]. split; [reflexivity|]. split; [cbn; repeat (constructor; cbn; try lia; auto)|]. split; [reflexivity|]. split; [constructor|]. split; vm_compute; reflexivity.
Qed.
Print Assumptions C47_unstable_refuted.
