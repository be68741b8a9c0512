(** Proofs about BoolCompare.v. *)
From Coq Require Import String Bool List ZArith Lia.
From Verif Require Import Base EngineProofs Types Fixer FixerSpec FixerProofs FixOne JsExpr JsExprProofs BoolCompare.
Import ListNotations.
Open Scope Z_scope.

(** The tree of the new text. *)
Definition new_tree (neg nul : bool) (e : tree) : tree :=
  let i := if neg && negb (strong e) then Par e else e in
  let j := if nul then Par (Bin OCoalesce i (Lit true)) else i in
  if neg then Not j else j.
Definition is_under (c : list frame) : bool := match unary_negation c with Some _ => true | None => false end.
Definition outer_of (c : list frame) : list frame := match unary_negation c with Some c' => c' | None => c end.
Definition negs (c : list frame) (cmp : comparison) : bool := Bool.eqb (negb (Bool.eqb (negated cmp) (literal cmp))) (is_under c).
Definition nuls (cmp : comparison) : bool := nullable cmp && negb (literal cmp).

Lemma unary_split c outer : unary_negation c = Some outer <-> exists k, c = repeat FPar k ++ FNot :: outer.
Proof.
  split.
  - revert outer. induction c as [|f c IH]; intros outer H; [discriminate|]. destruct f; try discriminate; cbn in H.
    + destruct (IH _ H) as (k & ->). now exists (S k).
    + injection H as <-. now exists O.
  - intros (k & ->). induction k; auto.
Qed.
Lemma plug_app c d t : plug (c ++ d) t = plug d (plug c t).
Proof. revert t. induction c as [|f c IH]; intros t; [reflexivity|]. destruct f; cbn; apply IH. Qed.
Lemma outer_plug c : exists k, forall t, plug c t = plug (outer_of c) (if is_under c then Not (plug (repeat FPar k) t) else t).
Proof.
  unfold outer_of, is_under. destruct (unary_negation c) as [o|] eqn:U; [|now exists O]. apply unary_split in U. destruct U as (k & ->). exists k. intros t. now rewrite plug_app.
Qed.
Lemma print_ne t : print t <> [].
Proof. destruct t; cbn; try discriminate. intros H. apply app_eq_nil in H. now destruct H. Qed.

Lemma fixed_is sf sm c node cmp : correct_sort cmp_fix sf -> correct_sort cmp_msg sm -> stable sf ->
  fixed_text sf sm c node cmp = Ok (print (plug (outer_of c) (new_tree (negs c cmp) (nuls cmp) (expression cmp)))).
Proof.
  intros C CM S. unfold fixed_text. destruct (outer_plug c) as (k & PL).
  set (n := if is_under c then Not (plug (repeat FPar k) node) else node). rewrite (PL node). fold n. rewrite !print_plug.
  set (pre := before (outer_of c)). set (post := after (outer_of c)). set (e := print (expression cmp)).
  rewrite (replaced sf sm 0 pre (print n) post e
    ((if negs c cmp then [TBang] :: (if strong (expression cmp) then [] else [[TOpen]]) else []) ++ (if nuls cmp then [[TOpen]] else []))
    ((if negs c cmp && negb (strong (expression cmp)) then [[TClose]] else []) ++ (if nuls cmp then [[TOp OCoalesce; TLit true; TClose]] else []))); auto.
  - cbn [rbind fst]. f_equal. f_equal. rewrite !app_assoc. f_equal. unfold new_tree. fold (nuls cmp).
    destruct (negs c cmp), (nuls cmp), (strong (expression cmp)); cbn; rewrite <- ?app_assoc, ?app_nil_r; cbn; reflexivity.
  - apply print_ne.
  - assert (Q : zlen pre + zlen (print n) = zlen (print (plug c node)) - zlen post). { rewrite (PL node). fold n. rewrite print_plug. fold pre post. unfold zlen. rewrite !app_length. lia. }
    assert (P0 : zlen (print n) <> 0). { pose proof (print_ne n). destruct (print n); [congruence|]. unfold zlen. cbn [List.length]. lia. }
    unfold fixes. fold (is_under c) (outer_of c). fold pre post e. rewrite <- Q. change (Bool.eqb (negb (Bool.eqb (negated cmp) (literal cmp))) (is_under c)) with (negs c cmp). change (nullable cmp && negb (literal cmp)) with (nuls cmp).
    set (p := zlen pre). set (q := p + zlen (print n)).
    unfold insert_before, insert_after.
    assert (E1 : (p =? p) = true) by apply Z.eqb_refl. assert (E2 : (p =? q) = false) by (apply Z.eqb_neq; unfold q; lia).
    destruct (negs c cmp), (nuls cmp), (strong (expression cmp)); cbn [app filter negb andb map]; unfold same_range; cbn [fpos fend]; rewrite ?E1, ?E2; cbn [andb]; reflexivity.
  - assert (Q : zlen pre + zlen (print n) = zlen (print (plug c node)) - zlen post). { rewrite (PL node). fold n. rewrite print_plug. fold pre post. unfold zlen. rewrite !app_length. lia. }
    assert (P0 : zlen (print n) <> 0). { pose proof (print_ne n). destruct (print n); [congruence|]. unfold zlen. cbn [List.length]. lia. }
    unfold fixes. fold (is_under c) (outer_of c). fold pre post e. rewrite <- Q. change (Bool.eqb (negb (Bool.eqb (negated cmp) (literal cmp))) (is_under c)) with (negs c cmp). change (nullable cmp && negb (literal cmp)) with (nuls cmp).
    set (p := zlen pre). set (q := p + zlen (print n)).
    unfold insert_before, insert_after.
    assert (E1 : (q =? q) = true) by apply Z.eqb_refl. assert (E2 : (q =? p) = false) by (apply Z.eqb_neq; unfold q; lia).
    destruct (negs c cmp), (nuls cmp), (strong (expression cmp)); cbn [app filter negb andb map]; unfold same_range; cbn [fpos fend]; rewrite ?E1, ?E2; cbn [andb]; reflexivity.
  - assert (Q : zlen pre + zlen (print n) = zlen (print (plug c node)) - zlen post). { rewrite (PL node). fold n. rewrite print_plug. fold pre post. unfold zlen. rewrite !app_length. lia. }
    assert (P0 : zlen (print n) <> 0). { pose proof (print_ne n). destruct (print n); [congruence|]. unfold zlen. cbn [List.length]. lia. }
    unfold fixes. fold (is_under c) (outer_of c). fold pre post e. rewrite <- Q. change (Bool.eqb (negb (Bool.eqb (negated cmp) (literal cmp))) (is_under c)) with (negs c cmp). change (nullable cmp && negb (literal cmp)) with (nuls cmp).
    set (p := zlen pre). set (q := p + zlen (print n)).
    unfold insert_before, insert_after.
    assert (E1 : (p =? p) = true) by apply Z.eqb_refl. assert (E2 : (q =? p) = false) by (apply Z.eqb_neq; unfold q; lia). assert (E3 : (q =? q) = true) by apply Z.eqb_refl. assert (E4 : (p =? q) = false) by (apply Z.eqb_neq; unfold q; lia).
    destruct (negs c cmp), (nuls cmp), (strong (expression cmp)); cbn [app filter negb andb map]; unfold same_range; cbn [fpos fend]; rewrite ?E1, ?E2, ?E3, ?E4; cbn [andb]; rewrite ?E1, ?E2, ?E3, ?E4; reflexivity.
  - assert (Q : zlen pre + zlen (print n) = zlen (print (plug c node)) - zlen post). { rewrite (PL node). fold n. rewrite print_plug. fold pre post. unfold zlen. rewrite !app_length. lia. }
    unfold fixes. fold (is_under c) (outer_of c). fold pre post e. rewrite <- Q. change (Bool.eqb (negb (Bool.eqb (negated cmp) (literal cmp))) (is_under c)) with (negs c cmp). change (nullable cmp && negb (literal cmp)) with (nuls cmp).
    intros f. unfold insert_before, insert_after. rewrite !same_spec. destruct (negs c cmp), (nuls cmp), (strong (expression cmp)); cbn [app negb andb In]; intros I; repeat destruct I as [<-|I]; cbn; auto; try contradiction.
Qed.

Lemma eq_operands o l r neg s : wf (Bin o l r) -> o = OEq s neg -> (10 <= level l)%nat /\ (10 <= level r)%nat /\ wf l /\ wf r.
Proof. intros W ->. inversion W as [| | | | | |? ? ? WL WR L R]; subst. cbn [left_ok lv right_level] in L, R. apply Nat.leb_le in L. repeat split; auto; lia. Qed.

Lemma new_wf neg nul e : wf e -> (10 <= level e)%nat -> wf (new_tree neg nul e).
Proof.
  intros W L. unfold new_tree. assert (X : forall t, wf t -> (10 <= level t)%nat -> wf (Par (Bin OCoalesce t (Lit true)))).
  { intros t T H. constructor. constructor; auto; [constructor|unfold left_ok; apply orb_true_iff; right; apply Nat.leb_le; lia|cbn; lia]. }
  destruct neg, nul, (strong e) eqn:S; cbn [andb negb]; try (constructor; [|cbn; lia]); auto; try apply X; auto; try (constructor; auto); try (cbn; lia); try (destruct e; try discriminate; cbn; lia).
Qed.
Lemma new_fits neg nul e t : (10 <= level e)%nat -> (level t <= 10)%nat -> (5 <= level t)%nat -> fits t (new_tree neg nul e).
Proof.
  intros L T F. apply fits_level; auto. unfold new_tree. destruct neg, nul, (strong e) eqn:S; cbn; try lia.
Qed.
Lemma new_fits15 neg nul e t : (15 <= level t <= 20)%nat -> (level t = 15)%nat -> neg = true \/ nul = true \/ (15 <= level e)%nat -> fits t (new_tree neg nul e).
Proof.
  intros L T F. apply fits_level; [|lia]. unfold new_tree. destruct neg, nul, (strong e) eqn:S; cbn; try lia; destruct F as [F|[F|F]]; try discriminate; lia.
Qed.

(** ** Values *)
Section Values.
Context {state : Type} (operand : bool -> Z -> state -> option value * state) (awaited : value -> state -> option value * state)
  (other : op -> value -> value -> state -> option value * state) (convert : value -> value -> state -> option bool * state).
Notation ev := (eval operand awaited other convert).
Definition boolish (v : value) : Prop := exists x, v = Bool x.
Definition nullish (v : value) : Prop := v = Undefined \/ v = Null.
Definition yields (P : value -> Prop) (e : tree) : Prop := forall (s : state) v s', ev e s = (Some v, s') -> P v.
Lemma lit_eq (strict neg x w : bool) (s : state) : match (if strict then (Some (strict_equal (Bool x) (Bool w)), s) else loose_equal convert (Bool x) (Bool w) s) with (Some y, s) => (Some (Bool (xorb neg y)), s) | (None, s) => (None, s) end = (Some (Bool (xorb neg (Bool.eqb x w))), s : state).
Proof. destruct strict, x, w; reflexivity. Qed.
Lemma null_eq (strict neg : bool) v (w : bool) (s : state) : nullish v -> match (if strict then (Some (strict_equal v (Bool w)), s) else loose_equal convert v (Bool w) s) with (Some y, s) => (Some (Bool (xorb neg y)), s) | (None, s) => (None, s) end = (Some (Bool neg), s : state).
Proof. intros [-> | ->]; destruct strict, w, neg; reflexivity. Qed.
Lemma null_eq' (strict neg : bool) v (w : bool) (s : state) : nullish v -> match (if strict then (Some (strict_equal (Bool w) v), s) else loose_equal convert (Bool w) v s) with (Some y, s) => (Some (Bool (xorb neg y)), s) | (None, s) => (None, s) end = (Some (Bool neg), s : state).
Proof. intros [-> | ->]; destruct strict, w, neg; reflexivity. Qed.
Lemma eval_skip t s : ev (skip_parentheses t) s = ev t s.
Proof. induction t; auto. Qed.

(** The value of the comparison. *)
Definition compared (neg lit : bool) (r : option value * state) : option value * state :=
  match r with
  | (Some (Bool x), s) => (Some (Bool (xorb neg (Bool.eqb x lit))), s)
  | (Some _, s) => (Some (Bool neg), s)
  | r => r
  end.
Lemma comparison_value strict neg l r e v : (deconstruct (skip_parentheses r) = Some v /\ e = l \/ deconstruct (skip_parentheses l) = Some v /\ e = r) -> yields (fun x => boolish x \/ nullish x) e ->
  forall s, ev (Bin (OEq strict neg) l r) s = compared neg v (ev e s).
Proof.
  intros [[D ->]|[D ->]] Y s; cbn [eval]; unfold yields in Y.
  - destruct (ev l s) as [[x|] s1] eqn:E; [|reflexivity]. rewrite <- (eval_skip r). destruct (skip_parentheses r); try discriminate. injection D as ->. cbn [eval].
    destruct (Y _ _ _ E) as [(y & ->)|N]; [rewrite lit_eq; reflexivity|]. rewrite null_eq by auto. destruct N as [-> | ->]; reflexivity.
  - rewrite <- (eval_skip l). destruct (skip_parentheses l); try discriminate. injection D as ->. cbn [eval]. destruct (ev r s) as [[x|] s1] eqn:E; [|reflexivity].
    destruct (Y _ _ _ E) as [(y & ->)|N].
    + rewrite lit_eq. cbn [compared]. destruct y, v; reflexivity.
    + rewrite null_eq' by auto. destruct N as [-> | ->]; reflexivity.
Qed.
Lemma eval_par k t s : ev (plug (repeat FPar k) t) s = ev t s.
Proof. revert t. induction k as [|k IH]; intros t; [reflexivity|]. cbn [repeat plug]. rewrite IH. reflexivity. Qed.
Lemma new_value (under neg v nul : bool) e k cmp : yields (fun x => boolish x \/ (nul = true /\ nullish x)) e ->
  (forall s, ev cmp s = compared neg v (ev e s)) ->
  let n := Bool.eqb (negb (Bool.eqb neg v)) under in
  (nul = false \/ v = false \/ n = true ->
   forall s, ev (if under then Not (plug (repeat FPar k) cmp) else cmp) s = ev (new_tree n (nul && negb v) e) s) /\
  (forall s, same_truth (ev (if under then Not (plug (repeat FPar k) cmp) else cmp) s) (ev (new_tree n (nul && negb v) e) s)).
Proof.
  intros Y E n. assert (PAR : forall x : bool, forall s, ev (if x then Par e else e) s = ev e s) by (intros []; reflexivity).
  assert (CO : forall x : bool, forall s, ev (Par (Bin OCoalesce (if x then Par e else e) (Lit true))) s = match ev e s with (Some (Undefined | Null), s1) => (Some (Bool true), s1) | r => r end).
  { intros x s. cbn [eval]. rewrite PAR. destruct (ev e s) as [[[]|] ?]; reflexivity. }
  assert (L : forall s, ev (if under then Not (plug (repeat FPar k) cmp) else cmp) s = compared (xorb under neg) v (ev e s)).
  { intros s. destruct under; cbn [eval]; rewrite ?eval_par, E; [|now destruct neg]. destruct (ev e s) as [[[| |[]| | | | | ]|] ?]; destruct neg, v; reflexivity. }
  assert (R : forall s, ev (new_tree n (nul && negb v) e) s = match ev e s with (Some x, s1) => let y := match x with Undefined | Null => if nul && negb v then Bool true else x | _ => x end in (Some (if n then Bool (negb (truthy y)) else y), s1) | r => r end).
  { intros s. unfold new_tree. destruct (nul && negb v).
    - destruct n; [change (ev (Not ?t) s) with (match ev t s with (Some v, s) => (Some (Bool (negb (truthy v))), s) | r => r end)|]; rewrite CO; destruct (ev e s) as [[[]|] ?]; reflexivity.
    - destruct n; [change (ev (Not ?t) s) with (match ev t s with (Some v, s) => (Some (Bool (negb (truthy v))), s) | r => r end)|]; rewrite PAR; destruct (ev e s) as [[[]|] ?]; reflexivity. }
  split.
  - intros X s. rewrite L, R. destruct (ev e s) as [[x|] s1] eqn:EE; [|reflexivity]. unfold n in *. destruct (Y _ _ _ EE) as [(y & ->)|[-> [-> | ->]]]; [destruct under, neg, v, y; reflexivity| |]; destruct X as [X|[X|X]]; try discriminate; try subst v; try (destruct under, neg; reflexivity); destruct under, neg, v; try discriminate; reflexivity.
  - intros s. rewrite L, R. destruct (ev e s) as [[x|] s1] eqn:EE; [|split; reflexivity]. unfold n in *. destruct (Y _ _ _ EE) as [(y & ->)|[-> [-> | ->]]]; [destruct under, neg, v, y; split; reflexivity| |]; destruct under, neg, v; split; reflexivity.
Qed.
Lemma tested_truth c : tested c -> forall t u, (forall s, same_truth (ev t s) (ev u s)) -> forall s, same_truth (ev (plug c t) s) (ev (plug c u) s).
Proof.
  induction 1 as [|c T IH|c|o r c O T IH|o l c O T IH]; intros t u H s; cbn [plug]; auto.
  - assert (X : forall s, ev (Not t) s = ev (Not u) s). { intros s1. cbn [eval]. destruct (H s1) as [A B]. destruct (ev t s1) as [[v|] s2], (ev u s1) as [[w|] s3]; cbn in A, B; try discriminate; subst; [injection A as ->|]; reflexivity. }
    rewrite (eval_plug operand awaited other convert c (Not t) (Not u) X s). split; reflexivity.
  - apply IH. intros s1. cbn [eval]. destruct (H s1) as [A B]. destruct (ev t s1) as [[v|] s2], (ev u s1) as [[w|] s3]; cbn in A, B; try discriminate; subst; [injection A as A|split; reflexivity].
    destruct O as [-> | ->]; rewrite <- A; destruct (truthy v) eqn:V; split; cbn; try reflexivity; congruence.
  - apply IH. intros s1. cbn [eval]. destruct (ev l s1) as [[v|] s2]; [|split; reflexivity]. destruct O as [-> | ->]; destruct (truthy v); auto; split; reflexivity.
Qed.
End Values.
