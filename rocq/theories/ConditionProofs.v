(** Proofs about Condition.v: types, evaluation, positions. *)
From Coq Require Import String Ascii Bool List ZArith Lia Permutation.
From Verif Require Import Base EngineProofs Types Condition ConditionSpec.
Import ListNotations.
Open Scope Z_scope.

Fixpoint sty_ind' (P : sty -> Prop)
  (leaf : forall x, (match x with SInter _ | SUnion _ _ => False | _ => True end) -> P x)
  (inter : forall l, Forall P l -> P (SInter l)) (uni : forall s l, Forall P l -> P (SUnion s l)) (x : sty) : P x :=
  let go := fix go l : Forall P l := match l with [] => Forall_nil P | y :: r => Forall_cons y (sty_ind' P leaf inter uni y) (go r) end in
  match x with
  | SInter l => inter l (go l)
  | SUnion s l => uni s l (go l)
  | y => leaf y ltac:(first [exact I | idtac])
  end.

(** ** Lists of types *)
Lemma union_values s l v : holds (SUnion s l) v <-> exists y, In y l /\ holds y v.
Proof.
  cbn [holds]. induction l as [|y r IH]; [split; [tauto | now intros [y [[] _]]]|]. rewrite IH. split.
  - intros [H | [z [I H]]]; [exists y; now split; [left|] | exists z; now split; [right|]].
  - intros [z [[-> | I] H]]; [now left | right; now exists z].
Qed.
Lemma inter_values l v : holds (SInter l) v <-> forall y, In y l -> holds y v.
Proof.
  cbn [holds]. induction l as [|y r IH]; [split; [now intros _ y [] | tauto]|]. rewrite IH. split.
  - intros [A B] z [<- | I]; [exact A | now apply B].
  - intros A. split; [apply A; now left | intros z I; apply A; now right].
Qed.
Lemma bigs_all s l : bigs (SUnion s l) <-> forall y, In y l -> bigs y.
Proof.
  cbn [bigs]. induction l as [|y r IH]; [split; [now intros _ y [] | tauto]|]. rewrite IH. split.
  - intros [A B] z [<- | I]; [exact A | now apply B].
  - intros A. split; [apply A; now left | intros z I; apply A; now right].
Qed.
Lemma bigs_inter l : bigs (SInter l) <-> forall y, In y l -> bigs y.
Proof. exact (bigs_all None l). Qed.
Lemma solid_all s l : solid (SUnion s l) <-> forall y, In y l -> solid y.
Proof.
  cbn [solid]. induction l as [|y r IH]; [split; [now intros _ y [] | tauto]|]. rewrite IH. split.
  - intros [A B] z [<- | I]; [exact A | now apply B].
  - intros A. split; [apply A; now left | intros z I; apply A; now right].
Qed.
Lemma solid_some l : solid (SInter l) <-> exists y, In y l /\ solid y.
Proof.
  cbn [solid]. induction l as [|y r IH]; [split; [tauto | now intros [y [[] _]]]|]. rewrite IH. split.
  - intros [H | [z [I H]]]; [exists y; now split; [left|] | exists z; now split; [right|]].
  - intros [z [[-> | I] H]]; [now left | right; now exists z].
Qed.
Lemma definite_all s l : definite (SUnion s l) <-> forall y, In y l -> definite y.
Proof.
  cbn [definite]. induction l as [|y r IH]; [split; [now intros _ y [] | tauto]|]. rewrite IH. split.
  - intros [A B] z [<- | I]; [exact A | now apply B].
  - intros A. split; [apply A; now left | intros z I; apply A; now right].
Qed.
Lemma flat_all s l : flat (SUnion s l) <-> forall y, In y l -> flat y.
Proof.
  cbn [flat]. induction l as [|y r IH]; [split; [now intros _ y [] | tauto]|]. rewrite IH. split.
  - intros [A B] z [<- | I]; [exact A | now apply B].
  - intros A. split; [apply A; now left | intros z I; apply A; now right].
Qed.

Lemma full_all s l : full (SUnion s l) <-> forall y, In y l -> full y.
Proof.
  cbn [full]. induction l as [|y r IH]; [split; [now intros _ y [] | tauto]|]. rewrite IH. split.
  - intros [A B] z [<- | I]; [exact A | now apply B].
  - intros A. split; [apply A; now left | intros z I; apply A; now right].
Qed.
Lemma full_inter l : full (SInter l) <-> l <> [] /\ forall y, In y l -> full y.
Proof. rewrite <- (full_all None l). reflexivity. Qed.

Lemma eq_text_eq x y : eq_text x y = true <-> x = y.
Proof.
  revert y. induction x as [|a x IH]; intros [|c y]; cbn; try (split; congruence).
  rewrite andb_true_iff, IH, Z.eqb_eq. split; [intros [-> ->]; reflexivity | intros E; now injection E].
Qed.
Lemma eq_text_refl x : eq_text x x = true.
Proof. now apply eq_text_eq. Qed.

Ltac fk := first [eexists; constructor | (let k := fresh in let H := fresh in intros [k H]; inversion H; fail)].

Section Check.
Variable number : sty -> Z.
Notation chk := (checked number).

Lemma check_union s l :
  check_type (chk (SUnion s l)) = (forallb (fun y => fst (check_type (chk y))) l, forallb (fun y => snd (check_type (chk y))) l).
Proof.
  change (check_type (chk (SUnion s l))) with
    ((fix all l tr fa := match l with [] => (tr, fa) | x :: l => let '(xt, xf) := check_type x in all l (tr && xt) (fa && xf) end)
       (map chk l) true true).
  assert (G : forall l tr fa, (fix all l tr fa := match l with [] => (tr, fa) | x :: l => let '(xt, xf) := check_type x in all l (tr && xt) (fa && xf) end)
       (map chk l) tr fa = (tr && forallb (fun y => fst (check_type (chk y))) l, fa && forallb (fun y => snd (check_type (chk y))) l)).
  { induction l0 as [|y r IH]; intros tr fa; cbn [map forallb]; [now rewrite !andb_true_r|].
    destruct (check_type (chk y)) as [xt xf]. rewrite IH. cbn [fst snd]. now rewrite !andb_assoc. }
  now rewrite G.
Qed.
Lemma check_inter l :
  check_type (chk (SInter l)) =
    (if existsb (fun y => snd (check_type (chk y))) l then (false, true) else (forallb (fun y => fst (check_type (chk y))) l, false)).
Proof.
  change (check_type (chk (SInter l))) with
    ((fix all l tr := match l with [] => (tr, false) | x :: l => let '(xt, xf) := check_type x in if xf then (false, true) else all l (tr && xt) end)
       (map chk l) true).
  assert (G : forall l tr, (fix all l tr := match l with [] => (tr, false) | x :: l => let '(xt, xf) := check_type x in if xf then (false, true) else all l (tr && xt) end)
       (map chk l) tr = (if existsb (fun y => snd (check_type (chk y))) l then (false, true) else (tr && forallb (fun y => fst (check_type (chk y))) l, false))).
  { induction l0 as [|y r IH]; intros tr; cbn [map forallb existsb]; [now rewrite andb_true_r|].
    destruct (check_type (chk y)) as [xt [|]]; cbn [snd fst orb]; [reflexivity|]. rewrite IH. now rewrite andb_assoc. }
  now rewrite G.
Qed.

(** The verdict on a type that is no union or intersection. *)
Definition leaf_verdict (x : sty) : bool * bool :=
  match x with
  | SNever | SNull | SUndefined | SVoid => (false, true)
  | SObject _ | SWeak _ | SSymbol | SUnique _ _ => (true, false)
  | SBool v => (v, negb v)
  | SStr s | SEnumStr _ s => (negb (eq_text s []), eq_text s [])
  | SNum s | SEnumNum _ s => let z := eq_text s [48] || eq_text s [78; 97; 78] in (negb z, z)
  | SBig _ s => let z := eq_text s [48] || eq_text s [48; 110] in (negb z, z)
  | _ => (false, false)
  end.
Lemma check_leaf_type x : (match x with SInter _ | SUnion _ _ => False | _ => True end) -> check_type (chk x) = leaf_verdict x.
Proof.
  destruct x; intros H; try destruct H; try reflexivity.
  - destruct x; reflexivity.
  - change (check_type (chk (SStr s))) with (if eq_text s [] then (false, true) else (true, false)). cbn [leaf_verdict]. now destruct (eq_text s []).
  - change (check_type (chk (SNum s))) with (if eq_text s [48] || eq_text s [78; 97; 78] then (false, true) else (true, false)). cbn [leaf_verdict]. now destruct (eq_text s [48] || _).
  - change (check_type (chk (SBig n s))) with (if eq_text s [48] || eq_text s [48; 110] then (false, true) else (true, false)). cbn [leaf_verdict]. now destruct (eq_text s [48] || _).
  - change (check_type (chk (SEnumStr name s))) with (if eq_text s [] then (false, true) else (true, false)). cbn [leaf_verdict]. now destruct (eq_text s []).
  - change (check_type (chk (SEnumNum name s))) with (if eq_text s [48] || eq_text s [78; 97; 78] then (false, true) else (true, false)). cbn [leaf_verdict]. now destruct (eq_text s [48] || _).
Qed.

Lemma falsy_or v : is_falsy v \/ ~ is_falsy v.
Proof.
  destruct v as [| |x|s|s|n|n|n].
  - left. eexists. constructor.
  - left. eexists. constructor.
  - destruct x; [right; intros [k H]; inversion H | left; eexists; constructor].
  - destruct s; [left; eexists; constructor | right; intros [k H]; inversion H].
  - destruct (list_eq_dec Z.eq_dec s [48]) as [->|A]; [left; eexists; constructor|].
    destruct (list_eq_dec Z.eq_dec s [78; 97; 78]) as [->|B]; [left; eexists; constructor|]. right. intros [k H]. inversion H; subst; tauto.
  - destruct (Z.eq_dec n 0) as [->|A]; [left; eexists; constructor | right; intros [k H]; inversion H; subst; tauto].
  - right. intros [k H]. inversion H.
  - right. intros [k H]. inversion H.
Qed.

Lemma leaf_sound x v : (match x with SInter _ | SUnion _ _ => False | _ => True end) -> bigs x -> holds x v ->
  (snd (leaf_verdict x) = true -> is_falsy v) /\ (fst (leaf_verdict x) = true -> solid x -> ~ is_falsy v).
Proof.
  intros L B H.
  destruct x; try destruct L; cbn [holds] in H; cbn [leaf_verdict fst snd];
    try (split; [discriminate|discriminate]); try (now destruct H);
    try (subst; split; [intros _; eexists; constructor | discriminate]).
  - subst. destruct x; split; intros E; try discriminate; [intros _; fk | fk].
  - subst. destruct s; cbn; split; intros E; try discriminate; [fk | intros _; fk].
  - subst. destruct (eq_text s [48]) eqn:Z0; [apply eq_text_eq in Z0; subst; split; [intros _; fk | discriminate]|].
    destruct (eq_text s [78; 97; 78]) eqn:Z1; [apply eq_text_eq in Z1; subst; split; [intros _; fk | discriminate]|].
    split; [discriminate|]. intros _ _ [k F]. inversion F; subst; discriminate.
  - subst. cbn [bigs] in B. destruct (eq_text s [48] || eq_text s [48; 110]) eqn:Z0; split; intros E; try discriminate.
    + assert (n = 0) as -> by (apply B; apply orb_true_iff in Z0 as [Z0|Z0]; apply eq_text_eq in Z0; tauto). fk.
    + intros _ [k F]. inversion F; subst. destruct (proj1 B eq_refl) as [-> | ->]; discriminate.
  - subst. destruct s; cbn; split; intros E; try discriminate; [fk | intros _; fk].
  - subst. destruct (eq_text s [48]) eqn:Z0; [apply eq_text_eq in Z0; subst; split; [intros _; fk | discriminate]|].
    destruct (eq_text s [78; 97; 78]) eqn:Z1; [apply eq_text_eq in Z1; subst; split; [intros _; fk | discriminate]|].
    split; [discriminate|]. intros _ _ [k F]. inversion F; subst; discriminate.
  - destruct H as [m ->]. split; [discriminate|]. intros _ _. fk.
  - subst. split; [discriminate|]. intros _ _. fk.
  - destruct H as [m ->]. split; [discriminate|]. intros _ _. fk.
Qed.

Lemma check_sound x v : bigs x -> holds x v ->
  (snd (check_type (chk x)) = true -> is_falsy v) /\ (fst (check_type (chk x)) = true -> solid x -> ~ is_falsy v).
Proof.
  induction x as [x L | l IH | s l IH] using sty_ind'; intros B H.
  - rewrite (check_leaf_type x L). now apply leaf_sound.
  - rewrite check_inter. rewrite inter_values in H. rewrite bigs_inter in B. rewrite Forall_forall in IH.
    destruct (existsb _ l) eqn:E; cbn [fst snd]; split; try discriminate.
    + intros _. apply existsb_exists in E as [y [I E]]. now apply (IH y I (B y I) (H y I)).
    + intros F S. apply solid_some in S as [y [I S]]. rewrite forallb_forall in F. now apply (IH y I (B y I) (H y I)); [apply F|].
  - rewrite check_union. cbn [fst snd]. apply union_values in H as [y [I H]]. rewrite bigs_all in B. rewrite Forall_forall in IH.
    destruct (IH y I (B y I) H) as [P Q]. rewrite !forallb_forall. split.
    + intros F. apply P, F, I.
    + intros F S. rewrite solid_all in S. apply Q; [apply F, I | apply S, I].
Qed.
End Check.

(** The verdict is exact for types without intersections. *)
Section Exact.
Variable number : sty -> Z.
Notation chk := (checked number).

Lemma leaf_exact x : (match x with SInter _ | SUnion _ _ => False | _ => True end) -> flat x -> bigs x ->
  ((forall v, holds x v -> ~ is_falsy v) -> fst (leaf_verdict x) = true) /\ ((forall v, holds x v -> is_falsy v) -> snd (leaf_verdict x) = true).
Proof.
  intros L F B.
  destruct x; try destruct L; try destruct F; cbn [leaf_verdict fst snd holds].
  - split; [intros H; exfalso; apply (H Null eq_refl); fk | reflexivity].
  - split; [intros H; exfalso; apply (H Undefined eq_refl); fk | reflexivity].
  - split; [intros H; exfalso; apply (H Undefined eq_refl); fk | reflexivity].
  - destruct x; split; intros H; try reflexivity; exfalso; [destruct (H _ eq_refl) as [k E]; inversion E | apply (H _ eq_refl); fk].
  - split; intros H; exfalso; [apply (H (Str [])); [now eexists | fk] | destruct (H (Str [65])) as [k E]; [now eexists | inversion E]].
  - destruct s; cbn; split; intros H; try reflexivity; exfalso; [apply (H _ eq_refl); fk | destruct (H _ eq_refl) as [k E]; inversion E].
  - split; intros H; exfalso; [apply (H (Str [])); [now eexists | fk] | destruct (H (Str [65])) as [k E]; [now eexists | inversion E]].
  - split; intros H; exfalso; [apply (H (Num [48])); [now eexists | fk] | destruct (H (Num [49])) as [k E]; [now eexists | inversion E]].
  - destruct (eq_text s [48] || eq_text s [78; 97; 78]) eqn:E; split; intros H; try reflexivity; exfalso.
    + apply orb_true_iff in E as [E|E]; apply eq_text_eq in E; subst; apply (H _ eq_refl); fk.
    + apply orb_false_iff in E as [E1 E2]. destruct (H _ eq_refl) as [k G]. inversion G; subst; discriminate.
  - split; intros H; exfalso; [apply (H (Big 0)); [now eexists | fk] | destruct (H (Big 1)) as [k E]; [now eexists | inversion E]].
  - cbn [bigs] in B. destruct (eq_text s [48] || eq_text s [48; 110]) eqn:E; split; intros H; try reflexivity; exfalso.
    + assert (n = 0) as -> by (apply B; apply orb_true_iff in E as [Z0|Z0]; apply eq_text_eq in Z0; tauto). apply (H _ eq_refl). fk.
    + destruct (H _ eq_refl) as [k G]. inversion G; subst. destruct (proj1 B eq_refl) as [-> | ->]; discriminate.
  - destruct s; cbn; split; intros H; try reflexivity; exfalso; [apply (H _ eq_refl); fk | destruct (H _ eq_refl) as [k E]; inversion E].
  - destruct (eq_text s [48] || eq_text s [78; 97; 78]) eqn:E; split; intros H; try reflexivity; exfalso.
    + apply orb_true_iff in E as [E|E]; apply eq_text_eq in E; subst; apply (H _ eq_refl); fk.
    + apply orb_false_iff in E as [E1 E2]. destruct (H _ eq_refl) as [k G]. inversion G; subst; discriminate.
  - split; intros H; exfalso; [apply (H (Num [48])); [now eexists | fk] | destruct (H (Num [49])) as [k E]; [now eexists | inversion E]].
  - split; [reflexivity | intros H; exfalso; destruct (H (Sym 0)) as [k E]; [now eexists | inversion E]].
  - split; [reflexivity | intros H; exfalso; destruct (H _ eq_refl) as [k E]; inversion E].
  - split; [reflexivity | intros H; exfalso; destruct (H (Obj 0)) as [k E]; [now eexists | inversion E]].
  - split; intros H; exfalso; [apply (H (Str [])); [left; now eexists | fk] | destruct (H (Str [65])) as [k E]; [left; now eexists | inversion E]].
Qed.
Lemma check_exact x : flat x -> bigs x ->
  (fst (check_type (chk x)) = true <-> forall v, holds x v -> ~ is_falsy v) /\ (snd (check_type (chk x)) = true <-> forall v, holds x v -> is_falsy v).
Proof.
  intros F B.
  assert (S : solid x).
  { clear B. induction x as [x L | l IH | s l IH] using sty_ind'; [destruct x; try exact I; try destruct F; destruct L | destruct F |].
    rewrite flat_all in F. rewrite solid_all. rewrite Forall_forall in IH. auto. }
  assert (C : ((forall v, holds x v -> ~ is_falsy v) -> fst (check_type (chk x)) = true) /\ ((forall v, holds x v -> is_falsy v) -> snd (check_type (chk x)) = true)).
  { clear S. induction x as [x L | l IH | s l IH] using sty_ind'.
    - rewrite (check_leaf_type number x L). now apply leaf_exact.
    - destruct F.
    - rewrite flat_all in F. rewrite bigs_all in B. rewrite Forall_forall in IH. rewrite check_union. cbn [fst snd]. rewrite !forallb_forall.
      split; intros H y I; apply (IH y I (F y I) (B y I)); intros v Hv; apply H; apply union_values; now exists y. }
  split; (split; [intros E v H | apply C]); now apply (check_sound number x v B H).
Qed.

(** ** Nullishness *)
Lemma nullish_union s l : is_nullish (chk (SUnion s l)) = existsb (fun y => is_nullish (chk y)) l.
Proof.
  change (is_nullish (chk (SUnion s l))) with ((fix any l := match l with [] => false | x :: l => is_nullish x || any l end) (map chk l)).
  induction l as [|y r IH]; [reflexivity|]. cbn [map existsb]. now rewrite IH.
Qed.
Lemma necessary_leaf x : (match x with SUnion _ _ => False | _ => True end) ->
  always_necessary (chk x) = match x with SAny | SUnknown | SParam _ => true | _ => false end.
Proof. destruct x; intros H; try destruct H; reflexivity. Qed.
Lemma necessary_union s l : always_necessary (chk (SUnion s l)) = existsb (fun y => match y with SAny | SUnknown | SParam _ => true | _ => false end) l.
Proof.
  change (always_necessary (chk (SUnion s l))) with (existsb (fun p => is_set p (FAny :: FUnknown :: TypeVariable)) (map chk l)).
  induction l as [|y r IH]; [reflexivity|]. cbn [map existsb]. rewrite IH. f_equal. destruct y; reflexivity.
Qed.

(** Nothing of [any] or the like in a union of unions. *)
Fixpoint known (x : sty) : Prop :=
  match x with
  | SAny | SUnknown | SParam _ => False
  | SUnion _ l => (fix all l := match l with [] => True | y :: r => known y /\ all r end) l
  | _ => True
  end.
Lemma known_all s l : known (SUnion s l) <-> forall y, In y l -> known y.
Proof.
  cbn [known]. induction l as [|y r IH]; [split; [now intros _ y [] | tauto]|]. rewrite IH. split.
  - intros [A B] z [<- | I]; [exact A | now apply B].
  - intros A. split; [apply A; now left | intros z I; apply A; now right].
Qed.
Lemma known_of x : level x -> always_necessary (chk x) = false -> known x.
Proof.
  intros L N. destruct x; try (rewrite necessary_leaf in N by exact I; try discriminate; exact I).
  rewrite necessary_union in N. apply known_all. intros y M. specialize (L y M). destruct y; try exact I; try destruct L; exfalso;
    (assert (T : existsb (fun y => match y with SAny | SUnknown | SParam _ => true | _ => false end) l = true)
      by (apply existsb_exists; eexists; split; [exact M | reflexivity])); rewrite T in N; discriminate.
Qed.
Lemma never_nullish x v : known x -> definite x -> is_nullish (chk x) = false -> holds x v -> ~ nullish v.
Proof.
  induction x as [x L | l IH | s l IH] using sty_ind'; intros K D N H.
  - intros [-> | ->]; destruct x; cbn in H, N, K, L; try discriminate; try tauto; try (now destruct H); try (destruct H as [? | [? | ?]]); firstorder discriminate.
  - cbn [definite] in D. destruct D as [y [I [A C]]]. rewrite inter_values in H. intros [-> | ->]; [apply A | apply C]; now apply H.
  - rewrite nullish_union in N. apply union_values in H as [y [I H]]. rewrite known_all in K. rewrite definite_all in D. rewrite Forall_forall in IH.
    apply (IH y I); auto. destruct (is_nullish (chk y)) eqn:E; [|reflexivity]. rewrite <- N. symmetry. apply existsb_exists. now exists y.
Qed.
Lemma has_nullish x : is_nullish (chk x) = true -> (exists v, holds x v /\ nullish v).
Proof.
  induction x as [x L | l IH | s l IH] using sty_ind'; intros N.
  - destruct x; try discriminate; try destruct L; [exists Null | exists Undefined | exists Undefined]; (split; [reflexivity | (now left) || now right]).
  - discriminate.
  - rewrite nullish_union in N. apply existsb_exists in N as [y [I N]]. rewrite Forall_forall in IH. destruct (IH y I N) as [v [H V]]. exists v. split; [|exact V].
    apply union_values. now exists y.
Qed.
Lemma always_nullish_sound x v : always_nullish (chk x) = true -> holds x v -> nullish v.
Proof. destruct x; try discriminate; intros _ H; cbn in H; subst; (now left) || now right. Qed.
Lemma never_empty x v : is_set (chk x) [FNever] = true -> ~ holds x v.
Proof. destruct x; try discriminate. now intros _ []. Qed.
End Exact.

(** ** Comparisons *)
Section Comparable.
Variable number : sty -> Z.
Notation chk := (checked number).
Variable o : relation.
Variable mask : list flag.

Lemma comparable_union s l : existsb (flag_eqb FUnion) mask = false ->
  comparable o mask (chk (SUnion s l)) = existsb (fun y => comparable o mask (chk y)) l.
Proof.
  intros M.
  assert (E : is_set (chk (SUnion s l)) (mask ++ [FAny; FUnknown; FTypeParameter] ++ TypeVariable ++ (if loose o then Nullish else [])) = false).
  { unfold is_set. cbn [checked t_flags existsb]. rewrite orb_false_r, !existsb_app, M. now destruct (loose o). }
  cbn [checked comparable] in *. rewrite E. cbn [is_set t_flags existsb is_union].
  change ((fix any l := match l with [] => false | x :: l => comparable o mask x || any l end) (map chk l) = existsb (fun y => comparable o mask (chk y)) l).
  clear. induction l as [|y r IH]; [reflexivity|]. cbn [map existsb]. now rewrite IH.
Qed.
Lemma comparable_inter l : existsb (flag_eqb FIntersection) mask = false -> l <> [] ->
  comparable o mask (chk (SInter l)) = forallb (fun y => comparable o mask (chk y)) l.
Proof.
  intros M Q.
  assert (E : is_set (chk (SInter l)) (mask ++ [FAny; FUnknown; FTypeParameter] ++ TypeVariable ++ (if loose o then Nullish else [])) = false).
  { unfold is_set. cbn [checked t_flags existsb]. rewrite orb_false_r, !existsb_app, M. now destruct (loose o). }
  cbn [checked comparable] in *. rewrite E. cbn [is_set t_flags existsb is_union is_intersection].
  destruct l as [|a l]; [tauto|]. cbn [map].
  change ((fix all l := match l with [] => true | x :: l => comparable o mask x && all l end) (map chk (a :: l)) = forallb (fun y => comparable o mask (chk y)) (a :: l)).
  generalize (a :: l). clear. induction l as [|y r IH]; [reflexivity|]. cbn [map forallb]. now rewrite IH.
Qed.
Lemma comparable_leaf x : (match x with SInter _ | SUnion _ _ => False | _ => True end) ->
  comparable o mask (chk x) =
    is_set (chk x) (mask ++ [FAny; FUnknown; FTypeParameter] ++ TypeVariable ++ (if loose o then Nullish else [])).
Proof.
  intros L. destruct x; try destruct L; cbn [checked comparable];
    try (match goal with |- context [SParam] => unfold is_set; cbn [t_flags existsb]; rewrite !orb_false_r, !existsb_app; cbn; rewrite orb_true_r; reflexivity end);
    match goal with |- (if ?c then _ else _) = ?d => change d with c; destruct c; reflexivity end.
Qed.
End Comparable.

Section Apart.
Variables (number : sty -> Z) (o : relation).
Notation chk := (checked number).

(** A type that cannot be compared with undefined has no undefined, and no null when compared loosely; and so on. *)
Lemma apart mask x v : existsb (flag_eqb FUnion) mask = false -> existsb (flag_eqb FIntersection) mask = false ->
  comparable o mask (chk x) = false -> full x -> holds x v ->
  (v = Undefined -> loose o = false /\ existsb (flag_eqb FUndefined) mask && existsb (flag_eqb FVoid) mask = false) /\
  (v = Null -> loose o = false /\ existsb (flag_eqb FNull) mask = false).
Proof.
  intros MU MI. induction x as [x L | l IH | s l IH] using sty_ind'; intros C D H.
  - rewrite comparable_leaf in C by exact L. unfold is_set in C.
    split; intros ->; destruct x; try destruct L; cbn [holds] in H; try discriminate; try (now destruct H); try (destruct H as [? | [? | ?]]); try (now firstorder discriminate);
      cbn [checked t_flags existsb] in C; rewrite orb_false_r, !existsb_app in C;
      repeat match goal with K : _ || _ = false |- _ => apply orb_false_iff in K as [? K] end; try discriminate;
      (split; [destruct (loose o); [discriminate | reflexivity] | first [assumption | apply andb_false_iff; tauto]]).
  - apply full_inter in D as [D F]. rewrite comparable_inter in C by (assumption || reflexivity). rewrite inter_values in H. rewrite Forall_forall in IH.
    assert (exists y, In y l /\ comparable o mask (chk y) = false) as [y [I E]].
    { clear -C. induction l as [|y r IH]; [discriminate|]. cbn [forallb] in C. destruct (comparable o mask (chk y)) eqn:E.
      - destruct (IH C) as [z [I Z]]. exists z. now split; [right|].
      - exists y. now split; [left|]. }
    apply (IH y I E (F y I) (H y I)).
  - rewrite comparable_union in C by assumption. apply union_values in H as [y [I H]]. rewrite full_all in D. rewrite Forall_forall in IH. apply (IH y I); auto.
    destruct (comparable o _ (chk y)) eqn:E; [|reflexivity]. rewrite <- C. symmetry. apply existsb_exists. now exists y.
Qed.
Lemma flat_comparable mask x : existsb (flag_eqb FUnion) mask = false -> loose o = false -> flat x -> comparable o mask (chk x) = true ->
  exists y, (y = x \/ exists s l, x = SUnion s l) /\ (forall v, holds y v -> holds x v) /\ (match y with SUnion _ _ => False | _ => True end) /\ is_set (chk y) mask = true.
Proof.
  intros M O. induction x as [x L | l IH | s l IH] using sty_ind'; intros F C.
  - exists x. split; [now left|]. split; [auto|]. split; [destruct x; auto|]. rewrite comparable_leaf in C by exact L. rewrite O in C. unfold is_set in *.
    destruct x; try destruct L; try destruct F; cbn [checked t_flags existsb] in *;
      rewrite ?orb_false_r, ?orb_true_r, ?existsb_app in *; cbn in C; rewrite ?orb_false_r in C; try exact C.
  - destruct F.
  - rewrite flat_all in F. rewrite comparable_union in C by exact M. apply existsb_exists in C as [y [I C]]. rewrite Forall_forall in IH.
    destruct (IH y I (F y I) C) as [z [_ [H [U Z]]]]. exists z. split; [right; now exists s, l|]. split; [|now split].
    intros v V. apply union_values. exists y. auto.
Qed.
Lemma has_undefined x : loose o = false -> flat x -> comparable o [FUndefined; FVoid] (chk x) = true -> holds x Undefined.
Proof.
  intros O F C. destruct (flat_comparable [FUndefined; FVoid] x eq_refl O F C) as [y [_ [H [U S]]]]. apply H. destruct y; try discriminate; try destruct U; reflexivity.
Qed.
Lemma has_null x : loose o = false -> flat x -> comparable o [FNull] (chk x) = true -> holds x Null.
Proof.
  intros O F C. destruct (flat_comparable [FNull] x eq_refl O F C) as [y [_ [H [U S]]]]. apply H. destruct y; try discriminate; try destruct U; reflexivity.
Qed.
End Apart.

Section Single.
Variable number : sty -> Z.
Notation chk := (checked number).
Lemma static_unit x : static (chk x) = true <-> unit_type x.
Proof. destruct x; try (split; [discriminate | intros []]); try (split; [intros _; exact I | reflexivity]). destruct x; split; reflexivity || (intros; exact I). Qed.
Lemma unit_single x v w : unit_type x -> holds x v -> holds x w -> v = w.
Proof. destruct x; intros U; try destruct U; cbn; congruence. Qed.
Lemma only_undefined x : only FUndefined (chk x) = true <-> x = SUndefined.
Proof. destruct x; split; try discriminate; try reflexivity; intros [=]. Qed.
Lemma only_null x : only FNull (chk x) = true <-> x = SNull.
Proof. destruct x; split; try discriminate; try reflexivity; intros [=]. Qed.
End Single.

(** ** Evaluation *)
Scheme evals_m := Minimality for evals Sort Prop with chain_m := Minimality for chain Sort Prop with link_m := Minimality for link Sort Prop.
Combined Scheme evals_chain_link from evals_m, chain_m, link_m.

Section Trust.
Variables (atom : expr -> value -> Prop) (access : expr -> value -> value -> Prop) (compare : relation -> value -> value -> bool).
Variables (number : sty -> Z) (meaning : expr -> option sty) (type_of : expr -> option ty) (is_array is_tuple : ty -> bool) (unchecked_off : bool).
Notation evals := (evals atom access compare).
Notation chain := (chain atom access compare).
Notation link := (link atom access compare).
Notation typed := (typed meaning).
Notation surprising := (surprising type_of is_array is_tuple unchecked_off).
Notation missing := (missing type_of is_array is_tuple).
Notation cut := (cut type_of is_array is_tuple).
Hypothesis trust : sound atom access compare number meaning type_of is_array is_tuple unchecked_off.

Lemma trusted_all :
  (forall e v, evals e v -> typed e v \/ surprising e /\ v = Undefined) /\
  (forall e r, chain e r -> match r with Some v => typed e v \/ surprising e /\ v = Undefined
     | None => (unchecked_off = true /\ cut e) \/ exists q v, reaches e q /\ evals q v /\ nullish v /\ typed q v end) /\
  (forall x v, link x v -> evals x v /\ (typed x v \/ surprising x /\ v = Undefined)).
Proof.
  apply evals_chain_link.
  - intros e v A V. left. now apply (so_atom _ _ _ _ _ _ _ _ _ trust).
  - intros e v E [IH | [[U M] V]]; [left | right; split; [split; [exact U | now constructor] | exact V]].
    unfold ConditionSpec.typed. now rewrite (so_paren _ _ _ _ _ _ _ _ _ trust).
  - intros e v E IH F. left. apply (so_not _ _ _ _ _ _ _ _ _ trust). eapply ev_not_t; eassumption.
  - intros e v E IH F. left. apply (so_not _ _ _ _ _ _ _ _ _ trust). eapply ev_not_f; eassumption.
  - intros l r v E [IH | [[U M] V]] F; [left; now apply (so_left _ _ _ _ _ _ _ _ _ trust) | right; split; [split; [exact U | now apply m_left] | exact V]].
  - intros l r v w E IH F G [IH' | [[U M] V]]; [left; now apply (so_right _ _ _ _ _ _ _ _ _ trust) | right; split; [split; [exact U | now apply m_right] | exact V]].
  - intros l r v E [IH | [[U M] ->]] F; [left; now apply (so_left _ _ _ _ _ _ _ _ _ trust) | exfalso; apply F; eexists; constructor].
  - intros l r v w E IH F G [IH' | [[U M] V]]; [left; now apply (so_right _ _ _ _ _ _ _ _ _ trust) | right; split; [split; [exact U | now apply m_right] | exact V]].
  - intros l r v E [IH | [[U M] ->]] F; [left; now apply (so_left _ _ _ _ _ _ _ _ _ trust) | exfalso; apply F; now left].
  - intros l r v w E IH F G [IH' | [[U M] V]]; [left; now apply (so_right _ _ _ _ _ _ _ _ _ trust) | right; split; [split; [exact U | now apply m_right] | exact V]].
  - intros o l r v E [IH | [[U M] V]]; [left; now apply (so_assign _ _ _ _ _ _ _ _ _ trust) | right; split; [split; [exact U | now apply m_assign] | exact V]].
  - intros o l r v w E IH G IH'. left. apply (so_compare _ _ _ _ _ _ _ _ _ trust).
  - intros c x y v w E IH F G [IH' | [[U M] V]]; [left; apply (so_cond _ _ _ _ _ _ _ _ _ trust); now left | right; split; [split; [exact U | now apply m_then] | exact V]].
  - intros c x y v w E IH F G [IH' | [[U M] V]]; [left; apply (so_cond _ _ _ _ _ _ _ _ _ trust); now right | right; split; [split; [exact U | now apply m_else] | exact V]].
  - intros e v C IH. exact IH.
  - intros e C [[U M] | [q [v [R [E [V T]]]]]]; [right; split; [split; [exact U | now apply m_cut] | reflexivity]|].
    left. eapply (so_chain _ _ _ _ _ _ _ _ _ trust); eassumption.
  - intros e x o v w L K IH NV A. destruct (so_access _ _ _ _ _ _ _ _ _ trust e v w A) as [T | [U [M W]]]; [now left|]. right. split; [split; [exact U | now constructor] | exact W].
  - intros e x v L K [E [IH | [[U M] _]]] V; [right | left; split; [exact U | now apply (c_here _ _ _ e x)]].
    exists x, v. split; [now constructor|]. split; [exact E|]. split; [exact V|exact IH].
  - intros e x o L C [[U M] | [q [v [R P]]]]; [left; split; [exact U | now apply (c_inside _ _ _ e x o)]|].
    right. exists q, v. split; [now apply (re_inside e x o)|exact P].
  - intros x v C IH. split; [now apply ev_value | exact IH].
  - intros x v L E IH. split; [exact E | exact IH].
Qed.
Lemma meant e t : type_of e = Some t -> exists x, meaning e = Some x /\ t = checked number x.
Proof. rewrite (so_type _ _ _ _ _ _ _ _ _ trust). destruct (meaning e) as [x|]; [|discriminate]. intros E. injection E as <-. now exists x. Qed.
Lemma trusted e v : evals e v -> ~ surprising e -> typed e v.
Proof. intros E N. destruct (proj1 trusted_all e v E) as [T | [S _]]; [exact T | now destruct N]. Qed.
End Trust.
