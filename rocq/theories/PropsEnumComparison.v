(** * C70: no-unsafe-enum-comparison: which comparisons are reported, and what the suggested member compares *)
From Coq Require Import Bool List Arith NArith Lia.
From Verif Require Import EnumComparison EnumComparisonSpec EnumComparisonProofs.
Import ListNotations.

(** A quoted string is a literal that has the string as its value and ends at its last quote, whatever follows. *)
Theorem C70_quote : forall s r, exists t, quote s ++ r = 39%N :: t /\ scan t = Some (s, r).
Proof. intros s r. exists (flat_map quote_char s ++ 39%N :: r). split; [|apply scan_quote]. unfold quote. cbn [app]. now rewrite <- app_assoc. Qed.
Print Assumptions C70_quote.
(** It has no control characters and no line terminators. *)
Theorem C70_quote_line : forall s x, In x (quote s) -> (32 <= x)%N /\ x <> 133%N /\ x <> 8232%N /\ x <> 8233%N.
Proof.
  intros s x [<-|H]; [lia|]. apply in_app_iff in H as [H|[<-|[]]]; [|lia]. apply in_flat_map in H as [c [_ H]]. exact (quote_char_safe c x H).
Qed.
Print Assumptions C70_quote_line.
Example C70_quote_example : quote [97; 39; 10; 1; 8232]%N = [39; 97; 92; 39; 92; 110; 92; 117; 48; 48; 48; 49; 92; 117; 50; 48; 50; 56; 39]%N.
Proof. reflexivity. Qed.

(** A comparison is reported exactly if there is an enum, no enum and no part of a union is shared, and one side has an enum whose values are like all of the other side. *)
Theorem C70_reported : forall l r, mismatched l r = true <->
  ((exists p, (In p l \/ In p r) /\ enum_literal p = true) /\ ~ shares_enum l r /\ ~ shares_part l r /\ (like_all l r \/ like_all r l)).
Proof. exact mismatched_spec. Qed.
Print Assumptions C70_reported.
(** The order of the operands makes no difference. *)
Theorem C70_symmetric : forall l r, mismatched l r = mismatched r l.
Proof.
  assert (forall l r, mismatched l r = true -> mismatched r l = true) as E.
  { intros l r H. apply mismatched_spec in H as [[p [I' L]] [S1 [S2 K]]]. apply mismatched_spec. split; [exists p; tauto|]. split; [|split; [|tauto]].
    - intros [a [c [A [C [LA [LC B]]]]]]. apply S1. exists c, a. auto 6.
    - intros [a [c [A [C B]]]]. apply S2. exists c, a. auto. }
  intros l r. destruct (mismatched l r) eqn:A, (mismatched r l) eqn:B; try reflexivity; [apply E in A|apply E in B]; congruence.
Qed.
Print Assumptions C70_symmetric.
(** A type compared with itself, or with a wider one, is never reported. *)
Theorem C70_same : forall l r, l <> [] -> (forall p, In p l -> In p r) -> mismatched l r = false.
Proof.
  intros l r N S. destruct (mismatched l r) eqn:M; [|reflexivity]. exfalso. apply mismatched_spec in M as [_ [_ [H _]]]. apply H. destruct l as [|p l]; [contradiction|].
  exists p, p. split; [now left|]. split; [apply S; now left|reflexivity].
Qed.
Print Assumptions C70_same.
Definition number_member (i e : nat) : part := {| id := i; enum_like := true; enum_literal := true; number_literal := true; number_like := true; string_like := false; base := e |}.
Definition string_ (i : nat) : part := {| id := i; enum_like := false; enum_literal := false; number_literal := false; number_like := false; string_like := true; base := i |}.
Definition number_ (i : nat) : part := {| id := i; enum_like := false; enum_literal := false; number_literal := true; number_like := true; string_like := false; base := i |}.
(** A member of an enum whose value is computed: the flag Enum only. *)
Definition computed_member (i : nat) : part := {| id := i; enum_like := true; enum_literal := false; number_literal := false; number_like := true; string_like := false; base := i |}.
(** Fruit.Apple === 1, Fruit.Apple === Fruit.Banana, Fruit.Apple === Vegetable.Lettuce, Fruit.Apple === ''. *)
Example C70_reported_example : mismatched [number_member 1 0] [number_ 2] = true /\ mismatched [number_member 1 0] [number_member 3 0] = false /\
  mismatched [number_member 1 0] [number_member 4 9] = true /\ mismatched [number_member 1 0] [string_ 2] = false.
Proof. repeat split. Qed.
(** Members with computed values are numbers, but are taken for strings: with a union of one and of another enum of numbers, a comparison with a string is reported; with the computed member alone, one with a number is not. *)
Theorem C70_computed_refuted : exists l r, (forall p, In p l -> number_like p = true /\ string_like p = false) /\ (forall q, In q r -> string_like q = true /\ enum_like q = false) /\ mismatched l r = true /\
  exists c n, In c l /\ enum_like c = true /\ number_like n = true /\ id c <> id n /\ mismatched [c] [n] = false.
Proof.
  exists [computed_member 1; number_member 2 0], [string_ 3]. split; [intros p [<-|[<-|[]]]; auto|]. split; [intros q [<-|[]]; auto|]. split; [reflexivity|].
  exists (computed_member 1), (number_ 5). repeat split; [now left|discriminate].
Qed.
Print Assumptions C70_computed_refuted.

Section Numbers.
Context {Nu Q : Type} (neg : Nu -> Nu) (add : Nu -> Nu -> Nu) (num_eqb : Nu -> Nu -> bool) (num_str : Nu -> str) (is_identifier : str -> bool).
(** A static value is the value the operand has, for literals, signs of numbers, sums and concatenations of these. *)
Theorem C70_static : forall (e : operand Nu Q) v, static_value neg add num_str e = Some v <-> evaluates neg add num_str e v.
Proof. exact (static_spec neg add num_str). Qed.
(** The text after the qualifier accesses the member. *)
Theorem C70_suffix : forall literal n s, named is_identifier literal n s -> denotes is_identifier literal (suffix is_identifier n) = Some s.
Proof. exact (suffix_denotes is_identifier). Qed.

(** There is a suggestion exactly if one side is static and a member of the enums of the other side has its value, a name, and an enum that can be written. *)
Theorem C70_offered : forall type_text scope (l r : operand Nu Q) ll rl,
  (exists k, suggestion neg add num_eqb num_str is_identifier type_text scope l r ll rl = Some k) <->
  ((exists v m, evaluates neg add num_str r v /\ In (Some m) ll /\ fits num_eqb m v /\ reachable is_identifier type_text scope l (decl m)) \/
   (exists v m, evaluates neg add num_str l v /\ In (Some m) rl /\ fits num_eqb m v /\ reachable is_identifier type_text scope r (decl m))).
Proof.
  intros type_text scope l r ll rl.
  assert (forall (e side : operand Nu Q) literals, (exists k, match static_value neg add num_str e with Some v => enum_key num_eqb is_identifier type_text scope side literals v | None => None end = Some k) <->
    exists v m, evaluates neg add num_str e v /\ In (Some m) literals /\ fits num_eqb m v /\ reachable is_identifier type_text scope side (decl m)) as K.
  { intros e side literals. destruct (static_value neg add num_str e) as [v|] eqn:S.
    - rewrite (key_found (Q := Q) num_eqb is_identifier). split.
      + intros [m H]. exists v, m. split; [now apply static_spec|exact H].
      + intros [v' [m [E H]]]. apply static_spec in E. assert (v' = v) as -> by congruence. eauto.
    - split; [intros [k H]; discriminate|]. intros [v [m [E _]]]. apply static_spec in E. congruence. }
  rewrite <- !K. unfold suggestion. destruct (match static_value neg add num_str r with Some v => enum_key num_eqb is_identifier type_text scope l ll v | None => None end) as [k|].
  - split; [left; eauto|eauto].
  - destruct (match static_value neg add num_str l with Some v => enum_key num_eqb is_identifier type_text scope r rl v | None => None end) as [k|].
    + split; [right; eauto|eauto].
    + split; [intros [k H]; discriminate|intros [[k H]|[k H]]; discriminate].
Qed.
(** The name that is written for a type is a name, with dots or of the enum in scope. *)
Theorem C70_name : forall type_text scope d (q : qualifier Q), from_type is_identifier type_text scope d = Some q ->
  q = FromType (type_text d) /\ dotted is_identifier (type_text d) /\ (In 46%N (type_text d) \/ In (type_text d, Some d) scope).
Proof.
  intros type_text scope d q H. split; [exact (proj1 (type_spec is_identifier type_text scope d q H))|]. apply (from_type_spec (Q := Q)). eauto.
Qed.

Section Run.
Context {W V : Type} (of_static : static Nu -> V) (run : operand Nu Q -> W -> option V * W) (run_qualifier : qualifier Q -> W -> option nat * W) (field : nat -> str -> V) (cmp : V -> V -> bool) (literal : str -> option str).
Notation key_runs := (run_key is_identifier run_qualifier field literal).

Lemma key_runs_value : forall type_text scope side literals v q s,
  (forall m c n, In (Some m) literals -> constant m = Some c -> named is_identifier literal (m_name m) n -> field (decl m) n = of_static c) ->
  (forall m, In (Some m) literals -> m_name m <> NOther -> exists n, named is_identifier literal (m_name m) n) ->
  (forall q d, accesses side q d -> forall w, run_qualifier (FromAccess q) w = (Some d, w)) ->
  (forall m, In (Some m) literals -> In 46%N (type_text (decl m)) \/ In (type_text (decl m), Some (decl m)) scope -> forall w, run_qualifier (FromType (type_text (decl m))) w = (Some (decl m), w)) ->
  enum_key num_eqb is_identifier type_text scope side literals v = Some (q, s) ->
  exists c, matches num_eqb (Some c) v = true /\ forall w o w', key_runs (q, s) w o w' <-> o = Some (of_static c) /\ w' = w.
Proof.
  intros type_text scope side literals v q s F Nm A Ty H. apply key_spec in H as [m [I' [M [S' [NO D]]]]]. destruct (constant m) as [c|] eqn:C; [|destruct v; discriminate]. exists c. split; [exact M|].
  destruct (Nm m I' NO) as [n Nn]. pose proof (suffix_denotes is_identifier literal _ _ Nn) as Dn. rewrite <- S' in Dn.
  assert (forall w, run_qualifier q w = (Some (decl m), w)) as R.
  { intros w. destruct D as [[q' [-> D]]|[-> D]]; [exact (A q' (decl m) D w)|exact (Ty m I' D w)]. }
  intros w o w'. split.
  - intros K. inversion K as [q0 s0 w0 d w1 n' E1 E2|q0 s0 w0 w1 E1]; subst; rewrite R in E1; [|discriminate]. injection E1 as <- <-. assert (n' = n) as -> by congruence. rewrite (F m c n I' C Nn). auto.
  - intros [-> ->]. rewrite <- (F m c n I' C Nn). now apply KValue.
Qed.

(** With the suggested member instead of a static value the comparison does what it did: the same outcome and the same effects.
    For this the members must have their constant values, the names of accessed members (and the names with dots that are the text of a type) must stand for the enum without effects, and equal numbers must compare equally. *)
Theorem C70_suggestion : forall type_text scope l r ll rl right_ k,
  (forall e v, evaluates neg add num_str e v -> forall w, run e w = (Some (of_static v), w)) ->
  (forall m c n, In (Some m) (ll ++ rl) -> constant m = Some c -> named is_identifier literal (m_name m) n -> field (decl m) n = of_static c) ->
  (forall m, In (Some m) (ll ++ rl) -> m_name m <> NOther -> exists n, named is_identifier literal (m_name m) n) ->
  (forall q d, accesses l q d \/ accesses r q d -> forall w, run_qualifier (FromAccess q) w = (Some d, w)) ->
  (forall m, In (Some m) (ll ++ rl) -> In 46%N (type_text (decl m)) \/ In (type_text (decl m), Some (decl m)) scope -> forall w, run_qualifier (FromType (type_text (decl m))) w = (Some (decl m), w)) ->
  (forall a c, num_eqb a c = true -> forall v, cmp v (of_static (SNumber a)) = cmp v (of_static (SNumber c)) /\ cmp (of_static (SNumber a)) v = cmp (of_static (SNumber c)) v) ->
  suggestion neg add num_eqb num_str is_identifier type_text scope l r ll rl = Some (right_, k) ->
  forall w o w', compares cmp (runs run l) (runs run r) w o w' <-> (if right_ then compares cmp (runs run l) (key_runs k) w o w' else compares cmp (key_runs k) (runs run r) w o w').
Proof.
  intros type_text scope l r ll rl right_ k Ev F Nm A Ty Eq H.
  assert (forall c v, matches num_eqb (Some c) v = true -> forall x, cmp x (of_static c) = cmp x (of_static v) /\ cmp (of_static c) x = cmp (of_static v) x) as M.
  { intros c v M x. destruct v as [s|n], c as [s'|n']; try discriminate; cbn [matches] in M; [apply str_eqb_eq in M; subst; auto|]. now apply Eq. }
  unfold suggestion in H.
  assert (forall k', right_ = true -> k' = k -> forall v, static_value neg add num_str r = Some v -> enum_key num_eqb is_identifier type_text scope l ll v = Some k' ->
    forall w o w', compares cmp (runs run l) (runs run r) w o w' <-> compares cmp (runs run l) (key_runs k) w o w') as HR.
  { intros k' _ -> v Sv K w o w'. destruct k as [q s]. apply static_spec in Sv. pose proof (Ev r v Sv) as Rv.
    destruct (key_runs_value type_text scope l ll v q s) as [c [Mc Kc]].
    - intros m c n I'. apply F, in_app_iff. now left.
    - intros m I'. apply Nm, in_app_iff. now left.
    - intros q' d D. apply A. now left.
    - intros m I'. apply Ty, in_app_iff. now left.
    - exact K.
    - split; intros C; inversion C as [w0 w1 E|w0 a w1 w2 E1 E2|w0 a w1 x w2 E1 E2]; subst.
      + now apply CLeft.
      + unfold runs in E2. rewrite Rv in E2. discriminate.
      + unfold runs in E2. rewrite Rv in E2. injection E2 as <- <-. destruct (M c v Mc a) as [<- _]. eapply CBoth; [exact E1|]. apply Kc. auto.
      + now apply CLeft.
      + apply Kc in E2 as [E2 _]. discriminate.
      + apply Kc in E2 as [E2 ->]. injection E2 as ->. destruct (M c v Mc a) as [-> _]. eapply CBoth; [exact E1|]. unfold runs. apply Rv. }
  assert (forall k', right_ = false -> k' = k -> forall v, static_value neg add num_str l = Some v -> enum_key num_eqb is_identifier type_text scope r rl v = Some k' ->
    forall w o w', compares cmp (runs run l) (runs run r) w o w' <-> compares cmp (key_runs k) (runs run r) w o w') as HL.
  { intros k' _ -> v Sv K w o w'. destruct k as [q s]. apply static_spec in Sv. pose proof (Ev l v Sv) as Rv.
    destruct (key_runs_value type_text scope r rl v q s) as [c [Mc Kc]].
    - intros m c n I'. apply F, in_app_iff. now right.
    - intros m I'. apply Nm, in_app_iff. now right.
    - intros q' d D. apply A. now right.
    - intros m I'. apply Ty, in_app_iff. now right.
    - exact K.
    - split; intros C; inversion C as [w0 w1 E|w0 a w1 w2 E1 E2|w0 a w1 x w2 E1 E2]; subst.
      + unfold runs in E. rewrite Rv in E. discriminate.
      + unfold runs in E1. rewrite Rv in E1. injection E1 as <- <-. eapply CRight; [|exact E2]. apply Kc. auto.
      + unfold runs in E1. rewrite Rv in E1. injection E1 as <- <-. destruct (M c v Mc x) as [_ <-]. eapply CBoth; [|exact E2]. apply Kc. auto.
      + apply Kc in E as [E _]. discriminate.
      + apply Kc in E1 as [E1 ->]. eapply CRight; [|exact E2]. unfold runs. apply Rv.
      + apply Kc in E1 as [E1 ->]. injection E1 as ->. destruct (M c v Mc x) as [_ ->]. eapply CBoth; [|exact E2]. unfold runs. apply Rv. }
  destruct (static_value neg add num_str r) as [v|] eqn:Sr.
  - destruct (enum_key num_eqb is_identifier type_text scope l ll v) as [k'|] eqn:K.
    + injection H as <- <-. exact (HR k' eq_refl eq_refl v eq_refl K).
    + destruct (static_value neg add num_str l) as [u|] eqn:Sl; [|discriminate]. destruct (enum_key num_eqb is_identifier type_text scope r rl u) as [k'|] eqn:K'; [|discriminate].
      injection H as <- <-. exact (HL k' eq_refl eq_refl u eq_refl K').
  - destruct (static_value neg add num_str l) as [u|] eqn:Sl; [|discriminate]. destruct (enum_key num_eqb is_identifier type_text scope r rl u) as [k'|] eqn:K'; [|discriminate].
    injection H as <- <-. exact (HL k' eq_refl eq_refl u eq_refl K').
Qed.
End Run.
End Numbers.
Print Assumptions C70_static.
Print Assumptions C70_suffix.
Print Assumptions C70_offered.
Print Assumptions C70_name.
Print Assumptions C70_suggestion.

(** Integers for the examples; the texts of numbers are of no concern there. *)
From Coq Require Import ZArith.
Notation suggestion_z := (@suggestion Z nat Z.opp Z.add Z.eqb (fun _ => []) (fun s => negb (existsb (fun c => (c =? 45)%N) s) && negb (length s =? 0))).
(** e === -(1 + 2) with a member 'a-b' = -3 of an enum E in scope. *)
Definition member_ab : member Z := {| decl := 7; m_name := NString [97; 45; 98]%N; constant := Some (SNumber (-3)%Z) |}.
Example C70_suggestion_example :
  suggestion_z (fun _ => [69%N]) [([69%N], Some 7)] (EOther 0) (EMinus (EParentheses (EAdd (ENumeric 1%Z) (ENumeric 2%Z)))) [None; Some member_ab] [] = Some (true, (FromType [69%N], [91; 39; 97; 45; 98; 39; 93]%N)).
Proof. reflexivity. Qed.
Example C70_static_example : evaluates (Q := nat) Z.opp Z.add (fun _ => [49%N]) (EAdd (ELiteral [97%N]) (EPlus (ENumeric 1%Z))) (SString [97; 49]%N).
Proof. apply (EvAdd Z.opp Z.add (fun _ => [49%N]) _ _ (SString [97%N]) (SNumber 1%Z)); repeat constructor. Qed.

(** The qualifier of an access may have effects, which are then had twice: f().A === 1 becomes f().A === f().B. *)
Theorem C70_effects_refuted : exists (run : operand Z nat -> nat -> option Z * nat) (run_qualifier : qualifier nat -> nat -> option nat * nat) (field : nat -> str -> Z) l r ll k,
  (forall w, run l w = (fun x => (match fst x with Some d => Some (field d [65%N]) | None => None end, snd x)) (run_qualifier (FromAccess 0) w)) /\
  field 7 [66%N] = 1%Z /\ (forall w, run r w = (Some 1%Z, w)) /\ static_value Z.opp Z.add (fun _ => []) r = Some (SNumber 1%Z) /\
  suggestion_z (fun _ => []) [] l r ll [] = Some (true, k) /\
  compares Z.eqb (runs run l) (runs run r) 0 (Some false) 1 /\
  forall o w', compares Z.eqb (runs run l) (run_key (fun _ => true) run_qualifier field (fun _ => None) k) 0 o w' -> w' <> 1.
Proof.
  set (rq := fun (_ : qualifier nat) (w : nat) => (Some 7, S w)). set (fl := fun (_ : nat) (n : str) => if str_eqb n [66%N] then 1%Z else 0%Z).
  exists (fun e w => match e with EAccess _ _ => (Some 0%Z, S w) | _ => (Some 1%Z, w) end), rq, fl, (EAccess 0 (Some 7)), (ENumeric 1%Z),
    [Some {| decl := 7; m_name := NIdentifier [66%N]; constant := Some (SNumber 1%Z) |}], (FromAccess 0, [46; 66]%N).
  split; [reflexivity|]. split; [reflexivity|]. split; [reflexivity|]. split; [reflexivity|]. split; [reflexivity|]. split.
  - change (Some false) with (Some (0 =? 1)%Z). eapply CBoth; reflexivity.
  - intros o w' C. inversion C as [w0 w1 E|w0 a w1 w2 E1 E2|w0 a w1 x w2 E1 E2]; subst.
    + discriminate.
    + inversion E2 as [|q s w2' w3 R]; subst. discriminate.
    + unfold runs in E1. injection E1 as <- <-. inversion E2 as [q s w2' d w3 n R D|]; subst. cbn in R. injection R as <- <-. discriminate.
Qed.
Print Assumptions C70_effects_refuted.
(** The qualifier of an optional access may be undefined: q?.A === 1 becomes q?.A === q.B, which throws. *)
Theorem C70_optional_refuted : exists (run : operand Z nat -> nat -> option (option Z) * nat) (run_qualifier : qualifier nat -> nat -> option nat * nat) l r ll k,
  static_value Z.opp Z.add (fun _ => []) r = Some (SNumber 1%Z) /\ suggestion_z (fun _ => []) [] l r ll [] = Some (true, k) /\
  compares (fun a c => match a, c with Some a, Some c => Z.eqb a c | _, _ => false end) (runs run l) (runs run r) 0 (Some false) 0 /\
  compares (fun a c => match a, c with Some a, Some c => Z.eqb a c | _, _ => false end) (runs run l) (run_key (fun _ => true) run_qualifier (fun _ _ => Some 1%Z) (fun _ => None) k) 0 None 0.
Proof.
  exists (fun e w => match e with EAccess _ _ => (Some None, w) | _ => (Some (Some 1%Z), w) end), (fun _ w => (None, w)), (EAccess 0 (Some 7)), (ENumeric 1%Z),
    [Some {| decl := 7; m_name := NIdentifier [66%N]; constant := Some (SNumber 1%Z) |}], (FromAccess 0, [46; 66]%N).
  split; [reflexivity|]. split; [reflexivity|]. split.
  - change (Some false) with (Some ((fun a c => match a, c with Some a, Some c => Z.eqb a c | _, _ => false end) (@None Z) (Some 1%Z))). eapply CBoth; reflexivity.
  - eapply CRight; [reflexivity|]. now apply KThrows.
Qed.
Print Assumptions C70_optional_refuted.
(** A name with dots is not looked up in the scope. *)
Theorem C70_scope_refuted : exists type_text l r ll k, suggestion_z type_text [] l r ll [] = Some (true, (FromType k, [46; 66]%N)) /\ In 46%N k.
Proof.
  exists (fun _ => [78; 46; 69]%N), (EOther 0), (ENumeric 1%Z), [Some {| decl := 7; m_name := NIdentifier [66%N]; constant := Some (SNumber 1%Z) |}], [78; 46; 69]%N.
  split; [reflexivity|]. right. now left.
Qed.
Print Assumptions C70_scope_refuted.
