(** * C69: no-unsafe-assignment finds what receives any in patterns, declarations and literals *)
From Coq Require Import Bool List Arith Lia.
From Verif Require Import UnsafeArgument UnsafeArgumentSpec.
From Verif Require Import UnsafeAssignment UnsafeAssignmentSpec UnsafeAssignmentProofs.
Import ListNotations.

Section Types.
Context {T N : Type} (is_any is_unknown any_array reference : T -> bool) (tuple : T -> option (list (T * element))) (property_type : T -> N -> option T) (unsafe : T -> T -> bool).
Notation check_pattern := (check_pattern is_any any_array tuple property_type).
Notation gets_any := (gets_any is_any any_array tuple property_type).
Notation check_assignment := (check_assignment is_any is_unknown reference unsafe).
Notation check_full := (check_full is_any is_unknown any_array reference tuple property_type unsafe).

(** What is reported in a pattern without holes receives any. *)
Theorem C69_sound : forall p t path m, whole true p -> In (path, m) (fst (check_pattern p t)) -> gets_any p t path m.
Proof. exact (pattern_sound is_any any_array tuple property_type). Qed.
(** In patterns without patterns that have default values, and for tuples of bounded length, all that receives any is reported. *)
Theorem C69_complete : forall p t path m, (forall t ts u, tuple t = Some ts -> ~ In (u, Variable_) ts) -> whole false p -> gets_any p t path m -> In (path, m) (fst (check_pattern p t)).
Proof. exact (pattern_complete is_any any_array tuple property_type). Qed.

(** What the functions return about having reported, which is wrong for arrays, makes no difference: either the assignment is reported, or all that is found in the pattern. *)
Theorem C69_full : forall c e this p s r x, In x (check_full c e this p s r) <->
  (exists o, check_assignment c e this s r = Some o /\ x = Whole o) \/
  (check_assignment c e this s r = None /\ exists path m, In (path, m) (fst (check_pattern p s)) /\ x = Place path m).
Proof.
  intros c e this p s r x. unfold UnsafeAssignment.check_full. destruct (check_assignment c e this s r) as [o|].
  - cbn. split; [intros [<-|[]]; left; eauto|]. intros [[o' [H ->]]|[H _]]; [injection H as ->; now left|discriminate].
  - assert (forall l : list (list nat * message), In x (map (fun x => Place (fst x) (snd x)) l) <-> exists path m, In (path, m) l /\ x = Place path m) as M.
    { intros l. rewrite in_map_iff. split; [intros [[a b] [<- H]]; eauto|]. intros [a [b [H ->]]]. exists (a, b). auto. }
    match goal with |- In _ ?X <-> _ => assert (X = map (fun x => Place (fst x) (snd x)) (fst (check_pattern p s))) as -> end.
    { destruct p as [|b l|b l|p]; [reflexivity| |reflexivity|reflexivity]. unfold array_helper, object_helper. destruct (check_pattern (ArrayPattern b l) s) as [r1 d1].
      cbn [fst]. destruct d1; now rewrite app_nil_r. }
    rewrite M. split; [intros H; right; split; [reflexivity|exact H]|]. intros [[o [H _]]|[_ H]]; [discriminate|exact H].
Qed.

(** An assignment is reported exactly if the value is any and the target is not unknown, or if there is a type to compare with and the value is not any but unsafe for it.
    For this the values that are skipped must not be any, nor unsafe where they are compared, and only type references can be unsafe. *)
Theorem C69_assignment : forall c e this s r,
  (can_skip e c = true -> is_any s = false /\ (c <> CNone -> unsafe s r = false)) -> (unsafe s r = true -> reference s = true) ->
  ((check_assignment c e this s r = Some AnyAssignment <-> is_any s = true /\ is_unknown r = false /\ this = false) /\
   (check_assignment c e this s r = Some AnyAssignmentThis <-> is_any s = true /\ is_unknown r = false /\ this = true) /\
   (check_assignment c e this s r = Some UnsafeAssignment_ <-> is_any s = false /\ c <> CNone /\ unsafe s r = true)).
Proof.
  intros c e this s r K R. unfold UnsafeAssignment.check_assignment. destruct (can_skip e c).
  - destruct (K eq_refl) as [-> K']. repeat split; try discriminate; try (intros [H _]; discriminate). intros [_ [H H']]. rewrite (K' H) in H'. discriminate.
  - destruct (is_any s).
    + destruct (is_unknown r), this; repeat split; try discriminate; try (intros [? [? ?]]; discriminate); try (intros [? _]; discriminate).
    + destruct c, (unsafe s r); try rewrite (R eq_refl); cbn [negb]; repeat split; try discriminate; try (intros [? [? ?]]; congruence); try (intros [? _]; discriminate);
        try (destruct (reference s); discriminate).
Qed.

(** Array literals are skipped only where nothing is compared, and never with spread elements, which may be any; object literals with a spread neither. *)
Theorem C69_skip : forall e c, can_skip e c = true <-> exists n v, e = Nat.iter n Parentheses v /\
  (v = Literal \/ v = SignedNumber \/ v = FunctionOrClass \/ v = ObjectLiteral false \/ (v = ArrayLiteral false /\ c = CNone)).
Proof.
  intros e c. split.
  - induction e as [| | |b|b|e IH|]; intros H; try (exists 0; eexists; split; [reflexivity|]; now auto 6); try discriminate.
    + destruct b; [discriminate|]. exists 0, (ObjectLiteral false). auto 6.
    + destruct c, b; try discriminate. exists 0, (ArrayLiteral false). auto 8.
    + destruct (IH H) as [n [v [-> V]]]. exists (S n), v. auto.
  - intros [n [v [-> V]]]. induction n as [|n IH]; [|exact IH]. cbn. destruct V as [->|[->|[->|[->|[-> ->]]]]]; reflexivity.
Qed.
End Types.
Print Assumptions C69_sound.
Print Assumptions C69_complete.
Print Assumptions C69_full.
Print Assumptions C69_assignment.
Print Assumptions C69_skip.

(** Of an object literal the values are checked up to the first that is an assignment. *)
Theorem C69_members : forall l i, In i (members_checked 0 l) <-> nth_error l i = Some (Member OtherValue) /\ forall j, j < i -> nth_error l j <> Some (Member Assignment) /\ nth_error l j <> Some (Member Compound).
Proof.
  intros l i. enough (forall k, In i (members_checked k l) <-> k <= i /\ nth_error l (i - k) = Some (Member OtherValue) /\ forall j, j < i - k -> nth_error l j <> Some (Member Assignment) /\ nth_error l j <> Some (Member Compound)) as E.
  { rewrite (E 0), Nat.sub_0_r. split; [tauto|]. intros H. split; [lia|exact H]. }
  induction l as [|m l IH]; intros k.
  - cbn. split; [tauto|]. intros [_ [H _]]. destruct (i - k); discriminate.
  - assert (forall n, k <= i -> i - k = S n -> i - S k = n) as D by (intros; lia).
    destruct m as [v|].
    + destruct v; cbn [members_checked is_assignment negb].
      1, 2: cbn [In]; split; [tauto|]; intros [_ [H H']]; destruct (i - k) as [|n]; [discriminate|]; destruct (H' 0 ltac:(lia)) as [H1 H2]; cbn in H1, H2; congruence.
      cbn [In]. rewrite IH. split.
      * intros [->|[L [H1 H2]]]; [rewrite Nat.sub_diag; cbn; repeat split; auto; intros; lia|]. split; [lia|]. replace (i - k) with (S (i - S k)) by lia. split; [exact H1|].
        intros [|j] J; [cbn; split; discriminate|]. apply H2. lia.
      * intros [L [H1 H2]]. destruct (i - k) as [|n] eqn:I; [left; lia|]. right. specialize (D n L eq_refl). rewrite D. split; [lia|]. split; [exact H1|]. intros j J. apply (H2 (S j)). lia.
    + cbn [members_checked]. rewrite IH. split.
      * intros [L [H1 H2]]. split; [lia|]. replace (i - k) with (S (i - S k)) by lia. split; [exact H1|]. intros [|j] J; [cbn; split; discriminate|]. apply H2. lia.
      * intros [L [H1 H2]]. destruct (i - k) as [|n] eqn:I; [discriminate|]. specialize (D n L eq_refl). rewrite D. split; [lia|]. split; [exact H1|]. intros j J. apply (H2 (S j)). lia.
Qed.
Print Assumptions C69_members.

(** A diagnostic is on the = of the declaration if there is none in the type before it, on the last colon before the value if there is no = before it. *)
Theorem C69_relation : forall ann eq ts sp se, Forall (fun t => k t <> KEquals /\ pos t < sp) ann -> k eq = KEquals -> pos eq < sp -> sp <= se ->
  relation_range (ann ++ eq :: ts) sp se None = Some (pos eq, tend eq).
Proof.
  intros ann eq ts sp se. generalize (@None (nat * nat)). induction ann as [|t ann IH]; intros c F K P L; cbn [app relation_range].
  - replace (pos eq <? se) with true by (symmetry; apply Nat.ltb_lt; lia). now rewrite K.
  - inversion F as [|x y [F1 F2] F3]; subst. replace (pos t <? se) with true by (symmetry; apply Nat.ltb_lt; lia). replace (sp <=? pos t) with false by (symmetry; apply Nat.leb_gt; lia).
    destruct (k t); [congruence|now apply IH|now apply IH].
Qed.
Print Assumptions C69_relation.
Theorem C69_colon : forall before colon after v ts sp se, Forall (fun t => k t <> KEquals /\ pos t < sp) before -> k colon = KColon -> pos colon < sp ->
  Forall (fun t => k t = KOtherToken /\ pos t < sp) after -> k v = KOtherToken -> sp <= pos v < se ->
  relation_range (before ++ colon :: after ++ v :: ts) sp se None = Some (pos colon, tend colon).
Proof.
  intros before colon after v ts sp se. generalize (@None (nat * nat)). induction before as [|t before IH]; intros c F K P A Kv L; cbn [app relation_range].
  - replace (pos colon <? se) with true by (symmetry; apply Nat.ltb_lt; lia). replace (sp <=? pos colon) with false by (symmetry; apply Nat.leb_gt; lia). rewrite K. cbn [k].
    clear F. induction after as [|t after IH]; cbn [app relation_range].
    + replace (pos v <? se) with true by (symmetry; apply Nat.ltb_lt; lia). replace (sp <=? pos v) with true by (symmetry; apply Nat.leb_le; lia). now rewrite Kv.
    + inversion A as [|x y [F1 F2] F3]; subst. replace (pos t <? se) with true by (symmetry; apply Nat.ltb_lt; lia). replace (sp <=? pos t) with false by (symmetry; apply Nat.leb_gt; lia).
      rewrite F1. now apply IH.
  - inversion F as [|x y [F1 F2] F3]; subst. replace (pos t <? se) with true by (symmetry; apply Nat.ltb_lt; lia). replace (sp <=? pos t) with false by (symmetry; apply Nat.leb_gt; lia).
    destruct (k t); [congruence|now apply IH|now apply IH].
Qed.
Print Assumptions C69_colon.

(** Types for the examples. *)
Inductive sty := SAny | SStr | STup (l : list (sty * element)) | SObj (l : list (nat * sty)) | SAnys.
Definition s_any t := match t with SAny => true | _ => false end.
Definition s_anys t := match t with SAnys => true | _ => false end.
Definition s_tuple t := match t with STup l => Some l | _ => None end.
Definition s_property t (n : nat) := match t with SObj l => option_map snd (find (fun p => fst p =? n) l) | _ => None end.
Notation check_s := (check_pattern s_any s_anys s_tuple s_property).
Notation gets_s := (gets_any s_any s_anys s_tuple s_property).

(** const [a, {b: [c], ...d}, [e]] = x with x: [any, {b: any[], c: any}, [string]]. *)
Definition ex_pattern : pattern nat := ArrayPattern true [Item Target; Item (ObjectPattern true [Property (Some 1) (ArrayPattern true [Item Target]); RestProperty Target]); Item (ArrayPattern true [Hole; Item Target])].
Definition ex_type : sty := STup [(SAny, Required); (SObj [(1, SAnys); (2, SAny)], Required); (STup [(SAny, Required); (SStr, Required)], Required)].
Example C69_pattern_example : fst (check_s ex_pattern ex_type) = [([0], FromElement); ([1; 0], FromArray)] /\ whole false ex_pattern /\ whole true ex_pattern /\ gets_s ex_pattern ex_type [1; 0] FromArray.
Proof.
  split; [reflexivity|]. split; [cbn; intuition|]. split; [cbn; intuition|].
  eapply GElementIn; try reflexivity.
  - eexists _, _. split; [reflexivity|]. split; [apply all_values|reflexivity].
  - reflexivity.
  - eapply GPropertyIn; try reflexivity. now apply GArray.
Qed.
(** A value of type any is reported once; of another type, all that receives any is. *)
Example C69_full_example :
  check_full s_any (fun _ => false) s_anys (fun _ => false) s_tuple s_property (fun _ _ => false) CNone OtherSender false ex_pattern SAny SAny = [Whole AnyAssignment] /\
  check_full s_any (fun _ => false) s_anys (fun _ => false) s_tuple s_property (fun _ _ => false) CNone OtherSender false (ArrayPattern true [Item Target] : pattern nat) SAnys SAnys = [Place [] FromArray].
Proof. split; reflexivity. Qed.
Example C69_members_example : members_checked 0 [OtherMember; Member OtherValue; Member OtherValue] = [1; 2].
Proof. reflexivity. Qed.
(** const x: T = v *)
Example C69_relation_example : relation_range [{| k := KColon; pos := 7; tend := 8 |}; {| k := KOtherToken; pos := 9; tend := 10 |}; {| k := KEquals; pos := 11; tend := 12 |}; {| k := KOtherToken; pos := 13; tend := 14 |}] 12 14 None = Some (11, 12).
Proof. reflexivity. Qed.

(** Default values hide patterns in assignments: of [({1: [x] = y} = z)] with z: {1: [any]} nothing is reported. *)
Theorem C69_default_refuted : exists (p : pattern nat) t path m, whole true p /\ gets_s p t path m /\ fst (check_s p t) = [].
Proof.
  exists (ObjectPattern false [Property (Some 1) (Assigned (ArrayPattern false [Item Target]))]), (SObj [(1, STup [(SAny, Required)])]), [0; 0], FromElement. split; [cbn; repeat split; auto; right; intros [H|[]]; discriminate|]. split; [|reflexivity].
  eapply GPropertyIn; try reflexivity. apply GAssigned. eapply (GElement _ _ _ _ _ _ _ 0 Target SAny); try reflexivity. eexists _, _. split; [reflexivity|]. split; [apply all_values|reflexivity].
Qed.
Print Assumptions C69_default_refuted.
(** Holes are reported in assignments, not in declarations: [[, x] = y] with y: [any, string]. *)
Theorem C69_hole_refuted : exists t, fst (check_s (ArrayPattern false [Hole; Item Target] : pattern nat) t) = [([0], FromElement)] /\ fst (check_s (ArrayPattern true [Hole; Item Target] : pattern nat) t) = [] /\
  forall b path m, ~ gets_s (ArrayPattern b [Hole; Item Target]) t path m.
Proof.
  exists (STup [(SAny, Required); (SStr, Required)]). split; [reflexivity|]. split; [reflexivity|]. intros b path m H.
  assert (forall i q u, nth_error [Hole; Item (@Target nat)] i = Some (Item q) -> element_at s_tuple (STup [(SAny, Required); (SStr, Required)]) i u -> q = Target /\ u = SStr) as E.
  { intros i q u H1 [ts [us [H2 [H3 H4]]]]. injection H2 as <-. destruct i as [|[|i]]; [discriminate| |now destruct i]. injection H1 as <-.
    inversion H3 as [|a1 a2 a3 V1| | | |]; subst. inversion V1 as [|b1 b2 b3 V2| | | |]; subst. cbn in H4. injection H4 as <-. auto. }
  inversion H as [x1 x2 x3 A|x1 x2 x3 i q u A E1 E2 U|x1 x2 x3 i q u p' m' A E1 E2 U G| | |]; subst.
  - discriminate.
  - destruct (E i q u E1 E2) as [-> ->]. discriminate.
  - destruct (E i q u E1 E2) as [-> ->]. inversion G.
Qed.
Print Assumptions C69_hole_refuted.
(** The rest of a tuple: of [const [a, b, c] = x] with x: [string, ...any[]] only b is reported. *)
Theorem C69_variadic_refuted : exists (p : pattern nat) t, whole false p /\ gets_s p t [2] FromElement /\ fst (check_s p t) = [([1], FromElement)].
Proof.
  exists (ArrayPattern true [Item Target; Item Target; Item Target]), (STup [(SStr, Required); (SAny, Variable_)]). split; [cbn; auto|]. split; [|reflexivity].
  eapply (GElement _ _ _ _ _ _ _ 2 Target SAny); try reflexivity. exists [(SStr, Required); (SAny, Variable_)], [SStr; SAny; SAny]. split; [reflexivity|]. split; [apply TVRequired, TVMore, TVMore, TVStop, TVEnd|reflexivity].
Qed.
Print Assumptions C69_variadic_refuted.
(** Properties after one whose value is an assignment are not checked: {a: (x = 1), b: y}. *)
Theorem C69_members_refuted : exists l i, nth_error l i = Some (Member OtherValue) /\ ~ In i (members_checked 0 l).
Proof. exists [Member Assignment; Member OtherValue], 1. split; [reflexivity|]. intros []. Qed.
Print Assumptions C69_members_refuted.
(** A compound assignment as the value of a property is checked neither as the value nor as an assignment: {a: (x ??= y)}. *)
Theorem C69_compound_refuted : exists v, assignment_checked v = false /\ forall l i, nth_error l i = Some (Member v) -> ~ In i (members_checked 0 l).
Proof. exists Compound. split; [reflexivity|]. intros l i H H'. apply C69_members in H' as [H' _]. congruence. Qed.
Print Assumptions C69_compound_refuted.
(** With a = in the type the diagnostic is there: const x: <T = A>() => T = y. *)
Theorem C69_relation_refuted : exists ann eq v, k eq = KEquals /\ k v = KOtherToken /\ Forall (fun t => tend t <= pos eq) ann /\ tend eq < pos v /\ relation_range (ann ++ [eq; v]) (tend eq) (tend v) None <> Some (pos eq, tend eq).
Proof.
  exists [{| k := KColon; pos := 7; tend := 8 |}; {| k := KOtherToken; pos := 9; tend := 10 |}; {| k := KOtherToken; pos := 10; tend := 11 |}; {| k := KEquals; pos := 12; tend := 13 |}; {| k := KOtherToken; pos := 14; tend := 15 |}], {| k := KEquals; pos := 26; tend := 27 |}, {| k := KOtherToken; pos := 28; tend := 29 |}.
  repeat split; [|cbn; lia|discriminate]. repeat constructor; cbn; lia.
Qed.
Print Assumptions C69_relation_refuted.
