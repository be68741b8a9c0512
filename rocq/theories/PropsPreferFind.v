(** C65: prefer-find reports the first element of filtered arrays, and find takes its place. *)
From Coq Require Import Bool String Ascii List Arith ZArith QArith.
From Verif Require Import Base EngineProofs.
From Verif Require Import PreferFind PreferFindSpec PreferFindProofs.
Import ListNotations.
Local Open Scope nat_scope.

(** A decimal parser for the examples: digits only. *)
Definition simple_float (t : bstr) : option num := match t with [] => None | _ => option_map (fun z => Fin (inject_Z z)) (digits 10 0 t) end.
Definition simple_name (n : num) : bstr := match n with NaN => b "NaN" | Inf _ => b "Infinity" | Fin q => if Z.eqb (Qnum q) 0 then b "0" else b "n" end.
Definition simple_bigint (z : Z) : bstr := if Z.eqb z 0 then b "0" else b "n".

(** Numbers of strings are JavaScript's, where ParseFloat agrees with it and no sign goes with a radix. *)
Theorem C65_number : forall parse_float decimal s,
  decimal (stripped s) = parse_float (stripped s) ->
  decimal (b "Infinity") = Some (Inf false) -> decimal (b "+Infinity") = Some (Inf false) -> decimal (b "-Infinity") = Some (Inf true) ->
  (forall g c r base, stripped s = g :: "0"%char :: c :: r -> radix c base -> g <> "+"%char /\ g <> "-"%char) ->
  (forall c g r base, stripped s = "0"%char :: c :: g :: r -> radix c base -> g <> "+"%char /\ g <> "-"%char) ->
  string_number decimal s (to_number_string parse_float s).
Proof. intros. apply number_exact; try assumption. split; assumption. Qed.
Print Assumptions C65_number.
Example C65_number_example :
  to_number_string simple_float (b " 0xFf ") = Fin (inject_Z 255) /\ to_number_string simple_float (b "0o17") = Fin (inject_Z 15) /\ to_number_string simple_float (b "0B101") = Fin (inject_Z 5) /\
  to_number_string simple_float (b "0b12") = NaN /\ to_number_string simple_float (b "0x") = NaN /\ to_number_string simple_float (b " 042") = Fin (inject_Z 42) /\
  to_number_string simple_float (b "  ") = Fin 0 /\ to_number_string simple_float (b "-Infinity") = Inf true /\ to_number_string simple_float (b "one") = NaN /\
  string_number simple_float (b " 0xFf ") (Fin (inject_Z 255)).
Proof.
  do 9 (split; [vm_compute; reflexivity|]).
  apply (NumberRadix _ _ "x"%char (b "Ff") 16); [vm_compute; reflexivity|unfold radix; auto|].
  apply (NumeralMore 16 (b "F") 15 "f"%char 15); [apply NumeralOne| |]; vm_compute; reflexivity.
Qed.

(** Static values are the values of index expressions, for the model's numbers of strings; also when constants go in circles. *)
Theorem C65_static : forall parse_float consts e v, all_unshadowed consts -> unshadowed e ->
  (get_static parse_float consts e = Some v <-> evaluates (fun s n => n = to_number_string parse_float s) consts e v).
Proof. intros. apply static_iff; assumption. Qed.
Print Assumptions C65_static.
Example C65_static_example :
  let consts := [Some (SPrefix Minus (SParentheses (SIdentifier (b "x") (Some 1) false))); Some (SAssertion (SString (b "0x10"))); Some (SIdentifier (b "z") (Some 3) false); Some (SIdentifier (b "y") (Some 2) false)] in
  all_unshadowed consts /\ get_static simple_float consts (SIdentifier (b "w") (Some 0) false) = Some (VNumber (Fin (- inject_Z 16))) /\
  get_static simple_float consts (SIdentifier (b "y") (Some 2) false) = None /\ get_static simple_float consts (SPrefix Plus (SBigInt (Some 0%Z))) = None /\
  get_static simple_float consts (SPrefix Minus (SBigInt (Some 3%Z))) = Some (VBigInt (-3)).
Proof.
  cbv zeta. split; [|vm_compute; auto]. intros [|[|[|[|i]]]] e H; simpl in H; try (injection H as <-); simpl; try exact Logic.I.
  - unfold special. split; [discriminate|intros [H|[H|H]]; discriminate].
  - unfold special. split; [discriminate|intros [H|[H|H]]; discriminate].
  - unfold special. split; [discriminate|intros [H|[H|H]]; discriminate].
  - destruct i; discriminate.
Qed.

(** An argument taken for zero is an index that at rounds to zero in JavaScript. *)
Theorem C65_at : forall parse_float decimal consts e v, parses parse_float decimal -> all_unshadowed consts -> unshadowed e ->
  get_static parse_float consts e = Some v -> zero_for_at parse_float v = true ->
  exists w, evaluates (string_number decimal) consts e w /\ at_first (string_number decimal) w.
Proof. intros. eapply at_weak; eassumption. Qed.
Print Assumptions C65_at.
Example C65_at_example : parses simple_float simple_float /\
  get_static simple_float [] (SPrefix Minus (SNumber (Some (Fin (9 # 10))))) = Some (VNumber (Fin (- (9 # 10)))) /\ zero_for_at simple_float (VNumber (Fin (- (9 # 10)))) = true /\
  zero_for_at simple_float (VNumber (Fin 1)) = false /\ zero_for_at simple_float (VString (b "one")) = true /\ zero_for_at simple_float (VBigInt 0) = false /\ zero_for_at simple_float VUndefined = true /\
  zero_for_at simple_float (VString (b "-0x0")) = true.
Proof.
  split; [|vm_compute; auto 10]. split; [auto|]. split; [auto|]. intros g c r base R. unfold simple_float. cbn [digits].
  assert (Dc : (digit c <? 10)%Z = false) by (destruct R as [[[-> | ->] _]|[[[-> | ->] _]|[[-> | ->] _]]]; reflexivity).
  destruct (digit g <? 10)%Z; [|reflexivity]. change (digit "0" <? 10)%Z with true. cbv iota. rewrite Dc. reflexivity.
Qed.

(** strconv.ParseFloat has an error where JavaScript has an infinite number: at(""1e999"") is taken for at(0). *)
Theorem C65_overflow_refuted : exists parse_float decimal e v,
  (forall s n, parse_float s = Some n -> decimal s = Some n) /\ decimal (b "1e999") = Some (Inf false) /\ parse_float (b "1e999") = None /\
  get_static parse_float [] e = Some v /\ zero_for_at parse_float v = true /\
  forall w, evaluates (string_number decimal) [] e w -> ~ at_first (string_number decimal) w.
Proof.
  exists (fun _ => None), (fun t => if beqb t (b "1e999") then Some (Inf false) else None), (SString (b "1e999")), (VString (b "1e999")).
  split; [discriminate|]. do 4 (split; [vm_compute; reflexivity|]).
  set (decimal := fun t => if beqb t (b "1e999") then Some (Inf false) else None).
  assert (U : forall n, string_number decimal (b "1e999") n -> n = Inf false).
  { intros n H. assert (E : stripped (b "1e999") = b "1e999") by (vm_compute; reflexivity).
    destruct H as [E1|c r base z E1 _ _|c r base E1 _ _|n _ _ D|_ _ D]; try (rewrite E in E1; discriminate E1); rewrite E in D; vm_compute in D; [|discriminate D]. injection D as <-. reflexivity. }
  intros w Ew [n [N R]]. inversion Ew; subst. inversion N; subst. match goal with H : string_number _ _ _ |- _ => apply U in H; subst end. exact R.
Qed.
Print Assumptions C65_overflow_refuted.

(** A local variable named NaN is taken for the global one: xs.filter(f).at(NaN) with const NaN = 5. *)
Theorem C65_shadow_refuted : forall parse_float, exists consts e v,
  get_static parse_float consts e = Some v /\ zero_for_at parse_float v = true /\
  forall conv w, evaluates conv consts e w -> ~ at_first conv w.
Proof.
  intro pf. exists [Some (SNumber (Some (Fin 5)))], (SIdentifier (b "NaN") (Some 0) false), (VNumber NaN).
  split; [vm_compute; reflexivity|]. split; [reflexivity|].
  intros conv w Ew [n [N R]]. inversion Ew; subst. simpl in *. match goal with H : Some _ = Some _ |- _ => injection H as <- end.
  match goal with H : evaluates _ _ (SNumber _) _ |- _ => inversion H; subst end. inversion N; subst. destruct R as [_ R]. vm_compute in R. discriminate.
Qed.
Print Assumptions C65_shadow_refuted.

(** A sign before a radix is not a number in JavaScript: xs.filter(f)[+""-0x0""] is not the first element, and is reported. *)
Theorem C65_radix_refuted : forall parse_float decimal number_name bigint_name, (forall g c r base, radix c base -> decimal (g :: "0"%char :: c :: r) = None) ->
  names_zero number_name bigint_name ->
  exists e, first_element parse_float number_name bigint_name [] (Element (Other 0 []) false e []) = true /\
  forall w, evaluates (string_number decimal) [] e w -> ~ key number_name bigint_name w (b "0").
Proof.
  intros pf decimal nn bn D [NN _]. exists (SPrefix Plus (SString (b "-0x0"))). split; [vm_compute; reflexivity|].
  assert (U : forall n, string_number decimal (b "-0x0") n -> n = NaN).
  { intros n H. assert (E : stripped (b "-0x0") = b "-0x0") by (vm_compute; reflexivity).
    destruct H as [E1|c r base z E1 _ _|c r base E1 _ _|n _ _ E1|_ _ _]; try reflexivity; rewrite E in E1; try discriminate E1.
    change (b "-0x0") with ("-"%char :: "0"%char :: "x"%char :: b "0") in E1. rewrite (D "-"%char "x"%char (b "0") 16%Z) in E1; [discriminate|unfold radix; auto]. }
  intros w Ew K. inversion Ew; subst. match goal with H : evaluates _ _ (SString _) _ |- _ => inversion H; subst end.
  match goal with H : numbered _ _ _ |- _ => inversion H; subst end. match goal with H : string_number _ _ _ |- _ => apply U in H; subst end.
  inversion K; subst. match goal with H : nn NaN = _ |- _ => apply NN in H; destruct H as [q [H _]]; discriminate end.
Qed.
Print Assumptions C65_radix_refuted.
(** What the sign does: -0xA is taken for -10, +0b11 for 3. *)
Theorem C65_sign_refuted : forall parse_float, to_number_string parse_float (b "-0xA") = Fin (-10) /\ to_number_string parse_float (b "+0b11") = Fin 3.
Proof. intros. split; vm_compute; reflexivity. Qed.
Print Assumptions C65_sign_refuted.

(** Reported: the first element is taken, and every value the array may come from is a call of filter on an array (or null or undefined). *)
Theorem C65_reported : forall parse_float number_name bigint_name consts a f q c r,
  names_zero number_name bigint_name -> all_unshadowed consts -> access_unshadowed a ->
  closed (object a) -> rest a = f ++ q ++ c :: r -> filler f -> (q = [] \/ q = ["?"%char]) -> (c = "."%char \/ c = "["%char) ->
  let conv := fun s n => n = to_number_string parse_float s in
  (check parse_float number_name bigint_name consts a <> None <->
   first_of conv number_name bigint_name consts a /\ all_filters conv number_name bigint_name consts (object a)).
Proof. intros. eapply reported_iff; eassumption. Qed.
Print Assumptions C65_reported.

(** The new text: find for filter, and nothing after the array but white space and comments. *)
Theorem C65_text : forall parse_float number_name bigint_name consts a edits f q c r,
  check parse_float number_name bigint_name consts a = Some edits ->
  closed (object a) -> rest a = f ++ q ++ c :: r -> filler f -> (q = [] \/ q = ["?"%char]) -> (c = "."%char \/ c = "["%char) ->
  edited 0 (access_text a) edits = find_text (object a) ++ f ++ q.
Proof. intros. eapply text_right; eassumption. Qed.
Print Assumptions C65_text.
Definition arr : list part := [Nullish; Parts [true]; Parts [true; true]].
Definition xs_filter : expr := Call 0 0 false false arr (ByName (b "filter")) (b "xs.") (b "filter") (b "(f)").
Definition ys_filter : expr := Call 1 1 true false arr (ByExpression (SParentheses (SString (b "filter")))) (b "ys?.[(") (b """filter""") (b ")](g)").
Definition nested : expr := Parentheses (b "(") (Parentheses (b "( ") (Conditional 0 (b "c ? ") xs_filter (b " : ") ys_filter) (b " /* ) . */ )")) (b ")").
Example C65_text_example :
  closed nested /\ filler (b " /*[*/ ") /\ names_zero simple_name simple_bigint /\
  option_map (edited 0 (text nested ++ b " /*[*/ [0]")) (check simple_float simple_name simple_bigint [] (Element nested false (SNumber (Some (Fin 0))) (b " /*[*/ [0]")))
    = Some (b "(( c ? xs.find(f) : ys?.[(""find"")](g) /* ) . */ )) /*[*/ ") /\
  check simple_float simple_name simple_bigint [] (Element nested false (SNumber (Some (Fin 1))) (b "[1]")) = None /\
  check simple_float simple_name simple_bigint [] (Element (Call 0 0 false false [Parts [true; false]] (ByName (b "filter")) (b "xs.") (b "filter") (b "(f)")) false (SNumber (Some (Fin 0))) (b "[0]")) = None /\
  option_map (edited 0 (b "xs.filter(f).at(0)")) (check simple_float simple_name simple_bigint [] (Method xs_filter false false (ByName (b "at")) [SNumber (Some (Fin 0))] (b ".at(0)"))) = Some (b "xs.find(f)").
Proof.
  assert (F : filler (b " /* ) . */ )")).
  { apply FillerWhite; [reflexivity|]. apply (FillerBlock (b " ) . ")); [|apply FillerWhite; [reflexivity|]; apply FillerClose; apply FillerNil].
    intros x y E. do 6 (destruct x as [|? x]; simpl in E; try discriminate). }
  split; [simpl; split; [split; [exact Logic.I|exact F]|apply FillerClose; apply FillerNil]|].
  split; [apply FillerWhite; [reflexivity|]; apply (FillerBlock (b "[")); [|apply FillerWhite; [reflexivity|apply FillerNil]]; intros x y E; do 2 (destruct x as [|? x]; simpl in E; try discriminate)|].
  split.
  { split.
    - intros [|neg|q]; simpl.
      + split; [discriminate|intros [q [H _]]; discriminate].
      + split; [discriminate|intros [q [H _]]; discriminate].
      + split.
        * intro H. exists q. split; [reflexivity|]. destruct (Z.eqb_spec (Qnum q) 0) as [E|N]; [|discriminate]. unfold Qeq. simpl. rewrite E. reflexivity.
        * intros [q' [H Hq]]. injection H as <-. unfold Qeq in Hq. simpl in Hq. rewrite Z.mul_1_r in Hq. rewrite Hq. reflexivity.
    - intro z. unfold simple_bigint. destruct (Z.eqb_spec z 0) as [E|N]; split; try congruence. intro H. discriminate. }
  vm_compute. auto.
Qed.

(** The member at may be optional, and its question mark is left over: xs.filter(f)?.at(0) becomes xs.find(f)? *)
Theorem C65_optional_refuted : forall parse_float number_name bigint_name, exists a edits,
  access_text a = b "xs.filter(f)?.at(0)" /\ check parse_float number_name bigint_name [] a = Some edits /\ edited 0 (access_text a) edits = b "xs.find(f)?".
Proof.
  intros. exists (Method xs_filter true false (ByName (b "at")) [SNumber (Some (Fin 0))] (b "?.at(0)")). eexists. split; [vm_compute; reflexivity|]. split; vm_compute; reflexivity.
Qed.
Print Assumptions C65_optional_refuted.

(** The first element of what filter returns is what find returns: same effects and result, for arrays without missing elements, where no optional chain ends early inside parentheses. *)
Theorem C65_meaning : forall (St V X : Type) (undefined : V) (type_error : X) (w : world St V X) e s,
  dense w -> no_end_inside type_error w e -> run_filter_first undefined type_error w e s = run_find undefined type_error w e s.
Proof. intros. apply meaning; assumption. Qed.
Print Assumptions C65_meaning.
Definition a_world (l : list (option nat)) (short : bool) : world nat nat nat :=
  {| obj_of := fun n s => (s * 10 + 1, if short then ONullish else OArray l); args_of := fun n s => (s * 10 + 2, APredicate (fun v i => Nat.leb 5 (v + i)));
     test_of := fun n s => (s * 10 + 3, TBool (Nat.eqb n 0)); left_of := fun n s => (s * 10 + 4, None) |}.
Example C65_meaning_example :
  dense (a_world [Some 3; Some 4; Some 9] false) /\ no_end_inside 77 (a_world [Some 3; Some 4; Some 9] false) nested /\
  run_find 0 77 (a_world [Some 3; Some 4; Some 9] false) nested 0 = (312, Returns 4) /\ run_filter_first 0 77 (a_world [Some 3; Some 4; Some 9] false) nested 0 = (312, Returns 4).
Proof.
  split; [intros n s s' l H; simpl in H; injection H as _ <-; simpl; intros [H|[H|[H|[]]]]; discriminate|].
  split; [intros s H; simpl in H; discriminate|]. vm_compute. auto.
Qed.

(** A missing element: filter does not look at it, find takes it for undefined. *)
Theorem C65_holes_refuted : exists (w : world nat nat nat), run_filter_first 0 77 w xs_filter 0 <> run_find 0 77 w xs_filter 0.
Proof.
  exists {| obj_of := fun n s => (s, OArray [None; Some 5]); args_of := fun n s => (s, APredicate (fun v i => true)); test_of := fun n s => (s, TBool true); left_of := fun n s => (s, None) |}.
  vm_compute. discriminate.
Qed.
Print Assumptions C65_holes_refuted.

(** (ys?.filter(g))[0] throws where ys is undefined, (ys?.find(g)) does not. *)
Theorem C65_parentheses_refuted : forall parse_float number_name bigint_name, exists a edits (w : world nat nat nat),
  access_text a = b "(ys?.filter(g))[0]" /\ check parse_float number_name bigint_name [] a = Some edits /\ dense w /\
  run_filter_first 0 77 w (object a) 0 = (1, Throws 77) /\ run_find 0 77 w (object a) 0 = (1, Returns 0).
Proof.
  intros. exists (Element (Parentheses (b "(") (Call 1 1 true false arr (ByName (b "filter")) (b "ys?.") (b "filter") (b "(g)")) (b ")")) false (SNumber (Some (Fin 0))) (b "[0]")). eexists.
  exists (a_world [] true). split; [vm_compute; reflexivity|]. split; [vm_compute; reflexivity|].
  split; [intros n s s' l H; simpl in H; discriminate|]. vm_compute. auto.
Qed.
Print Assumptions C65_parentheses_refuted.
