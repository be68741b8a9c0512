(** C36: prefer-string-starts-ends-with keeps the meaning; C42: it can fail to terminate. *)
From Coq Require Import Bool List ZArith Lia.
From Verif Require Import JsText JsTextProofs JsRegex JsRegexProofs JsString JsStringProofs StartsEnds StartsEndsProofs.
Import ListNotations.
Open Scope Z_scope.

(** ** Specification *)

(** The pattern and the flags of the regular expression that an expression stands for, a
    variable standing for the initializer in its declaration. *)
Inductive regexp_of (decl : nat -> option expr) : expr -> list Z -> list Z -> Prop :=
| ro_lit t p flags : regex_source t p flags -> regexp_of decl (ERegex t) p flags
| ro_new p : regexp_of decl (ENew [Some p]) p []
| ro_flags p flags rest : regexp_of decl (ENew (Some p :: Some flags :: rest)) p flags
| ro_var x i p flags : decl x = Some i -> regexp_of decl i p flags -> regexp_of decl (EVar x) p flags.

(** With the flag [u] or [v] the subject is taken as code points. *)
Definition unicode (flags : list Z) : Prop := In 117 flags \/ In 118 flags.
Definition meaning (E : list Z -> list Z -> list Z -> Prop) (flags p : list Z) (x : rx) : Prop :=
  (unicode flags -> upattern p x) /\ (~ unicode flags -> pattern E p x).
Definition regex_test (flags : list Z) (x : rx) (s : list Z) : Prop :=
  (unicode flags /\ test x (code_points s)) \/ (~ unicode flags /\ test x s).

Definition code_unit (u : Z) : Prop := 0 <= u < 65536.
Definition compares (k : kind) (s x : list Z) : Prop :=
  match k with KStart => starts_with s x | KEnd => ends_with s x end.

(** ** Regular expressions *)

(** Escapes other than octal escapes that start with 0. *)
Definition easy (e r u : list Z) : Prop := cescape e r u /\ no_long_zero e.

Lemma unicode_dec flags : unicode flags \/ ~ unicode flags.
Proof.
  unfold unicode. destruct (in_dec Z.eq_dec 117 flags); [auto|]. destruct (in_dec Z.eq_dec 118 flags); [auto|]. right. tauto.
Qed.

Lemma has_suffix_ok c p : has_suffix c p = true -> exists q, p = q ++ [c].
Proof.
  unfold has_suffix. intros H. destruct (rev p) as [|d r] eqn:E; [discriminate|]. cbn in H. apply Z.eqb_eq in H. subst d.
  exists (rev r). rewrite <- (rev_involutive p), E. reflexivity.
Qed.

Lemma parse_pattern_ok is_digit p flags k t : parse_pattern is_digit p flags = Some (k, t) ->
  (k = KStart /\ exists q, p = 94 :: q /\ literal_text is_digit false q = Some t) \/
  (k = KEnd /\ exists q, p = q ++ [36] /\ literal_text is_digit false q = Some t).
Proof.
  unfold parse_pattern, parse_text. destruct (existsb _ flags); [discriminate|].
  destruct (has_prefix 94 p) eqn:S, (has_suffix 36 p) eqn:E; cbn [Bool.eqb]; try discriminate.
  - intros H. left. destruct p as [|c q]; [discriminate|]. cbn in S. apply Z.eqb_eq in S. subst c. cbn [skipn] in H.
    destruct (literal_text is_digit false q) as [t'|] eqn:L; [|discriminate]. injection H as <- <-. split; [auto|]. exists q. auto.
  - intros H. right. apply has_suffix_ok in E. destruct E as (q & ->).
    replace (firstn (List.length (q ++ [36]) - 1) (q ++ [36])) with q in H.
    2:{ rewrite app_length. cbn [List.length]. replace (List.length q + 1 - 1)%nat with (List.length q) by lia.
        rewrite firstn_app, Nat.sub_diag, firstn_all. cbn [firstn]. symmetry. apply app_nil_r. }
    destruct (literal_text is_digit false q) as [t'|] eqn:L; [|discriminate]. injection H as <- <-. split; [auto|]. exists q. auto.
Qed.

Lemma parse_regexp_ok is_digit decl e p flags (E : list Z -> list Z -> list Z -> Prop) : (forall e r u, E e r u -> exists c t, e = c :: t /\ forall d, In d t -> d <> 92) ->
  regexp_of decl e p flags -> (exists x, meaning E flags p x) ->
  forall fuel k t, parse_regexp is_digit decl fuel e = Some (Some (k, t)) -> parse_pattern is_digit p flags = Some (k, t).
Proof.
  intros HE R (x & MU & MN).
  assert (C : complete p).
  { destruct (unicode_dec flags) as [U|U].
    - eapply pattern_complete; [exact ucescape_complete|exact (MU U)].
    - eapply pattern_complete; [exact HE|exact (MN U)]. }
  clear MU MN. induction R as [t p flags [-> NS]|p|p flags rest|y i p flags D R IH]; intros [|fuel] k t' H; try discriminate; cbn [parse_regexp] in H.
  - rewrite split_ok in H by auto. congruence.
  - congruence.
  - congruence.
  - rewrite D in H. eapply IH; eauto.
Qed.

(** The test of a rewritten regular expression succeeds on a subject exactly when the
    subject starts (or ends) with the value of the string literal written by the fix; this
    for subjects of all kinds, also lone surrogates, with and without the flags [u], [v],
    in strict and sloppy code.  [strconv.IsPrint] accepts no control character, and
    [unicode.IsDigit] the ASCII digits.
    Missing: octal escapes like \01, and texts with the character BEL or with an
    unprintable character outside the BMP, for which the claim is false (see below); and
    variables stand for the initializer of their declaration. *)
Theorem C36_regex_fix_partial :
  forall is_digit is_print decl fuel e k t p flags x s strict,
    (forall c, decimal c -> is_digit c = true) -> (forall c, is_print c = true -> 32 <= c) ->
    regexp_of decl e p flags -> Forall scalar p -> meaning easy flags p x ->
    parse_regexp is_digit decl fuel e = Some (Some (k, t)) ->
    (forall c, In c t -> c <> 7 /\ (c < 65536 \/ is_print c = true)) ->
    Forall code_unit s ->
    exists v, string_literal strict (quote is_print t) v /\
      (regex_test flags x s <-> compares k s v).
Proof.
  intros is_digit is_print decl fuel e k t p flags x s strict DG PR R SC M H Q CU.
  assert (PP : parse_pattern is_digit p flags = Some (k, t)).
  { eapply parse_regexp_ok; eauto. intros e0 r u [X _]. eapply cescape_complete; eauto. }
  assert (ST : Forall scalar t).
  { apply parse_pattern_ok in PP. destruct PP as [(_ & q & -> & L)|(_ & q & -> & L)]; eapply literal_scalar; try exact L.
    - inversion SC; auto.
    - apply Forall_app in SC. tauto. }
  exists (flat_map units t). split.
  { exists 34, (flat_map (quote_char is_print) t). split; [auto|]. split; [reflexivity|]. apply quote_chars; [exact PR|].
    rewrite Forall_forall in *. intros c I. destruct (Q c I). split; auto. }
  assert (X : forall U E, reads is_digit U E -> pattern_of U E p x ->
     x = match k with KStart => RSeq RStart (lit (flat_map U t) REmpty) | KEnd => lit (flat_map U t) (RSeq REnd REmpty) end).
  { intros U E RE P. apply parse_pattern_ok in PP. destruct PP as [(-> & q & -> & L)|(-> & q & -> & L)].
    - inversion P as [|r x' P'| | |c r x' NS P'|]; subst.
      + f_equal. eapply literal_whole; eauto.
      + exfalso. apply NS. cbn. tauto.
    - eapply literal_end; eauto. }
  destruct M as [MU MN]. unfold regex_test. destruct (unicode_dec flags) as [U|U].
  - specialize (X _ _ (reads_ucescape is_digit) (MU U)).
    assert (FM : flat_map (fun c => [c]) t = t) by (clear; induction t; [auto|cbn; congruence]). rewrite FM in X.
    transitivity (test x (code_points s)); [tauto|]. subst x. destruct k.
    + rewrite test_starts. apply cp_starts; auto.
    + rewrite test_ends. apply cp_ends; auto.
  - specialize (X _ _ (reads_cescape is_digit DG) (MN U)).
    transitivity (test x s); [tauto|]. subst x. destruct k.
    + apply test_starts.
    + apply test_ends.
Qed.
Print Assumptions C36_regex_fix_partial.

(** Regular expressions with a flag that changes the matching (i, m) or gives them a state
    (g, y) are not rewritten. *)
Theorem C36_rewritten_flags :
  forall is_digit decl fuel e r p flags,
    regexp_of decl e p flags -> complete p -> parse_regexp is_digit decl fuel e = Some (Some r) ->
    ~ In 105 flags /\ ~ In 109 flags /\ ~ In 103 flags /\ ~ In 121 flags.
Proof.
  intros is_digit decl fuel e r p flags R C H.
  assert (P : parse_pattern is_digit p flags = Some r).
  { revert fuel H. induction R as [t p flags [-> NS]|p|p flags rest|y i p flags D R IH]; intros [|fuel] H; try discriminate; cbn [parse_regexp] in H.
    - rewrite split_ok in H by auto. congruence.
    - congruence.
    - congruence.
    - rewrite D in H. eapply IH; eauto. }
  unfold parse_pattern in P. destruct (existsb _ flags) eqn:E; [discriminate|].
  assert (G : forall c, In c [105; 109; 103; 121] -> ~ In c flags).
  { intros c I J. assert (X : existsb (fun c => existsb (Z.eqb c) [105; 109; 103; 121]) flags = true); [|congruence].
    apply existsb_exists. exists c. split; [auto|]. apply existsb_exists. exists c. split; [auto|]. apply Z.eqb_refl. }
  repeat split; apply G; cbn; tauto.
Qed.
Print Assumptions C36_rewritten_flags.

(** [/\.\n$/u.test(s)] through a variable. *)
Definition some_digit (c : Z) : bool := (48 <=? c) && (c <=? 57).
Definition some_print (c : Z) : bool := (32 <=? c) && (c <? 127).
Lemma some_digit_ok c : decimal c -> some_digit c = true.
Proof. unfold decimal, some_digit. rewrite andb_true_iff, !Z.leb_le. lia. Qed.
Lemma some_print_ok c : some_print c = true -> 32 <= c.
Proof. unfold some_print. rewrite andb_true_iff, Z.leb_le. lia. Qed.
Example C36_example_regex :
  let decl := fun x => match x with O => Some (ERegex [47; 92; 46; 92; 110; 36; 47; 117]) | _ => None end in
  parse_regexp some_digit decl 2 (EVar 0) = Some (Some (KEnd, [46; 10])) /\
  quote some_print [46; 10] = [34; 46; 92; 110; 34] /\
  regexp_of decl (EVar 0) [92; 46; 92; 110; 36] [117] /\
  (exists x, meaning easy [117] [92; 46; 92; 110; 36] x).
Proof.
  cbv zeta. split; [reflexivity|]. split; [reflexivity|]. split.
  - eapply ro_var; [reflexivity|]. apply ro_lit. split; [reflexivity|cbn; lia].
  - eexists. split; [|intros N; exfalso; apply N; left; now left]. intros _.
    eapply (p_esc _ [46]); [apply ux_self; cbn; lia|]. eapply (p_esc _ [110]); [apply (ux_control 110 10); constructor|].
    apply p_end. apply p_nil.
Qed.

(** Rewritten regular expressions that do not keep their meaning: the BEL character, which
    strconv.Quote writes as a backslash and an a; an unprintable character outside the BMP,
    written with a capital U; and an octal escape. *)
Lemma literal_value strict body v w : chars (Str 34 strict) body v -> string_literal strict (34 :: body ++ [34]) w -> w = v.
Proof.
  intros C L. eapply string_literal_fun; [exact L|]. exists 34, body. auto.
Qed.
Definition bad_fix (p s t : list Z) : Prop :=
  exists x, parse_regexp some_digit (fun _ => None) 1 (ERegex (47 :: p ++ [47])) = Some (Some (KStart, t)) /\
    pattern cescape p x /\ test x s /\
    forall strict v, string_literal strict (quote some_print t) v -> ~ starts_with s v.
Theorem C36_regex_fix_refuted :
  bad_fix [94; 7] [7] [7] /\
  bad_fix [94; 917505] (units 917505) [917505] /\
  bad_fix [94; 92; 48; 49] [1] [0; 49].
Proof.
  split; [|split].
  - exists (RSeq RStart (lit (units 7) REmpty)). split; [reflexivity|]. split; [|split].
    + apply p_start. apply p_char; [cbn; lia|]. apply p_nil.
    + apply (test_starts [7]). exists []. reflexivity.
    + intros strict v L. apply literal_value with (v := [97]) in L; [|apply chars_iff; destruct strict; reflexivity].
      subst v. intros (t & E). discriminate.
  - exists (RSeq RStart (lit (units 917505) REmpty)). split; [reflexivity|]. split; [|split].
    + apply p_start. apply p_char; [cbn; lia|]. apply p_nil.
    + apply (test_starts (units 917505)). exists []. reflexivity.
    + intros strict v L. apply literal_value with (v := [85; 48; 48; 48; 101; 48; 48; 48; 49]) in L; [|apply chars_iff; destruct strict; reflexivity].
      subst v. intros (t & E). discriminate.
  - exists (RSeq RStart (lit [1] REmpty)). split; [reflexivity|]. split; [|split].
    + apply p_start. apply (p_esc _ [48; 49] [] [1]); [|apply p_nil].
      apply (x_oct2 48 49); [unfold octal; lia|unfold octal; lia|]. intros _ (c & r & E & _). discriminate.
    + apply (test_starts [1]). exists []. reflexivity.
    + intros strict v L. apply literal_value with (v := [0; 49]) in L; [|apply chars_iff; destruct strict; reflexivity].
      subst v. intros (t & E). discriminate.
Qed.
Print Assumptions C36_regex_fix_refuted.

(** A variable that is assigned again is still taken for its initializer. *)
Theorem C36_variable_value_refuted :
  exists decl (value : nat -> expr) x,
    decl x = Some (ERegex [47; 94; 97; 47]) /\ value x = ERegex [47; 94; 98; 47] /\
    parse_regexp some_digit decl 2 (EVar x) = Some (Some (KStart, [97])) /\
    parse_regexp some_digit decl 2 (value x) = Some (Some (KStart, [98])).
Proof. exists (fun _ => Some (ERegex [47; 94; 97; 47])), (fun _ => ERegex [47; 94; 98; 47]), 0%nat. repeat split. Qed.
Print Assumptions C36_variable_value_refuted.

(** ** Comparisons *)

Section Eval.
Variables env other : nat -> value.
(** The value of an expression ([VUndef] also where the result is not a number). *)
Fixpoint eval (e : expr) : value :=
  match e with
  | ENum z => VNum z
  | ENeg e => match eval e with VNum z => VNum (- z) | _ => VUndef end
  | ESub l r => match eval l, eval r with VNum a, VNum b => VNum (a - b) | _, _ => VUndef end
  | EStr t | ETpl t => VStr (flat_map units t)
  | ELen o => match eval o with VStr s => VNum (len s) | VObj (Some n) _ _ => VNum n | _ => VUndef end
  | ENull => VNull
  | EUndef => VUndef
  | ERegex _ | ENew _ => VObj None [] true
  | EVar x => env x
  | EOther k => other k
  end.

(** The value of the left side, for an object that is the string [s]. *)
Definition to_text (v : value) (x : list Z) : Prop := match v with VStr y => x = y | VObj _ y _ => x = y | _ => False end.
Inductive left_value (decl : nat -> option expr) (s : list Z) : left -> value -> Prop :=
| lv_index obj idx i : eval obj = VStr s -> eval idx = VNum i -> left_value decl s (LIndex obj idx) (element s i)
| lv_char obj idx i : eval obj = VStr s -> eval idx = VNum i -> left_value decl s (LCall obj MCharAt [idx]) (char_at s i)
| lv_first obj a x r : eval obj = VStr s -> to_text (eval a) x -> index_of s x r -> left_value decl s (LCall obj MIndexOf [a]) (VNum r)
| lv_last obj a x r : eval obj = VStr s -> to_text (eval a) x -> last_index_of s x r -> left_value decl s (LCall obj MLastIndexOf [a]) (VNum r)
| lv_match obj a p flags x : eval obj = VStr s -> regexp_of decl a p flags -> meaning easy flags p x -> regex_test flags x s ->
    left_value decl s (LCall obj MMatch [a]) (VObj None [] false)
| lv_no_match obj a p flags x : eval obj = VStr s -> regexp_of decl a p flags -> meaning easy flags p x -> ~ regex_test flags x s ->
    left_value decl s (LCall obj MMatch [a]) VNull
| lv_slice1 obj a i : eval obj = VStr s -> eval a = VNum i -> left_value decl s (LCall obj MSlice [a]) (VStr (slice s i (len s)))
| lv_slice2 obj a c i j : eval obj = VStr s -> eval a = VNum i -> eval c = VNum j -> left_value decl s (LCall obj MSlice [a; c]) (VStr (slice s i j))
| lv_sub1 obj a i : eval obj = VStr s -> eval a = VNum i -> left_value decl s (LCall obj MSubstring [a]) (VStr (substring s i (len s)))
| lv_sub2 obj a c i j : eval obj = VStr s -> eval a = VNum i -> eval c = VNum j -> left_value decl s (LCall obj MSubstring [a; c]) (VStr (substring s i j)).

(** The value of the whole comparison. *)
Definition strict_op (o : op) : bool := match o with OEqStrict | ONeqStrict => true | _ => false end.
Definition comparison_value (o : op) (l r : value) : Prop :=
  match o with
  | OEq | OEqStrict => equal (negb (strict_op o)) l r
  | ONeq | ONeqStrict => ~ equal (negb (strict_op o)) l r
  end.
(** The value of the new call, when its argument has the text [x]. *)
Definition call_value (f : fix_) (s x : list Z) : Prop :=
  if f_neg f then ~ compares (f_kind f) s x else compares (f_kind f) s x.
(** The string the argument of the new call is. *)
Definition argument_is (is_print : Z -> bool) (f : fix_) (x : list Z) : Prop :=
  match f_arg f with
  | AExpr e => eval e = VStr x
  | AText t => string_literal true (quote is_print t) x
  end.

(** Where the meaning changes: [lastIndexOf] when both sides are -1; a slice from minus the
    length of the empty string; a slice that ends at 0. *)
Definition tricky (l : left) (k : kind) (s x : list Z) : Prop :=
  match l with
  | LCall _ MLastIndexOf _ => len x = len s + 1
  | LCall _ (MSlice | MSubstring) args =>
      k = KEnd /\
      ((exists e r, args = ENeg e :: r /\ x = []) \/ (exists a c, args = [a; c] /\ eval c = VNum 0 /\ s <> []))
  | _ => False
  end.

Section Sound.
Variables is_digit is_print : Z -> bool.
Variable decl : nat -> option expr.
Variable text_of : expr -> list Z.
Variable is_string : expr -> bool.
Variable fuel : nat.
(** Variables are constant; expressions with the same text have the same value. *)
Hypothesis constants : forall x i, decl x = Some i -> env x = eval i.
Hypothesis tokens : forall a c, text_of a = text_of c -> eval a = eval c.

Lemma static_number_ok e n : static_number e = Some n -> eval e = VNum n.
Proof.
  revert n. induction e; intros n H; cbn in H; try discriminate.
  - injection H as <-. reflexivity.
  - destruct (static_number e) as [m|]; [|discriminate]. injection H as <-. cbn. now rewrite (IHe m eq_refl).
Qed.
Lemma is_number_ok e n : is_number e n = true -> eval e = VNum n.
Proof.
  unfold is_number. destruct (static_number e) as [m|] eqn:E; [|discriminate]. intros H. apply Z.eqb_eq in H. subst m. now apply static_number_ok.
Qed.
Lemma static_string_ok f : forall e t, static_string decl f e = Some (Some t) -> eval e = VStr (flat_map units t).
Proof.
  induction f as [|f IH]; intros e t H; [discriminate|]. destruct e; cbn in H; try discriminate.
  - injection H as <-. reflexivity.
  - injection H as <-. reflexivity.
  - destruct (decl x) as [i|] eqn:D; [|discriminate]. cbn [eval]. rewrite (constants x i D). now apply IH.
Qed.
Lemma string_value_ok e t : string_value decl fuel e = Some t -> eval e = VStr (flat_map units t).
Proof. unfold string_value. destruct (static_string decl fuel e) eqn:E; [|discriminate]. intros ->. eapply static_string_ok; eauto. Qed.
Lemma same_text_ok a : forall c, same_text a c = true -> a = c.
Proof.
  induction a as [|x a IH]; intros [|y c] H; try discriminate; [auto|]. cbn in H. apply andb_true_iff in H. destruct H as [H1 H2].
  apply Z.eqb_eq in H1. f_equal; auto.
Qed.
Lemma is_length_ok node e x : is_length decl text_of fuel node e = true -> eval e = VStr x -> eval node = VNum (len x).
Proof.
  unfold is_length. intros H V.
  match type of H with (if ?c then _ else _) = _ => destruct c eqn:C end.
  - destruct node; try discriminate. apply same_text_ok, tokens in C. cbn. rewrite C, V. reflexivity.
  - destruct (static_number node) as [n|] eqn:N; [|discriminate]. destruct (string_value decl fuel e) as [t|] eqn:S; [|discriminate].
    apply Z.eqb_eq in H. apply static_number_ok in N. apply string_value_ok in S. rewrite N. f_equal. rewrite H. unfold length16, len. congruence.
Qed.
Lemma nullish_ok f : forall e k, nullish_kind decl f e = Some k ->
  match k with NNull => eval e = VNull | NUndefined => eval e = VUndef | NUnknown => True end.
Proof.
  induction f as [|f IH]; intros e k H; [discriminate|].
  destruct e; cbn in H; try (injection H as <-; exact I); try (injection H as <-; reflexivity).
  destruct (decl x) as [i|] eqn:D; [|injection H as <-; exact I]. cbn. rewrite (constants x i D). now apply IH.
Qed.
Lemma character_ok e : is_character decl fuel e = true -> exists c, eval e = VStr [c].
Proof.
  unfold is_character. destruct (string_value decl fuel e) as [t|] eqn:E; [|discriminate]. intros H. apply Z.eqb_eq in H.
  apply string_value_ok in E. unfold length16 in H. destruct (flat_map units t) as [|c [|d l]]; cbn [List.length] in H; try lia. eauto.
Qed.

Lemma op_value o a c s (k : kind) x : (equal (is_loose o) a c <-> compares k s x) ->
  (comparison_value o a c <-> if is_negative o then ~ compares k s x else compares k s x).
Proof. intros H. destruct o; cbn in *; rewrite H; reflexivity. Qed.

Lemma single_ok allow o obj idx right f s x l v : eval obj = VStr s ->
  fix_single decl text_of is_string fuel allow o obj idx right = Some f ->
  (exists i, eval idx = VNum i /\ l = v /\ (v = element s i \/ v = char_at s i)) ->
  argument_is is_print f x ->
  (comparison_value o v (eval right) <-> call_value f s x).
Proof.
  intros V F (i & VI & _ & VV) A. unfold fix_single in F.
  destruct (is_string obj); cbn [negb] in F; [|discriminate].
  destruct (is_last_index decl text_of fuel idx obj) eqn:LI.
  - destruct allow; cbn [andb negb] in F; [discriminate|].
    destruct (is_character decl fuel right) eqn:CH; cbn [negb] in F; [|discriminate]. injection F as <-.
    apply character_ok in CH. destruct CH as (c & R). cbn [argument_is f_arg] in A. rewrite R in *. injection A as <-.
    unfold call_value. cbn [f_neg f_kind]. apply op_value.
    assert (IX : i = len s - 1).
    { destruct idx; try discriminate. cbn in LI. apply andb_true_iff in LI. destruct LI as [L1 L2].
      apply (is_length_ok _ _ _ L1) in V. apply is_number_ok in L2. cbn in VI. rewrite V, L2 in VI. congruence. }
    subst i. pose proof (len_nonneg s).
    destruct (Z_lt_le_dec 0 (len s)) as [P|P].
    + assert (EV : v = VStr (part s (len s - 1) (len s))).
      { destruct VV as [-> | ->]; unfold element, char_at; rewrite (proj2 (Z.leb_le 0 (len s - 1))), (proj2 (Z.ltb_lt (len s - 1) (len s))) by lia;
          cbn [andb]; repeat f_equal; lia. }
      rewrite EV. cbn [equal compares]. now apply single_end.
    + assert (EV : v = VUndef \/ v = VStr []).
      { destruct VV as [-> | ->]; unfold element, char_at; rewrite (proj2 (Z.leb_gt 0 (len s - 1))) by lia; cbn [andb]; auto. }
      cbn [compares]. split.
      * destruct EV as [-> | ->]; cbn; [easy|discriminate].
      * intros E. apply ends_len in E. change (len [c]) with 1 in E. lia.
  - rewrite andb_false_r in F. cbn [negb andb] in F. destruct (is_number idx 0) eqn:Z0; cbn [negb andb] in F; [|rewrite andb_false_r in F; discriminate].
    destruct allow; cbn [andb negb] in F; [discriminate|].
    destruct (is_character decl fuel right) eqn:CH; cbn [negb] in F; [|discriminate]. injection F as <-.
    apply character_ok in CH. destruct CH as (c & R). cbn [argument_is f_arg] in A. rewrite R in *. injection A as <-.
    unfold call_value. cbn [f_neg f_kind]. apply op_value. apply is_number_ok in Z0. rewrite Z0 in VI. injection VI as <-.
    pose proof (len_nonneg s).
    destruct (Z_lt_le_dec 0 (len s)) as [P|P].
    + assert (EV : v = VStr (part s 0 1)).
      { destruct VV as [-> | ->]; unfold element, char_at; rewrite (proj2 (Z.ltb_lt 0 (len s))) by lia; reflexivity. }
      rewrite EV. cbn [equal compares]. apply single_start.
    + assert (EV : v = VUndef \/ v = VStr []).
      { destruct VV as [-> | ->]; unfold element, char_at; rewrite (proj2 (Z.ltb_ge 0 (len s))) by lia; cbn; auto. }
      cbn [compares]. split.
      * destruct EV as [-> | ->]; cbn; [easy|discriminate].
      * intros E. apply starts_len in E. change (len [c]) with 1 in E. lia.
Qed.

Lemma slice_fix_ok m o obj args right f s x v : m = MSlice \/ m = MSubstring -> eval obj = VStr s ->
  fix_slice decl text_of is_string fuel m o obj args right = Some f ->
  left_value decl s (LCall obj m args) v ->
  argument_is is_print f x -> ~ tricky (LCall obj m args) (f_kind f) s x ->
  (comparison_value o v (eval right) <-> call_value f s x).
Proof.
  intros Hm V F LV A NT. unfold fix_slice in F.
  destruct (is_string obj); cbn [negb] in F; [|discriminate].
  set (st := match args with [a0; a1] => is_number a0 0 && is_length decl text_of fuel a1 right | _ => false end) in F.
  set (en := match args with
      | [a0] => is_length_ahead decl text_of fuel a0 right obj
      | [a0; a1] => negb st && ((is_length decl text_of fuel a1 obj || is_number a1 0) && is_length_ahead decl text_of fuel a0 right obj)
      | _ => false
      end) in F.
  destruct (negb st && negb en) eqn:SE; [discriminate|].
  destruct (is_loose o && negb (is_string_literal right)); [discriminate|].
  match type of F with (if ?c then _ else _) = _ => destruct c eqn:C; [discriminate|] end.
  injection F as <-. cbn [argument_is f_arg] in A. unfold call_value. cbn [f_neg f_kind] in *.
  apply op_value. rewrite A.
  destruct st eqn:ST.
  - (* startsWith *)
    unfold st in ST. destruct args as [|a0 [|a1 [|a2 args]]]; try discriminate.
    apply andb_true_iff in ST. destruct ST as [S0 S1]. apply is_number_ok in S0. apply (is_length_ok _ _ _ S1) in A.
    cbn [compares]. destruct Hm as [-> | ->]; inversion LV; subst.
    + rewrite S0 in *. rewrite A in *. repeat match goal with H : VNum _ = VNum _ |- _ => injection H as <- end. cbn [equal]. apply slice_start.
    + rewrite S0 in *. rewrite A in *. repeat match goal with H : VNum _ = VNum _ |- _ => injection H as <- end. cbn [equal]. apply substring_start.
  - destruct args as [|a0 args]; [discriminate|].
    destruct (valid_position decl text_of fuel m a0 obj right) eqn:VP; [|discriminate]. clear C.
    cbn [compares].
    assert (POS : eval a0 = VNum (len s - len x) \/ (m = MSlice /\ eval a0 = VNum (- len x) /\ x <> [])).
    { destruct a0; try discriminate; cbn [valid_position] in VP.
      - right. assert (M : m = MSlice) by (destruct m; try discriminate; auto). split; [auto|]. subst m.
        split; [cbn; now rewrite (is_length_ok _ _ _ VP A)|]. intros ->. apply NT. cbn. split; [auto|]. left. eauto.
      - left. apply andb_true_iff in VP. destruct VP as [V1 V2]. cbn.
        now rewrite (is_length_ok _ _ _ V1 V), (is_length_ok _ _ _ V2 A). }
    assert (END : forall a1 r, args = a1 :: r -> r = [] /\ eval a1 = VNum (len s)).
    { intros a1 r ->. cbn [negb] in SE. unfold en in SE. destruct r; [|cbn in SE; discriminate]. split; [auto|].
      cbn [negb andb] in SE. apply negb_false_iff, andb_true_iff in SE. destruct SE as [SE _].
      apply orb_true_iff in SE. destruct SE as [SE|SE]; [exact (is_length_ok _ _ _ SE V)|].
      apply is_number_ok in SE. rewrite SE. f_equal. destruct s as [|s0 s']; [reflexivity|]. exfalso. apply NT.
      destruct Hm as [-> | ->]; cbn; (split; [auto|]); right; exists a0, a1; repeat split; auto; discriminate. }
    destruct Hm as [-> | ->]; inversion LV; subst;
      try match goal with END : forall a1 r, [?c] = a1 :: r -> _ |- _ => destruct (END c [] eq_refl) as [_ EE]; rewrite EE in * end;
      repeat match goal with H : VNum _ = VNum _ |- _ => injection H as <- end; cbn [equal];
      destruct POS as [E|(M & E & N)]; try discriminate; rewrite E in *;
      repeat match goal with H : VNum _ = VNum _ |- _ => injection H as <- end;
      first [apply slice_end | now apply slice_neg | apply substring_end].
Qed.
End Sound.
End Eval.

(** The new call has the value of the old comparison, for all strings, for all operators.
    Variables are taken to be constant, and expressions with the same text to have the same
    value (both are false in general, see below); the argument of the new call is a string.
    Missing: the cases of [tricky], for which the claim is false, and the limits of
    C36_regex_fix_partial for [match]. *)
Theorem C36_comparison_fix_partial :
  forall env other is_digit is_print decl text_of is_string fuel allow l o right f s v x,
    (forall c, decimal c -> is_digit c = true) -> (forall c, is_print c = true -> 32 <= c) ->
    (forall y i, decl y = Some i -> env y = eval env other i) ->
    (forall a c, text_of a = text_of c -> eval env other a = eval env other c) ->
    fix_comparison is_digit decl text_of is_string fuel allow l o right = Some f ->
    left_value env other decl s l v -> argument_is env other is_print f x ->
    ~ tricky env other l (f_kind f) s x ->
    (forall t, f_arg f = AText t -> forall c, In c t -> c <> 7 /\ (c < 65536 \/ is_print c = true)) ->
    (forall obj a p flags, l = LCall obj MMatch [a] -> regexp_of decl a p flags -> Forall scalar p) ->
    Forall code_unit s ->
    (comparison_value o v (eval env other right) <-> call_value f s x).
Proof.
  intros env other is_digit is_print decl text_of is_string fuel allow l o right f s v x DG PR CO TO F LV A NT QT SC CU.
  inversion LV as [obj idx i V VI|obj idx i V VI|obj a y r V Ta I|obj a y r V Ta I|obj a p flags rx V R M T|obj a p flags rx V R M T|obj a i V Va|obj a c i j V Va Vc|obj a i V Va|obj a c i j V Va Vc]; subst l v; cbn [fix_comparison] in F.
  - eapply single_ok; eauto.
  - eapply single_ok; eauto.
  - destruct (is_number right 0) eqn:Z0; cbn [negb] in F; [|discriminate]. destruct (is_string obj); cbn [negb] in F; [|discriminate].
    injection F as <-. cbn [argument_is f_arg] in A. rewrite A in Ta. cbn in Ta. subst y. unfold call_value. cbn [f_neg f_kind].
    apply op_value. rewrite (is_number_ok _ _ _ _ Z0). cbn [equal compares]. now apply index_start.
  - destruct right as [| |rl rr| | | | | | | | |]; try discriminate.
    destruct (is_string obj); cbn [negb] in F; [|discriminate].
    destruct (is_length decl text_of fuel rl obj) eqn:L1; [|discriminate]. destruct (is_length decl text_of fuel rr a) eqn:L2; [|discriminate].
    cbn [negb orb] in F. injection F as <-. cbn [argument_is f_arg] in A. pose proof Ta as Ta'. rewrite A in Ta. cbn in Ta. subst y.
    unfold call_value. cbn [f_neg f_kind]. apply op_value. cbn [eval].
    rewrite (is_length_ok env other decl text_of fuel CO TO _ _ _ L1 V), (is_length_ok env other decl text_of fuel CO TO _ _ _ L2 A).
    cbn [equal compares]. now apply last_index_end.
  - destruct (is_string obj); cbn [negb] in F; [|discriminate].
    destruct (nullish_kind decl fuel right) as [nk|] eqn:NK; [|discriminate]. apply (nullish_ok env other decl CO) in NK.
    destruct nk; [discriminate| |];
      (match type of F with (if ?c then _ else _) = _ => destruct c eqn:LO; [discriminate|] end);
      (destruct (parse_regexp is_digit decl fuel a) as [[[k t]|]|] eqn:P; try discriminate); injection F as <-;
      destruct (C36_regex_fix_partial is_digit is_print decl fuel a k t p flags rx s true DG PR R (SC _ _ _ _ eq_refl R) M P (QT _ eq_refl) CU) as (w & L & EQ);
      cbn [argument_is f_arg] in A; rewrite (string_literal_fun _ _ _ _ A L); unfold call_value; cbn [f_neg f_kind];
      rewrite NK; destruct o; cbn in *; try discriminate; tauto.
  - destruct (is_string obj); cbn [negb] in F; [|discriminate].
    destruct (nullish_kind decl fuel right) as [nk|] eqn:NK; [|discriminate]. apply (nullish_ok env other decl CO) in NK.
    destruct nk; [discriminate| |];
      (match type of F with (if ?c then _ else _) = _ => destruct c eqn:LO; [discriminate|] end);
      (destruct (parse_regexp is_digit decl fuel a) as [[[k t]|]|] eqn:P; try discriminate); injection F as <-;
      destruct (C36_regex_fix_partial is_digit is_print decl fuel a k t p flags rx s true DG PR R (SC _ _ _ _ eq_refl R) M P (QT _ eq_refl) CU) as (w & L & EQ);
      cbn [argument_is f_arg] in A; rewrite (string_literal_fun _ _ _ _ A L); unfold call_value; cbn [f_neg f_kind];
      rewrite NK; destruct o; cbn in *; try discriminate; tauto.
  - eapply slice_fix_ok with (m := MSlice); eauto.
  - eapply slice_fix_ok with (m := MSlice); eauto.
  - eapply slice_fix_ok with (m := MSubstring); eauto.
  - eapply slice_fix_ok with (m := MSubstring); eauto.
Qed.
Print Assumptions C36_comparison_fix_partial.

(** [s.slice(-3) !== 'bar'] becomes [!s.endsWith('bar')]. *)
Definition bar : list Z := [98; 97; 114].
Definition pos_of (v : value) : list Z :=
  match v with
  | VStr s => 0 :: s | VNum z => [1; z] | VNull => [2] | VUndef => [3]
  | VObj None t b => (if b then 4 else 5) :: t
  | VObj (Some n) t b => (if b then 6 else 7) :: n :: t
  end.
Lemma pos_of_inj v w : pos_of v = pos_of w -> v = w.
Proof.
  destruct v as [s|z| | |[n|] t [|]], w as [s'|z'| | |[n'|] t' [|]]; cbn; intros H; try discriminate; congruence.
Qed.
Definition env0 (x : nat) : value := VUndef.
Definition other0 (s x : list Z) (k : nat) : value := match k with O => VStr s | _ => VStr x end.
Example C36_example_comparison :
  forall s, Forall code_unit s ->
  let l := LCall (EOther 0) MSlice [ENeg (ENum 3)] in
  let f := mkFix KEnd true (AExpr (EStr bar)) in
  fix_comparison some_digit (fun _ => None) (fun e => pos_of (eval env0 (other0 s []) e)) (fun _ => true) 1 false l ONeqStrict (EStr bar) = Some f /\
  (comparison_value ONeqStrict (VStr (slice s (-3) (len s))) (VStr bar) <-> ~ ends_with s bar).
Proof.
  intros s CU l f. assert (F : fix_comparison some_digit (fun _ => None) (fun e => pos_of (eval env0 (other0 s []) e)) (fun _ => true) 1 false l ONeqStrict (EStr bar) = Some f) by reflexivity.
  split; [exact F|].
  apply (C36_comparison_fix_partial env0 (other0 s []) some_digit some_print _ _ _ _ _ _ _ _ _ s (VStr (slice s (-3) (len s))) bar some_digit_ok some_print_ok) in F; auto.
  - intros y i [=].
  - intros a c. apply pos_of_inj.
  - apply lv_slice1; reflexivity.
  - reflexivity.
  - cbn. intros [_ [(e & r & _ & [=])|(a & c & [=] & _)]].
  - intros t [=].
  - intros obj a p flags [=].
Qed.

(** ** What is rewritten *)

(** A pattern without flags that consists of an anchor and of characters that stand for
    themselves. *)
Theorem C36_plain_pattern_rewritten :
  forall is_digit decl q, (forall c, In c q -> ~ syntax_char c) -> ~ In 47 q ->
    parse_regexp is_digit decl 1 (ERegex (47 :: (94 :: q) ++ [47])) = Some (Some (KStart, q)) /\
    parse_regexp is_digit decl 1 (ERegex (47 :: (q ++ [36]) ++ [47])) = Some (Some (KEnd, q)) /\
    parse_regexp is_digit decl 1 (ENew [Some (94 :: q)]) = Some (Some (KStart, q)).
Proof.
  intros is_digit decl q H N.
  assert (L : forall q', (forall c, In c q' -> ~ syntax_char c) -> literal_text is_digit false q' = Some q').
  { induction q' as [|c q' IH]; intros Q; [reflexivity|]. cbn [literal_text].
    assert (NS : ~ syntax_char c) by (apply Q; now left). unfold syntax_char in NS. cbn [In] in NS.
    rewrite (proj2 (Z.eqb_neq c 92)) by lia. replace (rejected_char c) with false.
    - rewrite IH; [reflexivity|]. intros d I. apply Q. now right.
    - symmetry. unfold rejected_char. cbn [existsb]. rewrite !orb_false_iff, !Z.eqb_neq. lia. }
  assert (C : forall q', (forall c, In c q' -> ~ syntax_char c) -> complete q').
  { induction q' as [|c q' IH]; intros Q; [constructor|]. apply cp_char; [intros ->; apply (Q 92); [now left|cbn; tauto]|].
    apply IH. intros d I. apply Q. now right. }
  assert (NP : has_prefix 94 q = false).
  { destruct q as [|c q]; [reflexivity|]. cbn. apply Z.eqb_neq. intros ->. apply (H 94); [now left|cbn; tauto]. }
  assert (NS : has_suffix 36 q = false).
  { destruct (has_suffix 36 q) eqn:E; [|auto]. apply has_suffix_ok in E. destruct E as (q' & ->). exfalso.
    apply (H 36); [apply in_or_app; right; now left|cbn; tauto]. }
  assert (NS2 : has_suffix 36 (94 :: q) = false).
  { unfold has_suffix in *. cbn [rev]. destruct (rev q) as [|c r]; [reflexivity|exact NS]. }
  assert (P1 : parse_pattern is_digit (94 :: q) [] = Some (KStart, q)).
  { unfold parse_pattern, parse_text. rewrite NS2. cbn [existsb has_prefix]. change (94 =? 94) with true. cbn [Bool.eqb skipn].
    now rewrite L. }
  split; [|split].
  - cbn [parse_regexp]. rewrite split_ok; [now rewrite P1| |easy]. apply cp_char; [lia|]. now apply C.
  - cbn [parse_regexp]. rewrite split_ok; [|clear - H C; induction q as [|c q IH]|easy].
    + unfold parse_pattern, parse_text. cbn [existsb].
      assert (X : has_suffix 36 (q ++ [36]) = true) by (unfold has_suffix; now rewrite rev_unit).
      assert (Y : has_prefix 94 (q ++ [36]) = false) by (destruct q; [reflexivity|exact NP]).
      rewrite X, Y. cbn [Bool.eqb]. rewrite app_length. cbn [List.length]. replace (List.length q + 1 - 1)%nat with (List.length q) by lia.
      rewrite firstn_app, Nat.sub_diag, firstn_all. cbn [firstn]. rewrite app_nil_r. now rewrite L.
    + cbn [app]. apply cp_char; [lia|constructor].
    + cbn [app]. apply cp_char; [intros ->; apply (H 92); [now left|cbn; tauto]|]. apply IH. intros d I. apply H. now right.
  - cbn [parse_regexp]. now rewrite P1.
Qed.
Print Assumptions C36_plain_pattern_rewritten.

(** The comparisons the rule is for: all of them are rewritten to the expected call. *)
Inductive form (obj : expr) : left -> op -> expr -> fix_ -> Prop :=
| fo_first o c : List.length (units c) = 1%nat -> form obj (LIndex obj (ENum 0)) o (EStr [c]) (mkFix KStart (negb (match o with OEq | OEqStrict => true | _ => false end)) (AExpr (EStr [c])))
| fo_last o c : List.length (units c) = 1%nat -> form obj (LIndex obj (ESub (ELen obj) (ENum 1))) o (EStr [c]) (mkFix KEnd (negb (match o with OEq | OEqStrict => true | _ => false end)) (AExpr (EStr [c])))
| fo_char o c : List.length (units c) = 1%nat -> form obj (LCall obj MCharAt [ENum 0]) o (EStr [c]) (mkFix KStart (negb (match o with OEq | OEqStrict => true | _ => false end)) (AExpr (EStr [c])))
| fo_index o x : form obj (LCall obj MIndexOf [x]) o (ENum 0) (mkFix KStart (negb (match o with OEq | OEqStrict => true | _ => false end)) (AExpr x))
| fo_lastindex o x : form obj (LCall obj MLastIndexOf [x]) o (ESub (ELen obj) (ELen x)) (mkFix KEnd (negb (match o with OEq | OEqStrict => true | _ => false end)) (AExpr x))
| fo_slice m x : m = MSlice \/ m = MSubstring -> form obj (LCall obj m [ENum 0; ELen x]) OEqStrict x (mkFix KStart false (AExpr x))
| fo_slice_not m x : m = MSlice \/ m = MSubstring -> form obj (LCall obj m [ENum 0; ELen x]) ONeqStrict x (mkFix KStart true (AExpr x))
| fo_slice_loose m t : m = MSlice \/ m = MSubstring -> form obj (LCall obj m [ENum 0; ENum (len (flat_map units t))]) OEq (EStr t) (mkFix KStart false (AExpr (EStr t)))
| fo_tail x : form obj (LCall obj MSlice [ENeg (ELen x)]) OEqStrict x (mkFix KEnd false (AExpr x))
| fo_rest m x : m = MSlice \/ m = MSubstring -> form obj (LCall obj m [ESub (ELen obj) (ELen x)]) OEqStrict x (mkFix KEnd false (AExpr x))
| fo_rest2 m x : m = MSlice \/ m = MSubstring -> form obj (LCall obj m [ESub (ELen obj) (ELen x); ELen obj]) OEqStrict x (mkFix KEnd false (AExpr x))
| fo_match o q : (forall c, In c q -> ~ syntax_char c) -> ~ In 47 q ->
    form obj (LCall obj MMatch [ERegex (47 :: (94 :: q) ++ [47])]) o ENull (mkFix KStart (match o with OEq | OEqStrict => true | _ => false end) (AText q)).

Lemma same_text_refl a : same_text a a = true.
Proof. induction a as [|c a IH]; [auto|]. cbn. now rewrite Z.eqb_refl. Qed.
Lemma is_length_refl decl text_of fuel x : is_length decl text_of fuel (ELen x) x = true.
Proof. unfold is_length, same_tokens. now rewrite same_text_refl. Qed.

Theorem C36_forms_rewritten :
  forall is_digit decl text_of is_string n obj l o right f, is_string obj = true ->
    form obj l o right f ->
    fix_comparison is_digit decl text_of is_string (S n) false l o right = Some f.
Proof.
  intros is_digit decl text_of is_string n obj l o right f S H.
  assert (CH : forall c, List.length (units c) = 1%nat -> is_character decl (Datatypes.S n) (EStr [c]) = true).
  { intros c L. unfold is_character, string_value. cbn [static_string]. unfold length16. cbn [flat_map]. rewrite app_nil_r, L. reflexivity. }
  assert (MM : forall m args o', m = MSlice \/ m = MSubstring -> forall right', fix_comparison is_digit decl text_of is_string (Datatypes.S n) false (LCall obj m args) o' right' =
     fix_slice decl text_of is_string (Datatypes.S n) m o' obj args right') by (intros m args o' [-> | ->] r'; reflexivity).
  inversion H as [o' c L|o' c L|o' c L|o' x|o' x|m x M|m x M|m t M|x|m x M|m x M|o' q Q1 Q2]; subst; try rewrite MM by auto.
  - cbn [fix_comparison]. unfold fix_single. rewrite S, CH by auto. destruct o; reflexivity.
  - cbn [fix_comparison]. unfold fix_single, is_last_index. rewrite S, CH, is_length_refl by auto. destruct o; reflexivity.
  - cbn [fix_comparison]. unfold fix_single. rewrite S, CH by auto. destruct o; reflexivity.
  - cbn [fix_comparison]. rewrite S. destruct o; reflexivity.
  - cbn [fix_comparison]. rewrite S, !is_length_refl. destruct o; reflexivity.
  - unfold fix_slice. rewrite S, is_length_refl. reflexivity.
  - unfold fix_slice. rewrite S, is_length_refl. reflexivity.
  - unfold fix_slice. rewrite S.
    assert (LL : is_length decl text_of (Datatypes.S n) (ENum (len (flat_map units t))) (EStr t) = true).
    { unfold is_length. cbn [static_number]. unfold string_value. cbn [static_string]. apply Z.eqb_refl. }
    rewrite LL. reflexivity.
  - unfold fix_comparison, fix_slice, is_length_ahead, valid_position. rewrite S, is_length_refl. reflexivity.
  - unfold fix_slice, is_length_ahead, valid_position. rewrite S, !is_length_refl. reflexivity.
  - unfold fix_slice, is_length_ahead, valid_position. rewrite S, !is_length_refl. cbn [is_number static_number]. reflexivity.
  - cbn [fix_comparison nullish_kind]. rewrite S. cbn [negb].
    replace (parse_regexp is_digit decl (Datatypes.S n) (ERegex (47 :: (94 :: q) ++ [47]))) with (Some (Some (KStart, q)))
      by (symmetry; exact (proj1 (C36_plain_pattern_rewritten is_digit decl q Q1 Q2))).
    destruct o; reflexivity.
Qed.
Print Assumptions C36_forms_rewritten.

(** The fix changes the value of the comparison. *)
Definition changes (env other : nat -> value) (decl : nat -> option expr) (text_of : expr -> list Z)
    (l : left) (o : op) (right : expr) (s : list Z) : Prop :=
  exists f e v x,
    fix_comparison some_digit decl text_of (fun _ => true) 2 false l o right = Some f /\ f_arg f = AExpr e /\
    left_value env other decl s l v /\ argument_text (eval env other e) x /\
    ~ (comparison_value o v (eval env other right) <-> call_value f s x).
Definition same_value (env other : nat -> value) (text_of : expr -> list Z) : Prop :=
  forall a c, text_of a = text_of c -> eval env other a = eval env other c.

Lemma not_occurs_nil c i : ~ occurs [] [c] i.
Proof. intros (a & t & E & _). destruct a; discriminate. Qed.

(** With constant variables, and equal texts only for equal values: 
    [s.lastIndexOf(x) === s.length - x.length] on s = "" and x = "a" (both sides are -1);
    [s.slice(-x.length) === x] on s = "a" and x = "" (the slice is the whole string);
    [s.slice(-3, 0) === 'bar'] on s = "bar" (the slice is empty). *)
Theorem C36_comparison_fix_refuted :
  (exists env other text_of, same_value env other text_of /\
     changes env other (fun _ => None) text_of
       (LCall (EOther 0) MLastIndexOf [EOther 1]) OEqStrict (ESub (ELen (EOther 0)) (ELen (EOther 1))) []) /\
  (exists env other text_of, same_value env other text_of /\
     changes env other (fun _ => None) text_of
       (LCall (EOther 0) MSlice [ENeg (ELen (EOther 1))]) OEqStrict (EOther 1) [97]) /\
  (exists env other text_of, same_value env other text_of /\
     changes env other (fun _ => None) text_of
       (LCall (EOther 0) MSlice [ENeg (ENum 3); ENum 0]) OEqStrict (EStr bar) bar).
Proof.
  split; [|split].
  - exists env0, (other0 [] [97]), (fun e => pos_of (eval env0 (other0 [] [97]) e)). split; [intros a c; apply pos_of_inj|].
    exists (mkFix KEnd false (AExpr (EOther 1))), (EOther 1), (VNum (-1)), [97].
    split; [reflexivity|]. split; [reflexivity|]. split; [|split; [reflexivity|]].
    + eapply lv_last with (x := [97]); [reflexivity|reflexivity|]. right. split; [auto|]. apply not_occurs_nil.
    + cbn. intros [H _]. destruct (H eq_refl) as (t & E). destruct t; discriminate.
  - exists env0, (other0 [97] []), (fun e => pos_of (eval env0 (other0 [97] []) e)). split; [intros a c; apply pos_of_inj|].
    exists (mkFix KEnd false (AExpr (EOther 1))), (EOther 1), (VStr (slice [97] 0 (len [97]))), [].
    split; [reflexivity|]. split; [reflexivity|]. split; [|split; [reflexivity|]].
    + apply (lv_slice1 _ _ _ _ _ _ 0); reflexivity.
    + cbn. intros [_ H]. assert (X : [97] = []) by (apply H; exists [97]; reflexivity). discriminate.
  - exists env0, (other0 bar []), (fun e => pos_of (eval env0 (other0 bar []) e)). split; [intros a c; apply pos_of_inj|].
    exists (mkFix KEnd false (AExpr (EStr bar))), (EStr bar), (VStr (slice bar (-3) 0)), bar.
    split; [reflexivity|]. split; [reflexivity|]. split; [|split; [reflexivity|]].
    + apply (lv_slice2 _ _ _ _ _ _ _ (-3) 0); reflexivity.
    + cbn. intros [_ H]. assert (X : [] = bar) by (apply H; exists []; reflexivity). discriminate.
Qed.
Print Assumptions C36_comparison_fix_refuted.

(** The two assumptions are needed, and fail for real programs: texts are compared after
    all white space has been removed, also inside string literals, so that x["a b"] counts
    as x["ab"]; and a variable counts as its initializer after another assignment. *)
Theorem C36_assumptions_refuted :
  (exists env other text_of, text_of (EOther 1) = text_of (EOther 2) /\
     changes env other (fun _ => None) text_of
       (LCall (EOther 0) MSlice [ENum 0; ELen (EOther 1)]) OEqStrict (EOther 2) [112; 113; 114]) /\
  (exists env other text_of decl, same_value env other text_of /\ decl 0%nat = Some (EStr bar) /\
     changes env other decl text_of
       (LCall (EOther 0) MSlice [ENum 0; ENum 3]) OEqStrict (EVar 0) bar).
Proof.
  split.
  - exists env0, (fun k => match k with O => VStr [112; 113; 114] | S O => VStr [112] | _ => VStr [112; 113] end), (fun _ => []).
    split; [reflexivity|].
    exists (mkFix KStart false (AExpr (EOther 2))), (EOther 2), (VStr (slice [112; 113; 114] 0 1)), [112; 113].
    split; [reflexivity|]. split; [reflexivity|]. split; [|split; [reflexivity|]].
    + apply (lv_slice2 _ _ _ _ _ _ _ 0 1); reflexivity.
    + cbn. intros [_ H]. assert (X : [112] = [112; 113]) by (apply H; exists [114]; reflexivity). discriminate.
  - exists (fun _ => VStr [98; 97]), (other0 bar []), (fun e => pos_of (eval (fun _ => VStr [98; 97]) (other0 bar []) e)), (fun _ => Some (EStr bar)).
    split; [intros a c; apply pos_of_inj|]. split; [reflexivity|].
    exists (mkFix KStart false (AExpr (EVar 0))), (EVar 0), (VStr (slice bar 0 3)), [98; 97].
    split; [reflexivity|]. split; [reflexivity|]. split; [|split; [reflexivity|]].
    + apply (lv_slice2 _ _ _ _ _ _ _ 0 3); reflexivity.
    + cbn. intros [_ H]. assert (X : bar = [98; 97]) by (apply H; exists [114]; reflexivity). discriminate.
Qed.
Print Assumptions C36_assumptions_refuted.

(** The type of the right side is not looked at: an array is not equal to a string, but
    [startsWith] converts it to one; and where [indexOf] converts a regular expression to a
    string, [startsWith] throws. *)
Theorem C36_other_types_refuted :
  (exists env other text_of, same_value env other text_of /\
     changes env other (fun _ => None) text_of
       (LCall (EOther 0) MSlice [ENum 0; ELen (EOther 1)]) OEqStrict (EOther 1) [97]) /\
  (exists env other text_of f e s v, same_value env other text_of /\
     fix_comparison some_digit (fun _ => None) text_of (fun _ => true) 2 false
       (LCall (EOther 0) MIndexOf [EOther 1]) OEqStrict (ENum 0) = Some f /\ f_arg f = AExpr e /\
     left_value env other (fun _ => None) s (LCall (EOther 0) MIndexOf [EOther 1]) v /\
     forall x, ~ argument_text (eval env other e) x).
Proof.
  split.
  - set (other := fun k => match k with O => VStr [97] | _ => VObj (Some 1) [97] false end).
    exists env0, other, (fun e => pos_of (eval env0 other e)). split; [intros a c; apply pos_of_inj|].
    exists (mkFix KStart false (AExpr (EOther 1))), (EOther 1), (VStr (slice [97] 0 1)), [97].
    split; [reflexivity|]. split; [reflexivity|]. split; [|split; [cbn; auto|]].
    + apply (lv_slice2 _ _ _ _ _ _ _ 0 1); reflexivity.
    + cbn. intros [_ H]. destruct H as [X _]; [exists []; reflexivity|discriminate].
  - set (other := fun k => match k with O => VStr [97] | _ => VObj None [47; 97; 47] true end).
    exists env0, other, (fun e => pos_of (eval env0 other e)), (mkFix KStart false (AExpr (EOther 1))), (EOther 1), [97], (VNum (-1)).
    split; [intros a c; apply pos_of_inj|]. split; [reflexivity|]. split; [reflexivity|]. split.
    + eapply lv_first with (x := [47; 97; 47]); [reflexivity|reflexivity|]. right. split; [auto|].
      intros i (a & t & E & _). destruct a as [|a0 [|a1 a]]; discriminate.
    + intros x [X _]. discriminate.
Qed.
Print Assumptions C36_other_types_refuted.

(** ** Parentheses *)

Fixpoint balanced_from (depth : Z) (s : list Z) : Prop :=
  match s with
  | [] => depth = 0
  | c :: r => if c =? 40 then balanced_from (depth + 1) r else if c =? 41 then 0 < depth /\ balanced_from (depth - 1) r else balanced_from depth r
  end.
Definition balanced (s : list Z) : Prop := balanced_from 0 s.
Lemma balanced_shift s : forall d k, 0 <= k -> balanced_from d s -> forall r, balanced_from k r -> balanced_from (d + k) (s ++ r).
Proof.
  induction s as [|c s IH]; intros d k K H r R; cbn [balanced_from app] in *.
  - subst. exact R.
  - destruct (c =? 40); [replace (d + k + 1) with (d + 1 + k) by lia; now apply IH|].
    destruct (c =? 41); [|now apply IH]. destruct H as [H1 H2]. split; [lia|].
    replace (d + k - 1) with (d - 1 + k) by lia. now apply IH.
Qed.
Lemma balanced_app s : balanced s -> forall k r, 0 <= k -> balanced_from k r -> balanced_from k (s ++ r).
Proof. intros H k r K R. apply (balanced_shift s 0 k K H r R). Qed.

(** If the left side has no parentheses around it, the new text has balanced parentheses
    (the object, the right side and the name of the method being balanced); the same for
    [re.test(arg)] when the argument has none.  Otherwise this is false: the opening (or the
    closing) parentheses are left alone. *)
Theorem C36_parentheses_partial :
  (forall neg name c, balanced (obj_t c) -> balanced (right_t c) -> balanced name ->
     lo c = [] -> balanced (right_operand_result neg name c)) /\
  (forall needsParen name lit c, balanced (arg_t c) -> balanced name -> balanced lit ->
     ac c = [] -> balanced (test_result needsParen name lit c)).
Proof.
  split.
  - intros neg name c B1 B2 B3 E. unfold right_operand_result. rewrite E.
    assert (X : balanced (obj_t c ++ name ++ [40] ++ right_t c ++ [41])).
    { apply balanced_app; [auto|lia|]. apply balanced_app; [auto|lia|]. cbn [app balanced_from]. change (40 =? 40) with true. cbv iota.
      apply balanced_app; [auto|lia|]. cbn. lia. }
    destruct neg; cbn [bang app]; [|exact X]. unfold balanced. cbn [balanced_from]. exact X.
  - intros np name li c B1 B2 B3 E. unfold test_result. rewrite E. cbn [app].
    assert (X : balanced_from 0 (name ++ 40 :: li ++ [41])).
    { apply balanced_app; [auto|lia|]. cbn [balanced_from]. change (40 =? 40) with true. cbv iota.
      apply balanced_app; [auto|lia|]. cbn. lia. }
    unfold balanced. destruct np; cbn [app].
    + cbn [balanced_from]. change (40 =? 40) with true. cbv iota. apply balanced_app; [auto|lia|].
      cbn [balanced_from]. change (41 =? 40) with false. change (41 =? 41) with true. cbv iota. split; [lia|exact X].
    + apply balanced_app; [auto|lia|exact X].
Qed.
Print Assumptions C36_parentheses_partial.

(** [(s[0]) === 'a'] becomes [(s.startsWith('a')], and [/^a/.test((s))] becomes
    [s.startsWith("a"))]. *)
Theorem C36_parentheses_refuted :
  (exists neg name c, balanced (comparison_source c) /\ balanced (obj_t c) /\ balanced (right_t c) /\ balanced name /\
     ~ balanced (right_operand_result neg name c)) /\
  (exists needsParen name lit c, balanced (test_source c) /\ balanced (arg_t c) /\ balanced name /\ balanced lit /\
     ~ balanced (test_result needsParen name lit c)).
Proof.
  split.
  - exists false, [46; 115], (mkCmp [40] [115] [91; 48; 93] [41] [61; 61; 61] [] [39; 97; 39] []). cbn. repeat split; lia.
  - exists false, [46; 115], [34; 97; 34], (mkTest [47; 94; 97; 47; 46; 116] [40] [115] [41]). cbn. repeat split; lia.
Qed.
Print Assumptions C36_parentheses_refuted.

(** ** C42: termination *)

(** Following initializers from [e] comes to an end. *)
Inductive ends (decl : nat -> option expr) : expr -> Prop :=
| ends_other e : (forall x, e <> EVar x) -> ends decl e
| ends_undeclared x : decl x = None -> ends decl (EVar x)
| ends_var x i : decl x = Some i -> ends decl i -> ends decl (EVar x).

(** The three recursive functions come to an end on exactly the expressions from which the
    chain of initializers does. *)
Theorem C42_terminates_exactly_without_cycles :
  forall is_digit decl e,
    (ends decl e <-> exists fuel r, parse_regexp is_digit decl fuel e = Some r) /\
    (ends decl e <-> exists fuel r, static_string decl fuel e = Some r) /\
    (ends decl e <-> exists fuel r, nullish_kind decl fuel e = Some r).
Proof.
  intros is_digit decl e. split; [|split].
  - split.
    + induction 1 as [e N|x D|x i D E (fuel & r & IH)].
      * destruct e as [| | | | | | | |t|args|x|]; try (exists 1%nat; eexists; reflexivity).
        -- exists 1%nat. cbn. destruct (split_regex t) as [[p fl]|]; eexists; reflexivity.
        -- exists 1%nat. cbn. destruct args as [|[a|] [|[c|] args]]; eexists; reflexivity.
        -- exfalso. now apply (N x).
      * exists 1%nat. cbn. rewrite D. eexists; reflexivity.
      * exists (S fuel), r. cbn. now rewrite D.
    + intros (fuel & r & H). revert e r H. induction fuel as [|fuel IH]; intros e r H; [discriminate|].
      destruct e; try (apply ends_other; discriminate). cbn in H. destruct (decl x) as [i|] eqn:D; [|now apply ends_undeclared].
      eapply ends_var; eauto.
  - split.
    + induction 1 as [e N|x D|x i D E (fuel & r & IH)].
      * destruct e; try (exists 1%nat; eexists; reflexivity). exfalso. now apply (N x).
      * exists 1%nat. cbn. rewrite D. eexists; reflexivity.
      * exists (S fuel), r. cbn. now rewrite D.
    + intros (fuel & r & H). revert e r H. induction fuel as [|fuel IH]; intros e r H; [discriminate|].
      destruct e; try (apply ends_other; discriminate). cbn in H. destruct (decl x) as [i|] eqn:D; [|now apply ends_undeclared].
      eapply ends_var; eauto.
  - split.
    + induction 1 as [e N|x D|x i D E (fuel & r & IH)].
      * destruct e; try (exists 1%nat; eexists; reflexivity). exfalso. now apply (N x).
      * exists 1%nat. cbn. rewrite D. eexists; reflexivity.
      * exists (S fuel), r. cbn. now rewrite D.
    + intros (fuel & r & H). revert e r H. induction fuel as [|fuel IH]; intros e r H; [discriminate|].
      destruct e; try (apply ends_other; discriminate). cbn in H. destruct (decl x) as [i|] eqn:D; [|now apply ends_undeclared].
      eapply ends_var; eauto.
Qed.
Print Assumptions C42_terminates_exactly_without_cycles.

(** The answer does not depend on the amount of fuel: it is the one of the code. *)
Theorem C42_answer_unique :
  forall is_digit decl e n m r r', parse_regexp is_digit decl n e = Some r -> parse_regexp is_digit decl m e = Some r' -> r = r'.
Proof.
  intros is_digit decl e n. revert e. induction n as [|n IH]; intros e m r r' A C; [discriminate|].
  destruct m as [|m]; [discriminate|]. destruct e; cbn in A, C; try congruence.
  destruct (decl x) as [i|]; [|congruence]. eapply IH; eauto.
Qed.
Print Assumptions C42_answer_unique.

(** [var a = b; var b = a; a.test(s)]: no end is reached. *)
Theorem C42_terminates_refuted :
  exists decl e, ~ ends decl e /\ forall is_digit fuel, parse_regexp is_digit decl fuel e = None.
Proof.
  set (decl := fun x => match x with O => Some (EVar 1) | S O => Some (EVar 0) | _ => None end : option expr).
  assert (H : forall is_digit fuel, parse_regexp is_digit decl fuel (EVar 0) = None /\ parse_regexp is_digit decl fuel (EVar 1) = None).
  { intros d. induction fuel as [|n [IH1 IH2]]; [split; reflexivity|]. split; cbn; assumption. }
  exists decl, (EVar 0). split; [|intros; apply H]. intros E.
  apply (proj1 (C42_terminates_exactly_without_cycles some_digit decl (EVar 0))) in E. destruct E as (fuel & r & E).
  rewrite (proj1 (H some_digit fuel)) in E. discriminate.
Qed.
Print Assumptions C42_terminates_refuted.
Example C42_example : ends (fun x => match x with O => Some (EVar 1) | _ => Some (EStr [97]) end) (EVar 0) /\
  static_string (fun x => match x with O => Some (EVar 1) | _ => Some (EStr [97]) end) 3 (EVar 0) = Some (Some [97]).
Proof. split; [|reflexivity]. eapply ends_var; [reflexivity|]. eapply ends_var; [reflexivity|]. apply ends_other. discriminate. Qed.
