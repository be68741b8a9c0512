(** C81: prefer-regexp-exec. *)
From Coq Require Import Bool Arith Ascii String List Lia.
From Verif Require Import Base EngineProofs.
From Verif Require Import RegexpExec RegexpExecSpec RegexpExecProofs.
Import ListNotations.
Open Scope nat_scope.
Open Scope list_scope.

(** The flags of a literal are what is scanned after its pattern, whatever slashes and backslashes the pattern has. *)
Theorem C81_flags : forall t p f, scan_literal t = Some (p, f) -> ~ In "/"%char f -> literal_flags t = Some f.
Proof. exact literal_flags_ok. Qed.
Print Assumptions C81_flags.
Example C81_flags_ex : scan_literal (b "/[/]\\/gi") = Some (b "[/]\\", b "gi") /\ literal_flags (b "/[/]\\/gi") = Some (b "gi").
Proof. split; reflexivity. Qed.

(** Static values are those of the values. *)
Theorem C81_static : forall valid a v, value_of a v -> match static valid a with SRegExp f => exists p, v = VRegExp p f | SString => exists s, v = VStr s | SOther => forall p f t, v <> VRegExp p f /\ v <> VMatcher t | SUnknown => True end.
Proof. exact static_ok. Qed.
Print Assumptions C81_static.
Example C81_static_ex : static (fun _ => true) (Name 1 (Some (Cast (Constructor true true [Str (b "a"); Str (b "gu")])))) = SRegExp (b "gu") /\ value_of (Name 1 (Some (Cast (Constructor true true [Str (b "a"); Str (b "gu")])))) (VRegExp (b "a") (b "gu")).
Proof. split; [reflexivity|]. apply OConst, OCast. apply (OTwo true true (Str (b "a")) (Str (b "gu")) [] (VStr (b "a"))); try reflexivity; constructor. Qed.

(** A RegExp is made of something that is no RegExp, without spread. *)
Definition fresh (a : arg) : Prop := forall n p args, skip_parens a = Constructor n p args -> existsb is_spread (firstn 2 args) = false /\ forall x rest, args = x :: rest -> forall q f, ~ value_of x (VRegExp q f).
(** If there is a RegExp in the type there is one among the values. *)
Definition tight (a : arg) (types : list part) : Prop := In PRegExp types -> exists p f, value_of a (VRegExp p f).
(** The string of a literal is a complete pattern, not empty, without escaped slash. *)
Definition good_pattern (a : arg) : Prop := forall p, a = Str p -> complete false p /\ p <> [] /\ hd_error p <> Some "*"%char.

Lemma skip_value : forall a v, value_of a v -> value_of (skip_parens a) v.
Proof. intros a v O. induction O; cbn [skip_parens]; try (econstructor; eassumption); auto. Qed.
Lemma g_flag : forall f, has_g f = existsb (Ascii.eqb "g"%char) f. Proof. reflexivity. Qed.
Lemma surely_ok : forall a p f, fresh a -> surely_not_global a = true -> value_of a (VRegExp p f) -> has_g f = false.
Proof.
  intros a p f F S O. apply skip_value in O. unfold surely_not_global in S. destruct (skip_parens a) as [| | | | | |n ps args| | |] eqn:E; try discriminate. destruct (F n ps args E) as [NS NR].
  assert (forall x v, value_of x v -> (forall q g, ~ value_of x (VRegExp q g)) -> own_flags v = []) as OF by (intros x v V N; destruct v; auto; exfalso; eapply N; eauto).
  inversion O; subst.
  - reflexivity.
  - rewrite (OF a0 v); auto. eapply NR; eauto.
  - destruct (skip_parens f0) eqn:K; try discriminate.
    + match goal with X : value_of f0 (VStr f) |- _ => apply skip_value in X; rewrite K in X; inversion X; subst end. now apply negb_true_iff in S.
    + match goal with X : value_of f0 (VStr f) |- _ => apply skip_value in X; rewrite K in X; inversion X end.
  - rewrite (OF a0 v); auto. eapply NR; eauto.
  - congruence.
Qed.
Lemma surely_regexp : forall a v, surely_not_global a = true -> value_of a v -> exists p f, v = VRegExp p f.
Proof.
  intros a v S O. apply skip_value in O. unfold surely_not_global in S. destruct (skip_parens a) as [| | | | | |n ps args| | |] eqn:E; try discriminate. inversion O; subst; eauto.
Qed.
Lemma regexp_in : forall l, has_regexp l = true <-> In PRegExp l.
Proof. intros l. unfold has_regexp. rewrite existsb_exists. split; [intros (x & I' & H); destruct x; try discriminate; auto|]. intros I'. exists PRegExp. auto. Qed.

(** A fixed call gives what the call gave. *)
Theorem C81_same : forall valid a types f v, decide valid a types = Some f -> value_of a v -> of_types v types -> fresh a -> good_pattern a -> (forall t, v <> VMatcher t) -> tight a types -> fixed f v = match_ v.
Proof.
  intros valid a types f v D O T F G M TI. unfold decide in D. pose proof (static_ok valid a v O) as S.
  destruct (match static valid a with SRegExp f0 => has_g f0 | _ => false end) eqn:E1; [discriminate|].
  destruct (match static valid a with SUnknown => has_regexp types && negb (surely_not_global a) | _ => false end) eqn:E2; [discriminate|].
  assert (forall p f, v = VRegExp p f -> has_g f = false) as NG.
  { intros p g ->. destruct (static valid a) as [| |f'|].
    - cbn [of_types] in T. apply regexp_in in T. rewrite T in E2. cbn [andb] in E2. apply negb_false_iff in E2. eapply surely_ok; eauto.
    - destruct S as (s & S). discriminate.
    - destruct S as (q & S). injection S as <- <-. exact E1.
    - destruct (S p g []) as [S' _]. congruence. }
  assert (forall r s, match r, s with true, false => Some FixExec | false, true => Some FixRegExp | _, _ => None end = Some f -> r = has_regexp types -> s = has_string types -> (forall p, a <> Str p) -> fixed f v = match_ v) as GO.
  { intros r s H R HS NS. destruct r, s; try discriminate; injection H as <-; cbn [fixed].
    - assert (exists p g, v = VRegExp p g) as (p & g & ->).
      { destruct (static valid a) as [| |f'|] eqn:SA.
        - rewrite <- R in E2. cbn [andb] in E2. apply negb_false_iff in E2. eapply surely_regexp; eauto.
        - destruct S as (s & ->). cbn [of_types] in T. exfalso. assert (has_string types = true) by (unfold has_string; apply existsb_exists; exists PString; auto). congruence.
        - destruct S as (q & ->). eauto.
        - symmetry in R. apply regexp_in in R. destruct (TI R) as (p & g & O'). pose proof (static_ok valid a _ O') as S'. rewrite SA in S'. destruct (S' p g []) as [X _]. congruence. }
      cbn [exec match_]. rewrite <- g_flag, (NG p g eq_refl). reflexivity.
    - cbn [exec]. destruct v; cbn [source own_flags match_]; try reflexivity; [cbn [of_types] in T; apply regexp_in in T; congruence|exfalso; eapply M; reflexivity]. }
  destruct a; try (eapply GO; [exact D|reflexivity|reflexivity|intros; discriminate]).
  destruct (valid cooked); [|discriminate]. injection D as <-. inversion O; subst. cbn [match_ source fixed]. destruct (G cooked eq_refl) as (C & NE & ST).
  unfold to_literal. destruct (scan_escaped _ cooked false [] (le_n _) C) as [A U].
  assert (exists d q, escape_slashes cooked ++ [slash] = d :: q /\ Ascii.eqb d "/"%char = false /\ Ascii.eqb d "*"%char = false) as (d & q & EQ & N1 & N2).
  { destruct cooked as [|c p]; [congruence|]. cbn [escape_slashes]. destruct (Ascii.eqb c slash) eqn:X; cbn [app]; eexists; eexists; (split; [reflexivity|]); [split; reflexivity|]. split; [exact X|]. cbn [hd_error] in ST. destruct (Ascii.eqb c "*"%char) eqn:Y; auto. apply ascii_eq in Y. congruence. }
  rewrite EQ in *. cbn [scan_literal]. rewrite N1, N2. change (Ascii.eqb slash "/") with true. cbn [negb andb]. rewrite A, U. reflexivity.
Qed.
Print Assumptions C81_same.
Example C81_same_ex : decide (fun _ => true) (Str (b "a/b")) [PString] = Some (FixLiteral (b "a/b")) /\ fixed (FixLiteral (b "a/b")) (VStr (b "a/b")) = First [Chr "a"; Chr "/"; Chr "b"]%char [] /\ match_ (VStr (b "a/b")) = First [Chr "a"; Chr "/"; Chr "b"]%char []
  /\ complete false (b "a/b") /\ decide (fun _ => true) (Name 1 None) [PRegExp] = None /\ decide (fun _ => true) (Name 1 (Some (Regex (b "/a/y")))) [PRegExp] = Some FixExec /\ decide (fun _ => true) (Expression 1) [PString; POther] = Some FixRegExp.
Proof. repeat split. Qed.

(** Arguments that may be global are left alone. *)
Theorem C81_global : forall valid a types p f, value_of a (VRegExp p f) -> In "g"%char f -> In PRegExp types -> fresh a -> decide valid a types = None.
Proof.
  intros valid a types p f O I' T F. destruct (decide valid a types) as [k|] eqn:D; auto. exfalso.
  assert (fixed k (VRegExp p f) = match_ (VRegExp p f)) as E.
  { eapply C81_same; eauto; try discriminate; [intros q ->; inversion O|]. intros _. eauto. }
  assert (existsb (Ascii.eqb "g"%char) f = true) as G by (apply existsb_exists; exists "g"%char; split; [auto|apply Ascii.eqb_refl]). cbn [match_] in E. rewrite G in E.
  destruct k; cbn [fixed exec] in E; try discriminate. destruct (scan_literal (to_literal pattern)) as [[q []]|]; discriminate.
Qed.
Print Assumptions C81_global.
Example C81_global_ex : decide (fun _ => true) (Paren (Regex (b "/a/g"))) [PRegExp] = None /\ value_of (Paren (Regex (b "/a/g"))) (VRegExp (b "a") (b "g")) /\ fresh (Paren (Regex (b "/a/g"))).
Proof. split; [reflexivity|]. split; [|intros n p args H; discriminate]. apply OParen, ORegex; [reflexivity|]. intros [H|[]]. discriminate. Qed.
(** ... but a RegExp made of a global one is global, too, and is reported; so are those made with spread arguments. *)
Theorem C81_copied_refuted : exists a v, value_of a v /\ decide (fun _ => true) a [PRegExp] = Some FixExec /\ fixed FixExec v <> match_ v.
Proof.
  exists (Constructor true true [Regex (b "/a/g")]), (VRegExp (b "a") (b "g")). split; [|split; [reflexivity|discriminate]].
  apply (OOne true true (Regex (b "/a/g")) (VRegExp (b "a") (b "g"))); [reflexivity|]. apply ORegex; [reflexivity|]. intros [H|[]]. discriminate.
Qed.
Print Assumptions C81_copied_refuted.
Theorem C81_spread_refuted : exists a v, value_of a v /\ decide (fun _ => true) a [PRegExp] = Some FixExec /\ fixed FixExec v <> match_ v.
Proof. exists (Constructor true true [Spread (Expression 1)]), (VRegExp (b "a") (b "g")). split; [|split; [reflexivity|discriminate]]. apply OSpread. reflexivity. Qed.
Print Assumptions C81_spread_refuted.
(** Values with a method Symbol.match beside strings are made to a RegExp. *)
Theorem C81_matcher_refuted : exists a types v, value_of a v /\ of_types v types /\ decide (fun _ => true) a types = Some FixRegExp /\ fixed FixRegExp v <> match_ v.
Proof. exists (Expression 1), [PString; POther], (VMatcher (b "x")). split; [constructor|]. split; [right; now left|]. split; [reflexivity|discriminate]. Qed.
Print Assumptions C81_matcher_refuted.

(** The literal that a string is turned to is scanned as one literal with the same pattern, before any text. *)
Theorem C81_literal : forall p rest, complete false p -> p <> [] -> hd_error p <> Some "*"%char -> exists q, scan_literal (to_literal p ++ rest) = Some (q, rest) /\ units q = units p.
Proof.
  intros p rest C NE ST. exists (escape_slashes p). destruct (scan_escaped _ p false rest (le_n _) C) as [A U]. split; [|exact U].
  unfold to_literal. cbn [app]. rewrite <- app_assoc. cbn [app].
  destruct (escape_slashes p ++ slash :: rest) as [|d q] eqn:EQ; [destruct (escape_slashes p); discriminate|].
  assert (Ascii.eqb d "/"%char = false /\ Ascii.eqb d "*"%char = false) as [N1 N2].
  { destruct p as [|c p]; [congruence|]. cbn [escape_slashes] in EQ. destruct (Ascii.eqb c slash) eqn:X; cbn [app] in EQ; injection EQ as <- _; [split; reflexivity|]. split; [exact X|]. cbn [hd_error] in ST. destruct (Ascii.eqb c "*"%char) eqn:Y; auto. apply ascii_eq in Y. congruence. }
  cbn [scan_literal]. rewrite N1, N2. change (Ascii.eqb slash "/") with true. cbn [negb andb]. exact A.
Qed.
Print Assumptions C81_literal.
Example C81_literal_ex : to_literal (b "[/]\d/") = b "/[\/]\d\//" /\ scan_literal (b "/[\/]\d\//.exec(s)") = Some (b "[\/]\d\/", b ".exec(s)") /\ complete false (b "[/]\d/").
Proof. split; [reflexivity|]. split; [reflexivity|]. cbn. repeat split; discriminate. Qed.
(** ... but an empty string gives a comment, *)
Theorem C81_empty_refuted : exists p, decide (fun _ => true) (Str p) [PString] = Some (FixLiteral p) /\ firstn 2 (fix_text (FixLiteral p) (true, b "s") (true, b "''") false) = b "//" /\ fixed (FixLiteral p) (VStr p) = SyntaxError.
Proof. exists []. repeat split. Qed.
Print Assumptions C81_empty_refuted.
(** ... a slash that is escaped already ends the literal, *)
Theorem C81_slash_refuted : exists p, decide (fun _ => true) (Str p) [PString] = Some (FixLiteral p) /\ scan_literal (to_literal p) = Some (b "\\", b "/") /\ fixed (FixLiteral p) (VStr p) <> match_ (VStr p).
Proof. exists (b "\/"). split; [reflexivity|]. split; [reflexivity|discriminate]. Qed.
Print Assumptions C81_slash_refuted.
(** ... and the end of a line cannot be in it. *)
Theorem C81_newline_refuted : exists p, decide (fun _ => true) (Str p) [PString] = Some (FixLiteral p) /\ scan_literal (to_literal p) = None.
Proof. exists ["010"%char]. split; reflexivity. Qed.
Print Assumptions C81_newline_refuted.

(** The text of fixes: parentheses for weak operands and in weak places. *)
Theorem C81_text : forall f o a,
  (forall so sa w, fix_text f (so, o) (sa, a) w = fix_text f (true, if so then o else b "(" ++ o ++ b ")") (true, if sa then a else b "(" ++ a ++ b ")") w) /\
  (forall so sa, fix_text f (so, o) (sa, a) true = b "(" ++ fix_text f (so, o) (sa, a) false ++ b ")") /\
  fix_text FixExec (true, o) (true, a) false = a ++ b ".exec(" ++ o ++ b ")" /\
  fix_text FixRegExp (true, o) (true, a) false = b "RegExp(" ++ a ++ b ").exec(" ++ o ++ b ")" /\
  (forall p q rest, f = FixLiteral p -> scan_literal (fix_text f (true, o) (true, a) false) = Some (q, rest) -> complete false p -> p <> [] -> hd_error p <> Some "*"%char -> units q = units p /\ rest = b ".exec(" ++ o ++ b ")").
Proof.
  intros f o a. split; [intros [] [] w; reflexivity|]. split; [intros so sa; reflexivity|]. split; [reflexivity|]. split; [reflexivity|].
  intros p q rest -> S C NE ST. destruct (C81_literal p (b ".exec(" ++ o ++ b ")") C NE ST) as (q' & A & U).
  change (fix_text (FixLiteral p) (true, o) (true, a) false) with (to_literal p ++ b ".exec(" ++ o ++ b ")") in S. rewrite A in S. injection S as <- <-. auto.
Qed.
Print Assumptions C81_text.
Example C81_text_ex : fix_text FixRegExp (false, b "s + t") (true, b "x") true = b "(RegExp(x).exec((s + t)))".
Proof. reflexivity. Qed.
(** The callee of new is what stands before the parentheses: without them exec becomes part of it. *)
Fixpoint until_open (s : bstr) : bstr := match s with [] => [] | c :: s => if Ascii.eqb c "(" then [] else c :: until_open s end%char.
Theorem C81_new_refuted : exists a, value_of a (VRegExp [] []) /\ decide (fun _ => true) a [PRegExp] = Some FixExec /\ until_open (fix_text FixExec (true, b "s") (true, b "new RegExp") false) = b "new RegExp.exec".
Proof. exists (Constructor true false []). split; [constructor|]. split; reflexivity. Qed.
Print Assumptions C81_new_refuted.
(** At the start of a line the literal is a division of the line before, which the object was not. *)
Definition goes_on (c : ascii) : bool := existsb (Ascii.eqb c) ["("; "["; "/"; "+"; "-"; "*"; ","; "."; "`"]%char.
Theorem C81_line_refuted : exists o p, decide (fun _ => true) (Str p) [PString] = Some (FixLiteral p) /\ option_map goes_on (hd_error o) = Some false /\ option_map goes_on (hd_error (fix_text (FixLiteral p) (true, o) (true, b "'a'") false)) = Some true.
Proof. exists (b "s"), (b "a"). repeat split. Qed.
Print Assumptions C81_line_refuted.

(** Calls that are looked at. *)
Theorem C81_looked_at : forall n acc name t, looked_at n acc name t = true <-> n = 1 /\ acc = true /\ name = Some (b "match") /\ t = b "string".
Proof.
  intros n acc name t. unfold looked_at. rewrite !andb_true_iff, Nat.eqb_eq. split.
  - intros [[[-> ->] N] T]. apply beqb_eq in T as ->. destruct name as [m|]; [|discriminate]. apply beqb_eq in N as ->. auto.
  - intros (-> & -> & -> & ->). rewrite !beqb_refl. auto.
Qed.
Print Assumptions C81_looked_at.
Example C81_looked_at_ex : looked_at 1 true (Some (b "match")) (b "string") = true /\ looked_at 2 true (Some (b "match")) (b "string") = false.
Proof. repeat split. Qed.

(** What is reported: literals without the flag g, valid strings, other arguments that are strings and no RegExps. *)
Theorem C81_reported : forall valid,
  (forall t p f types, scan_literal t = Some (p, f) -> ~ In "/"%char f -> ~ In "g"%char f -> In PRegExp types -> ~ In PString types -> decide valid (Regex t) types = Some FixExec) /\
  (forall p types, decide valid (Str p) types = if valid p then Some (FixLiteral p) else None) /\
  (forall a types, (forall p, a <> Str p) -> In PString types -> ~ In PRegExp types -> (forall v, value_of a v -> exists s, v = VStr s) -> (exists v, value_of a v) -> decide valid a types = Some FixRegExp) /\
  (forall a types, (forall p, a <> Str p) -> ~ In PString types -> ~ In PRegExp types -> decide valid a types = None).
Proof.
  assert (forall l, has_string l = true <-> In PString l) as HS. { intros l. unfold has_string. rewrite existsb_exists. split; [intros (x & I' & H); destruct x; try discriminate; auto|]. intros I'. exists PString. auto. }
  assert (forall l, ~ In PString l -> has_string l = false) as NS. { intros l H. destruct (has_string l) eqn:E; auto. apply HS in E. contradiction. }
  assert (forall l, ~ In PRegExp l -> has_regexp l = false) as NR. { intros l H. destruct (has_regexp l) eqn:E; auto. apply regexp_in in E. contradiction. }
  intros valid. split; [|split; [|split]].
  - intros t p f types S N G R NS'. unfold decide. cbn [static]. rewrite (literal_flags_ok t p f S N).
    assert (has_g f = false) as ->. { destruct (has_g f) eqn:E; auto. unfold has_g in E. apply existsb_exists in E as (c & I' & E). apply ascii_eq in E as <-. contradiction. }
    apply regexp_in in R. rewrite R, (NS _ NS'). reflexivity.
  - intros p types. reflexivity.
  - intros a types N S R V (v & O). unfold decide. rewrite (NR _ R). pose proof (static_ok valid a v O) as K. destruct (V v O) as (s & ->).
    destruct (static valid a) as [| |f|] eqn:E; try (destruct K as (q & K); discriminate); cbn [andb]; apply HS in S; rewrite S; destruct a; try reflexivity; exfalso; eapply N; reflexivity.
  - intros a types N S R. unfold decide. rewrite (NR _ R), (NS _ S). destruct (static valid a) as [| |f|]; cbn [andb]; try destruct (has_g f); auto; destruct a; try reflexivity; exfalso; eapply N; reflexivity.
Qed.
Print Assumptions C81_reported.
Example C81_reported_ex : decide (fun _ => true) (Regex (b "/g/u")) [PRegExp] = Some FixExec /\ decide (fun _ => false) (Str (b "[")) [PString] = None /\ decide (fun _ => true) (OtherLiteral true (b "a")) [PString] = Some FixRegExp.
Proof. repeat split. Qed.

(** Arguments that are a literal through constants, casts and parentheses. *)
Inductive leads_to : arg -> bstr -> Prop :=
| LRegex t : leads_to (Regex t) t
| LConst n a t : leads_to a t -> leads_to (Name n (Some a)) t
| LCast a t : leads_to a t -> leads_to (Cast a) t
| LParen a t : leads_to a t -> leads_to (Paren a) t.
(** They are reported like the literal. *)
Theorem C81_through : forall valid a t p f types, leads_to a t -> scan_literal t = Some (p, f) -> ~ In "/"%char f -> In PRegExp types -> ~ In PString types ->
  (decide valid a types = Some FixExec <-> ~ In "g"%char f) /\ (In "g"%char f -> decide valid a types = None).
Proof.
  intros valid a t p f types L SC SL R NS. assert (E : static valid a = SRegExp f).
  { induction L as [t|n a t L IH|a t L IH|a t L IH]; cbn [static]; auto. rewrite (C81_flags t p f SC SL). reflexivity. }
  assert (G : has_g f = true <-> In "g"%char f). { unfold has_g. rewrite existsb_exists. split; [intros [x [X Y]]; apply Ascii.eqb_eq in Y; subst x; exact X|intros X; exists "g"%char; split; [exact X|reflexivity]]. }
  assert (HR : has_regexp types = true). { unfold has_regexp. apply existsb_exists. exists PRegExp. split; [exact R|reflexivity]. }
  assert (HS : has_string types = false). { unfold has_string. destruct (existsb _ types) eqn:K; auto. apply existsb_exists in K as [x [X Y]]. destruct x; try discriminate. contradiction. }
  unfold decide. cbv zeta. rewrite E. destruct (has_g f) eqn:H.
  - assert (I' : In "g"%char f) by (apply G; reflexivity). split; [split; [discriminate|contradiction]|auto].
  - assert (N : ~ In "g"%char f) by (rewrite <- G; discriminate). rewrite HR, HS. destruct L; (split; [split; auto|contradiction]).
Qed.
Print Assumptions C81_through.
Example C81_through_ex : leads_to (Name 1 (Some (Cast (Paren (Regex (b "/a/y")))))) (b "/a/y") /\ decide (fun _ => true) (Name 1 (Some (Cast (Paren (Regex (b "/a/y")))))) [PRegExp] = Some FixExec.
Proof. split; [repeat constructor|reflexivity]. Qed.
(** A RegExp that is made of something unknown without flags is reported, but not with an assertion round it. *)
Theorem C81_cast_refuted : exists a, decide (fun _ => true) a [PRegExp] = Some FixExec /\ decide (fun _ => true) (Paren a) [PRegExp] = Some FixExec /\ decide (fun _ => true) (Cast a) [PRegExp] = None.
Proof. exists (Constructor true true [Expression 1]). repeat split. Qed.
Print Assumptions C81_cast_refuted.
