(** C37: prefer-includes. *)
From Coq Require Import Bool List ZArith Lia.
From Verif Require Import JsText JsTextProofs JsRegex JsRegexProofs Includes.
Import ListNotations.
Open Scope Z_scope.

(** ** [/p/.test(s)] to [s.includes('p')] *)

Lemma nth_app_r (a r : list Z) k : nth (List.length a + k) (a ++ r) 0 = nth k r 0.
Proof. rewrite app_nth2 by lia. f_equal. lia. Qed.

Lemma find_slash_ok a flags : ~ In 47 flags -> (0 < List.length a)%nat ->
  find_slash (List.length a + List.length flags) (a ++ 47 :: flags) = Some (List.length a).
Proof.
  intros N L.
  assert (G : forall k, (k <= List.length flags)%nat -> find_slash (List.length a + k) (a ++ 47 :: flags) = Some (List.length a)).
  { induction k as [|k IH]; intros Hk.
    - rewrite Nat.add_0_r. destruct (List.length a) as [|n] eqn:E; [lia|]. cbn [find_slash]. rewrite <- E.
      pose proof (nth_app_r a (47 :: flags) 0) as X. rewrite Nat.add_0_r in X. rewrite X. reflexivity.
    - replace (List.length a + S k)%nat with (S (List.length a + k)) by lia. cbn [find_slash].
      replace (S (List.length a + k)) with (List.length a + S k)%nat by lia. rewrite nth_app_r. cbn [nth].
      destruct (Z.eqb_spec (nth k flags 0) 47) as [E|_].
      + exfalso. apply N. rewrite <- E. apply nth_In. lia.
      + apply IH. lia. }
  apply G. lia.
Qed.

(** A rewritten literal has no flags, and the rewritten text is its pattern, which is not
    empty. *)
Theorem C37_rewritten_literal :
  forall compiles decl text p flags q,
    regex_source text p flags -> resolve_pattern compiles decl (ELit text) = q -> q <> [] ->
    q = p /\ flags = [] /\ simple_pattern p = true.
Proof.
  intros compiles decl text p flags q [-> N] R NE.
  assert (RQ : extract_literal compiles (47 :: p ++ 47 :: flags) = q).
  { unfold resolve_pattern in R. destruct (extract_literal compiles _) eqn:E; [cbn in R; congruence|congruence]. }
  clear R. unfold extract_literal in RQ.
  match type of RQ with (if ?c then _ else _) = _ => destruct c; [congruence|] end.
  pose proof (find_slash_ok (47 :: p) flags N ltac:(simpl; lia)) as F.
  replace (List.length (47%Z :: p ++ 47%Z :: flags) - 1)%nat with (List.length (47%Z :: p) + List.length flags)%nat in RQ
    by (cbn [List.length]; rewrite app_length; cbn [List.length]; lia).
  change (47 :: p ++ 47 :: flags) with ((47 :: p) ++ 47 :: flags) in RQ. rewrite F in RQ.
  cbn zeta in RQ.
  replace (firstn (List.length (47%Z :: p) - 1) (skipn 1 ((47 :: p) ++ 47 :: flags))) with p in RQ.
  2:{ cbn [app skipn List.length]. rewrite firstn_app. replace (S (List.length p) - 1 - List.length p)%nat with 0%nat by lia.
      cbn [firstn]. rewrite app_nil_r. symmetry. replace (S (List.length p) - 1)%nat with (List.length p) by lia. apply firstn_all. }
  replace (skipn (List.length (47%Z :: p) + 1) ((47 :: p) ++ 47 :: flags)) with flags in RQ.
  2:{ rewrite skipn_app, skipn_all2 by lia. replace (List.length (47%Z :: p) + 1 - List.length (47%Z :: p))%nat with 1%nat by lia. reflexivity. }
  destruct flags as [|f flags]; [|destruct (0 <? List.length (f :: flags))%nat eqn:LF; [congruence|apply Nat.ltb_ge in LF; simpl in LF; lia]].
  change (0 <? List.length (@nil Z))%nat with false in RQ. cbv iota in RQ.
  destruct (compiles p); cbn [negb] in RQ; [|congruence]. destruct (simple_pattern p); cbn [negb] in RQ; [|congruence]. auto.
Qed.
Print Assumptions C37_rewritten_literal.

(** Every literal without flags that consists of characters standing for themselves is
    rewritten (if the library accepts it). *)
Theorem C37_plain_literal_rewritten :
  forall (compiles : list Z -> bool) decl p, compiles p = true -> p <> [] -> (forall c, In c p -> ~ syntax_char c) ->
    resolve_pattern compiles decl (ELit (47 :: p ++ [47])) = p.
Proof.
  intros compiles decl p C NE P.
  assert (S : forall l prev, prev <> 92 -> (forall c, In c l -> ~ syntax_char c) -> simple_from prev l = true).
  { induction l as [|c l IH]; intros prev NP H; [auto|]. cbn [simple_from]. rewrite (proj2 (Z.eqb_neq prev 92)) by auto. cbn [negb].
    assert (NS : ~ syntax_char c) by (apply H; now left).
    destruct (metachar c) eqn:M.
    - exfalso. unfold metachar in M. apply existsb_exists in M. destruct M as (x & I & E). apply Z.eqb_eq in E. subst x.
      apply NS. unfold syntax_char. cbn [In] in *. lia.
    - apply IH; [|intros d I; apply H; now right]. intros ->. apply NS. cbn. tauto. }
  assert (X : extract_literal compiles (47 :: p ++ [47]) = p).
  { unfold extract_literal.
    replace (List.length (47%Z :: p ++ [47%Z]) <? 3)%nat with false.
    2:{ symmetry. apply Nat.ltb_ge. cbn [List.length]. rewrite app_length. cbn [List.length]. destruct p; [congruence|cbn [List.length]; lia]. }
    cbn [nth orb negb]. change (47 =? 47) with true. cbn [negb].
    pose proof (find_slash_ok (47 :: p) [] (fun x => x) ltac:(simpl; lia)) as F.
    replace (List.length (47%Z :: p ++ [47%Z]) - 1)%nat with (List.length (47%Z :: p) + List.length (@nil Z))%nat
      by (cbn [List.length]; rewrite app_length; cbn [List.length]; lia).
    change (47 :: p ++ [47]) with ((47 :: p) ++ [47]). rewrite F. cbn zeta.
    replace (firstn (List.length (47%Z :: p) - 1) (skipn 1 ((47 :: p) ++ [47]))) with p.
    2:{ cbn [app skipn List.length]. rewrite firstn_app. replace (Datatypes.S (List.length p) - 1 - List.length p)%nat with 0%nat by lia.
        cbn [firstn]. rewrite app_nil_r. symmetry. replace (Datatypes.S (List.length p) - 1)%nat with (List.length p) by lia. apply firstn_all. }
    rewrite skipn_all2 by (cbn [List.length app]; rewrite app_length; cbn [List.length]; lia).
    change (0 <? List.length (@nil Z))%nat with false. cbv iota. rewrite C. cbn [negb].
    unfold simple_pattern. rewrite S by (auto; lia). reflexivity. }
  unfold resolve_pattern. rewrite X. destruct p; [congruence|reflexivity].
Qed.
Print Assumptions C37_plain_literal_rewritten.

(** Escapes that the rule handles well: all but an escaped backslash, an escaped
    apostrophe, and digits other than a plain [\0]. *)
Definition easy_escape (e r u : list Z) : Prop :=
  cescape e r u /\ e <> [92] /\ e <> [39] /\ ~ legacy_escape e r.

Lemma metachar_ok c : metachar c = true <-> syntax_char c /\ c <> 92.
Proof.
  unfold metachar, syntax_char. rewrite existsb_exists. split.
  - intros (x & I & E). apply Z.eqb_eq in E. subst x. cbn [In] in *. lia.
  - intros [I N]. exists c. rewrite Z.eqb_refl. split; [|auto]. cbn [In] in *. lia.
Qed.
Lemma escape_letter_ok c : escape_letter c = true <-> special_letter c.
Proof.
  unfold escape_letter, special_letter. rewrite existsb_exists. split.
  - intros (x & I & E). apply Z.eqb_eq in E. subst x. cbn [In] in *. lia.
  - intros I. exists c. rewrite Z.eqb_refl. split; [|auto]. cbn [In] in *. lia.
Qed.

Lemma control_single c v : control c v -> single c v.
Proof. inversion 1; constructor. Qed.
Lemma single_control c v : single c v -> control c v \/ c = 98 \/ c = 39 \/ c = 34 \/ c = 92.
Proof. inversion 1; auto 6; left; constructor. Qed.

(** A character escape of a regular expression reads the same in a string, if it is one of
    these. *)
Lemma escape_agrees m c r u : cescape [c] r u -> c <> 98 -> c <> 92 -> c <> 39 -> ~ special_letter c -> ~ newline c ->
  ~ legacy_escape [c] r -> escape m [c] r u.
Proof.
  intros H Nb N92 N39 NS NN NL.
  assert (DD : decimal c -> c = 48 /\ ~ next_is decimal r).
  { intros D. destruct (Z.eq_dec c 48) as [->|N48].
    - split; [auto|]. intros X. apply NL. exists 48, []. split; [auto|]. split; auto.
    - exfalso. apply NL. exists c, []. split; [auto|]. split; [auto|]. congruence. }
  inversion H as [c0 v r0 K|r0 K| | | |a r0 K K2| | |c0 r0 K1 K2 K3]; subst; idtac.
  all: match goal with
       | K : control _ _ |- _ => constructor; now apply control_single
       | K : ~ next_is octal _ |- escape _ [48] _ _ => apply e_zero; apply DD; unfold decimal; lia
       | K : 49 <= _ <= 55 |- _ => exfalso; destruct (DD ltac:(unfold decimal; lia)); lia
       | _ => idtac
       end.
  destruct (Z.eq_dec c 34) as [->|N34].
  - apply (e_single m 34 34). constructor.
  - apply e_self; auto.
    + intros v S. apply single_control in S. destruct S as [S|S]; [eapply K1; eauto|lia].
    + intros D. destruct (DD D) as [-> _]. apply K2. unfold octal. lia.
    + intros ->. apply NS. cbn. tauto.
    + intros ->. apply NS. cbn. tauto.
Qed.

Lemma escape_string_app x y : escape_string (x ++ y) = escape_string x ++ escape_string y.
Proof. apply flat_map_app. Qed.

Lemma literal_pattern strict p x : pattern easy_escape p x ->
  forall prev, prev <> 92 -> simple_from prev p = true -> (forall c, In c p -> ~ newline c) ->
  exists v, x = lit v REmpty /\ chars (Str 39 strict) (escape_string p) v.
Proof.
  induction 1 as [|r x P IH|r x P IH|r x P IH|c r x NS P IH|e r u x E P IH]; intros prev NP S NL.
  - exists []. split; [reflexivity|constructor].
  - exfalso. cbn [simple_from] in S. rewrite (proj2 (Z.eqb_neq prev 92)) in S by auto. cbn in S. discriminate.
  - exfalso. cbn [simple_from] in S. rewrite (proj2 (Z.eqb_neq prev 92)) in S by auto. cbn in S. discriminate.
  - exfalso. cbn [simple_from] in S. rewrite (proj2 (Z.eqb_neq prev 92)) in S by auto. cbn in S. discriminate.
  - cbn [simple_from] in S. rewrite (proj2 (Z.eqb_neq prev 92)) in S by auto. cbn [negb] in S.
    destruct (metachar c) eqn:MC; [discriminate|].
    assert (N92 : c <> 92) by (intros ->; apply NS; cbn; tauto).
    destruct (IH c N92 S) as (v & -> & C); [intros d I; apply NL; now right|].
    exists (units c ++ v). rewrite lit_app. split; [auto|].
    change (c :: r) with ([c] ++ r). rewrite escape_string_app. cbn [escape_string flat_map].
    rewrite app_nil_r. destruct (Z.eqb_spec c 39) as [->|N39].
    + apply (c_esc _ [39]); [apply e_single; constructor|auto].
    + cbn [app]. apply c_plain; [|auto]. assert (NN : ~ newline c) by (apply NL; now left). unfold newline in NN. repeat split; lia.
  - destruct E as (E & N92 & N39 & NLg).
    cbn [simple_from] in S. rewrite (proj2 (Z.eqb_neq prev 92)) in S by auto. cbn in S.
    assert (ONE : exists c, e = [c] /\ ~ special_letter c /\ c <> 98).
    { destruct e as [|c e']; [inversion E|]. cbn [app simple_from] in S. change (92 =? 92) with true in S. cbn [negb] in S.
      destruct (escape_letter c) eqn:EL; [discriminate|].
      assert (NSL : ~ special_letter c) by (rewrite <- escape_letter_ok; congruence).
      assert (N98 : c <> 98) by (intros ->; apply NSL; cbn; tauto).
      assert (ND : e' <> [] -> ~ decimal c).
      { intros NE D. apply NLg. exists c, e'. split; [auto|]. split; [auto|]. intros [= _ X]. congruence. }
      destruct e' as [|c' e'']; [exists c; auto|]. exfalso.
      inversion E; subst; try (apply NSL; cbn; tauto);
        apply ND; try discriminate; unfold octal, decimal in *; lia. }
    destruct ONE as (c & -> & NSL & N98). cbn [app simple_from] in S. change (92 =? 92) with true in S. cbn [negb] in S.
    destruct (escape_letter c) eqn:EL; [discriminate|].
    assert (Nc92 : c <> 92) by congruence. assert (Nc39 : c <> 39) by congruence.
    destruct (IH c Nc92 S) as (v & -> & C); [intros d I; apply NL; right; apply in_or_app; auto|].
    exists (u ++ v). rewrite lit_app. split; [auto|].
    change (92 :: [c] ++ r) with ([92; c] ++ r). rewrite escape_string_app.
    replace (escape_string [92; c]) with ([92] ++ [c]).
    2:{ cbn [escape_string flat_map]. change (92 =? 39) with false. cbv iota. now rewrite (proj2 (Z.eqb_neq c 39)) by auto. }
    rewrite <- app_assoc. cbn [app]. apply (c_esc _ [c]); [|auto].
    assert (AG : escape (Str 39 strict) [c] r u).
    { apply escape_agrees; auto. apply NL. right. now left. }
    clear - AG NLg. (* the lookahead sees the rest after escaping *)
    inversion AG as [c0 v r0 S|c0 r0 S1 S2 S3 S4 S5|r0 S| | | |c0 r0 S1 S2|r0|r0 S1 S2|c0 r0 S1 S2|a r0 S1 S2 S3| |]; subst.
    + now constructor.
    + now apply e_self.
    + apply e_zero. intros (d & t & E & D). apply S. destruct r as [|d' r']; [discriminate|].
      cbn [escape_string flat_map] in E. destruct (Z.eqb_spec d' 39) as [->|N39]; cbn [app] in E; injection E as E1 E2.
      * exfalso. unfold decimal in D. lia.
      * subst. exists d, r'. auto.
    + apply e_line; [auto|]. intros ->. intros (d & t & E & D). apply (S2 eq_refl). destruct r as [|d' r']; [discriminate|].
      cbn [escape_string flat_map] in E. destruct (Z.eqb_spec d' 39) as [->|N39]; cbn [app] in E; injection E as E1 E2; [lia|].
      subst. exists 10, r'. auto.
    + exfalso. apply NLg. exists 48, []. split; [auto|]. split; [unfold decimal; lia|]. intros _.
      destruct S2 as (d & t & -> & D). exists d, t. split; [auto|]. unfold decimal. lia.
    + exfalso. apply NLg. exists c, []. split; [auto|]. split; [unfold decimal; lia|]. intros [= ->]. lia.
    + exfalso. apply NLg. exists c, []. split; [auto|]. split; [unfold decimal; lia|]. intros [= ->]. lia.
Qed.

(** If every escape of the pattern is an easy one, the inserted call has a complete string
    literal as its argument, in strict and in sloppy code, and for every subject the test
    of the pattern succeeds exactly when the subject includes the literal's value.
    Missing for the full claim: escaped backslashes and apostrophes and octal escapes, for
    which it is false (see below); in octal escapes the claim holds in sloppy code only. *)
Theorem C37_literal_fix_partial :
  forall compiles decl text p flags q strict x,
    regex_source text p flags -> (forall c, In c p -> ~ newline c) ->
    resolve_pattern compiles decl (ELit text) = q -> q <> [] ->
    pattern easy_escape p x ->
    exists src v,
      includes_call q = [46; 105; 110; 99; 108; 117; 100; 101; 115; 40] ++ src ++ [41] /\
      string_literal strict src v /\
      forall s, test x s <-> exists a t, s = a ++ v ++ t.
Proof.
  intros compiles decl text p flags q strict x RS NL R NE P.
  destruct (C37_rewritten_literal _ _ _ _ _ _ RS R NE) as (-> & -> & S).
  destruct (literal_pattern strict p x P 0 ltac:(lia) S NL) as (v & -> & C).
  exists (39 :: escape_string p ++ [39]), v. split; [|split].
  - unfold includes_call. cbn [app]. rewrite <- app_assoc. reflexivity.
  - exists 39, (escape_string p). auto.
  - intros s. apply test_contains.
Qed.
Print Assumptions C37_literal_fix_partial.

(** /it's \n[/]/ without the class: the pattern it's\n\/ *)
Example C37_example :
  let p := [105; 116; 39; 115; 92; 110; 92; 47] in
  let text := 47 :: p ++ [47] in
  regex_source text p [] /\ resolve_pattern (fun _ => true) (fun _ => None) (ELit text) = p /\
  (exists x, pattern easy_escape p x) /\
  string_literal true (39 :: escape_string p ++ [39]) [105; 116; 39; 115; 10; 47].
Proof.
  cbv zeta. split; [split; [reflexivity|easy]|]. split; [reflexivity|]. split.
  - eexists.
    do 4 (eapply p_char; [cbn; lia|]).
    eapply (p_esc _ [110]).
    { split; [apply (x_control 110 10); constructor|]. split; [discriminate|]. split; [discriminate|].
      intros (c & t & [= <- <-] & D & _). unfold decimal in D. lia. }
    eapply (p_esc _ [47]).
    { split; [apply (x_self 47); [inversion 1|unfold octal; lia|cbn; lia]|]. split; [discriminate|]. split; [discriminate|].
      intros (c & t & [= <- <-] & D & _). unfold decimal in D. lia. }
    apply p_nil.
  - exists 39, [105; 116; 92; 39; 115; 92; 110; 92; 47]. split; [auto|]. split; [reflexivity|]. apply chars_iff. reflexivity.
Qed.

(** An escaped backslash hides the next character from the check: [/\\./] (a backslash and
    any character) becomes [includes('\\.')]. *)
Theorem C37_literal_fix_refuted :
  exists compiles decl p x s,
    resolve_pattern compiles decl (ELit (47 :: p ++ [47])) = p /\ p <> [] /\ pattern cescape p x /\
    test x s /\
    (forall strict v, string_literal strict (39 :: escape_string p ++ [39]) v -> ~ exists a t, s = a ++ v ++ t).
Proof.
  exists (fun _ => true), (fun _ => None), [92; 92; 46], (lit [92] (RSeq RAny REmpty)), [92; 120].
  split; [reflexivity|]. split; [discriminate|]. split; [|split].
  - apply (p_esc _ [92] [46] [92]).
    + apply (x_self 92); [inversion 1|unfold octal; lia|cbn; lia].
    + apply p_any. apply p_nil.
  - exists 0%nat, 2%nat. econstructor; [apply (m_unit _ _ 0 92 92); reflexivity|].
    econstructor; [apply (m_any _ _ 1 120); [reflexivity|unfold newline; lia]|]. constructor. cbn; lia.
  - intros strict v L.
    assert (L' : string_literal strict (39 :: escape_string [92; 92; 46] ++ [39]) [92; 46]).
    { exists 39, [92; 92; 46]. split; [auto|]. split; [reflexivity|]. apply chars_iff. reflexivity. }
    rewrite <- (string_literal_fun _ _ _ _ L' L). intros (a & t & E).
    destruct a as [|a0 [|a1 [|a2 a]]]; discriminate.
Qed.
Print Assumptions C37_literal_fix_refuted.

(** Sources that do not give a string literal at all: an escaped apostrophe, and a line
    break in the value given to [new RegExp]. *)
Lemma no_literal strict body : read (List.length body) (Str 39 strict) body = None -> forall v, ~ string_literal strict (39 :: body ++ [39]) v.
Proof.
  intros R v (q & body' & _ & E & C). injection E as <- E. apply app_inj_tail in E. destruct E as [<- _].
  apply chars_iff in C. congruence.
Qed.
Theorem C37_fix_is_an_expression_refuted :
  (exists compiles decl p,
     resolve_pattern compiles decl (ELit (47 :: p ++ [47])) = p /\ p <> [] /\
     forall strict v, ~ string_literal strict (39 :: escape_string p ++ [39]) v) /\
  (exists compiles decl x t,
     decl x = Some (ENew [AStr t]) /\ resolve_pattern compiles decl (EVar x) = t /\ t <> [] /\
     forall strict v, ~ string_literal strict (39 :: escape_string t ++ [39]) v).
Proof.
  split.
  - exists (fun _ => true), (fun _ => None), [92; 39]. split; [reflexivity|]. split; [discriminate|].
    intros strict. apply no_literal. destruct strict; reflexivity.
  - exists (fun _ => true), (fun _ => Some (ENew [AStr [97; 10; 98]])), 0%nat, [97; 10; 98].
    split; [reflexivity|]. split; [reflexivity|]. split; [discriminate|].
    intros strict. apply no_literal. destruct strict; reflexivity.
Qed.
Print Assumptions C37_fix_is_an_expression_refuted.

(** Flags given to [new RegExp] are ignored: [new RegExp('bar', 'i')] matches "BAR". *)
Theorem C37_constructor_flags_refuted :
  exists compiles decl v p x s,
    decl v = Some (ENew [AStr p; AStr [105]]) /\ resolve_pattern compiles decl (EVar v) = p /\ p <> [] /\
    pattern cescape p x /\ test_ignoring_case x s /\
    forall w, string_literal true (39 :: escape_string p ++ [39]) w -> ~ exists a t, s = a ++ w ++ t.
Proof.
  exists (fun _ => true), (fun _ => Some (ENew [AStr [98; 97; 114]; AStr [105]])), 0%nat, [98; 97; 114],
    (lit [98; 97; 114] REmpty), [66; 65; 82].
  split; [reflexivity|]. split; [reflexivity|]. split; [discriminate|]. split; [|split].
  - apply (p_char (U := units) _ 98 _ (lit [97; 114] REmpty)); [cbn; lia|]. apply (p_char (U := units) _ 97 _ (lit [114] REmpty)); [cbn; lia|].
    apply (p_char (U := units) _ 114 _ REmpty); [cbn; lia|]. apply p_nil.
  - exists 0%nat, 3%nat. do 3 (econstructor; [eapply m_unit; reflexivity|]). constructor. cbn; lia.
  - intros w L.
    assert (L' : string_literal true (39 :: escape_string [98; 97; 114] ++ [39]) [98; 97; 114]).
    { exists 39, [98; 97; 114]. split; [auto|]. split; [reflexivity|]. apply chars_iff. reflexivity. }
    rewrite <- (string_literal_fun _ _ _ _ L' L). intros (a & t & E).
    destruct a as [|a0 [|a1 [|a2 [|a3 a]]]]; discriminate.
Qed.
Print Assumptions C37_constructor_flags_refuted.

(** The declaration of a variable is used whether or not the variable is constant: the
    value it has when [test] is called does not matter for the rewriting. *)
Theorem C37_variable_value_refuted :
  exists compiles decl (value : nat -> rexp) x p, 
    decl x = Some (ELit (47 :: p ++ [47])) /\ value x = ELit [47; 98; 47] /\
    resolve_pattern compiles decl (EVar x) = p /\ p <> [] /\ p <> [98].
Proof.
  exists (fun _ => true), (fun _ => Some (ELit [47; 97; 47])), (fun _ => ELit [47; 98; 47]), 0%nat, [97].
  repeat split; discriminate.
Qed.
Print Assumptions C37_variable_value_refuted.

(** ** [x.indexOf(y) !== -1] to [x.includes(y)] *)

(** Values: undefined, NaN, and others with an identity. *)
Inductive val := VUndef | VNaN | VOf (z : Z).
(** An array: [None] is a hole. *)
Definition strict_equal (x y : val) : Prop := x = y /\ x <> VNaN.
(** [Array.prototype.indexOf]. *)
Definition index_of (a : list (option val)) (x : val) (r : Z) : Prop :=
  (exists pre e post, a = pre ++ Some e :: post /\ strict_equal e x /\ r = Z.of_nat (List.length pre) /\
     forall e', In (Some e') pre -> ~ strict_equal e' x) \/
  (r = -1 /\ forall e, In (Some e) a -> ~ strict_equal e x).
(** [Array.prototype.includes]: SameValueZero, holes read as undefined. *)
Definition includes (a : list (option val)) (x : val) : Prop :=
  exists e, In e a /\ match e with Some v => v | None => VUndef end = x.

(** The value of a comparison of numbers; both operators of each equality agree. *)
Definition compare (op : cmp) (l r : Z) : Prop :=
  match op with
  | CNeqStrict | CNeq => l <> r
  | CEqStrict | CEq => l = r
  | CGt => l > r | CGe => l >= r | CLt => l < r | CLe => l <= r
  end.
Definition operand_value (o : operand) (z : Z) : Prop := o = ONum z \/ o = ONeg (- z).

(** Every rewritten comparison asks whether the index is -1: for an index [r] (at least -1)
    its truth is that of "r is not -1", or the negation of this. *)
Theorem C37_comparison :
  forall op o z, operand_value o z ->
    (rewrite_index op o = Some RIncludes -> forall r, -1 <= r -> (compare op r z <-> r <> -1)) /\
    (rewrite_index op o = Some RNotIncludes -> forall r, -1 <= r -> (compare op r z <-> r = -1)).
Proof.
  intros op o z V.
  assert (N : forall w, is_number o w = true -> z = w).
  { intros w. destruct V as [-> | ->]; cbn [is_number]; rewrite Z.eqb_eq; lia. }
  unfold rewrite_index, is_positive, is_negative.
  split; intros H r R; destruct op; cbn [compare];
    repeat match type of H with context[is_number o ?w] => destruct (is_number o w) eqn:?E; cbn [negb andb] in H end;
    try discriminate; match goal with E : is_number o ?w = true |- _ => apply N in E end; lia.
Qed.
Print Assumptions C37_comparison.

(** Conversely every comparison with a number literal that asks this is rewritten. *)
Theorem C37_comparison_complete :
  forall op o z, operand_value o z ->
    ((forall r, -1 <= r -> (compare op r z <-> r <> -1)) -> rewrite_index op o = Some RIncludes) /\
    ((forall r, -1 <= r -> (compare op r z <-> r = -1)) -> rewrite_index op o = Some RNotIncludes).
Proof.
  intros op o z V.
  assert (N : forall w, is_number o w = (z =? w)).
  { intros w. destruct V as [-> | ->]; cbn [is_number]; [auto|]. now rewrite Z.opp_involutive. }
  unfold rewrite_index, is_positive, is_negative.
  split; intros H; pose proof (H (-1)) as H1; pose proof (H 0) as H2; pose proof (H 1) as H3;
    pose proof (H (Z.max 2 (z + 1))) as H4; destruct op; cbn [compare negb andb] in *; try (exfalso; lia); rewrite ?N;
    match goal with |- context[z =? ?w] => destruct (Z.eqb_spec z w); [reflexivity|exfalso; lia] end.
Qed.
Print Assumptions C37_comparison_complete.

(** For arrays: the new expression has the value of the old one, if the element looked for
    is not NaN, and if it is undefined there is no hole.  Missing: NaN and holes, for which
    it is false. *)
Theorem C37_index_fix_partial :
  forall op o z a x r, operand_value o z -> index_of a x r ->
    x <> VNaN -> (x = VUndef -> ~ In None a) ->
    (rewrite_index op o = Some RIncludes -> (compare op r z <-> includes a x)) /\
    (rewrite_index op o = Some RNotIncludes -> (compare op r z <-> ~ includes a x)).
Proof.
  intros op o z a x r V I NN NH. destruct (C37_comparison op o z V) as [P N].
  assert (R : -1 <= r /\ (r <> -1 <-> includes a x)).
  { destruct I as [(pre & e & post & -> & [-> Ne] & -> & _)|[-> NE]].
    - split; [lia|]. split; [|lia]. intros _. exists (Some x). split; [apply in_or_app; right; now left|auto].
    - split; [lia|]. split; [easy|]. intros ([e|] & Ie & E).
      + exfalso. apply (NE e Ie). split; [auto|]. congruence.
      + exfalso. apply NH; auto. }
  destruct R as [R1 R2]. split; intros H.
  - rewrite (P H r R1). auto.
  - rewrite (N H r R1). rewrite <- R2. lia.
Qed.
Print Assumptions C37_index_fix_partial.

Example C37_example_index :
  rewrite_index CGe (ONum 0) = Some RIncludes /\ rewrite_index CEqStrict (ONeg 1) = Some RNotIncludes /\
  rewrite_index CGt (ONum 0) = None /\ index_of [Some (VOf 4); None; Some (VOf 7)] (VOf 7) 2.
Proof.
  repeat split. left. exists [Some (VOf 4); None], (VOf 7), []. repeat split; try discriminate.
  intros e [[= <-]|[[=]|[]]] [X _]; discriminate.
Qed.

(** [[NaN].indexOf(NaN)] is -1 but [[NaN].includes(NaN)] is true; the same for undefined and
    a hole. *)
Theorem C37_index_fix_refuted :
  (exists op o z a r, operand_value o z /\ index_of a VNaN r /\ rewrite_index op o = Some RIncludes /\
     ~ compare op r z /\ includes a VNaN) /\
  (exists op o z a r, operand_value o z /\ index_of a VUndef r /\ rewrite_index op o = Some RIncludes /\
     ~ compare op r z /\ includes a VUndef).
Proof.
  split.
  - exists CNeqStrict, (ONeg 1), (-1), [Some VNaN], (-1). split; [right; auto|]. split.
    + right. split; [auto|]. intros e [[= <-]|[]] [_ X]. congruence.
    + split; [reflexivity|]. split; [cbn; lia|]. exists (Some VNaN). split; [now left|auto].
  - exists CNeqStrict, (ONeg 1), (-1), [None], (-1). split; [right; auto|]. split.
    + right. split; [auto|]. intros e [[=]|[]].
    + split; [reflexivity|]. split; [cbn; lia|]. exists None. split; [now left|auto].
Qed.
Print Assumptions C37_index_fix_refuted.

(** With an optional call [a?.indexOf(y)] the left operand can be undefined.  The rewriting
    does not look at the question mark: [undefined !== -1] is true, [a?.includes(y)] is then
    undefined. *)
Definition truth (v : option bool) : bool := match v with Some x => x | None => false end.
Definition compare_undefined (op : cmp) : bool :=
  match op with CNeqStrict | CNeq => true | _ => false end.
Theorem C37_optional_call_refuted :
  exists op o, rewrite_index op o = Some RIncludes /\ compare_undefined op <> truth None.
Proof. exists CNeqStrict, (ONeg 1). split; [reflexivity|discriminate]. Qed.
Print Assumptions C37_optional_call_refuted.
