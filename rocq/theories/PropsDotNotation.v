(** C52: internal/rules/dot_notation reports the accesses that can be written with a dot, and its fixes write them so. *)
From Coq Require Import String Ascii Bool List ZArith Lia Permutation Sorted.
From Verif Require Import Base EngineProofs Fixer FixerSpec FixerProofs FixMany DotNotation DotNotationSpec DotNotationProofs DotNotationFix.
Import ListNotations.
Open Scope Z_scope.

(** ** Reports *)
(** The declaration that is looked at: of accessors the one the access uses. *)
Theorem C52_declaration ds write d : relevant (Some ds) write = Some d <-> consulted ds write d.
Proof. apply relevant_spec. Qed.
Print Assumptions C52_declaration.
(** The allowances: private and protected members, and members of index signatures. *)
Theorem C52_allowances o no_index s k : skipped o no_index s k = true <-> allowed o no_index s k.
Proof. apply skipped_spec. Qed.
Print Assumptions C52_allowances.
(** Without options for them nothing is allowed. *)
Theorem C52_no_allowance o s k : allow_private o = false -> allow_protected o = false -> allow_index o = false -> ~ allowed o false s k.
Proof. intros P Q I (sym & _ & [(ds & d & _ & _ & H)|(_ & H)]); rewrite ?P, ?Q, ?I in H; intuition discriminate. Qed.
Print Assumptions C52_no_allowance.
(** An access with brackets is reported, with this name and message, if and only if its argument is a literal that reads as a name,
    none of the allowances holds, the name is not reserved unless reserved names are allowed, and the pattern does not match it. *)
Theorem C52_use_dot o pattern no_index s k v text : use_dot o pattern no_index s k = Some (v, text) <->
  ~ allowed o no_index s k /\ is_name v /\ (allow_keywords o = false -> ~ is_reserved v) /\ (forall f, pattern = Some f -> f v = false) /\
  exists sh, names k v sh /\ text = b "[" ++ sh ++ b "] is better written in dot notation.".
Proof.
  unfold use_dot. pose proof (skipped_spec o no_index s k) as SK. destruct (skipped o no_index s k); [split; [discriminate|intros (A & _); destruct A; now apply SK]|].
  assert (NA : ~ allowed o no_index s k) by (intros A; apply SK in A; discriminate). clear SK.
  destruct (computed_value k) as [[w f]|] eqn:CV; [|split; [discriminate|]; intros (_ & _ & _ & _ & sh & N & _); apply value_spec in N; congruence].
  assert (NW : forall sh, names k v sh -> v = w /\ sh = f) by (intros sh N; apply value_spec in N; rewrite CV in N; injection N as -> ->; auto).
  pose proof (identifier_spec w) as ID. pose proof (keyword_spec w) as KW. split.
  - destruct (is_dot_identifier w); cbn [negb]; [|discriminate]. destruct (negb (allow_keywords o) && is_keyword w) eqn:K; [discriminate|]. destruct pattern as [p|]; [destruct (p w) eqn:P; [discriminate|]|]; intros [= <- <-];
      (split; [exact NA|]; split; [now apply ID|]; split; [intros A R; apply KW in R; rewrite A, R in K; discriminate|]; split; [congruence|]; exists f; split; [now apply value_spec|reflexivity]).
  - intros (_ & N & R & P & sh & NM & ->). destruct (NW _ NM) as [<- <-]. rewrite (proj2 ID N). cbn [negb].
    assert (K : negb (allow_keywords o) && is_keyword v = false) by (destruct (allow_keywords o) eqn:A; [reflexivity|]; cbn [negb andb]; destruct (is_keyword v); [destruct (R eq_refl); now apply KW|reflexivity]). rewrite K.
    destruct pattern as [p|]; [rewrite (P p eq_refl)|]; reflexivity.
Qed.
Print Assumptions C52_use_dot.
(** An access with a dot is reported if and only if reserved names are not allowed and its name is reserved. *)
Theorem C52_use_brackets o name n text : use_brackets o name = Some (n, text) <->
  allow_keywords o = false /\ name = Some n /\ is_reserved n /\ text = b "." ++ n ++ b " is a syntax error.".
Proof.
  unfold use_brackets. destruct (allow_keywords o); [split; [discriminate|intros [H _]; discriminate]|]. destruct name as [m|]; [|split; [discriminate|intros (_ & H & _); discriminate]].
  pose proof (keyword_spec m) as KW. destruct (is_keyword m); cbn [negb].
  - split; [intros [= -> <-]; repeat split; now apply KW|]. intros (_ & [= ->] & _ & ->). reflexivity.
  - split; [discriminate|]. intros (_ & [= ->] & R & _). apply KW in R. discriminate.
Qed.
Print Assumptions C52_use_brackets.
(** What one half of the rule asks for the other half does not report: names put after a dot stay there, and names put into brackets too. *)
Theorem C52_settled o pattern no_index s k v t : (use_dot o pattern no_index s k = Some (v, t) -> use_brackets o (Some v) = None) /\
  (use_brackets o (Some v) = Some (v, t) -> forall p n s', use_dot o p n s' (KStr v) = None).
Proof.
  split.
  - intros H. apply C52_use_dot in H. destruct H as (_ & _ & R & _). destruct (use_brackets o (Some v)) as [[w u]|] eqn:B; [|reflexivity]. apply C52_use_brackets in B. destruct B as (A & E & RS & _). injection E as <-. destruct (R A RS).
  - intros H p n s'. apply C52_use_brackets in H. destruct H as (A & _ & RS & _). destruct (use_dot o p n s' (KStr v)) as [[w u]|] eqn:B; [|reflexivity]. apply C52_use_dot in B. destruct B as (_ & _ & R & _ & sh & N & _). inversion N; subst. destruct (R A RS).
Qed.
Print Assumptions C52_settled.
(** A pattern that Go cannot compile stops the program when the rule starts; nothing else does. *)
Theorem C52_pattern compile o : (pattern_of compile o = Panic <-> allow_pattern o <> [] /\ compile (allow_pattern o) = None) /\
  (forall f, pattern_of compile o = Ok (Some f) <-> allow_pattern o <> [] /\ compile (allow_pattern o) = Some f) /\
  (pattern_of compile o = Ok None <-> allow_pattern o = []).
Proof.
  unfold pattern_of. destruct (allow_pattern o) as [|c p] eqn:E.
  - split; [split; [discriminate|intros [H _]; now destruct H]|]. split; [|tauto]. intros f. split; [discriminate|intros [H _]; now destruct H].
  - assert (NE : c :: p <> []) by discriminate. destruct (compile (c :: p)) as [g|].
    + split; [split; [discriminate|intros [_ H]; discriminate]|]. split; [|split; [discriminate|congruence]]. intros f. split; [intros [= <-]; auto|intros [_ [= <-]]; reflexivity].
    + split; [tauto|]. split; [|split; [discriminate|congruence]]. intros f. split; [discriminate|intros [_ H]; discriminate].
Qed.
Print Assumptions C52_pattern.

(** ** Fixes *)
(** In a text read as pieces all accesses that are reported, of both kinds, are fixed in one pass, whatever the order of the reports; the
    new text is the pieces with these accesses written the other way, and it reads as these pieces. *)
Theorem C52_fixes unicode_part sf sm rest cs ms : correct_sort cmp_fix sf -> correct_sort cmp_msg sm ->
  let text := text_of (pieces cs) ++ rest in
  reads unicode_part (pieces cs) rest -> numbered None cs -> messages unicode_part text 0 0 cs <> [] -> Permutation (messages unicode_part text 0 0 cs) ms ->
  exists out, rewritten unicode_part rest cs out /\ apply_rule_fixes sf sm text ms = Ok (text_of out ++ rest, [], true) /\ reads unicode_part out rest.
Proof.
  intros C CM text R N NE P. exists (rewrite unicode_part rest cs). pose proof (rewrite_ok unicode_part rest cs) as W. split; [exact W|]. split; [now apply applied|]. eapply rewritten_reads; eauto.
Qed.
Print Assumptions C52_fixes.
(** The new pieces without white space and comments: the dot and the name for the brackets and the literal, or the reverse. *)
Definition solid (ps : list piece) : list piece := filter (fun p => match p with Triv _ => false | _ => true end) ps.
Definition swapped (c : chunk) : list piece :=
  match c with
  | Keep p => solid [p]
  | Elem _ question _ _ _ name _ => [Punct (match question with Some _ => b "?." | None => b "." end); Word name]
  | Dot _ question _ _ name => (if question then [Punct (b "?.")] else []) ++ [Punct (b "["); Lit (b """" ++ name ++ b """"); Punct (b "]")]
  end.
Theorem C52_tokens unicode_part rest cs out : rewritten unicode_part rest cs out -> solid out = concat (map swapped cs).
Proof.
  assert (A : forall x y, solid (x ++ y) = solid x ++ solid y) by (intros; apply filter_app).
  assert (T : forall ts, solid (trivia ts) = []) by (induction ts; auto).
  induction 1 as [|p cs out W IH|t1 t2 word name cs out W IH|t1 t2 word name cs out W IH|t1 question t2 lit t3 name num gap space cs out W IH G S]; [reflexivity|..]; cbn [map concat]; rewrite <- IH; rewrite ?A, ?T.
  - cbn [swapped]. rewrite <- A. reflexivity.
  - reflexivity.
  - reflexivity.
  - assert (SG : solid gap = []) by (destruct G as [[-> _]|[-> _]]; reflexivity). assert (SS : solid space = []) by (destruct S as [[-> _]|[-> _]]; reflexivity). rewrite SG, SS. reflexivity.
Qed.
Print Assumptions C52_tokens.
(** No fix makes [let\[] of [let.]: it would start a declaration. *)
Theorem C52_let text object_end start stop name : bracket_fixes text object_end false true start stop name = [].
Proof. reflexivity. Qed.
Print Assumptions C52_let.

(** ** What goes wrong *)
Definition no_unicode (_ : bstr) : bool := false.
Definition run (cs : list chunk) (rest : bstr) : res (bstr * list (msg ascii) * bool) :=
  let text := text_of (pieces cs) ++ rest in apply_rule_fixes (@fsort ascii) (@msort ascii) text (messages no_unicode text 0 0 cs).
Lemma plain_whole p : (exists c r, shown p = c :: r /\ code c < 128) -> match p with Triv _ => False | _ => True end -> whole no_unicode p.
Proof.
  intros (c & r & E & L) N. split; [rewrite E; discriminate|]. split; [|destruct p; auto; destruct N]. rewrite E. cbn [app].
  assert (X : forall q, begins_part no_unicode (c :: q) <-> name_part c) by (intros q; split; [intros (d & s & EQ & [[_ H]|[H _]]); injection EQ as <- <-; [exact H|lia]|intros H; exists c, q; split; [reflexivity|left; auto]]).
  intros x y. now rewrite !X.
Qed.
Ltac whole_now := apply plain_whole; [eexists; eexists; split; [reflexivity|vm_compute; reflexivity]|exact I].
Lemma no_part s : starts_with_part no_unicode s = false -> ~ begins_part no_unicode s.
Proof. intros H B. apply starts_spec in B. congruence. Qed.
Lemma no_dot c r : code c <> 46 -> ~ begins_dot (c :: r).
Proof. intros H (q & E). injection E as -> _. now apply H. Qed.
(** The text of a number from 10^21 on has an exponent, so no space is put before the dot: [1000000000000000000000\['toFixed'\]]
    becomes a text that does not read as the number, a dot and the name. *)
Definition large : list chunk := [Keep (Num (b "1000000000000000000000")); Elem [] None [] (b "'toFixed'") [] (b "toFixed") (Some (b "1e+21"))].
Theorem C52_large_refuted : exists cs out, reads no_unicode (pieces cs) [] /\ rewritten no_unicode [] cs out /\ run cs [] = Ok (text_of out, [], true) /\ ~ reads no_unicode out [].
Proof.
  exists large, [Num (b "1000000000000000000000"); Punct (b "."); Word (b "toFixed")]. split.
  - cbn [large pieces pieces_of map concat app trivia]. repeat (lazymatch goal with |- reads _ (_ :: _) _ => apply reads_cons; split; [whole_now|split] end).
    + split; [apply no_part; vm_compute; reflexivity|]. intros _. apply no_dot. vm_compute. discriminate.
    + intros [H|H]; discriminate.
    + exact I.
    + intros [H|H]; discriminate.
    + exact I.
  - split.
    + apply re_keep. apply (re_elem no_unicode [] [] None [] (b "'toFixed'") [] (b "toFixed") (Some (b "1e+21")) [] [] [] []); [constructor| |].
      * left. split; [reflexivity|]. right. right. eexists. split; [reflexivity|]. intros H. apply integer_spec in H. vm_compute in H. discriminate.
      * left. split; [reflexivity|]. apply no_part. reflexivity.
    + split; [vm_compute; reflexivity|]. intros H. apply reads_cons in H. destruct H as (_ & (_ & H) & _). apply H; [|exists (b "toFixed"); reflexivity].
      split; [discriminate|]. split; [repeat constructor; unfold digit; vm_compute; intuition discriminate|]. intros (r & E & _). discriminate.
Qed.
Print Assumptions C52_large_refuted.
(** Names with dots only, as in tags of JSX and in [implements]: every access is reported, and the fix leaves no such name. *)
Inductive dotted : list piece -> Prop :=
| do_word w : dotted [Word w]
| do_dot ps w : dotted ps -> dotted (ps ++ [Punct (b "."); Word w]).
Theorem C52_dotted_refuted : exists o cs out, use_brackets o (Some (b "class")) <> None /\ dotted (pieces cs) /\ numbered None cs /\ rewritten no_unicode (b " />") cs out /\
  run cs (b " />") = Ok (text_of out ++ b " />", [], true) /\ ~ dotted out.
Proof.
  exists (Options false false false false []), [Keep (Word (b "Foo")); Dot [] false [] (b "class") (b "class")]. exists [Word (b "Foo"); Punct (b "["); Lit (b """class"""); Punct (b "]")]. split; [discriminate|]. split; [apply (do_dot [Word (b "Foo")]); constructor|]. split; [exact I|].
  split; [apply re_keep; apply (re_dot no_unicode (b " />") [] [] (b "class") (b "class") [] []); constructor|]. split; [vm_compute; reflexivity|].
  intros D. assert (L : forall ps, dotted ps -> forall p, last ps p <> Punct (b "]")). { induction 1 as [w|ps w D' IH]; intros p; [discriminate|]. rewrite last_last || (change (ps ++ [Punct (b "."); Word w]) with (ps ++ [Punct (b ".")] ++ [Word w]); rewrite app_assoc, last_last). discriminate. }
  now apply (L _ D (Word [])).
Qed.
Print Assumptions C52_dotted_refuted.
(** Comments inside the brackets are deleted. *)
Theorem C52_comment_refuted : exists cs out t, reads no_unicode (pieces cs) [] /\ In (Triv (b "/*" ++ t ++ b "*/")) (pieces cs) /\ rewritten no_unicode [] cs out /\
  run cs [] = Ok (text_of out, [], true) /\ forall u, ~ In (Triv u) out.
Proof.
  exists [Keep (Word (b "a")); Elem [] None [b "/*!*/"] (b "'b'") [] (b "b") None], [Word (b "a"); Punct (b "."); Word (b "b")], (b "!"). split; [|split; [|split; [|split]]].
  - cbn [pieces pieces_of map concat app trivia]. apply reads_cons. split; [whole_now|]. split; [apply no_part; reflexivity|]. apply reads_cons. split; [whole_now|]. split; [intros [H|H]; discriminate|].
    apply (reads_app no_unicode (trivia [b "/*!*/"])). split.
    + apply reads_trivia. constructor; [|constructor]. apply (tr_block (b "!")). intros x y E. destruct x as [|c [|d [|e x]]]; discriminate.
    + apply reads_cons. split; [whole_now|]. split; [exact I|]. apply reads_cons. split; [whole_now|]. split; [intros [H|H]; discriminate|exact I].
  - cbn. auto.
  - apply re_keep. apply (re_elem no_unicode [] [] None [b "/*!*/"] (b "'b'") [] (b "b") None [] [] [] []); [constructor|left; auto|left; split; [reflexivity|apply no_part; reflexivity]].
  - vm_compute. reflexivity.
  - intros u [H|[H|[H|[]]]]; discriminate.
Qed.
Print Assumptions C52_comment_refuted.

(** ** Examples *)
(** [5\['a'\]\["b"\]in x.if?.\[ `c` \]in y] and a dot access with a reserved name. *)
Definition sample : list chunk :=
  [Keep (Num (b "5")); Elem [] None [] (b "'a'") [] (b "a") (Some (b "5")); Elem [b " "] None [] (b """b""") [] (b "b") None; Keep (Word (b "in")); Keep (Triv (b " ")); Keep (Word (b "x"));
   Dot [] false [b "/**/"] (b "if") (b "if"); Elem [] (Some [b " "]) [b " "] (b "`c`") [b " "] (b "c") None; Keep (Punct (b "+")); Keep (Word (b "y")); Dot [] true [] (b "do") (b "do")].
Example C52_sample : text_of (pieces sample) = b "5['a'] [""b""]in x./**/if?. [ `c` ]+y?.do" /\ run sample [] = Ok (b "5 .a .b in x/**/[""if""]?.c+y?.[""do""]", [], true).
Proof. split; vm_compute; reflexivity. Qed.
Example C52_sample_reads : reads no_unicode (pieces sample) [] /\ numbered None sample.
Proof.
  split.
  - cbn [sample pieces pieces_of map concat app trivia].
    repeat (lazymatch goal with |- reads _ (_ :: _) _ => apply reads_cons; split; [first [whole_now|split; [discriminate|split; [intros x y; split; intros B; exfalso; revert B; apply no_part; reflexivity|first [apply tr_space; cbn; tauto|apply (tr_block []); intros x y E; destruct x as [|? [|? ?]]; discriminate]]]]|split] end);
    try exact I; try (apply no_part; vm_compute; reflexivity); try (intros [H|H]; discriminate); try (intros _ (c & r & E & D); injection E as <- _; unfold digit in D; vm_compute in D; intuition discriminate).
    split; [apply no_part; reflexivity|]. intros _. apply no_dot. vm_compute. discriminate.
  - cbn [sample numbered]. assert (NM : forall c, name_start c -> is_name [c]) by (intros c H; exists c, []; auto).
    repeat split; try (apply NM; unfold name_start; vm_compute; intuition discriminate); try (intros s H; discriminate).
    + intros s _ _. exists (b "5"). split; [reflexivity|]. now apply integer_spec.
Qed.
(** Options: a private setter, an index signature, a pattern. *)
Definition plain_site (d : list decl) (w : bool) : site := Site (Some d) None w false false.
Example C52_options : let d := [Decl DGet false false; Decl DSet true false] in
  use_dot (Options true false false true []) None false (plain_site d true) (KStr (b "x")) = None /\
  use_dot (Options true false false true []) None false (plain_site d false) (KStr (b "x")) = Some (b "x", b "[""x""] is better written in dot notation.") /\
  use_dot (Options false false true true []) None false (Site None (Some []) false false true) (KStr (b "x")) = None /\
  use_dot (Options false false false true []) None true (Site None None false false false) (KStr (b "x")) = None /\
  use_dot (Options false false false true (b "^_")) (Some (fun n => beqb (firstn 1 n) (b "_"))) false (plain_site d false) (KStr (b "_x")) = None /\
  use_dot (Options false false false false []) None false (plain_site d false) KNull = None /\
  use_dot (Options false false false true []) None false (plain_site d false) KNull = Some (b "null", b "[null] is better written in dot notation.") /\
  use_dot (Options false false false true []) None false (plain_site d false) (KTemplate (b "a-b")) = None /\
  use_brackets (Options false false false false []) (Some (b "class")) = Some (b "class", b ".class is a syntax error.").
Proof. vm_compute. repeat split. Qed.
Example C52_patterns : pattern_of (fun _ => None) (Options false false false true (b "(?=a)")) = Panic /\ pattern_of (fun _ => None) (Options false false false true []) = Ok None.
Proof. split; reflexivity. Qed.
