(** Theorems about fix and suggestion generators (C21). *)
From Coq Require Import String Bool List ZArith.
From Verif Require Import Base Report ReportSpec ReportProofs.
Import ListNotations.
Open Scope Z_scope.

(** C21, generators: a fix (suggestion) generator is called exactly once if the
    option is on and never if it is off; no other generator is called. *)
Theorem C21_generators_only_on_request :
  forall (File Node : Type) trim (bd : @builder File) (q : @request File Node) i v j u,
    offers_fix q i v -> offers_sugg q j u ->
    snd (fst (report trim bd q)) = (if b_fix bd then as_list i else []) /\
    snd (report trim bd q) = (if b_sugg bd then as_list j else []).
Proof. intros. eapply report_logs; eassumption. Qed.
Print Assumptions C21_generators_only_on_request.

(** C21, contents: a message that reaches the wire carries the rule, file, place,
    text and labels of the report whatever the options, its edits are exactly what the
    report offers if the option is on and none otherwise, and likewise for
    suggestions. *)
Theorem C21_message_contents :
  forall (File Node : Type) trim valid fx sg (f : File) n (q : @request File Node) i v j u h,
    offers_fix q i v -> offers_sugg q j u ->
    headless trim valid fx sg f n q = Ok h ->
    plain h = (h_range valid (place_of trim f q), n, text_of q, f, labels_of q) /\
    hd_fixes h = (if fx then v else []) /\
    hd_suggs h = (if sg then u else []).
Proof. intros. eapply headless_value; eassumption. Qed.
Print Assumptions C21_message_contents.

(** C21, two runs: messages for the same report under any two option settings agree in
    everything but edits and suggestions. *)
Theorem C21_otherwise_identical :
  forall (File Node : Type) trim valid fx sg fx' sg' (f : File) n (q : @request File Node) h h',
    headless trim valid fx sg f n q = Ok h ->
    headless trim valid fx' sg' f n q = Ok h' ->
    plain h = plain h' /\
    (fx = fx' -> hd_fixes h = hd_fixes h') /\ (sg = sg' -> hd_suggs h = hd_suggs h').
Proof.
  intros File Node trim valid fx sg fx' sg' f n q h h' H H'.
  destruct (offers_fix_total q) as (i & v & F). destruct (offers_sugg_total q) as (j & u & S).
  destruct (headless_value _ _ _ _ _ _ _ _ _ _ _ _ F S H) as (A & B & C).
  destruct (headless_value _ _ _ _ _ _ _ _ _ _ _ _ F S H') as (A' & B' & C').
  rewrite A, A', B, B', C, C'. split; [reflexivity|]. split; now intros ->.
Qed.
Print Assumptions C21_otherwise_identical.

(** When the conversion survives: exactly if every label has a valid range, and every
    edit that is asked for has one. *)
Theorem C21_conversion_safe_iff_ranges_valid :
  forall (File Node : Type) trim valid fx sg (f : File) n (q : @request File Node) i v j u,
    offers_fix q i v -> offers_sugg q j u ->
    (exists h, headless trim valid fx sg f n q = Ok h) <->
    (forall l, In l (labels_of q) -> valid (snd l) = true) /\
    (fx = true -> all_valid valid v) /\
    (sg = true -> forall s, In s u -> all_valid valid (s_fixes s)).
Proof. intros. eapply headless_ok; eassumption. Qed.
Print Assumptions C21_conversion_safe_iff_ranges_valid.

(** Asking for fixes can turn a delivered message into a crash of the writer: an edit
    whose range is invalid is dereferenced through a nil pointer (headless.go:111),
    while the diagnostic's own range may be invalid (headless.go:346).  So "otherwise
    identical" fails as an unconditional statement about the messages delivered. *)
Theorem C21_otherwise_identical_unconditional_refuted :
  exists (valid : range -> bool) (q : @request unit unit),
    valid (-1, -1) = false /\
    (exists h, headless (fun _ _ => (0, 0)) valid false false tt (b "r") q = Ok h) /\
    headless (fun _ _ => (0, 0)) valid true false tt (b "r") q = Panic.
Proof.
  exists (fun r => (0 <=? fst r) || (0 <=? snd r)),
         (QNodeFix tt (mkMsg [] [] []) (mkGen 0%nat [mkFix (b "x") (-1, -1)])).
  split; [reflexivity|]. split; [eexists; reflexivity|reflexivity].
Qed.
Print Assumptions C21_otherwise_identical_unconditional_refuted.

(** [ReportNodeWithFixesOrSuggestions] offers the same edits either as a fix or as
    the single suggestion, never both. *)
Theorem C21_fixes_or_suggestions :
  forall (File Node : Type) (n : Node) m sm i fs fix_it,
    let q := @fixes_or_suggestions File Node n fix_it m sm i fs in
    offers_fix q (if fix_it then Some i else None) (if fix_it then fs else []) /\
    offers_sugg q (if fix_it then None else Some i) (if fix_it then [] else [mkSugg sm fs]).
Proof. intros File Node n m sm i fs []; split; simpl; constructor. Qed.
Print Assumptions C21_fixes_or_suggestions.

Example C21_example :
  let q := @QNodeSugg nat nat 4%nat (mkMsg (b "id") (b "d") (b "h"))
             (mkGen 9%nat [mkSugg (mkMsg (b "s") [] []) [mkFix (b "x") (3, 4)]]) in
  let run fx sg := headless (fun _ n => (Z.of_nat n, 10)) (fun r => 0 <=? fst r) fx sg 1%nat (b "rule") q in
  let msg := mkMsg (b "id") (b "d") (b "h") in
  run true false = Ok (mkHD (Some (4, 10)) (b "rule") msg [] [] 1%nat []) /\
  run false true = Ok (mkHD (Some (4, 10)) (b "rule") msg []
                        [mkSugg (mkMsg (b "s") [] []) [mkFix (b "x") (3, 4)]] 1%nat []).
Proof. split; reflexivity. Qed.
