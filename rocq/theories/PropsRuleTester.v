(** C113: the tester rules are tested with (internal/rule_tester/rule_tester.go 27-258). *)
From Coq Require Import Bool Arith Ascii String List Lia.
From Verif Require Import Base.
From Verif Require Import RuleTester RuleTesterSpec RuleTesterProofs.
Import ListNotations.
Local Open Scope list_scope.

(** A case for which nothing is to be reported passes exactly if it is not left out and the linter runs and reports nothing; it fails exactly if it is not left out and does not pass. *)
Theorem C113_valid : forall resolve config lint valid invalid t,
  (run_valid resolve config lint (only_mode valid invalid) t = Skipped <-> left_out valid invalid t) /\
  (run_valid resolve config lint (only_mode valid invalid) t = Passed <-> ~ left_out valid invalid t /\ run_linter resolve config lint t (code t) = Some []).
Proof.
  intros resolve config lint valid invalid t. unfold run_valid. rewrite <- skipped_iff. destruct (skipped _ t).
  - split; [split; reflexivity|]. split; [discriminate|]. intros [H _]. destruct H. reflexivity.
  - split; [split; [destruct (run_linter _ _ _ _ _) as [[|d l]|]; discriminate|discriminate]|].
    destruct (run_linter _ _ _ _ _) as [[|d l]|]; split; try discriminate; try (intros [_ H]; discriminate); auto.
Qed.
Print Assumptions C113_valid.

(** A case with errors passes exactly if it is not left out and: its outputs are what fixing makes of the code, again and again, until there is nothing to fix or there are ten of them;
    the diagnostics of the code are the errors, one by one in order, with their ids, places where these are given, and suggestions with what they make of the code; and the snapshot is met. *)
Theorem C113_invalid : forall resolve config lint apply suggest position snapshot valid invalid t,
  let linted := run_linter resolve config lint (base t) in
  let outcome := run_invalid resolve config lint apply suggest position snapshot (only_mode valid invalid) t in
  (outcome = Skipped <-> left_out valid invalid (base t)) /\
  (outcome = Passed <-> ~ left_out valid invalid (base t) /\
    exists initial last, linted (code (base t)) = Some initial /\ chain linted apply (code (base t)) (output t) last /\
      ((List.length (output t) < 10 /\ settled linted apply last) \/ List.length (output t) = 10) /\
      Forall2 (agrees suggest position (code (base t))) (errors t) initial /\ snapshot (code (base t)) initial = true).
Proof.
  intros resolve config lint apply suggest position snapshot valid invalid t. cbv zeta. unfold run_invalid. rewrite <- skipped_iff. destruct (skipped _ (base t)).
  - split; [split; reflexivity|]. split; [discriminate|]. intros [H _]. destruct H. reflexivity.
  - set (ls := run_linter resolve config lint (base t)). destruct (ls (code (base t))) as [initial|] eqn:L.
    + destruct (rounds resolve config lint apply 10 (base t) (code (base t))) as [outs|] eqn:R.
      * split; [split; [destruct (snapshot _ _ && _ && _); discriminate|discriminate]|].
        destruct (snapshot (code (base t)) initial && same_outputs (output t) outs && errors_ok suggest position (code (base t)) (errors t) initial) eqn:B.
        -- split; [intros _|reflexivity]. split; [discriminate|]. apply andb_true_iff in B as [B E]. apply andb_true_iff in B as [S1 O]. apply same_outputs_iff in O. subst outs. apply errors_iff in E.
           apply rounds_iff in R as [z [C D]]. exists initial, z. auto 6.
        -- split; [discriminate|]. intros [_ [i [z [I [C [D [E S1]]]]]]]. injection I as <-.
           assert (O : rounds resolve config lint apply 10 (base t) (code (base t)) = Some (output t)) by (apply rounds_iff; exists z; auto). rewrite R in O. injection O as ->.
           apply errors_iff in E. assert (Q : same_outputs (output t) (output t) = true) by (apply same_outputs_iff; reflexivity). rewrite S1, E, Q in B. discriminate.
      * split; [split; discriminate|]. split; [discriminate|]. intros [_ [i [z [I [C [D _]]]]]].
        assert (O : rounds resolve config lint apply 10 (base t) (code (base t)) = Some (output t)) by (apply rounds_iff; exists z; auto). congruence.
    + split; [split; discriminate|]. split; [discriminate|]. intros [_ [i [z [I _]]]]. discriminate.
Qed.
Print Assumptions C113_invalid.

(** All cases have an outcome, those without errors first. *)
Theorem C113_all : forall resolve config lint apply suggest position snapshot valid invalid,
  exists l k, run_tests resolve config lint apply suggest position snapshot valid invalid = l ++ k /\
    Forall2 (fun t o => run_valid resolve config lint (only_mode valid invalid) t = o) valid l /\
    Forall2 (fun t o => run_invalid resolve config lint apply suggest position snapshot (only_mode valid invalid) t = o) invalid k.
Proof.
  intros resolve config lint apply suggest position snapshot valid invalid. eexists _, _. split; [reflexivity|].
  split; [generalize (only_mode valid invalid); intros m; induction valid; cbn [map]; constructor; auto|generalize (only_mode valid invalid); intros m; induction invalid; cbn [map]; constructor; auto].
Qed.
Print Assumptions C113_all.

(** Of two cases with the same code, name and files that pass, the outputs are the same, and as many errors are expected, with the same ids. *)
Theorem C113_unique : forall resolve config lint apply suggest position snapshot valid invalid valid' invalid' t u, base t = base u ->
  run_invalid resolve config lint apply suggest position snapshot (only_mode valid invalid) t = Passed ->
  run_invalid resolve config lint apply suggest position snapshot (only_mode valid' invalid') u = Passed ->
  output t = output u /\ map e_id (errors t) = map e_id (errors u).
Proof.
  intros resolve config lint apply suggest position snapshot valid invalid valid' invalid' t u B T U.
  apply C113_invalid in T as [_ [i [z [I [C [D [E _]]]]]]]. apply C113_invalid in U as [_ [i' [z' [I' [C' [D' [E' _]]]]]]]. rewrite B in *. rewrite I' in I. injection I as <-. split.
  - assert (R : rounds resolve config lint apply 10 (base u) (code (base u)) = Some (output t)) by (apply rounds_iff; exists z; auto).
    assert (R' : rounds resolve config lint apply 10 (base u) (code (base u)) = Some (output u)) by (apply rounds_iff; exists z'; auto). congruence.
  - assert (G : forall l k, Forall2 (agrees suggest position (code (base u))) l k -> map e_id l = map d_id k) by (induction 1 as [|e d l k [X _] _ IH]; cbn [map]; congruence).
    rewrite (G _ _ E), (G _ _ E'). reflexivity.
Qed.
Print Assumptions C113_unique.

(** What is linted under the name of the file is the code, unless another file of the case has that name. *)
Theorem C113_code : forall resolve t text,
  ((forall e, In e (extra t) -> resolve (fst e) <> resolve (name_of t)) -> overlay resolve t text (resolve (name_of t)) = Some text) /\
  (forall p, (forall e, In e (extra t) -> resolve (fst e) <> p) -> p <> resolve (name_of t) -> overlay resolve t text p = None) /\
  (forall x e y, extra t = x ++ e :: y -> (forall e', In e' y -> resolve (fst e') <> resolve (fst e)) -> overlay resolve t text (resolve (fst e)) = Some (snd e)).
Proof.
  intros resolve t text. split; [|split].
  - intros H. rewrite overlay_other by exact H. assert (Q : beqb (resolve (name_of t)) (resolve (name_of t)) = true) by (apply beqb_iff; reflexivity). rewrite Q. reflexivity.
  - intros p H N. rewrite overlay_other by exact H. destruct (beqb (resolve (name_of t)) p) eqn:Q; [apply beqb_iff in Q; congruence|reflexivity].
  - intros x e y E H. exact (overlay_last resolve t text (resolve (fst e)) x e y E eq_refl H).
Qed.
Print Assumptions C113_code.
(** The name: the one given, else file.ts or react.tsx; the tsconfig: the one given, else that of the tester. *)
Theorem C113_name : forall t, (file_name t <> [] -> name_of t = file_name t) /\ (file_name t = [] -> tsx t = false -> name_of t = b "file.ts") /\ (file_name t = [] -> tsx t = true -> name_of t = b "react.tsx").
Proof. intros t. unfold name_of. split; [destruct (file_name t); congruence|]. split; intros -> ->; reflexivity. Qed.
Print Assumptions C113_name.
Theorem C113_config : forall resolve config lint t text,
  (tsconfig t <> [] -> run_linter resolve config lint t text = lint (overlay resolve t text) (resolve (name_of t)) (tsconfig t)) /\
  (tsconfig t = [] -> run_linter resolve config lint t text = lint (overlay resolve t text) (resolve (name_of t)) config).
Proof. intros resolve config lint t text. unfold run_linter. split; [destruct (tsconfig t); congruence|intros ->; reflexivity]. Qed.
Print Assumptions C113_config.

(** ** Examples: a rule that reports every text that begins with "a" and removes that letter *)
Definition strip (files : bstr -> option bstr) (file config : bstr) : option (list diag) :=
  match files file with
  | Some ("a"%char :: _) => Some [mkDiag (b "letter") 0 1 0 (Some [mkSuggestion (b "upper") 0])]
  | Some _ => Some []
  | None => None
  end.
Definition strip_fix (text : bstr) (ds : list diag) : bstr * bool := match ds with [] => (text, false) | _ => (tl text, true) end.
Definition upper (text : bstr) (s : suggestion) : bstr := "A"%char :: tl text.
Definition columns (text : bstr) (p : nat) : nat * nat := (0, p).
Definition plain_test (text : bstr) : test := mkTest text false false [] false [] [].
Definition letter : expected := mkExpected (b "letter") 1 1 1 2 [(b "upper", b "Aab")].
Definition run := run_tests (fun n => b "/" ++ n) (b "tsconfig.json") strip strip_fix upper columns (fun _ _ => true).
Example C113_example :
  run [plain_test (b "b"); plain_test (b "ab")] [mkInvalid (plain_test (b "aab")) [b "ab"; b "b"] [letter]; mkInvalid (plain_test (b "aab")) [b "ab"] [letter]] = [Passed; Failed; Passed; Failed].
Proof. vm_compute. reflexivity. Qed.
Example C113_places_example :
  map (fun e => run [] [mkInvalid (plain_test (b "aab")) [b "ab"; b "b"] [e]])
    [mkExpected (b "letter") 0 0 0 0 [(b "upper", b "Aab")]; mkExpected (b "letter") 2 0 0 0 [(b "upper", b "Aab")]; mkExpected (b "letter") 0 0 0 1 [(b "upper", b "Aab")];
     mkExpected (b "letter") 0 0 0 0 []; mkExpected (b "letter") 0 0 0 0 [(b "upper", b "AAb")]; mkExpected (b "other") 0 0 0 0 [(b "upper", b "Aab")]] =
  [[Passed]; [Failed]; [Failed]; [Failed]; [Failed]; [Failed]].
Proof. vm_compute. reflexivity. Qed.
Example C113_only_example : run [plain_test (b "ab"); mkTest (b "b") true false [] false [] []] [mkInvalid (plain_test (b "x")) [] [letter]] = [Skipped; Passed; Skipped].
Proof. vm_compute. reflexivity. Qed.

(** Ten rounds at most: a case passes although fixing its last output again would change it. *)
Theorem C113_settled_refuted : exists t last, run [] [t] = [Passed] /\ output t <> [] /\ List.last (output t) [] = last /\
  exists next, fixes (run_linter (fun n => b "/" ++ n) (b "tsconfig.json") strip (base t)) strip_fix last next.
Proof.
  exists (mkInvalid (plain_test (b "aaaaaaaaaaaab")) [b "aaaaaaaaaaab"; b "aaaaaaaaaab"; b "aaaaaaaaab"; b "aaaaaaaab"; b "aaaaaaab"; b "aaaaaab"; b "aaaaab"; b "aaaab"; b "aaab"; b "aab"]
    [mkExpected (b "letter") 0 0 0 0 [(b "upper", b "Aaaaaaaaaaaab")]]), (b "aab").
  split; [vm_compute; reflexivity|]. split; [discriminate|]. split; [reflexivity|]. exists (b "ab"). eexists. split; vm_compute; reflexivity.
Qed.
Print Assumptions C113_settled_refuted.
(** A file of the case with the name of the file under test replaces the code. *)
Theorem C113_replaced_refuted : exists t, In "a"%char (firstn 1 (code t)) /\ run [t] [] = [Passed].
Proof. exists (mkTest (b "ab") false false [] false [] [(b "file.ts", b "b")]). split; [left; reflexivity|vm_compute; reflexivity]. Qed.
Print Assumptions C113_replaced_refuted.
(** A case marked to run alone that is also marked to be left out leaves out all others with it. *)
Theorem C113_nothing_refuted : exists valid invalid, valid <> [] /\ invalid <> [] /\ (exists t, In t valid /\ skip t = false) /\ forall o, In o (run valid invalid) -> o = Skipped.
Proof.
  exists [plain_test (b "ab"); mkTest (b "ab") true true [] false [] []], [mkInvalid (plain_test (b "x")) [] [letter]]. split; [discriminate|]. split; [discriminate|].
  split; [exists (plain_test (b "ab")); split; [left; reflexivity|reflexivity]|]. intros o H. vm_compute in H. intuition.
Qed.
Print Assumptions C113_nothing_refuted.
