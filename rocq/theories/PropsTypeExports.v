(** C64: consistent-type-exports. *)
From Coq Require Import Bool String Ascii List Arith Lia Permutation.
From Verif Require Import Base EngineProofs.
From Verif Require Import TypeExports TypeExportsSpec TypeExportsProofs.
Import ListNotations.
Local Open Scope nat_scope.

(** A symbol is found to be a type or a value exactly if it stands for one at the end of its aliases; circles of aliases are neither. *)
Theorem C64_symbols table i r : is_symbol_type_based table (Some i) = Some r <-> stands_for table i r.
Proof. apply symbols. Qed.
Print Assumptions C64_symbols.
Definition some_type := {| type_only_declared := false; valued := false; aliased := None |}.
Definition some_value := {| type_only_declared := false; valued := true; aliased := None |}.
Definition alias_of i := {| type_only_declared := false; valued := false; aliased := Some i |}.
Definition type_alias_of i := {| type_only_declared := true; valued := false; aliased := Some i |}.
Example C64_symbols_example :
  let table := [alias_of (Some 1); alias_of (Some 2); some_type; alias_of (Some 4); some_value; alias_of (Some 6); alias_of (Some 5); alias_of None; type_alias_of (Some 4)] in
  map (fun i => is_symbol_type_based table (Some i)) [0; 1; 3; 5; 7; 8; 9] = [Some true; Some true; Some false; None; None; Some true; None].
Proof. vm_compute. reflexivity. Qed.

(** Reported are exactly the declarations that are not export type and have a name without modifier that stands for a type. *)
Theorem C64_reported inline table resolve d : check_named inline table resolve d <> None <->
  decl_type_only d = false /\ exists s after i, In (s, after) (items d) /\ type_only s = false /\ resolve (local s) = Some i /\ stands_for table i true.
Proof.
  set (is_type := fun w => match is_symbol_type_based table (resolve w) with Some true => true | _ => false end).
  assert (known : types_known table resolve is_type).
  { intros w. unfold is_type. destruct (resolve w) as [i|].
    - split.
      + intros H. exists i. split; [reflexivity|]. apply symbols. destruct (is_symbol_type_based table (Some i)) as [[|]|]; easy.
      + intros (j & [= <-] & H). apply symbols in H. now rewrite H.
    - split; [discriminate|]. intros (j & [=] & _). }
  clearbody is_type. unfold check_named. destruct (decl_type_only d); [split; [easy|intros [X _]; discriminate X]|].
  pose proof (nodes_wrong table resolve is_type known (List.length (head d)) (items d)) as X.
  assert (Y : type_nodes (analyze table resolve (List.length (head d)) (items d)) <> [] <->
              exists s after i, In (s, after) (items d) /\ type_only s = false /\ resolve (local s) = Some i /\ stands_for table i true).
  { rewrite X. split.
    - intros N. destruct (filter (wrong is_type) (items d)) as [|[s a] l] eqn:E; [easy|]. assert (In (s, a) (filter (wrong is_type) (items d))) as I1 by (rewrite E; now left).
      apply filter_In in I1. destruct I1 as [I1 I2]. unfold wrong in I2. cbn [fst] in I2. apply andb_prop in I2. destruct I2 as [I2 I3]. apply known in I3. destruct I3 as (i & I3 & I4).
      exists s, a, i. repeat split; auto. now apply negb_true_iff.
    - intros (s & a & i & I1 & I2 & I3 & I4) E. assert (I5 : In (s, a) (filter (wrong is_type) (items d))); [|rewrite E in I5; easy].
      apply filter_In. split; [assumption|]. unfold wrong. cbn [fst]. rewrite I2. cbn. apply known. eauto. }
  split.
  - intros H. split; [reflexivity|]. apply Y. intros E. apply H. cbv zeta. now rewrite E.
  - intros [_ H]. apply Y in H. cbv zeta. destruct (type_nodes _) as [|n ns]; [easy|]. destruct (value_texts _); [easy|]. destruct (type_names _) as [|? [|? ?]]; easy.
Qed.
Print Assumptions C64_reported.

Lemma labels_ok t ns l : Forall2 (fun r s => part_of t r = spec_text s) ns l ->
  Forall2 (fun e s => fst e = written s ++ b " is a type export, try `type " ++ written s ++ b "`" /\ part_of t (snd e) = spec_text s) (combine (map label (map written l)) ns) l.
Proof. induction 1; cbn [map combine]; constructor; auto. Qed.
(** Its message, place and labels.  For several names no range is assigned (287): they have labels instead. *)
Theorem C64_message inline table resolve is_type d w r : named_ok d w -> types_known table resolve is_type -> check_named inline table resolve d = Some r ->
  (~ has_value table resolve d -> rep_message r = TypeOverValue /\ rep_range r = Some (0, 6) /\ rep_labels r = []) /\
  (has_value table resolve d ->
    match misplaced is_type d with
    | [] => False
    | [s] => rep_message r = SingleExportIsType (written s) /\ rep_labels r = [] /\ exists p, rep_range r = Some p /\ part_of (named_text d) p = spec_text s
    | l => rep_message r = MultipleExportsAreTypes (enumeration (map written l)) /\ rep_range r = None /\
           Forall2 (fun e s => fst e = written s ++ b " is a type export, try `type " ++ written s ++ b "`" /\ part_of (named_text d) (snd e) = spec_text s) (rep_labels r) l
    end).
Proof.
  intros Ok known H. unfold check_named in H. destruct (decl_type_only d); [discriminate H|]. cbv zeta in H.
  pose proof (value_texts_nil table resolve (List.length (head d)) (items d)) as VN.
  pose proof (nodes_parts table resolve is_type known (head d) (tail d) (items d)) as NP. fold (named_text d) in NP.
  rewrite (names_written table resolve is_type known d (proj1 (proj2 Ok))) in H.
  assert (NP' : Forall2 (fun r s => part_of (named_text d) r = spec_text s) (type_nodes (analyze table resolve (List.length (head d)) (items d))) (misplaced is_type d)).
  { rewrite <- wrong_misplaced. clear -NP. induction NP; cbn [map]; constructor; auto. }
  clear NP. set (an := analyze table resolve (List.length (head d)) (items d)) in *. destruct (type_nodes an) as [|first ns]; [discriminate H|].
  destruct (value_texts an) as [|v vs].
  - injection H as <-. split; [auto|]. intros Hv. exfalso. now apply (proj1 VN eq_refl).
  - split; [intros N; apply VN in N; discriminate N|]. intros _. destruct (misplaced is_type d) as [|s l]; [inversion NP'|]. inversion_clear NP' as [|? ? ? ? E1 F]. cbn [map] in H.
    destruct l as [|s2 l]; cbn [map] in H; (match type of H with Some ?x = Some r => assert (r = x) as -> by congruence end); clear H; cbn [rep_message rep_range rep_labels].
    + repeat split. exists first. auto.
    + rewrite join_words_enumeration. repeat split. apply (labels_ok (named_text d) (first :: ns) (s :: s2 :: l)). now constructor.
Qed.
Print Assumptions C64_message.

(** The texts below are read as the declarations they belong to. *)
Theorem C64_read d w : named_ok d w -> decl_type_only d = false -> items d <> [] -> read (named_text d) = Some [the_decl d w].
Proof.
  intros Ok Pl N. pose proof (named_read (fun _ => false) d w Ok Pl (fun _ X => False_ind _ (diff_false_true X)) N) as R.
  unfold the_decl. rewrite Pl. replace (map (entry_of (fun _ => false)) (items d)) with (map (fun it => {| e_type := type_only (fst it); e_local := local (fst it); e_exported := exported (fst it) |}) (items d)) in R; [exact R|].
  apply map_ext. intros it. unfold entry_of. now rewrite orb_false_r.
Qed.
Print Assumptions C64_read.

(** The new text is read as declarations that export the same names from the same module, those that stand for types as types; nothing changes in what is left in JavaScript and in the modules loaded.
    Premises: every name is known, there are no import attributes, no quote right after a modifier type.  Without them it is false, see below. *)
Theorem C64_fix inline table resolve is_type d r : types_known table resolve is_type -> named_ok d [] -> all_known table resolve d -> all_apart d ->
  check_named inline table resolve d = Some r -> (inline = true -> ~ has_value table resolve d) ->
  exists ds, read (edited 0 (named_text d) (rep_edits r)) = Some ds /\
    Permutation (exports ds) (map (marked is_type) (exports [the_decl d []])) /\
    left_ is_type ds = left_ is_type [the_decl d []] /\ loaded is_type ds = loaded is_type [the_decl d []].
Proof. intros K. apply (fixed table resolve is_type K). Qed.
Print Assumptions C64_fix.
(** With inserted modifiers no premise is needed, and all names stay where they are. *)
Theorem C64_fix_inline table resolve is_type d w r : types_known table resolve is_type -> named_ok d w ->
  check_named true table resolve d = Some r -> has_value table resolve d ->
  exists d', read (edited 0 (named_text d) (rep_edits r)) = Some [d'] /\
    exports [d'] = map (marked is_type) (exports [the_decl d w]) /\
    left_ is_type [d'] = left_ is_type [the_decl d w] /\ loaded is_type [d'] = loaded is_type [the_decl d w].
Proof. intros K. apply (fixed_inline table resolve is_type K). Qed.
Print Assumptions C64_fix_inline.

(** * An example:
<<
export {
  type /* t */ T, U as "a b", type as as as, v
} from 'm'
>> *)
Definition q (s : string) : bstr := b s.
Definition sp (t : string) (ty : bool) (l e : string) : specifier := {| spec_text := b t; type_only := ty; local := b l; exported := b e |}.
Definition newline : bstr := ["010"%char].
Definition dq (s : string) : string := String """" (s ++ String """" "").
Definition ex_decl : named :=
  {| decl_type_only := false; head := b "export {" ++ newline ++ b "  ";
     items := [(sp "type /* t */ T" true "T" "T", b ", "); (sp ("U as " ++ dq "a b") false "U" (dq "a b"), b ", "); (sp "type as as as" true "as" "as", b ", "); (sp "v" false "v" "v", newline ++ b "}")];
     tail := b " from 'm'"; source := Some (b "'m'") |}.
Definition ex_table := [some_type; some_value].
Definition ex_resolve (w : bstr) : option nat := if beqb w (b "U") then Some 0 else if beqb w (b "v") then Some 1 else None.
Definition ex_types (w : bstr) : bool := beqb w (b "U").
Lemma value_not_type table i y : nth_error table i = Some y -> type_only_declared y = false -> valued y = true -> ~ stands_for table i true.
Proof. intros E T V H. inversion H; subst; congruence. Qed.
Lemma ex_known : types_known ex_table ex_resolve ex_types.
Proof.
  intros w. unfold ex_types, ex_resolve. destruct (beqb w (b "U")).
  - split; [intros _|reflexivity]. exists 0. split; [reflexivity|]. now apply (StandsType ex_table 0 some_type).
  - split; [discriminate|]. intros (s & E & H). destruct (beqb w (b "v")); [|discriminate E]. injection E as <-. exfalso. now apply (value_not_type ex_table 1 some_value eq_refl eq_refl eq_refl).
Qed.
Ltac spec_ok := split; [vm_compute; split; [reflexivity|discriminate]|split; [split; [reflexivity|vm_compute; discriminate]|split; vm_compute; reflexivity]].
Lemma ex_ok : named_ok ex_decl [].
Proof.
  split; [reflexivity|]. split; [|eexists; split; [vm_compute; reflexivity|eexists; split; vm_compute; reflexivity]].
  eapply ItemsCons; [spec_ok|reflexivity|vm_compute; reflexivity|]. eapply ItemsCons; [spec_ok|reflexivity|vm_compute; reflexivity|].
  eapply ItemsCons; [spec_ok|reflexivity|vm_compute; reflexivity|]. eapply ItemsCons; [spec_ok|left; reflexivity|vm_compute; reflexivity|constructor].
Qed.
Example C64_known_example : all_known ex_table ex_resolve ex_decl /\ all_apart ex_decl /\ has_value ex_table ex_resolve ex_decl.
Proof.
  split; [|split].
  - intros s a H T. destruct H as [[= <- <-]|[[= <- <-]|[[= <- <-]|[[= <- <-]|[]]]]]; try discriminate T.
    + exists 0, true. split; [reflexivity|]. now apply (StandsType ex_table 0 some_type).
    + exists 1, false. split; [reflexivity|]. now apply (StandsValue ex_table 1 some_value).
  - intros s a H T. destruct H as [[= <- <-]|[[= <- <-]|[[= <- <-]|[[= <- <-]|[]]]]]; try discriminate T; reflexivity.
  - exists (sp "v" false "v" "v"), (newline ++ b "}"), 1. repeat split; [right; right; right; now left|]. now apply (StandsValue ex_table 1 some_value).
Qed.
Example C64_fix_example :
  option_map (fun r => edited 0 (named_text ex_decl) (rep_edits r)) (check_named false ex_table ex_resolve ex_decl) =
    Some (b "export type { /* t */ T, U as ""a b"", as as as } from 'm';" ++ newline ++ b "export { v } from 'm';") /\
  option_map (fun r => edited 0 (named_text ex_decl) (rep_edits r)) (check_named true ex_table ex_resolve ex_decl) =
    Some (b "export {" ++ newline ++ b "  type /* t */ T, type U as ""a b"", type as as as, v" ++ newline ++ b "} from 'm'") /\
  option_map rep_message (check_named true ex_table ex_resolve ex_decl) = Some (SingleExportIsType (b "U as ""a b""")) /\
  option_map (fun ds => map (fun x => (x_type x, x_exported x)) (exports ds)) (read (named_text ex_decl)) = Some [(true, b "T"); (false, b """a b"""); (true, b "as"); (false, b "v")].
Proof. vm_compute. auto. Qed.
Example C64_message_example :
  let types := fun w => if beqb w (b "v") then Some 1 else Some 0 in
  let d n := {| decl_type_only := false; head := b "export { "; items := map (fun s => (sp s false s s, b ", ")) n ++ [(sp "v" false "v" "v", b " }")]; tail := []; source := None |} in
  option_map rep_message (check_named false ex_table types (d ["A"; "B"]%string)) = Some (MultipleExportsAreTypes (b "A and B")) /\
  option_map rep_message (check_named false ex_table types (d ["A"; "B"; "C"]%string)) = Some (MultipleExportsAreTypes (b "A, B, and C")) /\
  option_map rep_labels (check_named false ex_table types (d ["A"; "B"]%string)) =
    Some [(b "A is a type export, try `type A`", (9, 10)); (b "B is a type export, try `type B`", (12, 13))] /\
  option_map rep_message (check_named false ex_table (fun _ => Some 0) (d ["A"]%string)) = Some TypeOverValue /\
  check_named false ex_table (fun _ => Some 1) (d ["A"]%string) = None.
Proof. vm_compute. auto 10. Qed.

(** * Where the premises fail *)
(** export { U, gone } with a name that is not known: it is no longer exported. *)
Definition gone_decl : named :=
  {| decl_type_only := false; head := b "export { "; items := [(sp "U" false "U" "U", b ", "); (sp "gone" false "gone" "gone", b " }")]; tail := b ";"; source := None |}.
Theorem C64_unknown_refuted : exists table resolve is_type d r ds x, types_known table resolve is_type /\ named_ok d [] /\ all_apart d /\
  check_named false table resolve d = Some r /\ read (edited 0 (named_text d) (rep_edits r)) = Some ds /\
  In x (left_ is_type [the_decl d []]) /\ forall y, In y (exports ds) -> x_exported y <> x_exported x.
Proof.
  exists ex_table, ex_resolve, ex_types, gone_decl. eexists. eexists. exists {| x_type := false; x_local := b "gone"; x_exported := b "gone"; x_from := None; x_with := [] |}.
  split; [apply ex_known|]. split.
  - split; [reflexivity|]. split; [|eexists; split; [vm_compute; reflexivity|eexists; split; vm_compute; reflexivity]].
    eapply ItemsCons; [spec_ok|reflexivity|vm_compute; reflexivity|]. eapply ItemsCons; [spec_ok|left; reflexivity|vm_compute; reflexivity|constructor].
  - split; [intros s a H T; destruct H as [[= <- <-]|[[= <- <-]|[]]]; discriminate T|].
    split; [vm_compute; reflexivity|]. split; [vm_compute; reflexivity|]. split; [vm_compute; now left|]. vm_compute. intros y [<-|[]]. discriminate.
Qed.
Print Assumptions C64_unknown_refuted.
(** export { U } from 'm' with { a: 'b' }: the attributes are no longer there. *)
Definition with_decl : named :=
  {| decl_type_only := false; head := b "export { "; items := [(sp "U" false "U" "U", b " }")]; tail := b " from 'm' with { a: 'b' }"; source := Some (b "'m'") |}.
Theorem C64_attributes_refuted : exists table resolve is_type d w r ds, types_known table resolve is_type /\ named_ok d w /\ all_known table resolve d /\ all_apart d /\
  check_named false table resolve d = Some r /\ read (edited 0 (named_text d) (rep_edits r)) = Some ds /\
  map x_with (exports [the_decl d w]) = [w] /\ map x_with (exports ds) = [[]] /\ w <> [].
Proof.
  exists ex_table, ex_resolve, ex_types, with_decl, [W (b "a"); P ":"%char; Q (b "'b'")]. eexists. eexists.
  split; [apply ex_known|]. split.
  - split; [reflexivity|]. split; [|eexists; split; [vm_compute; reflexivity|eexists; split; vm_compute; reflexivity]].
    eapply ItemsCons; [spec_ok|left; reflexivity|vm_compute; reflexivity|constructor].
  - split; [intros s a [[= <- <-]|[]] _; exists 0, true; split; [reflexivity|]; now apply (StandsType ex_table 0 some_type)|].
    split; [intros s a [[= <- <-]|[]] T; discriminate T|].
    split; [vm_compute; reflexivity|]. split; [vm_compute; reflexivity|]. split; [reflexivity|]. split; [reflexivity|discriminate].
Qed.
Print Assumptions C64_attributes_refuted.
(** export { type'x y' as T, U } from 'm': the modifier stays, inside export type. *)
Definition quote_decl : named :=
  {| decl_type_only := false; head := b "export { "; items := [(sp "type'x y' as T" true "'x y'" "T", b ", "); (sp "U" false "U" "U", b " }")]; tail := b " from 'm';"; source := Some (b "'m'") |}.
Theorem C64_quote_refuted : exists table resolve is_type d r, types_known table resolve is_type /\ named_ok d [] /\ all_known table resolve d /\
  check_named false table resolve d = Some r /\ edited 0 (named_text d) (rep_edits r) = b "export type { type'x y' as T, U } from 'm';" /\
  read (edited 0 (named_text d) (rep_edits r)) = None.
Proof.
  exists ex_table, ex_resolve, ex_types, quote_decl. eexists.
  split; [apply ex_known|]. split.
  - split; [reflexivity|]. split; [|eexists; split; [vm_compute; reflexivity|eexists; split; vm_compute; reflexivity]].
    eapply ItemsCons; [spec_ok|reflexivity|vm_compute; reflexivity|]. eapply ItemsCons; [spec_ok|left; reflexivity|vm_compute; reflexivity|constructor].
  - split; [intros s a [[= <- <-]|[[= <- <-]|[]]] T; [discriminate T|]; exists 0, true; split; [reflexivity|]; now apply (StandsType ex_table 0 some_type)|].
    split; [vm_compute; reflexivity|]. split; vm_compute; reflexivity.
Qed.
Print Assumptions C64_quote_refuted.

(** * export * *)
Theorem C64_star_reported s : check_star s <> None <->
  star_type_only s = false /\ from_module s = true /\ exists ps, properties s = Some ps /\ forall n, ~ In (n, true) ps.
Proof.
  unfold check_star. destruct (star_type_only s); cbn [orb]; [split; [easy|intros [X _]; discriminate X]|].
  destruct (from_module s); cbn [negb]; [|split; [easy|intros (_ & X & _); discriminate X]].
  destruct (properties s) as [ps|]; [|split; [easy|intros (_ & _ & ps & [=] & _)]].
  destruct (existsb snd ps) eqn:E.
  - split; [easy|]. intros (_ & _ & ps' & [= <-] & H). apply existsb_exists in E. destruct E as ([n v] & I1 & V). cbn in V. subst v. now apply H in I1.
  - split; [|easy]. intros _. repeat split; auto. exists ps. split; [reflexivity|]. intros n H. assert (existsb snd ps = true) by (apply existsb_exists; now exists (n, true)). congruence.
Qed.
Print Assumptions C64_star_reported.
(** The new text is the same declaration with export type; for export * from a module without values no value is exported before or after. *)
Theorem C64_star s as_ from w r : star_ok s as_ from w -> check_star s = Some r ->
  exists d, read (star_text s) = Some [d] /\ d = {| d_type := false; d_clause := Star as_; d_from := Some from; d_with := w |} /\
    read (edited 0 (star_text s) (rep_edits r)) = Some [{| d_type := true; d_clause := Star as_; d_from := Some from; d_with := w |}] /\
    rep_message r = TypeOverValue /\ rep_range r = Some (0, 6) /\
    (as_ = None -> forall ps, properties s = Some ps -> star_values (map fst (filter snd ps)) d = []).
Proof.
  intros Ok H. assert (Pl : star_type_only s = false). { unfold check_star in H. destruct (star_type_only s); [discriminate H|reflexivity]. }
  exists {| d_type := false; d_clause := Star as_; d_from := Some from; d_with := w |}. split; [apply (star_read false s as_ from w Ok Pl)|]. split; [reflexivity|].
  unfold check_star in H. destruct (star_type_only s || negb (from_module s)); [discriminate H|]. destruct (properties s) as [ps|] eqn:Ep; [|discriminate H].
  destruct (existsb snd ps) eqn:E; [discriminate H|]. injection H as <-. split; [|split; [reflexivity|split; [reflexivity|]]].
  - cbn [rep_edits edited]. rewrite !Nat.sub_0_r. unfold star_text. rewrite firstn_app, firstn_all, Nat.sub_diag, skipn_app, skipn_all, Nat.sub_diag. cbn [firstn skipn app]. rewrite app_nil_r.
    apply (star_read true s as_ from w Ok Pl).
  - intros -> ps' [= <-]. cbn [star_values d_clause d_type]. rewrite filter_none; [reflexivity|]. apply Forall_forall. intros x Hx.
    apply not_true_iff_false. intros X. assert (existsb snd ps = true) by (apply existsb_exists; eauto). congruence.
Qed.
Print Assumptions C64_star.
Definition ex_star (rest : string) : star := {| star_type_only := false; before := b "/* * */ export "; rest := b rest; from_module := true; properties := Some [] |}.
Example C64_star_example :
  option_map (fun r => edited 0 (star_text (ex_star " as n from 'm'")) (rep_edits r)) (check_star (ex_star " as n from 'm'")) = Some (b "/* * */ export type * as n from 'm'") /\
  star_ok (ex_star " as n from 'm'") (Some (b "n")) (b "'m'") [].
Proof. split; [vm_compute; reflexivity|]. split; [vm_compute; reflexivity|]. eexists. eexists. split; [vm_compute; reflexivity|]. split; reflexivity. Qed.
(** The module is no longer loaded. *)
Theorem C64_star_loaded_refuted : exists s from r d d', star_ok s None from [] /\ check_star s = Some r /\ read (star_text s) = Some [d] /\ read (edited 0 (star_text s) (rep_edits r)) = Some [d'] /\
  loaded (fun _ => false) [d] = [from] /\ loaded (fun _ => false) [d'] = [].
Proof.
  exists (ex_star " from 'm'"), (b "'m'"). eexists. eexists. eexists. split; [|split; [vm_compute; reflexivity|split; [vm_compute; reflexivity|split; [vm_compute; reflexivity|split; reflexivity]]]].
  split; [vm_compute; reflexivity|]. eexists. eexists. split; [vm_compute; reflexivity|]. split; reflexivity.
Qed.
Print Assumptions C64_star_loaded_refuted.
(** The name of the namespace is no longer exported as a value. *)
Theorem C64_star_as_refuted : exists s n from r d d', star_ok s (Some n) from [] /\ check_star s = Some r /\ read (star_text s) = Some [d] /\ read (edited 0 (star_text s) (rep_edits r)) = Some [d'] /\
  star_values [] d = [n] /\ star_values [] d' = [].
Proof.
  exists (ex_star " as n from 'm'"), (b "n"), (b "'m'"). eexists. eexists. eexists. split; [|split; [vm_compute; reflexivity|split; [vm_compute; reflexivity|split; [vm_compute; reflexivity|split; reflexivity]]]].
  split; [vm_compute; reflexivity|]. eexists. eexists. split; [vm_compute; reflexivity|]. split; reflexivity.
Qed.
Print Assumptions C64_star_as_refuted.
