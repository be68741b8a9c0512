(** C99: no-deprecated. *)
From Coq Require Import Bool Arith Ascii String List Lia.
From Verif Require Import Base EngineProofs.
From Verif Require Import Deprecated DeprecatedSpec DeprecatedProofs.
Import ListNotations.
Open Scope nat_scope.

(** If the search for a deprecation ends, it gives a reason exactly if one is said: by the signature or the symbols of a call, by the property of an attribute, by what a binding element or a shorthand property reads, by the symbol and its aliases. *)
Theorem C99_says_exactly : forall info n p x, deprecation info n p = Some x -> forall r, x = Some r <-> says info p r.
Proof. exact deprecation_spec. Qed.
Print Assumptions C99_says_exactly.

(** It ends where no alias comes back to itself. *)
Theorem C99_search_ends : forall info p, well_founded (fun u s => next info s u) -> exists n x, deprecation info n p = Some x.
Proof.
  intros info p W. destruct (deprecation_ends info W p) as [n N]. exists n.
  destruct (deprecation info n p) as [x|]; [exists x; reflexivity | destruct N; reflexivity].
Qed.
Print Assumptions C99_search_ends.

(** Along a chain of aliases that ends in what they stand for, the reason is that of the first that is deprecated, the end included; for a function called, without the end. *)
Theorem C99_alias_chain : forall info s l t n, path info s l t -> l <> [] -> ~ In t l -> aliased (info s) = t -> alias (info t) = false -> length l < n ->
  (exists x, search info n (Some s) true = Some x /\ forall r, x = Some r <-> first_in info (l ++ [t]) r) /\
  (exists x, search info n (Some s) false = Some x /\ forall r, x = Some r <-> first_in info l r).
Proof.
  intros info s l t n P L T A At N.
  assert (As : alias (info s) = true) by (inversion P as [|s' u l' t' [X _]]; subst; [destruct L; reflexivity | exact X]).
  unfold search. rewrite As, A. cbn [negb]. split.
  - apply chain_path; try assumption. lia.
  - apply chain_path_off with (t := t); assumption.
Qed.
Print Assumptions C99_alias_chain.

(** Symbols: 0 a plain constant; 1 a deprecated constant; 2 an alias of 1; 3 a deprecated alias of 0; 4 an alias of 3; 5 and 6 aliases of each other; 7 a deprecated function; 8 an alias of 7; 9 a deprecated constant with a blank reason. *)
Definition dep (r : list bstr) (f : bool) := {| deprecated := true; docs := [None; Some [Other_tag; Deprecated_tag r]]; function_like := f |}.
Definition fine := {| deprecated := false; docs := []; function_like := false |}.
Definition sym (l : list decl) := {| decls := l; alias := false; aliased := 0; alias_declared := false; immediate := None |}.
Definition ali (l : list decl) (t u : nat) := {| decls := l; alias := true; aliased := t; alias_declared := true; immediate := Some u |}.
Definition symbols (n : nat) : symbol :=
  match n with
  | 1 => sym [fine; dep [b "Use "; b "two."] false] | 2 => ali [fine] 1 1 | 3 => ali [dep [b " old "] false] 0 0 | 4 => ali [] 0 3
  | 5 => ali [] 100 6 | 6 => ali [] 100 5 | 7 => sym [dep [] true] | 8 => ali [] 7 7 | 9 => sym [dep [b " "] false]
  | _ => sym [fine]
  end.
Example C99_says_example :
  deprecation symbols 9 (Plain (Some 2)) = Some (Some (b "Use two.")) /\ deprecation symbols 9 (Plain (Some 4)) = Some (Some (b " old ")) /\
  deprecation symbols 9 (Plain (Some 0)) = Some None /\ deprecation symbols 9 (Called (Some (Some fine)) (Some 8)) = Some None /\
  deprecation symbols 9 (Called (Some None) (Some 8)) = Some (Some []) /\ deprecation symbols 9 (Called (Some (Some (dep [b "x"] true))) None) = Some (Some (b "x")) /\
  deprecation symbols 9 (Called None (Some 1)) = Some None /\ deprecation symbols 9 (Called (Some (Some fine)) (Some 2)) = Some (Some (b "Use two.")) /\
  deprecation symbols 9 (Bound None (b "x") (Some (fun n => if beqb n (b "x") then Some 1 else None)) (Some 0) None) = Some (Some (b "Use two.")) /\
  deprecation symbols 9 (Bound (Some None) (b "x") (Some (fun n => Some 1)) (Some 0) None) = Some None /\
  deprecation symbols 9 (Short true None (Some 0) (Some 1)) = Some (Some (b "Use two.")) /\ deprecation symbols 9 (Attribute (Some 1)) = Some (Some (b "Use two.")).
Proof. repeat split; vm_compute; reflexivity. Qed.
Example C99_chain_example : path symbols 4 [4; 3] 0 /\ ~ In 0 [4; 3] /\ aliased (symbols 4) = 0 /\ alias (symbols 0) = false /\ first_in symbols ([4; 3] ++ [0]) (b " old ").
Proof.
  split; [apply Pa_next with (u := 3); [repeat split | apply Pa_next with (u := 0); [repeat split | constructor]]|].
  split; [intros [F | [F | []]]; discriminate|]. split; [reflexivity|]. split; [reflexivity|].
  exists [4], 3, [0]. split; [reflexivity|]. split; [intros x [<- | []] d []|].
  exists [], (dep [b " old "] false), []. split; [reflexivity|]. split; [intros x []|]. split; [reflexivity|].
  left. exists [Other_tag], [b " old "], []. split; [reflexivity|]. split; [intros x [<- | []]; reflexivity | reflexivity].
Qed.

(** The search always ends: false for aliases of each other (import a = b; import b = a). *)
Theorem C99_endless_refuted : exists info p, forall n, deprecation info n p = None.
Proof.
  exists symbols, (Plain (Some 5)). assert (N : forall n, chain symbols n true 100 5 = None /\ chain symbols n true 100 6 = None).
  { induction n as [|n [I5 I6]]; [split; reflexivity|]. split; [exact I6 | exact I5]. }
  intros n. apply N.
Qed.
Print Assumptions C99_endless_refuted.

(** An identifier is reported exactly if it is no declaration, not in an import, deprecated and not allowed; the message gives its name and the reason. *)
Theorem C99_identifier_exactly : forall info n p r g l at_ allowed x out,
  check_identifier info n p r g l at_ allowed x = Some out ->
  (out <> None <-> ~ declares p r g /\ ~ in_import l /\ allowed = false /\ exists q, says info at_ q) /\
  (forall m, out = Some m -> exists q, says info at_ q /\ text_of (match x with N_super => b "super" | N_private t => b "#" ++ t | N_identifier t => t end) q m).
Proof.
  intros info n p r g l at_ allowed x out. unfold check_identifier.
  assert (D := declaration_spec p r g). assert (I0 := import_spec l).
  destruct (is_declaration p r g) eqn:De; cbn [orb].
  { intros E. injection E as <-. split; [|discriminate]. split; [intros F; destruct F; reflexivity|]. intros [F _]. destruct F. apply D. reflexivity. }
  destruct (inside_import l) eqn:Im.
  { intros E. injection E as <-. split; [|discriminate]. split; [intros F; destruct F; reflexivity|]. intros [_ [F _]]. destruct F. apply I0. reflexivity. }
  assert (ND : ~ declares p r g) by (intros F; apply D in F; discriminate).
  assert (NI : ~ in_import l) by (intros F; apply I0 in F; discriminate).
  destruct (deprecation info n at_) as [[q|]|] eqn:Q; [| |discriminate]; intros E; injection E as <-.
  - assert (Sy : says info at_ q) by (apply (deprecation_spec _ _ _ _ Q); reflexivity).
    destruct allowed; split.
    + split; [intros F; destruct F; reflexivity | intros [_ [_ [F _]]]; discriminate].
    + discriminate.
    + split; [intros _ | intros _; discriminate]. repeat split; try assumption. exists q. exact Sy.
    + intros m F. injection F as <-. exists q. split; [exact Sy|]. replace (reported_name x) with (match x with N_super => b "super" | N_private t => b "#" ++ t | N_identifier t => t end) by (destruct x; reflexivity). apply message_spec.
  - split; [|discriminate]. split; [intros F; destruct F; reflexivity|]. intros [_ [_ [_ [q F]]]].
    apply (deprecation_spec _ _ _ _ Q) in F. discriminate.
Qed.
Print Assumptions C99_identifier_exactly.
Example C99_identifier_example :
  check_identifier symbols 9 P_other R_rest G_rest [A_rest; A_boundary; A_import] (Plain (Some 2)) false (N_identifier (b "one")) = Some (Some (b "`one` is deprecated. Use two.")) /\
  check_identifier symbols 9 P_variable R_value G_rest [A_rest] (Plain (Some 4)) false (N_identifier (b "four")) = Some (Some (b "`four` is deprecated. old")) /\
  check_identifier symbols 9 P_other R_rest G_rest [A_rest] (Plain (Some 7)) false N_super = Some (Some (b "`super` is deprecated.")) /\
  check_identifier symbols 9 P_variable R_name G_rest [A_rest] (Plain (Some 1)) false (N_identifier (b "one")) = Some None /\
  check_identifier symbols 9 P_other R_rest G_rest [A_rest; A_import] (Plain (Some 1)) false (N_identifier (b "one")) = Some None /\
  check_identifier symbols 9 P_other R_rest G_rest [A_rest] (Plain (Some 1)) true (N_identifier (b "one")) = Some None.
Proof. repeat split; vm_compute; reflexivity. Qed.

(** Calls are those of the name or of the property accesses that end in it. *)
Theorem C99_call_like : forall l, call_like l = true <-> exists k post, l = repeat Access_name k ++ Callee :: post.
Proof. exact call_like_spec. Qed.
Print Assumptions C99_call_like.
Example C99_call_like_example : call_like [Access_name; Access_name; Callee; No_callee] = true /\ call_like [Access_name; No_callee; Callee] = false.
Proof. split; reflexivity. Qed.

(** Identifiers in closing elements and exports are not looked at, in export specifiers only the name exported of one without a deprecated tag. *)
Theorem C99_exports : forall x, looked_at x = true <->
  x = X_none \/ exists docs, x = X_specifier false docs /\ forall tags t, In (Some tags) docs -> In t tags -> t = Other_tag.
Proof.
  intros x. split.
  - destruct x as [ | | | before docs | ]; cbn [looked_at]; try discriminate; [|left; reflexivity].
    intros E. apply andb_true_iff in E as [B D]. destruct before; [discriminate|]. right. exists docs. split; [reflexivity|].
    intros tags t T I0. destruct t; [|reflexivity]. apply negb_true_iff in D. exfalso.
    assert (F : existsb (fun d => match d with Some tags => existsb is_deprecated_tag tags | None => false end) docs = true).
    { apply existsb_exists. exists (Some tags). split; [exact T|]. apply existsb_exists. exists (Deprecated_tag comment). split; [exact I0 | reflexivity]. }
    congruence.
  - intros [-> | [docs [-> N]]]; [reflexivity|]. cbn [looked_at negb andb]. apply negb_true_iff, not_true_iff_false. intros F.
    apply existsb_exists in F as [[tags|] [T F]]; [|discriminate]. apply existsb_exists in F as [t [I0 F]].
    rewrite (N tags t T I0) in F. discriminate.
Qed.
Print Assumptions C99_exports.
Example C99_exports_example : looked_at (X_specifier false [None; Some [Other_tag]]) = true /\ looked_at (X_specifier false [Some [Other_tag; Deprecated_tag []]]) = false /\ looked_at (X_specifier true []) = false /\ looked_at X_export = false.
Proof. repeat split. Qed.

(** Element accesses and properties of object literals: by the property of the object, of the contextual type. *)
Theorem C99_element_exactly : forall info key properties allowed,
  (check_element info key properties allowed <> None <-> allowed = false /\ exists name r, key = Some name /\ maybe info (properties name) r) /\
  (forall m, check_element info key properties allowed = Some m -> exists name r, key = Some name /\ maybe info (properties name) r /\ text_of name r m).
Proof.
  intros info key properties allowed. unfold check_element. destruct key as [name|].
  2:{ split; [|discriminate]. split; [intros F; destruct F; reflexivity | intros [_ [nm [r [F _]]]]; discriminate]. }
  destruct (jsdoc info (properties name)) as [r|] eqn:J.
  - apply maybe_iff in J. destruct allowed; split.
    + split; [intros F; destruct F; reflexivity | intros [F _]; discriminate].
    + discriminate.
    + split; [intros _ | intros _; discriminate]. split; [reflexivity|]. exists name, r. split; [reflexivity | exact J].
    + intros m E. injection E as <-. exists name, r. split; [reflexivity|]. split; [exact J | apply message_spec].
  - split; [|discriminate]. split; [intros F; destruct F; reflexivity|]. intros [_ [nm [r [E M]]]]. injection E as <-.
    apply maybe_iff in M. congruence.
Qed.
Print Assumptions C99_element_exactly.
Theorem C99_property_exactly : forall info sd in_literal key properties allowed,
  (check_property info sd in_literal key properties allowed <> None <->
   in_literal = true /\ allowed = false /\ exists name ps s r, key = Some name /\ properties = Some ps /\ ps name = Some s /\ sd s = true /\ declared info s r) /\
  (forall m, check_property info sd in_literal key properties allowed = Some m ->
   exists name ps s r, key = Some name /\ properties = Some ps /\ ps name = Some s /\ declared info s r /\ text_of (if beqb name [] then b """""" else name) r m).
Proof.
  intros info sd in_literal key properties allowed. unfold check_property.
  destruct in_literal; cbn [negb]; [|split; [|discriminate]; split; [intros F; destruct F; reflexivity | intros [F _]; discriminate]].
  destruct key as [name|]; [|split; [|discriminate]; split; [intros F; destruct F; reflexivity | intros [_ [_ [nm [ps [s [r [F _]]]]]]]; discriminate]].
  destruct properties as [ps|]; [|split; [|discriminate]; split; [intros F; destruct F; reflexivity | intros [_ [_ [nm [ps [s [r [_ [F _]]]]]]]]; discriminate]].
  destruct (ps name) as [s|] eqn:P.
  2:{ split; [|discriminate]. split; [intros F; destruct F; reflexivity|]. intros [_ [_ [nm [ps' [s [r [E [F [G _]]]]]]]]]. injection E as <-. injection F as <-. congruence. }
  destruct (sd s) eqn:Sd; cbn [negb].
  2:{ split; [|discriminate]. split; [intros F; destruct F; reflexivity|]. intros [_ [_ [nm [ps' [s' [r [E [F [G [H _]]]]]]]]]]. injection E as <-. injection F as <-. congruence. }
  destruct (jsdoc info (Some s)) as [r|] eqn:J.
  - apply jsdoc_iff in J. destruct allowed; split.
    + split; [intros F; destruct F; reflexivity | intros [_ [F _]]; discriminate].
    + discriminate.
    + split; [intros _ | intros _; discriminate]. split; [reflexivity|]. split; [reflexivity|]. exists name, ps, s, r. repeat split; assumption.
    + intros m E. injection E as <-. exists name, ps, s, r. split; [reflexivity|]. split; [reflexivity|]. split; [exact P|]. split; [exact J|].
      replace (if beqb name [] then b """""" else name) with (property_name_shown name) by (destruct name as [|c0 r0]; reflexivity). apply message_spec.
  - split; [|discriminate]. split; [intros F; destruct F; reflexivity|]. intros [_ [_ [nm [ps' [s' [r [E [F [G [_ H]]]]]]]]]].
    injection E as <-. injection F as <-. rewrite P in G. injection G as <-. apply jsdoc_iff in H. congruence.
Qed.
Print Assumptions C99_property_exactly.
Example C99_property_example :
  check_element symbols (Some (b "a")) (fun n => if beqb n (b "a") then Some 1 else None) false = Some (b "`a` is deprecated. Use two.") /\
  check_element symbols (Some (b "a")) (fun n => Some 0) false = None /\
  check_property symbols (fun s => Nat.eqb s 1) true (Some []) (Some (fun n => Some 1)) false = Some (b "`""""` is deprecated. Use two.") /\
  check_property symbols (fun s => Nat.eqb s 2) true (Some (b "a")) (Some (fun n => Some 1)) false = None.
Proof. repeat split; vm_compute; reflexivity. Qed.

(** The message names things as they are written: false for private members, whose text has the sign # already. *)
Theorem C99_private_refuted : exists info n at_ text,
  hd_error text = Some "#"%char /\
  check_identifier info n P_other R_rest G_rest [A_rest] at_ false (N_private text) = Some (Some (b "`##b` is deprecated.")) /\ text = b "#b".
Proof. exists symbols, 9, (Plain (Some 7)), (b "#b"). repeat split; vm_compute; reflexivity. Qed.
Print Assumptions C99_private_refuted.
(** Every use outside imports is reported, values too: false for the default value of a parameter and the body of an arrow function. *)
Theorem C99_values_refuted : exists info s,
  (exists q, says info (Plain (Some s)) q) /\
  (forall n l x, check_identifier info n P_parameter R_value G_rest l (Plain (Some s)) false x = Some None) /\
  (forall n l x, check_identifier info n P_arrow R_value G_rest l (Plain (Some s)) false x = Some None) /\
  (forall n x, n <> 0 -> check_identifier info n P_variable R_value G_rest [A_rest] (Plain (Some s)) false x <> Some None).
Proof.
  exists symbols, 1. split.
  { exists (b "Use two."). apply (deprecation_spec symbols 9 _ (Some (b "Use two."))); vm_compute; reflexivity. }
  split; [intros n l x; reflexivity|]. split; [intros n l x; reflexivity|]. intros n x N. destruct n as [|n]; [destruct N; reflexivity|]. discriminate.
Qed.
Print Assumptions C99_values_refuted.
(** A use is reported only if what is used is deprecated: false for the default in const { a = b } = o, where b is no property of o but is looked up there, and is fine itself. *)
Theorem C99_default_refuted : exists info n ps s text m,
  undeprecated info s /\ alias (info s) = false /\
  check_identifier info n P_binding R_value G_rest [A_rest] (Bound None text (Some ps) (Some s) None) false (N_identifier text) = Some (Some m).
Proof.
  exists symbols, 9, (fun n => if beqb n (b "b") then Some 1 else None), 0, (b "b"), (b "`b` is deprecated. Use two.").
  split; [intros d [<- | []]; reflexivity|]. split; [reflexivity | vm_compute; reflexivity].
Qed.
Print Assumptions C99_default_refuted.
(** One read is reported once: false for const { b: c } = o, with reports on both names; the second names what is no property. *)
Theorem C99_renamed_refuted : exists info n ps s m m',
  check_identifier info n P_binding R_rest G_rest [A_rest] (Bound (Some (Some (b "b"))) (b "b") (Some ps) (Some s) None) false (N_identifier (b "b")) = Some (Some m) /\
  check_identifier info n P_binding R_name G_rest [A_rest] (Bound (Some (Some (b "b"))) (b "c") (Some ps) (Some s) None) false (N_identifier (b "c")) = Some (Some m') /\
  ps (b "c") = None /\ m' = b "`c` is deprecated. Use two.".
Proof.
  exists symbols, 9, (fun n => if beqb n (b "b") then Some 1 else None), 0, (b "`b` is deprecated. Use two."), (b "`c` is deprecated. Use two.").
  repeat split; vm_compute; reflexivity.
Qed.
Print Assumptions C99_renamed_refuted.
(** An empty name is shown by its quotes: true of object literals, false for element accesses. *)
Theorem C99_empty_name_refuted : exists info ps m m',
  check_property info (fun _ => true) true (Some []) (Some ps) false = Some m /\ check_element info (Some []) ps false = Some m' /\
  m = b "`""""` is deprecated." /\ m' = b "`` is deprecated.".
Proof. exists symbols, (fun n => Some 7), (b "`""""` is deprecated."), (b "`` is deprecated."). repeat split; vm_compute; reflexivity. Qed.
Print Assumptions C99_empty_name_refuted.
(** A message with a reason gives one: false for a blank one, the text then ends in a space. *)
Theorem C99_blank_reason_refuted : exists info ps m, check_element info (Some (b "a")) ps false = Some m /\ m = b "`a` is deprecated. ".
Proof. exists symbols, (fun n => Some 9), (b "`a` is deprecated. "). split; vm_compute; reflexivity. Qed.
Print Assumptions C99_blank_reason_refuted.
