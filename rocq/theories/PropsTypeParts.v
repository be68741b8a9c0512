(** C98: restrict-template-expressions, require-array-sort-compare, no-for-in-array, no-unsafe-unary-minus. *)
From Coq Require Import Bool Arith Ascii String List Lia.
From Verif Require Import Base EngineProofs.
From Verif Require Import TypeParts TypePartsSpec TypePartsProofs.
Import ListNotations.
Open Scope nat_scope.

(** If the check of a template ends, its reports are exactly those on the spans of types that are not allowed, in order; none on tagged templates. *)
Theorem C98_template_exactly : forall info o n tagged spans l,
  run_template info o n tagged spans = Some l -> tagged = true /\ l = [] \/ tagged = false /\ reports info o spans l.
Proof.
  intros info o n tagged spans l. unfold run_template. destruct tagged; intros E.
  - injection E as <-. left. split; reflexivity.
  - right. split; [reflexivity | apply check_spans_spec with (n := n), E].
Qed.
Print Assumptions C98_template_exactly.

(** It ends, where no array type comes to itself through element types and no type is its own base. *)
Theorem C98_template_ends : forall info o tagged spans,
  well_founded (base_of info) -> well_founded (goes_on info) -> exists n l, run_template info o n tagged spans = Some l.
Proof.
  intros info o tagged spans W G. unfold run_template. destruct tagged; [exists 0, []; reflexivity|].
  destruct (check_spans_ends info o W G spans) as [n N]. exists n.
  destruct (check_spans info o n spans) as [l|]; [exists l; reflexivity | destruct N; reflexivity].
Qed.
Print Assumptions C98_template_ends.

(** More steps change nothing. *)
Theorem C98_template_steady : forall info o n m tagged spans l, n <= m ->
  run_template info o n tagged spans = Some l -> run_template info o m tagged spans = Some l.
Proof.
  intros info o n m tagged spans l L. unfold run_template. destruct tagged; [trivial | apply check_spans_grows, L].
Qed.
Print Assumptions C98_template_steady.

(** Types: 0 string, 1 number, 2 null, 3 string | null, 4 number[], 5 object & string, 6 object, 7 class X extends URL, 8 URL, 9 RegExp, 10 any, 11 string | 12, 12 = 11[]. *)
Definition ti (f : list flag) u i (sp : bool) bs el (re : bool) ar co s := {| flags := f; union := u; intersection := i; specified := sp; bases := bs; element := el; regexp := re; arguments := ar; constraint := co; shown := s |}.
Definition plain (f : list flag) s := ti f None None false [] None false [] None s.
Definition types (n : nat) : type_info :=
  match n with
  | 0 => plain [String_like] (b "string") | 1 => plain [Number_like] (b "number") | 2 => plain [Nullable] (b "null")
  | 3 => ti [] (Some [0; 2]) None false [] None false [] None (b "string | null")
  | 4 => ti [] None None false [] (Some 1) false [1] None (b "number[]")
  | 5 => ti [] None (Some [6; 0]) false [] None false [] None (b "object & string")
  | 7 => ti [] None None false [8] None false [] None (b "X") | 8 => ti [] None None true [] None false [] None (b "URL")
  | 9 => ti [] None None false [] None true [] None (b "RegExp") | 10 => plain [Any] (b "any")
  | 11 => ti [] (Some [0; 12]) None false [] None false [] None (b "Nested") | 12 => ti [] None None false [] (Some 11) false [11] None (b "Nested[]")
  | 13 => ti [] None None false [] (Some 0) false [0] None (b "string[]") | 14 => ti [] None None false [] (Some 0) false [0] None (b "readonly string[]")
  | 15 => ti [] (Some [13; 14]) None false [] None false [] None (b "string[] | readonly string[]")
  | 16 => ti [] None None false [] None false [] (Some 0) (b "T") | 17 => ti [] None None false [] (Some 16) false [16] None (b "T[]")
  | 18 => ti [] None None false [] (Some 18) false [18] None (b "A")
  | _ => plain [] (b "object")
  end.
Definition all_on := {| allow_any := true; allow_boolean := true; allow_nullish := true; allow_number := true; allow_never := true; allow_array := true; allow_regexp := true |}.
Definition all_off := {| allow_any := false; allow_boolean := false; allow_nullish := false; allow_number := false; allow_never := false; allow_array := false; allow_regexp := false |}.
Definition said (at_ t : nat) := (at_, b "Invalid type used in template literal expression.", b "Type: " ++ shown (types t)).
Example C98_template_example :
  run_template types all_off 5 false [(100, 0); (101, 1); (102, 3); (103, 4); (104, 5); (105, 7); (106, 9); (107, 10)] = Some [said 101 1; said 102 3; said 103 4; said 106 9; said 107 10] /\
  run_template types all_on 5 false [(100, 0); (101, 1); (102, 3); (103, 4); (104, 5); (105, 7); (106, 9); (107, 10); (108, 6)] = Some [said 108 6] /\
  run_template types all_on 5 true [(108, 6)] = Some [].
Proof. repeat split; vm_compute; reflexivity. Qed.
(** The conditions of C98_template_ends hold of these types without the recursive ones. *)
Example C98_ends_example : let info n := types (if n <? 11 then n else 6) in well_founded (base_of info) /\ well_founded (goes_on info).
Proof.
  intros info. split.
  - assert (A8 : Acc (base_of info) 8) by (constructor; intros u []).
    intros t. constructor. intros u U. unfold base_of, info in U.
    do 11 (destruct t as [|t]; [cbn in U; try destruct U as [<- | []]; try destruct U; exact A8|]). destruct U.
  - assert (N : forall u t, goes_on info u t -> u = 1).
    { intros u t [p [q [_ [_ E]]]]. unfold info in E.
      do 11 (destruct q as [|q]; [cbn in E; congruence|]). discriminate E. }
    assert (A1 : Acc (goes_on info) 1).
    { constructor. intros u [p [q [P [Q E]]]]. exfalso.
      inversion P as [l p' U _ | U]; subst; [discriminate U|]. inversion Q as [l q' U' _ | U']; subst; [discriminate U' | discriminate E]. }
    intros t. constructor. intros u U. rewrite (N u t U). exact A1.
Qed.

(** The check always ends: false for a type that is an array of itself (type A = A[]) or a union with such an array, with arrays allowed; the recursion of T61 goes on for ever. *)
Theorem C98_endless_refuted : exists info o spans, allow_array o = true /\ forall n, run_template info o n false spans = None.
Proof.
  exists types, all_on, [(100, 11)]. split; [reflexivity|].
  assert (N : forall n, type_allowed types all_on n 11 = None).
  { assert (M : forall n, matches types n 12 = None \/ matches types n 12 = Some false) by (intros [|n]; [left | right]; reflexivity).
    induction n as [|n IH]; [reflexivity|]. rewrite type_allowed_S.
    cbn [union_parts types ti union every_of intersection_parts plain intersection some_of]. unfold part at 1.
    replace (set (flags (types 0)) (allowed_flags all_on)) with true by reflexivity.
    unfold part. replace (set (flags (types 12)) (allowed_flags all_on)) with false by reflexivity.
    destruct (M n) as [-> | ->]; [reflexivity|]. cbn [all_on allow_array types ti element]. rewrite IH. reflexivity. }
  intros n. unfold run_template. cbn [check_spans]. rewrite N. reflexivity.
Qed.
Print Assumptions C98_endless_refuted.

(** If the check of a sort call ends, it reports exactly a call of sort or toSorted without arguments on arrays, unless strings are ignored and the type is an array of strings. *)
Theorem C98_sort_exactly : forall info n ignore args name t r,
  check_sort info n ignore args name t = Some r ->
  (r = true <-> args = 0 /\ (name = Some (b "sort") \/ name = Some (b "toSorted")) /\ (forall p, union_part info t p -> array info p) /\
     ~ (ignore = true /\ array info t /\ forall a, In a (arguments (info t)) -> stringy info a)).
Proof.
  intros info n ignore args name t r. unfold check_sort.
  destruct (Nat.eqb_spec args 0) as [A | A]; cbn [negb]; [|intros E; injection E as <-; split; [discriminate | intros [F _]; destruct (A F)]].
  destruct name as [p|]; [|intros E; injection E as <-; split; [discriminate | intros [_ [[F | F] _]]; discriminate]].
  assert (NM : negb (beqb p (b "sort")) && negb (beqb p (b "toSorted")) = false <-> Some p = Some (b "sort") \/ Some p = Some (b "toSorted")).
  { rewrite andb_false_iff, !negb_false_iff, !beqb_eq. split; (intros [H | H]; [left | right]); congruence. }
  destruct (negb (beqb p (b "sort")) && negb (beqb p (b "toSorted"))) eqn:NP.
  { intros E. injection E as <-. split; [discriminate|]. intros [_ [F _]]. apply NM in F. discriminate. }
  assert (NO := proj1 NM eq_refl).
  destruct (ignore && is_array info t) eqn:IG.
  - apply andb_true_iff in IG as [IG AR]. apply is_array_spec in AR.
    destruct (every_of (name_is_string info n) (arguments (info t))) as [[]|] eqn:EV; [| |discriminate]; intros E; injection E as <-.
    + split; [discriminate|]. intros [_ [_ [_ F]]]. destruct F. repeat split; [exact IG | exact AR|].
      intros a Ha. apply (name_spec info n a), (every_true _ _ EV a Ha).
    + rewrite all_arrays. split; [intros AA | intros [_ [_ [AA _]]]; exact AA].
      repeat split; try assumption. intros [_ [_ F]]. apply every_false in EV as [a [Ha EV]].
      exact (proj2 (name_spec info n a) EV (F a Ha)).
  - intros E. injection E as <-. rewrite all_arrays. split; [intros AA | intros [_ [_ [AA _]]]; exact AA].
    repeat split; try assumption. intros [-> [F _]]. apply is_array_spec in F. rewrite F in IG. discriminate.
Qed.
Print Assumptions C98_sort_exactly.

(** It ends, where no type takes its name from itself. *)
Theorem C98_sort_ends : forall info ignore args name t, well_founded (named_by info) -> exists n r, check_sort info n ignore args name t = Some r.
Proof.
  intros info ignore args name t W. unfold check_sort.
  destruct (negb (Nat.eqb args 0)); [exists 0, false; reflexivity|].
  destruct name as [p|]; [|exists 0, false; reflexivity].
  destruct (negb (beqb p (b "sort")) && negb (beqb p (b "toSorted"))); [exists 0, false; reflexivity|].
  destruct (ignore && is_array info t); [|exists 0; eexists; reflexivity].
  destruct (every_ends _ (name_steady info) (arguments (info t))) as [n N]; [intros x X; apply name_ends, W|].
  exists n. destruct (every_of (name_is_string info n) (arguments (info t))) as [[]|]; [eexists; reflexivity | eexists; reflexivity | destruct N; reflexivity].
Qed.
Print Assumptions C98_sort_ends.
Example C98_sort_example :
  check_sort types 5 true 0 (Some (b "sort")) 4 = Some true /\ check_sort types 5 true 0 (Some (b "toSorted")) 13 = Some false /\
  check_sort types 5 false 0 (Some (b "toSorted")) 13 = Some true /\ check_sort types 5 true 0 (Some (b "sort")) 17 = Some false /\
  check_sort types 5 true 1 (Some (b "sort")) 4 = Some false /\ check_sort types 5 true 0 (Some (b "reverse")) 4 = Some false /\
  check_sort types 5 true 0 (Some (b "sort")) 3 = Some false /\ check_sort types 5 true 0 None 4 = Some false.
Proof. repeat split; vm_compute; reflexivity. Qed.
(** Where strings are ignored, arrays of strings are never reported: false for a union of such arrays. *)
Theorem C98_sort_union_refuted : exists info n t,
  check_sort info n true 0 (Some (b "sort")) t = Some true /\
  forall p, union_part info t p -> array info p /\ forall a, In a (arguments (info p)) -> stringy info a.
Proof.
  exists types, 5, 15. split; [vm_compute; reflexivity|].
  assert (St : stringy types 0) by (apply Sy_flag; left; reflexivity).
  intros p P. inversion P as [l p' U I0 | U]; subst; [|discriminate]. injection U as <-.
  destruct I0 as [<- | [<- | []]]; (split; [discriminate | intros a [<- | []]; exact St]).
Qed.
Print Assumptions C98_sort_union_refuted.

(** A for-in statement is reported exactly if some type inside the unions and intersections has a number index and a length that is flagged a number; the range is its head. *)
Theorem C98_for_in_exactly : forall start body t r,
  check_for_in start body t = Some r <->
  r = (start, body) /\ exists x own parts, inside x t /\ number_index x = true /\ length_type x = Some (own, parts) /\ In Number_like own.
Proof.
  intros start body t r. unfold check_for_in, array_like.
  assert (Sp : forall x, number_index x && arrayish_length x = true <-> exists own parts, number_index x = true /\ length_type x = Some (own, parts) /\ In Number_like own).
  { intros x. unfold arrayish_length. rewrite andb_true_iff. split.
    - intros [X L]. destruct (length_type x) as [[own parts]|]; [|discriminate]. apply set_spec in L as [f [F [<- | []]]].
      exists own, parts. repeat split; assumption.
    - intros [own [parts [X [-> L]]]]. split; [exact X|]. apply set_spec. exists Number_like. split; [exact L | left; reflexivity]. }
  destruct (recurse (fun x => number_index x && arrayish_length x) t) eqn:R.
  - apply recurse_spec in R as [x [X R]]. apply Sp in R as [own [parts R]]. split.
    + intros E. injection E as <-. split; [reflexivity|]. exists x, own, parts. split; [exact X | exact R].
    + intros [-> _]. reflexivity.
  - split; [discriminate|]. intros [_ [x [own [parts [X Y]]]]].
    assert (F : recurse (fun x => number_index x && arrayish_length x) t = true).
    { apply recurse_spec. exists x. split; [exact X|]. apply Sp. exists own, parts. exact Y. }
    congruence.
Qed.
Print Assumptions C98_for_in_exactly.
Definition an_array := {| number_index := true; length_type := Some ([Number_like], []) |}.
Definition an_object := {| number_index := false; length_type := None |}.
Example C98_for_in_example :
  check_for_in 3 20 (Group [Leaf an_object; Group [Leaf an_array; Leaf an_object]]) = Some (3, 20) /\ check_for_in 3 20 (Group [Leaf an_object]) = None.
Proof. split; reflexivity. Qed.
(** Every type with a number index and a length that is always a number is reported: false where the length is a union, as of the tuple [a, b?], with a length 1 | 2. *)
Theorem C98_for_in_tuple_refuted : exists x start body,
  number_index x = true /\
  (exists own parts, length_type x = Some (own, parts) /\ parts <> [] /\ forall p, In p parts -> In Number_like p) /\
  check_for_in start body (Leaf x) = None.
Proof.
  exists {| number_index := true; length_type := Some ([], [[Number_like]; [Number_like]]) |}, 3, 20.
  split; [reflexivity|]. split; [|reflexivity]. exists [], [[Number_like]; [Number_like]]. split; [reflexivity|].
  split; [discriminate|]. intros p [<- | [<- | []]]; left; reflexivity.
Qed.
Print Assumptions C98_for_in_tuple_refuted.

(** A negation is reported exactly if some part of the type can not be negated; the type named is the first such. *)
Theorem C98_minus_exactly : forall info minus t,
  (check_minus info minus t <> None <-> minus = true /\ exists p, union_part info t p /\ ~ negatable info p) /\
  (forall d pre p post, minus = true -> union_parts info t = pre ++ p :: post -> (forall q, In q pre -> negatable info q) -> ~ negatable info p ->
     check_minus info minus t = Some d -> d = b "Argument of unary negation should be assignable to number | bigint but is " ++ shown (info p) ++ b " instead.").
Proof.
  intros info minus t. unfold check_minus.
  assert (Ng : forall p, negb (set (flags (info p)) [Any; Never; Bigint_like; Number_like]) = true <-> ~ negatable info p).
  { intros p. rewrite negb_true_iff, <- set_negatable. apply iff_sym, not_true_iff_false. }
  split.
  - destruct minus; cbn [negb]; [|split; [intros F; destruct F; reflexivity | intros [F _]; discriminate]].
    destruct (find _ (union_parts info t)) as [p|] eqn:F.
    + apply find_some in F as [P N]. split; [intros _ | intros _; discriminate]. split; [reflexivity|]. exists p.
      split; [apply union_parts_spec, P | apply Ng, N].
    + split; [intros X; destruct X; reflexivity|]. intros [_ [p [P N]]]. apply union_parts_spec in P.
      apply Ng in N. rewrite (find_none _ _ F p P) in N. discriminate.
  - intros d pre p post -> U A N. cbn [negb]. rewrite U.
    assert (F : find (fun p => negb (set (flags (info p)) [Any; Never; Bigint_like; Number_like])) (pre ++ p :: post) = Some p).
    { clear U. induction pre as [|q pre IH]; cbn [find app].
      - rewrite (proj2 (Ng p) N). reflexivity.
      - assert (Q := A q (or_introl eq_refl)). apply set_negatable in Q. rewrite Q. cbn [negb]. apply IH. intros r R. apply A. right. exact R. }
    rewrite F. intros E. injection E as <-. reflexivity.
Qed.
Print Assumptions C98_minus_exactly.
Example C98_minus_example :
  check_minus types true 3 = Some (b "Argument of unary negation should be assignable to number | bigint but is string instead.") /\
  check_minus types true 1 = None /\ check_minus types true 10 = None /\ check_minus types false 0 = None.
Proof. repeat split; vm_compute; reflexivity. Qed.
