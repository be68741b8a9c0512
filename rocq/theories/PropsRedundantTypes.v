(** C53: no-redundant-type-constituents reports exactly the constituents of unions and intersections that are [any], [unknown] or [never] and
    the literals and primitive types of which one makes the other redundant; leaving out what is said to be overridden keeps the type.

    [number] gives type objects their identity, [show] is [TypeToString], [quoted] the verb [%q], [big] the value of a bigint literal, [order]
    the order in which Go goes over a map.  The constituents of a union or intersection are given by what they mean ([source]). *)
From Coq Require Import String Ascii Bool List ZArith Lia Permutation.
From Verif Require Import Base EngineProofs Types RedundantTypes RedundantTypesSpec RedundantTypesProofs RedundantTypesMeaning.
Import ListNotations.
Open Scope Z_scope.

(** ** Reports *)
(** Unions: the reports are exactly those of [union_report], each once. *)
Theorem C53_union_reports : forall number show quoted order returned l i m,
  (forall x, number x = number boolean -> x = boolean) -> Forall proper l -> (forall k x, Permutation (order k x) x) ->
  let rs := union_rule show quoted (number boolean) order returned (map (written number) l) in
  (In (Report i m) rs <-> union_report number show quoted returned l i m) /\ NoDup rs.
Proof. intros number show quoted order returned l i m A P O. split; [now apply union_exact | now apply union_once]. Qed.
Print Assumptions C53_union_reports.

(** Intersections: the reports are exactly those of [inter_report], each once. *)
Theorem C53_inter_reports : forall number show quoted l i m,
  (forall x, number x = number boolean -> x = boolean) -> Forall proper l ->
  let rs := inter_rule show quoted (number boolean) (map (written number) l) in
  (In (Report i m) rs <-> inter_report number show quoted l i m) /\ NoDup rs.
Proof. intros number show quoted l i m A P. split; [now apply inter_exact | now apply inter_once]. Qed.
Print Assumptions C53_inter_reports.

(** The texts. *)
Theorem C53_texts : forall n c p,
  description (Overrides n false) = b "'" ++ n ++ b "' overrides all other types in this union type." /\
  description (Overrides n true) = b "'" ++ n ++ b "' overrides all other types in this intersection type." /\
  description (ErrorTypeOverrides n false) = b "'" ++ n ++ b "' is an 'error' type that acts as 'any' and overrides all other types in this union type." /\
  description (ErrorTypeOverrides n true) = b "'" ++ n ++ b "' is an 'error' type that acts as 'any' and overrides all other types in this intersection type." /\
  description (Overridden n false) = b "'" ++ n ++ b "' is overridden by other types in this union type." /\
  description (Overridden n true) = b "'" ++ n ++ b "' is overridden by other types in this intersection type." /\
  description (LiteralOverridden c p) = c ++ b " is overridden by " ++ p ++ b " in this union type." /\
  description (PrimitiveOverridden c p) = p ++ b " is overridden by the " ++ c ++ b " in this intersection type." /\
  map message_id [Overrides n false; ErrorTypeOverrides n true; Overridden n false; LiteralOverridden c p; PrimitiveOverridden c p] =
    map b ["overrides"; "errorTypeOverrides"; "overridden"; "literalOverridden"; "primitiveOverridden"]%string.
Proof. intros n c p. repeat (split; [reflexivity|]). reflexivity. Qed.
Print Assumptions C53_texts.

(** ** Unions *)
Section Unions.
Variables (number : sty -> Z) (show : ty -> bstr) (quoted : bstr -> bstr) (big : bstr -> Z) (order : primitive -> list (nat * list part) -> list (nat * list part)).
Hypothesis apart : forall x, number x = number boolean -> x = boolean.
Hypothesis shuffled : forall k x, Permutation (order k x) x.
Variables (returned : bool) (l : list source).
Hypothesis ok : Forall proper l.
Let reports := union_rule show quoted (number boolean) order returned (map (written number) l).
Let ds := map (meaning big) l.

(** What is said to be overridden can be left out, all at once: [never], and constituents all of whose values are of primitive types for which
    there is a report on the constituent. *)
Theorem C53_union_left_out : forall gone,
  (forall i s, gone i = true -> nth_error l i = Some s ->
    (exists n, In (Report i (Overridden n false)) reports) \/
    (exists P, meaning big s = Values P /\
       forall v, P v -> exists k t, of_kind k v /\ In (Report i (LiteralOverridden t (word k))) reports)) ->
  same (uni ds) (uni (without gone ds)).
Proof.
  intros gone H. apply (union_left_out number show quoted big l ok returned). intros i s G N. destruct (H i s G N) as [(n & R) | (P & M & A)].
  - left. exists n. now apply (union_exact number show quoted apart l ok order shuffled) in R.
  - right. exists P. split; [easy|]. intros v p. destruct (A v p) as (k & t & O & R). exists k, t. split; [easy|].
    now apply (union_exact number show quoted apart l ok order shuffled) in R.
Qed.
(** What is said to override everything is the union, unless it is [unknown] and there is also [any]. *)
Theorem C53_union_overrides : forall i s n m,
  nth_error l i = Some s -> m = Overrides n false \/ m = ErrorTypeOverrides n false -> In (Report i m) reports ->
  meaning big s = Whatever \/ ~ In Whatever ds -> same (uni ds) (meaning big s).
Proof.
  intros i s n m N M R. apply (union_exact number show quoted apart l ok order shuffled) in R. exact (union_overrides number show quoted big l returned i s n m N M R).
Qed.
End Unions.
Print Assumptions C53_union_left_out.
Print Assumptions C53_union_overrides.

(** ** Intersections *)
Section Intersections.
Variables (number : sty -> Z) (show : ty -> bstr) (quoted : bstr -> bstr) (big : bstr -> Z).
Hypothesis apart : forall x, number x = number boolean -> x = boolean.
Variable l : list source.
Hypothesis ok : Forall proper l.
Let reports := inter_rule show quoted (number boolean) (map (written number) l).
Let ds := map (meaning big) l.

(** What is said to be overridden can be left out, all at once: [unknown], and primitive types if no constituent is a union. *)
Theorem C53_inter_left_out : forall gone,
  (forall i s, gone i = true -> nth_error l i = Some s ->
    (exists n, In (Report i (Overridden n true)) reports) \/
    ((forall t, In t l -> ~ several t) /\ exists c p, In (Report i (PrimitiveOverridden c p)) reports)) ->
  forall d d', inter ds d -> inter (without gone ds) d' -> same d d'.
Proof.
  intros gone H. apply (inter_left_out number show quoted big l ok). intros i s G N. destruct (H i s G N) as [(n & R) | (V & c & p & R)].
  - left. exists n. now apply (inter_exact number show quoted apart l ok) in R.
  - right. split; [easy|]. exists c, p. now apply (inter_exact number show quoted apart l ok) in R.
Qed.
(** What is said to override everything is the intersection, unless it is [any] and there is also [never]. *)
Theorem C53_inter_overrides : forall i s n m d,
  nth_error l i = Some s -> m = Overrides n true \/ m = ErrorTypeOverrides n true -> In (Report i m) reports ->
  inter ds d -> (meaning big s = Whatever -> Forall (fun x => ~ none x) ds) -> same d (meaning big s).
Proof.
  intros i s n m d N M R. apply (inter_exact number show quoted apart l ok) in R. exact (inter_overrides number show quoted big l i s n m d N M R).
Qed.
(** A union that is reported has literals of primitive types that are there; if they are of one primitive type, the constituents with that type
    can be left out. *)
Theorem C53_inter_unions : forall i x p q,
  nth_error l i = Some (AType x) -> several (AType x) -> In (Report i (PrimitiveOverridden p q)) reports ->
  (forall v, holds x v -> exists j t, of_kind j v /\ In t l /\ has_primitive false t j) /\
  forall k gone, (forall v, holds x v -> of_kind k v) -> (forall j t, gone j = true -> nth_error l j = Some t -> has_primitive false t k) ->
    forall d d', inter ds d -> inter (without gone ds) d' -> same d d'.
Proof.
  intros i x p q N V R. apply (inter_exact number show quoted apart l ok) in R. split.
  - exact (proj1 (inter_union_left_out number show quoted big l ok i x p q Boolean (fun _ => false) N V R)).
  - intros k gone. exact (proj2 (inter_union_left_out number show quoted big l ok i x p q k gone N V R)).
Qed.
End Intersections.
Print Assumptions C53_inter_left_out.
Print Assumptions C53_inter_overrides.
Print Assumptions C53_inter_unions.

(** ** Examples *)
Definition ids (x : sty) : Z := if is_boolean x then 1 else 0.
Lemma ids_apart : forall x, ids x = ids boolean -> x = boolean.
Proof. intros x. unfold ids. destruct (is_boolean x) eqn:E; [intros _; now apply boolean_is|discriminate]. Qed.
Definition digits (z : list Z) : bstr := map (fun c => ascii_of_nat (Z.to_nat c)) z.
Definition shown (t : ty) : bstr :=
  match t_flags t with
  | [FStringLiteral] => b """" ++ digits (t_text t) ++ b """"
  | [FNumberLiteral] | [FBooleanLiteral] => digits (t_text t)
  | [FAny] => b "any"
  | _ => b "T"
  end.
Definition quoting (x : bstr) : bstr := b "<" ++ x ++ b ">".
Definition in_order (k : primitive) (x : list (nat * list part)) := x.
Definition union_texts (returned : bool) (l : list source) : list (nat * bstr) :=
  map (fun r => (at_ r, description (says r))) (union_rule shown quoting (ids boolean) in_order returned (map (written ids) l)).
Definition inter_texts (l : list source) : list (nat * bstr) :=
  map (fun r => (at_ r, description (says r))) (inter_rule shown quoting (ids boolean) (map (written ids) l)).
Definition two_numbers : sty := SUnion None [SNum [49]; SNum [50]].
Definition two_strings : sty := SUnion None [SStr [97]; SStr [98]].
Lemma two_numbers_normal : normal two_numbers.
Proof.
  split; [right; exists (Num [49]); cbn; tauto|]. cbn. split; [lia|]. split; [repeat constructor; cbn; intuition congruence|].
  split; [repeat constructor|]. intros a c k [<-|[<-|[]]] [<-|[<-|[]]]; cbn; congruence.
Qed.
Lemma two_strings_normal : normal two_strings.
Proof.
  split; [right; exists (Str [97]); cbn; tauto|]. cbn. split; [lia|]. split; [repeat constructor; cbn; intuition congruence|].
  split; [repeat constructor|]. intros a c k [<-|[<-|[]]] [<-|[<-|[]]]; cbn; congruence.
Qed.
Definition mixed : sty := SUnion None [SStr [97]; SNum [49]].
Lemma mixed_normal : normal mixed.
Proof.
  split; [right; exists (Str [97]); cbn; tauto|]. cbn. split; [lia|]. split; [repeat constructor; cbn; intuition congruence|].
  split; [repeat constructor|]. intros a c k [<-|[<-|[]]] [<-|[<-|[]]]; cbn; congruence.
Qed.
Lemma boolean_normal : normal boolean.
Proof.
  split; [right; exists (Bool true); cbn; tauto|]. cbn. split; [lia|]. split; [repeat constructor; cbn; intuition congruence|].
  split; [repeat constructor|]. intros a c k [<-|[<-|[]]] [<-|[<-|[]]]; cbn; congruence.
Qed.
Ltac all_proper := repeat (apply Forall_cons; [first [exact I | exact two_numbers_normal | exact two_strings_normal | exact mixed_normal | exact boolean_normal]|]); apply Forall_nil.
(** [(1 | 2) | number | "x" | never | string], also where a function returns it. *)
Definition sample : list source := [AType two_numbers; AKeyword KNumber; ALiteral (LString (b "x")); AKeyword KNever; AKeyword KString].
Example C53_sample : Forall proper sample /\
  union_texts false sample =
    [(3%nat, b "'never' is overridden by other types in this union type."); (0%nat, b "1 | 2 is overridden by number in this union type.");
     (2%nat, b "x is overridden by string in this union type.")] /\
  union_texts true sample = [(0%nat, b "1 | 2 is overridden by number in this union type."); (2%nat, b "x is overridden by string in this union type.")].
Proof. split; [all_proper|]. vm_compute. split; reflexivity. Qed.
(** All three can be left out together. *)
Example C53_sample_left_out : forall v, within (uni (map (meaning (fun _ => 0)) sample)) v <-> within (uni [Values (of_kind Number); Values (of_kind String_)]) v.
Proof.
  intros v. assert (H : same (uni (map (meaning (fun _ => 0)) sample)) (uni (without (fun i => match i with 0 | 2 | 3 => true | _ => false end%nat) (map (meaning (fun _ => 0)) sample)))).
  { apply (C53_union_left_out ids shown quoting (fun _ => 0) in_order ids_apart (fun _ _ => Permutation_refl _) false sample).
    - all_proper.
    - intros i s G N. destruct i as [|[|[|[|[|i]]]]]; try discriminate G; injection N as <-.
      + right. eexists. split; [reflexivity|]. intros w W. exists Number, (b "1 | 2"). split; [destruct W as [->|[->|[]]]; constructor|]. vm_compute. tauto.
      + right. eexists. split; [reflexivity|]. intros w ->. exists String_, (b "x"). split; [constructor|]. vm_compute. tauto.
      + left. exists (b "never"). vm_compute. tauto. }
  cbn in H. exact (H v).
Qed.
Example C53_inter_sample :
  inter_texts [ALiteral (LString (b "a")); AKeyword KString; AKeyword KUnknown; AType (SStr [98])] =
    [(2%nat, b "'unknown' is overridden by other types in this intersection type."); (1%nat, b "string is overridden by the a | <""b""> in this intersection type.")] /\
  inter_texts [ALiteral LTrue; AKeyword KBoolean; AKeyword KAny] =
    [(2%nat, b "'any' overrides all other types in this intersection type."); (1%nat, b "boolean is overridden by the literal type in this intersection type.")].
Proof. vm_compute. split; reflexivity. Qed.

(** ** Where the messages are wrong *)
(** [any] does not override [never] in an intersection. *)
Theorem C53_any_never_refuted : exists l i d, Forall proper l /\ nth_error l i = Some (AKeyword KAny) /\
  In (Report i (Overrides (b "any") true)) (inter_rule shown quoting (ids boolean) (map (written ids) l)) /\
  inter (map (meaning (fun _ => 0)) l) d /\ ~ same d (meaning (fun _ => 0) (AKeyword KAny)).
Proof.
  exists [AKeyword KAny; AKeyword KNever], 0%nat, (Values (fun _ => False)). split; [all_proper|]. split; [reflexivity|]. split; [vm_compute; tauto|].
  split; [|cbn; tauto]. left. split; [|cbn; tauto]. apply Exists_exists. exists (Values (fun _ => False)). cbn. tauto.
Qed.
Print Assumptions C53_any_never_refuted.

(** [unknown] does not override [any] in a union. *)
Theorem C53_unknown_any_refuted : exists l i, Forall proper l /\ nth_error l i = Some (AKeyword KUnknown) /\
  In (Report i (Overrides (b "unknown") false)) (union_rule shown quoting (ids boolean) in_order false (map (written ids) l)) /\
  ~ same (uni (map (meaning (fun _ => 0)) l)) (meaning (fun _ => 0) (AKeyword KUnknown)).
Proof.
  exists [AKeyword KUnknown; AKeyword KAny], 0%nat. split; [all_proper|]. split; [reflexivity|]. split; [vm_compute; tauto|]. cbn. tauto.
Qed.
Print Assumptions C53_unknown_any_refuted.

(** With a union the message is the wrong way round and not on the primitive type: here "... is overridden by the string" is said of ['a' | 'b'] in
    [('a' | 'b') & string], which is not the same without it but is the same without [string] (lines 257-288 pass the arguments of
    [buildPrimitiveOverriddenMessage] in the other order). *)
Theorem C53_swapped_refuted : exists l, Forall proper l /\
  inter_texts l = [(0%nat, b "<""a""> | <""b""> is overridden by the string in this intersection type.")] /\
  let ds := map (meaning (fun _ => 0)) l in
  (exists d d', inter ds d /\ inter (without (Nat.eqb 0) ds) d' /\ ~ same d d') /\
  (forall d d', inter ds d -> inter (without (Nat.eqb 1) ds) d' -> same d d').
Proof.
  exists [AType two_strings; AKeyword KString].
  assert (P : Forall proper [AType two_strings; AKeyword KString]) by all_proper.
  split; [exact P|]. split; [vm_compute; reflexivity|]. split.
  - eexists. eexists. split; [|split].
    + right. split; [|reflexivity]. constructor; [cbn; intros N; apply (N (Str [97])); tauto|]. constructor; [|constructor]. cbn. intros N. apply (N (Str [97])). constructor.
    + right. split; [|reflexivity]. cbn. constructor; [|constructor]. intros N. apply (N (Str [97])). constructor.
    + cbn. intros H. destruct (H (Str [])) as [_ K]. destruct K as [K _]; [split; constructor|]. destruct K as [K|[K|[]]]; discriminate K.
  - apply (proj2 (C53_inter_unions ids shown quoting (fun _ => 0) ids_apart [AType two_strings; AKeyword KString] P 0 two_strings (b "string") (b "<""a""> | <""b"">")
      eq_refl ltac:(cbn; lia) ltac:(vm_compute; tauto)) String_).
    + intros v [-> | [-> | []]]; constructor.
    + intros [|[|j]] t G N; try discriminate G. injection N as <-. reflexivity.
Qed.
Print Assumptions C53_swapped_refuted.

(** The names shown are those of the first union: for [S & T & string & number] with [S = 1 | 2] and [T = 'a' | 'b'] the report on T shows the
    literals of S. *)
Theorem C53_first_union_refuted : exists l, Forall proper l /\ nth_error l 1 = Some (AType two_strings) /\
  In (1%nat, b "1 | 2 is overridden by the string in this intersection type.") (inter_texts l).
Proof.
  exists [AType two_numbers; AType two_strings; AKeyword KString; AKeyword KNumber]. split; [all_proper|].
  split; [reflexivity|]. vm_compute. tauto.
Qed.
Print Assumptions C53_first_union_refuted.

(** Literals of two primitive types: in [('a' | 1) & string & number] neither [string] nor [number] can be left out. *)
Theorem C53_mixed_refuted : exists l c p, Forall proper l /\
  In (Report 0 (PrimitiveOverridden c p)) (inter_rule shown quoting (ids boolean) (map (written ids) l)) /\ nth_error l 0 = Some (AType mixed) /\
  let ds := map (meaning (fun _ => 0)) l in
  forall i, (i = 1 \/ i = 2)%nat -> exists d d', inter ds d /\ inter (without (Nat.eqb i) ds) d' /\ ~ same d d'.
Proof.
  exists [AType mixed; AKeyword KString; AKeyword KNumber], (b "number"), (b "<""a""> | 1"). split.
  { all_proper. }
  split; [vm_compute; tauto|]. split; [reflexivity|]. intros ds i [-> | ->].
  - eexists. eexists. split; [|split].
    + right. split; [|reflexivity]. constructor; [cbn; intros N; apply (N (Str [97])); tauto|].
      constructor; [cbn; intros N; apply (N (Str [97])); constructor|]. constructor; [|constructor]. cbn. intros N. apply (N (Num [49])). constructor.
    + right. split; [|reflexivity]. cbn. constructor; [intros N; apply (N (Num [49])); tauto|]. constructor; [|constructor]. intros N. apply (N (Num [49])). constructor.
    + cbn. intros H. destruct (H (Num [49])) as [_ K]. destruct K as (_ & K & _); [repeat split; [tauto|constructor]|]. inversion K.
  - eexists. eexists. split; [|split].
    + right. split; [|reflexivity]. constructor; [cbn; intros N; apply (N (Str [97])); tauto|].
      constructor; [cbn; intros N; apply (N (Str [97])); constructor|]. constructor; [|constructor]. cbn. intros N. apply (N (Num [49])). constructor.
    + right. split; [|reflexivity]. cbn. constructor; [intros N; apply (N (Str [97])); tauto|]. constructor; [|constructor]. intros N. apply (N (Str [97])). constructor.
    + cbn. intros H. destruct (H (Str [97])) as [_ K]. destruct K as (_ & _ & K & _); [repeat split; [tauto|constructor]|]. inversion K.
Qed.
Print Assumptions C53_mixed_refuted.

(** [boolean] behind a name is not recognized in intersections: [false & B] with [B = boolean] is not reported, although B can be left out. *)
Theorem C53_alias_refuted : exists l, Forall proper l /\ nth_error l 1 = Some (AType boolean) /\
  inter_rule shown quoting (ids boolean) (map (written ids) l) = [] /\
  let ds := map (meaning (fun _ => 0)) l in
  (forall d d', inter ds d -> inter (without (Nat.eqb 1) ds) d' -> same d d') /\
  inter_texts [ALiteral LFalse; AKeyword KBoolean] <> [].
Proof.
  exists [ALiteral LFalse; AType boolean]. split.
  { all_proper. }
  split; [reflexivity|]. split; [vm_compute; reflexivity|]. split; [|vm_compute; discriminate].
  apply inter_without. intros [|[|j]] x G N; try discriminate G. injection N as <-. eexists. split; [reflexivity|].
  split; [exists (Bool true); cbn; tauto|]. intros v A. specialize (A 0%nat _ eq_refl eq_refl). cbn in A. subst v. cbn. tauto.
Qed.
Print Assumptions C53_alias_refuted.
