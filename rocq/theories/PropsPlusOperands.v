(** C79: restrict-plus-operands. *)
From Coq Require Import Bool Ascii String List Lia.
From Verif Require Import Base EngineProofs.
From Verif Require Import PlusOperands PlusOperandsSpec PlusOperandsProofs.
Import ListNotations.

Definition defaults : options := {| allow_any := true; allow_boolean := true; allow_nullish := true; allow_number_and_string := true; allow_regexp := true; skip_compound := false |}.
Definition strict : options := {| allow_any := false; allow_boolean := false; allow_nullish := false; allow_number_and_string := false; allow_regexp := false; skip_compound := false |}.

(** What is reported: each operand with an invalid part; if there is none, at most one report about a string beside a number or bigint, or a number beside a bigint, in either order. *)
Theorem C79_reported : forall o same l r, (same = true -> l = r) ->
  let out := check_plus o same l r in
  (In InvalidLeft out <-> invalid_operand o l r) /\
  (In InvalidRight out <-> invalid_operand o r l) /\
  (In Mismatched out <-> ~ invalid_operand o l r /\ ~ invalid_operand o r l /\ (clash o Mismatched l r \/ (clash o Mismatched r l /\ ~ clash o BigintAndNumber l r))) /\
  (In BigintAndNumber out <-> ~ invalid_operand o l r /\ ~ invalid_operand o r l /\ ((clash o BigintAndNumber l r /\ ~ clash o Mismatched l r) \/ (clash o BigintAndNumber r l /\ ~ clash o Mismatched l r /\ ~ clash o Mismatched r l))) /\
  List.length out <= 2 /\ (~ invalid_operand o l r -> ~ invalid_operand o r l -> List.length out <= 1).
Proof.
  intros o same l r S. pose proof (plus_exact o same l r S) as H. cbv zeta in *. unfold nothing_invalid in H. destruct H as (A & B & C & D & E & F).
  split; [exact A|]. split; [exact B|]. split; [rewrite C; tauto|]. split; [rewrite D; tauto|]. split; [exact E|]. intros X Y. apply F. auto.
Qed.
Print Assumptions C79_reported.
Example C79_reported_ex : check_plus strict false (Union [Atom String_; Atom Null]) (Single (Atom Object_)) = [InvalidLeft; InvalidRight]
  /\ check_plus strict false (Union [Atom Number; Atom BigInt]) (Single (Atom String_)) = [Mismatched]
  /\ check_plus defaults false (Single (Atom BigInt)) (Single (Atom Number)) = [BigintAndNumber]
  /\ check_plus defaults false (Single (Atom BigInt)) (Single (Atom String_)) = []
  /\ check_plus strict true (Single (Atom BigInt)) (Single (Atom BigInt)) = [].
Proof. repeat split. Qed.

(** The order of the reports is that of the operands. *)
Theorem C79_order : forall o same l r, (same = true -> l = r) -> invalid_operand o l r -> invalid_operand o r l -> check_plus o same l r = [InvalidLeft; InvalidRight].
Proof.
  intros o same l r S A B. pose proof (plus_exact o same l r S) as (X & Y & _). cbv zeta in *. apply X in A. apply Y in B. revert A B. unfold check_plus.
  destruct (same && _); [intros []|]. destruct (check_operand o l r) as [lf li], (check_operand o r l) as [rf ri].
  destruct li, ri; cbn [orb app]; auto; cbn [In]; try (intuition congruence).
  assert (forall f g, ~ In InvalidLeft (check_mismatched o f g)) as K. { intros f g. unfold check_mismatched. destruct (_ && _ && _); cbn [In]; [intuition congruence|]. destruct (_ && _); cbn [In]; intuition congruence. }
  destruct (check_mismatched o lf rf) as [|z zs] eqn:Z; intros A; exfalso; [|rewrite <- Z in A]; eapply K; exact A.
Qed.
Print Assumptions C79_order.
Example C79_order_ex : check_plus strict true (Single (Atom Boolean)) (Single (Atom Boolean)) = [InvalidLeft; InvalidRight].
Proof. reflexivity. Qed.

(** Where nothing is reported all values belong together, unless a type was allowed by an option. *)
Theorem C79_quiet : forall o same l r, (same = true -> l = r) -> plain l -> plain r -> check_plus o same l r = [] ->
  forall a c v w, in_type (Atom a) l -> in_type (Atom c) r -> of_atom v a -> of_atom w c -> together o v w \/ allowed o a \/ allowed o c.
Proof.
  intros o same l r S PL PR Q a c v w A C V W. pose proof (plus_exact o same l r S) as (X1 & X2 & X3 & X4 & _). cbv zeta in *. rewrite Q in *. cbn [In] in *. unfold nothing_invalid in *.
  assert (~ invalid_operand o l r) as NL by tauto. assert (~ invalid_operand o r l) as NR by tauto.
  destruct (PL _ A) as (a' & [= <-] & VA). destruct (PR _ C) as (c' & [= <-] & VC).
  assert (~ invalid o r (Atom a)) as IA by (intros X; apply NL; exists (Atom a); auto). assert (~ invalid o l (Atom c)) as IC by (intros X; apply NR; exists (Atom c); auto).
  destruct (invalid_plain_atom o r a IA VA) as [HA|HA]; [|auto]. destruct (invalid_plain_atom o l c IC VC) as [HC|HC]; [|auto]. left.
  assert (~ clash o Mismatched l r) as K1 by tauto. 
  assert (~ clash o BigintAndNumber l r) as K2 by tauto. assert (~ clash o Mismatched r l) as K3 by tauto. assert (~ clash o BigintAndNumber r l) as K4 by tauto. clear X1 X2 X3 X4.
  cbn [clash] in *.
  assert (forall n, (n = Number \/ n = BigInt) -> in_type (Atom String_) l -> in_type (Atom n) r -> allow_number_and_string o = true) as M1.
  { intros n N H H'. destruct (allow_number_and_string o) eqn:E; auto. exfalso. apply K1. split; auto. exists n. auto. }
  assert (forall n, (n = Number \/ n = BigInt) -> in_type (Atom String_) r -> in_type (Atom n) l -> allow_number_and_string o = true) as M2.
  { intros n N H H'. destruct (allow_number_and_string o) eqn:E; auto. exfalso. apply K3. split; auto. exists n. auto. }
  cbn [In] in HA, HC. destruct HA as [<-|[<-|[<-|[]]]], HC as [<-|[<-|[<-|[]]]]; inversion V; inversion W; subst; try (now constructor); try tauto;
  (apply TMixed; [eauto|intuition congruence]).
Qed.
Print Assumptions C79_quiet.
Example C79_quiet_ex : check_plus defaults false (Union [Atom String_; Atom Null]) (Single (Atom Number)) = [] /\ allowed defaults Null /\ together defaults VString VNumber.
Proof. split; [reflexivity|]. split; [now constructor|]. apply TMixed; auto. Qed.
(** With everything off: values of both operands are of one kind. *)
Theorem C79_strict : forall o same l r, allow_any o = false -> allow_boolean o = false -> allow_nullish o = false -> allow_regexp o = false -> (same = true -> l = r) -> plain l -> plain r -> check_plus o same l r = [] ->
  forall v w, of_type v l -> of_type w r -> together o v w.
Proof.
  intros o same l r F1 F2 F3 F4 S PL PR Q v w (p & P & V) (q & P' & W). destruct (PL _ P) as (a & -> & _). destruct (PR _ P') as (c & -> & _). inversion V; subst. inversion W; subst.
  destruct (C79_quiet o same l r S PL PR Q a c v w P P') as [H|[H|H]]; auto; inversion H; congruence.
Qed.
Print Assumptions C79_strict.
Example C79_strict_ex : check_plus strict false (Union [Atom Number; Atom Number]) (Single (Atom Number)) = [] /\ plain (Union [Atom Number; Atom Number]) /\ of_type VNumber (Union [Atom Number; Atom Number]) /\ ~ together strict VString VNumber.
Proof.
  split; [reflexivity|]. split; [|split].
  - intros p [H|(l & [= <-] & [<-|[<-|[]]])]; [discriminate| |]; eexists; (split; [reflexivity|discriminate]).
  - exists (Atom Number). split; [right; eexists; split; [reflexivity|now left]|]. constructor. constructor.
  - intros H. inversion H. discriminate.
Qed.

(** A RegExp is never allowed beside a number. *)
Theorem C79_regexp : forall o same l, (same = true -> l = Single (Atom Number)) -> in_type (Atom RegExp) l -> check_plus o same l (Single (Atom Number)) = [InvalidLeft].
Proof.
  intros o same l S H. pose proof (plus_exact o same l (Single (Atom Number)) S) as (X & Y & Z1 & Z2 & _). cbv zeta in *. unfold nothing_invalid in *.
  assert (invalid_operand o l (Single (Atom Number))) as V by (exists (Atom RegExp); split; auto; apply IRegExp; auto).
  assert (~ invalid_operand o (Single (Atom Number)) l) as NV. { intros (p & P & I'). apply single_in in P as ->. inversion I'; subst; cbn [In] in *; intuition congruence. }
  apply X in V. revert V Y. unfold check_plus. destruct (same && _); [intros []|]. destruct (check_operand o l (Single (Atom Number))) as [lf li], (check_operand o (Single (Atom Number)) l) as [rf ri].
  destruct li, ri; cbn [orb app In]; try tauto; try (intuition congruence).
  assert (forall f g, ~ In InvalidLeft (check_mismatched o f g)) as K. { intros f g. unfold check_mismatched. destruct (_ && _ && _); cbn [In]; [intuition congruence|]. destruct (_ && _); cbn [In]; intuition congruence. }
  destruct (check_mismatched o lf rf) as [|z zs] eqn:E; intros A; exfalso; [|rewrite <- E in A]; eapply K; exact A.
Qed.
Print Assumptions C79_regexp.
Example C79_regexp_ex : check_plus defaults false (Union [Atom String_; Atom RegExp]) (Single (Atom Number)) = [InvalidLeft] /\ check_plus defaults false (Single (Atom RegExp)) (Single (Atom String_)) = [].
Proof. repeat split. Qed.
(** ... but it is beside a union that has numbers. *)
Theorem C79_regexp_refuted : exists r, of_type VNumber r /\ check_plus defaults false (Single (Atom RegExp)) r = [] /\ check_plus defaults false (Single (Atom RegExp)) (Single (Atom Number)) = [InvalidLeft].
Proof. exists (Union [Atom Number; Atom String_]). split; [|split; reflexivity]. exists (Atom Number). split; [right; eexists; split; [reflexivity|now left]|]. constructor. constructor. Qed.
Print Assumptions C79_regexp_refuted.

(** The help says that booleans are allowed with strings; they are allowed with numbers, too, and so are null and undefined. *)
Theorem C79_help_refuted : exists o, contains (string_like o) (b "allowing a string + `boolean`") /\ check_plus o false (Single (Atom Boolean)) (Single (Atom Number)) = [].
Proof. exists {| allow_any := false; allow_boolean := true; allow_nullish := false; allow_number_and_string := false; allow_regexp := false; skip_compound := false |}. split; [|reflexivity]. apply infixb_ok. vm_compute. reflexivity. Qed.
Print Assumptions C79_help_refuted.

(** undefined is invalid if it is not allowed, but as value of type void it is not. *)
Theorem C79_void_refuted : exists l r, of_type VUndefined l /\ of_type VString r /\ check_plus strict false l r = [] /\ check_plus strict false (Single (Atom Undefined)) r = [InvalidLeft].
Proof. exists (Single (Atom Void)), (Single (Atom String_)). split; [|split; [|split; reflexivity]]; eexists; (split; [left; reflexivity|constructor; constructor]). Qed.
Print Assumptions C79_void_refuted.

(** Branded types go with everything: a string beside a number, and a number beside a bigint (a TypeError when run). *)
Theorem C79_brand_refuted : exists l r m n, of_type VString l /\ of_type VNumber r /\ check_plus strict false l r = [] /\ of_type VNumber m /\ of_type VBigInt n /\ check_plus strict false m n = [].
Proof.
  assert (forall v a, of_atom v a -> a <> Object_ -> a <> RegExp -> of_type v (Single (Intersection [a; Object_]))) as B.
  { intros v a H N N'. exists (Intersection [a; Object_]). split; [now left|]. apply (OPBrand v a); auto. now left. }
  exists (Single (Intersection [String_; Object_])), (Single (Atom Number)), (Single (Intersection [Number; Object_])), (Single (Atom BigInt)).
  split; [apply B; [constructor|discriminate|discriminate]|]. split; [eexists; split; [left; reflexivity|constructor; constructor]|]. split; [reflexivity|].
  split; [apply B; [constructor|discriminate|discriminate]|]. split; [eexists; split; [left; reflexivity|constructor; constructor]|]. reflexivity.
Qed.
Print Assumptions C79_brand_refuted.

(** The help has a word exactly if its option is on, and is plain otherwise. *)
Theorem C79_help : forall o,
  (contains (string_like o) (b "`any`") <-> allow_any o = true) /\ (contains (string_like o) (b "`boolean`") <-> allow_boolean o = true) /\
  (contains (string_like o) (b "`null`") <-> allow_nullish o = true) /\ (contains (string_like o) (b "`undefined`") <-> allow_nullish o = true) /\
  (contains (string_like o) (b "`RegExp`") <-> allow_regexp o = true) /\
  (string_like o = b "string" <-> allow_any o = false /\ allow_boolean o = false /\ allow_nullish o = false /\ allow_regexp o = false) /\
  (contains (string_like o) (b "any of: ") <-> allow_nullish o = true \/ (allow_any o = true /\ allow_boolean o = true) \/ (allow_any o = true /\ allow_regexp o = true) \/ (allow_boolean o = true /\ allow_regexp o = true)).
Proof.
  intros o. rewrite <- !infixb_ok.
  destruct o as [[] [] [] n [] s]; repeat (match goal with |- _ /\ _ => split end);
  lazymatch goal with
  | |- _ <-> _ \/ _ => cbn [allow_any allow_boolean allow_nullish allow_regexp]; split; intros H; [vm_compute in H; try discriminate; auto 6|try (vm_compute; reflexivity); intuition discriminate]
  | |- _ = b "string" <-> _ => split; [intros H; apply (f_equal (fun x => beqb x (b "string"))) in H; vm_compute in H; try discriminate; repeat split|intros (A & B & C & E); cbn in *; try discriminate; reflexivity]
  | |- _ => cbn [allow_any allow_boolean allow_nullish allow_regexp]; split; intros H; try reflexivity; try (vm_compute; reflexivity); try discriminate; vm_compute in H; discriminate
  end.
Qed.
Print Assumptions C79_help.
Example C79_help_ex : string_like defaults = b "string, allowing a string + any of: `any`, `boolean`, `null`, `RegExp`, `undefined`" /\ string_like strict = b "string".
Proof. split; reflexivity. Qed.

(** The whole text: the words that hold, one alone or all with commas between. *)
Definition words_held (o : options) : list bstr :=
  map snd (filter fst [(allow_any o, b "`any`"); (allow_boolean o, b "`boolean`"); (allow_nullish o, b "`null`"); (allow_regexp o, b "`RegExp`"); (allow_nullish o, b "`undefined`")]).
Theorem C79_help_text : forall o, string_like o =
  match words_held o with
  | [] => b "string"
  | [w] => b "string, allowing a string + " ++ w
  | w :: l => b "string, allowing a string + any of: " ++ w ++ flat_map (fun v => b ", " ++ v) l
  end.
Proof. intros [x1 x2 x3 x4 x5 x6]. destruct x1, x2, x3, x5; vm_compute; reflexivity. Qed.
Print Assumptions C79_help_text.

(** Which operators are looked at. *)
Theorem C79_operators : forall o op, checked o op = true <-> op = Plus \/ (op = PlusEquals /\ skip_compound o = false).
Proof. intros o op. destruct op; cbn [checked]; rewrite ?negb_true_iff; intuition congruence. Qed.
Print Assumptions C79_operators.
Example C79_operators_ex : map (checked defaults) [Plus; PlusEquals; OtherOperator] = [true; true; false].
Proof. reflexivity. Qed.
