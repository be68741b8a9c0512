(** Proofs about prefer-find. *)
From Coq Require Import Bool String Ascii List Arith ZArith QArith Lia.
From Verif Require Import Base EngineProofs.
From Verif Require Import PreferFind PreferFindSpec.
Import ListNotations.
Local Open Scope nat_scope.

(** * Numbers of strings *)
Lemma all_ascii (P : ascii -> bool) : forallb P (map ascii_of_nat (seq 0 256)) = true -> forall c, P c = true.
Proof.
  intros H c. rewrite forallb_forall in H. apply H. apply in_map_iff. exists (nat_of_ascii c). split; [apply ascii_nat_embedding|].
  apply in_seq. pose proof (nat_ascii_bounded c). lia.
Qed.
Lemma space_white c : space c = white c.
Proof. apply eqb_prop. revert c. apply (all_ascii (fun c => Bool.eqb (space c) (white c))). vm_compute. reflexivity. Qed.
Lemma trim_left_white t : trim_left t = drop_white t.
Proof. induction t as [|c t IH]; [reflexivity|]. simpl. rewrite space_white, IH. reflexivity. Qed.
Lemma trim_stripped t : trim_space t = stripped t.
Proof. unfold trim_space, stripped. rewrite !trim_left_white. reflexivity. Qed.
Lemma digit_value_digit c : digit_value c = if Z.eqb (digit c) 99 then None else Some (digit c).
Proof.
  assert (H : forall c, match digit_value c, (if Z.eqb (digit c) 99 then None else Some (digit c)) with None, None => true | Some x, Some y => Z.eqb x y | _, _ => false end = true).
  { apply (all_ascii (fun c => match digit_value c, (if Z.eqb (digit c) 99 then None else Some (digit c)) with None, None => true | Some x, Some y => Z.eqb x y | _, _ => false end)). vm_compute. reflexivity. }
  specialize (H c). destruct (digit_value c), (Z.eqb (digit c) 99); try discriminate; try reflexivity. apply Z.eqb_eq in H. subst. reflexivity.
Qed.
Lemma digits_snoc base t c acc : digits base acc (t ++ [c]) = match digits base acc t with Some z => if (digit c <? base)%Z then Some (z * base + digit c)%Z else None | None => None end.
Proof.
  revert acc. induction t as [|d t IH]; intro acc; simpl; [reflexivity|]. destruct (digit d <? base)%Z; [apply IH|reflexivity].
Qed.
Lemma digit_ok base c d : (base <= 16)%Z -> digit_value c = Some d /\ (d < base)%Z <-> (digit c <? base)%Z = true /\ d = digit c.
Proof.
  intro B. rewrite digit_value_digit. rewrite Z.ltb_lt. destruct (Z.eqb_spec (digit c) 99) as [E|N].
  - split; [intros [H _]; discriminate|]. intros [H ->]. lia.
  - split; [intros [H L]; injection H as <-; auto|]. intros [H ->]. auto.
Qed.
Lemma numeral_digits base t z : (base <= 16)%Z -> numeral base t z <-> t <> [] /\ digits base 0 t = Some z.
Proof.
  intro B. split.
  - induction 1 as [c d V L|t z c d N [NE IH] V L].
    + split; [discriminate|]. destruct (proj1 (digit_ok base c d B) (conj V L)) as [Y ->]. simpl. rewrite Y. reflexivity.
    + split; [destruct t; discriminate|]. destruct (proj1 (digit_ok base c d B) (conj V L)) as [Y ->]. rewrite digits_snoc, IH, Y. reflexivity.
  - revert z. induction t as [|c t IH] using rev_ind; intros z [NE E]; [congruence|].
    rewrite digits_snoc in E. destruct (digits base 0 t) as [y|] eqn:D; [|discriminate]. destruct (digit c <? base)%Z eqn:Y; [|discriminate].
    destruct (proj2 (digit_ok base c (digit c) B) (conj Y eq_refl)) as [V L].
    destruct t as [|c' t].
    + simpl in D. injection D as <-. injection E as <-. simpl. apply NumeralOne; assumption.
    + assert (z = (y * base + digit c)%Z) as -> by congruence. apply NumeralMore; [apply IH; split; [discriminate|reflexivity]| |]; assumption.
Qed.
Lemma base_radix c base : base_of c = Some base <-> radix c base.
Proof.
  unfold base_of, radix. split.
  - destruct c as [[] [] [] [] [] [] [] []]; intro H; try discriminate; injection H as <-; auto 8.
  - intros [[[-> | ->] ->] | [[[-> | ->] ->] | [[-> | ->] ->]]]; reflexivity.
Qed.
Lemma radix_small c base : radix c base -> (base <= 16)%Z.
Proof. intros [[_ ->] | [[_ ->] | [_ ->]]]; lia. Qed.

Section Proofs.
Context (parse_float : bstr -> option num) (number_name : num -> bstr) (bigint_name : Z -> bstr).
Notation to_number_string := (to_number_string parse_float).
Notation to_number := (to_number parse_float).
Notation get_static := (get_static parse_float).
Notation static_from := (static_from parse_float).

Definition sign_char (c : ascii) : bool := Ascii.eqb c "+" || Ascii.eqb c "-".
(** The cases of [to_number_string] on a stripped text. *)
Definition plain_number (s : bstr) : num := match parse_float s with Some n => n | None => NaN end.
Lemma number_cases s : let t := trim_space s in let n := to_number_string s in
  t = [] /\ n = Fin 0 \/
  (t = b "Infinity" \/ t = b "+Infinity") /\ n = Inf false \/
  t = b "-Infinity" /\ n = Inf true \/
  (exists c r base, t = "0"%char :: c :: r /\ radix c base /\ n = match set_string base r with Some z => Fin (inject_Z z) | None => NaN end) \/
  (exists g c r base, sign_char g = true /\ t = g :: "0"%char :: c :: r /\ radix c base) \/
  (t <> [] /\ (forall c r base, t = "0"%char :: c :: r -> ~ radix c base) /\ n = plain_number t).
Proof.
  cbv zeta. unfold PreferFind.to_number_string. cbv zeta. set (t := trim_space s). clearbody t.
  destruct (beqb t []) eqn:E0; [apply beqb_eq in E0; auto|].
  destruct (beqb t (b "Infinity")) eqn:E1; [apply beqb_eq in E1; cbn [orb]; auto|].
  destruct (beqb t (b "+Infinity")) eqn:E2; [apply beqb_eq in E2; cbn [orb]; auto|].
  cbn [orb].
  destruct (beqb t (b "-Infinity")) eqn:E3; [apply beqb_eq in E3; auto|].
  assert (N0 : t <> []) by (intros ->; discriminate).
  right; right; right.
  (* is there a radix right at the beginning? *)
  assert (A : (exists c r base, t = "0"%char :: c :: r /\ radix c base) \/ forall c r base, t = "0"%char :: c :: r -> ~ radix c base).
  { destruct t as [|z [|c r]]; [right; intros ? ? ? H; discriminate|right; intros ? ? ? H; discriminate|].
    destruct (Ascii.eqb_spec z "0") as [->|Nz]; [|right; intros c' r' base H; congruence].
    destruct (base_of c) as [base|] eqn:B.
    - left. exists c, r, base. split; [reflexivity|]. apply base_radix. exact B.
    - right. intros c' r' base H R. injection H as <- <-. apply base_radix in R. congruence. }
  destruct A as [(c & r & base & E & R)|NR].
  - left. exists c, r, base. split; [exact E|]. split; [exact R|]. rewrite E. apply base_radix in R. cbn [app].
    rewrite R. destruct r as [|d r]; [reflexivity|]. reflexivity.
  - right. destruct t as [|g t]; [congruence|].
    assert (G : sign_char g = true /\ (exists c r base, t = "0"%char :: c :: r /\ radix c base) \/
                match match g with "+"%char | "-"%char => t | _ => g :: t end with "0"%char :: c :: r => match base_of c with Some base => Some (base, r) | None => None end | _ => None end = None).
    { destruct (sign_char g) eqn:Sg.
      - assert (Gg : (match g with "+"%char | "-"%char => t | _ => g :: t end) = t).
        { unfold sign_char in Sg. apply orb_prop in Sg. destruct Sg as [Sg|Sg]; apply Ascii.eqb_eq in Sg; subst g; reflexivity. }
        rewrite Gg. clear - t. destruct t as [|z [|c r]]; [right; reflexivity|right; destruct z as [[] [] [] [] [] [] [] []]; reflexivity|].
        destruct (Ascii.eqb_spec z "0") as [->|Nz].
        + destruct (base_of c) as [base|] eqn:B; [|right; reflexivity]. left. split; [reflexivity|]. exists c, r, base. split; [reflexivity|]. apply base_radix. exact B.
        + right. destruct z as [[] [] [] [] [] [] [] []]; try reflexivity. congruence.
      - right.
        assert (Gg : (match g with "+"%char | "-"%char => t | _ => g :: t end) = g :: t).
        { unfold sign_char in Sg. destruct g as [[] [] [] [] [] [] [] []]; try reflexivity; discriminate. }
        rewrite Gg. destruct (Ascii.eqb_spec g "0") as [->|Nz].
        + destruct t as [|c r]; [reflexivity|]. destruct (base_of c) as [base|] eqn:B; [|reflexivity]. exfalso. apply (NR c r base eq_refl). apply base_radix. exact B.
        + clear - Nz. destruct g as [[] [] [] [] [] [] [] []]; try reflexivity. congruence. }
    destruct G as [[Sg (c & r & base & E & R)]|G].
    + left. exists g, c, r, base. subst t. auto.
    + right. split; [discriminate|]. split; [exact NR|].
      clear - G. unfold plain_number. destruct g as [[] [] [] [] [] [] [] []]; cbv beta iota in G |- *; try rewrite G; reflexivity.
Qed.

Definition rounds (n : num) : Prop := rounds_to_zero n.
Lemma number_weak decimal s : parses parse_float decimal -> rounds (to_number_string s) -> exists n, string_number decimal s n /\ rounds n.
Proof.
  intros (P1 & P2 & P3) Z. pose proof (number_cases s) as C. cbv zeta in C. rewrite trim_stripped in C.
  destruct C as [[E N]|[[_ N]|[[_ N]|[(c & r & base & E & R & N)|[(g & c & r & base & Sg & E & R)|(NE & NR & N)]]]]].
  - exists (Fin 0). split; [apply NumberEmpty; exact E|]. rewrite N in Z. exact Z.
  - rewrite N in Z. destruct Z.
  - rewrite N in Z. destruct Z.
  - rewrite N in Z. destruct (digits base 0 r) as [z|] eqn:D.
    + destruct r as [|d r'].
      * exists NaN. split; [|exact Logic.I]. apply (NumberRadixBad decimal s c [] base); [exact E|exact R|]. intros z' H. apply numeral_digits in H; [|exact (radix_small _ _ R)]. destruct H as [H _]. congruence.
      * exists (Fin (inject_Z z)). assert (NU : numeral base (d :: r') z). { apply numeral_digits; [exact (radix_small _ _ R)|]. split; [discriminate|exact D]. }
        split; [apply (NumberRadix decimal s c (d :: r') base); assumption|].
        assert (SS : set_string base (d :: r') = Some z).
        { assert (Dd : (digit d <? base)%Z = true) by (simpl in D; destruct (digit d <? base)%Z; [reflexivity|discriminate]).
          assert (Ns : sign_char d = false).
          { destruct (sign_char d) eqn:X; [|reflexivity]. exfalso. unfold sign_char in X. apply orb_prop in X. apply Z.ltb_lt in Dd.
            pose proof (radix_small _ _ R). destruct X as [X|X]; apply Ascii.eqb_eq in X; subst d; [change (digit "+") with 99%Z in Dd|change (digit "-") with 99%Z in Dd]; lia. }
          unfold set_string. clear - D Ns. destruct d as [[] [] [] [] [] [] [] []]; try exact D; discriminate. }
        rewrite SS in Z. exact Z.
    + exists NaN. split; [|exact Logic.I]. apply (NumberRadixBad decimal s c r base); [exact E|exact R|]. intros z' H. apply numeral_digits in H; [|exact (radix_small _ _ R)]. destruct H as [_ H]. congruence.
  - exists NaN. split; [|exact Logic.I]. apply NumberBad; [rewrite E; discriminate| |rewrite E; apply (P3 g c r base R)].
    intros c' r' base' E' _. rewrite E in E'. injection E' as -> _. discriminate.
  - rewrite N in Z. unfold plain_number in Z. destruct (parse_float (stripped s)) as [n|] eqn:Pf.
    + destruct (P1 _ _ Pf) as [D|D]; [exists n; split; [apply NumberDecimal; assumption|exact Z]|]. exists NaN. split; [apply NumberBad; assumption|exact Logic.I].
    + exists NaN. split; [apply NumberBad; auto|exact Logic.I].
Qed.

Definition no_signed_radix (s : bstr) : Prop :=
  (forall g c r base, stripped s = g :: "0"%char :: c :: r -> radix c base -> g <> "+"%char /\ g <> "-"%char) /\
  (forall c g r base, stripped s = "0"%char :: c :: g :: r -> radix c base -> g <> "+"%char /\ g <> "-"%char).
Lemma number_exact decimal s : decimal (stripped s) = parse_float (stripped s) ->
  decimal (b "Infinity") = Some (Inf false) -> decimal (b "+Infinity") = Some (Inf false) -> decimal (b "-Infinity") = Some (Inf true) ->
  no_signed_radix s -> string_number decimal s (to_number_string s).
Proof.
  intros A I1 I2 I3 [NS1 NS2]. pose proof (number_cases s) as C. cbv zeta in C. rewrite trim_stripped in C.
  assert (Inf_ : forall t n, stripped s = t -> decimal t = Some n -> t <> [] -> (forall c r base, t = "0"%char :: c :: r -> ~ radix c base) -> string_number decimal s n).
  { intros t n <- D NE NR. apply NumberDecimal; assumption. }
  destruct C as [[E N]|[[[E|E] N]|[[E N]|[(c & r & base & E & R & N)|[(g & c & r & base & Sg & E & R)|(NE & NR & N)]]]]]; try rewrite N.
  - apply NumberEmpty. exact E.
  - apply (Inf_ _ _ E I1); [discriminate|]. intros; discriminate.
  - apply (Inf_ _ _ E I2); [discriminate|]. intros; discriminate.
  - apply (Inf_ _ _ E I3); [discriminate|]. intros; discriminate.
  - assert (SS : set_string base r = match r with [] => None | _ => digits base 0 r end).
    { destruct r as [|d r']; [reflexivity|]. destruct (NS2 c d r' base E R) as [N1 N2]. clear - N1 N2. unfold set_string. destruct d as [[] [] [] [] [] [] [] []]; try reflexivity; congruence. }
    rewrite SS. destruct r as [|d r'].
    + apply (NumberRadixBad decimal s c [] base E R). intros z H. apply numeral_digits in H; [|exact (radix_small _ _ R)]. destruct H; congruence.
    + destruct (digits base 0 (d :: r')) as [z|] eqn:D.
      * apply (NumberRadix decimal s c (d :: r') base z E R). apply numeral_digits; [exact (radix_small _ _ R)|]. split; [discriminate|exact D].
      * apply (NumberRadixBad decimal s c (d :: r') base E R). intros z H. apply numeral_digits in H; [|exact (radix_small _ _ R)]. destruct H; congruence.
  - exfalso. destruct (NS1 g c r base E R) as [N1 N2]. unfold sign_char in Sg. apply orb_prop in Sg. destruct Sg as [X|X]; apply Ascii.eqb_eq in X; congruence.
  - unfold plain_number. destruct (parse_float (stripped s)) as [n|] eqn:Pf; [apply NumberDecimal|apply NumberBad]; congruence || assumption.
Qed.

(** * Static values *)
Definition own (s : bstr) (n : num) : Prop := n = to_number_string s.
Lemma numbered_own v n : numbered own v n <-> to_number v = Some n.
Proof.
  split.
  - intros []; try reflexivity. simpl. f_equal. symmetry. exact H.
  - destruct v as [s|m|[]| |z| |]; simpl; intro H; try discriminate; injection H as <-; constructor. reflexivity.
Qed.
Lemma opposite_negate n : opposite n = negate n.
Proof. destruct n as [|[]|q]; reflexivity. Qed.
Lemma at_zero v : zero_for_at parse_float v = true <-> at_first own v.
Proof.
  assert (T : forall n, (match n with NaN => true | Inf _ => false | Fin q => Z.eqb (Z.quot (Qnum q) (Zpos (Qden q))) 0 end) = true <-> rounds_to_zero n).
  { intros [|[]|q]; simpl; try (split; auto; discriminate).
    rewrite Z.eqb_eq. rewrite Z.quot_small_iff by discriminate. unfold Qlt. simpl. lia. }
  unfold at_first. unfold zero_for_at. split.
  - intro H. assert (E : exists n, to_number v = Some n). { destruct v as [s|m|[]| |z| |]; simpl in *; try discriminate; eauto. }
    destruct E as [n E]. exists n. split; [apply numbered_own; exact E|]. apply T. rewrite E in H. destruct v; try discriminate; destruct n; assumption.
  - intros [n [N R]]. apply numbered_own in N. apply T in R. rewrite N. destruct v; try discriminate; destruct n; assumption.
Qed.
Lemma property_key v name : property_name number_name bigint_name v = Some name <-> key number_name bigint_name v name.
Proof.
  split.
  - destruct v as [s|m|[]| |z| |]; simpl; intro H; try discriminate; injection H as <-; constructor.
  - intros []; reflexivity.
Qed.
Lemma member_zero v : names_zero number_name bigint_name -> zero_for_member v = true <-> key number_name bigint_name v (b "0").
Proof.
  intros [NN BN].
  rewrite <- property_key. destruct v as [s|[|neg|q]|[]| |z| |]; simpl; try (split; intro H; discriminate).
  - split; [intro H; apply beqb_eq in H; congruence|]. intro H. injection H as ->. apply beqb_refl.
  - split; [discriminate|]. intro H. injection H as H. apply NN in H. destruct H as [q [H _]]. discriminate.
  - split; [discriminate|]. intro H. injection H as H. apply NN in H. destruct H as [q [H _]]. discriminate.
  - rewrite Z.eqb_eq. split.
    + intro H. f_equal. apply NN. exists q. split; [reflexivity|]. unfold Qeq. simpl. lia.
    + intro H. injection H as H. apply NN in H. destruct H as [q' [H Hq]]. injection H as <-. unfold Qeq in Hq. simpl in Hq. lia.
  - rewrite Z.eqb_eq. split; [intro H; f_equal; apply BN; exact H|]. intro H. injection H as H. apply BN. exact H.
Qed.

Lemma special_dec name : (special name /\ (beqb name (b "undefined") = true \/ beqb name (b "undefined") = false /\ (beqb name (b "NaN") = true \/ beqb name (b "NaN") = false /\ beqb name (b "Infinity") = true))) \/
  (~ special name /\ beqb name (b "undefined") = false /\ beqb name (b "NaN") = false /\ beqb name (b "Infinity") = false).
Proof.
  unfold special. destruct (beqb name (b "undefined")) eqn:E1; [apply beqb_eq in E1; tauto|].
  destruct (beqb name (b "NaN")) eqn:E2; [apply beqb_eq in E2; tauto|].
  destruct (beqb name (b "Infinity")) eqn:E3; [apply beqb_eq in E3; tauto|].
  right. split; [|auto]. intros [-> | [-> | ->]]; rewrite beqb_refl in *; discriminate.
Qed.
(** One turn of the recursion. *)
Lemma static_prefix fuel consts visited op e : static_from fuel consts visited (SPrefix op e) =
  match static_from fuel consts visited e with
  | None => None
  | Some v => match op with
      | Minus => match v with VBigInt z => Some (VBigInt (- z)) | _ => match to_number v with Some n => Some (VNumber (negate n)) | None => None end end
      | Plus => match to_number v with Some n => Some (VNumber n) | None => None end
      | OtherOperator => None end
  end.
Proof. destruct fuel; reflexivity. Qed.
Lemma static_assertion fuel consts visited e : static_from fuel consts visited (SAssertion e) = static_from fuel consts visited e.
Proof. destruct fuel; reflexivity. Qed.
Lemma static_parentheses fuel consts visited e : static_from fuel consts visited (SParentheses e) = static_from fuel consts visited e.
Proof. destruct fuel; reflexivity. Qed.
Lemma static_identifier fuel consts visited name symbol global : ~ special name -> static_from fuel consts visited (SIdentifier name symbol global) =
  match symbol, fuel with
  | Some i, S fuel => if existsb (Nat.eqb i) visited then None else match nth_error consts i with Some (Some e) => static_from fuel consts (i :: visited) e | _ => None end
  | _, _ => None
  end.
Proof.
  intro N. destruct (special_dec name) as [[Y _]|(_ & E1 & E2 & E3)]; [tauto|]. destruct fuel; cbn [PreferFind.static_from]; rewrite E1, E2, E3; reflexivity.
Qed.
Lemma static_special fuel consts visited name symbol : special name -> exists v, static_from fuel consts visited (SIdentifier name symbol true) = Some v /\ forall conv, evaluates conv consts (SIdentifier name symbol true) v.
Proof.
  intros [-> | [-> | ->]]; destruct fuel; simpl; eexists; (split; [reflexivity|]); intro conv; constructor.
Qed.

Lemma minus_cases w v : match w with VBigInt z => Some (VBigInt (- z)) | _ => match to_number w with Some n => Some (VNumber (negate n)) | None => None end end = Some v ->
  (exists z, w = VBigInt z /\ v = VBigInt (- z)) \/ (exists n, to_number w = Some n /\ v = VNumber (negate n)).
Proof.
  assert (R : match to_number w with Some n => Some (VNumber (negate n)) | None => None end = Some v -> exists n, to_number w = Some n /\ v = VNumber (negate n)).
  { destruct (to_number w) as [n|]; intro H; [|discriminate]. exists n. split; congruence. }
  destruct w; intro H; try (right; apply R; exact H). left. eexists. split; [reflexivity|congruence].
Qed.
(** What is found is the value, for the model's conversion. *)
Lemma static_sound fuel consts : all_unshadowed consts -> forall e visited v, unshadowed e -> static_from fuel consts visited e = Some v -> evaluates own consts e v.
Proof.
  intro U. induction fuel as [|fuel IHf]; intro e; induction e as [s|n|v0| |z|name symbol global|op e IH|e IH|e IH|oc|]; intros visited v Ue H.
  all: try (rewrite static_prefix in H; simpl in Ue; destruct (static_from _ consts visited e) as [w|] eqn:E; [|discriminate]; specialize (IH visited w Ue E);
            destruct op;
            [ 
              apply minus_cases in H; destruct H as [(z & -> & ->)|(n & N & ->)]; [constructor; exact IH|]; rewrite <- opposite_negate; econstructor; [exact IH|]; apply numbered_own; exact N
            | destruct (to_number w) as [n|] eqn:N; [|discriminate]; injection H as <-; econstructor; [exact IH|]; apply numbered_own; exact N
            | discriminate ]).
  all: try (rewrite static_assertion in H; constructor; eapply IH; eassumption).
  all: try (rewrite static_parentheses in H; constructor; eapply IH; eassumption).
  all: try (simpl in H; discriminate).
  all: try (simpl in H; injection H as <-; constructor).
  all: try (destruct n as [n|]; [|discriminate H]; simpl in H; injection H as <-; constructor).
  all: try (destruct z as [z|]; [|discriminate H]; simpl in H; injection H as <-; constructor).
  all: try (destruct oc; simpl in H; [discriminate|]; injection H as <-; constructor).
  all: simpl in Ue; destruct (special_dec name) as [[Y _]|[N _]];
    [ assert (global = true) as -> by tauto; destruct (static_special 0 consts visited name symbol Y) as [v' [E' Ev]]
    | assert (global = false) as -> by (destruct global; [exfalso; tauto|reflexivity]) ].
  - rewrite E' in H. injection H as <-. apply Ev.
  - rewrite static_identifier in H by exact N. destruct symbol; discriminate.
  - destruct (static_special (S fuel) consts visited name symbol Y) as [v'' [E'' Ev'']]. rewrite E'' in H. injection H as <-. apply Ev''.
  - rewrite static_identifier in H by exact N. destruct symbol as [i|]; [|discriminate]. destruct (existsb (Nat.eqb i) visited); [discriminate|].
    destruct (nth_error consts i) as [[e'|]|] eqn:NE; try discriminate. eapply EConst; [exact NE|]. eapply IHf; [|exact H]. eapply U. exact NE.
Qed.

(** Derivations with the number of constants on the way. *)
Inductive evaluates_in (consts : list (option sexpr)) : list nat -> sexpr -> value -> Prop :=
| IString s : evaluates_in consts [] (SString s) (VString s)
| INumber n : evaluates_in consts [] (SNumber (Some n)) (VNumber n)
| IBoolean v : evaluates_in consts [] (SBoolean v) (VBoolean v)
| INull : evaluates_in consts [] SNull VNull
| IBigInt z : evaluates_in consts [] (SBigInt (Some z)) (VBigInt z)
| ISpecial name i v : special name -> evaluates own consts (SIdentifier name i true) v -> evaluates_in consts [] (SIdentifier name i true) v
| IConst name i e v l : nth_error consts i = Some (Some e) -> evaluates_in consts l e v -> evaluates_in consts (i :: l) (SIdentifier name (Some i) false) v
| IOppositeBig e z l : evaluates_in consts l e (VBigInt z) -> evaluates_in consts l (SPrefix Minus e) (VBigInt (- z))
| IOpposite e v n l : evaluates_in consts l e v -> numbered own v n -> evaluates_in consts l (SPrefix Minus e) (VNumber (opposite n))
| INumberOf e v n l : evaluates_in consts l e v -> numbered own v n -> evaluates_in consts l (SPrefix Plus e) (VNumber n)
| IAssertion e v l : evaluates_in consts l e v -> evaluates_in consts l (SAssertion e) v
| IParentheses e v l : evaluates_in consts l e v -> evaluates_in consts l (SParentheses e) v
| ISymbol : evaluates_in consts [] (SSymbolCall false) VSymbol.
Lemma evaluates_path consts e v : evaluates own consts e v -> exists l, evaluates_in consts l e v.
Proof.
  induction 1; try (destruct IHevaluates as [l IH]).
  all: try (eexists; econstructor; eassumption).
  all: try (eexists; constructor; fail).
  - exists []. apply ISpecial; [left; reflexivity|constructor].
  - exists []. apply ISpecial; [right; left; reflexivity|constructor].
  - exists []. apply ISpecial; [right; right; reflexivity|constructor].
Qed.
(** The way is the same for every derivation, so it has no repetition. *)
Lemma path_functional consts l e v : evaluates_in consts l e v -> forall l' v', evaluates_in consts l' e v' -> l = l'.
Proof.
  induction 1; intros l' v' H'; inversion H'; subst; eauto.
  assert (e = e0) as -> by congruence. f_equal. eapply IHevaluates_in. eassumption.
Qed.
Lemma path_tail consts l e v : evaluates_in consts l e v -> forall p i q, l = p ++ i :: q -> exists e' v', nth_error consts i = Some (Some e') /\ evaluates_in consts q e' v'.
Proof.
  induction 1; intros p j q E; eauto; try (destruct p; discriminate).
  destruct p as [|x p]; simpl in E; injection E as -> ->; [eauto|]. eapply IHevaluates_in. reflexivity.
Qed.
Lemma path_nodup consts l e v : evaluates_in consts l e v -> NoDup l.
Proof.
  revert e v. induction l as [|i l IH]; intros e v H; [constructor|].
  destruct (path_tail _ _ _ _ H [] i l eq_refl) as (e1 & v1 & N1 & H1).
  constructor; [|eapply IH; exact H1].
  intro Hin. apply in_split in Hin. destruct Hin as (p & q & ->).
  destruct (path_tail _ _ _ _ H1 p i q eq_refl) as (e2 & v2 & N2 & H2).
  assert (e2 = e1) as -> by congruence. pose proof (path_functional _ _ _ _ H1 _ _ H2) as E.
  apply (f_equal (@List.length nat)) in E. rewrite app_length in E. simpl in E. lia.
Qed.
Lemma path_in consts l e v : evaluates_in consts l e v -> forall i, In i l -> i < List.length consts.
Proof.
  intros H i Hin. apply in_split in Hin. destruct Hin as (p & q & ->). destruct (path_tail _ _ _ _ H p i q eq_refl) as (e2 & v2 & N2 & _).
  apply nth_error_Some. congruence.
Qed.
Lemma static_complete consts : all_unshadowed consts -> forall l e v, evaluates_in consts l e v -> unshadowed e -> forall fuel visited, List.length l <= fuel -> (forall i, In i l -> ~ In i visited) -> NoDup l ->
  static_from fuel consts visited e = Some v.
Proof.
  intro U. induction 1; intros Ue fuel visited F D ND; simpl in Ue.
  all: try (rewrite static_prefix; rewrite IHevaluates_in by assumption).
  all: try (rewrite static_assertion; apply IHevaluates_in; assumption).
  all: try (rewrite static_parentheses; apply IHevaluates_in; assumption).
  all: try (destruct fuel; reflexivity).
  - destruct (static_special fuel consts visited name i H) as [v' [E' _]]. rewrite E'.
    assert (S1 := E'). apply static_sound in S1; [|exact U|simpl; tauto]. f_equal.
    destruct H as [-> | [-> | ->]]; inversion H0; subst; inversion S1; subst; reflexivity || discriminate.
  - assert (Ns : ~ special name) by (intro Y; apply Ue in Y; discriminate). rewrite static_identifier by exact Ns.
    destruct fuel as [|fuel]; [simpl in F; lia|].
    assert (existsb (Nat.eqb i) visited = false) as ->.
    { apply not_true_is_false. intro X. apply existsb_exists in X. destruct X as [j [J1 J2]]. apply Nat.eqb_eq in J2. subst j. apply (D i (or_introl eq_refl)). exact J1. }
    rewrite H. inversion ND; subst. apply IHevaluates_in; [eapply U; exact H|simpl in F; lia| |assumption].
    intros j J [<-|J']; [tauto|]. apply (D j (or_intror J)). exact J'.
  - apply numbered_own in H0. rewrite H0, <- opposite_negate. destruct v; try reflexivity; discriminate.
  - apply numbered_own in H0. rewrite H0. reflexivity.
Qed.
Lemma static_iff consts e v : all_unshadowed consts -> unshadowed e -> get_static consts e = Some v <-> evaluates own consts e v.
Proof.
  intros U Ue. split; [apply static_sound; assumption|].
  intro H. destruct (evaluates_path _ _ _ H) as [l P]. unfold PreferFind.get_static.
  apply (static_complete consts U l e v P Ue); [|intros ? _ []|eapply path_nodup; exact P].
  apply Nat.le_trans with (List.length consts); [|lia].
  rewrite <- (seq_length (List.length consts) 0). apply NoDup_incl_length; [eapply path_nodup; exact P|].
  intros i Hi. apply in_seq. pose proof (path_in _ _ _ _ P i Hi). lia.
Qed.

(** With JavaScript's conversion. *)
Definition weaker (v w : value) : Prop := v = w \/ exists n m, v = VNumber n /\ w = VNumber m /\ (rounds n -> rounds m).
Lemma rounds_opposite n : rounds (opposite n) <-> rounds n.
Proof. destruct n as [|[]|[a d]]; try reflexivity. unfold rounds, rounds_to_zero, opposite, Qlt. simpl. lia. Qed.
Lemma string_number_total decimal s : exists n, string_number decimal s n.
Proof.
  destruct (stripped s) as [|z t] eqn:E; [exists (Fin 0); apply NumberEmpty; exact E|].
  assert (A : (exists c r base, stripped s = "0"%char :: c :: r /\ radix c base) \/ forall c r base, stripped s = "0"%char :: c :: r -> ~ radix c base).
  { rewrite E. destruct t as [|c r]; [right; intros ? ? ? H; discriminate|].
    destruct (Ascii.eqb_spec z "0") as [->|Nz]; [|right; intros c' r' base H; congruence].
    destruct (base_of c) as [base|] eqn:B.
    - left. exists c, r, base. split; [reflexivity|]. apply base_radix. exact B.
    - right. intros c' r' base H R. injection H as <- <-. apply base_radix in R. congruence. }
  destruct A as [(c & r & base & E' & R)|NR].
  - destruct r as [|d r'].
    + exists NaN. apply (NumberRadixBad decimal s c [] base E' R). intros y H. apply numeral_digits in H; [|exact (radix_small _ _ R)]. destruct H; congruence.
    + destruct (digits base 0 (d :: r')) as [y|] eqn:D.
      * exists (Fin (inject_Z y)). apply (NumberRadix decimal s c (d :: r') base y E' R). apply numeral_digits; [exact (radix_small _ _ R)|]. split; [discriminate|exact D].
      * exists NaN. apply (NumberRadixBad decimal s c (d :: r') base E' R). intros y H. apply numeral_digits in H; [|exact (radix_small _ _ R)]. destruct H; congruence.
  - destruct (decimal (stripped s)) as [n|] eqn:D; [exists n; apply NumberDecimal|exists NaN; apply NumberBad]; congruence || assumption.
Qed.
Lemma numbered_weaker decimal v w n : parses parse_float decimal -> weaker v w -> numbered own v n -> exists m, numbered (string_number decimal) w m /\ (rounds n -> rounds m).
Proof.
  intros P [<-|(a & c & -> & -> & R)] N.
  - inversion N; subst; try (eexists; split; [constructor|auto]; fail).
    unfold own in H. subst n.
    destruct (to_number_string s) as [|neg|q] eqn:E.
    + destruct (number_weak decimal s P) as [m [Hm Rm]]; [rewrite E; exact Logic.I|]. exists m. split; [constructor; exact Hm|auto].
    + destruct (string_number_total decimal s) as [m Hm]. exists m. split; [constructor; exact Hm|]. intros [].
    + destruct (Z.eqb (Z.quot (Qnum q) (Zpos (Qden q))) 0) eqn:Z0.
      * assert (Rq : rounds (Fin q)). { apply Z.eqb_eq in Z0. rewrite Z.quot_small_iff in Z0 by discriminate. unfold rounds, rounds_to_zero, Qlt. simpl. lia. }
        destruct (number_weak decimal s P) as [m [Hm Rm]]; [rewrite E; exact Rq|]. exists m. split; [constructor; exact Hm|auto].
      * destruct (string_number_total decimal s) as [m Hm]. exists m. split; [constructor; exact Hm|]. intro Rq. exfalso.
        apply Z.eqb_neq in Z0. apply Z0. rewrite Z.quot_small_iff by discriminate. unfold rounds, rounds_to_zero, Qlt in Rq. simpl in Rq. lia.
  - inversion N; subst. exists c. split; [constructor|exact R].
Qed.
Lemma evaluates_weaker decimal consts e v : parses parse_float decimal -> evaluates own consts e v -> exists w, evaluates (string_number decimal) consts e w /\ weaker v w.
Proof.
  intros P H. induction H; try (destruct IHevaluates as (w & Hw & W)).
  all: try (eexists; split; [econstructor; eassumption|]; (left; reflexivity) || assumption; fail).
  all: try (eexists; split; [econstructor|left; reflexivity]; fail).
  - destruct W as [<-|(n & m & E & _)]; [|discriminate]. eexists. split; [constructor; exact Hw|left; reflexivity].
  - destruct (numbered_weaker decimal v w n P W H0) as (m & Nm & R). eexists. split; [eapply EOpposite; eassumption|]. right. exists (opposite n), (opposite m). split; [reflexivity|split; [reflexivity|]]. rewrite !rounds_opposite. exact R.
  - destruct (numbered_weaker decimal v w n P W H0) as (m & Nm & R). eexists. split; [eapply ENumberOf; eassumption|]. right. exists n, m. auto.
Qed.
Lemma at_weak decimal consts e v : parses parse_float decimal -> all_unshadowed consts -> unshadowed e -> get_static consts e = Some v -> zero_for_at parse_float v = true ->
  exists w, evaluates (string_number decimal) consts e w /\ at_first (string_number decimal) w.
Proof.
  intros P U Ue G Z. apply (static_iff consts e v U Ue) in G. apply at_zero in Z. destruct Z as [n [N R]].
  destruct (evaluates_weaker decimal consts e v P G) as (w & Hw & W). destruct (numbered_weaker decimal v w n P W N) as (m & Nm & Rm).
  exists w. split; [exact Hw|]. exists m. split; [exact Nm|exact (Rm R)].
Qed.

(** * Reported expressions *)
Notation is_member := (is_member parse_float number_name bigint_name).
Notation filters := (filters parse_float number_name bigint_name).
Notation check := (check parse_float number_name bigint_name).
Definition member_unshadowed (m : member) : Prop := match m with ByExpression e => unshadowed e | _ => True end.
Lemma is_member_iff consts m name : all_unshadowed consts -> member_unshadowed m -> is_member consts m name = true <-> member_is own number_name bigint_name consts m name.
Proof.
  intros U Um. destruct m as [n|e]; simpl; [apply beqb_eq|]. simpl in Um. split.
  - destruct (get_static consts e) as [v|] eqn:G; [|discriminate]. destruct (property_name number_name bigint_name v) as [n|] eqn:K; [|discriminate]. intro H. apply beqb_eq in H. subst n.
    exists v. split; [apply static_iff; assumption|apply property_key; exact K].
  - intros (v & Ev & K). apply (static_iff consts e v U Um) in Ev. apply property_key in K. rewrite Ev, K. apply beqb_refl.
Qed.
Lemma arrayish_iff t : is_arrayish t = true <-> array_or_nullish t.
Proof.
  assert (L : forall one t, arrayish_from one t = true <-> (one = true \/ exists l, In (Parts l) t) /\ forall l, In (Parts l) t -> ~ In false l).
  { clear. intros one t. revert one. induction t as [|[|l] t IH]; intro one; simpl.
    - split; [intros ->; split; [auto|tauto]|]. intros [[H|[l []]] _]. exact H.
    - rewrite IH. split; (intros [A B]; split; [destruct A as [A|[l A]]; [auto|right]|]).
      + eauto.
      + intros l [E|E]; [discriminate|]. auto.
      + destruct A as [A|A]; [discriminate|eauto].
      + auto.
    - destruct (forallb (fun x => x) l) eqn:F.
      + rewrite IH. rewrite forallb_forall in F. assert (NF : ~ In false l) by (intro X; apply F in X; discriminate). split.
        * intros [_ B]. split; [eauto|]. intros l' [E|E]; [injection E as <-; exact NF|auto].
        * intros [_ B]. split; [auto|]. auto.
      + split; [discriminate|]. intros [_ B]. exfalso. apply (B l (or_introl eq_refl)).
        clear - F. induction l as [|x l IH]; [discriminate|]. destruct x; [right; apply IH; exact F|left; reflexivity]. }
  unfold is_arrayish, array_or_nullish. rewrite L. split; intros [A B]; split; auto. destruct A as [A|A]; [discriminate|exact A].
Qed.
Lemma filters_iff consts e : all_unshadowed consts -> expr_unshadowed e -> forall p, filters consts p e <> [] <-> all_filters own number_name bigint_name consts e.
Proof.
  intro U. induction e as [o g om oc t m before name after|l t e IH|c t a IHa u d IHd|o e IH c|n t]; intros Ue p.
  - cbn [PreferFind.filters]. assert (Um : member_unshadowed m) by (destruct m; [exact Logic.I|exact Ue]).
    pose proof (is_member_iff consts m (b "filter") U Um) as M. pose proof (arrayish_iff t) as A.
    destruct oc; [split; [congruence|]; intro H; inversion H|].
    destruct (is_member consts m (b "filter")); cbn [negb]; [|split; [congruence|]; intro H; inversion H; subst; destruct M as [_ M]; discriminate M; assumption].
    destruct (is_arrayish t); cbn [negb]; [|split; [congruence|]; intro H; inversion H; subst; destruct A as [_ A]; discriminate A; assumption].
    split; [|discriminate]. intros _. constructor; [apply M|apply A]; reflexivity.
  - cbn [PreferFind.filters]. simpl in Ue. rewrite (IH Ue). split; [intro; constructor; assumption|]. intro H. inversion H. assumption.
  - cbn [PreferFind.filters]. simpl in Ue. destruct Ue as [Ua Ud]. specialize (IHa Ua (p + List.length t)). specialize (IHd Ud (p + List.length t + List.length (text a) + List.length u)).
    destruct (filters consts (p + List.length t) a) as [|x l] eqn:Ea.
    + split; [congruence|]. intro H. inversion H; subst. destruct IHa as [_ IHa]. exfalso. apply IHa; [assumption|reflexivity].
    + destruct (filters consts (p + List.length t + List.length (text a) + List.length u) d) as [|y r] eqn:Ed.
      * split; [congruence|]. intro H. inversion H; subst. destruct IHd as [_ IHd]. exfalso. apply IHd; [assumption|reflexivity].
      * split; [|discriminate]. intros _. constructor; [apply IHa|apply IHd]; discriminate.
  - cbn [PreferFind.filters]. simpl in Ue. rewrite (IH Ue). split; [intro; constructor; assumption|]. intro H. inversion H. assumption.
  - cbn [PreferFind.filters]. split; [congruence|]. intro H. inversion H.
Qed.
Lemma first_iff consts a : names_zero number_name bigint_name -> all_unshadowed consts -> access_unshadowed a ->
  first_element parse_float number_name bigint_name consts a = true <-> first_of own number_name bigint_name consts a.
Proof.
  intros NZ U [_ Ua]. destruct a as [o oa index r|o oa oc m args r]; cbn [first_element first_of].
  - pose proof (static_iff consts index) as SI. split.
    + intro H. apply andb_prop in H. destruct H as [H1 H2]. split; [destruct oa; [discriminate|reflexivity]|].
      destruct (get_static consts index) as [v|] eqn:G; [|discriminate]. exists v. split; [apply SI; auto|]. apply member_zero; assumption.
    + intros [-> (v & Ev & K)]. apply SI in Ev; [|assumption..]. rewrite Ev. cbn [negb andb]. apply member_zero; assumption.
  - destruct Ua as [Um Ua]. pose proof (is_member_iff consts m (b "at") U Um) as M. destruct args as [|arg [|arg2 args]].
    + split; [discriminate|]. intros (_ & _ & x & v & E & _). discriminate.
    + inversion Ua; subst. pose proof (fun v => static_iff consts arg v U H1) as SI. split.
      * intro H. apply andb_prop in H. destruct H as [H Hv]. apply andb_prop in H. destruct H as [Ho Hm]. split; [destruct oc; [discriminate|reflexivity]|]. split; [apply M; exact Hm|].
        destruct (get_static consts arg) as [v|] eqn:G; [|discriminate]. exists arg, v. split; [reflexivity|]. split; [apply SI; reflexivity|]. apply at_zero. exact Hv.
      * intros (-> & Hm & x & v & E & Ev & Z). injection E as <-. apply M in Hm. rewrite Hm. apply SI in Ev. rewrite Ev. cbn [negb andb]. apply at_zero. exact Z.
    + split; [discriminate|]. intros (_ & _ & x & v & E & _). discriminate.
Qed.

(** * Texts *)
Lemma filler_app f g : filler f -> filler g -> filler (f ++ g).
Proof.
  intros F G. induction F; simpl.
  - exact G.
  - constructor; assumption.
  - constructor; assumption.
  - rewrite <- app_assoc. simpl. apply FillerLine; assumption.
  - rewrite <- app_assoc. simpl. apply FillerBlock; assumption.
Qed.
Lemma skip_line_body n body e t : (forall c, In c body -> ~ breaks_line c) -> breaks_line e -> skip_line n (body ++ e :: t) = (n + List.length body, e :: t).
Proof.
  revert n. induction body as [|c body IH]; intros n NB B.
  - simpl. rewrite Nat.add_0_r. destruct B as [-> | ->]; reflexivity.
  - cbn [app skip_line]. assert (Ascii.eqb c "010" || Ascii.eqb c "013" = false) as ->.
    { apply not_true_is_false. intro X. apply (NB c (or_introl eq_refl)). unfold breaks_line. apply orb_prop in X. destruct X as [X|X]; apply Ascii.eqb_eq in X; auto. }
    rewrite IH; [|intros; apply NB; right; assumption|exact B]. f_equal. simpl. lia.
Qed.
Lemma skip_block_step n c d r : skip_block n (c :: d :: r) = if Ascii.eqb c "*" && Ascii.eqb d "/" then (n + 2, r) else skip_block (S n) (d :: r).
Proof. reflexivity. Qed.
Lemma skip_block_body n body t : no_end body -> skip_block n (body ++ "*"%char :: "/"%char :: t) = (n + List.length body + 2, t).
Proof.
  revert n. induction body as [|c body IH]; intros n NE.
  - simpl. f_equal. lia.
  - assert (NE' : no_end body). { intros x y E. apply (NE (c :: x) y). simpl. rewrite E. reflexivity. }
    specialize (IH (S n) NE').
    assert (X : exists d r, body ++ "*"%char :: "/"%char :: t = d :: r /\ (c = "*"%char -> d <> "/"%char)).
    { destruct body as [|d body]; [exists "*"%char, ("/"%char :: t); split; [reflexivity|intros _; discriminate]|].
      exists d, (body ++ "*"%char :: "/"%char :: t). split; [reflexivity|]. intros -> ->. apply (NE [] body). reflexivity. }
    destruct X as (d & r & E & N). cbn [app]. rewrite E in *. rewrite skip_block_step.
    assert (Ascii.eqb c "*" && Ascii.eqb d "/" = false) as ->.
    { apply not_true_is_false. intro X. apply andb_prop in X. destruct X as [X1 X2]. apply Ascii.eqb_eq in X1, X2. apply N; assumption. }
    rewrite IH. f_equal. simpl. lia.
Qed.
Lemma start_filler f : filler f -> forall fuel n tail, List.length f <= fuel -> exists fuel', fuel <= fuel' + List.length f /\ access_start fuel n (f ++ tail) = access_start fuel' (n + List.length f) tail.
Proof.
  induction 1 as [|c t W F IH|t F IH|body e t NB B F IH|body t NE F IH]; intros fuel n tail L.
  - exists fuel. simpl. rewrite !Nat.add_0_r. split; [lia|reflexivity].
  - simpl in L. destruct fuel as [|fuel]; [lia|]. destruct (IH fuel (S n) tail) as (fuel' & A & E); [lia|]. exists fuel'. simpl List.length. split; [lia|].
    cbn [app access_start]. rewrite space_white, W, E. f_equal. lia.
  - simpl in L. destruct fuel as [|fuel]; [lia|]. destruct (IH fuel (S n) tail) as (fuel' & A & E); [lia|]. exists fuel'. simpl List.length. split; [lia|].
    cbn [app access_start]. change (space ")") with false. cbv iota.
    change (Ascii.eqb ")" "/") with false. change (Ascii.eqb ")" ".") with false. change (Ascii.eqb ")" "[") with false. cbn [andb orb].
    destruct (t ++ tail) as [|d r]; (rewrite E; f_equal; lia).
  - simpl in L. rewrite app_length in L. simpl in L. destruct fuel as [|fuel]; [lia|].
    destruct (IH fuel (n + 2 + List.length body) tail) as (fuel' & A & E); [simpl; lia|]. exists fuel'. simpl List.length in *. rewrite app_length. simpl List.length. split; [lia|].
    cbn [app access_start]. change (space "/") with false. change (Ascii.eqb "/" "/") with true. cbn [andb].
    rewrite <- app_assoc. cbn [app]. rewrite skip_line_body by assumption. cbn [app] in E. rewrite E. f_equal. lia.
  - simpl in L. rewrite app_length in L. simpl in L. destruct fuel as [|fuel]; [lia|].
    destruct (IH fuel (n + 2 + List.length body + 2) tail) as (fuel' & A & E); [simpl; lia|]. exists fuel'. simpl List.length in *. rewrite app_length. simpl List.length. split; [lia|].
    cbn [app access_start]. change (space "/") with false. change (Ascii.eqb "/" "/") with true. change (Ascii.eqb "*" "/") with false. change (Ascii.eqb "*" "*") with true. cbn [andb].
    rewrite <- app_assoc. cbn [app]. rewrite skip_block_body by assumption. rewrite E. f_equal. lia.
Qed.
Definition begins_access (c : ascii) : Prop := c = "."%char \/ c = "["%char.
Lemma start_access fuel n c r : begins_access c -> access_start (S fuel) n (c :: r) = Some n.
Proof. intros [-> | ->]; destruct r; reflexivity. Qed.
Lemma start_question fuel n c r : begins_access c -> access_start (S (S fuel)) n ("?"%char :: c :: r) = Some (S n).
Proof. intro B. rewrite <- (start_access fuel (S n) c r B). destruct B as [-> | ->]; reflexivity. Qed.
Lemma inner_split e : closed e -> exists x f, text e = x ++ f /\ List.length x = inner_length e /\ filler f.
Proof.
  induction e as [o g om oc t m before name after|l t e IH|c t a IHa u d IHd|o e IH c|n t]; intro C.
  1,2,3,5: (eexists; exists []; rewrite app_nil_r; split; [reflexivity|]; split; [reflexivity|constructor]).
  destruct C as [Ce Cc]. destruct (IH Ce) as (x & f & E & L & F). exists (o ++ x), (f ++ c). simpl. rewrite E. split; [rewrite !app_assoc; reflexivity|]. split; [rewrite app_length, L; reflexivity|apply filler_app; assumption].
Qed.
(** The access: white space, comments, a question mark or none, a dot or a bracket. *)
Lemma start_found a f q c r : closed (object a) -> rest a = f ++ q ++ c :: r -> filler f -> (q = [] \/ q = ["?"%char]) -> begins_access c ->
  access_start (S (List.length (access_text a))) (inner_length (object a)) (skipn (inner_length (object a)) (access_text a)) = Some (List.length (text (object a)) + List.length f + List.length q).
Proof.
  intros C E F Q B. destruct (inner_split (object a) C) as (x & g & Et & L & G). unfold access_text. rewrite E, Et, <- L.
  rewrite <- app_assoc. rewrite skipn_app, skipn_all, Nat.sub_diag. cbn [skipn app].
  rewrite (app_assoc g f). pose proof (filler_app g f G F) as GF.
  destruct (start_filler (g ++ f) GF (S (List.length (x ++ (g ++ f) ++ q ++ c :: r))) (List.length x) (q ++ c :: r)) as (fuel' & A & ->).
  { rewrite !app_length. lia. }
  rewrite !app_length in A. simpl in A.
  destruct Q as [-> | ->].
  - destruct fuel' as [|fuel']; [simpl in A; lia|]. cbn [app]. rewrite start_access by exact B. rewrite !app_length. simpl. f_equal. lia.
  - destruct fuel' as [|[|fuel']]; [simpl in A; lia..|]. cbn [app]. rewrite start_question by exact B. rewrite !app_length. simpl. f_equal. lia.
Qed.
Lemma reported_iff consts a f q c r : names_zero number_name bigint_name -> all_unshadowed consts -> access_unshadowed a ->
  closed (object a) -> rest a = f ++ q ++ c :: r -> filler f -> (q = [] \/ q = ["?"%char]) -> begins_access c ->
  check consts a <> None <-> first_of own number_name bigint_name consts a /\ all_filters own number_name bigint_name consts (object a).
Proof.
  intros NZ U Ua C E F Q B. rewrite <- (first_iff consts a NZ U Ua). rewrite <- (filters_iff consts (object a) U (proj1 Ua) 0).
  unfold PreferFind.check. destruct (first_element parse_float number_name bigint_name consts a); cbn [negb]; [|split; [congruence|intros [H _]; discriminate]].
  destruct (filters consts 0 (object a)) as [|x l]; [split; [congruence|intros [_ H]; congruence]|].
  pose proof (start_found a f q c r C E F Q B) as SF. cbv zeta. rewrite SF.
  split; [intros _; split; [reflexivity|discriminate]|discriminate].
Qed.
Definition renamed (p : nat * nat * bool) : nat * nat * bstr := (fst p, if snd p then b """find""" else b "find").
Lemma skipn_add {A} n m (l : list A) : skipn (n + m) l = skipn m (skipn n l).
Proof. revert l. induction n as [|n IH]; intros [|x l]; simpl; try reflexivity; [destruct m; reflexivity|apply IH]. Qed.
Lemma firstn_exact {A} (x y : list A) n : n = List.length x -> firstn n (x ++ y) = x.
Proof. intros ->. rewrite firstn_app, Nat.sub_diag, firstn_all. simpl. apply app_nil_r. Qed.
Lemma skipn_exact {A} (x y : list A) n : n = List.length x -> skipn n (x ++ y) = y.
Proof. intros ->. rewrite skipn_app, Nat.sub_diag, skipn_all. reflexivity. Qed.
Lemma edited_filters consts e : forall at_, filters consts at_ e <> [] -> forall p pre post more, p + List.length pre = at_ ->
  exists hd u q, find_text e = hd ++ u /\ q + List.length u = at_ + List.length (text e) /\
    edited p (pre ++ text e ++ post) (map renamed (filters consts at_ e) ++ more) = pre ++ hd ++ edited q (u ++ post) more.
Proof.
  induction e as [o g om oc t m before name after|l t e IH|c t a IHa u d IHd|o e IH c|n t]; intros at_ NE p pre post more P.
  - cbn [PreferFind.filters text find_text] in NE |- *. destruct oc; [congruence|]. destruct (is_member consts m (b "filter")); [|cbn [PreferFind.filters negb] in NE; congruence]. destruct (is_arrayish t); [|cbn [PreferFind.filters negb] in NE; congruence].
    cbn [negb map app edited renamed fst snd].
    set (new := match m with ByName _ => b "find" | ByExpression _ => b """find""" end).
    exists (before ++ new), after, (at_ + List.length before + List.length name). split; [rewrite app_assoc; reflexivity|]. split; [rewrite !app_length; lia|].
    assert (T : pre ++ (before ++ name ++ after) ++ post = (pre ++ before) ++ name ++ after ++ post) by (rewrite <- !app_assoc; reflexivity). rewrite T. clear T.
    rewrite firstn_exact by (rewrite app_length; lia).
    replace (at_ + List.length before + List.length name - p) with (List.length (pre ++ before) + List.length name) by (rewrite app_length; lia).
    rewrite skipn_add. rewrite skipn_exact by reflexivity. rewrite skipn_exact by reflexivity.
    unfold new. destruct m; simpl; rewrite <- !app_assoc; reflexivity.
  - cbn [PreferFind.filters text find_text] in NE |- *. destruct (IH (at_ + List.length t) NE p (pre ++ t) post more) as (hd & v & q & E1 & E2 & E3); [rewrite app_length; lia|].
    exists (t ++ hd), v, q. rewrite E1. split; [rewrite app_assoc; reflexivity|]. split; [rewrite app_length; lia|].
    repeat rewrite <- app_assoc in E3. repeat rewrite <- app_assoc. exact E3.
  - cbn [PreferFind.filters text find_text] in NE |- *.
    destruct (filters consts (at_ + List.length t) a) as [|x la] eqn:Ea; [congruence|].
    destruct (filters consts (at_ + List.length t + List.length (text a) + List.length u) d) as [|y ld] eqn:Ed; [congruence|].
    assert (NEa : filters consts (at_ + List.length t) a <> []) by congruence.
    assert (NEd : filters consts (at_ + List.length t + List.length (text a) + List.length u) d <> []) by congruence.
    destruct (IHa (at_ + List.length t) NEa p (pre ++ t) (u ++ text d ++ post) (map renamed (y :: ld) ++ more)) as (hd & v & q & E1 & E2 & E3); [rewrite app_length; lia|].
    destruct (IHd _ NEd q (v ++ u) post more) as (hd' & v' & q' & E1' & E2' & E3'); [rewrite app_length; lia|].
    rewrite Ea in E3. rewrite Ed in E3'.
    exists (t ++ hd ++ v ++ u ++ hd'), v', q'. rewrite E1, E1'. split; [rewrite <- !app_assoc; reflexivity|]. split; [rewrite !app_length; lia|].
    change (x :: la ++ y :: ld) with ((x :: la) ++ y :: ld). rewrite map_app. repeat rewrite <- app_assoc in E3. repeat rewrite <- app_assoc in E3'. repeat rewrite <- app_assoc. rewrite E3. rewrite E3'. reflexivity.
  - cbn [PreferFind.filters text find_text] in NE |- *. destruct (IH (at_ + List.length o) NE p (pre ++ o) (c ++ post) more) as (hd & v & q & E1 & E2 & E3); [rewrite app_length; lia|].
    exists (o ++ hd), (v ++ c), q. rewrite E1. split; [rewrite <- !app_assoc; reflexivity|]. split; [rewrite !app_length; lia|].
    repeat rewrite <- app_assoc in E3. repeat rewrite <- app_assoc. exact E3.
  - cbn [PreferFind.filters negb] in NE. congruence.
Qed.
Lemma text_right consts a edits f q c r : check consts a = Some edits ->
  closed (object a) -> rest a = f ++ q ++ c :: r -> filler f -> (q = [] \/ q = ["?"%char]) -> begins_access c ->
  edited 0 (access_text a) edits = find_text (object a) ++ f ++ q.
Proof.
  intros H C E F Q B. unfold PreferFind.check in H. destruct (first_element parse_float number_name bigint_name consts a); [|discriminate]. cbn [negb] in H.
  pose proof (start_found a f q c r C E F Q B) as SF. cbv zeta in H.
  destruct (filters consts 0 (object a)) as [|x l] eqn:Ef; [discriminate|]. rewrite SF in H.
  remember (x :: l) as fl.
  set (cut := ((List.length (text (object a)) + List.length f + List.length q, List.length (access_text a)), @nil ascii)) in *.
  assert (edits = map renamed fl ++ [cut]) as -> by (injection H as <-; reflexivity).
  assert (NE : filters consts 0 (object a) <> []) by (rewrite Ef; subst; discriminate).
  destruct (edited_filters consts (object a) 0 NE 0 [] (rest a) [cut] eq_refl) as (hd & u & p & E1 & E2 & E3).
  rewrite Ef in E3. cbn [app] in E3. change (access_text a) with (text (object a) ++ rest a). rewrite E3. unfold cut. cbn [edited]. rewrite E1. rewrite <- app_assoc. f_equal.
  assert (T : u ++ rest a = (u ++ f ++ q) ++ c :: r) by (rewrite E; repeat rewrite <- app_assoc; reflexivity). rewrite T.
  rewrite firstn_exact; [|rewrite !app_length; simpl in E2; lia].
  rewrite skipn_all2; [rewrite app_nil_r; reflexivity|].
  unfold access_text. rewrite E. rewrite !app_length. simpl in *. lia.
Qed.
End Proofs.

(** * Meaning *)
Section Meaning.
Context {St V X : Type} (undefined : V) (type_error : X) (w : world St V X).
Lemma filter_find i l p : ~ In None l -> nth 0 (js_filter i l p) undefined = js_find undefined i l p.
Proof.
  revert i. induction l as [|[v|] l IH]; intros i D; simpl; [reflexivity| |exfalso; apply D; left; reflexivity].
  destruct (p v i); [reflexivity|]. apply IH. intro; apply D; right; assumption.
Qed.
Inductive same_result : result (X := X) (list V) -> result (X := X) V -> Prop :=
| SThrow x : same_result (RThrow x) (RThrow x)
| SShort : same_result RShort RShort
| SUndefined : same_result RUndefined RUndefined
| SVal l v : nth 0 l undefined = v -> same_result (RVal l) (RVal v).
Lemma ended_same r r' : same_result r r' -> same_result (ended r) (ended r').
Proof. intros []; simpl; constructor; assumption. Qed.
Lemma run_same e : dense w -> forall s, fst (run type_error w (js_filter 0) e s) = fst (run type_error w (js_find undefined 0) e s) /\
  same_result (snd (run type_error w (js_filter 0) e s)) (snd (run type_error w (js_find undefined 0) e s)).
Proof.
  intro D. induction e as [o g om oc t m before name after|l t e IH|c t a IHa u d IHd|o e IH c|n t]; intro s; simpl.
  - destruct (obj_of w o s) as [s1 [x| | |l]] eqn:Eo; simpl; try (split; [reflexivity|constructor]).
    + split; [reflexivity|]. destruct om; constructor.
    + destruct (args_of w g s1) as [s2 [x| |p]]; simpl; split; try reflexivity; constructor. apply filter_find. eapply D. exact Eo.
  - destruct (left_of w l s) as [s1 [x|]]; [split; [reflexivity|constructor]|]. destruct (IH s1) as [A B].
    destruct (run type_error w (js_filter 0) e s1), (run type_error w (js_find undefined 0) e s1). simpl in *. split; [exact A|apply ended_same; exact B].
  - destruct (test_of w c s) as [s1 [x|v]]; [split; [reflexivity|constructor]|].
    destruct v; [destruct (IHa s1) as [A B]|destruct (IHd s1) as [A B]]; destruct (run type_error w (js_filter 0) _ s1), (run type_error w (js_find undefined 0) _ s1); simpl in *; (split; [exact A|apply ended_same; exact B]).
  - destruct (IH s) as [A B]. destruct (run type_error w (js_filter 0) e s), (run type_error w (js_find undefined 0) e s). simpl in *. split; [exact A|apply ended_same; exact B].
  - split; [reflexivity|constructor].
Qed.
Lemma meaning e s : dense w -> no_end_inside type_error w e -> run_filter_first undefined type_error w e s = run_find undefined type_error w e s.
Proof.
  intros D N. destruct (run_same e D s) as [A B]. specialize (N s). unfold run_filter_first, run_find.
  destruct (run type_error w (js_filter 0) e s) as [s1 r1], (run type_error w (js_find undefined 0) e s) as [s2 r2]. simpl in *. subst s2. f_equal.
  inversion B; subst; simpl; try reflexivity. congruence.
Qed.
End Meaning.
