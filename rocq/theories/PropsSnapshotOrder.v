(** C34, first part: the order of snapshot keys. *)
From Coq Require Import Bool List ZArith Lia.
From Verif Require Import Snapshot.
Import ListNotations.
Open Scope Z_scope.

(** ** Specification *)

(** A key is read as a list of numbers and other bytes; a number has a value and a width. *)
Inductive token := Number (value : Z) (width : Z) | Byte (c : Z).
Fixpoint value (d : list Z) : Z := match d with c :: d' => (c - 48) * 10 ^ Z.of_nat (length d') + value d' | [] => 0 end.
Definition digit (c : Z) : Prop := 48 <= c <= 57.
Inductive tokens : list Z -> list token -> Prop :=
| tk_nil : tokens [] []
| tk_byte c s l : ~ digit c -> tokens s l -> tokens (c :: s) (Byte c :: l)
| tk_number d s l : d <> [] -> Forall digit d -> (forall c s', s = c :: s' -> ~ digit c) -> tokens s l ->
    tokens (d ++ s) (Number (value d) (Z.of_nat (length d)) :: l).
(** Numbers are ordered by value, then by width; other bytes by their code; the digits' codes decide
    between a number and another byte. *)
Definition before (x y : token) : Prop :=
  match x, y with
  | Number v w, Number v' w' => v < v' \/ (v = v' /\ w < w')
  | Byte c, Byte d => c < d
  | Byte c, Number _ _ => c < 48
  | Number _ _, Byte c => 57 < c
  end.
Inductive precedes : list token -> list token -> Prop :=
| pr_nil x l : precedes [] (x :: l)
| pr_here x y l l' : before x y -> precedes (x :: l) (y :: l')
| pr_next x l l' : precedes l l' -> precedes (x :: l) (x :: l').

(** ** Digit runs *)
Lemma is_digit_spec c : is_digit c = true <-> digit c.
Proof. unfold is_digit, digit. rewrite andb_true_iff, !Z.leb_le. lia. Qed.
Lemma is_digit_false c : is_digit c = false <-> ~ digit c.
Proof. rewrite <- is_digit_spec. destruct (is_digit c); split; congruence. Qed.
Lemma value_bounds d : Forall digit d -> 0 <= value d < 10 ^ Z.of_nat (length d).
Proof.
  induction 1 as [|c d D F IH]; [cbn; lia|]. cbn [value length]. rewrite Nat2Z.inj_succ, Z.pow_succ_r by lia.
  unfold digit in D. set (p := 10 ^ Z.of_nat (length d)) in *. assert ((c - 48) * p <= 9 * p) by (apply Z.mul_le_mono_nonneg_r; lia).
  assert (0 <= (c - 48) * p) by (apply Z.mul_nonneg_nonneg; lia). lia.
Qed.
Lemma less_value a : forall b, Forall digit a -> Forall digit b -> length a = length b ->
  (less a b = true <-> value a < value b) /\ (value a = value b -> a = b).
Proof.
  induction a as [|c a IH]; intros [|d b] FA FB L; try discriminate; [cbn; split; [split; [discriminate|lia]|auto]|].
  inversion FA as [|? ? DA FA']; inversion FB as [|? ? DB FB']; subst. injection L as L. destruct (IH b FA' FB' L) as [I1 I2].
  pose proof (value_bounds a FA') as BA. pose proof (value_bounds b FB') as BB. cbn [less value]. rewrite L in *. set (p := 10 ^ Z.of_nat (length b)) in *.
  destruct (Z.eqb_spec c d) as [->|N].
  - split; [rewrite I1; lia|]. intros E. f_equal. apply I2. lia.
  - rewrite Z.ltb_lt. destruct (Z.lt_total c d) as [H|[H|H]]; [|contradiction|].
    + assert ((c - 48 + 1) * p <= (d - 48) * p) by (apply Z.mul_le_mono_nonneg_r; lia). split; [split; lia|lia].
    + assert ((d - 48 + 1) * p <= (c - 48) * p) by (apply Z.mul_le_mono_nonneg_r; lia). split; [split; lia|lia].
Qed.
Definition norm (a : list Z) : list Z := match trim_left 48 a with [] => [48] | s => s end.
Lemma trim_left_digits a : Forall digit a -> Forall digit (trim_left 48 a) /\ value (trim_left 48 a) = value a.
Proof.
  induction 1 as [|c a D F [I1 I2]]; [split; [constructor|reflexivity]|]. cbn [trim_left]. destruct (Z.eqb_spec c 48) as [->|N]; [|split; [constructor; auto|reflexivity]].
  split; [auto|]. rewrite I2. cbn [value]. lia.
Qed.
Lemma trim_left_head c a d s : trim_left c a = d :: s -> d <> c.
Proof. induction a as [|x a IH]; cbn; [discriminate|]. destruct (Z.eqb_spec x c); [auto|]. intros [= <- <-]. auto. Qed.
Lemma norm_spec a : Forall digit a -> Forall digit (norm a) /\ value (norm a) = value a /\ (1 <= length (norm a))%nat /\
  ((2 <= length (norm a))%nat -> 10 ^ (Z.of_nat (length (norm a)) - 1) <= value (norm a)).
Proof.
  intros F. destruct (trim_left_digits a F) as [I1 I2]. unfold norm. destruct (trim_left 48 a) as [|c s] eqn:E.
  - split; [constructor; [unfold digit; lia|constructor]|]. split; [rewrite <- I2; reflexivity|]. split; [cbn; lia|cbn [length]; lia].
  - split; [auto|]. split; [auto|]. split; [cbn; lia|]. intros _. pose proof (trim_left_head 48 a c s E) as NZ. inversion I1 as [|? ? D F']; subst.
    pose proof (value_bounds s F'). cbn [value length]. rewrite Nat2Z.inj_succ. replace (Z.succ (Z.of_nat (length s)) - 1) with (Z.of_nat (length s)) by lia.
    unfold digit in D. set (p := 10 ^ Z.of_nat (length s)) in *. assert (1 * p <= (c - 48) * p) by (apply Z.mul_le_mono_nonneg_r; lia). lia.
Qed.
Lemma longer_larger a b : Forall digit a -> Forall digit b -> (length (norm a) < length (norm b))%nat -> value a < value b.
Proof.
  intros FA FB L. destruct (norm_spec a FA) as (A1 & A2 & A3 & A4), (norm_spec b FB) as (B1 & B2 & B3 & B4). rewrite <- A2, <- B2.
  pose proof (value_bounds _ A1). assert (10 ^ Z.of_nat (length (norm a)) <= 10 ^ (Z.of_nat (length (norm b)) - 1)) by (apply Z.pow_le_mono_r; lia).
  assert (X : (2 <= length (norm b))%nat) by lia. specialize (B4 X). lia.
Qed.
Lemma compare_runs a b : Forall digit a -> Forall digit b ->
  compare_digit_runs a b =
    match value a ?= value b with
    | Lt => -1 | Gt => 1
    | Eq => match Z.of_nat (length a) ?= Z.of_nat (length b) with Lt => -1 | Gt => 1 | Eq => 0 end
    end.
Proof.
  intros FA FB. unfold compare_digit_runs. fold (norm a). fold (norm b). unfold len.
  destruct (norm_spec a FA) as (A1 & A2 & A3 & A4), (norm_spec b FB) as (B1 & B2 & B3 & B4).
  destruct (Z.eqb_spec (Z.of_nat (length (norm a))) (Z.of_nat (length (norm b)))) as [E|N]; cbn [negb].
  - apply Nat2Z.inj in E. destruct (less_value _ _ A1 B1 E) as [L1 L2]. rewrite A2, B2 in *. unfold same. destruct (list_eq_dec Z.eq_dec (norm a) (norm b)) as [EQ|NQ]; cbn [negb].
    + assert (EV : value a = value b) by congruence. rewrite EV, Z.compare_refl.
      destruct (Z.compare_spec (Z.of_nat (length a)) (Z.of_nat (length b))) as [H|H|H].
      * rewrite H, Z.eqb_refl. reflexivity.
      * destruct (Z.eqb_spec (Z.of_nat (length a)) (Z.of_nat (length b))); [lia|]. cbn [negb]. apply Z.ltb_lt in H. now rewrite H.
      * destruct (Z.eqb_spec (Z.of_nat (length a)) (Z.of_nat (length b))); [lia|]. cbn [negb]. destruct (Z.ltb_spec (Z.of_nat (length a)) (Z.of_nat (length b))); [lia|reflexivity].
    + destruct (Z.compare_spec (value a) (value b)) as [H|H|H]; [destruct (NQ (L2 H))| |].
      * apply L1 in H. now rewrite H.
      * destruct (less (norm a) (norm b)); [|reflexivity]. assert (value a < value b) by now apply L1. lia.
  - destruct (Z.ltb_spec (Z.of_nat (length (norm a))) (Z.of_nat (length (norm b)))) as [H|H].
    + assert (V : value a < value b) by (apply longer_larger; auto; lia). apply Z.compare_lt_iff in V. now rewrite V.
    + assert (V : value b < value a) by (apply longer_larger; auto; lia). apply Z.compare_gt_iff in V. now rewrite V.
Qed.
Lemma digit_run_spec d s : Forall digit d -> (forall c s', s = c :: s' -> ~ digit c) -> digit_run (d ++ s) = (d, s).
Proof.
  intros F H. induction F as [|c d D F IH].
  - cbn. destruct s as [|c s]; [reflexivity|]. cbn. rewrite (proj2 (is_digit_false c) (H c s eq_refl)). reflexivity.
  - cbn. rewrite (proj2 (is_digit_spec c) D), IH. reflexivity.
Qed.

(** ** Tokens *)
Lemma tokens_digit c s l : tokens (c :: s) l -> digit c ->
  exists d t m, c :: s = d ++ t /\ d <> [] /\ Forall digit d /\ (forall x s', t = x :: s' -> ~ digit x) /\ tokens t m /\ l = Number (value d) (Z.of_nat (length d)) :: m.
Proof.
  intros T D. remember (c :: s) as w eqn:E. destruct T as [|x w l N T|d t m N F H T]; [discriminate|injection E as -> ->; contradiction|]. exists d, t, m. auto 8.
Qed.
Lemma tokens_other c s l : tokens (c :: s) l -> ~ digit c -> exists m, l = Byte c :: m /\ tokens s m.
Proof.
  intros T D. remember (c :: s) as w eqn:E. destruct T as [|x w l N T|d t m N F H T]; [discriminate|injection E as -> ->; eauto|]. destruct d as [|x d]; [destruct N; reflexivity|]. injection E as -> _. inversion F; subst. contradiction.
Qed.
Lemma tokens_nil l : tokens [] l -> l = [].
Proof. intros T. remember [] as s eqn:E. destruct T as [|c s l N T|d s l N F H T]; [auto|discriminate|]. destruct d; [destruct N; reflexivity|discriminate]. Qed.
Lemma digit_dec c : {digit c} + {~ digit c}.
Proof. destruct (is_digit c) eqn:E; [left; now apply is_digit_spec|right; now apply is_digit_false]. Qed.
Lemma run_exists s : exists d t, s = d ++ t /\ Forall digit d /\ (forall c s', t = c :: s' -> ~ digit c).
Proof.
  induction s as [|c s (d & t & E & F & H)]; [exists [], []; split; [reflexivity|]; split; [constructor|discriminate]|].
  destruct (digit_dec c) as [D|D]; [exists (c :: d), t; subst; split; [reflexivity|]; split; [constructor; auto|auto]|].
  exists [], (c :: s). split; [reflexivity|]. split; [constructor|]. intros x s' [= <- <-]. auto.
Qed.
Lemma tokens_exists n : forall s, (length s <= n)%nat -> exists l, tokens s l.
Proof.
  induction n as [|n IH]; intros s L.
  - destruct s; [exists []; constructor|cbn in L; lia].
  - destruct s as [|c s]; [exists []; constructor|]. destruct (digit_dec c) as [D|D].
    + destruct (run_exists (c :: s)) as (d & t & E & F & H). destruct d as [|x d]; [destruct t as [|y t]; [discriminate|]; injection E as <- <-; destruct (H c s eq_refl D)|].
      destruct (IH t) as [l T]. { assert (X : length (c :: s) = length ((x :: d) ++ t)) by now rewrite E. rewrite app_length in X. cbn in *. lia. }
      exists (Number (value (x :: d)) (Z.of_nat (length (x :: d))) :: l). rewrite E. constructor; auto. discriminate.
    + destruct (IH s) as [l T]; [cbn in L; lia|]. exists (Byte c :: l). now constructor.
Qed.
Lemma tokens_unique s l l' : tokens s l -> tokens s l' -> l = l'.
Proof.
  intros T. revert l'. induction T as [|c s l N T IH|d s l N F H T IH]; intros l' T'.
  - symmetry. now apply tokens_nil.
  - destruct (tokens_other _ _ _ T' N) as (m & -> & T2). f_equal. auto.
  - destruct d as [|c d]; [destruct N; reflexivity|]. inversion F as [|? ? D F']; subst. destruct (tokens_digit c (d ++ s) l' T' D) as (d2 & s2 & m & E & N2 & F2 & H2 & T2 & ->).
    assert (X : digit_run ((c :: d) ++ s) = digit_run (d2 ++ s2)) by (cbn [app]; now rewrite E). rewrite !digit_run_spec in X by auto. injection X as <- <-. f_equal. auto.
Qed.
(** Every key is read in exactly one way. *)
Theorem C34_key_is_read_once : forall s, exists l, tokens s l /\ forall l', tokens s l' -> l' = l.
Proof. intros s. destruct (tokens_exists (length s) s (le_n _)) as [l T]. exists l. split; [auto|]. intros l' T'. eapply tokens_unique; eauto. Qed.
Print Assumptions C34_key_is_read_once.

(** ** The order *)
Lemma before_irrefl x : ~ before x x.
Proof. destruct x; cbn; lia. Qed.
Lemma before_trans x y z : before x y -> before y z -> before x z.
Proof. destruct x, y, z; cbn; lia. Qed.
Lemma precedes_irrefl l : ~ precedes l l.
Proof. induction l as [|x l IH]; intros H; inversion H; subst; [eapply before_irrefl; eauto|auto]. Qed.
Lemma precedes_trans a b c : precedes a b -> precedes b c -> precedes a c.
Proof.
  intros H. revert c. induction H as [x l|x y l l' B|x l l' P IH]; intros c H2; inversion H2; subst; try (constructor; fail).
  - apply pr_here. eapply before_trans; eauto.
  - now apply pr_here.
  - now apply pr_here.
  - apply pr_next. auto.
Qed.

Lemma compare_loop_spec fuel : forall la lb a b ta tb, tokens a ta -> tokens b tb -> (length a < fuel)%nat -> la - len a = lb - len b ->
  (compare_loop fuel la lb a b = Some (-1) /\ precedes ta tb) \/ (compare_loop fuel la lb a b = Some 1 /\ precedes tb ta) \/ (compare_loop fuel la lb a b = Some 0 /\ a = b).
Proof.
  induction fuel as [|fuel IH]; intros la lb a b ta tb TA TB L E; [lia|]. destruct a as [|c a].
  - apply tokens_nil in TA. subst ta. cbn [compare_loop]. unfold len in E. cbn [length] in E. destruct b as [|d b].
    + right. right. cbn in E. destruct (Z.ltb_spec la lb); [lia|]. destruct (Z.ltb_spec lb la); [lia|]. auto.
    + left. cbn [length] in E. destruct (Z.ltb_spec la lb); [|lia]. split; [auto|]. destruct (digit_dec d) as [D|D].
      * destruct (tokens_digit _ _ _ TB D) as (? & ? & ? & _ & _ & _ & _ & _ & ->). constructor.
      * destruct (tokens_other _ _ _ TB D) as (m & -> & _). constructor.
  - destruct b as [|d b].
    + apply tokens_nil in TB. subst tb. cbn [compare_loop]. right. left. unfold len in E. cbn [length] in E. destruct (Z.ltb_spec la lb); [lia|]. destruct (Z.ltb_spec lb la); [|lia]. split; [auto|].
      destruct (digit_dec c) as [D|D].
      * destruct (tokens_digit _ _ _ TA D) as (? & ? & ? & _ & _ & _ & _ & _ & ->). constructor.
      * destruct (tokens_other _ _ _ TA D) as (m & -> & _). constructor.
    + cbn [compare_loop]. destruct (digit_dec c) as [DC|DC], (digit_dec d) as [DD|DD].
      * rewrite (proj2 (is_digit_spec c) DC), (proj2 (is_digit_spec d) DD). cbn [andb].
        destruct (tokens_digit _ _ _ TA DC) as (ra & sa & ma & EA & NA & FA & HA & TA' & ->). destruct (tokens_digit _ _ _ TB DD) as (rb & sb & mb & EB & NB & FB & HB & TB' & ->).
        rewrite EA, EB, !digit_run_spec by auto. rewrite compare_runs by auto.
        destruct (Z.compare_spec (value ra) (value rb)) as [V|V|V]; cbn [negb Z.eqb].
        -- destruct (Z.compare_spec (Z.of_nat (length ra)) (Z.of_nat (length rb))) as [W|W|W]; cbn [negb Z.eqb].
           ++ assert (LR : length ra = length rb) by now apply Nat2Z.inj. assert (RR : ra = rb) by (now apply (less_value ra rb FA FB LR)). subst rb.
              rewrite EA, EB in *. unfold len in E. rewrite !app_length in E. assert (LL : (length sa < fuel)%nat).
              { rewrite app_length in L. destruct ra; [destruct NA; reflexivity|]. cbn in L. lia. }
              destruct (IH la lb sa sb ma mb TA' TB' LL) as [[I P]|[[I P]|[I ->]]]; [unfold len; lia| | |].
              ** left. split; [auto|]. now apply pr_next.
              ** right. left. split; [auto|]. now apply pr_next.
              ** right. right. auto.
           ++ left. split; [auto|]. apply pr_here. unfold before. lia.
           ++ right. left. split; [auto|]. apply pr_here. unfold before. lia.
        -- left. split; [auto|]. apply pr_here. unfold before. lia.
        -- right. left. split; [auto|]. apply pr_here. unfold before. lia.
      * rewrite (proj2 (is_digit_spec c) DC), (proj2 (is_digit_false d) DD). cbn [andb].
        destruct (tokens_digit _ _ _ TA DC) as (ra & sa & ma & EA & NA & FA & HA & TA' & ->). destruct (tokens_other _ _ _ TB DD) as (mb & -> & _).
        unfold digit in *. destruct (Z.eqb_spec c d); [lia|]. cbn [negb]. destruct (Z.ltb_spec c d); [left|right; left]; (split; [auto|]); apply pr_here; unfold before; lia.
      * rewrite (proj2 (is_digit_spec d) DD), (proj2 (is_digit_false c) DC). cbn [andb].
        destruct (tokens_digit _ _ _ TB DD) as (ra & sa & ma & EA & NA & FA & HA & TA' & ->). destruct (tokens_other _ _ _ TA DC) as (mb & -> & _).
        unfold digit in *. destruct (Z.eqb_spec c d); [lia|]. cbn [negb]. destruct (Z.ltb_spec c d); [left|right; left]; (split; [auto|]); apply pr_here; unfold before; lia.
      * rewrite (proj2 (is_digit_false c) DC). cbn [andb]. destruct (tokens_other _ _ _ TA DC) as (ma & -> & TA'). destruct (tokens_other _ _ _ TB DD) as (mb & -> & TB').
        destruct (Z.eqb_spec c d) as [->|N]; cbn [negb].
        -- unfold len in E. cbn [length] in E, L. destruct (IH la lb a b ma mb TA' TB') as [[I P]|[[I P]|[I ->]]]; [lia|unfold len; lia| | |].
           ++ left. split; [auto|]. now apply pr_next.
           ++ right. left. split; [auto|]. now apply pr_next.
           ++ right. right. auto.
        -- destruct (Z.ltb_spec c d); [left|right; left]; (split; [auto|]); apply pr_here; unfold before; lia.
Qed.

(** The comparison of keys is the comparison of what they are read as: numbers by value (and by width when
    the values are equal), everything else by its bytes; it says 0 for equal keys only. *)
Theorem C34_order :
  forall a b ta tb, tokens a ta -> tokens b tb ->
    (compare_keys a b = Some (-1) <-> precedes ta tb) /\ (compare_keys a b = Some 1 <-> precedes tb ta) /\ (compare_keys a b = Some 0 <-> a = b).
Proof.
  intros a b ta tb TA TB. unfold compare_keys.
  assert (X : ~ (precedes ta tb /\ precedes tb ta)) by (intros [P Q]; exact (precedes_irrefl _ (precedes_trans _ _ _ P Q))).
  assert (Y : a = b -> ta = tb) by (intros ->; eapply tokens_unique; eauto).
  assert (Z1 : a = b -> ~ precedes ta tb /\ ~ precedes tb ta) by (intros EQ; rewrite (Y EQ); split; apply precedes_irrefl).
  destruct (compare_loop_spec (S (length a)) (len a) (len b) a b ta tb TA TB) as [[I P]|[[I P]|[I P]]]; [lia|lia| | |]; rewrite I.
  - split; [split; auto|]. split; [split; [discriminate|tauto]|]. split; [discriminate|]. intros Q. destruct (Z1 Q). contradiction.
  - split; [split; [discriminate|tauto]|]. split; [split; auto|]. split; [discriminate|]. intros Q. destruct (Z1 Q). contradiction.
  - destruct (Z1 P). split; [split; [discriminate|contradiction]|]. split; [split; [discriminate|contradiction]|]. split; auto.
Qed.
Print Assumptions C34_order.

(** It is a total order: three-valued, antisymmetric, transitive. *)
Theorem C34_total_order :
  (forall a b, compare_keys a b = Some (-1) \/ compare_keys a b = Some 0 \/ compare_keys a b = Some 1) /\
  (forall a b, compare_keys a b = Some 0 <-> a = b) /\
  (forall a b, compare_keys a b = Some (-1) <-> compare_keys b a = Some 1) /\
  (forall a b c, compare_keys a b = Some (-1) -> compare_keys b c = Some (-1) -> compare_keys a c = Some (-1)).
Proof.
  assert (T : forall s, exists l, tokens s l) by (intros s; exact (tokens_exists (length s) s (le_n _))).
  split; [|split; [|split]].
  - intros a b. destruct (T a) as [ta TA], (T b) as [tb TB]. unfold compare_keys. destruct (compare_loop_spec (S (length a)) (len a) (len b) a b ta tb TA TB) as [[I P]|[[I P]|[I P]]]; [lia|lia|auto|auto|auto].
  - intros a b. destruct (T a) as [ta TA], (T b) as [tb TB]. apply (C34_order a b ta tb TA TB).
  - intros a b. destruct (T a) as [ta TA], (T b) as [tb TB]. destruct (C34_order a b ta tb TA TB) as (A & _), (C34_order b a tb ta TB TA) as (_ & B & _). rewrite A, B. reflexivity.
  - intros a b c. destruct (T a) as [ta TA], (T b) as [tb TB], (T c) as [tc TC].
    destruct (C34_order a b ta tb TA TB) as (A & _), (C34_order b c tb tc TB TC) as (B & _), (C34_order a c ta tc TA TC) as (C & _). rewrite A, B, C. apply precedes_trans.
Qed.
Print Assumptions C34_total_order.

(** [x2], [x10], [x010], [x10a]: by number, then by width, then what follows. *)
Example C34_ex_order :
  compare_keys [120; 50] [120; 49; 48] = Some (-1) /\ compare_keys [120; 49; 48] [120; 48; 49; 48] = Some (-1) /\
  compare_keys [120; 49; 48] [120; 49; 48; 97] = Some (-1) /\ compare_keys [120; 48; 49; 48] [120; 49; 48; 97] = Some 1 /\
  tokens [120; 48; 49; 48] [Byte 120; Number 10 3].
Proof.
  repeat (split; [reflexivity|]). apply tk_byte; [unfold digit; lia|].
  apply (tk_number [48; 49; 48] []); [discriminate| |discriminate|constructor]. repeat (constructor; [unfold digit; lia|]). constructor.
Qed.
