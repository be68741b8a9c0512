(** Numbers for C50 (PropsTypeConversion.v): digits are read back, [~~] keeps 32 bits. *)
From Coq Require Import Bool List ZArith Lia.
From Verif Require Import Base Types Js.
Import ListNotations.
Open Scope Z_scope.

Definition step (acc : option Z) (d : Z) : option Z := match acc with Some n => if (48 <=? d) && (d <=? 57) then Some (10 * n + (d - 48)) else None | None => None end.
Lemma number_fold ds : ds <> [] -> number_of ds = fold_left step ds (Some 0).
Proof. destruct ds; [congruence|reflexivity]. Qed.
Lemma digits_ok : forall f n, 0 <= n -> n < 10 ^ Z.of_nat f -> (f > 0)%nat -> fold_left step (digits f n) (Some 0) = Some n /\ exists d ds, digits f n = d :: ds /\ 48 <= d <= 57.
Proof.
  induction f as [|f IH]; [lia|]. intros n N B _. cbn [digits].
  assert (M : 0 <= n mod 10 < 10) by (apply Z.mod_pos_bound; lia).
  assert (D : n = 10 * (n / 10) + n mod 10) by (apply Z.div_mod; lia).
  destruct (Z.ltb_spec n 10) as [SM|SM].
  - rewrite Z.mod_small by lia. cbn [app fold_left step]. rewrite (proj2 (Z.leb_le _ _)) by lia. rewrite (proj2 (Z.leb_le _ _)) by lia. cbn [andb]. split; [f_equal; lia|]. exists (48 + n), []. split; [reflexivity|lia].
  - assert (Q : 0 < n / 10) by (apply Z.div_str_pos; lia).
    assert (L : n / 10 < 10 ^ Z.of_nat f). { apply Z.div_lt_upper_bound; [lia|]. replace (10 * 10 ^ Z.of_nat f) with (10 ^ Z.of_nat (S f)); [lia|]. rewrite Nat2Z.inj_succ, Z.pow_succ_r by lia. reflexivity. }
    assert (F : (f > 0)%nat). { destruct f; [|lia]. cbn in L. lia. }
    destruct (IH (n / 10)) as (E & d & ds & P & H); try lia. split.
    + rewrite fold_left_app, E. cbn [fold_left step]. rewrite (proj2 (Z.leb_le _ _)) by lia. rewrite (proj2 (Z.leb_le _ _)) by lia. cbn [andb]. f_equal. lia.
    + rewrite P. cbn [app]. eauto.
Qed.
Lemma fuel_ok n : 0 <= n -> n < 10 ^ Z.of_nat (S (Z.to_nat (Z.log2 n))).
Proof.
  intros N. rewrite Nat2Z.inj_succ, Z2Nat.id by apply Z.log2_nonneg. assert (n < 2 ^ Z.succ (Z.log2 n)). { destruct (Z.eq_dec n 0) as [-> |X]; [reflexivity|]. apply Z.log2_spec. lia. }
  assert (2 ^ Z.succ (Z.log2 n) <= 10 ^ Z.succ (Z.log2 n)) by (apply Z.pow_le_mono_l; lia). lia.
Qed.
Lemma integer_of_text n : integer_of (integer_text n) = Some n.
Proof.
  unfold integer_text. destruct (Z.ltb_spec n 0) as [N|N].
  - destruct (digits_ok (S (Z.to_nat (Z.log2 (- n)))) (- n)) as (E & d & ds & P & H); [lia|apply fuel_ok; lia|lia|]. cbn [integer_of]. rewrite number_fold by (rewrite P; discriminate). rewrite E. cbn. f_equal. lia.
  - destruct (digits_ok (S (Z.to_nat (Z.log2 n))) n) as (E & d & ds & P & H); [lia|apply fuel_ok; lia|lia|].
    assert (X : integer_of (digits (S (Z.to_nat (Z.log2 n))) n) = number_of (digits (S (Z.to_nat (Z.log2 n))) n)).
    { rewrite P. unfold integer_of. destruct d as [|p|p]; try reflexivity. destruct p as [[[[[[p|p|]|[p|p|]|]|[[p|p|]|[p|p|]|]|]|[[[p|p|]|[p|p|]|]|[[p|p|]|[p|p|]|]|]|]|[[[[p|p|]|[p|p|]|]|[[p|p|]|[p|p|]|]|]|[[[p|p|]|[p|p|]|]|[[p|p|]|[p|p|]|]|]|]|]|p|]; try reflexivity; lia. }
    rewrite X, number_fold by (rewrite P; discriminate). exact E.
Qed.
Definition fits32 (n : Z) : Prop := - 2 ^ 31 <= n < 2 ^ 31.
Lemma int32_small n : fits32 n -> int32 n = n.
Proof. unfold fits32, int32. intros H. rewrite Z.mod_small by (change (2 ^ 32) with (2 * 2 ^ 31); lia). lia. Qed.
Lemma lnot_small n : fits32 n -> fits32 (Z.lnot n).
Proof. unfold fits32, Z.lnot. lia. Qed.
