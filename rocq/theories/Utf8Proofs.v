(** Proofs about UTF-8. *)
From Coq Require Import String Ascii Bool List ZArith Lia.
From Verif Require Import Base Utf8 JsText.
Import ListNotations.
Open Scope Z_scope.

Lemma bz_zb z : 0 <= z < 256 -> bz (zb z) = z.
Proof. intros H. unfold bz, zb. rewrite N_ascii_embedding by lia. lia. Qed.
Lemma zb_bz c : zb (bz c) = c.
Proof. unfold bz, zb. rewrite N2Z.id. apply ascii_N_embedding. Qed.
Lemma bz_range c : 0 <= bz c < 256.
Proof. unfold bz. pose proof (N_ascii_bounded c). lia. Qed.

Lemma runes_ascii s : forall t, Forall (fun c => bz c < 128) s -> runes (s ++ t) = map bz s ++ runes t.
Proof.
  induction s as [|c s IH]; intros t H; [reflexivity|]. inversion H as [|? ? H1 H2]; subst.
  cbn [app runes map]. rewrite (proj2 (Z.ltb_lt _ _) H1). cbn [app]. now rewrite IH.
Qed.

Ltac zdm := Z.to_euclidean_division_equations; lia.
Ltac dec_bool :=
  repeat match goal with
  | |- context[?a <? ?c] => destruct (Z.ltb_spec a c)
  | |- context[?a <=? ?c] => destruct (Z.leb_spec a c)
  | |- context[?a =? ?c] => destruct (Z.eqb_spec a c)
  end.

Lemma runes_enc c s : scalar c -> runes (enc c ++ s) = c :: runes s.
Proof.
  intros SC. unfold scalar in SC. unfold enc.
  destruct (Z.ltb_spec c 128) as [L1|L1].
  { rewrite (proj2 (Z.leb_le 0 c)) by lia. cbn [andb app runes]. rewrite bz_zb by lia.
    now rewrite (proj2 (Z.ltb_lt _ _) L1). }
  rewrite (proj2 (Z.leb_le 0 c)) by lia. cbn [andb].
  destruct (Z.ltb_spec c 2048) as [L2|L2].
  { cbn [app runes]. unfold cont, between. rewrite !bz_zb by zdm.
    assert (192 <= 192 + c / 64 <= 223 /\ 2 <= c / 64 /\ 0 <= c mod 64 < 64 /\ c = c / 64 * 64 + c mod 64) as (A & B & C & D) by zdm.
    rewrite (proj2 (Z.ltb_ge _ _)) by lia. rewrite !(proj2 (Z.leb_le _ _)) by lia. cbn [andb].
    f_equal. lia. }
  replace ((c <? 0) || (1114111 <? c) || (55296 <=? c) && (c <=? 57343)) with false
    by (symmetry; apply orb_false_iff; split; [apply orb_false_iff; split; apply Z.ltb_ge; lia|
        apply andb_false_iff; destruct SC; [left; apply Z.leb_gt; lia|right; apply Z.leb_gt; lia]]).
  destruct (Z.ltb_spec c 65536) as [L3|L3].
  { cbn [app runes]. unfold cont, between. rewrite !bz_zb by zdm.
    set (x := c / 4096). set (y := (c / 64) mod 64). set (z := c mod 64).
    assert (0 <= x <= 15 /\ 0 <= y < 64 /\ 0 <= z < 64 /\ c = x * 4096 + y * 64 + z) as (A & B & C & D) by (subst x y z; zdm).
    clearbody x y z.
    rewrite (proj2 (Z.ltb_ge (224 + x) 128)) by lia.
    rewrite (proj2 (Z.leb_gt (224 + x) 223)) by lia. rewrite andb_false_r. cbn [andb].
    rewrite (proj2 (Z.leb_le 224 (224 + x))) by lia. rewrite (proj2 (Z.leb_le (224 + x) 239)) by lia.
    rewrite (proj2 (Z.leb_le 128 (128 + z))) by lia. rewrite (proj2 (Z.leb_le (128 + z) 191)) by lia. cbn [andb].
    replace ((if 224 + x =? 224 then 160 else 128) <=? 128 + y) with true
      by (symmetry; apply Z.leb_le; destruct (Z.eqb_spec (224 + x) 224); lia).
    replace (128 + y <=? (if 224 + x =? 237 then 159 else 191)) with true
      by (symmetry; apply Z.leb_le; destruct (Z.eqb_spec (224 + x) 237); lia).
    cbn [andb]. f_equal. lia. }
  { cbn [app runes]. unfold cont, between. rewrite !bz_zb by zdm.
    set (x := c / 262144). set (y := (c / 4096) mod 64). set (z := (c / 64) mod 64). set (w := c mod 64).
    assert (0 <= x <= 4 /\ 0 <= y < 64 /\ 0 <= z < 64 /\ 0 <= w < 64 /\ c = x * 262144 + y * 4096 + z * 64 + w)
      as (A & B & C & D & E) by (subst x y z w; zdm).
    clearbody x y z w.
    rewrite (proj2 (Z.ltb_ge (240 + x) 128)) by lia.
    rewrite (proj2 (Z.leb_gt (240 + x) 223)) by lia. rewrite andb_false_r. cbn [andb].
    rewrite (proj2 (Z.leb_gt (240 + x) 239)) by lia. rewrite andb_false_r. cbn [andb].
    rewrite (proj2 (Z.leb_le 240 (240 + x))) by lia. rewrite (proj2 (Z.leb_le (240 + x) 244)) by lia.
    rewrite (proj2 (Z.leb_le 128 (128 + z))) by lia. rewrite (proj2 (Z.leb_le (128 + z) 191)) by lia.
    rewrite (proj2 (Z.leb_le 128 (128 + w))) by lia. rewrite (proj2 (Z.leb_le (128 + w) 191)) by lia. cbn [andb].
    replace ((if 240 + x =? 240 then 144 else 128) <=? 128 + y) with true
      by (symmetry; apply Z.leb_le; destruct (Z.eqb_spec (240 + x) 240); lia).
    replace (128 + y <=? (if 240 + x =? 244 then 143 else 191)) with true
      by (symmetry; apply Z.leb_le; destruct (Z.eqb_spec (240 + x) 244); lia).
    cbn [andb]. f_equal. lia. }
Qed.

Lemma runes_encs cs s : Forall scalar cs -> runes (flat_map enc cs ++ s) = cs ++ runes s.
Proof.
  induction cs as [|c cs IH]; intros H; [reflexivity|]. inversion H; subst. cbn [flat_map].
  rewrite <- app_assoc, runes_enc by auto. cbn [app]. now rewrite IH.
Qed.

Lemma runes_scalar_aux n : forall s, (List.length s <= n)%nat -> Forall scalar (runes s).
Proof.
  assert (FD : scalar 65533) by (right; lia).
  induction n as [|n IH]; intros s L; [destruct s; [constructor|simpl in L; lia]|].
  destruct s as [|c0 s1]; [constructor|]. simpl List.length in L.
  pose proof (bz_range c0) as R0. cbn [runes].
  destruct (Z.ltb_spec (bz c0) 128) as [L0|L0]; [constructor; [left; lia|apply IH; lia]|].
  destruct s1 as [|c1 s2]; [constructor; [auto|constructor]|]. simpl List.length in L. pose proof (bz_range c1) as R1.
  destruct (between 194 c0 223 && cont c1) eqn:E2.
  { unfold cont, between in E2. apply andb_prop in E2. destruct E2 as [A B]. apply andb_prop in A, B.
    destruct A as [A1 A2], B as [B1 B2]. apply Z.leb_le in A1, A2, B1, B2. constructor; [left; lia|apply IH; lia]. }
  destruct s2 as [|c2 s3]; [constructor; [auto|apply IH; simpl; lia]|]. simpl List.length in L. pose proof (bz_range c2) as R2.
  match goal with |- context[if ?x then _ else _] => match x with context[between 224 c0 239] => destruct x eqn:E3 end end.
  { unfold cont, between in E3. rewrite !andb_true_iff, !Z.leb_le in E3. destruct E3 as [[A B] C].
    constructor; [|apply IH; lia]. unfold scalar.
    destruct (Z.eqb_spec (bz c0) 224), (Z.eqb_spec (bz c0) 237); lia. }
  destruct s3 as [|c3 s4]; [constructor; [auto|apply IH; simpl; lia]|]. simpl List.length in L. pose proof (bz_range c3) as R3.
  match goal with |- context[if ?x then _ else _] => match x with context[between 240 c0 244] => destruct x eqn:E4 end end.
  { unfold cont, between in E4. rewrite !andb_true_iff, !Z.leb_le in E4. destruct E4 as [[[A B] C] D].
    constructor; [|apply IH; lia]. unfold scalar.
    destruct (Z.eqb_spec (bz c0) 240), (Z.eqb_spec (bz c0) 244); lia. }
  constructor; [auto|apply IH; simpl; lia].
Qed.
Lemma runes_scalar s : Forall scalar (runes s).
Proof. apply (runes_scalar_aux (List.length s)). lia. Qed.
