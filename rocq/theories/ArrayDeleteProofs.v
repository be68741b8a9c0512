From Coq Require Import Bool Arith ZArith Ascii String List Lia Permutation.
From Verif Require Import Base Fixer FixerSpec FixerProofs FixPieces.
From Verif Require Import ArrayDelete ArrayDeleteSpec.
Import ListNotations.
Open Scope Z_scope.

Lemma skip_iff o t : skip o = Element t <-> element_of o t.
Proof.
  induction o as [t'|o IH|]; cbn.
  - split; [intros E; injection E as <-; constructor|intros H; inversion H; reflexivity].
  - rewrite IH. split; [constructor; assumption|intros H; inversion H; assumption].
  - split; [discriminate|intros H; inversion H].
Qed.

Lemma text_app l m : text (l ++ m) = text l ++ text m.
Proof. apply flat_map_app. Qed.
Lemma token_skip l : forall p m pos, tokens_not_empty l -> p + zlen (text l) <= pos -> token_at p (l ++ m) pos = token_at (p + zlen (text l)) m pos.
Proof.
  induction l as [|e l IH]; intros p m pos N L.
  - cbn [app text flat_map]. change (zlen (@nil ascii)) with 0. rewrite Z.add_0_r. reflexivity.
  - assert (tokens_not_empty l) as N' by (intros t I; apply N; right; exact I).
    unfold text in *. cbn [flat_map] in *. rewrite zlen_app in *. pose proof (zlen_nonneg (flat_map etext l)).
    cbn [app token_at]. destruct e as [t|t]; cbn [etext] in *.
    + pose proof (zlen_pos t (N t (or_introl eq_refl))). rewrite (proj2 (Z.leb_gt _ _)) by lia. rewrite IH by (auto; lia). f_equal. lia.
    + rewrite IH by (auto; lia). f_equal. lia.
Qed.
Lemma token_space l : forall p m pos, spaces l -> token_at p (l ++ m) pos = token_at (p + zlen (text l)) m pos.
Proof.
  induction l as [|e l IH]; intros p m pos S0.
  - cbn [app text flat_map]. change (zlen (@nil ascii)) with 0. rewrite Z.add_0_r. reflexivity.
  - destruct (S0 e (or_introl eq_refl)) as (t & ->). cbn [app token_at]. rewrite IH by (intros x I; apply S0; right; exact I).
    unfold text. cbn [flat_map etext]. rewrite zlen_app. f_equal. lia.
Qed.
Lemma token_found l sp t m : tokens_not_empty l -> spaces sp -> forall pos, pos = zlen (text l) ->
  token_at 0 (l ++ sp ++ Tok t :: m) pos = (zlen (text (l ++ sp)), zlen (text (l ++ sp)) + zlen t).
Proof.
  intros N S0 pos ->. rewrite token_skip by (auto; lia). rewrite token_space by exact S0. cbn [token_at].
  rewrite (proj2 (Z.leb_le _ _)) by (pose proof (zlen_nonneg (text sp)); lia). rewrite text_app, zlen_app. f_equal; lia.
Qed.
Lemma tokens_part l m k : tokens_not_empty (l ++ m ++ k) -> tokens_not_empty m.
Proof. intros N t I. apply N, in_app_iff. right. apply in_app_iff. left. exact I. Qed.
Lemma tokens_front l m : tokens_not_empty (l ++ m) -> tokens_not_empty l.
Proof. intros N t I. apply N, in_app_iff. left. exact I. Qed.

