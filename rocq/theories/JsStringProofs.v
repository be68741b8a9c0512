(** Lemmas on the string methods. *)
From Coq Require Import Bool List ZArith Lia.
From Verif Require Import JsString.
Import ListNotations.
Open Scope Z_scope.

Lemma len_app a c : len (a ++ c) = len a + len c.
Proof. unfold len. rewrite app_length. lia. Qed.
Lemma len_nonneg a : 0 <= len a.
Proof. unfold len. lia. Qed.
Lemma len_0 a : len a = 0 -> a = [].
Proof. unfold len. destruct a; [auto|]. cbn [List.length]. lia. Qed.

Lemma starts_len s x : starts_with s x -> len x <= len s.
Proof. intros (t & ->). rewrite len_app. pose proof (len_nonneg t). lia. Qed.
Lemma ends_len s x : ends_with s x -> len x <= len s.
Proof. intros (t & ->). rewrite len_app. pose proof (len_nonneg t). lia. Qed.

Lemma part_len s from to : len (part s from to) <= len s.
Proof. unfold part, len. rewrite firstn_length, skipn_length. lia. Qed.

Lemma part_start s x : part s 0 (Z.min (len x) (len s)) = x <-> starts_with s x.
Proof.
  unfold part. change (Z.to_nat 0) with 0%nat. cbn [skipn]. rewrite Z.sub_0_r. split.
  - intros E. exists (skipn (Z.to_nat (Z.min (len x) (len s))) s). rewrite <- E at 1. symmetry. apply firstn_skipn.
  - intros (t & ->). rewrite len_app. pose proof (len_nonneg t). rewrite Z.min_l by lia.
    unfold len. rewrite Nat2Z.id, firstn_app, Nat.sub_diag, firstn_all. cbn [firstn]. apply app_nil_r.
Qed.
Lemma part_tail s i : part s i (len s) = skipn (Z.to_nat i) s.
Proof.
  unfold part. apply firstn_all2. rewrite skipn_length. unfold len. lia.
Qed.
Lemma part_end s x i : (len x <= len s -> i = len s - len x) -> (part s i (len s) = x <-> ends_with s x).
Proof.
  intros H. rewrite part_tail. split.
  - intros E. exists (firstn (Z.to_nat i) s). rewrite <- E. symmetry. apply firstn_skipn.
  - intros E. pose proof (ends_len _ _ E) as L. destruct E as (t & ->). rewrite (H L), len_app.
    replace (Z.to_nat (len t + len x - len x)) with (List.length t) by (unfold len; lia).
    rewrite skipn_app, skipn_all, Nat.sub_diag. reflexivity.
Qed.

Lemma slice_start s x : slice s 0 (len x) = x <-> starts_with s x.
Proof.
  unfold slice, relative. pose proof (len_nonneg x). pose proof (len_nonneg s).
  rewrite (proj2 (Z.ltb_ge (len x) 0)) by lia. change (0 <? 0) with false. cbv iota. rewrite Z.min_l by lia. apply part_start.
Qed.
Lemma substring_start s x : substring s 0 (len x) = x <-> starts_with s x.
Proof.
  unfold substring, clamp. pose proof (len_nonneg x). pose proof (len_nonneg s).
  replace (Z.max 0 (Z.min 0 (len s))) with 0 by lia.
  replace (Z.min 0 (Z.max 0 (Z.min (len x) (len s)))) with 0 by lia.
  replace (Z.max 0 (Z.max 0 (Z.min (len x) (len s)))) with (Z.min (len x) (len s)) by lia. apply part_start.
Qed.
Lemma relative_end s : relative s (len s) = len s.
Proof. unfold relative. pose proof (len_nonneg s). rewrite (proj2 (Z.ltb_ge (len s) 0)) by lia. lia. Qed.
Lemma slice_end s x : slice s (len s - len x) (len s) = x <-> ends_with s x.
Proof.
  unfold slice. rewrite relative_end. apply part_end. intros L. unfold relative.
  pose proof (len_nonneg x). rewrite (proj2 (Z.ltb_ge (len s - len x) 0)) by lia. lia.
Qed.
Lemma slice_neg s x : x <> [] -> (slice s (- len x) (len s) = x <-> ends_with s x).
Proof.
  intros N. assert (P : 0 < len x) by (destruct x; [congruence|unfold len; cbn [List.length]; lia]).
  unfold slice. rewrite relative_end. apply part_end. intros L. unfold relative. rewrite (proj2 (Z.ltb_lt (- len x) 0)) by lia. lia.
Qed.
Lemma substring_end s x : substring s (len s - len x) (len s) = x <-> ends_with s x.
Proof.
  unfold substring, clamp. pose proof (len_nonneg x). pose proof (len_nonneg s).
  replace (Z.max 0 (Z.min (len s) (len s))) with (len s) by lia.
  replace (Z.max (Z.max 0 (Z.min (len s - len x) (len s))) (len s)) with (len s) by lia.
  apply part_end. lia.
Qed.

Lemma occurs_start s x : occurs s x 0 <-> starts_with s x.
Proof.
  split.
  - intros (a & t & -> & L). apply len_0 in L. subst. exists t. reflexivity.
  - intros (t & ->). exists [], t. auto.
Qed.
Lemma occurs_bounds s x i : occurs s x i -> 0 <= i <= len s - len x.
Proof. intros (a & t & -> & <-). rewrite !len_app. pose proof (len_nonneg a). pose proof (len_nonneg t). lia. Qed.
Lemma occurs_end s x : occurs s x (len s - len x) <-> ends_with s x.
Proof.
  split.
  - intros (a & t & E & L). rewrite E, !len_app in L. assert (T : len t = 0) by lia. apply len_0 in T. subst t.
    rewrite app_nil_r in E. exists a. auto.
  - intros (t & ->). exists t, []. rewrite app_nil_r. split; [auto|]. rewrite len_app. lia.
Qed.
Lemma index_start s x r : index_of s x r -> (r = 0 <-> starts_with s x).
Proof.
  rewrite <- occurs_start. intros [[O M]|[-> N]].
  - split; [now intros <-|]. intros O2. pose proof (occurs_bounds _ _ _ O). pose proof (M _ O2). lia.
  - split; [lia|]. intros O2. now apply N in O2.
Qed.
Lemma last_index_end s x r : last_index_of s x r -> len x <> len s + 1 -> (r = len s - len x <-> ends_with s x).
Proof.
  rewrite <- occurs_end. intros [[O M]|[-> N]] NE.
  - split; [now intros <-|]. intros O2. pose proof (occurs_bounds _ _ _ O). pose proof (M _ O2). lia.
  - split; [lia|]. intros O2. now apply N in O2.
Qed.

Lemma single_start s c : part s 0 1 = [c] <-> starts_with s [c].
Proof.
  destruct s as [|d s]; [split; [discriminate|intros (t & E); discriminate]|].
  unfold part. cbn. split.
  - intros [= ->]. exists s. reflexivity.
  - intros (t & [= -> ->]). reflexivity.
Qed.
Lemma single_end s c : 0 < len s -> (part s (len s - 1) (len s) = [c] <-> ends_with s [c]).
Proof. intros H. apply part_end. change (len [c]) with 1. lia. Qed.
