(** Proofs about Print.v: runes with positions, and what the scan of the box finds. *)
From Coq Require Import String Ascii Bool List ZArith Lia.
From Verif Require Import Base Utf8 JsText Utf8Proofs Print.
Import ListNotations.
Open Scope Z_scope.

(** ** Runes one at a time *)
(** The first rune and the number of bytes it has after the first. *)
Definition first_rune (c0 : ascii) (s1 : bstr) : Z * nat :=
  let x := bz c0 in
  if x <? 128 then (x, 0%nat) else
  match s1 with
  | [] => (65533, 0%nat)
  | c1 :: s2 =>
      if between 194 c0 223 && cont c1 then ((x - 192) * 64 + (bz c1 - 128), 1%nat) else
      match s2 with
      | [] => (65533, 0%nat)
      | c2 :: s3 =>
          if between 224 c0 239 && between (if x =? 224 then 160 else 128) c1 (if x =? 237 then 159 else 191) && cont c2
          then ((x - 224) * 4096 + (bz c1 - 128) * 64 + (bz c2 - 128), 2%nat) else
          match s3 with
          | [] => (65533, 0%nat)
          | c3 :: s4 =>
              if between 240 c0 244 && between (if x =? 240 then 144 else 128) c1 (if x =? 244 then 143 else 191) && cont c2 && cont c3
              then ((x - 240) * 262144 + (bz c1 - 128) * 4096 + (bz c2 - 128) * 64 + (bz c3 - 128), 3%nat)
              else (65533, 0%nat)
          end
      end
  end.
Ltac steps c s :=
  destruct (bz c <? 128); [|destruct s as [|c1 s2]; [|destruct (between 194 c 223 && cont c1); [|destruct s2 as [|c2 s3]; [|
    destruct (between 224 c 239 && between (if bz c =? 224 then 160 else 128) c1 (if bz c =? 237 then 159 else 191) && cont c2); [|destruct s3 as [|c3 s4]; [|
      destruct (between 240 c 244 && between (if bz c =? 240 then 144 else 128) c1 (if bz c =? 244 then 143 else 191) && cont c2 && cont c3)]]]]]].
Lemma runes_first c s : runes (c :: s) = fst (first_rune c s) :: runes (skipn (snd (first_rune c s)) s).
Proof. unfold first_rune. cbn [runes]. steps c s; reflexivity. Qed.
Lemma runes_at_first i c s : runes_at i (c :: s) = (i, fst (first_rune c s)) :: runes_at (i + 1 + Z.of_nat (snd (first_rune c s))) (skipn (snd (first_rune c s)) s).
Proof. unfold first_rune. cbn [runes_at]. steps c s; cbn [fst snd skipn]; try reflexivity; f_equal; f_equal; lia. Qed.
Lemma first_rune_len c s : (snd (first_rune c s) <= List.length s)%nat.
Proof.
  unfold first_rune. steps c s; cbn; lia.
Qed.
Lemma cont_ascii c : bz c < 128 -> cont c = false.
Proof. intros H. unfold cont, between. rewrite (proj2 (Z.leb_gt 128 (bz c))) by lia. reflexivity. Qed.
Lemma between_ascii lo c hi : bz c < 128 -> 128 <= lo -> between lo c hi = false.
Proof. intros H L. unfold between. rewrite (proj2 (Z.leb_gt lo (bz c))) by lia. reflexivity. Qed.
(** An ASCII character ends every rune before it. *)
Lemma first_rune_ascii c s d r : bz d < 128 -> first_rune c (s ++ d :: r) = first_rune c s.
Proof.
  intros D. pose proof (cont_ascii d D) as C.
  assert (B1 : forall hi : Z, between (if bz c =? 224 then 160 else 128) d hi = false) by (intros; apply between_ascii; [auto|destruct (bz c =? 224); lia]).
  assert (B2 : forall hi : Z, between (if bz c =? 240 then 144 else 128) d hi = false) by (intros; apply between_ascii; [auto|destruct (bz c =? 240); lia]).
  unfold first_rune. destruct (bz c <? 128); [reflexivity|]. destruct s as [|c1 [|c2 [|c3 s]]]; cbn [app].
  - rewrite C, andb_false_r. destruct r as [|r1 [|r2 r]]; [reflexivity|rewrite B1; now rewrite !andb_false_r|rewrite B1, B2; now rewrite !andb_false_r].
  - destruct (between 194 c 223 && cont c1); [reflexivity|]. rewrite C, andb_false_r. destruct r as [|r1 r]; [reflexivity|]. now rewrite andb_false_r.
  - destruct (between 194 c 223 && cont c1); [reflexivity|]. destruct (between 224 c 239 && _ && cont c2); [reflexivity|]. now rewrite C, andb_false_r.
  - reflexivity.
Qed.
(** A rune is decided by its own bytes. *)
Lemma first_rune_prefix c s k : (snd (first_rune c s) <= k)%nat -> first_rune c (firstn k s) = first_rune c s.
Proof.
  unfold first_rune. destruct (bz c <? 128); [reflexivity|]. destruct s as [|c1 [|c2 [|c3 s]]]; destruct k as [|[|[|k]]]; cbn [firstn snd]; try reflexivity;
  repeat (match goal with |- context [if ?a && ?e then _ else _] => destruct (a && e) end; cbn [snd]; try lia; try reflexivity).
Qed.

Lemma skipn_app_le {A} n (l m : list A) : (n <= List.length l)%nat -> skipn n (l ++ m) = skipn n l ++ m.
Proof. intros H. rewrite skipn_app. replace (n - List.length l)%nat with 0%nat by lia. reflexivity. Qed.
Lemma runes_at_ascii_n n : forall l i d r, (List.length l <= n)%nat -> bz d < 128 -> runes_at i (l ++ d :: r) = runes_at i l ++ (i + zlen l, bz d) :: runes_at (i + zlen l + 1) r.
Proof.
  induction n as [|n IH]; intros l i d r L D.
  - destruct l; [|cbn in L; lia]. cbn [app]. rewrite runes_at_first. unfold first_rune. rewrite (proj2 (Z.ltb_lt _ _) D). cbn [fst snd skipn app runes_at]. replace (i + zlen (@nil ascii)) with i by (unfold zlen; cbn [List.length]; lia). replace (i + 1 + Z.of_nat 0) with (i + 1) by lia. reflexivity.
  - destruct l as [|c l].
    + cbn [app]. rewrite runes_at_first. unfold first_rune. rewrite (proj2 (Z.ltb_lt _ _) D). cbn [fst snd skipn app runes_at]. replace (i + zlen (@nil ascii)) with i by (unfold zlen; cbn [List.length]; lia). replace (i + 1 + Z.of_nat 0) with (i + 1) by lia. reflexivity.
    + cbn [app]. rewrite !runes_at_first, first_rune_ascii by auto. cbn [app]. f_equal. pose proof (first_rune_len c l) as W. rewrite skipn_app_le by auto.
      rewrite IH by (auto; rewrite skipn_length; cbn in L; lia). unfold zlen. rewrite skipn_length. cbn [List.length]. f_equal. f_equal; [f_equal|f_equal]; lia.
Qed.
Lemma runes_at_ascii l i d r : bz d < 128 -> runes_at i (l ++ d :: r) = runes_at i l ++ (i + zlen l, bz d) :: runes_at (i + zlen l + 1) r.
Proof. apply (runes_at_ascii_n (List.length l)). lia. Qed.
Lemma runes_at_shift_n n : forall l i k, (List.length l <= n)%nat -> runes_at (i + k) l = map (fun p => (fst p + k, snd p)) (runes_at i l).
Proof.
  induction n as [|n IH]; intros [|c l] i k L; try reflexivity; [cbn in L; lia|]. rewrite !runes_at_first. cbn [map fst snd]. f_equal.
  rewrite <- IH by (rewrite skipn_length; cbn in L; lia). f_equal. lia.
Qed.
Lemma runes_at_shift l k : runes_at k l = map (fun p => (fst p + k, snd p)) (runes_at 0 l).
Proof. rewrite <- (runes_at_shift_n (List.length l)) by lia. f_equal. Qed.
Lemma runes_at_runes_n n : forall l i, (List.length l <= n)%nat -> map snd (runes_at i l) = runes l.
Proof.
  induction n as [|n IH]; intros [|c l] i L; try reflexivity; [cbn in L; lia|]. rewrite runes_at_first, runes_first. cbn [map snd]. f_equal. apply IH. rewrite skipn_length. cbn in L. lia.
Qed.
Lemma runes_at_runes l i : map snd (runes_at i l) = runes l.
Proof. apply (runes_at_runes_n (List.length l)). lia. Qed.
Lemma runes_at_bounds_n n : forall l i j r, (List.length l <= n)%nat -> In (j, r) (runes_at i l) -> i <= j < i + zlen l.
Proof.
  induction n as [|n IH]; intros [|c l] i j r L I; try destruct I; [cbn in L; lia|]. rewrite runes_at_first in I. unfold zlen in *. cbn [List.length] in *. destruct I as [I|I].
  - injection I as <- _. lia.
  - pose proof (first_rune_len c l). apply IH in I; rewrite skipn_length in *; lia.
Qed.
Lemma runes_at_bounds l i j r : In (j, r) (runes_at i l) -> i <= j < i + zlen l.
Proof. apply (runes_at_bounds_n (List.length l)). lia. Qed.
Lemma first_rune_not_10 c s : bz c <> 10 -> Forall (fun c => bz c <> 10) s -> fst (first_rune c s) <> 10.
Proof.
  intros C F. unfold first_rune, cont, between. destruct (Z.ltb_spec (bz c) 128); [auto|]. destruct s as [|c1 [|c2 [|c3 s]]]; cbn; try lia;
  repeat match goal with |- context [if ?a && ?e then _ else _] => destruct (a && e) eqn:?; cbn; repeat match goal with H : _ && _ = true |- _ => apply andb_true_iff in H; destruct H end; repeat match goal with H : (_ <=? _) = true |- _ => apply Z.leb_le in H end; try lia end.
  all: repeat match goal with H : (if ?c then _ else _) <= _ |- _ => destruct c eqn:? | H : _ <= (if ?c then _ else _) |- _ => destruct c eqn:? end; repeat match goal with H : (_ =? _) = _ |- _ => (apply Z.eqb_eq in H || apply Z.eqb_neq in H) end; try lia.
Qed.
Lemma runes_at_no_10_n n : forall l i j r, (List.length l <= n)%nat -> Forall (fun c => bz c <> 10) l -> In (j, r) (runes_at i l) -> r <> 10.
Proof.
  induction n as [|n IH]; intros [|c l] i j r L F I; try destruct I; [cbn in L; lia|]. rewrite runes_at_first in I. inversion F as [|? ? F1 F2]; subst. destruct I as [I|I].
  - injection I as _ <-. now apply first_rune_not_10.
  - eapply IH; [|..|exact I]; [rewrite skipn_length; cbn in L; lia|]. rewrite <- (firstn_skipn (snd (first_rune c l)) l) in F2. apply Forall_app in F2. apply F2.
Qed.
Lemma runes_at_no_10 l i j r : Forall (fun c => bz c <> 10) l -> In (j, r) (runes_at i l) -> r <> 10.
Proof. apply (runes_at_no_10_n (List.length l)). lia. Qed.

(** A rune cuts the text in two, each read as if alone. *)
Lemma runes_at_cut_n n : forall l xs j r ys, (List.length l <= n)%nat -> runes_at 0 l = xs ++ (j, r) :: ys ->
  exists p m, l = p ++ m /\ zlen p = j /\ runes p = map snd xs /\ runes m = r :: map snd ys.
Proof.
  induction n as [|n IH]; intros [|c l] xs j r ys L E; try (destruct xs; discriminate); [cbn in L; lia|].
  rewrite runes_at_first in E. set (w := snd (first_rune c l)) in *. pose proof (first_rune_len c l) as W. fold w in W. destruct xs as [|x xs]; cbn [app] in E.
  - injection E as <- <- <-. exists [], (c :: l). split; [reflexivity|]. split; [reflexivity|]. split; [reflexivity|]. rewrite runes_first, runes_at_runes. reflexivity.
  - assert (exists k, k = 0 + 1 + Z.of_nat w) as [k K] by eauto. rewrite <- K in E. injection E as <- E. rewrite runes_at_shift in E.
    destruct (map_eq_app _ _ _ _ E) as (xs0 & rest & E0 & EX & ER). destruct rest as [|[j0 r0] ys0]; [discriminate|]. cbn [map] in ER. injection ER as Ej Er Ey. cbn [fst snd] in *. subst r0 ys.
    destruct (IH (skipn w l) xs0 j0 r ys0) as (p & m & El & Ep & Rp & Rm); [rewrite skipn_length; cbn in L; lia|exact E0|].
    exists (c :: firstn w l ++ p), m. split; [cbn; f_equal; rewrite <- app_assoc, <- El; symmetry; apply firstn_skipn|].
    split; [subst j; unfold zlen in *; cbn [List.length]; rewrite app_length, firstn_length_le by auto; rewrite <- Ep; lia|]. split; [|rewrite Rm; f_equal; rewrite map_map; reflexivity].
    rewrite runes_first. assert (FR : first_rune c (firstn w l ++ p) = first_rune c l).
    { assert (P : firstn w l ++ p = firstn (w + List.length p) l).
      { assert (Q : l = (firstn w l ++ p) ++ m) by (rewrite <- app_assoc, <- El; symmetry; apply firstn_skipn).
        assert (LQ : List.length (firstn w l ++ p) = (w + List.length p)%nat) by (rewrite app_length, firstn_length_le by auto; reflexivity).
        rewrite <- LQ. set (q := firstn w l ++ p) in *. clearbody q. subst l. rewrite firstn_app, Nat.sub_diag, firstn_all. cbn [firstn]. now rewrite app_nil_r. }
      rewrite P. apply first_rune_prefix. fold w. lia. }
    rewrite FR. fold w. cbn [map snd]. f_equal. rewrite skipn_app_le by (rewrite firstn_length_le by auto; lia). rewrite skipn_firstn_comm. rewrite Nat.sub_diag. cbn [firstn app].
    rewrite Rp, <- EX, map_map. reflexivity.
Qed.
Lemma runes_at_cut l xs j r ys : runes_at 0 l = xs ++ (j, r) :: ys -> exists p m, l = p ++ m /\ zlen p = j /\ runes p = map snd xs /\ runes m = r :: map snd ys.
Proof. apply (runes_at_cut_n (List.length l)). lia. Qed.

(** ** The scan of a line *)
From Verif Require Import PrintSpec.
Definition vis (p : Z * Z) : bool := negb (space (snd p)).
Definition last_visible (d : Z) (rs : list (Z * Z)) : Z := fold_left (fun d p => if vis p then fst p + 1 else d) rs d.
Lemma space_white r : space r = true <-> white r.
Proof.
  unfold space, white. rewrite orb_true_iff, andb_true_iff, !Z.leb_le, existsb_exists. split.
  - intros [(x & I & E)|H]; [apply Z.eqb_eq in E; subst; now left|now right].
  - intros [I|H]; [left; exists r; split; [auto|apply Z.eqb_refl]|now right].
Qed.
Lemma vis_white p : vis p = true <-> ~ white (snd p).
Proof. unfold vis. rewrite <- space_white. destruct (space (snd p)); cbn; split; congruence. Qed.

Lemma last_visible_cons d i r rs : last_visible d ((i, r) :: rs) = last_visible (if space r then d else i + 1) rs.
Proof. unfold last_visible, vis. cbn [fold_left fst snd]. destruct (space r); reflexivity. Qed.
Lemma find_cons i r rs : find vis ((i, r) :: rs) = if space r then find vis rs else Some (i, r).
Proof. unfold vis. cbn [find snd]. destruct (space r); reflexivity. Qed.
Section Scan.
Variables (lm : list Z) (cs ce cstart : Z).
Lemma scan_runes_app s l m : scan_runes lm cs ce cstart s (l ++ m) = let! s := scan_runes lm cs ce cstart s l in scan_runes lm cs ce cstart s m.
Proof. revert s. induction l as [|p l IH]; intros s; [reflexivity|]. cbn [app scan_runes]. destruct (scan_rune lm cs ce cstart s p); [|reflexivity]. cbn [rbind]. apply IH. Qed.
Lemma scan_found rs : forall s, found s = true -> (forall p, In p rs -> snd p <> 10) ->
  scan_runes lm cs ce cstart s rs = Ok (Scan (indent s) (line s) true (last_visible (last s) rs) (starts s) (ends s)).
Proof.
  induction rs as [|[i r] rs IH]; intros s F N.
  - destruct s; cbn in *; now subst.
  - cbn [scan_runes]. unfold scan_rune. assert (r <> 10) as R by (apply (N (i, r)); now left). apply Z.eqb_neq in R. rewrite R, F. cbn [negb andb rbind]. rewrite F. cbn [andb].
    rewrite last_visible_cons. destruct (space r) eqn:S; cbn [negb].
    + rewrite IH by (auto; intros p I; apply N; now right). reflexivity.
    + rewrite IH by (auto; intros p I; apply N; now right). reflexivity.
Qed.
Definition upd (a : arr) (i v : Z) : arr := fun j => if j =? i then v else a j.
Lemma scan_line rs o : forall s, found s = false -> last s = -1 -> at_line lm (line s) = Ok (cstart + o) -> 0 <= line s - cs < 13 -> (forall p, In p rs -> snd p <> 10) ->
  scan_runes lm cs ce cstart s rs = Ok (match find vis rs with
    | None => s
    | Some p => Scan (Z.min (indent s) (fst p - o)) (line s) true (last_visible (-1) rs) (upd (starts s) (line s - cs) (fst p - o)) (ends s)
    end).
Proof.
  induction rs as [|[i r] rs IH]; intros s F LA L B N; [reflexivity|].
  rewrite find_cons, last_visible_cons. cbn [scan_runes]. unfold scan_rune. assert (r <> 10) as R by (apply (N (i, r)); now left). apply Z.eqb_neq in R. rewrite R, F. cbn [negb andb].
  destruct (space r) eqn:S; cbn [negb].
  - cbn [rbind]. rewrite F. cbn [andb rbind]. apply IH; auto. intros p I. apply N. now right.
  - rewrite L. cbn [rbind]. unfold put, arr_len. rewrite (proj2 (Z.leb_le _ _)) by lia. rewrite (proj2 (Z.ltb_lt _ _)) by lia. cbn [andb rbind found].
    rewrite scan_found by (auto; intros p I; apply N; now right). cbn [indent line last starts ends fst]. unfold upd. replace (i - (cstart + o) + cstart) with (i - o) by lia. reflexivity.
Qed.
End Scan.

Lemma find_shift o rs : find vis (map (fun p => (fst p + o, snd p)) rs) = match find vis rs with Some p => Some (fst p + o, snd p) | None => None end.
Proof. induction rs as [|[i r] rs IH]; [reflexivity|]. cbn [map fst snd]. rewrite !find_cons. destruct (space r); auto. Qed.
Lemma last_visible_none d rs : find vis rs = None -> last_visible d rs = d.
Proof. revert d. unfold last_visible. induction rs as [|p rs IH]; intros d H; [reflexivity|]. cbn [find fold_left] in *. destruct (vis p); [discriminate|]. auto. Qed.
Lemma last_visible_some d e rs : find vis rs <> None -> last_visible d rs = last_visible e rs.
Proof. revert d. unfold last_visible. induction rs as [|p rs IH]; intros d H; [now destruct H|]. cbn [find fold_left] in *. destruct (vis p); auto. Qed.
Lemma last_visible_shift o rs : forall d, last_visible (d + o) (map (fun p => (fst p + o, snd p)) rs) = last_visible d rs + o.
Proof.
  induction rs as [|[i r] rs IH]; intros d; [reflexivity|]. cbn [map fst snd]. rewrite !last_visible_cons. destruct (space r); [apply IH|].
  replace (i + o + 1) with (i + 1 + o) by lia. apply IH.
Qed.
Lemma find_cut rs p : find vis rs = Some p -> exists xs ys, rs = xs ++ p :: ys /\ vis p = true /\ forall q, In q xs -> vis q = false.
Proof.
  induction rs as [|q rs IH]; [discriminate|]. cbn. destruct (vis q) eqn:V.
  - intros [= <-]. exists [], rs. split; [auto|]. split; [auto|intros ? []].
  - intros H. destruct (IH H) as (xs & ys & -> & VP & N). exists (q :: xs), ys. split; [auto|]. split; [auto|]. intros r [<-|I]; auto.
Qed.
Lemma last_cut rs : forall d, find vis rs <> None -> exists xs p ys, rs = xs ++ p :: ys /\ vis p = true /\ (forall q, In q ys -> vis q = false) /\ last_visible d rs = fst p + 1.
Proof.
  induction rs as [|q rs IH]; intros d H; [now destruct H|]. destruct (find vis rs) as [x|] eqn:F.
  - destruct (IH (if vis q then fst q + 1 else d)) as (xs & p & ys & -> & V & N & E); [discriminate|]. exists (q :: xs), p, ys. split; [auto|]. split; [auto|]. split; [auto|]. exact E.
  - cbn in H. destruct (vis q) eqn:V; [|rewrite F in H; now destruct H]. exists [], q, rs. split; [auto|]. split; [auto|]. split.
    + intros p I. eapply find_none in F; eauto.
    + unfold last_visible. cbn [fold_left]. rewrite V. apply (last_visible_none (fst q + 1) rs F).
Qed.
(** What the scan finds in a line. *)
Lemma line_blank l : find vis (runes_at 0 l) = None <-> blank l.
Proof.
  unfold blank. rewrite <- (runes_at_runes l 0). split.
  - intros F r I. apply in_map_iff in I. destruct I as (p & <- & I). apply space_white. eapply find_none in F; [|exact I]. unfold vis in F. now apply negb_false_iff in F.
  - intros H. destruct (find vis (runes_at 0 l)) as [p|] eqn:F; [|reflexivity]. apply find_some in F. destruct F as [I V]. apply vis_white in V. destruct V. apply H. now apply in_map.
Qed.
Lemma line_first l p : find vis (runes_at 0 l) = Some p -> first_at l (fst p).
Proof.
  intros F. destruct (find_cut _ _ F) as (xs & ys & E & V & N). destruct p as [j r]. destruct (runes_at_cut _ _ _ _ _ E) as (u & m & El & Lu & Ru & Rm).
  exists u, m, r, (map snd ys). split; [auto|]. split; [auto|]. split; [|split; [auto|split]].
  - rewrite <- (runes_at_runes l 0), E, map_app, Ru. reflexivity.
  - intros q I. rewrite Ru in I. apply in_map_iff in I. destruct I as (x & <- & I). apply space_white. apply N in I. unfold vis in I. now apply negb_false_iff in I.
  - now apply vis_white in V.
Qed.
Lemma line_last l d : find vis (runes_at 0 l) <> None -> last_at l (last_visible d (runes_at 0 l)).
Proof.
  intros F. destruct (last_cut _ d F) as (xs & [j r] & ys & E & V & N & LV). destruct (runes_at_cut _ _ _ _ _ E) as (u & m & El & Lu & Ru & Rm).
  exists u, m, r, (map snd ys). split; [auto|]. split; [rewrite LV; cbn [fst]; lia|]. split; [|split; [auto|split]].
  - rewrite <- (runes_at_runes l 0), E, map_app, Ru. reflexivity.
  - now apply vis_white in V.
  - intros q I. apply in_map_iff in I. destruct I as (x & <- & I). apply space_white. apply N in I. unfold vis in I. now apply negb_false_iff in I.
Qed.
(** Both are unique. *)
Lemma blank_not_first l f : blank l -> first_at l f -> False.
Proof. intros B (p & m & r & rs & _ & _ & R & _ & _ & NW). apply NW, B. rewrite R. apply in_app_iff. right. now left. Qed.
Lemma map_cut {A B} (g : A -> B) l : forall xs y ys, map g l = xs ++ y :: ys -> exists xs' y' ys', l = xs' ++ y' :: ys' /\ xs = map g xs' /\ y = g y' /\ ys = map g ys'.
Proof.
  induction l as [|a l IH]; intros xs y ys E; [destruct xs; discriminate|]. destruct xs as [|x xs]; cbn in E; injection E as E1 E2.
  - exists [], a, l. auto.
  - destruct (IH _ _ _ E2) as (xs' & y' & ys' & -> & -> & -> & ->). exists (a :: xs'), y', ys'. subst x. auto.
Qed.

Lemma first_rune_short c s k : (k < snd (first_rune c s))%nat -> first_rune c (firstn k s) = (65533, 0%nat).
Proof.
  unfold first_rune. destruct (bz c <? 128); [cbn; lia|]. destruct s as [|c1 [|c2 [|c3 s]]]; destruct k as [|[|[|k]]]; cbn [firstn snd]; try lia; try reflexivity;
  repeat (match goal with |- context [if ?a && ?e then _ else _] => destruct (a && e) end; cbn [snd]; try lia; try reflexivity).
Qed.
Lemma firstn_app_le {A} k (l m : list A) : (k <= List.length l)%nat -> firstn k (l ++ m) = firstn k l.
Proof. intros H. rewrite firstn_app. replace (k - List.length l)%nat with 0%nat by lia. cbn. apply app_nil_r. Qed.
Lemma runes_at_white_n n : forall p m i, (List.length p <= n)%nat -> blank p -> runes (p ++ m) = runes p ++ runes m -> runes_at i (p ++ m) = runes_at i p ++ runes_at (i + zlen p) m.
Proof.
  induction n as [|n IH]; intros [|c p] m i L B E; try (cbn in L; lia); try (cbn [app runes_at]; unfold zlen; cbn [List.length]; f_equal; lia).
  cbn [app] in *. rewrite !runes_at_first. rewrite !runes_first in E. cbn [app] in *. injection E as E1 E2.
  assert (W : (snd (first_rune c (p ++ m)) <= List.length p)%nat).
  { destruct (Nat.le_gt_cases (snd (first_rune c (p ++ m))) (List.length p)) as [H|H]; [exact H|]. apply first_rune_short in H. rewrite firstn_app_le, firstn_all in H by lia.
    assert (X : white (fst (first_rune c p))) by (apply B; rewrite runes_first; now left). rewrite H in X. exfalso. apply space_white in X. discriminate. }
  assert (FR : first_rune c (p ++ m) = first_rune c p) by (rewrite <- (first_rune_prefix c (p ++ m) (List.length p)) by auto; now rewrite firstn_app_le, firstn_all by lia).
  rewrite FR in *. rewrite skipn_app_le in * by auto. f_equal. rewrite IH; [..|exact E2].
  - f_equal. f_equal. unfold zlen. rewrite skipn_length. cbn [List.length]. lia.
  - rewrite skipn_length. cbn in L. lia.
  - intros r I. apply B. rewrite runes_first. now right.
Qed.
Lemma first_unique l f : first_at l f -> exists r, find vis (runes_at 0 l) = Some (f, r).
Proof.
  intros (p & m & r & rs & -> & <- & R & RM & B & NW). exists r. rewrite (runes_at_white_n (List.length p)) by (auto; rewrite R, RM; reflexivity).
  assert (F : find vis (runes_at 0 p) = None) by now apply line_blank. rewrite (Z.add_0_l (zlen p)). generalize (runes_at_runes m (zlen p)). destruct m as [|c m]; [discriminate|]. rewrite runes_at_first. intros E. rewrite RM in E. injection E as E _.
  revert F. generalize (runes_at 0 p). intros xs F. induction xs as [|[i q] xs IH]; cbn [app].
  - rewrite find_cons, E. destruct (space r) eqn:S; [|reflexivity]. destruct NW. now apply space_white.
  - rewrite find_cons in *. destruct (space q); [auto|discriminate].
Qed.
