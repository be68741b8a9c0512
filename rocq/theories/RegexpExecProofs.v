From Coq Require Import Bool Arith Ascii String List Lia.
From Verif Require Import Base EngineProofs.
From Verif Require Import RegexpExec RegexpExecSpec.
Import ListNotations.
Open Scope nat_scope.
Open Scope list_scope.

Lemma ascii_eq : forall c d, Ascii.eqb c d = true <-> c = d.
Proof. intros c d. apply Ascii.eqb_eq. Qed.

(** Scanning. *)
Lemma scan_text : forall n s class p r, List.length s <= n -> scan class s = Some (p, r) -> s = p ++ slash :: r.
Proof.
  induction n as [|n IH]; intros s class p r L H; destruct s as [|c s]; try discriminate; cbn [List.length] in L; [lia|]. cbn [scan] in H.
  destruct (newline c); [discriminate|]. destruct (Ascii.eqb c "\"%char) eqn:B.
  - destruct s as [|d s]; [discriminate|]. destruct (newline d); [discriminate|]. destruct (scan class s) as [[q x]|] eqn:E; [|discriminate]. injection H as <- <-. cbn [List.length] in L. apply IH in E; [|lia]. now rewrite E.
  - destruct (Ascii.eqb c "/"%char && negb class) eqn:S.
    + injection H as <- <-. apply andb_true_iff in S as [S _]. apply ascii_eq in S as ->. reflexivity.
    + match type of H with context [scan ?k s] => destruct (scan k s) as [[q x]|] eqn:E end; [|discriminate]. injection H as <- <-. apply IH in E; [|lia]. now rewrite E.
Qed.
(** Backslashes at the end. *)
Definition all_back (l : bstr) : Prop := forall c, In c l -> c = backslash.
Lemma run_app : forall l m, (all_back l /\ run (l ++ m) = List.length l + run m) \/ (~ all_back l /\ run (l ++ m) = run l).
Proof.
  induction l as [|c l IH]; intros m; [left; split; [intros c []|reflexivity]|]. cbn [app run List.length]. destruct (Ascii.eqb c backslash) eqn:E.
  - apply ascii_eq in E as ->. destruct (IH m) as [[A R]|[A R]]; rewrite R; [left|right]; (split; [|lia]).
    + intros c [<-|I']; auto.
    + intros X. apply A. intros c I'. apply X. now right.
  - right. split; [|reflexivity]. intros X. specialize (X c (or_introl eq_refl)). apply ascii_eq in X. congruence.
Qed.
Lemma run_rev_cons : forall c l, c <> backslash -> run (rev (c :: l)) = run (rev l).
Proof.
  intros c l N. cbn [rev]. destruct (run_app (rev l) [c]) as [[A R]|[_ R]]; rewrite R; [|reflexivity]. cbn [run].
  assert (Ascii.eqb c backslash = false) as -> by (destruct (Ascii.eqb c backslash) eqn:E; auto; apply ascii_eq in E; congruence).
  destruct (run_app (rev l) []) as [[_ R']|[A' _]]; [|contradiction]. rewrite app_nil_r in R'. cbn [run] in R'. lia.
Qed.
Lemma run_all : forall l, all_back l -> run l = List.length l.
Proof. intros l A. destruct (run_app l []) as [[_ R]|[N _]]; [|contradiction]. rewrite app_nil_r in R. cbn [run] in R. lia. Qed.
Lemma scan_even : forall n s class p r, List.length s <= n -> scan class s = Some (p, r) -> Nat.odd (run (rev p)) = false.
Proof.
  induction n as [|n IH]; intros s class p r L H; destruct s as [|c s]; try discriminate; cbn [List.length] in L; [lia|]. cbn [scan] in H.
  destruct (newline c); [discriminate|]. destruct (Ascii.eqb c "\"%char) eqn:B.
  - destruct s as [|d s]; [discriminate|]. destruct (newline d); [discriminate|]. destruct (scan class s) as [[q x]|] eqn:E; [|discriminate]. injection H as <- <-. cbn [List.length] in L. apply IH in E; [|lia]. apply ascii_eq in B as ->.
    destruct (Ascii.eqb d backslash) eqn:D.
    + apply ascii_eq in D as ->. cbn [rev]. rewrite <- app_assoc. cbn [app]. destruct (run_app (rev q) [backslash; "\"%char]) as [[A R]|[_ R]]; rewrite R; [|exact E]. rewrite (run_all _ A) in E. cbn [run]. change (Ascii.eqb backslash backslash) with true. change (Ascii.eqb "\" backslash) with true. cbn iota.
      rewrite Nat.add_comm. cbn [Nat.add]. rewrite Nat.odd_succ_succ. exact E.
    + cbn [rev]. rewrite <- app_assoc. cbn [app]. destruct (run_app (rev q) [d; "\"%char]) as [[A R]|[_ R]]; rewrite R; [|exact E]. cbn [run]. rewrite D. rewrite Nat.add_0_r. now rewrite (run_all _ A) in E.
  - assert (c <> backslash) as N by (intros ->; discriminate). destruct (Ascii.eqb c "/"%char && negb class) eqn:S; [injection H as <- <-; reflexivity|].
    match type of H with context [scan ?k s] => destruct (scan k s) as [[q x]|] eqn:E end; [|discriminate]. injection H as <- <-. rewrite run_rev_cons by auto. apply IH in E; [auto|lia].
Qed.
Lemma closing_found : forall s i j, i <= j -> (forall k, i < k <= j -> nth k s "000"%char <> slash) -> nth i s "000"%char = slash -> is_escaped s i = false -> 0 < i -> closing s j = Some i.
Proof.
  intros s i j. induction j as [|j IH]; intros L N E F P; [lia|]. cbn [closing]. destruct (Nat.eq_dec i (S j)) as [->|D].
  - rewrite E, F. change (Ascii.eqb slash slash) with true. reflexivity.
  - assert (Ascii.eqb (nth (S j) s "000"%char) slash = false) as ->. { destruct (Ascii.eqb (nth (S j) s "000"%char) slash) eqn:X; auto. apply ascii_eq in X. exfalso. apply (N (S j)); [lia|exact X]. }
    cbn [andb]. apply IH; auto; [lia|]. intros k K. apply N. lia.
Qed.
Lemma literal_flags_ok : forall t p f, scan_literal t = Some (p, f) -> ~ In slash f -> literal_flags t = Some f.
Proof.
  intros t p f SC N. destruct t as [|c [|d t]]; try discriminate. cbn [scan_literal] in SC. destruct (Ascii.eqb c "/"%char && negb (Ascii.eqb d "/"%char) && negb (Ascii.eqb d "*"%char)) eqn:C; [|discriminate].
  rewrite !andb_true_iff in C. destruct C as [[C D] _]. apply ascii_eq in C as ->. pose proof (scan_text _ _ _ _ _ (le_n _) SC) as T. pose proof (scan_even _ _ _ _ _ (le_n _) SC) as E. rewrite T.
  assert (p <> []) as NP. { intros ->. cbn [app] in T. injection T as -> _. discriminate. }
  unfold literal_flags. change (nth 0 (("/"%char : ascii) :: p ++ slash :: f) "000"%char) with "/"%char. change (Ascii.eqb "/" slash) with true. cbn [negb]. rewrite orb_false_r.
  assert (List.length ("/"%char :: p ++ slash :: f) <? 2 = false) as ->. { apply Nat.ltb_ge. cbn [List.length]. rewrite app_length. cbn [List.length]. lia. }
  rewrite (closing_found _ (S (List.length p))).
  - f_equal. change ("/"%char :: p ++ slash :: f) with (("/"%char :: p) ++ slash :: f). replace (S (S (List.length p))) with (List.length (("/"%char :: p) ++ [slash])) by (rewrite app_length; cbn [List.length]; lia).
    replace (("/"%char :: p) ++ slash :: f) with ((("/"%char :: p) ++ [slash]) ++ f) by now rewrite <- app_assoc. now rewrite skipn_app, skipn_all, Nat.sub_diag.
  - cbn [List.length]. rewrite app_length. cbn [List.length]. lia.
  - intros k K X. apply N. cbn [List.length] in K. rewrite app_length in K. cbn [List.length] in K.
    change ("/"%char :: p ++ slash :: f) with (("/"%char :: p) ++ slash :: f) in X. rewrite app_nth2 in X by (cbn [List.length]; lia). cbn [List.length] in X.
    replace (k - S (List.length p)) with (S (k - S (S (List.length p)))) in X by lia. cbn [nth] in X. rewrite <- X. apply nth_In. lia.
  - change ("/"%char :: p ++ slash :: f) with (("/"%char :: p) ++ slash :: f). rewrite app_nth2 by (cbn [List.length]; lia). cbn [List.length]. rewrite Nat.sub_diag. reflexivity.
  - unfold is_escaped. change ("/"%char :: p ++ slash :: f) with (("/"%char :: p) ++ slash :: f). replace (S (List.length p)) with (List.length ("/"%char :: p) + 0) by (cbn [List.length]; lia). rewrite firstn_app_2. cbn [firstn]. rewrite app_nil_r. rewrite run_rev_cons by discriminate. exact E.
  - lia.
Qed.

Section Valid.
Context (valid : bstr -> bool).
Lemma static_ok : forall a v, value_of a v -> match static valid a with SRegExp f => exists p, v = VRegExp p f | SString => exists s, v = VStr s | SOther => forall p f t, v <> VRegExp p f /\ v <> VMatcher t | SUnknown => True end.
Proof.
  intros a v O. induction O as [s|t p f S N|s t|n a v O IH|n v|a v O IH|a v O IH|n p|n p a v S O IH|n p a f rest v s S S' O IH O' IH'|n p a f rest v S S' O IH O' IH'|n p args q f S| |n v]; cbn [static]; try exact I; try exact IH; eauto.
  - rewrite (literal_flags_ok t p f S N). eauto.
  - intros p f t'. destruct s; split; discriminate.
  - destruct a; try exact I. destruct (valid cooked); [|exact I]. inversion O; subst. cbn [own_flags]. eauto.
  - destruct a; try exact I. destruct f; try exact I. destruct (valid cooked); [|exact I]. inversion O'; subst. eauto.
  - destruct a; try exact I. destruct f; try exact I. destruct (valid cooked); [|exact I]. inversion O'.
  - destruct args as [|a args]; [discriminate|]. destruct a; try exact I. destruct args as [|g args]; [discriminate|]. destruct g; try exact I. discriminate.
Qed.
End Valid.

(** Literals made of strings. *)
Lemma scan_escaped : forall n p class rest, List.length p <= n -> complete class p -> scan class (escape_slashes p ++ slash :: rest) = Some (escape_slashes p, rest) /\ units (escape_slashes p) = units p.
Proof.
  induction n as [|n IH]; intros p class rest L C; destruct p as [|c p]; cbn [List.length] in L; try lia.
  - cbn [complete] in C. subst class. split; reflexivity.
  - cbn [complete] in C. subst class. split; reflexivity.
  - cbn [complete] in C. destruct C as [NL C]. cbn [escape_slashes units]. destruct (Ascii.eqb c slash) eqn:S.
    + apply ascii_eq in S as ->. change (Ascii.eqb slash "\") with false in *. cbn iota in C |- *. change (Ascii.eqb slash "[") with false in C. change (Ascii.eqb slash "]") with false in C. cbn iota in C.
      destruct (IH p class rest ltac:(lia) C) as [A B]. cbn [app scan]. change (newline backslash) with false. change (newline slash) with false. change (Ascii.eqb backslash "\") with true. cbn iota. rewrite A. split; [reflexivity|]. cbn [units]. change (Ascii.eqb backslash "\") with true. change (Ascii.eqb slash "/") with true. cbn iota. now rewrite B.
    + destruct (Ascii.eqb c "\"%char) eqn:B.
      * destruct p as [|d p]; [contradiction|]. destruct C as (ND & NS & C). cbn [List.length] in L. destruct (IH p class rest ltac:(lia) C) as [A U]. cbn [escape_slashes].
        assert (Ascii.eqb d slash = false) as E by (destruct (Ascii.eqb d slash) eqn:X; auto; apply ascii_eq in X; exfalso; apply NS; exact X). rewrite E. cbn [app scan]. rewrite NL, B, ND, A. split; [reflexivity|]. cbn [units]. rewrite B. rewrite U. reflexivity.
      * destruct (IH p _ rest ltac:(lia) C) as [A U]. cbn [app scan]. rewrite NL, B. change (Ascii.eqb c "/"%char) with (Ascii.eqb c slash). rewrite S. cbn [andb]. rewrite A. split; [reflexivity|]. cbn [units]. rewrite B. now rewrite U.
Qed.
