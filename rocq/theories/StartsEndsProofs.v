(** Lemmas on the model of prefer-string-starts-ends-with: regular expressions and quoting. *)
From Coq Require Import Bool List ZArith Lia.
From Verif Require Import JsText JsTextProofs JsRegex JsRegexProofs StartsEnds Utf8Proofs.
Import ListNotations.
Open Scope Z_scope.

(** ** Splitting a literal *)

Fixpoint trail (acc : nat) (p : list Z) : nat :=
  match p with [] => acc | c :: r => trail (if c =? 92 then S acc else O) r end.
Lemma trail_snoc p : forall acc c, trail acc (p ++ [c]) = if c =? 92 then S (trail acc p) else O.
Proof. induction p as [|d p IH]; intros acc c; [reflexivity|]. cbn [app trail]. apply IH. Qed.
Lemma backslashes_trail a : forall r, backslashes (List.length a) (a ++ r) = trail 0 a.
Proof.
  induction a as [|c a IH] using rev_ind; intros r; [reflexivity|].
  rewrite app_length, Nat.add_comm. cbn [List.length Nat.add backslashes].
  rewrite <- app_assoc. rewrite app_nth2 by lia. rewrite Nat.sub_diag. cbn [app nth].
  rewrite trail_snoc. destruct (c =? 92); [|reflexivity]. f_equal. apply (IH (c :: r)).
Qed.
Lemma complete_even p : complete p -> forall acc, Nat.even acc = true -> Nat.even (trail acc p) = true.
Proof.
  induction 1 as [|c r N C IH|c r C IH]; intros acc E; cbn [trail]; [auto| |].
  - rewrite (proj2 (Z.eqb_neq c 92)) by auto. now apply IH.
  - change (92 =? 92) with true. cbv iota. destruct (c =? 92); apply IH; auto.
Qed.

Lemma closing_slash_ok a flags : (0 < List.length a)%nat -> Nat.even (trail 0 a) = true -> ~ In 47 flags ->
  closing_slash (List.length a + List.length flags) (a ++ 47 :: flags) = Some (List.length a).
Proof.
  intros L E N.
  assert (G : forall k, (k <= List.length flags)%nat -> closing_slash (List.length a + k) (a ++ 47 :: flags) = Some (List.length a)).
  { induction k as [|k IH]; intros Hk.
    - rewrite Nat.add_0_r. pose proof (backslashes_trail a (47 :: flags)) as BT.
      assert (X : nth (List.length a) (a ++ 47 :: flags) 0 = 47) by (rewrite app_nth2, Nat.sub_diag by lia; reflexivity).
      destruct (List.length a) as [|n]; [lia|]. cbn [closing_slash]. rewrite X. change (47 =? 47) with true. cbn [negb].
      rewrite BT, E. reflexivity.
    - replace (List.length a + S k)%nat with (S (List.length a + k)) by lia. cbn [closing_slash].
      replace (S (List.length a + k)) with (List.length a + S k)%nat by lia.
      assert (X : nth (List.length a + S k) (a ++ 47 :: flags) 0 = nth k flags 0).
      { rewrite app_nth2 by lia. replace (List.length a + S k - List.length a)%nat with (S k) by lia. reflexivity. }
      rewrite X. destruct (Z.eqb_spec (nth k flags 0) 47) as [E2|_].
      + exfalso. apply N. rewrite <- E2. apply nth_In. lia.
      + cbn [negb]. apply IH. lia. }
  apply G. lia.
Qed.

Lemma split_ok p flags : complete p -> ~ In 47 flags -> split_regex (47 :: p ++ 47 :: flags) = Some (p, flags).
Proof.
  intros C N. unfold split_regex.
  replace (List.length (47%Z :: p ++ 47%Z :: flags) <? 2)%nat with false.
  2:{ symmetry. apply Nat.ltb_ge. cbn [List.length]. rewrite app_length. cbn [List.length]. lia. }
  cbn [nth orb]. change (47 =? 47) with true. cbn [negb].
  replace (List.length (47%Z :: p ++ 47%Z :: flags) - 1)%nat with (List.length (47%Z :: p) + List.length flags)%nat
    by (cbn [List.length]; rewrite app_length; cbn [List.length]; lia).
  change (47 :: p ++ 47 :: flags) with ((47 :: p) ++ 47 :: flags).
  rewrite closing_slash_ok; auto.
  - f_equal. f_equal.
    + cbn [app skipn List.length]. replace (S (List.length p) - 1)%nat with (List.length p) by lia.
      rewrite firstn_app, Nat.sub_diag, firstn_all. cbn [firstn]. apply app_nil_r.
    + rewrite skipn_app, skipn_all2 by lia. replace (List.length (47%Z :: p) + 1 - List.length (47%Z :: p))%nat with 1%nat by lia. reflexivity.
  - cbn [List.length]. lia.
  - cbn [trail]. change (47 =? 92) with false. cbv iota. now apply complete_even.
Qed.

(** ** The text of a pattern *)

Section Digits.
Variable is_digit : Z -> bool.
Hypothesis ascii_digits : forall c, decimal c -> is_digit c = true.

(** Escapes taken one by one: no octal escape of two or three digits that starts with 0. *)
Definition no_long_zero (e : list Z) : Prop := forall a t, e <> 48 :: a :: t.

(** What [literal_text] makes of an escaped character. *)
Definition escaped_char (c : Z) : option Z :=
  if c =? 110 then Some 10 else if c =? 114 then Some 13 else if c =? 116 then Some 9
  else if c =? 118 then Some 11 else if c =? 102 then Some 12 else if c =? 48 then Some 0
  else if rejected_escape c then None else if is_digit c then None else Some c.
Lemma literal_escaped c r : literal_text is_digit true (c :: r) =
  match escaped_char c with Some d => option_map (cons d) (literal_text is_digit false r) | None => None end.
Proof.
  cbn [literal_text]. unfold escaped_char. repeat match goal with |- context[if ?b then _ else _] => destruct b; [reflexivity|] end. reflexivity.
Qed.

(** The escapes of a kind [E], read with [U], are read by the rule. *)
Definition reads (U : Z -> list Z) (E : list Z -> list Z -> list Z -> Prop) : Prop :=
  forall e r u, E e r u -> exists c t, e = c :: t /\ forall d, escaped_char c = Some d -> t = [] /\ u = U d.

Lemma literal_whole U E p x : reads U E -> pattern_of U E p x -> forall t, literal_text is_digit false p = Some t ->
  x = lit (flat_map U t) REmpty.
Proof.
  intros RE. induction 1 as [|r x P IH|r x P IH|r x P IH|c r x NS P IH|e r u x Ee P IH]; intros t L.
  - cbn in L. injection L as <-. reflexivity.
  - cbn [literal_text] in L. change (94 =? 92) with false in L. cbv in L. discriminate.
  - cbn [literal_text] in L. change (36 =? 92) with false in L. cbv in L. discriminate.
  - cbn [literal_text] in L. change (46 =? 92) with false in L. cbv in L. discriminate.
  - cbn [literal_text] in L. rewrite (proj2 (Z.eqb_neq c 92)) in L by (intros ->; apply NS; cbn; tauto).
    destruct (rejected_char c); [discriminate|]. destruct (literal_text is_digit false r) as [t'|]; [|discriminate].
    injection L as <-. rewrite (IH t' eq_refl). cbn [flat_map]. now rewrite lit_app.
  - destruct (RE _ _ _ Ee) as (c & e' & -> & H).
    cbn [literal_text] in L. change (92 =? 92) with true in L. cbv iota in L. change ((c :: e') ++ r) with (c :: e' ++ r) in L.
    rewrite literal_escaped in L. destruct (escaped_char c) as [d|] eqn:EC; [|discriminate].
    destruct (H d eq_refl) as [-> ->]. cbn [app] in L. destruct (literal_text is_digit false r) as [t'|]; [|discriminate].
    injection L as <-. rewrite (IH t' eq_refl). cbn [flat_map]. now rewrite lit_app.
Qed.

Lemma literal_end U E p x : reads U E -> pattern_of U E p x -> forall q t, p = q ++ [36] -> literal_text is_digit false q = Some t ->
  x = lit (flat_map U t) (RSeq REnd REmpty).
Proof.
  intros RE. induction 1 as [|r x P IH|r x P IH|r x P IH|c r x NS P IH|e r u x Ee P IH]; intros q t EQ L.
  - destruct q; discriminate.
  - destruct q as [|y q]; [discriminate|]. injection EQ as <- EQ. cbn [literal_text] in L. change (94 =? 92) with false in L. cbv in L. discriminate.
  - destruct q as [|y q].
    + injection EQ as ->. cbn in L. injection L as <-. inversion P. reflexivity.
    + injection EQ as <- EQ. cbn [literal_text] in L. change (36 =? 92) with false in L. cbv in L. discriminate.
  - destruct q as [|y q]; [discriminate|]. injection EQ as <- EQ. cbn [literal_text] in L. change (46 =? 92) with false in L. cbv in L. discriminate.
  - destruct q as [|y q].
    + injection EQ as -> ->. exfalso. apply NS. cbn. tauto.
    + injection EQ as <- EQ. cbn [literal_text] in L. rewrite (proj2 (Z.eqb_neq c 92)) in L by (intros ->; apply NS; cbn; tauto).
      destruct (rejected_char c); [discriminate|]. destruct (literal_text is_digit false q) as [t'|] eqn:EL; [|discriminate].
      injection L as <-. rewrite (IH q t' EQ EL). cbn [flat_map]. now rewrite lit_app.
  - destruct (RE _ _ _ Ee) as (c & e' & -> & H).
    destruct q as [|y q]; [discriminate|]. injection EQ as <- EQ.
    cbn [literal_text] in L. change (92 =? 92) with true in L. cbv iota in L.
    destruct q as [|y q].
    { cbn in L. discriminate. }
    injection EQ as <- EQ. rewrite literal_escaped in L. destruct (escaped_char c) as [d|] eqn:EC; [|discriminate].
    destruct (H d eq_refl) as [-> ->]. cbn [app] in EQ. destruct (literal_text is_digit false q) as [t'|] eqn:EL; [|discriminate].
    injection L as <-. rewrite (IH q t' EQ EL). cbn [flat_map]. now rewrite lit_app.
Qed.

Lemma rejected_special c : special_letter c -> rejected_escape c = true.
Proof.
  unfold special_letter, rejected_escape. intros I. apply existsb_exists. exists c. rewrite Z.eqb_refl. split; [|auto].
  cbn [In] in *. lia.
Qed.
Lemma escaped_special c : special_letter c -> escaped_char c = None.
Proof.
  intros S. pose proof (rejected_special c S) as R. unfold special_letter in S. cbn [In] in S. unfold escaped_char.
  rewrite !(proj2 (Z.eqb_neq c 110)), (proj2 (Z.eqb_neq c 114)), (proj2 (Z.eqb_neq c 116)), (proj2 (Z.eqb_neq c 118)),
    (proj2 (Z.eqb_neq c 102)), (proj2 (Z.eqb_neq c 48)) by lia. now rewrite R.
Qed.
Lemma escaped_octal c : octal c -> c <> 48 -> escaped_char c = None.
Proof.
  intros S N. unfold octal in S. unfold escaped_char.
  rewrite !(proj2 (Z.eqb_neq c 110)), (proj2 (Z.eqb_neq c 114)), (proj2 (Z.eqb_neq c 116)), (proj2 (Z.eqb_neq c 118)),
    (proj2 (Z.eqb_neq c 102)), (proj2 (Z.eqb_neq c 48)) by lia.
  destruct (rejected_escape c); [auto|]. now rewrite ascii_digits by (unfold decimal; lia).
Qed.
Lemma escaped_control c v d : control c v -> escaped_char c = Some d -> d = v /\ d < 65536.
Proof. destruct 1; cbn; intros [= <-]; lia. Qed.
Lemma escaped_self c d : (forall v, ~ control c v) -> c <> 48 -> escaped_char c = Some d -> d = c.
Proof.
  intros N N0. unfold escaped_char.
  destruct (Z.eqb_spec c 110) as [->|_]; [exfalso; eapply N; constructor|].
  destruct (Z.eqb_spec c 114) as [->|_]; [exfalso; eapply N; constructor|].
  destruct (Z.eqb_spec c 116) as [->|_]; [exfalso; eapply N; constructor|].
  destruct (Z.eqb_spec c 118) as [->|_]; [exfalso; eapply N; constructor|].
  destruct (Z.eqb_spec c 102) as [->|_]; [exfalso; eapply N; constructor|].
  rewrite (proj2 (Z.eqb_neq c 48)) by auto.
  destruct (rejected_escape c); [discriminate|]. destruct (is_digit c); [discriminate|]. congruence.
Qed.

Lemma units_small d : d < 65536 -> units d = [d].
Proof. intros H. unfold units. now rewrite (proj2 (Z.ltb_lt d 65536)) by auto. Qed.

Lemma reads_cescape : reads units (fun e r u => cescape e r u /\ no_long_zero e).
Proof.
  intros e r u [H NZ].
  inversion H as [c v r0 K|r0 K|a c v r0 K|a c d e0 v r0 K|l r0 K|a r0 K K2|a c r0 K K2 K3|a c d r0 K K2 K3|c r0 K1 K2 K3]; subst; do 2 eexists; (split; [reflexivity|]); intros y EC.
  - split; [auto|]. destruct (escaped_control _ _ _ K EC) as [-> L]. now rewrite units_small.
  - split; [auto|]. cbn in EC. injection EC as <-. reflexivity.
  - rewrite escaped_special in EC by (cbn; tauto). discriminate.
  - rewrite escaped_special in EC by (cbn; tauto). discriminate.
  - rewrite escaped_special in EC by (cbn; tauto). discriminate.
  - rewrite escaped_octal in EC by (unfold octal; lia). discriminate.
  - destruct (Z.eq_dec a 48) as [->|N]; [exfalso; now apply (NZ c [])|].
    rewrite escaped_octal in EC by auto. discriminate.
  - destruct (Z.eq_dec a 48) as [->|N]; [exfalso; now apply (NZ c [d])|].
    rewrite escaped_octal in EC by (auto; unfold octal; lia). discriminate.
  - split; [auto|]. f_equal. symmetry. eapply escaped_self; eauto. intros ->. apply K2. unfold octal. lia.
Qed.
Lemma reads_ucescape : reads (fun c => [c]) ucescape.
Proof.
  intros e r u H.
  inversion H as [c v r0 K|r0 K|c r0 K]; subst; do 2 eexists; (split; [reflexivity|]); intros y EC; (split; [auto|]).
  - destruct (escaped_control _ _ _ K EC) as [-> L]. auto.
  - cbn in EC. injection EC as <-. reflexivity.
  - f_equal. symmetry. unfold syntax_char in K. cbn [In] in K. eapply escaped_self; eauto; [|lia].
    intros v C. inversion C; lia.
Qed.

(** No dangling backslash in a pattern. *)
Lemma complete_app a r : (forall c, In c a -> c <> 92) -> complete r -> complete (a ++ r).
Proof. induction a as [|c a IH]; intros H C; [auto|]. cbn [app]. apply cp_char; [apply H; now left|]. apply IH; auto. intros d I. apply H. now right. Qed.
Lemma pattern_complete (U : Z -> list Z) (E : list Z -> list Z -> list Z -> Prop) p x : (forall e r u, E e r u -> exists c t, e = c :: t /\ forall d, In d t -> d <> 92) ->
  pattern_of U E p x -> complete p.
Proof.
  intros HE. induction 1 as [|r x P IH|r x P IH|r x P IH|c r x NS P IH|e r u x Ee P IH].
  - constructor.
  - apply cp_char; [lia|auto].
  - apply cp_char; [lia|auto].
  - apply cp_char; [lia|auto].
  - apply cp_char; [intros ->; apply NS; cbn; tauto|auto].
  - destruct (HE _ _ _ Ee) as (c & t & -> & N). cbn [app]. apply cp_esc. now apply complete_app.
Qed.
Lemma hexd_not92 c v : hexd c v -> c <> 92.
Proof. inversion 1; lia. Qed.
Lemma hexs_not92 l : forall acc v, hexs acc l v -> forall c, In c l -> c <> 92.
Proof. induction l as [|d l IH]; intros acc v H c I; [easy|]. inversion H; subst. destruct I as [->|I]; [eapply hexd_not92; eauto|eapply IH; eauto]. Qed.
Lemma cescape_complete e r u : cescape e r u -> exists c t, e = c :: t /\ forall d, In d t -> d <> 92.
Proof.
  inversion 1 as [c v r0 K|r0 K|a c v r0 K|a c d e0 v r0 K|l r0 K|a r0 K K2|a c r0 K K2 K3|a c d r0 K K2 K3|c r0 K1 K2 K3]; subst;
    do 2 eexists; (split; [reflexivity|]); intros y I; try easy.
  - exact (hexs_not92 _ _ _ K y I).
  - exact (hexs_not92 _ _ _ K y I).
  - destruct I as [<-|[]]. lia.
  - destruct I as [<-|[]]. unfold octal in K2. lia.
  - destruct I as [<-|[<-|[]]]; unfold octal in *; lia.
Qed.
Lemma ucescape_complete e r u : ucescape e r u -> exists c t, e = c :: t /\ forall d, In d t -> d <> 92.
Proof. inversion 1; subst; do 2 eexists; (split; [reflexivity|]); easy. Qed.

(** Scalars stay scalars. *)
Lemma literal_scalar p : Forall scalar p -> forall b t, literal_text is_digit b p = Some t -> Forall scalar t.
Proof.
  induction 1 as [|c p Hc F IH]; intros b t L.
  - cbn in L. destruct b; [discriminate|]. injection L as <-. constructor.
  - assert (OM : forall d r, scalar d -> literal_text is_digit false p = r -> forall t, option_map (cons d) r = Some t -> Forall scalar t).
    { intros d r Hd Hr t' E. destruct r as [r|]; [|discriminate]. injection E as <-. constructor; [auto|]. eapply IH. exact Hr. }
    cbn [literal_text] in L. destruct b.
    + repeat match type of L with (if ?b then _ else _) = _ => destruct b end; try discriminate;
        (eapply OM; [|reflexivity|exact L]); auto; left; lia.
    + destruct (c =? 92); [eapply IH; eauto|]. destruct (rejected_char c); [discriminate|]. eapply OM; eauto.
Qed.
End Digits.

(** ** Quoting *)
Lemma hexc_ok d : 0 <= d < 16 -> hexd (hexc d) d.
Proof.
  intros H. unfold hexc. destruct (Z.ltb_spec d 10).
  - replace d with (48 + d - 48) at 2 by lia. constructor. lia.
  - replace d with (87 + d - 87) at 2 by lia. apply hex_low. lia.
Qed.
Lemma hex2 c : 0 <= c < 256 -> exists x y, hex_digits 2 c = [x; y] /\ hexs 0 [x; y] c.
Proof.
  intros H. exists (hexc (c / 16 mod 16)), (hexc (c mod 16)). split; [reflexivity|].
  replace c with ((0 * 16 + c / 16 mod 16) * 16 + c mod 16) at 3 by zdm.
  repeat (econstructor; [apply hexc_ok; zdm|]). constructor.
Qed.
Lemma hex4 c : 0 <= c < 65536 -> exists x y z w, hex_digits 4 c = [x; y; z; w] /\ hexs 0 [x; y; z; w] c.
Proof.
  intros H. exists (hexc (c / 16 / 16 / 16 mod 16)), (hexc (c / 16 / 16 mod 16)), (hexc (c / 16 mod 16)), (hexc (c mod 16)). split; [reflexivity|].
  replace c with ((((0 * 16 + c / 16 / 16 / 16 mod 16) * 16 + c / 16 / 16 mod 16) * 16 + c / 16 mod 16) * 16 + c mod 16) at 5 by zdm.
  repeat (econstructor; [apply hexc_ok; zdm|]). constructor.
Qed.

Section Print.
Variable is_print : Z -> bool.
Hypothesis no_control : forall c, is_print c = true -> 32 <= c.
(** Characters that [strconv.Quote] writes in a way JavaScript understands. *)
Definition quotable (c : Z) : Prop := scalar c /\ c <> 7 /\ (c < 65536 \/ is_print c = true).

Lemma quote_chars strict t : Forall quotable t -> chars (Str 34 strict) (flat_map (quote_char is_print) t) (flat_map units t).
Proof.
  induction 1 as [|c t (Sc & N7 & B) F IH]; [constructor|]. cbn [flat_map]. unfold quote_char.
  assert (SG : forall e v, single e v -> c = v -> v < 65536 ->
    chars (Str 34 strict) ([92; e] ++ flat_map (quote_char is_print) t) (units c ++ flat_map units t)).
  { intros e v S -> L. rewrite units_small by auto. apply (c_esc _ [e]); [now constructor|auto]. }
  destruct (Z.eqb_spec c 34) as [E|N34]; [cbn [orb]; rewrite E at 1; eapply SG; [constructor|auto|lia]|].
  destruct (Z.eqb_spec c 92) as [E|N92]; [cbn [orb]; rewrite E at 1; eapply SG; [constructor|auto|lia]|]. cbn [orb].
  destruct (is_print c) eqn:P.
  { apply c_plain; [|auto]. specialize (no_control c P). repeat split; lia. }
  assert (L : c < 65536) by (destruct B; [auto|discriminate]).
  rewrite (proj2 (Z.eqb_neq c 7)) by auto.
  destruct (Z.eqb_spec c 8) as [E|_]; [eapply SG; [constructor|auto|lia]|].
  destruct (Z.eqb_spec c 12) as [E|_]; [eapply SG; [constructor|auto|lia]|].
  destruct (Z.eqb_spec c 10) as [E|_]; [eapply SG; [constructor|auto|lia]|].
  destruct (Z.eqb_spec c 13) as [E|_]; [eapply SG; [constructor|auto|lia]|].
  destruct (Z.eqb_spec c 9) as [E|_]; [eapply SG; [constructor|auto|lia]|].
  destruct (Z.eqb_spec c 11) as [E|_]; [eapply SG; [constructor|auto|lia]|].
  assert (P0 : 0 <= c) by (destruct Sc; lia).
  rewrite units_small by auto.
  destruct ((c <? 32) || (c =? 127)) eqn:HX.
  - assert (c < 256) by (apply orb_true_iff in HX; rewrite Z.ltb_lt, Z.eqb_eq in HX; lia).
    destruct (hex2 c) as (x & y & -> & H2); [lia|]. apply (c_esc _ [120; x; y]); [now constructor|auto].
  - rewrite (proj2 (Z.ltb_lt c 65536)) by auto. destruct (hex4 c) as (x & y & z & w & -> & H4); [lia|].
    apply (c_esc _ [117; x; y; z; w]); [now constructor|auto].
Qed.
End Print.
