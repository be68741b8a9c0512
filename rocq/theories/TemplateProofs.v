(** Lemmas on the model of no-unnecessary-template-expression: characters and values. *)
From Coq Require Import Bool List ZArith Lia Permutation Sorted.
From Verif Require Import Base JsText JsTextProofs JsTemplate Fixer Template Utf8Proofs.
Import ListNotations.
Open Scope Z_scope.

(** ** Unescaped dollar signs at the end *)

(** Reading forward: does the text end with a dollar sign that is not escaped? *)
Fixpoint fwd (esc : bool) (s : list Z) : bool :=
  match s with
  | [] => false
  | c :: r => match r with [] => negb esc && (c =? 36) | _ => fwd (negb esc && (c =? 92)) r end
  end.
Lemma fwd_snoc s : forall esc c, fwd esc (s ++ [c]) = Nat.even (count92 (rev s) + if forallb (Z.eqb 92) s then if esc then 1 else 0 else 0) && (c =? 36).
Proof.
  induction s as [|d s IH]; intros esc c.
  - destruct esc; reflexivity.
  - assert (X : fwd esc ((d :: s) ++ [c]) = fwd (negb esc && (d =? 92)) (s ++ [c])) by (destruct s; reflexivity).
    rewrite X, IH. f_equal.
    assert (Y : count92 (rev (d :: s)) = (count92 (rev s) + if forallb (Z.eqb 92) s then if (d =? 92)%Z then 1 else 0 else 0)%nat).
    { cbn [rev]. assert (G : forall l, count92 (l ++ [d]) = (count92 l + if forallb (Z.eqb 92) l then if (d =? 92)%Z then 1 else 0 else 0)%nat).
      { induction l as [|x l IHl]; cbn [app count92 forallb].
        - destruct (d =? 92); reflexivity.
        - rewrite (Z.eqb_sym 92 x). destruct (x =? 92); cbn [andb]; [rewrite IHl; lia|lia]. }
      rewrite G. f_equal. f_equal.
      enough (forallb (Z.eqb 92) (rev s) = forallb (Z.eqb 92) s) as -> by reflexivity.
      clear. induction s as [|x s IHs]; [reflexivity|]. cbn [rev forallb]. rewrite forallb_app, IHs. cbn [forallb]. rewrite andb_true_r. apply andb_comm. }
    rewrite Y. cbn [forallb]. rewrite (Z.eqb_sym 92 d). destruct (forallb (Z.eqb 92) s).
    + destruct (d =? 92); cbn [andb]; destruct esc; cbn [negb andb]; rewrite ?Nat.add_0_r; auto.
      rewrite <- Nat.add_assoc, Nat.even_add. cbn. now destruct (Nat.even _).
    + rewrite !Nat.add_0_r. destruct (d =? 92); cbn [andb]; now rewrite ?Nat.add_0_r.
Qed.
Lemma ends_dollar_fwd s : ends_dollar s = fwd false s.
Proof.
  destruct s as [|c s _] using rev_ind; [reflexivity|].
  unfold ends_dollar. rewrite rev_app_distr. cbn [rev app]. rewrite fwd_snoc.
  replace (if forallb (Z.eqb 92) s then 0%nat else 0%nat) with 0%nat by (destruct forallb; reflexivity).
  rewrite Nat.add_0_r. destruct (c =? 36); now rewrite ?andb_true_r, ?andb_false_r.
Qed.
Lemma fwd_last esc s : fwd esc s = true -> exists a, s = a ++ [36].
Proof.
  destruct s as [|c s _] using rev_ind; [discriminate|]. rewrite fwd_snoc. intros E. apply andb_prop in E.
  destruct E as [_ E%Z.eqb_eq]. subst c. eauto.
Qed.
Lemma fwd_plain c r : c <> 92 -> r <> [] -> fwd false (c :: r) = fwd false r.
Proof. intros N R. destruct r; [easy|]. cbn [fwd negb andb]. now rewrite (proj2 (Z.eqb_neq c 92)). Qed.
Lemma fwd_escaped c r : fwd false (92 :: c :: r) = fwd false r.
Proof. cbn [fwd negb andb]. change (92 =? 92) with true. cbv iota. destruct r; reflexivity. Qed.

(** Characters that [fwd] and the escaping do not look at. *)
Definition dull (c : Z) : Prop := c <> 92 /\ c <> 36 /\ c <> 96.
Lemma fwd_dull l : Forall dull l -> forall r, fwd false (l ++ r) = fwd false r.
Proof.
  induction 1 as [|c l (D1 & D2 & _) F IH]; intros r; [reflexivity|]. cbn [app].
  destruct (l ++ r) eqn:E.
  - apply app_eq_nil in E. destruct E as [-> ->]. cbn [fwd negb andb]. now apply Z.eqb_neq.
  - rewrite <- E, fwd_plain; [apply IH|auto|congruence].
Qed.

Lemma hexd_dull c v : hexd c v -> dull c.
Proof. inversion 1; unfold dull; lia. Qed.
Lemma hexs_dull l : forall acc v, hexs acc l v -> Forall dull l.
Proof. induction l; intros acc v; inversion 1; subst; constructor; eauto using hexd_dull. Qed.
(** The characters of an escape after the first are dull. *)
Lemma escape_dull m e r u : escape m e r u -> exists c l, e = c :: l /\ Forall dull l.
Proof.
  assert (O : forall c, octal c -> dull c) by (unfold octal, dull; lia).
  inversion 1; subst.
  - exists c, []; auto.
  - exists c, []; auto.
  - exists 48, []; auto.
  - exists 120, [a; b]. split; [auto|]. eapply hexs_dull; eauto.
  - exists 117, [a; b; c; d]. split; [auto|]. eapply hexs_dull; eauto.
  - exists 117, (123 :: ds ++ [125]). split; [auto|]. constructor; [unfold dull; lia|].
    apply Forall_app. split; [eapply hexs_dull; eauto|]. constructor; [unfold dull; lia|auto].
  - exists c, []; auto.
  - exists 13, [10]. split; [auto|]. constructor; [unfold dull; lia|auto].
  - exists 48, []; auto.
  - exists c, []; auto.
  - exists a, []; auto.
  - exists a, [b]; split; auto.
  - exists a, [b; c]; split; auto.
Qed.
Lemma fwd_escape m e r u : escape m e r u -> fwd false (92 :: e ++ r) = fwd false r.
Proof.
  intros X. destruct (escape_dull _ _ _ _ X) as (c & l & -> & D). cbn [app]. rewrite fwd_escaped. now apply fwd_dull.
Qed.

Lemma chars_complete m s v : chars m s v -> complete s.
Proof.
  induction 1 as [|c r v [N _] _ IH|e r u v X _ IH|r v _ _ _ IH|r v _ _ IH].
  - constructor.
  - constructor; auto.
  - destruct (escape_dull _ _ _ _ X) as (c & l & -> & D). cbn [app]. apply cp_esc.
    clear - D IH. induction D as [|d l (D & _) _ IHD]; [auto|]. cbn [app]. constructor; auto.
  - constructor; [lia|auto].
  - constructor; [lia|]. constructor; [lia|auto].
Qed.

(** ** Joining two texts *)

Lemma complete_dull l r : Forall dull l -> complete r -> complete (l ++ r).
Proof. induction 1 as [|c l (D & _) _ IH]; intros R; [auto|]. cbn [app]. constructor; auto. Qed.
Lemma closed_char c r : c <> 92 -> closed (c :: r) -> closed r.
Proof.
  intros N K [(a & ->)|(a & A & ->)]; apply K.
  - left. now exists (c :: a).
  - right. exists (c :: a). split; [now constructor|reflexivity].
Qed.
Lemma closed_escape m e r u : escape m e r u -> closed (92 :: e ++ r) -> closed r.
Proof.
  intros X. destruct (escape_dull _ _ _ _ X) as (c & l & -> & D). intros K [(a & ->)|(a & A & ->)]; apply K.
  - left. exists (92 :: c :: l ++ a). cbn [app]. now rewrite <- app_assoc.
  - right. exists (92 :: c :: l ++ a). split; [constructor; now apply complete_dull|]. cbn [app]. now rewrite <- app_assoc.
Qed.

Lemma next_app P r s : next_is P (r ++ s) -> next_is P r \/ (r = [] /\ next_is P s).
Proof.
  destruct r as [|c r]; [auto|]. intros (d & t & [= <- _] & Pd). left. exists c, r. auto.
Qed.
Lemma escape_app e r u s : escape Tpl e r u -> closed (92 :: e ++ r) -> escape Tpl e (r ++ s) u.
Proof.
  intros X K. inversion X; subst;
    try match goal with S : sloppy_string Tpl |- _ => destruct S; discriminate end; try (constructor; auto; fail).
  - apply e_zero. intros [I|[-> _]]%next_app; [auto|]. apply K. right. exists []. split; [constructor|reflexivity].
  - apply e_line; auto. intros E [I|[-> _]]%next_app; [match goal with Q : c = 13 -> _ |- _ => now apply (Q E) end|]. subst c. apply K. left. exists [92]. reflexivity.
Qed.
Lemma chars_app s v : chars Tpl s v -> forall t w, chars Tpl t w -> closed s ->
  (next_is (eq 123) t -> fwd false s = false) -> chars Tpl (s ++ t) (v ++ w).
Proof.
  induction 1 as [|c r v [N P] X IH|e r u v E X IH|r v M N X IH|r v M X IH]; intros t w T K D; cbn [app].
  - auto.
  - rewrite <- app_assoc. apply c_plain.
    + split; [auto|]. destruct P as (P1 & P2 & P3). repeat split; auto.
      intros -> [I|[-> I]]%next_app; [now apply P3|]. specialize (D I). discriminate.
    + apply IH; [auto|eapply closed_char; eauto|]. intros I. destruct r as [|d r]; [reflexivity|].
      rewrite fwd_plain in D by (auto; discriminate). exact (D I).
  - rewrite <- !app_assoc. apply c_esc.
    + now apply escape_app.
    + apply IH; [auto|eapply closed_escape; eauto|]. intros I. erewrite fwd_escape in D by eauto. exact (D I).
  - apply c_cr; auto.
    + intros [I|[-> _]]%next_app; [auto|]. apply K. left. now exists [].
    + apply IH; [auto|eapply closed_char; [|eauto]; lia|]. intros I. destruct r as [|d r]; [reflexivity|].
      rewrite fwd_plain in D by (lia || discriminate). exact (D I).
  - apply c_crlf; auto. apply IH; auto.
    + eapply closed_char with (c := 10); [lia|]. eapply closed_char; [|eauto]. lia.
    + intros I. destruct r as [|d r]; [reflexivity|].
      rewrite fwd_plain, fwd_plain in D by (lia || discriminate). exact (D I).
Qed.

(** ** A dollar sign at the end may be escaped *)
Lemma self_escape c r : c = 96 \/ c = 36 -> escape Tpl [c] r (units c).
Proof.
  intros E. apply e_self; unfold decimal, newline; try lia. intros v S. destruct S; lia.
Qed.
Lemma units_id c : c < 65536 -> units c = [c].
Proof. intros L. unfold units. now rewrite (proj2 (Z.ltb_lt c 65536) L). Qed.
Lemma escape_snoc e a u : escape Tpl e (a ++ [36]) u -> escape Tpl e (a ++ [92; 36]) u.
Proof.
  assert (G : forall P : Z -> Prop, ~ P 92 -> ~ next_is P (a ++ [36]) -> ~ next_is P (a ++ [92; 36])).
  { intros P P1 N [I|[-> (c & t & [= <- _] & I)]]%next_app; [|easy]. apply N. destruct I as (c & t & -> & I). exists c, (t ++ [36]). auto. }
  intros X. inversion X; subst;
    try match goal with S : sloppy_string Tpl |- _ => destruct S; discriminate end; try (constructor; auto; fail).
  - apply e_zero. apply G; auto. unfold decimal. lia.
  - apply e_line; auto. intros E. apply G; [lia|auto].
Qed.
Lemma dollar_escaped s v : chars Tpl s v -> forall a, s = a ++ [36] -> fwd false s = true -> chars Tpl (a ++ [92; 36]) v.
Proof.
  assert (G : forall (P : Z -> Prop) a, ~ P 92 -> ~ next_is P (a ++ [36]) -> ~ next_is P (a ++ [92; 36])).
  { intros P a P1 N [I|[-> (c & t & [= <- _] & I)]]%next_app; [|easy]. apply N. destruct I as (c & t & -> & I). exists c, (t ++ [36]). auto. }
  induction 1 as [|c r v [N P] X IH|e r u v E X IH|r v M N X IH|r v M X IH]; intros a A F.
  - destruct a; discriminate.
  - destruct a as [|d a].
    + injection A as -> ->. inversion X; subst. apply (c_esc Tpl [36] [] (units 36) []); [apply self_escape; auto|constructor].
    + injection A as <- ->. cbn [app]. apply c_plain.
      * split; [auto|]. destruct P as (P1 & P2 & P3). repeat split; auto. intros E. apply G; [lia|auto].
      * apply IH; [auto|]. rewrite <- F. symmetry. apply fwd_plain; [auto|destruct a; discriminate].
  - assert (F' : fwd false r = true) by (erewrite <- fwd_escape; eauto).
    destruct (fwd_last _ _ F') as (a' & ->).
    assert (A' : a = 92 :: e ++ a').
    { assert (Q : (92 :: e ++ a') ++ [36] = a ++ [36]) by (rewrite <- A; cbn [app]; now rewrite <- app_assoc).
      apply app_inj_tail in Q. destruct Q as [Q _]. auto. }
    subst a. cbn [app]. rewrite <- app_assoc. apply c_esc; [now apply escape_snoc|]. now apply IH.
  - destruct a as [|d a]; [discriminate|]. injection A as <- ->. cbn [app]. apply c_cr; auto.
    + apply G; [lia|auto].
    + apply IH; auto. rewrite <- F. symmetry. apply fwd_plain; [lia|destruct a; discriminate].
  - destruct a as [|d a]; [discriminate|]. injection A as <- A. destruct a as [|d a]; [discriminate|]. injection A as <- ->.
    cbn [app]. apply c_crlf; auto. apply IH; auto. rewrite <- F.
    rewrite fwd_plain, fwd_plain; auto; try lia; destruct a; discriminate.
Qed.
Lemma closed_dollar a : closed (a ++ [92; 36]).
Proof.
  intros [(x & E)|(x & _ & E)].
  - change (a ++ [92; 36]) with (a ++ [92] ++ [36]) in E. rewrite app_assoc in E. apply app_inj_tail in E. lia.
  - change (x ++ [92; 48]) with (x ++ [92] ++ [48]) in E. change (a ++ [92; 36]) with (a ++ [92] ++ [36]) in E.
    rewrite !app_assoc in E. apply app_inj_tail in E. lia.
Qed.

(** ** Open ends, read forward *)
Fixpoint fopen (esc : bool) (s : list Z) : bool :=
  match s with
  | [] => false
  | c :: r => match r with [] => (c =? 13) || (esc && (c =? 48)) | _ => fopen (negb esc && (c =? 92)) r end
  end.
Lemma fopen_cons esc c r : r <> [] -> fopen esc (c :: r) = fopen (negb esc && (c =? 92)) r.
Proof. now destruct r. Qed.
Lemma fopen_13 a : forall esc, fopen esc (a ++ [13]) = true.
Proof.
  induction a as [|c a IH]; intros esc; [reflexivity|]. cbn [app]. rewrite fopen_cons by (destruct a; discriminate). apply IH.
Qed.
Lemma fopen_0 a : complete a -> fopen false (a ++ [92; 48]) = true.
Proof.
  induction 1 as [|c a N _ IH|c a _ IH]; [reflexivity| |]; cbn [app].
  - rewrite fopen_cons by (destruct a; discriminate). now rewrite (proj2 (Z.eqb_neq c 92)).
  - rewrite fopen_cons by discriminate. rewrite fopen_cons by (destruct a; discriminate). exact IH.
Qed.
Lemma fopen_open s : forall esc, fopen esc s = true ->
  (exists a, s = a ++ [13]) \/
  (exists a, (if esc then exists c t, a = c :: t /\ complete t else complete a) /\ s = a ++ [92; 48]) \/ (esc = true /\ s = [48]).
Proof.
  induction s as [|c r IH]; intros esc F; [discriminate|].
  destruct r as [|d r].
  - cbn [fopen] in F. apply orb_prop in F. destruct F as [->%Z.eqb_eq|[-> ->%Z.eqb_eq]%andb_prop]; [left; now exists []|auto].
  - rewrite fopen_cons in F by discriminate. apply IH in F. destruct F as [(a & ->)|[(a & A & ->)|[E X]]].
    + left. now exists (c :: a).
    + right; left. exists (c :: a). split; [|reflexivity]. destruct esc; cbn [negb andb] in A.
      * eauto.
      * destruct (Z.eqb_spec c 92) as [->|N]; [destruct A as (x & t & -> & A); now constructor|now constructor].
    + destruct esc; [discriminate|]. cbn [negb andb] in E. apply Z.eqb_eq in E. subst c. rewrite X.
      right; left. exists []. split; [constructor|reflexivity].
Qed.
Lemma closed_fopen s : closed s <-> fopen false s = false.
Proof.
  unfold closed. split.
  - intros K. destruct (fopen false s) eqn:F; [|reflexivity]. exfalso. apply K.
    destruct (fopen_open _ _ F) as [X|[X|[[=] _]]]; [now left|now right].
  - intros F [(a & ->)|(a & A & ->)]; [rewrite fopen_13 in F; discriminate|rewrite fopen_0 in F by auto; discriminate].
Qed.
Lemma fopen_escape m e r u : escape m e r u -> r <> [] -> fopen false (92 :: e ++ r) = fopen false r.
Proof.
  intros X N. destruct (escape_dull _ _ _ _ X) as (c & l & -> & D). cbn [app].
  rewrite fopen_cons by discriminate. rewrite fopen_cons by (destruct l; [exact N|discriminate]). cbn [negb andb].
  clear X. induction D as [|d l (D & _) _ IH]; [reflexivity|]. cbn [app].
  rewrite fopen_cons by (destruct l; [exact N|discriminate]). cbn [negb andb]. now rewrite (proj2 (Z.eqb_neq d 92)).
Qed.

(** ** Escaping *)
Lemma escape_dull_text l : Forall dull l -> forall before r, Nat.even (count92 before) = true ->
  exists before', Nat.even (count92 before') = true /\ escape_from before (l ++ r) = l ++ escape_from before' r.
Proof.
  induction 1 as [|c l (D1 & D2 & D3) _ IH]; intros before r E; [eauto|].
  cbn [app escape_from]. rewrite (proj2 (Z.eqb_neq c 96)), (proj2 (Z.eqb_neq c 36)) by auto. cbn [orb andb].
  destruct (IH (c :: before) r) as (b' & Eb & ->).
  { cbn [count92]. now rewrite (proj2 (Z.eqb_neq c 92)). }
  exists b'. auto.
Qed.
Lemma escape_escape m e r u before : escape m e r u -> Nat.even (count92 before) = true ->
  exists before', Nat.even (count92 before') = true /\ escape_from before (92 :: e ++ r) = 92 :: e ++ escape_from before' r.
Proof.
  intros X E. destruct (escape_dull _ _ _ _ X) as (c & l & -> & D). cbn [app escape_from].
  change (92 =? 96) with false. change (92 =? 36) with false. cbn [orb andb app].
  assert (O : Nat.even (count92 (92 :: before)) = false).
  { cbn [count92]. change (92 =? 92) with true. cbv iota. rewrite Nat.even_succ, <- Nat.negb_even, E. reflexivity. }
  rewrite O, andb_false_r. cbn [app].
  destruct (escape_dull_text l D (c :: 92 :: before) r) as (b' & Eb & ->).
  { cbn [count92]. change (92 =? 92) with true. cbv iota. destruct (c =? 92); [now cbn|reflexivity]. }
  eauto.
Qed.
Lemma escape_from_nil before r : escape_from before r = [] -> r = [].
Proof. destruct r; [auto|]. cbn [escape_from]. destruct (_ && _); discriminate. Qed.
(** The first character is kept or is a backslash. *)
Lemma escape_first P before r : ~ P 92 -> next_is P (escape_from before r) -> next_is P r.
Proof.
  intros N. destruct r as [|c r]; [auto|]. cbn [escape_from]. destruct (_ && _); cbn [app]; intros (d & t & [= <- _] & I); [easy|].
  exists c, r. auto.
Qed.

Definition copyable (m : place) : Prop := m = Tpl \/ exists q, m = Str q true.
Lemma copyable_escape m e r u before : copyable m -> escape m e r u -> escape Tpl e (escape_from before r) u.
Proof.
  intros M X.
  assert (S : ~ sloppy_string m) by (intros (q & ->); destruct M as [|(? & ?)]; congruence).
  inversion X; subst; try easy; try (constructor; auto; fail).
  - apply e_zero. intros I. apply escape_first in I; [auto|unfold decimal; lia].
  - apply e_line; auto. intros E I. apply escape_first in I; [|lia]. match goal with Q : c = 13 -> _ |- _ => now apply (Q E) end.
Qed.
Lemma plain_copy m c r before : copyable m -> plain m c r ->
  let needs := (c =? 96) || ((c =? 36) && match r with d :: _ => d =? 123 | [] => false end) in
  needs = false -> plain Tpl c (escape_from before r).
Proof.
  intros M (N & P) needs E. split; [auto|]. unfold needs in E. apply orb_false_elim in E. destruct E as [E1 E2].
  apply Z.eqb_neq in E1. split; [auto|]. split.
  - destruct M as [->|(q & ->)]; tauto.
  - intros -> I. apply escape_first in I; [|lia]. destruct I as (d & t & -> & <-). discriminate.
Qed.
Lemma escape_from_ok m s v : copyable m -> chars m s v -> forall before, Nat.even (count92 before) = true ->
  chars Tpl (escape_from before s) v /\ (fopen false s = false -> fopen false (escape_from before s) = false).
Proof.
  intros M. induction 1 as [|c r v P X IH|e r u v E X IH|r v -> N X IH|r v -> X IH]; intros before B.
  - split; auto. constructor.
  - destruct (IH (c :: before)) as [IH1 IH2].
    { cbn [count92]. destruct P as (P & _). now rewrite (proj2 (Z.eqb_neq c 92)). }
    cbn [escape_from]. rewrite B, andb_true_r.
    destruct ((c =? 96) || _) eqn:Q; cbn [app].
    + assert (CC : c = 96 \/ c = 36).
      { apply orb_prop in Q. destruct Q as [Q|Q]; [left; now apply Z.eqb_eq|right]. apply andb_prop in Q. now apply Z.eqb_eq. }
      split.
      * apply (c_esc Tpl [c]); auto. now apply self_escape.
      * intros F. rewrite fopen_cons by discriminate. change (negb false && (92 =? 92)) with true.
        destruct r as [|d r].
        { cbn [escape_from fopen]. destruct CC as [->| ->]; reflexivity. }
        rewrite fopen_cons in F by discriminate. rewrite (proj2 (Z.eqb_neq c 92)) in F by lia.
        rewrite fopen_cons by (intros Y%escape_from_nil; discriminate). cbn [negb andb]. now apply IH2.
    + split.
      * apply c_plain; [|auto]. eapply plain_copy; eauto.
      * intros F. destruct r as [|d r]; [exact F|]. rewrite fopen_cons in F by discriminate.
        rewrite fopen_cons by (intros Y%escape_from_nil; discriminate).
        destruct P as (P & _). rewrite (proj2 (Z.eqb_neq c 92)) in F |- * by auto. now apply IH2.
  - destruct (escape_escape _ _ _ _ _ E B) as (b' & Eb & ->). destruct (IH b' Eb) as [IH1 IH2]. split.
    + apply c_esc; auto. eapply copyable_escape; eauto.
    + intros F. destruct r as [|d r]; [exact F|]. erewrite fopen_escape in F |- *; eauto; [discriminate| |].
      * eapply copyable_escape; eauto.
      * intros Y%escape_from_nil; discriminate.
  - destruct (IH (13 :: before)) as [IH1 IH2]; [reflexivity|]. cbn [escape_from]. change (13 =? 96) with false. change (13 =? 36) with false.
    cbn [orb andb app]. split.
    + apply c_cr; auto. intros I. apply escape_first in I; [auto|lia].
    + intros F. destruct r as [|d r]; [exact F|]. rewrite fopen_cons in F by discriminate.
      rewrite fopen_cons by (intros Y%escape_from_nil; discriminate). now apply IH2.
  - destruct (IH (10 :: 13 :: before)) as [IH1 IH2]; [reflexivity|]. cbn [escape_from]. change (13 =? 96) with false. change (13 =? 36) with false.
    change (10 =? 96) with false. change (10 =? 36) with false. cbn [orb andb app]. split.
    + apply c_crlf; auto.
    + intros F. destruct r as [|d r]; [exact F|]. rewrite fopen_cons, fopen_cons in F by discriminate.
      rewrite fopen_cons by discriminate. rewrite fopen_cons by (intros Y%escape_from_nil; discriminate). now apply IH2.
Qed.

(** Regular expressions: every backslash is doubled first. *)
Lemma doubled_ok t : Forall (fun c => c <> 13) t -> forall before, Nat.even (count92 before) = true ->
  chars Tpl (escape_from before (double_backslashes t)) (flat_map units t) /\ fopen false (escape_from before (double_backslashes t)) = false.
Proof.
  induction 1 as [|c t N F IH]; intros before B; [split; [constructor|reflexivity]|].
  cbn [double_backslashes flat_map]. fold (double_backslashes t). destruct (Z.eqb_spec c 92) as [->|N2].
  - cbn [app escape_from]. change (92 =? 96) with false. change (92 =? 36) with false. cbn [orb andb app].
    destruct (IH (92 :: 92 :: before)) as [IH1 IH2]; [now cbn|]. split.
    + apply (c_esc Tpl [92] _ [92]); auto. constructor. constructor.
    + destruct (escape_from _ _) eqn:Y; [reflexivity|]. rewrite fopen_cons, fopen_cons by discriminate. exact IH2.
  - destruct (IH (c :: before)) as [IH1 IH2]; [cbn [count92]; now rewrite (proj2 (Z.eqb_neq c 92))|].
    cbn [app escape_from]. rewrite B, andb_true_r. destruct ((c =? 96) || _) eqn:Q; cbn [app].
    + assert (CC : c = 96 \/ c = 36).
      { apply orb_prop in Q. destruct Q as [Q|Q]; [left; now apply Z.eqb_eq|right]. apply andb_prop in Q. now apply Z.eqb_eq. }
      split.
      * apply (c_esc Tpl [c]); auto. now apply self_escape.
      * destruct (escape_from _ _) eqn:Y; [cbn; destruct CC as [->| ->]; reflexivity|]. rewrite fopen_cons, fopen_cons by discriminate. exact IH2.
    + apply orb_false_elim in Q. destruct Q as [Q1%Z.eqb_neq Q2]. split.
      * apply c_plain; [|auto]. split; [auto|]. repeat split; auto. intros -> I. apply escape_first in I; [|lia].
        destruct I as (d & r & E & <-). rewrite E in Q2. discriminate.
      * destruct (escape_from _ _) eqn:Y; [cbn [fopen negb andb orb]; rewrite orb_false_r; now apply Z.eqb_neq|].
        rewrite fopen_cons by discriminate. cbn [negb andb]. rewrite (proj2 (Z.eqb_neq c 92)) by auto. exact IH2.
Qed.

(** Words and numbers: nothing to escape. *)
Lemma word_dull c : word_char c -> dull c.
Proof. unfold word_char, dull. lia. Qed.
Lemma word_ok t : Forall word_char t -> chars Tpl t t /\ fopen false t = false /\ fwd false t = false /\ ~ next_is (eq 123) t /\ forall before, escape_from before t = t.
Proof.
  induction 1 as [|c t W F (IH1 & IH2 & IH3 & IH4 & IH5)].
  - repeat split; auto; [constructor|]. intros (? & ? & [=] & _).
  - assert (DC := word_dull _ W). destruct DC as (D1 & D2 & D3).
    assert (X : units c = [c]) by (apply units_id; unfold word_char in W; lia).
    repeat split.
    + change (chars Tpl (c :: t) ([c] ++ t)). rewrite <- X. apply c_plain; [|auto]. split; [auto|]. repeat split; auto; unfold word_char in W; lia.
    + destruct t; [cbn [fopen negb andb orb]; rewrite orb_false_r; apply Z.eqb_neq; unfold word_char in W; lia|].
      rewrite fopen_cons by discriminate. cbn [negb andb]. now rewrite (proj2 (Z.eqb_neq c 92)).
    + change (c :: t) with ([c] ++ t). rewrite fwd_dull; [auto|]. constructor; [now apply word_dull|auto].
    + intros (d & r & [= <- _] & E). subst c. unfold word_char in W. lia.
    + intros before. cbn [escape_from]. rewrite (proj2 (Z.eqb_neq c 96)), (proj2 (Z.eqb_neq c 36)) by auto. cbn [orb andb app]. now rewrite IH5.
Qed.
