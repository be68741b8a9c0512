(** C58: conversions to strings that end as [object Object] (no-base-to-string; Stringify.v, StringifySpec.v). *)
From Coq Require Import String Ascii Bool List ZArith Relations Lia.
From Verif Require Import Base EngineProofs Stringify StringifySpec StringifyProofs.
Import ListNotations.
Open Scope Z_scope.

(** There is at most one verdict on a type. *)
Theorem C58_one_verdict : forall check_unknown types t u w, says check_unknown types nowhere t u -> says check_unknown types nowhere t w -> u = w.
Proof.
  intros cu types t u w H. revert w. induction H as [t []|t c u P S IH|t P|t P B|t P N|t l x L C I S IH|t l f L C S IH F|t l L C S IH|t l L C NE S IH|t l x y u w L C I S IH NU J S' IH' NW|t l x L C I S IH|t l f x L C S IH F I E|t l L C S IH|t e u L C S IH|t L C D|t L C N D|t L C N N' K K'|t L C N N' K]; intros v V;
  inversion V as [t' Q|t' c' u' P' S1|t' P'|t' P' B'|t' P' G'|t' l' x' L' C' I' S1|t' l' f' L' C' S1 F'|t' l' L' C' S1|t' l' L' C' NE' S1|t' l' x' y' u' w' L' C' I' S1 NU' J' S2 NW'|t' l' x' L' C' I' S1|t' l' f' x' L' C' S1 F' I' E'|t' l' L' C' S1|t' e' u' L' C' S1|t' L' C' D'|t' L' C' G' D'|t' L' C' G' G2 K1 K2|t' L' C' G' G2 K1]; subst;
  try contradiction; try reflexivity; unfold looked, nowhere in *; try (exfalso; intuition congruence); try congruence;
  repeat match goal with A : i_class _ = ?a, B : i_class _ = ?b |- _ => rewrite A in B; injection B as ->; clear A | A : i_param _ = Some (Some ?a), B : i_param _ = Some (Some ?b) |- _ => rewrite A in B; injection B as ->; clear A end.
  all: try (exfalso; intuition congruence).
  - now apply IH.
  - elim (F' x I). symmetry. apply IH. auto.
  - elim (F x' I'). apply IH; auto.
  - destruct l' as [|z l']; [contradiction|]. apply (IH z); [now left|]. apply S1. now left.
  - elim NU'. symmetry. now apply (IH x').
  - destruct l' as [|z l']; [contradiction|]. apply (IH z); [now left|]. apply S1. now left.
  - elim NW'. symmetry. now apply (IH y').
  - elim NU. apply IH. auto.
  - elim NW. apply IH'. auto.
  - elim (F' x I). symmetry. apply IH. auto.
  - apply IH. auto.
  - elim (F x' I'). now apply IH.
  - rewrite <- E. apply IH; auto.
  - apply (IH x'); auto.
  - rewrite <- E'. apply (IH x'); auto.
  - now apply IH.
Qed.
Print Assumptions C58_one_verdict.
Theorem C58_one_join : forall check_unknown types t u w, joined check_unknown types nowhere t u -> joined check_unknown types nowhere t w -> u = w.
Proof.
  intros cu types t u w H. revert w. induction H as [t []|t l x C I S IH|t l f C S IH F|t l C S IH|t l C NE S IH|t l x y u w C I S IH NU J S' IH' NW|t l x C I S|t l f x C S F I E|t l C S|t e u C S|t C]; intros v V;
  inversion V as [t' Q|t' l' x' C' I' S1|t' l' f' C' S1 F'|t' l' C' S1|t' l' C' NE' S1|t' l' x' y' u' w' C' I' S1 NU' J' S2 NW'|t' l' x' C' I' S1|t' l' f' x' C' S1 F' I' E'|t' l' C' S1|t' e' u' C' S1|t' C']; subst;
  try contradiction; try reflexivity; unfold nowhere in *; try (exfalso; congruence); try congruence;
  repeat match goal with A : i_class _ = ?a, B : i_class _ = ?b |- _ => rewrite A in B; injection B as ->; clear A end.
  - elim (F' x I). symmetry. apply IH. auto.
  - elim (F x' I'). apply IH; auto.
  - destruct l' as [|z l']; [contradiction|]. apply (IH z); [now left|]. apply S1. now left.
  - elim NU'. symmetry. now apply (IH x').
  - destruct l' as [|z l']; [contradiction|]. apply (IH z); [now left|]. apply S1. now left.
  - elim NW'. symmetry. now apply (IH y').
  - elim NU. apply IH. auto.
  - elim NW. apply IH'. auto.
  - elim (F' x I). symmetry. apply (C58_one_verdict cu types x); auto.
  - apply (C58_one_verdict cu types x); auto.
  - elim (F x' I'). apply (C58_one_verdict cu types x'); auto.
  - rewrite <- E. apply (C58_one_verdict cu types x); auto.
  - apply (C58_one_verdict cu types x'); auto.
  - rewrite <- E'. apply (C58_one_verdict cu types x'); auto.
  - now apply (C58_one_verdict cu types e').
Qed.
Print Assumptions C58_one_join.
Theorem C58_unique : forall check_unknown types l rs rs', expected check_unknown types nowhere l rs -> expected check_unknown types nowhere l rs' -> rs = rs'.
Proof.
  intros cu types l rs rs' H. revert rs'. induction H as [|o j r l rs D H IH|o j l rs F H IH]; intros rs' E; inversion E as [|o' j' r' l' rs'' D' H'|o' j' l' rs'' F' H']; subst.
  - reflexivity.
  - f_equal; [|auto]. destruct D as [u L S N|u S N]; inversion D' as [u' L' S' N'|u' S' N']; subst; [rewrite (C58_one_verdict _ _ _ _ _ S S')|rewrite (C58_one_join _ _ _ _ _ S S')]; reflexivity.
  - destruct D as [u L S N|u S N]; cbn [fine] in F'; [destruct F' as [Q|Q]; [congruence|]; elim N; eapply C58_one_verdict; eauto|elim N; eapply C58_one_join; eauto].
  - destruct D' as [u L S N|u S N]; cbn [fine] in F; [destruct F as [Q|Q]; [congruence|]; elim N; eapply C58_one_verdict; eauto|elim N; eapply C58_one_join; eauto].
  - auto.
Qed.
Print Assumptions C58_unique.

(** Each site asks about one list of operands. *)
Lemma asks_listen : forall cu types fuel s m rs m', listen cu types fuel s m = Done (rs, m') -> sound cu types m -> resolving (joins m) = [] ->
  (sound cu types m' /\ resolving (joins m') = []) /\ exists asked, asks s asked /\ expected cu types (circle types) asked rs.
Proof.
  intros cu types fuel s m rs m' E K R.
  assert (CE : forall o m rs m', check_expression cu types fuel o m = Done (rs, m') -> sound cu types m -> resolving (joins m) = [] ->
    (sound cu types m' /\ resolving (joins m') = []) /\ forall l rs', expected cu types (circle types) l rs' -> expected cu types (circle types) ((o, false) :: l) (rs ++ rs')).
  { clear. intros o m rs m' E K R. unfold check_expression in E. destruct (o_literal o) eqn:L.
    - injection E as <- <-. split; [auto|]. intros l rs' H. apply e_fine; [now left|exact H].
    - destruct (in_strings (to_string cu types fuel [] (o_type o)) m) as [[u m1]| |] eqn:C; cbn [bind] in E; try discriminate. injection E as <- <-.
      destruct (in_strings_spec _ _ _ _ _ _ _ C K) as [[K1 J1] Q]. split; [split; [exact K1|congruence]|]. intros l rs' H. destruct u; cbn [is_always]; cbn [app].
      + apply e_fine; [now right|exact H].
      + apply e_report; [|exact H]. now apply (d_string cu types (circle types) o Never).
      + apply e_report; [|exact H]. now apply (d_string cu types (circle types) o Sometimes). }
  assert (CE1 : forall o, check_expression cu types fuel o m = Done (rs, m') -> asks s [(o, false)] ->
    (sound cu types m' /\ resolving (joins m') = []) /\ exists asked, asks s asked /\ expected cu types (circle types) asked rs).
  { intros o C A. destruct (CE o m rs m' C K R) as [Q H]. split; [exact Q|]. exists [(o, false)]. split; [exact A|]. rewrite <- (app_nil_r rs). apply H. constructor. }
  assert (NO : Done ([], m) = Done (rs, m') -> asks s [] -> (sound cu types m' /\ resolving (joins m') = []) /\ exists asked, asks s asked /\ expected cu types (circle types) asked rs).
  { intros Q A. injection Q as <- <-. split; [auto|]. exists []. split; [exact A|constructor]. }
  destruct s as [l r|c args|[] spans]; cbn [listen] in E.
  - destruct (o_string l) eqn:L; [apply (CE1 r E); now constructor|]. destruct (o_string r) eqn:P, (o_private l) eqn:Q; cbn [andb negb] in E.
    + apply (NO E). apply a_neither; [exact L|auto].
    + apply (CE1 l E). now constructor.
    + apply (NO E). apply a_neither; [exact L|auto].
    + apply (NO E). apply a_neither; [exact L|congruence].
  - assert (OT : forall name o, c = Member name o -> beqb name (b "join") = false -> beqb name (b "toLocaleString") || beqb name (b "toString") = false -> asks (Call c args) []).
    { intros name o -> B1 B2. apply orb_false_iff in B2 as [B2 B3]. apply a_other; [intros ? ? [? _]; discriminate|]. intros n o' Q [I|[I|[I|[]]]]; injection Q as -> ->; subst n; rewrite beqb_refl in *; discriminate. }
    destruct c as [[]|name o|].
    + destruct args as [|[[] a] args].
      * apply (NO E). apply a_other; [intros o rest [_ Q]; discriminate|discriminate].
      * apply (NO E). apply a_other; [intros o rest [_ Q]; discriminate|discriminate].
      * apply (CE1 a E). constructor.
    + assert (E' : Done ([], m) = Done (rs, m')) by (destruct args as [|[[] a] args]; exact E). apply (NO E'). apply a_other; [intros o rest [Q _]; discriminate|discriminate].
    + cbn [listen] in E. destruct (beqb name (b "join")) eqn:B1.
      * apply beqb_eq in B1. subst name. unfold check_join in E. destruct (join cu types fuel (o_constrained o) m) as [[u m1]| |] eqn:C; cbn [bind] in E; try discriminate. injection E as <- <-.
        destruct (join_spec _ _ _ _ _ _ _ C K) as [[K1 J1] Q]; [rewrite R; easy|]. split; [split; [exact K1|congruence]|]. exists [(o, true)]. split; [constructor|]. destruct u; cbn [is_always].
        -- apply e_fine; [exact Q|constructor].
        -- apply e_report; [|constructor]. now apply (d_join cu types (circle types) o Never).
        -- apply e_report; [|constructor]. now apply (d_join cu types (circle types) o Sometimes).
      * destruct (beqb name (b "toLocaleString") || beqb name (b "toString")) eqn:B2; [|apply (NO E); now apply (OT name o)].
        apply (CE1 o E). apply a_method. apply orb_true_iff in B2 as [B2|B2]; apply beqb_eq in B2; subst; cbn; auto.
    + apply (NO E). apply a_other; [intros o rest [Q _]; discriminate|discriminate].
  - apply (NO E). constructor.
  - assert (G : forall spans m rs m', each cu types fuel spans m = Done (rs, m') -> sound cu types m -> resolving (joins m) = [] ->
      (sound cu types m' /\ resolving (joins m') = []) /\ expected cu types (circle types) (map (fun o => (o, false)) spans) rs).
    { clear - CE. induction spans as [|o spans IH]; intros m rs m' E K R; cbn [each] in E; [injection E as <- <-; split; [auto|constructor]|].
      destruct (check_expression cu types fuel o m) as [[r1 m1]| |] eqn:C; cbn [bind] in E; try discriminate. destruct (each cu types fuel spans m1) as [[r2 m2]| |] eqn:D; cbn [bind] in E; try discriminate.
      injection E as <- <-. destruct (CE o m r1 m1 C K R) as [[K1 R1] H]. destruct (IH m1 r2 m2 D K1 R1) as [Q H']. split; [exact Q|]. cbn [map]. now apply H. }
    destruct (G spans m rs m' E K R) as [Q H]. split; [exact Q|]. eexists. split; [constructor|exact H].
Qed.
Lemma expected_app : forall cu types loops l rs l' rs', expected cu types loops l rs -> expected cu types loops l' rs' -> expected cu types loops (l ++ l') (rs ++ rs').
Proof. intros cu types loops l rs l' rs' H H'. induction H; cbn [app]; [exact H'|now apply e_report|now apply e_fine]. Qed.
(** The reports of a file, whatever its types are and in whatever order they are met: those of what is converted, in order, in which types that contain
    themselves may have been let pass. *)
Theorem C58_file : forall check_unknown types fuel l rs, rule check_unknown types fuel l = Done rs ->
  exists asked, Forall2 asks l asked /\ expected check_unknown types (circle types) (concat asked) rs.
Proof.
  intros cu types fuel l rs E. unfold rule in E. destruct (sites cu types fuel l (Memos (Memo [] []) (Memo [] []))) as [[rs1 m1]| |] eqn:S; cbn [bind] in E; try discriminate. injection E as ->.
  assert (K : sound cu types (Memos (Memo [] []) (Memo [] []))) by (split; [easy|split; [reflexivity|easy]]).
  assert (R : resolving (joins (Memos (Memo [] []) (Memo [] []))) = []) by reflexivity.
  revert rs m1 S K R. generalize (Memos (Memo [] []) (Memo [] [])) as m. induction l as [|s l IH]; intros m rs m' E K R; cbn [sites] in E; [injection E as <- <-; exists []; split; [constructor|constructor]|].
  destruct (listen cu types fuel s m) as [[r1 m1]| |] eqn:C; cbn [bind] in E; try discriminate. destruct (sites cu types fuel l m1) as [[r2 m2]| |] eqn:D; cbn [bind] in E; try discriminate. injection E as <- <-.
  destruct (asks_listen _ _ _ _ _ _ _ C K R) as [[K1 R1] (a & A & X)]. destruct (IH m1 r2 m2 D K1 R1) as (as_ & F & Y). exists (a :: as_). split; [now constructor|]. cbn [concat]. now apply expected_app.
Qed.
Print Assumptions C58_file.

(** What is said of types that do not contain themselves does not depend on the memos. *)
Lemma no_circle : forall types t, acyclic types t -> ~ circle types t.
Proof.
  intros types t A. unfold acyclic in A. induction A as [t A IH]. intros C. unfold circle in C. apply clos_trans_tn1_iff in C. inversion C as [y P|y z P C']; subst.
  - apply (IH t P). now apply t_step.
  - apply (IH y P). apply t_trans with (y := t); [now apply t_step|]. now apply clos_trans_tn1_iff.
Qed.
Lemma says_nowhere : forall cu types t u, says cu types (circle types) t u -> acyclic types t -> says cu types nowhere t u.
Proof.
  intros cu types t u H. induction H; intros A; try (exfalso; now apply (no_circle types t)).
  all: assert (PM : forall x l, (i_class (types t) = Union l \/ i_class (types t) = Inter l \/ i_class (types t) = Tuple l) -> In x l -> acyclic types x) by (intros z k Q I; apply (Acc_inv A); now apply p_member with (l := k)).
  - apply s_constraint with (c := c); auto. apply IHsays. apply (Acc_inv A). now apply p_constraint.
  - now apply s_free.
  - now apply s_boolean.
  - now apply s_ignored.
  - apply s_inter_always with (l := l) (x := x); eauto.
  - apply s_inter_never with (l := l) (f := f); eauto.
  - apply s_union_never with (l := l); eauto.
  - apply s_union_always with (l := l); eauto.
  - apply s_union_sometimes with (l := l) (x := x) (y := y) (u := u) (w := w); eauto.
  - apply s_tuple_never with (l := l) (x := x); eauto.
  - apply s_tuple_sometimes with (l := l) (x := x) (f := f); eauto.
  - apply s_tuple_always with (l := l); eauto.
  - apply s_array with (e := e); auto. apply IHsays. apply (Acc_inv A). now apply p_element.
  - now apply s_own.
  - now apply s_object.
  - now apply s_unknown.
  - now apply s_any.
Qed.
Lemma joined_nowhere : forall cu types t u, joined cu types (circle types) t u -> acyclic types t -> joined cu types nowhere t u.
Proof.
  intros cu types t u H. induction H; intros A; try (exfalso; now apply (no_circle types t)).
  all: assert (PM : forall x l, (i_class (types t) = Union l \/ i_class (types t) = Inter l \/ i_class (types t) = Tuple l) -> In x l -> acyclic types x) by (intros z k Q I; apply (Acc_inv A); now apply p_member with (l := k)).
  - apply j_inter_always with (l := l) (x := x); eauto.
  - apply j_inter_never with (l := l) (f := f); eauto.
  - apply j_union_never with (l := l); eauto.
  - apply j_union_always with (l := l); eauto.
  - apply j_union_sometimes with (l := l) (x := x) (y := y) (u := u) (w := w); eauto.
  - apply j_tuple_never with (l := l) (x := x); auto. apply says_nowhere; eauto.
  - apply j_tuple_sometimes with (l := l) (x := x) (f := f); auto. intros z I. apply says_nowhere; eauto.
  - apply j_tuple_always with (l := l); auto. intros z I. apply says_nowhere; eauto.
  - apply j_array with (e := e); auto. apply says_nowhere; auto. apply (Acc_inv A). now apply p_element.
  - now apply j_plain.
Qed.
Theorem C58_exact : forall check_unknown types fuel l rs, tame types l -> rule check_unknown types fuel l = Done rs ->
  exists asked, Forall2 asks l asked /\ expected check_unknown types nowhere (concat asked) rs.
Proof.
  intros cu types fuel l rs T E. destruct (C58_file _ _ _ _ _ E) as (asked & F & X). exists asked. split; [exact F|].
  assert (G : forall o j, In (o, j) (concat asked) -> acyclic types (if j : bool then o_constrained o else o_type o)).
  { intros o j I. apply in_concat in I as (a & A & I). clear - T F A I. induction F as [|s a' l as_ S F IH]; [destruct A|].
    destruct A as [-> | A]; [apply (T s a o j); auto; now left|]. apply IH; auto. intros s' a'' o' j' S'. apply T. now right. }
  clear - X G. induction X as [|o j r l rs D X IH|o j l rs D X IH].
  - constructor.
  - apply e_report; [|apply IH; intros o' j' I; apply G; now right]. specialize (G o j (or_introl eq_refl)). destruct D as [u L S N|u S N]; constructor; auto; [now apply says_nowhere|now apply joined_nowhere].
  - apply e_fine; [|apply IH; intros o' j' I; apply G; now right]. specialize (G o j (or_introl eq_refl)). destruct j; cbn [fine] in *; [now apply joined_nowhere|]. destruct D as [D|D]; [now left|]. right. now apply says_nowhere.
Qed.
Print Assumptions C58_exact.
Lemma asks_one : forall s a a', asks s a -> asks s a' -> a = a'.
Proof.
  intros s a a' H H'. destruct H as [l r L|l r L R P|l r L R|o rest|o args|name o args N|c args N N'|spans|spans]; inversion H' as [l' r' L'|l' r' L' R' P'|l' r' L' R'|o' rest'|o' args'|name' o' args' M|c' args' M M'|spans'|spans']; subst; try reflexivity; try congruence.
  - rewrite (R' R) in P. discriminate.
  - rewrite (R R') in P'. discriminate.
  - now elim (M o rest).
  - exfalso. clear - M. cbn in M. intuition discriminate.
  - elim (M' (b "join") o eq_refl). cbn. auto.
  - exfalso. clear - N. cbn in N. intuition discriminate.
  - elim (M' name o eq_refl). cbn in *. intuition.
  - now elim (N o' rest').
  - elim (N' (b "join") o' eq_refl). cbn. auto.
  - elim (N' name' o' eq_refl). cbn in *. intuition.
Qed.
(** Then the reports of the parts of a file are the same as those of the parts alone. *)
Theorem C58_independent : forall check_unknown types fuel l l' rs rs1 rs2, tame types (l ++ l') ->
  rule check_unknown types fuel (l ++ l') = Done rs -> rule check_unknown types fuel l = Done rs1 -> rule check_unknown types fuel l' = Done rs2 -> rs = rs1 ++ rs2.
Proof.
  intros cu types fuel l l' rs rs1 rs2 T E E1 E2.
  destruct (C58_exact _ _ _ _ _ T E) as (a & F & X).
  destruct (C58_exact cu types fuel l rs1) as (a1 & F1 & X1); [intros s a' o j I; apply T; apply in_or_app; now left|exact E1|].
  destruct (C58_exact cu types fuel l' rs2) as (a2 & F2 & X2); [intros s a' o j I; apply T; apply in_or_app; now right|exact E2|].
  assert (Q : a = a1 ++ a2).
  { pose proof (Forall2_app F1 F2) as F3. clear - F F3. revert F3. generalize (a1 ++ a2). induction F as [|s a0 l0 as_ S F IH]; intros k K; inversion K; subst; [reflexivity|].
    f_equal; [eapply asks_one; eauto|auto]. }
  subst a. rewrite concat_app in X. eapply C58_unique; [exact X|]. now apply expected_app.
Qed.
Print Assumptions C58_independent.

(** It ends, without a panic, when the types met are finitely many and arrays have elements. *)
Lemma asks_some : forall s, exists a, asks s a.
Proof.
  intros [l r|c args|[] spans].
  - destruct (o_string l) eqn:L; [eexists; now apply a_right|]. destruct (o_string r) eqn:R, (o_private l) eqn:P; eexists; (now apply a_left) || (apply a_neither; [exact L|congruence]).
  - destruct c as [[]|name o|].
    + destruct args as [|[[] a] args]; eexists; apply a_call || (apply a_other; [intros o rest [_ Q]; discriminate|discriminate]).
    + eexists. apply a_other; [intros o rest [Q _]; discriminate|discriminate].
    + destruct (in_dec (list_eq_dec ascii_dec) name [b "join"; b "toString"; b "toLocaleString"]) as [I|I].
      * destruct I as [<-|I]; eexists; [apply a_join|now apply a_method].
      * eexists. apply a_other; [intros o' rest [Q _]; discriminate|]. now intros n o' [= <- _].
    + eexists. apply a_other; [intros o rest [Q _]; discriminate|discriminate].
  - eexists. apply a_tagged.
  - eexists. apply a_template.
Qed.
Theorem C58_ends : forall check_unknown types universe fuel l, closed types universe -> (forall t, In t universe -> indexed types t) -> about universe l ->
  (2 * List.length universe < fuel)%nat -> exists rs, rule check_unknown types fuel l = Done rs.
Proof.
  intros cu types U fuel l C X A F. set (I := fun m => resolving (strings m) = [] /\ resolving (joins m) = []).
  assert (CE : forall o m, (o_literal o = false -> In (o_type o) U) -> I m -> exists rs m', check_expression cu types fuel o m = Done (rs, m') /\ I m').
  { intros o m T [R J]. unfold check_expression. destruct (o_literal o); [exists [], m; split; [reflexivity|split; assumption]|].
    destruct (in_strings_done cu types U C X fuel (o_type o) m) as (u & m1 & -> & R1 & J1); auto; [lia|]. cbn [bind]. eexists _, _. split; [reflexivity|]. split; [exact R1|congruence]. }
  assert (G : forall l m, about U l -> I m -> exists rs m', sites cu types fuel l m = Done (rs, m') /\ I m').
  { clear l A. induction l as [|s l IH]; intros m A J; cbn [sites]; [exists [], m; auto|].
    assert (S : exists rs m', listen cu types fuel s m = Done (rs, m') /\ I m').
    { destruct (asks_some s) as (a & Q). assert (AS : forall o j, In (o, j) a -> In (if j : bool then o_constrained o else o_type o) U) by (intros o j K; apply (A s a o j); [now left|exact Q|exact K]). clear A.
      destruct Q as [l1 r L|l1 r L R P|l1 r L R|o rest|o args|name o args N|c args N N'|spans|spans]; cbn [listen].
      - rewrite L. apply CE; [|exact J]. intros _. apply (AS r false). now left.
      - rewrite L, R, P. cbn [andb negb]. apply CE; [|exact J]. intros _. apply (AS l1 false). now left.
      - rewrite L. destruct (o_string r); [rewrite (R eq_refl)|]; cbn [andb negb]; exists [], m; auto.
      - apply CE; [|exact J]. intros _. apply (AS o false). now left.
      - rewrite beqb_refl. unfold check_join. destruct J as [J1 J2]. destruct (join_done cu types U C X fuel (o_constrained o) m) as (u & m1 & -> & R1 & R2); auto.
        + apply (AS o true). now left.
        + rewrite J2. constructor.
        + rewrite J2. easy.
        + rewrite J2. cbn [List.length]. lia.
        + cbn [bind]. eexists _, _. split; [reflexivity|]. split; [exact R1|congruence].
      - assert (CO : exists rs m', check_expression cu types fuel o m = Done (rs, m') /\ I m') by (apply CE; [|exact J]; intros _; apply (AS o false); now left).
        destruct N as [<-|[<-|[]]]; exact CO.
      - destruct c as [[]|name o|].
        + destruct args as [|[[] a] args]; try (exists [], m; auto; fail). now elim (N a args).
        + exists [], m. split; [|exact J]. now destruct args as [|[[] a] args].
        + assert (B : forall n, In n [b "join"; b "toString"; b "toLocaleString"] -> beqb name n = false).
          { intros n In_. destruct (beqb name n) eqn:E; [|reflexivity]. apply beqb_eq in E. subst. now elim (N' n o eq_refl). }
          rewrite !B by (cbn; auto). exists [], m. auto.
        + exists [], m. auto.
      - assert (E : forall spans m, (forall o, In o spans -> In (o_type o) U) -> I m -> exists rs m', each cu types fuel spans m = Done (rs, m') /\ I m').
        { clear - CE. induction spans as [|o spans IH]; intros m T J; cbn [each]; [exists [], m; auto|].
          destruct (CE o m) as (r1 & m1 & -> & J1); [intros _; apply T; now left|exact J|]. cbn [bind]. destruct (IH m1) as (r2 & m2 & -> & J2); [intros o' K; apply T; now right|exact J1|]. cbn [bind]. eauto. }
        apply E; [|exact J]. intros o K. apply (AS o false). apply in_map_iff. eauto.
      - exists [], m. auto. }
    destruct S as (r1 & m1 & -> & J1). cbn [bind]. destruct (IH m1) as (r2 & m2 & -> & J2); [intros s' a o j K; apply (A s' a o j); now right|exact J1|]. cbn [bind]. eauto. }
  unfold rule. destruct (G l (Memos (Memo [] []) (Memo [] [])) A) as (rs & m & -> & _); [split; reflexivity|]. cbn [bind]. eauto.
Qed.
Print Assumptions C58_ends.

(** Something is reported only because of a type inside that has the toString of Object, or is unknown. *)
Lemma inside_refl : forall types t, inside types t t.
Proof. intros. apply rt_refl. Qed.
Lemma inside_part : forall types s x t, inside types s x -> part types x t -> inside types s t.
Proof. intros types s x t I P. eapply rt_trans; [exact I|now apply rt_step]. Qed.
Lemma part_inside : forall types s x t, part types x t -> inside types s x -> inside types s t.
Proof. intros. eapply inside_part; eauto. Qed.
Lemma says_source : forall cu types loops t u, says cu types loops t u -> u <> Always -> (forall x, inside types x t -> proper types x) ->
  exists s, inside types s t /\ source cu types s.
Proof.
  intros cu types loops t u H. induction H; intros NA PR; try congruence.
  all: assert (PM : forall x l, (i_class (types t) = Union l \/ i_class (types t) = Inter l \/ i_class (types t) = Tuple l) -> In x l -> part types x t) by (intros z k Q I; now apply p_member with (l := k)).
  all: assert (PP : forall x, part types x t -> (forall y, inside types y x -> proper types y)) by (intros zz P yy Y; apply PR; eapply inside_part; eauto).
  - assert (P : part types c t) by now apply p_constraint. destruct (IHsays NA (PP c P)) as (s & I & S). exists s. split; [eapply part_inside; eauto|exact S].
  - exists t. split; [apply inside_refl|]. right. destruct cu; [auto|congruence].
  - destruct l as [|z l]; [elim (proj2 (PR t (inside_refl types t))); exact H0|]. assert (P : part types z t) by (eapply PM; [right; left; exact H0|now left]).
    destruct (H2 z (or_introl eq_refl) (H3 z (or_introl eq_refl)) (PP z P)) as (s & I & S). exists s. split; [eapply part_inside; eauto|exact S].
  - destruct l as [|z l]; [elim (proj1 (PR t (inside_refl types t))); exact H0|]. assert (P : part types z t) by (eapply PM; [left; exact H0|now left]).
    destruct (H2 z (or_introl eq_refl) NA (PP z P)) as (s & I & S). exists s. split; [eapply part_inside; eauto|exact S].
  - assert (P : part types y t) by (eapply PM; [left; exact H0|assumption]). destruct (IHsays2 H6 (PP y P)) as (s & I & S). exists s. split; [eapply part_inside; eauto|exact S].
  - assert (P : part types x t) by (eapply PM; [right; right; exact H0|assumption]). destruct (IHsays NA (PP x P)) as (s & I & S). exists s. split; [eapply part_inside; eauto|exact S].
  - assert (P : part types x t) by (eapply PM; [right; right; exact H0|assumption]). destruct (H2 x H4) as (s & I & S); [congruence|now apply PP|]. exists s. split; [eapply part_inside; eauto|exact S].
  - assert (P : part types e t) by now apply p_element. destruct (IHsays NA (PP e P)) as (s & I & S). exists s. split; [eapply part_inside; eauto|exact S].
  - exists t. split; [apply inside_refl|]. left. auto.
  - exists t. split; [apply inside_refl|]. left. auto 8.
Qed.
Lemma joined_source : forall cu types loops t u, joined cu types loops t u -> u <> Always -> (forall x, inside types x t -> proper types x) ->
  exists s, inside types s t /\ source cu types s.
Proof.
  intros cu types loops t u H. induction H; intros NA PR; try congruence.
  all: assert (PM : forall x l, (i_class (types t) = Union l \/ i_class (types t) = Inter l \/ i_class (types t) = Tuple l) -> In x l -> part types x t) by (intros z k Q I; now apply p_member with (l := k)).
  all: assert (PP : forall x, part types x t -> (forall y, inside types y x -> proper types y)) by (intros zz P yy Y; apply PR; eapply inside_part; eauto).
  - destruct l as [|z l]; [elim (proj2 (PR t (inside_refl types t))); exact H|]. assert (P : part types z t) by (eapply PM; [right; left; exact H|now left]).
    destruct (H1 z (or_introl eq_refl) (H2 z (or_introl eq_refl)) (PP z P)) as (s & I & S). exists s. split; [eapply part_inside; eauto|exact S].
  - destruct l as [|z l]; [elim (proj1 (PR t (inside_refl types t))); exact H|]. assert (P : part types z t) by (eapply PM; [left; exact H|now left]).
    destruct (H1 z (or_introl eq_refl) NA (PP z P)) as (s & I & S). exists s. split; [eapply part_inside; eauto|exact S].
  - assert (P : part types y t) by (eapply PM; [left; exact H|assumption]). destruct (IHjoined2 H5 (PP y P)) as (s & I & S). exists s. split; [eapply part_inside; eauto|exact S].
  - assert (P : part types x t) by (eapply PM; [right; right; exact H|assumption]). destruct (says_source _ _ _ _ _ H1 NA (PP x P)) as (s & I & S). exists s. split; [eapply part_inside; eauto|exact S].
  - assert (P : part types x t) by (eapply PM; [right; right; exact H|assumption]). destruct (says_source _ _ _ _ _ (H0 x H2)) as (s & I & S); [congruence|now apply PP|]. exists s. split; [eapply part_inside; eauto|exact S].
  - assert (P : part types e t) by now apply p_element. destruct (says_source _ _ _ _ _ H0 NA (PP e P)) as (s & I & S). exists s. split; [eapply part_inside; eauto|exact S].
Qed.
Theorem C58_source : forall check_unknown types fuel l rs r, rule check_unknown types fuel l = Done rs -> In r rs -> (forall t, proper types t) ->
  exists s asked o j x, In s l /\ asks s asked /\ In (o, j) asked /\ r_node r = o_node o /\
    inside types x (if j : bool then o_constrained o else o_type o) /\ source check_unknown types x.
Proof.
  intros cu types fuel l rs r E I PR. destruct (C58_file _ _ _ _ _ E) as (asked & F & X).
  assert (G : exists o j, In (o, j) (concat asked) /\ due cu types (circle types) o j r).
  { clear - X I. induction X as [|o j r' l rs D X IH|o j l rs D X IH]; [destruct I| |].
    - destruct I as [-> | I]; [exists o, j; split; [now left|exact D]|]. destruct (IH I) as (o' & j' & Q & P). exists o', j'. split; [now right|exact P].
    - destruct (IH I) as (o' & j' & Q & P). exists o', j'. split; [now right|exact P]. }
  destruct G as (o & j & C & D). apply in_concat in C as (a & A & C).
  assert (S : exists s, In s l /\ asks s a). { clear - F A. induction F as [|s a' l as_ S F IH]; [destruct A|]. destruct A as [-> | A]; [exists s; split; [now left|exact S]|]. destruct (IH A) as (s' & P & Q). exists s'. split; [now right|exact Q]. }
  destruct S as (s & SL & SA). exists s, a, o, j. destruct D as [u L S N|u S N].
  - destruct (says_source _ _ _ _ _ S N) as (x & P & Q); [auto|]. exists x. auto 8.
  - destruct (joined_source _ _ _ _ _ S N) as (x & P & Q); [auto|]. exists x. auto 8.
Qed.
Print Assumptions C58_source.

(** ** Values *)
(** What is not reported is not converted by the toString of Object. *)
Theorem C58_fine : forall check_unknown types t v, says check_unknown types nowhere t Always -> (forall x, inside types x t -> known types x) -> holds types t v -> ~ base v.
Proof.
  intros cu types t v H. remember Always as u eqn:U. revert v. induction H; intros v K V; try discriminate; try contradiction.
  all: assert (PM : forall x l, (i_class (types t) = Union l \/ i_class (types t) = Inter l \/ i_class (types t) = Tuple l) -> In x l -> part types x t) by (intros zz k Q I; now apply p_member with (l := k)).
  all: assert (PP : forall x, part types x t -> (forall y, inside types y x -> known types y)) by (intros zz P yy Y; apply K; eapply inside_part; eauto).
  all: destruct (K t (inside_refl types t)) as (K1 & K2 & K3).
  all: unfold looked in *; inversion V as [t' c' v' P' S1|t' v' P'|t' P' B'|t' l' x' v' P' B' C' I' S1|t' l' v' P' B' C' S1|t' l' vs P' B' C' L' S1|t' e' vs P' B' C' S1|t' P' B' C' O'|t' P' B' C' O' D'|t' v' P' B' C' O']; subst; try congruence; try (exfalso; intuition congruence).
  all: try (intros B; inversion B; fail).
  all: try (destruct (K3 C') as [[o D] Q]; try (elim O'; eauto; fail); destruct o; contradiction).
  - rewrite P' in H. injection H as ->. apply IHsays; auto. apply PP. now apply p_constraint.
  - rewrite C' in H0. injection H0 as ->. apply IHsays; auto. apply PP. eapply PM; eauto.
  - rewrite C' in H0. injection H0 as ->. apply (H3 x'); auto. apply PP. eapply PM; eauto.
  - rewrite C' in H0. injection H0 as ->. intros B. inversion B as [|l0 v Iv Bv]; subst. apply In_nth_error in Iv as (i & E).
    destruct (nth_error l i) as [x|] eqn:N; [|exfalso; apply nth_error_None in N; assert (i < List.length vs)%nat by (apply nth_error_Some; congruence); lia].
    apply nth_error_In in N as NI. apply (H2 x NI eq_refl v); eauto.
  - rewrite C' in H0. injection H0 as ->. intros B. inversion B as [|l0 v Iv Bv]; subst. apply (IHsays eq_refl v); auto. apply PP. now apply p_element.
Qed.
Print Assumptions C58_fine.
(** What "will" be converted so is, if the arrays have elements and intersections are clear. *)
Theorem C58_will : forall check_unknown types t v, says check_unknown types nowhere t Never ->
  (forall x, inside types x t -> known types x /\ clear check_unknown types nowhere x) -> full v -> holds types t v -> base v.
Proof.
  intros cu types t v H. remember Never as u eqn:U. revert v. induction H; intros v K W V; try discriminate; try contradiction.
  all: assert (PM : forall x l, (i_class (types t) = Union l \/ i_class (types t) = Inter l \/ i_class (types t) = Tuple l) -> In x l -> part types x t) by (intros zz k Q I; now apply p_member with (l := k)).
  all: assert (PP : forall x, part types x t -> (forall y, inside types y x -> known types y /\ clear cu types nowhere y)) by (intros zz P yy Y; apply K; eapply inside_part; eauto).
  all: destruct (K t (inside_refl types t)) as ((K1 & K2 & K3) & KC).
  all: unfold looked in *; inversion V as [t' c' v' P' S1|t' v' P'|t' P' B'|t' l' x' v' P' B' C' I' S1|t' l' v' P' B' C' S1|t' l' vs P' B' C' L' S1|t' e' vs P' B' C' S1|t' P' B' C' O'|t' P' B' C' O' D'|t' v' P' B' C' O']; subst; try congruence; try (exfalso; intuition congruence).
  - rewrite P' in H. injection H as ->. apply IHsays; auto. apply PP. now apply p_constraint.
  - rewrite C' in H0. injection H0 as ->. destruct (KC l C') as (x & I & [Q|Q]).
    + elim (H3 x I). eapply C58_one_verdict; eauto.
    + apply (H2 x I); auto; [eapply C58_one_verdict; eauto|]. apply PP. eapply PM; eauto.
  - rewrite C' in H0. injection H0 as ->. apply (H2 x'); auto. apply PP. eapply PM; eauto.
  - rewrite C' in H0. injection H0 as ->. apply In_nth_error in H1 as I. destruct I as (i & E).
    destruct (nth_error vs i) as [v|] eqn:N; [|exfalso; apply nth_error_None in N; assert (i < List.length l)%nat by (apply nth_error_Some; congruence); lia].
    apply nth_error_In in N as NI. apply b_list with (v := v); [exact NI|]. inversion W as [|l0 NE WF]; subst. apply IHsays; auto; [|eauto]. apply PP. eapply PM; eauto.
  - rewrite C' in H0. injection H0 as ->. inversion W as [|l0 NE WF]; subst. destruct vs as [|v vs]; [contradiction|]. apply b_list with (v := v); [now left|].
    apply IHsays; auto; [|apply WF; now left|apply S1; now left]. apply PP. now apply p_element.
  - destruct O' as (l & O1 & O2). elim H1. exists l. split; [eapply nth_error_In; eauto|exact O2].
  - constructor.
Qed.
Print Assumptions C58_will.
(** What "will" or "may" be converted so can be: there is a value that is. *)
Theorem C58_may : forall check_unknown types t u, says check_unknown types nowhere t u -> u <> Always ->
  (forall x, inside types x t -> known types x /\ clear check_unknown types nowhere x /\ proper types x /\ exists v, full v /\ holds types x v) ->
  exists v, holds types t v /\ base v.
Proof.
  intros cu types t u H. induction H; intros NA K; try congruence; try contradiction.
  all: assert (PM : forall x l, (i_class (types t) = Union l \/ i_class (types t) = Inter l \/ i_class (types t) = Tuple l) -> In x l -> part types x t) by (intros zz k Q I; now apply p_member with (l := k)).
  all: assert (PP : forall x, part types x t -> (forall y, inside types y x -> known types y /\ clear cu types nowhere y /\ proper types y /\ exists v, full v /\ holds types y v)) by (intros zz P yy Y; apply K; eapply inside_part; eauto).
  all: destruct (K t (inside_refl types t)) as ((K1 & K2 & K3) & KC & (KP1 & KP2) & (w0 & W & V)).
  all: try (unfold looked in H; destruct H as (LP & LB & LI)).
  - destruct IHsays as (v & Hv & B); [exact NA|apply PP; now apply p_constraint|]. exists v. split; [now apply h_constraint with (c := c)|exact B].
  - contradiction.
  - exists w0. split; [exact V|]. assert (S : says cu types nowhere t Never) by (apply s_inter_never with (l := l) (f := f); auto; now repeat split).
    apply (C58_will cu types t w0 S); auto. intros x I. destruct (K x I) as (Q1 & Q2 & _). auto.
  - destruct l as [|z l]; [contradiction|]. destruct (H2 z (or_introl eq_refl)) as (v & Hv & B); [exact NA|apply PP; eapply PM; [left; exact H0|now left]|].
    exists v. split; [|exact B]. now apply h_union with (l := z :: l) (x := z); [| | |left|].
  - destruct IHsays2 as (v & Hv & B); [assumption|apply PP; eapply PM; eauto|]. exists v. split; [now apply h_union with (l := l) (x := y)|exact B].
  - destruct IHsays as (v & Hv & B); [assumption|apply PP; eapply PM; eauto|].
    assert (G : exists vs, List.length l = List.length vs /\ (forall i y w, nth_error l i = Some y -> nth_error vs i = Some w -> holds types y w) /\ exists w, In w vs /\ base w).
    { assert (GA : forall k, (forall y, In y k -> exists v, holds types y v) -> exists vs, List.length k = List.length vs /\ forall i y w, nth_error k i = Some y -> nth_error vs i = Some w -> holds types y w).
      { clear. induction k as [|y k IH]; intros A; [exists []; split; [reflexivity|]; intros []; discriminate|]. destruct IH as (vs & L & N); [intros y' I; apply A; now right|].
        destruct (A y (or_introl eq_refl)) as (v & Q). exists (v :: vs). split; [cbn; congruence|]. intros [|i] y' w E E'; cbn in E, E'; [congruence|eauto]. }
      assert (A : forall y, In y l -> exists v, holds types y v) by (intros y I; destruct (PP y (PM y l (or_intror (or_intror H0)) I) y (inside_refl types y)) as (_ & _ & _ & v' & _ & Q); eauto).
      apply in_split in H1 as (k1 & k2 & ->). destruct (GA k1) as (v1 & L1 & N1); [intros y I; apply A; apply in_or_app; now left|]. destruct (GA k2) as (v2 & L2 & N2); [intros y I; apply A; apply in_or_app; right; now right|].
      exists (v1 ++ v :: v2). split; [rewrite !app_length; cbn; congruence|]. split; [|exists v; split; [apply in_or_app; right; now left|exact B]].
      intros i y w E E'. destruct (Nat.lt_ge_cases i (List.length k1)) as [Q|Q].
      - rewrite nth_error_app1 in E by lia. rewrite nth_error_app1 in E' by lia. eauto.
      - rewrite nth_error_app2 in E by lia. rewrite nth_error_app2 in E' by lia. rewrite <- L1 in E'. destruct (i - List.length k1)%nat; cbn in E, E'; [congruence|eauto]. }
    destruct G as (vs & L & N & w & I & Bw). exists (List vs). split; [now apply h_tuple with (l := l)|]. now apply b_list with (v := w).
  - destruct (H2 x) as (v & Hv & B); [assumption|congruence|apply PP; eapply PM; eauto|].
    assert (G : exists vs, List.length l = List.length vs /\ (forall i y w, nth_error l i = Some y -> nth_error vs i = Some w -> holds types y w) /\ exists w, In w vs /\ base w).
    { assert (GA : forall k, (forall y, In y k -> exists v, holds types y v) -> exists vs, List.length k = List.length vs /\ forall i y w, nth_error k i = Some y -> nth_error vs i = Some w -> holds types y w).
      { clear. induction k as [|y k IH]; intros A; [exists []; split; [reflexivity|]; intros []; discriminate|]. destruct IH as (vs & L & N); [intros y' I; apply A; now right|].
        destruct (A y (or_introl eq_refl)) as (v & Q). exists (v :: vs). split; [cbn; congruence|]. intros [|i] y' w E E'; cbn in E, E'; [congruence|eauto]. }
      assert (A : forall y, In y l -> exists v, holds types y v) by (intros y I; destruct (PP y (PM y l (or_intror (or_intror H0)) I) y (inside_refl types y)) as (_ & _ & _ & v' & _ & Q); eauto).
      apply in_split in H4 as (k1 & k2 & ->). destruct (GA k1) as (v1 & L1 & N1); [intros y I; apply A; apply in_or_app; now left|]. destruct (GA k2) as (v2 & L2 & N2); [intros y I; apply A; apply in_or_app; right; now right|].
      exists (v1 ++ v :: v2). split; [rewrite !app_length; cbn; congruence|]. split; [|exists v; split; [apply in_or_app; right; now left|exact B]].
      intros i y w E E'. destruct (Nat.lt_ge_cases i (List.length k1)) as [Q|Q].
      - rewrite nth_error_app1 in E by lia. rewrite nth_error_app1 in E' by lia. eauto.
      - rewrite nth_error_app2 in E by lia. rewrite nth_error_app2 in E' by lia. rewrite <- L1 in E'. destruct (i - List.length k1)%nat; cbn in E, E'; [congruence|eauto]. }
    destruct G as (vs & L & N & w & I & Bw). exists (List vs). split; [now apply h_tuple with (l := l)|]. now apply b_list with (v := w).
  - destruct IHsays as (v & Hv & B); [exact NA|apply PP; now apply p_element|]. exists (List [v]). split; [apply h_array with (e := e); auto; now intros x [<-|[]]|]. apply b_list with (v := v); [now left|exact B].
  - exists (Leaf false). split; [|constructor]. apply h_object; auto; [|eauto]. intros (l & O1 & O2). elim H1. exists l. split; [eapply nth_error_In; eauto|exact O2].
  - destruct (K3 H0) as [[[] D] _]; contradiction.
Qed.
Print Assumptions C58_may.

(** ** Examples *)
Definition plain (l : list (option (list bool))) := Info None false false Plain l false.
Definition object_ := plain [Some [true]; Some [true]; Some [true]].
Definition text := plain [Some [false]; Some [true]; Some [false]].
Definition of (c : class) := Info None false false c [] false.
Definition at_ (n t : Z) (name : string) := Operand n (b name) false false t t false.
Definition str (n : Z) := Operand n (b "s") false false 2 2 true.
(** 1: {}, 2: string, 3: {} | string, 4: [string, {} | string], 5: {}[][], 6: T extends {} | string, 7: [string, {}], 8: {} & string, 9: unknown. *)
Definition w (t : Z) : info :=
  if t =? 1 then object_ else if t =? 2 then text else if t =? 3 then of (Union [1; 2]) else if t =? 4 then of (Tuple [2; 3]) else if t =? 5 then of (Array (Some 10))
  else if t =? 6 then Info (Some (Some 3)) false false Plain [] false else if t =? 7 then of (Tuple [2; 1]) else if t =? 8 then of (Inter [1; 2])
  else if t =? 9 then Info None false false Plain [None; None; None] true else if t =? 10 then of (Array (Some 1)) else text.
Example C58_example :
  (exists rs, rule true w 30 [Plus (str 1) (at_ 2 3 "x"); Plus (at_ 3 5 "y") (str 4); Call (StringName true) [(false, at_ 5 6 "z"); (false, at_ 6 1 "o")];
     Call (Member (b "join") (at_ 7 5 "l")) []; Call (Member (b "toString") (at_ 8 8 "u")) []; Template false [at_ 9 4 "p"; at_ 10 7 "q"; at_ 11 9 "v"; Operand 12 (b "r") true false 1 1 false];
     Template true [at_ 13 1 "t"]; Call (Member (b "join") (at_ 14 1 "k")) []; Call (StringName true) [(true, at_ 15 1 "o")]] = Done rs /\
   map (fun r => (r_node r, r_text r)) rs =
     [(2, b "'x' may use Object's default stringification format ('[object Object]') when stringified.");
      (3, b "'y' will use Object's default stringification format ('[object Object]') when stringified.");
      (5, b "'z' may use Object's default stringification format ('[object Object]') when stringified.");
      (7, b "Using `join()` for l will use Object's default stringification format ('[object Object]') when stringified.");
      (9, b "'p' may use Object's default stringification format ('[object Object]') when stringified.");
      (10, b "'q' will use Object's default stringification format ('[object Object]') when stringified.");
      (11, b "'v' may use Object's default stringification format ('[object Object]') when stringified.")]).
Proof. eexists. split; [vm_compute; reflexivity|]. vm_compute. reflexivity. Qed.
Example C58_value_example : holds w 4 (List [Leaf true; Leaf false]) /\ base (List [Leaf true; Leaf false]) /\ holds w 4 (List [Leaf true; Leaf true]) /\
  (forall x, inside w x 4 -> known w x) /\ says false w nowhere 4 Sometimes.
Proof.
  assert (H1 : holds w 1 (Leaf false)). { apply h_object; try reflexivity; [intros (l & E & I); injection E as <-; destruct I as [I|[]]; discriminate|]. exists true, [true]. split; now left. }
  assert (H2 : holds w 2 (Leaf true)). { apply h_own; try reflexivity. exists [false]. split; [reflexivity|now left]. }
  assert (T : forall v, holds w 3 v -> holds w 4 (List [Leaf true; v])).
  { intros v H. apply h_tuple with (l := [2; 3]); try reflexivity. intros [|[|[|i]]] x y E E'; cbn in E, E'; try discriminate; injection E as <-; injection E' as <-; assumption. }
  assert (D1 : declared w 1 true) by (exists [true]; split; now left). assert (D2 : declared w 2 false) by (exists [false]; split; now left).
  assert (N1 : ~ declared w 1 false) by (intros (l & [E|[E|[E|[]]]] & I); injection E as <-; destruct I as [I|[]]; discriminate).
  split; [apply T; apply h_union with (l := [1; 2]) (x := 1); try reflexivity; [now left|exact H1]|]. split; [apply b_list with (v := Leaf false); [right; now left|constructor]|].
  split; [apply T; apply h_union with (l := [1; 2]) (x := 2); try reflexivity; [right; now left|exact H2]|]. split.
  - assert (G : forall x y, inside w x y -> In y [1; 2; 3; 4] -> In x [1; 2; 3; 4]).
    { intros x y I. induction I as [x y P|x|x y z I1 IH1 I2 IH2]; auto. intros J. destruct P as [P|l P K|P].
      - cbn in J. destruct J as [<-|[<-|[<-|[<-|[]]]]]; discriminate.
      - cbn in J. destruct J as [<-|[<-|[<-|[<-|[]]]]]; destruct P as [P|[P|P]]; try discriminate; injection P as <-; cbn in *; intuition.
      - cbn in J. destruct J as [<-|[<-|[<-|[<-|[]]]]]; discriminate. }
    intros x I. apply G in I; [|cbn; auto]. cbn in I. destruct I as [<-|[<-|[<-|[<-|[]]]]]; (split; [reflexivity|]; split; [discriminate|]); try discriminate; intros _.
    + split; [eauto|]. intros Q. contradiction.
    + split; [eauto|]. intros _. exists [false]. split; [reflexivity|now left].
  - assert (S1 : says false w nowhere 1 Never) by (apply s_object; auto; now repeat split). assert (S2 : says false w nowhere 2 Always) by (apply s_own; auto; now repeat split).
    assert (S3 : says false w nowhere 3 Sometimes) by (apply s_union_sometimes with (l := [1; 2]) (x := 2) (y := 1) (u := Always) (w := Never); auto; try discriminate; try (now repeat split); cbn; auto).
    apply s_tuple_sometimes with (l := [2; 3]) (f := fun x => if x =? 2 then Always else Sometimes) (x := 3); try reflexivity; try (now repeat split); try (intros x [<-|[<-|[]]]; (assumption || discriminate)); cbn; auto.
Qed.

(** ** False claims *)
(** With types that contain themselves the reports depend on the order: [type A = [B, {}]; type B = [A]]; [b] is reported first, but not after [a]. *)
Theorem C58_order_refuted : exists types s s' r, rule false types 20 [s'] = Done [r] /\ (exists r', rule false types 20 [s; s'] = Done [r']) /\ (exists rs, rule false types 20 [s'; s] = Done rs /\ List.length rs = 2%nat).
Proof.
  exists (fun t => if t =? 0 then of (Tuple [1; 2]) else if t =? 1 then of (Tuple [0]) else object_), (Template false [at_ 1 0 "a"]), (Template false [at_ 2 1 "b"]).
  eexists. split; [vm_compute; reflexivity|]. split; eexists; [vm_compute; reflexivity|]. split; [vm_compute; reflexivity|reflexivity].
Qed.
Print Assumptions C58_order_refuted.
(** An object with a valueOf of its own is not reported, though its toString is that of Object. *)
Theorem C58_valueof_refuted : exists types t v, says false types nowhere t Always /\ holds types t v /\ base v.
Proof.
  exists (fun _ => plain [Some [true]; Some [true]; Some [false]]), 0, (Leaf false). split; [|split; [|constructor]].
  - apply s_own; [now repeat split|reflexivity|]. exists [false]. split; [right; right; now left|now left].
  - apply h_object; try reflexivity; [intros (l & E & I); injection E as <-; destruct I as [I|[]]; discriminate|]. exists true, [true]. split; now left.
Qed.
Print Assumptions C58_valueof_refuted.
(** An array "will" not be converted by the toString of Object when it is empty. *)
Theorem C58_empty_refuted : exists types t v, says false types nowhere t Never /\ holds types t v /\ ~ base v.
Proof.
  exists w, 10, (List []). split; [|split; [apply h_array with (e := 1); easy|intros B; now inversion B]].
  apply s_array with (e := 1); try (now repeat split). apply s_object; try (now repeat split); [intros (l & [E|[E|[E|[]]]] & I); injection E as <-; destruct I as [I|[]]; discriminate|].
  exists [true]. split; now left.
Qed.
Print Assumptions C58_empty_refuted.
(** Nor "will" an intersection of type parameters, each of which "may". *)
Theorem C58_clear_refuted : exists types t v, says false types nowhere t Never /\ full v /\ holds types t v /\ ~ base v.
Proof.
  set (types := fun t => if t =? 0 then of (Inter [6; 7]) else if t =? 7 then Info (Some (Some 3)) false false Plain [] false else w t).
  assert (S1 : says false types nowhere 1 Never). { apply s_object; try (now repeat split); [intros (l & [E|[E|[E|[]]]] & I); injection E as <-; destruct I as [I|[]]; discriminate|]. exists [true]. split; now left. }
  assert (S2 : says false types nowhere 2 Always) by (apply s_own; try (now repeat split); exists [false]; split; now left).
  assert (S3 : says false types nowhere 3 Sometimes) by (apply s_union_sometimes with (l := [1; 2]) (x := 2) (y := 1) (u := Always) (w := Never); auto; try discriminate; try (now repeat split); cbn; auto).
  assert (H3 : holds types 3 (Leaf true)). { apply h_union with (l := [1; 2]) (x := 2); try reflexivity; [right; now left|]. apply h_own; try reflexivity. exists [false]. split; [reflexivity|now left]. }
  exists types, 0, (Leaf true). split; [|split; [constructor|split; [|intros B; inversion B]]].
  - apply s_inter_never with (l := [6; 7]) (f := fun _ => Sometimes); try reflexivity; try (now repeat split). intros x [<-|[<-|[]]]; now apply s_constraint with (c := 3).
  - apply h_inter with (l := [6; 7]); try reflexivity. intros x [<-|[<-|[]]]; now apply h_constraint with (c := 3).
Qed.
Print Assumptions C58_clear_refuted.
