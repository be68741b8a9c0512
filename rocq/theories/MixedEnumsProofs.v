From Coq Require Import Bool List Arith Lia.
From Verif Require Import MixedEnums MixedEnumsSpec.
Import ListNotations.

Lemma kind_number m : kind_of m = Number <-> numeric m.
Proof. destruct m as [[| |[] []]|]; cbn; split; intros; try discriminate; try constructor; try (now inversion H). Qed.
Lemma kind_string m : kind_of m = String_ <-> textual m.
Proof. destruct m as [[| |[] []]|]; cbn; split; intros; try discriminate; try constructor; try (now inversion H). Qed.
Lemma kind_unknown m : kind_of m = Unknown <-> ~ numeric m /\ ~ textual m.
Proof. rewrite <- kind_number, <- kind_string. destruct (kind_of m); intuition congruence. Qed.

Lemma differ_kind m m' : differ m m' <-> kind_of m <> Unknown /\ kind_of m' <> Unknown /\ kind_of m <> kind_of m'.
Proof. unfold differ. rewrite <- !kind_number, <- !kind_string. destruct (kind_of m), (kind_of m'); intuition congruence. Qed.
Lemma agree_kind m m' : agree m m' <-> kind_of m <> Unknown /\ kind_of m = kind_of m'.
Proof. unfold agree. rewrite <- !kind_number, <- !kind_string. destruct (kind_of m), (kind_of m'); intuition congruence. Qed.
Lemma same_ok x y : same x y = true <-> x = y. Proof. destruct x, y; cbn; intuition congruence. Qed.

Lemma check_members_report k l : k <> Unknown -> forall j i, check_members k j l = Report i <->
  exists before m after, l = before ++ m :: after /\ i = j + length before /\ (forall x, In x before -> kind_of x = k) /\ kind_of m <> Unknown /\ kind_of m <> k.
Proof.
  intros K. induction l as [|m l IH]; intros j i; cbn [check_members].
  - split; [discriminate|]. intros (before & ? & ? & E & _). destruct before; discriminate.
  - destruct (same (kind_of m) Unknown) eqn:U.
    + apply same_ok in U. split; [discriminate|]. intros ([|x before] & m' & after & E & _ & B & N & _); injection E as -> ->.
      * contradiction.
      * exfalso. apply K. rewrite <- (B x) by (left; auto). auto.
    + assert (U' : kind_of m <> Unknown) by (intros Q; apply same_ok in Q; congruence).
      destruct (same (kind_of m) k) eqn:S; cbn [negb].
      * apply same_ok in S. rewrite IH. split.
        -- intros (before & m' & after & -> & -> & B & N1 & N2). exists (m :: before), m', after. split; [reflexivity|]. split; [cbn; lia|]. split; [|auto]. intros x [<-|H]; auto.
        -- intros ([|x before] & m' & after & E & -> & B & N1 & N2); injection E as -> ->; [contradiction|].
           exists before, m', after. split; [reflexivity|]. split; [cbn; lia|]. split; [|auto]. intros y H. apply B. now right.
      * assert (S' : kind_of m <> k) by (intros Q; apply same_ok in Q; congruence). split.
        -- intros [= <-]. exists [], m, l. cbn. split; auto. split; [lia|]. split; [intros x []|auto].
        -- intros ([|x before] & m' & after & E & -> & B & N1 & N2); injection E as -> ->.
           ++ cbn. f_equal. lia.
           ++ exfalso. apply S', B. now left.
Qed.

Lemma check_members_no_panic k l : forall j, check_members k j l <> Panic.
Proof. induction l as [|m l IH]; intros j; cbn [check_members]; [discriminate|]. destruct (same _ Unknown); [discriminate|]. destruct (negb _); [discriminate|apply IH]. Qed.

Lemma check_report first l i : check first l = Report i <->
  exists m0 rest before m after, members first = m0 :: rest /\ l = before ++ m :: after /\ i = length before /\ (forall x, In x before -> agree m0 x) /\ differ m0 m.
Proof.
  unfold check. destruct l as [|x l].
  - split; [discriminate|]. intros (m0 & rest & before & m & after & _ & E & _). destruct before; discriminate.
  - destruct (members first) as [|m0 rest].
    + split; [discriminate|]. intros (m0 & rest & before & m & after & E & _). discriminate.
    + destruct (same (kind_of m0) Unknown) eqn:U.
      * apply same_ok in U. split; [discriminate|]. intros (m1 & rest1 & before & m & after & E & _ & _ & _ & D). injection E as <- <-. apply differ_kind in D. tauto.
      * assert (U' : kind_of m0 <> Unknown) by (intros Q; apply same_ok in Q; congruence).
        rewrite (check_members_report _ _ U'). split.
        -- intros (before & m & after & E & -> & B & N1 & N2). exists m0, rest, before, m, after. split; auto. split; auto. split; auto. split.
           ++ intros y H. apply agree_kind. rewrite (B y H). auto.
           ++ apply differ_kind. auto.
        -- intros (m1 & rest1 & before & m & after & E & E2 & -> & B & D). injection E as <- <-. apply differ_kind in D as (D1 & D2 & D3). exists before, m, after.
           split; auto. split; auto. split; [|auto]. intros y H. apply B, agree_kind in H. now symmetry.
Qed.

Lemma check_panic first l : check first l = Panic <-> l <> [] /\ members first = [].
Proof.
  unfold check. destruct l as [|x l]; [intuition congruence|]. destruct (members first) as [|m0 rest]; [intuition congruence|].
  destruct (same _ _); [intuition congruence|]. split; [intros H; now apply check_members_no_panic in H | intros [_ H]; discriminate].
Qed.

Lemma in_members m d l : In (EnumOf d) l -> In m d -> In m (all_members l).
Proof. intros A B. apply in_flat_map. exists (EnumOf d). auto. Qed.

Lemma lint_in ds o : In o (lint ds) <-> exists first rest l, ds = first :: rest /\ In (EnumOf l) ds /\ o = check first l.
Proof.
  destruct ds as [|first ds]; cbn [lint].
  - split; [intros [] | intros (? & ? & ? & E & _); discriminate].
  - rewrite in_flat_map. split.
    + intros ([l|] & A & B); [|destruct B]. destruct B as [<-|[]]. eauto 10.
    + intros (f & rest & l & E & A & ->). injection E as <- <-. exists (EnumOf l). split; auto. now left.
Qed.

Lemma check_silent first l m0 rest : members first = m0 :: rest -> (forall m, In m l -> numeric m \/ textual m) -> (numeric m0 \/ textual m0) -> (forall i, check first l <> Report i) -> forall m, In m l -> agree m0 m.
Proof.
  intros E K K0 N m H. apply agree_kind.
  assert (KU : forall x, numeric x \/ textual x -> kind_of x <> Unknown) by (intros x Q R; apply kind_unknown in R; tauto).
  split; [auto|].
  assert (X : forall done todo, l = done ++ todo -> (forall x, In x done -> kind_of x = kind_of m0) -> forall x, In x todo -> kind_of m0 = kind_of x).
  { intros done todo. revert done. induction todo as [|y todo IH]; intros done Q B x [].
    - subst y. destruct (same (kind_of m0) (kind_of x)) eqn:S; [now apply same_ok in S|]. exfalso. apply (N (length done)). apply check_report.
      exists m0, rest, done, x, todo. split; auto. split; auto. split; auto. split.
      + intros z Hz. apply agree_kind. rewrite (B z Hz). auto.
      + apply differ_kind. split; [auto|]. split; [apply KU, K; rewrite Q; apply in_or_app; right; left; auto|]. intros R. rewrite R in S. destruct (kind_of x); discriminate.
    - destruct (same (kind_of m0) (kind_of y)) eqn:S.
      + apply same_ok in S. apply (IH (done ++ [y])); auto; [now rewrite <- app_assoc|]. intros z Hz. apply in_app_or in Hz as [Hz|[<-|[]]]; auto.
      + exfalso. apply (N (length done)). apply check_report. exists m0, rest, done, y, todo. split; auto. split; auto. split; auto. split.
        * intros z Hz. apply agree_kind. rewrite (B z Hz). auto.
        * apply differ_kind. split; [auto|]. split; [apply KU, K; rewrite Q; apply in_or_app; right; left; auto|]. intros R. rewrite R in S. destruct (kind_of y); discriminate. }
  apply (X [] l); auto. intros x [].
Qed.
