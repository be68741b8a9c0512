(** C74: enums with numbers and strings. *)
From Coq Require Import Bool List Arith Lia.
From Verif Require Import MixedEnums MixedEnumsSpec MixedEnumsProofs.
Import ListNotations.

(** ** C74: reported is the first member that is not of the kind of the first member of the first declaration, if the members before it are of this kind *)

Theorem C74_reported : forall first l i, check first l = Report i <->
  exists m0 rest before m after, members first = m0 :: rest /\ l = before ++ m :: after /\ i = length before /\ (forall x, In x before -> agree m0 x) /\ differ m0 m.
Proof. intros. apply check_report. Qed.
Print Assumptions C74_reported.

(** Only mixed enums are reported. *)
Theorem C74_sound : forall declarations i, In (Report i) (lint declarations) -> mixed (all_members declarations).
Proof.
  intros ds i H. apply lint_in in H as (first & rest & l & -> & A & E). symmetry in E. apply check_report in E as (m0 & r & before & m & after & E1 & -> & _ & _ & D).
  assert (A1 : In m (all_members (first :: rest))) by (eapply in_members; eauto; apply in_or_app; right; now left).
  assert (A2 : In m0 (all_members (first :: rest))). { destruct first as [l0|]; [|discriminate]. cbn [members] in E1. apply (in_members m0 l0); [now left | rewrite E1; now left]. }
  destruct D as [[]|[]]; [exists m0, m | exists m, m0]; auto.
Qed.
Print Assumptions C74_sound.

(** All of them are, if all kinds are known and the first declaration has a member. *)
Theorem C74_complete : forall declarations m0 l0 rest, declarations = EnumOf (m0 :: l0) :: rest -> (forall m, In m (all_members declarations) -> numeric m \/ textual m) ->
  mixed (all_members declarations) -> exists i, In (Report i) (lint declarations).
Proof.
  intros ds m0 l0 rest -> K (m & m' & A & B & N & T).
  assert (K0 : numeric m0 \/ textual m0) by (apply K; now left).
  assert (D : exists x, In x (all_members (EnumOf (m0 :: l0) :: rest)) /\ ~ agree m0 x).
  { destruct K0 as [K0|K0]; [exists m' | exists m]; split; auto; intros [[Q R]|[Q R]];
    repeat match goal with H : numeric _ |- _ => apply kind_number in H | H : textual _ |- _ => apply kind_string in H end; congruence. }
  destruct D as (x & D1 & D2). apply in_flat_map in D1 as ([l|] & D1 & D3); [|destruct D3].
  assert (R : (exists i, check (EnumOf (m0 :: l0)) l = Report i) \/ forall i, check (EnumOf (m0 :: l0)) l <> Report i).
  { destruct (check (EnumOf (m0 :: l0)) l); [right; discriminate | right; discriminate | left; eauto]. }
  destruct R as [[i R]|R].
  - exists i. apply lint_in. exists (EnumOf (m0 :: l0)), rest, l. auto.
  - exfalso. apply D2. apply (check_silent (EnumOf (m0 :: l0)) l m0 l0); auto. intros y Hy. apply K. eapply in_members; eauto.
Qed.
Print Assumptions C74_complete.

(** The listener fails exactly for a declaration with members if the first declaration has none. *)
Theorem C74_panics : forall declarations, In Panic (lint declarations) <->
  exists first rest l, declarations = first :: rest /\ (first = Namespace \/ first = EnumOf []) /\ l <> [] /\ In (EnumOf l) rest.
Proof.
  intros ds. rewrite lint_in. split.
  - intros (first & rest & l & -> & A & E). symmetry in E. apply check_panic in E as [E1 E2]. exists first, rest, l. split; auto.
    split; [destruct first as [[|]|]; auto; discriminate|]. split; auto. destruct A as [->|A]; auto. now elim E1.
  - intros (first & rest & l & -> & F & E & A). exists first, rest, l. split; auto. split; [now right|]. symmetry. apply check_panic. split; auto. now destruct F as [->| ->].
Qed.
Print Assumptions C74_panics.

(** Not so: the rule never fails.  [enum E {} enum E { A }], and [namespace E { export const x = 1 } enum E { A }]. *)
Theorem C74_panics_refuted : In Panic (lint [EnumOf []; EnumOf [None]]) /\ In Panic (lint [Namespace; EnumOf [None]]).
Proof. split; [right|]; now left. Qed.
Print Assumptions C74_panics_refuted.

(** Not so: each mixed enum is reported.  [enum E { A = 0, B = x as any, C = 'c' }]: nothing after B is looked at. *)
Theorem C74_unknown_refuted : exists l, mixed l /\ lint [EnumOf l] = [Nothing].
Proof. exists [Some Numeric; Some (Expression false false); Some Quoted]. split; [|reflexivity]. exists (Some Numeric), (Some Quoted). cbn. repeat split; auto; constructor. Qed.
Print Assumptions C74_unknown_refuted.

(** [enum E { A, B = 1, C = 'c', D = 'd' } enum E { F = 'f' } enum E { G = -1 }]. *)
Example C74_reported_example : lint [EnumOf [None; Some Numeric; Some Quoted; Some Quoted]; Namespace; EnumOf [Some Quoted]; EnumOf [Some (Expression false true)]] = [Report 2; Report 0; Nothing].
Proof. reflexivity. Qed.
Example C74_kinds_example : map kind_of [None; Some Numeric; Some Quoted; Some (Expression true false); Some (Expression true true); Some (Expression false true); Some (Expression false false)]
  = [Number; Number; String_; String_; String_; Number; Unknown].
Proof. reflexivity. Qed.
Example C74_sound_example : mixed (all_members [EnumOf [None]; EnumOf [Some Quoted]]) /\ lint [EnumOf [None]; EnumOf [Some Quoted]] = [Nothing; Report 0].
Proof. split; [|reflexivity]. exists None, (Some Quoted). cbn. repeat split; auto; constructor. Qed.
