(** Proofs about Stringify.v. *)
From Coq Require Import String Ascii Bool List ZArith Relations Lia.
From Verif Require Import Base EngineProofs Stringify StringifySpec.
Import ListNotations.
Open Scope Z_scope.

Lemma mem_in : forall x l, mem x l = true <-> In x l.
Proof. intros x l. unfold mem. rewrite existsb_exists. split; [intros (y & I & E); apply Z.eqb_eq in E; now subst|]. intros I. exists x. split; [exact I|apply Z.eqb_refl]. Qed.
Lemma lookup_in : forall t l u, lookup t l = Some u -> In (t, u) l.
Proof.
  intros t l u. induction l as [|[x w] l IH]; cbn [lookup]; [discriminate|]. destruct (x =? t) eqn:E; [|intros Q; right; auto].
  intros [= ->]. apply Z.eqb_eq in E. subst. now left.
Qed.
Lemma filter_out : forall t l, ~ In t l -> filter (fun x => negb (x =? t)) l = l.
Proof.
  intros t l. induction l as [|x l IH]; intros N; [reflexivity|]. cbn [filter]. assert (Q : x =? t = false) by (apply Z.eqb_neq; intros ->; apply N; now left).
  rewrite Q. cbn [negb]. rewrite IH; [reflexivity|]. intros I. apply N. now right.
Qed.
Lemma choose : forall (P : Z -> usefulness -> Prop) l, (forall x, In x l -> exists u, P x u) -> exists f, forall x, In x l -> P x (f x).
Proof.
  intros P l. induction l as [|y l IH]; intros H; [exists (fun _ => Always); easy|].
  destruct IH as (f & F); [intros x I; apply H; now right|]. destruct (H y (or_introl eq_refl)) as (u & U).
  exists (fun x => if x =? y then u else f x). intros x I. destruct (Z.eqb_spec x y) as [-> | N]; [exact U|]. apply F. destruct I as [-> | I]; [contradiction|exact I].
Qed.

Section Loops.
Variable S : Type.
Variables (I : S -> Prop) (R : Z -> usefulness -> Prop) (collect : Z -> S -> outcome (usefulness * S)).
Lemma all_spec : forall l, (forall x s u s', In x l -> collect x s = Done (u, s') -> I s -> I s' /\ R x u) ->
  forall s us s', all S collect l s = Done (us, s') -> I s -> I s' /\ Forall2 R l us.
Proof.
  intros l. induction l as [|x l IH]; intros H s us s' E J; cbn [all] in E; [injection E as <- <-; auto|].
  destruct (collect x s) as [[u s1]| |] eqn:C; cbn [bind] in E; try discriminate. destruct (all S collect l s1) as [[us' s2]| |] eqn:A; cbn [bind] in E; try discriminate. injection E as <- <-.
  destruct (H x s u s1 (or_introl eq_refl) C J) as [J1 R1]. destruct (IH (fun x s u s' K => H x s u s' (or_intror K)) s1 us' s2 A J1) as [J2 R2]. auto.
Qed.
Lemma inter_spec : forall l, (forall x s u s', In x l -> collect x s = Done (u, s') -> I s -> I s' /\ R x u) ->
  forall s u s', inter S collect l s = Done (u, s') -> I s ->
  I s' /\ ((u = Always /\ exists x, In x l /\ R x Always) \/ (u = Never /\ forall x, In x l -> exists w, R x w /\ w <> Always)).
Proof.
  intros l. induction l as [|x l IH]; intros H s u s' E J; cbn [inter] in E; [injection E as <- <-; split; [exact J|]; right; split; [reflexivity|easy]|].
  destruct (collect x s) as [[w s1]| |] eqn:C; cbn [bind] in E; try discriminate. destruct (H x s w s1 (or_introl eq_refl) C J) as [J1 R1].
  destruct (is_always w) eqn:W.
  - injection E as <- <-. split; [exact J1|]. left. split; [reflexivity|]. exists x. split; [now left|]. destruct w; try discriminate. exact R1.
  - destruct (IH (fun x s u s' K => H x s u s' (or_intror K)) s1 u s' E J1) as [J2 [(-> & y & Y & Q)|(-> & Q)]]; (split; [exact J2|]); [left|right]; (split; [reflexivity|]).
    + exists y. split; [now right|exact Q].
    + intros y [<-|Y]; [|auto]. exists w. split; [exact R1|]. now intros ->.
Qed.
Lemma forallb_never : forall us, forallb is_never us = true -> forall l, Forall2 R l us -> forall x, In x l -> R x Never.
Proof.
  intros us N l F. induction F as [|x u l us Q F IH]; [easy|]. cbn [forallb] in N. apply andb_true_iff in N as [N1 N2]. intros y [<-|Y]; [|auto]. now destruct u.
Qed.
Lemma forallb_always : forall us, forallb is_always us = true -> forall l, Forall2 R l us -> forall x, In x l -> R x Always.
Proof.
  intros us N l F. induction F as [|x u l us Q F IH]; [easy|]. cbn [forallb] in N. apply andb_true_iff in N as [N1 N2]. intros y [<-|Y]; [|auto]. now destruct u.
Qed.
Lemma forall2_left : forall l us u, Forall2 R l us -> In u us -> exists x, In x l /\ R x u.
Proof. intros l us u F. induction F as [|x w l us Q F IH]; [easy|]. intros [<-|J]; [exists x; split; [now left|exact Q]|]. destruct (IH J) as (y & Y & P). exists y. split; [now right|exact P]. Qed.
Lemma forall2_right : forall l us x, Forall2 R l us -> In x l -> exists u, In u us /\ R x u.
Proof. intros l us x F. induction F as [|y w l us Q F IH]; [easy|]. intros [<-|J]; [exists w; split; [now left|exact Q]|]. destruct (IH J) as (u & Y & P). exists u. split; [now right|exact P]. Qed.
Lemma not_forallb : forall (f : usefulness -> bool) us, forallb f us = false -> exists u, In u us /\ f u = false.
Proof. intros f us. induction us as [|u us IH]; [discriminate|]. cbn [forallb]. destruct (f u) eqn:F; [|exists u; split; [now left|exact F]]. intros Q. destruct (IH Q) as (w & W & P). exists w. split; [now right|exact P]. Qed.
Lemma not_existsb : forall (f : usefulness -> bool) us, existsb f us = false -> forall u, In u us -> f u = false.
Proof. intros f us E u J. destruct (f u) eqn:F; [|reflexivity]. assert (existsb f us = true) by (apply existsb_exists; eauto). congruence. Qed.
Lemma union_spec : forall l, (forall x s u s', In x l -> collect x s = Done (u, s') -> I s -> I s' /\ R x u) ->
  forall s u s', union S collect l s = Done (u, s') -> I s ->
  I s' /\ ((u = Never /\ forall x, In x l -> R x Never) \/ (u = Always /\ l <> [] /\ forall x, In x l -> R x Always) \/
           (u = Sometimes /\ exists x y v w, In x l /\ R x v /\ v <> Never /\ In y l /\ R y w /\ w <> Always)).
Proof.
  intros l H s u s' E J. unfold union in E. destruct (all S collect l s) as [[us s1]| |] eqn:A; cbn [bind] in E; try discriminate. injection E as <- <-.
  destruct (all_spec l H s us s1 A J) as [J1 F]. split; [exact J1|]. destruct (forallb is_never us) eqn:N; [left; split; [reflexivity|now apply (forallb_never us)]|]. right.
  destruct (forallb is_always us) eqn:W.
  - left. split; [reflexivity|]. split; [|now apply (forallb_always us)]. intros ->. inversion F; subst. discriminate.
  - right. split; [reflexivity|]. apply not_forallb in N as (v & V & NV). apply not_forallb in W as (w & W & NW).
    destruct (forall2_left _ _ _ F V) as (x & X & RX). destruct (forall2_left _ _ _ F W) as (y & Y & RY). exists x, y, v, w. repeat split; auto; intros ->; discriminate.
Qed.
Lemma tuple_spec : forall l, (forall x s u s', In x l -> collect x s = Done (u, s') -> I s -> I s' /\ R x u) ->
  forall s u s', tuple S collect l s = Done (u, s') -> I s ->
  I s' /\ ((u = Never /\ exists x, In x l /\ R x Never) \/
           (u = Sometimes /\ (exists x f, In x l /\ f x = Sometimes /\ (forall x, In x l -> R x (f x) /\ f x <> Never))) \/
           (u = Always /\ forall x, In x l -> R x Always)).
Proof.
  intros l H s u s' E J. unfold tuple in E. destruct (all S collect l s) as [[us s1]| |] eqn:A; cbn [bind] in E; try discriminate. injection E as <- <-.
  destruct (all_spec l H s us s1 A J) as [J1 F]. split; [exact J1|]. destruct (existsb is_never us) eqn:N.
  - left. split; [reflexivity|]. apply existsb_exists in N as (v & V & NV). destruct v; try discriminate. apply (forall2_left _ _ _ F V).
  - right. pose proof (not_existsb _ _ N) as NN. clear N.
    assert (G : forall x, In x l -> exists u, R x u /\ u <> Never).
    { intros x X. destruct (forall2_right _ _ _ F X) as (w & W & Q). exists w. split; [exact Q|]. intros ->. now discriminate (NN _ W). }
    destruct (existsb is_sometimes us) eqn:W.
    + left. split; [reflexivity|]. apply existsb_exists in W as (w & W & NW). destruct w; try discriminate. destruct (forall2_left _ _ _ F W) as (x & X & RX).
      destruct (choose (fun x u => R x u /\ u <> Never) l G) as (f & Ff). exists x, (fun y => if y =? x then Sometimes else f y). split; [exact X|]. split; [now rewrite Z.eqb_refl|].
      intros y Y. destruct (Z.eqb_spec y x) as [-> | Q]; [split; [exact RX|discriminate]|auto].
    + right. split; [reflexivity|]. pose proof (not_existsb _ _ W) as NW. intros x X. destruct (forall2_right _ _ _ F X) as (w & V & Q).
      destruct w; [exact Q| |]; [discriminate (NN _ V)|discriminate (NW _ V)].
Qed.
Lemma all_done : forall l, (forall x s, In x l -> I s -> exists u s', collect x s = Done (u, s') /\ I s') -> forall s, I s -> exists us s', all S collect l s = Done (us, s') /\ I s'.
Proof.
  intros l. induction l as [|x l IH]; intros H s J; cbn [all]; [eauto|]. destruct (H x s (or_introl eq_refl) J) as (u & s1 & -> & J1). cbn [bind].
  destruct (IH (fun x s K => H x s (or_intror K)) s1 J1) as (us & s2 & -> & J2). cbn [bind]. eauto.
Qed.
Lemma inter_done : forall l, (forall x s, In x l -> I s -> exists u s', collect x s = Done (u, s') /\ I s') -> forall s, I s -> exists u s', inter S collect l s = Done (u, s') /\ I s'.
Proof.
  intros l. induction l as [|x l IH]; intros H s J; cbn [inter]; [eauto|]. destruct (H x s (or_introl eq_refl) J) as (u & s1 & -> & J1). cbn [bind].
  destruct (is_always u); [eauto|]. apply IH; auto. intros y s2 K. apply H. now right.
Qed.
End Loops.

Section Types.
Variables (check_unknown : bool) (types : Z -> info).
Notation part := (part types).
Notation says := (says check_unknown types (circle types)).
Notation joined := (joined check_unknown types (circle types)).

Lemma methods_spec : forall l fallback unknown, 
  (methods check_unknown l fallback unknown = Always /\ exists d, In (Some d) l /\ In false d) \/
  (~ (exists d, In (Some d) l /\ In false d) /\
   ((methods check_unknown l fallback unknown = Never /\ (fallback = true \/ exists d, In (Some d) l /\ In true d)) \/
    (fallback = false /\ ~ (exists d, In (Some d) l /\ In true d) /\
     methods check_unknown l fallback unknown = if check_unknown && unknown then Sometimes else Always))).
Proof.
  intros l. induction l as [|[[|d ds]|] l IH]; intros fallback unknown; cbn [methods].
  - right. split; [now intros (d & [] & _)|]. destruct fallback; [left; auto|]. right. split; [reflexivity|]. split; [now intros (d & [] & _)|reflexivity].
  - destruct (IH fallback unknown) as [(A & d & B & C)|(A & B)]; [left; split; [exact A|]; exists d; split; [now right|exact C]|].
    right. split; [intros (d & [[=]|D] & F); [subst; easy|]; apply A; eauto|]. destruct B as [(B & [C|(d & C & D)])|(B & C & D)]; [left; auto|left; split; [exact B|]; right; exists d; split; [now right|exact D]|].
    right. split; [exact B|]. split; [|exact D]. intros (d & [[=]|E] & F); [subst; easy|]. apply C. eauto.
  - destruct (existsb negb (d :: ds)) eqn:E.
    + left. split; [reflexivity|]. apply existsb_exists in E as (x & X & N). destruct x; [discriminate|]. exists (d :: ds). split; [now left|exact X].
    + assert (N : ~ In false (d :: ds)) by (intros Q; assert (existsb negb (d :: ds) = true) by (apply existsb_exists; exists false; auto); congruence).
      assert (T : In true (d :: ds)) by (destruct d; [now left|elim N; now left]).
      destruct (IH true unknown) as [(A & d' & B & C)|(A & B)]; [left; split; [exact A|]; exists d'; split; [now right|exact C]|].
      right. split; [intros (d' & [Q|D] & F); [injection Q as <-; contradiction|]; apply A; eauto|]. destruct B as [(B & _)|(B & _)]; [|discriminate].
      left. split; [exact B|]. right. exists (d :: ds). split; [now left|exact T].
  - destruct (IH fallback unknown) as [(A & d & B & C)|(A & B)]; [left; split; [exact A|]; exists d; split; [now right|exact C]|].
    right. split; [intros (d & [[=]|D] & F); apply A; eauto|]. destruct B as [(B & [C|(d & C & D)])|(B & C & D)]; [left; auto|left; split; [exact B|]; right; exists d; split; [now right|exact D]|].
    right. split; [exact B|]. split; [|exact D]. intros (d & [[=]|E] & F). apply C. eauto.
Qed.
Lemma plain_says : forall loops t, looked types t -> i_class (types t) = Plain ->
  StringifySpec.says check_unknown types loops t (methods check_unknown (i_methods (types t)) false (i_unknown (types t))).
Proof.
  intros loops t L P. destruct (methods_spec (i_methods (types t)) false (i_unknown (types t))) as [(-> & D)|(N & [(-> & [|D])|(_ & D & ->)])]; [now apply s_own|discriminate|now apply s_object|].
  destruct check_unknown eqn:C, (i_unknown (types t)) eqn:U; cbn [andb]; [apply s_unknown|apply s_any|apply s_any|apply s_any]; auto; intros [? ?]; congruence.
Qed.

(** The memos: each value is a verdict in which circles may be let pass. *)
Definition kept (R : Z -> usefulness -> Prop) (m : memo) : Prop := forall x u, In (x, u) (values m) -> R x u.
Lemma to_string_spec : forall fuel visited t m u m', to_string check_unknown types fuel visited t m = Done (u, m') ->
  kept says m -> (forall r, In r (resolving m) -> clos_trans Z part t r) -> incl visited (resolving m) ->
  (kept says m' /\ resolving m' = resolving m) /\ says t u.
Proof.
  induction fuel as [|fuel IH]; intros visited t m u m' E K R V; cbn [to_string] in E; [discriminate|].
  destruct (mem t visited) eqn:M; [apply mem_in in M; injection E as <- <-; split; [auto|]; apply s_loop; apply (R t); auto|].
  unfold get in E. destruct (lookup t (values m)) as [w|] eqn:L; [injection E as <- <-; split; [auto|]; apply K; now apply lookup_in|].
  destruct (mem t (resolving m)) eqn:G; [apply mem_in in G; injection E as <- <-; split; [auto|]; apply s_loop; now apply R|].
  set (m0 := Memo (values m) (t :: resolving m)) in *.
  assert (NG : ~ In t (resolving m)) by (rewrite <- mem_in; congruence).
  match type of E with bind ?c _ = _ => assert (H : forall u m1, c = Done (u, m1) -> (kept says m1 /\ resolving m1 = t :: resolving m) /\ says t u) end.
  { clear E u m'. intros u m1 E.
    set (J := fun m1 => kept says m1 /\ resolving m1 = t :: resolving m). assert (J0 : J m0) by (split; [exact K|reflexivity]).
    assert (ST : forall x vis s u s', part x t -> incl vis (t :: resolving m) -> to_string check_unknown types fuel vis x s = Done (u, s') -> J s -> J s' /\ says x u).
    { intros x vis s w s' P VI C [K1 R1]. destruct (IH vis x s w s' C K1) as [[K2 R2] Q].
      - rewrite R1. intros r [<-|I]; [now apply t_step|]. eapply t_trans; [apply t_step; exact P|now apply R].
      - now rewrite R1.
      - split; [|exact Q]. split; [exact K2|congruence]. }
    assert (V1 : incl visited (t :: resolving m)) by (intros x I; right; auto).
    assert (V2 : incl (visited ++ [t]) (t :: resolving m)) by (intros x I; apply in_app_or in I as [I|[<-|[]]]; [right; auto|now left]).
    destruct (i_param (types t)) as [[c|]|] eqn:P.
    - assert (PC : part c t) by now apply p_constraint. destruct (ST c visited m0 u m1 PC V1 E J0) as [J1 Q]. split; [exact J1|]. now apply s_constraint with (c := c).
    - injection E as <- <-. split; [exact J0|]. now apply s_free.
    - destruct (i_boolean (types t)) eqn:B; [injection E as <- <-; split; [exact J0|]; now apply s_boolean|].
      destruct (i_ignored (types t)) eqn:N; [injection E as <- <-; split; [exact J0|]; now apply s_ignored|].
      assert (LK : looked types t) by now repeat split.
      destruct (i_class (types t)) as [l|l|l|[e|]|] eqn:C.
      + assert (PM : forall x, In x l -> part x t) by (intros x I; apply p_member with (l := l); auto).
        destruct (union_spec memo J says _ l (fun x s u s' I => ST x visited s u s' (PM x I) V1) m0 u m1 E J0) as [J1 [(-> & Q)|[(-> & Q & Q')|(-> & x & y & v & w & X & X1 & X2 & Y & Y1 & Y2)]]]; (split; [exact J1|]).
        * now apply s_union_never with (l := l).
        * now apply s_union_always with (l := l).
        * now apply s_union_sometimes with (l := l) (x := x) (y := y) (u := v) (w := w).
      + assert (PM : forall x, In x l -> part x t) by (intros x I; apply p_member with (l := l); auto).
        destruct (inter_spec memo J says _ l (fun x s u s' I => ST x visited s u s' (PM x I) V1) m0 u m1 E J0) as [J1 [(-> & x & X & Q)|(-> & Q)]]; (split; [exact J1|]).
        * now apply s_inter_always with (l := l) (x := x).
        * destruct (choose (fun x w => says x w /\ w <> Always) l Q) as (f & F). apply s_inter_never with (l := l) (f := f); auto; intros x I; now apply F.
      + assert (PM : forall x, In x l -> part x t) by (intros x I; apply p_member with (l := l); auto).
        destruct (tuple_spec memo J says _ l (fun x s u s' I => ST x _ s u s' (PM x I) V2) m0 u m1 E J0) as [J1 [(-> & x & X & Q)|[(-> & x & f & X & Q & F)|(-> & Q)]]]; (split; [exact J1|]).
        * now apply s_tuple_never with (l := l) (x := x).
        * apply s_tuple_sometimes with (l := l) (x := x) (f := f); auto; intros y Y; now apply F.
        * now apply s_tuple_always with (l := l).
      + cbn [array] in E. assert (PC : part e t) by now apply p_element. destruct (ST e _ m0 u m1 PC V2 E J0) as [J1 Q]. split; [exact J1|]. now apply s_array with (e := e).
      + discriminate.
      + injection E as <- <-. split; [exact J0|]. now apply plain_says. }
  match type of E with bind ?c _ = _ => destruct c as [[w m1]| |] eqn:C end; cbn [bind] in E; try discriminate. injection E as <- <-.
  destruct (H w m1 eq_refl) as [[K1 R1] Q]. split; [|exact Q]. split.
  - intros x v [I|I]; [injection I as <- <-; exact Q|now apply K1].
  - cbn [resolving]. rewrite R1. cbn [filter]. rewrite Z.eqb_refl. cbn [negb]. now apply filter_out.
Qed.
Definition sound (s : memos) : Prop := kept says (strings s) /\ resolving (strings s) = [] /\ kept joined (joins s).
Lemma in_strings_spec : forall fuel t s u s', in_strings (to_string check_unknown types fuel [] t) s = Done (u, s') -> sound s ->
  (sound s' /\ joins s' = joins s) /\ says t u.
Proof.
  intros fuel t s u s' E (K & R & J). unfold in_strings in E. destruct (to_string check_unknown types fuel [] t (strings s)) as [[w m]| |] eqn:C; cbn [bind] in E; try discriminate.
  injection E as <- <-. destruct (to_string_spec fuel [] t _ _ _ C K) as [[K1 R1] Q]; [rewrite R; easy|easy|]. split; [|exact Q]. split; [|reflexivity]. split; [exact K1|]. split; [cbn; congruence|exact J].
Qed.
Lemma join_spec : forall fuel t s u s', join check_unknown types fuel t s = Done (u, s') ->
  sound s -> (forall r, In r (resolving (joins s)) -> clos_trans Z part t r) -> (sound s' /\ resolving (joins s') = resolving (joins s)) /\ joined t u.
Proof.
  induction fuel as [|fuel IH]; intros t s u s' E K R; cbn [join] in E; [discriminate|].
  unfold get in E. destruct (lookup t (values (joins s))) as [w|] eqn:L; [injection E as <- <-; split; [auto|]; apply (proj2 (proj2 K)); now apply lookup_in|].
  destruct (mem t (resolving (joins s))) eqn:G; [apply mem_in in G; injection E as <- <-; split; [auto|]; apply j_loop; now apply R|].
  set (s0 := Memos (strings s) (Memo (values (joins s)) (t :: resolving (joins s)))) in *.
  assert (NG : ~ In t (resolving (joins s))) by (rewrite <- mem_in; congruence).
  match type of E with bind ?c _ = _ => assert (H : forall u s1, c = Done (u, s1) -> (sound s1 /\ resolving (joins s1) = t :: resolving (joins s)) /\ joined t u) end.
  { clear E u s'. intros u s1 E.
    set (J := fun s1 => sound s1 /\ resolving (joins s1) = t :: resolving (joins s)). assert (J0 : J s0) by (split; [exact K|reflexivity]).
    assert (ST : forall x s u s', part x t -> join check_unknown types fuel x s = Done (u, s') -> J s -> J s' /\ joined x u).
    { intros x s2 w s3 P C [K1 R1]. destruct (IH x s2 w s3 C K1) as [[K2 R2] Q].
      - rewrite R1. intros r [<-|I]; [now apply t_step|]. eapply t_trans; [apply t_step; exact P|now apply R].
      - split; [|exact Q]. split; [exact K2|congruence]. }
    assert (SS : forall x s u s', in_strings (to_string check_unknown types fuel [] x) s = Done (u, s') -> J s -> J s' /\ says x u).
    { intros x s2 w s3 C [K1 R1]. destruct (in_strings_spec fuel x s2 w s3 C K1) as [[K2 R2] Q]. split; [|exact Q]. split; [exact K2|congruence]. }
    destruct (i_class (types t)) as [l|l|l|[e|]|] eqn:C.
    - assert (PM : forall x, In x l -> part x t) by (intros x I; apply p_member with (l := l); auto).
      destruct (union_spec memos J joined _ l (fun x s u s' I => ST x s u s' (PM x I)) s0 u s1 E J0) as [J1 [(-> & Q)|[(-> & Q & Q')|(-> & x & y & v & w & X & X1 & X2 & Y & Y1 & Y2)]]]; (split; [exact J1|]).
      + now apply j_union_never with (l := l).
      + now apply j_union_always with (l := l).
      + now apply j_union_sometimes with (l := l) (x := x) (y := y) (u := v) (w := w).
    - assert (PM : forall x, In x l -> part x t) by (intros x I; apply p_member with (l := l); auto).
      destruct (inter_spec memos J joined _ l (fun x s u s' I => ST x s u s' (PM x I)) s0 u s1 E J0) as [J1 [(-> & x & X & Q)|(-> & Q)]]; (split; [exact J1|]).
      + now apply j_inter_always with (l := l) (x := x).
      + destruct (choose (fun x w => joined x w /\ w <> Always) l Q) as (f & F). apply j_inter_never with (l := l) (f := f); auto; intros x I; now apply F.
    - destruct (tuple_spec memos J says _ l (fun x s u s' I => SS x s u s') s0 u s1 E J0) as [J1 [(-> & x & X & Q)|[(-> & x & f & X & Q & F)|(-> & Q)]]]; (split; [exact J1|]).
      + now apply j_tuple_never with (l := l) (x := x).
      + apply j_tuple_sometimes with (l := l) (x := x) (f := f); auto; intros y Y; now apply F.
      + now apply j_tuple_always with (l := l).
    - cbn [array] in E. destruct (SS e s0 u s1 E J0) as [J1 Q]. split; [exact J1|]. now apply j_array with (e := e).
    - discriminate.
    - injection E as <- <-. split; [exact J0|]. now apply j_plain. }
  match type of E with bind ?c _ = _ => destruct c as [[w s1]| |] eqn:C end; cbn [bind] in E; try discriminate. injection E as <- <-.
  destruct (H w s1 eq_refl) as [[(K1 & K2 & K3) R1] Q]. split; [|exact Q]. split.
  - split; [exact K1|]. split; [exact K2|]. intros x v [I|I]; [injection I as <- <-; exact Q|now apply K3].
  - cbn [joins resolving]. rewrite R1. cbn [filter]. rewrite Z.eqb_refl. cbn [negb]. now apply filter_out.
Qed.

(** ** Ending *)
Variable universe : list Z.
Hypothesis U : closed types universe.
Hypothesis X : forall t, In t universe -> indexed types t.
Lemma to_string_done : forall fuel visited t m, In t universe -> NoDup (resolving m) -> incl (resolving m) universe -> (List.length universe - List.length (resolving m) < fuel)%nat ->
  exists u m', to_string check_unknown types fuel visited t m = Done (u, m') /\ resolving m' = resolving m.
Proof.
  induction fuel as [|fuel IH]; intros visited t m T ND IN F; [lia|]. cbn [to_string]. destruct (mem t visited); [eauto|]. unfold get.
  destruct (lookup t (values m)) as [w|]; [eauto|]. destruct (mem t (resolving m)) eqn:G; [eauto|].
  assert (NG : ~ In t (resolving m)) by (rewrite <- mem_in; congruence).
  set (m0 := Memo (values m) (t :: resolving m)).
  match goal with |- context [bind ?c _] => assert (H : exists u m1, c = Done (u, m1) /\ resolving m1 = t :: resolving m) end.
  { set (J := fun m1 => resolving m1 = t :: resolving m). assert (J0 : J m0) by reflexivity.
    assert (LE : (List.length (t :: resolving m) <= List.length universe)%nat).
    { apply NoDup_incl_length; [now constructor|]. intros x [<-|I]; [exact T|now apply IN]. }
    assert (ST : forall x vis s, part x t -> J s -> exists u s', to_string check_unknown types fuel vis x s = Done (u, s') /\ J s').
    { intros x vis s P R1. unfold J in R1. destruct (IH vis x s) as (w & s1 & -> & R2).
      - now apply (U t).
      - rewrite R1. now constructor.
      - rewrite R1. intros y [<-|I]; [exact T|now apply IN].
      - rewrite R1. cbn [List.length] in *. lia.
      - exists w, s1. split; [reflexivity|]. unfold J. congruence. }
    destruct (i_param (types t)) as [[c|]|] eqn:P; [apply ST; [now apply p_constraint|exact J0]|eauto|].
    destruct (i_boolean (types t)); [eauto|]. destruct (i_ignored (types t)); [eauto|].
    destruct (i_class (types t)) as [l|l|l|[e|]|] eqn:C; [| | | |now elim (X t T)|eauto].
    - assert (PM : forall x, In x l -> part x t) by (intros x I; apply p_member with (l := l); auto).
      unfold union. destruct (all_done memo J (to_string check_unknown types fuel visited) l (fun x s I => ST x visited s (PM x I)) m0 J0) as (us & s1 & -> & J1). cbn [bind]. eauto.
    - assert (PM : forall x, In x l -> part x t) by (intros x I; apply p_member with (l := l); auto).
      apply (inter_done memo J (to_string check_unknown types fuel visited) l (fun x s I => ST x visited s (PM x I)) m0 J0).
    - assert (PM : forall x, In x l -> part x t) by (intros x I; apply p_member with (l := l); auto).
      unfold tuple. destruct (all_done memo J (to_string check_unknown types fuel (visited ++ [t])) l (fun x s I => ST x _ s (PM x I)) m0 J0) as (us & s1 & -> & J1). cbn [bind]. eauto.
    - cbn [array]. apply ST; [now apply p_element|exact J0]. }
  destruct H as (w & m1 & -> & R1). cbn [bind]. eexists _, _. split; [reflexivity|]. cbn [resolving]. rewrite R1. cbn [filter]. rewrite Z.eqb_refl. cbn [negb]. now apply filter_out.
Qed.
Lemma in_strings_done : forall fuel t s, In t universe -> resolving (strings s) = [] -> (List.length universe < fuel)%nat ->
  exists u s', in_strings (to_string check_unknown types fuel [] t) s = Done (u, s') /\ resolving (strings s') = [] /\ joins s' = joins s.
Proof.
  intros fuel t s T R F. unfold in_strings. destruct (to_string_done fuel [] t (strings s) T) as (u & m & -> & Q); try rewrite R; [constructor|easy|cbn; lia|]. cbn [bind].
  eexists _, _. split; [reflexivity|]. cbn. split; [congruence|reflexivity].
Qed.
Lemma join_done : forall fuel t s, In t universe -> resolving (strings s) = [] -> NoDup (resolving (joins s)) -> incl (resolving (joins s)) universe ->
  (List.length universe - List.length (resolving (joins s)) + List.length universe < fuel)%nat ->
  exists u s', join check_unknown types fuel t s = Done (u, s') /\ resolving (strings s') = [] /\ resolving (joins s') = resolving (joins s).
Proof.
  induction fuel as [|fuel IH]; intros t s T RS ND IN F; [lia|]. cbn [join]. unfold get.
  destruct (lookup t (values (joins s))) as [w|]; [eauto|]. destruct (mem t (resolving (joins s))) eqn:G; [eauto|].
  assert (NG : ~ In t (resolving (joins s))) by (rewrite <- mem_in; congruence).
  set (s0 := Memos (strings s) (Memo (values (joins s)) (t :: resolving (joins s)))).
  match goal with |- context [bind ?c _] => assert (H : exists u s1, c = Done (u, s1) /\ resolving (strings s1) = [] /\ resolving (joins s1) = t :: resolving (joins s)) end.
  { set (J := fun s1 => resolving (strings s1) = [] /\ resolving (joins s1) = t :: resolving (joins s)). assert (J0 : J s0) by (split; [exact RS|reflexivity]).
    assert (LE : (List.length (t :: resolving (joins s)) <= List.length universe)%nat).
    { apply NoDup_incl_length; [now constructor|]. intros x [<-|I]; [exact T|now apply IN]. }
    assert (ST : forall x s, part x t -> J s -> exists u s', join check_unknown types fuel x s = Done (u, s') /\ J s').
    { intros x s2 P [R0 R1]. destruct (IH x s2) as (w & s1 & -> & R2 & R3); auto.
      - now apply (U t).
      - rewrite R1. now constructor.
      - rewrite R1. intros y [<-|I]; [exact T|now apply IN].
      - rewrite R1. cbn [List.length] in *. lia.
      - exists w, s1. split; [reflexivity|]. split; [exact R2|congruence]. }
    assert (SS : forall x s, part x t -> J s -> exists u s', in_strings (to_string check_unknown types fuel [] x) s = Done (u, s') /\ J s').
    { intros x s2 P [R0 R1]. destruct (in_strings_done fuel x s2) as (w & s1 & -> & R2 & R3); auto; [now apply (U t)|cbn [List.length] in *; lia|].
      exists w, s1. split; [reflexivity|]. split; [exact R2|congruence]. }
    destruct (i_class (types t)) as [l|l|l|[e|]|] eqn:C; [| | | |now elim (X t T)|eauto].
    - assert (PM : forall x, In x l -> part x t) by (intros x I; apply p_member with (l := l); auto).
      unfold union. destruct (all_done memos J (join check_unknown types fuel) l (fun x s I => ST x s (PM x I)) s0 J0) as (us & s1 & -> & J1). cbn [bind]. eauto.
    - assert (PM : forall x, In x l -> part x t) by (intros x I; apply p_member with (l := l); auto).
      apply (inter_done memos J (join check_unknown types fuel) l (fun x s I => ST x s (PM x I)) s0 J0).
    - assert (PM : forall x, In x l -> part x t) by (intros x I; apply p_member with (l := l); auto).
      unfold tuple. destruct (all_done memos J (fun x => in_strings (to_string check_unknown types fuel [] x)) l (fun x s I => SS x s (PM x I)) s0 J0) as (us & s1 & -> & J1). cbn [bind]. eauto.
    - cbn [array]. apply SS; [now apply p_element|exact J0]. }
  destruct H as (w & s1 & -> & R0 & R1). cbn [bind]. eexists _, _. split; [reflexivity|]. split; [exact R0|]. cbn [joins resolving]. rewrite R1. cbn [filter]. rewrite Z.eqb_refl. cbn [negb]. now apply filter_out.
Qed.
End Types.
