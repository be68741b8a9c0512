(** C93: what no-unnecessary-type-assertion reports. *)
From Coq Require Import Bool Arith List Lia.
From Verif Require Import AssertionCheck AssertionCheckSpec AssertionCheckProofs.
Import ListNotations.

Lemma no_missing t : negb (nullable_for_assertion t) = true <-> ~ can_be_missing t.
Proof. rewrite negb_true_iff, <- missing_iff. destruct (nullable_for_assertion t); split; congruence. Qed.
Lemma covers f t u : negb (has f t) || has f u = true <-> (includes f t -> includes f u).
Proof. rewrite <- !has_iff. destruct (has f t), (has f u); cbn; intuition congruence. Qed.

(** An identifier is taken as possibly not assigned yet exactly so. *)
Theorem C93_unassigned : forall d strict container t, possibly_unassigned d strict container t = true <-> maybe_unassigned d strict container t.
Proof. exact unassigned_iff. Qed.
Print Assumptions C93_unassigned.
(** An exclamation mark is unnecessary exactly if nothing in the type can be missing, both constrained and as it is, and the variable cannot be unassigned; never on either side of an assignment. *)
Theorem C93_unnecessary : forall p constrained actual unassigned contextual,
  non_null p constrained actual unassigned contextual = Some Unnecessary <-> p = Elsewhere /\ ~ can_be_missing constrained /\ ~ can_be_missing actual /\ unassigned <> Some true.
Proof.
  intros p c a un ctx. rewrite <- !no_missing. destruct p; cbn [non_null]; try (split; [discriminate|intros (E & _); discriminate]).
  destruct (negb (nullable_for_assertion c)), (negb (nullable_for_assertion a)); cbn [andb]; try (split; [|intros (_ & A & B & _); congruence]).
  1: { destruct un as [[]|]; split; try discriminate; auto; try (intros (_ & _ & _ & K); congruence); repeat split; discriminate. }
  all: destruct (negb (Nat.eqb (tid c) (tid a))); try discriminate; destruct ctx as [x|]; try discriminate; destruct (has unknown c && negb (has unknown x)); try discriminate;
    match goal with |- (if ?e then _ else _) = _ -> _ => destruct e; discriminate end.
Qed.
Print Assumptions C93_unnecessary.
(** It is so by context exactly left of an assignment, or if the type is the same constrained and the context takes all of unknown, undefined, null and void that is in it. *)
Theorem C93_contextual : forall p constrained actual unassigned contextual,
  non_null p constrained actual unassigned contextual = Some Contextual <->
  p = Assigned \/ (p = Elsewhere /\ (can_be_missing constrained \/ can_be_missing actual) /\ tid constrained = tid actual /\
    exists x, contextual = Some x /\ forall f, In f [unknown; undefined; null; void] -> includes f constrained -> includes f x).
Proof.
  intros p c a un ctx. destruct p; cbn [non_null]; [split; auto|split; [discriminate|intros [E|(E & _)]; discriminate]|].
  destruct (negb (nullable_for_assertion c) && negb (nullable_for_assertion a)) eqn:M.
  - apply andb_true_iff in M as [M1 M2]. rewrite no_missing in M1, M2. split; [destruct un as [[]|]; discriminate|]. intros [E|(_ & K & _)]; [discriminate|]. tauto.
  - assert (K : can_be_missing c \/ can_be_missing a).
    { rewrite <- !missing_iff. destruct (nullable_for_assertion c), (nullable_for_assertion a); auto; discriminate. }
    destruct (Nat.eqb_spec (tid c) (tid a)) as [T|T]; cbn [negb]; [|split; [discriminate|intros [E|(_ & _ & E & _)]; [discriminate|congruence]]].
    destruct ctx as [x|]; [|split; [discriminate|intros [E|(_ & _ & _ & x & E & _)]; discriminate]].
    destruct (has unknown c && negb (has unknown x)) eqn:U.
    + split; [discriminate|]. intros [E|(_ & _ & _ & y & [= <-] & F)]; [discriminate|]. exfalso. apply andb_true_iff in U as [U1 U2]. apply has_iff in U1. apply (F unknown (or_introl eq_refl)) in U1. apply has_iff in U1. rewrite U1 in U2. discriminate.
    + assert (U' : includes unknown c -> includes unknown x) by (rewrite <- !has_iff; destruct (has unknown c), (has unknown x); auto; discriminate).
      match goal with |- (if ?e then _ else _) = _ <-> _ => destruct e eqn:E end.
      * split; auto. intros _. right. repeat split; auto. exists x. split; auto. apply andb_true_iff in E as [E E3]. apply andb_true_iff in E as [E1 E2]. rewrite covers in E1, E2, E3. intros f [<-|[<-|[<-|[<-|[]]]]]; auto.
      * split; [discriminate|]. intros [Q|(_ & _ & _ & y & [= <-] & F)]; [discriminate|]. exfalso.
        rewrite (proj2 (covers undefined c x)), (proj2 (covers null c x)), (proj2 (covers void c x)) in E; [discriminate| | |]; apply F; cbn; auto.
Qed.
Print Assumptions C93_contextual.
(** So a value that can be missing never loses its mark where the type does not take what is missing. *)
Theorem C93_sound : forall constrained actual unassigned contextual m f, In f [undefined; null; void] -> includes f constrained -> nullable constrained = true ->
  non_null Elsewhere constrained actual unassigned contextual = Some m -> exists x, contextual = Some x /\ includes f x.
Proof.
  intros c a un ctx [] f F I N E.
  - apply C93_unnecessary in E as (_ & M & _). destruct M. left. auto.
  - apply C93_contextual in E as [E|(_ & _ & _ & x & X & H)]; [discriminate|]. exists x. split; auto. apply H; auto. right. auto.
Qed.
Print Assumptions C93_sound.

(** An assertion is reported as not changing the type exactly if it does not, and the same type would be inferred without. *)
Theorem C93_check_unchanged : forall a, check a = Plain_unnecessary <->
  ignored a = false /\ unchanged a = true /\ (literal a = true /\ narrowed a = true /\ (is_const a = true -> check_const a = true) \/ literal a = false /\ is_const a = false).
Proof.
  intros [ig li co ch un na ctx inn ou ta ur il]. unfold check, double_check. cbn. destruct ig; [intuition discriminate|].
  assert (D : (if negb inn then Silent else if ou && negb ta then Double_unnecessary else match ctx with Some c => if negb ur && il && original_assignable c then Double_contextual else Silent | None => Silent end) <> Plain_unnecessary).
  { destruct inn; cbn; [|discriminate]. destruct (ou && negb ta); [discriminate|]. destruct ctx as [c|]; [|discriminate]. destruct (_ && _ && _); discriminate. }
  destruct (negb ch && li && co) eqn:E1.
  - destruct ch, li, co; try discriminate; intuition discriminate.
  - destruct (un && (if li then na else negb co)) eqn:E2.
    + destruct un, li, na, co, ch; cbn in *; try discriminate; intuition.
    + split.
      * destruct ctx as [c|]; [|intros K; destruct (D K)]. match goal with |- (if ?e then _ else _) = _ -> _ => destruct e end; [discriminate|]. intros K. destruct (D K).
      * intros (_ & -> & [(-> & -> & _)|(-> & ->)]); discriminate.
Qed.
Print Assumptions C93_check_unchanged.
(** By context: exactly if there is one, no any is in what it was, none in the context (or the context is any and the assertion is an argument without any), it is assignable, and nothing speaks against it. *)
Theorem C93_check_contextual : forall a, check a = Plain_contextual <->
  ignored a = false /\ is_const a = false /\ ~ (unchanged a = true /\ (literal a = true -> narrowed a = true)) /\
  exists c, context_of a = Some c /\ uncast_contains c = false /\
    (c_any c = false /\ c_contains c = false /\ assignable c = true \/ c_any c = true /\ c_argument c = true /\ cast_contains c = false) /\
    phantom c = false /\ (cast_any c = true \/ generics c = false) /\ nullish c = false.
Proof.
  intros [ig li co ch un na ctx inn ou ta ur il]. unfold check, double_check. cbn. destruct ig; [split; [discriminate|intros (K & _); discriminate]|].
  assert (D : (if negb inn then Silent else if ou && negb ta then Double_unnecessary else match ctx with Some c => if negb ur && il && original_assignable c then Double_contextual else Silent | None => Silent end) <> Plain_contextual).
  { destruct inn; cbn; [|discriminate]. destruct (ou && negb ta); [discriminate|]. destruct ctx as [c|]; [|discriminate]. destruct (_ && _ && _); discriminate. }
  destruct co.
  - split; [|intros (_ & K & _); discriminate]. destruct (negb ch && li && true); [discriminate|]. destruct (un && (if li then na else negb true)); [discriminate|]. destruct ctx as [c|]; cbn; intros K; destruct (D K).
  - rewrite andb_false_r. assert (U : un && (if li then na else negb false) = true <-> un = true /\ (li = true -> na = true)) by (destruct un, li, na; cbn; intuition discriminate).
    destruct (un && (if li then na else negb false)); [split; [discriminate|]; intros (_ & _ & K & _); tauto|].
    assert (NU : ~ (un = true /\ (li = true -> na = true))) by (intros K; apply U in K; discriminate).
    destruct ctx as [[ca cg cc kc uc ph cy ge asg nu oa]|]; [|split; [intros K; destruct (D K)|intros (_ & _ & _ & c & K & _); discriminate]]. cbn [c_any c_argument c_contains cast_contains uncast_contains phantom cast_any generics assignable nullish].
    match goal with |- (if ?e then _ else _) = _ <-> _ => destruct e eqn:E end.
    + split; auto. intros _. repeat split; auto. eexists. split; [reflexivity|]. cbn. destruct ca, cg, cc, kc, uc, ph, cy, ge, asg, nu; cbn in E; try discriminate; repeat split; auto.
    + split; [intros K; destruct (D K)|]. intros (_ & _ & _ & c & [= <-] & A & B & C & F & G). cbn in *. subst.
      destruct B as [(-> & -> & ->)|(-> & -> & ->)], F as [-> | ->]; cbn in E; rewrite ?orb_true_r in E; cbn in E; discriminate.
Qed.
Print Assumptions C93_check_contextual.
(** A double assertion is reported only if nothing else is, and only if it does not change the type, or goes through any or unknown to a type that takes the original one. *)
Theorem C93_check_double : forall a, check a = Double_unnecessary \/ check a = Double_contextual ->
  inner a = true /\ (original_unchanged a = true /\ type_any a = false \/ unrelated a = false /\ intermediate_loose a = true /\ exists c, context_of a = Some c /\ original_assignable c = true).
Proof.
  intros a H. assert (D : double_check a = Double_unnecessary \/ double_check a = Double_contextual).
  { unfold check in H. destruct (ignored a); [destruct H; discriminate|]. destruct (_ && _ && _); [destruct H; discriminate|]. destruct (_ && _); [destruct H; discriminate|].
    destruct (context_of a) as [c|]; auto. match type of H with (if ?e then _ else _) = _ \/ _ => destruct e end; auto. destruct H; discriminate. }
  clear H. unfold double_check in D. destruct (inner a); cbn in D; [|destruct D; discriminate]. split; auto.
  destruct (original_unchanged a), (type_any a); cbn in D; auto; destruct (context_of a) as [c|]; try (destruct D; discriminate); destruct (unrelated a), (intermediate_loose a), (original_assignable c) eqn:O; cbn in D; try (destruct D; discriminate); right; repeat split; auto; exists c; auto.
Qed.
Print Assumptions C93_check_double.

(** And if nothing else is reported it is reported exactly then, as one or the other. *)
Theorem C93_check_double_exact : forall a, ignored a = false -> ~ (check_const a = false /\ literal a = true /\ is_const a = true) -> check a <> Plain_unnecessary -> check a <> Plain_contextual ->
  (check a = Double_unnecessary <-> inner a = true /\ original_unchanged a = true /\ type_any a = false) /\
  (check a = Double_contextual <-> inner a = true /\ ~ (original_unchanged a = true /\ type_any a = false) /\ unrelated a = false /\ intermediate_loose a = true /\ exists c, context_of a = Some c /\ original_assignable c = true).
Proof.
  intros a I L U P. assert (E : check a = double_check a).
  { revert U P. unfold check. rewrite I. destruct (negb (check_const a) && literal a && is_const a) eqn:K; [destruct L; destruct (check_const a), (literal a), (is_const a); try discriminate; auto|].
    destruct (unchanged a && _); [intros U; destruct U; reflexivity|]. intros _. destruct (context_of a) as [c|]; auto. match goal with |- (if ?e then _ else _) <> _ -> _ => destruct e end; [intros P; destruct P; reflexivity|auto]. }
  rewrite E. unfold double_check. destruct (inner a); cbn [negb]; [|split; (split; [discriminate|intros (K & _); discriminate])].
  destruct (original_unchanged a), (type_any a); cbn [andb negb]; try (split; [split; auto|split; [discriminate|intros (_ & K & _); tauto]]; fail).
  all: destruct (context_of a) as [c|]; [|split; (split; [discriminate|]); [intros (_ & K1 & K2); discriminate|intros (_ & _ & _ & _ & c & K & _); discriminate]].
  all: destruct (negb (unrelated a) && intermediate_loose a && original_assignable c) eqn:Q; split; (split; [try discriminate|]); try (intros (_ & K1 & K2); discriminate).
  all: try (intros _; apply andb_true_iff in Q as [Q Q3]; apply andb_true_iff in Q as [Q1 Q2]; apply negb_true_iff in Q1; repeat split; auto; [intros [? ?]; discriminate|exists c; auto]).
  all: try (intros; reflexivity). all: intros (_ & _ & Q1 & Q2 & c' & [= <-] & Q3); rewrite Q1, Q2, Q3 in Q; discriminate.
Qed.
Print Assumptions C93_check_double_exact.

(** That a type parameter is constrained to another is found out exactly, also where constraints are cyclic, and always if there are finitely many types. *)
Theorem C93_constrained : forall shape_of target n source x s, constrained_to shape_of target n source [] = Some (x, s) -> (x = true <-> leads shape_of source target).
Proof.
  intros sh target n source [] s E; (split; [|]).
  - intros _. eapply con_true; eauto.
  - auto.
  - discriminate.
  - intros L. destruct (con_false sh target n source s E L).
Qed.
Print Assumptions C93_constrained.
Theorem C93_constrained_ends : forall shape_of target source l, In source l -> (forall t u, In t l -> leads shape_of t u -> In u l) ->
  exists n r, forall m, n <= m -> constrained_to shape_of target m source [] = Some r.
Proof.
  intros sh target source l I C. destruct (con_ends sh target source l I) as (n & r & E).
  - intros u v U V. apply (C u); auto. eapply next_leads; [constructor|auto].
  - exists n, r. intros m M. eapply con_mono; eauto.
Qed.
Print Assumptions C93_constrained_ends.

(** A var that is used in another block than where it is declared can be unassigned, also where the blocks are side by side and where it is in an async function; neither is seen. *)
Theorem C93_var_refuted : exists v container, variable v = true /\ in_list v = true /\ block_scoped v = false /\ ~ In container (firstn 1 (containers v)) /\ possibly_unassigned (Some v) true container 0 = false /\
  exists w, variable w = true /\ in_list w = true /\ block_scoped w = false /\ In 1 (tl (containers w)) /\ possibly_unassigned (Some w) true 1 0 = false.
Proof.
  exists {| variable := true; in_list := true; block_scoped := false; context_flags := false; containers := [2; 1; 0]; initialized := true; exclaimed := false; typed := Some 0; declared := false |}, 3.
  split; [auto|]. split; [auto|]. split; [auto|]. split; [cbn; intuition discriminate|]. split; [reflexivity|].
  exists {| variable := true; in_list := true; block_scoped := false; context_flags := true; containers := [2; 1; 0]; initialized := true; exclaimed := false; typed := Some 0; declared := false |}.
  repeat split; auto. cbn. auto.
Qed.
Print Assumptions C93_var_refuted.
(** That all marks are reported where the context takes any value is false: unknown takes null. *)
Theorem C93_unknown_context_refuted : exists t x, nullable t = true /\ includes null t /\ includes unknown x /\ non_null Elsewhere t t None (Some x) = None.
Proof.
  exists {| tid := 0; nullable := true; parts := [{| any := false; unknown := false; void := false; undefined := false; null := true |}] |}, {| tid := 1; nullable := false; parts := [{| any := false; unknown := true; void := false; undefined := false; null := false |}] |}.
  split; [auto|]. split; [eexists; split; [left; reflexivity|reflexivity]|]. split; [eexists; split; [left; reflexivity|reflexivity]|]. reflexivity.
Qed.
Print Assumptions C93_unknown_context_refuted.

Definition p0 := {| any := false; unknown := false; void := false; undefined := false; null := false |}.
Definition p_null := {| any := false; unknown := false; void := false; undefined := false; null := true |}.
Definition p_undefined := {| any := false; unknown := false; void := false; undefined := true; null := false |}.
Definition t_string := {| tid := 1; nullable := false; parts := [p0] |}.
Definition t_or_null := {| tid := 2; nullable := true; parts := [p0; p_null] |}.
Definition t_or_both := {| tid := 3; nullable := true; parts := [p0; p_null; p_undefined] |}.
Example C93_sample :
  [non_null Elsewhere t_string t_string None None; non_null Elsewhere t_string t_string (Some true) None; non_null Elsewhere t_or_null t_or_null None (Some t_or_both);
   non_null Elsewhere t_or_both t_or_both None (Some t_or_null); non_null Elsewhere t_string t_or_null None (Some t_or_both); non_null Assigning t_string t_string None None; non_null Assigned t_or_null t_or_null None None]
  = [Some Unnecessary; None; Some Contextual; None; None; None; Some Contextual].
Proof. reflexivity. Qed.
(* let x: number; f(x!) with its type still that, with another type, with declare; a var further in *)
Example C93_sample_unassigned :
  let v d e := {| variable := true; in_list := true; block_scoped := negb e; context_flags := false; containers := [2; 1; 0]; initialized := e; exclaimed := false; typed := Some 7; declared := d |} in
  [possibly_unassigned (Some (v false false)) true 2 7; possibly_unassigned (Some (v false false)) true 2 8; possibly_unassigned (Some (v true false)) true 2 7;
   possibly_unassigned (Some (v false true)) true 1 8; possibly_unassigned (Some (v false true)) true 2 7; possibly_unassigned (Some (v false true)) false 1 8; possibly_unassigned None false 1 8]
  = [true; false; false; true; false; false; true].
Proof. reflexivity. Qed.
(* T extends U & V, V extends T: to V yes, to W no *)
Example C93_sample_constrained :
  let sh t := match t with 0 => TypeParam (Some 1) | 1 => Intersection [2; 3] | 2 => Other | 3 => TypeParam (Some 0) | _ => TypeParam None end in
  option_map fst (constrained_to sh 3 5 0 []) = Some true /\ option_map fst (constrained_to sh 9 9 0 []) = Some false.
Proof. split; reflexivity. Qed.
Definition ex_context ca asg := {| c_any := ca; c_argument := true; c_contains := ca; cast_contains := false; uncast_contains := false; phantom := false; cast_any := false; generics := false; assignable := asg; nullish := false; original_assignable := true |}.
Definition ex_assertion un c inn := {| ignored := false; literal := false; is_const := false; check_const := false; unchanged := un; narrowed := false; context_of := c; inner := inn; original_unchanged := false; type_any := false; unrelated := false; intermediate_loose := true |}.
Example C93_sample_check :
  map check [ex_assertion true None false; ex_assertion false None false; ex_assertion false (Some (ex_context false true)) false; ex_assertion false (Some (ex_context true false)) false; ex_assertion false (Some (ex_context false false)) true]
  = [Plain_unnecessary; Silent; Plain_contextual; Plain_contextual; Double_contextual].
Proof. reflexivity. Qed.
