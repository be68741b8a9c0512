From Coq Require Import Bool Ascii String List Lia.
From Verif Require Import Base EngineProofs.
From Verif Require Import UnboundMethod UnboundMethodSpec.
Import ListNotations.

Lemma safe_passes : forall f above, passes f -> safe_use (f :: above) = safe_use above.
Proof. intros f above [->|[->|[->|[->|[->|[k [->| ->]]]]]]]; reflexivity. Qed.
Lemma safe_harmless : forall f above, harmless f -> safe_use (f :: above) = true.
Proof.
  intros f above [H|[o [H F]]].
  - cbn [In] in H. repeat (destruct H as [<-|H]; [reflexivity|]). destruct H.
  - cbn [In] in H. repeat (destruct H as [<-|H]; [destruct F as [->|[k ->]]; reflexivity|]). destruct H.
Qed.
Lemma safe_split : forall f above, safe_use (f :: above) = true -> harmless f \/ (passes f /\ safe_use above = true).
Proof.
  unfold harmless, passes. intros f above H. destruct f; try destruct o; try destruct keeps; cbn in H; try discriminate;
    first [left; left; cbn [In]; tauto | left; right; eexists; split; [|first [left; reflexivity | right; eexists; reflexivity]]; cbn [In]; tauto | right; split; [|assumption]; eauto 10].
Qed.
Lemma safe_ok : forall above, safe_use above = true <-> exists pre f rest, above = pre ++ f :: rest /\ Forall passes pre /\ harmless f.
Proof.
  split.
  - induction above as [|f above IH]; intros H; [discriminate|]. destruct (safe_split _ _ H) as [N|[P S]].
    + exists [], f, above. auto.
    + destruct (IH S) as (pre & g & rest & -> & F & N). exists (f :: pre), g, rest. auto.
  - intros (pre & f & rest & -> & F & N). induction F as [|g pre P F IH]; cbn [app]; [now apply safe_harmless|]. now rewrite safe_passes.
Qed.

Lemma harmless_escapes : forall r f rest, harmless f -> escapes r (f :: rest) -> (r = false /\ (f = Callee \/ f = Tag)) \/ f = Right Assign true.
Proof.
  intros r f rest H E. inversion E as [r' g above G E'|r' g above G E'|r' o k above G E'|r' o k above G|r' above|g above G|r' g above G]; subst; cbn [In] in *.
  - exfalso. destruct H as [H|[o [H1 [->|[k ->]]]]]; [|cbn [In] in H1; intuition congruence|cbn [In] in H1; intuition congruence]. cbn [In] in H. intuition congruence.
  - destruct H as [H|[o [H1 [->|[k ->]]]]]; [|exfalso; cbn [In] in H1; intuition congruence|exfalso; cbn [In] in H1; intuition congruence]. cbn [In] in H. intuition congruence.
  - exfalso. destruct H as [H|[o' [H1 [H2|[k' H2]]]]]; [cbn [In] in H; intuition congruence|discriminate|]. injection H2 as -> ->. cbn [In] in H1. intuition congruence.
  - exfalso. destruct H as [H|[o' [H1 [H2|[k' H2]]]]]; [cbn [In] in H; intuition congruence|discriminate|]. injection H2 as -> ->. cbn [In] in H1. intuition congruence.
  - exfalso. destruct H as [H|[o' [H1 [H2|[k' H2]]]]]; [cbn [In] in H; intuition congruence|discriminate|]. injection H2 as <- <-. cbn [In] in H1. intuition congruence.
  - left. split; auto. intuition congruence.
  - exfalso. destruct H as [H|[o [H1 [->|[k ->]]]]]; [|cbn [In] in H1; intuition congruence|cbn [In] in H1; intuition congruence]. cbn [In] in H. intuition congruence.
Qed.
Lemma passes_escapes : forall f r rest, passes f -> escapes r (f :: rest) -> exists r', escapes r' rest /\ (r' = r \/ f = Left Or \/ exists k, f = Right Or k \/ f = Right And k).
Proof.
  intros f r rest P E. inversion E as [r' g above G E'|r' g above G E'|r' o k above G E'|r' o k above G|r' above|g above G|r' g above G]; subst; cbn [In] in *.
  - eauto.
  - exists false. split; auto. right. destruct P as [->|[->|[->|[->|[->|[k [->| ->]]]]]]]; eauto; intuition congruence.
  - exists false. split; auto. right. destruct P as [?|[?|[?|[?|[?|[k' [H|H]]]]]]]; try discriminate; right; exists k; injection H as -> ->; auto.
  - exfalso. destruct P as [?|[?|[?|[?|[?|[k' [H|H]]]]]]]; try discriminate; injection H as -> ->; intuition congruence.
  - exfalso. destruct P as [?|[?|[?|[?|[?|[k' [H|H]]]]]]]; discriminate.
  - exfalso. destruct P as [->|[->|[->|[->|[->|[k [->| ->]]]]]]]; intuition congruence.
  - exfalso. destruct P as [->|[->|[->|[->|[->|[k [->| ->]]]]]]]; intuition congruence.
Qed.
Lemma safe_escapes : forall pre r f rest, Forall passes pre -> harmless f -> escapes r (pre ++ f :: rest) ->
  ((f = Callee \/ f = Tag) /\ (r = false \/ exists g, In g pre /\ (g = Left Or \/ exists k, g = Right Or k \/ g = Right And k))) \/ f = Right Assign true.
Proof.
  intros pre. induction pre as [|g pre IH]; intros r f rest P N E; cbn [app] in E.
  - destruct (harmless_escapes _ _ _ N E) as [[-> H]|H]; auto.
  - inversion P as [|x y P1 P2]; subst. destruct (passes_escapes _ _ _ P1 E) as (r' & E' & H). destruct (IH _ _ _ P2 N E') as [[C H']|C]; auto. left. split; auto.
    destruct H as [->|H].
    + destruct H' as [->|(h & I1 & I2)]; [auto|]. right. exists h. split; [now right|exact I2].
    + right. exists g. split; [now left|exact H].
Qed.

Lemma check_method_cases : forall s ps i,
  (this_typed ps None /\ check_method s ps i = Fails) \/
  (exists v, this_typed ps (Some v) /\ check_method s ps i = Verdict (negb v && (negb i || negb s)) true) \/
  (~ names_this ps /\ check_method s ps i = Verdict (negb i || negb s) false).
Proof.
  intros s ps i. unfold check_method. destruct ps as [|[[n|] t] l].
  - right. right. split; [|reflexivity]. intros (t & p & l & E & _). discriminate.
  - destruct (beqb n (b "this")) eqn:B.
    + apply beqb_eq in B as ->. destruct t as [v|].
      * right. left. exists v. split; [|reflexivity]. exists {| parameter_name := Some (b "this"); parameter_type := Some v |}, l. auto.
      * left. split; [|reflexivity]. exists {| parameter_name := Some (b "this"); parameter_type := None |}, l. auto.
    + right. right. split; [|reflexivity]. intros (t' & p & l' & E & N & _). injection E as <- <-. cbn [parameter_name] in N. injection N as ->. rewrite beqb_refl in B. discriminate.
  - right. right. split; [|reflexivity]. intros (t' & p & l' & E & N & _). injection E as <- <-. discriminate.
Qed.
Lemma typed_fun : forall ps t u, this_typed ps t -> this_typed ps u -> t = u.
Proof. intros ps t u (p & l & -> & _ & <-) (q & m & E & _ & <-). injection E as <- <-. reflexivity. Qed.
Lemma check_function : forall d s ps i, function_of d s ps -> check_if_method (Some d) i = check_method s ps i.
Proof. intros d s ps i F. destruct F; reflexivity. Qed.

(** Types are nested. *)
Fixpoint type_ind' (P : type -> Prop) (HP : forall l, Forall P l -> P (Parts l)) (HB : forall d, P (Basic d)) (t : type) : P t :=
  match t with
  | Parts l => HP l ((fix go l : Forall P l := match l with [] => Forall_nil P | t :: l => Forall_cons t (type_ind' P HP HB t) (go l) end) l)
  | Basic d => HB d
  end.
Lemma first_nil : forall o, first_of [] o <-> o = Nothing.
Proof. intros o. split; [|left; auto]. intros [[-> _]|[_ (l & m & E & _)]]; auto. destruct l; discriminate. Qed.
Lemma first_app : forall l m x, first_of l x -> forall o, first_of (l ++ m) o <-> (match x with Nothing => first_of m o | _ => o = x end).
Proof.
  intros l m x X o. destruct X as [[-> F]|[N (l1 & l2 & -> & F)]].
  - split.
    + intros [[-> G]|[No (k1 & k2 & E & G)]].
      * left. split; auto. now apply Forall_app in G.
      * right. split; auto. revert k1 E G. induction F as [|y l Y F IH]; intros k1 E G; cbn [app] in E; [eauto|]. destruct k1 as [|z k1]; cbn [app] in E; injection E as -> E; [congruence|]. inversion G; subst. eapply IH; eauto.
    + intros [[-> G]|[No (k1 & k2 & -> & G)]].
      * left. split; auto. now apply Forall_app.
      * right. split; auto. exists (l ++ k1), k2. split; [now rewrite app_assoc|]. now apply Forall_app.
  - assert (first_of ((l1 ++ x :: l2) ++ m) o <-> o = x) as H.
    { split.
      - intros [[-> G]|[No (k1 & k2 & E & G)]].
        + exfalso. apply Forall_app in G as [G _]. apply Forall_app in G as [_ G]. inversion G; subst. congruence.
        + rewrite <- app_assoc in E. cbn [app] in E. revert k1 E G. induction F as [|y l1 Y F IH]; intros k1 E G; cbn [app] in E; destruct k1 as [|z k1]; cbn [app] in E; injection E as E1 E.
          * auto.
          * inversion G; subst. congruence.
          * congruence.
          * inversion G; subst. eapply IH; eauto.
      - intros ->. right. split; auto. exists l1, (l2 ++ m). split; auto. rewrite <- app_assoc. reflexivity. }
    destruct x; [exact H|congruence|exact H].
Qed.
Lemma first_one : forall x, first_of [x] x.
Proof. intros x. assert (x = Nothing \/ x <> Nothing) as [->|N] by (destruct x; [right|left|right]; congruence); [left; auto|right; split; auto; exists [], []; auto]. Qed.
Lemma first_fun : forall l x o, first_of l x -> (first_of l o <-> o = x).
Proof. intros l x o X. pose proof (first_app l [] x X o) as H. rewrite app_nil_r in H. rewrite H. destruct x; [reflexivity|apply first_nil|reflexivity]. Qed.
Lemma recurse_first : forall i t, first_of (map (check_and_report i) (leaves t)) (recurse i t).
Proof.
  intros i t. induction t as [l IH|d] using type_ind'; [|apply first_one]. cbn [leaves recurse].
  induction IH as [|t l H IH IHl]; cbn [flat_map map]; [apply first_nil; reflexivity|].
  rewrite map_app. apply (first_app _ _ _ H). destruct (recurse i t); auto.
Qed.
Lemma property_first : forall i initial pattern like, first_of (map (check_and_report i) (sources initial pattern like)) (check_property i initial pattern like).
Proof.
  intros i [[[] d]|] pattern like; cbn [sources check_property negb].
  - destruct like; cbn [negb]; [apply recurse_first|]. now apply first_nil.
  - cbn [map]. change (check_and_report i d :: map (check_and_report i) (leaves pattern)) with ([check_and_report i d] ++ map (check_and_report i) (leaves pattern)).
    apply (first_app _ _ _ (first_one _)). destruct (check_and_report i d); [auto|apply recurse_first|auto].
  - apply recurse_first.
Qed.

Lemma inside_no_code : forall above, inside_type_declaration above = true -> exists a, In a above /\ no_code a.
Proof.
  unfold no_code. induction above as [|a above IH]; intros H; [discriminate|]. cbn [inside_type_declaration] in H.
  destruct a as [[]|[] y|[]| | | |[]| |y|y|]; cbn [negb] in H;
    first [destruct (IH H) as (a' & I' & N); exists a'; split; [now right|exact N] | eexists; split; [left; reflexivity|]; cbn [In]; eauto 12].
Qed.
