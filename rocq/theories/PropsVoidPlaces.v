From Coq Require Import Bool Arith Ascii String List Lia.
From Verif Require Import Base EngineProofs VoidArgs VoidArgsSpec VoidArgsProofs.
From Verif Require Import VoidPlaces VoidPlacesSpec VoidPlacesProofs.
Import ListNotations.

(** Which checks are on: all by default and for true, none for false, those of the object. *)
Theorem C104_options : forall v o, void_checks v = Some o <->
  match v with Absent | Flag true | Object None => o = {| o_arguments := true; o_attributes := true; o_inherited := true; o_properties := true; o_returns := true; o_variables := true |}
             | Object (Some q) => o = q | _ => False end.
Proof. intros [|[|]|[q|]|] o; cbn [void_checks]; split; intros H; try (injection H as <-; reflexivity); try (subst; reflexivity); try discriminate; contradiction. Qed.
Print Assumptions C104_options.
(** A message says that a function that gives a promise is where one that returns void is expected; where no annotation decides it is there for each such place. *)
Theorem C104_exact : forall spreads value o m p, void_checks value = Some o -> tidy p -> (forall t, p <> Spread t) -> (forall a, ~ decides p a) ->
  (In m (check_place spreads value p) <-> option_of o p = true /\ exists e v, expects p m e v /\ takes_void e /\ takes_promise v).
Proof.
  intros sp value o m p E T NS ND. pose proof (in_checked o m p T NS) as Q. pose proof (not_ruled p ND) as NR. unfold check_place. rewrite E.
  destruct p; try (rewrite Q; tauto). exfalso. apply (NS promise). reflexivity.
Qed.
Print Assumptions C104_exact.
(** Where an annotation decides nothing is said too much, and nothing is missed if the annotation is not in parentheses. *)
Theorem C104_annotated : forall spreads value o m p a, void_checks value = Some o -> decides p a ->
  (In m (check_place spreads value p) -> option_of o p = true /\ exists e v, expects p m e v /\ takes_void e /\ takes_promise v) /\
  (honest p -> bare a -> option_of o p = true -> (exists e v, expects p m e v /\ takes_void e /\ takes_promise v) -> In m (check_place spreads value p)).
Proof.
  intros sp value o m p a E Dc. assert (T : tidy p) by (inversion Dc; exact I). assert (NS : forall t, p <> Spread t) by (intros t ->; inversion Dc).
  pose proof (in_checked o m p T NS) as Q. assert (K : In m (check_place sp value p) <-> option_of o p = true /\ ~ ruled_out p /\ exists e v, expects p m e v /\ takes_void e /\ takes_promise v).
  { unfold check_place. rewrite E. destruct p; try exact Q. exfalso. apply (NS promise). reflexivity. }
  rewrite K. split; [tauto|]. intros H B O [e [v [X [V P]]]]. split; auto. split; [|eauto]. intros [x [Dx PF]].
  assert (U : x = a).
  { inversion Dc as [a1 v1 e1|v1 e1 l1 f1 r1 a1 F1 L1 A1]; subst; inversion Dx as [a2 v2 e2|v2 e2 l2 f2 r2 a2 F2 L2 A2]; subst; auto.
    assert (N1 : function_node (l1 ++ f1 :: r1) = Some f1) by (apply function_node_iff; eauto).
    assert (N2 : function_node (l2 ++ f2 :: r2) = Some f2) by (apply function_node_iff; eauto).
    match goal with Z : l2 ++ _ = l1 ++ _ |- _ => rewrite Z in N2 | Z : l1 ++ _ = l2 ++ _ |- _ => rewrite <- Z in N2 end. congruence. }
  subst x. pose proof (bare_possible a (H a m e v Dc X V) B). congruence.
Qed.
Print Assumptions C104_annotated.
(** With the checks off nothing but spreads is reported. *)
Theorem C104_off : forall spreads value p, (forall o, void_checks value <> Some o) -> (forall t, p <> Spread t) -> check_place spreads value p = [].
Proof. intros sp value p N NS. unfold check_place. destruct (void_checks value) as [o|]; [exfalso; apply (N o); reflexivity|]. destruct p; try reflexivity. exfalso. apply (NS promise). reflexivity. Qed.
Print Assumptions C104_off.
(** A spread of a promise is reported if the option is set, whatever the others are. *)
Theorem C104_spread : forall spreads value t m, In m (check_place spreads value (Spread t)) <-> spreads = true /\ t = true /\ m = MSpread.
Proof. intros [|] value [|] m; cbn; split; intros H; try (destruct H as [<-|[]]; auto); try contradiction; destruct H as [A [B C]]; subst; auto; discriminate. Qed.
Print Assumptions C104_spread.
(** Nothing is said twice: a place has at most one message, a class one for each member and heritage type. *)
Theorem C104_once : forall spreads value p, NoDup (check_place spreads value p) /\ ((forall hs ms, p <> ClassLike hs ms) -> List.length (check_place spreads value p) <= 1).
Proof.
  intros sp value p. assert (S1 : forall (l : list message), List.length l <= 1 -> NoDup l) by (intros [|x [|y l]]; cbn [List.length]; intros; [constructor|constructor; [intros []|constructor]|lia]).
  assert (W : forall v f (l : list message), List.length l <= 1 -> List.length (with_option v f l) <= 1) by (intros [o|] f l L; cbn [with_option]; [destruct (f o)|]; cbn [List.length]; lia).
  assert (I1 : forall (c : bool) (m : message), List.length (if c then [m] else []) <= 1) by (intros [|] m; cbn [List.length]; lia).
  assert (K : (forall hs ms, p <> ClassLike hs ms) -> List.length (check_place sp value p) <= 1).
  { intros H. destruct p as [v c|c v|c v|cm io v q|v c above|l r|a v t|hs ms|pr|c v]; unfold check_place; try apply W; try apply I1.
    - unfold check_attribute. destruct v; [apply I1|cbn [List.length]; lia].
    - unfold check_method. destruct cm; [cbn [List.length]; lia|]. destruct (negb io); [cbn [List.length]; lia|]. destruct (negb _); [cbn [List.length]; lia|]. destruct q; [apply I1|cbn [List.length]; lia].
    - unfold check_return. destruct v; [|cbn [List.length]; lia]. match goal with |- context [if ?g then [] else _] => destruct g end; [cbn [List.length]; lia|apply I1].
    - unfold check_assignment. destruct (negb _); [cbn [List.length]; lia|apply I1].
    - unfold check_variable. destruct v; [destruct a|]; try (cbn [List.length]; lia). destruct (negb _); [cbn [List.length]; lia|]. destruct (negb _); [cbn [List.length]; lia|apply I1].
    - exfalso. apply (H hs ms). reflexivity.
    - destruct sp; [apply I1|cbn [List.length]; lia].
    - cbn [List.length]; lia. }
  split; [|exact K]. destruct p as [v c|c v|c v|cm io v q|v c above|l r|a v t|hs ms|pr|c v]; try (apply S1, K; intros; discriminate).
  unfold check_place. destruct (void_checks value) as [o|]; cbn [with_option]; [|constructor]. destruct (o_inherited o); [|constructor].
  assert (H1 : forall i n hs j, NoDup (check_heritages i j hs n)).
  { intros i n. induction hs0 as [|h hs0 IH]; intros j; cbn [check_heritages]; [constructor|]. unfold check_heritage. destruct (get_member h n) as [t|]; [|apply IH]. rewrite negb_if. destruct (void_returning t); [|apply IH].
    constructor; [|apply IH]. intros I0. apply in_heritages in I0. destruct I0 as [k [h' [t' [_ [_ [_ E]]]]]]. injection E. lia. }
  assert (H2 : forall i m, NoDup (check_member i hs m)).
  { intros i m. unfold check_member. destruct (name m); try constructor. destruct (static m); [constructor|]. destruct (negb _); [constructor|apply H1]. }
  assert (H3 : forall i m x, In x (check_member i hs m) -> exists j, x = MInherited i j).
  { intros i m x. unfold check_member. destruct (name m); try (intros []; fail). destruct (static m); [intros []|]. destruct (negb _); [intros []|]. intros I0. apply in_heritages in I0. destruct I0 as [k [h' [t' [_ [_ [_ E]]]]]]. eauto. }
  assert (H4 : forall ms i, NoDup (check_members i hs ms)).
  { clear ms K. induction ms as [|m ms IH]; intros i; cbn [check_members]; [constructor|].
    assert (NA : forall (l1 l2 : list message), NoDup l1 -> NoDup l2 -> (forall x, In x l1 -> ~ In x l2) -> NoDup (l1 ++ l2)).
    { clear. induction l1 as [|x l1 IH]; intros l2 A B C; cbn [app]; auto. inversion A; subst. constructor; [rewrite in_app_iff; intros [H|H]; [contradiction|]; apply (C x); [left; reflexivity|exact H]|]. apply IH; auto. intros y Y. apply C. right. exact Y. }
    apply NA; auto. intros x X Y. destruct (H3 _ _ _ X) as [j ->]. apply in_members in Y. destruct Y as [k [m' [_ Y]]]. destruct (H3 _ _ _ Y) as [j' E]. injection E. lia. }
  unfold check_class. destruct hs; [constructor|apply H4].
Qed.
Print Assumptions C104_once.

Definition fn (n : nat) (t v : bool) : ty := {| id := n; parts := [[{| thenable := t; void := v |}]] |}.
(** An annotation in parentheses: const f: (() => void) = async () => {}; *)
Theorem C104_parentheses_refuted : exists p a e v, decides p a /\ can_call a /\ expects p MVariable e v /\ takes_void e /\ takes_promise v /\ check_place true Absent p = [].
Proof.
  exists (Declared (Some (AParens AFunction)) (Some (fn 2 true false)) (fn 1 false true)), (AParens AFunction), (fn 1 false true), (fn 2 true false).
  split; [constructor|]. split; [repeat constructor|]. split; [constructor|]. split; [apply void_iff; reflexivity|]. split; [apply thenable_iff|]; reflexivity.
Qed.
Print Assumptions C104_parentheses_refuted.
(** The same for what a function returns: function g(): (() => void) { return async () => {}; } *)
Theorem C104_returned_refuted : exists p a e v, decides p a /\ can_call a /\ expects p MReturn e v /\ takes_void e /\ takes_promise v /\ check_place true Absent p = [].
Proof.
  exists (Return (Some (fn 2 true false)) (Some (fn 1 false true)) [{| function_like := false; annotation := None |}; {| function_like := true; annotation := Some (AParens AFunction) |}]), (AParens AFunction), (fn 1 false true), (fn 2 true false).
  split; [apply (d_return _ _ [_] _ []); auto|]. split; [repeat constructor|]. split; [constructor|]. split; [apply void_iff; reflexivity|]. split; [apply thenable_iff|]; reflexivity.
Qed.
Print Assumptions C104_returned_refuted.
(** Bodies of arrow functions, properties of classes and defaults of parameters are not looked at: class A { f: () => void = async () => {}; } *)
Theorem C104_unheard_refuted : exists p e v, p = Unheard (Some e) v /\ takes_void e /\ takes_promise v /\ check_place true Absent p = [].
Proof. exists (Unheard (Some (fn 1 false true)) (fn 2 true false)), (fn 1 false true), (fn 2 true false). split; [reflexivity|]. split; [apply void_iff; reflexivity|]. split; [apply thenable_iff|]; reflexivity. Qed.
Print Assumptions C104_unheard_refuted.
(** An entry in the table of the symbol, a type parameter too, hides the inherited property of that name:
    interface P { T(): void } interface I<T> extends P {} class C implements I<number> { async T() {} } *)
Theorem C104_hidden_refuted : exists h e m p, p = ClassLike [h] [m] /\ In (b "T", e) (properties h) /\ name m = Named (b "T") /\ takes_void e /\ takes_promise (own m) /\ check_place true Absent p = [].
Proof.
  exists {| table := [(b "T", {| id := 5; parts := [[]] |})]; properties := [(b "T", fn 1 false true)] |}, (fn 1 false true), {| name := Named (b "T"); static := false; own := fn 2 true false |}. eexists.
  split; [reflexivity|]. split; [left; reflexivity|]. split; [reflexivity|]. split; [apply void_iff; reflexivity|]. split; [apply thenable_iff|]; reflexivity.
Qed.
Print Assumptions C104_hidden_refuted.
(** Any other value of the option, as "yes", turns the checks off as false does. *)
Theorem C104_other_refuted : exists v p e w m, v <> Flag false /\ expects p m e w /\ takes_void e /\ takes_promise w /\ In m (check_place true Absent p) /\ check_place true v p = [].
Proof.
  exists Other, (Assignment (fn 1 false true) (fn 2 true false)), (fn 1 false true), (fn 2 true false), MVariable. split; [discriminate|]. split; [constructor|]. split; [apply void_iff; reflexivity|]. split; [apply thenable_iff; reflexivity|]. split; [left|]; reflexivity.
Qed.
Print Assumptions C104_other_refuted.

Example C104_examples :
  let v := fn 1 false true in let p := fn 2 true false in
  check_place true Absent (Declared (Some AFunction) (Some p) v) = [MVariable]
  /\ check_place true Absent (Declared (Some (ALiteral [OtherMember; CallSig])) (Some p) v) = [MVariable]
  /\ check_place true Absent (Declared None (Some p) v) = []
  /\ check_place true Absent (Attribute (Some p) (Some v)) = [MAttribute] /\ check_place true Absent (Attribute None (Some v)) = []
  /\ check_place true Absent (Method false true p (Some v)) = [MProperty] /\ check_place true Absent (Method true true p (Some v)) = []
  /\ check_place true Absent (Return (Some p) (Some v) [{| function_like := false; annotation := None |}; {| function_like := true; annotation := None |}]) = [MReturn]
  /\ check_place true (Object (Some {| o_arguments := true; o_attributes := true; o_inherited := true; o_properties := true; o_returns := false; o_variables := true |})) (Return (Some p) (Some v) []) = []
  /\ check_place true Absent (ClassLike [{| table := []; properties := [(b "f", v)] |}; {| table := [(b "f", p)]; properties := [] |}; {| table := [(b "f", v)]; properties := [] |}]
       [{| name := Named (b "g"); static := false; own := p |}; {| name := Named (b "f"); static := false; own := p |}; {| name := Named (b "f"); static := true; own := p |}]) = [MInherited 1 0; MInherited 1 2]
  /\ check_place true (Flag false) (Spread true) = [MSpread].
Proof. vm_compute. repeat split. Qed.
