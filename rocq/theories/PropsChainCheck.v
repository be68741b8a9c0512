From Coq Require Import Bool Arith ZArith Ascii String List Lia.
From Verif Require Import Base Types Condition.
From Verif Require Import ChainCheck ChainCheckSpec ChainCheckProofs.
Import ListNotations.
Open Scope Z_scope.

(** What is reported of optional chains, and with what words and label. *)
Theorem C109_reported : forall c node r, In r (check_chain c node) <-> reported c node r.
Proof. exact check_iff. Qed.
Print Assumptions C109_reported.
(** At most one report for each node. *)
Theorem C109_one : forall c node, (List.length (check_chain c node) <= 1)%nat.
Proof. exact at_most_one. Qed.
Print Assumptions C109_one.
(** If the type of what is before a reported [?.] is known, nothing in it is any or a type variable, and if it can be nullish then only because the object or function is. *)
Theorem C109_sound : forall c node r, In r (check_chain c node) -> exists e x, link node e true /\ peeled e x /\ forall t, resolved c x = Some t -> ~ open_type t /\ (can_be_nullish t -> inherited c x).
Proof.
  intros c node r H. apply C109_reported in H as [e [t0 [name [u [n [L [_ [D _]]]]]]]]. exists e, (skip e). split; [exact L|]. split; [apply skip_peeled|]. intros t T. split.
  - intros O. apply D. exists (skip e), t. split; [apply skip_peeled|auto].
  - intros N. destruct (optionable c e) eqn:O; [apply needed_iff in O; contradiction|]. unfold optionable in O. cbv zeta in O. rewrite T in O. apply orb_false_iff in O as [_ O]. apply nullish_iff in N. rewrite N, andb_true_r in O.
    destruct (skip e); try discriminate; apply negb_false_iff in O; [apply (prop_iff c e0 opt name0)|apply (elem_iff c e0_1 opt e0_2)|apply (callee_iff c e0_1 opt e0_2)]; exact O.
Qed.
Print Assumptions C109_sound.
(** Before the [?.] is a name or the like: its type decides. *)
Theorem C109_plain : forall c node e, link node e true -> (forall x, e <> Paren x) -> (forall y o, ~ link e y o) ->
  ((exists r, In r (check_chain c node)) <-> exists t, resolved c e = Some t /\ ~ can_be_nullish t /\ ~ vague t /\ ~ open_type t).
Proof.
  intros c node e L P N. assert (S : skip e = e) by (apply peel_iff; apply pe_itself; exact P). assert (F : forall t name, effect c e t name <-> name = [] /\ resolved c e = Some t).
  { intros t name. apply effect_other; [intros y Y; exact (N _ _ Y)|]. intros f o a y. split; [intros ->; exact (N _ _ (li_call f o a))|intros Y; destruct (N _ _ Y)]. }
  split.
  - intros [r R]. apply C109_reported in R as [e' [t [name [u [n [L' [_ [D [E [T [_ [V [K _]]]]]]]]]]]]]. assert (e' = e) by (destruct L; inversion L'; reflexivity). subst e'. apply F in E as [_ E]. destruct T as [[[f [o [a ->]]] _]|[_ ->]]; [destruct (N _ _ (li_call f o a))|]. exists t. repeat split; auto. intros O. apply D. exists e, t. split; [apply pe_itself; exact P|auto].
  - intros [t [T [K [V O]]]].
    assert (X : exists n, called c e t [] n) by (eexists; apply called_name; reflexivity). destruct X as [n X].
    exists {| at_ := node; id := b "neverOptionalChain"; message := b "Unnecessary optional chain on a non-nullish value."; label := match n with [] => None | _ => Some (text (b "Type: ") ++ n, e) end |}. apply C109_reported. exists e, t, [], t, n. split; [exact L|].
    assert (Z : forall z, peeled e z -> z = e) by (intros z Q; apply peel_iff in Q; congruence).
    split. { intros [[x [Q R]]|[[x [y [Q Y]]] _]]; apply Z in Q; subst x; [apply risky_is in R as [y [i ->]]; destruct (N _ _ (li_elem y false i))|destruct (N _ _ Y)]. }
    split. { intros [x [t' [Q [T' H]]]]. apply Z in Q. subst x. rewrite T in T'. injection T' as <-. destruct H as [H|[H _]]; contradiction. }
    split; [apply F; auto|]. split; [right; split; [intros [[f [o [a ->]]] _]; destruct (N _ _ (li_call f o a))|reflexivity]|].
    split. { intros [f [o [a [t' [l [p [r [rs [-> _]]]]]]]]]. destruct (N _ _ (li_call f o a)). }
    repeat (split; [assumption|]). cbn [at_ id message label]. repeat (split; [reflexivity|]). unfold labelled. destruct n; [left; auto|right; split; [discriminate|reflexivity]].
Qed.
Print Assumptions C109_plain.
(** Before the [?.] is a property read by [?.] from an object of one kind or nothing: the type of the property decides, and not that the object may be nothing. *)
Theorem C109_member : forall c node y name bt l part t u, link node (Prop_ y true name) true -> name <> [] ->
  resolved c y = Some bt -> parts bt l -> kept bt part -> (forall p, In p l -> ~ can_be_nullish p -> p = part) -> ~ union part -> property c part (text name) = Some t ->
  resolved c (Prop_ y true name) = Some u -> ~ open_type u -> (can_be_nullish u -> can_be_nullish bt \/ can_be_nullish t) ->
  (forall z, through y z -> ~ risky c z) ->
  ((exists r, In r (check_chain c node)) <-> ~ can_be_nullish t /\ ~ vague t).
Proof.
  intros c node y name bt l part t u L NE B P K1 K2 NU PT R O C S.
  assert (PK : ~ can_be_nullish part) by (destruct K1 as [l' [bf [af [_ [_ [_ H]]]]]]; exact H).
  assert (E : effect c (Prop_ y true name) t []).
  { eapply ef_name; [exists bt; split; [exact B|exact K1]|]. apply nt_declared with (n := part); [|exact NE|left; exact PT]. exists [part], [], []. split; [right; auto|]. repeat split; auto. }
  assert (Z : forall z, peeled (Prop_ y true name) z -> z = Prop_ y true name) by (intros z Q; apply peel_iff in Q; symmetry; exact Q).
  split.
  - intros [r H]. apply C109_reported in H as [e' [t' [nm [v [n [L' [_ [_ [E' [T [_ [V [N _]]]]]]]]]]]]]. assert (e' = Prop_ y true name) by (inversion L; subst; inversion L'; reflexivity). subst e'.
    apply effect_iff in E, E'. rewrite E in E'. apply some_pair in E' as [<- _]. destruct T as [[[f [o [a X]]] _]|[_ ->]]; [discriminate|]. auto.
  - intros [N V]. assert (X : exists n, called c (Prop_ y true name) t [] n) by (eexists; apply called_name; reflexivity). destruct X as [n X].
    exists {| at_ := node; id := b "neverOptionalChain"; message := b "Unnecessary optional chain on a non-nullish value."; label := match n with [] => None | _ => Some (text (b "Type: ") ++ n, Prop_ y true name) end |}. apply C109_reported. exists (Prop_ y true name), t, [], t, n. split; [exact L|].
    split. { intros [[x [Q H]]|[_ [z [T H]]]]; [apply Z in Q; subst x; apply risky_is in H as [? [? H]]; discriminate|]. apply (through_link _ _ _ z (li_prop y true name)) in T as [->|T]; [apply risky_is in H as [? [? H]]; discriminate|exact (S z T H)]. }
    split. { intros [x [t' [Q [T' H]]]]. apply Z in Q. subst x. rewrite R in T'. injection T' as <-. destruct H as [H|[H J]]; [contradiction|]. apply J. destruct (C H) as [BN|TN]; [|contradiction].
      destruct P as [[U ->]|[U ->]].
      - exists y, true, bt. split; [constructor|]. repeat (split; [assumption|]). intros p I W. inversion W as [y0 o0 nm0 p0 W1 [_ W2]| |]; subst. assert (p = part) by (apply K2; assumption). subst p. destruct W2 as [[t' [T W2]]|[T _]]; [rewrite PT in T; injection T as <-; contradiction|congruence].
      - exfalso. destruct K1 as [l' [bf [af [[[Y _]|[_ ->]] [Q [FB _]]]]]]; [contradiction|]. destruct bf as [|q bf]; injection Q as -> Q; [contradiction|]. destruct bf; discriminate. }
    split; [exact E|]. split; [right; split; [intros [[f [o [a H]]] _]; discriminate|reflexivity]|].
    split. { intros [f [o [a [t' [l' [p [r [rs [H _]]]]]]]]]. discriminate. }
    repeat (split; [assumption|]). cbn [at_ id message label]. repeat (split; [reflexivity|]). unfold labelled. destruct n; [left; auto|right; split; [discriminate|reflexivity]].
Qed.
Print Assumptions C109_member.
(** A call whose function may return nothing by the first signature of one of its kinds is not reported. *)
Theorem C109_calls : forall c node f o a t l p r rs, link node (Call f o a) true -> resolved c f = Some t -> parts t l -> In p l -> ~ has p null_flags -> returns c p = r :: rs -> can_be_nullish r -> check_chain c node = [].
Proof.
  intros c node f o a t l p r rs L T P I N R K. destruct (check_chain c node) as [|q m] eqn:E; [reflexivity|]. assert (Q : In q (check_chain c node)) by (rewrite E; left; reflexivity). apply C109_reported in Q as [e' [t' [nm [v [n [L' [_ [_ [_ [_ [G _]]]]]]]]]]].
  assert (e' = Call f o a) by (inversion L; subst; inversion L'; reflexivity). subst e'. destruct G. exists f, o, a, t, l, p, r, rs. auto 10.
Qed.
Print Assumptions C109_calls.

Definition null_ty := Ty 1 [FNull] [] None [].
Definition undef_ty := Ty 2 [FUndefined] [] None [].
Definition num_ty := Ty 3 [FNumber] [] None [].
Definition str_ty := Ty 4 [FString] [] None [].
Definition obj_a := Ty 10 [FObject] [] None [].
Definition obj_b := Ty 11 [FObject] [] None [].
Definition any_of (i : Z) (l : list ty) := Ty i [FUnion] [] None l.
Definition word (s : string) : list Z := text (b s).
Definition spell (t : ty) : list Z := word (if t_id t =? 3 then "number" else if t_id t =? 4 then "string" else "object").
Definition foo := Name 1.
Definition bar (o : bool) := Prop_ foo o (b "bar").
(** [foo] has a type and [foo?.bar] another. *)
Definition typed (t u : ty) (props : ty -> list Z -> option ty) (idx : ty -> list (list Z * ty)) (map_ : ty -> bool) : checker :=
  let at_e (e : expr) := match e with Name 1 => Some t | Name 3 => Some (any_of 21 [Ty 5 [FStringLiteral] (word "a") None []; Ty 6 [FStringLiteral] (word "b") None []; Ty 7 [FStringLiteral] (word "c") None []]) | Name _ => Some obj_a | _ => Some u end in
  {| raw := at_e; resolved := at_e; written := spell; tuple := fun _ => false; property := props; indexes := idx; key_name := fun _ => word "string"; apparent := fun _ => None; string_index := fun _ => None;
     mapped := map_; mapped_properties := fun _ => []; mapped_optional := fun _ => false; signature_return := fun _ => None; returns := fun p => if t_id p =? 11 then [u] else []; unchecked := false |}.
Definition nowhere (t : ty) : list (list Z * ty) := [].

(** Index signatures of other strings than all are left out, so [undefined] that is read by one of them is taken for that of the [?.] before: the [?.] is needed but reported. *)
Theorem C109_pattern_refuted : exists c node r y name p k v, check_chain c node = [r] /\ link node (Prop_ y true name) true /\ resolved c y = Some (any_of 20 [p; null_ty]) /\ indexes c p = [(k, v)] /\ property c p (text name) = None /\
  resolved c (Prop_ y true name) = Some v /\ can_be_nullish v.
Proof.
  exists (typed (any_of 20 [obj_a; null_ty]) (any_of 22 [num_ty; undef_ty]) (fun _ _ => None) (fun _ => [(word "Lowercase<string>", any_of 22 [num_ty; undef_ty])]) (fun _ => true)), (Prop_ (bar true) true (b "toFixed")). eexists. exists foo, (b "bar"), obj_a, (word "Lowercase<string>"), (any_of 22 [num_ty; undef_ty]).
  split; [vm_compute; reflexivity|]. split; [constructor|]. repeat (split; [reflexivity|]). apply nullish_iff. reflexivity.
Qed.
Print Assumptions C109_pattern_refuted.
(** The first of several kinds of objects stands for all, and the label names the type of its property alone. *)
Theorem C109_first_refuted : exists c node r p q, check_chain c node = [r] /\ resolved c foo = Some (any_of 20 [p; q; null_ty]) /\ property c p (word "bar") = Some str_ty /\ property c q (word "bar") = Some num_ty /\ node = Prop_ (bar true) true (b "x") /\
  label r = Some (word "Type: string", bar true).
Proof.
  exists (typed (any_of 20 [obj_a; obj_b; null_ty]) (any_of 22 [str_ty; num_ty; undef_ty]) (fun t _ => Some (if t_id t =? 10 then str_ty else num_ty)) nowhere (fun _ => false)), (Prop_ (bar true) true (b "x")). eexists. exists obj_a, obj_b.
  split; [vm_compute; reflexivity|]. repeat split; reflexivity.
Qed.
Print Assumptions C109_first_refuted.

Definition say (s : string) (node e : expr) : list chain_report := [{| at_ := node; id := b "neverOptionalChain"; message := b "Unnecessary optional chain on a non-nullish value."; label := Some (word s, e) |}].
Definition no_props (t : ty) (x : list Z) : option ty := None.
Example C109_examples :
  (* [foo?.bar]: needed if foo may be null, or is any *)
  check_chain (typed obj_a num_ty no_props nowhere (fun _ => false)) (bar true) = say "Type: object" (bar true) foo /\
  check_chain (typed obj_a num_ty no_props nowhere (fun _ => false)) (bar false) = [] /\
  check_chain (typed (any_of 20 [obj_a; null_ty]) num_ty no_props nowhere (fun _ => false)) (bar true) = [] /\
  check_chain (typed (Ty 30 [FAny] [] None []) num_ty no_props nowhere (fun _ => false)) (bar true) = [] /\
  (* [foo?.bar?.x]: the null of foo does not count *)
  check_chain (typed (any_of 20 [obj_a; null_ty]) (any_of 22 [num_ty; undef_ty]) (fun _ _ => Some num_ty) nowhere (fun _ => false)) (Prop_ (bar true) true (b "x")) = say "Type: number" (Prop_ (bar true) true (b "x")) (bar true) /\
  check_chain (typed (any_of 20 [obj_a; null_ty]) (any_of 22 [num_ty; undef_ty]) (fun _ _ => Some (any_of 22 [num_ty; undef_ty])) nowhere (fun _ => false)) (Prop_ (bar true) true (b "x")) = [] /\
  (* [(foo?.bar)?.x]: it does *)
  check_chain (typed (any_of 20 [obj_a; null_ty]) (any_of 22 [num_ty; undef_ty]) (fun _ _ => Some num_ty) nowhere (fun _ => false)) (Prop_ (Paren (bar true)) true (b "x")) = [] /\
  (* [foo[2]?.x] of an array *)
  check_chain (typed obj_a num_ty no_props nowhere (fun _ => false)) (Prop_ (Elem foo false (Name 2)) true (b "x")) = [] /\
  check_chain (typed obj_a num_ty no_props nowhere (fun _ => false)) (Prop_ (Prop_ (Elem foo false (Name 2)) true (b "y")) true (b "x")) = [] /\
  (* [foo?.[key]?.x] with keys a, b and c *)
  check_chain (typed (any_of 20 [obj_a; null_ty]) (any_of 22 [str_ty; num_ty; undef_ty]) (fun _ x => Some (if eq_text x (word "b") then num_ty else str_ty)) nowhere (fun _ => false)) (Prop_ (Elem foo true (Name 3)) true (b "x")) =
    say "Type: string | number" (Prop_ (Elem foo true (Name 3)) true (b "x")) (Elem foo true (Name 3)) /\
  (* [foo?.()?.x] where a function may give undefined *)
  check_chain (typed (any_of 20 [obj_b; null_ty]) (any_of 22 [num_ty; undef_ty]) no_props nowhere (fun _ => false)) (Prop_ (Call foo true Nil) true (b "x")) = [] /\
  check_chain (typed (any_of 20 [obj_b; null_ty]) num_ty no_props nowhere (fun _ => false)) (Prop_ (Call foo true Nil) true (b "x")) = say "Type: number" (Prop_ (Call foo true Nil) true (b "x")) (Call foo true Nil).
Proof. repeat split; vm_compute; reflexivity. Qed.
