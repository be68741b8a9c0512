(** * C71, C72: no-unnecessary-type-parameters: how uses are counted, what is removed and what is written instead *)
From Coq Require Import Bool List Arith Ascii Lia String.
From Verif Require Import TypeParameters TypeParametersSpec TypeParametersProofs TypeParametersFix TypeParametersFixSpec TypeParametersFixProofs.
Import ListNotations.
Open Scope nat_scope. Open Scope list_scope.

(** * C71 *)
(** The count of a type parameter is that of uses found in the types; if it is not more than two, there are no further uses. *)
Theorem C71_counts : forall types from_class targets fuel groups st s,
  NoDup targets -> In s targets -> count types targets from_class fuel groups (start targets) = Some st ->
  totals types from_class s groups (found st s) /\
  ((forall g, In g groups -> coherent types from_class g) -> found st s <= 2 -> forall n, totals types from_class s groups n -> n <= found st s).
Proof.
  intros types from_class targets fuel groups st s N T H. destruct (count_spec types targets from_class N s T fuel groups _ st H (start_good targets)) as [[n [Hn F]] [_ C]]. cbn [found start] in F, C.
  split; [rewrite F; exact Hn|]. intros Co L k Hk. specialize (C Co L k Hk). lia.
Qed.
Print Assumptions C71_counts.
(** A type parameter is reported exactly if it has uses, but not three. *)
Theorem C71_reported : forall types from_class targets fuel groups st s,
  NoDup targets -> In s targets -> count types targets from_class fuel groups (start targets) = Some st -> (forall g, In g groups -> coherent types from_class g) ->
  (reported st s = true <-> (exists n, totals types from_class s groups n /\ 1 <= n) /\ forall n, totals types from_class s groups n -> n <= 2).
Proof.
  intros types from_class targets fuel groups st s N T H Co. destruct (C71_counts types from_class targets fuel groups st s N T H) as [A B]. unfold reported. rewrite andb_true_iff, negb_true_iff, Nat.ltb_lt, Nat.ltb_ge. split.
  - intros [P L]. split; [exists (found st s); auto|]. intros n Hn. specialize (B Co L n Hn). lia.
  - intros [[n [Hn P]] M]. pose proof (M _ A) as L. split; [|exact L]. specialize (B Co L n Hn). lia.
Qed.
Print Assumptions C71_reported.
(** The counting ends: no type is looked into more than nine times for a node. *)
Theorem C71_ends : forall types from_class targets fuel groups l, closed types from_class l -> (forall g t a r, In g groups -> In (t, a, r) g -> In t l) -> 9 * List.length l < fuel ->
  exists st, count types targets from_class fuel groups (start targets) = Some st.
Proof. intros types from_class targets fuel groups l C I' F. exact (count_total types targets from_class l C fuel groups (start targets) I' F). Qed.
Print Assumptions C71_ends.
(** A type parameter is left out if it has two references outside of its declaration that do not begin in the body. *)
Theorem C71_repeated : forall p references body, repeated p references body = true <-> picks (counted p body) 2 references.
Proof.
  intros p references body. unfold repeated. rewrite repeated_from_spec. split.
  - intros [n [H L]]. cbn in L. assert (forall (A : Type) (P : A -> Prop) m l, picks P m l -> forall k, k <= m -> picks P k l) as M.
    { induction 1 as [l|m x l H0 IH|m x l Px H0 IH]; intros k K; [assert (k = 0) as -> by lia; constructor|apply PSkip; now apply IH|]. destruct k as [|k]; [constructor|]. apply PTake; [exact Px|apply IH; lia]. }
    apply (M _ _ (S n)); [exact H|lia].
  - intros H. exists 1. split; [exact H|lia].
Qed.
Print Assumptions C71_repeated.

Definition leaf : node := {| parameter := None; alias_arguments := []; parts := None; indexed := None; reference := None; template_parts := None; conditional := None; object_ := None; target := None |}.
Definition tp (d : decl) : node := {| parameter := Some (Some d); alias_arguments := []; parts := None; indexed := None; reference := None; template_parts := None; conditional := None; object_ := None; target := None |}.
Definition ref (k : reference_kind) (l : list nat) : node := {| parameter := None; alias_arguments := []; parts := None; indexed := None; reference := Some (k, l); template_parts := None; conditional := None; object_ := None; target := None |}.
Definition func (g : signature) : node :=
  {| parameter := None; alias_arguments := []; parts := None; indexed := None; reference := None; template_parts := None; conditional := None; object_ := Some {| property_types := []; mapping := None; number_index := None; string_index := None; call_signatures := [g]; construct_signatures := [] |}; target := None |}.
(** function f<T>(x: T[]): void: T has two uses, its declaration and one more; as the type of the result T[] it has three. *)
Definition once_types (returns : bool) (t : nat) : node :=
  match t with
  | 0 => func (if returns then {| this_type := None; parameter_types := []; type_parameters := [1]; return_type := Some 2; predicate_type := None |}
               else {| this_type := None; parameter_types := [2]; type_parameters := [1]; return_type := Some 3; predicate_type := None |})
  | 1 => tp {| symbol := 10; constraint := None; default_type := None |} | 2 => ref (RArray true) [1] | _ => leaf
  end.
Example C71_counts_example :
  (exists st, count (once_types false) [10] false 50 [[(0, false, false)]] (start [10]) = Some st /\ found st 10 = 2 /\ reported st 10 = true) /\
  (exists st, count (once_types true) [10] false 50 [[(0, false, false)]] (start [10]) = Some st /\ found st 10 = 3 /\ reported st 10 = false).
Proof. split; eexists; repeat split. Qed.
(** The premises hold here: the types are closed and no default is reached. *)
Example C71_ends_example : closed (once_types false) false [0; 1; 2; 3] /\ coherent (once_types false) false [(0, false, false)].
Proof.
  split.
  - split; [repeat constructor; cbn; intuition discriminate|]. split.
    + intros t a r u t' a' r' I' P U J. apply uses_eq in U. subst u. destruct I' as [<-|[<-|[<-|[<-|[]]]]]; try discriminate; cbn in J; intuition (try (injection H as <- <- <-); try (injection H0 as <- <- <-); cbn; auto 6).
    + intros t d k t' I' P Hk. destruct I' as [<-|[<-|[<-|[<-|[]]]]]; try discriminate. injection P as <-. inversion Hk; discriminate.
  - intros k t t' [t0 [d [_ [P Hk]]]] _. exfalso. destruct t0 as [|[|[|t0]]]; try discriminate. injection P as <-. inversion Hk; discriminate.
Qed.
Example C71_repeated_example : repeated (10, 11) [(10, 11); (15, 16); (40, 41)] (Some 30) = false /\ repeated (10, 11) [(10, 11); (15, 16); (20, 21)] (Some 30) = true.
Proof. split; reflexivity. Qed.
(** Only the first default that is reached is looked into: f<A, Z = string, B = A>(z: Z, b: B): A is said to be never used. *)
Definition default_types (t : nat) : node :=
  match t with
  | 0 => func {| this_type := None; parameter_types := [2; 3]; type_parameters := [1; 2; 3]; return_type := None; predicate_type := None |}
  | 1 => tp {| symbol := 10; constraint := None; default_type := None |}
  | 2 => tp {| symbol := 20; constraint := None; default_type := Some 4 |}
  | 3 => tp {| symbol := 30; constraint := None; default_type := Some 1 |}
  | _ => leaf
  end.
Theorem C71_default_refuted : exists types targets groups fuel st s,
  NoDup targets /\ In s targets /\ count types targets false fuel groups (start targets) = Some st /\ found st s = 1 /\ totals types false s groups 2.
Proof.
  exists default_types, [10], [[(0, false, false)]], 50. eexists. exists 10. split; [repeat constructor; intros []|]. split; [now left|]. split; [reflexivity|]. split; [reflexivity|].
  assert (uses false (default_types 0) false false (edges false (default_types 0) false false)) as U by now apply uses_eq.
  change 2 with (2 + 0). apply TMore; [|constructor]. exists [KDefault], 1, 1. split; [|split; [|reflexivity]].
  - change 1 with (1 + 0) at 2. eapply UInside; [reflexivity|exact U| |apply UNone]. cbn. apply USkip, USkip. change 1 with ((if false then 2 else 1) + 0) at 4. eapply UHere; [reflexivity|reflexivity|apply UNone].
  - change 1 with (1 + 0). apply (HMore default_types false 10 _ KDefault [] 1); [intros []| | |constructor].
    + exists 3. eexists. split; [|split; [reflexivity|now apply HDefault]]. eapply RUse; [eapply RRoot; left; reflexivity|reflexivity|exact U|]. right. left. reflexivity.
    + change 1 with ((if false then 2 else 1) + 0) at 2. eapply UHere; [reflexivity|reflexivity|apply UNone].
Qed.
Print Assumptions C71_default_refuted.

(** * C72 *)
(** An only type parameter is removed with the brackets, if there is no > in the comments after it. *)
Theorem C72_only : forall before p after token_start, ~ In ">"%char (trail p) ->
  cut (source before [p] after) (removal (source before [p] after) token_start (ranges (S (List.length before)) [p]) 0) = before ++ after.
Proof. exact removal_only. Qed.
Print Assumptions C72_only.
(** The first one is removed up to the second one. *)
Theorem C72_first : forall before p q l after token_start,
  token_start (S (List.length before) + List.length (written p) + 1) = S (List.length before) + List.length (written p) + 1 + List.length (lead q) ->
  cut (source before (p :: q :: l) after) (removal (source before (p :: q :: l) after) token_start (ranges (S (List.length before)) (p :: q :: l)) 0)
  = source before ({| lead := []; body := body q; trail := trail q |} :: l) after.
Proof. exact removal_first. Qed.
Print Assumptions C72_first.
(** Others are removed with the comma before them, if there is no comma in the comments before it; all else stays. *)
Theorem C72_later : forall before l1 p q l2 after token_start, ~ In ","%char (trail p) ->
  cut (source before (l1 ++ p :: q :: l2) after) (removal (source before (l1 ++ p :: q :: l2) after) token_start (ranges (S (List.length before)) (l1 ++ p :: q :: l2)) (S (List.length l1)))
  = source before (l1 ++ {| lead := lead p; body := body p; trail := trail p ++ trail q |} :: l2) after.
Proof. exact removal_later. Qed.
Print Assumptions C72_later.
Definition s_ (s : string) : text := list_ascii_of_string s.
Definition par (a c d : string) : param := {| lead := s_ a; body := s_ c; trail := s_ d |}.
Example C72_removal_example :
  source (s_ "f") [par "" "A" ""; par " " "B" " "; par " " "C" ""] (s_ "()") = s_ "f<A, B , C>()" /\
  cut (s_ "f<A, B , C>()") (removal (s_ "f<A, B , C>()") (fun _ => 5) [(2, 3); (4, 6); (8, 10)] 0) = s_ "f<B , C>()" /\
  cut (s_ "f<A, B , C>()") (removal (s_ "f<A, B , C>()") (fun _ => 5) [(2, 3); (4, 6); (8, 10)] 1) = s_ "f<A , C>()" /\
  cut (s_ "f<A, B , C>()") (removal (s_ "f<A, B , C>()") (fun _ => 5) [(2, 3); (4, 6); (8, 10)] 2) = s_ "f<A, B >()" /\
  cut (s_ "f<A>()") (removal (s_ "f<A>()") (fun _ => 3) [(2, 3)] 0) = s_ "f()".
Proof. repeat split. Qed.
(** With a > in such a comment the rest of the comment stays; with a comma in a comment the comment is not ended. *)
Theorem C72_comment_refuted :
  (exists before p after ts, source before [p] after = s_ "f<T/*>*/>(x)" /\ cut (source before [p] after) (removal (source before [p] after) ts (ranges (S (List.length before)) [p]) 0) = s_ "f*/>(x)") /\
  (exists before p q after ts, source before [p; q] after = s_ "f<A/*,*/,B>(x)" /\ cut (source before [p; q] after) (removal (source before [p; q] after) ts (ranges (S (List.length before)) [p; q]) 1) = s_ "f<A/*>(x)").
Proof.
  split.
  - exists (s_ "f"), (par "" "T" "/*>*/"), (s_ "(x)"), (fun x => x). split; reflexivity.
  - exists (s_ "f"), (par "" "A" "/*,*/"), (par "" "B" ""), (s_ "(x)"), (fun x => x). split; reflexivity.
Qed.
Print Assumptions C72_comment_refuted.
(** The text with the constraint for the type parameter is read as the type with the constraint substituted, exactly if the constraint fits in all places. *)
Theorem C72_substituted : forall x c t, bare (replace x c false t) = bare (substituted x c t).
Proof. intros x c t. apply replace_bare. Qed.
Print Assumptions C72_substituted.
Theorem C72_parentheses : forall x c t, readable c -> readable t -> (readable (replace x c false t) <-> fits x c t).
Proof. intros x c t. apply replace_readable. Qed.
Print Assumptions C72_parentheses.
(** It fits if it is a type that needs no parentheses anywhere, such as unknown. *)
Theorem C72_primary : forall x c t, readable c -> 4 <= tight c -> readable t -> readable (replace x c false t).
Proof.
  intros x c t C K R. apply replace_readable; auto. clear R. induction t; cbn [fits]; unfold no; repeat split; auto; intros _; first [right; lia|lia].
Qed.
Print Assumptions C72_primary.
(** Unions and intersections fit wherever there is no operator such as keyof before the type parameter. *)
Fixpoint operated (x : nat) (t : ty) : Prop :=
  match t with
  | TName _ => False
  | TPrefix t => t = TName x \/ operated x t
  | TArray t | TGeneric _ t | TParen t => operated x t
  | TIndexed a c | TIntersection a c | TUnion a c | TFunction a c => operated x a \/ operated x c
  | TConditional a e t f => operated x a \/ operated x e \/ operated x t \/ operated x f
  end.
Theorem C72_unions : forall x l r t, (readable (TUnion l r) -> readable t -> ~ operated x t -> readable (replace x (TUnion l r) false t)) /\
  (readable (TIntersection l r) -> readable t -> ~ operated x t -> readable (replace x (TIntersection l r) false t)).
Proof.
  intros x l r t. split; intros C R N; apply replace_readable; auto; clear R C; induction t; cbn [fits bracketed tight operated] in *; unfold no; repeat split; auto; try (intros H; exfalso; apply N; now left); try tauto; try (intros _; lia).
Qed.
Print Assumptions C72_unions.
(** (A | B)[] for T[], but keyof A | B for keyof T: read as a union; () => A[] for T[]: read as a function. *)
Example C72_parentheses_example : replace 9 (TUnion (TName 1) (TName 2)) false (TArray (TName 9)) = TArray (TParen (TUnion (TName 1) (TName 2))) /\ fits 9 (TUnion (TName 1) (TName 2)) (TArray (TName 9)).
Proof. split; [reflexivity|]. cbn. split; [intros _; now left|exact I]. Qed.
Theorem C72_parentheses_refuted :
  (exists x l r t other, readable (TUnion l r) /\ readable t /\ readable other /\ print (replace x (TUnion l r) false t) = print other /\ bare other <> bare (substituted x (TUnion l r) t)) /\
  (exists x p r t other, readable (TFunction p r) /\ readable t /\ readable other /\ print (replace x (TFunction p r) false t) = print other /\ bare other <> bare (substituted x (TFunction p r) t)).
Proof.
  split.
  - exists 9, (TName 1), (TName 2), (TPrefix (TName 9)), (TUnion (TPrefix (TName 1)) (TName 2)). cbn. repeat split; auto; lia || discriminate.
  - exists 9, (TName 1), (TName 2), (TArray (TName 9)), (TFunction (TName 1) (TArray (TName 2))). cbn. repeat split; auto; lia || discriminate.
Qed.
Print Assumptions C72_parentheses_refuted.
