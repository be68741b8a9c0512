(** Property C39: strict-boolean-expressions. *)
From Coq Require Import Bool List ZArith Lia Permutation String.
From Verif Require Import Base Types StrictBool StrictBoolProofs StrictBoolWalk.
Import ListNotations.
Open Scope Z_scope.
Open Scope list_scope.

(** ** The verdict depends on the set of union members only *)

(** Neither the order of the members (an artefact of the checker), nor repeated members (the
    return types of overloads are joined without removing duplicates), nor the order in which Go
    iterates over a map changes the report. *)
Theorem C39_set_of_members :
  forall order order' o l l', is_order order -> is_order order' -> (forall t, In t l <-> In t l') ->
    check_condition order o l = check_condition order' o l'.
Proof. intros order order' o l l' A B S. unfold check_condition. now rewrite (analyze_set order order' l l' A B S). Qed.
Print Assumptions C39_set_of_members.

(** ** The verdict is the documented one *)

Definition nullish (x : sty) : Prop := x = SNull \/ x = SUndefined \/ x = SVoid.
(** A branded boolean counts as boolean. *)
Inductive boolean : sty -> Prop :=
| b_bool v : boolean (SBool v)
| b_brand l x : In x l -> boolean x -> boolean (SInter l).
Definition textual (x : sty) : Prop := x = SString \/ x = STemplate \/ (exists s, x = SStr s) \/ exists n s, x = SEnumStr n s.
Definition numeric (x : sty) : Prop := x = SNumber \/ (exists s, x = SNum s) \/ (exists n s, x = SEnumNum n s) \/ exists n, x = SEnum n.
Definition big (x : sty) : Prop := x = SBigInt \/ exists n s, x = SBig n s.
Definition objectlike (x : sty) : Prop :=
  x = SSymbol \/ (exists s n, x = SUnique s n) \/ (exists i, x = SObject i) \/ (exists i, x = SWeak i) \/ (exists l, x = SInter l /\ ~ boolean x).
Definition enum (x : sty) : Prop := (exists n s, x = SEnumStr n s) \/ (exists n s, x = SEnumNum n s) \/ exists n, x = SEnum n.
Definition parameter (x : sty) : Prop := exists i, x = SParam i.
(** Literals that are true in a condition; enum members do not count. *)
Definition truthy_literal (x : sty) : Prop := x = SBool true \/ (exists s, x = SStr s /\ s <> []) \/ (exists s, x = SNum s /\ s <> [48]).

(** Only members of kind [P]; and members of kind [P] next to null or undefined. *)
Definition only (P : sty -> Prop) (l : list sty) : Prop := l <> [] /\ Forall P l.
Definition nullable (P : sty -> Prop) (l : list sty) : Prop := Forall (fun x => P x \/ nullish x) l /\ Exists P l /\ Exists nullish l.
Definition of_kind (P : sty -> Prop) (l : list sty) : Prop := only P l \/ nullable P l.
Definition unless (c : bool) (m : message) : option message := if c then None else Some m.

(** Members of more than one kind, or of a kind that is not listed (keyof, conditional types). *)
Definition mixed (l : list sty) : Prop :=
  ~ only nullish l /\ ~ of_kind (eq SAny) l /\ ~ of_kind (eq SUnknown) l /\ ~ of_kind parameter l /\ ~ of_kind (eq SNever) l /\
  ~ of_kind boolean l /\ ~ of_kind textual l /\ ~ of_kind numeric l /\ ~ of_kind big l /\ ~ of_kind objectlike l.

Inductive expected (o : options) (l : list sty) : option message -> Prop :=
| x_nullish : only nullish l -> expected o l (Some ErrorNullish)
| x_any : of_kind (eq SAny) l \/ of_kind (eq SUnknown) l \/ of_kind parameter l -> expected o l (unless (o_any o) ErrorAny)
| x_never : of_kind (eq SNever) l -> expected o l None
| x_boolean : only boolean l -> expected o l None
| x_nullable_true : nullable boolean l -> Forall (fun x => boolean x -> truthy_literal x) l -> expected o l None
| x_nullable_boolean : nullable boolean l -> ~ Forall (fun x => boolean x -> truthy_literal x) l ->
    expected o l (unless (o_nullable_boolean o) ErrorNullableBoolean)
| x_string : only textual l -> expected o l (unless (o_string o) ErrorString)
| x_nullable_text : nullable textual l -> o_string o = true -> Forall (fun x => textual x -> truthy_literal x) l -> expected o l None
| x_nullable_string : nullable textual l -> ~ (o_string o = true /\ Forall (fun x => textual x -> truthy_literal x) l) -> ~ Exists enum l ->
    expected o l (unless (o_nullable_string o) ErrorNullableString)
| x_nullable_string_enum : nullable textual l -> ~ (o_string o = true /\ Forall (fun x => textual x -> truthy_literal x) l) -> Exists enum l ->
    expected o l (unless (o_nullable_enum o) ErrorNullableEnum)
| x_number : only numeric l -> expected o l (unless (o_number o) ErrorNumber)
| x_nullable_nonzero : nullable numeric l -> o_number o = true -> Forall (fun x => numeric x -> truthy_literal x) l -> expected o l None
| x_nullable_number : nullable numeric l -> ~ (o_number o = true /\ Forall (fun x => numeric x -> truthy_literal x) l) -> ~ Exists enum l ->
    expected o l (unless (o_nullable_number o) ErrorNullableNumber)
| x_nullable_number_enum : nullable numeric l -> ~ (o_number o = true /\ Forall (fun x => numeric x -> truthy_literal x) l) -> Exists enum l ->
    expected o l (unless (o_nullable_enum o) ErrorNullableEnum)
| x_big : only big l -> expected o l (unless (o_number o) ErrorNumber)
| x_nullable_big : nullable big l -> expected o l (unless (o_nullable_number o) ErrorNullableNumber)
| x_object : only objectlike l -> expected o l (Some ErrorObject)
| x_nullable_object : nullable objectlike l -> expected o l (unless (o_nullable_object o) ErrorNullableObject)
| x_mixed : mixed l -> ~ Exists enum l -> expected o l (Some ErrorOther)
| x_mixed_enum : mixed l -> Exists enum l -> ~ Exists nullish l -> expected o l None
| x_mixed_nullable_enum : mixed l -> Exists enum l -> Exists nullish l -> expected o l (unless (o_nullable_enum o) ErrorNullableEnum).

(** *** Proof *)
Section Table.
Variable number : sty -> Z.
Definition part (x : sty) : info := analyze_part (checked number x).
Definition vof (x : sty) : variant := i_variant (part x).

Lemma same_text_eq a : forall c, same_text a c = true <-> a = c.
Proof.
  induction a as [|x a IH]; intros [|y c]; cbn [same_text]; try (split; [discriminate|intros [=]]); [split; auto|].
  rewrite andb_true_iff, Z.eqb_eq, IH. split; [intros [-> ->]; reflexivity|intros [= -> ->]; auto].
Qed.
Lemma vof_inter l : vof (SInter l) = if existsb (fun x => variant_eqb (vof x) VBoolean) l then VBoolean else VObject.
Proof.
  unfold vof, part. cbn [checked analyze_part]. cbn [is_set existsb t_flags flag_eqb flag_eq_dec orb i_variant].
  change (is_set (Ty (number (SInter l)) [FIntersection] [] None (map (checked number) l)) [FIntersection]) with true. cbv iota. cbn [i_variant].
  assert (E : existsb (fun u => variant_eqb (i_variant (analyze_part u)) VBoolean) (map (checked number) l) =
    existsb (fun x => variant_eqb (i_variant (analyze_part (checked number x))) VBoolean) l).
  { induction l as [|x l IH]; [reflexivity|]. cbn [map existsb]. now rewrite IH. }
  now rewrite E.
Qed.
Lemma boolean_of x : boolean x -> vof x = VBoolean.
Proof.
  induction 1 as [v|l x I _ IH]; [reflexivity|]. rewrite vof_inter.
  assert (E : existsb (fun x => variant_eqb (vof x) VBoolean) l = true) by (apply existsb_exists; exists x; split; [auto|rewrite IH; reflexivity]).
  now rewrite E.
Qed.
Fixpoint boolean_if (x : sty) : vof x = VBoolean -> boolean x.
Proof.
  destruct x as [| | | | | |v| |s| | |s| |n s|n s|n s|n| |n z|i|i|i|i|l|sy l]; intros E; try discriminate; [constructor|].
  rewrite vof_inter in E. destruct (existsb (fun x => variant_eqb (vof x) VBoolean) l) eqn:X; [|discriminate]. clear E.
  assert (Y : exists x, In x l /\ boolean x).
  { revert X. induction l as [|y l IH]; [discriminate|]. cbn [existsb]. intros X.
    destruct (variant_eqb (vof y) VBoolean) eqn:B.
    - exists y. split; [now left|]. apply boolean_if. now apply veqb.
    - destruct (IH X) as (z & I & Z1). exists z. split; [now right|auto]. }
  destruct Y as (x & I & B). exact (b_brand l x I B).
Qed.
Lemma k_boolean x : vof x = VBoolean <-> boolean x.
Proof. split; [apply boolean_if|apply boolean_of]. Qed.

Ltac inter_no l := rewrite vof_inter; destruct (existsb (fun x => variant_eqb (vof x) VBoolean) l); discriminate.
Ltac other := intros E; exfalso; revert E; first [discriminate | match goal with |- vof (SInter ?l) = _ -> _ => inter_no l end].
Lemma k_nullish x : vof x = VNullish <-> nullish x.
Proof.
  unfold nullish. split.
  - destruct x; try other; auto.
  - intros [->|[->| ->]]; reflexivity.
Qed.
Lemma k_textual x : vof x = VString <-> textual x.
Proof.
  unfold textual. split.
  - destruct x; try other; eauto 10.
  - intros [->|[->|[(? & ->)|(? & ? & ->)]]]; reflexivity.
Qed.
Lemma k_numeric x : vof x = VNumber <-> numeric x.
Proof.
  unfold numeric. split.
  - destruct x; try other; eauto 10.
  - intros [->|[(? & ->)|[(? & ? & ->)|(? & ->)]]]; reflexivity.
Qed.
Lemma k_big x : vof x = VBigInt <-> big x.
Proof.
  unfold big. split.
  - destruct x; try other; eauto 10.
  - intros [->|(? & ? & ->)]; reflexivity.
Qed.
Lemma k_object x : vof x = VObject <-> objectlike x.
Proof.
  unfold objectlike. split.
  - destruct x; try (intros E; discriminate); eauto 10. intros E. do 4 right. eexists. split; [reflexivity|].
    intros B. apply boolean_of in B. congruence.
  - intros [->|[(? & ? & ->)|[(? & ->)|[(? & ->)|(l & -> & B)]]]]; try reflexivity.
    rewrite <- k_boolean, vof_inter in B. rewrite vof_inter. destruct (existsb _ l); [destruct (B eq_refl)|reflexivity].
Qed.
Lemma k_any x : vof x = VAny <-> SAny = x.
Proof. split; [destruct x; try other; auto|intros <-; reflexivity]. Qed.
Lemma k_unknown x : vof x = VUnknown <-> SUnknown = x.
Proof. split; [destruct x; try other; auto|intros <-; reflexivity]. Qed.
Lemma k_never x : vof x = VNever <-> SNever = x.
Proof. split; [destruct x; try other; auto|intros <-; reflexivity]. Qed.
Lemma k_parameter x : vof x = VGeneric <-> parameter x.
Proof. unfold parameter. split; [destruct x; try other; eauto|intros (? & ->); reflexivity]. Qed.
Lemma k_enum x : i_enum (part x) = true <-> enum x.
Proof.
  unfold enum. split.
  - destruct x; try (intros E; discriminate); eauto 10.
  - intros [(? & ? & ->)|[(? & ? & ->)|(? & ->)]]; reflexivity.
Qed.
Lemma k_truthy x : ~ big x -> (i_truthy (part x) = true <-> truthy_literal x).
Proof.
  unfold truthy_literal, big. intros B. split.
  - destruct x; intros E; try discriminate.
    + destruct x; [auto|discriminate].
    + right; left. eexists. split; [reflexivity|]. destruct s; [discriminate|congruence].
    + right; right. eexists. split; [reflexivity|]. intros ->. discriminate.
    + destruct B. eauto.
  - intros [->|[(s & -> & N)|(s & -> & N)]]; [reflexivity|destruct s; [congruence|reflexivity]|].
    unfold part. cbn [checked analyze_part].
    change (negb (same_text s [48]) = true). destruct (same_text s [48]) eqn:E; [apply same_text_eq in E; congruence|reflexivity].
Qed.

Definition parts (l : list sty) : list info := map analyze_part (map (checked number) l).
Lemma in_parts l p : In p (parts l) <-> exists x, In x l /\ p = part x.
Proof.
  unfold parts. rewrite map_map, in_map_iff. split; intros (x & A & B); exists x; auto.
Qed.
Lemma some_part l (P : info -> Prop) : (exists p, In p (parts l) /\ P p) <-> Exists (fun x => P (part x)) l.
Proof.
  rewrite Exists_exists. split.
  - intros (p & I & Q). apply in_parts in I. destruct I as (x & I & ->). eauto.
  - intros (x & I & Q). exists (part x). split; [apply in_parts; eauto|auto].
Qed.
Lemma every_part l (P : info -> Prop) : (forall p, In p (parts l) -> P p) <-> Forall (fun x => P (part x)) l.
Proof.
  rewrite Forall_forall. split.
  - intros Q x I. apply Q, in_parts. eauto.
  - intros Q p I. apply in_parts in I. destruct I as (x & I & ->). auto.
Qed.
Lemma Exists_iff (P Q : sty -> Prop) l : (forall x, P x <-> Q x) -> Exists P l <-> Exists Q l.
Proof. intros E. rewrite !Exists_exists. split; intros (x & I & X); exists x; (split; [auto|]); now apply E. Qed.
Lemma Forall_iff (P Q : sty -> Prop) l : (forall x, P x <-> Q x) -> Forall P l <-> Forall Q l.
Proof. intros E. rewrite !Forall_forall. split; intros H x I; apply E; auto. Qed.

Lemma whole_nullish l : whole (parts l) VNullish <-> only nullish l.
Proof.
  unfold whole, only. rewrite (some_part l (fun p => i_variant p = VNullish)), (every_part l (fun p => i_variant p = VNullish)).
  rewrite (Exists_iff _ nullish l k_nullish), (Forall_iff _ nullish l k_nullish). split.
  - intros [[A B]|(A & _)]; [|congruence]. split; [|auto]. intros ->. inversion A.
  - intros [A B]. left. split; [|auto]. destruct l; [congruence|]. constructor. now inversion B.
Qed.
Lemma whole_kind v (P : sty -> Prop) l : v <> VNullish -> (forall x, vof x = v <-> P x) -> whole (parts l) v <-> of_kind P l.
Proof.
  intros N K. unfold whole, of_kind, only, nullable.
  rewrite (some_part l (fun p => i_variant p = v)), (every_part l (fun p => i_variant p = v)),
    (some_part l (fun p => i_variant p = VNullish)), (every_part l (fun p => i_variant p = v \/ i_variant p = VNullish)).
  assert (E2 : forall x, (i_variant (part x) = v \/ i_variant (part x) = VNullish) <-> P x \/ nullish x).
  { intros x. rewrite <- K, <- k_nullish. reflexivity. }
  rewrite (Exists_iff _ P l K), (Forall_iff _ P l K), (Exists_iff _ nullish l k_nullish), (Forall_iff _ _ l E2). split.
  - intros [[A B]|(_ & A & B & D)]; [left|right; auto]. split; [|auto]. intros ->. inversion A.
  - intros [[A B]|(A & B & D)]; [left|right; auto]. split; [|auto]. destruct l; [congruence|]. constructor. now inversion B.
Qed.

Section Order.
Variable order : list variant -> list variant.
Hypothesis OR : is_order order.
Variable o : options.
Variable l : list sty.
Definition res := analyze_parts order (map (checked number) l).
Lemma res_spec :
  (i_nullable res = true <-> Exists nullish l) /\ (i_enum res = true <-> Exists enum l) /\
  (forall (P : sty -> Prop) v, (forall x, vof x = v <-> P x) -> is_primitive v = true -> of_kind P l -> (forall x, P x -> ~ big x) ->
     (i_truthy res = true <-> Forall (fun x => P x -> truthy_literal x) l)) /\
  (whole (parts l) (i_variant res) \/ i_variant res = VMixed /\ forall v, ~ whole (parts l) v).
Proof.
  pose proof (analyze_spec order (map (checked number) l) OR) as A. cbn zeta in A. fold (parts l) in A. fold res in A.
  destruct A as (A1 & A2 & A3 & A4). split; [rewrite A1, (some_part l (fun p => i_variant p = VNullish)); apply Exists_iff, k_nullish|].
  split; [rewrite A2, (some_part l (fun p => i_enum p = true)); apply Exists_iff, k_enum|]. split; [|exact A4].
  intros P v K PV OF NB. rewrite A3, (some_part l (fun p => prim p = true)), (every_part l (fun p => prim p = true -> i_truthy p = true)).
  assert (PE : Exists P l).
  { destruct OF as [[X Y]|(_ & X & _)]; [|auto]. destruct l; [congruence|]. constructor. now inversion Y. }
  assert (PP : forall x, In x l -> (prim (part x) = true <-> P x)).
  { intros x I. rewrite <- K. unfold prim. fold (vof x). split; [|intros ->; auto]. intros X.
    assert (Y : P x \/ nullish x).
    { destruct OF as [[_ Y]|(Y & _)]; rewrite Forall_forall in Y; auto. }
    destruct Y as [Y|Y]; [now apply K|]. apply k_nullish in Y. rewrite Y in X. discriminate. }
  split.
  - intros [X _]. rewrite Forall_forall in *. intros x I Q. apply k_truthy; [auto|]. apply X; [auto|]. now apply PP.
  - intros X. split.
    + rewrite Forall_forall in *. intros x I Q. apply PP in Q; [|auto]. apply k_truthy; auto.
    + apply Exists_exists in PE. destruct PE as (x & I & Q). apply Exists_exists. exists x. split; [auto|]. now apply PP.
Qed.
Lemma enum_dec : Exists enum l \/ ~ Exists enum l.
Proof. destruct res_spec as (_ & E & _). destruct (i_enum res); [left; now apply E|right; rewrite <- E; discriminate]. Qed.
End Order.
End Table.

Lemma variant_is number order l v : is_order order -> whole (parts number l) v -> i_variant (res number order l) = v.
Proof.
  intros OR W. destruct (res_spec number order OR l) as (_ & _ & _ & [X|[_ X]]); [|destruct (X v W)]. eapply whole_unique; eauto.
Qed.
Lemma mixed_is number order l : is_order order -> (i_variant (res number order l) = VMixed <-> mixed l).
Proof.
  intros OR. destruct (res_spec number order OR l) as (_ & _ & _ & W). unfold mixed.
  rewrite <- (whole_nullish number), <- (whole_kind number VAny _ l ltac:(discriminate) (k_any number)),
    <- (whole_kind number VUnknown _ l ltac:(discriminate) (k_unknown number)), <- (whole_kind number VGeneric _ l ltac:(discriminate) (k_parameter number)),
    <- (whole_kind number VNever _ l ltac:(discriminate) (k_never number)), <- (whole_kind number VBoolean _ l ltac:(discriminate) (k_boolean number)),
    <- (whole_kind number VString _ l ltac:(discriminate) (k_textual number)), <- (whole_kind number VNumber _ l ltac:(discriminate) (k_numeric number)),
    <- (whole_kind number VBigInt _ l ltac:(discriminate) (k_big number)), <- (whole_kind number VObject _ l ltac:(discriminate) (k_object number)).
  split.
  - intros E. assert (N : forall v, v <> VMixed -> ~ whole (parts number l) v).
    { intros v V X. apply (variant_is number order l v OR) in X. congruence. }
    repeat split; apply N; discriminate.
  - intros (A & B & C & D & E & F & G & H & I & J). destruct W as [W|[W _]]; [|auto]. destruct (i_variant (res number order l)); tauto.
Qed.
Lemma only_not_nullable number (P : sty -> Prop) v l : v <> VNullish -> (forall x, vof number x = v <-> P x) -> only P l -> ~ Exists nullish l.
Proof.
  intros N K [_ F] E. apply Exists_exists in E. destruct E as (x & I & X). rewrite Forall_forall in F. apply F, K in I.
  apply (k_nullish number) in X. congruence.
Qed.

Theorem C39_verdict :
  forall number order o l r, is_order order ->
    (check_condition order o (map (checked number) l) = r <-> expected o l r).
Proof.
  intros number order o l r OR.
  destruct (res_spec number order OR l) as (N & E & T & W). pose proof (mixed_is number order l OR) as MX.
  assert (TS := T textual VString (k_textual number) eq_refl). assert (TN := T numeric VNumber (k_numeric number) eq_refl).
  assert (TB := T boolean VBoolean (k_boolean number) eq_refl). clear T.
  assert (Nb : forall P v, v <> VBigInt -> (forall x, vof number x = v <-> P x) -> forall x, P x -> ~ big x).
  { intros P v V K x X Y. apply K in X. apply (k_big number) in Y. congruence. }
  assert (TS' := fun X => TS X (Nb _ VString ltac:(discriminate) (k_textual number))).
  assert (TN' := fun X => TN X (Nb _ VNumber ltac:(discriminate) (k_numeric number))).
  assert (TB' := fun X => TB X (Nb _ VBoolean ltac:(discriminate) (k_boolean number))). clear TS TN TB Nb.
  pose proof (variant_is number order l) as VI. pose proof (only_not_nullable number) as ON.
  unfold check_condition. fold (res number order l). set (i := res number order l) in *.
  assert (NN : i_nullable i = false -> ~ Exists nullish l) by (intros X Y; apply N in Y; congruence).
  assert (EE : i_enum i = false -> ~ Exists enum l) by (intros X Y; apply E in Y; congruence).
  assert (ofn : forall P, of_kind P l -> Exists nullish l -> ~ only nullish l -> (only P l -> ~ Exists nullish l) -> nullable P l).
  { intros P [X|X] Y Z K; [destruct (K X Y)|auto]. }
  split.
  - intros <-. destruct (i_variant i) eqn:V.
    + apply x_nullish, (whole_nullish number). destruct W as [W|[W _]]; [auto|discriminate].
    + assert (K : of_kind boolean l) by (apply (whole_kind number VBoolean); [discriminate|apply k_boolean|]; destruct W as [W|[W _]]; [auto|discriminate]).
      destruct (i_truthy i) eqn:TT.
      * destruct K as [K|K]; [now apply x_boolean|]. apply x_nullable_true; [auto|]. apply TB'; [now right|auto].
      * destruct (i_nullable i) eqn:NL; cbn [andb].
        -- assert (K' : nullable boolean l) by (destruct K as [K|K]; [|auto]; exfalso; apply (ON boolean VBoolean l ltac:(discriminate) (k_boolean number) K); now apply N).
           pose proof (x_nullable_boolean o l K') as R. unfold unless in R. destruct (o_nullable_boolean o); cbn [negb]; apply R; intros X; apply TB' in X; congruence || auto.
        -- apply x_boolean. destruct K as [K|(_ & _ & K)]; [auto|]. destruct (NN eq_refl K).
    + assert (K : of_kind textual l) by (apply (whole_kind number VString); [discriminate|apply k_textual|]; destruct W as [W|[W _]]; [auto|discriminate]).
      destruct (i_nullable i) eqn:NL.
      * assert (K' : nullable textual l) by (destruct K as [K|K]; [|auto]; exfalso; apply (ON textual VString l ltac:(discriminate) (k_textual number) K); now apply N).
        destruct (o_string o && i_truthy i) eqn:OS.
        -- apply andb_prop in OS. apply x_nullable_text; [auto|apply OS|]. apply TS'; [auto|apply OS].
        -- assert (NT : ~ (o_string o = true /\ Forall (fun x => textual x -> truthy_literal x) l)).
           { intros [X Y]. apply TS' in Y; [|auto]. rewrite X, Y in OS. discriminate. }
           destruct (i_enum i) eqn:EN; [apply x_nullable_string_enum|apply x_nullable_string]; auto. now apply E.
      * assert (K' : only textual l) by (destruct K as [K|(_ & _ & K)]; [auto|destruct (NN eq_refl K)]).
        pose proof (x_string o l K') as R. unfold unless in R. destruct (o_string o); cbn [andb]; [destruct (i_truthy i)|]; auto.
    + assert (K : of_kind numeric l) by (apply (whole_kind number VNumber); [discriminate|apply k_numeric|]; destruct W as [W|[W _]]; [auto|discriminate]).
      destruct (i_nullable i) eqn:NL.
      * assert (K' : nullable numeric l) by (destruct K as [K|K]; [|auto]; exfalso; apply (ON numeric VNumber l ltac:(discriminate) (k_numeric number) K); now apply N).
        destruct (o_number o && i_truthy i) eqn:OS.
        -- apply andb_prop in OS. apply x_nullable_nonzero; [auto|apply OS|]. apply TN'; [auto|apply OS].
        -- assert (NT : ~ (o_number o = true /\ Forall (fun x => numeric x -> truthy_literal x) l)).
           { intros [X Y]. apply TN' in Y; [|auto]. rewrite X, Y in OS. discriminate. }
           destruct (i_enum i) eqn:EN; [apply x_nullable_number_enum|apply x_nullable_number]; auto. now apply E.
      * assert (K' : only numeric l) by (destruct K as [K|(_ & _ & K)]; [auto|destruct (NN eq_refl K)]).
        pose proof (x_number o l K') as R. unfold unless in R. destruct (o_number o); cbn [andb]; [destruct (i_truthy i)|]; auto.
    + assert (K : of_kind big l) by (apply (whole_kind number VBigInt); [discriminate|apply k_big|]; destruct W as [W|[W _]]; [auto|discriminate]).
      destruct (i_nullable i) eqn:NL; cbn [andb negb].
      * assert (K' : nullable big l) by (destruct K as [K|K]; [|auto]; exfalso; apply (ON big VBigInt l ltac:(discriminate) (k_big number) K); now apply N).
        pose proof (x_nullable_big o l K') as R. unfold unless in R. destruct (o_nullable_number o); auto.
      * assert (K' : only big l) by (destruct K as [K|(_ & _ & K)]; [auto|destruct (NN eq_refl K)]).
        pose proof (x_big o l K') as R. unfold unless in R. destruct (o_number o); auto.
    + assert (K : of_kind objectlike l) by (apply (whole_kind number VObject); [discriminate|apply k_object|]; destruct W as [W|[W _]]; [auto|discriminate]).
      destruct (i_nullable i) eqn:NL; cbn [andb negb].
      * assert (K' : nullable objectlike l) by (destruct K as [K|K]; [|auto]; exfalso; apply (ON objectlike VObject l ltac:(discriminate) (k_object number) K); now apply N).
        pose proof (x_nullable_object o l K') as R. unfold unless in R. destruct (o_nullable_object o); auto.
      * apply x_object. destruct K as [K|(_ & _ & K)]; [auto|destruct (NN eq_refl K)].
    + apply x_any. left. apply (whole_kind number VAny); [discriminate|apply k_any|]. destruct W as [W|[W _]]; [auto|discriminate].
    + apply x_any. right; left. apply (whole_kind number VUnknown); [discriminate|apply k_unknown|]. destruct W as [W|[W _]]; [auto|discriminate].
    + apply x_never. apply (whole_kind number VNever); [discriminate|apply k_never|]. destruct W as [W|[W _]]; [auto|discriminate].
    + assert (M : mixed l) by now apply MX. destruct (i_enum i) eqn:EN; [|now apply x_mixed; auto].
      destruct (i_nullable i) eqn:NL; cbn [andb].
      * pose proof (x_mixed_nullable_enum o l M) as R. unfold unless in R. destruct (o_nullable_enum o); cbn [negb]; apply R; [now apply E|now apply N|now apply E|now apply N].
      * apply x_mixed_enum; auto. now apply E.
    + apply x_any. right; right. apply (whole_kind number VGeneric); [discriminate|apply k_parameter|]. destruct W as [W|[W _]]; [auto|discriminate].
  - assert (WK : forall P v, v <> VNullish -> (forall x, vof number x = v <-> P x) -> of_kind P l -> i_variant i = v).
    { intros P v V K X. apply VI; [auto|]. now apply (whole_kind number v P). }
    assert (NF : forall P v, v <> VNullish -> (forall x, vof number x = v <-> P x) -> only P l -> i_nullable i = false).
    { intros P v V K X. apply Bool.not_true_iff_false. intros Y. apply N in Y. exact (ON P v l V K X Y). }
    assert (NT : forall P, nullable P l -> i_nullable i = true) by (intros P (_ & _ & X); now apply N).
    assert (EF : ~ Exists enum l -> i_enum i = false) by (intros X; apply Bool.not_true_iff_false; intros Y; now apply E in Y).
    assert (ET : Exists enum l -> i_enum i = true) by apply E.
    intros X. destruct X as [K|K|K|K|K F|K F|K|K O F|K F G|K F G|K|K O F|K F G|K F G|K|K|K|K|M G|M G H|M G H].
    + rewrite (VI VNullish OR); [reflexivity|]. now apply whole_nullish.
    + destruct K as [K|[K|K]]; [rewrite (WK _ VAny ltac:(discriminate) (k_any number) K)|rewrite (WK _ VUnknown ltac:(discriminate) (k_unknown number) K)|rewrite (WK _ VGeneric ltac:(discriminate) (k_parameter number) K)]; reflexivity.
    + rewrite (WK _ VNever ltac:(discriminate) (k_never number) K). reflexivity.
    + rewrite (WK _ VBoolean ltac:(discriminate) (k_boolean number) (or_introl K)), (NF _ VBoolean ltac:(discriminate) (k_boolean number) K).
      destruct (i_truthy i); reflexivity.
    + rewrite (WK _ VBoolean ltac:(discriminate) (k_boolean number) (or_intror K)). apply TB' in F; [|now right]. now rewrite F.
    + rewrite (WK _ VBoolean ltac:(discriminate) (k_boolean number) (or_intror K)), (NT _ K).
      assert (i_truthy i = false) as -> by (apply Bool.not_true_iff_false; rewrite (TB' (or_intror K)); auto).
      unfold unless. now destruct (o_nullable_boolean o).
    + rewrite (WK _ VString ltac:(discriminate) (k_textual number) (or_introl K)), (NF _ VString ltac:(discriminate) (k_textual number) K).
      unfold unless. destruct (o_string o), (i_truthy i); reflexivity.
    + rewrite (WK _ VString ltac:(discriminate) (k_textual number) (or_intror K)). apply TS' in F; [|now right]. now rewrite F, O.
    + rewrite (WK _ VString ltac:(discriminate) (k_textual number) (or_intror K)), (NT _ K), (EF G).
      rewrite <- (TS' (or_intror K)) in F. destruct (o_string o), (i_truthy i); cbn [andb]; try reflexivity. destruct F; auto.
    + rewrite (WK _ VString ltac:(discriminate) (k_textual number) (or_intror K)), (NT _ K), (ET G).
      rewrite <- (TS' (or_intror K)) in F. destruct (o_string o), (i_truthy i); cbn [andb]; try reflexivity. destruct F; auto.
    + rewrite (WK _ VNumber ltac:(discriminate) (k_numeric number) (or_introl K)), (NF _ VNumber ltac:(discriminate) (k_numeric number) K).
      unfold unless. destruct (o_number o), (i_truthy i); reflexivity.
    + rewrite (WK _ VNumber ltac:(discriminate) (k_numeric number) (or_intror K)). apply TN' in F; [|now right]. now rewrite F, O.
    + rewrite (WK _ VNumber ltac:(discriminate) (k_numeric number) (or_intror K)), (NT _ K), (EF G).
      rewrite <- (TN' (or_intror K)) in F. destruct (o_number o), (i_truthy i); cbn [andb]; try reflexivity. destruct F; auto.
    + rewrite (WK _ VNumber ltac:(discriminate) (k_numeric number) (or_intror K)), (NT _ K), (ET G).
      rewrite <- (TN' (or_intror K)) in F. destruct (o_number o), (i_truthy i); cbn [andb]; try reflexivity. destruct F; auto.
    + rewrite (WK _ VBigInt ltac:(discriminate) (k_big number) (or_introl K)), (NF _ VBigInt ltac:(discriminate) (k_big number) K).
      unfold unless. now destruct (o_number o).
    + rewrite (WK _ VBigInt ltac:(discriminate) (k_big number) (or_intror K)), (NT _ K). unfold unless. now destruct (o_nullable_number o).
    + rewrite (WK _ VObject ltac:(discriminate) (k_object number) (or_introl K)), (NF _ VObject ltac:(discriminate) (k_object number) K). reflexivity.
    + rewrite (WK _ VObject ltac:(discriminate) (k_object number) (or_intror K)), (NT _ K). unfold unless. now destruct (o_nullable_object o).
    + rewrite (proj2 MX M), (EF G). reflexivity.
    + rewrite (proj2 MX M), (ET G). assert (i_nullable i = false) as -> by (apply Bool.not_true_iff_false; intros Y; now apply N in Y). reflexivity.
    + rewrite (proj2 MX M), (ET G), (proj2 N H). unfold unless. now destruct (o_nullable_enum o).
Qed.
Print Assumptions C39_verdict.

(** ** Allowing more removes reports *)
Definition no_stricter (o o' : options) : Prop :=
  (o_any o = true -> o_any o' = true) /\ (o_nullable_boolean o = true -> o_nullable_boolean o' = true) /\
  (o_nullable_enum o = true -> o_nullable_enum o' = true) /\ (o_nullable_number o = true -> o_nullable_number o' = true) /\
  (o_nullable_object o = true -> o_nullable_object o' = true) /\ (o_nullable_string o = true -> o_nullable_string o' = true) /\
  (o_number o = true -> o_number o' = true) /\ (o_string o = true -> o_string o' = true).
Theorem C39_allowing_more :
  forall order o o' l, no_stricter o o' -> check_condition order o' l = None \/ check_condition order o' l = check_condition order o l.
Proof.
  intros order [a1 a2 a3 a4 a5 a6 a7 a8] [b1 b2 b3 b4 b5 b6 b7 b8] l H. unfold no_stricter in H. cbn in H. unfold check_condition.
  destruct (analyze_parts order l) as [v n t e]. cbn [i_variant i_nullable i_truthy i_enum o_any o_nullable_boolean o_nullable_enum o_nullable_number o_nullable_object o_nullable_string o_number o_string].
  decompose [and] H; clear H. destruct v; cbn.
  all: repeat match goal with
    | |- context[if ?c then _ else _] => is_var c; destruct c; cbn
    | |- context[?c && _] => is_var c; destruct c; cbn
    | |- context[negb ?c] => is_var c; destruct c; cbn
    end; auto.
  all: repeat match goal with H : true = true -> false = true |- _ => discriminate (H eq_refl) end.
Qed.
Print Assumptions C39_allowing_more.

(** ** What an accepted condition can be *)

Definition values (l : list sty) (v : value) : Prop := Exists (fun x => holds x v) l.
Definition strict (o : options) : Prop :=
  o_any o = false /\ o_nullable_boolean o = false /\ o_nullable_enum o = false /\ o_nullable_number o = false /\ o_nullable_string o = false.

Lemma holds_inter l v : holds (SInter l) v <-> Forall (fun x => holds x v) l.
Proof. cbn [holds]. induction l as [|x l IH]; split; intros H; auto; [destruct H; constructor; tauto|inversion H; tauto]. Qed.
Lemma boolean_holds x v : boolean x -> holds x v -> exists c, v = Bool c.
Proof.
  induction 1 as [c|l x I _ IH]; intros H; [eauto|]. apply holds_inter in H. rewrite Forall_forall in H. auto.
Qed.

(** With the nullable options off, an accepted condition has falsy values of one kind only, so its
    falsy branch means one thing; a string or a number is only tested where that is allowed.

    Full statement: the same without the last three conditions.  Missing: unions of enum members with
    other types, and object types that primitives belong to; both are refuted below.  (There is no
    literal type NaN in TypeScript.) *)
Theorem C43_one_meaning_partial :
  forall number order o l, is_order order -> strict o ->
    check_condition order o (map (checked number) l) = None ->
    ~ In (SNum [78; 97; 78]) l ->
    (forall x v k, In x l -> objectlike x -> holds x v -> ~ falsy v k) ->
    (Exists enum l -> Forall (fun x => textual x \/ nullish x) l \/ Forall (fun x => numeric x \/ nullish x) l) ->
    (forall v v' k k', values l v -> values l v' -> falsy v k -> falsy v' k' -> k = k') /\
    (o_string o = false -> forall v, values l v -> ~ falsy v KEmpty) /\
    (o_number o = false -> forall v, values l v -> ~ falsy v KZero /\ ~ falsy v KZeroBig).
Proof.
  intros number order o l OR (S1 & S2 & S3 & S4 & S5) C NN OB EN. apply (C39_verdict number order o l None OR) in C.
  (* it is enough to name the kinds of falsy values *)
  assert (ONE : forall k0, (forall v k, values l v -> falsy v k -> k = k0) ->
    (o_string o = false -> k0 <> KEmpty) -> (o_number o = false -> k0 <> KZero /\ k0 <> KZeroBig) ->
    (forall v v' k k', values l v -> values l v' -> falsy v k -> falsy v' k' -> k = k') /\
    (o_string o = false -> forall v, values l v -> ~ falsy v KEmpty) /\
    (o_number o = false -> forall v, values l v -> ~ falsy v KZero /\ ~ falsy v KZeroBig)).
  { intros k0 H A B. split; [intros v v' k k' V V' F F'; rewrite (H v k V F), (H v' k' V' F'); reflexivity|]. split.
    - intros O v V F. apply (A O). symmetry. eauto.
    - intros O v V. destruct (B O) as [B1 B2]. split; intros F; [apply B1|apply B2]; symmetry; eauto. }
  assert (MEM : forall P k0, Forall P l -> (forall x v k, In x l -> P x -> holds x v -> falsy v k -> k = k0) -> forall v k, values l v -> falsy v k -> k = k0).
  { intros P k0 F H v k V Fv. apply Exists_exists in V. destruct V as (x & I & V). rewrite Forall_forall in F. eauto. }
  assert (NUL : forall x v k, nullish x -> holds x v -> falsy v k -> k = KNullish).
  { intros x v k [->|[->| ->]] H F; cbn in H; subst; inversion F; reflexivity. }
  assert (TX : forall x v k, textual x -> holds x v -> falsy v k -> k = KEmpty).
  { intros x v k [->|[->|[(s & ->)|(n & s & ->)]]] H F; cbn in H; try match type of H with ex _ => destruct H as [s0 H] end; subst; inversion F; reflexivity. }
  assert (NU : forall x v k, numeric x -> holds x v -> falsy v k -> k = KZero).
  { intros x v k [->|[(s & ->)|[(n & s & ->)|(n & ->)]]] H F; cbn in H; try match type of H with ex _ => destruct H as [s0 H] end; subst; inversion F; reflexivity. }
  assert (BI : forall x v k, big x -> holds x v -> falsy v k -> k = KZeroBig).
  { intros x v k [->|(n & s & ->)] H F; cbn in H; try match type of H with ex _ => destruct H as [s0 H] end; subst; inversion F; reflexivity. }
  assert (BO : forall x v k, boolean x -> holds x v -> falsy v k -> k = KFalse).
  { intros x v k B H F. destruct (boolean_holds x v B H) as (c & ->). inversion F; reflexivity. }
  assert (TL : forall x v k, In x l -> truthy_literal x -> holds x v -> ~ falsy v k).
  { intros x v k I [->|[(s & -> & N)|(s & -> & N)]] H F; cbn in H; subst; inversion F; subst; auto. }
  unfold unless in C. rewrite ?S1, ?S2, ?S3, ?S4, ?S5 in C.
  assert (FIN : forall r, expected o l r -> r = None -> exists k0, (forall v k, values l v -> falsy v k -> k = k0) /\ (o_string o = false -> k0 <> KEmpty) /\ (o_number o = false -> k0 <> KZero /\ k0 <> KZeroBig)).
  { clear C ONE. intros r X R.
    destruct X as [K|K|K|K|K F|K F|K|K O F|K F G|K F G|K|K O F|K F G|K F G|K|K|K|K|M G|M G H|M G H]; unfold unless in R;
      rewrite ?S1, ?S2, ?S3, ?S4, ?S5 in R; try discriminate.
    - exists KNullish. split; [|split; repeat split; discriminate].
      assert (FA : Forall (fun x => SNever = x \/ nullish x) l) by (destruct K as [[_ K]|(K & _)]; [eapply Forall_impl; [|exact K]; auto|auto]).
      apply (MEM _ _ FA). intros x v k I [<-|X] H0 F; [destruct H0|eauto].
    - exists KFalse. split; [|split; repeat split; discriminate]. apply (MEM _ _ (proj2 K)). eauto.
    - exists KNullish. split; [|split; repeat split; discriminate]. destruct K as (K & _).
      assert (FA : Forall (fun x => truthy_literal x \/ nullish x) l).
      { rewrite Forall_forall in *. intros x I. destruct (K x I); auto. }
      apply (MEM _ _ FA). intros x v k I [X|X] H0 F0; [destruct (TL x v k I X H0 F0)|eauto].
    - exists KEmpty. destruct (o_string o); [|discriminate]. split; [|split; [discriminate|split; discriminate]].
      apply (MEM _ _ (proj2 K)). eauto.
    - exists KNullish. split; [|split; repeat split; discriminate]. destruct K as (K & _).
      assert (FA : Forall (fun x => truthy_literal x \/ nullish x) l).
      { rewrite Forall_forall in *. intros x I. destruct (K x I); auto. }
      apply (MEM _ _ FA). intros x v k I [X|X] H0 F0; [destruct (TL x v k I X H0 F0)|eauto].
    - exists KZero. destruct (o_number o); [|discriminate]. split; [|split; [discriminate|discriminate]].
      apply (MEM _ _ (proj2 K)). eauto.
    - exists KNullish. split; [|split; repeat split; discriminate]. destruct K as (K & _).
      assert (FA : Forall (fun x => truthy_literal x \/ nullish x) l).
      { rewrite Forall_forall in *. intros x I. destruct (K x I); auto. }
      apply (MEM _ _ FA). intros x v k I [X|X] H0 F0; [destruct (TL x v k I X H0 F0)|eauto].
    - exists KZeroBig. destruct (o_number o); [|discriminate]. split; [|split; [discriminate|discriminate]].
      apply (MEM _ _ (proj2 K)). eauto.
    - exists KNullish. split; [|split; repeat split; discriminate]. destruct K as (K & _).
      apply (MEM _ _ K). intros x v k I [X|X] H0 F0; [destruct (OB x v k I X H0 F0)|eauto].
    - exfalso. destruct M as (_ & _ & _ & _ & _ & _ & M1 & M2 & _).
      assert (OK : forall P : sty -> Prop, Forall (fun x => P x \/ nullish x) l -> of_kind P l).
      { intros P F. left. split; [intros ->; inversion G|]. rewrite Forall_forall in *. intros x I. destruct (F x I) as [X|X]; [auto|].
        exfalso. apply H. apply Exists_exists. eauto. }
      destruct (EN G) as [X|X]; [apply M1|apply M2]; auto. }
  destruct (FIN None C eq_refl) as (k0 & A & B & D). apply (ONE k0); auto.
Qed.
Print Assumptions C43_one_meaning_partial.

Definition strictest : options := Options false false false false false false false false.
Definition default_options : options := Options false false false false true false true true.

(** A union of a zero enum member with string is accepted even with every option off. *)
Theorem C43_enum_union_refuted :
  exists l, (forall number order, is_order order -> check_condition order strictest (map (checked number) l) = None) /\
    exists v v', values l v /\ values l v' /\ falsy v KZero /\ falsy v' KEmpty.
Proof.
  exists [SEnumNum [65] [48]; SString]. split.
  - intros number order OR. apply C39_verdict; [auto|]. apply x_mixed_enum.
    + apply (mixed_is number order _ OR). cbn. unfold res, analyze_parts. cbn. reflexivity.
    + constructor. right; left. eauto.
    + rewrite Exists_exists. intros (x & [<-|[<-|[]]] & [X|[X|X]]); discriminate.
  - exists (Num [48]), (Str []). split; [now constructor|]. split; [right; constructor; cbn; eauto|]. split; constructor.
Qed.
Print Assumptions C43_enum_union_refuted.

(** A branded string that may be missing is accepted with the default options, because an
    intersection counts as an object. *)
Theorem C43_brand_refuted :
  exists l, (forall number order, is_order order -> check_condition order default_options (map (checked number) l) = None) /\
    exists v v', values l v /\ values l v' /\ falsy v KEmpty /\ falsy v' KNullish.
Proof.
  exists [SInter [SString; SWeak 1]; SUndefined]. split.
  - intros number order OR. apply C39_verdict; [auto|]. apply (x_nullable_object default_options).
    assert (O : objectlike (SInter [SString; SWeak 1])).
    { do 4 right. eexists. split; [reflexivity|]. intros B. inversion B as [|? x I X]; subst. destruct I as [<-|[<-|[]]]; inversion X. }
    split; [constructor; [now left|constructor; [right; right; now left|constructor]]|]. split; [now constructor|]. right. constructor. right. now left.
  - exists (Str []), Undefined. split; [constructor; cbn; split; [eauto|repeat split; discriminate]|].
    split; [right; now constructor|]. split; constructor.
Qed.
Print Assumptions C43_brand_refuted.

(** The report "an object is always truthy" is made for [{}], to which zero belongs. *)
Theorem C43_always_truthy_refuted :
  exists x, (forall number order o, is_order order -> check_condition order o [checked number x] = Some ErrorObject) /\ exists v k, holds x v /\ falsy v k.
Proof.
  exists (SWeak 1). split.
  - intros number order o OR. apply (C39_verdict number order o [SWeak 1] _ OR). apply x_object. split; [discriminate|].
    constructor; [|constructor]. do 3 right. left. eauto.
  - exists (Num [48]), KZero. split; [split; discriminate|constructor].
Qed.
Print Assumptions C43_always_truthy_refuted.

(** ** Traversal *)

(** However often and in whatever order listeners run, no node is checked twice. *)
Theorem C39_checked_once : forall visits, NoDup (nodes_checked (run visits)).
Proof.
  intros visits. unfold run.
  assert (G : forall s, NoDup (nodes_checked s) -> incl (nodes_checked s) (traversed s) -> NoDup (nodes_checked (fold_left (fun s t => listener t s) visits s))).
  { induction visits as [|t visits IH]; intros s N I; [auto|]. cbn [fold_left].
    assert (H : NoDup (nodes_checked (listener t s)) /\ incl (nodes_checked (listener t s)) (traversed (listener t s))).
    { destruct t as [i l r|i e|i bf [c|] af]; cbn [listener]; auto; [|now apply once_inv].
      destruct (once_inv l true s N I) as [N1 I1]. now apply once_inv. }
    now apply IH. }
  apply G; [constructor|intros x []].
Qed.
Print Assumptions C39_checked_once.

(** When every node is visited, after its parent, exactly the conditions of the file are checked. *)
Theorem C39_checked_exactly :
  forall t0 visits, NoDup (ids t0) -> parents_first t0 visits -> (forall p, inside t0 p -> In p visits) ->
    forall i, In i (nodes_checked (run visits)) <-> condition t0 i.
Proof.
  intros t0 visits ND PF ALL i. destruct (run_inv t0 ND visits PF) as [[_ I2] F]. split; [apply I2|].
  intros (p & c & P & T & X). apply tested_under in X. destruct X as (n & U & L & <-).
  destruct (F p c (ALL p P) T n U) as [_ Y]. apply Y, L.
Qed.
Print Assumptions C39_checked_exactly.

(** The linter's walk is such an order. *)
Theorem C39_walk_order :
  forall t0, NoDup (ids t0) -> parents_first t0 (preorder t0) /\ forall p, inside t0 p -> In p (preorder t0).
Proof. intros t0 ND. split; [now apply parents_first_preorder|]. intros p. apply preorder_inside. Qed.
Print Assumptions C39_walk_order.

(** The order matters: visiting the logical expression before the statement around it leaves its right
    operand unchecked. *)
Theorem C39_other_order_refuted :
  exists t0 visits i, NoDup (ids t0) /\ (forall p, inside t0 p -> In p visits) /\ condition t0 i /\ ~ In i (nodes_checked (run visits)).
Proof.
  set (a := Other 2 [] None []). set (c := Other 3 [] None []).
  set (t0 := Other 0 [] (Some (Logical 1 a c)) []).
  exists t0, [Logical 1 a c; a; c; t0], 3. split; [|split; [|split]].
  - repeat constructor; cbn; intuition discriminate.
  - intros p P. apply preorder_inside in P. cbn in P |- *. tauto.
  - exists t0, (Logical 1 a c). split; [constructor|]. split; [constructor|]. apply t_right. constructor.
  - cbn. intuition discriminate.
Qed.
Print Assumptions C39_other_order_refuted.

(** ** Asserted arguments *)

(** [asserts_at ps k]: the first of the predicates [ps] that says "asserts x" without a type for an
    argument that is there says it for argument [k] of [n]. *)
Definition plain_assertion (p : option predicate) (n : nat) (k : nat) : Prop :=
  exists q, p = Some q /\ p_asserts q = true /\ p_type q = false /\ p_index q = Z.of_nat k /\ (k < n)%nat.
Inductive asserts_at (n : nat) : list (option predicate) -> nat -> Prop :=
| a_here p ps k : plain_assertion p n k -> asserts_at n (p :: ps) k
| a_there p ps k : (forall j, ~ plain_assertion p n j) -> asserts_at n ps k -> asserts_at n (p :: ps) k.
(** The number of arguments before the first spread. *)
Definition before_spread (args : list argument) (n : nat) : Prop :=
  (n <= List.length args)%nat /\ (forall j a, (j < n)%nat -> nth_error args j = Some a -> snd a = false) /\
  (forall a, nth_error args n = Some a -> snd a = true).

Lemma checkable_spec args : exists n, before_spread args n /\ checkable args = firstn n args.
Proof.
  induction args as [|[i s] args (n & (A & B & D) & E)].
  - exists 0%nat. repeat split; cbn; auto; intros; try lia. discriminate.
  - destruct s.
    + exists 0%nat. repeat split; cbn; try lia; intros; try lia. now injection H as <-.
    + exists (S n). cbn [checkable snd]. rewrite E. repeat split; cbn [List.length nth_error]; try lia; auto.
      intros [|j] a J; cbn [nth_error]; [intros [= <-]; reflexivity|]. apply B. lia.
Qed.
Lemma before_spread_unique args n m : before_spread args n -> before_spread args m -> n = m.
Proof.
  intros (A & B & D) (A' & B' & D'). destruct (Nat.lt_trichotomy n m) as [L|[L|L]]; [exfalso|auto|exfalso].
  - destruct (nth_error args n) as [a|] eqn:E; [|apply nth_error_None in E; lia]. pose proof (B' n a L E). specialize (D a eq_refl). congruence.
  - destruct (nth_error args m) as [a|] eqn:E; [|apply nth_error_None in E; lia]. pose proof (B m a L E). specialize (D' a eq_refl). congruence.
Qed.
Lemma in_predicate_spec p args : 
  (exists k a, plain_assertion p (List.length args) k /\ nth_error args k = Some a /\ in_predicate p args = Ok (Some a)) \/
  ((forall k, ~ plain_assertion p (List.length args) k) /\ in_predicate p args = Ok None).
Proof.
  destruct p as [q|]; cbn [in_predicate]; [|right; split; [intros k (q & [=] & _)|reflexivity]].
  destruct (p_asserts q) eqn:PA, (p_type q) eqn:PT; cbn [negb orb]; try (right; split; [intros k (q' & [= <-] & X & Y & _); congruence|reflexivity]).
  destruct (Z.ltb_spec (p_index q) 0); cbn [orb]; [right; split; [intros k (q' & [= <-] & _ & _ & X & _); lia|reflexivity]|].
  unfold zlen. destruct (Z.leb_spec (Z.of_nat (List.length args)) (p_index q)); [right; split; [intros k (q' & [= <-] & _ & _ & X & Y); lia|reflexivity]|].
  left. destruct (nth_error args (Z.to_nat (p_index q))) as [a|] eqn:N; [|apply nth_error_None in N; lia].
  exists (Z.to_nat (p_index q)), a. split; [exists q; repeat split; auto; lia|auto].
Qed.
Lemma in_signatures_spec args ps : 
  (exists k a, asserts_at (List.length args) ps k /\ nth_error args k = Some a /\ in_signatures ps args = Ok (Some a)) \/
  ((forall k, ~ asserts_at (List.length args) ps k) /\ in_signatures ps args = Ok None).
Proof.
  induction ps as [|p ps IH]; cbn [in_signatures]; [right; split; [intros k X; inversion X|reflexivity]|].
  destruct (in_predicate_spec p args) as [(k & a & P & N & ->)|[P ->]].
  - left. exists k, a. split; [now constructor|auto].
  - destruct IH as [(k & a & Q & N & E)|[Q E]].
    + left. exists k, a. split; [now apply a_there|auto].
    + right. split; [|auto]. intros k X. inversion X; subst; [eapply P; eauto|eapply Q; eauto].
Qed.

(** The search never indexes outside the arguments, and finds the argument that the resolved
    signature asserts, or else the first one a signature of a union asserts, among the arguments
    before a spread. *)
Theorem C39_asserted_argument :
  forall resolved members args n, before_spread args n ->
    let ps := match resolved with Some p => [Some p] | None => if Nat.ltb 1 (List.length members) then List.concat members else [] end in
    (exists k a, asserts_at n ps k /\ nth_error args k = Some a /\ find_asserted resolved members args = Ok (Some a)) \/
    ((forall k, ~ asserts_at n ps k) /\ find_asserted resolved members args = Ok None).
Proof.
  intros resolved members args n B ps. destruct (checkable_spec args) as (m & B' & E).
  rewrite (before_spread_unique args m n B' B) in *. clear B'. destruct B as (LE & _). unfold find_asserted. rewrite E.
  assert (LN : List.length (firstn n args) = n) by (rewrite firstn_length; lia).
  assert (R : forall r, match firstn n args with [] => Ok None | _ :: _ => in_signatures r (firstn n args) end = in_signatures r (firstn n args)).
  { intros r. destruct (firstn n args) as [|a0 rest] eqn:F; [|reflexivity]. destruct (in_signatures_spec [] r) as [(k & a & _ & N & _)|[_ ->]]; [destruct k; discriminate|reflexivity]. }
  assert (G : match firstn n args with
    | [] => Ok None
    | _ :: _ => match resolved with Some p => in_predicate (Some p) (firstn n args)
                | None => if Nat.ltb 1 (List.length members) then in_signatures (List.concat members) (firstn n args) else Ok None end
    end = in_signatures ps (firstn n args)).
  { rewrite <- R. subst ps. destruct (firstn n args) as [|a0 rest] eqn:F; [apply R|]. destruct resolved as [p|].
    - cbn [in_signatures]. destruct (in_predicate (Some p) (a0 :: rest)) as [[a|]|]; reflexivity.
    - destruct (Nat.ltb 1 (List.length members)); reflexivity. }
  rewrite G. destruct (in_signatures_spec (firstn n args) ps) as [(k & a & A & N & X)|[A X]]; rewrite LN in A.
  - left. exists k, a. split; [auto|]. split; [|auto].
    assert (K : (k < n)%nat) by (rewrite <- LN; apply nth_error_Some; congruence).
    clear - N K. revert n N K. revert args. induction k as [|k IH]; intros [|x args] [|n] N K; cbn in *; try discriminate; try lia; auto. eapply IH; eauto. lia.
  - right. auto.
Qed.
Print Assumptions C39_asserted_argument.

(** ** Examples *)

(** string | undefined is reported with the default options; 'a' | undefined is not. *)
Example C39_ex_verdicts :
  let number := fun _ : sty => 0 in
  let check o l := check_condition (@rev variant) o (map (checked number) l) in
  (check default_options [SString; SUndefined], check default_options [SStr [97]; SUndefined], check default_options [SNull; SVoid],
   check default_options [SBool true; SBool false], check default_options [SBool false; SNull], check default_options [SNum [48]; SString],
   check default_options [SObject 1; SNull], check default_options [SObject 1], check default_options []) =
  (Some ErrorNullableString, None, Some ErrorNullish, None, Some ErrorNullableBoolean, Some ErrorOther, None, Some ErrorObject, Some ErrorOther).
Proof. reflexivity. Qed.
Example C39_ex_order : is_order (@rev variant) /\ is_order (fun l => l).
Proof. split; intros l; [apply Permutation_sym, Permutation_rev|reflexivity]. Qed.
(** [if (a || (b && c)) f(d && e)]: a, b, c and d are checked, e is a value. *)
Definition ex_leaf (i : Z) : tree := Other i [] None [].
Definition ex_tree : tree :=
  Other 0 [] (Some (Logical 1 (ex_leaf 10) (Paren 2 (Logical 3 (ex_leaf 11) (ex_leaf 12)))))
    [Other 4 [ex_leaf 5] None [Logical 6 (ex_leaf 13) (ex_leaf 14)]].
Example C39_ex_walk : NoDup (ids ex_tree) /\ nodes_checked (run (preorder ex_tree)) = [13; 12; 11; 10].
Proof. split; [repeat constructor; cbn; intuition discriminate|reflexivity]. Qed.
(** f(x, y, ...z) where f asserts its second or its third parameter. *)
Example C39_ex_asserted :
  let args := [(1, false); (2, false); (3, true)] in
  find_asserted (Some (Predicate true false 1)) [] args = Ok (Some (2, false)) /\
  find_asserted (Some (Predicate true false 2)) [] args = Ok None /\
  find_asserted None [[None]; [Some (Predicate true true 0); Some (Predicate true false 0)]] args = Ok (Some (1, false)) /\
  before_spread args 2.
Proof.
  repeat split; cbn; auto.
  - intros [|[|j]] a J E; [injection E as <-; reflexivity|injection E as <-; reflexivity|lia].
  - intros a [= <-]. reflexivity.
Qed.
