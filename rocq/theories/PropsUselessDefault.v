(** Theorems about no-useless-default-assignment (C67). *)
From Coq Require Import Bool String List Arith Lia.
From Verif Require Import Base EngineProofs.
From Verif Require Import UselessDefault UselessDefaultSpec UselessDefaultProofs.
Import ListNotations.
Local Open Scope nat_scope.
Local Open Scope string_scope.
Local Open Scope list_scope.

(** * Reports *)
(** A default value of an element is said to be useless exactly where the type of the value is known, from the outermost pattern inwards, and undefined does not belong to it. *)
Theorem C67_reported {T} (ty : types T) r f outer : (forall t, check_element ty r f outer false = Some (Useless t) <-> useless ty r f outer t) /\
  (forall rep, check_element ty r f outer false = Some rep -> exists t, rep = Useless t) /\ check_element ty r f outer true = Some UselessUndefined.
Proof. split; [|split]; [intro t; apply element_iff|apply element_only|reflexivity]. Qed.
Print Assumptions C67_reported.
(** The type of a pattern. *)
Theorem C67_types {T} (ty : types T) r fs t : source_type ty r fs = Some t <-> typed ty r fs t.
Proof. apply typed_iff. Qed.
Print Assumptions C67_types.
(** Parameters: the default value undefined is to be left out, in favour of a question mark if undefined belongs to the annotation; otherwise only those of function expressions, by the first signature of their contextual type. *)
Theorem C67_parameters {T} (ty : types T) annotation fe i c : (forall rep, check_parameter ty false annotation fe i c = Some rep <-> fe = true /\ exists t, rep = Useless t /\ useless_parameter ty i c t) /\
  (check_parameter ty true annotation fe i c = Some PreferOptional <-> exists t, annotation = Some t /\ admits ty t) /\
  (check_parameter ty true annotation fe i c = Some UselessUndefined <-> forall t, annotation = Some t -> ~ admits ty t).
Proof.
  split; [intro rep; apply context_iff|]. unfold check_parameter. destruct annotation as [t|].
  - destruct (can_be_undefined ty t) eqn:C.
    + apply admits_iff in C. split; split; try discriminate; eauto. intro H. exfalso. eapply H; eauto.
    + apply admits_not in C. split; split; try discriminate; try reflexivity.
      * intros (u & E & A). injection E as <-. contradiction.
      * intros _ u E. injection E as <-. exact C.
  - split; split; try discriminate; try reflexivity. intros (u & E & _). discriminate.
Qed.
Print Assumptions C67_parameters.

(** * Meaning *)
(** Without a default value that is said to be useless, a pattern binds the same, with the same effects, if types are right about values and no names are taken from variables, no rest elements are on the way, and only elements of tuples that are always there. *)
Theorem C67_meaning {St V X T} (undefined : V) is_undef (w : world St V X) (ty : types T) has there fixed r p path f fs d t v :
  right_types undefined is_undef w ty has there fixed -> locate p path [] = Some (f, fs, d) -> check_element ty r f fs false = Some (Useless t) ->
  plain ty fixed r (f :: fs) -> comes has there r v -> forall e s, bind is_undef w (without p path) v e s = bind is_undef w p v e s.
Proof.
  intros R L C P Co. eapply not_used; try eassumption.
  - apply element_iff. exact C.
  - apply (comes_inv ty has there r v Co).
  - intros _. exact Co.
Qed.
Print Assumptions C67_meaning.
(** A parameter whose default value is said to be useless is given a value that is not undefined, in all calls as the first signature asks for. *)
Theorem C67_given {St V X T} (undefined : V) is_undef (w : world St V X) (ty : types T) has there fixed i s more t args :
  right_types undefined is_undef w ty has there fixed -> check_parameter ty false None true i (Some (s :: more)) = Some (Useless t) -> conforms undefined has args s -> is_undef (nth i args undefined) = false.
Proof. intros R C Co. apply context_iff in C. destruct C as [_ (u & _ & U)]. eapply given; try eassumption. reflexivity. Qed.
Print Assumptions C67_given.
(** Without the default value undefined a pattern always binds the same. *)
Theorem C67_undefined {St V X} (undefined : V) is_undef (w : world St V X) p path f fs d v : locate p path [] = Some (f, fs, Some d) -> (forall u, is_undef u = true -> u = undefined) ->
  (forall e s, value w d e s = (s, inl undefined)) -> forall e s, bind is_undef w (without p path) v e s = bind is_undef w p v e s.
Proof. apply undefined_same. Qed.
Print Assumptions C67_undefined.

(** * Texts *)
(** The new text is that of the pattern, or of the parameter, without the default value. *)
Theorem C67_text p path f fs d : locate p path [] = Some (f, fs, d) -> fix_element p path = Some (text (without p path)).
Proof. apply fix_text. Qed.
Print Assumptions C67_text.
Theorem C67_parameter_text optional p : fix_parameter optional p = parameter_text (optional && p_identifier p) {| p_name := p_name p; p_identifier := p_identifier p; p_type := p_type p; p_default := None |}.
Proof. apply parameter_right. Qed.
Print Assumptions C67_parameter_text.

(** * Some values and types *)
Inductive val := VUndefined | VNumber (n : nat) | VObject (l : list (bstr * val)) | VArray (l : list val).
Inductive typ := TNumber | TUndefined | TOptional (t : typ) (* or undefined *) | TObject (l : list (bstr * (bool * typ))) | TTuple (l : list typ) (rest : option typ) | TArray (t : typ).
Definition look {A} (n : bstr) (l : list (bstr * A)) : option A := match find (fun p => beqb (fst p) n) l with Some p => Some (snd p) | None => None end.
Definition the_types : types typ := {|
  is_any _ := false; is_unknown _ := false; is_undefined t := match t with TUndefined => true | _ => false end; is_type_parameter _ := false;
  parts t := match t with TOptional u => [u; TUndefined] | _ => [t] end;
  property t n := match t with TObject l => look n l | _ => None end;
  tuple t := match t with TTuple l rest => Some (l ++ match rest with Some u => [u] | None => [] end) | _ => None end;
  number_index t := match t with TArray u => Some u | _ => None end |}.
Fixpoint has (v : val) (t : typ) : Prop :=
  match t with
  | TNumber => exists n, v = VNumber n
  | TUndefined => v = VUndefined
  | TOptional t => v = VUndefined \/ has v t
  | TObject l => match v with
      | VObject o => (fix all l := match l with [] => True | (n, (optional, t)) :: l => match look n o with Some x => has x t | None => optional = true end /\ all l end) l
      | _ => False end
  | TTuple l rest => match v with
      | VArray vs => (fix all l vs := match l, vs with
          | [], _ => match rest with None => vs = [] | Some t => (fix each vs := match vs with [] => True | v :: vs => has v t /\ each vs end) vs end
          | t :: l, [] => has VUndefined t /\ all l []
          | t :: l, v :: vs => has v t /\ all l vs end) l vs
      | _ => False end
  | TArray t => match v with VArray vs => (fix each vs := match vs with [] => True | v :: vs => has v t /\ each vs end) vs | _ => False end
  end.
Definition there (v : val) (n : bstr) : Prop := match v with VObject o => look n o <> None | _ => False end.
Definition fixed (t : typ) (i : nat) : Prop := match t with TTuple l _ => i < List.length l | _ => False end.
Definition is_undef (v : val) : bool := match v with VUndefined => true | _ => false end.
(** Default value 0 is an empty object, all others are numbers; variables that names are taken from are "other". *)
Definition the_world : world nat val unit := {|
  get v n s := (s, inl (match v with VObject o => match look n o with Some x => x | None => VUndefined end | _ => VUndefined end));
  item v i s := (s, inl (match v with VArray l => nth i l VUndefined | _ => VUndefined end));
  after v i s := (s, inl (match v with VArray l => VArray (skipn i l) | _ => VUndefined end)); others v s := (s, inl v);
  computed _ _ s := (s, inl (b "other")); value d _ s := (S s, inl (match d with 0 => VObject [] | _ => VNumber d end));
  refuses _ v := match v with VUndefined => Some tt | _ => None end |}.
Lemma C67_instance : right_types VUndefined is_undef the_world the_types has there fixed.
Proof.
  constructor.
  - intros []; simpl; split; congruence.
  - intros [| |t|l|l r|t] H; simpl in H.
    + destruct H. discriminate.
    + eapply AdmitsPart; [left|]; reflexivity.
    + eapply AdmitsPart; [right; left|]; reflexivity.
    + contradiction.
    + contradiction.
    + contradiction.
  - intros t n [H|H|u I H]; try discriminate. destruct t; simpl in *; try reflexivity. destruct I as [<-|[]]. discriminate.
  - intros t [H|H|u I H]; try discriminate. destruct t; simpl in *; try reflexivity. destruct I as [<-|[]]. discriminate.
  - intros t [H|H|u I H]; try discriminate. destruct t; simpl in *; try reflexivity. destruct I as [<-|[]]. discriminate.
  - intros v t n u H P. destruct t as [| |t|l|l r|t]; simpl in P; try discriminate. destruct v as [| |o|]; simpl in H; try contradiction. simpl.
    induction l as [|[m [op t]] l IH]; [discriminate|]. destruct H as [H1 H2]. unfold look in P. cbn [find fst] in P. destruct (beqb m n) eqn:E.
    + apply beqb_eq in E. subst m. injection P as -> ->. destruct (look n o); discriminate.
    + apply IH; [exact H2|exact P].
  - intros v t n op u s s' x H P Th G. destruct t as [| |t|l|l r|t]; simpl in P; try discriminate. destruct v as [| |o|]; simpl in H; try contradiction. simpl in Th, G.
    assert (A : look n o = Some x) by (destruct (look n o); [injection G as _ ->; reflexivity|congruence]). clear G Th.
    induction l as [|[m [op' t]] l IH]; [discriminate|]. destruct H as [H1 H2]. unfold look in P. cbn [find fst] in P. destruct (beqb m n) eqn:E.
    + apply beqb_eq in E. subst m. injection P as -> ->. rewrite A in H1. exact H1.
    + apply IH; [exact H2|exact P].
  - intros v t ts i u s s' x H Tu N F G. destruct t as [| |t|l|l r|t]; simpl in Tu; try discriminate. injection Tu as <-. destruct v as [| | |vs]; simpl in H; try contradiction. simpl in F, G.
    injection G as _ <-. rewrite nth_error_app1 in N by exact F.
    revert vs i H N F. induction l as [|t l IH]; intros vs i H N F; [simpl in F; lia|].
    destruct vs as [|v vs]; destruct H as [H1 H2]; destruct i as [|i]; simpl in N.
    + injection N as ->. exact H1.
    + specialize (IH [] i H2 N ltac:(simpl in F; lia)). destruct i; exact IH.
    + injection N as ->. exact H1.
    + apply (IH vs i H2 N). simpl in F. lia.
Qed.

(** * What goes wrong *)
Notation x := (PName 0).
Notation y := (PName 1).
(** Two default values compared at a pattern, with the report. *)
Definition changes (r : root typ) (p : pattern) (path : list nat) (v : val) : Prop :=
  comes has there r v /\ (exists f fs d t, locate p path [] = Some (f, fs, Some d) /\ check_element the_types r f fs false = Some (Useless t)) /\
  bind is_undef the_world (without p path) v [] 0 <> bind is_undef the_world p v [] 0.
Ltac changes := split; [|split; [do 4 eexists; split; reflexivity|discriminate]].
(** const [x, y = 1] = t, where t is a [number, ...number[]] with one element. *)
Theorem C67_variadic_refuted : exists r p path v, changes r p path v.
Proof.
  exists (RVariable (Some (TTuple [TNumber] (Some TNumber), IOther))), (PArray (Element HPlace x None (Element HPlace y (Some 1) Nil))), [1], (VArray [VNumber 5]).
  changes. simpl. split; [split; [eauto|exact I]|exact I].
Qed.
Print Assumptions C67_variadic_refuted.
(** const [{ b = 1 } = {}] = a, where a is an empty { b: number }[]. *)
Theorem C67_array_refuted : exists r t p path v, r = RVariable (Some (TArray t, IOther)) /\ changes r p path v.
Proof.
  do 5 eexists. split; [reflexivity|]. instantiate (1 := VArray []). instantiate (1 := [0; 0]). instantiate (1 := PArray (Element HPlace (PObject (Element (HShort (b "b")) x (Some 1) Nil)) (Some 0) Nil)).
  instantiate (1 := TObject [(b "b", (false, TNumber))]). changes. simpl. auto.
Qed.
Print Assumptions C67_array_refuted.
(** const [...[x, y = 1]] = t, where t is a [[number, number], [number, number] | undefined]: the rest is taken for the element at its place. *)
Theorem C67_rest_refuted : exists l p q path v, p = PArray (Element HRest q None Nil) /\ changes (RVariable (Some (TTuple l None, IOther))) p path v.
Proof.
  exists [TTuple [TNumber; TNumber] None; TOptional (TTuple [TNumber; TNumber] None)]. do 4 eexists. split; [reflexivity|].
  instantiate (1 := VArray [VArray [VNumber 2; VNumber 3]]). instantiate (1 := [0; 1]). instantiate (1 := PArray (Element HPlace x None (Element HPlace y (Some 1) Nil))).
  changes. simpl. split; [|exact I]. split; [split; [eauto|split; [eauto|reflexivity]]|]. split; [auto|reflexivity].
Qed.
Print Assumptions C67_rest_refuted.
(** const { [key]: x = 1 } = o, where o is a { key: number; other?: number } and the value of key is "other": the name of the variable is taken for its value. *)
Theorem C67_computed_refuted : exists t p v, p = PObject (Element (HKey (KComputed (EIdentifier (b "key")))) x (Some 1) Nil) /\ changes (RVariable (Some (t, IOther))) p [0] v.
Proof.
  exists (TObject [(b "key", (false, TNumber)); (b "other", (true, TNumber))]). eexists. exists (VObject [(b "key", VNumber 2)]). split; [reflexivity|]. changes. vm_compute. split; [|exact I]. split; [eauto|auto].
Qed.
Print Assumptions C67_computed_refuted.
(** function (this: A, x = 1) {}, where a (a: number | undefined, b: number) => void is expected: x is the second parameter of the function, but gets the first argument. *)
Theorem C67_this_refuted : exists s t args, check_parameter the_types false None true 1 (Some [s]) = Some (Useless t) /\ conforms VUndefined has args s /\ is_undef (nth 0 args VUndefined) = true.
Proof.
  exists {| c_own := false; c_parameters := [{| c_optional := false; c_rest := false; c_type := TOptional TNumber |}; {| c_optional := false; c_rest := false; c_type := TNumber |}] |}.
  exists TNumber, [VUndefined; VNumber 1]. split; [reflexivity|]. split; [|reflexivity].
  intros [|[|i]] p N R; simpl in N; [| |destruct i; discriminate]; injection N as <-; left; simpl; eauto.
Qed.
Print Assumptions C67_this_refuted.
(** (x = 1) => {}, where { (a: number): void; (): void } is expected: only the first signature is looked at. *)
Theorem C67_overload_refuted : exists s s' t args, check_parameter the_types false None true 0 (Some [s; s']) = Some (Useless t) /\ conforms VUndefined has args s' /\ is_undef (nth 0 args VUndefined) = true.
Proof.
  exists {| c_own := false; c_parameters := [{| c_optional := false; c_rest := false; c_type := TNumber |}] |}, {| c_own := false; c_parameters := [] |}, TNumber, [].
  split; [reflexivity|]. split; [|reflexivity]. intros [|i] p N; discriminate.
Qed.
Print Assumptions C67_overload_refuted.
(** (x: T | undefined = undefined, y: U) => {} becomes (x?: T | undefined, y: U) => {}, where a parameter with a question mark is followed by one that must be given. *)
Theorem C67_order_refuted : exists p q p', ordered [(false, p); (false, q)] /\ check_parameter the_types true (Some (TOptional TNumber)) false 0 None = Some PreferOptional /\
  fix_parameter true p = parameter_text true p' /\ ~ ordered [(true, p'); (false, q)].
Proof.
  set (p := {| p_name := [b "x"]; p_identifier := true; p_type := Some [b "T"; b "|"; b "undefined"]; p_default := Some [b "undefined"] |}).
  set (q := {| p_name := [b "y"]; p_identifier := true; p_type := Some [b "U"]; p_default := None |}).
  exists p, q, {| p_name := p_name p; p_identifier := true; p_type := p_type p; p_default := None |}. split; [|split; [reflexivity|split; [reflexivity|]]].
  - intros [|[|i]] j u v L N; simpl in N; try discriminate. destruct i; discriminate.
  - intro O. apply (O 0 1 _ q (Nat.lt_0_succ 0) eq_refl eq_refl). reflexivity.
Qed.
Print Assumptions C67_order_refuted.

(** * Examples *)
(** const { a: { b = 1 } = {} } = { a: { b: 2 } } *)
Example C67_meaning_example : let p := PObject (Element (HKey (KIdentifier (b "a"))) (PObject (Element (HShort (b "b")) x (Some 1) Nil)) (Some 0) Nil) in
  let r := RVariable (Some (TObject [(b "a", (false, TObject [(b "b", (false, TNumber))]))], IObject [Some (KIdentifier (b "a"))])) in let v := VObject [(b "a", VObject [(b "b", VNumber 2)])] in
  exists f fs, locate p [0; 0] [] = Some (f, fs, Some 1) /\ check_element the_types r f fs false = Some (Useless TNumber) /\ plain the_types fixed r (f :: fs) /\ comes has there r v /\
  bind is_undef the_world p v [] 0 = (0, inl [(0, VNumber 2)]) /\ check_element the_types r (FProperty (KIdentifier (b "c"))) fs false = None.
Proof.
  cbn zeta. do 2 eexists. split; [reflexivity|]. split; [reflexivity|]. split; [|split; [|split; reflexivity]].
  - constructor; [|discriminate]. constructor; [|discriminate]. constructor. intros s [H|[]]. discriminate.
  - split.
    + vm_compute. split; [|exact I]. split; [eauto|exact I].
    + intros k [H|[]] n N. injection H as <-. destruct N as [N|[N|N]]; try discriminate. injection N as <-. vm_compute. discriminate.
Qed.
(** const [x, y = 1] = [1, 2] as [number, number] *)
Example C67_tuple_example : let r := RVariable (Some (TTuple [TNumber; TNumber] None, IOther)) in
  check_element the_types r (FIndex 1 false) [] false = Some (Useless TNumber) /\ plain the_types fixed r [FIndex 1 false] /\
  fix_element (PArray (Element HPlace x None (Element HPlace y (Some 1) Nil))) [1] = Some [TOpen false; TName 0; TComma; TName 1; TComma; TClose false].
Proof.
  cbn zeta. split; [reflexivity|]. split; [|reflexivity]. constructor; [constructor; exact I|]. intros t H. inversion H as [u e E| | | | |]; subst; try discriminate. injection E as <-. split; [eexists; split; [reflexivity|simpl; lia]|simpl; lia].
Qed.
(** An optional property counts if all branches of the initializer have it. *)
Example C67_types_example : let t := TObject [(b "a", (true, TNumber))] in
  source_type the_types (RVariable (Some (t, IConditional (IObject [Some (KIdentifier (b "a"))]) (IParentheses (IObject [None; Some (KLiteral (b "a"))]))))) [FProperty (KIdentifier (b "a"))] = Some TNumber /\
  source_type the_types (RVariable (Some (t, IConditional (IObject [Some (KIdentifier (b "a"))]) (IObject [None])))) [FProperty (KIdentifier (b "a"))] = None /\
  source_type the_types (RParameter true 1 (Some (true, [t]))) [] = Some t.
Proof. cbn zeta. repeat split. Qed.
Example C67_parameters_example : check_parameter the_types false None true 0 (Some [{| c_own := false; c_parameters := [{| c_optional := false; c_rest := false; c_type := TNumber |}] |}]) = Some (Useless TNumber) /\
  check_parameter the_types true (Some TNumber) true 0 None = Some UselessUndefined /\
  conforms VUndefined has [VNumber 3] {| c_own := false; c_parameters := [{| c_optional := false; c_rest := false; c_type := TNumber |}] |}.
Proof. split; [reflexivity|]. split; [reflexivity|]. intros [|i] p N R; simpl in N; [|destruct i; discriminate]. injection N as <-. left. simpl. eauto. Qed.
Example C67_undefined_example : bind is_undef the_world (PObject (Element (HShort (b "b")) x None Nil)) (VObject []) [] 0 = (0, inl [(0, VUndefined)]).
Proof. reflexivity. Qed.
Example C67_parameter_text_example : fix_parameter true {| p_name := [b "a"]; p_identifier := true; p_type := Some [b "T"]; p_default := Some [b "undefined"] |} = [b "a"; b "?"; b ":"; b "T"] /\
  fix_parameter false {| p_name := [b "a"]; p_identifier := true; p_type := None; p_default := Some [b "undefined"] |} = [b "a"].
Proof. vm_compute. auto. Qed.
