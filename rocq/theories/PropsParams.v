(** C57: parameters whose types can be written are reported (prefer-readonly-parameter-types; Params.v, ParamsSpec.v). *)
From Coq Require Import String Ascii Bool List ZArith Lia.
From Verif Require Import Base EngineProofs Params ParamsSpec ParamsProofs.
Import ListNotations.
Open Scope Z_scope.

(** The recursion says whether a type that can be written is reached, also when types contain themselves: if it ends. *)
Theorem C57_exact : forall methods types fuel t r, type_readonly methods types fuel t = Some r ->
  (r = true <-> ~ exists u, reach types t u /\ flawed methods types u).
Proof.
  intros methods types fuel t r E. unfold type_readonly in E. destruct (recurse methods types fuel t []) as [[q s]|] eqn:R; [|discriminate].
  destruct (recurse_exact _ _ _ _ _ _ R) as [[-> N]|[-> B]]; injection E as <-; unfold bad in *; intuition congruence.
Qed.
Print Assumptions C57_exact.
(** It ends when a finite number of types is met and no chain of arrays in arrays goes on forever; the depth is bounded. *)
Theorem C57_ends : forall methods types fuel t, ends types t fuel -> exists r, type_readonly methods types fuel t = Some r.
Proof.
  intros methods types fuel t E. apply (ends_recurse methods) in E. unfold type_readonly. destruct (recurse methods types fuel t []) as [[[] s]|]; try contradiction; eauto.
Qed.
Print Assumptions C57_ends.
(** The claim that it always ends is false: arrays whose first elements are such arrays again, like [type A = readonly A[]], are too much for any stack. *)
Theorem C57_endless_refuted :
  (forall methods types (S : Z -> Prop), (forall t, S t -> as_elements types t /\ exists x l, i_args (types t) = x :: l /\ S x) ->
     forall fuel t, S t -> type_readonly methods types fuel t = None) /\
  exists types t, as_elements types t /\ i_args (types t) = [t] /\ (forall x, leads types t x -> x = t) /\ ~ flawed false types t /\
    forall methods fuel, type_readonly methods types fuel t = None.
Proof.
  assert (G : forall methods types (S : Z -> Prop), (forall t, S t -> as_elements types t /\ exists x l, i_args (types t) = x :: l /\ S x) ->
     forall fuel t, S t -> type_readonly methods types fuel t = None).
  { intros methods types S H fuel t T. unfold type_readonly. now rewrite (recurse_endless methods types S H). }
  split; [exact G|].
  set (w := fun _ : Z => Info false Object false false (Some (Some (b "ReadonlyArray"))) None [0] [] [] false). exists w, 0.
  assert (AE : as_elements w 0). { split; [split; [reflexivity|]; split; [reflexivity|]; intros [Q _]; discriminate|]. left. exists (Some (b "ReadonlyArray")). split; [reflexivity|discriminate]. }
  assert (NP : ~ as_properties w 0) by (intros [(_ & l & Q & _)|(_ & Q & _)]; discriminate).
  split; [exact AE|]. split; [reflexivity|]. split; [|split].
  - intros x L. destruct L as [l (_ & [Q|[Q _]]) I|_ I|p Q|i Q]; try discriminate; try contradiction. now destruct I as [<-|[]].
  - intros F. destruct F as [_ Q|_ Q|p Q|i Q]; try discriminate; contradiction.
  - intros methods fuel. apply (G methods w (fun t => t = 0)); [|reflexivity]. intros t ->. split; [exact AE|]. exists 0, []. auto.
Qed.
Print Assumptions C57_endless_refuted.

(** The parameters that are reported, in order, each once; the report of a property of a constructor begins at its name. *)
Definition about (opts : options) (types : Z -> info) (l : list param) (rs : list report) : Prop :=
  (forall i m, nth_error l i = Some m -> (wanted opts types m <-> exists r, In r rs /\ r_param r = i)) /\
  (forall r, In r rs -> exists m, nth_error l (r_param r) = Some m /\ r_at_name r = m_property m /\
     r_id r = b "shouldBeReadonly" /\ r_text r = b "Parameter should be a readonly type.") /\
  forall i j r r', nth_error rs i = Some r -> nth_error rs j = Some r' -> (i < j)%nat -> (r_param r < r_param r')%nat.
Theorem C57_parameters : forall opts types fuel l rs, check opts types fuel 0 l = Some rs -> about opts types l rs.
Proof.
  intros opts types fuel l rs E.
  assert (G : forall l k rs, check opts types fuel k l = Some rs ->
    (forall i m, nth_error l i = Some m -> (wanted opts types m <-> exists r, In r rs /\ r_param r = (k + i)%nat)) /\
    (forall r, In r rs -> exists i m, r_param r = (k + i)%nat /\ nth_error l i = Some m /\ r_at_name r = m_property m /\
       r_id r = b "shouldBeReadonly" /\ r_text r = b "Parameter should be a readonly type.") /\
    forall i j r r', nth_error rs i = Some r -> nth_error rs j = Some r' -> (i < j)%nat -> (r_param r < r_param r')%nat).
  { clear l rs E. induction l as [|m l IH]; intros k rs E; cbn [check] in E.
    - injection E as <-. split; [intros [|i]; discriminate|]. split; [easy|]. intros [|i]; discriminate.
    - assert (SKIP : forall rs, check opts types fuel (S k) l = Some rs -> ~ wanted opts types m ->
        (forall i m', nth_error (m :: l) i = Some m' -> (wanted opts types m' <-> exists r, In r rs /\ r_param r = (k + i)%nat)) /\
        (forall r, In r rs -> exists i m', r_param r = (k + i)%nat /\ nth_error (m :: l) i = Some m' /\ r_at_name r = m_property m' /\
           r_id r = b "shouldBeReadonly" /\ r_text r = b "Parameter should be a readonly type.") /\
        forall i j r r', nth_error rs i = Some r -> nth_error rs j = Some r' -> (i < j)%nat -> (r_param r < r_param r')%nat).
      { intros rs' C N. destruct (IH (S k) rs' C) as (A & B & D). split; [|split; [|exact D]].
        - intros [|i] m' Q; cbn [nth_error] in Q.
          + injection Q as <-. split; [intros W; contradiction|]. intros (r & I & R). destruct (B r I) as (i & m' & R' & _). lia.
          + rewrite (A i m' Q). now rewrite <- plus_n_Sm.
        - intros r I. destruct (B r I) as (i & m' & R & Q). exists (S i), m'. rewrite <- plus_n_Sm. auto. }
      destruct (negb (o_check_properties opts) && m_property m) eqn:C1.
      { apply SKIP; [exact E|]. intros (P & _). apply andb_true_iff in C1. destruct C1 as [C1 C2]. rewrite (P C2) in C1. discriminate. }
      destruct (o_ignore_inferred opts && negb (m_typed m)) eqn:C2.
      { apply SKIP; [exact E|]. intros (_ & P & _). apply andb_true_iff in C2. destruct C2 as [C2 C3]. apply negb_true_iff in C3. rewrite (P C3) in C2. discriminate. }
      destruct (m_type m) as [t|] eqn:T; [|apply SKIP; [exact E|]; intros (_ & _ & t & Q & _); congruence].
      destruct (type_readonly (o_methods opts) types fuel t) as [[|]|] eqn:R; [| |discriminate].
      { apply SKIP; [exact E|]. intros (_ & _ & t' & Q & _ & B). rewrite T in Q. injection Q as <-. now apply (proj1 (C57_exact _ _ _ _ _ R) eq_refl). }
      pose proof (branded_like_spec types t) as BL. destruct (branded_like types t).
      { apply SKIP; [exact E|]. intros (_ & _ & t' & Q & B & _). rewrite T in Q. injection Q as <-. apply B, BL. reflexivity. }
      destruct (check opts types fuel (S k) l) as [rest|] eqn:C; [|discriminate]. injection E as <-. destruct (IH (S k) rest C) as (A & B & D).
      assert (W : ~ ~ wanted opts types m -> wanted opts types m).
      { intros NN. assert (NB : ~ brands types t) by (intros Q; apply BL in Q; discriminate).
        unfold type_readonly in R. destruct (recurse (o_methods opts) types fuel t []) as [[q s]|] eqn:RR; [|discriminate].
        destruct (recurse_exact _ _ _ _ _ _ RR) as [[-> N]|[-> BD]]; [discriminate|].
        split; [intros P; rewrite P, andb_true_r in C1; now apply negb_false_iff in C1|]. split; [intros P; rewrite P, andb_true_r in C2; exact C2|]. exists t. auto. }
      assert (WM : wanted opts types m).
      { apply W. intros N. assert (NB : ~ brands types t) by (intros Q; apply BL in Q; discriminate).
        unfold type_readonly in R. destruct (recurse (o_methods opts) types fuel t []) as [[q s]|] eqn:RR; [|discriminate].
        destruct (recurse_exact _ _ _ _ _ _ RR) as [[-> N']|[-> BD]]; [discriminate|]. apply N.
        split; [intros P; rewrite P, andb_true_r in C1; now apply negb_false_iff in C1|]. split; [intros P; rewrite P, andb_true_r in C2; exact C2|]. exists t. auto. }
      split; [|split].
      + intros [|i] m' Q; cbn [nth_error] in Q.
        * injection Q as <-. split; [|auto]. intros _. eexists. split; [now left|]. cbn. lia.
        * rewrite (A i m' Q). rewrite <- plus_n_Sm. split; intros (r & I & P); [exists r; split; [now right|exact P]|].
          destruct I as [<-|I]; [cbn [r_param] in P; lia|]. exists r. auto.
      + intros r [<-|I]; [exists 0%nat, m; cbn; rewrite Nat.add_0_r; auto|]. destruct (B r I) as (i & m' & P & Q). exists (S i), m'. rewrite <- plus_n_Sm. auto.
      + intros [|i] [|j] r r' Q Q' L; cbn [nth_error] in Q, Q'; try lia.
        * injection Q as <-. cbn [r_param]. destruct (B r' (nth_error_In _ _ Q')) as (n & m' & -> & _). lia.
        * apply (D i j); auto. lia. }
  destruct (G l 0%nat rs E) as (A & B & D). split; [exact A|]. split; [|exact D]. intros r I. destruct (B r I) as (i & m & -> & Q). exists m. exact Q.
Qed.
Print Assumptions C57_parameters.
(** The check of the parameters ends when that of each type does. *)
Theorem C57_check_ends : forall opts types fuel l, (forall m t, In m l -> m_type m = Some t -> ends types t fuel) -> forall i, exists rs, check opts types fuel i l = Some rs.
Proof.
  intros opts types fuel l. induction l as [|m l IH]; intros H i; cbn [check]; [eauto|].
  assert (H' : forall m t, In m l -> m_type m = Some t -> ends types t fuel) by (intros m' t I; apply H; now right).
  destruct (negb (o_check_properties opts) && m_property m); [auto|]. destruct (o_ignore_inferred opts && negb (m_typed m)); [auto|].
  destruct (m_type m) as [t|] eqn:T; [|auto]. destruct (C57_ends (o_methods opts) types fuel t (H m t (or_introl eq_refl) T)) as ([|] & ->); [auto|].
  destruct (branded_like types t); [auto|]. destruct (IH H' (S i)) as (rs & ->). eauto.
Qed.
Print Assumptions C57_check_ends.

(** ** Examples *)
Definition plain := Info false Other false false None None [] [] [] false.
Definition object_ (ps : list prop) (xs : list index) := Info false Object false false None None [] ps xs false.
Definition list_ (name : string) (l : list Z) := Info false Object false false (Some (Some (b name))) None l [] [] false.
Definition field (readonly : bool) (t : Z) := Prop_ false readonly false false false (Some false) [false] readonly false (Some t) (Some t).
(** [interface Node { readonly next: Node; readonly items: readonly (Node | string)[] }] and the same with [string[]]. *)
Definition w (mutable : bool) (t : Z) : info :=
  if t =? 1 then object_ [field true 1; field true 2] [Index true (Some 1)] else if t =? 2 then list_ (if mutable then "Array" else "ReadonlyArray") [3]
  else if t =? 3 then Info false (Union [1; 4]) false false None None [] [] [] false else plain.
Example C57_example :
  type_readonly false (w false) 20 1 = Some true /\ type_readonly false (w true) 20 1 = Some false /\
  check (Options true false false) (w true) 20 0 [Param false true (Some 1); Param true true (Some 4); Param true true (Some 3)] =
    Some [Report 0 false (b "shouldBeReadonly") (b "Parameter should be a readonly type."); Report 2 true (b "shouldBeReadonly") (b "Parameter should be a readonly type.")] /\
  check (Options false true false) (w true) 20 0 [Param false false (Some 1); Param true true (Some 3)] = Some [] /\ ends (w false) 1 20.
Proof.
  repeat (split; [vm_compute; reflexivity|]). exists [1; 2; 3; 4], (fun t => if t =? 2 then 1%nat else 0%nat), 1%nat.
  split; [now left|]. split; [repeat constructor; cbn; intuition discriminate|].
  assert (O1 : forall x, leads (w false) 1 x -> x = 1 \/ x = 2).
  { intros x L. destruct L as [l (_ & [Q|[Q _]]) I|[_ [(n & Q & _)|[_ Q]]] _|p _ I _ _ _ T|i _ I V]; try discriminate.
    - cbn in I. destruct I as [<-|[<-|[]]]; cbn in T; destruct T as [T|[T _]]; try discriminate; injection T as <-; auto.
    - cbn in I. destruct I as [<-|[]]. cbn in V. injection V as <-. auto. }
  assert (O2 : forall x, leads (w false) 2 x -> x = 3).
  { intros x L. destruct L as [l (_ & [Q|[Q _]]) I|_ I|p AP I _ _ _ T|i AP I V]; try discriminate; try easy. now destruct I as [<-|[]]. }
  assert (O3 : forall x, leads (w false) 3 x -> x = 1 \/ x = 4).
  { intros x L. destruct L as [l (_ & [Q|[Q _]]) I|[_ [(n & Q & _)|[_ Q]]] _|p AP I _ _ _ T|i AP I V]; try discriminate; try easy. injection Q as <-. cbn in I. intuition. }
  assert (O4 : forall x, ~ leads (w false) 4 x).
  { intros x L. destruct L as [l (_ & [Q|[Q _]]) I|[_ [(n & Q & _)|[_ Q]]] _|p AP I _ _ _ T|i AP I V]; try discriminate; easy. }
  split; [|split; [|split]].
  - intros y x Y L. cbn in Y. destruct Y as [<-|[<-|[<-|[<-|[]]]]].
    + destruct (O1 x L) as [-> | ->]; cbn; auto.
    + rewrite (O2 x L). cbn; auto.
    + destruct (O3 x L) as [-> | ->]; cbn; auto 6.
    + now elim (O4 x).
  - intros y x Y AE I. cbn in Y. destruct Y as [<-|[<-|[<-|[<-|[]]]]]; cbn in I; try easy. destruct I as [<-|[]]. cbn. lia.
  - intros y Y. cbn in Y. destruct Y as [<-|[<-|[<-|[<-|[]]]]]; cbn; lia.
  - cbn. lia.
Qed.
(** Brands: [string & { __brand: number }]; the properties of the intersection can be written. *)
Example C57_brand_example :
  let types t := if t =? 0 then Info false (Inter [1; 2]) false false None None [] [field false 3] [] false
    else if t =? 1 then Info false Other false false None None [] [] [] true else if t =? 2 then object_ [field false 3] [] else plain in
  type_readonly false types 10 0 = Some false /\ check (Options true false false) types 10 0 [Param false true (Some 0)] = Some [].
Proof. vm_compute. auto. Qed.
(** A mapped type like [Record<"a", number>], whose properties are declared nowhere, is taken for readonly although it can be written. *)
Theorem C57_mapped_refuted : exists types t p, In p (i_props (types t)) /\ p_symbol p = false /\ p_check p = false /\ p_readonly p = false /\ p_method p = false /\
  i_class (types t) = Object /\ p_mapped p = true /\ p_value p = None /\ type_readonly false types 10 t = Some true.
Proof.
  set (p := Prop_ false false false false true None [] false false (Some 1) (Some 1)).
  exists (fun t => if t =? 0 then object_ [p] [] else plain), 0, p. split; [now left|]. repeat (split; [reflexivity|]). vm_compute. reflexivity.
Qed.
Print Assumptions C57_mapped_refuted.
