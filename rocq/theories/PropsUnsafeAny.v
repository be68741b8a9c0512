(** C33: the check for any in assignments. *)
From Coq Require Import Bool List ZArith Lia.
From Verif Require Import UnsafeAny.
Import ListNotations.
Open Scope Z_scope.

(** ** Specification *)

(** any flows into [r] from [t]: [t] is any and [r] is neither any nor unknown, or both refer to the
    same generic type and any flows between type arguments at the same place; nothing is looked at
    inside the type arguments for [new Map()]. *)
Inductive flows (g : graph) (new_map : bool) : Z -> Z -> Prop :=
| fl_here t r : any g t = true -> any g r = false -> unknown g r = false -> flows g new_map t r
| fl_inside t r l l' i a a' : new_map = false -> reference g t = true -> reference g r = true -> target g t = target g r ->
    arguments g t = Some l -> arguments g r = Some l' -> nth_error l i = Some a -> nth_error l' i = Some a' ->
    flows g new_map a a' -> flows g new_map t r.
(** any is not a reference, and references to one generic type have equally many arguments. *)
Definition sane (g : graph) : Prop :=
  (forall t, any g t = true -> reference g t = false) /\
  (forall t r l l', reference g t = true -> reference g r = true -> target g t = target g r -> arguments g t = Some l -> arguments g r = Some l' -> List.length l = List.length l').
(** [types] lists the types that can be met: closed under type arguments.  There may be cycles. *)
Definition closed (g : graph) (types : list Z) : Prop := forall t l a, In t types -> arguments g t = Some l -> In a l -> In a types.

(** ** Proof *)
Section Proof.
Variable g : graph.
Variable m : bool.
Hypothesis SANE : sane g.
Variable types : list Z.
Hypothesis CLOSED : closed g types.
Let pairs := list_prod types types.

Definition direct (p : Z * Z) : Prop := any g (fst p) = true /\ any g (snd p) = false /\ unknown g (snd p) = false.
Definition succ (p q : Z * Z) : Prop :=
  m = false /\ reference g (fst p) = true /\ reference g (snd p) = true /\ target g (fst p) = target g (snd p) /\
  exists l l' i, arguments g (fst p) = Some l /\ arguments g (snd p) = Some l' /\ nth_error l i = Some (fst q) /\ nth_error l' i = Some (snd q).
Definition settled (v : visited) (p : Z * Z) : Prop := In p v \/ (any g (fst p) = true /\ unknown g (snd p) = true).
Definition safe_in (v v' : visited) : Prop := forall p, In p v' -> In p v \/ (~ direct p /\ forall q, succ p q -> settled v' q).

Lemma skipn_step k : forall (l0 : list Z) a l, skipn k l0 = a :: l -> nth_error l0 k = Some a /\ skipn (S k) l0 = l.
Proof. induction k as [|k IH]; intros [|x l0] a l E; try discriminate; [injection E as -> ->; auto|]. apply (IH l0 a l E). Qed.
Lemma has_spec v t r : has v t r = true <-> In (t, r) v.
Proof.
  unfold has. rewrite existsb_exists. split.
  - intros ([x y] & I & E). cbn in E. rewrite andb_true_iff, !Z.eqb_eq in E. destruct E as [-> ->]. auto.
  - intros I. exists (t, r). split; [auto|]. cbn. now rewrite !Z.eqb_refl.
Qed.
Lemma settled_incl v v' p : incl v v' -> settled v p -> settled v' p.
Proof. intros I [H|H]; [left; auto|right; auto]. Qed.
Lemma safe_trans v v1 v2 : incl v1 v2 -> safe_in v v1 -> safe_in v1 v2 -> safe_in v v2.
Proof.
  intros I A B p H. destruct (B p H) as [J|J]; [|auto]. destruct (A p J) as [K|[K1 K2]]; [auto|]. right. split; [auto|]. intros q Q. eapply settled_incl; eauto.
Qed.

Definition good (t r : Z) (v : visited) (o : outcome) : Prop :=
  exists res v', o = Done res v' /\ incl v' pairs /\ NoDup v' /\ incl v v' /\
    match res with
    | Some q => q = (r, t) /\ flows g m t r
    | None => settled v' (t, r) /\ safe_in v v' /\ ~ direct (t, r)
    end.

Lemma loop_good check t r l0 l0' v0 : 
  m = false -> reference g t = true -> reference g r = true -> target g t = target g r -> arguments g t = Some l0 -> arguments g r = Some l0' ->
  forall l l' k v, l = skipn k l0 -> l' = skipn k l0' -> List.length l = List.length l' ->
  (forall a a' v, In a l0 -> In a' l0' -> incl v0 v -> incl v pairs -> NoDup v -> good a a' v (check a a' v)) ->
  incl v0 v -> incl v pairs -> NoDup v ->
  exists res v', loop check t r l l' v = Done res v' /\ incl v' pairs /\ NoDup v' /\ incl v v' /\
    match res with
    | Some q => q = (r, t) /\ flows g m t r
    | None => safe_in v v' /\ forall i a a', nth_error l i = Some a -> nth_error l' i = Some a' -> settled v' (a, a')
    end.
Proof.
  intros M RT RR TG AT AR. induction l as [|a l IH]; intros l' k v EL EL' LEN CH I0 IP ND.
  - exists None, v. cbn. split; [reflexivity|]. split; [auto|]. split; [auto|]. split; [apply incl_refl|]. split; [intros p H; auto|]. intros [|i] x x' [=].
  - destruct l' as [|a' l']; [discriminate|]. cbn [loop].
    destruct (skipn_step _ _ _ _ (eq_sym EL)) as [NA SK]. destruct (skipn_step _ _ _ _ (eq_sym EL')) as [NA' SK'].
    destruct (CH a a' v) as (res & v1 & E & P1 & N1 & I1 & R); auto; [eapply nth_error_In; eauto|eapply nth_error_In; eauto|]. rewrite E.
    destruct res as [q|].
    + exists (Some (r, t)), v1. split; [reflexivity|]. split; [auto|]. split; [auto|]. split; [auto|]. split; [reflexivity|]. destruct R as [_ F].
      eapply fl_inside; eauto.
    + destruct R as (S1 & S2 & _). destruct (IH l' (S k) v1) as (res & v2 & E2 & P2 & N2 & I2 & R2); auto.
      * eapply incl_tran; eauto.
      * exists res, v2. split; [auto|]. split; [auto|]. split; [auto|]. split; [eapply incl_tran; eauto|]. destruct res as [q|]; [auto|].
        destruct R2 as (R2 & R3). split; [eapply safe_trans; eauto|]. intros [|i] x x'; cbn [nth_error]; [intros [= <-] [= <-]; eapply settled_incl; eauto|apply R3].
Qed.

Lemma worker_good fuel : forall t r v, In t types -> In r types -> incl v pairs -> NoDup v -> (List.length pairs - List.length v < fuel)%nat ->
  good t r v (worker g m fuel t r v).
Proof.
  induction fuel as [|fuel IH]; intros t r v IT IR IP ND LE; [lia|]. cbn [worker].
  destruct (any g t) eqn:A; [destruct (unknown g r) eqn:U; cbn [andb]|].
  - exists None, v. split; [reflexivity|]. split; [auto|]. split; [auto|]. split; [apply incl_refl|]. split; [right; auto|]. split; [intros p H; auto|]. intros (_ & _ & X). cbn in X. congruence.
  - destruct (any g r) eqn:B; cbn [negb].
    + destruct (has v t r) eqn:H.
      { apply has_spec in H. exists None, v. split; [reflexivity|]. split; [auto|]. split; [auto|]. split; [apply incl_refl|]. split; [left; auto|]. split; [intros p X; auto|]. intros (_ & X & _). cbn in X. congruence. }
      assert (NI : ~ In (t, r) v) by (rewrite <- has_spec; congruence).
      destruct SANE as [S1 _]. rewrite (S1 t A). cbn [andb].
      exists None, ((t, r) :: v). split; [reflexivity|]. split; [intros p [<-|X]; [now apply in_prod|auto]|]. split; [now constructor|]. split; [apply incl_tl, incl_refl|].
      split; [left; now left|]. split; [|intros (_ & X & _); cbn in X; congruence].
      intros p [<-|X]; [right|auto]. split; [intros (_ & X & _); cbn in X; congruence|]. intros q (_ & X & _). cbn in X. rewrite (S1 t A) in X. discriminate.
    + exists (Some (r, t)), v. split; [reflexivity|]. split; [auto|]. split; [auto|]. split; [apply incl_refl|]. split; [reflexivity|]. now apply fl_here.
  - cbn [andb]. assert (ND' : ~ direct (t, r)) by (intros (X & _); cbn in X; congruence).
    destruct (has v t r) eqn:H.
    { apply has_spec in H. exists None, v. split; [reflexivity|]. split; [auto|]. split; [auto|]. split; [apply incl_refl|]. split; [left; auto|]. split; [intros p X; auto|auto]. }
    assert (NI : ~ In (t, r) v) by (rewrite <- has_spec; congruence).
    assert (IP' : incl ((t, r) :: v) pairs) by (intros p [<-|X]; [now apply in_prod|auto]).
    assert (ND2 : NoDup ((t, r) :: v)) by now constructor.
    assert (STOP : (forall q, ~ succ (t, r) q) -> good t r v (Done None ((t, r) :: v))).
    { intros NS. exists None, ((t, r) :: v). split; [reflexivity|]. split; [auto|]. split; [auto|]. split; [apply incl_tl, incl_refl|]. split; [left; now left|]. split; [|auto].
      intros p [<-|X]; [right|auto]. split; [auto|]. intros q Q. destruct (NS q Q). }
    destruct (reference g t) eqn:RT, (reference g r) eqn:RR; cbn [andb]; try (apply STOP; intros q (_ & X1 & X2 & _); cbn in X1, X2; congruence).
    destruct (Z.eqb_spec (target g t) (target g r)) as [TG|TG]; cbn [negb]; [|apply STOP; intros q (_ & _ & _ & X & _); cbn in X; congruence].
    destruct m eqn:M; [apply STOP; intros q (X & _); congruence|]. rewrite <- M in *.
    destruct (arguments g t) as [l|] eqn:AT; [|apply STOP; intros q (_ & _ & _ & _ & l & l' & i & X & _); cbn in X; congruence].
    destruct (arguments g r) as [l'|] eqn:AR; [|apply STOP; intros q (_ & _ & _ & _ & l1 & l' & i & _ & X & _); cbn in X; congruence].
    destruct SANE as [_ S2]. pose proof (S2 t r l l' RT RR TG AT AR) as LEN.
    assert (LV : (List.length ((t, r) :: v) <= List.length pairs)%nat) by now apply NoDup_incl_length.
    destruct (loop_good (worker g m fuel) t r l l' ((t, r) :: v) M RT RR TG AT AR l l' 0%nat ((t, r) :: v)) as (res & v' & E & P1 & N1 & I1 & R); auto.
    { intros a a' v1 Ia Ia' I0 I1 N1. apply IH; auto; [exact (CLOSED t l a IT AT Ia)|exact (CLOSED r l' a' IR AR Ia')|].
      assert ((List.length ((t, r) :: v) <= List.length v1)%nat) by now apply NoDup_incl_length. cbn [List.length] in *. lia. }
    { apply incl_refl. }
    exists res, v'. split; [auto|]. split; [auto|]. split; [auto|]. split; [intros p X; apply I1; now right|].
    destruct res as [q|]; [auto|]. destruct R as (R1 & R2). split; [left; apply I1; now left|]. split; [|auto].
    intros p X. destruct (R1 p X) as [[<-|Y]|Y]; [right|auto|auto]. split; [auto|].
    intros [a a'] (_ & _ & _ & _ & k & k' & i & K1 & K2 & K3 & K4). cbn in K1, K2, K3, K4. rewrite AT in K1. rewrite AR in K2. injection K1 as <-. injection K2 as <-. eauto.
Qed.

Lemma safe_no_flow v : safe_in [] v -> forall t r, flows g m t r -> settled v (t, r) -> False.
Proof.
  intros S t r F. induction F as [t r A B C|t r l l' i a a' M RT RR TG AT AR N N' F IH]; intros [I|[X Y]]; cbn in *.
  - destruct (S _ I) as [[]|[D _]]. apply D. repeat split; auto.
  - congruence.
  - destruct (S _ I) as [[]|[_ Q]]. apply IH. apply (Q (a, a')). repeat split; auto. exists l, l', i. auto.
  - destruct SANE as [S1 _]. rewrite (S1 t X) in RT. discriminate.
Qed.
End Proof.

(** On every finite set of types, with cycles or without, the check ends without a panic; the answer is
    receiver and sender when any flows into the receiver, and nothing otherwise. *)
Theorem C33_decides :
  forall g new_map types t r, sane g -> closed g types -> In t types -> In r types ->
    exists result, (forall fuel, (List.length types * List.length types < fuel)%nat -> exists v, is_unsafe_assignment g new_map fuel t r = Done result v) /\
      (flows g new_map t r -> result = Some (r, t)) /\ (~ flows g new_map t r -> result = None) /\ (result = None -> ~ flows g new_map t r).
Proof.
  intros g m types t r SA CL IT IR.
  assert (W : forall fuel, (List.length types * List.length types < fuel)%nat -> good g m types t r [] (worker g m fuel t r [])).
  { intros fuel F. apply worker_good; auto; [intros p []|constructor|]. rewrite prod_length. cbn. lia. }
  assert (D : forall fuel, (List.length types * List.length types < fuel)%nat -> exists res v, worker g m fuel t r [] = Done res v /\
     (flows g m t r /\ res = Some (r, t) \/ ~ flows g m t r /\ res = None)).
  { intros fuel F. destruct (W fuel F) as (res & v & E & _ & _ & _ & R). exists res, v. split; [auto|]. destruct res as [q|].
    - left. destruct R as [-> R]. auto.
    - right. destruct R as (R1 & R2 & _). split; [|auto]. intros X. eapply safe_no_flow; eauto. }
  destruct (D _ (Nat.lt_succ_diag_r _)) as (res & v & _ & C).
  exists res. split; [|destruct C as [[C ->]|[C ->]]; repeat split; auto; try congruence; try contradiction].
  intros fuel F. destruct (D fuel F) as (res' & v' & E & C'). exists v'. unfold is_unsafe_assignment. rewrite E. f_equal.
  destruct C as [[C ->]|[C ->]], C' as [[C' ->]|[C' ->]]; auto; contradiction.
Qed.
Print Assumptions C33_decides.

(** Without any nothing is unsafe; any into unknown or any is safe; for [new Map()] only the types
    themselves count. *)
Theorem C33_safe_cases :
  forall g new_map t r,
    ((forall x, any g x = false) -> ~ flows g new_map t r) /\
    (sane g -> any g t = true -> (unknown g r = true \/ any g r = true) -> ~ flows g new_map t r) /\
    (new_map = true -> any g t = false -> ~ flows g new_map t r).
Proof.
  intros g m t r. split; [|split].
  - intros N F. induction F; [congruence|auto].
  - intros [S _] A B F. inversion F; subst; [destruct B; congruence|]. rewrite (S t A) in *. discriminate.
  - intros M A F. inversion F; subst; congruence.
Qed.
Print Assumptions C33_safe_cases.

(** The condition on the number of arguments matters: with fewer arguments on the receiving side the
    check panics. *)
Theorem C33_arity_refuted :
  exists g t r fuel, is_unsafe_assignment g false fuel t r = Panicked.
Proof.
  exists (Graph (fun _ => false) (fun _ => false) (fun x => x <? 2) (fun _ => 9) (fun x => if x =? 0 then Some [5] else Some [])), 0, 1, 5%nat. reflexivity.
Qed.
Print Assumptions C33_arity_refuted.

(** Finiteness matters too: on types whose arguments go on for ever the check does not end. *)
Theorem C33_infinite_refuted :
  exists g t r, sane g /\ forall fuel, is_unsafe_assignment g false fuel t r = OutOfFuel.
Proof.
  set (g := Graph (fun _ => false) (fun _ => false) (fun _ => true) (fun _ => 9) (fun x => Some [x + 1])).
  exists g, 0, 0. split.
  - split; [intros t A; discriminate A|]. intros t r l l' _ _ _ A B. injection A as <-. injection B as <-. reflexivity.
  - assert (X : forall fuel n v, (forall p, In p v -> fst p < n) -> worker g false fuel n n v = OutOfFuel).
    { induction fuel as [|fuel IH]; intros n v V; [reflexivity|]. cbn [worker any unknown g andb negb reference target arguments].
      assert (H : has v n n = false).
      { destruct (has v n n) eqn:H; [|auto]. apply has_spec in H. apply V in H. cbn in H. lia. }
      rewrite H, Z.eqb_refl. cbn [negb loop]. rewrite IH; [reflexivity|]. intros q [<-|Q]; [cbn; lia|]. apply V in Q. lia. }
    intros fuel. apply X. intros q [].
Qed.
Print Assumptions C33_infinite_refuted.

(** ** Examples *)

(** 0 = [List<0>]-like cyclic reference [Node<any, 0>], 1 = [Node<string, 1>], 2 = any, 3 = string, 4 = unknown;
    5 = [Node<any, 5>] against 6 = [Node<unknown, 6>] is safe. *)
Definition ex_graph : graph :=
  Graph (fun x => x =? 2) (fun x => x =? 4) (fun x => existsb (Z.eqb x) [0; 1; 5; 6]) (fun _ => 9)
    (fun x => if x =? 0 then Some [0; 2] else if x =? 1 then Some [1; 3] else if x =? 5 then Some [5; 2] else if x =? 6 then Some [6; 4] else None).
Example C33_ex_run :
  is_unsafe_assignment ex_graph false 50 0 1 = Done (Some (1, 0)) [(0, 1)] /\
  is_unsafe_assignment ex_graph false 50 5 6 = Done None [(5, 6)] /\
  is_unsafe_assignment ex_graph true 50 0 1 = Done None [(0, 1)] /\
  is_unsafe_assignment ex_graph true 50 2 3 = Done (Some (3, 2)) [].
Proof. repeat split. Qed.
Example C33_ex_sane : sane ex_graph /\ closed ex_graph [0; 1; 2; 3; 4; 5; 6] /\ flows ex_graph false 0 1.
Proof.
  split; [split|split].
  - intros t A. cbn in *. apply Z.eqb_eq in A. subst. reflexivity.
  - intros t r l l' RT RR _ AT AR. cbn in *.
    assert (X : forall x k, arguments ex_graph x = Some k -> List.length k = 2%nat).
    { intros x k. cbn. repeat match goal with |- context[if ?c then _ else _] => destruct c end; intros [= <-] || intros [=]; reflexivity. }
    rewrite (X t l AT), (X r l' AR). reflexivity.
  - intros t l a I E J. cbn in I, E. repeat (destruct I as [<-|I]; [cbn in E; try discriminate; injection E as <-; cbn in J |- *; tauto|]). destruct I.
  - eapply (fl_inside _ _ 0 1 [0; 2] [1; 3] 1%nat 2 3); try reflexivity. now apply fl_here.
Qed.
