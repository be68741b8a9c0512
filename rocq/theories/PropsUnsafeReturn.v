(** C96: returned values of type any. *)
From Coq Require Import Bool Arith Ascii String List Lia.
From Verif Require Import Base EngineProofs.
From Verif Require Import UnsafeReturn UnsafeReturnSpec UnsafeReturnProofs.
Import ListNotations.
Open Scope nat_scope.

(** The search for any in a type ends after no more steps than there are types to come to, and, where what is awaited is no promise any more, answers exactly any, an array of any, a promise of any among the parts, or none of these, the first that holds. *)
Theorem C96_kind : forall info types t, settled info -> In t types -> (forall t u a, In t types -> In u (leaves (info t)) -> awaited (info u) = Some a -> In a types) ->
  exists d v, discriminate_any info (S (List.length types)) t [] = Some (d, v) /\ kind_of info t d.
Proof.
  intros info types t S T C. destruct (ends info types C (Datatypes.S (List.length types)) t []) as (d & v & E & _); auto; [constructor|intros x []|cbn; lia|].
  exists d, v. split; auto. apply (complete _ _ _ _ _ _ S E); [intros []|intros x []].
Qed.
Print Assumptions C96_kind.
(** The kinds exclude each other. *)
Theorem C96_kind_one : forall info t d d', kind_of info t d -> kind_of info t d' -> d = d'.
Proof. intros info t d d' [] []; auto; try congruence; tauto. Qed.
Print Assumptions C96_kind_one.
(** Whatever the types are, a kind with any is only found if it is there. *)
Theorem C96_kind_sound : forall info n t v d v', discriminate_any info n t v = Some (d, v') -> d <> Safe -> kind_of info t d.
Proof. intros info n t v d v'. apply sound. Qed.
Print Assumptions C96_kind_sound.
(** A return is judged by the signatures of the contextual type of a function expression, else of the function: all of a union; of an intersection, those of its only part that has any. *)
Theorem C96_signatures : forall f l, judged f l <-> l = signatures_of f.
Proof. intros f l. split; [apply judged_one|intros ->; apply judged_spec]. Qed.
Print Assumptions C96_signatures.

(** A value with any is not reported exactly if there is no function around, the function was given a return type that agrees, some signature has unknown in the place of any, or it is a promise in a function that is not async. *)
Theorem C96_any_silent : forall info unsafe nit this_any d returned at_ e f, d <> Safe ->
  (check_return info unsafe nit this_any d returned at_ e f = None <->
   f = None \/ exists fn l, f = Some fn /\ judged fn l /\ (meant info fn returned l \/ (exists s, In s l /\ receives info s d) \/ (d = Promise_any /\ async fn = false))).
Proof.
  intros info unsafe nit th d r at_ e [f|] D; [|cbn; split; auto].
  assert (Q : (exists fn l, Some f = Some fn /\ judged fn l /\ (meant info fn r l \/ (exists s, In s l /\ receives info s d) \/ (d = Promise_any /\ async fn = false))) <->
    (meant info f r (signatures_of f) \/ (exists s, In s (signatures_of f) /\ receives info s d) \/ (d = Promise_any /\ async f = false))).
  { split; [intros (fn & l & [= <-] & J & H); apply judged_one in J; subst; auto|]. intros H. exists f, (signatures_of f). split; auto. split; auto. apply judged_spec. }
  rewrite Q. clear Q. rewrite <- meant_iff, <- takes_some. cbn [check_return]. cbv zeta.
  destruct (match written f with Some _ => _ | None => _ end); [split; auto|].
  destruct (existsb (takes info d) (signatures_of f)) eqn:T.
  - destruct d; try congruence; split; auto.
  - destruct d; try congruence; (destruct (async f); cbn [negb]; [|try (split; auto; fail)]);
      (split; [destruct (match this_expression e with Some t => _ | None => _ end); discriminate|intros [H|[H|[H|[H H']]]]; discriminate]).
Qed.
Print Assumptions C96_any_silent.
(** If it is reported, then with its kind in the message, or as error; and that this is any exactly if the expression begins with a this that is any and noImplicitThis is off. *)
Theorem C96_any_message : forall info unsafe nit this_any d returned at_ e f m ls, d <> Safe -> check_return info unsafe nit this_any d returned at_ e f = Some (m, ls) ->
  exists text, (error (info returned) = true /\ text = b "error" \/ error (info returned) = false /\ In (d, text) [(Any, b "`any`"); (Promise_any, b "`Promise<any>`"); (Any_array, b "`any[]`")]) /\
  (nit = false /\ (exists t, begins_with t e /\ this_any t = true) /\ m = Unsafe_this text \/
   ~ (nit = false /\ exists t, begins_with t e /\ this_any t = true) /\ m = Unsafe_return text).
Proof.
  intros info unsafe nit th d r at_ e [f|] m ls D; [|discriminate]. cbn [check_return]. cbv zeta. destruct (match written f with Some _ => _ | None => _ end); [discriminate|].
  intros H. exists (type_string info d r). split.
  { unfold type_string. destruct (error (info r)); [auto|]. right. split; auto. destruct d; cbn; tauto || congruence. }
  assert (K : match this_expression e with Some t => negb nit && th t | None => false end = true <-> nit = false /\ exists t, begins_with t e /\ th t = true).
  { destruct (this_expression e) as [t|] eqn:T.
    - destruct nit; cbn [negb andb]; [split; [discriminate|intros [N _]; discriminate]|]. split; [intros A; split; auto; exists t; split; auto; apply this_iff; auto|].
      intros (_ & u & U & A). apply this_iff in U. congruence.
    - split; [discriminate|]. intros (_ & t & U & _). apply this_iff in U. congruence. }
  rewrite <- K. destruct (match this_expression e with Some t => _ | None => _ end) eqn:B.
  - left. rewrite (proj1 (proj1 K eq_refl)). split; auto. split; [apply K; auto|].
    destruct d; try congruence; destruct (existsb _ _); try discriminate; [|destruct (negb (async f)); try discriminate|]; injection H as <- _; auto.
  - right. split; [congruence|]. destruct d; try congruence; destruct (existsb _ _); try discriminate; [|destruct (negb (async f)); try discriminate|]; injection H as <- _; auto.
Qed.
Print Assumptions C96_any_message.
(** A value of another type is reported exactly if assigning it to the return type of the first signature is not safe, and the function was not given a return type that agrees. *)
Theorem C96_assignment : forall info unsafe nit this_any returned at_ e f m,
  (exists ls, check_return info unsafe nit this_any Safe returned at_ e f = Some (m, ls)) <->
  exists fn s l receiver sender, f = Some fn /\ judged fn (s :: l) /\ ~ meant info fn returned (s :: l) /\ unsafe returned (returns s) = Some (receiver, sender) /\
    m = Unsafe_assignment (shown (info sender)) (shown (info receiver)).
Proof.
  intros info unsafe nit th r at_ e f m. split.
  - intros (ls & H). destruct f as [f|]; [|discriminate]. cbn [check_return] in H. cbv zeta in H. destruct (match written f with Some _ => _ | None => _ end) eqn:M; [discriminate|].
    destruct (signatures_of f) as [|s l] eqn:G; [discriminate|]. destruct (unsafe r (returns s)) as [[rc sd]|] eqn:U; [|discriminate]. injection H as <- _.
    exists f, s, l, rc, sd. split; auto. split; [rewrite <- G; apply judged_spec|]. split; auto. rewrite <- meant_iff, M. discriminate.
  - intros (fn & s & l & rc & sd & -> & J & N & U & ->). apply judged_one in J. cbn [check_return]. cbv zeta. rewrite <- J. rewrite <- meant_iff in N.
    destruct (match written fn with Some _ => _ | None => _ end); [congruence|]. rewrite U. eauto.
Qed.
Print Assumptions C96_assignment.
(** Each report has the returned type as first label and the expected one as second exactly if it is written: after the function, or else in this file in a signature of the context, the first such. *)
Theorem C96_labels : forall info unsafe nit this_any d returned at_ e fn m ls, check_return info unsafe nit this_any d returned at_ e (Some fn) = Some (m, ls) ->
  exists text, (error (info returned) = true /\ text = b "error" \/ error (info returned) = false /\ text = shown (info returned)) /\
  hd_error ls = Some (b "Returned expression has type `" ++ text ++ b "`.", at_) /\
  (forall l at2 k, tl ls = (l, at2) :: k -> k = [] /\ exists t,
     l = b "Function expects return type `" ++ (if error (info t) then b "error" else shown (info t)) ++ b "`." /\
     (written fn = Some (at2, t) \/ (written fn = None /\ expression fn = true /\ exists c p s q, contextual fn = Some c /\ signature_list c (p ++ s :: q) /\ written_at s = Some (at2, true) /\ returns s = t /\ forall x y, In x p -> written_at x <> Some (y, true)))) /\
  (tl ls = [] -> written fn = None /\ (expression fn = true -> forall c l s y, contextual fn = Some c -> signature_list c l -> In s l -> written_at s <> Some (y, true))).
Proof.
  intros info unsafe nit th d r at_ e f m ls H.
  assert (L : ls = labels at_ (render info r) (expected info f)).
  { cbn [check_return] in H. cbv zeta in H. destruct (match written f with Some _ => _ | None => _ end); [discriminate|].
    destruct d; try (destruct (signatures_of f) as [|s l]; [discriminate|]; destruct (unsafe r (returns s)) as [[rc sd]|]; [|discriminate]; congruence);
      (destruct (existsb _ _); [discriminate|]); try (destruct (negb (async f)); [discriminate|]); destruct (match this_expression e with Some t => _ | None => _ end); congruence. }
  subst. exists (render info r). split; [unfold render; destruct (error (info r)); auto|]. split; [reflexivity|].
  assert (S1 : forall c l, signature_list c l -> l = collect c).
  { intros c l G. pose proof (judged_one {| expression := false; contextual := None; own := c; written := None; async := false |} l) as Q. apply Q. right. cbn. auto. }
  assert (F : forall l at2 t, first_here info l = Some (at2, t) -> exists p s q, l = p ++ s :: q /\ written_at s = Some (at2, true) /\ t = render info (returns s) /\ forall x y, In x p -> written_at x <> Some (y, true)).
  { induction l as [|s l IH]; intros at2 t G; cbn [first_here] in G; [discriminate|]. destruct (written_at s) as [[a []]|] eqn:W.
    - injection G as <- <-. exists [], s, l. repeat split; auto.
    - apply IH in G as (p & u & q & -> & A & B & C). exists (s :: p), u, q. repeat split; auto. intros x y [<-|X]; [congruence|auto].
    - apply IH in G as (p & u & q & -> & A & B & C). exists (s :: p), u, q. repeat split; auto. intros x y [<-|X]; [congruence|auto]. }
  assert (N : forall l, first_here info l = None -> forall s y, In s l -> written_at s <> Some (y, true)).
  { induction l as [|s l IH]; intros G u y; cbn [first_here] in G; [intros []|]. destruct (written_at s) as [[a []]|] eqn:W; try discriminate; intros [<-|U]; try congruence; apply IH; auto. }
  split.
  - intros l at2 k E. cbn [labels tl] in E. unfold expected in E. destruct (written f) as [[w t]|] eqn:W.
    + injection E as <- <- <-. split; auto. exists t. auto.
    + unfold contextual_type in E. destruct (expression f) eqn:X; [|discriminate]. destruct (contextual f) as [c|] eqn:C; [|discriminate]. destruct (first_here info (collect c)) as [[w t]|] eqn:G; [|discriminate].
      injection E as <- <- <-. split; auto. apply F in G as (p & s & q & Q & A & B & Z). exists (returns s). subst t. split; auto. right. repeat split; auto. exists c, p, s, q. repeat split; auto. rewrite <- Q. apply collect_spec.
  - intros E. cbn [labels tl] in E. unfold expected in E. destruct (written f) as [[w t]|] eqn:W; [discriminate|]. split; auto. intros X c l s y C G I.
    unfold contextual_type in E. rewrite X, C in E. apply S1 in G. subst l. destruct (first_here info (collect c)) as [[w t]|] eqn:Q; [discriminate|]. apply (N _ Q _ _ I).
Qed.
Print Assumptions C96_labels.

(** Types: 0 any, 1 unknown, 2 string, 3 any[], 4 unknown[], 5 Promise<any>, 6 Set<any>, 7 Set<string>. *)
Definition plain (n : nat) (s : string) : type_info := {| any := false; unknown := false; error := false; element := None; leaves := [n]; thenable := false; awaited := Some n; shown := b s |}.
Definition some_types (t : nat) : type_info :=
  match t with
  | 0 => {| any := true; unknown := false; error := false; element := None; leaves := [0]; thenable := false; awaited := Some 0; shown := b "any" |}
  | 1 => {| any := false; unknown := true; error := false; element := None; leaves := [1]; thenable := false; awaited := Some 1; shown := b "unknown" |}
  | 3 => {| any := false; unknown := false; error := false; element := Some 0; leaves := [3]; thenable := false; awaited := Some 3; shown := b "any[]" |}
  | 4 => {| any := false; unknown := false; error := false; element := Some 1; leaves := [4]; thenable := false; awaited := Some 4; shown := b "unknown[]" |}
  | 5 => {| any := false; unknown := false; error := false; element := None; leaves := [5]; thenable := true; awaited := Some 0; shown := b "Promise<any>" |}
  | 6 => plain 6 "Set<any>"
  | 7 => plain 7 "Set<string>"
  | n => plain n "string"
  end.
Definition sets (t r : nat) : option (nat * nat) := if Nat.eqb t 6 && Nat.eqb r 7 then Some (7, 6) else None.
Definition plain_function (returns_ : nat) (w : option (nat * nat)) : function := {| expression := false; contextual := None; own := C_plain [{| returns := returns_; written_at := None |}]; written := w; async := false |}.
Example C96_example :
  discriminate_any some_types 3 5 [] = Some (Promise_any, [0; 5]) /\
  discriminate_any some_types 3 3 [] = Some (Any_array, [3]) /\
  discriminate_any some_types 3 2 [] = Some (Safe, [2]) /\
  check_return some_types sets true (fun _ => true) Any 0 50 Else (Some (plain_function 2 (Some (40, 2)))) =
    Some (Unsafe_return (b "`any`"), [(b "Returned expression has type `any`.", 50); (b "Function expects return type `string`.", 40)]) /\
  check_return some_types sets true (fun _ => true) Any 0 50 Else (Some (plain_function 1 (Some (40, 1)))) = None /\
  check_return some_types sets true (fun _ => true) Any_array 3 50 Else (Some (plain_function 4 None)) = None /\
  check_return some_types sets true (fun _ => true) Promise_any 5 50 Else (Some (plain_function 2 None)) = None /\
  check_return some_types sets false (fun _ => true) Any 0 50 (Access (Parens (This 9))) (Some (plain_function 2 None)) = Some (Unsafe_this (b "`any`"), [(b "Returned expression has type `any`.", 50)]) /\
  check_return some_types sets true (fun _ => true) Safe 6 50 Else (Some (plain_function 7 None)) = Some (Unsafe_assignment (b "Set<any>") (b "Set<string>"), [(b "Returned expression has type `Set<any>`.", 50)]).
Proof. repeat split. Qed.

(** False: a type in a message stands between one pair of backticks.  With this, there are two. *)
Theorem C96_backticks_refuted : exists info unsafe this_any returned at_ e f m ls, check_return info unsafe false this_any Any returned at_ e f = Some (m, ls) /\
  description m = b "Unsafe return of a value of type ``any``. `this` is typed as `any`.".
Proof.
  exists some_types, sets, (fun _ => true), 0, 50, (This 9), (Some (plain_function 2 None)), (Unsafe_this (b "`any`")), [(b "Returned expression has type `any`.", 50)].
  split; vm_compute; reflexivity.
Qed.
Print Assumptions C96_backticks_refuted.
(** False: a value that is not safe to return by some signature is reported.  Only the first one counts. *)
Theorem C96_overload_refuted : exists info unsafe fn s u returned at_ e, judged fn [s; u] /\ written fn = None /\ unsafe returned (returns u) <> None /\
  check_return info unsafe true (fun _ => false) Safe returned at_ e (Some fn) = None.
Proof.
  exists some_types, sets, {| expression := false; contextual := None; own := C_plain [{| returns := 6; written_at := None |}; {| returns := 7; written_at := None |}]; written := None; async := false |},
    {| returns := 6; written_at := None |}, {| returns := 7; written_at := None |}, 6, 50, Else.
  split; [right; split; [auto|apply s_plain]|]. split; [reflexivity|]. split; [discriminate|vm_compute; reflexivity].
Qed.
Print Assumptions C96_overload_refuted.
(** False: an async function with a written return type is only excused where its awaited type is what is awaited of the value, or any or unknown.  If neither has an awaited type, it is too. *)
Theorem C96_no_awaited_refuted : exists info unsafe fn s returned at_ e, judged fn [s] /\ async fn = true /\ written fn <> None /\ any (info returned) = true /\ any (info (returns s)) = false /\ unknown (info (returns s)) = false /\
  awaited (info (returns s)) = None /\ check_return info unsafe true (fun _ => false) Any returned at_ e (Some fn) = None.
Proof.
  exists (fun t => {| any := Nat.eqb t 0; unknown := false; error := false; element := None; leaves := [t]; thenable := false; awaited := None; shown := [] |}), sets,
    {| expression := false; contextual := None; own := C_plain [{| returns := 2; written_at := None |}]; written := Some (40, 2); async := true |}, {| returns := 2; written_at := None |}, 0, 50, Else.
  split; [right; split; [auto|apply s_plain]|]. split; [reflexivity|]. split; [discriminate|]. repeat split.
Qed.
Print Assumptions C96_no_awaited_refuted.
(** False: a promise of any among the parts is found whatever the types are.  If what is awaited of a part is a promise of any itself, any counts as visited, and a promise of any after it is missed. *)
Theorem C96_visited_refuted : exists info t v, promises_any info t /\ discriminate_any info 10 t [] = Some (Safe, v).
Proof.
  exists (fun t => {| any := Nat.eqb t 0; unknown := false; error := false; element := None; leaves := match t with 3 => [1; 2] | _ => [t] end;
    thenable := negb (Nat.eqb t 0); awaited := match t with 1 => Some 2 | _ => Some 0 end; shown := [] |}), 3, [0; 2; 3].
  split; [|vm_compute; reflexivity]. exists 2, 0. cbn. auto.
Qed.
Print Assumptions C96_visited_refuted.
(** Types of which C96_kind speaks. *)
Example C96_settled : settled some_types.
Proof. intros u a w T A W. destruct u as [|[|[|[|[|[|[|[|u]]]]]]]]; try discriminate. injection A as <-. destruct W as [<-|[]]. reflexivity. Qed.
