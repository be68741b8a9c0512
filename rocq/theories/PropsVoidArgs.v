From Coq Require Import Bool Arith List Lia Sorted.
From Verif Require Import VoidArgs VoidArgsSpec VoidArgsProofs.
Import ListNotations.

(** A type returns void if some signature of some part does and none gives a promise; it returns a promise if some signature does. *)
Theorem C103_types : forall t, (returns_thenable t = true <-> takes_promise t) /\ (void_returning t = true <-> takes_void t).
Proof. intros t. split; [apply thenable_iff|apply void_iff]. Qed.
Print Assumptions C103_types.

(** Reported are exactly the arguments that return promises for which more types take void before the first that takes a promise than types take promises. *)
Theorem C103_exact : forall contextual sigs args i v p, counts (offered contextual sigs i) v p ->
  (In i (check_arguments contextual sigs (Some args)) <-> exists a, nth_error args i = Some a /\ takes_promise a /\ p < v).
Proof.
  intros c sigs args i v p C. rewrite check_arguments_report, in_report_args. rewrite Nat.sub_0_r. split.
  - intros [_ [M [a [N R]]]]. exists a. split; auto. split; [apply thenable_iff; exact R|].
    rewrite (void_arguments_mem c (List.length args) sigs i v p) in M; auto; [apply Nat.ltb_lt; exact M|]. apply nth_error_Some. congruence.
  - intros [a [N [R L]]]. split; [lia|]. split; [|exists a; split; [exact N|apply thenable_iff; exact R]].
    rewrite (void_arguments_mem c (List.length args) sigs i v p); auto; [apply Nat.ltb_lt; exact L|]. apply nth_error_Some. congruence.
Qed.
Print Assumptions C103_exact.
(** The counts are there for all types that are offered, and are the only ones. *)
Theorem C103_counts : forall l, exists v p, counts l v p /\ forall v' p', counts l v' p' -> v' = v /\ p' = p.
Proof.
  intros l. destruct (counts_total l) as [v [p C]]. exists v, p. split; auto. induction C as [|t l v p T C IH|t l v p T C IH|t l v p T T' C IH]; intros v' p' D.
  - inversion D; auto.
  - inversion D as [|? ? v0 p0 U D'|? ? v0 p0 U D'|? ? v0 p0 U U' D']; subst; try (destruct (IH _ _ D') as [-> ->]; auto); try contradiction. destruct U; contradiction.
  - inversion D as [|? ? v0 p0 U D'|? ? v0 p0 U D'|? ? v0 p0 U U' D']; subst; try (destruct (IH _ _ D') as [-> ->]; auto); try contradiction. destruct T; contradiction.
  - inversion D as [|? ? v0 p0 U D'|? ? v0 p0 U D'|? ? v0 p0 U U' D']; subst; try (destruct (IH _ _ D') as [-> ->]; auto); try contradiction.
Qed.
Print Assumptions C103_counts.
(** Where no type that is offered takes a promise, an argument is reported exactly if it returns one and some type takes void. *)
Theorem C103_void : forall contextual sigs args i, (forall t, In t (offered contextual sigs i) -> ~ takes_promise t) ->
  (In i (check_arguments contextual sigs (Some args)) <-> (exists a, nth_error args i = Some a /\ takes_promise a) /\ exists t, In t (offered contextual sigs i) /\ takes_void t).
Proof.
  intros c sigs args i H. destruct (counts_total (offered c sigs i)) as [v [p C]]. rewrite (C103_exact c sigs args i v p C). destruct (counts_none _ _ _ H C) as [-> V]. rewrite <- V. split.
  - intros [a [N [R L]]]. eauto.
  - intros [[a [N R]] L]. eauto.
Qed.
Print Assumptions C103_void.
(** Nothing is reported that no type wants void for. *)
Theorem C103_wanted : forall contextual sigs args i, In i (check_arguments contextual sigs (Some args)) ->
  (exists a, nth_error args i = Some a /\ takes_promise a) /\ exists t, In t (offered contextual sigs i) /\ takes_void t.
Proof.
  intros c sigs args i H. destruct (counts_total (offered c sigs i)) as [v [p C]]. apply (C103_exact c sigs args i v p C) in H. destruct H as [a [N [R L]]]. split; [eauto|].
  clear -C L. induction C as [|t l v p T C IH|t l v p T C IH|t l v p T T' C IH]; try lia.
  - exists t. split; [left; reflexivity|exact T].
  - destruct (IH L) as [u [I U]]. exists u. split; [right; exact I|exact U].
Qed.
Print Assumptions C103_wanted.
(** If some type takes a promise and none but possibly the first of those before it takes void, nothing is reported. *)
Theorem C103_promise : forall contextual sigs args i before t after, offered contextual sigs i = before ++ t :: after -> takes_promise t ->
  (exists l r, before = l ++ r /\ (List.length l <= 1) /\ forall u, In u r -> ~ takes_void u) -> ~ In i (check_arguments contextual sigs (Some args)).
Proof.
  intros c sigs args i before t after E T [l [r [B [L R]]]] H. destruct (counts_total (offered c sigs i)) as [v [p C]]. apply (C103_exact c sigs args i v p C) in H. destruct H as [a [_ [_ LT]]].
  rewrite E, B in C. clear E B. assert (K : forall r v p, (forall u, In u r -> ~ takes_void u) -> counts (r ++ t :: after) v p -> v = 0 /\ 0 < p).
  { clear -T. induction r as [|u r IH]; intros v p R C.
    - inversion C as [|? ? v0 p0 U D'|? ? v0 p0 U D'|? ? v0 p0 U U' D']; subst; try contradiction; [lia|]. destruct U; contradiction.
    - inversion C as [|? ? v0 p0 U D'|? ? v0 p0 U D'|? ? v0 p0 U U' D']; subst; [lia|exfalso; apply (R u); [left; reflexivity|exact U]|]. apply IH; auto. intros x I. apply R. right. exact I. }
  destruct l as [|u [|w l]]; cbn [List.length] in L; [|cbn [app] in C|lia].
  - destruct (K r v p R C). lia.
  - inversion C as [|? ? v0 p0 U D'|? ? v0 p0 U D'|? ? v0 p0 U U' D']; subst; [lia| |]; destruct (K r _ _ R D'); lia.
Qed.
Print Assumptions C103_promise.
(** One signature whose types are the contextual ones: reported are the arguments that return promises where void is taken. *)
Theorem C103_one : forall contextual ps args i,
  (forall t, In t (signature_says ps i) -> contextual i = t) -> List.length (signature_says ps i) <= 1 ->
  (In i (check_arguments contextual [ps] (Some args)) <-> exists a t, nth_error args i = Some a /\ takes_promise a /\ In t (signature_says ps i) /\ takes_void t).
Proof.
  intros c ps args i H L. assert (O : offered c [ps] i = signature_says ps i).
  { unfold offered. cbn [flat_map]. rewrite app_nil_r. destruct (signature_says ps i) as [|t [|u l]]; cbn [List.length] in L; [reflexivity| |lia]. cbn [flat_map]. rewrite (H t (or_introl eq_refl)). destruct (Nat.eq_dec (id t) (id t)); [reflexivity|congruence]. }
  destruct (counts_total (offered c [ps] i)) as [v [p C]]. rewrite (C103_exact c [ps] args i v p C). rewrite O in C. split.
  - intros [a [N [R LT]]]. destruct (signature_says ps i) as [|t [|u l]]; cbn [List.length] in L; [inversion C; subst; lia| |lia]. exists a, t. split; auto. split; auto. split; [left; reflexivity|].
    inversion C as [|? ? v0 p0 U D'|? ? v0 p0 U D'|? ? v0 p0 U U' D']; subst; auto; inversion D'; subst; lia.
  - intros [a [t [N [R [I V]]]]]. exists a. split; auto. split; auto. destruct (signature_says ps i) as [|t' [|u l]]; cbn [List.length] in L; [destruct I| |lia]. destruct I as [->|[]].
    inversion C as [|? ? v0 p0 U D'|? ? v0 p0 U D'|? ? v0 p0 U U' D']; subst; [destruct V; contradiction|inversion D'; subst; lia|contradiction].
Qed.
Print Assumptions C103_one.
(** Arguments are reported in order, each once. *)
Theorem C103_order : forall contextual sigs args, StronglySorted lt (check_arguments contextual sigs args).
Proof. intros c sigs [args|]; [rewrite check_arguments_report; apply report_args_sorted|constructor]. Qed.
Print Assumptions C103_order.
(** A callback of a call of an array method that is reached by one access, as a.filter, and whose other accesses are none, is reported exactly if it can return a promise, once. *)
Theorem C103_predicate : forall option c, accesses c = 1 ->
  predicates option c <= 1 /\ (predicates option c = 1 <-> option = true /\ predicate_method c = true /\ exists a l, given c = a :: l /\ takes_promise a).
Proof.
  intros o c E. unfold predicates. rewrite check_accesses_mul, E. unfold check_access. destruct (given c) as [|a l].
  - split; [destruct o; lia|]. split; [destruct o; lia|]. intros [_ [_ [x [y [K _]]]]]. discriminate.
  - destruct o; cbn [Nat.mul]; [|split; [lia|]; split; [lia|]; intros [K _]; discriminate].
    destruct (predicate_method c); cbn [andb]; [|split; [lia|]; split; [lia|]; intros [_ [K _]]; discriminate]. destruct (returns_thenable a) eqn:R; (split; [lia|]); split; try lia.
    + intros _. split; auto. split; auto. exists a, l. split; auto. apply thenable_iff. exact R.
    + intros [_ [_ [x [y [K T]]]]]. injection K as <- <-. apply thenable_iff in T. congruence.
Qed.
Print Assumptions C103_predicate.

Definition fn (n : nat) (r : return_type) : ty := {| id := n; parts := [[r]] |}.
Definition gives_void : return_type := {| thenable := false; void := true |}.
Definition gives_promise : return_type := {| thenable := true; void := false |}.
Definition gives_number : return_type := {| thenable := false; void := false |}.
(** Three overloads, the last for functions that return promises, called as the first: void is noted three times and struck out once.
    declare function f(a: () => void): void; declare function f(a: (x: number) => void): void; declare function f(a: () => Promise<void>): void; f(async () => {}) *)
Theorem C103_overloads_refuted : exists contextual sigs args t, In t (signature_says (nth 2 sigs []) 0) /\ takes_promise t /\
  (forall i, contextual i = fn 1 gives_void) /\ check_arguments contextual sigs (Some args) = [0].
Proof.
  exists (fun _ => fn 1 gives_void), [[One (fn 1 gives_void)]; [One (fn 2 gives_void)]; [One (fn 3 gives_promise)]], [fn 4 gives_promise], (fn 3 gives_promise).
  split; [left; reflexivity|]. split; [exists [gives_promise], gives_promise; repeat split; left; reflexivity|]. split; reflexivity.
Qed.
Print Assumptions C103_overloads_refuted.
(** Two overloads with type parameters: the contextual type is an instance, so void is noted twice.
    declare function f<T>(a: (x: T) => void, x: T): void; declare function f<T>(a: (x: T) => Promise<void>, x: T): void; f(async x => {}, 1) *)
Theorem C103_generic_refuted : exists contextual sigs args t, In t (signature_says (nth 1 sigs []) 0) /\ takes_promise t /\ List.length sigs = 2 /\
  check_arguments contextual sigs (Some args) = [0].
Proof.
  set (num := {| id := 9; parts := [[]] |}).
  exists (fun i => if Nat.eqb i 0 then fn 5 gives_void else num), [[One (fn 1 gives_void); One num]; [One (fn 3 gives_promise); One num]], [fn 4 gives_promise; num], (fn 3 gives_promise).
  split; [left; reflexivity|]. split; [exists [gives_promise], gives_promise; repeat split; left; reflexivity|]. split; reflexivity.
Qed.
Print Assumptions C103_generic_refuted.
(** The order of overloads decides: the same ones with the promise first are not reported. *)
Theorem C103_reordered_refuted : exists contextual sigs sigs' args, (forall ps, In ps sigs <-> In ps sigs') /\
  check_arguments contextual sigs (Some args) = [0] /\ check_arguments contextual sigs' (Some args) = [].
Proof.
  exists (fun _ => fn 1 gives_void), [[One (fn 1 gives_void)]; [One (fn 2 gives_void)]; [One (fn 3 gives_promise)]], [[One (fn 3 gives_promise)]; [One (fn 1 gives_void)]; [One (fn 2 gives_void)]], [fn 4 gives_promise].
  split; [|split; reflexivity]. intros ps. cbn [In]. tauto.
Qed.
Print Assumptions C103_reordered_refuted.
(** A callback that is itself an access, as in a.filter(o.p), is reported twice. *)
Theorem C103_access_refuted : exists c, accesses c = 2 /\ List.length (given c) = 1 /\ predicates true c = 2.
Proof. exists {| accesses := 2; predicate_method := true; given := [fn 1 gives_promise] |}. repeat split. Qed.
Print Assumptions C103_access_refuted.

Example C103_examples :
  (* setTimeout(async () => {}, 1) *)
  check_arguments (fun _ => fn 1 gives_void) [[One (fn 1 gives_void)]] (Some [fn 2 gives_promise]) = [0]
  (* a promise is taken by another part of the type *)
  /\ check_arguments (fun _ => fn 1 gives_void) [[One (fn 1 gives_void)]; [One (fn 2 gives_promise)]] (Some [fn 3 gives_promise]) = []
  (* the rest as an array, the rest as a tuple *)
  /\ check_arguments (fun i => if Nat.eqb i 0 then fn 9 gives_number else fn 1 gives_void) [[One (fn 9 gives_number); Rest (fn 1 gives_void)]] (Some [fn 9 gives_number; fn 2 gives_promise; fn 9 gives_number; fn 2 gives_promise]) = [1; 3]
  /\ check_arguments (fun i => if Nat.eqb i 1 then fn 8 gives_void else fn 7 gives_number) [[RestTuple [fn 7 gives_number; fn 8 gives_void]]] (Some [fn 2 gives_promise; fn 2 gives_promise; fn 2 gives_promise]) = [1]
  /\ check_arguments (fun _ => fn 1 gives_void) [[One (fn 1 gives_void)]] None = []
  /\ predicates true {| accesses := 1; predicate_method := true; given := [fn 1 gives_promise] |} = 1.
Proof. repeat split. Qed.
