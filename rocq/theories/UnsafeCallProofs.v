(** Proofs on unsafe calls and type assertions. *)
From Coq Require Import Bool Arith Ascii String List Lia.
From Verif Require Import Base.
From Verif Require Import UnsafeCall UnsafeCallSpec.
Import ListNotations.
Open Scope nat_scope.

Lemma this_any_spec : forall e, this_any e = true <-> from_this e true.
Proof.
  induction e; cbn [this_any]; try rewrite IHe.
  1-3: split; [intros F; constructor; exact F | intros F; inversion F; subst; assumption].
  - split; [intros ->; constructor | intros F; inversion F; reflexivity].
  - split; [discriminate | intros F; inversion F].
  - split; [discriminate | intros F; inversion F].
Qed.
Lemma returning : forall l, existsb negb l = false <-> (forall v, In v l -> v = true).
Proof.
  induction l as [|x l IH]; cbn [existsb]; [split; [intros _ v [] | reflexivity] |].
  rewrite orb_false_iff, IH. split.
  - intros [X F] v [<- | V]; [destruct x; [reflexivity | discriminate] | apply F, V].
  - intros F. split; [rewrite (F x (or_introl eq_refl)); reflexivity | intros v V; apply F; right; exact V].
Qed.
Lemma check_fn : forall nit e c bu nw, any c = false ->
  check_call nit e c bu nw = Some (bu (b "`Function`")) /\ opaque_function (if nw then F_new else F_call) c
  \/ check_call nit e c bu nw = None /\ ~ opaque_function (if nw then F_new else F_call) c.
Proof.
  intros nit e c bu nw A. unfold check_call, opaque_function. rewrite A.
  destruct (function_like c); [|right; split; [reflexivity | intros [F _]; discriminate]].
  destruct (constructs c) as [|k]; cbn [Nat.ltb Nat.leb]; [|right; split; [reflexivity | intros [_ [F _]]; discriminate]].
  destruct nw.
  - destruct (existsb negb (calls_void c)) eqn:R.
    + right. split; [reflexivity|]. intros [_ [_ [[_ F] | [F _]]]]; [|exact (F eq_refl)].
      apply returning in F. rewrite F in R. discriminate.
    + left. split; [reflexivity|]. repeat split. left. split; [reflexivity|]. apply returning, R.
  - destruct (calls_void c) as [|x l]; cbn [length Nat.ltb Nat.leb].
    + left. split; [reflexivity|]. repeat split. right. split; [discriminate | reflexivity].
    + right. split; [reflexivity|]. intros [_ [_ [[F _] | [_ F]]]]; discriminate.
Qed.
Lemma opaque_call_tag : forall c, opaque_function F_call c <-> opaque_function F_tag c.
Proof. intros c; unfold opaque_function; split; (intros [F [G [[H _] | [_ H]]]]; [discriminate|]); repeat split; try assumption; right; split; try assumption; discriminate. Qed.
Lemma check_any : forall nit e c bu nw, any c = true ->
  check_call nit e c bu nw = Some ((if negb nit && this_any e then Unsafe_call_this else bu) (if error c then b "`error` type" else b "`any`")).
Proof. intros nit e c bu nw A. unfold check_call. rewrite A. reflexivity. Qed.
Definition builder (f : form) : bstr -> call_message := match f with F_call => Unsafe_call | F_new => Unsafe_new | F_tag => Unsafe_tag end.
Lemma builder_words : forall f t, call_description (builder f t) = wording f t.
Proof. intros [] t; reflexivity. Qed.
Lemma run_cases : forall nit f node cal e c,
  (f = F_call /\ e = Import_keyword /\ run_call nit f node cal e c = None)
  \/ ~ (f = F_call /\ e = Import_keyword) /\
     (any c = true /\ run_call nit f node cal e c = Some (place f node cal, (if negb nit && this_any e then Unsafe_call_this else builder f) (if error c then b "`error` type" else b "`any`"))
      \/ any c = false /\ opaque_function f c /\ run_call nit f node cal e c = Some (place f node cal, builder f (b "`Function`"))
      \/ any c = false /\ ~ opaque_function f c /\ run_call nit f node cal e c = None).
Proof.
  intros nit f node cal e c. unfold run_call.
  assert (IM : is_import e = true <-> e = Import_keyword) by (destruct e; split; (discriminate || reflexivity)).
  destruct f.
  - destruct (is_import e) eqn:I0; [left; repeat split; apply IM; reflexivity | right].
    split; [intros [_ ->]; discriminate|].
    destruct (any c) eqn:A; [left; rewrite check_any by exact A; repeat split; reflexivity | right].
    destruct (check_fn nit e c Unsafe_call false A) as [[-> O] | [-> O]]; [left | right]; (split; [reflexivity|]); (split; [exact O | reflexivity]).
  - right. split; [intros [F _]; discriminate|].
    destruct (any c) eqn:A; [left; rewrite check_any by exact A; repeat split; reflexivity | right].
    destruct (check_fn nit e c Unsafe_new true A) as [[-> O] | [-> O]]; [left | right]; (split; [reflexivity|]); (split; [exact O | reflexivity]).
  - right. split; [intros [F _]; discriminate|].
    destruct (any c) eqn:A; [left; rewrite check_any by exact A; repeat split; reflexivity | right].
    destruct (check_fn nit e c Unsafe_tag false A) as [[-> O] | [-> O]]; [left | right]; (split; [reflexivity|]); (split; [|reflexivity]); rewrite <- opaque_call_tag; exact O.
Qed.

Section Assertion.
Context (info : nat -> type_info) (unsafe : nat -> nat -> option nat) (assignable : nat -> nat -> bool).
Notation check := (check_assertion info unsafe assignable).
Notation wide from := (if object_literal (info from%nat) then widened (info from%nat) else from%nat).
Lemma looked : forall from w, looked_at info from w <-> w = wide from.
Proof.
  intros from w. split.
  - intros [L | L]; rewrite L; reflexivity.
  - intros ->. destruct (object_literal (info from)) eqn:L; constructor; exact L.
Qed.
Lemma narrower_spec : forall from to, narrower info assignable from to <-> assignable (wide from) to = false.
Proof.
  intros from to. unfold narrower. split.
  - intros N. apply N, looked. reflexivity.
  - intros N w W. apply looked in W. subst w. exact N.
Qed.
Lemma no_any_case : forall from to, from <> to -> no_any info unsafe from to ->
  check from to =
  if assignable (wide from) to then None
  else if parameter (info to) then
    match constraint (info to) with
    | None => Some (To_unconstrained (shown (info to)))
    | Some c => if assignable (wide from) c then Some (To_constraint (shown (info to))) else Some (Narrower (shown (info to)))
    end
  else Some (Narrower (shown (info to))).
Proof.
  intros from to D [U [F T]]. unfold check_assertion.
  rewrite (proj2 (Nat.eqb_neq from to) D), F, T.
  destruct (t_any (info to)) eqn:A, (t_unknown (info from)) eqn:K; try reflexivity.
  destruct U. split; reflexivity.
Qed.
End Assertion.
