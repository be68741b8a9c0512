(** Theorems about no-confusing-void-expression (C66). *)
From Coq Require Import Bool List Arith Lia.
From Verif Require Import VoidExpr VoidExprSpec VoidExprProofs.
Import ListNotations.

(** * Reports *)
(** Exactly those calls, awaits and tagged templates with a void-like type are reported whose value goes somewhere, as the options say. *)
Theorem C66_reported opts void_like final r e p m : check opts void_like final r e p = Some m <->
  exists n k u, goes (root_use r) e p (Leaf n k true) u /\ void_like (Leaf n k true) = true /\ says opts (function_of r) final u m.
Proof. apply check_iff. Qed.
Print Assumptions C66_reported.
(** A function is one that returns void by its annotation, or else by its contextual type. *)
Theorem C66_functions f : void_returning f = true <-> returns_void f.
Proof. apply returning_iff. Qed.
Print Assumptions C66_functions.

(** * Arrow functions *)
(** With braces the function does the same and returns the same, if a void-like type means undefined and the body may begin a statement. *)
Theorem C66_arrow {St V X} (undefined : V) truthy nullish (w : world St V X) void_like e toks : fix_arrow void_like e = Some toks -> may_start (text (skip_parentheses e)) ->
  (void_like e = true -> is_undefined undefined truthy nullish w e) ->
  exists l, reads toks [SBlock l] /\ forall s, result undefined (exec_all undefined truthy nullish w l) s = eval undefined truthy nullish w e s.
Proof. apply arrow_right. Qed.
Print Assumptions C66_arrow.
(** No parentheses are left around the body. *)
Theorem C66_arrow_parentheses void_like e toks : fix_arrow void_like e = Some toks -> exists body, toks = TOpenBrace :: text body ++ [TSemicolon; TCloseBrace] /\ forall x, body <> Parentheses x.
Proof. unfold fix_arrow. destruct (void_like e); [|discriminate]. intros [= <-]. exists (skip_parentheses e). split; [reflexivity|]. induction e; cbn [skip_parentheses]; try discriminate; auto. Qed.
Print Assumptions C66_arrow_parentheses.

(** * return *)
(** A return which is not the last statement: if its whole value is undefined, what replaces it does the same and returns the same.  Outside of a block it is one statement. *)
Theorem C66_return {St V X} (undefined : V) truthy nullish (w : world St V X) void_like in_block semicolon e toks : fix_return void_like false in_block semicolon e = Some toks ->
  may_start (text e) -> is_undefined undefined truthy nullish w e ->
  exists l, reads toks l /\ (in_block = false -> exists m, l = [SBlock m]) /\ forall s, exec_all undefined truthy nullish w l s = exec undefined truthy nullish w (SReturn (Some e)) s.
Proof. apply return_inner. Qed.
Print Assumptions C66_return.
(** The last return of a function: whatever is before it, the function does the same and returns the same. *)
Theorem C66_return_last {St V X} (undefined : V) truthy nullish (w : world St V X) void_like in_block semicolon e toks : fix_return void_like true in_block semicolon e = Some toks ->
  may_start (text e) -> (void_like e = true -> is_undefined undefined truthy nullish w e) ->
  exists l, reads toks l /\ forall before s, result undefined (andthen before (exec_all undefined truthy nullish w l)) s = result undefined (andthen before (exec undefined truthy nullish w (SReturn (Some e)))) s.
Proof. apply return_last. Qed.
Print Assumptions C66_return_last.
(** What replaces a return does not go on with a statement before it that has no semicolon, unless the expression begins with a template, a sign or a slash. *)
Theorem C66_alone void_like final in_block semicolon e toks : fix_return void_like final in_block semicolon e = Some toks -> goes_on toks ->
  exists k, start (text e) = Some k /\ In k [BTemplate; BSign; BSlash].
Proof. apply alone. Qed.
Print Assumptions C66_alone.

(** * void *)
(** The fix that marks a returned value with void is the text of the tree with void put there; operators still bind as they should, and the meaning is the same if the value is undefined. *)
Theorem C66_void {St V X} (undefined : V) truthy nullish (w : world St V X) strength op_level opts void_like final r e p m n k u :
  check opts void_like final r e p = Some m -> m = MArrowWrap \/ m = MReturnWrap -> goes (root_use r) e p (Leaf n k true) u ->
  (forall op, op_level op < 16) -> 16 <= strength n -> written strength op_level e -> is_undefined undefined truthy nullish w (Leaf n k true) ->
  insert_void e p = text (put_void e p) /\ written strength op_level (put_void e p) /\ forall s, eval undefined truthy nullish w (put_void e p) s = eval undefined truthy nullish w e s.
Proof.
  intros C M G O Sn W U. apply check_iff in C. destruct C as (n' & k' & u' & G' & _ & S).
  destruct (goes_functional _ _ _ _ _ G _ _ G') as [E <-]. injection E as <- <-.
  split; [eapply insert_text; exact G|]. split.
  - eapply put_written; try eassumption. destruct M as [-> | ->]; inversion S; auto.
  - eapply put_eval; eassumption.
Qed.
Print Assumptions C66_void.
(** After void has been put there, it is not reported again. *)
Theorem C66_settles opts void_like final r e p m : ignore_void opts = true -> check opts void_like final r e p = Some m -> check opts void_like final r (put_void e p) (p ++ [Inside]) = None.
Proof. apply settles. Qed.
Print Assumptions C66_settles.

(** * What goes wrong *)
Definition no_options : options := {| ignore_arrow := false; ignore_void := false; ignore_functions := false |}.
Definition with_void : options := {| ignore_arrow := false; ignore_void := true; ignore_functions := false |}.
(** undefined, true and false; nothing is thrown.  Candidates return undefined. *)
Inductive value := Undefined | Boolean (x : bool).
Definition is_true (v : value) : bool := match v with Boolean x => x | _ => false end.
Definition is_nullish (v : value) : bool := match v with Undefined => true | _ => false end.
Definition the_world : world nat value unit := {| leaf_of n s := (S s, inl (match n with 0 => Boolean false | 1 => Undefined | _ => Boolean true end)); around_of n v s := (s, inl (Boolean (is_nullish v))) |}.
Notation f := (Leaf 1 BOther true).
(** if (x) return a && f(); : only the last return is not fixed when the whole may have another value; here the function returned false and now returns undefined. *)
Theorem C66_value_refuted : exists e p toks l, check no_options (fun x => match x with f => true | _ => false end) false (RReturn None) e p = Some MReturn /\
  fix_return (fun x => match x with f => true | _ => false end) false false true e = Some toks /\ may_start (text e) /\
  reads toks l /\ is_undefined Undefined is_true is_nullish the_world f /\
  result Undefined (exec_all Undefined is_true is_nullish the_world l) 0 <> result Undefined (exec Undefined is_true is_nullish the_world (SReturn (Some e))) 0.
Proof.
  exists (Logical 0 (Leaf 0 BOther false) f), [Right]. eexists. exists [SBlock [SExpr (Logical 0 (Leaf 0 BOther false) f); SEmpty; SReturn None]].
  split; [reflexivity|]. split; [reflexivity|]. split; [split; discriminate|]. split; [|split].
  - cbn [instead_of_return text app]. apply (ReadsBlock [T BOther 0; TOperator 0; T BOther 1; TSemicolon; TSemicolon; TReturn; TSemicolon] _ [] []); [|constructor].
    apply (ReadsExpr (Logical 0 (Leaf 0 BOther false) f)); [split; discriminate|]. apply ReadsEmpty. apply ReadsReturn. constructor.
  - intros s s' v H. simpl in H. congruence.
  - discriminate.
Qed.
Print Assumptions C66_value_refuted.
(** What begins with a template, a sign or a slash does go on with a statement before it that has no semicolon: the token asked for is a backtick, which is never a token of its own. *)
Theorem C66_alone_refuted : forall k, In k [BTemplate; BSign; BSlash] -> exists e toks, fix_return (fun _ => true) true true true e = Some toks /\ goes_on toks /\ ~ goes_on (TReturn :: text e).
Proof.
  intros k I. exists (Conditional (Leaf 0 k false) f (Leaf 2 BOther true)). eexists. split; [reflexivity|]. split.
  - exists k. simpl in I. destruct I as [<-|[<-|[<-|[]]]]; (split; [reflexivity|simpl; auto 6]).
  - intros [x [H _]]. discriminate.
Qed.
Print Assumptions C66_alone_refuted.
(** return function () {}(); and () => ({ m() {} }.m()) : what is left does not begin a statement, or begins another one. *)
Theorem C66_start_refuted : exists e toks d toks', fix_return (fun _ => true) true true true e = Some toks /\ ~ may_start toks /\
  may_start (text d) /\ fix_arrow (fun _ => true) d = Some toks' /\ exists rest, toks' = TOpenBrace :: rest /\ ~ may_start rest.
Proof.
  exists (Leaf 1 BFunction true). eexists. exists (Parentheses (Leaf 1 BBrace true)). eexists. split; [reflexivity|]. split; [intros [H _]; apply H; reflexivity|].
  split; [split; discriminate|]. split; [reflexivity|]. eexists. split; [reflexivity|]. intros [_ H]. apply H. reflexivity.
Qed.
Print Assumptions C66_start_refuted.
(** f().x : the suggestion reads void (f().x), which is another expression than the one with void put before f(). *)
Theorem C66_member_refuted : exists e p d, check with_void (fun _ => true) false ROther e p = Some MWrap /\ written (fun _ => 19) (fun _ => 5) e /\
  insert_void e p = text d /\ written (fun _ => 19) (fun _ => 5) d /\ ~ written (fun _ => 19) (fun _ => 5) (put_void e p) /\
  eval Undefined is_true is_nullish the_world d 0 <> eval Undefined is_true is_nullish the_world e 0.
Proof.
  exists (Around 3 None f), [Inside], (VoidOperator (Around 3 None f)). split; [reflexivity|]. split; [split; [exact I|simpl; lia]|]. split; [reflexivity|].
  split; [split; [split; [exact I|simpl; lia]|simpl; lia]|]. split; [intros [_ H]; simpl in H; lia|discriminate].
Qed.
Print Assumptions C66_member_refuted.

(** * Examples *)
(** const x = (a && f()) : used.  a && f(); : not. *)
Example C66_reported_example : check no_options (fun _ => true) false ROther (Parentheses (Logical 0 (Leaf 0 BOther false) f)) [Inside; Right] = Some MExpr /\
  check no_options (fun _ => true) false RStatement (Parentheses (Logical 0 (Leaf 0 BOther false) f)) [Inside; Right] = None /\
  check no_options (fun _ => true) false RStatement (Parentheses (Logical 0 f (Leaf 0 BOther false))) [Inside; Left] = Some MExpr.
Proof. vm_compute. auto. Qed.
Example C66_functions_example : void_returning {| annotation := None; is_expression := true; contextual := Some [[]; [[false]; [false; true]]] |} = true.
Proof. reflexivity. Qed.
(** () => (f()) : () => { f(); } *)
Example C66_arrow_example : fix_arrow (fun _ => true) (Parentheses f) = Some [TOpenBrace; T BOther 1; TSemicolon; TCloseBrace] /\ may_start (text (skip_parentheses (Parentheses f))) /\ is_undefined Undefined is_true is_nullish the_world (Parentheses f).
Proof. split; [reflexivity|]. split; [split; discriminate|]. intros s s' v H. simpl in H. congruence. Qed.
(** if (x) return (f()); : if (x) { ;(f());; return; } *)
Example C66_return_example : fix_return (fun _ => true) false false true (Parentheses f) = Some [TOpenBrace; TSemicolon; TOpen; T BOther 1; TClose; TSemicolon; TSemicolon; TReturn; TSemicolon; TCloseBrace] /\
  may_start (text (Parentheses f)) /\ is_undefined Undefined is_true is_nullish the_world (Parentheses f).
Proof. split; [reflexivity|]. split; [split; discriminate|]. intros s s' v H. simpl in H. congruence. Qed.
Example C66_return_last_example : fix_return (fun _ => true) true true false (Conditional (Leaf 0 BBracket false) f f) = Some [TSemicolon; T BBracket 0; TQuestion; T BOther 1; TColon; T BOther 1] /\
  ~ goes_on [TSemicolon; T BBracket 0; TQuestion; T BOther 1; TColon; T BOther 1].
Proof. split; [reflexivity|]. intros [k [H _]]. discriminate. Qed.
Example C66_void_example : check with_void (fun _ => true) false (RReturn None) (Logical 0 (Leaf 0 BOther false) f) [Right] = Some MReturnWrap /\
  insert_void (Logical 0 (Leaf 0 BOther false) f) [Right] = [T BOther 0; TOperator 0; TVoid; T BOther 1] /\ written (fun _ => 19) (fun _ => 5) (Logical 0 (Leaf 0 BOther false) f) /\
  check with_void (fun _ => true) false (RReturn None) (Logical 0 (Leaf 0 BOther false) (VoidOperator f)) [Right; Inside] = None.
Proof. split; [reflexivity|]. split; [reflexivity|]. split; [simpl; lia|reflexivity]. Qed.
