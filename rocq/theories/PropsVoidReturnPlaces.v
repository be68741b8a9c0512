(** C111: where strict-void-return looks (internal/rules/strict_void_return/strict_void_return.go). *)
From Coq Require Import Bool Arith Ascii String List Lia.
From Verif Require Import Base VoidReturn VoidReturnSpec VoidReturnProofs PropsVoidReturn.
From Verif Require Import VoidReturnPlaces VoidReturnPlacesSpec VoidReturnPlacesProofs.
Import ListNotations.
Local Open Scope list_scope.

(** What is reported in a file: what is wrong with what stands where a function without result is expected. *)
Theorem C111_reported : forall a contextual f l n r,
  In (n, r) (run a contextual f l) <-> (exists s, In s l /\ judged contextual s n) /\ In r (judge a (f n)).
Proof.
  intros a contextual f l n r. rewrite run_say, in_flat_map. split.
  - intros [m [C I]]. unfold report_if in I. apply in_map_iff in I as [q [E I]]. injection E as -> ->. apply in_flat_map in C as [s [S C]]. apply chosen_iff in C. split; [eauto|exact I].
  - intros [[s [S C]] I]. exists n. split; [apply in_flat_map; exists s; split; [exact S|apply chosen_iff; exact C]|]. unfold report_if. apply in_map. exact I.
Qed.
Print Assumptions C111_reported.

(** If no expression is part of two nodes, each is judged once: its reports are those of one judgement, in their order, or none. *)
Theorem C111_once : forall a contextual f l n, NoDup (flat_map members l) ->
  ((exists s, In s l /\ judged contextual s n) -> filter (fun p => Nat.eqb (fst p) n) (run a contextual f l) = map (pair n) (judge a (f n))) /\
  ((forall s, In s l -> ~ judged contextual s n) -> filter (fun p => Nat.eqb (fst p) n) (run a contextual f l) = []).
Proof.
  intros a contextual f l n N. rewrite run_say, filter_chosen.
  - destruct (in_dec Nat.eq_dec n (flat_map (chosen contextual) l)) as [I|I].
    + split; [reflexivity|]. intros H. apply in_flat_map in I as [s [S C]]. apply chosen_iff in C. destruct (H s S C).
    + split; [|reflexivity]. intros [s [S C]]. destruct I. apply in_flat_map. exists s. split; [exact S|apply chosen_iff; exact C].
  - pose proof (file_count contextual l n) as H. rewrite (NoDup_count_occ Nat.eq_dec) in N. specialize (N n). lia.
Qed.
Print Assumptions C111_once.

(** Nodes are judged one after the other. *)
Theorem C111_order : forall a contextual f l k, run a contextual f (l ++ k) = run a contextual f l ++ run a contextual f k.
Proof. intros a contextual f l k. unfold run. apply flat_map_app. Qed.
Print Assumptions C111_order.

(** Arguments of a call, and elements of an array, are judged from left to right. *)
Theorem C111_left_to_right : forall a contextual f before n after m, n <> m ->
  (forall x y i j, nth_error (before ++ EExpr n :: after) i = Some x -> nth_error (before ++ EExpr n :: after) j = Some y -> number x = number y -> i = j) ->
  In (EExpr m) after ->
  forall site, (site = ArrayLiteral (before ++ EExpr n :: after) \/ exists sigs, site = CallOrNew sigs (before ++ EExpr n :: after)) ->
  forall r q, In (n, r) (listen a contextual f site) -> In (m, q) (listen a contextual f site) ->
  exists x y z, listen a contextual f site = x ++ (n, r) :: y ++ (m, q) :: z.
Proof.
  intros a contextual f before n after m NM D A site Si r q R Q.
  assert (Sp : exists x z, listen a contextual f site = x ++ z /\ (forall p, In p x -> fst p <> m) /\ (forall p, In p z -> fst p <> n)).
  { assert (Bm : forall e, In e before -> number e <> m).
    { intros e E X. apply In_nth_error in E as [i E]. apply In_nth_error in A as [j A]. assert (L : i < List.length before) by (apply nth_error_Some; congruence).
      assert (i = List.length before + S j); [|lia]. apply (D e (EExpr m)); [rewrite nth_error_app1 by lia; exact E|rewrite nth_error_app2 by lia; replace (List.length before + S j - List.length before) with (S j) by lia; exact A|exact X]. }
    assert (An : forall e, In e after -> number e <> n).
    { intros e E X. apply In_nth_error in E as [i E].
      assert (List.length before + S i = List.length before); [|lia]. apply (D e (EExpr n)); [rewrite nth_error_app2 by lia; replace (List.length before + S i - List.length before) with (S i) by lia; exact E|rewrite nth_error_app2 by lia; rewrite Nat.sub_diag; reflexivity|exact X]. }
    destruct Si as [->|[sigs ->]]; cbn [listen].
    - rewrite flat_map_app. cbn [flat_map]. rewrite app_assoc. eexists _, _. split; [reflexivity|]. split.
      + intros p P. apply in_app_iff in P as [P|P].
        * apply in_flat_map in P as [[e|e] [E P]]; [destruct P|]. unfold check in P. destruct (check_expression _); [|destruct P]. apply in_map_iff in P as [w [<- _]]. exact (Bm _ E).
        * unfold check in P. destruct (check_expression _); [|destruct P]. apply in_map_iff in P as [w [<- _]]. exact NM.
      + intros p P. apply in_flat_map in P as [[e|e] [E P]]; [destruct P|]. unfold check in P. destruct (check_expression _); [|destruct P]. apply in_map_iff in P as [w [<- _]]. exact (An _ E).
    - assert (G : forall l i, (forall p, In p (check_arguments a contextual f sigs i l) -> exists e, In e l /\ number e = fst p)).
      { induction l as [|[e|e] l IH]; intros i p P; cbn [check_arguments] in P.
        - destruct P.
        - destruct (IH _ _ P) as [x [X Y]]. exists x. split; [right; exact X|exact Y].
        - apply in_app_iff in P as [P|P]; [|destruct (IH _ _ P) as [x [X Y]]; exists x; split; [right; exact X|exact Y]].
          destruct (argument_judged _ _ _); [|destruct P]. apply in_map_iff in P as [w [<- _]]. exists (EExpr e). split; [left; reflexivity|reflexivity]. }
      assert (C : forall l k i, check_arguments a contextual f sigs i (l ++ k) = check_arguments a contextual f sigs i l ++ check_arguments a contextual f sigs (i + List.length l) k).
      { induction l as [|[e|e] l IH]; intros k i; cbn [check_arguments app List.length]; [rewrite Nat.add_0_r; reflexivity| |]; rewrite IH; replace (S i + List.length l) with (i + S (List.length l)) by lia; [reflexivity|]. apply app_assoc. }
      replace (before ++ EExpr n :: after) with ((before ++ [EExpr n]) ++ after) by (rewrite <- app_assoc; reflexivity). rewrite C. eexists _, _. split; [reflexivity|]. split.
      + intros p P. apply G in P as [e [E <-]]. apply in_app_iff in E as [E|[<-|[]]]; [exact (Bm _ E)|exact NM].
      + intros p P. apply G in P as [e [E <-]]. exact (An _ E). }
  destruct Sp as [x [z [E [X Z]]]]. rewrite E in R, Q |- *.
  apply in_app_iff in R as [R|R]; [|destruct (Z _ R); reflexivity]. apply in_app_iff in Q as [Q|Q]; [destruct (X _ Q); reflexivity|].
  apply in_split in R as [x1 [x2 ->]]. apply in_split in Q as [z1 [z2 ->]]. exists x1, (x2 ++ z1), z2. rewrite <- !app_assoc. reflexivity.
Qed.
Print Assumptions C111_left_to_right.

(** Nothing is reported that may not return something. *)
Theorem C111_sound : forall a contextual f l n r, In (n, r) (run a contextual f l) -> exists t v, In t (results (f n)) /\ holds t v /\ v <> Undefined.
Proof. intros a contextual f l n r H. apply C111_reported in H as [_ H]. apply (C83_reported a). intros E. rewrite E in H. destruct H. Qed.
Print Assumptions C111_sound.

(** The names members are looked up by; a method with a computed name is not looked up at all. *)
Theorem C111_name : forall symbol n x, (forall e, n <> NComputed e) -> (member_name symbol (Some n) = x /\ x <> [] <-> called symbol n x).
Proof. exact called_iff. Qed.
Print Assumptions C111_name.

Theorem C111_words : forall r,
  (words r = (b "asyncFunc", b "Async function used in a context where a void function is expected.") <-> r = AsyncFunction) /\
  (words r = (b "nonVoidReturn", b "Value returned in a context where a void return is expected.") <-> r = TheBody \/ exists id, r = TheReturn id) /\
  (words r = (b "nonVoidFunc", b "Value-returning function used in a context where a void function is expected.") <-> r = WholeFunction \/ r = TheType).
Proof.
  intros r. repeat split; destruct r as [| | | |id]; try discriminate; try reflexivity; auto; try (intros [H|[i H]]; discriminate); try (intros [H|H]; discriminate); intros _; right; exists id; reflexivity.
Qed.
Print Assumptions C111_words.

(** * Examples *)
Definition v_type : ftype := [[One VoidPart]].
Definition v_number : rtype := One (OtherPart 0).
Definition v_context (n : nat) : option ftype := if Nat.ltb n 10 then Some v_type else None.
Definition v_arrow : given := {| literal := true; generator := false; async := false; fbody := ExpressionBody; written := None; below := []; results := [v_number] |}.
Definition v_async : given := {| literal := true; generator := false; async := true; fbody := BlockBody; written := None; below := []; results := [v_number] |}.
Definition v_block : given := {| literal := true; generator := false; async := false; fbody := BlockBody; written := None; below := [Node [Return 50 (Some (v_number, Node [])); Return 51 None; Return 52 (Some (v_number, Node []))]]; results := [v_number] |}.
Definition v_good : given := {| literal := true; generator := false; async := false; fbody := BlockBody; written := None; below := []; results := [One VoidPart] |}.
Definition v_function (n : nat) : given := match n with 1 | 11 => v_arrow | 2 | 12 => v_async | 3 | 13 => v_block | _ => v_good end.
Definition v_base : base := {| instance_members := fun x => if Nat.eqb x 7 then Some v_type else None; static_members := fun _ => None |}.
Definition v_members (x : bstr) : option ftype := if beqb x (b "run") then Some v_type else None.

Example C111_places :
  run false v_context v_function [ArrayLiteral [EExpr 1; ESpread 2; EExpr 3; EExpr 4; EExpr 11]] = [(1, TheBody); (3, TheReturn 50); (3, TheReturn 52)] /\
  run false v_context v_function [Arrow false (Some 2); Arrow true (Some 1); Binary true 1; Binary false 1] = [(2, AsyncFunction); (1, TheBody)] /\
  run false v_context v_function [CallOrNew [[v_type; [[v_number]]]] [EExpr 1; EExpr 12]; CallOrNew [[v_type]; [[[v_number]]]] [EExpr 1]] = [(1, TheBody)] /\
  run false v_context v_function [CallOrNew [[v_type]; [[[One AnyPart]]]] [EExpr 11]] = [(11, TheBody)] /\
  run false v_context v_function [CallOrNew [[v_type]] [EExpr 11]; CallOrNew [] [EExpr 2]] = [(11, TheBody); (2, AsyncFunction)] /\
  run false v_context v_function [Jsx AMissing; Jsx AString; Jsx (AExpression None); Jsx (AExpression (Some 1))] = [(1, TheBody)] /\
  run false v_context v_function [PropertyAssignment 1; Shorthand 2; ReturnStatement None; ReturnStatement (Some 1); Declared (Some 11); Declared (Some 3)] = [(1, TheBody); (2, AsyncFunction); (1, TheBody); (3, TheReturn 50); (3, TheReturn 52)] /\
  run false v_context v_function [ObjectMethod 13 None (Some (NIdentifier (b "run"))) (Some v_members); ObjectMethod 12 (Some (b "run")) (Some (NString (b "x"))) (Some v_members); ObjectMethod 11 None (Some (NIdentifier (b "x"))) (Some v_members)] =
    [(13, TheReturn 50); (13, TheReturn 52); (12, AsyncFunction)] /\
  run false v_context v_function [ClassMethod 12 [v_base] (Some {| mname := 7; is_static := false |}) true; ClassMethod 13 [v_base] (Some {| mname := 7; is_static := false |}) false; ClassMethod 11 [v_base] None true; ClassMethod 11 [v_base] (Some {| mname := 8; is_static := false |}) true] = [(12, AsyncFunction)] /\
  run false v_context v_function [ClassProperty [v_base] (Some {| mname := 7; is_static := false |}) (Some 11); ClassProperty [] None (Some 1); ClassProperty [v_base] (Some {| mname := 7; is_static := false |}) None; ClassProperty [v_base] None (Some 12)] = [(11, TheBody); (1, TheBody)].
Proof. repeat split; vm_compute; reflexivity. Qed.

Example C111_once_ex :
  NoDup (flat_map members [ArrayLiteral [EExpr 1; ESpread 20]; Declared (Some 3); Elsewhere [2]]) /\
  filter (fun p => Nat.eqb (fst p) 3) (run false v_context v_function [ArrayLiteral [EExpr 1; ESpread 20]; Declared (Some 3); Elsewhere [2]]) = [(3, TheReturn 50); (3, TheReturn 52)] /\
  filter (fun p => Nat.eqb (fst p) 2) (run false v_context v_function [ArrayLiteral [EExpr 1; ESpread 20]; Declared (Some 3); Elsewhere [2]]) = [].
Proof. split; [|split; reflexivity]. cbn. repeat constructor; cbn; lia. Qed.

(** Not everything that stands where a function without result is expected is looked at: the default value of a parameter is not. *)
Theorem C111_default_refuted : exists contextual f l n, In n (flat_map members l) /\ expected contextual n /\ judge false (f n) <> [] /\ run false contextual f l = [].
Proof.
  exists v_context, v_function, [Elsewhere [1]], 1. split; [left; reflexivity|]. split; [|split; [discriminate|reflexivity]].
  exists v_type. split; [reflexivity|]. apply void_function_iff. reflexivity.
Qed.
Print Assumptions C111_default_refuted.

(** A method named ['run'] is let off though one named run is not. *)
Theorem C111_computed_refuted : exists contextual f n o x, run false contextual f [ObjectMethod n (Some x) (Some (NIdentifier x)) o] <> [] /\ run false contextual f [ObjectMethod n (Some x) (Some (NComputed (Some (InString x)))) o] = [].
Proof. exists v_context, v_function, 13, (Some v_members), (b "run"). split; [vm_compute; discriminate|reflexivity]. Qed.
Print Assumptions C111_computed_refuted.
