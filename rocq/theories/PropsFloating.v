(** C55: promises that nobody waits for. *)
From Coq Require Import String Ascii Bool List ZArith Lia.
From Verif Require Import Base EngineProofs Js JsProofs Floating FloatingSpec FloatingProofs FloatingWorlds.
Import ListNotations.
Open Scope Z_scope.

Section Rule.
Variables (opts : options) (type_of : tree -> ptype) (callable : tree -> bool) (index_name : Z -> option bstr) (safe_callee : tree -> bool) (is_function : tree -> bool).
Variable opaque : tree -> val -> Prop.
Notation statement := (statement opts type_of callable index_name safe_callee is_function).
Notation evals := (evals callable index_name opaque).
Notation left_over := (left_over opts callable index_name opaque).
Notation unused := (unused opts callable index_name opaque).
Notation receives := (receives index_name).

Lemma statement_none e : statement e = None <->
  ignore_iife opts = true /\ (exists f l, calls e f l /\ is_function (bare f) = true) \/
  (exists f l, calls (bare e) f l /\ safe_callee f = true) \/
  find_unhandled opts type_of callable index_name (bare e) = None.
Proof.
  assert (I : iife is_function e = true <-> exists f l, calls e f l /\ is_function (bare f) = true).
  { split.
    - destruct e; cbn [iife]; try discriminate; intros H; exists e || exists e1; eexists; (split; [|exact H]); [constructor | apply args_calls].
    - intros [f [l [C H]]]. destruct (calls_args _ _ _ C) as [_ [-> | [a ->]]]; exact H. }
  assert (S : known_safe safe_callee (bare e) = true <-> exists f l, calls (bare e) f l /\ safe_callee f = true).
  { generalize (bare e). intros t. split.
    - destruct t; cbn [known_safe]; try discriminate; intros H; exists t || exists t1; eexists; (split; [|exact H]); [constructor | apply args_calls].
    - intros [f [l [C H]]]. destruct (calls_args _ _ _ C) as [_ [-> | [a ->]]]; exact H. }
  unfold Floating.statement. change (skip e) with (bare e).
  destruct (ignore_iife opts && iife is_function e) eqn:E1.
  - apply andb_true_iff in E1 as [E1 E2]. split; [intros _; left; split; [exact E1 | now apply I] | reflexivity].
  - destruct (known_safe safe_callee (bare e)) eqn:E2.
    + split; [intros _; right; left; now apply S | reflexivity].
    + destruct (find_unhandled opts type_of callable index_name (bare e)).
      * split; [discriminate|]. intros [[K H] | [H | H]]; [apply I in H; rewrite K, H in E1; discriminate | apply S in H; discriminate | discriminate].
      * split; [intros _; now right; right | reflexivity].
Qed.
Lemma statement_some e r : statement e = Some r -> exists u, find_unhandled opts type_of callable index_name (bare e) = Some u /\
  r_node r = u_node u /\ r_array r = u_array u /\ r_handler r = u_handler u.
Proof.
  unfold Floating.statement. change (skip e) with (bare e). destruct (_ && _); [discriminate|]. destruct (known_safe _ _); [discriminate|].
  destruct (find_unhandled _ _ _ _ _) as [u|]; [|discriminate]. intros [= <-]. exists u. split; [reflexivity|].
  destruct (u_array u) eqn:A; [destruct (ignore_void opts); now rewrite ?A | destruct (ignore_void opts), (u_handler u); cbn; auto].
Qed.

(** ** A statement without a report leaves over no promise that is not handled *)
Theorem C55_complete e v :
  statement e = None ->
  (ignore_iife opts = true -> forall f l, calls e f l -> is_function (bare f) = false) ->
  (forall f l, calls (bare e) f l -> safe_callee f = false) ->
  right opts type_of callable index_name opaque (bare e) -> methods callable index_name opaque (bare e) ->
  unused (bare e) v -> ~ floating v.
Proof.
  intros N NI NS R M U. apply statement_none in N as [[K [f [l [C H]]]] | [[f [l [C H]]] | N]].
  - rewrite (NI K f l C) in H. discriminate.
  - rewrite (NS f l C) in H. discriminate.
  - apply (nothing_missed opts type_of callable index_name opaque (bare e) R M (bare e)); [exact U | constructor | exact N].
Qed.
(** ** A report means that a promise that is not handled may be left over *)
Theorem C55_sound e r :
  statement e = Some r -> clear callable index_name (bare e) ->
  inhabited opts type_of callable index_name opaque (bare e) -> methods callable index_name opaque (bare e) ->
  exists v, left_over (bare e) v /\ floating v.
Proof.
  intros H C F M. apply statement_some in H as [u [H _]]. apply (right_report opts type_of callable index_name opaque (bare e) F M (bare e) C) with (u := u); [constructor | exact H].
Qed.
(** ** Where the report is and what it says of the handler *)
Theorem C55_node e r : statement e = Some r ->
  place (bare e) (r_node r) /\
  (r_array r = false -> matters (check_thenables opts) (type_of (r_node r))) /\
  exists m, finallys index_name (r_node r) m /\
    (r_array r = true -> array_matters (check_thenables opts) (type_of m)) /\
    (r_array r = false -> matters (check_thenables opts) (type_of m)) /\
    (forall h, r_handler r = Some h -> callable h = false /\ exists o, receives m o h) /\
    (r_array r = false -> forall o h, receives m o h -> r_handler r = Some h).
Proof.
  intros H. apply statement_some in H as [u [H [-> [-> ->]]]]. apply (where_found opts type_of callable index_name (S (size (bare e)))); [lia | exact H].
Qed.
(** ** What is not looked at *)
Theorem C55_exempt e f l : calls e f l ->
  ignore_iife opts = true /\ is_function (bare f) = true \/ safe_callee f = true -> statement e = None.
Proof.
  intros C H. apply statement_none. destruct H as [[K H] | H]; [left; split; [exact K | now exists f, l] | right; left; exists f, l].
  split; [|exact H]. destruct (calls_args _ _ _ C) as [_ [-> | [a ->]]]; exact C.
Qed.
(** ** The texts *)
Theorem C55_texts e r : statement e = Some r ->
  (r_array r = true -> ignore_void opts = true ->
     r_id r = b "floatingPromiseArrayVoid" /\ r_text r = b "An array of Promises may be unintentional." /\
     r_help r = b "Consider handling the promises' fulfillment or rejection with Promise.all or similar, or explicitly marking the expression as ignored with the `void` operator." /\
     r_fixes r = []) /\
  (r_array r = true -> ignore_void opts = false ->
     r_id r = b "floatingPromiseArray" /\ r_text r = b "An array of Promises may be unintentional." /\
     r_help r = b "Consider handling the promises' fulfillment or rejection with Promise.all or similar." /\ r_fixes r = []) /\
  (r_array r = false -> ignore_void opts = true -> r_handler r = None ->
     r_id r = b "floatingVoid" /\ r_text r = b "Promises must be awaited, add void operator to ignore." /\
     r_help r = b "The promise must end with a call to .catch, or end with a call to .then with a rejection handler, or be explicitly marked as ignored with the `void` operator.") /\
  (r_array r = false -> ignore_void opts = true -> r_handler r <> None ->
     r_id r = b "floatingUselessRejectionHandlerVoid" /\ r_text r = b "Promises must be awaited, add void operator to ignore." /\
     r_help r = b "The promise must end with a call to .catch, or end with a call to .then with a rejection handler, or be explicitly marked as ignored with the `void` operator. A rejection handler that is not a function will be ignored.") /\
  (r_array r = false -> ignore_void opts = false -> r_handler r = None ->
     r_id r = b "floating" /\ r_text r = b "Promises must be awaited, add await operator." /\
     r_help r = b "The promise must end with a call to .catch, or end with a call to .then with a rejection handler.") /\
  (r_array r = false -> ignore_void opts = false -> r_handler r <> None ->
     r_id r = b "floatingUselessRejectionHandler" /\ r_text r = b "Promises must be awaited, add await operator." /\
     r_help r = b "The promise must end with a call to .catch, or end with a call to .then with a rejection handler. A rejection handler that is not a function will be ignored.").
Proof.
  unfold Floating.statement. destruct (_ && _); [discriminate|]. destruct (known_safe _ _); [discriminate|].
  destruct (find_unhandled _ _ _ _ _) as [[n a h]|]; [|discriminate]. intros [= <-]. cbn [u_array u_handler u_node].
  destruct a, (ignore_void opts), h; cbn [r_array r_handler r_id r_text r_help r_fixes]; repeat split; intros; try discriminate; try congruence.
Qed.
(** ** The suggestions *)
Theorem C55_suggestions e r : statement e = Some r -> wf e -> r_array r = false ->
  exists void ignored await new,
    r_fixes r = (if ignore_void opts then [(b "floatingFixVoid", b "Add void operator to ignore.", void)] else []) ++
                [(b "floatingFixAwait", b "Add await operator.", await)] /\
    reads void ignored /\ before UVoid e ignored /\
    reads await new /\ (swapped e new \/ (forall t, ~ swapped e t) /\ before UAwait e new).
Proof.
  unfold Floating.statement. destruct (_ && _); [discriminate|]. destruct (known_safe _ _); [discriminate|].
  destruct (find_unhandled _ _ _ _ _) as [[n a h]|]; [|discriminate]. intros [= <-] W A. cbn [u_array u_handler u_node] in *.
  destruct a; [destruct (ignore_void opts); discriminate|].
  destruct (reads_prefixed UVoid e W eq_refl) as [ignored [R1 B1]]. exists (prefixed UVoid e), ignored, (add_await e).
  assert (F : exists new, reads (add_await e) new /\ (swapped e new \/ (forall t, ~ swapped e t) /\ before UAwait e new)).
  { unfold add_await. destruct (awaited e) as [l|] eqn:E.
    - destruct (awaited_some e l E) as [t [S [-> K]]]. exists t. split; [apply reads_print; now apply K | now left].
    - destruct (reads_prefixed UAwait e W eq_refl) as [new [R2 B2]]. exists new. split; [exact R2|]. right. split; [now apply awaited_none | exact B2]. }
  destruct F as [new [R F]]. exists new. split; [destruct (ignore_void opts), h; reflexivity|]. now repeat split.
Qed.
(** What is suggested is not reported. *)
Theorem C55_settled e new :
  ignore_void opts = true /\ before UVoid e new /\ ~ matters (check_thenables opts) (type_of new) \/ before UAwait e new \/ swapped e new ->
  ~ array_matters (check_thenables opts) (type_of (bare new)) -> statement new = None.
Proof.
  intros H N. apply statement_none. right. right.
  assert (A : promise_array opts (type_of (bare new)) = false) by (apply not_true_is_false; intros K; now apply promise_array_iff in K).
  assert (W : forall x, bare new = Pre UAwait x -> find_unhandled opts type_of callable index_name (bare new) = None).
  { intros x Hx. rewrite Hx in *. cbn [find_unhandled]. now rewrite A. }
  destruct H as [[V [H M]] | [[-> | [-> _]] | S]].
  - assert (P : promise_like opts (type_of new) = false) by (apply not_true_is_false; intros K; now apply promise_like_iff in K).
    destruct H as [-> | [-> _]]; cbn [bare find_unhandled] in *; rewrite V, A, P; reflexivity.
  - now apply (W e).
  - now apply (W (Par e)).
  - destruct (swapped_bare _ _ S) as [x [_ B]]. now apply (W x).
Qed.
(** Of several promises the first of a comma and the last of a condition is shown. *)
Theorem C55_first c l r x : (forall t, l <> Par t) -> statement l = Some x ->
  (exists y, statement (Bin OComma l r) = Some y /\ r_node y = r_node x /\ r_array y = r_array x /\ r_handler y = r_handler x) /\
  (~ array_matters (check_thenables opts) (type_of (Cond c r l)) -> matters (check_thenables opts) (type_of (Cond c r l)) ->
   exists y, statement (Cond c r l) = Some y /\ r_node y = r_node x /\ r_array y = r_array x /\ r_handler y = r_handler x).
Proof.
  intros N H. destruct (statement_some l x H) as [u [F [-> [-> ->]]]].
  assert (B : bare l = l) by (destruct l; try reflexivity; now destruct (N l)). rewrite B in F.
  assert (K : forall e, (forall f k, ~ calls e f k) -> (forall t, e <> Par t) -> find_unhandled opts type_of callable index_name e = Some u ->
    exists y, statement e = Some y /\ r_node y = u_node u /\ r_array y = u_array u /\ r_handler y = u_handler u).
  { intros e NC NP Fe. assert (Be : bare e = e) by (destruct e; try reflexivity; now destruct (NP e)).
    destruct (statement e) as [y|] eqn:S.
    - exists y. split; [reflexivity|]. destruct (statement_some e y S) as [w [Fw R]]. rewrite Be, Fe in Fw. injection Fw as <-. exact R.
    - apply statement_none in S as [[_ [f [k [C _]]]] | [[f [k [C _]]] | S]]; rewrite ?Be in *; [now destruct (NC f k) | now destruct (NC f k) | congruence]. }
  split.
  - apply K; [intros f k C; inversion C | discriminate | cbn [find_unhandled]; now rewrite F].
  - intros A M. apply K; [intros f k C; inversion C | discriminate|]. cbn [find_unhandled].
    assert (A' : promise_array opts (type_of (Cond c r l)) = false) by (apply not_true_is_false; intros Q; now apply promise_array_iff in Q).
    apply promise_like_iff in M. rewrite A', M, F. reflexivity.
Qed.
End Rule.
Print Assumptions C55_first.
Print Assumptions C55_complete.
Print Assumptions C55_sound.
Print Assumptions C55_node.
Print Assumptions C55_exempt.
Print Assumptions C55_texts.
Print Assumptions C55_suggestions.
Print Assumptions C55_settled.

(** ** Examples *)
Definition usual : options := Options false false true.
Definition asks (l : list tree) (fs : list tree) (e : tree) : option report := statement usual (types l) (is_in fs) unnamed (fun _ => false) (fun _ => false) e.
Definition show (r : option report) : option (bstr * tree * option tree * list (bstr * list tok)) :=
  option_map (fun r => (r_id r, r_node r, r_handler r, map (fun x => (fst (fst x), snd x)) (r_fixes r))) r.

(** [p.then(f, 1).finally(g)]: the handler is no function; [p.then(f, h).finally(g)] is fine. *)
Definition p := Id "p".
Definition then_1 := Call (Member p (b "then")) (Bin OComma (Id "f") (Atom (ANum [49]))).
Definition then_h := Call (Member p (b "then")) (Bin OComma (Id "f") (Id "h")).
Definition finally (x : tree) := Call (Member x (b "finally")) (Id "g").
Example C55_handler_example :
  let l := [p; then_1; then_h; finally then_1; finally then_h] in let fs := [Id "f"; Id "g"; Id "h"] in
  asks l fs (finally then_h) = None /\
  show (asks l fs (finally then_1)) = Some (b "floatingUselessRejectionHandlerVoid", finally then_1, Some (Atom (ANum [49])),
    [(b "floatingFixVoid", TPre UVoid :: print (finally then_1)); (b "floatingFixAwait", TPre UAwait :: print (finally then_1))]).
Proof. vm_compute. split; reflexivity. Qed.
(** [c ? p.catch(h) : p] is reported at [p] and needs parentheses. *)
Example C55_condition_example :
  let caught := Call (Member p (b "catch")) (Id "h") in let e := Cond (Id "c") caught p in
  show (asks [p; caught; e] [Id "h"] e) = Some (b "floatingVoid", p, None,
    [(b "floatingFixVoid", TPre UVoid :: TOpen :: print e ++ [TClose]); (b "floatingFixAwait", TPre UAwait :: TOpen :: print e ++ [TClose])]).
Proof. vm_compute. reflexivity. Qed.
(** [(void p)] is only looked into on demand, and then becomes [(await p)]. *)
Example C55_void_example :
  let e := Par (Pre UVoid p) in
  asks [p] [] e = None /\
  show (statement (Options false false false) (types [p]) (is_in []) unnamed (fun _ => false) (fun _ => false) e) =
    Some (b "floating", p, None, [(b "floatingFixAwait", print (Par (Pre UAwait p)))]).
Proof. vm_compute. split; reflexivity. Qed.
Definition caught := Call (Member p (b "catch")) (Id "h").
(** The assumptions of C55_complete and C55_sound hold of [c ? p.catch(h) : q.finally(g)], which is reported, and with a handler for [q] it is not. *)
Definition q := Id "q".
Definition later := Cond (Id "c") caught (finally q).
Definition calmed := Cond (Id "c") caught (finally (Call (Member q (b "catch")) (Id "h"))).
Example C55_assumptions_example :
  let ps := [p; q; caught; Call (Member q (b "catch")) (Id "h"); finally q; finally (Call (Member q (b "catch")) (Id "h")); later; calmed] in
  let fs := [Id "g"; Id "h"] in
  (right usual (types ps) (is_in fs) unnamed (world [p; q]) later /\ methods (is_in fs) unnamed (world [p; q]) later /\
   inhabited usual (types ps) (is_in fs) unnamed (world [p; q]) later /\ clear (is_in fs) unnamed later /\
   option_map r_node (asks ps fs later) = Some (finally q) /\ left_over usual (is_in fs) unnamed (world [p; q]) later (Prom false)) /\
  (right usual (types ps) (is_in fs) unnamed (world [p; q]) calmed /\ methods (is_in fs) unnamed (world [p; q]) calmed /\
   asks ps fs calmed = None /\ evals (is_in fs) unnamed (world [p; q]) calmed (Prom true)).
Proof.
  intros ps fs.
  assert (C : forall x, calls (finally x) (Member x (b "finally")) [Id "g"]) by (intros x; constructor; apply ls_one; discriminate).
  assert (R : forall x, receives unnamed (Call (Member x (b "catch")) (Id "h")) x (Id "h")).
  { intros x. apply (rc_catch _ _ (Member x (b "catch")) x (Id "h") []); [constructor; apply ls_one; discriminate | constructor | intros [y H]; discriminate]. }
  assert (P : forall x, passes unnamed (finally x) x) by (intros x; exists (Member x (b "finally")), [Id "g"]; split; [apply C | constructor]).
  split.
  - split; [apply right_holds; vm_compute; reflexivity|]. split; [apply (methods_hold usual); vm_compute; reflexivity|]. split; [apply inhabited_holds; vm_compute; reflexivity|].
    split; [|split; [vm_compute; reflexivity|]].
    + apply cl_cond.
      * apply cl_other; try discriminate. intros o [f [l [D N]]]. inversion D; subst. inversion N.
      * apply (cl_finally _ _ _ q); [apply P|]. apply cl_other; try discriminate. intros o [f [l [D N]]]. inversion D.
    + left. apply ev_else. apply (ev_finally _ _ _ _ q); [apply P|]. apply ev_opaque; [exact I | reflexivity].
  - split; [apply right_holds; vm_compute; reflexivity|]. split; [apply (methods_hold usual); vm_compute; reflexivity|]. split; [vm_compute; reflexivity|].
    apply ev_then. apply (ev_caught _ _ _ _ p (Id "h") false); [apply R | reflexivity|]. apply ev_opaque; [exact I | reflexivity].
Qed.

(** ** What does not hold *)
(** [(p.catch(h)).finally(g)] is reported although the rejection is handled: handlers are not seen through parentheses, which C55_sound excludes. *)
Theorem C55_parentheses_refuted : exists opts type_of callable index_name opaque e r,
  statement opts type_of callable index_name (fun _ => false) (fun _ => false) e = Some r /\ wf e /\
  inhabited opts type_of callable index_name opaque (bare e) /\ methods callable index_name opaque (bare e) /\
  right opts type_of callable index_name opaque (bare e) /\
  forall v, left_over opts callable index_name opaque (bare e) v -> ~ floating v.
Proof.
  set (e := finally (Par caught)).
  exists usual, (types [p; caught; Par caught; e]), (is_in [Id "g"; Id "h"]), unnamed, (world [p]), e. eexists.
  split; [vm_compute; reflexivity|]. split; [repeat constructor|].
  split; [apply inhabited_holds; vm_compute; reflexivity|]. split; [apply (methods_hold usual); vm_compute; reflexivity|]. split; [apply right_holds; vm_compute; reflexivity|].
  intros v. apply calm_right. vm_compute. reflexivity.
Qed.
Print Assumptions C55_parentheses_refuted.
(** [c && (x = p)] is reported although the promise is stored. *)
Theorem C55_stored_refuted : exists opts type_of callable index_name opaque c n x r,
  let e := Bin OAnd c (Par (Pre (UAssign n false) x)) in
  statement opts type_of callable index_name (fun _ => false) (fun _ => false) e = Some r /\ wf e /\
  statement opts type_of callable index_name (fun _ => false) (fun _ => false) (Pre (UAssign n false) x) = None /\
  inhabited opts type_of callable index_name opaque (bare e) /\ methods callable index_name opaque (bare e) /\
  right opts type_of callable index_name opaque (bare e) /\
  forall v, left_over opts callable index_name opaque (bare e) v -> ~ floating v.
Proof.
  set (a := Pre (UAssign (b "x") false) p). set (e := Bin OAnd (Id "c") (Par a)).
  exists usual, (types [p; a; Par a; e]), (is_in []), unnamed, (world [p]), (Id "c"), (b "x"), p. eexists. intros e'.
  split; [vm_compute; reflexivity|]. split; [unfold e'; repeat constructor|]. split; [vm_compute; reflexivity|].
  split; [apply inhabited_holds; vm_compute; reflexivity|]. split; [apply (methods_hold usual); vm_compute; reflexivity|]. split; [apply right_holds; vm_compute; reflexivity|].
  intros v. apply calm_right. vm_compute. reflexivity.
Qed.
Print Assumptions C55_stored_refuted.
(** [p && 1], [c ? (p, 1) : 1]: a promise that is dropped inside is not seen, as the type of the whole is none of a promise. *)
Theorem C55_inside_refuted : exists opts type_of callable index_name opaque,
  forall e, In e [Bin OAnd p (Atom (ANum [49])); Cond (Id "c") (Par (Bin OComma p (Atom (ANum [49])))) (Atom (ANum [49]))] ->
  statement opts type_of callable index_name (fun _ => false) (fun _ => false) e = None /\ wf e /\
  inhabited opts type_of callable index_name opaque e /\ methods callable index_name opaque e /\
  right opts type_of callable index_name opaque e /\ left_over opts callable index_name opaque e (Prom false).
Proof.
  exists usual, (types [p]), (is_in []), unnamed, (world [p]).
  assert (E : evals (is_in []) unnamed (world [p]) p (Prom false)) by (apply ev_opaque; [exact I | reflexivity]).
  intros e [<- | [<- | []]].
  - split; [vm_compute; reflexivity|]. split; [repeat constructor|].
    split; [apply inhabited_holds; vm_compute; reflexivity|]. split; [apply (methods_hold usual); vm_compute; reflexivity|]. split; [apply right_holds; vm_compute; reflexivity|].
    right. apply dr_and; [exact E | discriminate].
  - split; [vm_compute; reflexivity|]. split; [repeat constructor|].
    split; [apply inhabited_holds; vm_compute; reflexivity|]. split; [apply (methods_hold usual); vm_compute; reflexivity|]. split; [apply right_holds; vm_compute; reflexivity|].
    right. eapply dr_part; [apply po_then|]. eapply dr_part; [apply po_par|]. now apply dr_comma.
Qed.
Print Assumptions C55_inside_refuted.
(** [o.finally()], [o.catch(h)] of an object that is no promise but gives one: not reported, so C55_complete needs [methods]. *)
Theorem C55_methods_refuted : exists opts type_of callable index_name opaque, 
  forall e, In e [Call0 (Member (Id "o") (b "finally")); Call (Member (Id "o") (b "catch")) (Id "h")] ->
  statement opts type_of callable index_name (fun _ => false) (fun _ => false) e = None /\ wf e /\
  right opts type_of callable index_name opaque e /\ evals callable index_name opaque e (Prom false).
Proof.
  set (l := [Call0 (Member (Id "o") (b "finally")); Call (Member (Id "o") (b "catch")) (Id "h")]).
  exists usual, (types l), (is_in [Id "h"]), unnamed, (world l).
  assert (E : evals (is_in [Id "h"]) unnamed (world l) (Id "o") Plain) by (apply ev_opaque; [exact I | reflexivity]).
  intros e [<- | [<- | []]].
  - split; [vm_compute; reflexivity|]. split; [repeat constructor|]. split; [apply right_holds; vm_compute; reflexivity|].
    apply (ev_other _ _ _ _ (Id "o") Plain); [right | exact E | discriminate | reflexivity]. exists (Member (Id "o") (b "finally")), []. split; constructor.
  - split; [vm_compute; reflexivity|]. split; [repeat constructor|]. split; [apply right_holds; vm_compute; reflexivity|].
    apply (ev_other _ _ _ _ (Id "o") Plain); [left | exact E | discriminate | reflexivity]. exists (Id "h").
    apply (rc_catch _ _ (Member (Id "o") (b "catch")) (Id "o") (Id "h") []); [constructor; apply ls_one; discriminate | constructor | intros [y H]; discriminate].
Qed.
Print Assumptions C55_methods_refuted.
(** What is suggested for [p, 1] is [await (p, 1)], which still drops the promise and is not reported. *)
Theorem C55_await_refuted : exists opts type_of callable index_name opaque e r await new,
  statement opts type_of callable index_name (fun _ => false) (fun _ => false) e = Some r /\ wf e /\
  In (b "floatingFixAwait", b "Add await operator.", await) (r_fixes r) /\ reads await new /\
  right opts type_of callable index_name opaque new /\ methods callable index_name opaque new /\ inhabited opts type_of callable index_name opaque new /\
  statement opts type_of callable index_name (fun _ => false) (fun _ => false) new = None /\
  left_over opts callable index_name opaque new (Prom false).
Proof.
  set (e := Bin OComma p (Atom (ANum [49]))).
  exists usual, (types [p]), (is_in []), unnamed, (world [p]), e. eexists. exists (print (Pre UAwait (Par e))), (Pre UAwait (Par e)).
  split; [vm_compute; reflexivity|]. split; [repeat constructor|]. split; [vm_compute; auto|]. split; [apply reads_print; repeat constructor|].
  split; [apply right_holds; vm_compute; reflexivity|]. split; [apply (methods_hold usual); vm_compute; reflexivity|]. split; [apply inhabited_holds; vm_compute; reflexivity|].
  split; [vm_compute; reflexivity|].
  right. eapply dr_part; [apply po_pre|]. eapply dr_part; [apply po_par|]. apply dr_comma. apply ev_opaque; [exact I | reflexivity].
Qed.
Print Assumptions C55_await_refuted.
