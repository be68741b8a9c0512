(** C63: return-await reports what it says, its fixes keep what async functions do, and where it only suggests awaiting does matter. *)
From Coq Require Import Bool List Arith Lia.
From Verif Require Import ReturnAwait ReturnAwaitSpec ReturnAwaitProofs.
Import ListNotations.

(** What is reported: returned expressions of async functions, by the option, the type and whether an exception there meets a catch clause, a finally block or a using declaration. *)
Theorem C63_reported opt type_of l m made : (exists t, In (Report m made t) (in_file opt type_of l)) <->
  exists f hs rhs x, in_f f l /\ is_async f = true /\ returns f hs (rplug rhs x) /\ leaf x /\ verdict opt type_of (Exists sees hs) x m made.
Proof. apply file_reported. Qed.
Print Assumptions C63_reported.
(** Each report's new text is read as the changed expression, unless what was awaited is on the next line or begins with a brace; if the change is made at once, the function does the same in all worlds,
    unless it stands in a for-of loop. *)
Theorem C63_fix opt type_of l r : In r (in_file opt type_of l) ->
  exists f hs rhs x x' f', in_f f l /\ is_async f = true /\ returns f hs (rplug rhs x) /\ leaf x /\ verdict opt type_of (Exists sees hs) x (what r) (auto r)
    /\ changed x x' /\ replaced f hs (rplug rhs x) (rplug rhs x') f'
    /\ (fits (if is_arrow f then 1 else 0) (rplug rhs x) -> safe_start f rhs x -> read_as (is_arrow f) (new_text r) (rplug rhs x'))
    /\ (auto r = true -> what r = NonPromise \/ Forall (fun h => ~ closes h) hs -> forall w fuel st, typed type_of w -> called w fuel f st = called w fuel f' st).
Proof. apply fix_right. Qed.
Print Assumptions C63_fix.
(** Where the change is only offered it can matter: with other statements before, after and beside it, there is a world in which awaiting or not is not the same. *)
Theorem C63_affected a l hs e : returns (Func a false l) hs e -> Exists sees hs -> Forall complete hs ->
  exists hs' l1 l2 w fuel st, let p := Plain 0 17 false in
    Forall2 alike hs hs' /\ Block l1 = plug hs' (Return (Some p)) /\ Block l2 = plug hs' (Return (Some (Awaits false p))) /\ called w fuel (Func a false l1) st <> called w fuel (Func a false l2) st.
Proof. apply affected_indeed. Qed.
Print Assumptions C63_affected.

Section Concrete.
Let p := Plain 0 17 false.
Let q := Plain 1 2 false.
Let n := Plain 2 17 false.
Let types (e : ret) : awaitable := match e with Plain 0 _ _ | Plain 1 _ _ => Always | _ => Never end.
Let file s := SCons (Do 0 (FCons (Func true false (SCons s SNil)) FNil)) SNil.
Let body (l : list stmt) := fold_right SCons SNil l.
Let seen_by o s := in_file o types (file s).
(** [try { return (c ? p : await n); } catch { return await p; }] *)
Example C63_reported_example :
  let s := Try (body [Return (Some (Parens (Cond 7 p (Awaits false n))))]) (Present (body [Return (Some (Awaits false p))])) Absent in
  seen_by OInTry s = [Report NonPromise true [KOpen; KIf 7; KPlain 0 17 false; KElse; KPlain 2 17 false; KClose];
                      Report Required false [KOpen; KIf 7; KAwait; KPlain 0 17 false; KElse; KAwait; KPlain 2 17 false; KClose];
                      Report Disallowed true [KPlain 0 17 false]]
  /\ seen_by OAlways (Return (Some q)) = [Report Required true [KAwait; KOpen; KPlain 1 2 false; KClose]]
  /\ seen_by OCorrectness (Block (body [Return (Some p); Using 0; Return (Some p)])) = [Report Required false [KAwait; KPlain 0 17 false]]
  /\ seen_by ONever (Try (body [Do 1 (FCons (Arrow true (Awaits false p)) FNil)]) Absent (Present SNil)) = [Report Disallowed true [KPlain 0 17 false]].
Proof. vm_compute. auto. Qed.
(** [return await p] in a loop with a condition, in a catch clause, is the same as [return p]. *)
Example C63_fix_example :
  let f e := Func true false (body [Try (body [Throw 3]) (Present (body [While 0 (Return (Some e))])) Absent]) in
  called demo 5 (f p) [] = Some ([9], Err 5) /\ called demo 5 (f (Awaits false p)) [] = Some ([9], Err 5).
Proof. vm_compute. auto. Qed.
(** [try { return p; } finally { log(); }] *)
Example C63_affected_example :
  let f e := Func true false (body [Try (body [Return (Some e)]) Absent (Present (body [Do 1 FNil]))]) in
  called demo 5 (f p) [] = Some ([9; 1], Err 5) /\ called demo 5 (f (Awaits false p)) [] = Some ([1; 9], Err 5).
Proof. vm_compute. auto. Qed.
(** [for (x of xs) return await p;] becomes [for (x of xs) return p;]: the iterator is closed before the promise is settled. *)
Theorem C63_iterator_refuted : exists s s' r w fuel st, In r (seen_by OInTry s) /\ auto r = true /\ new_text r = [KPlain 0 17 false] /\ s = ForOf 0 (Return (Some (Awaits false p))) /\ s' = ForOf 0 (Return (Some p))
  /\ called w fuel (Func true false (SCons s SNil)) st <> called w fuel (Func true false (SCons s' SNil)) st.
Proof.
  exists (ForOf 0 (Return (Some (Awaits false p)))), (ForOf 0 (Return (Some p))), (Report Disallowed true [KPlain 0 17 false]).
  exists (World (list nat) (fun _ t => (t, None)) (fun _ t => (t, Ok true)) (fun _ t => (t, Ok (P 0))) (fun _ t => (9 :: t, Ok 0)) (fun _ t => (t, None)) (fun _ t => (t, None)) (fun _ t => (t, Ok true)) (fun _ t => (7 :: t, None)) (fun a _ => a)).
  exists 1, []. split; [vm_compute; auto|]. do 4 (split; [reflexivity|]). vm_compute. discriminate.
Qed.
Print Assumptions C63_iterator_refuted.
(** [return await] and the operand on the next line: [return] and the operand on the next line, which returns nothing. *)
Theorem C63_line_refuted : exists e r, fits 0 e /\ In r (seen_by OInTry (Return (Some e))) /\ auto r = true /\ forall e', ~ read_as false (new_text r) e'.
Proof.
  exists (Awaits true p), (Report Disallowed true [KNewline; KPlain 0 17 false]). split; [cbn; lia|]. split; [vm_compute; auto|]. split; [reflexivity|]. intros e' (_ & _ & A & _). discriminate.
Qed.
Print Assumptions C63_line_refuted.
(** [async () => await {then() {}}] becomes [async () => {then() {}}], a body. *)
Theorem C63_brace_refuted : exists e r, fits 1 e /\ In r (in_file OInTry types (SCons (Do 0 (FCons (Arrow true e) FNil)) SNil)) /\ auto r = true /\ forall e', ~ read_as true (new_text r) e'.
Proof.
  exists (Awaits false (Plain 0 17 true)), (Report Disallowed true [KPlain 0 17 true]). split; [cbn; lia|]. split; [vm_compute; auto|]. split; [reflexivity|]. intros e' (_ & _ & A). specialize (A eq_refl). discriminate.
Qed.
Print Assumptions C63_brace_refuted.
End Concrete.
