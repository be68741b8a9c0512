(** C61: prefer-optional-chain on chains of ||: what it reports, and when the new text means the same. *)
From Coq Require Import String Ascii Bool List ZArith Lia.
From Verif Require Import Base EngineProofs OptChain OptChainSpec OptChainProofs OptChainReport OptChainReading OptChainOrSpec OptChainOr.
Import ListNotations.
Open Scope nat_scope.

(** ** What is reported *)
(** A report is about successive operands; what each is about reads like the beginning of what the next is about. *)
Theorem C61_run opts type_at e f : In f (or_fixes opts type_at e) ->
  exists all before run after accesses, flat Or e all /\ all = before ++ run ++ after /\ 2 <= length run /\ Forall2 or_about run accesses /\ consecutive reads_first accesses
    /\ first f = length before /\ S (last_ f) = length before + length run.
Proof. apply or_fix_run. Qed.
Print Assumptions C61_run.
(** A negated operand whose type has a literal can be null or undefined. *)
Theorem C61_literal opts type_at e f all : unsafe opts = false -> In f (or_fixes opts type_at e) -> flat Or e all ->
  forall i a, first f <= i <= last_ f -> nth_error all i = Some (Pre Not a) -> (exists q, In q (type_at i a) /\ literal q) -> In ANull (type_at i a) \/ In AUndef (type_at i a).
Proof. intros U I F i a Hi N. eapply or_fix_literal; eauto. Qed.
Print Assumptions C61_literal.
(** With requireNullish no chain begins with a negation. *)
Theorem C61_nullish opts type_at e f all a : require_nullish opts = true -> In f (or_fixes opts type_at e) -> flat Or e all -> nth_error all (first f) <> Some (Pre Not a).
Proof. apply or_fix_nullish. Qed.
Print Assumptions C61_nullish.
(** [!a.b || !a.b.c || !a.b.c.d.e] and the like are reported, and the change is made; what the options say about types does not matter. *)
Theorem C61_reported opts type_at accs : require_nullish opts = false -> Forall dotted accs -> consecutive shorter accs -> 2 <= length accs ->
  (unsafe opts = false -> forall i e, nth_error accs i = Some e -> (exists a, In a (type_at i e) /\ literal a) -> In ANull (type_at i e) \/ In AUndef (type_at i e)) ->
  exists f, In f (or_fixes opts type_at (join Or (map (Pre Not) accs))) /\ first f = 0 /\ S (last_ f) = length accs /\ suggestion f = false.
Proof. apply or_dotted_reported. Qed.
Print Assumptions C61_reported.

(** ** Meaning *)
(** Operands that hold if an access gives nothing, and one at the end that holds for undefined: the new text is one expression, of the operands before, a new one and those after, with the same result
    if the old one has any. *)
Theorem C61_right opts type_at all before gs s after gas a fin f :
  all = before ++ gs ++ s :: after -> Forall (single Or) all -> fits (join Or all) -> In f (or_fixes opts type_at (join Or all)) ->
  first f = length before -> last_ f = length before + length gs ->
  Forall2 (fun g p => or_guard g (fst p) (snd p)) gs gas -> or_finish s a fin -> Forall (fun p => shorter (fst p) a /\ marked_in (fst p) a) gas -> (fin <> None -> bare a) -> plain_root a ->
  exists s', text (join Or (before ++ s' :: after)) = fixed Or (join Or all) f /\ fits (join Or (before ++ s' :: after))
    /\ forall w, Forall (fun p => snd p = true -> forall v, result w (fst p) = Val v -> ~ falsy_only v) gas -> (forall k v, fin = Some (k, v) -> s = Bin k v a -> symmetric w) ->
         match fin with Some (k, v) => exists u, result w v = Val u /\ holds_for_undefined k u | None => True end ->
         result w (join Or all) <> Throw -> result w (join Or all) = result w (join Or (before ++ s' :: after)).
Proof. apply or_fix_right. Qed.
Print Assumptions C61_right.
(** If the first is a negation and there is nothing after the last, the rule itself sees to it that the last holds for undefined. *)
Theorem C61_negated opts type_at all before a0 gs s gas a fin f :
  unsafe opts = false -> all = before ++ (Pre Not a0 :: gs) ++ [s] -> Forall (single Or) all -> fits (join Or all) -> In f (or_fixes opts type_at (join Or all)) ->
  first f = length before -> S (last_ f) = length all ->
  Forall2 (fun g p => or_guard g (fst p) (snd p)) gs gas -> or_finish s a fin -> Forall (fun p => shorter (fst p) a /\ marked_in (fst p) a) ((a0, true) :: gas) -> (fin <> None -> bare a) -> plain_root a ->
  exists s', text (join Or (before ++ [s'])) = fixed Or (join Or all) f /\ fits (join Or (before ++ [s']))
    /\ forall w, literals_exist w -> Forall (fun p => snd p = true -> forall v, result w (fst p) = Val v -> ~ falsy_only v) ((a0, true) :: gas) -> (forall k v, fin = Some (k, v) -> s = Bin k v a -> symmetric w) ->
         (forall k v, fin = Some (k, v) -> result w v <> Throw) ->
         result w (join Or all) <> Throw -> result w (join Or all) = result w (join Or (before ++ [s'])).
Proof. apply or_fix_negated. Qed.
Print Assumptions C61_negated.

(** ** Examples and what does not hold *)
Section Concrete.
Let defaults := Options false true true true true true true false.
Let types : nat -> expr -> ty := fun _ e => match e with Null => [ANull] | Id x => if undefined_name x then [AUndef] else [AObject; AUndef] | _ => [AObject; AUndef] end.
Let both : nat -> expr -> ty := fun _ _ => [AObject; AUndef; ANull].
Let texts e := map (fun f => (suggestion f, fixed Or e f)) (or_fixes defaults types e).
Let va := Id (b "a"). Let ab := Dot va false (b "b") false. Let abc := Dot ab false (b "c") false. Let abcd := Dot abc false (b "d") false.
Let undef := Id (b "undefined"). Let one := Num (b "1"). Let no (e : expr) := Pre Not e.
Let qab := Dot va false (b "b") true. Let qabc := Dot qab false (b "c") true.
Let world_of (x : value) (y : Z -> value) : world :=
  World (fun n => if beqb n (b "a") then Some x else None) Undef Undef (fun _ => Some (Number 1))
    (fun v _ _ => match v with Object n => Some (y n) | _ => None end) (fun v _ => match v with Object n => Some (y n) | _ => None end) (fun _ _ _ => None) (fun _ _ => None) (fun _ _ => None) (fun _ => None) (fun _ => None)
    (fun _ _ _ => None) (fun v => match v with Undef => b "undefined" | _ => b "object" end) (fun v u => match v, u with Number x, Number y => Z.eqb x y | Object x, Object y => Z.eqb x y | String_ x, String_ y => beqb x y | _, _ => false end)
    (fun v u => match v, u with Number x, Number y => Z.eqb x y | Object x, Object y => Z.eqb x y | _, _ => false end)
    (fun o v u => match o, v, u with Arith _ _, Undef, _ => Some NaN | Assign _, _, u => Some u | _, _, _ => None end).
(** a is undefined. *)
Let nowhere := world_of Undef (fun _ => Undef).
(** a.b.c...: each is an object but the last, which is [v]. *)
Let deep (n : Z) (v : value) := world_of (Object 1) (fun k => if Z.ltb k n then Object (k + 1) else v).
Ltac shorter_tac :=
  match goal with |- shorter ?s ?l =>
    let r := eval vm_compute in (access_of s) in let t := eval vm_compute in (access_of l) in
    match r with Some (?x, ?ls) => match t with Some (_, ?ll) => exists x, ls, ll; split; [vm_compute; reflexivity|]; split; [vm_compute; reflexivity|]; cbn [map fst app]; do 2 eexists; reflexivity end end
  end.
Ltac marked_tac := let i := fresh in let H := fresh in intros i H; destruct i as [|[|i]]; discriminate H.
Example C61_run_example : (* x || !a || !a.b || !a.b.c || y *)
  map (fun f => (first f, last_ f)) (or_fixes defaults types (join Or [Id (b "x"); no va; no ab; no abc; Id (b "y")])) = [(1, 3)].
Proof. vm_compute. reflexivity. Qed.
Example C61_literal_example : (* a literal type without undefined *)
  or_fixes defaults (fun _ _ => [AStrLit (b "x")]) (join Or [no va; no ab]) = [] /\ length (or_fixes defaults (fun _ _ => [AStrLit (b "x"); AUndef]) (join Or [no va; no ab])) = 1.
Proof. vm_compute. auto. Qed.
Example C61_nullish_example :
  let o := Options false true true true true true true true in
  or_fixes o types (join Or [no va; no ab]) = [] /\ length (or_fixes o types (join Or [Bin Eq2 va Null; Bin Eq2 ab Null])) = 1.
Proof. vm_compute. auto. Qed.
Example C61_reported_example : Forall dotted [va; ab; abcd] /\ consecutive shorter [va; ab; abcd]
  /\ texts (join Or (map no [va; ab; abcd])) = [(false, text (no (Dot qabc false (b "d") false)))].
Proof. split; [repeat constructor; discriminate|]. split; [|vm_compute; reflexivity]. cbn [consecutive]. split; [shorter_tac|]. split; [shorter_tac|easy]. Qed.
Example C61_right_example : (* a == null || a.b == null || a.b.c == null becomes a?.b?.c == null *)
  let gs := [Bin Eq2 va Null; Bin Eq2 ab Null] in let s := Bin Eq2 abc Null in
  Forall (single Or) (gs ++ [s]) /\ fits (join Or (gs ++ [s])) /\ Forall2 (fun g p => or_guard g (fst p) (snd p)) gs [(va, false); (ab, false)] /\ or_finish s abc (Some (Eq2, Null))
  /\ (shorter va abc /\ marked_in va abc) /\ (shorter ab abc /\ marked_in ab abc) /\ plain_root abc /\ texts (join Or (gs ++ [s])) = [(false, text (Bin Eq2 qabc Null))]
  /\ result nowhere (join Or (gs ++ [s])) = Val (Boolean true) /\ result nowhere (Bin Eq2 qabc Null) = Val (Boolean true)
  /\ result (deep 2 (Number 1)) (join Or (gs ++ [s])) = Val (Boolean false) /\ result (deep 2 (Number 1)) (Bin Eq2 qabc Null) = Val (Boolean false).
Proof.
  cbv zeta. split; [repeat constructor; discriminate|]. split; [vm_compute; intuition lia|]. split; [repeat constructor; auto|]. split; [constructor; [now left|reflexivity]|].
  split; [split; [shorter_tac|marked_tac]|]. split; [split; [shorter_tac|marked_tac]|]. split; [now left|]. vm_compute. auto 10.
Qed.
Example C61_negated_example : (* !a || 1 !== a.b becomes a?.b !== 1; !a || a.b === 1 stays *)
  or_finish (Bin Ne3 one ab) ab (Some (Ne3, one)) /\ texts (join Or [no va; Bin Ne3 one ab]) = [(false, text (Bin Ne3 qab one))] /\ texts (join Or [no va; Bin Eq3 ab one]) = []
  /\ result nowhere (join Or [no va; Bin Ne3 one ab]) = Val (Boolean true) /\ result nowhere (Bin Ne3 qab one) = Val (Boolean true) /\ literals_exist nowhere /\ symmetric nowhere.
Proof.
  split; [apply of_right; [right; right; now right|reflexivity|cbn; lia]|]. split; [vm_compute; reflexivity|]. split; [vm_compute; reflexivity|]. split; [vm_compute; reflexivity|]. split; [vm_compute; reflexivity|]. split.
  - intros e u H C. cbn in C. injection C as <-. intros [X|X]; discriminate.
  - split; intros u v; destruct u, v; cbn; auto using Z.eqb_sym. destruct (beqb s s0) eqn:E; destruct (beqb s0 s) eqn:F; auto; [apply beqb_eq in E|apply beqb_eq in F]; subst; rewrite beqb_refl in *; congruence.
Qed.

(** A fix that is applied, and the expression it makes of [e]. *)
Let becomes (t : nat -> expr -> ty) (e e' : expr) : Prop := exists f, In f (or_fixes defaults t e) /\ suggestion f = false /\ fixed Or e f = text e' /\ fits e /\ fits e'.
Ltac made_only := match goal with |- becomes ?t ?e _ => exists (hd (Fix false 0 0 [] true) (or_fixes defaults t e)); split; [vm_compute; left; reflexivity|]; split; [vm_compute; reflexivity|]; split; [vm_compute; reflexivity|]; split; cbn; intuition lia end.
(** a || !a.b, which is a if that is an object, becomes !a?.b. *)
Theorem C61_plain_refuted : exists e e' w, becomes types e e' /\ result w e = Val (Object 1) /\ result w e' = Val (Boolean true).
Proof. exists (Bin Or va (no ab)), (no qab), (deep 1 Undef). split; [made_only|]. vm_compute. auto. Qed.
Print Assumptions C61_plain_refuted.
(** a.b || a.b.c == null becomes a.b?.c == null. *)
Theorem C61_start_refuted : exists e e' w, becomes types e e' /\ result w e = Val (Object 2) /\ result w e' = Val (Boolean false).
Proof. exists (Bin Or ab (Bin Eq2 abc Null)), (Bin Eq2 (Dot ab false (b "c") true) Null), (deep 2 (Object 7)). split; [made_only|]. vm_compute. auto. Qed.
Print Assumptions C61_start_refuted.
(** a.b != null || !a.b.c becomes !a.b?.c. *)
Theorem C61_opposite_refuted : exists e e' w, becomes types e e' /\ result w e = Val (Boolean true) /\ result w e' = Val (Boolean false).
Proof. exists (Bin Or (Bin Ne2 ab Null) (no abc)), (no (Dot ab false (b "c") true)), (deep 2 (Object 7)). split; [made_only|]. vm_compute. auto. Qed.
Print Assumptions C61_opposite_refuted.
(** !a || (a.b == null) becomes a?.b: the opposite. *)
Theorem C61_comparison_refuted : exists e e' w, becomes types e e' /\ result w e = Val (Boolean true) /\ result w e' = Val Undef.
Proof. exists (Bin Or (no va) (Paren (Bin Eq2 ab Null))), qab, nowhere. split; [made_only|]. vm_compute. auto. Qed.
Print Assumptions C61_comparison_refuted.
(** !a || typeof a.b === 'undefined' becomes a?.b === typeof a.b, which throws if a is undefined. *)
Theorem C61_typeof_refuted : exists e e' w, becomes types e e' /\ result w e = Val (Boolean true) /\ result w e' = Throw.
Proof. exists (Bin Or (no va) (Bin Eq3 (Typeof ab) (Str (b "undefined")))), (Bin Eq3 qab (Typeof ab)), nowhere. split; [made_only|]. vm_compute. auto. Qed.
Print Assumptions C61_typeof_refuted.
(** a == null || (a.b) == null becomes a?.b == (a.b). *)
Theorem C61_side_refuted : exists e e' w, becomes types e e' /\ result w e = Val (Boolean true) /\ result w e' = Throw.
Proof. exists (Bin Or (Bin Eq2 va Null) (Bin Eq2 (Paren ab) Null)), (Bin Eq2 qab (Paren ab)), nowhere. split; [made_only|]. vm_compute. auto. Qed.
Print Assumptions C61_side_refuted.
(** !a.b || a.b.c, which is true if there is no a.b, becomes a.b?.c, which is then undefined; applied if a.b can be null and undefined. *)
Theorem C61_last_refuted : exists e e' w, becomes both e e' /\ result w e = Val (Boolean true) /\ result w e' = Val Undef.
Proof. exists (Bin Or (no ab) abc), (Dot ab false (b "c") true), (deep 1 Undef). split; [made_only|]. vm_compute. auto. Qed.
Print Assumptions C61_last_refuted.
(** !a || a.b - 1, true if there is no a, becomes a?.b - 1. *)
Theorem C61_arithmetic_refuted : exists e e' w, becomes types e e' /\ result w e = Val (Boolean true) /\ result w e' = Val NaN.
Proof. exists (Bin Or (no va) (Bin (Arith (b "-") 11) ab one)), (Bin (Arith (b "-") 11) qab one), nowhere. split; [made_only|]. vm_compute. auto. Qed.
Print Assumptions C61_arithmetic_refuted.
(** !a || (a.b = 1) becomes a?.b: the assignment is gone. *)
Theorem C61_assignment_refuted : exists e e' w, becomes types e e' /\ result w e = Val (Number 1) /\ result w e' = Val (Object 7).
Proof. exists (Bin Or (no va) (Paren (Bin (Assign (b "=")) ab one))), qab, (deep 1 (Object 7)). split; [made_only|]. vm_compute. auto. Qed.
Print Assumptions C61_assignment_refuted.
(** !a?.b || !a.b.c || !a.b.c.d becomes !a.b?.c?.d, which throws if a is undefined. *)
Theorem C61_marks_refuted : exists e e' w, becomes types e e' /\ result w e = Val (Boolean true) /\ result w e' = Throw.
Proof. exists (join Or [no qab; no abc; no abcd]), (no (Dot (Dot ab false (b "c") true) false (b "d") true)), nowhere. split; [made_only|]. vm_compute. auto. Qed.
Print Assumptions C61_marks_refuted.
(** !a || a.b === null || a.b.c, of what can be null and undefined, becomes a?.b === null || a.b.c, which throws if a is undefined. *)
Theorem C61_truncated_refuted : exists e e' w, becomes both e e' /\ result w e = Val (Boolean true) /\ result w e' = Throw.
Proof. exists (join Or [no va; Bin Eq3 ab Null; abc]), (Bin Or (Bin Eq3 qab Null) abc), nowhere. split; [made_only|]. vm_compute. auto. Qed.
Print Assumptions C61_truncated_refuted.
(** a === null || a.b === null becomes a?.b === null: false if a is null; offered only. *)
Theorem C61_null_refuted : exists e e' f w, In f (or_fixes defaults (fun _ _ => [AObject; ANull]) e) /\ suggestion f = true /\ fixed Or e f = text e' /\ fits e' /\ result w e = Val (Boolean true) /\ result w e' = Val (Boolean false).
Proof.
  pose (e := Bin Or (Bin Eq3 va Null) (Bin Eq3 ab Null)). exists e, (Bin Eq3 qab Null), (hd (Fix false 0 0 [] false) (or_fixes defaults (fun _ _ => [AObject; ANull]) e)), (world_of Nul (fun _ => Undef)).
  split; [vm_compute; left; reflexivity|]. split; [vm_compute; reflexivity|]. split; [vm_compute; reflexivity|]. split; [cbn; intuition lia|]. vm_compute. auto.
Qed.
Print Assumptions C61_null_refuted.
(** !(a as X) || !(a as X)!.b becomes !(a as X?.b: the last character, a parenthesis, is taken for the !. *)
Let shown (t : tok) : list tok := match t with TCut ts => removelast ts | t => [t] end.
Theorem C61_cut_refuted : exists e f, fits e /\ In f (or_fixes defaults types e) /\ suggestion f = false /\ (forall ts, In (TCut ts) (fixed Or e f) -> last ts TOpen = TClose) /\ forall e', flat_map shown (fixed Or e f) <> text e'.
Proof.
  pose (e := Bin Or (no (Paren (As va (b "X")))) (no (Dot (NonNull (Paren (As va (b "X")))) false (b "b") false))). exists e, (hd (Fix false 0 0 [] true) (or_fixes defaults types e)). split; [cbn; intuition lia|]. split; [vm_compute; left; reflexivity|]. split; [vm_compute; reflexivity|]. split.
  - intros ts I. vm_compute in I. destruct I as [I|[I|[I|[]]]]; try discriminate. injection I as <-. reflexivity.
  - intros e' E. pose proof (balanced e') as B. rewrite <- E in B. clear - B. vm_compute in B. discriminate.
Qed.
Print Assumptions C61_cut_refuted.
(** !a || !a.b becomes !a?.b, and 0 can have a property. *)
Theorem C61_falsy_refuted : exists e e' w, becomes types e e' /\ result w e = Val (Boolean true) /\ result w e' = Val (Boolean false).
Proof.
  exists (Bin Or (no va) (no ab)), (no qab), (World (fun n => Some (Number 0)) Undef Undef (fun _ => None) (fun _ _ _ => Some (Object 1)) (fun _ _ => None) (fun _ _ _ => None) (fun _ _ => None) (fun _ _ => None) (fun _ => None) (fun _ => None) (fun _ _ _ => None) (fun _ => []) (fun _ _ => false) (fun _ _ => false) (fun _ _ _ => None)).
  split; [made_only|]. vm_compute. auto.
Qed.
Print Assumptions C61_falsy_refuted.
(** !a.b || !a?.b.c becomes !a?.b?.c: an exception is lost. *)
Theorem C61_throw_refuted : exists e e' w, becomes types e e' /\ result w e = Throw /\ result w e' = Val (Boolean true).
Proof. exists (Bin Or (no ab) (no (Dot qab false (b "c") false))), (no qabc), nowhere. split; [made_only|]. vm_compute. auto. Qed.
Print Assumptions C61_throw_refuted.
End Concrete.
