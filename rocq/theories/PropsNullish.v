(** C59: prefer-nullish-coalescing finds tests for null and undefined, and what it puts in their place means the same. *)
From Coq Require Import String Ascii Bool List ZArith Lia.
From Verif Require Import Base EngineProofs Nullish NullishSpec NullishProofs.
Import ListNotations.
Open Scope Z_scope.

(** ** Reporting *)
(** [c ? t : f] is reported, and becomes [lhs ?? rhs], just if it is due. *)
Theorem C59_ternary o type_of ctx c t f lhs rhs :
  check_ternary o type_of ctx c t f = Some (lhs, rhs) <-> ig_ternary o = false /\ exists n, ternary_due o type_of ctx c t f lhs n /\ guarded n rhs.
Proof.
  rewrite ternary_iff. split; intros (A & n & D & G); (split; [exact A|]); exists n; (split; [exact D|]); now apply wrapped_iff.
Qed.
Print Assumptions C59_ternary.
(** [if (test) e] is reported, and becomes [lhs ??= rhs], just if it is due. *)
Theorem C59_if o type_of test th has_else lhs rhs :
  check_if o type_of test th has_else = Some (lhs, rhs) <->
  ig_if o = false /\ has_else = false /\ exists e a l, th = Single e /\ bare e = Bin (Assign a) l rhs /\ access (bare l) /\ if_due o type_of test l
    /\ lhs = match l with Paren _ => Paren (bare l) | _ => l end.
Proof.
  rewrite if_iff. assert (E : forall l, (if is_paren l then Paren (bare l) else l) = match l with Paren _ => Paren (bare l) | _ => l end) by (destruct l; reflexivity).
  split; intros (A & B & e & a & l & H); rewrite ?E in *; (split; [exact A|]); (split; [exact B|]); exists e, a, l; rewrite ?E; exact H.
Qed.
Print Assumptions C59_if.
(** [l || r] is reported just if it is due. *)
Theorem C59_or o type_of ctx l r :
  (exists ts, listen_binary o type_of ctx Or l r = Some ts) <-> truth_due o (type_of l) ctx (Some (Bin Or l r)) /\ (ig_mixed o = true -> ~ among_and ctx (Bin Or l r)).
Proof.
  unfold listen_binary, check_or. destruct (truth_eligible o type_of ctx (Some (Bin Or l r)) l) eqn:T; cbn [negb].
  2: { split; [intros (? & H); discriminate|]. intros [H _]. apply truth_iff in H. congruence. }
  apply truth_iff in T. destruct (ig_mixed o) eqn:M; cbn [andb].
  - destruct (mixed ctx (Bin Or l r) l r) eqn:X.
    + split; [intros (? & H); discriminate|]. intros [_ H]. apply mixed_iff in X. now elim (H eq_refl).
    + split; [|eauto]. intros _. split; [exact T|]. intros _ H. apply mixed_iff in H. congruence.
  - split; [|eauto]. intros _. split; [exact T|discriminate].
Qed.
Print Assumptions C59_or.
Theorem C59_or_assign o type_of ctx l r : stands ctx (Bin (Assign OrA) l r) ->
  (exists ts, listen_binary o type_of ctx (Assign OrA) l r = Some ts)
  <-> truth_due o (type_of l) ctx (Some (Bin (Assign OrA) l r)) /\ (ig_mixed o = true -> ~ meets_and l /\ ~ meets_and r).
Proof.
  intros S. unfold listen_binary, check_or. destruct (truth_eligible o type_of ctx (Some (Bin (Assign OrA) l r)) l) eqn:T; cbn [negb].
  2: { split; [intros (? & H); discriminate|]. intros [H _]. apply truth_iff in H. congruence. }
  apply truth_iff in T. destruct (ig_mixed o) eqn:M; cbn [andb].
  - destruct (mixed ctx (Bin (Assign OrA) l r) l r) eqn:X.
    + split; [intros (? & H); discriminate|]. intros [_ H]. apply or_assign_mixed in X; [|exact S]. destruct (H eq_refl). tauto.
    + split; [|eauto]. intros _. split; [exact T|]. intros _. split; intros H; (assert (Y : mixed ctx (Bin (Assign OrA) l r) l r = true) by (apply or_assign_mixed; auto)); congruence.
  - split; [|eauto]. intros _. split; [exact T|discriminate].
Qed.
Print Assumptions C59_or_assign.
(** Nothing else is. *)
Theorem C59_others o type_of ctx k l r : k <> Or -> k <> Assign OrA -> listen_binary o type_of ctx k l r = None.
Proof. destruct k as [| | | | | | | |a|]; try reflexivity; try congruence. destruct a; try reflexivity; congruence. Qed.
Print Assumptions C59_others.

(** ** The same access *)
Theorem C59_similar a c : tame a -> tame c -> similar a c = true -> exists f, reads a f /\ reads c f.
Proof. intros T T' S. now apply similar_form. Qed.
Print Assumptions C59_similar.
Theorem C59_usual a c f : usual a -> usual c -> reads a f -> reads c f -> similar a c = true.
Proof. intros. now apply (usual_similar f). Qed.
Print Assumptions C59_usual.

(** ** Texts *)
(** The text of an expression that can be written has one reading. *)
Theorem C59_reading e e' : writable e -> writable e' -> text e = text e' -> e = e'.
Proof. apply one_reading. Qed.
Print Assumptions C59_reading.
Theorem C59_ternary_stands o type_of ctx c t f lhs rhs : stands ctx (Cond c t f) -> check_ternary o type_of ctx c t f = Some (lhs, rhs) -> stands ctx (Bin Coal lhs rhs).
Proof. apply ternary_stands. Qed.
Print Assumptions C59_ternary_stands.
Theorem C59_if_stands o type_of test e has_else lhs rhs : writable e -> check_if o type_of test (Single e) has_else = Some (lhs, rhs) -> writable (Bin (Assign CoalA) lhs rhs).
Proof. apply if_writable. Qed.
Print Assumptions C59_if_stands.

(** ** Meaning *)
Section Same.
Variable St : Type.
Variables (var : St -> bstr -> value) (this : St -> value) (prop : St -> value -> key -> value).
Variables (set_var : St -> bstr -> value -> St) (set_prop : St -> value -> key -> value -> St).
Variable opaque : Z -> St -> option value * St.
Variables (number bigint : bstr -> value) (other_key : value -> bstr) (strict_rest loose_rest : value -> value -> bool) (compute : bstr -> value -> value -> value).
Notation result := (result St var this prop set_var set_prop opaque number bigint other_key strict_rest loose_rest compute).
Notation resolve := (resolve St var this prop set_var set_prop opaque number bigint other_key strict_rest loose_rest compute).
Notation exec := (exec St var this prop set_var set_prop opaque number bigint other_key strict_rest loose_rest compute).
Notation exec_if := (exec_if St var this prop set_var set_prop opaque number bigint other_key strict_rest loose_rest compute).

(** A ternary that does not throw and its ?? expression give the same value and state.  If the truth of something is tested then it must not be 0, "" and the like. *)
Theorem C59_ternary_same o type_of ctx c t f lhs rhs s :
  check_ternary o type_of ctx c t f = Some (lhs, rhs) -> honest c -> tame (Cond c t f) -> clear_type (type_of lhs) ->
  (forall v s', result lhs s = (Val v, s') -> inhabits (type_of lhs) v /\ (access (bare c) \/ (exists e, bare c = Not e) -> ~ falsy_only v)) ->
  fst (result (Cond c t f) s) <> Throw ->
  result (Bin Coal lhs rhs) s = result (Cond c t f) s.
Proof.
  intros H HO T CT V NT. apply ternary_iff in H as (_ & n & D & ->). destruct D as [A SI TD|e B A SI TD|negated lo nodes lhs TC ALL FT C].
  - apply ternary_truth_same; auto. intros v s' E. apply (V v s' E). now left.
  - apply (ternary_negated_same _ _ _ _ _ _ _ _ _ _ _ _ _ c e); auto. intros v s' E. apply (V v s' E). right. now exists e.
  - apply (ternary_compare_same _ _ _ _ _ _ _ _ _ _ _ _ _ c t f negated lo nodes lhs (type_of lhs)); auto. intros v s' E. now apply (V v s').
Qed.
(** So do an if statement and its ??= statement. *)
Theorem C59_if_same o type_of test e has_else l lhs rhs s s' :
  check_if o type_of test (Single e) has_else = Some (lhs, rhs) -> bare e = Bin (Assign Plain) l rhs ->
  honest test -> tame test -> tame l -> no_chain l -> clear_type (type_of l) ->
  (forall x f v s1, reads x f -> reads l f -> result x s = (Val v, s1) -> inhabits (type_of l) v /\ ((exists y, bare test = Not y) -> ~ falsy_only v)) ->
  exec_if test e s = Some s' -> exec (Bin (Assign CoalA) lhs rhs) s = Some s'.
Proof.
  intros H B HO T TL NC CT V X. apply if_iff in H as (_ & _ & e' & a & l' & E & B' & A & D & LH). injection E as <-. rewrite B in B'. injection B' as <- <-.
  apply (if_same _ _ _ _ _ _ _ _ _ _ _ _ _ o type_of test e l rhs); auto.
Qed.
(** The new text of [l || r] is that of one expression, which can stand there and gives the same as [l || r] if the value of [l] is not 0, "" and the like. *)
Theorem C59_or_same o type_of ctx l r ts :
  stands ctx (Bin Or l r) -> ~ entangled ctx l -> listen_binary o type_of ctx Or l r = Some ts ->
  exists e, text e = ts /\ stands ctx e /\ (forall e', writable e' -> text e' = ts -> e' = e)
    /\ forall s, (forall v s', result l s = (Val v, s') -> ~ falsy_only v) -> result e s = result (Bin Or l r) s.
Proof.
  intros S N H. unfold listen_binary, check_or in H. destruct (negb _); [discriminate|]. destruct (ig_mixed o && _); [discriminate|]. injection H as <-.
  exists (suggested ctx l r). split; [symmetry; apply suggested_text|]. assert (S' := suggested_stands ctx l r S N). split; [exact S'|]. split.
  - intros e' W E. rewrite suggested_text in E. apply one_reading; auto. exact (plug_writable _ _ (proj1 S')).
  - intros s V. now apply suggested_result.
Qed.
Theorem C59_or_assign_same o type_of ctx l r ts :
  stands ctx (Bin (Assign OrA) l r) -> listen_binary o type_of ctx (Assign OrA) l r = Some ts ->
  ts = text l ++ TOp (Assign CoalA) :: text r
  /\ forall s, (forall x s', resolve l s = (Some x, s') -> ~ falsy_only (get St var prop s' x)) -> result (Bin (Assign CoalA) l r) s = result (Bin (Assign OrA) l r) s.
Proof. intros S H. split; [now apply (or_assign_text o type_of ctx)|]. intros s V. now apply or_assign_same. Qed.
End Same.
Print Assumptions C59_ternary_same.
Print Assumptions C59_if_same.
Print Assumptions C59_or_same.
Print Assumptions C59_or_assign_same.
(** With all primitives ignored no 0, "" and the like is in a type that is tested for truth, if the type says which primitives it has. *)
Theorem C59_types o t v : (forall a, a = TString \/ a = TNumber \/ a = TBigint \/ a = TBoolean -> ignored o a) -> known_type t -> type_due o t -> inhabits t v -> ~ falsy_only v.
Proof. intros I K D H. exact (no_primitives o t v K I D H). Qed.
Print Assumptions C59_types.

(** ** Examples *)
Definition defaults : options := Options true true false false false false false false false.
Definition va := Id (b "a"). Definition vb := Id (b "b"). Definition vc := Id (b "c"). Definition vd := Id (b "d").
(** Variables only; every member of every object is the variable with a dot in front of the name. *)
Definition store := bstr -> value.
Definition set_ (s : store) (x : bstr) (v : value) : store := fun y => if beqb x y then v else s y.
Definition eval := result store (fun s x => s x) (fun _ => Object 0) (fun s _ k => s (b "." ++ snd k)) set_ (fun s _ k => set_ s (b "." ++ snd k))
  (fun n s => (Some (Object n), s)) (fun _ => Number 1) (fun _ => BigInt 1) (fun _ => b "?") (fun v w => match v, w with String_ x, String_ y => beqb x y | _, _ => true end) (fun _ _ => true) (fun _ v _ => v).
Definition eval_if := exec_if store (fun s x => s x) (fun _ => Object 0) (fun s _ k => s (b "." ++ snd k)) set_ (fun s _ k => set_ s (b "." ++ snd k))
  (fun n s => (Some (Object n), s)) (fun _ => Number 1) (fun _ => BigInt 1) (fun _ => b "?") (fun v w => match v, w with String_ x, String_ y => beqb x y | _, _ => true end) (fun _ _ => true) (fun _ v _ => v).
Definition eval_statement := exec store (fun s x => s x) (fun _ => Object 0) (fun s _ k => s (b "." ++ snd k)) set_ (fun s _ k => set_ s (b "." ++ snd k))
  (fun n s => (Some (Object n), s)) (fun _ => Number 1) (fun _ => BigInt 1) (fun _ => b "?") (fun v w => match v, w with String_ x, String_ y => beqb x y | _, _ => true end) (fun _ _ => true) (fun _ v _ => v).
Definition with_ (a b' c d : value) : store := fun x => if beqb x (b "a") then a else if beqb x (b "b") then b' else if beqb x (b "c") then c else if beqb x (b "d") then d else Undef.
Definition all_ignored : options := Options true true false false false true true true true.
Definition maybe : expr -> ty := fun _ => [[TString]; [TNull]; [TUndefined]].

Example C59_ternary_example : (* a !== undefined && a !== null ? a : (b, c) *)
  check_ternary defaults maybe [] (Bin And (Bin Ne3 va undefined) (Bin Ne3 va Null)) va (Paren (Bin Comma vb vc)) = Some (va, Paren (Bin Comma vb vc))
  /\ check_ternary defaults maybe [] (Bin Ne3 va Null) va vb = None
  /\ check_ternary defaults maybe [] (Bin Eq2 Null va) (Cond vb vc vd) (NonNull va) = Some (va, Paren (Cond vb vc vd))
  /\ check_ternary defaults maybe [] (Not (Dot va false (b "x") true)) vb (Elem va (Str (b "x")) false) = Some (Dot va false (b "x") true, vb)
  /\ check_ternary defaults maybe [FTest] va va vb = None.
Proof. vm_compute. repeat split; reflexivity. Qed.
Example C59_if_example : (* if (a === null || undefined === a) (a) = b; *)
  check_if defaults maybe (Bin Or (Bin Eq3 va Null) (Bin Eq3 undefined va)) (Single (Bin (Assign Plain) (Paren va) vb)) false = Some (Paren va, vb)
  /\ check_if defaults maybe (Bin Eq3 va Null) (Single (Bin (Assign Plain) va vb)) false = None
  /\ check_if defaults maybe (Not va) (Single (Bin (Assign Plain) va vb)) true = None
  /\ check_if defaults maybe (Bin Eq2 va Null) (Single (Bin (Assign Plain) vc vb)) false = None.
Proof. vm_compute. repeat split; reflexivity. Qed.
Example C59_or_example : (* ((a || b)) || c, a || b || c, !(a && b) || c in the options *)
  listen_binary defaults maybe [FBinL Or vc] Or va vb = Some [TOpen; TUnit va; TOp Coal; TUnit vb; TClose]
  /\ listen_binary defaults maybe [] Or (Bin Or va vb) vc = Some [TOpen; TUnit va; TOp Or; TUnit vb; TClose; TOp Coal; TUnit vc]
  /\ listen_binary defaults maybe [FBinL Or vd] Or (Bin Or va vb) vc = Some [TUnit va; TOp Or; TOpen; TUnit vb; TOp Coal; TUnit vc; TClose]
  /\ listen_binary defaults maybe [FParen; FTest] Or va vb = None
  /\ listen_binary (Options true true true false false false false false false) maybe [FParen; FBinL Or (Bin And vc vd)] Or va vb = None
  /\ listen_binary defaults maybe [] (Assign OrA) va (Bin And vb vc) = Some [TUnit va; TOp (Assign CoalA); TUnit vb; TOp And; TUnit vc].
Proof. vm_compute. repeat split; reflexivity. Qed.
Example C59_or_same_example : (* a || b || c || d, at the middle || *)
  stands [FBinL Or vd] (Bin Or (Bin Or va vb) vc) /\ ~ entangled [FBinL Or vd] (Bin Or va vb)
  /\ eval (Bin Or va (Paren (Bin Coal vb vc))) (with_ Nul Nul (Object 1) Nul) = (Val (Object 1), with_ Nul Nul (Object 1) Nul)
  /\ eval (Bin Or (Bin Or va vb) vc) (with_ Nul Nul (Object 1) Nul) = (Val (Object 1), with_ Nul Nul (Object 1) Nul).
Proof.
  split; [unfold stands; cbn; intuition auto|]. split; [|split; vm_compute; reflexivity].
  intros (x & rest & kl & ll & lr & _ & E & [->|(_ & H & _)]); [discriminate|]. injection E as _ _ <-. exact H.
Qed.
Example C59_similar_example : similar (NonNull (Dot This false (b "x") true)) (Elem (Paren This) (Tmpl (b "x")) false) = true
  /\ reads (NonNull (Dot This false (b "x") true)) (SDot SThis (false, b "x")) /\ reads (Elem (Paren This) (Tmpl (b "x")) false) (SDot SThis (false, b "x"))
  /\ similar (Dot va false (b "x") false) (Dot vb false (b "x") false) = false.
Proof. split; [reflexivity|]. split; [repeat constructor|]. split; [repeat constructor|reflexivity]. Qed.
Example C59_reading_example : (* a || b && c is a || (b && c), not (a || b) && c *)
  writable (Bin Or va (Bin And vb vc)) /\ text (Bin Or va (Bin And vb vc)) = text (Bin And (Bin Or va vb) vc) /\ ~ writable (Bin And (Bin Or va vb) vc).
Proof. split; [unfold stands; cbn; intuition auto|]. split; [reflexivity|]. cbn. intros ([[]|H] & _). discriminate. Qed.
Example C59_ternary_same_example : (* a == null ? b : a *)
  let s := with_ (String_ []) (Object 1) Nul Nul in
  eval (Bin Coal va vb) s = (Val (String_ []), s) /\ eval (Cond (Bin Eq2 va Null) vb va) s = (Val (String_ []), s)
  /\ honest (Bin Eq2 va Null) /\ tame (Cond (Bin Eq2 va Null) vb va) /\ clear_type (maybe va) /\ inhabits (maybe va) (String_ []).
Proof.
  split; [vm_compute; reflexivity|]. split; [vm_compute; reflexivity|]. split; [intros k k1 l1 r1 k2 l2 r2 E; discriminate|]. split; [unfold stands; cbn; intuition auto|]. split.
  - intros part [<-|[<-|[<-|[]]]]; [|now left|right; now left]. right; right; right; right. exists TString. split; [now left|now left].
  - exists [TString]. split; [now left|]. repeat constructor. now exists [].
Qed.
Example C59_if_same_example : (* if (!a.x) a.x = b *)
  let s := set_ (with_ (Object 1) (Object 2) Nul Nul) (b ".x") Nul in
  let ax := Dot va false (b "x") false in
  match eval_if (Not ax) (Bin (Assign Plain) ax vb) s, eval_statement (Bin (Assign CoalA) ax vb) s with
  | Some s1, Some s2 => s1 (b ".x") = Object 2 /\ s2 (b ".x") = Object 2
  | _, _ => False
  end.
Proof. vm_compute. split; reflexivity. Qed.
Example C59_types_example : type_due all_ignored [[TObject]; [TNull]] /\ known_type [[TObject]; [TNull]] /\ ~ type_due all_ignored [[TString]; [TNull]].
Proof.
  split; [|split].
  - split; [right; right; left; right; now left|]. intros _. split; [discriminate|]. split; [discriminate|]. intros part a [<-|[<-|[]]] [<-|[]] [[H _]|[[H _]|[[H _]|[H _]]]]; discriminate.
  - intros part [<-|[<-|[]]]; [|now left]. right; right; right. exists TObject. split; [now left|tauto].
  - intros [_ H]. destruct H as (_ & _ & H); [exists TString; right; right; right; split; reflexivity|]. apply (H [TString] TString); [now left|now left|]. right; right; right. split; reflexivity.
Qed.

(** ** What does not hold *)
(** The new text can change the meaning: [a && b || c || d] becomes [a && (b ?? c) || d]. *)
Theorem C59_regroup_refuted : exists o type_of x l r ts e s,
  stands [FBinL Or x] (Bin Or l r) /\ listen_binary o type_of [FBinL Or x] Or l r = Some ts /\ writable e /\ text e = ts /\ (forall v s', eval l s = (Val v, s') -> ~ falsy_only v)
  /\ fst (eval (Bin Or (Bin Or l r) x) s) = Val (Object 3) /\ fst (eval (Bin Or e x) s) = Val (Object 4).
Proof.
  exists defaults, maybe, vd, (Bin And va vb), vc, [TUnit va; TOp And; TOpen; TUnit vb; TOp Coal; TUnit vc; TClose], (Bin And va (Paren (Bin Coal vb vc))), (with_ Nul (Object 2) (Object 3) (Object 4)).
  split; [unfold stands; cbn; intuition auto|]. split; [reflexivity|]. split; [unfold stands; cbn; intuition auto|]. split; [reflexivity|]. split; [|split; vm_compute; reflexivity].
  intros v s' H. vm_compute in H. injection H as <- _. intros [_ N]. apply N. now right.
Qed.
Print Assumptions C59_regroup_refuted.
(** It can be no expression at all: [a || b && c || d || e] becomes [a || (b && c ?? d) || e]. *)
Theorem C59_syntax_refuted : exists o type_of x l r ts,
  stands [FBinL Or x] (Bin Or l r) /\ listen_binary o type_of [FBinL Or x] Or l r = Some ts /\ forall e, writable e -> text e <> ts.
Proof.
  exists defaults, maybe, (Id (b "e")), (Bin Or va (Bin And vb vc)), vd, [TUnit va; TOp Or; TOpen; TUnit vb; TOp And; TUnit vc; TOp Coal; TUnit vd; TClose].
  split; [unfold stands; cbn; intuition auto|]. split; [reflexivity|]. intros e W E.
  destruct (paren_inside e W [TUnit va; TOp Or] [TUnit vb; TOp And; TUnit vc; TOp Coal; TUnit vd] [] E) as (x & WX & T).
  - split; [reflexivity|]. intros p q H. repeat (destruct p as [|? p]; [cbn; lia|]; cbn [app] in H; injection H as <- H). destruct p; [cbn; lia|discriminate].
  - apply (top_mixed x WX).
    + apply (top_in x [TUnit vb; TOp And; TUnit vc] Coal [TUnit vd]); [exact T|reflexivity].
    + apply (top_in x [TUnit vb] And [TUnit vc; TOp Coal; TUnit vd]); [exact T|reflexivity].
Qed.
Print Assumptions C59_syntax_refuted.
(** Tests that compare something with itself are taken for tests for null or undefined: [a !== a && a !== null ? a : b]. *)
Theorem C59_honest_refuted : exists o type_of c t f lhs rhs s, check_ternary o type_of [] c t f = Some (lhs, rhs) /\ tame (Cond c t f) /\ clear_type (type_of lhs)
  /\ (forall v s', eval lhs s = (Val v, s') -> inhabits (type_of lhs) v) /\ fst (eval (Cond c t f) s) = Val (Object 2) /\ fst (eval (Bin Coal lhs rhs) s) = Val (String_ (b "x")).
Proof.
  exists defaults, (fun _ => [[TString]; [TNull]]), (Bin And (Bin Ne3 va va) (Bin Ne3 va Null)), va, vb, va, vb, (with_ (String_ (b "x")) (Object 2) Nul Nul).
  split; [vm_compute; reflexivity|]. split; [unfold stands; cbn; intuition auto|]. split; [|split; [|split; vm_compute; reflexivity]].
  - intros part [<-|[<-|[]]]; [|now left]. right; right; right; right. exists TString. split; [now left|now left].
  - intros v s' H. vm_compute in H. injection H as <- _. exists [TString]. split; [now left|]. repeat constructor. now exists (b "x").
Qed.
Print Assumptions C59_honest_refuted.
(** Types that hide undefined: [a !== null ? a : b] with [a] of type [T | null] or [void | null]. *)
Theorem C59_hidden_refuted : forall hidden, hidden = TParam \/ hidden = TVoid ->
  exists o type_of c t f lhs rhs s, (forall e, type_of e = [[hidden]; [TNull]]) /\ check_ternary o type_of [] c t f = Some (lhs, rhs) /\ honest c /\ tame (Cond c t f)
  /\ (forall v s', eval lhs s = (Val v, s') -> inhabits (type_of lhs) v) /\ fst (eval (Cond c t f) s) = Val Undef /\ fst (eval (Bin Coal lhs rhs) s) = Val (Object 2).
Proof.
  intros hidden H. exists defaults, (fun _ => [[hidden]; [TNull]]), (Bin Ne3 va Null), va, vb, va, vb, (with_ Undef (Object 2) Nul Nul).
  split; [reflexivity|]. split; [destruct H as [-> | ->]; vm_compute; reflexivity|]. split; [intros k k1 l1 r1 k2 l2 r2 E; discriminate|]. split; [unfold stands; cbn; intuition auto|].
  split; [|split; vm_compute; reflexivity]. intros v s' E. vm_compute in E. injection E as <- _. exists [hidden]. split; [now left|]. destruct H as [-> | ->]; repeat constructor.
Qed.
Print Assumptions C59_hidden_refuted.
(** Compound assignments are taken for assignments: [if (a == null) a += b] becomes [a ??= b]. *)
Theorem C59_compound_refuted : exists o type_of test e lhs rhs s s1 s2, check_if o type_of test (Single e) false = Some (lhs, rhs)
  /\ eval_if test e s = Some s1 /\ eval_statement (Bin (Assign CoalA) lhs rhs) s = Some s2 /\ s1 (b "a") = Nul /\ s2 (b "a") = Object 2.
Proof.
  set (s := with_ Nul (Object 2) Nul Nul).
  exists defaults, maybe, (Bin Eq2 va Null), (Bin (Assign (Comp (b "+="))) va vb), va, vb, s, (set_ s (b "a") Nul), (set_ s (b "a") (Object 2)).
  split; [vm_compute; reflexivity|]. split; [reflexivity|]. split; [reflexivity|]. split; vm_compute; reflexivity.
Qed.
Print Assumptions C59_compound_refuted.
(** Optional chains in the test are taken for the access without: [if (a?.b === null) a.b = c] does nothing if [a] is undefined, [a.b ??= c] throws. *)
Theorem C59_chain_refuted : exists o type_of test e l lhs rhs s, check_if o type_of test (Single e) false = Some (lhs, rhs) /\ bare e = Bin (Assign Plain) l rhs
  /\ honest test /\ tame test /\ tame l /\ no_chain l /\ clear_type (type_of l) /\ (forall v s1, eval l s = (Val v, s1) -> inhabits (type_of l) v)
  /\ eval_if test e s = Some s /\ eval_statement (Bin (Assign CoalA) lhs rhs) s = None.
Proof.
  set (ab := Dot va false (b "b") false).
  exists defaults, (fun _ => [[TString]; [TNull]]), (Bin Eq3 (Dot va false (b "b") true) Null), (Bin (Assign Plain) ab vc), ab, ab, vc, (with_ Undef Nul Nul Nul).
  split; [vm_compute; reflexivity|]. split; [reflexivity|]. split; [intros k k1 l1 r1 k2 l2 r2 E; discriminate|].
  assert (N : forall s, b "b" <> b "#" ++ s) by (intros s; discriminate). split; [cbn [tame va]; intuition eauto|]. split; [cbn [tame ab va]; intuition eauto|]. split; [cbn; auto|]. split.
  - intros part [<-|[<-|[]]]; [|now left]. right; right; right; right. exists TString. split; [now left|now left].
  - split; [intros v s1 E; vm_compute in E; discriminate|]. split; vm_compute; reflexivity.
Qed.
Print Assumptions C59_chain_refuted.
(** [a.#x] and [a['#x']] are taken for the same. *)
Theorem C59_private_refuted : exists a c, similar a c = true /\ ~ exists f, reads a f /\ reads c f.
Proof.
  exists (Dot va true (b "x") false), (Elem va (Str (b "#x")) false). split; [reflexivity|]. intros (f & A & C). inversion A; subst. inversion C; subst.
Qed.
Print Assumptions C59_private_refuted.
(** [{} | null] is eligible with all primitives ignored, and 0 is of that type. *)
Theorem C59_shape_refuted : exists t v, type_due all_ignored t /\ clear_type t /\ inhabits t v /\ falsy_only v.
Proof.
  exists [[TShape]; [TNull]], (Number 0). split; [|split; [|split]].
  - split; [right; right; left; right; now left|]. intros _. split; [discriminate|]. split; [discriminate|]. intros part a [<-|[<-|[]]] [<-|[]] [[H _]|[[H _]|[[H _]|[H _]]]]; discriminate.
  - intros part [<-|[<-|[]]]; [|now left]. right; right; right; right. exists TShape. split; [now left|tauto].
  - exists [TShape]. split; [now left|]. repeat constructor. intros [H|H]; discriminate.
  - split; [reflexivity|]. intros [H|H]; discriminate.
Qed.
Print Assumptions C59_shape_refuted.
(** With the default options strings are not ignored: [a || b] is reported for [a] of type [string | null], and changes for [""]. *)
Theorem C59_falsy_refuted : exists o type_of l r s v, o = defaults /\ listen_binary o type_of [] Or l r = Some (text (Bin Coal l r)) /\ clear_type (type_of l)
  /\ eval l s = (Val v, s) /\ inhabits (type_of l) v /\ fst (eval (Bin Or l r) s) = Val (Object 2) /\ fst (eval (Bin Coal l r) s) = Val (String_ []).
Proof.
  exists defaults, maybe, va, vb, (with_ (String_ []) (Object 2) Nul Nul), (String_ []). split; [reflexivity|]. split; [vm_compute; reflexivity|]. split; [|split; [vm_compute; reflexivity|split; [|split; vm_compute; reflexivity]]].
  - intros part [<-|[<-|[<-|[]]]]; [|now left|right; now left]. right; right; right; right. exists TString. split; [now left|now left].
  - exists [TString]. split; [now left|]. repeat constructor. now exists [].
Qed.
Print Assumptions C59_falsy_refuted.
