From Coq Require Import Bool Arith Ascii String List Lia Sorted Permutation.
From Verif Require Import Base TypeParameters TypeParametersSpec.
From Verif Require Import ParameterUses ParameterUsesSpec ParameterUsesProofs.
Import ListNotations.
Open Scope nat_scope.

(** The references are the ranges of all identifiers in types with the symbol, each once, in the order of their positions. *)
Theorem C108_references : forall target declaration t,
  (exists l, ranges target declaration (nodes false t) l /\ Permutation (references target declaration t) l) /\ StronglySorted (fun x y => fst x <= fst y) (references target declaration t).
Proof.
  intros a d t. split; [|apply sort_sorted]. exists (collect a d false t). split; [apply collect_ranges|apply sort_perm].
Qed.
Print Assumptions C108_references.
(** Where the body starts. *)
Theorem C108_body : forall s n, start_of_body s = Some n <->
  s = S_class n \/ (exists e, s = S_function (Some n) e) \/ s = S_function None (Some n) \/ (exists e, s = S_arrow (Some (n, false)) e) \/ s = S_arrow None (Some n) \/ s = S_signature (Some n).
Proof.
  intros s n. split.
  - destruct s as [m|[p|] e|[[p []]|] e|e]; cbn [start_of_body]; intros H; try discriminate; try (injection H as ->); try subst e; eauto 10.
  - intros [H|[[e H]|[H|[[e H]|[H|H]]]]]; subst s; reflexivity.
Qed.
Print Assumptions C108_body.
(** A type parameter is reported exactly if the signature refers to it at most once from outside of it and before the body, and its count is there and at most two; what is reported. *)
Theorem C108_reports : forall s t descriptor ps counts r, 
  let targets := map (fun c => snd (fst c)) (candidates s t ps) in
  In r (check s t descriptor ps counts) <->
  exists p x n, In p ps /\ psymbol p = Some x /\ ~ twice p x (start_of_body s) t /\ counts targets x = Some n /\ n <= 2 /\
    at_ r = prange p /\ message r = b "Type parameter " ++ name p ++ b " is " ++ (if Nat.eqb n 1 then b "never used" else b "used only once") ++ b " in the " ++ descriptor ++ b " signature." /\
    label r = b "This is the only usage of type parameter " ++ name p ++ b " in the signature." /\
    replaced r = references x (name_node p) t /\ label_at r = hd (name_range p) (replaced r) /\
    replacement r = match bound p with Some (C_type c) => c | Some C_any | None => b "unknown" end.
Proof.
  intros s t descriptor ps counts r targets. unfold check. cbv zeta. fold targets. rewrite in_flat_map. split.
  - intros [c [C H]]. apply candidate_iff in C as [p [x [I [X [T ->]]]]]. destruct (counts targets x) as [n|] eqn:N; [|destruct H]. destruct (Nat.ltb 2 n) eqn:L; [destruct H|]. apply Nat.ltb_ge in L. destruct H as [<-|[]].
    exists p, x, n. cbn [at_ message label replaced label_at replacement]. repeat (split; [first [assumption|reflexivity]|]). unfold constraint_text. destruct (bound p) as [[|c]|]; reflexivity.
  - intros [p [x [n [I [X [T [N [L [E1 [E2 [E3 [E4 [E5 E6]]]]]]]]]]]]]. exists (p, x, references x (name_node p) t). split; [apply candidate_iff; exists p, x; auto|]. rewrite N. replace (Nat.ltb 2 n) with false by (symmetry; apply Nat.ltb_ge; exact L).
    left. destruct r as [r1 r2 r3 r4 r5 r6]. cbn [at_ message label replaced label_at replacement] in *. subst r5. subst r1 r2 r4. f_equal; auto.
Qed.
Print Assumptions C108_reports.
(** The label is at the first reference, wherever it is. *)
Theorem C108_label : forall x d t r l, references x d t = r :: l -> (exists y, In y (nodes false t) /\ refers x d y /\ range_of y = r) /\ forall y, In y (nodes false t) -> refers x d y -> fst r <= fst (range_of y).
Proof.
  intros x d t r l E. split; [apply references_in; rewrite E; left; reflexivity|]. intros y Y R. assert (I : In (range_of y) (references x d t)) by (apply references_in; eauto). rewrite E in I. destruct I as [<-|I]; [lia|].
  pose proof (sort_sorted (collect x d false t)) as H. unfold references in E. rewrite E in H. inversion H as [|r' l' Hs Hf]; subst. rewrite Forall_forall in Hf. apply Hf. exact I.
Qed.
Print Assumptions C108_label.
(** Each type parameter is reported at most once, in order. *)
Theorem C108_order : forall s t descriptor ps counts, exists qs, (exists keep, qs = filter keep ps) /\ map at_ (check s t descriptor ps counts) = map prange qs.
Proof.
  intros s t descriptor ps counts. unfold check. cbv zeta. generalize (map (fun c => snd (fst c)) (candidates s t ps)). intros targets.
  exists (filter (fun p => match psymbol p with None => false | Some x => negb (repeated (prange p) (references x (name_node p) t) (start_of_body s)) && match counts targets x with Some n => negb (Nat.ltb 2 n) | None => false end end) ps).
  split; [eexists; reflexivity|]. unfold candidates. induction ps as [|p ps IH]; [reflexivity|]. cbn [flat_map filter]. destruct (psymbol p) as [x|]; [|exact IH]. cbv zeta. destruct (repeated (prange p) (references x (name_node p) t) (start_of_body s)); cbn [negb andb app]; [exact IH|].
  cbn [flat_map]. destruct (counts targets x) as [n|]; [|exact IH]. destruct (Nat.ltb 2 n); cbn [negb app]; [exact IH|]. cbn [map at_]. f_equal. exact IH.
Qed.
Print Assumptions C108_order.

Definition T1 : parameter := {| prange := (1, 2); psymbol := Some 5; name_node := 1; name_range := (1, 2); name := b "T"; bound := None |}.
Definition type_ref (n p : nat) : tree := Tree n Type_node None (p, p + 1) [Tree (n + 1) Identifier (Some 5) (p, p + 1) []].
(** The label calls the name of a type parameter that is never used its only usage. *)
Theorem C108_unused_refuted : exists s t ps counts r, check s t (b "function") ps counts = [r] /\ (forall y, In y (nodes false t) -> ~ refers 5 1 y) /\ message r = b "Type parameter T is never used in the function signature." /\
  label r = b "This is the only usage of type parameter T in the signature." /\ label_at r = (1, 2).
Proof.
  exists (S_function (Some 9) None), (Tree 0 Other_kind None (0, 20) [Tree 2 Other_kind None (1, 2) [Tree 1 Identifier (Some 5) (1, 2) []]]), [T1], (fun _ _ => Some 1). eexists. split; [reflexivity|]. split; [|repeat split].
  cbn [nodes flat_map app]. intros y [<-|[<-|[<-|[]]]] [A _]; discriminate.
Qed.
Print Assumptions C108_unused_refuted.
(** A function as body of an arrow function is no body, but in parentheses it is: then its references do not count before. *)
Theorem C108_parenthesized_refuted : exists t p, check (S_arrow (Some (3, true)) None) t (b "function") [p] (fun _ _ => Some 2) = [] /\ check (S_arrow (Some (3, false)) None) t (b "function") [p] (fun _ _ => Some 2) <> [].
Proof. exists (Tree 0 Other_kind None (0, 20) [type_ref 10 6; type_ref 20 8]), T1. split; [reflexivity|discriminate]. Qed.
Print Assumptions C108_parenthesized_refuted.

Example C108_example :
  let t := Tree 0 Other_kind None (0, 40) [Tree 2 Other_kind None (1, 2) [Tree 1 Identifier (Some 5) (1, 2) []]; Tree 3 Other_kind (Some 5) (20, 30) [type_ref 10 24; Tree 9 Identifier (Some 5) (28, 29) []]; type_ref 20 8] in
  references 5 1 t = [(8, 9); (24, 25)]
  /\ check (S_function (Some 15) (Some 12)) t (b "function") [T1] (fun _ _ => Some 2) =
     [{| at_ := (1, 2); message := b "Type parameter T is used only once in the function signature."; label_at := (8, 9); label := b "This is the only usage of type parameter T in the signature."; replaced := [(8, 9); (24, 25)]; replacement := b "unknown" |}]
  /\ check (S_signature None) t (b "function") [T1] (fun _ _ => Some 2) = [] /\ check (S_class 15) t (b "class") [T1] (fun _ _ => Some 3) = [].
Proof. vm_compute. repeat split. Qed.
