(** C56: private members of classes that are never assigned are reported, and only those (prefer-readonly; Readonly.v, ReadonlySpec.v).

    The claim in full is that a member is reported exactly when nothing but the constructor writes it.  That is false: C56_sound and C56_complete
    say for which ways of writing it holds, the refutations show what is missed and what is taken for writing. *)
From Coq Require Import String Ascii Bool List ZArith Lia.
From Verif Require Import Base EngineProofs Readonly ReadonlySpec ReadonlyProofs.
Import ListNotations.
Open Scope Z_scope.

Section Exact.
Variable oil : bool.
Variables (types : Z -> info) (fuel : nat) (type_at : path -> ty) (symbol_of : path -> option Z).
Notation run' := (run oil types fuel type_at symbol_of).
Notation sane' := (sane types fuel type_at symbol_of).
Notation modified' := (modified types type_at symbol_of).
Notation expected' := (expected oil types type_at symbol_of).
Notation reports' := (own_reports oil types fuel type_at symbol_of).

Lemma modified_has root q ms d : formed root -> sane' root -> at_ root q (Node Class ms) ->
  let s := scope_of oil types fuel type_at symbol_of q ms in
  (if d_static d then has (d_name d) (sc_static_modified s) else has (d_name d) (sc_modified s)) = true <-> modified' root q d.
Proof.
  intros W S A s. destruct (class_modified oil types fuel type_at symbol_of root q ms (d_name d) W S A) as (M & _ & T).
  unfold modified. destruct (d_static d); rewrite has_in; assumption.
Qed.
Lemma own_expected root q ms r : formed root -> sane' root -> at_ root q (Node Class ms) -> (In r (reports' (q, ms)) <-> expected' root q ms r).
Proof.
  intros W S A. unfold own_reports, reports. cbn [fst snd]. set (s := scope_of oil types fuel type_at symbol_of q ms).
  assert (IN : forall d, In d (filter (fun d => negb (has (d_name d) (sc_modified s))) (sc_members s) ++
                     filter (fun d => negb (has (d_name d) (sc_static_modified s))) (sc_statics s)) <-> latest oil (declared ms) d /\ ~ modified' root q d).
  { intros d. destruct (scope_members oil types fuel type_at symbol_of root q ms W A) as [E1 E2]. fold s in E1, E2. rewrite E1, E2.
    rewrite in_app_iff, !filter_In, !grow_in. pose proof (modified_has root q ms d W S A) as M. cbn zeta in M. fold s in M. rewrite <- M.
    destruct (d_static d); rewrite !negb_true_iff.
    - destruct (has (d_name d) (sc_static_modified s)); intuition congruence.
    - destruct (has (d_name d) (sc_modified s)); intuition congruence. }
  assert (AF : forall d x, r_after (report_of s d) = Some x <-> exists t, annotated types type_at symbol_of root q d t /\ x = b ": " ++ t).
  { intros d x. destruct (class_modified oil types fuel type_at symbol_of root q ms (d_name d) W S A) as (_ & C & _). fold s in C.
    unfold report_of, annotated, constructed. cbn [r_after]. rewrite <- has_in in C.
    destruct (d_property d && negb (d_typed d) && d_init d && d_identifier d && has (d_name d) (sc_constructed s)) eqn:G.
    - rewrite !andb_true_iff, negb_true_iff in G. destruct G as ((((G1 & G2) & G3) & G4) & G5). apply C in G5. destruct (d_wider d) as [t|].
      + split; [intros [= <-]; exists t; auto 10|]. intros (t' & (_ & _ & _ & _ & _ & [= ->]) & ->). reflexivity.
      + split; [discriminate|]. intros (t & (_ & _ & _ & _ & _ & Q) & _). discriminate.
    - split; [discriminate|]. intros (t & (G1 & G2 & G3 & G4 & G5 & _) & _). apply C in G5. rewrite G1, G2, G3, G4, G5 in G. discriminate. }
  rewrite in_map_iff. split.
  - intros (d & <- & I). apply IN in I. destruct I as [I1 I2]. unfold expected. cbn [r_decl r_text r_help r_before report_of].
    repeat (split; [assumption || reflexivity|]). apply AF.
  - intros (L & N & T & H & B & F). exists (r_decl r). split; [|apply IN; auto].
    destruct r as [d te he be af]. cbn [r_decl r_text r_help r_before r_after] in *.
    assert (Q : r_after (report_of s d) = af).
    { destruct af as [x|].
      - apply AF, F. reflexivity.
      - destruct (r_after (report_of s d)) as [x|] eqn:E; [|reflexivity]. apply AF, F in E. discriminate. }
    unfold report_of in *. cbn [r_after] in Q. rewrite Q. now subst.
Qed.
Lemma nodup_names f l : NoDup (map d_name l) -> NoDup (map d_name (filter f l)).
Proof.
  induction l as [|x l IH]; intros N; [constructor|]. cbn [map] in N. inversion N as [|? ? N1 N2]; subst. cbn [filter]. destruct (f x); [|auto].
  cbn [map]. constructor; [|auto]. intros I. apply N1. apply in_map_iff in I. destruct I as (y & <- & I). apply filter_In in I. now apply in_map.
Qed.
End Exact.

(** The reports are those of the classes, an outer class before those in it; the reports of a class are what is expected, once each, statics after the
    other members. *)
Theorem C56_exact : forall oil types fuel type_at symbol_of root,
  formed root -> sane types fuel type_at symbol_of root ->
  exists f, run oil types fuel type_at symbol_of root = flat_map f (classes [] root) /\
    (forall q ms, In (q, ms) (classes [] root) <-> at_ root q (Node Class ms)) /\
    forall q ms, at_ root q (Node Class ms) ->
      (forall r, In r (f (q, ms)) <-> expected oil types type_at symbol_of root q ms r) /\
      exists members statics, f (q, ms) = members ++ statics /\
        Forall (fun r => d_static (r_decl r) = false) members /\ NoDup (map (fun r => d_name (r_decl r)) members) /\
        Forall (fun r => d_static (r_decl r) = true) statics /\ NoDup (map (fun r => d_name (r_decl r)) statics).
Proof.
  intros oil types fuel type_at symbol_of root W S. exists (own_reports oil types fuel type_at symbol_of). split; [now apply run_eq|]. split.
  { intros q ms. rewrite classes_in. split; [intros (above & -> & A); now rewrite app_nil_r|]. intros A. exists q. now rewrite app_nil_r. }
  intros q ms A. split; [intros r; now apply own_expected|]. unfold own_reports, reports. cbn [fst snd]. rewrite map_app. eexists _, _. split; [reflexivity|].
  destruct (scope_members oil types fuel type_at symbol_of root q ms W A) as [E1 E2]. rewrite E1, E2, !Forall_map, !map_map. cbn [r_decl report_of].
  assert (G : forall st f, Forall (fun d => d_static d = st) (filter f (grow oil st (declared ms) []))).
  { intros st f. apply Forall_forall. intros d I. apply filter_In in I. destruct I as [I _]. apply grow_in in I. tauto. }
  assert (D : forall st f, NoDup (map d_name (filter f (grow oil st (declared ms) [])))).
  { intros st f. apply nodup_names, grow_names. constructor. }
  auto.
Qed.
Print Assumptions C56_exact.
(** When no name is declared twice, the reports of a class are in the order of the declarations: properties, then parameters of constructors. *)
Theorem C56_sequence : forall oil types fuel type_at symbol_of root,
  formed root -> sane types fuel type_at symbol_of root ->
  exists f, run oil types fuel type_at symbol_of root = flat_map f (classes [] root) /\
    forall q ms, at_ root q (Node Class ms) -> NoDup (map d_name (declared ms)) ->
      exists keep, (forall d, In d (declared ms) -> (keep d = true <-> open oil d /\ ~ modified types type_at symbol_of root q d)) /\
        map r_decl (f (q, ms)) = filter keep (filter (fun d => negb (d_static d)) (declared ms)) ++ filter keep (filter d_static (declared ms)).
Proof.
  intros oil types fuel type_at symbol_of root W S. exists (own_reports oil types fuel type_at symbol_of). split; [now apply run_eq|].
  intros q ms A ND. set (s := scope_of oil types fuel type_at symbol_of q ms).
  exists (fun d => modifiable oil d && negb (if d_static d then has (d_name d) (sc_static_modified s) else has (d_name d) (sc_modified s))). split.
  { intros d _. pose proof (modified_has oil types fuel type_at symbol_of root q ms d W S A) as M. cbn zeta in M. fold s in M.
    rewrite andb_true_iff, modifiable_open, negb_true_iff, <- M. now rewrite not_true_iff_false. }
  unfold own_reports, reports. cbn [fst snd]. fold s. rewrite map_map, map_id.
  destruct (scope_members oil types fuel type_at symbol_of root q ms W A) as [E1 E2]. fold s in E1, E2. rewrite E1, E2.
  assert (G : forall st, grow oil st (declared ms) [] = filter (fun d => modifiable oil d && Bool.eqb (d_static d) st) (declared ms)).
  { intros st. apply (grow_filter oil st (declared ms) []). cbn [map app]. now apply nodup_names. }
  rewrite !G. clear E1 E2 G. f_equal.
  - induction (declared ms) as [|d l IH]; [reflexivity|]. cbn [map] in ND. inversion ND; subst. cbn [filter]. destruct (d_static d) eqn:ST; cbn [negb Bool.eqb]; [rewrite andb_false_r; auto|].
    rewrite andb_true_r. cbn [filter]. rewrite ST. destruct (modifiable oil d); cbn [andb filter]; [|auto]. destruct (negb (has (d_name d) (sc_modified s))); [f_equal|]; auto.
  - induction (declared ms) as [|d l IH]; [reflexivity|]. cbn [map] in ND. inversion ND; subst. cbn [filter]. destruct (d_static d) eqn:ST; cbn [negb Bool.eqb]; [|rewrite andb_false_r; auto].
    rewrite andb_true_r. cbn [filter]. rewrite ST. destruct (modifiable oil d); cbn [andb filter]; [|auto]. destruct (negb (has (d_name d) (sc_static_modified s))); [f_equal|]; auto.
Qed.
Print Assumptions C56_sequence.

Section Corollaries.
Variable oil : bool.
Variables (types : Z -> info) (fuel : nat) (type_at : path -> ty) (symbol_of : path -> option Z).
Notation run' := (run oil types fuel type_at symbol_of).
Notation sane' := (sane types fuel type_at symbol_of).
Lemma run_in root r : formed root -> sane' root -> (In r (run' root) <-> exists q ms, at_ root q (Node Class ms) /\ expected oil types type_at symbol_of root q ms r).
Proof.
  intros W S. rewrite run_eq by exact W. rewrite in_flat_map. split.
  - intros ([q ms] & I & J). apply classes_in in I. destruct I as (above & -> & A). rewrite app_nil_r in *. exists above, ms. split; [exact A|]. now apply (own_expected oil types fuel type_at symbol_of root above ms r W S A).
  - intros (q & ms & A & E). exists (q, ms). split; [apply classes_in; exists q; now rewrite app_nil_r|]. now apply (own_expected oil types fuel type_at symbol_of root q ms r W S A).
Qed.
End Corollaries.

(** What is recognized is a way of writing, and a reported member is nowhere in its class written in such a way except on an instance directly in the
    constructor.  (In full: in no way.  See C56_writes_refuted, C56_nested_refuted, C56_other_refuted.) *)
Theorem C56_sound : forall oil types fuel type_at symbol_of root, formed root -> sane types fuel type_at symbol_of root ->
  (forall p, recognized p -> target p) /\
  forall r, In r (run oil types fuel type_at symbol_of root) -> exists q ms, at_ root q (Node Class ms) /\ In (r_decl r) (declared ms) /\ open oil (r_decl r) /\
    forall p cs s, at_ root p (Node (Access (d_name (r_decl r))) cs) -> own q p -> recognized p -> symbol_of q = Some s ->
      if d_static (r_decl r) then ~ class_of types s (type_at p)
      else instance_of types s (type_at p) -> ~ class_of types s (type_at p) /\ directly q p.
Proof.
  intros oil types fuel type_at symbol_of root W S. split; [exact recognized_target|]. intros r I. apply run_in in I; [|assumption|assumption].
  destruct I as (q & ms & A & L & N & _). exists q, ms. destruct L as (l1 & l2 & E & O & _). split; [exact A|]. split; [rewrite E; apply in_or_app; right; now left|].
  split; [exact O|]. intros p cs s B OW R SY. apply recognized_counted in R. unfold modified in N. destruct (d_static (r_decl r)).
  - intros C. apply N. exists p, cs, s. unfold any, yes. tauto.
  - intros INS. assert (NC : ~ class_of types s (type_at p)) by (intros C; apply N; right; exists p, cs, s; unfold any, yes; tauto). split; [exact NC|].
    destruct (Z.eq_dec (depth p) 0) as [D|D]; [now apply (own_depth root q p _ W B OW)|]. elim N. left. exists p, cs, s. unfold any, yes, no.
    rewrite <- (own_depth root q p _ W B OW). tauto.
Qed.
Print Assumptions C56_sound.
(** The last private declaration of a name is reported when no access in the class has a place that counts. *)
Theorem C56_complete : forall oil types fuel type_at symbol_of root q ms d, formed root -> sane types fuel type_at symbol_of root ->
  at_ root q (Node Class ms) -> latest oil (declared ms) d ->
  (forall p cs, at_ root p (Node (Access (d_name d)) cs) -> own q p -> counted p ->
     forall s, symbol_of q = Some s ->
     if d_static d then ~ class_of types s (type_at p)
     else ~ instance_of types s (type_at p) \/ (~ class_of types s (type_at p) /\ directly q p)) ->
  exists r, In r (run oil types fuel type_at symbol_of root) /\ r_decl r = d /\ r_text r = b "Member '" ++ d_text d ++ b "' is never reassigned.".
Proof.
  intros oil types fuel type_at symbol_of root q ms d W S A L H.
  set (s := scope_of oil types fuel type_at symbol_of q ms). exists (report_of s d). split; [|split; reflexivity].
  rewrite run_eq by exact W. apply in_flat_map. exists (q, ms). split; [apply classes_in; exists q; now rewrite app_nil_r|].
  unfold own_reports. cbn [fst snd]. fold s. apply in_map.
  assert (N : ~ modified types type_at symbol_of root q d).
  { unfold modified. destruct (d_static d).
    - intros (p & cs & y & B & O & C & E & _ & K & _). now apply (H p cs B O C y E).
    - intros [(p & cs & y & B & O & C & E & I & _ & D)|(p & cs & y & B & O & C & E & I & K & _)]; unfold yes, no in *; destruct (H p cs B O C y E); tauto. }
  pose proof (modified_has oil types fuel type_at symbol_of root q ms d W S A) as M. cbn zeta in M. fold s in M.
  destruct (scope_members oil types fuel type_at symbol_of root q ms W A) as [E1 E2]. fold s in E1, E2. rewrite in_app_iff, !filter_In, E1, E2, !grow_in, !negb_true_iff.
  destruct (d_static d) eqn:ST; [right|left]; (split; [auto|]); apply not_true_iff_false; tauto.
Qed.
Print Assumptions C56_complete.
(** Which accesses count. *)
Theorem C56_counted : forall p, (modifies p = true <-> counted p) /\ (recognized p -> counted p).
Proof. intros p. split; [apply modifies_counted|apply recognized_counted]. Qed.
Print Assumptions C56_counted.
(** The relation of a type to the class. *)
Theorem C56_relation : forall types fuel s t, regular types s t -> (forall id, part_of id t -> enough types fuel id) ->
  means (relate types fuel (Some s) t) (instance_of types s t) (class_of types s t).
Proof. intros. now apply relate_means. Qed.
Print Assumptions C56_relation.
(** The search for a type among the bases ends, also when they go round in circles. *)
Theorem C56_search : forall types fuel s id, enough types fuel id ->
  (exists r, search types fuel s [id] [] = Some r) /\ (has_base types fuel id (Some s) = true <-> derives types s id).
Proof.
  intros types fuel s id E. split; [|now apply has_base_spec]. destruct E as (u & I & ND & CL & FU).
  destruct (search_spec types s u ND) with (fuel := fuel) (stack := [id]) (seen := @nil Z) as (r & E & _).
  - intros t x J K. unfold next in K. destruct (i_class (types t)) eqn:C; [|easy]. eapply CL; eassumption.
  - intros t [<-|[]]. exact I.
  - easy.
  - cbn [List.length]. assert (Q : todo types [] u = list_sum (map (fun t => List.length (i_bases (types t))) u)) by reflexivity. lia.
  - now exists r.
Qed.
Print Assumptions C56_search.

(** ** Examples *)
(** All nodes with their places. *)
Fixpoint places (p : path) (n : node) : list (path * node) :=
  let 'Node k cs := n in
  (p, n) :: (fix all (i : nat) (l : list node) : list (path * node) := match l with [] => [] | c :: l => places ((k, i) :: p) c ++ all (S i) l end) 0%nat cs.
Lemma places_eq p k cs : places p (Node k cs) = (p, Node k cs) :: over places k p 0 cs.
Proof. cbn [places]. f_equal. generalize 0%nat. induction cs as [|c cs IH]; intros i; cbn [over]; [reflexivity|]. f_equal. apply IH. Qed.
Lemma places_in n : forall p q m, In (q, m) (places p n) <-> exists above, q = above ++ p /\ at_ n above m.
Proof.
  revert n. refine (node_all _ _). intros k cs IH p q m. rewrite Forall_forall in IH. rewrite places_eq. cbn [In]. rewrite over_in. split.
  - intros [[= <- <-]|(j & c & N & I)].
    + exists []. split; [reflexivity|constructor].
    + apply (IH c (nth_error_In _ _ N)) in I. destruct I as (above & -> & A). exists (above ++ [(k, j)]). split; [now rewrite <- app_assoc|].
      apply at_top. right. exists j, c, above. auto.
  - intros (above & -> & A). apply at_top in A. destruct A as [[-> ->]|(i & c & rest & N & A & ->)].
    + now left.
    + right. exists i, c. split; [exact N|]. apply (IH c (nth_error_In _ _ N)). exists rest. split; [now rewrite <- app_assoc|exact A].
Qed.
Lemma places_at root p n : In (p, n) (places [] root) <-> at_ root p n.
Proof. rewrite places_in. split; [intros (above & -> & A); now rewrite app_nil_r|]. intros A. exists p. now rewrite app_nil_r. Qed.
Lemma fine_formed root : fine [] root -> formed root.
Proof. intros F p ps cs A. pose proof (fine_at _ _ _ F A) as Q. rewrite fine_eq in Q. tauto. Qed.

(** 0: instances of the class [A]; 1: of [B extends A]; 2: [typeof B]; 3: [typeof A]; 4: a type parameter of a method, [T extends A]. *)
Definition world (t : Z) : info :=
  if t =? 0 then Info (Some 0) false true [] else if t =? 1 then Info (Some 1) false true [0] else if t =? 2 then Info (Some 1) true false []
  else if t =? 3 then Info (Some 0) true false [] else if t =? 4 then Info (Some 4) false false [] else Info None false false [].
Definition of_a (q : path) : option Z := match q with [] => Some 0 | _ => Some 7 end.
Lemma world_enough t : 0 <= t <= 4 -> enough world 10 t.
Proof.
  intros R. exists [0; 1; 2; 3; 4]. split; [assert (t = 0 \/ t = 1 \/ t = 2 \/ t = 3 \/ t = 4) as C by lia; decompose [or] C; subst; cbn; auto 10|].
  split; [repeat constructor; cbn; intuition discriminate|]. split; [|cbn; lia].
  intros x y I _ J. cbn in I. decompose [or] I; subst; cbn in J; intuition (subst; cbn; auto).
Qed.
Lemma world_sane (f : path -> Z) sym root : (forall p, 0 <= f p <= 4) -> sane world 10 (fun p => Leaf (f p)) sym root.
Proof. intros R q s p n cs _ _. split; [constructor|]. intros id P. inversion P; subst. apply world_enough, R. Qed.
Definition field (static : bool) : decl := Decl true false static false false false (b "x") (b "x") true false true true (Some (b "number")).
Definition this_x : node := Node (Access (b "x")) [Node This []].
Definition rest : node := Node Other [].
(** [class A { private x = 0; m() { stmt } }], also with a static [x]; and with the statement in the constructor. *)
Definition method (static : bool) (stmt : node) : node := Node Class [Node (Declaration (field static)) [rest]; Node Function [stmt]].
Definition constructor_ (stmt : node) : node := Node Class [Node (Declaration (field false)) [rest]; Node (Constructor []) [stmt]].
Definition x_report (static : bool) (after : option bstr) : report :=
  Report (field static) (b "Member 'x' is never reassigned.") (b "Mark it as `readonly`.") (b "readonly ") after.

(** [this.x = 1] in a method; in the constructor, where the type of [0] is no longer that of [x]; in a function there; reading. *)
Example C56_example :
  let run := run false world 10 (fun _ => Leaf 0) of_a in
  run (method false (Node (Assign true) [this_x; rest])) = [] /\
  run (constructor_ (Node (Assign true) [this_x; rest])) = [x_report false (Some (b ": number"))] /\
  run (constructor_ (Node Function [Node (Assign true) [this_x; rest]])) = [] /\
  run (method false (Node (Assign true) [rest; this_x])) = [x_report false None] /\
  formed (constructor_ (Node Function [Node (Assign true) [this_x; rest]])) /\
  sane world 10 (fun _ => Leaf 0) of_a (constructor_ (Node Function [Node (Assign true) [this_x; rest]])).
Proof.
  cbn zeta. repeat (split; [vm_compute; reflexivity|]). split; [|apply (world_sane (fun _ => 0)); lia].
  apply fine_formed. vm_compute. repeat split; eauto.
Qed.
(** [class A { static #s; private x; m() { return class { private y } }; constructor(private p) { A.#s = 1 } }]. *)
Example C56_order_example :
  let d priv hash static name text := Decl priv hash static false false false (b name) (b text) true false false (negb hash) None in
  let tree := Node Class [Node (Declaration (d false true true "#s" "#s")%string) []; Node (Declaration (d true false false "x" "x")%string) [];
    Node Function [Node Class [Node (Declaration (d true false false "y" "'y'")%string) []]];
    Node (Constructor [d true false false "p" "p"; d false false false "q" "q"]%string) [Node (Assign true) [Node (Access (b "#s")) [rest]; rest]]] in
  map r_text (run false world 10 (fun _ => Leaf 0) of_a tree) =
    [b "Member 'x' is never reassigned."; b "Member 'p' is never reassigned."; b "Member '#s' is never reassigned."; b "Member ''y'' is never reassigned."] /\
  map r_text (run false world 10 (fun _ => Leaf 3) of_a tree) =
    [b "Member 'x' is never reassigned."; b "Member 'p' is never reassigned."; b "Member ''y'' is never reassigned."] /\
  run true world 10 (fun _ => Leaf 0) of_a tree = [].
Proof. cbn zeta. repeat (split; [vm_compute; reflexivity|]). vm_compute. reflexivity. Qed.
(** The forms that are recognized: [this.x ||= 1], [--this.x], [delete this.x], [[[this.x]] = a], [[...this.x] = a], [({ k: this.x } = a)], [({ ...this.x } = a)],
    [(this.x) = 1]. *)
Example C56_forms_example :
  map (fun stmt => run false world 10 (fun _ => Leaf 0) of_a (method false stmt))
    [Node (Assign false) [this_x; rest]; Node Update [this_x]; Node Delete [this_x]; Node (Assign true) [Node Array [Node Array [this_x]]; rest];
     Node (Assign true) [Node Array [Node SpreadElement [this_x]]; rest]; Node (Assign true) [Node Object [Node Property [this_x]]; rest];
     Node (Assign true) [Node Object [Node SpreadAssignment [this_x]]; rest]; Node (Assign true) [Node Wrap [this_x]; rest]] = [[]; []; []; []; []; []; []; []].
Proof. vm_compute. reflexivity. Qed.
(** Types: [B] is an [A] by its base; [A & typeof A] is both; bases that go round in circles. *)
Example C56_relation_example :
  relate world 10 (Some 0) (Leaf 1) = OfInstance /\ relate world 10 (Some 0) (Inter [Leaf 3; Leaf 9; Leaf 0]) = ClassAndInstance /\
  relate world 10 (Some 0) (Union [Leaf 1; Leaf 0]) = OfInstance /\ relate world 10 (Some 1) (Leaf 0) = NoRelation /\
  regular world 0 (Inter [Leaf 3; Leaf 4; Leaf 0]) /\
  search (fun t => Info (Some t) false true [1 - t]) 5 7 [0] [] = Some false.
Proof.
  repeat (split; [vm_compute; reflexivity|]). split; [|vm_compute; reflexivity]. constructor. intros x I. cbn in I.
  assert (L : forall id, regular world 0 (Leaf id) /\ ~ (instance_of world 0 (Leaf id) /\ class_of world 0 (Leaf id))).
  { intros id. split; [constructor|]. intros [A C]. inversion A; inversion C; congruence. }
  decompose [or] I; subst; auto; contradiction.
Qed.

(** ** What is missed *)
Definition missed (types : Z -> info) (type_at : path -> ty) (root : node) (p : path) (r : report) : Prop :=
  formed root /\ sane types 10 type_at of_a root /\ (exists cs, at_ root p (Node (Access (d_name (r_decl r))) cs)) /\ In r (run false types 10 type_at of_a root).
Ltac seen := split; [apply fine_formed; vm_compute; repeat split; eauto|split; [apply (world_sane (fun _ => _)); lia|split; [eexists; apply places_at; vm_compute; auto 20|vm_compute; auto]]].
(** Writes of [this.x] in a method that are not seen: [(this.x)++], [(this.x) += 1], [delete (this.x)], [for (this.x of a)], [({ k: { l: this.x } } = a)],
    [({ k: [this.x] } = a)], [((this.x)) = 1], [for ([this.x] of a)]. *)
Theorem C56_writes_refuted : forall stmt above, In (stmt, above)
    [(Node Update [Node Wrap [this_x]], [(Wrap, 0); (Update, 0)]);
     (Node (Assign false) [Node Wrap [this_x]; rest], [(Wrap, 0); (Assign false, 0)]);
     (Node Delete [Node Wrap [this_x]], [(Wrap, 0); (Delete, 0)]);
     (Node ForTarget [this_x; rest], [(ForTarget, 0)]);
     (Node (Assign true) [Node Object [Node Property [Node Object [Node Property [this_x]]]]; rest], [(Property, 0); (Object, 0); (Property, 0); (Object, 0); (Assign true, 0)]);
     (Node (Assign true) [Node Object [Node Property [Node Array [this_x]]]; rest], [(Array, 0); (Property, 0); (Object, 0); (Assign true, 0)]);
     (Node (Assign true) [Node Wrap [Node Wrap [this_x]]; rest], [(Wrap, 0); (Wrap, 0); (Assign true, 0)]);
     (Node ForTarget [Node Array [this_x]; rest], [(Array, 0); (ForTarget, 0)])]%nat ->
  let p := above ++ [(Function, 0); (Class, 1)]%nat in
  missed world (fun _ => Leaf 0) (method false stmt) p (x_report false None) /\ own [] p /\ target p /\ instance_of world 0 (Leaf 0) /\ ~ directly [] p.
Proof.
  intros stmt above I p. assert (INS : instance_of world 0 (Leaf 0)) by (constructor; [discriminate|reflexivity|constructor; reflexivity]).
  assert (OW : forall l, Forall (fun x => fst x <> Class) l -> own [] (l ++ [(Class, 1%nat)])) by (intros l F; exists l, 1%nat; auto).
  assert (ND : forall l, Forall (fun x => forall ps, fst x <> Constructor ps) l -> ~ directly [] l).
  { intros l F (u & ps & i & j & -> & _). rewrite Forall_forall in F. apply (F (Constructor ps, i)) with ps; [apply in_or_app; right; now left|reflexivity]. }
  cbn [In] in I. decompose [or] I; clear I; try contradiction;
    match goal with H : _ = (stmt, above) |- _ => injection H as <- <- end; subst p; cbn [app];
    (split; [seen|]; split; [match goal with |- own [] ?p => apply (OW (removelast p)); repeat constructor; discriminate end|];
     split; [repeat (constructor; try (now constructor))|]; split; [exact INS|]; apply ND; repeat constructor; discriminate).
Qed.
Print Assumptions C56_writes_refuted.
(** A write in a class inside is not seen by the outer one: [class A { private x = 0; m(a) { class D { n() { a.x = 1 } } } }]. *)
Theorem C56_nested_refuted : exists root p r,
  missed world (fun _ => Leaf 0) root p r /\ recognized p /\ instance_of world 0 (Leaf 0) /\ r_decl r = field false /\
  (exists above, p = above ++ [(Function, 0%nat); (Class, 1%nat)]).
Proof.
  exists (method false (Node Class [Node Function [Node (Assign true) [Node (Access (b "x")) [rest]; rest]]])),
    [(Assign true, 0); (Function, 0); (Class, 0); (Function, 0); (Class, 1)]%nat, (x_report false None).
  split; [seen|]. split; [constructor|]. split; [constructor; [discriminate|reflexivity|constructor; reflexivity]|]. split; [reflexivity|].
  exists [(Assign true, 0); (Function, 0); (Class, 0)]%nat. reflexivity.
Qed.
Print Assumptions C56_nested_refuted.
(** A write of the member of another instance in the constructor counts as one of its own: [constructor(a: A) { a.x = 1 }], where [readonly] is an error. *)
Theorem C56_other_refuted : exists root p r object,
  missed world (fun _ => Leaf 0) root p r /\ recognized p /\ own [] p /\ at_ root p (Node (Access (d_name (r_decl r))) [object]) /\ object <> Node This [].
Proof.
  exists (constructor_ (Node (Assign true) [Node (Access (b "x")) [rest]; rest])), [(Assign true, 0); (Constructor [], 0); (Class, 1)]%nat,
    (x_report false (Some (b ": number"))), rest.
  split; [seen|]. split; [constructor|]. split; [exists [(Assign true, 0); (Constructor [], 0)]%nat, 1%nat; split; [reflexivity|repeat constructor; discriminate]|].
  split; [apply places_at; vm_compute; auto 20|discriminate].
Qed.
Print Assumptions C56_other_refuted.
(** Writes through [typeof B] where [B] extends [A], and through [T extends A], are not those of [A]. *)
Theorem C56_types_refuted :
  (i_bases (world 1) = [0] /\ i_symbol (world 2) = i_symbol (world 1) /\ i_anonymous (world 2) = true /\
   exists p, recognized p /\ own [] p /\ missed world (fun _ => Leaf 2) (method true (Node (Assign true) [Node (Access (b "x")) [rest]; rest])) p (x_report true None)) /\
  (exists p, recognized p /\ own [] p /\ missed world (fun _ => Leaf 4) (method false (Node (Assign true) [Node (Access (b "x")) [rest]; rest])) p (x_report false None)).
Proof.
  split; [split; [reflexivity|]; split; [reflexivity|]; split; [reflexivity|]|];
    exists [(Assign true, 0); (Function, 0); (Class, 1)]%nat; (split; [constructor|]); (split; [exists [(Assign true, 0); (Function, 0)]%nat, 1%nat; split; [reflexivity|repeat constructor; discriminate]|]); seen.
Qed.
Print Assumptions C56_types_refuted.
(** What counts and is none: [this.x[0] = 1], [[this.x.y] = a], [[g[this.x]] = a]: all of these leave [x] as it is, and it is not reported. *)
Theorem C56_counts_refuted : forall stmt above, In (stmt, above)
    [(Node (Assign true) [Node Element [this_x; rest]; rest], [(Element, 0); (Assign true, 0)]);
     (Node (Assign true) [Node Array [Node (Access (b "y")) [this_x]]; rest], [(Access (b "y"), 0); (Array, 0); (Assign true, 0)]);
     (Node (Assign true) [Node Array [Node Element [rest; this_x]]; rest], [(Element, 1); (Array, 0); (Assign true, 0)])]%nat ->
  let p := above ++ [(Function, 0); (Class, 1)]%nat in
  run false world 10 (fun _ => Leaf 0) of_a (method false stmt) = [] /\ at_ (method false stmt) p this_x /\ ~ target p /\
  (forall p', p' <> p -> ~ exists cs, at_ (method false stmt) p' (Node (Access (b "x")) cs)).
Proof.
  intros stmt above I p. cbn [In] in I. decompose [or] I; clear I; try contradiction;
    match goal with H : _ = (stmt, above) |- _ => injection H as <- <- end; subst p; cbn [app];
    (split; [vm_compute; reflexivity|]; split; [apply places_at; vm_compute; auto 20|]; split;
     [intros T; inversion T; subst; match goal with H : piece _ |- _ => inversion H end
     |intros p' N (cs & A); apply places_at in A; cbn [places method this_x rest app] in A; cbn [In] in A;
      decompose [or] A; try contradiction; match goal with H : (_, _) = (_, _) |- _ => injection H; intros; subst; try discriminate; now elim N end]).
Qed.
Print Assumptions C56_counts_refuted.
