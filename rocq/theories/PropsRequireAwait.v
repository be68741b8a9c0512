(** C49: require-await (RequireAwait.v). *)
From Coq Require Import String Ascii Bool List ZArith Lia Sorted.
From Verif Require Import Base EngineProofs Types Fixer FixerSpec FixerProofs FixOne RequireAwait.
Import ListNotations.
Open Scope Z_scope.

(** ** Specification *)
Definition children (n : node) : list node :=
  match n with
  | Function _ head rest => head ++ rest
  | AwaitExpr ch | ForOf _ ch | VarList _ ch | Yield _ _ ch | Return _ ch | Other ch => ch
  end.
(** What waits: [await], [for await], [await using], the return of a promise. *)
Definition waits (n : node) : Prop :=
  match n with AwaitExpr _ => True | ForOf a _ => a = true | VarList a _ => a = true | Return t _ => t = Some true | _ => False end.
(** Types with [Symbol.asyncIterator], as a union or intersection if a part has it. *)
Inductive has_iterator (p : ty -> bool) : ty -> Prop :=
| hi_part t x : In FUnion (t_flags t) \/ In FIntersection (t_flags t) -> In x (t_parts t) -> has_iterator p x -> has_iterator p t
| hi_one t : ~ In FUnion (t_flags t) -> ~ In FIntersection (t_flags t) -> p t = true -> has_iterator p t.
(** A yield that waits: of a promise, or [yield*] of an async iterable; literals need no look. *)
Definition yields_async (p : ty -> bool) (n : node) : Prop :=
  match n with Yield star (Argument thenable t) _ => if star then has_iterator p t else thenable = true | _ => False end.

Lemma node_ind' (P : node -> Prop) : (forall n, Forall P (children n) -> P n) -> forall n, P n.
Proof.
  intros H. fix IH 1. intros n. apply H. destruct n as [f hd rest|ch|a ch|a ch|st a ch|t ch|ch]; cbn [children]; try (induction ch; constructor; auto).
  induction hd as [|x hd IHh]; [induction rest; constructor; auto|constructor; auto].
Qed.
(** The nodes of a tree that are not below a function in it. *)
Fixpoint own1 (n : node) : list node :=
  match n with
  | Function _ _ _ => []
  | AwaitExpr ch | ForOf _ ch | VarList _ ch | Yield _ _ ch | Return _ ch | Other ch => n :: flat_map own1 ch
  end.
(** The functions with their children, in the order in which they end. *)
Fixpoint functions (n : node) : list (function * list node * list node) :=
  match n with
  | Function f head rest => flat_map functions head ++ flat_map functions rest ++ [(f, head, rest)]
  | AwaitExpr ch | ForOf _ ch | VarList _ ch | Yield _ _ ch | Return _ ch | Other ch => flat_map functions ch
  end.
(** An async function that does something and never waits, among the nodes [own]. *)
Definition never_waits (p : ty -> bool) (f : function) (own : list node) : Prop :=
  fn_async f = true /\ fn_body f <> NoBody /\ fn_body f <> Block 0 /\
  (forall n, In n own -> ~ waits n) /\ ~ (fn_arrow f = true /\ fn_body f = ExprBody true) /\
  (fn_generator f = true -> forall n, In n own -> ~ yields_async p n).

Section Rule.
Variable p : ty -> bool.
Notation walk := (walk p).
Notation report := (fun q : function * list node * list node => fn_id (fst (fst q))).
Definition waitsb (n : node) : bool := match n with AwaitExpr _ => true | ForOf a _ => a | VarList a _ => a | Return (Some true) _ => true | _ => false end.
Definition yieldsb (n : node) : bool := match n with Yield star (Argument thenable t) _ => if star then type_recurser p t else thenable | _ => false end.
Lemma waits_spec n : waitsb n = true <-> waits n.
Proof. destruct n as [| |a|a| |[[]|]|]; cbn; intuition (try discriminate; auto). Qed.
Lemma ty_ind' (P : ty -> Prop) : (forall i f x s l, Forall P l -> P (Ty i f x s l)) -> forall t, P t.
Proof. intros H. fix IH 1. intros [i f x s l]. apply H. induction l; constructor; auto. Qed.
Lemma recurser_spec t : type_recurser p t = true <-> has_iterator p t.
Proof.
  induction t as [i f x s l IH] using ty_ind'. cbn [type_recurser t_parts]. set (t := Ty i f x s l) in *.
  assert (FS : is_set t [FUnion; FIntersection] = true <-> In FUnion (t_flags t) \/ In FIntersection (t_flags t)).
  { unfold is_set. rewrite existsb_exists. split.
    - intros (g & I & E). apply existsb_exists in E. destruct E as (h & J & E). unfold flag_eqb in E. destruct (flag_eq_dec g h); [|discriminate]. subst. destruct J as [<-|[<-|[]]]; auto.
    - intros [I|I]; eexists; (split; [exact I|]); reflexivity. }
  destruct (is_set t [FUnion; FIntersection]) eqn:E.
  - pose proof (proj1 FS eq_refl) as U. assert (X : (fix any l0 := match l0 with [] => false | x0 :: l1 => if type_recurser p x0 then true else any l1 end) l = true <-> exists y, In y l /\ has_iterator p y).
    { clear - IH. induction IH as [|y l Y _ IHl]; [split; [discriminate|intros (y & [] & _)]|]. destruct (type_recurser p y) eqn:TY.
      - split; [intros _; exists y; split; [now left|now apply Y]|auto].
      - rewrite IHl. split; [intros (z & I & H); exists z; split; [now right|auto]|]. intros (z & [<-|I] & H); [apply Y in H; congruence|eauto]. }
    rewrite X. split; [intros (y & I & H); eapply hi_part; eauto|]. inversion 1; subst; [eauto|tauto].
  - assert (N : ~ In FUnion (t_flags t) /\ ~ In FIntersection (t_flags t)) by (split; intros I; assert (false = true) by (apply FS; auto); discriminate). split; [intros; apply hi_one; tauto|]. inversion 1; subst; [tauto|auto].
Qed.
Lemma yields_spec n : yieldsb n = true <-> yields_async p n.
Proof. destruct n as [| | | |[] [| |th t]| |]; cbn; try (split; [discriminate|contradiction]); [apply recurser_spec|tauto]. Qed.

(** The scope after nodes [own]. *)
Definition after (s : scope) (own : list node) : scope :=
  Scope (sc_await s || existsb (fun n => match n with Return _ _ => sc_async s && waitsb n | _ => waitsb n end) own)
        (sc_yield s || (sc_generator s && existsb yieldsb own)) (sc_async s) (sc_generator s).
Lemma after_app s a c : after s (a ++ c) = after (after s a) c.
Proof. unfold after. cbn [sc_await sc_yield sc_async sc_generator]. rewrite !existsb_app, andb_orb_distrib_r, !orb_assoc. reflexivity. Qed.
Lemma after_nil s : after s [] = s.
Proof. destruct s as [a y s g]. unfold after. cbn. now rewrite orb_false_r, andb_false_r, orb_false_r. Qed.
Definition sel (q : function * list node * list node) : bool :=
  let '(f, head, rest) := q in
  let s := after (enter f) (flat_map own1 (head ++ rest)) in
  sc_async s && negb (sc_await s) && negb (sc_generator s && sc_yield s).
Definition walk_all := fix all l st := match l with [] => ([], st) | n :: l => let (a, st) := walk n st in let (c, st) := all l st in (a ++ c, st) end.
Definition fine (n : node) : Prop :=
  (forall s up, walk n (s :: up) = (map report (filter sel (functions n)), after s (own1 n) :: up)) /\
  walk n [] = (map report (filter sel (functions n)), []).
Lemma walk_list ch : Forall fine ch ->
  (forall s up, walk_all ch (s :: up) = (map report (filter sel (flat_map functions ch)), after s (flat_map own1 ch) :: up)) /\
  walk_all ch [] = (map report (filter sel (flat_map functions ch)), []).
Proof.
  induction 1 as [|n ch [N1 N2] _ [IH1 IH2]]; [split; [intros s up; cbn; now rewrite after_nil|reflexivity]|]. split.
  - intros s up. cbn [walk_all]. rewrite N1. fold walk_all. rewrite IH1. cbn [flat_map]. now rewrite filter_app, map_app, after_app.
  - cbn [walk_all]. rewrite N2. fold walk_all. rewrite IH2. cbn [flat_map]. now rewrite filter_app, map_app.
Qed.
Lemma walk_fine : forall n, fine n.
Proof.
  apply node_ind'. intros n F.
  assert (ONE : forall ch (w : list scope -> list scope), children n = ch -> (forall st, walk n st = walk_all ch (w st)) -> functions n = flat_map functions ch -> own1 n = n :: flat_map own1 ch -> w [] = [] -> (forall s up, w (s :: up) = after s [n] :: up) -> fine n).
  { intros ch w C W FN O E1 E2. rewrite C in F. destruct (walk_list ch F) as [L1 L2]. split.
    - intros s up. rewrite W, E2, L1, FN, O. change (n :: flat_map own1 ch) with ([n] ++ flat_map own1 ch). now rewrite after_app.
    - rewrite W, E1, L2, FN. reflexivity. }
  assert (NIL : forall s n, waitsb n = false -> yieldsb n = false -> s = after s [n]).
  { intros [a y sa g] m W Y. unfold after. cbn [existsb sc_await sc_yield sc_async sc_generator]. rewrite Y. assert (X : (match m with Return _ _ => sa && waitsb m | _ => waitsb m end) = false) by (rewrite W; destruct m; auto; apply andb_false_r). rewrite X. destruct a, y, sa, g; reflexivity. }
  destruct n as [f hd rest|ch|a ch|a ch|star a ch|t ch|ch].
  - cbn [children] in F. apply Forall_app in F. destruct F as [F1 F2]. destruct (walk_list hd F1) as [H1 _]. destruct (walk_list rest F2) as [R1 _].
    assert (E : forall up, walk (Function f hd rest) up = (map report (filter sel (functions (Function f hd rest))), up)).
    { intros up. change (walk (Function f hd rest) up) with (let (a, st) := walk_all hd (enter f :: up) in let (c, st) := walk_all rest st in let (d, st) := leave f st in (a ++ c ++ d, st)).
      rewrite H1, R1. unfold leave. cbn [functions]. rewrite !filter_app, !map_app. cbn [filter]. assert (SE : sel (f, hd, rest) = (let s := after (after (enter f) (flat_map own1 hd)) (flat_map own1 rest) in sc_async s && negb (sc_await s) && negb (sc_generator s && sc_yield s))) by (unfold sel; now rewrite flat_map_app, after_app).
      rewrite SE. cbv zeta. destruct (sc_async _ && _ && _); reflexivity. }
    split; [intros s up; rewrite E; cbn [own1]; now rewrite after_nil|apply E].
  - apply (ONE ch mark); auto. intros [sa sy sy' sg] up. unfold after. cbn. now rewrite orb_true_r, andb_false_r, orb_false_r.
  - apply (ONE ch (fun st => if a then mark st else st)); auto; [now destruct a|]. intros [sa sy sy' sg] up. destruct a; [unfold after; cbn; now rewrite orb_true_r, andb_false_r, orb_false_r|]. now rewrite <- NIL.
  - apply (ONE ch (fun st => if a then mark st else st)); auto; [now destruct a|]. intros [sa sy sy' sg] up. destruct a; [unfold after; cbn; now rewrite orb_true_r, andb_false_r, orb_false_r|]. now rewrite <- NIL.
  - apply (ONE ch (on_yield p star a)); auto. intros [sa sy sy' sg] up. cbn [on_yield sc_yield sc_generator sc_await sc_async]. unfold after. cbn [sc_yield sc_generator sc_await sc_async existsb waitsb]. rewrite !orb_false_r.
    destruct sy; [reflexivity|]. destruct sg; [|reflexivity]. destruct a as [| |th t]; cbn; try reflexivity. destruct star; cbn; [destruct (type_recurser p t)|destruct th]; reflexivity.
  - apply (ONE ch (on_return t)); auto. intros [sa sy sy' sg] up. unfold on_return, after. cbn [sc_yield sc_generator sc_await sc_async existsb yieldsb]. rewrite andb_false_r, !orb_false_r. destruct sa, sy', t as [[]|]; reflexivity.
  - apply (ONE ch (fun st => st)); auto. intros s up. now rewrite <- NIL.
Qed.
Lemma sel_spec f head rest : sel (f, head, rest) = true <-> never_waits p f (flat_map own1 (head ++ rest)).
Proof.
  unfold sel, never_waits. set (own := flat_map own1 (head ++ rest)). unfold after. cbn [sc_async sc_await sc_generator sc_yield].
  assert (KEPT : sc_async (enter f) = (match fn_body f with NoBody | Block O => false | _ => true end && fn_async f) /\ sc_generator (enter f) = (match fn_body f with NoBody | Block O => false | _ => true end && fn_generator f) /\ sc_yield (enter f) = false /\ (sc_async (enter f) = true -> sc_await (enter f) = (fn_arrow f && match fn_body f with ExprBody true => true | _ => false end))).
  { unfold enter. destruct f as [i a g ar bd]. cbn [fn_arrow fn_body fn_async fn_generator]. destruct bd as [|[|k]| |[]], a, g, ar; cbn; auto. }
  destruct KEPT as (K1 & K2 & K3 & K4). rewrite K3. cbn [orb].
  assert (W : existsb (fun n => match n with Return _ _ => sc_async (enter f) && waitsb n | _ => waitsb n end) own = false <-> (forall n, In n own -> ~ waits n) \/ sc_async (enter f) = false /\ existsb (fun n => match n with Return _ _ => sc_async (enter f) && waitsb n | _ => waitsb n end) own = false).
  { destruct (sc_async (enter f)) eqn:A; [|split; auto; intros [H|[_ H]]; auto; destruct (existsb _ own) eqn:X; auto; apply existsb_exists in X; destruct X as (n & I & X); exfalso; apply (H n I), waits_spec; destruct n; auto; discriminate].
    assert (Y : forall n, (match n with Return _ _ => true && waitsb n | _ => waitsb n end) = waitsb n) by (intros []; reflexivity). split.
    - intros H. left. intros n I N. apply waits_spec in N. assert (X : existsb (fun n => match n with Return _ _ => true && waitsb n | _ => waitsb n end) own = true) by (apply existsb_exists; exists n; rewrite Y; auto). congruence.
    - intros [H|[H _]]; [|discriminate]. destruct (existsb _ own) eqn:X; [|reflexivity]. apply existsb_exists in X. destruct X as (n & I & X). rewrite Y in X. exfalso. apply (H n I). now apply waits_spec. }
  assert (YS : existsb yieldsb own = false <-> forall n, In n own -> ~ yields_async p n).
  { split.
    - intros H n I N. apply yields_spec in N. assert (X : existsb yieldsb own = true) by (apply existsb_exists; eauto). congruence.
    - intros H. destruct (existsb yieldsb own) eqn:X; [|reflexivity]. apply existsb_exists in X. destruct X as (n & I & X). exfalso. apply (H n I). now apply yields_spec. }
  rewrite !andb_true_iff, !negb_true_iff, orb_false_iff. split.
  - intros ((A & AW & N) & Y). rewrite A in W. specialize (K4 A). rewrite K4 in AW. pose proof A as A0. rewrite K1 in A0. apply andb_true_iff in A0. destruct A0 as [BD AS].
    rewrite A in N. apply W in N. destruct N as [N|[N _]]; [|discriminate]. repeat split; auto; [destruct (fn_body f); discriminate|destruct (fn_body f) as [|[]| |]; discriminate| |].
    + intros [AR EB]. rewrite AR, EB in AW. discriminate.
    + intros G. apply YS. rewrite K2, BD, G in Y. destruct (existsb yieldsb own); [discriminate|reflexivity].
  - intros (AS & B1 & B2 & N & AR & Y). assert (BD : match fn_body f with NoBody | Block O => false | _ => true end = true) by (destruct (fn_body f) as [|[]| |]; auto; now (destruct B1 || destruct B2)).
    assert (A : sc_async (enter f) = true) by (rewrite K1, BD, AS; reflexivity). specialize (K4 A). split; [split; [exact A|split]|].
    + rewrite K4. destruct (fn_arrow f) eqn:AE; [|reflexivity]. destruct (fn_body f) as [| | |[]] eqn:BE; auto. now destruct AR.
    + apply W. auto.
    + rewrite K2, BD. cbn [andb]. destruct (fn_generator f) eqn:G; [|reflexivity]. cbn [andb]. now apply YS, Y.
Qed.

(** ** What is reported *)
(** Exactly the async functions that never wait, in the order in which they end; everything below a function that is not below a
    function in it counts for it. *)
Theorem C49_reports : forall n, exists sel, (forall f head rest, sel (f, head, rest) = true <-> never_waits p f (flat_map own1 (head ++ rest))) /\
  reports p n = map report (filter sel (functions n)).
Proof. intros n. exists sel. split; [apply sel_spec|]. unfold reports. destruct (walk_fine n) as [_ ->]. reflexivity. Qed.

(** *** The language *)
(** Decorators and the name of a method belong to the function around it. *)
Fixpoint runs_in (n : node) : list node :=
  match n with
  | Function _ head _ => flat_map runs_in head
  | AwaitExpr ch | ForOf _ ch | VarList _ ch | Yield _ _ ch | Return _ ch | Other ch => n :: flat_map runs_in ch
  end.
(** No function has something that waits in its decorators or name. *)
Definition plain_heads (n : node) : Prop := forall f head rest m, In (f, head, rest) (functions n) -> In m (flat_map runs_in head) -> ~ waits m /\ ~ yields_async p m.
Lemma functions_child n c : In c (children n) -> incl (functions c) (functions n).
Proof.
  intros I q Q. destruct n as [f hd rest|ch|a ch|a ch|st a ch|t ch|ch]; cbn [children functions] in *; try (apply in_flat_map; eauto).
  apply in_app_iff in I. rewrite !in_app_iff, !in_flat_map. destruct I; eauto.
Qed.
Lemma runs_own : forall n, plain_heads n -> forall m, waits m \/ yields_async p m -> In m (runs_in n) <-> In m (own1 n).
Proof.
  apply (node_ind' (fun n => plain_heads n -> forall m, waits m \/ yields_async p m -> In m (runs_in n) <-> In m (own1 n))). intros n F H m M.
  assert (CH : forall ch, children n = ch -> In m (flat_map runs_in ch) <-> In m (flat_map own1 ch)).
  { intros ch E. rewrite E in F. rewrite !in_flat_map. rewrite Forall_forall in F. split; intros (c & I & J); exists c; (split; [exact I|]); apply (F c I); auto; intros f hd rest x Q X; apply (H f hd rest x); auto; eapply functions_child; eauto; rewrite E; auto. }
  destruct n as [f hd rest|ch|a ch|a ch|st a ch|t ch|ch]; cbn [runs_in own1 In]; try (rewrite (CH ch eq_refl); tauto).
  split; [|contradiction]. intros I. destruct (H f hd rest m) as [A B]; auto; [|tauto]. cbn [functions]. rewrite !in_app_iff. right. right. now left.
Qed.
(** If nothing waits in the decorators and names of methods, the reported functions are those in which, when they run, nothing waits. *)
Theorem C49_language : forall n, plain_heads n -> exists sel, (forall f head rest, In (f, head, rest) (functions n) -> sel (f, head, rest) = true <-> never_waits p f (flat_map runs_in rest)) /\
  reports p n = map report (filter sel (functions n)).
Proof.
  intros n H. destruct (C49_reports n) as (sel & S & R). exists sel. split; [|exact R]. intros f hd rest I. rewrite S.
  assert (E : forall m, waits m \/ yields_async p m -> In m (flat_map own1 (hd ++ rest)) <-> In m (flat_map runs_in rest)).
  { intros m M. rewrite flat_map_app, in_app_iff. assert (SUB : forall c, In c (hd ++ rest) -> plain_heads c).
    { intros c C g ghd grest x G X. apply (H g ghd grest x); auto. clear - I C G. revert f hd rest I C. pattern n. revert n. apply node_ind'. intros n F f hd rest I C. rewrite Forall_forall in F.
      destruct n as [f' hd' rest'|ch|a ch|a ch|st a ch|t ch|ch]; cbn [functions children] in *; try (apply in_flat_map in I; destruct I as (d & D & I); apply in_flat_map; exists d; split; auto; eapply F; eauto).
      rewrite !in_app_iff in I. destruct I as [I|[I|[[= <- <- <-]|[]]]].
      - apply in_flat_map in I. destruct I as (d & D & I). rewrite !in_app_iff. left. apply in_flat_map. exists d. split; auto. eapply F; eauto. apply in_app_iff. auto.
      - apply in_flat_map in I. destruct I as (d & D & I). rewrite !in_app_iff. right. left. apply in_flat_map. exists d. split; auto. eapply F; eauto. apply in_app_iff. auto.
      - rewrite !in_app_iff. apply in_app_iff in C. destruct C; [left|right; left]; apply in_flat_map; eauto. }
    rewrite !in_flat_map. split.
    - intros [(c & C & D)|(c & C & D)].
      + exfalso. destruct (H f hd rest m I) as [A B]; [|tauto]. apply in_flat_map. exists c. split; auto. apply runs_own; auto. apply SUB, in_app_iff. auto.
      + exists c. split; auto. apply runs_own; auto. apply SUB, in_app_iff. auto.
    - intros (c & C & D). right. exists c. split; auto. apply runs_own in D; auto. apply SUB, in_app_iff. auto. }
  unfold never_waits. split; intros (A1 & A2 & A3 & A4 & A5 & A6); (repeat split; auto).
  - intros m J W. apply (A4 m); auto. apply E; auto.
  - intros G m J W. apply (A6 G m); auto. apply E; auto.
  - intros m J W. apply (A4 m); auto. apply E; auto.
  - intros G m J W. apply (A6 G m); auto. apply E; auto.
Qed.
End Rule.
Print Assumptions C49_reports.
Print Assumptions C49_language.
(** [async function f() { for await (...) {} async () => 1; async function* g() { yield p; } }]: the arrow function. *)
Example C49_example :
  let t := Other [Function (Fn 1 true false false (Block 3)) [] [ForOf true []; Function (Fn 2 true false true (ExprBody false)) [] [Other []]; Function (Fn 3 true true false (Block 1)) [] [Yield false (Argument true (Ty 0 [FObject] [] None [])) []]]] in
  reports (fun _ => false) t = [2] /\ plain_heads (fun _ => false) t.
Proof.
  split; [reflexivity|]. intros f hd rest m I. cbn in I. repeat (destruct I as [[= <- <- <-]|I]; [intros []|]). contradiction.
Qed.
(** Else not: [async function f() { class C { async [await x]() { return 1; } } }] waits when it runs, and is reported, while the method, which
    never waits, is not. *)
Theorem C49_language_refuted : exists n p f head rest g ghead grest,
  In (f, head, rest) (functions n) /\ In (g, ghead, grest) (functions n) /\
  (exists m, In m (flat_map runs_in rest) /\ waits m) /\ never_waits p g (flat_map runs_in grest) /\
  reports p n = [fn_id f] /\ fn_id f <> fn_id g.
Proof.
  set (g := Fn 2 true false false (Block 1)). set (f := Fn 1 true false false (Block 1)).
  exists (Function f [] [Other [Function g [AwaitExpr [Other []]] [Return (Some false) []]]]), (fun _ => false), f, [], [Other [Function g [AwaitExpr [Other []]] [Return (Some false) []]]], g, [AwaitExpr [Other []]], [Return (Some false) []].
  split; [cbn; auto|]. split; [cbn; auto|]. split; [exists (AwaitExpr [Other []]); cbn; auto|]. split; [|split; [reflexivity|discriminate]].
  repeat split; try discriminate; try (intros [? ?]; discriminate). intros n [<-|[]]. cbn. discriminate.
Qed.
Print Assumptions C49_language_refuted.

(** ** The suggestion *)
(** The text before the node, from its end: blanks, then text that ends a statement or member. *)
Definition ended (before : bstr) (after_method : bool) : Prop :=
  (forall c, In c before -> In c (b " " ++ ["009"; "010"; "013"]%char)) \/
  exists blanks c r, before = blanks ++ c :: r /\ (forall c, In c blanks -> In c (b " " ++ ["009"; "010"; "013"]%char)) /\
  (In c (b ";:{,([") \/ (exists d r', r = d :: r' /\ (d = "=" /\ c = ">" \/ d = "+" /\ c = "+" \/ d = "-" /\ c = "-")%char) \/ c = "}"%char /\ after_method = true).
Lemma mem_ascii c l : existsb (Ascii.eqb c) l = true <-> In c l.
Proof. rewrite existsb_exists. split; [intros (x & I & E); apply Ascii.eqb_eq in E; now subst|intros I; exists c; split; auto; apply Ascii.eqb_refl]. Qed.
Lemma skip_blank_spec l : exists blanks, l = blanks ++ skip_blank l /\ (forall c, In c blanks -> In c (b " " ++ ["009"; "010"; "013"]%char)) /\ (forall c r, skip_blank l = c :: r -> blank c = false).
Proof.
  induction l as [|c l (bl & E & B & N)]; [exists []; repeat split; auto; [intros c []|discriminate]|]. cbn [skip_blank]. destruct (blank c) eqn:C.
  - exists (c :: bl). split; [cbn [app]; now rewrite <- E|]. split; [|auto]. intros d [<-|D]; auto. apply mem_ascii. exact C.
  - exists []. repeat split; auto; [intros d []|]. now intros d r [= <- <-].
Qed.
Lemma two_mem d c : existsb (beqb [d; c]) [b "=>"; b "++"; b "--"] = true <-> (d = "=" /\ c = ">" \/ d = "+" /\ c = "+" \/ d = "-" /\ c = "-")%char.
Proof.
  rewrite existsb_exists. split.
  - intros (x & I & E). apply beqb_eq in E. subst x. destruct I as [I|[I|[I|[]]]]; cbn in I; injection I as <- <-; auto.
  - intros [[-> ->]|[[-> ->]|[-> ->]]]; eexists; (split; [|apply beqb_refl]); cbn; auto.
Qed.
Lemma semicolon_spec before am : needs_semicolon before am = false <-> ended before am.
Proof.
  unfold needs_semicolon. destruct (skip_blank_spec before) as (bl & E & B & N). destruct (skip_blank before) as [|c r] eqn:S.
  - split; [|auto]. intros _. left. rewrite E, app_nil_r. exact B.
  - specialize (N c r eq_refl). assert (UNIQ : forall bl' c' r', before = bl' ++ c' :: r' -> (forall x, In x bl' -> In x (b " " ++ ["009"; "010"; "013"]%char)) -> blank c' = false -> c' = c /\ r' = r).
    { intros bl' c' r' E' B' N'. assert (X : forall bl l, (forall x, In x bl -> In x (b " " ++ ["009"; "010"; "013"]%char)) -> skip_blank (bl ++ l) = skip_blank l). { clear. induction bl as [|x bl IH]; intros l H; [reflexivity|]. cbn [app skip_blank]. assert (Y : blank x = true) by (apply mem_ascii, H; now left). rewrite Y. apply IH. intros. apply H. now right. }
      rewrite E', (X bl' _ B') in S. cbn [skip_blank] in S. rewrite N' in S. injection S as -> ->. auto. }
    assert (NB : forall c', In c' (b ";:{,([") \/ c' = ">"%char \/ c' = "+"%char \/ c' = "-"%char \/ c' = "}"%char -> blank c' = false).
    { intros c' [I|I]; [cbn in I; repeat (destruct I as [<-|I]; [reflexivity|]); contradiction|]. destruct I as [->|[->|[-> | ->]]]; reflexivity. }
    destruct (existsb (Ascii.eqb c) (b ";:{,([")) eqn:P1; [split; [|auto]; intros _; right; exists bl, c, r; repeat split; auto; left; now apply mem_ascii|].
    destruct (match r with d :: _ => existsb (beqb [d; c]) [b "=>"; b "++"; b "--"] | [] => false end) eqn:P2.
    { split; [|auto]. intros _. right. exists bl, c, r. repeat split; auto. right. left. destruct r as [|d r']; [discriminate|]. apply two_mem in P2. eauto. }
    destruct (Ascii.eqb c "}" && am) eqn:P3.
    { split; [|auto]. intros _. right. exists bl, c, r. repeat split; auto. right. right. apply andb_true_iff in P3. destruct P3 as [P3 ->]. apply Ascii.eqb_eq in P3. auto. }
    split; [discriminate|]. intros [ALL|(bl' & c' & r' & E' & B' & H)].
    + exfalso. assert (X : blank c = true) by (apply mem_ascii, ALL; rewrite E; apply in_app_iff; right; now left). congruence.
    + exfalso. assert (C' : blank c' = false). { apply NB. destruct H as [H|[(d & r2 & _ & H)|[H _]]]; auto. destruct H as [[_ ->]|[[_ ->]|[_ ->]]]; auto. }
      destruct (UNIQ _ _ _ E' B' C') as [-> ->]. destruct H as [H|[(d & r2 & -> & H)|[-> ->]]]; [apply mem_ascii in H; congruence|apply two_mem in H; congruence|discriminate].
Qed.
(** Where the next token could continue the line before and nothing has ended it, a semicolon is put. *)
Definition continues (t : token) : Prop := t = OpenParen \/ t = OpenBracket \/ t = Template.
Definition semicolon (next : token) (starts method_like : bool) (before : bstr) (after_method : bool) (s : bstr) : Prop :=
  (continues next /\ (starts = true \/ method_like = true) /\ ~ ended before after_method) /\ s = b ";" \/
  ~ (continues next /\ (starts = true \/ method_like = true) /\ ~ ended before after_method) /\ s = [].
Lemma semicolon_add next st ml before am : semicolon next st ml before am (if (match next with OpenParen | OpenBracket | Template => true | _ => false end && (st || ml) && needs_semicolon before am) then b ";" else []).
Proof.
  unfold semicolon. rewrite <- semicolon_spec. assert (C : continues next <-> match next with OpenParen | OpenBracket | Template => true | _ => false end = true) by (unfold continues; destruct next; intuition (try discriminate)).
  rewrite C. destruct (match next with OpenParen | OpenBracket | Template => true | _ => false end), st, ml, (needs_semicolon before am); cbn; intuition (try discriminate).
Qed.
Section Suggestion.
Variables (sort_fixes : list (fix_ ascii) -> list (fix_ ascii)) (sort_msgs : list (msg ascii) -> list (msg ascii)).
Hypotheses (sorts_fixes : correct_sort cmp_fix sort_fixes) (sorts_msgs : correct_sort cmp_msg sort_msgs) (stable_fixes : stable sort_fixes).
Definition applied (text : bstr) (l : list (fix_ ascii)) : res bstr := let! r := apply_rule_fixes sort_fixes sort_msgs text [mkMsg 0 l] in Ok (fst (fst r)).
Lemma filter_swap (f g1 g2 g3 : fix_ ascii) : fpos g2 <> fpos g3 -> filter (same_range f) [g1; g2; g3] = filter (same_range f) [g1; g3; g2].
Proof.
  intros NE. cbn [filter]. destruct (same_range f g2) eqn:A, (same_range f g3) eqn:B; try reflexivity. apply same_spec in A, B. exfalso. lia.
Qed.
(** [async], the blanks after it, and [Promise<...>] around the return type go; [AsyncGenerator] becomes [Generator].  [gap]: between the name of the
    type and its arguments. *)
Theorem C49_suggestion : forall before blanks mid name gap args post next st ml am generator s ret,
  semicolon next st ml (rev before) am s ->
  let text := before ++ b "async" ++ blanks ++ mid ++ name ++ gap ++ b "<" ++ args ++ b ">" ++ post in
  let tr_pos := zlen before + 5 + zlen blanks + zlen mid in
  let args_pos := tr_pos + zlen name + zlen gap + 1 in
  zlen mid > 0 -> zlen name > 0 ->
  (ret = None \/ exists n a, ret = Some (TypeRef tr_pos (tr_pos + zlen name) n a) /\ (a = None \/ a = Some (args_pos, args_pos + zlen args))) ->
  exists new, applied text (remove_async (zlen before) (zlen before + 5 + zlen blanks) next st ml (rev before) am generator ret) = Ok (before ++ s ++ mid ++ new ++ post) /\
  (if generator then
     (exists t, ret = Some t /\ tr_name t = b "AsyncGenerator") /\ new = b "Generator" ++ gap ++ b "<" ++ args ++ b ">" \/
     (forall t, ret = Some t -> tr_name t <> b "AsyncGenerator") /\ new = name ++ gap ++ b "<" ++ args ++ b ">"
   else
     (exists t, ret = Some t /\ tr_name t = b "Promise" /\ tr_args t <> None) /\ new = args \/
     (forall t, ret = Some t -> tr_name t = b "Promise" -> tr_args t = None) /\ new = name ++ gap ++ b "<" ++ args ++ b ">").
Proof.
  intros before blanks mid name gap args post next st ml am generator s ret SC text P A M N R.
  pose proof (semicolon_add next st ml (rev before) am) as SA.
  assert (SEQ : (if (match next with OpenParen | OpenBracket | Template => true | _ => false end && (st || ml) && needs_semicolon (rev before) am) then b ";" else []) = s).
  { destruct SC as [[X ->]|[X ->]], SA as [[Y E]|[Y E]]; rewrite E; try reflexivity; tauto. }
  clear SA.
  assert (RA : remove_async (zlen before) (zlen before + 5 + zlen blanks) next st ml (rev before) am generator ret = mkFix s (zlen before) (zlen before + 5 + zlen blanks) ::
    match ret with
    | None => []
    | Some t => if generator && named t (b "AsyncGenerator") then [mkFix (b "Generator") (RequireAwait.tr_pos t) (tr_end t)]
                else if negb generator && named t (b "Promise") then match tr_args t with None => [] | Some (pos, stop) => [mkFix [] stop (stop + 1); mkFix [] (RequireAwait.tr_pos t) (pos - 1 + 1)] end
                else []
    end) by (rewrite <- SEQ; reflexivity).
  rewrite RA. clear RA. set (p0 := zlen before). set (p1 := zlen before + 5 + zlen blanks).
  assert (B0 : 0 <= p0) by (unfold p0, zlen; lia). assert (B1 : p0 < p1) by (unfold p0, p1, zlen; lia). assert (PM : p1 < P) by (unfold P, p1 in *; lia).
  assert (S0 : slice text 0 p0 = Ok before) by (exact (slice_mid [] before _)).
  assert (T1 : text = (before ++ b "async" ++ blanks) ++ mid ++ (name ++ gap ++ b "<" ++ args ++ b ">" ++ post)) by (unfold text; now rewrite <- !app_assoc).
  assert (L1 : zlen (before ++ b "async" ++ blanks) = p1) by (unfold p1, zlen; rewrite !app_length; cbn; lia).
  assert (S1 : slice text p1 P = Ok mid). { rewrite T1, <- L1. replace P with (zlen (before ++ b "async" ++ blanks) + zlen mid) by (rewrite L1; unfold P, p1; lia). apply slice_mid. }
  assert (T2 : text = (before ++ b "async" ++ blanks ++ mid) ++ (name ++ gap ++ b "<" ++ args ++ b ">" ++ post)) by (unfold text; now rewrite <- !app_assoc).
  assert (TAIL : forall x y, text = x ++ y -> slice_from text (zlen x) = Ok y).
  { intros x y E. unfold slice_from. rewrite E. pose proof (slice_mid x y []) as H. rewrite app_nil_r in H. replace (zlen (x ++ y)) with (zlen x + zlen y) by (unfold zlen; rewrite app_length; lia). exact H. }
  assert (ONE : applied text [mkFix s p0 p1] = Ok (before ++ s ++ mid ++ name ++ gap ++ b "<" ++ args ++ b ">" ++ post)).
  { unfold applied. erewrite apply_one with (m := [mkFix s p0 p1]); auto; [reflexivity|repeat constructor|now intros f r [= <- <-]|discriminate|].
    cbn [write_fixes fpos fend ftext]. rewrite S0. cbn [rbind fst snd]. rewrite <- L1, (TAIL _ (mid ++ name ++ gap ++ b "<" ++ args ++ b ">" ++ post)) by exact T1. cbn [rbind]. now rewrite app_nil_r, <- !app_assoc. }
  assert (NONE : applied text (mkFix s p0 p1 :: []) = Ok (before ++ s ++ mid ++ (name ++ gap ++ b "<" ++ args ++ b ">") ++ post)) by (rewrite ONE; now rewrite <- !app_assoc).
  destruct R as [->|(nm & a & -> & AR)].
  - exists (name ++ gap ++ b "<" ++ args ++ b ">"). split; [exact NONE|]. destruct generator; right; (split; [intros t [=]|reflexivity]).
  - unfold named. cbn [tr_name RequireAwait.tr_pos tr_end tr_args]. destruct generator; cbn [andb negb].
    + destruct (beqb nm (b "AsyncGenerator")) eqn:E.
      * apply beqb_eq in E. subst nm. exists (b "Generator" ++ gap ++ b "<" ++ args ++ b ">"). split; [|left; split; [eexists; split; reflexivity|reflexivity]].
        unfold applied. erewrite apply_one with (m := [mkFix s p0 p1; mkFix (b "Generator") P (P + zlen name)]); auto; [reflexivity| |now intros f r [= <- <-]|discriminate|].
        -- repeat (apply SSorted_cons || apply SSorted_nil || apply Forall_cons || apply Forall_nil); left; cbn [fpos]; lia.
        -- cbn [write_fixes fpos fend ftext]. rewrite S0. cbn [rbind]. rewrite S1. cbn [rbind fst snd].
           assert (T3 : text = (before ++ b "async" ++ blanks ++ mid ++ name) ++ (gap ++ b "<" ++ args ++ b ">" ++ post)) by (unfold text; now rewrite <- !app_assoc).
           assert (L3 : zlen (before ++ b "async" ++ blanks ++ mid ++ name) = P + zlen name) by (unfold P, zlen; rewrite !app_length; cbn; lia).
           rewrite <- L3, (TAIL _ _ T3). cbn [rbind]. f_equal. rewrite app_nil_r, <- !app_assoc. reflexivity.
      * exists (name ++ gap ++ b "<" ++ args ++ b ">"). split; [exact NONE|]. right. split; [|reflexivity]. intros t [= <-]. cbn [tr_name]. intros ->. rewrite beqb_refl in E. discriminate.
    + destruct (beqb nm (b "Promise")) eqn:E.
      * apply beqb_eq in E. subst nm. destruct AR as [-> | ->].
        -- exists (name ++ gap ++ b "<" ++ args ++ b ">"). split; [exact NONE|]. right. split; [|reflexivity]. intros t [= <-] _. reflexivity.
        -- exists args. split; [|left; split; [eexists; split; [reflexivity|split; [reflexivity|discriminate]]|reflexivity]].
           assert (GT : P < A + zlen args) by (unfold A, zlen in *; lia).
           assert (A0 : A - 1 + 1 = A) by lia. rewrite A0.
           unfold applied. erewrite apply_one with (m := [mkFix s p0 p1; mkFix [] P A; mkFix [] (A + zlen args) (A + zlen args + 1)]); auto; [reflexivity| | |now intros f r [= <- <-]|discriminate|].
           ++ repeat (apply SSorted_cons || apply SSorted_nil || apply Forall_cons || apply Forall_nil); left; cbn [fpos]; lia.
           ++ intros f. apply filter_swap. cbn. lia.
           ++ cbn [write_fixes fpos fend ftext]. rewrite S0. cbn [rbind]. rewrite S1. cbn [rbind].
              assert (T3 : text = (before ++ b "async" ++ blanks ++ mid ++ name ++ gap ++ b "<") ++ args ++ (b ">" ++ post)) by (unfold text; now rewrite <- !app_assoc).
              assert (L3 : zlen (before ++ b "async" ++ blanks ++ mid ++ name ++ gap ++ b "<") = A) by (unfold A, P, zlen; rewrite !app_length; cbn; lia).
              assert (S3 : slice text A (A + zlen args) = Ok args) by (rewrite T3, <- L3; apply slice_mid). rewrite S3. cbn [rbind fst snd].
              assert (T4 : text = (before ++ b "async" ++ blanks ++ mid ++ name ++ gap ++ b "<" ++ args ++ b ">") ++ post) by (unfold text; now rewrite <- !app_assoc).
              assert (L4 : zlen (before ++ b "async" ++ blanks ++ mid ++ name ++ gap ++ b "<" ++ args ++ b ">") = A + zlen args + 1) by (unfold A, P, zlen; rewrite !app_length; cbn; lia).
              rewrite <- L4, (TAIL _ _ T4). cbn [rbind]. f_equal. rewrite ?app_nil_r. cbn [app]. rewrite ?app_nil_r, <- ?app_assoc. reflexivity.
      * exists (name ++ gap ++ b "<" ++ args ++ b ">"). split; [exact NONE|]. right. split; [|reflexivity]. intros t [= <-]. cbn [tr_name]. intros ->. rewrite beqb_refl in E. discriminate.
Qed.
End Suggestion.
Print Assumptions C49_suggestion.
Example C49_suggestion_example :
  let before := b "f()" ++ ["010"]%char in
  applied fsort msort (before ++ b "async (x): Promise <number> => x") (remove_async 4 10 OpenParen true false (rev before) false false (Some (TypeRef 15 22 (b "Promise") (Some (24, 30))))) = Ok (before ++ b ";(x): number => x") /\
  semicolon OpenParen true false (rev before) false (b ";").
Proof.
  split; [vm_compute; reflexivity|]. pose proof (semicolon_add OpenParen true false (rev (b "f()" ++ ["010"]%char)) false) as H. exact H.
Qed.
(** A generator method after a field without semicolon: [x = 1], a new line, [async *g() {}].  Without [async] the field is [1 * g()], a syntax error; no semicolon is put. *)
Theorem C49_generator_refuted : exists before text, ~ ended (rev before) false /\
  applied fsort msort (before ++ text) (remove_async (zlen before) (zlen before + 6) Asterisk false true (rev before) false true None) = Ok (before ++ b "*g() {}") /\ text = b "async *g() {}".
Proof.
  exists (b "class A { x = 1" ++ ["010"]%char), (b "async *g() {}"). split; [|split; [vm_compute; reflexivity|reflexivity]].
  rewrite <- semicolon_spec. vm_compute. discriminate.
Qed.
Print Assumptions C49_generator_refuted.
(** Lines 56-59 of the source say that a comment before the node is always safe.  It is not: after [x = 1 // note:] and a new line
    the text seems to have ended with the colon of the comment, no semicolon is put, and the field becomes [1[k]() {}], a
    syntax error.  Without the comment the text has not ended. *)
Theorem C49_comment_refuted : exists field comment text, ~ ended (rev field) false /\
  firstn 2 comment = b "//" /\ (forall c, In c (removelast comment) -> c <> "010"%char) /\ last comment " "%char = "010"%char /\
  applied fsort msort (field ++ comment ++ text) (remove_async (zlen (field ++ comment)) (zlen (field ++ comment) + 6) OpenBracket false true (rev (field ++ comment)) false false None) = Ok (field ++ comment ++ b "[k]() {}") /\
  text = b "async [k]() {}".
Proof.
  exists (b "class A { x = 1 "), (b "// note:" ++ ["010"]%char), (b "async [k]() {}"). split; [rewrite <- semicolon_spec; vm_compute; discriminate|].
  split; [reflexivity|]. split; [|split; [reflexivity|split; [vm_compute; reflexivity|reflexivity]]].
  intros c H ->. vm_compute in H. repeat (destruct H as [H|H]; [discriminate|]). exact H.
Qed.
Print Assumptions C49_comment_refuted.
