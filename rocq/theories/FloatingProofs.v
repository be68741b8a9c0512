(** Proofs about Floating.v. *)
From Coq Require Import String Ascii Bool List ZArith Lia.
From Verif Require Import Base EngineProofs Js JsProofs Floating FloatingSpec.
Import ListNotations.
Open Scope Z_scope.

(** ** Types *)
Section Types.
Variable opts : options.
Lemma promise_like_iff t : promise_like opts t = true <-> matters (check_thenables opts) t.
Proof.
  destruct t as [s l]. unfold matters. cbn [promise_like said_safe looks_promise looks_thenable].
  destruct s; [split; [discriminate | intros [N _]; now destruct N]|].
  assert (P : existsb (fun p => let 'Part promise _ _ := p in promise) l = true <-> exists th e, In (Part true th e) l).
  { rewrite existsb_exists. split; [intros [[p th e] [I ->]]; now exists th, e | intros [th [e I]]; now exists (Part true th e)]. }
  assert (T : existsb (fun p => let 'Part _ thens _ := p in match thens with Some l => existsb (existsb rejects) l | None => false end) l = true <->
    exists p parts e signatures more, In (Part p (Some parts) e) l /\ In signatures parts /\ In (true :: true :: more) signatures).
  { rewrite existsb_exists. split.
    - intros [[p [th|] e] [I E]]; [|discriminate]. apply existsb_exists in E as [sg [J E]]. apply existsb_exists in E as [ps [K E]].
      destruct ps as [|[|] [|[|] ps]]; try discriminate. now exists p, th, e, sg, ps.
    - intros [p [th [e [sg [m [I [J K]]]]]]]. exists (Part p (Some th) e). split; [exact I|]. apply existsb_exists. exists sg. split; [exact J|]. apply existsb_exists. now exists (true :: true :: m). }
  destruct (existsb _ l) eqn:E.
  - split; [intros _; split; [discriminate | left; now apply P] | reflexivity].
  - destruct (check_thenables opts); cbn [negb].
    + rewrite T. split; [intros H; split; [discriminate | now right]|]. intros [_ [H | [_ H]]]; [apply P in H; discriminate | exact H].
    + split; [discriminate|]. intros [_ [H | [H _]]]; [apply P in H; discriminate | discriminate].
Qed.
Lemma promise_array_iff t : promise_array opts t = true <-> array_matters (check_thenables opts) t.
Proof.
  destruct t as [s l]. cbn [promise_array array_matters]. rewrite existsb_exists. split.
  - intros [[p th e] [I E]]. destruct e as [|x|ts]; [discriminate | |].
    + exists p, th, (ArrayOf x), x. split; [exact I|]. split; [now apply promise_like_iff | now left].
    + apply existsb_exists in E as [x [J E]]. exists p, th, (TupleOf ts), x. split; [exact I|]. split; [now apply promise_like_iff|]. right. now exists ts.
  - intros [p [th [e [x [I [M [-> | [ts [-> J]]]]]]]]]; (eexists; split; [exact I|]); [now apply promise_like_iff|].
    apply existsb_exists. exists x. split; [exact J | now apply promise_like_iff].
Qed.
End Types.

(** ** Calls *)
Lemma listed_arguments a : listed a (arguments a).
Proof.
  induction a; try (apply ls_one; discriminate). destruct o; try (apply ls_one; discriminate). cbn [arguments]. now apply ls_more.
Qed.
Lemma listed_unique a l m : listed a l -> listed a m -> l = m.
Proof.
  assert (U : forall a l, listed a l -> l = arguments a).
  { intros c k L. induction L as [c D | p q x L IH]; [|cbn [arguments]; now rewrite <- IH].
    destruct c; try reflexivity. destruct o; try reflexivity. now destruct (D c1 c2). }
  intros L M. rewrite (U _ _ L). now rewrite (U _ _ M).
Qed.
Definition args_of (e : tree) : list tree := match e with Call _ a => arguments a | _ => [] end.
Lemma calls_args e f l : calls e f l -> l = args_of e /\ (e = Call0 f \/ exists a, e = Call f a).
Proof.
  intros C. inversion C as [? | ? a ? L]; subst; (split; [|eauto]); [reflexivity|]. apply (listed_unique a); [exact L | apply listed_arguments].
Qed.
Lemma args_calls0 f : calls (Call0 f) f (args_of (Call0 f)).
Proof. constructor. Qed.
Lemma args_calls f a : calls (Call f a) f (args_of (Call f a)).
Proof. constructor. apply listed_arguments. Qed.
Lemma calls_callee e f l g m : calls e f l -> calls e g m -> f = g /\ l = m.
Proof.
  intros A B. destruct (calls_args _ _ _ A) as [-> [-> | [a ->]]], (calls_args _ _ _ B) as [-> [E | [c E]]]; try discriminate; injection E; auto.
Qed.
Lemma spread_iff e : is_spread e = true <-> spread e.
Proof. unfold spread. split; [destruct e; try discriminate; destruct u; try discriminate; now eexists | intros [x ->]; reflexivity]. Qed.
Lemma spread_false e : is_spread e = false <-> ~ spread e.
Proof. rewrite <- spread_iff. destruct (is_spread e); split; congruence. Qed.

Section Rule.
Variables (opts : options) (type_of : tree -> ptype) (callable : tree -> bool) (index_name : Z -> option bstr).
Notation find := (find_unhandled opts type_of callable index_name).
Notation receives := (receives index_name).
Notation passes := (passes index_name).
Notation named := (named index_name).
Notation method := (method index_name).
Notation elementary := (elementary callable index_name).

Lemma named_method f o n : n <> [] -> (named f o n <-> method f = Some (o, n)).
Proof.
  intros N. split.
  - intros H. destruct H as [|o k n H]; cbn; [reflexivity | now rewrite H].
  - intros H. destruct f; try discriminate; [destruct s; try discriminate|]; cbn in H.
    + destruct (index_name n0) eqn:E; [injection H as -> ->; now constructor | injection H as <- <-; congruence].
    + injection H as -> ->. constructor.
Qed.
Lemma receives_method e o h : receives e o h -> exists f l, calls e f l /\
  (method f = Some (o, b "catch") /\ nth_error l 0 = Some h \/ method f = Some (o, b "then") /\ nth_error l 1 = Some h).
Proof.
  intros R. destruct R as [e f o h l C N S | e f o x h l C N S T]; exists f; eexists; (split; [exact C|]).
  - left. split; [now apply named_method | reflexivity].
  - right. split; [now apply named_method | reflexivity].
Qed.
Lemma passes_method e o : passes e o <-> exists f l, calls e f l /\ method f = Some (o, b "finally").
Proof. split; intros [f [l [C N]]]; exists f, l; (split; [exact C|]); now apply named_method. Qed.

(** What becomes of a call. *)
Inductive fate (e : tree) : option unhandled -> Prop :=
| ft_caught o h : receives e o h -> callable h = true -> fate e None
| ft_handler o h : receives e o h -> callable h = false -> (forall o, ~ passes e o) -> (forall o' h', receives e o' h' -> h' = h) -> fate e (Some (Unhandled e false (Some h)))
| ft_finally o : passes e o -> (forall o h, ~ receives e o h) -> fate e (match find o with Some r => Some (Unhandled e (u_array r) (u_handler r)) | None => None end)
| ft_other : (forall o h, ~ receives e o h) -> (forall o, ~ passes e o) -> fate e (Some (Unhandled e false None)).
Lemma names_apart : b "catch" <> b "then" /\ b "catch" <> b "finally" /\ b "then" <> b "finally".
Proof. repeat split; discriminate. Qed.
Lemma handles_fate e f l : calls e f l -> fate e (handles callable index_name find e f l).
Proof.
  intros C.
  assert (R : forall o h, receives e o h -> (method f = Some (o, b "catch") /\ nth_error l 0 = Some h \/ method f = Some (o, b "then") /\ nth_error l 1 = Some h)).
  { intros o h R. destruct (receives_method _ _ _ R) as [g [m [D H]]]. destruct (calls_callee _ _ _ _ _ C D) as [-> ->]. exact H. }
  assert (P : forall o, passes e o -> method f = Some (o, b "finally")).
  { intros o H. apply passes_method in H as [g [m [D H]]]. destruct (calls_callee _ _ _ _ _ C D) as [-> ->]. exact H. }
  unfold handles. destruct (method f) as [[o name]|] eqn:M.
  2: { apply ft_other; [intros o h H; destruct (R o h H) as [[? _] | [? _]]; discriminate | intros o H; discriminate (P o H)]. }
  destruct (beqb name (b "catch")) eqn:E1.
  { apply beqb_eq in E1. subst name. cbn [andb].
    assert (NF : forall o, ~ passes e o) by (intros o' H; specialize (P o' H); injection P; discriminate).
    change (beqb (b "catch") (b "then")) with false. change (beqb (b "catch") (b "finally")) with false. cbn [andb].
    destruct l as [|h l]; cbn [List.length Nat.leb].
    { apply ft_other; [|exact NF]. intros o' h' H. destruct (R o' h' H) as [[_ Q] | [Q _]]; [discriminate | injection Q; discriminate]. }
    unfold known_argument. cbn [List.length Nat.leb negb andb firstn existsb nth_error]. rewrite orb_false_r.
    destruct (is_spread h) eqn:S; cbn [negb].
    { apply ft_other; [|exact NF]. intros o' h' H. inversion H as [? g ? ? ? D N K | ? g ? ? ? ? D N K K2]; subst; destruct (calls_callee _ _ _ _ _ C D) as [<- Q].
      - injection Q as -> ->. apply spread_iff in S. now apply K.
      - apply named_method in N; [rewrite M in N; injection N; discriminate | discriminate]. }
    assert (RC : receives e o h) by (apply (rc_catch _ e f o h l); [exact C | apply named_method; [discriminate | exact M] | now apply spread_false]).
    destruct (callable h) eqn:K; [now apply (ft_caught e o h)|]. apply (ft_handler e o h); try assumption.
    intros o' h' H. destruct (R o' h' H) as [[_ Q] | [Q _]]; [now injection Q | injection Q; discriminate]. }
  cbn [andb]. destruct (beqb name (b "then")) eqn:E2.
  { apply beqb_eq in E2. subst name. cbn [andb].
    assert (NF : forall o, ~ passes e o) by (intros o' H; specialize (P o' H); injection P; discriminate).
    change (beqb (b "then") (b "finally")) with false.
    destruct l as [|x [|h l]]; cbn [List.length Nat.leb].
    1, 2: apply ft_other; [|exact NF]; intros o' h' H; destruct (R o' h' H) as [[Q _] | [_ Q]]; [injection Q; discriminate | discriminate].
    unfold known_argument. cbn [List.length Nat.leb negb andb firstn existsb nth_error]. rewrite orb_false_r.
    destruct (is_spread x || is_spread h) eqn:S; cbn [negb].
    { apply ft_other; [|exact NF]. intros o' h' H. inversion H as [? g ? ? ? D N K | ? g ? ? ? ? D N K K2]; subst; destruct (calls_callee _ _ _ _ _ C D) as [<- Q].
      - apply named_method in N; [rewrite M in N; injection N; discriminate | discriminate].
      - injection Q as -> -> ->. apply orb_true_iff in S as [S | S]; apply spread_iff in S; auto. }
    apply orb_false_iff in S as [S1 S2].
    assert (RC : receives e o h) by (apply (rc_then _ e f o x h l); [exact C | apply named_method; [discriminate | exact M] | now apply spread_false | now apply spread_false]).
    destruct (callable h) eqn:K; [now apply (ft_caught e o h)|]. apply (ft_handler e o h); try assumption.
    intros o' h' H. destruct (R o' h' H) as [[Q _] | [_ Q]]; [injection Q; discriminate | now injection Q]. }
  cbn [andb].
  assert (NR : forall o' h', ~ receives e o' h').
  { intros o' h' H. destruct (R o' h' H) as [[Q _] | [Q _]]; injection Q as -> ->; discriminate. }
  destruct (beqb name (b "finally")) eqn:E3.
  - apply beqb_eq in E3. subst name. apply (ft_finally e o); [apply passes_method; now exists f, l | exact NR].
  - apply ft_other; [exact NR|]. intros o' H. specialize (P o' H). injection P as -> ->. discriminate.
Qed.

(** What is found when the type is that of a promise. *)
Definition rest (e : tree) : option unhandled :=
  match e with
  | Call0 f | Call f _ => handles callable index_name find e f (args_of e)
  | Cond _ x y => orelse (find y) (find x)
  | Bin OAnd l r | Bin OOr l r | Bin OCoalesce l r => orelse (find l) (find r)
  | _ => Some (Unhandled e false None)
  end.
Definition by_type (e : tree) : Prop :=
  match e with Pre (UAssign _ _) _ | Bin OComma _ _ => False | Pre UVoid _ => ignore_void opts = true | _ => True end.
Lemma find_typed e : by_type e -> find e =
  if promise_array opts (type_of e) then Some (Unhandled e true None)
  else match e with Pre UAwait _ => None | _ => if promise_like opts (type_of e) then rest e else None end.
Proof.
  intros T. destruct e; cbn [find_unhandled rest args_of]; try reflexivity.
  - destruct u; try reflexivity; try contradiction. cbn [by_type] in T. now rewrite T.
  - destruct e; try reflexivity. destruct s; try reflexivity. unfold handles. cbn [Floating.method]. now destruct (index_name n).
  - destruct e1; try reflexivity. destruct s; try reflexivity. unfold handles. cbn [Floating.method]. now destruct (index_name n).
  - destruct o; try reflexivity. contradiction.
Qed.
Lemma orelse_none x y : orelse x y = None -> x = None /\ y = None.
Proof. destruct x; [discriminate | now split]. Qed.

(** ** Nothing is missed *)
Section Missed.
Variable opaque : tree -> val -> Prop.
Variable s : tree.
Notation evals := (evals callable index_name opaque).
Notation within := (within index_name s).
Hypothesis ok : right opts type_of callable index_name opaque s.
Hypothesis promises : methods callable index_name opaque s.

Lemma found e v : within e -> evals e v -> floating v -> by_type e -> find e = None ->
  v = Prom false /\ (forall x, e <> Pre UAwait x) /\ rest e = None.
Proof.
  intros WI E F T N. rewrite (find_typed e T) in N. destruct (ok e WI) as [O1 O2].
  destruct (promise_array opts (type_of e)) eqn:A; [discriminate|].
  destruct F as [-> | [l [-> I]]].
  - split; [reflexivity|]. apply O1 in E as M. apply promise_like_iff in M. rewrite M in N.
    assert (W : forall x, e <> Pre UAwait x) by (intros x ->; inversion E; subst; try congruence; match goal with H : FloatingSpec.receives _ _ _ _ |- _ => inversion H; subst; match goal with C : calls _ _ _ |- _ => inversion C end | H : FloatingSpec.passes _ _ _ |- _ => destruct H as [? [? [C ?]]]; inversion C | H : FloatingSpec.elementary _ _ _ |- _ => destruct H | H : _ \/ _ |- _ => destruct H as [[? H] | [? [? [C ?]]]]; [inversion H; subst; match goal with C : calls _ _ _ |- _ => inversion C end | inversion C] end).
    split; [exact W|]. destruct e; try exact N. destruct u; try exact N. now destruct (W e).
  - exfalso. apply (O2 l E) in I. apply promise_array_iff in I. congruence.
Qed.
Lemma passes_part e o : passes e o -> part_of index_name o e.
Proof. intros [f [l [C N]]]. now apply (po_object _ e f o (b "finally") l). Qed.
Lemma not_missed e v : evals e v -> within e -> find e = None -> ~ floating v.
Proof.
  intros E. induction E; intros WI N F.
  - destruct (found (Par t) v) as [_ [_ R]]; [exact WI | now constructor | exact F | exact I | exact N | discriminate].
  - cbn [find_unhandled] in N. apply orelse_none in N as [_ N]. apply IHE; [|exact N | exact F]. apply (wi_part _ _ _ _ WI). constructor.
  - destruct F as [F | [l [F _]]]; discriminate.
  - destruct (found (Pre UAwait x) v) as [_ [W _]]; [exact WI | now constructor | exact F | exact I | exact N | now apply (W x)].
  - contradiction.
  - destruct (found (Cond c x y) v) as [_ [_ R]]; [exact WI | now constructor | exact F | exact I | exact N|]. apply orelse_none in R as [_ R].
    apply IHE; [|exact R | exact F]. apply (wi_part _ _ _ _ WI). constructor.
  - destruct (found (Cond c x y) v) as [_ [_ R]]; [exact WI | now apply ev_else | exact F | exact I | exact N|]. apply orelse_none in R as [R _].
    apply IHE; [|exact R | exact F]. apply (wi_part _ _ _ _ WI). constructor.
  - destruct F as [F | [m [F _]]]; discriminate.
  - destruct (found (Bin OAnd l r) v) as [_ [_ R]]; [exact WI | now apply ev_and_r | exact F | exact I | exact N|]. apply orelse_none in R as [_ R].
    apply IHE; [|exact R | exact F]. apply (wi_part _ _ _ _ WI). constructor.
  - destruct (found (Bin OOr l r) v) as [_ [_ R]]; [exact WI | now apply ev_or_l | exact F | exact I | exact N|]. apply orelse_none in R as [R _].
    apply IHE; [|exact R | exact F]. apply (wi_part _ _ _ _ WI). constructor.
  - destruct (found (Bin OOr l r) v) as [_ [_ R]]; [exact WI | now apply ev_or_r | exact F | exact I | exact N|]. apply orelse_none in R as [_ R].
    apply IHE; [|exact R | exact F]. apply (wi_part _ _ _ _ WI). constructor.
  - destruct (found (Bin OCoalesce l r) v) as [_ [_ R]]; [exact WI | now apply ev_co_l | exact F | exact I | exact N|]. apply orelse_none in R as [R _].
    apply IHE; [|exact R | exact F]. apply (wi_part _ _ _ _ WI). constructor.
  - destruct (found (Bin OCoalesce l r) v) as [_ [_ R]]; [exact WI | now apply ev_co_r | exact F | exact I | exact N|]. apply orelse_none in R as [_ R].
    apply IHE; [|exact R | exact F]. apply (wi_part _ _ _ _ WI). constructor.
  - destruct F as [F | [m [F _]]]; discriminate.
  - assert (K : exists f l, calls e f l) by (destruct H as [f [l [C _]]]; now exists f, l). destruct K as [f [l C]].
    assert (T : by_type e) by (destruct (calls_args _ _ _ C) as [_ [-> | [a ->]]]; exact I).
    destruct (found e (Prom c)) as [_ [_ R]]; [exact WI | now apply (ev_finally _ _ _ e o) | exact F | exact T | exact N|].
    assert (FT : fate e (rest e)) by (destruct (calls_args _ _ _ C) as [-> [-> | [a ->]]]; apply handles_fate; exact C).
    rewrite R in FT. inversion FT as [o' h R1 R2 | | o' P NR Q |].
    + apply passes_method in H as [g [m [D M]]]. destruct (receives_method _ _ _ R1) as [g' [m' [D' [[M' _] | [M' _]]]]];
        destruct (calls_callee _ _ _ _ _ D D') as [<- _]; rewrite M in M'; discriminate.
    + assert (PO : part_of index_name o e) by now apply passes_part.
      assert (o' = o) as -> by (apply passes_method in H as [g [m [D M]]]; apply passes_method in P as [g' [m' [D' M']]]; destruct (calls_callee _ _ _ _ _ D D') as [<- _]; congruence).
      destruct (find o) eqn:FO; [discriminate|]. apply IHE; [|reflexivity | exact F]. now apply (wi_part _ _ _ _ WI).
  - destruct (promises e o w WI H E) as [c ->]. now apply (H0 c).
  - assert (T : by_type e) by (destruct e; try exact I; [destruct u; try exact I; destruct H | destruct o; try exact I; destruct H]).
    destruct (found e v) as [_ [_ R]]; [exact WI | now apply ev_opaque | exact F | exact T | exact N|].
    assert (W : forall f l, calls e f l -> False).
    { intros f l C. assert (FT : fate e (rest e)) by (destruct (calls_args _ _ _ C) as [-> [-> | [a ->]]]; apply handles_fate; exact C).
      assert (EL : (forall o h, receives e o h -> callable h = false) /\ forall o, ~ passes e o) by (destruct (calls_args _ _ _ C) as [_ [-> | [a ->]]]; exact H).
      destruct EL as [E1 E2]. rewrite R in FT. inversion FT as [o' h R1 R2 | | o' P NR Q |]; [rewrite (E1 o' h R1) in R2; discriminate | now apply (E2 o')]. }
    destruct e; try discriminate; try (now destruct H).
    + apply (W e []). constructor.
    + apply (W e1 (args_of (Call e1 e2))). apply args_calls.
    + destruct o; try discriminate; destruct H.
Qed.
Lemma nothing_missed e v : unused opts callable index_name opaque e v -> within e -> find e = None -> ~ floating v.
Proof.
  intros U. induction U as [l r v U IH | l r v U IH | x v K U IH | e v K U]; intros WI N.
  - cbn [find_unhandled] in N. apply orelse_none in N as [N _]. apply IH; [|exact N]. apply (wi_part _ _ _ _ WI). constructor.
  - cbn [find_unhandled] in N. apply orelse_none in N as [_ N]. apply IH; [|exact N]. apply (wi_part _ _ _ _ WI). constructor.
  - cbn [find_unhandled] in N. rewrite K in N. apply IH; [|exact N]. apply (wi_part _ _ _ _ WI). constructor.
  - now apply (not_missed e).
Qed.
End Missed.

(** ** Reports are right *)
Lemma skip_bare e : skip e = bare e.
Proof. reflexivity. Qed.
Lemma calls_fate e f l : calls e f l -> fate e (rest e).
Proof. intros C. destruct (calls_args _ _ _ C) as [-> [-> | [a ->]]]; apply handles_fate; exact C. Qed.
Lemma passes_call e o : passes e o -> exists f l, calls e f l.
Proof. intros [f [l [C _]]]. now exists f, l. Qed.
Lemma passes_object e o o' : passes e o -> passes e o' -> o = o'.
Proof.
  intros A B. apply passes_method in A as [g [m [D M]]]. apply passes_method in B as [g' [m' [D' M']]].
  destruct (calls_callee _ _ _ _ _ D D') as [<- _]. congruence.
Qed.
Lemma passes_receives e o o' h : passes e o -> receives e o' h -> False.
Proof.
  intros A B. apply passes_method in A as [g [m [D M]]]. destruct (receives_method _ _ _ B) as [g' [m' [D' [[M' _] | [M' _]]]]];
    destruct (calls_callee _ _ _ _ _ D D') as [<- _]; rewrite M in M'; discriminate.
Qed.
Lemma call_typed e f l : calls e f l -> by_type e.
Proof. intros C. destruct (calls_args _ _ _ C) as [_ [-> | [a ->]]]; exact I. Qed.
Lemma orelse_some x y u : orelse x y = Some u -> x = Some u \/ y = Some u.
Proof. destruct x; cbn; auto. Qed.
(** The type of what is reported. *)
Lemma by_type_some e u : by_type e -> find e = Some u ->
  array_matters (check_thenables opts) (type_of e) /\ u = Unhandled e true None \/
  ~ array_matters (check_thenables opts) (type_of e) /\ matters (check_thenables opts) (type_of e) /\ rest e = Some u /\ forall x, e <> Pre UAwait x.
Proof.
  intros T. rewrite (find_typed e T). destruct (promise_array opts (type_of e)) eqn:A.
  - intros [= <-]. left. split; [now apply promise_array_iff | reflexivity].
  - intros H. right. assert (NA : ~ array_matters (check_thenables opts) (type_of e)) by (intros K; apply promise_array_iff in K; congruence).
    assert (W : forall x, e <> Pre UAwait x) by (intros x ->; discriminate H). split; [exact NA|].
    destruct (promise_like opts (type_of e)) eqn:P.
    + split; [now apply promise_like_iff|]. split; [|exact W]. destruct e; try exact H; destruct u0; try exact H; now destruct (W e).
    + destruct e; try discriminate H; destruct u0; discriminate H.
Qed.

Section Right.
Variable opaque : tree -> val -> Prop.
Variable s : tree.
Notation evals := (evals callable index_name opaque).
Notation dropped := (dropped opts callable index_name opaque).
Notation left_over := (left_over opts callable index_name opaque).
Notation within := (within index_name s).
Hypothesis full : inhabited opts type_of callable index_name opaque s.
Hypothesis promises : methods callable index_name opaque s.

Lemma not_plain v : floating v -> v <> Plain.
Proof. intros [-> | [l [-> _]]]; discriminate. Qed.
Lemma inside x e v : part_of index_name x e -> (evals x v -> left_over e v) -> left_over x v -> left_over e v.
Proof. intros P K [E | D]; [now apply K | right; now apply (dr_part _ _ _ _ x)]. Qed.
Lemma array_left e : within e -> array_matters (check_thenables opts) (type_of e) -> exists v, left_over e v /\ floating v.
Proof. intros W A. destruct (full e W) as [_ [F _]]. destruct (F A) as [l [E I]]. exists (Arr l). split; [now left | right; now exists l]. Qed.
Lemma elementary_left e : within e -> elementary e -> matters (check_thenables opts) (type_of e) -> exists v, evals e v /\ floating v.
Proof. intros W E M. destruct (full e W) as [F _]. exists (Prom false). split; [apply ev_opaque; [exact E | now apply F] | now left]. Qed.
Lemma type_bare x : within x -> type_of (bare x) = type_of x /\ within (bare x).
Proof.
  induction x; intros W; try (split; [reflexivity | exact W]). destruct (full _ W) as [_ [_ [F _]]].
  assert (W' : within x) by (apply (wi_part _ _ _ _ W); constructor). destruct (IHx W') as [E K]. cbn [bare]. rewrite E. split; [symmetry; now apply F | exact K].
Qed.
Lemma evals_bare x v : evals (bare x) v -> evals x v.
Proof. induction x; intros E; try exact E. cbn [bare] in E. constructor. now apply IHx. Qed.

Lemma sub x e : within e -> part_of index_name x e -> within x.
Proof. intros W P. now apply (wi_part _ _ _ _ W). Qed.
Lemma right_report e : clear callable index_name e -> within e -> forall u, find e = Some u -> exists v, left_over e v /\ floating v.
Proof.
  intros C. induction C as [x E | l r Cl IHl Cr IHr | o l r I Cl IHl Cr IHr | c x y Cx IHx Cy IHy | x Cx IHx | e o P Co IHo | e N1 N2 N3 N4 N5]; intros WI u H.
  - destruct (by_type_some (Par x) u I H) as [[A _] | [_ [M [_ _]]]]; [now apply (array_left _ WI)|].
    destruct (type_bare _ WI) as [TB WB]. rewrite <- TB in M. cbn [bare] in M, WB.
    destruct (elementary_left _ WB E M) as [v [V F]]. exists v. split; [left; constructor; now apply evals_bare | exact F].
  - cbn [find_unhandled] in H. apply orelse_some in H as [H | H].
    + destruct (IHl (sub l _ WI ltac:(constructor)) u H) as [v [L F]]. exists v. split; [|exact F]. apply (inside l); [constructor | intros E; right; now constructor | exact L].
    + destruct (IHr (sub r _ WI ltac:(constructor)) u H) as [v [L F]]. exists v. split; [|exact F]. apply (inside r); [constructor | intros E; left; now constructor | exact L].
  - assert (T : by_type (Bin o l r)) by (destruct I as [<- | [<- | [<- | []]]]; exact Logic.I).
    destruct (by_type_some _ u T H) as [[A _] | [_ [_ [R _]]]]; [now apply (array_left _ WI)|].
    assert (R' : find l = Some u \/ find r = Some u) by (destruct I as [<- | [<- | [<- | []]]]; now apply orelse_some). destruct R' as [R' | R'].
    + destruct (IHl (sub l _ WI ltac:(constructor)) u R') as [v [L F]]. exists v. split; [|exact F]. apply (inside l); [constructor | intros E | exact L].
      destruct I as [<- | [<- | [<- | []]]]; [right; apply dr_and; [exact E | now apply not_plain] | left; now apply ev_or_l | left; now apply ev_co_l].
    + destruct (IHr (sub r _ WI ltac:(constructor)) u R') as [v [L F]]. exists v. split; [|exact F]. apply (inside r); [constructor | intros E; left | exact L].
      destruct I as [<- | [<- | [<- | []]]]; [now apply ev_and_r | now apply ev_or_r | now apply ev_co_r].
  - destruct (by_type_some (Cond c x y) u I H) as [[A _] | [_ [_ [R _]]]]; [now apply (array_left _ WI)|]. apply orelse_some in R as [R | R].
    + destruct (IHy (sub y _ WI ltac:(constructor)) u R) as [v [L F]]. exists v. split; [|exact F]. apply (inside y); [constructor | intros E; left; now apply ev_else | exact L].
    + destruct (IHx (sub x _ WI ltac:(constructor)) u R) as [v [L F]]. exists v. split; [|exact F]. apply (inside x); [constructor | intros E; left; now apply ev_then | exact L].
  - destruct (ignore_void opts) eqn:G.
    + destruct (by_type_some (Pre UVoid x) u G H) as [[A _] | [_ [M _]]]; [now apply (array_left _ WI)|]. destruct (full _ WI) as [_ [_ [_ V]]]. now apply (V x) in M.
    + cbn [find_unhandled] in H. rewrite G in H. destruct (IHx (sub x _ WI ltac:(constructor)) u H) as [v [L F]]. exists v. split; [|exact F].
      apply (inside x); [constructor | intros E; right; now constructor | exact L].
  - destruct (passes_call _ _ P) as [f [l K]]. destruct (by_type_some e u (call_typed _ _ _ K) H) as [[A _] | [_ [_ [R _]]]]; [now apply (array_left _ WI)|].
    pose proof (calls_fate _ _ _ K) as FT. rewrite R in FT. inversion FT as [| o1 h1 R1 R2 NP RU Q | o' P' NR Q | NR NP Q].
    + now destruct (NP o).
    + rewrite (passes_object _ _ _ P' P) in Q. destruct (find o) as [w|] eqn:FO; [|discriminate]. destruct (IHo (sub _ _ WI (passes_part _ _ P)) w eq_refl) as [v [L F]]. exists v. split; [|exact F].
      assert (PO : part_of index_name o e) by (destruct P as [g [m [D N]]]; now apply (po_object _ e g o (b "finally") m)).
      apply (inside o); [exact PO | intros E; left | exact L]. destruct (promises e o v WI (or_intror P) E) as [c ->]. now apply (ev_finally _ _ _ e o).
    + now destruct (NP o).
  - assert (T : by_type e).
    { destruct e; try exact I.
      - destruct u0; try exact I; [now destruct (N4 e) | discriminate].
      - destruct o; try exact I. apply (N2 OComma e1 e2 eq_refl). now left. }
    destruct (by_type_some e u T H) as [[A _] | [_ [M [R W]]]]; [now apply (array_left _ WI)|].
    assert (EL : elementary e).
    { destruct e; try exact I.
      - now destruct (N1 e).
      - destruct u0; try exact I; [now destruct (N4 e) | now destruct (W e) | destruct T].
      - pose proof (calls_fate _ _ _ (ca_none e)) as FT. rewrite R in FT. cbn [FloatingSpec.elementary]. split; [|exact N5].
        inversion FT as [| o h R1 R2 NP RU Q | o P | NR NP Q]; subst; [intros o' h' R'; now rewrite (RU o' h' R') | now destruct (N5 o) | intros o' h' R'; now destruct (NR o' h')].
      - pose proof (calls_fate _ _ _ (args_calls e1 e2)) as FT. rewrite R in FT. cbn [FloatingSpec.elementary]. split; [|exact N5].
        inversion FT as [| o h R1 R2 NP RU Q | o P | NR NP Q]; subst; [intros o' h' R'; now rewrite (RU o' h' R') | now destruct (N5 o) | intros o' h' R'; now destruct (NR o' h')].
      - destruct o; try exact I; exfalso; (eapply N2; [reflexivity|]); cbn; auto.
      - now destruct (N3 e1 e2 e3). }
    destruct (elementary_left e WI EL M) as [v [V F]]. exists v. split; [now left | exact F].
Qed.
End Right.

(** ** Where *)
Fixpoint size (e : tree) : nat :=
  match e with
  | Atom _ => 1 | Par x | Pre _ x | Suf x _ | Member x _ | Call0 x => S (size x)
  | Call x y | Bin _ x y => S (size x + size y) | Cond x y z => S (size x + size y + size z)
  end%nat.
Lemma passes_size e o : passes e o -> (size o < size e)%nat.
Proof.
  intros [f [l [C N]]]. destruct (calls_args _ _ _ C) as [_ [-> | [a ->]]]; destruct N; cbn [size]; lia.
Qed.
Lemma receives_call e o h : receives e o h -> match e with Call0 _ | Call _ _ => True | _ => False end.
Proof. intros R. destruct (receives_method _ _ _ R) as [f [l [C _]]]. destruct (calls_args _ _ _ C) as [_ [-> | [a ->]]]; exact I. Qed.
Lemma where_found : forall n e, (size e < n)%nat -> forall u, find e = Some u ->
  place e (u_node u) /\
  (u_array u = false -> matters (check_thenables opts) (type_of (u_node u))) /\
  exists m, finallys index_name (u_node u) m /\
    (u_array u = true -> array_matters (check_thenables opts) (type_of m)) /\
    (u_array u = false -> matters (check_thenables opts) (type_of m)) /\
    (forall h, u_handler u = Some h -> callable h = false /\ exists o, receives m o h) /\
    (u_array u = false -> forall o h, receives m o h -> u_handler u = Some h).
Proof.
  induction n as [|n IH]; intros e L u H; [lia|].
  assert (SUB : forall x, (size x < size e)%nat -> find x = Some u -> (forall k, place x k -> place e k) -> _) by
    (intros x S Fx K; destruct (IH x ltac:(lia) u Fx) as [P Q]; exact (conj (K _ P) Q)). cbn beta in SUB.
  assert (HERE : by_type e -> array_matters (check_thenables opts) (type_of e) /\ u = Unhandled e true None \/
     ~ array_matters (check_thenables opts) (type_of e) /\ matters (check_thenables opts) (type_of e) /\ rest e = Some u /\ (forall x, e <> Pre UAwait x)) by (intros T; now apply by_type_some).
  assert (ARR : u = Unhandled e true None -> array_matters (check_thenables opts) (type_of e) -> place e (u_node u) /\
    (u_array u = false -> matters (check_thenables opts) (type_of (u_node u))) /\
    exists m, finallys index_name (u_node u) m /\
    (u_array u = true -> array_matters (check_thenables opts) (type_of m)) /\
    (u_array u = false -> matters (check_thenables opts) (type_of m)) /\
    (forall h, u_handler u = Some h -> callable h = false /\ exists o, receives m o h) /\
    (u_array u = false -> forall o h, receives m o h -> u_handler u = Some h)).
  { intros -> A. cbn. split; [constructor|]. split; [discriminate|]. exists e. split; [constructor|]. split; [auto|]. repeat split; discriminate. }
  assert (ELE : u = Unhandled e false None -> (forall o h, ~ receives e o h) -> matters (check_thenables opts) (type_of e) -> place e (u_node u) /\
    (u_array u = false -> matters (check_thenables opts) (type_of (u_node u))) /\
    exists m, finallys index_name (u_node u) m /\
    (u_array u = true -> array_matters (check_thenables opts) (type_of m)) /\
    (u_array u = false -> matters (check_thenables opts) (type_of m)) /\
    (forall h, u_handler u = Some h -> callable h = false /\ exists o, receives m o h) /\
    (u_array u = false -> forall o h, receives m o h -> u_handler u = Some h)).
  { intros -> NR A. cbn. split; [constructor|]. split; [auto|]. exists e. split; [constructor|]. split; [discriminate|]. split; [auto|]. split; [discriminate|]. intros _ o h R. now destruct (NR o h). }
  assert (CAL : forall f l, calls e f l -> place e (u_node u) /\
    (u_array u = false -> matters (check_thenables opts) (type_of (u_node u))) /\
    exists m, finallys index_name (u_node u) m /\
    (u_array u = true -> array_matters (check_thenables opts) (type_of m)) /\
    (u_array u = false -> matters (check_thenables opts) (type_of m)) /\
    (forall h, u_handler u = Some h -> callable h = false /\ exists o, receives m o h) /\
    (u_array u = false -> forall o h, receives m o h -> u_handler u = Some h)).
  { intros f l C. destruct (HERE (call_typed _ _ _ C)) as [[A ->] | [_ [M [R _]]]]; [now apply ARR|].
    pose proof (calls_fate _ _ _ C) as FT. rewrite R in FT. inversion FT as [| o h R1 R2 NP RU Q | o P NR Q | NR NP Q].
    - cbn. split; [constructor|]. split; [auto|]. exists e. split; [constructor|]. split; [discriminate|]. split; [auto|]. split; [intros h' [= <-]; split; [exact R2 | now exists o]|]. intros _ o' h' R'. now rewrite (RU o' h' R').
    - destruct (find o) as [w|] eqn:FO; [|discriminate]. injection Q as <-. cbn. pose proof (passes_size _ _ P).
      destruct (IH o ltac:(lia) w FO) as [PL [_ [m [FI REST]]]]. split; [constructor|]. split; [auto|]. exists m. split; [|exact REST].
      apply (fi_next _ e o m P). now apply (fi_place _ o (u_node w)).
    - symmetry in Q. rewrite <- Q. now apply ELE. }
  destruct e.
  all: try (destruct (HERE I) as [[A ->] | [_ [M [R _]]]]; [now apply ARR | apply ELE; [now injection R | intros ? ? RC; apply receives_call in RC; contradiction | exact M]]).
  - destruct u0; try (destruct (HERE I) as [[A ->] | [_ [M [R W]]]]; [now apply ARR | try (now destruct (W e)); apply ELE; [now injection R | intros ? ? RC; apply receives_call in RC; contradiction | exact M]]).
    + destruct (ignore_void opts) eqn:G.
      * destruct (HERE G) as [[A ->] | [_ [M [R W]]]]; [now apply ARR | apply ELE; [now injection R | intros ? ? RC; apply receives_call in RC; contradiction | exact M]].
      * cbn [find_unhandled] in H. rewrite G in H. apply (SUB e); [cbn [size]; lia | exact H | intros k P; now constructor].
    + destruct (HERE I) as [[A ->] | [_ [M [R W]]]]; [now apply ARR | now destruct (W e)].
    + discriminate H.
  - apply (CAL e []). constructor.
  - apply (CAL e1 (args_of (Call e1 e2))). apply args_calls.
  - cbn [size] in SUB.
    assert (LOG : In o [OAnd; OOr; OCoalesce] -> rest (Bin o e1 e2) = Some u -> place (Bin o e1 e2) (u_node u) /\
    (u_array u = false -> matters (check_thenables opts) (type_of (u_node u))) /\
    exists m, finallys index_name (u_node u) m /\
    (u_array u = true -> array_matters (check_thenables opts) (type_of m)) /\
    (u_array u = false -> matters (check_thenables opts) (type_of m)) /\
    (forall h, u_handler u = Some h -> callable h = false /\ exists o, receives m o h) /\
    (u_array u = false -> forall o h, receives m o h -> u_handler u = Some h)).
    { intros J R. assert (R' : find e1 = Some u \/ find e2 = Some u) by (destruct J as [<- | [<- | [<- | []]]]; now apply orelse_some).
      destruct R' as [R' | R']; [apply (SUB e1) | apply (SUB e2)]; try lia; try exact R'; intros k P; apply pl_logic; auto. }
    destruct o; try (destruct (HERE I) as [[A ->] | [_ [M [R _]]]]; [now apply ARR | first [apply LOG; [cbn; tauto | exact R] | apply ELE; [now injection R | intros ? ? RC; apply receives_call in RC; contradiction | exact M]]]).
    cbn [find_unhandled] in H. apply orelse_some in H as [H | H]; [apply (SUB e1) | apply (SUB e2)]; try lia; try exact H; intros k P; constructor; auto.
  - cbn [size] in SUB. destruct (HERE I) as [[A ->] | [_ [M [R _]]]]; [now apply ARR|]. apply orelse_some in R as [R | R]; [apply (SUB e3) | apply (SUB e2)]; try lia; try exact R; intros k P; constructor; auto.
Qed.
End Rule.

(** ** Suggestions *)
Lemma strong_level e : strong e = true -> (15 <= level e)%nat.
Proof. destruct e; cbn; try discriminate; try lia. destruct s; cbn; try discriminate; lia. Qed.
Lemma closed_print e : (forall x, e <> Par x) -> closed e = print e ++ [TClose].
Proof. destruct e; try reflexivity. intros N. now destruct (N e). Qed.
Lemma reads_prefixed u e : wf e -> pl u = 14%nat -> exists new, reads (prefixed u e) new /\ before u e new.
Proof.
  intros W P. unfold prefixed. destruct (strong e) eqn:S; eexists.
  - split; [|left; reflexivity]. change (TPre u :: print e) with (print (Pre u e)). apply reads_print. constructor; [exact W|]. apply strong_level in S. lia.
  - split; [|right; split; [reflexivity | intros K; destruct K; discriminate]]. rewrite closed_print by (intros x ->; discriminate). change (TPre u :: TOpen :: print e ++ [TClose]) with (print (Pre u (Par e))). apply reads_print.
    constructor; [now constructor|]. rewrite P. cbn. lia.
Qed.
Lemma awaited_some e l : awaited e = Some l -> exists t, swapped e t /\ l = print t /\ (wf e -> wf t).
Proof.
  revert l. induction e; intros l H; try discriminate.
  - cbn [awaited] in H. destruct (awaited e) as [k|] eqn:A; [|discriminate]. injection H as <-. destruct (IHe k eq_refl) as [t [S [-> W]]].
    exists (Par t). split; [now constructor|]. split; [reflexivity|]. intros V. inversion V; subst. constructor. now apply W.
  - destruct u; try discriminate. injection H as <-. exists (Pre UAwait e). split; [constructor|]. split; [reflexivity|]. intros V. inversion V; subst. now constructor.
Qed.
Lemma awaited_none e : awaited e = None -> forall t, ~ swapped e t.
Proof.
  induction e; intros H t S; inversion S; subst; [|discriminate]. cbn [awaited] in H. destruct (awaited e) eqn:A; [discriminate|]. now apply (IHe eq_refl y).
Qed.
Lemma swapped_bare e t : swapped e t -> exists x, bare e = Pre UVoid x /\ bare t = Pre UAwait x.
Proof. intros S. induction S; [now exists x|]. exact IHS. Qed.
