(** Worlds of promises in which the claims of C55 can be computed; only for the examples and the refutations of PropsFloating.v. *)
From Coq Require Import String Ascii Bool List ZArith Lia.
From Verif Require Import Base EngineProofs Js JsProofs Floating FloatingSpec FloatingProofs.
Import ListNotations.
Open Scope Z_scope.

Definition tree_eq_dec (x y : tree) : {x = y} + {x <> y}.
Proof. repeat decide equality. Defined.
Definition is_in (l : list tree) (e : tree) : bool := existsb (fun x => if tree_eq_dec x e then true else false) l.
Definition Id (n : string) : tree := Atom (AId (b n)).
Definition a_promise : ptype := PType false [Part true None NoElements].
Definition a_number : ptype := PType false [Part false None NoElements].

(** [promises]: what has the type of a promise; [functions]: what can be called; [uncaught]: what gives a promise that is not handled. *)
Section World.
Variables (opts : options) (promises functions uncaught : list tree).
Definition types (e : tree) : ptype := if is_in promises e then a_promise else a_number.
Definition world (e : tree) (v : val) : Prop := v = if is_in uncaught e then Prom false else Plain.
Definition unnamed (_ : Z) : option bstr := None.
Notation evals := (evals (is_in functions) unnamed world).
Notation dropped := (dropped opts (is_in functions) unnamed world).

Definition own (e : tree) : val := if is_in uncaught e then Prom false else Plain.
Definition is_prom (v : val) : bool := match v with Prom _ => true | _ => false end.
Definition of_call (e f : tree) (args : list tree) (v : list val) : list val :=
  match handles (is_in functions) unnamed (fun _ => None) e f args with
  | Some _ => [own e]
  | None => match f with
            | Member _ n => (if beqb n (b "finally") then filter is_prom v else map (fun _ => Prom true) (filter is_prom v)) ++ (if forallb is_prom v then [] else [own e])
            | _ => []
            end
  end.
Fixpoint values (e : tree) : list val :=
  match e with
  | Par x => values x
  | Bin OComma _ r => values r
  | Pre UVoid _ => [Plain]
  | Pre UAwait _ | Pre (UAssign _ _) _ => if is_in uncaught e then [] else [Plain]
  | Cond _ x y => values x ++ values y
  | Bin OAnd l r => filter (fun v => negb (is_prom v)) (values l) ++ values r
  | Bin OOr l r | Bin OCoalesce l r => values l ++ values r
  | Call0 f => of_call e f [] (match f with Member o _ => values o | _ => [] end)
  | Call f a => of_call e f (arguments a) (match f with Member o _ => values o | _ => [] end)
  | _ => [own e]
  end.
Definition nothing : tree -> ptype := fun _ => PType false [].
Lemma nothing_found e : find_unhandled opts nothing (is_in functions) unnamed e = None.
Proof.
  assert (A : promise_like opts (PType false []) = false) by (cbn; now destruct (check_thenables opts)).
  induction e; cbn [find_unhandled nothing]; unfold nothing in *; rewrite ?A; try reflexivity.
  - match goal with |- context [Pre ?u _] => destruct u end; try reflexivity. now destruct (ignore_void opts).
  - destruct o; try reflexivity. now rewrite IHe1, IHe2.
Qed.
Lemma call_values e f l : calls e f l -> values e = of_call e f l (match f with Member o _ => values o | _ => [] end).
Proof. intros C. destruct (calls_args _ _ _ C) as [-> [-> | [a ->]]]; reflexivity. Qed.
Lemma handles_same e f l :
  handles (is_in functions) unnamed (fun _ => None) e f l = handles (is_in functions) unnamed (find_unhandled opts nothing (is_in functions) unnamed) e f l.
Proof. unfold handles. destruct (method _ _) as [[o n]|]; [|reflexivity]. now rewrite nothing_found. Qed.
Lemma call_fate e f l : calls e f l -> fate opts nothing (is_in functions) unnamed e (handles (is_in functions) unnamed (fun _ => None) e f l).
Proof. intros C. rewrite handles_same. now apply handles_fate. Qed.
Lemma member_of f o n : named unnamed f o n -> f = Member o n.
Proof. intros [| ? ? ? H]; [reflexivity | discriminate]. Qed.
Lemma values_complete e v : evals e v -> In v (values e).
Proof.
  intros E. induction E; cbn [values].
  - exact IHE.
  - exact IHE.
  - now left.
  - unfold world in H. destruct (is_in uncaught _); subst; [now destruct (H0 false) | now left].
  - unfold world in H. destruct (is_in uncaught _); subst; [exfalso; apply H0; now left | now left].
  - apply in_or_app. now left.
  - apply in_or_app. now right.
  - apply in_or_app. left. apply filter_In. now split.
  - apply in_or_app. now right.
  - apply in_or_app. now left.
  - apply in_or_app. now right.
  - apply in_or_app. now left.
  - apply in_or_app. now right.
  - assert (K : exists f n l, calls e f l /\ f = Member o n /\ n <> b "finally").
    { destruct H as [e f o h l C N S | e f o x h l C N S T]; exists f; eexists; eexists; (split; [exact C|]); (split; [apply member_of; exact N | discriminate]). }
    destruct K as [f [n [l [C [-> N]]]]]. rewrite (call_values _ _ _ C). unfold of_call.
    pose proof (call_fate _ _ _ C) as FT. inversion FT as [o' h' R1 R2 Q | o' h' R1 R2 NP RU Q | o' P NR Q | NR NP Q].
    + destruct (beqb n (b "finally")) eqn:B; [apply beqb_eq in B; contradiction|]. apply in_or_app. left. apply in_map_iff. exists (Prom c). split; [reflexivity | apply filter_In; now split].
    + rewrite (RU o h H) in H0. congruence.
    + now destruct (NR o h).
    + now destruct (NR o h).
  - destruct H as [f [l [C N]]]. pose proof (member_of _ _ _ N) as ->. rewrite (call_values _ _ _ C). unfold of_call.
    change (handles (is_in functions) unnamed (fun _ => None) e (Member o (b "finally")) l) with (@None unhandled).
    rewrite beqb_refl. apply in_or_app. left. apply filter_In. now split.
  - assert (K : exists f n l, calls e f l /\ f = Member o n).
    { destruct H as [[h H] | [f [l [C N]]]].
      - destruct H as [e f o h l C N S | e f o x h l C N S T]; exists f; eexists; eexists; (split; [exact C | apply member_of; exact N]).
      - exists f. eexists. exists l. split; [exact C | apply member_of; exact N]. }
    destruct K as [f [n [l [C ->]]]]. rewrite (call_values _ _ _ C). unfold of_call. destruct (handles _ _ _ _ _ _); [left; symmetry; exact H1|].
    apply in_or_app. right. destruct (forallb is_prom (values o)) eqn:FB; [|left; symmetry; exact H1].
    rewrite forallb_forall in FB. specialize (FB w IHE). destruct w; try discriminate. now destruct (H0 caught).
  - assert (K : forall f l, calls e f l -> In v (values e)).
    { intros f l C. assert (EL : (forall o h, receives unnamed e o h -> is_in functions h = false) /\ forall o, ~ passes unnamed e o) by
        (destruct (calls_args _ _ _ C) as [_ [-> | [a ->]]]; exact H). destruct EL as [E1 E2].
      rewrite (call_values _ _ _ C). unfold of_call. pose proof (call_fate _ _ _ C) as FT. destruct (handles _ _ _ _ _ _); [left; symmetry; exact H0|].
      inversion FT as [o' h' R1 R2 Q | | o' P' NR Q |]; [rewrite (E1 _ _ R1) in R2; discriminate | now destruct (E2 o')]. }
    destruct e; try (now destruct H); try (left; symmetry; exact H0).
    + destruct u; try (now destruct H); left; symmetry; exact H0.
    + apply (K e []). constructor.
    + apply (K e1 (args_of (Call e1 e2))). apply args_calls.
    + destruct o; try (now destruct H); left; symmetry; exact H0.
Qed.

Definition parts (e : tree) : list tree :=
  match e with
  | Par x | Pre _ x | Call0 (Member x _) | Call (Member x _) _ => [x]
  | Bin _ l r => [l; r]
  | Cond c x y => [c; x; y]
  | _ => []
  end.
Lemma parts_complete x e : part_of unnamed x e -> In x (parts e).
Proof.
  intros P. inversion P as [| | | | | | | ? f o n l C N]; subst; cbn; auto.
  pose proof (member_of _ _ _ N) as ->. destruct (calls_args _ _ _ C) as [_ [-> | [a ->]]]; now left.
Qed.
Fixpoint subs (fuel : nat) (e : tree) : list tree := match fuel with O => [] | S f => e :: flat_map (subs f) (parts e) end.
Lemma parts_size x e : In x (parts e) -> (size x < size e)%nat.
Proof.
  destruct e; cbn [parts]; try contradiction.
  1, 2: intros [-> | []]; cbn [size]; lia.
  - destruct e; try contradiction. intros [-> | []]; cbn [size]; lia.
  - destruct e1; try contradiction. intros [-> | []]; cbn [size]; lia.
  - intros [-> | [-> | []]]; cbn [size]; lia.
  - intros [-> | [-> | [-> | []]]]; cbn [size]; lia.
Qed.
Definition all (e : tree) : list tree := subs (S (size e)) e.
Lemma subs_part : forall n e, (size e < n)%nat -> forall y, In y (subs n e) -> forall x, In x (parts y) -> In x (subs n e).
Proof.
  induction n as [|n IH]; intros e L y H x P; [lia|]. cbn [subs] in *. right. apply in_flat_map. destruct H as [<- | H].
  - exists x. split; [exact P|]. apply parts_size in P. destruct n as [|n]; [lia|]. now left.
  - apply in_flat_map in H as [z [Z H]]. exists z. split; [exact Z|]. apply parts_size in Z as L'. apply (IH z ltac:(lia) y H x P).
Qed.
Lemma within_all e x : within unnamed e x -> In x (all e).
Proof.
  intros W. induction W as [|x y W IH P]; [now left|]. unfold all in *. apply (subs_part (S (size e)) e (Nat.lt_succ_diag_r _) y IH). now apply parts_complete.
Qed.
Definition is_plain (v : val) : bool := match v with Plain => true | _ => false end.
Definition is_float (v : val) : bool := match v with Prom false => true | _ => false end.
Definition is_arr (v : val) : bool := match v with Arr _ => true | _ => false end.
Definition drops (e : tree) : list val :=
  match e with
  | Bin OComma l _ => values l
  | Bin OAnd l _ => filter (fun v => negb (is_plain v)) (values l)
  | Pre UVoid x => if ignore_void opts then [] else values x
  | _ => []
  end.
Lemma drops_complete e x v : dropped x v -> within unnamed e x -> exists y, In y (all e) /\ In v (drops y).
Proof.
  intros D. induction D as [l r v E | l r v E N | x v K E | x y v P D IH]; intros W.
  - exists (Bin OComma l r). split; [now apply within_all | now apply values_complete].
  - exists (Bin OAnd l r). split; [now apply within_all|]. apply filter_In. split; [now apply values_complete | now destruct v].
  - exists (Pre UVoid x). split; [now apply within_all|]. cbn [drops]. rewrite K. now apply values_complete.
  - apply IH. now apply (wi_part _ _ _ _ W).
Qed.
(** Nothing floats. *)
Definition calm (e : tree) : bool :=
  forallb (fun v => negb (is_float v) && negb (is_arr v)) (values e) && forallb (fun x => forallb (fun v => negb (is_float v) && negb (is_arr v)) (drops x)) (all e).
Lemma calm_right e v : calm e = true -> left_over opts (is_in functions) unnamed world e v -> ~ floating v.
Proof.
  intros C L F. apply andb_true_iff in C as [C1 C2]. rewrite forallb_forall in C1, C2.
  assert (B : negb (is_float v) && negb (is_arr v) = true).
  { destruct L as [E | D]; [apply C1; now apply values_complete|]. destruct (drops_complete e e v D) as [y [I J]]; [constructor|].
    specialize (C2 y I). rewrite forallb_forall in C2. now apply C2. }
  destruct F as [-> | [l [-> _]]]; discriminate.
Qed.
Lemma types_matter t e : matters t (types e) <-> is_in promises e = true.
Proof.
  unfold types. destruct (is_in promises e); split; intros H; try reflexivity; try discriminate.
  - split; [discriminate | left]. exists None, NoElements. now left.
  - destruct H as [_ [[th [el [I | []]]] | [_ [q [pp [el [sg [mo [[I | []] _]]]]]]]]]; discriminate.
Qed.
Lemma types_array t e : ~ array_matters t (types e).
Proof.
  unfold types. destruct (is_in promises e); intros [q [th [el [x [[I | []] [_ [E | [ts [E _]]]]]]]]]; subst; discriminate.
Qed.
Definition right_b (e : tree) : bool := forallb (fun x => forallb (fun v => negb (is_arr v) && implb (is_float v) (is_in promises x)) (values x)) (all e).
Lemma right_holds e : right_b e = true -> right opts types (is_in functions) unnamed world e.
Proof.
  intros H x W. apply within_all in W. unfold right_b in H. rewrite forallb_forall in H. specialize (H x W). rewrite forallb_forall in H. split.
  - intros E. apply values_complete in E. specialize (H _ E). apply types_matter. exact H.
  - intros l E. apply values_complete in E. specialize (H _ E). discriminate.
Qed.
Definition object (e : tree) : list (tree * bstr) := match e with Call0 (Member o n) | Call (Member o n) _ => [(o, n)] | _ => [] end.
Definition methods_b (e : tree) : bool :=
  forallb (fun x => forallb (fun y => implb (beqb (snd y) (b "then") || beqb (snd y) (b "catch") || beqb (snd y) (b "finally")) (forallb is_prom (values (fst y)))) (object x)) (all e).
Lemma methods_hold e : methods_b e = true -> methods (is_in functions) unnamed world e.
Proof.
  intros H x o w W K E. apply within_all in W. unfold methods_b in H. rewrite forallb_forall in H. specialize (H x W). rewrite forallb_forall in H.
  assert (Q : exists n, In (o, n) (object x) /\ (n = b "then" \/ n = b "catch" \/ n = b "finally")).
  { destruct K as [[h K] | [f [l [C N]]]].
    - destruct K as [x f o h l C N S | x f o y h l C N S T]; pose proof (member_of _ _ _ N) as ->; [exists (b "catch") | exists (b "then")]; (split; [|auto]);
        destruct (calls_args _ _ _ C) as [_ [-> | [a ->]]]; now left.
    - pose proof (member_of _ _ _ N) as ->. exists (b "finally"). split; [|auto]. destruct (calls_args _ _ _ C) as [_ [-> | [a ->]]]; now left. }
  destruct Q as [n [I M]]. specialize (H (o, n) I). cbn [fst snd] in H. apply values_complete in E.
  assert (P : forallb is_prom (values o) = true) by (destruct M as [-> | [-> | ->]]; exact H). rewrite forallb_forall in P. specialize (P w E). destruct w; try discriminate. eauto.
Qed.
Definition inhabited_b (e : tree) : bool :=
  forallb (fun x => match x with
                    | Par y => eqb (is_in promises x) (is_in promises y)
                    | Pre UVoid _ => negb (is_in promises x)
                    | Cond _ _ _ | Bin OComma _ _ | Bin OAnd _ _ | Bin OOr _ _ | Bin OCoalesce _ _ | Pre UAwait _ | Pre (UAssign _ _) _ => true
                    | Call0 f => implb (is_in promises x) (is_in uncaught x || negb match handles (is_in functions) unnamed (fun _ => None) x f [] with Some _ => true | None => false end)
                    | Call f a => implb (is_in promises x) (is_in uncaught x || negb match handles (is_in functions) unnamed (fun _ => None) x f (arguments a) with Some _ => true | None => false end)
                    | _ => implb (is_in promises x) (is_in uncaught x)
                    end) (all e).
Lemma inhabited_holds e : inhabited_b e = true -> inhabited opts types (is_in functions) unnamed world e.
Proof.
  intros H x W. apply within_all in W. unfold inhabited_b in H. rewrite forallb_forall in H. specialize (H x W). split; [|split; [|split]].
  - intros E M. apply types_matter in M.
    assert (K : forall f l, calls x f l -> is_in uncaught x || negb match handles (is_in functions) unnamed (fun _ => None) x f l with Some _ => true | None => false end = true -> world x (Prom false)).
    { intros f l C B. assert (EL : (forall o h, receives unnamed x o h -> is_in functions h = false) /\ forall o, ~ passes unnamed x o) by
        (destruct (calls_args _ _ _ C) as [_ [-> | [a ->]]]; exact E). destruct EL as [E1 E2].
      unfold world. destruct (is_in uncaught x); [reflexivity|]. pose proof (call_fate _ _ _ C) as FT. destruct (handles _ _ _ _ _ _); [discriminate|].
      inversion FT as [o' h' R1 R2 Q | | o' P' NR Q |]; [rewrite (E1 _ _ R1) in R2; discriminate | now destruct (E2 o')]. }
    assert (L : is_in uncaught x = true -> world x (Prom false)) by (intros U; unfold world; now rewrite U).
    destruct x; try (now destruct E); rewrite ?M in H; cbn [implb] in H; try (apply L; exact H).
    + match goal with |- context [Pre ?u _] => destruct u end; try (now destruct E); rewrite ?M in H; cbn [implb] in H; apply L; exact H.
    + apply (K x []); [constructor | exact H].
    + apply (K x1 (arguments x2)); [apply args_calls | exact H].
    + destruct o; try (now destruct E); rewrite ?M in H; cbn [implb] in H; apply L; exact H.
  - intros A. now apply types_array in A.
  - intros y ->. apply eqb_prop in H. unfold types. now rewrite H.
  - intros y -> M. apply types_matter in M. rewrite M in H. discriminate.
Qed.
End World.
