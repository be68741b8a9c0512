(** When nodes are taken for the same, and which chains of && are reported. *)
From Coq Require Import String Ascii Bool List ZArith Lia.
From Verif Require Import Base EngineProofs OptChain OptChainSpec OptChainProofs.
Import ListNotations.
Open Scope nat_scope.

Lemma form_unwrap e : form (unwrap e) = form e.
Proof. induction e; cbn; auto. Qed.
Lemma unwrap_shape e : match unwrap e with Paren _ | NonNull _ => False | _ => True end.
Proof. induction e; cbn; auto. Qed.
Lemma all2_iff {A B} (f : A -> A -> bool) (P : A -> Prop) (g : A -> B) : (forall x y, f x y = true <-> P x /\ g x = g y) ->
  forall l m, all2 f l m = true <-> Forall P l /\ map g l = map g m.
Proof.
  intros H. induction l as [|x l IH]; intros [|y m]; cbn; try (split; [easy|intros [_ ?]; easy]).
  rewrite andb_true_iff, H, IH. split.
  - intros [[P1 E1] [P2 E2]]. split; [now constructor|]. congruence.
  - intros [P1 E]. inversion P1; subst. injection E as E1 E2. auto.
Qed.
Lemma ty_same_iff x y : ty_same x y = true <-> known_ty x /\ form_ty x = form_ty y.
Proof.
  destruct x, y; cbn; try (split; [easy|intros [? ?]; easy]).
  - rewrite beqb_eq. split; [intros ->; auto|]. intros [_ E]. now injection E.
  - rewrite beqb_eq. split; [intros ->; auto|]. intros [_ E]. now injection E.
Qed.
Lemma tys_same_iff t u : opt2 (all2 ty_same) t u = true <-> (match t with Some l => Forall known_ty l | None => True end) /\ option_map (map form_ty) t = option_map (map form_ty) u.
Proof.
  destruct t as [l|], u as [m|]; cbn; try (split; [easy|intros [? ?]; easy]). rewrite (all2_iff _ _ _ ty_same_iff). split; [intros [? ->]; auto|]. intros [? E]. injection E. auto.
Qed.
Lemma lits_iff (l m : list bstr) : all2 beqb l m = true <-> l = m.
Proof.
  rewrite (all2_iff beqb (fun _ => True) (fun x => x)); [|intros; rewrite beqb_eq; tauto]. rewrite !map_id. split; [tauto|]. intros ->. split; [|easy]. clear. induction m; constructor; auto.
Qed.
Lemma op_eqb_iff o k : op_eqb o k = true <-> o = k.
Proof. split; [apply op_eqb_eq|]. intros ->. apply op_eqb_refl. Qed.
Lemma pre_eqb_iff p q : pre_eqb p q = true <-> p = q.
Proof. split; [|intros ->; apply pre_eqb_refl]. destruct p, q; cbn; try easy; intro H; apply beqb_eq in H; now subst. Qed.
Lemma same_iff_both : (forall a c, same a c = true <-> readable a /\ form a = form c) /\ (forall a c, same_list a c = true <-> readables a /\ forms a = forms c).
Proof.
  apply expr_both.
  all: try (intros; cbn [same readable form]; match goal with H : forall c, same ?e c = true <-> _ |- same ?e _ = true <-> _ => apply H end; fail).
  all: intros; try (match goal with |- same _ ?c = true <-> _ => rewrite <- (form_unwrap c); cbn [same]; pose proof (unwrap_shape c); destruct (unwrap c) end).
  all: try (match goal with |- same_list _ ?c = true <-> _ => destruct c end).
  all: try contradiction.
  all: cbn [same same_list form forms readable readables].
  all: try (split; [intro; discriminate|intros [? ?]; (discriminate || contradiction)]; fail).
  all: rewrite ?andb_true_iff, ?beqb_eq, ?op_eqb_iff, ?pre_eqb_iff, ?tys_same_iff, ?lits_iff; unfold name_text;
    repeat match goal with H : forall c, same _ c = true <-> _ |- _ => rewrite H; clear H | H : forall c, same_list _ c = true <-> _ |- _ => rewrite H; clear H end.
  all: try (split; [intros; repeat match goal with H : _ /\ _ |- _ => destruct H end; subst; repeat split; auto; congruence|intros [? E]; injection E as ?; subst; tauto]).
  all: easy.
Qed.
Lemma same_iff a c : same a c = true <-> readable a /\ form a = form c.
Proof. apply same_iff_both. Qed.
Lemma prefix_iff s : forall l, prefix s l = true <-> reads_first s l.
Proof.
  unfold reads_first. induction l; cbn [prefix]; rewrite orb_true_iff, same_iff.
  all: match goal with |- _ \/ false = true <-> _ => split; [intros [[H1 H2]|H]; [eexists; split; [apply b_self|easy]|discriminate]|intros (a & B & H1 & H2); inversion B; subst; left; easy] | _ => idtac end.
  all: match goal with IH : prefix _ ?o = true <-> _ |- context[prefix _ ?o] => rewrite IH end.
  all: (split; [intros [[H1 H2]|(a & B & H)]; [eexists; split; [apply b_self|easy]|exists a; split; [now constructor|easy]]|]).
  all: intros (a & B & H1 & H2); inversion B; subst; [left; easy|right; eauto].
Qed.
Lemma skip_not_paren e : match skip e with Paren _ => False | _ => True end.
Proof. induction e; cbn; auto. Qed.
Lemma single_paren o e : single o (Paren e) <-> single o e.
Proof. unfold single. now cbn [skip]. Qed.
Lemma spine_flat o : forall e, flat o e (leaves (spine o e)).
Proof.
  assert (LA : forall a c, leaves (a ++ c) = leaves a ++ leaves c).
  { induction a as [|[] a IH]; intro c; cbn; auto. now rewrite IH. }
  induction e; try (cbn; apply fl_one; intros l r; cbn; discriminate).
  - cbn [spine]. destruct (skip e) eqn:E; try (apply fl_one; intros l r; cbn [skip]; rewrite E; discriminate).
    destruct (op_eqb o0 o) eqn:K.
    + apply op_eqb_eq in K. subst. cbn [leaves]. rewrite LA. cbn [leaves]. rewrite app_nil_r. eapply fl_paren; eauto.
    + apply fl_one. intros a c. cbn [skip]. rewrite E. intro X. injection X as -> _ _. now rewrite op_eqb_refl in K.
  - cbn [spine]. destruct (op_eqb o0 o) eqn:K.
    + apply op_eqb_eq in K. subst. rewrite LA. cbn [leaves]. now apply fl_op.
    + apply fl_one. intros a c X. cbn [skip] in X. injection X as -> _ _. now rewrite op_eqb_refl in K.
Qed.
Lemma skip_skip e : skip (skip e) = skip e.
Proof. induction e; cbn; auto. Qed.
Lemma check_about k n o l r e v pl ty_pl t a p : (e = l \/ e = r) -> unwrap n = Bin o l r -> parse_check k o e v pl ty_pl = Some (t, a, p) -> about n a.
Proof.
  intros H U. unfold parse_check.
  assert (S : about n (skip e)) by (destruct H; subst; [eapply ab_left|eapply ab_right]; exact U).
  assert (T : forall x, skip e = Typeof x -> about n x) by (intros x X; destruct H; subst; [eapply ab_typeof_left|eapply ab_typeof_right]; eauto).
  destruct (match skip e with Typeof x => _ | _ => None end) as [q|] eqn:Q.
  - destruct (skip e) eqn:E; try discriminate. destruct v; try discriminate. destruct (_ && _); [|discriminate]. injection Q as <-. intro X. injection X as <- <- <-. now apply T.
  - repeat match goal with |- (if ?c then _ else _) = _ -> _ => destruct c | |- match o with _ => _ end = _ -> _ => destruct o end; intro X; try discriminate; injection X as <- <- <-; exact S.
Qed.
Definition inner (i : nat) (n u : expr) : operand :=
  let invalid := Operand i Invalid n n Whole in
  let of r := match r with Some (t, e, p) => Operand i t n e p | None => invalid end in
  match u with
  | Bin o l r =>
      let check :=
        if is_nullish r || is_str r then parse_check true o l r OnLeft TypeofLeft
        else if is_nullish l || is_str l then parse_check true o r l OnRight TypeofRight
        else None in
      match check with Some c => of (Some c) | None => of (parse_comparison o l r) end
  | Pre Not e => if is_this e then invalid else Operand i NegAnd n e Negated
  | _ => Operand i Plain n u Whole
  end.
Lemma parse_inner i n : parse true i n = inner i n (unwrap n) \/ typ (parse true i n) = Invalid.
Proof.
  unfold parse. destruct (is_this _); [now right|]. fold (inner i n (unwrap n)).
  destruct (strip_base (unwrap n)); try (now left). match goal with |- context[match ?o with And => _ | _ => _ end] => destruct o end; (now left) || (now right).
Qed.
Lemma inner_about i n : chain_type (typ (inner i n (unwrap n))) -> about n (compared (inner i n (unwrap n))).
Proof.
  pose proof (ab_self n) as AS. unfold inner. destruct (unwrap n) eqn:U; try (intros _; exact AS).
  - set (c := if is_nullish _ || _ then _ else _). destruct c as [[[t a] p]|] eqn:C; unfold c in C; clear c.
    + intros _. cbn [compared]. destruct (_ || _); [eapply check_about; [left; reflexivity|exact U|exact C]|]. destruct (_ || _); [|discriminate]. eapply check_about; [right; reflexivity|exact U|exact C].
    + unfold parse_comparison. destruct o; try easy; (destruct (_ && _); [easy|]; destruct (is_access (skip e2)); [intros _; eapply ab_right; exact U|]; destruct (is_access (skip e1)); [intros _; eapply ab_left; exact U|easy]).
  - destruct p; try (intros _; exact AS). now destruct (is_this e).
Qed.
Lemma parse_about i n : chain_type (typ (parse true i n)) -> about n (compared (parse true i n)).
Proof. destruct (parse_inner i n) as [-> | ->]; [apply inner_about|easy]. Qed.

Section Reports.
Variables (opts : options) (type_at : nat -> expr -> ty) (undeclared : nat -> bool) (width : part -> nat).
Lemma consecutive_linked c : linked opts c -> consecutive reads_first (map compared c).
Proof.
  induction c as [|o c IH]; [easy|]. destruct c as [|o' c]; [easy|]. intros [[P _] L]. cbn [map consecutive]. split; [now apply prefix_iff|]. now apply IH.
Qed.
(** Every fix: the chain it comes from. *)
Lemma fixes_chain e f : In f (and_fixes opts type_at undeclared width e) ->
  exists c, fine opts (operands And e) c /\ 2 <= length c /\ valid_chain opts type_at true c = true /\ and_reported opts type_at c = true
    /\ and_fix opts type_at undeclared width (spine And e) (length (operands And e)) c = Some f.
Proof.
  intro I. unfold and_fixes in I. destruct (Nat.ltb _ 2); [easy|]. apply in_flat_map in I as (c & Ic & If).
  destruct (valid_chain opts type_at true c && and_reported opts type_at c) eqn:V; [|easy]. apply andb_true_iff in V as [V R].
  pose proof (chains_fine opts type_at (operands And e)) as FA. rewrite Forall_forall in FA. exists c. split; [now apply FA|].
  assert (V2 : 2 <= length c). { unfold valid_chain in V. apply andb_true_iff in V as [V _]. apply andb_true_iff in V as [V _]. apply andb_true_iff in V as [V _]. now apply Nat.leb_le in V. }
  split; [easy|]. split; [easy|]. split; [easy|]. destruct (and_fix _ _ _ _ _ _ _); [|easy]. destruct If as [->|[]]. easy.
Qed.
Lemma fix_ends spn n c f : and_fix opts type_at undeclared width spn n c = Some f ->
  (first f = idx (start c) \/ (first f = idx (nth 1 c nobody) /\ undeclared (idx (start c)) = true)) /\ last_ f = idx (final c).
Proof.
  unfold and_fix. destruct (build _ _ _ _); [|easy]. intro H. injection H as <-. cbn [first last_]. split; [|easy].
  destruct (_ && _) eqn:E; [|left; now destruct c]. right. apply andb_true_iff in E as [_ E]. auto.
Qed.
Lemma operands_from e : operands And e = ops_from 0 (leaves (spine And e)).
Proof. reflexivity. Qed.
Theorem fix_run e f : In f (and_fixes opts type_at undeclared width e) ->
  exists all before run after accesses, flat And e all /\ all = before ++ run ++ after /\ 2 <= length run /\ Forall2 about run accesses /\ consecutive reads_first accesses
    /\ (first f = length before \/ (first f = S (length before) /\ undeclared (length before) = true)) /\ S (last_ f) = length before + length run.
Proof.
  intro I. destruct (fixes_chain e f I) as (c & ((p & q & E) & T & L) & C2 & V & R & F). rewrite operands_from in E. destruct (ops_run _ _ _ _ E) as (a & m & z & Ea & La & ->).
  exists (leaves (spine And e)), a, m, z, (map compared (ops_from (length a) m)). split; [apply spine_flat|]. split; [exact Ea|]. rewrite ops_length in C2. split; [exact C2|]. split; [|split; [now apply consecutive_linked|]].
  - clear - T. unfold ops_from in *. revert T. generalize (length a). induction m as [|x m IH]; intros n T; cbn in *; [constructor|]. inversion T; subst. constructor; [now apply parse_about|]. apply IH. easy.
  - apply fix_ends in F as [F1 F2]. destruct m as [|x m]; [cbn in C2; lia|]. destruct m as [|y m]; [cbn in C2; lia|]. cbn [ops_from length seq combine map fst snd start hd nth] in F1. rewrite !parse_idx in F1. split; [destruct F1 as [?|[? ?]]; auto|].
    rewrite F2. destruct (y :: m) as [|s m' _] eqn:Em using rev_ind; [discriminate|]. rewrite app_comm_cons, ops_app. unfold final. cbn [ops_from length seq combine map fst snd]. rewrite last_last, parse_idx, app_length. cbn. lia.
Qed.
End Reports.
(** ** Options and types *)
Lemma has_in f t : has f t = true <-> exists a, In a t /\ f a = true.
Proof. apply existsb_exists. Qed.
Ltac atoms :=
  repeat match goal with
  | H : has _ _ = true |- _ => apply has_in in H as (? & ? & ?)
  | H : has ?f ?t = false |- _ => let N := fresh "N" in assert (N : forall a, In a t -> f a = false) by (intros a0 I0; destruct (f a0) eqn:E0; [|reflexivity]; assert (X : has f t = true) by (apply has_in; eauto); congruence); clear H
  end.
Lemma has_false f t : has f t = false <-> forall a, In a t -> f a = false.
Proof.
  split.
  - intros H a I. destruct (f a) eqn:E; [|easy]. assert (X : has f t = true) by (apply has_in; eauto). congruence.
  - intros H. destruct (has f t) eqn:E; [|easy]. apply has_in in E as (a & I & F). rewrite H in F; easy.
Qed.
Lemma null_iff t : has_null t = true <-> In ANull t.
Proof. unfold has_null. rewrite has_in. split; [intros ([] & I & E); easy|]. intro I. now exists ANull. Qed.
Lemma undef_iff t : has_undef t = true <-> In AUndef t.
Proof. unfold has_undef. rewrite has_in. split; [intros ([] & I & E); easy|]. intro I. now exists AUndef. Qed.
Lemma any_iff t : has_any t = true <-> In AAny t.
Proof. unfold has_any. rewrite has_in. split; [intros ([] & I & E); easy|]. intro I. now exists AAny. Qed.
Lemma unknown_iff t : has_unknown t = true <-> In AUnknown t.
Proof. unfold has_unknown. rewrite has_in. split; [intros ([] & I & E); easy|]. intro I. now exists AUnknown. Qed.
Lemma void_iff t : has_void t = true <-> In AVoid t.
Proof. unfold has_void. rewrite has_in. split; [intros ([] & I & E); easy|]. intro I. now exists AVoid. Qed.
Lemma undefined_iff t : has_undef t || any_or_unknown t = true <-> has_undefined t.
Proof. unfold any_or_unknown, has_undefined. rewrite !orb_true_iff, undef_iff, any_iff, unknown_iff. tauto. Qed.
Lemma imp_iff (a c : bool) : negb (a && negb c) = true <-> (a = true -> c = true).
Proof. destruct a, c; cbn; split; auto. Qed.
Lemma allowed_iff opts t :
  (if require_nullish opts && explicit_nullish t then false
   else (has_any t && negb (check_any opts)) || (has_bigint t && negb (check_bigint opts)) || (has_boolean t && negb (check_boolean opts))
       || (has_number t && negb (check_number opts)) || (has_string t && negb (check_string opts)) || (has_unknown t && negb (check_unknown opts))) = false <-> allowed opts t.
Proof.
  assert (Q : require_nullish opts && explicit_nullish t = true <-> require_nullish opts = true /\ (In ANull t \/ In AUndef t)).
  { unfold explicit_nullish. now rewrite andb_true_iff, orb_true_iff, null_iff, undef_iff. }
  assert (B : has_bigint t = true <-> exists z, In ABig t \/ In (ABigLit z) t).
  { unfold has_bigint. rewrite has_in. split; [intros ([] & I & E); try easy; [now exists 0%Z; left|exists z; now right]|]. intros (z & [I|I]); eexists; split; eauto. }
  assert (O : has_boolean t = true <-> exists x, In (ABool x) t).
  { unfold has_boolean. rewrite has_in. split; [intros ([] & I & E); try easy; eauto|]. intros (z & I); eexists; split; eauto. }
  assert (N : has_number t = true <-> exists z, In ANum t \/ In (ANumLit z) t).
  { unfold has_number. rewrite has_in. split; [intros ([] & I & E); try easy; [now exists 0%Z; left|exists z; now right]|]. intros (z & [I|I]); eexists; split; eauto. }
  assert (S : has_string t = true <-> exists z, In AStr t \/ In (AStrLit z) t).
  { unfold has_string. rewrite has_in. split; [intros ([] & I & E); try easy; [now exists []; left|exists s; now right]|]. intros (z & [I|I]); eexists; split; eauto. }
  unfold allowed. destruct (require_nullish opts && explicit_nullish t).
  { split; [|easy]. intros _. left. now apply Q. }
  assert (NQ : ~ (require_nullish opts = true /\ (In ANull t \/ In AUndef t))) by (rewrite <- Q; discriminate).
  rewrite !orb_false_iff. rewrite <- !negb_true_iff, !imp_iff, any_iff, unknown_iff, B, O, N, S. split.
  - intros (((((H1 & H2) & H3) & H4) & H5) & H6). right. repeat match goal with |- _ /\ _ => split end; eauto.
  - intros [H|(H1 & H2 & H3 & H4 & H5 & H6)]; [easy|]. repeat match goal with |- _ /\ _ => split end; auto; intros (z & I); eauto.
Qed.
Section Silent.
Variables (opts : options) (type_at : nat -> expr -> ty) (undeclared : nat -> bool) (width : part -> nat).
Lemma parse_truth k i e x ls : access_of e = Some (x, ls) -> chain_type (typ (parse k i e)) -> typ (parse k i e) = Plain /\ compared (parse k i e) = unwrap e.
Proof.
  intros A. unfold parse. destruct (is_this (unwrap e)); [easy|].
  assert (AU : access_of (unwrap e) = Some (x, ls)) by now rewrite access_unwrap.
  destruct (strip_base (unwrap e)) eqn:SB; try match goal with o : op |- _ => destruct o end; try easy; clear SB; destruct (unwrap e); easy.
Qed.
Lemma base_of e x ls : access_of e = Some (x, ls) -> (match x with As _ _ => False | _ => True end) -> base e = x.
Proof.
  revert x ls. induction e; intros y0 ls A N; cbn [access_of base] in *;
    try (match type of A with (match ?o with Some _ => _ | None => _ end) = _ => destruct o as [[y l]|] eqn:E; [|discriminate]; injection A as <- <- end; eauto; fail); eauto;
    try (injection A as <- <-; easy).
  all: match type of A with (if simple_base ?e then _ else _) = _ => destruct (simple_base e) eqn:S; [injection A as <- <-|discriminate] end; easy.
Qed.
Lemma shared_base e x ls : access_of e = Some (x, ls) -> base e = base x.
Proof.
  revert x ls. induction e; intros y0 ls A; cbn [access_of base] in *;
    try (match type of A with (match ?o with Some _ => _ | None => _ end) = _ => destruct o as [[y l]|] eqn:E; [|discriminate]; injection A as <- <- end; eauto; fail); eauto.
  all: match type of A with (if simple_base ?e then _ else _) = _ => destruct (simple_base e) eqn:S; [injection A as <- <-|discriminate] end; easy.
Qed.
(** A fix whose first operand is an access, tested for truth. *)
Theorem fix_allowed all f e x ls : (forall i, undeclared i = false) -> Forall (single And) all -> In f (and_fixes opts type_at undeclared width (join And all)) -> nth_error all (first f) = Some e -> access_of e = Some (x, ls) ->
  match x with As _ _ => False | _ => True end ->
  let t := type_at (first f) (unwrap e) in
  allowed opts (type_at (first f) x) /\ ~ In AVoid t /\ (unsafe opts = false -> (exists a, In a t /\ literal a) -> In ANull t \/ In AUndef t).
Proof.
  intros D Sg I N A X t. assert (NE : all <> []) by (intros ->; destruct (first f); discriminate).
  destruct (and_fixes_chain opts type_at undeclared width D all f Sg NE I) as (a & m & z & -> & L & T & K & R & F & F1 & F2 & W).
  destruct m as [|e' m]; [cbn in L; lia|]. rewrite F1, nth_error_app2, Nat.sub_diag in N by lia. cbn [app nth_error] in N. injection N as ->.
  change (ops_from (length a) (e :: m)) with (parse true (length a) e :: ops_from (S (length a)) m) in *. apply Forall_inv in T. destruct (parse_truth true _ _ _ _ A T) as [P C].
  unfold and_reported in R. cbn [start hd] in R. unfold is_plain in R. rewrite P in R. cbn [otype_eqb andb] in R. unfold skip_by_type, type_of in R. rewrite parse_idx, C in R.
  assert (B : base (unwrap e) = x) by (apply base_of with (ls := ls); [now rewrite access_unwrap|easy]). rewrite B in R.
  repeat match type of R with (if ?b then _ else _) = _ => let E := fresh "Q" in destruct b eqn:E; [easy|] end. subst t. rewrite F1.
  match goal with H : _ || _ && negb (unsafe opts) = false |- _ => apply orb_false_iff in H as [H1 H2] end. split; [now apply allowed_iff|]. split.
  - intro V. apply void_iff in V. congruence.
  - intros U (q & Iq & Lq). rewrite U, andb_true_r in H2. unfold changes_type in H2. apply andb_false_iff in H2 as [H2|H2].
    + unfold has_literal in H2. rewrite has_false in H2. apply H2 in Iq. now destruct q.
    + apply negb_false_iff in H2. unfold explicit_nullish in H2. rewrite orb_true_iff, null_iff, undef_iff in H2. exact H2.
Qed.
(** [requireNullish]. *)
Theorem fix_nullish all : require_nullish opts = true -> Forall (single And) all -> Forall (fun e => exists x ls, access_of e = Some (x, ls)) all ->
  (forall i e, nth_error all i = Some e -> ~ In ANull (type_at i (unwrap e)) /\ ~ In AUndef (type_at i (unwrap e))) -> (forall i, undeclared i = false) -> and_fixes opts type_at undeclared width (join And all) = [].
Proof.
  intros Q S A T D. destruct (and_fixes opts type_at undeclared width (join And all)) as [|f fs] eqn:E; [easy|]. exfalso.
  assert (I : In f (and_fixes opts type_at undeclared width (join And all))) by (rewrite E; now left). clear E fs.
  destruct all as [|e0 r0]; [easy|]. remember (e0 :: r0) as all. assert (NE : all <> []) by (subst; easy). clear Heqall e0 r0.
  destruct (fixes_chain opts type_at undeclared width _ _ I) as (c & ((p & q & E) & CT & L) & C2 & V & R & F). rewrite operands_join in E by easy.
  destruct (ops_run _ _ _ _ E) as (a & m & z & Ea & La & ->).
  unfold valid_chain in V. apply andb_true_iff in V as [_ V]. apply negb_true_iff in V. unfold skip_require_nullish in V. rewrite Q in V. cbn [negb andb] in V.
  assert (P : Forall (fun o => is_plain o = true /\ explicit_nullish (type_of type_at o) = false) (ops_from (length a) m)).
  { assert (Am : forall i e, nth_error m i = Some e -> nth_error all (length a + i) = Some e).
    { intros i e N. rewrite Ea, nth_error_app2 by lia. replace (length a + i - length a) with i by lia. rewrite nth_error_app1; [easy|]. apply nth_error_Some. congruence. }
    assert (Acc : Forall (fun e => exists x ls, access_of e = Some (x, ls)) m) by (rewrite Ea in A; apply Forall_app in A as [_ A]; now apply Forall_app in A as [A _]).
    clear - CT Am Acc T. unfold ops_from in *. revert CT Am Acc. generalize (length a). induction m as [|e m IH]; intros n CT Am Acc; cbn in *; [constructor|].
    inversion CT; subst. inversion Acc as [|? ? (x & ls & A) Acc']; subst. constructor.
    - destruct (parse_truth true n e x ls A) as [P C]; [easy|]. unfold is_plain. rewrite P. split; [easy|]. unfold type_of. rewrite parse_idx, C. specialize (T n e). rewrite <- null_iff, <- undef_iff in T.
      unfold explicit_nullish. specialize (Am 0 e eq_refl). rewrite Nat.add_0_r in Am. destruct (T Am). now destruct (has_null _), (has_undef _).
    - apply IH; [easy| |easy]. intros i e' N. specialize (Am (S i) e' N). now rewrite Nat.add_succ_r in Am. }
  assert (FP : forallb is_plain (ops_from (length a) m) = true) by (apply forallb_forall; rewrite Forall_forall in P; intros o Io; now apply P).
  assert (FN : existsb (fun o => explicit_nullish (type_of type_at o)) (removelast (ops_from (length a) m)) = false).
  { destruct (existsb _ _) eqn:X; [|easy]. apply existsb_exists in X as (o & Io & X). assert (Io2 : In o (ops_from (length a) m)).
    { destruct (ops_from (length a) m) as [|y l _] eqn:Y using rev_ind; [easy|]. rewrite removelast_last in Io. apply in_or_app. now left. }
    rewrite Forall_forall in P. destruct (P o Io2). congruence. }
  rewrite FP, FN in V. discriminate.
Qed.
(** Offered or applied. *)
Lemma plain_ending c : Forall (fun o => typ o = Plain) c -> 2 <= length c -> ending_of c = EPlain.
Proof.
  intros F L. destruct c as [|l c _] using rev_ind; [cbn in L; lia|]. rewrite app_length in L. cbn [length] in L. destruct c as [|p c _] using rev_ind; [cbn in L; lia|].
  apply Forall_app in F as [F Fl]. apply Forall_inv in Fl. apply Forall_app in F as [_ Fp]. apply Forall_inv in Fp.
  unfold ending_of, ends_complementary, loose_strict, previous, final. rewrite removelast_last, !last_last. unfold is_plain. rewrite Fl, Fp. cbn [otype_eqb strict_check orb andb].
  destruct (compare _ _); rewrite ?andb_false_r; cbn [andb]; rewrite ?andb_false_r; reflexivity.
Qed.
Lemma plain_segment all a m z : all = a ++ m ++ z -> Forall (fun o => chain_type (typ o)) (ops_from (length a) m) ->
  (forall i e, length a <= i -> i < length a + length m -> nth_error all i = Some e -> exists x ls, access_of e = Some (x, ls)) ->
  Forall (fun o => typ o = Plain /\ compared o = unwrap (node o) /\ nth_error all (idx o) = Some (node o) /\ length a <= idx o < length a + length m) (ops_from (length a) m)
  /\ forall i e, length a <= i < length a + length m -> nth_error all i = Some e -> In (parse true i e) (ops_from (length a) m).
Proof.
  intros -> CT A.
  assert (N : forall i e, nth_error m i = Some e -> nth_error (a ++ m ++ z) (length a + i) = Some e).
  { intros i e N. rewrite nth_error_app2 by lia. replace (length a + i - length a) with i by lia. rewrite nth_error_app1; [easy|]. apply nth_error_Some. congruence. }
  assert (K : forall k m', (forall i e, nth_error m' i = Some e -> nth_error m (k + i) = Some e) -> Forall (fun o => chain_type (typ o)) (ops_from (length a + k) m') ->
    Forall (fun o => typ o = Plain /\ compared o = unwrap (node o) /\ nth_error (a ++ m ++ z) (idx o) = Some (node o) /\ length a <= idx o < length a + length m) (ops_from (length a + k) m')
    /\ forall i e, nth_error m' i = Some e -> In (parse true (length a + k + i) e) (ops_from (length a + k) m')).
  { intros k m'. revert k. induction m' as [|e m' IH]; intros k S C; [split; [constructor|intros [] e; discriminate]|].
    change (ops_from (length a + k) (e :: m')) with (parse true (length a + k) e :: ops_from (Datatypes.S (length a + k)) m') in *. inversion C as [|? ? C1 C']; subst.
    replace (Datatypes.S (length a + k)) with (length a + Datatypes.S k) in * by lia.
    destruct (IH (Datatypes.S k)) as [F I]; [intros i e' H; specialize (S (Datatypes.S i) e' H); now replace (Datatypes.S k + i) with (k + Datatypes.S i) by lia|easy|].
    pose proof (S 0 e eq_refl) as S0. rewrite Nat.add_0_r in S0. assert (Lk : k < length m) by (apply nth_error_Some; congruence).
    split.
    - constructor; [|exact F]. destruct (A (length a + k) e) as (x & ls & Ax); [lia|lia|now apply N|]. destruct (parse_truth true _ _ _ _ Ax C1) as [P Q]. rewrite parse_idx, parse_node. split; [easy|]. split; [easy|]. split; [now apply N|lia].
    - intros [|i] e' H; [injection H as <-; rewrite Nat.add_0_r; now left|]. right. specialize (I i e' H). now replace (length a + k + Datatypes.S i) with (length a + Datatypes.S k + i) by lia. }
  destruct (K 0 m) as [F I]; [auto|now rewrite Nat.add_0_r|]. rewrite Nat.add_0_r in *. split; [exact F|].
  intros i e R H. specialize (I (i - length a) e). replace (length a + (i - length a)) with i in I by lia. apply I.
  rewrite nth_error_app2 in H by lia. rewrite nth_error_app1 in H by lia. exact H.
Qed.
Theorem fix_offered all f : (forall i, undeclared i = false) -> Forall (single And) all -> In f (and_fixes opts type_at undeclared width (join And all)) ->
  (forall i e, first f <= i <= last_ f -> nth_error all i = Some e -> exists x ls, access_of e = Some (x, ls)) ->
  suggestion f = true <-> unsafe opts = false /\ forall i e, first f <= i <= last_ f -> nth_error all i = Some e -> ~ has_undefined (type_at i (unwrap e)).
Proof.
  intros D Sg I A. destruct all as [|e0 r0]; [easy|]. remember (e0 :: r0) as all. assert (NE : all <> []) by (subst; easy). clear Heqall e0 r0.
  destruct (and_fixes_chain opts type_at undeclared width D all f Sg NE I) as (a & m & z & E & L & T & K & R & F & F1 & F2 & W).
  destruct (plain_segment all a m z E T) as [P Q]. { intros i e H1 H2 H3. apply (A i e); [lia|easy]. }
  set (c := ops_from (length a) m) in *.
  assert (PL : Forall (fun o => typ o = Plain) c) by (eapply Forall_impl; [|exact P]; intros o H; apply H).
  assert (Lc : 2 <= length c) by (unfold c; now rewrite ops_length).
  assert (SF : suggestion f = and_suggestion opts type_at c) by (unfold and_fix in F; destruct (build _ _ _ _); [|easy]; now injection F as <-).
  rewrite SF. unfold and_suggestion.
  rewrite (plain_ending c PL Lc). destruct (unsafe opts); [split; [easy|intros [? _]; easy]|].
  assert (TS : typ (start c) = Plain) by (destruct c; [cbn in Lc; lia|]; now apply Forall_inv in PL).
  assert (TF : typ (final c) = Plain). { clear - PL Lc. destruct c as [|l c _] using rev_ind; [cbn in Lc; lia|]. apply Forall_app in PL as [_ PL]. unfold final. rewrite last_last. now apply Forall_inv in PL. }
  rewrite TS, TF. cbn [negb andb orb]. rewrite !orb_false_r. rewrite negb_true_iff. split.
  - intro X. split; [easy|]. intros i e Hi N H. apply undefined_iff in H. assert (Y : existsb (fun o => has_undef (type_of type_at o) || any_or_unknown (type_of type_at o)) c = true); [|congruence].
    assert (Hi2 : length a <= i < length a + length m) by lia. pose proof (Q i e Hi2 N) as Io. apply existsb_exists. exists (parse true i e). split; [exact Io|]. rewrite Forall_forall in P. destruct (P _ Io) as (_ & C & _ & _). unfold type_of. rewrite C, parse_node, parse_idx. exact H.
  - intros [_ H]. destruct (existsb _ _) eqn:X; [|easy]. apply existsb_exists in X as (o & Io & X). rewrite Forall_forall in P. destruct (P o Io) as (_ & C & N & Hi). exfalso. apply (H (idx o) (node o)); [lia|easy|].
    apply undefined_iff. unfold type_of in X. now rewrite C in X.
Qed.

(** Names after names. *)
Lemma dotted_facts e : dotted e -> unwrap e = e /\ skip e = e /\ side_effects e = false /\ has_chain e = false /\ rooted_in_new e = false /\ call_sigs e = [] /\ creates e = false /\ (forall s, In s (flatten e) -> private_part s = false).
Proof.
  induction e; cbn [dotted]; try easy.
  - intros _. repeat split; auto. intros s [<-|[]]. reflexivity.
  - destruct private, q; try easy. intro D. destruct (IHe D) as (_ & _ & S & H & R & C & K & P). cbn [unwrap skip side_effects has_chain rooted_in_new call_sigs creates orb]. repeat split; auto.
    intros s. unfold flatten. cbn [flatten_]. rewrite in_app_iff. intros [I|[<-|[]]]; [now apply P|reflexivity].
Qed.
Lemma dotted_parse i e : dotted e -> parse true i e = Operand i Plain e e Whole.
Proof.
  intro D. destruct (dotted_facts e D) as (U & _). unfold parse. rewrite U.
  assert (S : exists x, strip_base e = Id x). { clear U. induction e; cbn in D; try easy; [eexists; reflexivity|]. destruct private, q; try easy. exact (IHe D). }
  destruct S as [x S]. rewrite S. destruct e; try easy.
Qed.
Lemma dotted_access e : dotted e -> exists x ls, access_of e = Some (Id x, ls) /\ readable e.
Proof.
  induction e; cbn [dotted]; try easy.
  - intro N. exists x, []. cbn. unfold undefined_name. destruct (beqb x _) eqn:B; [apply beqb_eq in B; easy|easy].
  - destruct private, q; try easy. intro D. destruct (IHe D) as (x & ls & A & R). exists x, (ls ++ [(LName false name, false)]). cbn. now rewrite A.
Qed.
Lemma begins_links e : dotted e -> forall x ls, access_of e = Some (x, ls) -> forall n, n <= length ls -> exists a, begins a e /\ dotted a /\ exists la, access_of a = Some (x, la) /\ map fst la = firstn n (map fst ls).
Proof.
  induction e; cbn [dotted]; try easy.
  - intros N y ls A n L. assert (ls = []) as ->. { cbn in A. destruct (negb _); [now injection A|easy]. } exists (Id x). split; [constructor|]. split; [easy|]. exists []. split; [easy|]. now rewrite firstn_nil.
  - destruct private, q; try easy. intros D y ls A n L. cbn [access_of] in A. destruct (access_of e) as [[y' l]|] eqn:E; [|easy]. injection A as <- <-. rewrite app_length in L. cbn [length] in L.
    destruct (Nat.eq_dec n (length l + 1)) as [-> |Ne].
    + exists (Dot e false name false). split; [constructor|]. split; [easy|]. exists (l ++ [(LName false name, false)]). cbn [access_of]. rewrite E. split; [easy|]. rewrite map_app. rewrite firstn_all2; [easy|]. rewrite app_length, map_length. easy.
    + destruct (IHe D y' l eq_refl n) as (a & B & Da & la & A & M); [lia|]. exists a. split; [now constructor|]. split; [easy|]. exists la. split; [easy|]. rewrite map_app, firstn_app, map_length. replace (n - length l) with 0 by lia. cbn [firstn]. now rewrite app_nil_r.
Qed.
Lemma dotted_links a : forall c x la lc, dotted a -> dotted c -> access_of a = Some (x, la) -> access_of c = Some (x, lc) -> map fst la = map fst lc -> form a = form c.
Proof.
  induction a; cbn [dotted]; try easy.
  - intros c y la lc D Dc A C M. assert (la = [] /\ y = Id x) as [-> ->]. { cbn in A. destruct (negb _); [now injection A|easy]. }
    destruct c; cbn [dotted] in Dc; try easy; [|destruct private, q; try easy]; cbn [access_of] in C.
    + destruct (simple_base _); [|easy]. now injection C as ->.
    + destruct (access_of c) as [[? ?]|]; [|easy]. injection C as <- <-. rewrite map_app in M. now destruct (map fst l).
  - destruct private, q; try easy. intros c y la lc D Dc A C M. cbn [access_of] in A. destruct (access_of a) as [[y' l]|] eqn:E; [|easy]. injection A as <- <-. rewrite map_app in M.
    destruct c; cbn [dotted] in Dc; try easy; [|destruct private, q; try easy]; cbn [access_of] in C.
    + destruct (simple_base _); [|easy]. injection C as <- <-. now destruct (map fst l).
    + destruct (access_of c) as [[y2 l2]|] eqn:Ec; [|easy]. injection C as -> <-. rewrite map_app in M. cbn [map fst] in M. apply app_inj_tail in M as [M1 M2]. injection M2 as ->. cbn [form]. f_equal. eapply IHa; eauto.
Qed.
Lemma dotted_compare e c : dotted e -> dotted c -> shorter e c -> compare e c = Subset.
Proof.
  intros D D' (x & ls & ll & A & C & m & more & M). destruct (dotted_facts e D) as (_ & _ & S & H & R & K & Cr & _). destruct (dotted_facts c D') as (_ & _ & S' & _ & _ & K' & _).
  unfold compare. rewrite S, S', H, Cr, R, K. cbn [orb negb andb existsb].
  assert (Ln : length ls < length ll). { rewrite <- (map_length fst ls), <- (map_length fst ll), M, app_length. cbn. lia. }
  destruct (same e c) eqn:Q. { apply same_cnt in Q. rewrite (access_cnt _ _ _ A), (access_cnt _ _ _ C) in Q. lia. }
  assert (P : prefix e c = true); [|now rewrite P]. apply prefix_iff. destruct (begins_links c D' x ll C (length ls)) as (a & B & Da & la & Aa & Ma); [lia|].
  exists a. split; [exact B|]. destruct (dotted_access e D) as (y & l & _ & Rd). split; [exact Rd|]. eapply dotted_links; eauto. rewrite Ma, M. rewrite firstn_app, map_length, Nat.sub_diag, firstn_all2, app_nil_r; [easy|]. rewrite map_length. lia.
Qed.
Lemma dotted_ops all n : Forall dotted all -> ops_from n all = map (fun p => Operand (fst p) Plain (snd p) (snd p) Whole) (combine (seq n (length all)) all).
Proof. unfold ops_from. revert n. induction all as [|e all IH]; intros n F; cbn; [easy|]. inversion F; subst. rewrite dotted_parse by easy. f_equal. now apply IH. Qed.
Definition plain_op (o : operand) : Prop := typ o = Plain /\ node o = compared o /\ dotted (compared o).
Lemma dotted_loop : forall ops cur, cur <> [] -> Forall plain_op (cur ++ ops) -> consecutive (fun o o' => shorter (compared o) (compared o')) (cur ++ ops) -> 2 <= length (cur ++ ops) ->
  and_loop opts type_at [] cur Invalid false ops = [cur ++ ops].
Proof.
  induction ops as [|o ops IH]; intros cur N F C L; cbn [and_loop].
  - rewrite app_nil_r in *. unfold keep. destruct (Nat.leb 2 (length cur)) eqn:E; [easy|]. apply Nat.leb_gt in E. lia.
  - assert (Fo : plain_op o) by (apply Forall_app in F as [_ F]; now apply Forall_inv in F). destruct Fo as (T & No & D). unfold is_plain, other_comparison. rewrite T. cbn [otype_eqb nullish_check andb].
    destruct cur as [|x cur]; [easy|]. set (cc := x :: cur) in *.
    destruct cc as [|l c' _] eqn:Ecc using rev_ind; [easy|].
    assert (Fl : plain_op l) by (apply Forall_app in F as [F _]; apply Forall_app in F as [_ F]; now apply Forall_inv in F). destruct Fl as (Tl & Nl & Dl).
    assert (Sh : shorter (compared l) (compared o)).
    { clear - C. rewrite <- app_assoc in C. cbn [app] in C. induction c' as [|y c' IH]; [apply C|]. apply IH. cbn [app consecutive] in C. destruct (c' ++ l :: o :: ops) eqn:E; [easy|]. apply C. }
    unfold should_stop, final. rewrite last_last, Tl. cbn [strict_check negb]. unfold cmp_extended, final. rewrite last_last, (dotted_compare _ _ Dl D Sh).
    rewrite IH; [now rewrite <- app_assoc|now destruct c'| | |]; rewrite <- app_assoc; easy.
Qed.
Lemma trim_dotted c : Forall plain_op c -> consecutive (fun o o' => shorter (compared o) (compared o')) c -> rev (trim (rev c)) = c.
Proof.
  intros F C. destruct c as [|l c _] using rev_ind; [easy|]. rewrite rev_unit. destruct c as [|p c _] using rev_ind; [easy|]. rewrite rev_unit. cbn [trim].
  apply Forall_app in F as [F Fl]. apply Forall_inv in Fl. destruct Fl as (Tl & Nl & Dl). apply Forall_app in F as [_ F]. apply Forall_inv in F. destruct F as (Tp & Np & Dp).
  assert (Sh : shorter (compared p) (compared l)).
  { clear - C. rewrite <- app_assoc in C. cbn [app] in C. induction c as [|y c IH]; [apply C|]. apply IH. cbn [app consecutive] in C. destruct (c ++ [p; l]) eqn:E; [easy|]. apply C. }
  rewrite (dotted_compare _ _ Dp Dl Sh), andb_false_r. cbn [rev]. now rewrite rev_involutive.
Qed.
Lemma consecutive_map {A B} (R : B -> B -> Prop) (g : A -> B) l : consecutive R (map g l) <-> consecutive (fun x y => R (g x) (g y)) l.
Proof. induction l as [|x [|y l] IH]; cbn in *; try tauto. Qed.
Lemma private_parts c : Forall plain_op c -> c <> [] -> ending_of c = EPlain -> Forall (fun p => private_part p = false) (and_parts width c).
Proof.
  intros F N E.
  assert (FP : forall e, dotted e -> Forall (fun p => private_part p = false) (flatten e)) by (intros e D; apply Forall_forall; intros s I; destruct (dotted_facts e D) as (_ & _ & _ & _ & _ & _ & _ & P); now apply P).
  assert (FS : plain_op (start c)) by (destruct c; [easy|]; now apply Forall_inv in F).
  assert (FF : plain_op (final c)) by (destruct c as [|l c _] using rev_ind; [easy|]; unfold final; rewrite last_last; apply Forall_app in F as [_ F]; now apply Forall_inv in F).
  destruct FS as (Ts & Ns & Ds). destruct FF as (Tf & Nf & Df). unfold and_parts, source. rewrite E. unfold is_plain. rewrite Ts, Tf. cbn [otype_eqb].
  set (ps := match flatten (node (start c)) with [] => _ | _ => _ end).
  assert (P : Forall (fun p => private_part p = false) ps).
  { unfold ps. rewrite Ns, Nf. pose proof (FP _ Ds) as H1. pose proof (FP _ Df) as H2. destruct (flatten (compared (start c))) as [|f [|? ?]]; auto. destruct (flatten (compared (final c))) as [|p r]; auto.
    destruct (Nat.ltb _ _); auto. inversion H1; subst. inversion H2; subst. now constructor. }
  clearbody ps. destruct (_ && _); [|exact P]. apply Forall_number.
  - intros i x H. destruct (shortest _ _) as [y|]; [|easy]. destruct (nth_error y i); easy.
  - apply Forall_number; [|exact P]. intros i x H. destruct (Nat.ltb _ _); [|easy]. unfold strip_bang. cbn [snd]. destruct (non_null x); exact H.
Qed.
Theorem dotted_reported all : unsafe opts = false -> require_nullish opts = false -> (forall i, undeclared i = false) -> Forall dotted all -> consecutive shorter all -> 2 <= length all ->
  let e := hd Null all in let t := type_at 0 e in
  allowed opts (type_at 0 (base e)) -> ~ In AVoid t -> ((exists a, In a t /\ literal a) -> In ANull t \/ In AUndef t) ->
  exists f, In f (and_fixes opts type_at undeclared width (join And all)) /\ first f = 0 /\ S (last_ f) = length all.
Proof.
  intros U Q Dc D C L e t AL V LI.
  assert (NE : all <> []) by (intros ->; cbn in L; lia).
  assert (Sg : Forall (single And) all) by (eapply Forall_impl; [|exact D]; intros x Dx l r; destruct (dotted_facts x Dx) as (_ & -> & _); intros ->; exact Dx).
  set (c := ops_from 0 all).
  assert (FC : Forall plain_op c).
  { unfold c. rewrite dotted_ops by easy. apply Forall_map, Forall_forall. intros [i x] I. apply in_combine_r in I. rewrite Forall_forall in D. repeat split; now apply D. }
  assert (MC : map compared c = all).
  { unfold c. rewrite dotted_ops by easy. rewrite map_map. cbn [compared]. clear. generalize 0. induction all as [|x all IH]; intro n; cbn; [easy|]. f_equal. apply IH. }
  assert (CC : consecutive (fun o o' => shorter (compared o) (compared o')) c) by (rewrite <- MC in C; now apply (consecutive_map shorter compared)).
  assert (Lc : 2 <= length c) by (unfold c; now rewrite ops_length).
  assert (PL : Forall (fun o => typ o = Plain) c) by (eapply Forall_impl; [|exact FC]; intros o H; apply H).
  pose proof (plain_ending c PL Lc) as EP.
  assert (CH : and_chains opts type_at c = [c]).
  { unfold and_chains. assert (AL2 : and_loop opts type_at [] [] Invalid false c = [c]).
    { destruct c as [|o r] eqn:Ec; [cbn in Lc; lia|]. cbn [and_loop]. pose proof (Forall_inv FC) as (To & _). unfold is_plain, other_comparison. rewrite To. cbn [otype_eqb andb]. apply (dotted_loop r [o]); easy. }
    rewrite AL2. cbn [map]. now rewrite trim_dotted. }
  assert (Hc : exists o1 o2 r, c = o1 :: o2 :: r) by (destruct c as [|o1 [|o2 r]]; [cbn in Lc; lia|cbn in Lc; lia|eauto]). destruct Hc as (o1 & o2 & r & Hc).
  assert (F1 : plain_op o1) by (rewrite Hc in FC; now apply Forall_inv in FC). assert (F2 : plain_op o2) by (rewrite Hc in FC; now apply Forall_inv_tail, Forall_inv in FC).
  assert (S12 : shorter (compared o1) (compared o2)) by (rewrite Hc in CC; apply CC).
  destruct F1 as (T1 & N1 & D1). destruct F2 as (T2 & N2 & D2). destruct (dotted_facts _ D1) as (_ & _ & _ & H1 & _). destruct (dotted_facts _ D2) as (_ & _ & _ & H2 & _).
  assert (E1 : compared o1 = e) by (unfold e; rewrite <- MC, Hc; easy). assert (I1 : idx o1 = 0). { pose proof (ops_idx 0 all) as OI. fold c in OI. rewrite Hc in OI. destruct all; [easy|]. now injection OI. }
  assert (Bs : forall o, In o c -> exists ls, access_of (compared o) = Some (base e, ls) /\ exists x, base e = Id x).
  { assert (B0 : exists ls, access_of (compared o1) = Some (base e, ls) /\ exists x, base e = Id x).
    { rewrite E1 in *. destruct (dotted_access e D1) as (x & ls & A & _). rewrite (base_of _ _ _ A I). eauto. }
    rewrite Hc in *. clear - B0 CC. revert o1 B0 CC. generalize (o2 :: r). induction l as [|o l IH]; intros o1 B CC o' I.
    - destruct I as [<-|[]]. exact B.
    - destruct I as [<-|I]; [exact B|]. apply (IH o); [|apply CC|exact I]. destruct CC as [(x & ls & ll & A & A' & _) _]. destruct B as (l1 & B & Bx). rewrite A in B. injection B as -> ->. eauto. }
  assert (V0 : valid_chain opts type_at true c = true).
  { unfold valid_chain. apply andb_true_iff. split; [apply andb_true_iff; split; [apply andb_true_iff; split; [now apply Nat.leb_le|]|]|].
    - unfold same_base. apply forallb_forall. intros o I. rewrite Hc in I. cbn [tl] in I.
      destruct (Bs o1) as (l1 & A1 & x & Bx); [rewrite Hc; now left|]. destruct (Bs o) as (lo & Ao & _); [rewrite Hc; now right|].
      rewrite Hc. cbn [start hd]. rewrite (base_of _ _ _ A1), (base_of _ _ _ Ao) by now rewrite Bx. rewrite Bx. cbn. apply beqb_refl.
    - unfold has_access. apply existsb_exists. exists o2. split; [rewrite Hc; right; now left|]. destruct (dotted_facts _ D2) as (_ & -> & _). destruct S12 as (x & ls & ll & _ & A & m & more & M). destruct (compared o2); try easy. cbn in A. destruct (negb _); [|easy]. injection A as _ <-. now destruct (map fst ls).
    - unfold skip_require_nullish. now rewrite Q. }
  assert (Len : Nat.ltb (length (flatten (compared o1))) (length (flatten (compared o2))) = true).
  { destruct S12 as (x & ls & ll & A & A' & m & more & M). apply Nat.ltb_lt. fold (depth (compared o1)) (depth (compared o2)). rewrite (shaped_depth _ _ _ A), (shaped_depth _ _ _ A'), <- (map_length fst ls), <- (map_length fst ll), M, app_length. cbn. lia. }
  assert (ALS : forall f (l m : list part), length l <> length m -> all2 f l m = false).
  { intros f. induction l as [|x l IH]; intros [|y m] NL; cbn in *; try easy. rewrite IH; [apply andb_false_r|lia]. }
  assert (TY : forall o, In o c -> typ o = Plain) by (rewrite Forall_forall in PL; exact PL).
  assert (R0 : and_reported opts type_at c = true).
  { unfold and_reported.
    assert (S0 : start c = o1) by now rewrite Hc. rewrite S0. unfold is_plain. rewrite T1. cbn [otype_eqb strict_check andb]. rewrite H1.
    assert (A2 : all_same c = false). { unfold all_same. rewrite Hc. cbn [start hd tl forallb]. apply Nat.ltb_lt in Len. rewrite ALS; [easy|lia]. } rewrite A2.
    assert (A3 : skip_optimal type_at c = false). { unfold skip_optimal, rest_chained. rewrite Hc. cbn [tl forallb]. now rewrite H2. } rewrite A3.
    assert (A4 : two_skipped c = false). { unfold two_skipped. rewrite Hc. destruct r; [|easy]. now rewrite H2. } rewrite A4.
    assert (A5 : has_void (type_of type_at o1) = false). { unfold type_of. rewrite I1, E1. fold t. destruct (has_void t) eqn:X; [|easy]. now apply void_iff in X. } rewrite A5.
    assert (A6 : existsb (fun o => match node o with NonNull _ => true | _ => false end) c = false).
    { destruct (existsb _ c) eqn:X; [|easy]. apply existsb_exists in X as (o & Io & X). rewrite Forall_forall in FC. destruct (FC o Io) as (_ & No & Do). rewrite No in X. now destruct (compared o). } rewrite A6.
    assert (A7 : incomplete_check type_at c = false).
    { unfold incomplete_check. set (g := if _ && _ then removelast c else c). assert (G : exists r', g = o1 :: r'). { unfold g. destruct (_ && _); rewrite Hc; cbn; eauto. } destruct G as [r' ->].
      assert (AB : a_both (analyze false (o1 :: r')) = true) by (cbn; unfold analyze1; now rewrite T1). rewrite AB. reflexivity. } rewrite A7. cbn [orb]. rewrite andb_false_r.
    assert (A8 : skip_by_type opts type_at o1 = false). { unfold skip_by_type. rewrite I1, E1. now apply allowed_iff. } rewrite A8.
    assert (A9 : changes_type (type_of type_at o1) = false).
    { unfold changes_type, type_of. rewrite I1, E1. fold t. destruct (has_literal t) eqn:X; [|easy]. unfold has_literal in X. apply has_in in X as (q & Iq & X). cbn [andb]. apply negb_false_iff. unfold explicit_nullish. rewrite orb_true_iff, null_iff, undef_iff. apply LI. exists q. split; [easy|]. now destruct q. } rewrite A9. cbn [orb andb].
    assert (A10 : existsb (fun o => otype_eqb (typ o) TypeofCheck && negb (nullish_type (type_of type_at o))) c = false).
    { apply not_true_is_false. intro X. apply existsb_exists in X as (o & Io & X). now rewrite (TY o Io) in X. } rewrite A10, andb_false_r. cbn [andb].
    apply negb_true_iff. unfold unsafe_trailing. assert (FF : In (final c) c). { clear - Lc. destruct c as [|l c _] using rev_ind; [cbn in Lc; lia|]. unfold final. rewrite last_last. apply in_or_app. right. now left. }
    rewrite Forall_forall in FC. destruct (FC _ FF) as (_ & Nf & Df). unfold binary. rewrite Nf. destruct (dotted_facts _ Df) as (_ & -> & _). now destruct (compared (final c)). }
  assert (B0 : exists f, and_fix opts type_at undeclared width (spine And (join And all)) (length c) c = Some f).
  { unfold and_fix. assert (NP : Forall (fun p => private_part p = false) (and_parts width c)) by (apply private_parts; [easy|intros X; now rewrite X in Hc|easy]).
    unfold build. destruct (existsb _ _) eqn:X; [|eauto]. apply existsb_exists in X as ([i p] & Ip & X). apply andb_true_iff in X as [_ X]. cbn [snd] in X. unfold number in Ip. apply in_combine_r in Ip. rewrite Forall_forall in NP. rewrite (NP p Ip) in X. easy. }
  destruct B0 as [f B0]. exists f. assert (I : In f (and_fixes opts type_at undeclared width (join And all))).
  { unfold and_fixes. rewrite operands_join by easy. fold c. destruct (Nat.ltb (length c) 2) eqn:X; [apply Nat.ltb_lt in X; lia|]. rewrite CH. cbn [flat_map]. rewrite V0, R0, app_nil_r. cbn [andb]. rewrite B0. now left. }
  split; [exact I|]. apply fix_ends in B0 as [B1 B2]. rewrite Dc in B1. destruct B1 as [B1|[_ B1]]; [|easy]. split; [rewrite B1, Hc; exact I1|]. rewrite B2. unfold c. clear - NE.
  destruct all as [|s all _] using rev_ind; [easy|]. rewrite ops_app, app_length. unfold final. cbn [ops_from length seq combine map fst snd]. rewrite last_last, parse_idx. cbn. lia.
Qed.
End Silent.
(** ** Operands that end a chain *)
Lemma tested_type i k x v : (k = Eq2 \/ k = Eq3) -> (v = Null \/ v = Id (b "undefined")) -> (x = This \/ exists n, x = Id n) ->
  ~ chain_type (typ (parse true i (Bin k x v))) /\ ~ chain_type (typ (parse true i (Bin k v x))).
Proof.
  intros [->| ->] [->| ->] [->|(n & ->)]; split; try (vm_compute; tauto).
  all: unfold parse; cbn [unwrap is_this]; match goal with |- context [strip_base (Bin ?k ?a ?c)] => change (strip_base (Bin k a c)) with (Bin k a c) end; cbv iota.
  all: unfold parse_check, is_nullish, is_undefined, is_undefined_id; cbv beta iota zeta; cbn [skip]; destruct (beqb n (b "undefined")); vm_compute; tauto.
Qed.

Lemma fix_tested opts type_at undeclared width all f i x v k : (forall i, undeclared i = false) -> Forall (single And) all -> In f (and_fixes opts type_at undeclared width (join And all)) -> first f <= i <= last_ f ->
  (k = Eq2 \/ k = Eq3) -> (v = Null \/ v = Id (b "undefined")) -> (x = This \/ exists n, x = Id n) -> nth_error all i <> Some (Bin k x v) /\ nth_error all i <> Some (Bin k v x).
Proof.
  intros D S I R K V X. assert (NE : all <> []) by (intros ->; vm_compute in I; destruct I).
  destruct (and_fixes_chain opts type_at undeclared width D all f S NE I) as (a & m & z & -> & L & T & _ & _ & _ & F & G & _).
  assert (Q : forall e, nth_error (a ++ m ++ z) i = Some e -> exists j, chain_type (typ (parse true j e))).
  { intros e N. rewrite nth_error_app2 in N by lia. rewrite nth_error_app1 in N by lia. clear - T N. revert N. generalize (i - length a). unfold ops_from in T. revert T. generalize (length a). induction m as [|y m IH]; intros n T j N; [destruct j; discriminate|].
    cbn in T. inversion T; subst. destruct j as [|j]; [cbn in N; injection N as <-; eauto|]. apply (IH (Datatypes.S n) H2 j N). }
  split; intros N; apply Q in N as (j & N); apply (tested_type j k x v K V X) in N; auto.
Qed.
