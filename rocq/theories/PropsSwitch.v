(** C40: switch-exhaustiveness-check, what is reported. *)
From Coq Require Import String Ascii Bool List ZArith Lia.
From Verif Require Import Base Types Switch.
Import ListNotations.
Open Scope Z_scope.

(** ** The missing members *)

(** The members of a type, through unions and intersections, from left to right. *)
Inductive members : ty -> list ty -> Prop :=
| mb_leaf t : ~ In FUnion (t_flags t) -> ~ In FIntersection (t_flags t) -> members t [t]
| mb_parts t ls : In FUnion (t_flags t) \/ In FIntersection (t_flags t) -> all_members (t_parts t) ls -> members t ls
with all_members : list ty -> list ty -> Prop :=
| am_nil : all_members [] []
| am_cons t l a c : members t a -> all_members l c -> all_members (t :: l) (a ++ c).
(** Members that stand for one value. *)
Definition literal (t : ty) : Prop :=
  exists f, In f (t_flags t) /\ In f [FStringLiteral; FNumberLiteral; FBigIntLiteral; FBooleanLiteral; FUndefined; FNull; FUniqueESSymbol].
(** A clause tests for the member: the same type object, or both are undefined. *)
Definition tested (cases : list clause) (t : ty) : Prop :=
  exists c u, In c cases /\ c_type c = Some u /\ (t_id u = t_id t \/ (In FUndefined (t_flags u) /\ In FUndefined (t_flags t))).
(** [kept P l l']: the elements of [l] with property [P], in the same order. *)
Inductive kept (P : ty -> Prop) : list ty -> list ty -> Prop :=
| kp_nil : kept P [] []
| kp_in x l l' : P x -> kept P l l' -> kept P (x :: l) (x :: l')
| kp_out x l l' : ~ P x -> kept P l l' -> kept P (x :: l) l'.

Lemma is_set_spec t mask : is_set t mask = true <-> exists f, In f (t_flags t) /\ In f mask.
Proof.
  unfold is_set. rewrite existsb_exists. split; intros (f & I & H); exists f; (split; [auto|]).
  - apply existsb_exists in H. destruct H as (g & J & E). unfold flag_eqb in E. destruct (flag_eq_dec f g); [now subst|discriminate].
  - apply existsb_exists. exists f. split; [auto|]. unfold flag_eqb. destruct (flag_eq_dec f f); congruence.
Qed.
Lemma literal_spec t : is_literal_like t = true <-> literal t.
Proof. unfold is_literal_like, literal. rewrite is_set_spec. reflexivity. Qed.
Lemma undefined_spec t : is_set t [FUndefined] = true <-> In FUndefined (t_flags t).
Proof. rewrite is_set_spec. split; [intros (f & I & [<-|[]]); auto|intros I; exists FUndefined; split; [auto|now left]]. Qed.

Fixpoint ty_ind' (P : ty -> Prop) (H : forall i f x s l, Forall P l -> P (Ty i f x s l)) (t : ty) : P t :=
  match t with
  | Ty i f x s l => H i f x s l ((fix all l : Forall P l := match l with [] => Forall_nil P | u :: r => Forall_cons u (ty_ind' P H u) (all r) end) l)
  end.

Definition case_types (cases : list clause) : list ty := flat_map (fun c => match c_type c with Some u => [u] | None => [] end) cases.
Lemma in_case_types cases u : In u (case_types cases) <-> exists c, In c cases /\ c_type c = Some u.
Proof.
  unfold case_types. rewrite in_flat_map. split; intros (c & I & H); exists c; (split; [auto|]).
  - destruct (c_type c) as [w|]; [destruct H as [->|[]]; reflexivity|destruct H].
  - rewrite H. now left.
Qed.
Definition lacking (ids : list Z) (und : bool) (t : ty) : bool :=
  negb (existsb (Z.eqb (t_id t)) ids) && is_literal_like t && negb (und && is_set t [FUndefined]).
Lemma collect_spec ids und t l : collect ids und t l = (false, l ++ (if lacking ids und t then [t] else [])).
Proof.
  unfold collect, lacking. destruct (existsb _ ids), (is_literal_like t); cbn [orb negb andb]; rewrite ?app_nil_r; try reflexivity.
  destruct (und && is_set t [FUndefined]); cbn [negb]; rewrite ?app_nil_r; reflexivity.
Qed.
Lemma recurser_spec ids und t : forall ls s, members t ls -> type_recurser (collect ids und) t s = (false, s ++ filter (lacking ids und) ls).
Proof.
  induction t as [i f x sy l IH] using ty_ind'. intros ls s M. cbn [type_recurser].
  inversion M as [? N1 N2|? ? U A]; subst.
  - assert (E : is_set (Ty i f x sy l) [FUnion; FIntersection] = false).
    { apply not_true_is_false. rewrite is_set_spec. intros (g & I & [<-|[<-|[]]]); auto. }
    rewrite E, collect_spec. cbn [filter]. destruct (lacking _ _ _); reflexivity.
  - assert (E : is_set (Ty i f x sy l) [FUnion; FIntersection] = true).
    { apply is_set_spec. destruct U as [U|U]; [exists FUnion|exists FIntersection]; split; auto; cbn; auto. }
    rewrite E. cbn [t_parts] in A. clear M E U. revert ls s A. induction IH as [|u l Hu _ IHl]; intros ls s A; inversion A as [|? ? a c Mu Ml]; subst.
    + now rewrite app_nil_r.
    + rewrite (Hu a s Mu), (IHl c _ Ml), filter_app, app_assoc. reflexivity.
Qed.
Lemma lacking_spec cases t :
  lacking (map t_id (case_types cases)) (existsb (fun u => is_set u [FUndefined]) (case_types cases)) t = true <-> literal t /\ ~ tested cases t.
Proof.
  unfold lacking. rewrite !andb_true_iff, !negb_true_iff, literal_spec. unfold tested. split.
  - intros [[A L] B]. split; [auto|]. intros (c & u & I & E & [H|[H1 H2]]).
    + enough (existsb (Z.eqb (t_id t)) (map t_id (case_types cases)) = true) by congruence.
      apply existsb_exists. exists (t_id u). split; [apply in_map, in_case_types; eauto|]. apply Z.eqb_eq. auto.
    + apply andb_false_iff in B. destruct B as [B|B].
      * enough (existsb (fun u => is_set u [FUndefined]) (case_types cases) = true) by congruence.
        apply existsb_exists. exists u. split; [apply in_case_types; eauto|now apply undefined_spec].
      * apply undefined_spec in H2. congruence.
  - intros [L N]. split; [split; [|auto]|].
    + apply not_true_is_false. rewrite existsb_exists. intros (i & I & E). apply Z.eqb_eq in E. subst.
      apply in_map_iff in I. destruct I as (u & E & I). apply in_case_types in I. destruct I as (c & I & C). apply N. exists c, u. auto.
    + apply andb_false_iff. destruct (existsb _ _) eqn:E; [right|auto]. apply existsb_exists in E. destruct E as (u & I & U).
      apply in_case_types in I. destruct I as (c & I & C). apply undefined_spec in U.
      apply not_true_is_false. rewrite undefined_spec. intros T. apply N. exists c, u. auto 6.
Qed.
Lemma filter_kept (f : ty -> bool) (P : ty -> Prop) l : (forall t, f t = true <-> P t) -> kept P l (filter f l).
Proof.
  intros H. induction l as [|t l IH]; cbn [filter]; [constructor|]. destruct (f t) eqn:E.
  - apply kp_in; [now apply H|auto].
  - apply kp_out; [rewrite <- H; congruence|auto].
Qed.

(** What is said to be missing are the members that stand for one value and are not tested for, in the
    order of the type. *)
Theorem C40_missing :
  forall pattern t cases comments ls, members t ls ->
    kept (fun u => literal u /\ ~ tested cases u) ls (m_missing (metadata_of pattern t cases comments)).
Proof.
  intros pattern t cases comments ls M. cbn [metadata_of m_missing]. fold (case_types cases).
  rewrite (recurser_spec _ _ t ls [] M). cbn [snd app]. apply filter_kept. intros u. apply lacking_spec.
Qed.
Print Assumptions C40_missing.
(** Every type has members. *)
Theorem C40_members_exist : forall t, exists ls, members t ls.
Proof.
  induction t as [i f x s l IH] using ty_ind'.
  assert (A : exists ls, all_members l ls).
  { induction IH as [|u l (a & Ha) _ (c & Hc)]; [exists []; constructor|exists (a ++ c); now constructor]. }
  destruct (in_dec flag_eq_dec FUnion f) as [U|U]; [destruct A as [ls A]; exists ls; apply mb_parts; auto|].
  destruct (in_dec flag_eq_dec FIntersection f) as [V|V]; [destruct A as [ls A]; exists ls; apply mb_parts; auto|].
  exists [Ty i f x s l]. now apply mb_leaf.
Qed.
Print Assumptions C40_members_exist.
Lemma kept_in P l l' x : kept P l l' -> (In x l' <-> In x l /\ P x).
Proof.
  induction 1 as [|y l l' Hy K IH|y l l' Hy K IH]; cbn [In]; [tauto| |]; rewrite IH; split; intros H.
  - destruct H as [->|[A B]]; auto.
  - destruct H as [[->|A] B]; auto.
  - tauto.
  - destruct H as [[->|A] B]; [contradiction|auto].
Qed.

(** ** Default clauses and comments *)

(** A comment has the body [x] when between its marks there are spaces, [x], and spaces again, and
    [x] does not begin or end with a space. *)
Definition space (c : Z) : Prop :=
  In c [9; 10; 11; 12; 13; 32; 133; 160; 5760; 8232; 8233; 8239; 8287; 12288] \/ 8192 <= c <= 8202.
Definition says (c : comment) (x : list Z) : Prop :=
  exists l r, Forall space l /\ Forall space r /\
    (forall d x', x = d :: x' -> ~ space d) /\ (forall d x', x = x' ++ [d] -> ~ space d) /\
    match k_kind c with
    | SingleLine => k_text c = [47; 47] ++ l ++ x ++ r
    | MultiLine => k_text c = [47; 42] ++ l ++ x ++ r ++ [42; 47]
    end.

Lemma space_spec c : is_space c = true <-> space c.
Proof.
  unfold is_space, space. rewrite orb_true_iff, existsb_exists, andb_true_iff, !Z.leb_le. split.
  - intros [(d & I & E)|H]; [apply Z.eqb_eq in E; subst; auto|auto].
  - intros [I|H]; [left; exists c; split; [auto|apply Z.eqb_refl]|auto].
Qed.
Lemma drop_spaces_app l : forall s, Forall space l -> drop_spaces (l ++ s) = drop_spaces s.
Proof. induction l as [|c l IH]; intros s F; [reflexivity|]. inversion F; subst. cbn. rewrite (proj2 (space_spec c)) by auto. auto. Qed.
Lemma drop_spaces_none s : (forall d s', s = d :: s' -> ~ space d) -> drop_spaces s = s.
Proof. destruct s as [|c s]; intros H; [reflexivity|]. cbn. destruct (is_space c) eqn:E; [|reflexivity]. apply space_spec in E. destruct (H c s eq_refl E). Qed.
Lemma trim_space_spec l x r : Forall space l -> Forall space r ->
  (forall d x', x = d :: x' -> ~ space d) -> (forall d x', x = x' ++ [d] -> ~ space d) -> trim_space (l ++ x ++ r) = x.
Proof.
  intros L R A B. unfold trim_space. rewrite drop_spaces_app by auto.
  destruct x as [|d x].
  - cbn [app]. replace r with (r ++ []) by apply app_nil_r. rewrite drop_spaces_app by auto. reflexivity.
  - rewrite (drop_spaces_none ((d :: x) ++ r)).
    + rewrite rev_app_distr, drop_spaces_app by now apply Forall_rev.
      rewrite drop_spaces_none; [apply rev_involutive|]. intros e s' E. apply (B e (rev s')).
      rewrite <- (rev_involutive (d :: x)), E. reflexivity.
    + intros e s' [= <- _]. eapply A; reflexivity.
Qed.
Lemma strip_app p s : strip p (p ++ s) = Some s.
Proof. induction p as [|x p IH]; [destruct s; reflexivity|]. cbn. now rewrite Z.eqb_refl. Qed.
Lemma says_body c x : says c x -> trim_space (comment_body c) = x.
Proof.
  intros (l & r & L & R & A & B & E). unfold comment_body. destruct (k_kind c).
  - rewrite E. unfold trim_prefix. rewrite strip_app. now apply trim_space_spec.
  - rewrite E. unfold trim_prefix. rewrite strip_app. unfold trim_suffix.
    rewrite !rev_app_distr, <- !app_assoc. rewrite strip_app, !rev_app_distr, !rev_involutive, <- app_assoc. now apply trim_space_spec.
Qed.

(** A switch without default clause has a default comment when, among the comments after its last
    clause, one matches the pattern and none before it does. *)
Theorem C40_default_comment :
  forall pattern t cases comments before c after x, 
    ~ (exists d, In d cases /\ c_type d = None) -> cases <> [] ->
    comments = before ++ c :: after -> says c x ->
    (forall k, In k before -> exists y, says k y /\ pattern y = Some false) ->
    pattern x <> Some false ->
    (m_default (metadata_of pattern t cases comments) = None) /\
    (m_comment (metadata_of pattern t cases comments) = if pattern x then Some c else None).
Proof.
  intros pattern t cases comments before c after x ND NE -> S B P. cbn [metadata_of m_default m_comment].
  assert (F : find is_default cases = None).
  { destruct (find is_default cases) as [d|] eqn:E; [|reflexivity]. apply find_some in E. destruct E as [I E]. destruct ND. exists d. split; [auto|].
    unfold is_default in E. destruct (c_type d); [discriminate|reflexivity]. }
  rewrite F. split; [reflexivity|]. destruct cases as [|d cases]; [congruence|]. clear NE ND F.
  induction before as [|k before IH]; cbn [app comment_default].
  - rewrite (says_body c x S). destruct (pattern x) as [[|]|]; [reflexivity|congruence|reflexivity].
  - destruct (B k (or_introl eq_refl)) as (y & Y & E). rewrite (says_body k y Y), E. apply IH. intros k' I. apply B. now right.
Qed.
Print Assumptions C40_default_comment.
(** With a default clause, comments do not count; without a matching comment there is none; an empty
    switch has none. *)
Theorem C40_no_default_comment :
  forall pattern t cases comments,
    (exists d, In d cases /\ c_type d = None) \/ cases = [] \/ (forall k, In k comments -> exists y, says k y /\ pattern y = Some false) ->
    m_comment (metadata_of pattern t cases comments) = None.
Proof.
  intros pattern t cases comments H. cbn [metadata_of m_comment]. destruct (find is_default cases) as [d|] eqn:F; [reflexivity|].
  destruct H as [(d & I & E)|[->|H]]; [|reflexivity|].
  - apply (find_none _ _ F) in I. unfold is_default in I. rewrite E in I. discriminate.
  - destruct cases as [|c0 cases]; [reflexivity|]. clear F. induction comments as [|k r IH]; [reflexivity|]. cbn [comment_default].
    destruct (H k (or_introl eq_refl)) as (y & Y & E). rewrite (says_body k y Y), E. apply IH. intros k' I. apply H. now right.
Qed.
Print Assumptions C40_no_default_comment.

(** ** Reports *)

(** Some member of the union is not, and does not include, a type of one value. *)
Definition open_ended (t : ty) : Prop :=
  exists u, (if in_dec flag_eq_dec FUnion (t_flags t) then In u (t_parts t) else u = t) /\
    forall w, (if in_dec flag_eq_dec FIntersection (t_flags u) then In w (t_parts u) else w = u) -> ~ literal w.
Definition has (cases : list clause) (m : metadata) : Prop := (exists d, In d cases /\ c_type d = None) \/ m_comment m <> None.

Lemma parts_spec t f g : (if is_set t [f] then g else [t]) = if in_dec flag_eq_dec f (t_flags t) then g else [t].
Proof.
  destruct (is_set t [f]) eqn:E, (in_dec flag_eq_dec f (t_flags t)) as [I|I]; try reflexivity.
  - apply is_set_spec in E. destruct E as (h & J & [<-|[]]). contradiction.
  - enough (is_set t [f] = true) by congruence. apply is_set_spec. exists f. split; [auto|now left].
Qed.
Lemma non_literal_spec t : contains_non_literal t = true <-> open_ended t.
Proof.
  unfold contains_non_literal, open_ended. rewrite existsb_exists. unfold union_parts, is_union. rewrite parts_spec.
  split; intros (u & I & H); exists u; split.
  - destruct (in_dec flag_eq_dec FUnion (t_flags t)); [auto|destruct I as [I|[]]; auto].
  - rewrite forallb_forall in H. unfold intersection_parts, is_intersection in H. rewrite parts_spec in H. intros w J.
    assert (X : negb (is_literal_like w) = true) by (apply H; destruct (in_dec flag_eq_dec FIntersection (t_flags u)); [auto|now left]).
    rewrite negb_true_iff in X. rewrite <- literal_spec. congruence.
  - destruct (in_dec flag_eq_dec FUnion (t_flags t)); [auto|now left].
  - rewrite forallb_forall. unfold intersection_parts, is_intersection. rewrite parts_spec. intros w J.
    assert (X : ~ literal w) by (apply H; destruct (in_dec flag_eq_dec FIntersection (t_flags u)); [auto|destruct J as [J|[]]; auto]).
    rewrite negb_true_iff. rewrite <- literal_spec in X. now apply not_true_is_false.
Qed.
Lemma has_default_spec pattern t cases comments :
  let m := metadata_of pattern t cases comments in has_default m = true <-> has cases m.
Proof.
  intros m. unfold has_default, has. subst m. cbn [metadata_of m_default].
  destruct (find is_default cases) as [d|] eqn:F.
  - apply find_some in F. destruct F as [I E]. split; [|reflexivity]. intros _. left. exists d. split; [auto|]. unfold is_default in E. destruct (c_type d); congruence.
  - destruct (m_comment _) as [k|]; split; auto; try discriminate.
    + intros _. right. discriminate.
    + intros [(d & I & E)|H]; [|congruence]. apply (find_none _ _ F) in I. unfold is_default in I. rewrite E in I. discriminate.
Qed.

(** Missing members are reported unless a default is declared to cover them; a default is reported as
    superfluous when nothing is missing and every member is tested for; a default is asked for when
    the type has members that cannot be listed. *)
Theorem C40_reports :
  forall pattern o t cases comments,
    let m := metadata_of pattern t cases comments in
    (forall l, In (NotExhaustive l) (reports o m) <-> l = m_missing m /\ l <> [] /\ ~ (o_default_exhaustive o = true /\ has cases m)) /\
    (In DangerousDefault (reports o m) <-> o_allow_default o = false /\ m_missing m = [] /\ has cases m /\ ~ open_ended t) /\
    (In DefaultMissing (reports o m) <-> o_require_default o = true /\ open_ended t /\ ~ has cases m) /\
    NoDup (reports o m).
Proof.
  intros pattern o t cases comments m. pose proof (has_default_spec pattern t cases comments) as HD. cbn zeta in HD. fold m in HD.
  assert (NL : m_non_literal m = true <-> open_ended t) by apply non_literal_spec.
  unfold reports. set (ms := m_missing m) in *.
  destruct (o_default_exhaustive o), (has_default m), (o_allow_default o), (m_non_literal m), (o_require_default o), ms as [|x ms'];
    cbn [andb negb app]; (split; [intros l|split; [|split]]); try (repeat constructor; cbn; intuition discriminate);
    split; cbn [In]; intros X; intuition (try discriminate; try congruence).
Qed.
Print Assumptions C40_reports.

(** The two reports about defaults never meet the report about missing members of the same kind:
    a default is not superfluous while something is missing. *)
Theorem C40_not_both : forall o m l, In (NotExhaustive l) (reports o m) -> ~ In DangerousDefault (reports o m).
Proof.
  intros o m l H D. unfold reports in H, D. rewrite !in_app_iff in H, D.
  destruct (m_missing m) as [|x ms].
  - destruct H as [H|[H|H]]; repeat match type of H with context[if ?c then _ else _] => destruct c end; cbn in H; intuition discriminate.
  - cbn [andb] in D. destruct D as [D|[D|D]]; repeat match type of D with context[if ?c then _ else _] => destruct c end; cbn in D; intuition discriminate.
Qed.
Print Assumptions C40_not_both.

(** Adding a clause of its type for every missing member leaves nothing missing; adding a default
    clause leaves no default to ask for. *)
Theorem C40_suggestion_completes :
  forall pattern o t cases comments cases' comments',
    let m := metadata_of pattern t cases comments in
    (forall c, In c cases -> exists c', In c' cases' /\ c_type c' = c_type c) ->
    (forall u, In u (m_missing m) -> exists c', In c' cases' /\ c_type c' = Some u) ->
    forall l, ~ In (NotExhaustive l) (reports o (metadata_of pattern t cases' comments')).
Proof.
  intros pattern o t cases comments cases' comments' m OLD NEW l R.
  destruct (C40_reports pattern o t cases' comments') as (N & _). apply N in R. destruct R as (E & NE & _).
  destruct (C40_members_exist t) as (ls & M). pose proof (C40_missing pattern t cases comments ls M) as K. pose proof (C40_missing pattern t cases' comments' ls M) as K'.
  rewrite <- E in K'. destruct l as [|u l]; [congruence|].
  assert (I : In u (u :: l)) by now left. apply (kept_in _ _ _ u K') in I. destruct I as (I & L & T).
  destruct (existsb (fun w => Z.eqb (t_id w) (t_id u)) (m_missing m)) eqn:X.
  - apply existsb_exists in X. destruct X as (w & J & Y). apply Z.eqb_eq in Y. destruct (NEW w J) as (c' & C & D). apply T. exists c', w. auto.
  - assert (NT : ~ In u (m_missing m)).
    { intros J. assert (Y : existsb (fun w => Z.eqb (t_id w) (t_id u)) (m_missing m) = true) by (apply existsb_exists; exists u; split; [auto|apply Z.eqb_refl]). congruence. }
    apply NT. apply (kept_in _ _ _ u K). split; [auto|]. split; [auto|]. intros (c & w & J & C & H). destruct (OLD c J) as (c' & J' & C').
    apply T. exists c', w. split; [auto|]. split; [congruence|auto].
Qed.
Print Assumptions C40_suggestion_completes.
Theorem C40_default_completes :
  forall pattern o t cases comments, (exists d, In d cases /\ c_type d = None) -> ~ In DefaultMissing (reports o (metadata_of pattern t cases comments)).
Proof.
  intros pattern o t cases comments D R. destruct (C40_reports pattern o t cases comments) as (_ & _ & N & _). apply N in R.
  destruct R as (_ & _ & R). apply R. now left.
Qed.
Print Assumptions C40_default_completes.

(** ** What the reports mean for values *)

(** [===] for values; NaN is not equal to itself. *)
Definition strictly_equal (v w : value) : Prop := v = w /\ v <> Num [78; 97; 78].
(** Clauses by the type of the test and the value it has when evaluated. *)
Definition clauses_of (number : sty -> Z) (cases : list clause) (tests : list (sty * value)) : Prop :=
  (forall c u, In c cases -> c_type c = Some u -> exists x w, In (x, w) tests /\ u = checked number x) /\
  (forall x w, In (x, w) tests -> holds x w /\ exists c, In c cases /\ c_type c = Some (checked number x)).
(** The checker makes one object for one type. *)
Definition one_object (number : sty -> Z) (d : sty) (tests : list (sty * value)) : Prop :=
  forall x x' w, (x = d \/ In x (match d with SUnion _ l => l ++ flat_map (fun y => match y with SInter l' => l' | _ => [] end) l | SInter l => l | _ => [] end)) ->
    In (x', w) tests -> number x = number x' -> x = x'.

Lemma flags_holds number x : literal (checked number x) -> forall v w, holds x v -> holds x w -> v = w.
Proof.
  intros (f & I & J) v w. destruct x; cbn in I |- *; try (intros ? ?; congruence);
    (repeat match type of I with _ \/ _ => destruct I as [<-|I] | False => destruct I end);
    cbn in J; intuition discriminate.
Qed.
Lemma id_checked number x : t_id (checked number x) = number x.
Proof. destruct x; reflexivity. Qed.
Lemma undefined_checked number x : In FUndefined (t_flags (checked number x)) -> x = SUndefined.
Proof. destruct x; cbn; intuition discriminate. Qed.
Lemma inter_flag number x : In FIntersection (t_flags (checked number x)) -> exists l, x = SInter l.
Proof. destruct x; cbn; intros H; intuition (try discriminate); eauto. Qed.
Lemma union_flag number x : In FUnion (t_flags (checked number x)) -> exists s l, x = SUnion s l.
Proof. destruct x; cbn; intros H; intuition (try discriminate); eauto. Qed.
Lemma literal_leaf number x : literal (checked number x) -> ~ In FUnion (t_flags (checked number x)) /\ ~ In FIntersection (t_flags (checked number x)).
Proof.
  intros (f & I & J). split; intros K.
  - destruct (union_flag _ _ K) as (s & l & ->). cbn in I. destruct I as [<-|[]]. cbn in J. intuition discriminate.
  - destruct (inter_flag _ _ K) as (l & ->). cbn in I. destruct I as [<-|[]]. cbn in J. intuition discriminate.
Qed.
Lemma all_members_in l : forall ls t a, all_members l ls -> In t l -> members t a -> (forall x c, members x c -> forall c', members x c' -> c = c') -> incl a ls.
Proof.
  induction l as [|u l IH]; intros ls t a A I M U; [destruct I|]. inversion A as [|? ? a0 c0 M0 A0]; subst. destruct I as [->|I].
  - rewrite (U _ _ M _ M0). apply incl_appl, incl_refl.
  - apply incl_appr. eauto.
Qed.
Scheme members_ind2 := Induction for members Sort Prop with all_members_ind2 := Induction for all_members Sort Prop.
Lemma members_unique t ls : members t ls -> forall ls', members t ls' -> ls = ls'.
Proof.
  intros M. induction M using members_ind2 with (P0 := fun l ls _ => forall ls', all_members l ls' -> ls = ls').
  - intros ls' M'. inversion M' as [|? ? [U|U] ?]; subst; [reflexivity|contradiction|contradiction].
  - intros ls' M'. inversion M' as [|? ? ? ?]; subst; [destruct o; contradiction|auto].
  - intros ls' A. inversion A; reflexivity.
  - intros ls' A. inversion A; subst. f_equal; auto.
Qed.
Lemma union_holds s l v : holds (SUnion s l) v <-> Exists (fun x => holds x v) l.
Proof. cbn [holds]. induction l as [|x l IH]; split; intros H; try (now inversion H); [destruct H; [now left|right; tauto]|inversion H; tauto]. Qed.
Lemma inter_holds l v : holds (SInter l) v <-> Forall (fun x => holds x v) l.
Proof. cbn [holds]. induction l as [|x l IH]; split; intros H; auto; [destruct H; constructor; tauto|inversion H; tauto]. Qed.

(** The member types a value can be found under: the type itself, a member of the union, a part of
    an intersection that is one of these. *)
Lemma member_of number d (p q : sty) ls :
  members (checked number d) ls ->
  (if in_dec flag_eq_dec FUnion (t_flags (checked number d)) then In (checked number p) (t_parts (checked number d)) else checked number p = checked number d) ->
  (if in_dec flag_eq_dec FIntersection (t_flags (checked number p)) then In (checked number q) (t_parts (checked number p)) else checked number q = checked number p) ->
  literal (checked number q) -> In (checked number q) ls.
Proof.
  intros M P Q L. destruct (literal_leaf number q L) as [L1 L2].
  assert (Mq : members (checked number q) [checked number q]) by now apply mb_leaf.
  assert (Mp : forall lp, members (checked number p) lp -> In (checked number q) lp).
  { intros lp Hp. destruct (in_dec flag_eq_dec FIntersection _) as [I|I].
    - inversion Hp as [? ? N|? ? U A]; subst; [contradiction|].
      apply (all_members_in _ _ _ _ A Q Mq (fun x c h c' h' => members_unique x c h c' h')). now left.
    - rewrite <- Q in Hp. rewrite (members_unique _ _ Hp _ Mq). now left. }
  destruct (in_dec flag_eq_dec FUnion (t_flags (checked number d))) as [I|I].
  - inversion M as [? N|? ? U A]; subst; [contradiction|]. destruct (C40_members_exist (checked number p)) as (lp & Hp).
    apply (all_members_in _ _ _ _ A P Hp (fun x c h c' h' => members_unique x c h c' h')). auto.
  - rewrite <- P in M. auto.
Qed.

Lemma covered_value number pattern d cases comments tests v :
  clauses_of number cases tests -> one_object number d tests ->
  m_missing (metadata_of pattern (checked number d) cases comments) = [] ->
  ~ open_ended (checked number d) -> holds d v -> v <> Num [78; 97; 78] ->
  exists x w, In (x, w) tests /\ strictly_equal v w.
Proof.
  intros [C1 C2] OO MS OE H NN.
  destruct (C40_members_exist (checked number d)) as (ls & M).
  pose proof (C40_missing pattern (checked number d) cases comments ls M) as K. rewrite MS in K.
  (* the member of the union that v belongs to *)
  assert (P : exists p, holds p v /\ (p = d \/ exists s l, d = SUnion s l /\ In p l) /\
     (if in_dec flag_eq_dec FUnion (t_flags (checked number d)) then In (checked number p) (t_parts (checked number d)) else checked number p = checked number d)).
  { destruct (in_dec flag_eq_dec FUnion (t_flags (checked number d))) as [I|I].
    - destruct (union_flag _ _ I) as (s & l & ->). apply union_holds, Exists_exists in H. destruct H as (p & J & H). exists p. split; [auto|]. split; [eauto 6|].
      cbn [checked t_parts]. now apply in_map.
    - exists d. auto. }
  destruct P as (p & Hp & PD & P).
  (* it includes a literal *)
  assert (Q : exists q, holds q v /\ (q = p \/ exists l, p = SInter l /\ In q l) /\ literal (checked number q) /\
     (if in_dec flag_eq_dec FIntersection (t_flags (checked number p)) then In (checked number q) (t_parts (checked number p)) else checked number q = checked number p)).
  { destruct (in_dec flag_eq_dec FIntersection (t_flags (checked number p))) as [I|I] eqn:EI.
    - destruct (inter_flag _ _ I) as (l & ->). rewrite inter_holds, Forall_forall in Hp.
      destruct (existsb (fun q => is_literal_like (checked number q)) l) eqn:X.
      + apply existsb_exists in X. destruct X as (q & J & X). apply literal_spec in X. exists q. split; [auto|]. split; [eauto|]. split; [auto|]. cbn [checked t_parts]. now apply in_map.
      + exfalso. apply OE. exists (checked number (SInter l)). split; [exact P|]. rewrite EI. intros w J L. cbn [checked t_parts] in J.
        apply in_map_iff in J. destruct J as (q & <- & J). apply literal_spec in L.
        enough (existsb (fun q => is_literal_like (checked number q)) l = true) by congruence. apply existsb_exists. eauto.
    - exists p. split; [auto|]. split; [auto|]. split; [|auto].
      destruct (is_literal_like (checked number p)) eqn:X; [now apply literal_spec|]. exfalso. apply OE. exists (checked number p). split; [auto|]. rewrite EI. intros w -> L.
      apply literal_spec in L. congruence. }
  destruct Q as (q & Hq & QP & L & Q).
  pose proof (member_of number d p q ls M P Q L) as I.
  assert (T : tested cases (checked number q)).
  { destruct (existsb (fun u => (Z.eqb (t_id u) (t_id (checked number q))) || (is_set u [FUndefined] && is_set (checked number q) [FUndefined])) (case_types cases)) eqn:X.
    - apply existsb_exists in X. destruct X as (u & J & X). apply in_case_types in J. destruct J as (c & J & E). exists c, u. split; [auto|]. split; [auto|].
      apply orb_true_iff in X. rewrite andb_true_iff, Z.eqb_eq, !undefined_spec in X. tauto.
    - exfalso. assert (NI : In (checked number q) []); [|destruct NI]. apply (kept_in _ _ _ _ K). split; [auto|]. split; [auto|].
      intros (c & u & J & E & Y). enough (Z : existsb (fun u => (Z.eqb (t_id u) (t_id (checked number q))) || (is_set u [FUndefined] && is_set (checked number q) [FUndefined])) (case_types cases) = true) by congruence.
      apply existsb_exists. exists u. split; [apply in_case_types; eauto|]. apply orb_true_iff. rewrite andb_true_iff, Z.eqb_eq, !undefined_spec. tauto. }
  destruct T as (c & u & J & E & Y). destruct (C1 c u J E) as (x & w & IX & ->). exists x, w. split; [auto|].
  destruct (C2 x w IX) as [Hw _].
  assert (EQ : x = q).
  { destruct Y as [Y|[Y1 Y2]]; [|apply undefined_checked in Y1, Y2; congruence]. rewrite !id_checked in Y. symmetry. apply (OO q x w); [|auto|auto].
    destruct QP as [QE|(l & QE & JQ)], PD as [PE|(s & l' & PE & JP)].
    - left. congruence.
    - right. rewrite PE. apply in_app_iff. rewrite QE. auto.
    - right. rewrite <- PE, QE. exact JQ.
    - right. rewrite PE. apply in_app_iff. right. apply in_flat_map. exists p. split; [exact JP|]. rewrite QE. exact JQ. }
  subst x. split; [|auto]. apply (flags_holds number q L); auto.
Qed.

(** If the rule finds nothing missing and every member can be listed, every value of the type other
    than NaN is met by a clause.

    Full statement: the same for NaN too.  That is false: see [C40_nan_refuted]. *)
Theorem C40_exhaustive_partial :
  forall number pattern o d cases comments tests,
    clauses_of number cases tests -> one_object number d tests -> o_default_exhaustive o = false ->
    (forall l, ~ In (NotExhaustive l) (reports o (metadata_of pattern (checked number d) cases comments))) ->
    ~ open_ended (checked number d) ->
    forall v, holds d v -> v <> Num [78; 97; 78] -> exists x w, In (x, w) tests /\ strictly_equal v w.
Proof.
  intros number pattern o d cases comments tests C OO OD NR OE v H NN.
  apply (covered_value number pattern d cases comments tests v); auto.
  destruct (m_missing (metadata_of pattern (checked number d) cases comments)) as [|u l] eqn:E; [reflexivity|]. exfalso.
  apply (NR (u :: l)). apply C40_reports. split; [auto|]. split; [discriminate|]. intros [X _]. congruence.
Qed.
Print Assumptions C40_exhaustive_partial.

(** A default clause reported as superfluous is one no value (other than NaN) of the type reaches. *)
Theorem C40_superfluous_default_partial :
  forall number pattern o d cases comments tests,
    clauses_of number cases tests -> one_object number d tests ->
    In DangerousDefault (reports o (metadata_of pattern (checked number d) cases comments)) ->
    forall v, holds d v -> v <> Num [78; 97; 78] -> exists x w, In (x, w) tests /\ strictly_equal v w.
Proof.
  intros number pattern o d cases comments tests C OO R v H NN.
  apply C40_reports in R. destruct R as (_ & MS & _ & OE). apply (covered_value number pattern d cases comments tests v); auto.
Qed.
Print Assumptions C40_superfluous_default_partial.

(** An enum member that is NaN: the clause for it is never taken, yet the default is said to be
    superfluous. *)
Theorem C40_nan_refuted :
  exists number o d cases tests, clauses_of number cases tests /\ one_object number d tests /\
    In DangerousDefault (reports o (metadata_of (fun _ => None) (checked number d) cases [])) /\
    exists v, holds d v /\ forall x w, In (x, w) tests -> ~ strictly_equal v w.
Proof.
  set (e := SEnumNum [65] [78; 97; 78]). set (number := fun _ : sty => 0).
  exists number, (Options false false false), e, [Clause 0 0 (Some (checked number e)); Clause 0 0 None], [(e, Num [78; 97; 78])].
  split; [|split; [|split]].
  - split.
    + intros c u [<-|[<-|[]]] E; [|discriminate]. injection E as <-. exists e, (Num [78; 97; 78]). split; [now left|reflexivity].
    + intros x w [[= <- <-]|[]]. split; [reflexivity|]. eexists. split; [now left|reflexivity].
  - intros x x' w [->|[]] [[= <- <-]|[]] _. reflexivity.
  - cbn. auto.
  - exists (Num [78; 97; 78]). split; [reflexivity|]. intros x w [[= <- <-]|[]] [_ N]. congruence.
Qed.
Print Assumptions C40_nan_refuted.

(** Conversely, what is reported as missing is missing: where the type is a union of types of one
    value, and tests are of such types too, and types with the same value are the same type, no clause
    is taken for the value of a missing member.

    Full statement: the same without the condition on types with the same value.  That is false for
    enum members, which have the values of number and string literals: [C40_enum_refuted]. *)
Theorem C40_missing_is_real_partial :
  forall number pattern d s cases comments tests,
    clauses_of number cases tests ->
    Forall (fun x => literal (checked number x)) d ->
    Forall (fun t => literal (checked number (fst t))) tests ->
    (forall x x' w v, In x d -> In (x', w) tests -> holds x v -> holds x' v -> x = x') ->
    forall q, In (checked number q) (m_missing (metadata_of pattern (checked number (SUnion s d)) cases comments)) -> In q d ->
    forall v, holds q v -> holds (SUnion s d) v /\ forall x w, In (x, w) tests -> ~ strictly_equal v w.
Proof.
  intros number pattern d s cases comments tests [C1 C2] LD LT SAME q MS I v H. split; [apply union_holds, Exists_exists; eauto|].
  intros x w T [-> _]. destruct (C2 x w T) as [Hw (c & J & E)].
  assert (X : q = x) by (eapply SAME; eauto). subst x.
  destruct (C40_members_exist (checked number (SUnion s d))) as (ls & M).
  apply (kept_in _ _ _ _ (C40_missing pattern _ cases comments ls M)) in MS. destruct MS as (_ & _ & NT). apply NT.
  exists c, (checked number q). auto.
Qed.
Print Assumptions C40_missing_is_real_partial.

(** A switch over an enum whose clauses name the numbers covers every value, and is reported. *)
Theorem C40_enum_refuted :
  exists number o d cases tests, clauses_of number cases tests /\ one_object number d tests /\
    (exists l, In (NotExhaustive l) (reports o (metadata_of (fun _ => None) (checked number d) cases []))) /\
    forall v, holds d v -> exists x w, In (x, w) tests /\ strictly_equal v w.
Proof.
  set (e := SEnumNum [65] [48]). set (f := SEnumNum [66] [49]). set (d := SUnion (Some [69]) [e; f]).
  set (number := fun x : sty => match x with SEnumNum _ [48] => 1 | SEnumNum _ _ => 2 | SNum [48] => 3 | SNum _ => 4 | _ => 5 end).
  exists number, (Options true false false), d, [Clause 0 0 (Some (checked number (SNum [48]))); Clause 0 0 (Some (checked number (SNum [49])))], [(SNum [48], Num [48]); (SNum [49], Num [49])].
  split; [|split; [|split]].
  - split.
    + intros c u [<-|[<-|[]]] E; injection E as <-; [exists (SNum [48]), (Num [48])|exists (SNum [49]), (Num [49])]; (split; [cbn; auto|reflexivity]).
    + intros x w [[= <- <-]|[[= <- <-]|[]]]; (split; [reflexivity|]); eexists; [split; [now left|reflexivity]|split; [right; now left|reflexivity]].
  - intros x x' w [->|X] [[= <- <-]|[[= <- <-]|[]]] E; try discriminate; cbn in X; destruct X as [<-|[<-|[]]]; discriminate.
  - eexists. cbn. left. reflexivity.
  - intros v H. apply union_holds in H. inversion H as [? ? H0|? ? H0]; subst.
    + cbn in H0. subst. exists (SNum [48]), (Num [48]). split; [now left|]. split; [reflexivity|discriminate].
    + inversion H0 as [? ? H1|? ? H1]; subst; [|inversion H1]. cbn in H1. subst. exists (SNum [49]), (Num [49]). split; [cbn; auto|]. split; [reflexivity|discriminate].
Qed.
Print Assumptions C40_enum_refuted.

(** A literal that occurs in two members is listed twice, and the suggestion adds two clauses for it. *)
Theorem C40_listed_twice_refuted :
  exists number d, ~ NoDup (m_missing (metadata_of (fun _ => None) (checked number d) [] [])).
Proof.
  exists (fun _ => 0), (SUnion None [SInter [SStr [97]; SWeak 1]; SInter [SStr [97]; SWeak 2]]). cbn.
  intros N. inversion N as [|? ? X]. apply X. now left.
Qed.
Print Assumptions C40_listed_twice_refuted.

(** ** Examples *)

(** "a" | "b" | undefined with a clause for "a". *)
Definition ex_number (x : sty) : Z := match x with SStr [97] => 1 | SStr [98] => 2 | SUndefined => 3 | SNumber => 4 | _ => 5 end.
Definition ex_union : sty := SUnion None [SStr [97]; SStr [98]; SUndefined].
Definition ex_a : list clause := [Clause 10 20 (Some (checked ex_number (SStr [97])))].
Example C40_ex_reports :
  reports (Options false false true) (metadata_of (fun _ => Some true) (checked ex_number ex_union) ex_a []) =
    [NotExhaustive [checked ex_number (SStr [98]); checked ex_number SUndefined]] /\
  reports (Options false false true) (metadata_of (fun _ => Some true) (checked ex_number (SUnion None [SStr [97]; SNumber])) ex_a []) = [DefaultMissing] /\
  reports (Options false false true) (metadata_of (fun x => Some (match x with [110; 111] => true | _ => false end)) (checked ex_number (SStr [97])) ex_a
     [Comment SingleLine [47; 47; 32; 120]; Comment MultiLine [47; 42; 10; 110; 111; 32; 42; 47]]) = [DangerousDefault].
Proof. repeat split. Qed.
Example C40_ex_says : says (Comment MultiLine [47; 42; 10; 110; 111; 32; 42; 47]) [110; 111].
Proof.
  exists [10], [32]. repeat split; try (repeat constructor; cbn; auto 10; fail).
  - intros d x' [= <- _] [H|H]; [cbn in H; intuition discriminate|lia].
  - intros d x' E. assert (d = 111) by (change [110; 111] with ([110] ++ [111]) in E; now apply app_inj_tail in E as [_ <-]). subst.
    intros [H|H]; [cbn in H; intuition discriminate|lia].
Qed.
Example C40_ex_clauses :
  clauses_of ex_number ex_a [(SStr [97], Str [97])] /\ one_object ex_number ex_union [(SStr [97], Str [97])] /\
  ~ open_ended (checked ex_number ex_union).
Proof.
  split; [|split].
  - split.
    + intros c u [<-|[]] E. injection E as <-. exists (SStr [97]), (Str [97]). split; [now left|reflexivity].
    + intros x w [[= <- <-]|[]]. split; [reflexivity|]. eexists. split; [now left|reflexivity].
  - intros x x' w [->|X] [[= <- <-]|[]] E; [discriminate|]. cbn in X. destruct X as [<-|[<-|[<-|[]]]]; try discriminate. reflexivity.
  - rewrite <- non_literal_spec. discriminate.
Qed.
