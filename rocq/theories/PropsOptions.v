(** C32: rule options and their defaults. *)
From Coq Require Import String Ascii Bool List ZArith Lia.
From Verif Require Import Base EngineProofs Payload PayloadSpec PayloadProofs Specifier PropsSpecifier Options OptionsSchema.
Import ListNotations.
Open Scope Z_scope.

(** ** Specification: one field *)

(** What the Go type of a field makes of a document. *)
Inductive read_as : kind -> json -> oval -> Prop :=
| ra_bool j x : bool_is j x -> read_as KBool j (OBool x)
| ra_str j s : string_is j s -> read_as KStr j (OStr s)
| ra_strs j l : slice_is string_is j l -> read_as KStrs j (OStrs l)
| ra_specs j l : slice_is means j l -> read_as KSpecs j (OSpecs l)
| ra_any j o : any_is j o -> read_as KAny j (OAny o)
| ra_nil : read_as KOptStr JNull (OOpt None)
| ra_text s : read_as KOptStr (JStr s) (OOpt (Some s))
| ra_enum_nil ws : read_as (KOptEnum ws) JNull (OOpt None)
| ra_enum ws s : In s ws -> read_as (KOptEnum ws) (JStr s) (OOpt (Some s))
| ra_unset ps : read_as (KBoolOr ps) JNull OUnset
| ra_set ps x : read_as (KBoolOr ps) (JBool x) (OSet x)
| ra_flags ps l fl : flags_are ps l fl -> read_as (KBoolOr ps) (JObj l) (OObj fl)
| ra_misfit ps j : j <> JNull -> (forall x, j <> JBool x) -> (forall l fl, j = JObj l -> ~ flags_are ps l fl) -> read_as (KBoolOr ps) j OUnset.
(** The value of a field: the one given, otherwise the default; a field without default reads null. *)
Definition value_is (f : ofield) (l : list (bstr * json)) (v : oval) : Prop :=
  (exists j, In (f_name f, j) l /\ j <> JNull /\ read_as (f_kind f) j v) \/
  (missing (f_name f) l /\ match f_default f with Some d => v = d | None => read_as (f_kind f) JNull v end).
Inductive object_of : option json -> list (bstr * json) -> Prop :=
| oo_none : object_of None []
| oo_null : object_of (Some JNull) []
| oo_object l : unambiguous (JObj l) -> object_of (Some (JObj l)) l.

(** ** Proof *)
Lemma Forall2_impl {A B} (R S : A -> B -> Prop) l m : (forall x y, R x y -> S x y) -> Forall2 R l m -> Forall2 S l m.
Proof. intros H F. induction F; constructor; auto. Qed.
Lemma dec_bool_given (l : list (bstr * json)) n d y : NoDup (map fst l) ->
  (match field l n dec_bool false with Some x => Some (given l n d x) | None => None end = Some y <-> (In (n, JBool y) l \/ (missing n l /\ y = d))).
Proof.
  intros ND. unfold field, given. destruct (member n l) as [v|] eqn:E.
  - pose proof (member_some _ _ _ E) as I. assert (M : forall w, In (n, w) l -> w = v) by (intros w J; eapply unique_member; eauto).
    destruct v; cbn [dec_bool].
    + split; [intros [= <-]; right; split; [intros w J; apply M; auto|reflexivity]|intros [J|[_ ->]]; [apply M in J; discriminate|reflexivity]].
    + split; [intros [= <-]; now left|intros [J|[Q _]]; [apply M in J; congruence|apply Q in I; discriminate]].
    + split; [discriminate|intros [J|[Q _]]; [apply M in J; congruence|apply Q in I; discriminate]].
    + split; [discriminate|intros [J|[Q _]]; [apply M in J; congruence|apply Q in I; discriminate]].
    + split; [discriminate|intros [J|[Q _]]; [apply M in J; congruence|apply Q in I; discriminate]].
    + split; [discriminate|intros [J|[Q _]]; [apply M in J; congruence|apply Q in I; discriminate]].
    + split; [discriminate|intros [J|[Q _]]; [apply M in J; congruence|apply Q in I; discriminate]].
  - pose proof (proj1 (member_none _ _) E) as N. split; [intros [= <-]; right; split; [intros w J; destruct (N w J)|reflexivity]|intros [J|[_ ->]]; [destruct (N _ J)|reflexivity]].
Qed.
Lemma dec_flags_ok ps l fl : NoDup (map fst l) -> (dec_flags ps (JObj l) = Some fl <-> flags_are ps l fl).
Proof.
  intros ND. unfold dec_flags, flags_are. cbn [dec_struct]. apply (traverse_ok _ _ (fun _ => True)); [|now apply Forall_forall].
  intros [n d] [m y] _. cbn [fst snd]. pose proof (dec_bool_given l n d y ND) as H. destruct (field l n dec_bool false) as [x|]; cbn [fst snd] in *.
  - split; [intros [= <- E]; split; [auto|]; apply H; now rewrite E|intros [<- X]; apply H in X; injection X as ->; reflexivity].
  - split; [discriminate|intros [<- X]; apply H in X; discriminate].
Qed.
Lemma existsb_in s ws : existsb (fun w => beqb s w) ws = true <-> In s ws.
Proof. rewrite existsb_exists. split; [intros (w & I & E); apply beqb_eq in E; now subst|intros I; exists s; split; [auto|now apply beqb_eq]]. Qed.
Lemma lift_ok {A} (c : A -> oval) d (R : json -> A -> Prop) j v : agrees d R -> unambiguous j -> (forall x y, c x = c y -> x = y) ->
  (lift c (d j) = Some v <-> exists x, v = c x /\ R j x).
Proof.
  intros H U INJ. pose proof (fun x => H j x U) as S. destruct (d j) as [x|]; cbn.
  - split; [intros [= <-]; exists x; split; [auto|now apply S]|intros (y & -> & Y); apply S in Y; injection Y as ->; reflexivity].
  - split; [discriminate|intros (y & _ & Y); apply S in Y; discriminate].
Qed.
Lemma dec_specifier_ok : agrees dec_specifier means.
Proof. intros j s U. now apply C31_decode. Qed.
Lemma dec_kind_ok k : agrees (dec_kind k) (read_as k).
Proof.
  intros j v U. destruct k; cbn [dec_kind].
  - rewrite (lift_ok OBool dec_bool bool_is) by (auto using dec_bool_ok; congruence). split; [intros (x & -> & H); now constructor|inversion 1; eauto].
  - rewrite (lift_ok OStr dec_string string_is) by (auto using dec_string_ok; congruence). split; [intros (x & -> & H); now constructor|inversion 1; eauto].
  - rewrite (lift_ok OStrs _ (slice_is string_is)) by (auto using dec_slice_ok, dec_string_ok; congruence). split; [intros (x & -> & H); now constructor|inversion 1; eauto].
  - rewrite (lift_ok OSpecs _ (slice_is means)) by (auto using dec_slice_ok, dec_specifier_ok; congruence). split; [intros (x & -> & H); now constructor|inversion 1; eauto].
  - rewrite (lift_ok OAny _ any_is) by (auto using dec_any_ok; congruence). split; [intros (x & -> & H); now constructor|inversion 1; eauto].
  - split.
    + destruct j; cbn; intros H; try discriminate; injection H as <-; constructor.
    + inversion 1; reflexivity.
  - split.
    + destruct j; cbn; intros H; try discriminate; [injection H as <-; constructor|]. destruct (existsb (fun w => beqb s w) ws) eqn:E; [|discriminate]. apply existsb_in in E. injection H as <-. now constructor.
    + intros H. inversion H as [| | | | | | |ws'|ws' s I| | | |]; subst; [reflexivity|]. apply existsb_in in I. cbn. now rewrite I.
  - split.
    + intros [= <-]. destruct j as [|x| | | |l|l]; cbn [dec_bool_or]; try (cbn; apply ra_misfit; congruence); try constructor.
      inversion U; subst. destruct (dec_flags ps (JObj l)) as [fl|] eqn:E.
      * constructor. now apply dec_flags_ok.
      * apply ra_misfit; try congruence. intros l' fl [= <-] F. apply dec_flags_ok in F; [congruence|auto].
    + intros H. f_equal. inversion H as [| | | | | | | | |ps'|ps' x|ps' l fl F|ps' j' N1 N2 N3]; subst; try reflexivity.
      * inversion U; subst. cbn [dec_bool_or]. apply dec_flags_ok in F; [|auto]. now rewrite F.
      * destruct j as [|x| | | |l|l]; cbn [dec_bool_or]; try reflexivity; [destruct (N2 x eq_refl)|].
        inversion U; subst. destruct (dec_flags ps (JObj l)) as [fl|] eqn:E; [|reflexivity]. apply dec_flags_ok in E; [|auto]. destruct (N3 l fl eq_refl E).
Qed.
Lemma zero_ok k : read_as k JNull (zero k).
Proof. destruct k; repeat constructor. Qed.
Lemma field_value f l v : unambiguous (JObj l) ->
  (match field l (f_name f) (dec_kind (f_kind f)) (zero (f_kind f)) with
   | Some v => Some (match f_default f with Some d => given l (f_name f) d v | None => v end) | None => None end = Some v <-> value_is f l v).
Proof.
  intros U. inversion U as [| | | | | |? ND F]; subst. rewrite Forall_forall in F. unfold field, given, value_is. destruct (member (f_name f) l) as [j|] eqn:E.
  - pose proof (member_some _ _ _ E) as I. assert (M : forall w, In (f_name f, w) l -> w = j) by (intros w J; eapply unique_member; eauto). pose proof (fun x => dec_kind_ok (f_kind f) j x (F _ I)) as DK.
    assert (NULL : j = JNull \/ j <> JNull) by (destruct j; auto; right; discriminate). destruct NULL as [->|NN].
    + assert (MI : missing (f_name f) l) by (intros w J; now apply M).
      assert (Z : dec_kind (f_kind f) JNull = Some (zero (f_kind f))) by (apply DK, zero_ok). rewrite Z. destruct (f_default f) as [d|].
      * split; [intros [= <-]; right; auto|]. intros [(w & J & N & _)|[_ ->]]; [apply M in J; contradiction|reflexivity].
      * split; [intros [= <-]; right; split; [auto|apply zero_ok]|]. intros [(w & J & N & _)|[_ R]]; [apply M in J; contradiction|]. apply DK in R. congruence.
    + assert (G : match dec_kind (f_kind f) j with Some v0 => Some (match f_default f with Some d => match j with JNull => d | _ => v0 end | None => v0 end) | None => None end = dec_kind (f_kind f) j).
      { destruct (dec_kind (f_kind f) j); [|reflexivity]. f_equal. destruct (f_default f); [|reflexivity]. destruct j; congruence. }
      rewrite G. rewrite DK. split; [intros R; left; eauto|]. intros [(w & J & _ & R)|[MI _]]; [apply M in J; now subst|]. apply MI in I. contradiction.
  - pose proof (proj1 (member_none _ _) E) as N. assert (MI : missing (f_name f) l) by (intros w J; destruct (N w J)). destruct (f_default f) as [d|].
    + split; [intros [= <-]; auto|]. intros [(w & J & _)|[_ ->]]; [destruct (N w J)|reflexivity].
    + split; [intros [= <-]; right; split; [auto|apply zero_ok]|]. intros [(w & J & _)|[_ R]]; [destruct (N w J)|]. apply dec_kind_ok in R; [|constructor]. pose proof (zero_ok (f_kind f)) as Z. apply dec_kind_ok in Z; [|constructor]. congruence.
Qed.
Lemma dec_options_ok fs l vs : unambiguous (JObj l) -> (dec_options fs (JObj l) = Some vs <-> Forall2 (fun f nv => fst nv = f_name f /\ value_is f l (snd nv)) fs vs).
Proof.
  intros U. unfold dec_options. cbn [dec_struct]. apply (traverse_ok _ _ (fun _ => True)); [|now apply Forall_forall].
  intros f [n v] _. cbn [fst snd]. pose proof (field_value f l v U) as H. destruct (field l (f_name f) (dec_kind (f_kind f)) (zero (f_kind f))) as [w|].
  - split; [intros [= <- E]; split; [auto|]; apply H; now rewrite E|intros [-> X]; apply H in X; injection X as <-; reflexivity].
  - split; [discriminate|intros [-> X]; apply H in X; discriminate].
Qed.
(** Options are accepted exactly when they are an object, or nothing, every field of which is; each field has
    its own value whatever the others are. *)
Theorem C32_fields :
  forall fs options vs, unmarshal_options fs options = Ok vs <->
    exists l, object_of options l /\ Forall2 (fun f nv => fst nv = f_name f /\ value_is f l (snd nv)) fs vs.
Proof.
  intros fs options vs. unfold unmarshal_options, unmarshal.
  assert (NULL : dec_options fs JNull = dec_options fs (JObj [])) by reflexivity. assert (UE : unambiguous (JObj [])) by repeat constructor.
  assert (E : forall o, dec_options fs (JObj []) = o -> (match o with Some v => Ok v | None => Panic end = Ok vs <-> Forall2 (fun f nv => fst nv = f_name f /\ value_is f [] (snd nv)) fs vs)).
  { intros o <-. rewrite <- (dec_options_ok fs [] vs UE). destruct (dec_options fs (JObj [])); split; congruence. }
  destruct options as [j|].
  2:{ cbn [no_repeats]. rewrite NULL, (E _ eq_refl). split; [intros H; exists []; split; [constructor|auto]|]. intros (l & O & H). inversion O; subst. auto. }
  assert (BAD : forall j, dec_options fs j = None -> (forall l, ~ object_of (Some j) l) -> (match (if no_repeats j then dec_options fs j else None) with Some v => Ok v | None => Panic end = Ok vs <->
    exists l, object_of (Some j) l /\ Forall2 (fun f nv => fst nv = f_name f /\ value_is f l (snd nv)) fs vs)).
  { intros j' D N. rewrite D. split; [destruct (no_repeats j'); discriminate|]. intros (l & O & _). destruct (N l O). }
  destruct j as [|x|z|t|s|l|l]; try (apply BAD; [reflexivity|intros l' O; inversion O]).
  - cbn [no_repeats]. rewrite NULL, (E _ eq_refl). split; [intros H; exists []; split; [constructor|auto]|]. intros (l & O & H). inversion O; subst. auto.
  - destruct (no_repeats (JObj l)) eqn:R.
    + apply no_repeats_spec in R. split.
      * intros H. exists l. split; [now constructor|]. apply dec_options_ok; [auto|]. destruct (dec_options fs (JObj l)); congruence.
      * intros (l' & O & H). inversion O; subst. apply dec_options_ok in H; [|auto]. now rewrite H.
    + split; [discriminate|]. intros (l' & O & H). inversion O as [| |? U]; subst. apply no_repeats_spec in U. congruence.
Qed.
Print Assumptions C32_fields.

(** No options are the empty object. *)
Theorem C32_none_is_empty : forall fs, unmarshal_options fs None = unmarshal_options fs (Some (JObj [])) /\ unmarshal_options fs (Some JNull) = unmarshal_options fs (Some (JObj [])) /\ exists vs, unmarshal_options fs None = Ok vs.
Proof.
  intros fs. assert (X : forall o, object_of o [] -> exists vs, unmarshal_options fs o = Ok vs /\ Forall2 (fun f nv => fst nv = f_name f /\ value_is f [] (snd nv)) fs vs).
  { intros o O. assert (F : exists vs, Forall2 (fun f nv => fst nv = f_name f /\ value_is f [] (snd nv)) fs vs).
    { clear. induction fs as [|f fs [vs IH]]; [exists []; constructor|]. exists ((f_name f, match f_default f with Some d => d | None => zero (f_kind f) end) :: vs). constructor; [|auto]. split; [reflexivity|]. right.
      split; [intros v []|]. cbn. destruct (f_default f); [reflexivity|apply zero_ok]. }
    destruct F as [vs F]. exists vs. split; [apply C32_fields; eauto|auto]. }
  split; [reflexivity|]. split; [reflexivity|]. destruct (X None oo_none) as (vs & E & _). eauto.
Qed.
Print Assumptions C32_none_is_empty.

(** ** The schemas *)
Lemma only_absent ns l n : only ns l -> ~ In n ns -> forall v, ~ In (n, v) l.
Proof. intros O N v I. apply N. eapply O, I. Qed.
Lemma names_are_of l ns : names_are l ns -> names_of l ns.
Proof. destruct 1; [now apply no_one|now apply no_many]. Qed.
Lemma specifier_means j s : specifier_is j s -> means j s.
Proof.
  destruct 1 as [s|l ns p F N P O|l ns F N O|l ns F N O|l ns p F N P O]; constructor;
    try (apply names_are_of; assumption); try (eapply so_named; [eassumption|constructor]); try (now apply to_text);
    (apply to_absent; apply (only_absent _ _ _ O); cbn; intuition discriminate).
Qed.
Inductive kind_for : kind -> sty -> Prop :=
| kf_bool : kind_for KBool SBool
| kf_str : kind_for KStr SText
| kf_opt : kind_for KOptStr SText
| kf_enum ws : kind_for (KOptEnum ws) (SEnum ws)
| kf_strs : kind_for KStrs (SList SText)
| kf_specs : kind_for KSpecs (SList SSpec)
| kf_any t u : kind_for KAny (SEither t u)
| kf_either ps : kind_for (KBoolOr ps) (SEither SBool (SFlags ps)).
Lemma valid_strings l : Forall (valid SText) l -> exists ss, l = map JStr ss.
Proof. induction 1 as [|x l V F (ss & ->)]; [exists []; reflexivity|]. inversion V as [|s| | | | | |]; subst. exists (s :: ss). reflexivity. Qed.
Lemma valid_specs l : Forall (valid SSpec) l -> exists ss, Forall2 specifier_is l ss.
Proof. induction 1 as [|x l V F (ss & S)]; [exists []; constructor|]. inversion V as [| | | |j s Q| | |]; subst. exists (s :: ss). now constructor. Qed.
Lemma valid_flags ps l : (forall n d v, In (n, d) ps -> In (n, v) l -> v = JNull \/ exists x, v = JBool x) -> exists fl, flags_are ps l fl.
Proof.
  unfold flags_are. induction ps as [|[n d] ps IH]; intros H; [exists []; constructor|]. destruct IH as [fl F]; [intros m e v I J; eapply H; [right; eauto|eauto]|].
  destruct (member n l) as [v|] eqn:E.
  - pose proof (member_some _ _ _ E) as I. destruct (H n d v (or_introl eq_refl) I) as [->|[x ->]].
    + assert (D : (exists x, In (n, JBool x) l) \/ missing n l).
      { clear - H. assert (K : forall v, In (n, v) l -> v = JNull \/ exists x, v = JBool x) by (intros v I; eapply H; [left; reflexivity|auto]). clear H.
        induction l as [|[m w] l IH]; [right; intros v []|]. destruct IH as [[x I]|M]; [intros v I; apply K; now right|left; exists x; now right|].
        destruct (beqb m n) eqn:B; [apply beqb_eq in B; subst m; destruct (K w (or_introl eq_refl)) as [->|[x ->]]|].
        - right. intros v [I|I]; [congruence|auto].
        - left. exists x. now left.
        - right. intros v [I|I]; [injection I as -> ->; assert (X : beqb n n = true) by (now apply beqb_eq); congruence|auto]. }
      destruct D as [[x J]|M]; [exists ((n, x) :: fl); constructor; [|auto]; cbn; auto|exists ((n, d) :: fl); constructor; [|auto]; cbn; auto].
    + exists ((n, x) :: fl). constructor; [|auto]. cbn. auto.
  - pose proof (proj1 (member_none _ _) E) as N. exists ((n, d) :: fl). constructor; [|auto]. cbn. split; [auto|]. right. split; [intros v I; destruct (N v I)|auto].
Qed.
Lemma null_invalid t : ~ valid t JNull.
Proof. intros H. remember JNull as j eqn:E. induction H as [| | | |j s S| | |]; try discriminate; auto. subst. inversion S. Qed.
Lemma kind_shows k t j : kind_for k t -> valid t j -> exists v, read_as k j v /\ shows t j v.
Proof.
  intros K V. destruct K; try (inversion V; subst).
  - eexists. split; repeat constructor.
  - eexists. split; repeat constructor.
  - eexists. split; repeat constructor.
  - eexists. split; constructor. auto.
  - destruct (valid_strings l) as [ss ->]; [auto|]. exists (OStrs ss). split; [|constructor]. constructor. constructor. clear. induction ss; constructor; [constructor|auto].
  - destruct (valid_specs l) as [ss S]; [auto|]. exists (OSpecs ss). split; [|now constructor]. constructor. constructor. eapply Forall2_impl; [|exact S]. intros a s. apply specifier_means.
  - exists (OAny (Some j)). split; [|constructor]. constructor. constructor. intros ->. eapply null_invalid; eassumption.
  - exists (OAny (Some j)). split; [|constructor]. constructor. constructor. intros ->. eapply null_invalid; eassumption.
  - match goal with H : valid SBool _ |- _ => inversion H; subst end. eexists. split; constructor.
  - match goal with H : valid (SFlags _) _ |- _ => inversion H as [| | | | | | |ps' l FL]; subst end. destruct (valid_flags ps l FL) as [fl F]. exists (OObj fl). split; constructor; auto.
Qed.
Definition default_for (f : ofield) (p : sprop) : Prop :=
  match f_default f, p_default p with
  | Some v, Some d => shows (p_type p) d v
  | None, None => silent (p_type p) (zero (f_kind f))
  | _, _ => False
  end.
Definition compatible (fs : list ofield) (ps : list sprop) : Prop :=
  Forall (fun p => exists f, In f fs /\ f_name f = p_name p /\ kind_for (f_kind f) (p_type p) /\ default_for f p) ps /\
  Forall (fun f => In (f_name f) (map p_name ps)) fs /\ NoDup (map f_name fs).
Lemma compatible_values fs ps options l : compatible fs ps -> follows ps options l -> exists vs, unmarshal_options fs options = Ok vs /\ map fst vs = map f_name fs /\
  forall p, In p ps -> exists v, In (p_name p, v) vs /\ property_is p l v.
Proof.
  intros (C & COV & ND) F. assert (O : object_of options l) by (destruct F; constructor; auto).
  assert (OB : forall p v, In p ps -> In (p_name p, v) l -> v = JNull \/ valid (p_type p) v) by (destruct F; [intros p v _ []|intros p v _ []|auto]).
  assert (UL : NoDup (map fst l)) by (destruct F as [| |l U]; [constructor|constructor|inversion U; auto]).
  rewrite Forall_forall in C. rewrite Forall_forall in COV.
  assert (STEP : forall f, In f fs -> exists v, value_is f l v /\ forall p, In p ps -> p_name p = f_name f -> property_is p l v).
  { intros f I. pose proof (COV f I) as Q. apply in_map_iff in Q. destruct Q as (p & EN & IP). 
    assert (SAME : forall p', In p' ps -> p_name p' = f_name f -> kind_for (f_kind f) (p_type p') /\ default_for f p').
    { intros p' IP' EN'. destruct (C p' IP') as (g & IG & NG & KG & DG). assert (g = f); [|now subst]. clear - I IG NG EN' ND. rewrite EN' in NG.
      induction fs as [|x fs IH]; [destruct I|]. inversion ND as [|? ? NI ND']; subst. destruct I as [->|I], IG as [->|IG]; auto.
      - apply (in_map f_name) in IG. rewrite NG in IG. contradiction.
      - apply (in_map f_name) in I. rewrite <- NG in I. contradiction. }
    destruct (SAME p IP EN) as [K D].
    destruct (member (f_name f) l) as [j|] eqn:E.
    - pose proof (member_some _ _ _ E) as J. assert (M : forall w, In (f_name f, w) l -> w = j) by (intros w W; eapply unique_member; eauto).
      assert (NULL : j = JNull \/ j <> JNull) by (destruct j; auto; right; discriminate). destruct NULL as [->|NN].
      + assert (MI : missing (f_name f) l) by (intros w W; now apply M). exists (match f_default f with Some d => d | None => zero (f_kind f) end). split.
        * right. split; [auto|]. destruct (f_default f); [reflexivity|apply zero_ok].
        * intros p' IP' EN'. right. rewrite EN'. split; [auto|]. destruct (SAME p' IP' EN') as [_ D']. unfold default_for in D'. destruct (f_default f), (p_default p'); auto; contradiction.
      + destruct (OB p j IP) as [X|V]; [rewrite EN; exact J|contradiction|]. destruct (kind_shows _ _ _ K V) as (v & R & S). exists v. split; [left; eauto|].
        intros p' IP' EN'. left. exists j. rewrite EN'. split; [auto|]. split; [auto|]. destruct (SAME p' IP' EN') as [K' _]. destruct (OB p' j IP') as [X|V']; [rewrite EN'; exact J|contradiction|].
        destruct (kind_shows _ _ _ K' V') as (v' & R' & S'). assert (v = v'); [|now subst].
        assert (UJ : unambiguous j). { destruct F as [| |l U]; [destruct J|destruct J|]. inversion U as [| | | | | |? _ FU]; subst. rewrite Forall_forall in FU. exact (FU _ J). }
        apply dec_kind_ok in R, R'; auto. congruence.
    - pose proof (proj1 (member_none _ _) E) as N. assert (MI : missing (f_name f) l) by (intros w W; destruct (N w W)). exists (match f_default f with Some d => d | None => zero (f_kind f) end). split.
      + right. split; [auto|]. destruct (f_default f); [reflexivity|apply zero_ok].
      + intros p' IP' EN'. right. rewrite EN'. split; [auto|]. destruct (SAME p' IP' EN') as [_ D']. unfold default_for in D'. destruct (f_default f), (p_default p'); auto; contradiction. }
  assert (VS : exists vs, Forall2 (fun f nv => fst nv = f_name f /\ value_is f l (snd nv) /\ forall p, In p ps -> p_name p = f_name f -> property_is p l (snd nv)) fs vs).
  { clear - STEP. induction fs as [|f fs IH]; [exists []; constructor|]. destruct IH as [vs H]; [intros g I; apply STEP; now right|]. destruct (STEP f (or_introl eq_refl)) as (v & V & P). exists ((f_name f, v) :: vs). constructor; auto. }
  destruct VS as [vs VS]. exists vs. split; [apply C32_fields; exists l; split; [auto|]; eapply Forall2_impl; [|exact VS]; intros f nv (A & B & _); auto|]. split.
  - clear - VS. induction VS as [|f nv fs vs (A & _) _ IH]; [reflexivity|]. cbn. now rewrite A, IH.
  - intros p IP. destruct (C p IP) as (f & IF & NF & _). assert (X : exists nv, In nv vs /\ fst nv = f_name f /\ forall p, In p ps -> p_name p = f_name f -> property_is p l (snd nv)).
    { clear - VS IF. induction VS as [|g nv fs vs (A & _ & B) _ IH]; [destruct IF|]. destruct IF as [->|IF]; [exists nv; split; [now left|auto]|]. destruct (IH IF) as (w & I & H). exists w. split; [now right|auto]. }
    destruct X as ([n v] & I & E & H). cbn in *. exists v. rewrite <- NF, <- E. split; [exact I|]. apply H; auto.
Qed.

Ltac member_of := cbn [map]; repeat (first [left; reflexivity|right]).
Ltac shown :=
  match goal with
  | |- shows _ _ (OBool _) => constructor
  | |- shows _ _ (OStr _) => constructor
  | |- shows _ _ (OStrs ?l) => exact (sh_strings l)
  | |- shows _ _ (OAny _) => constructor
  | |- shows _ _ (OSpecs _) => apply sh_specifiers; repeat (constructor; [apply si_lib; [member_of|apply (na_many _ [b "Error"; b "URL"; b "URLSearchParams"]); member_of|intros n v I; repeat (destruct I as [I|I]; [injection I as <- _; member_of; fail|]); destruct I]|]); constructor
  end.
Ltac pick :=
  match goal with
  | |- exists f, In f ?fs /\ f_name f = ?n /\ _ =>
      let r := eval vm_compute in (find (fun f => beqb (f_name f) n) fs) in
      match r with Some ?f => exists f; split; [member_of|split; [reflexivity|split; [constructor|unfold default_for; cbn [f_default p_default p_type f_kind zero]; first [shown|constructor]]]] end
  end.
Ltac distinct := repeat (apply NoDup_cons; [intros I; repeat (destruct I as [I|I]; [discriminate I|]); destruct I|]); apply NoDup_nil.
Ltac compat := split; [repeat (apply Forall_cons; [pick|]); apply Forall_nil|split; [repeat (apply Forall_cons; [member_of|]); apply Forall_nil|distinct]].
Lemma all_compatible : Forall2 (fun t s => fst t = fst s /\ compatible (snd t) (snd s)) tables schemas.
Proof. unfold tables, schemas. repeat (apply Forall2_cons; [split; [reflexivity|cbn [snd]; compat]|]). apply Forall2_nil. Qed.
(** For every rule with an options object: whatever follows the schema is accepted, and every property has the
    value given, or the documented default when it is missing or null; without documented default it is
    recognisably not there. *)
Theorem C32_documented :
  forall rule ps, In (rule, ps) schemas ->
    exists fs, In (rule, fs) tables /\
      forall options l, follows ps options l -> exists vs, unmarshal_options fs options = Ok vs /\ map fst vs = map f_name fs /\
        forall p, In p ps -> exists v, In (p_name p, v) vs /\ property_is p l v.
Proof.
  intros rule ps I. assert (X : exists fs, In (rule, fs) tables /\ compatible fs ps).
  { pose proof all_compatible as H. induction H as [|[n fs] [m qs] ts ss [E C] _ IH]; [destruct I|]. cbn in E, C. subst m. destruct I as [I|I].
    - injection I as -> ->. exists fs. split; [now left|auto].
    - destruct (IH I) as (gs & J & K). exists gs. split; [now right|auto]. }
  destruct X as (fs & J & C). exists fs. split; [auto|]. intros options l F. now apply compatible_values.
Qed.
Print Assumptions C32_documented.
