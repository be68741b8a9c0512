(** C32: untyped options, options given as a struct, and the options of return-await. *)
From Coq Require Import String Ascii Bool List ZArith Lia.
From Verif Require Import Base EngineProofs Payload PayloadSpec PayloadProofs Specifier PropsSpecifier Options OptionsSchema PropsOptions.
Import ListNotations.
Open Scope Z_scope.

(** ** Void returns *)
Definition void_return_checks : list bstr := [b "arguments"; b "attributes"; b "inheritedMethods"; b "properties"; b "returns"; b "variables"].
Definition all_on : list (bstr * bool) := map (fun n => (n, true)) void_return_checks.
Lemma flag_on (fl : list (bstr * bool)) n : existsb (fun p => beqb (fst p) n && snd p) fl = true <-> In (n, true) fl.
Proof.
  rewrite existsb_exists. split.
  - intros ([m x] & I & E). apply andb_true_iff in E. destruct E as [E X]. cbn in E, X. apply beqb_eq in E. now subst.
  - intros I. exists (n, true). split; [auto|]. cbn. rewrite andb_true_r. now apply beqb_eq.
Qed.
(** Which void-return checks are on: all without the option and for [true], none for [false], those of the
    object, all for an object that does not fit, none for anything else. *)
Theorem C32_void_return :
  forall o n, (forall j, o = Some j -> unambiguous j) -> In n void_return_checks ->
    (checks_void_return o n = true <->
       o = None \/ o = Some (JBool true) \/ (exists l fl, o = Some (JObj l) /\ flags_are all_on l fl /\ In (n, true) fl) \/
       (exists l, o = Some (JObj l) /\ forall fl, ~ flags_are all_on l fl)).
Proof.
  intros o n U I.
  assert (ALL : existsb (fun p => beqb (fst p) n && snd p) (map (fun p => (fst p, true)) flags_void_return) = true).
  { apply existsb_exists. exists (n, true). split; [|cbn; rewrite andb_true_r; now apply beqb_eq]. change (map (fun p => (fst p, true)) flags_void_return) with all_on. unfold all_on. now apply (in_map (fun n => (n, true))). }
  unfold checks_void_return, void_return. destruct o as [j|]; [|rewrite ALL; split; auto]. destruct j as [|x|z|t|s|l|l].
  all: try (split; [discriminate|intros [X|[X|[(l0 & fl & X & _)|(l0 & X & _)]]]; discriminate]).
  - destruct x; [rewrite ALL; split; auto|]. split; [discriminate|intros [X|[X|[(l0 & fl & X & _)|(l0 & X & _)]]]; discriminate].
  - specialize (U _ eq_refl). inversion U as [| | | | | |? ND _]; subst. change (dec_flags flags_void_return (JObj l)) with (dec_flags all_on (JObj l)). destruct (dec_flags all_on (JObj l)) as [fl|] eqn:E.
    + apply dec_flags_ok in E; [|auto]. cbn [andb].
      rewrite flag_on. split; [intros J; right; right; left; eauto|]. intros [X|[X|[(l0 & fl' & X & G & J)|(l0 & X & N)]]]; try discriminate.
      * injection X as <-. apply dec_flags_ok in E, G; auto. congruence.
      * injection X as <-. destruct (N fl E).
    + rewrite ALL. split; [intros _|auto]. right. right. right. exists l. split; [reflexivity|]. intros fl G. apply dec_flags_ok in G; [congruence|auto].
Qed.
Print Assumptions C32_void_return.
(** So a value of another type is accepted and turns the checks off, although they are on by default. *)
Theorem C32_wrong_type_refuted :
  exists j vs o, unmarshal_options options_no_misused_promises (Some (JObj [(b "checksVoidReturn", j)])) = Ok vs /\ In (b "checksVoidReturn", OAny o) vs /\
    j <> JNull /\ j <> JBool false /\ (forall n, In n void_return_checks -> checks_void_return o n = false) /\ (forall n, In n void_return_checks -> checks_void_return None n = true).
Proof.
  exists (JStr (b "yes")), [(b "checksConditionals", OBool true); (b "checksSpreads", OBool true); (b "checksVoidReturn", OAny (Some (JStr (b "yes"))))], (Some (JStr (b "yes"))).
  split; [reflexivity|]. split; [cbn; tauto|]. split; [discriminate|]. split; [discriminate|]. split; [reflexivity|]. intros n I. apply C32_void_return; auto. discriminate.
Qed.
Print Assumptions C32_wrong_type_refuted.

(** ** Primitives to ignore *)
Definition primitives : list bstr := [b "bigint"; b "boolean"; b "number"; b "string"].
(** A primitive is ignored for [true] and where the object says so. *)
Theorem C32_primitives :
  forall j v n, unambiguous j -> In n primitives -> dec_kind (KBoolOr flags_primitives) j = Some v ->
    (ignores_primitive v n = true <-> j = JBool true \/ exists l fl, j = JObj l /\ flags_are (map (fun n => (n, false)) primitives) l fl /\ In (n, true) fl).
Proof.
  intros j v n U I D. apply dec_kind_ok in D; [|auto]. change (map (fun n => (n, false)) primitives) with flags_primitives.
  inversion D as [| | | | | | | | |ps|ps x|ps l fl F|ps j' N1 N2 N3]; subst; cbn [ignores_primitive].
  - split; [discriminate|intros [X|(l & fl & X & _)]; discriminate].
  - destruct x.
    + split; [auto|]. intros _. apply existsb_exists. change flags_primitives with (map (fun n => (n, false)) primitives). exists (n, false). split; [now apply (in_map (fun n => (n, false)))|now apply beqb_eq].
    + split; [discriminate|intros [X|(l & fl & X & _)]; discriminate].
  - rewrite flag_on. split; [intros J; right; eauto|]. intros [X|(l' & fl' & X & F' & J)]; [discriminate|]. injection X as <-. inversion U; subst. apply dec_flags_ok in F, F'; auto. congruence.
  - split; [discriminate|]. intros [X|(l & fl & X & F & _)]; [destruct (N2 _ X)|destruct (N3 _ _ X F)].
Qed.
Print Assumptions C32_primitives.

(** ** Loop conditions *)
(** [true] and "always" allow constant true conditions, "only-allowed-literals" the literals, everything else
    nothing. *)
Theorem C32_loop_mode :
  forall o literal constant_true,
    loop_allowed (loop_mode o) literal constant_true = true <->
      (o = Some (JStr (b "only-allowed-literals")) /\ literal = true) \/ ((o = Some (JBool true) \/ o = Some (JStr (b "always"))) /\ constant_true = true).
Proof.
  intros o literal ct. unfold loop_allowed.
  assert (X : forall w, (loop_mode o = w /\ w <> b "never" /\ w <> b "always") <-> (o = Some (JStr w) /\ w <> b "never" /\ w <> b "always")).
  { intros w. unfold loop_mode. destruct o as [[|[|]| | |s| |]|]; split; intros (E & N & A); try (subst w; congruence); try congruence; auto.
    - subst s. auto.
    - injection E as ->. auto. }
  assert (A : loop_mode o = b "always" <-> (o = Some (JBool true) \/ o = Some (JStr (b "always")))).
  { unfold loop_mode. destruct o as [[|[|]| | |s| |]|]; split; try (intros E; discriminate); try (intros [E|E]; discriminate); auto.
    - intros ->. auto.
    - intros [E|E]; [discriminate|]. now injection E. }
  destruct (beqb (loop_mode o) (b "only-allowed-literals")) eqn:L; cbn [andb].
  - apply beqb_eq in L. assert (O : o = Some (JStr (b "only-allowed-literals"))) by (apply X; split; [auto|split; discriminate]). destruct literal.
    + split; auto.
    + rewrite L. cbn. split; [discriminate|]. intros [[_ E]|[[E|E] _]]; [discriminate| |]; rewrite O in E; discriminate.
  - assert (NL : o <> Some (JStr (b "only-allowed-literals"))) by (intros ->; discriminate L).
    rewrite andb_true_iff, beqb_eq, A. split; [auto|]. intros [[E _]|H]; [contradiction|auto].
Qed.
Print Assumptions C32_loop_mode.

(** ** return-await *)
Inductive mode_means : bstr -> bool -> whether -> Prop :=
| mm_always a : mode_means (b "always") a Await
| mm_handled : mode_means (b "error-handling-correctness-only") true Await
| mm_free : mode_means (b "error-handling-correctness-only") false DontCare
| mm_try : mode_means (b "in-try-catch") true Await
| mm_no_try : mode_means (b "in-try-catch") false NoAwait
| mm_never a : mode_means (b "never") a NoAwait.
(** The options are the four words, nothing means "in-try-catch", and the rule never meets another one. *)
Theorem C32_return_await :
  forall options s, return_await_option options = Ok s ->
    ((options = None \/ options = Some JNull) /\ s = b "in-try-catch" \/ options = Some (JStr s)) /\
    forall affects, exists w, whether_to_await affects s = Ok w /\ mode_means s affects w.
Proof.
  intros options s H.
  assert (W : In s return_await_values -> forall affects, exists w, whether_to_await affects s = Ok w /\ mode_means s affects w).
  { intros I affects. repeat (destruct I as [<-|I]; [destruct affects; eexists; split; [reflexivity| |reflexivity|]; constructor|]). destruct I. }
  unfold return_await_option in H. destruct options as [j|].
  - destruct j as [|x|z|t|w|l|l]; cbn [dec_string] in H; try discriminate.
    + injection H as <-. split; [auto|]. apply W. cbn. tauto.
    + destruct (existsb (fun x => beqb w x) return_await_values) eqn:E; [|discriminate]. injection H as <-. apply existsb_in in E. split; [auto|]. now apply W.
  - injection H as <-. split; [auto|]. apply W. cbn. tauto.
Qed.
Print Assumptions C32_return_await.
Theorem C32_return_await_accepts : forall options, (exists s, return_await_option options = Ok s) <-> options = None \/ options = Some JNull \/ exists s, options = Some (JStr s) /\ In s return_await_values.
Proof.
  intros options. split.
  - intros [s H]. unfold return_await_option in H. destruct options as [j|]; [|auto]. destruct j as [|x|z|t|w|l|l]; cbn [dec_string] in H; try discriminate; [auto|].
    destruct (existsb (fun x => beqb w x) return_await_values) eqn:E; [|discriminate]. apply existsb_in in E. right. right. eauto.
  - intros [->|[->|(s & -> & I)]]; [eexists; reflexivity|eexists; reflexivity|]. cbn [return_await_option dec_string]. apply existsb_in in I. rewrite I. eauto.
Qed.
Print Assumptions C32_return_await_accepts.

(** ** Options given as a struct *)
(** The values a field of a kind can have. *)
Inductive has_kind : kind -> oval -> Prop :=
| hk_bool x : has_kind KBool (OBool x)
| hk_str s : has_kind KStr (OStr s)
| hk_strs l : has_kind KStrs (OStrs l)
| hk_specs l : Forall (fun s => (s_from s = FName -> s_path s = [] /\ s_package s = [] /\ List.length (s_names s) = 1%nat) /\ forall n, s_from s <> FOther n) l -> has_kind KSpecs (OSpecs l)
| hk_nothing : has_kind KAny (OAny None)
| hk_any j : j <> JNull -> unambiguous j -> has_kind KAny (OAny (Some j))
| hk_opt o : has_kind KOptStr (OOpt o)
| hk_enum_none ws : has_kind (KOptEnum ws) (OOpt None)
| hk_enum ws s : In s ws -> has_kind (KOptEnum ws) (OOpt (Some s))
| hk_unset ps : has_kind (KBoolOr ps) OUnset
| hk_set ps x : has_kind (KBoolOr ps) (OSet x)
| hk_flags ps fl : NoDup (map fst ps) -> map fst fl = map fst ps -> has_kind (KBoolOr ps) (OObj fl).
(** Values that are not written, or written as null. *)
Inductive blank : oval -> Prop :=
| bl_str : blank (OStr [])
| bl_strs : blank (OStrs [])
| bl_specs : blank (OSpecs [])
| bl_any_str : blank (OAny (Some (JStr [])))
| bl_any_arr : blank (OAny (Some (JArr [])))
| bl_any_obj : blank (OAny (Some (JObj [])))
| bl_opt : blank (OOpt (Some []))
| bl_flags : blank (OObj []).
Inductive nil_value : oval -> Prop := nv_any : nil_value (OAny None) | nv_opt : nil_value (OOpt None) | nv_unset : nil_value OUnset.
Definition gone (f : ofield) (v : oval) : Prop := nil_value v \/ (f_omit f = true /\ blank v).
Definition fallback (f : ofield) (v : oval) : Prop := match f_default f with Some d => v = d | None => read_as (f_kind f) JNull v end.

Lemma enc_specifier_plain s j : enc_specifier s = Some j -> unambiguous j /\ j <> JNull.
Proof.
  unfold enc_specifier. assert (S : forall l, Forall unambiguous (map JStr l)) by (intros l; apply Forall_forall; intros x I; apply in_map_iff in I; destruct I as (y & <- & _); constructor).
  assert (OBJ : forall f, let o := JObj ([(b "from", JStr f); (b "name", JArr (map JStr (s_names s)))] ++ (if beqb (s_path s) [] then [] else [(b "path", JStr (s_path s))]) ++ (if beqb (s_package s) [] then [] else [(b "package", JStr (s_package s))])) in unambiguous o /\ o <> JNull).
  { intros f o. split; [|discriminate]. unfold o. constructor.
    - destruct (beqb (s_path s) []), (beqb (s_package s) []); cbn; repeat constructor; cbn; intuition discriminate.
    - destruct (beqb (s_path s) []), (beqb (s_package s) []); cbn; repeat constructor; auto. }
  destruct (s_from s); try (intros E; injection E as <-; apply OBJ); [|discriminate]. destruct (s_names s) as [|n [|m r]]; try discriminate. intros [= <-]. split; [constructor|discriminate].
Qed.
Lemma enc_specs l : Forall (fun s => (s_from s = FName -> s_path s = [] /\ s_package s = [] /\ List.length (s_names s) = 1%nat) /\ forall n, s_from s <> FOther n) l ->
  exists js, traverse enc_specifier l = Some js /\ Forall2 means js l /\ Forall unambiguous js /\ List.length js = List.length l.
Proof.
  induction 1 as [|s l [BARE KNOWN] F (js & E & M & U & L)]; [exists []; repeat split; constructor|].
  destruct (enc_specifier s) as [j|] eqn:ES.
  - exists (j :: js). cbn. rewrite ES, E. destruct (enc_specifier_plain _ _ ES) as [UJ _]. split; [reflexivity|]. split; [|split; [constructor; auto|cbn; now rewrite L]].
    constructor; [|auto]. apply C31_decode; [auto|]. apply (C31_round_trip s j j); [intros N; destruct (BARE N) as (? & ? & _); auto|auto|]. destruct j; cbn; auto.
  - apply C31_encode_fails in ES. destruct ES as [[N LN]|[n N]]; [destruct (BARE N) as (_ & _ & L1); contradiction|destruct (KNOWN n N)].
Qed.
Lemma strings_plain l : Forall unambiguous (map JStr l).
Proof. apply Forall_forall. intros x I. apply in_map_iff in I. destruct I as (y & <- & _). constructor. Qed.
Lemma strings_back l : Forall2 string_is (map JStr l) l.
Proof. induction l; cbn; constructor; auto. constructor. Qed.
Lemma flags_back (ps fl : list (bstr * bool)) : NoDup (map fst ps) -> map fst fl = map fst ps -> flags_are ps (map (fun p => (fst p, JBool (snd p))) fl) fl.
Proof.
  intros _ E. unfold flags_are. assert (G : forall l (ps fl : list (bstr * bool)), map fst fl = map fst ps -> incl (map (fun p => (fst p, JBool (snd p))) fl) l ->
    Forall2 (fun p q => fst p = fst q /\ (In (fst p, JBool (snd q)) l \/ (missing (fst p) l /\ snd q = snd p))) ps fl).
  { clear. intros l ps fl. revert ps. induction fl as [|q fl IH]; intros [|p ps] E I; try discriminate; constructor.
    - injection E as E _. split; [auto|]. left. rewrite <- E. apply I. now left.
    - injection E as _ E. apply IH; auto. intros x X. apply I. now right. }
  apply G; auto. apply incl_refl.
Qed.
Lemma enc_value_ok k v : has_kind k v -> exists j, enc_value v = Some j /\ unambiguous j /\ (nil_value v <-> j = JNull) /\ (~ nil_value v -> read_as k j v) /\ (empty_json j = true <-> nil_value v \/ blank v).
Proof.
  assert (NO : forall v j, j <> JNull -> ~ nil_value v -> (nil_value v <-> j = JNull)) by tauto.
  destruct 1 as [x|s|l|l F| |j N U|o|ws|ws s I|ps|ps x|ps fl ND E]; cbn [enc_value].
  - exists (JBool x). split; [reflexivity|]. split; [constructor|]. split; [apply NO; [discriminate|inversion 1]|]. split; [intros _; repeat constructor|]. cbn. split; [discriminate|intros [X|X]; inversion X].
  - exists (JStr s). split; [reflexivity|]. split; [constructor|]. split; [apply NO; [discriminate|inversion 1]|]. split; [intros _; repeat constructor|]. destruct s; cbn; split; try discriminate; try (intros [X|X]; inversion X); auto. intros _. right. constructor.
  - exists (JArr (map JStr l)). split; [reflexivity|]. split; [constructor; apply strings_plain|]. split; [apply NO; [discriminate|inversion 1]|]. split; [intros _; repeat constructor; apply strings_back|]. destruct l; cbn; split; try discriminate; try (intros [X|X]; inversion X); auto. intros _. right. constructor.
  - destruct (enc_specs l F) as (js & -> & M & U & L). exists (JArr js). split; [reflexivity|]. split; [now constructor|]. split; [apply NO; [discriminate|inversion 1]|]. split; [intros _; repeat constructor; auto|].
    destruct l, js; try discriminate L; cbn; split; try discriminate; try (intros [X|X]; inversion X); auto. intros _. right. constructor.
  - exists JNull. split; [reflexivity|]. split; [constructor|]. split; [split; [auto|constructor]|]. split; [intros X; destruct X; constructor|]. split; [left; constructor|auto].
  - exists j. split; [reflexivity|]. split; [auto|]. split; [apply NO; [auto|inversion 1]|]. split; [intros _; constructor; destruct j; try constructor; congruence|].
    destruct j as [|x|z|t|[|c s]|[|y l]|[|y l]]; cbn; split; try discriminate; try (intros [X|X]; inversion X); auto; try (intros _; right; constructor). destruct N; reflexivity.
  - destruct o as [s|].
    + exists (JStr s). split; [reflexivity|]. split; [constructor|]. split; [apply NO; [discriminate|inversion 1]|]. split; [intros _; repeat constructor|]. destruct s; cbn; split; try discriminate; try (intros [X|X]; inversion X); auto. intros _. right. constructor.
    + exists JNull. split; [reflexivity|]. split; [constructor|]. split; [split; [auto|constructor]|]. split; [intros X; destruct X; constructor|]. split; [left; constructor|auto].
  - exists JNull. split; [reflexivity|]. split; [constructor|]. split; [split; [auto|constructor]|]. split; [intros X; destruct X; constructor|]. split; [left; constructor|auto].
  - exists (JStr s). split; [reflexivity|]. split; [constructor|]. split; [apply NO; [discriminate|inversion 1]|]. split; [intros _; now constructor|]. destruct s; cbn; split; try discriminate; try (intros [X|X]; inversion X); auto. intros _. right. constructor.
  - exists JNull. split; [reflexivity|]. split; [constructor|]. split; [split; [auto|constructor]|]. split; [intros X; destruct X; constructor|]. split; [left; constructor|auto].
  - exists (JBool x). split; [reflexivity|]. split; [constructor|]. split; [apply NO; [discriminate|inversion 1]|]. split; [intros _; repeat constructor|]. cbn. split; [discriminate|intros [X|X]; inversion X].
  - eexists. split; [reflexivity|]. split; [|split; [apply NO; [discriminate|inversion 1]|]].
    + constructor; [rewrite map_map; cbn [fst]; change (fun x : bstr * bool => fst x) with (@fst bstr bool); now rewrite E|]. apply Forall_forall. intros x X. apply in_map_iff in X. destruct X as (y & <- & _). constructor.
    + split; [intros _; constructor; now apply flags_back|]. destruct fl; cbn; split; try discriminate; try (intros [X|X]; inversion X); auto. intros _. right. constructor.
Qed.
Definition typed (f : ofield) (nv : bstr * oval) : Prop := fst nv = f_name f /\ has_kind (f_kind f) (snd nv).
Lemma gone_dec f v j : enc_value v = Some j -> (empty_json j = true <-> nil_value v \/ blank v) -> (nil_value v <-> j = JNull) -> gone f v <-> (j = JNull \/ (f_omit f && empty_json j = true)).
Proof. intros _ E N. unfold gone. rewrite andb_true_iff, E, N. tauto. Qed.
Lemma enc_members_ok fs vs : NoDup (map f_name fs) -> Forall2 typed fs vs ->
  exists l, enc_members fs vs = Some l /\ unambiguous (JObj l) /\ (forall n j, In (n, j) l -> In n (map f_name fs)) /\
    Forall2 (fun f nv => (gone f (snd nv) -> missing (f_name f) l) /\ (~ gone f (snd nv) -> exists j, In (f_name f, j) l /\ j <> JNull /\ read_as (f_kind f) j (snd nv)) /\ (gone f (snd nv) \/ ~ gone f (snd nv))) fs vs.
Proof.
  intros ND T. induction T as [|f [n v] fs vs [E K] T IH].
  - exists []. split; [reflexivity|]. split; [constructor; constructor|]. split; [intros n j []|constructor].
  - cbn in E, K, ND. inversion ND as [|x xs NI ND']; subst. destruct (IH ND') as (l & EL & U & IN & F). destruct (enc_value_ok _ _ K) as (j & EJ & UJ & NJ & RJ & BJ).
    pose proof (gone_dec f v j EJ BJ NJ) as G. inversion U as [| | | | | |? NDL FL]; subst. cbn [enc_members]. rewrite EJ, EL.
    assert (FRESH : forall w, ~ In (f_name f, w) l) by (intros w I; apply NI; eapply IN; eauto).
    destruct (f_omit f && empty_json j) eqn:O.
    + exists l. split; [reflexivity|]. split; [auto|]. split; [intros m w I; right; eauto|]. constructor; [|auto]. cbn [snd]. assert (Y : gone f v) by (apply G; auto).
      split; [intros _ w I; destruct (FRESH _ I)|]. split; [contradiction|auto].
    + exists ((f_name f, j) :: l). split; [reflexivity|]. split; [|split].
      * constructor; [|constructor; auto]. cbn. constructor; [|auto]. intros I. apply in_map_iff in I. destruct I as ([m w] & X & I). cbn in X. subst m. destruct (FRESH _ I).
      * intros m w [I|I]; [injection I as <- _; now left|right; eauto].
      * constructor.
        -- cbn [snd]. assert (D : gone f v \/ ~ gone f v) by (rewrite G; destruct j; auto; right; intros [X|X]; discriminate). split; [|split; [|auto]].
           ++ intros X w [I|I]; [|destruct (FRESH _ I)]. injection I as <-. apply G in X. destruct X; [auto|discriminate].
           ++ intros X. exists j. split; [now left|]. assert (J : j <> JNull) by (intros Y; apply X, G; auto). split; [auto|]. apply RJ. now rewrite NJ.
        -- assert (NM : Forall (fun g => f_name g <> f_name f) fs) by (apply Forall_forall; intros g I Y; apply NI; rewrite <- Y; now apply in_map).
           clear - F NM. induction F as [|g nv fs vs (A & B & C) F IH]; constructor; inversion NM; subst; [|auto]. split; [|split; [|auto]].
           ++ intros X w [I|I]; [injection I as Y _; congruence|now apply A].
           ++ intros X. destruct (B X) as (w & I & W). exists w. split; [now right|auto].
Qed.
(** Options given as a struct come back as they are if the values that are not written, or written as null, are
    the ones the rule has without them. *)
Theorem C32_typed :
  forall fs vs, NoDup (map f_name fs) -> Forall2 typed fs vs ->
    (unmarshal_typed fs vs = Ok vs <-> Forall2 (fun f nv => gone f (snd nv) -> fallback f (snd nv)) fs vs).
Proof.
  intros fs vs ND T. destruct (enc_members_ok fs vs ND T) as (l & E & U & _ & F). unfold unmarshal_typed, enc_options. rewrite E, C32_fields. split.
  - intros (l' & O & V). inversion O as [| |? U']; subst. clear - F V. revert vs F V. induction fs as [|f fs IH]; intros vs F V; inversion F as [|? nv ? vs' (A & B & C) F']; subst; inversion V as [|? ? ? ? [_ W] V']; subst; constructor; [|auto].
    intros G. destruct W as [(j & I & N & _)|[_ W]]; [destruct N; exact (A G _ I)|exact W].
  - intros W. exists l. split; [now constructor|]. clear - F W T. revert vs F W T. induction fs as [|f fs IH]; intros vs F W T; inversion F as [|? nv ? vs' (A & B & C) F']; subst; inversion W as [|? ? ? ? X W']; subst; inversion T as [|? ? ? ? [N _] T']; subst; constructor; [|auto].
    split; [auto|]. destruct C as [G|G]; [right; split; [auto|exact (X G)]|left; auto].
Qed.
Print Assumptions C32_typed.
(** A specifier of an unknown source, or a bare one without exactly one name, cannot be written; that panics. *)
Theorem C32_typed_panics :
  forall fs vs n l s, List.length fs = List.length vs -> In (n, OSpecs l) vs -> In s l ->
    ((s_from s = FName /\ List.length (s_names s) <> 1%nat) \/ exists m, s_from s = FOther m) -> unmarshal_typed fs vs = Panic.
Proof.
  intros fs vs n l s L IV IS BAD. apply C31_encode_fails in BAD. assert (E : enc_value (OSpecs l) = None).
  { cbn. replace (traverse enc_specifier l) with (@None (list json)); [reflexivity|]. clear - IS BAD. induction l as [|x l IH]; [destruct IS|]. cbn. destruct IS as [->|IS].
    - now rewrite BAD.
    - destruct (enc_specifier x); [|reflexivity]. now rewrite <- IH. }
  unfold unmarshal_typed, enc_options. replace (enc_members fs vs) with (@None (list (bstr * json))); [reflexivity|]. revert vs L IV.
  induction fs as [|f fs IH]; intros [|[m v] vs] L IV; try discriminate; [destruct IV|]. cbn [enc_members]. destruct IV as [I|I].
  - injection I as _ ->. now rewrite E.
  - destruct (enc_value v); [|reflexivity]. rewrite <- IH; auto.
Qed.
Print Assumptions C32_typed_panics.
(** An empty list is not written, so it comes back as the default. *)
Theorem C32_empty_list_refuted :
  exists vs vs', Forall2 typed options_no_base_to_string vs /\ unmarshal_typed options_no_base_to_string vs = Ok vs' /\
    In (b "ignoredTypeNames", OStrs []) vs /\ ~ In (b "ignoredTypeNames", OStrs []) vs'.
Proof.
  exists [(b "checkUnknown", OBool true); (b "ignoredTypeNames", OStrs [])]. eexists. split; [repeat constructor|]. split; [reflexivity|]. split; [cbn; tauto|]. cbn. intuition discriminate.
Qed.
Print Assumptions C32_empty_list_refuted.
(** All structs have distinct names. *)
Theorem C32_distinct : Forall (fun t => NoDup (map f_name (snd t))) tables.
Proof. repeat constructor; cbn; intuition discriminate. Qed.
Print Assumptions C32_distinct.
(** Members that are no option are accepted and change nothing. *)
Theorem C32_unknown_names :
  forall fs l n j, ~ In n (map f_name fs) -> unambiguous (JObj ((n, j) :: l)) -> unmarshal_options fs (Some (JObj ((n, j) :: l))) = unmarshal_options fs (Some (JObj l)).
Proof.
  intros fs l n j N U. assert (U' : unambiguous (JObj l)) by (inversion U as [| | | | | |? A B]; subst; inversion A; inversion B; subst; now constructor).
  assert (X : forall vs, unmarshal_options fs (Some (JObj ((n, j) :: l))) = Ok vs <-> unmarshal_options fs (Some (JObj l)) = Ok vs).
  { assert (S : forall vs, Forall2 (fun f nv => fst nv = f_name f /\ value_is f ((n, j) :: l) (snd nv)) fs vs <-> Forall2 (fun f nv => fst nv = f_name f /\ value_is f l (snd nv)) fs vs).
    { assert (V : forall f v, n <> f_name f -> (value_is f ((n, j) :: l) v <-> value_is f l v)).
      { intros f v D. unfold value_is, missing. split.
        - intros [(x & [I|I] & R)|[M R]]; [injection I; congruence|left; eauto|right; split; [intros w W; apply M; now right|auto]].
        - intros [(x & I & R)|[M R]]; [left; exists x; split; [now right|auto]|right; split; [|auto]]. intros w [I|I]; [injection I; congruence|auto]. }
      clear U U'. induction fs as [|f fs IH]; intros vs; [split; inversion 1; constructor|]. cbn in N.
      split; inversion 1; subst; (constructor; [|apply IH; tauto]).
      - destruct H2 as [A B]. split; [auto|]. apply V in B; [auto|]. intros E. apply N. auto.
      - destruct H2 as [A B]. split; [auto|]. apply V; [|auto]. intros E. apply N. auto. }
    intros vs. rewrite !C32_fields. split.
    - intros (l' & O & F). inversion O; subst. exists l. split; [now constructor|]. now apply S.
    - intros (l' & O & F). inversion O; subst. eexists. split; [constructor; exact U|]. apply S. exact F. }
  destruct (unmarshal_options fs (Some (JObj ((n, j) :: l)))) as [vs|] eqn:E.
  - symmetry. now apply X.
  - destruct (unmarshal_options fs (Some (JObj l))) as [vs|] eqn:E'; [|reflexivity]. now apply X.
Qed.
Print Assumptions C32_unknown_names.

(** ** Examples *)
Example C32_ex_flags : checks_void_return (Some (JObj [(b "returns", JBool false)])) (b "returns") = false /\ checks_void_return (Some (JObj [(b "returns", JBool false)])) (b "arguments") = true.
Proof. split; reflexivity. Qed.
Example C32_ex_bad_flag : checks_void_return (Some (JObj [(b "returns", JBool false); (b "arguments", JInt 0)])) (b "returns") = true.
Proof. reflexivity. Qed.
Example C32_ex_primitives :
  map (ignores_primitive (OObj [(b "bigint", false); (b "boolean", false); (b "number", false); (b "string", true)])) primitives = [false; false; false; true] /\
  dec_kind (KBoolOr flags_primitives) (JObj [(b "string", JBool true)]) = Some (OObj [(b "bigint", false); (b "boolean", false); (b "number", false); (b "string", true)]) /\
  dec_kind (KBoolOr flags_primitives) (JInt 7) = Some OUnset.
Proof. repeat split. Qed.
Example C32_ex_loop : map (fun o => loop_allowed (loop_mode o) true true) [None; Some (JBool false); Some (JBool true); Some (JStr (b "only-allowed-literals")); Some (JStr (b "Always")); Some (JInt 1)] = [false; false; true; true; false; false].
Proof. reflexivity. Qed.
Example C32_ex_return_await : return_await_option (Some (JStr (b "inTryCatch"))) = Panic /\ return_await_option None = Ok (b "in-try-catch") /\ whether_to_await true (b "in-try-catch") = Ok Await.
Proof. repeat split. Qed.
Example C32_ex_rejected : unmarshal_options options_no_base_to_string (Some (JObj [(b "checkUnknown", JStr (b "true"))])) = Panic /\ unmarshal_options options_no_base_to_string (Some (JArr [])) = Panic.
Proof. split; reflexivity. Qed.
Example C32_ex_misspelled : unmarshal_options options_no_base_to_string (Some (JObj [(b "CheckUnknown", JBool true)])) = unmarshal_options options_no_base_to_string None.
Proof. reflexivity. Qed.
Example C32_ex_typed : let vs := [(b "checkUnknown", OBool true); (b "ignoredTypeNames", OStrs [b "Money"])] in unmarshal_typed options_no_base_to_string vs = Ok vs.
Proof. reflexivity. Qed.
