(** C31: the JSON form of type-or-value specifiers. *)
From Coq Require Import String Ascii Bool List ZArith Permutation.
From Verif Require Import Base EngineProofs Payload PayloadSpec PayloadProofs Specifier.
Import ListNotations.
Open Scope Z_scope.

(** ** Specification *)
Inductive source_is : bstr -> from -> Prop :=
| src_file : source_is (b "file") FFile
| src_lib : source_is (b "lib") FLib
| src_package : source_is (b "package") FPackage.
(** The source member: absent, null and the empty string stand for a file. *)
Inductive source_of : list (bstr * json) -> from -> Prop :=
| so_named l s f : In (b "from", JStr s) l -> source_is s f -> source_of l f
| so_empty l : In (b "from", JStr []) l -> source_of l FFile
| so_null l : In (b "from", JNull) l -> source_of l FFile
| so_absent l : (forall v, ~ In (b "from", v) l) -> source_of l FFile.
Inductive names_of : list (bstr * json) -> list bstr -> Prop :=
| no_one l s : In (b "name", JStr s) l -> names_of l [s]
| no_many l ns : In (b "name", JArr (map JStr ns)) l -> names_of l ns
| no_null l : In (b "name", JNull) l -> names_of l []
| no_absent l : (forall v, ~ In (b "name", v) l) -> names_of l [].
Inductive text_of (n : string) : list (bstr * json) -> bstr -> Prop :=
| to_text l s : In (b n, JStr s) l -> text_of n l s
| to_null l : In (b n, JNull) l -> text_of n l []
| to_absent l : (forall v, ~ In (b n, v) l) -> text_of n l [].
(** What a document means: a string is a bare name, and so, oddly, is null; an object has a source. *)
Inductive means : json -> specifier -> Prop :=
| me_name s : means (JStr s) (Spec FName [s] [] [])
| me_null : means JNull (Spec FName [[]] [] [])
| me_object l f ns p k : source_of l f -> names_of l ns -> text_of "path" l p -> text_of "package" l k -> means (JObj l) (Spec f ns p k).

(** ** Proof *)
Lemma unique_member (l : list (bstr * json)) (n : bstr) v w : NoDup (map fst l) -> In (n, v) l -> In (n, w) l -> v = w.
Proof.
  induction l as [|[m u] l IH]; cbn; [contradiction|]. intros ND. inversion ND as [|? ? NI ND']; subst. intros [A|A] [B|B]; [congruence| | |auto].
  - injection A as -> ->. apply (in_map fst) in B. contradiction.
  - injection B as -> ->. apply (in_map fst) in A. contradiction.
Qed.
Lemma member_in (l : list (bstr * json)) (n : bstr) v : NoDup (map fst l) -> (member n l = Some v <-> In (n, v) l).
Proof.
  intros ND. split; [apply member_some|]. intros I. destruct (member n l) as [w|] eqn:E; [f_equal; apply member_some in E; eapply unique_member; eauto|]. apply member_none in I; [destruct I|auto].
Qed.
Lemma from_cases l f : NoDup (map fst l) ->
  (match field l (b "from") dec_string [] with Some s => parse_from s | None => None end = Some f <-> source_of l f).
Proof.
  intros ND. unfold field. destruct (member (b "from") l) as [v|] eqn:E.
  - pose proof (member_some _ _ _ E) as I. split.
    + destruct v; cbn; try discriminate.
      * intros [= <-]. now apply so_null.
      * unfold parse_from. destruct (beqb s []) eqn:B0; [apply beqb_eq in B0; subst s; intros [= <-]; now apply so_empty|]. cbn [orb].
        destruct (beqb s (b "file")) eqn:B1; [apply beqb_eq in B1; subst s; intros [= <-]; eapply so_named; eauto; constructor|].
        destruct (beqb s (b "lib")) eqn:B2; [apply beqb_eq in B2; subst s; intros [= <-]; eapply so_named; eauto; constructor|].
        destruct (beqb s (b "package")) eqn:B3; [apply beqb_eq in B3; subst s; intros [= <-]; eapply so_named; eauto; constructor|]. discriminate.
    + intros H. destruct H as [l s f J S|l J|l J|l J].
      * rewrite (unique_member l _ _ _ ND I J). destruct S; reflexivity.
      * rewrite (unique_member l _ _ _ ND I J). reflexivity.
      * rewrite (unique_member l _ _ _ ND I J). reflexivity.
      * destruct (J v I).
  - pose proof (proj1 (member_none _ _) E) as N. split; [intros [= <-]; now apply so_absent|]. intros H. destruct H as [l s f J S|l J|l J|l J]; [destruct (N _ J)|destruct (N _ J)|destruct (N _ J)|reflexivity].
Qed.
Lemma strings_traverse l ns : traverse string_element l = Some ns <-> l = map JStr ns.
Proof.
  revert ns. induction l as [|j l IH]; intros ns; cbn; [split; [intros [= <-]; reflexivity|destruct ns; [auto|discriminate]]|].
  destruct j; cbn; try (split; [discriminate|destruct ns; discriminate]). destruct (traverse string_element l) as [r|].
  - split; [intros [= <-]; cbn; f_equal; now apply IH|]. destruct ns as [|n ns]; [discriminate|]. intros [= -> E]. apply IH in E. injection E as ->. reflexivity.
  - split; [discriminate|]. destruct ns as [|n ns]; [discriminate|]. intros [= -> E]. apply IH in E. discriminate.
Qed.
Lemma name_cases l ns : NoDup (map fst l) ->
  (match field l (b "name") dec_any None with Some v => parse_names v | None => None end = Some ns <-> names_of l ns).
Proof.
  intros ND. unfold field. destruct (member (b "name") l) as [v|] eqn:E.
  - pose proof (member_some _ _ _ E) as I. split.
    + destruct v; cbn; try discriminate.
      * intros [= <-]. now apply no_null.
      * intros [= <-]. now apply no_one.
      * intros H. apply strings_traverse in H. subst. now apply no_many.
    + intros H. destruct H as [l s J|l ns J|l J|l J]; [| | |destruct (J v I)]; rewrite (unique_member l _ _ _ ND I J); cbn; auto. now apply strings_traverse.
  - pose proof (proj1 (member_none _ _) E) as N. split; [intros [= <-]; now apply no_absent|]. intros H. destruct H as [l s J|l ns J|l J|l J]; [destruct (N _ J)|destruct (N _ J)|destruct (N _ J)|reflexivity].
Qed.
Lemma text_cases n l s : NoDup (map fst l) ->
  (match field l (b n) dec_pointer None with Some o => Some (or_empty o) | None => None end = Some s <-> text_of n l s).
Proof.
  intros ND. unfold field. destruct (member (b n) l) as [v|] eqn:E.
  - pose proof (member_some _ _ _ E) as I. split.
    + destruct v; cbn; try discriminate; intros [= <-]; [now apply to_null|now apply to_text].
    + intros H. destruct H as [l s J|l J|l J]; [| |destruct (J v I)]; rewrite (unique_member l _ _ _ ND I J); reflexivity.
  - pose proof (proj1 (member_none _ _) E) as N. split; [intros [= <-]; now apply to_absent|]. intros H. destruct H as [l s J|l J|l J]; [destruct (N _ J)|destruct (N _ J)|reflexivity].
Qed.

(** A document is accepted exactly when it means a specifier, and gives that one. *)
Theorem C31_decode :
  forall j s, unambiguous j -> (dec_specifier j = Some s <-> means j s).
Proof.
  intros j s U. unfold dec_specifier. destruct j; cbn [dec_string dec_struct]; try (split; [discriminate|inversion 1]).
  - split; [intros [= <-]; constructor|now inversion 1].
  - split; [intros [= <-]; constructor|now inversion 1].
  - inversion U as [| | | | | |? ND _]; subst. pose proof (fun f => from_cases l f ND) as A. pose proof (fun x => name_cases l x ND) as B.
    pose proof (fun x => text_cases "path" l x ND) as C. pose proof (fun x => text_cases "package" l x ND) as D.
    destruct s as [f ns p k]. split.
    + intros H. destruct (field l (b "from") dec_string []) as [f0|]; [|discriminate]. destruct (field l (b "name") dec_any None) as [n0|]; [|discriminate].
      destruct (field l (b "path") dec_pointer None) as [p0|]; [|discriminate]. destruct (field l (b "package") dec_pointer None) as [k0|]; [|discriminate].
      destruct (parse_from f0) eqn:PF; [|discriminate]. destruct (parse_names n0) eqn:PN; [|discriminate]. injection H as -> -> <- <-.
      constructor; [now apply A|now apply B|now apply C|now apply D].
    + intros H. inversion H as [| |? ? ? ? ? S N P K]; subst. apply A in S. apply B in N. apply C in P. apply D in K.
      destruct (field l (b "from") dec_string []) as [f0|]; [|discriminate]. destruct (field l (b "name") dec_any None) as [n0|]; [|discriminate].
      destruct (field l (b "path") dec_pointer None) as [p0|]; [|discriminate]. destruct (field l (b "package") dec_pointer None) as [k0|]; [|discriminate].
      injection P as <-. injection K as <-. now rewrite S, N.
Qed.
Print Assumptions C31_decode.

(** An object whose source is any other word is rejected, whatever else it has. *)
Theorem C31_unknown_source :
  forall l w, unambiguous (JObj l) -> In (b "from", JStr w) l -> w <> [] -> w <> b "file" -> w <> b "lib" -> w <> b "package" ->
    dec_specifier (JObj l) = None /\ convert (JObj l) = None.
Proof.
  intros l w U I N0 N1 N2 N3. split.
  - destruct (dec_specifier (JObj l)) as [s|] eqn:E; [|auto]. apply C31_decode in E; [|auto]. inversion U as [| | | | | |? ND _]; subst. inversion E as [| |? ? ? ? ? S _ _ _]; subst.
    destruct S as [l s f J Q|l J|l J|l J]; [| | |destruct (J _ I)]; pose proof (unique_member l _ _ _ ND I J) as X; try discriminate; injection X as ->; [destruct Q; contradiction|contradiction].
  - inversion U as [| | | | | |? ND _]; subst. cbn [convert]. rewrite (proj2 (member_in l _ _ ND) I).
    destruct (beqb w (b "file")) eqn:B1; [apply beqb_eq in B1; contradiction|]. destruct (beqb w (b "lib")) eqn:B2; [apply beqb_eq in B2; contradiction|]. destruct (beqb w (b "package")) eqn:B3; [apply beqb_eq in B3; contradiction|]. reflexivity.
Qed.
Print Assumptions C31_unknown_source.

(** Encoding fails only for the specifiers that have no JSON form: a bare specifier that does not have
    exactly one name, and a source that is none of the four. *)
Theorem C31_encode_fails :
  forall s, enc_specifier s = None <-> ((s_from s = FName /\ List.length (s_names s) <> 1%nat) \/ exists n, s_from s = FOther n).
Proof.
  intros [f ns p k]. unfold enc_specifier. cbn [s_from s_names]. destruct f; try (split; [discriminate|intros [[X _]|[n X]]; discriminate]).
  - destruct ns as [|n [|m ns]]; cbn; split; try discriminate; auto; try (intros [[_ X]|[? X]]; [destruct X; reflexivity|discriminate]); intros _; left; split; auto; discriminate.
  - split; [intros _; right; eauto|auto].
Qed.
Print Assumptions C31_encode_fails.

(** What is encoded is decoded to the same specifier, in whatever order the members are written; a bare
    specifier must not have a path or a package. *)
Definition reordered (j j' : json) : Prop := match j, j' with JObj l, JObj l' => Permutation l l' | _, _ => j = j' end.
Theorem C31_round_trip :
  forall s j j', (s_from s = FName -> s_path s = [] /\ s_package s = []) -> enc_specifier s = Some j -> reordered j j' -> dec_specifier j' = Some s.
Proof.
  intros [f ns p k] j j' BARE E R. unfold enc_specifier in E. cbn [s_from s_names s_path s_package] in *.
  assert (OBJ : forall w g, source_is w g -> forall l', Permutation ([(b "from", JStr w); (b "name", JArr (map JStr ns))] ++ (if beqb p [] then [] else [(b "path", JStr p)]) ++ (if beqb k [] then [] else [(b "package", JStr k)])) l' -> dec_specifier (JObj l') = Some (Spec g ns p k)).
  { clear. intros w g W l' P. set (l := _ ++ _) in P.
    assert (ND : NoDup (map fst l)). { unfold l. destruct (beqb p []), (beqb k []); cbn; repeat constructor; cbn; intuition discriminate. }
    assert (ND' : NoDup (map fst l')) by (eapply Permutation_NoDup; [apply Permutation_map; exact P|auto]).
    assert (U : unambiguous (JObj l')). { constructor; [auto|]. apply Forall_forall. intros x I. apply (Permutation_in _ (Permutation_sym P)) in I. unfold l in I.
      repeat (apply in_app_or in I; destruct I as [I|I]).
      - destruct I as [<-|[<-|[]]]; constructor. apply Forall_forall. intros y J. apply in_map_iff in J. destruct J as (z & <- & _). constructor.
      - destruct (beqb p []); [destruct I|destruct I as [<-|[]]; constructor].
      - destruct (beqb k []); [destruct I|destruct I as [<-|[]]; constructor]. }
    assert (IN : forall x, In x l -> In x l') by (intros; eapply Permutation_in; eauto).
    assert (OUT : forall x, In x l' -> In x l) by (intros; eapply Permutation_in; [apply Permutation_sym|]; eauto).
    apply C31_decode; [auto|]. constructor.
    - apply so_named with w; [|auto]. apply IN. now left.
    - apply no_many. apply IN. right. now left.
    - destruct (beqb p []) eqn:B.
      + apply beqb_eq in B. subst p. apply to_absent. intros v I. apply OUT in I. unfold l in I. cbn in I. destruct I as [I|[I|I]]; try discriminate. destruct (beqb k []); [destruct I|destruct I as [I|[]]; discriminate].
      + apply to_text. apply IN. unfold l. right. right. left. reflexivity.
    - destruct (beqb k []) eqn:B.
      + apply beqb_eq in B. subst k. apply to_absent. intros v I. apply OUT in I. unfold l in I. cbn in I. destruct I as [I|[I|I]]; try discriminate. destruct (beqb p []); [destruct I|destruct I as [I|[]]; discriminate].
      + apply to_text. apply IN. unfold l. apply in_or_app. right. apply in_or_app. right. left. reflexivity. }
  destruct f; try discriminate.
  - injection E as <-. destruct j' as [| | | | | |l']; try discriminate. apply (OBJ (b "file") FFile); [constructor|exact R].
  - injection E as <-. destruct j' as [| | | | | |l']; try discriminate. apply (OBJ (b "lib") FLib); [constructor|exact R].
  - injection E as <-. destruct j' as [| | | | | |l']; try discriminate. apply (OBJ (b "package") FPackage); [constructor|exact R].
  - destruct ns as [|n [|m ns]]; try discriminate. injection E as <-. cbn in R. subst j'. destruct (BARE eq_refl) as [-> ->]. reflexivity.
Qed.
Print Assumptions C31_round_trip.
(** Without that condition the path and the package of a bare specifier are lost. *)
Theorem C31_bare_path_refuted :
  exists s j, enc_specifier s = Some j /\ dec_specifier j <> Some s.
Proof. exists (Spec FName [b "A"] (b "p") []), (JStr (b "A")). split; [reflexivity|discriminate]. Qed.
Print Assumptions C31_bare_path_refuted.

(** The other reader, [ConvertTypeOrValueSpecifier], gives the same specifier for every document that both
    accept. *)
Theorem C31_readers_agree :
  forall j s s', unambiguous j -> dec_specifier j = Some s -> convert j = Some s' -> s = s'.
Proof.
  intros j s s' U D C. apply C31_decode in D; [|auto]. destruct D as [n| |l f ns p k S N P K]; cbn [convert] in C; [congruence|discriminate|].
  inversion U as [| | | | | |? ND _]; subst. destruct (member (b "from") l) as [v|] eqn:E; [|discriminate]. destruct v; try discriminate. rename s into w. apply member_some in E.
  assert (F : (if beqb w (b "file") then Some FFile else if beqb w (b "lib") then Some FLib else if beqb w (b "package") then Some FPackage else None) = Some f \/
              (if beqb w (b "file") then Some FFile else if beqb w (b "lib") then Some FLib else if beqb w (b "package") then Some FPackage else None) = None).
  { destruct S as [l s f J Q|l J|l J|l J]; [| | |destruct (J _ E)]; pose proof (unique_member l _ _ _ ND E J) as X; try discriminate; injection X as ->; [left; destruct Q; reflexivity|right; reflexivity]. }
  destruct F as [F|F]; rewrite F in C; [|discriminate].
  assert (T : forall n t, text_of n l t -> string_member (b n) l = t).
  { intros n t T. unfold string_member. destruct T as [l t J|l J|l J]; [now rewrite (proj2 (member_in l _ _ ND) J)|now rewrite (proj2 (member_in l _ _ ND) J)|]. now rewrite (proj2 (member_none _ _) J). }
  rewrite (T _ _ P), (T _ _ K) in C.
  destruct N as [l n J|l ns J|l J|l J].
  - rewrite (proj2 (member_in l _ _ ND) J) in C. congruence.
  - rewrite (proj2 (member_in l _ _ ND) J) in C. replace (string_elements (map JStr ns)) with ns in C; [congruence|]. clear. induction ns; cbn; congruence.
  - rewrite (proj2 (member_in l _ _ ND) J) in C. discriminate.
  - rewrite (proj2 (member_none _ _) J) in C. discriminate.
Qed.
Print Assumptions C31_readers_agree.
(** It accepts an object exactly when source and names are there: *)
Theorem C31_convert_accepts :
  forall j, unambiguous j -> ((exists s, convert j = Some s) <->
    (exists s, j = JStr s) \/ exists l w f, j = JObj l /\ In (b "from", JStr w) l /\ source_is w f /\ ((exists n, In (b "name", JStr n) l) \/ exists a, In (b "name", JArr a) l)).
Proof.
  intros j U. split.
  - intros [s C]. destruct j as [| | | |w| |l]; cbn [convert] in C; try discriminate; [left; eauto|]. right.
    destruct (member (b "from") l) as [v|] eqn:E; [|discriminate]. destruct v as [| | | |w| |]; try discriminate. apply member_some in E.
    assert (Q : exists f, source_is w f).
    { destruct (beqb w (b "file")) eqn:B1; [apply beqb_eq in B1; subst; eexists; constructor|]. destruct (beqb w (b "lib")) eqn:B2; [apply beqb_eq in B2; subst; eexists; constructor|].
      destruct (beqb w (b "package")) eqn:B3; [apply beqb_eq in B3; subst; eexists; constructor|]. discriminate. }
    destruct Q as [f Q]. exists l, w, f. split; [auto|]. split; [auto|]. split; [auto|].
    destruct (member (b "name") l) as [v|] eqn:EN; [apply member_some in EN; destruct v; eauto|]; destruct (if beqb w (b "file") then Some FFile else if beqb w (b "lib") then Some FLib else if beqb w (b "package") then Some FPackage else None); discriminate.
  - intros [[s ->]|(l & w & f & -> & I & Q & N)]; [eexists; reflexivity|]. inversion U as [| | | | | |? ND _]; subst. cbn [convert]. rewrite (proj2 (member_in l _ _ ND) I).
    destruct N as [[n N]|[a N]]; rewrite (proj2 (member_in l _ _ ND) N); destruct Q; eexists; reflexivity.
Qed.
Print Assumptions C31_convert_accepts.
(** The two readers do not accept the same documents. *)
Theorem C31_same_documents_refuted :
  (exists j s, unambiguous j /\ dec_specifier j = Some s /\ convert j = None) /\ (exists j s, unambiguous j /\ convert j = Some s /\ dec_specifier j = None).
Proof.
  split.
  - exists (JObj [(b "name", JStr (b "A"))]), (Spec FFile [b "A"] [] []). split; [|split; reflexivity]. constructor; [repeat constructor; intros []|repeat constructor].
  - exists (JObj [(b "from", JStr (b "lib")); (b "name", JArr [JBool true; JStr (b "A")])]), (Spec FLib [b "A"] [] []). split; [|split; reflexivity].
    constructor; [repeat constructor; cbn; intuition discriminate|repeat constructor].
Qed.
Print Assumptions C31_same_documents_refuted.

(** ** Examples *)
Example C31_ex :
  dec_specifier (JStr (b "A")) = Some (Spec FName [b "A"] [] []) /\
  dec_specifier (JObj [(b "package", JStr (b "p")); (b "from", JStr (b "package")); (b "name", JArr [JStr (b "A"); JStr (b "B")])]) = Some (Spec FPackage [b "A"; b "B"] [] (b "p")) /\
  dec_specifier (JObj [(b "from", JStr (b "path"))]) = None /\
  dec_specifier (JObj [(b "from", JStr (b "file")); (b "path", JInt 1)]) = None /\
  enc_specifier (Spec FFile [b "A"] (b "x.ts") []) = Some (JObj [(b "from", JStr (b "file")); (b "name", JArr [JStr (b "A")]); (b "path", JStr (b "x.ts"))]).
Proof. repeat split. Qed.
