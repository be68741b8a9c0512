(** Theorems about the request decoder. *)
From Coq Require Import String Ascii Bool List ZArith Lia.
From Verif Require Import Base Run RunSpec Payload PayloadSpec PayloadProofs.
Import ListNotations.
Open Scope Z_scope.

(** ** C28 *)

(** No input crashes the decoder. *)
Theorem C28_no_crash : forall doc, deserialize doc <> Panic.
Proof. intros doc E. pose proof (deserialize_ok doc) as D. rewrite E in D. exact D. Qed.
Print Assumptions C28_no_crash.

(** A request of version 2 is decoded to its meaning, and to nothing else. *)
Theorem C28_v2_exact : forall j p,
  version_is j 2 -> unambiguous j ->
  (deserialize (Some j) = Ok (inl p) <-> v2_means j p).
Proof.
  intros j p V U. split.
  - intros E. pose proof (deserialize_ok (Some j)) as D. rewrite E in D.
    destruct D as (j' & [= <-] & _ & [[_ D]|[D _]]); [auto|].
    pose proof (version_fun _ _ _ U V D). lia.
  - intros M. apply deserialize_v2; auto. destruct M as (l & Hl & Hv & _).
    assert (V' : version_is j (p_version p)) by (exists l; auto). symmetry. eapply version_fun; eauto.
Qed.
Print Assumptions C28_v2_exact.

(** A request without version (or version 0) is decoded exactly when it lists at least one
    file, and then to what its version-2 translation is decoded to: one group per file, in
    order, with its rules without options; no source overrides and no type-check reports,
    whatever else the document contains. *)
Theorem C28_v1_is_its_translation : forall j p,
  version_is j 0 -> unambiguous j ->
  (deserialize (Some j) = Ok (inl p) <->
   exists fs, v1_means j fs /\ fs <> [] /\
     deserialize (Some (translation fs)) = Ok (inl p) /\
     Forall2 (fun f c => c_paths c = [fst f] /\ c_rules c = map (fun r => mkHR r None) (snd f)) fs (p_configs p) /\
     p_overrides p = [] /\ p_syntactic p = false /\ p_semantic p = false).
Proof.
  intros j p V U. split.
  - intros E. pose proof (deserialize_ok (Some j)) as D. rewrite E in D.
    destruct D as (j' & [= <-] & _ & [[D _]|[_ (fs & M & N & ->)]]).
    + pose proof (version_fun _ _ _ U V D). lia.
    + exists fs. split; [auto|]. split; [auto|]. split; [|split; [|auto]].
      * apply deserialize_v2; [apply translation_unambiguous|apply translation_means|reflexivity].
      * cbn [upgraded p_configs]. clear. induction fs; simpl; constructor; auto.
  - intros (fs & M & N & E & _).
    pose proof (deserialize_v2 _ _ (translation_unambiguous fs) (translation_means fs) eq_refl) as E'.
    assert (Hp : p = upgraded fs) by congruence. subst p.
    pose proof (deserialize_ok (Some j)) as D. destruct (deserialize (Some j)) as [[q|[]]|].
    + destruct D as (j' & [= <-] & _ & [[D _]|[_ (fs' & M' & N' & ->)]]).
      * pose proof (version_fun _ _ _ U V D). lia.
      * now rewrite (v1_fun _ _ _ U M M').
    + exfalso. eapply D; eauto.
    + destruct D as (j' & [= <-] & _ & D & _). pose proof (version_fun _ _ _ U V D). lia.
    + destruct D as (j' & [= <-] & _ & D & N0 & _). pose proof (version_fun _ _ _ U V D). congruence.
    + destruct D as (j' & [= <-] & _ & _ & D). exfalso. eapply D; eauto.
    + destruct D as (j' & [= <-] & _ & _ & D). exfalso. apply N. eapply v1_fun; eauto.
    + destruct D.
Qed.
Print Assumptions C28_v1_is_its_translation.

(** Consequence for linting: the rules of a file of an old request are those of its last
    entry in the list. *)
Theorem C28_v1_rules_of_a_file : forall j p fs f hs,
  version_is j 0 -> deserialize (Some j) = Ok (inl p) -> v1_means j fs ->
  (last_group (p_configs p) f hs <->
   exists pre path rules post, fs = pre ++ (path, rules) :: post /\ slashed path f /\
     hs = map (fun r => mkHR r None) rules /\ forall x, In x post -> ~ slashed (fst x) f).
Proof.
  intros j p fs f hs V E M.
  pose proof (deserialize_ok (Some j)) as D. rewrite E in D.
  destruct D as (j' & [= <-] & U & [[D _]|[_ (fs' & M' & _ & ->)]]).
  { pose proof (version_fun _ _ _ U V D). lia. }
  rewrite (v1_fun _ _ _ U M' M). cbn [upgraded p_configs]. clear.
  assert (NM : forall x, names (up_file x) f <-> slashed (fst x) f).
  { intros x. unfold names, up_file. cbn [c_paths]. split.
    - intros (q & [<-|[]] & S). auto.
    - intros S. exists (fst x). simpl. auto. }
  unfold last_group. split.
  - intros (pre & c & post & Em & N & -> & NP).
    apply map_eq_app in Em. destruct Em as (pre' & l2 & -> & <- & Em).
    apply map_eq_cons in Em. destruct Em as ([path rules] & post' & -> & <- & <-).
    exists pre', path, rules, post'. split; [auto|]. split; [now apply NM in N|]. split; [reflexivity|].
    intros x I S. apply (NP (up_file x)); [now apply in_map|now apply NM].
  - intros (pre & path & rules & post & -> & S & -> & NP).
    exists (map up_file pre), (up_file (path, rules)), (map up_file post). split; [now rewrite map_app|].
    split; [now apply NM|]. split; [reflexivity|]. intros c I N. apply in_map_iff in I. destruct I as (x & <- & I).
    apply (NP x I). now apply NM.
Qed.
Print Assumptions C28_v1_rules_of_a_file.

(** Everything else is rejected, and every rejection has its reason. *)
Theorem C28_rejections : forall doc e,
  deserialize doc = Ok (inr e) <->
  match e with
  | BadJson => match doc with Some j => unambiguous j -> forall v, ~ version_is j v | None => True end
  | BadVersion v => exists j, doc = Some j /\ unambiguous j /\ version_is j v /\ v <> 0 /\ v <> 2
  | BadV2 => exists j, doc = Some j /\ unambiguous j /\ version_is j 2 /\ forall p, ~ v2_means j p
  | BadV1 => exists j, doc = Some j /\ unambiguous j /\ version_is j 0 /\ forall fs, ~ v1_means j fs
  | NoFiles => exists j, doc = Some j /\ unambiguous j /\ version_is j 0 /\ v1_means j []
  end.
Proof.
  intros doc e. split.
  - intros E. pose proof (deserialize_ok doc) as D. rewrite E in D. destruct e; auto.
    destruct doc as [j|]; [|auto]. intros U v. now apply D.
  - intros H. pose proof (deserialize_ok doc) as D.
    assert (BJ : (exists j v, doc = Some j /\ unambiguous j /\ version_is j v) -> e <> BadJson).
    { intros (j & v & -> & U & V) ->. exact (H U v V). }
    destruct (deserialize doc) as [[q|e']|].
    + destruct D as (j & -> & U & D). exfalso.
      assert (VV : exists v, version_is j v) by (destruct D as [[D _]|[D _]]; eauto). destruct VV as (v0 & V0).
      destruct e as [| |v| |].
      * apply BJ; eauto.
      * destruct H as (j' & [= <-] & _ & V & H). destruct D as [[_ D]|[D _]]; [eapply H; eauto|].
        pose proof (version_fun _ _ _ U V D). lia.
      * destruct H as (j' & [= <-] & _ & V & N0 & N2). destruct D as [[D _]|[D _]]; pose proof (version_fun _ _ _ U V D); congruence.
      * destruct H as (j' & [= <-] & _ & V & H). destruct D as [[D _]|[_ (fs & D & _)]]; [|eapply H; eauto].
        pose proof (version_fun _ _ _ U V D). lia.
      * destruct H as (j' & [= <-] & _ & V & H). destruct D as [[D _]|[_ (fs & D & N & _)]].
        -- pose proof (version_fun _ _ _ U V D). lia.
        -- apply N. eapply v1_fun; eauto.
    + f_equal. f_equal. destruct e' as [| |v'| |].
      * destruct e as [| |v| |]; [auto|..]; destruct H as (j & -> & U & V & _); exfalso; eapply D; eauto.
      * destruct D as (j & -> & U & V' & D). destruct e as [| |v| |].
        -- exfalso. apply BJ; eauto.
        -- auto.
        -- destruct H as (j' & [= <-] & _ & V & N0 & N2). pose proof (version_fun _ _ _ U V V'). congruence.
        -- destruct H as (j' & [= <-] & _ & V & _). pose proof (version_fun _ _ _ U V V'). congruence.
        -- destruct H as (j' & [= <-] & _ & V & _). pose proof (version_fun _ _ _ U V V'). congruence.
      * destruct D as (j & -> & U & V' & D0 & D2). destruct e as [| |v| |].
        -- exfalso. apply BJ; eauto.
        -- destruct H as (j' & [= <-] & _ & V & _). pose proof (version_fun _ _ _ U V V'). congruence.
        -- destruct H as (j' & [= <-] & _ & V & _). pose proof (version_fun _ _ _ U V V'). congruence.
        -- destruct H as (j' & [= <-] & _ & V & _). pose proof (version_fun _ _ _ U V V'). congruence.
        -- destruct H as (j' & [= <-] & _ & V & _). pose proof (version_fun _ _ _ U V V'). congruence.
      * destruct D as (j & -> & U & V' & D). destruct e as [| |v| |].
        -- exfalso. apply BJ; eauto.
        -- destruct H as (j' & [= <-] & _ & V & _). pose proof (version_fun _ _ _ U V V'). congruence.
        -- destruct H as (j' & [= <-] & _ & V & N0 & N2). pose proof (version_fun _ _ _ U V V'). congruence.
        -- auto.
        -- destruct H as (j' & [= <-] & _ & V & H). exfalso. eapply D; eauto.
      * destruct D as (j & -> & U & V' & D). destruct e as [| |v| |].
        -- exfalso. apply BJ; eauto.
        -- destruct H as (j' & [= <-] & _ & V & _). pose proof (version_fun _ _ _ U V V'). congruence.
        -- destruct H as (j' & [= <-] & _ & V & N0 & N2). pose proof (version_fun _ _ _ U V V'). congruence.
        -- destruct H as (j' & [= <-] & _ & V & H). exfalso. eapply H; eauto.
        -- auto.
    + destruct D.
Qed.
Print Assumptions C28_rejections.

(** An old request with an ignored member, a repeated file and a null list of rules. *)
Definition ex_v1 : json :=
  JObj [(b "source_overrides", JObj [(b "/a.ts", JStr (b "x"))]);
        (b "files", JArr [JObj [(b "file_path", JStr (b "/a.ts")); (b "rules", JArr [JStr (b "r1"); JStr (b "r2")])];
                          JObj [(b "rules", JNull); (b "file_path", JStr (b "\b.ts"))]])].
Example C28_example_v1 :
  deserialize (Some ex_v1) =
    Ok (inl (mkPay 2 [mkHC [b "/a.ts"] [mkHR (b "r1") None; mkHR (b "r2") None]; mkHC [b "\b.ts"] []] [] false false)) /\
  deserialize (Some ex_v1) =
    deserialize (Some (translation [(b "/a.ts", [b "r1"; b "r2"]); (b "\b.ts", [])])).
Proof. split; reflexivity. Qed.
Example C28_example_v1_hyps : version_is ex_v1 0 /\ unambiguous ex_v1.
Proof.
  split.
  - eexists. split; [constructor|]. right. split; [|reflexivity]. intros v I. simpl in I. intuition discriminate.
  - apply no_repeats_spec. reflexivity.
Qed.
Example C28_example_v2 :
  deserialize (Some (JObj [(b "report_semantic", JBool true); (b "version", JInt 2);
     (b "configs", JArr [JObj [(b "file_paths", JArr [JStr (b "/a.ts")]);
        (b "rules", JArr [JObj [(b "name", JStr (b "r")); (b "options", JObj [(b "k", JReal (b "1.5"))])]])]])])) =
  Ok (inl (mkPay 2 [mkHC [b "/a.ts"] [mkHR (b "r") (Some (JObj [(b "k", JReal (b "1.5"))]))]] [] false true)).
Proof. reflexivity. Qed.
Example C28_example_rejected :
  map deserialize
    [None; Some (JArr []); Some (JObj [(b "version", JInt 3)]); Some (JObj [(b "version", JReal (b "2.0"))]);
     Some (JObj [(b "version", JInt 2); (b "configs", JStr (b "x"))]); Some (JObj [(b "files", JArr [])]);
     Some (JObj [(b "x", JNull); (b "x", JNull)]); Some (JObj [(b "files", JObj [])])] =
  map (fun e => Ok (inr e)) [BadJson; BadJson; BadVersion 3; BadJson; BadV2; NoFiles; BadJson; BadV1].
Proof. reflexivity. Qed.
