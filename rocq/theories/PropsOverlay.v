(** Theorems about the overlays. *)
From Coq Require Import String Ascii Bool List ZArith Permutation Lia.
From Verif Require Import Base Run RunSpec RunProofs Overlay EngineProofs.
Import ListNotations.
Open Scope nat_scope.

(** The overrides as a function: what a lookup must find. *)
Definition override (ov : list (bstr * bstr)) (p c : bstr) : Prop := In (p, c) ov.
Definition overridden (ov : list (bstr * bstr)) (p : bstr) : Prop := exists c, override ov p c.
(** A Go map has one value per key. *)
Definition is_map (ov : list (bstr * bstr)) : Prop := NoDup (map fst ov).

Lemma get_in (ov : list (bstr * bstr)) p c : get ov p = Some c -> In (p, c) ov.
Proof.
  induction ov as [|[k v] ov IH]; cbn [get]; [easy|]. destruct (beqb p k) eqn:E.
  - apply beqb_eq in E. subst. intros [= ->]. now left.
  - intros H. right. auto.
Qed.
Lemma get_none (ov : list (bstr * bstr)) p : get ov p = None -> ~ overridden ov p.
Proof.
  intros H (c & I). unfold override in I. revert H. induction ov as [|[k v] ov IH]; [easy|]. cbn [get].
  destruct (beqb p k) eqn:E; [easy|]. destruct I as [[= -> ->]|I]; [rewrite beqb_refl in E; easy|auto].
Qed.
Lemma in_get ov p c : is_map ov -> override ov p c -> get ov p = Some c.
Proof.
  unfold is_map, override. induction ov as [|[k v] ov IH]; intros N I; [easy|]. cbn [get].
  simpl in N. inversion N as [|? ? NI N']; subst. destruct (beqb p k) eqn:E.
  - apply beqb_eq in E. subst. destruct I as [[= <-]|I]; [auto|]. exfalso. apply NI. apply in_map_iff. exists (k, c). auto.
  - destruct I as [[= -> ->]|I]; [rewrite beqb_refl in E; easy|auto].
Qed.

(** ** C29: source overrides of a request *)

(** [looks p o]: the operation reads the file [p] or tests whether it exists. *)
Inductive looks (p : bstr) : fop -> Prop :=
| looks_exists : looks p (FFileExists p)
| looks_read : looks p (FReadFile p).

(** The answer of one operation in a file system with the overrides in place. *)
Inductive sees (ov : list (bstr * bstr)) : fop -> fans -> fans -> Prop :=
| sees_exists p c a : override ov p c -> sees ov (FFileExists p) a (ABool true)
| sees_read p c a : override ov p c -> sees ov (FReadFile p) a (ARead (Some c))
| sees_other o a : (forall p, looks p o -> ~ overridden ov p) -> sees ov o a a.

(** Assumption on the underlying file system: looking changes nothing. *)
Definition pure_reads {St} (base : St -> fop -> St * fans) : Prop :=
  forall s p o, looks p o -> fst (base s o) = s.

(** For every sequence of operations: the disk ends as if there were no overrides (so
    nothing of them is written), and every answer is that of the disk, except that reads
    and existence tests of overridden paths see the override. *)
Theorem C29_overrides_win_for_reads_only :
  forall (St : Type) (base : St -> fop -> St * fans) ov s os,
    is_map ov -> pure_reads base ->
    let with_ov := trace (request_fs base ov) s os in
    let without := trace base s os in
    fst with_ov = fst without /\
    exists aos, map fst aos = os /\ map (fun x => fst (snd x)) aos = snd without /\
      map (fun x => snd (snd x)) aos = snd with_ov /\
      Forall (fun x => sees ov (fst x) (fst (snd x)) (snd (snd x))) aos.
Proof.
  intros St base ov s os M PR.
  assert (ST : forall s o, fst (request_fs base ov s o) = fst (base s o) /\
                sees ov o (snd (base s o)) (snd (request_fs base ov s o))).
  { intros s0 o. assert (OV : fst (overlay base ov s0 o) = fst (base s0 o) /\
                              sees ov o (snd (base s0 o)) (snd (overlay base ov s0 o))).
    { assert (OT : (forall p, ~ looks p o) -> overlay base ov s0 o = base s0 o ->
                   fst (overlay base ov s0 o) = fst (base s0 o) /\ sees ov o (snd (base s0 o)) (snd (overlay base ov s0 o))).
      { intros N ->. split; [auto|]. constructor. intros p L. exfalso. exact (N p L). }
      destruct o as [|p|p|p d|p d|p|p a m|p|p|p|p|p]; try (apply OT; [intros q L; inversion L|reflexivity]).
      - cbn [overlay]. destruct (get ov p) as [c|] eqn:G.
        + cbn [fst snd]. split; [symmetry; apply (PR s0 p); constructor|]. apply (sees_exists ov p c). now apply get_in.
        + split; [auto|]. constructor. intros q L. inversion L; subst. now apply get_none.
      - cbn [overlay]. destruct (get ov p) as [c|] eqn:G.
        + cbn [fst snd]. split; [symmetry; apply (PR s0 p); constructor|]. apply (sees_read ov p c). now apply get_in.
        + split; [auto|]. constructor. intros q L. inversion L; subst. now apply get_none. }
    unfold request_fs. destruct ov as [|x r]; [|exact OV]. split; [auto|]. constructor.
    intros p _ (c & []). }
  cbv zeta. clear PR M. revert s. induction os as [|o os IH]; intros s.
  - split; [auto|]. exists []. repeat split. constructor.
  - destruct (ST s o) as [S1 S2]. cbn [trace].
    destruct (request_fs base ov s o) as [s1 a]; destruct (base s o) as [s1' a']; cbn [fst snd] in S1, S2; subst s1'.
    destruct (IH s1) as (F & aos & A1 & A2 & A3 & A4). clear IH.
    destruct (trace (request_fs base ov) s1 os) as [s2 r]; destruct (trace base s1 os) as [s2' r'].
    cbn [fst snd] in *. split; [auto|]. exists ((o, (a', a)) :: aos). simpl. rewrite A1, A2, A3.
    repeat split. constructor; auto.
Qed.
Print Assumptions C29_overrides_win_for_reads_only.

(** Other ways to look at a file do not see the override: an overridden path that is not on
    disk exists and can be read, but has no [Stat], its directory does not exist and is
    empty. *)
Definition ex_disk (s : list (bstr * bstr)) (o : fop) : list (bstr * bstr) * fans :=
  match o with
  | FFileExists p => (s, ABool (match get s p with Some _ => true | None => false end))
  | FReadFile p => (s, ARead (get s p))
  | FWriteFile p d => ((p, d) :: s, AErr false)
  | FStat p => (s, AStat (option_map (fun c => (p, List.length c)) (get s p)))
  | FDirectoryExists p => (s, ABool (existsb (fun v => match cut_prefix (p ++ b "/") (fst v) with Some _ => true | None => false end) s))
  | FEntries p => let (f, d) := add_virtual (p ++ b "/") s [] [] in (s, AEntries f d)
  | FRealpath p => (s, APath p)
  | FCaseSensitive => (s, ABool true)
  | FWalkDir p => (s, AWalk [] false)
  | _ => (s, AErr true)
  end.
Example C29_example_disk : pure_reads ex_disk /\ is_map [(b "/d/a.ts", b "new")].
Proof. split; [intros s p o L; inversion L; reflexivity|]. repeat constructor. easy. Qed.

Theorem C29_other_queries_see_override_refuted :
  exists ov disk, pure_reads ex_disk /\ is_map ov /\
    snd (trace (request_fs ex_disk ov) disk
      [FFileExists (b "/d/a.ts"); FReadFile (b "/d/a.ts"); FStat (b "/d/a.ts");
       FDirectoryExists (b "/d"); FEntries (b "/d")]) =
    [ABool true; ARead (Some (b "new")); AStat None; ABool false; AEntries [] []].
Proof.
  exists [(b "/d/a.ts", b "new")], []. destruct C29_example_disk as [A B].
  split; [exact A|]. split; [exact B|]. reflexivity.
Qed.
Print Assumptions C29_other_queries_see_override_refuted.

(** The size given by [Stat] and the text read disagree when the file is on disk too, and a
    write to an overridden path is not seen by a later read. *)
Theorem C29_overlay_is_one_file_system_refuted :
  exists ov disk, pure_reads ex_disk /\ is_map ov /\
    snd (trace (request_fs ex_disk ov) disk
      [FStat (b "/a.ts"); FWriteFile (b "/a.ts") (b "written"); FReadFile (b "/a.ts")]) =
    [AStat (Some (b "/a.ts", 5)); AErr false; ARead (Some (b "xyz"))].
Proof.
  exists [(b "/a.ts", b "xyz")], [(b "/a.ts", b "older")].
  split; [apply C29_example_disk|]. split; [repeat constructor; easy|]. reflexivity.
Qed.
Print Assumptions C29_overlay_is_one_file_system_refuted.

(** Paths to lint are normalised (backslashes to slashes), the keys of the overrides are
    not: with the same spelling in both places the override is not used. *)
Theorem C29_override_of_requested_path_refuted :
  exists (cfgs : list (@hconfig nat)) ov disk p f c,
    is_map ov /\ override ov p c /\ (exists g, In g cfgs /\ In p (c_paths g)) /\ slashed p f /\
    requested cfgs f /\
    snd (request_fs ex_disk ov disk (FReadFile f)) = ARead (Some (b "old")) /\ c = b "new".
Proof.
  exists [mkHC [b "C:\a.ts"] []], [(b "C:\a.ts", b "new")], [(b "C:/a.ts", b "old")], (b "C:\a.ts"), (b "C:/a.ts"), (b "new").
  split; [repeat constructor; easy|]. split; [now left|]. split; [eexists; split; [now left|cbn [c_paths]; now left]|].
  assert (S : slashed (b "C:\a.ts") (b "C:/a.ts")) by (apply norm_slashed; reflexivity).
  split; [exact S|]. split; [|split; reflexivity].
  eexists. split; [now left|]. exists (b "C:\a.ts"). split; [cbn [c_paths]; now left|exact S].
Qed.
Print Assumptions C29_override_of_requested_path_refuted.

(** If the keys are written with slashes, every requested path that is overridden reads as
    the override. *)
Theorem C29_override_of_requested_path_partial :
  forall (St Opt : Type) (base : St -> fop -> St * fans) (cfgs : list (@hconfig Opt)) ov s p f c,
    is_map ov -> (forall q d, override ov q d -> slashed q q) ->
    (exists g, In g cfgs /\ In p (c_paths g)) -> override ov p c -> slashed p f ->
    request_fs base ov s (FReadFile f) = (s, ARead (Some c)) /\
    request_fs base ov s (FFileExists f) = (s, ABool true).
Proof.
  intros St Opt base cfgs ov s p f c M K _ O S. specialize (K p c O).
  apply norm_slashed in K. apply norm_slashed in S. rewrite K in S. subst f.
  pose proof (in_get ov p c M O) as G. unfold request_fs. destruct ov; [destruct O|].
  cbn [overlay]. rewrite G. auto.
Qed.
Print Assumptions C29_override_of_requested_path_partial.

(** ** C29: [OverlayVFS] *)

(** [f] lies in the directory written [d]: [rest] is its path below [d]. *)
Definition below (npath : bstr -> bstr) (d f rest : bstr) : Prop :=
  ((exists q, npath d = q ++ b "/") /\ f = npath d ++ rest) \/
  ((~ exists q, npath d = q ++ b "/") /\ f = npath d ++ b "/" ++ rest).
Definition no_slash (s : bstr) : Prop := ~ In "/"%char s.

Lemma cut_prefix_ok p : forall s r, cut_prefix p s = Some r <-> s = p ++ r.
Proof.
  induction p as [|c p IH]; intros s r; cbn [cut_prefix].
  - split; [intros [= ->]; auto|intros ->; auto].
  - destruct s as [|d s]; [split; [easy|discriminate]|].
    destruct (Ascii.eqb_spec c d) as [->|N].
    + rewrite IH. split; [intros ->; auto|intros [= ->]; auto].
    + split; [easy|]. intros [= E _]. congruence.
Qed.
Lemma cut_slash_ok s :
  match cut_slash s with
  | Some h => no_slash h /\ exists t, s = h ++ b "/" ++ t
  | None => no_slash s
  end.
Proof.
  unfold no_slash. induction s as [|c s IH]; cbn [cut_slash]; [easy|].
  destruct (Ascii.eqb_spec c "/"%char) as [->|N].
  - split; [easy|]. exists s. reflexivity.
  - destruct (cut_slash s) as [h|]; cbn [option_map].
    + destruct IH as [IH (t & ->)]. split; [intros [E|I]; [congruence|auto]|]. exists t. reflexivity.
    + intros [E|I]; [congruence|auto].
Qed.
Lemma no_slash_split h t h' : no_slash h' -> h ++ b "/" ++ t = h' -> False.
Proof. intros N <-. apply N. apply in_or_app. right. now left. Qed.
Lemma first_slash h t h' t' : no_slash h -> no_slash h' -> h ++ b "/" ++ t = h' ++ b "/" ++ t' -> h = h'.
Proof.
  unfold no_slash. revert h'. induction h as [|c h IH]; intros [|c' h'] N N' E; simpl in E; auto.
  - injection E as <- _. exfalso. apply N'. now left.
  - injection E as -> _. exfalso. apply N. now left.
  - injection E as -> E. f_equal. apply IH; auto; intros I; [apply N|apply N']; now right.
Qed.
Lemma dir_prefix_ok npath d f r : cut_prefix (dir_prefix npath d) f = Some r <-> below npath d f r.
Proof.
  rewrite cut_prefix_ok. unfold dir_prefix, below, has_suffix_slash.
  destruct (rev (npath d)) as [|c l] eqn:E.
  - assert (npath d = []) by (rewrite <- (rev_involutive (npath d)), E; auto). rewrite H. split.
    + intros ->. right. split; [|reflexivity]. intros (q & Hq). destruct q; discriminate.
    + intros [[(q & Hq) _]|[_ ->]]; [destruct q; discriminate|reflexivity].
  - assert (HD : npath d = rev l ++ [c]) by (rewrite <- (rev_involutive (npath d)), E; auto).
    destruct (Ascii.eqb_spec c "/"%char) as [->|N].
    + split.
      * intros ->. left. split; [exists (rev l); auto|auto].
      * intros [[_ ->]|[N _]]; [auto|]. exfalso. apply N. exists (rev l). auto.
    + assert (NS : ~ exists q, npath d = q ++ b "/").
      { intros (q & Hq). rewrite HD in Hq. apply app_inj_tail in Hq. destruct Hq as [_ Hq]. congruence. }
      split.
      * intros ->. right. split; [auto|]. rewrite <- app_assoc. reflexivity.
      * intros [[X _]|[_ ->]]; [easy|]. rewrite <- app_assoc. reflexivity.
Qed.

Lemma add_virtual_ok npath d vs : forall fs ds fs' ds',
  add_virtual (dir_prefix npath d) vs fs ds = (fs', ds') ->
  (forall x, In x fs' <-> In x fs \/ (no_slash x /\ exists f c, In (f, c) vs /\ below npath d f x)) /\
  (forall x, In x ds' <-> In x ds \/ (no_slash x /\ exists f c t, In (f, c) vs /\ below npath d f (x ++ b "/" ++ t))) /\
  (exists e, fs' = fs ++ e) /\ (exists e, ds' = ds ++ e).
Proof.
  induction vs as [|[p c] vs IH]; intros fs ds fs' ds' E; cbn [add_virtual] in E.
  - injection E as <- <-. repeat split; try (exists []; now rewrite app_nil_r).
    + auto.
    + intros [H|(_ & f & c & [] & _)]; auto.
    + auto.
    + intros [H|(_ & f & c & t & [] & _)]; auto.
  - destruct (cut_prefix (dir_prefix npath d) p) as [rest|] eqn:CP.
    + pose proof (proj1 (dir_prefix_ok npath d p rest) CP) as BP.
      assert (UB : forall r, below npath d p r -> r = rest).
      { intros r H. apply dir_prefix_ok in H. congruence. }
      pose proof (cut_slash_ok rest) as CS. destruct (cut_slash rest) as [before|].
      * destruct CS as [NB (t0 & Hrest)].
        destruct (IH _ _ _ _ E) as (A & B & C & (e & D)). split; [|split; [|split; [auto|]]].
        -- intros x. rewrite A. split; (intros [H|(N & f & c' & I & Bw)]; [auto|right; split; [auto|]]).
           ++ exists f, c'. split; [now right|auto].
           ++ destruct I as [[= <- <-]|I]; [|eauto]. apply UB in Bw. subst x. exfalso.
              symmetry in Hrest. eapply no_slash_split; eauto.
        -- intros x. rewrite B, in_app_iff. split.
           ++ intros [[H|[<-|[]]]|(N & f & c' & t & I & Bw)]; [auto| |].
              ** right. split; [auto|]. exists p, c, t0. split; [now left|]. now rewrite <- Hrest.
              ** right. split; [auto|]. exists f, c', t. split; [now right|auto].
           ++ intros [H|(N & f & c' & t & [[= <- <-]|I] & Bw)]; [auto| |].
              ** apply UB in Bw. left. right. left. rewrite Hrest in Bw. symmetry. eapply first_slash; eauto.
              ** right. split; [auto|]. eauto.
        -- exists ([before] ++ e). now rewrite app_assoc.
      * destruct (IH _ _ _ _ E) as (A & B & (e & C) & D). split; [|split; [|split; [|auto]]].
        -- intros x. rewrite A, in_app_iff. split.
           ++ intros [[H|[<-|[]]]|(N & f & c' & I & Bw)]; [auto| |].
              ** right. split; [auto|]. exists p, c. split; [now left|auto].
              ** right. split; [auto|]. exists f, c'. split; [now right|auto].
           ++ intros [H|(N & f & c' & [[= <- <-]|I] & Bw)]; [auto| |].
              ** apply UB in Bw. subst. left. right. now left.
              ** right. split; [auto|]. eauto.
        -- intros x. rewrite B. split; (intros [H|(N & f & c' & t & I & Bw)]; [auto|right; split; [auto|]]).
           ++ exists f, c', t. split; [now right|auto].
           ++ destruct I as [[= <- <-]|I]; [|eauto]. apply UB in Bw. subst rest. exfalso.
              exact (no_slash_split _ _ _ CS eq_refl).
        -- exists ([rest] ++ e). now rewrite app_assoc.
    + assert (NB : forall r, ~ below npath d p r).
      { intros r H. apply dir_prefix_ok in H. congruence. }
      destruct (IH _ _ _ _ E) as (A & B & C & D). split; [|split; [|split; auto]].
      * intros x. rewrite A. split; (intros [H|(N & f & c' & I & Bw)]; [auto|right; split; [auto|]]).
        -- exists f, c'. split; [now right|auto].
        -- destruct I as [[= <- <-]|I]; [exfalso; eapply NB; eauto|eauto].
      * intros x. rewrite B. split; (intros [H|(N & f & c' & t & I & Bw)]; [auto|right; split; [auto|]]).
        -- exists f, c', t. split; [now right|auto].
        -- destruct I as [[= <- <-]|I]; [exfalso; eapply NB; eauto|eauto].
Qed.

(** Every query of [OverlayVFS] answers for the disk with the virtual files in it; writing
    to one panics; everything else is left to the disk.  Only a panic can prevent an answer,
    and nothing virtual reaches the disk: its state is that of the same operation on it,
    or unchanged. *)
Theorem C29_virtual_files_exact :
  forall (St : Type) (base : St -> fop -> St * fans) npath iter vf s o,
    is_map vf -> (forall l, Permutation (iter l) l) ->
    (forall s d, exists fs ds, snd (base s (FEntries d)) = AEntries fs ds) ->
    match o with
    | FFileExists p => forall c, override vf p c -> ov_vfs base npath iter vf s o = Ok (s, ABool true)
    | FReadFile p => forall c, override vf p c -> ov_vfs base npath iter vf s o = Ok (s, ARead (Some c))
    | FStat p => forall c, override vf p c -> ov_vfs base npath iter vf s o = Ok (s, AStat (Some (p, List.length c)))
    | FRealpath p => forall c, override vf p c -> ov_vfs base npath iter vf s o = Ok (s, APath p)
    | FWriteFile p _ | FAppendFile p _ | FRemove p | FChtimes p _ _ =>
        forall c, override vf p c -> ov_vfs base npath iter vf s o = Panic
    | FDirectoryExists d =>
        (forall f c r, override vf f c -> below npath d f r -> ov_vfs base npath iter vf s o = Ok (s, ABool true)) /\
        ((forall f c r, override vf f c -> ~ below npath d f r) -> ov_vfs base npath iter vf s o = Ok (base s o))
    | FEntries d => exists fs ds fs' ds',
        snd (base s o) = AEntries fs ds /\
        ov_vfs base npath iter vf s o = Ok (fst (base s o), AEntries (fs ++ fs') (ds ++ ds')) /\
        (forall x, In x (fs ++ fs') <-> In x fs \/ (no_slash x /\ exists f c, override vf f c /\ below npath d f x)) /\
        (forall x, In x (ds ++ ds') <-> In x ds \/ (no_slash x /\ exists f c t, override vf f c /\ below npath d f (x ++ b "/" ++ t)))
    | FCaseSensitive | FWalkDir _ => ov_vfs base npath iter vf s o = Ok (base s o)
    end /\
    (match o with
     | FFileExists p | FReadFile p | FStat p | FRealpath p
     | FWriteFile p _ | FAppendFile p _ | FRemove p | FChtimes p _ _ =>
         ~ overridden vf p -> ov_vfs base npath iter vf s o = Ok (base s o)
     | _ => True
     end).
Proof.
  intros St base npath iter vf s o M Hi HE.
  assert (G : forall p c, override vf p c -> get vf p = Some c) by (intros; now apply in_get).
  assert (NG : forall p, ~ overridden vf p -> get vf p = None).
  { intros p N. destruct (get vf p) as [c|] eqn:E; [|auto]. exfalso. apply N. exists c. now apply get_in. }
  split.
  - destruct o as [|p|p|p d|p d|p|p a m|d|d|p|p|p]; cbn [ov_vfs]; try reflexivity;
      try (intros c O; rewrite (G p c O); reflexivity).
    + assert (X : existsb (fun v => match cut_prefix (dir_prefix npath d) (fst v) with Some _ => true | None => false end) (iter vf) = true
        <-> exists f c r, override vf f c /\ below npath d f r).
      { rewrite existsb_exists. split.
        - intros ([f c] & I & H). cbn [fst] in H. destruct (cut_prefix (dir_prefix npath d) f) as [r|] eqn:CP; [|easy].
          exists f, c, r. split; [eapply Permutation_in; eauto|now apply dir_prefix_ok].
        - intros (f & c & r & O & Bw). exists (f, c). split; [eapply Permutation_in; [symmetry; apply Hi|exact O]|].
          apply dir_prefix_ok in Bw. cbn [fst]. now rewrite Bw. }
      split.
      * intros f c r O Bw. rewrite (proj2 X); [reflexivity|eauto].
      * intros N. destruct (existsb _ (iter vf)) eqn:EX; [|reflexivity].
        destruct (proj1 X eq_refl) as (f & c & r & O & Bw). exfalso. eapply N; eauto.
    + destruct (HE s d) as (fs & ds & EB). destruct (base s (FEntries d)) as [s' a] eqn:EB'. cbn [snd] in EB. subst a.
      destruct (add_virtual (dir_prefix npath d) (iter vf) fs ds) as [fs1 ds1] eqn:AV.
      destruct (add_virtual_ok npath d _ _ _ _ _ AV) as (A & B & (e1 & ->) & (e2 & ->)).
      exists fs, ds, e1, e2. split; [reflexivity|]. split; [reflexivity|].
      assert (P : forall f c, In (f, c) (iter vf) <-> override vf f c).
      { intros f c. split; intros H; [exact (Permutation_in _ (Hi vf) H)|exact (Permutation_in _ (Permutation_sym (Hi vf)) H)]. }
      split; intros x.
      * rewrite A. split; (intros [H|(N & f & c & I & Bw)]; [auto|right; split; [auto|exists f, c; split; [now apply P|auto]]]).
      * rewrite B. split; (intros [H|(N & f & c & t & I & Bw)]; [auto|right; split; [auto|exists f, c, t; split; [now apply P|auto]]]).
  - destruct o as [|p|p|p d|p d|p|p a m|d|d|p|p|p]; cbn [ov_vfs]; try exact I;
      intros N; rewrite (NG p N); reflexivity.
Qed.
Print Assumptions C29_virtual_files_exact.

(** Listings can repeat names: a directory that is on disk, or that holds two virtual files,
    and a virtual file that shadows one on disk. *)
Theorem C29_listing_without_repetition_refuted :
  exists vf disk fs ds, is_map vf /\
    ov_vfs ex_disk (fun p => p) (fun l => l) vf disk (FEntries (b "/d")) = Ok (disk, AEntries fs ds) /\
    ~ NoDup fs /\ ~ NoDup ds.
Proof.
  exists [(b "/d/a.ts", []); (b "/d/e/b.ts", []); (b "/d/e/c.ts", [])], [(b "/d/a.ts", b "old")], [b "a.ts"; b "a.ts"], [b "e"; b "e"].
  split; [simpl; repeat constructor; simpl; intuition discriminate|]. split; [reflexivity|].
  split; intros N; inversion N as [|? ? NI _]; apply NI; now left.
Qed.
Print Assumptions C29_listing_without_repetition_refuted.

Example C29_example_virtual :
  map (ov_vfs ex_disk (fun p => p) (fun l => l) [(b "/d/x.ts", b "abc")] [(b "/d/a.ts", b "old")])
    [FReadFile (b "/d/x.ts"); FReadFile (b "/d/a.ts"); FDirectoryExists (b "/d"); FDirectoryExists (b "/q");
     FEntries (b "/d"); FStat (b "/d/x.ts"); FRemove (b "/d/x.ts")] =
  [Ok ([(b "/d/a.ts", b "old")], ARead (Some (b "abc"))); Ok ([(b "/d/a.ts", b "old")], ARead (Some (b "old")));
   Ok ([(b "/d/a.ts", b "old")], ABool true); Ok ([(b "/d/a.ts", b "old")], ABool false);
   Ok ([(b "/d/a.ts", b "old")], AEntries [b "a.ts"; b "x.ts"] []);
   Ok ([(b "/d/a.ts", b "old")], AStat (Some (b "/d/x.ts", 3))); Panic].
Proof. reflexivity. Qed.
