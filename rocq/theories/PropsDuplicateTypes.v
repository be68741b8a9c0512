(** C51: duplicates among the types of a union or intersection (DuplicateTypes.v); the vocabulary is in DuplicateTypesSpec.v. *)
From Coq Require Import String Ascii Bool List ZArith Lia Sorted.
From Verif Require Import Base EngineProofs Fixer FixerSpec FixerProofs FixOne DuplicateTypes DuplicateTypesSpec DuplicateTypesProofs DuplicateTypesFix.
Import ListNotations.
Open Scope Z_scope.

(** ** What is looked at and reported *)
(** A visit is the first of its type in the order of the text, or a duplicate of the first one. *)
Definition first_at (vs : list visit) (q : list nat) : Prop := exists w, In w vs /\ path (at_ w) = q /\ found w = OFirst.
Definition typ (v : visit) : Z := type_of (node (at_ v)).
Definition before_it (w v : visit) : Prop := precedes (path (at_ w)) (path (at_ v)).
(** Exactly the constituents of the type, and of the constituents that are firsts, are looked at, each once and in the order of
    the text. *)
Theorem C51_visits error t inter leading l pos : let root := Op t inter leading l in let vs := visits error pos root in
  StronglySorted before_it vs /\
  (forall v, In v vs -> exists last, looked inter (first_at vs) root pos (path (at_ v)) (node (at_ v)) (start (at_ v)) (parent v) last) /\
  (forall q x a par last, looked inter (first_at vs) root pos q x a par last -> exists v, In v vs /\ at_ v = Place q x a /\ parent v = par).
Proof.
  intros root vs. split; [apply visits_sorted|]. split.
  - intros v V. destruct (visits_looked error t inter leading l pos v V) as (la & K & _). exists la. exact K.
  - apply looked_visits.
Qed.
Print Assumptions C51_visits.
(** What it is found to be, and whether a fix is offered: if the type keeps a constituent. *)
Theorem C51_outcome error t inter leading l pos v : let root := Op t inter leading l in let vs := visits error pos root in In v vs ->
  (found v = OError <-> error (typ v) = true) /\
  (found v = OFirst <-> error (typ v) = false /\ forall w, In w vs -> found w = OFirst -> before_it w v -> typ w <> typ v) /\
  (forall f, found v = ODuplicate f <-> error (typ v) = false /\ exists w, In w vs /\ found w = OFirst /\ before_it w v /\ typ w = typ v /\ at_ w = f) /\
  exists last, looked inter (first_at vs) root pos (path (at_ v)) (node (at_ v)) (start (at_ v)) (parent v) last /\
    (with_fix v = true <-> List.length (path (at_ v)) = 1%nat \/ last = false \/
       exists w p i j, In w vs /\ path (at_ v) = p ++ [i] /\ path (at_ w) = p ++ [j] /\ (j < i)%nat /\ forall f, found w <> ODuplicate f).
Proof.
  intros root vs V. pose proof (visits_judged error t inter leading l pos v V) as J. red in J. unfold typ, before_it.
  assert (U : forall w1 w2, In w1 vs -> In w2 vs -> found w1 = OFirst -> found w2 = OFirst -> typ w1 = typ w2 -> w1 = w2).
  { intros w1 w2 W1 W2 F1 F2 T. assert (N : forall x y, In x vs -> In y vs -> found x = OFirst -> found y = OFirst -> typ x = typ y -> before_it x y -> False).
    { intros x y X Y FX FY E B. pose proof (visits_judged error t inter leading l pos y Y) as JY. red in JY. rewrite FY in JY. destruct JY as [_ JY]. exact (JY x X FX B E). }
    assert (TRI : w1 = w2 \/ before_it w1 w2 \/ before_it w2 w1).
    { clear -W1 W2. pose proof (visits_sorted error t inter leading l pos) as S. fold root vs in S. induction S as [|x us S IH F]; [destruct W1|]. rewrite Forall_forall in F. destruct W1 as [<-|W1], W2 as [<-|W2]; [left; reflexivity|right; left; exact (F _ W2)|right; right; exact (F _ W1)|auto]. }
    destruct TRI as [E|[B|B]]; auto; exfalso; [exact (N w1 w2 W1 W2 F1 F2 T B)|exact (N w2 w1 W2 W1 F2 F1 (eq_sym T) B)]. }
  split; [|split; [|split]].
  - destruct (found v); split; intros H; try discriminate; auto; destruct J; congruence.
  - destruct (found v) as [| |f] eqn:F; split; intros H; try discriminate; auto.
    + destruct H; congruence.
    + exfalso. destruct H as [_ H]. destruct J as [_ (w & W & FW & B & T & _)]. exact (H w W FW B T).
  - intros f. destruct (found v) as [| |g] eqn:F; split; intros H; try discriminate.
    + destruct H; congruence.
    + exfalso. destruct H as [_ (w & W & FW & B & T & _)]. destruct J as [_ J]. exact (J w W FW B T).
    + injection H as <-. exact J.
    + f_equal. destruct J as [_ (w & W & FW & B & T & <-)]. destruct H as [_ (w' & W' & FW' & B' & T' & <-)]. f_equal. apply U; auto. unfold typ. congruence.
  - apply visits_looked. exact V.
Qed.
Print Assumptions C51_outcome.
(** The reports: one for each duplicate; in the type of an optional parameter also one for an undefined that is no duplicate. *)
Inductive reported (undefined : Z -> bool) (optional inter : bool) (v : visit) : report -> Prop :=
| re_duplicate f : found v = ODuplicate f -> reported undefined optional inter v (Report (at_ v) (parent v) (with_fix v) (Duplicate inter (print (node f))) (Some f))
| re_undefined : found v = OFirst -> optional = true -> inter = false -> undefined (typ v) = true -> reported undefined optional inter v (Report (at_ v) (parent v) true Unnecessary None).
Theorem C51_reports error undefined optional t inter leading l pos : let root := Op t inter leading l in
  (forall r, In r (reports error undefined optional pos root) <-> exists v, In v (visits error pos root) /\ reported undefined optional inter v r) /\
  StronglySorted (fun r s => precedes (path (where_ r)) (path (where_ s))) (reports error undefined optional pos root).
Proof.
  intros root. assert (A : forall v r, In r (report_of undefined optional inter v) <-> reported undefined optional inter v r).
  { intros v r. unfold report_of. split.
    - destruct (found v) as [| |f] eqn:F; [intros []| |intros [<-|[]]; now constructor]. destruct (optional && negb inter && undefined (type_of (node (at_ v)))) eqn:E; [|intros []]. intros [<-|[]].
      apply andb_prop in E. destruct E as [E E3]. apply andb_prop in E. destruct E as [E1 E2]. apply negb_true_iff in E2. now constructor.
    - intros [f F|F O I U]; rewrite F; [now left|]. unfold typ in U. rewrite O, I, U. now left. }
  split.
  - intros r. cbn [reports root]. rewrite in_flat_map. split; intros (v & V & H); exists v; split; auto; now apply A.
  - cbn [reports root]. pose proof (visits_sorted error t inter leading l pos) as S. fold root in S |- *. induction S as [|v vs S IH F]; cbn [flat_map]; [constructor|].
    apply sorted_app; auto.
    + unfold report_of. destruct (found v); [constructor| |repeat constructor]. destruct (_ && _); repeat constructor.
    + intros r s R Q. apply in_flat_map in Q. destruct Q as (w & W & Q). apply A in R, Q. rewrite Forall_forall in F. specialize (F w W). cbn beta in F. destruct R, Q; exact F.
Qed.
Print Assumptions C51_reports.
(** The texts. *)
Theorem C51_text show inter previous f r : message_id (Duplicate inter previous) = b "duplicate" /\ message_id Unnecessary = b "unnecessary" /\
  description show (Duplicate true previous) = b "Intersection type constituent is duplicated with " ++ show previous ++ b "." /\
  description show (Duplicate false previous) = b "Union type constituent is duplicated with " ++ show previous ++ b "." /\
  description show Unnecessary = b "Explicit undefined is unnecessary on an optional parameter." /\
  (first_seen r = None -> label show r = None) /\
  (first_seen r = Some f -> label show r = Some (b "Type '" ++ show (print (node f)) ++ b "' is first declared here.", (start f, start f + zlen (print (node f))))).
Proof. repeat split; auto; unfold label; intros ->; reflexivity. Qed.
Print Assumptions C51_text.
(** Unions are looked at unless there is another union around them with only parentheses between, and likewise intersections; the
    optional parameter counts for its type as a whole only. *)
Lemma unwinded_hidden ps i : unwinded ps i = true <-> hidden ps i.
Proof.
  split.
  - induction ps as [|[|j|] ps IH]; cbn; try discriminate.
    + intros H. destruct (IH H) as (k & rest & ->). exists (S k), rest. reflexivity.
    + intros H. apply eqb_prop in H. subst j. exists 0%nat, ps. reflexivity.
  - intros (k & rest & ->). induction k; cbn; auto. apply Bool.eqb_reflx.
Qed.
Theorem C51_listen error undefined ignore_unions ignore_intersections optional ps pos n r :
  In r (listen error undefined ignore_unions ignore_intersections optional ps pos n) <->
  exists t inter d l a qs o, sub n pos ps optional (Op t inter d l) a qs o /\ (if inter then ignore_intersections else ignore_unions) = false /\ ~ hidden qs inter /\
    In r (reports error undefined o a (Op t inter d l)).
Proof.
  revert optional ps pos. induction n as [t x|t n IH|t i d l IH] using tnode_ind'; intros o ps pos.
  - split; [intros []|]. intros (t' & i & d & l & a & qs & o' & S & _). inversion S.
  - cbn [listen]. rewrite IH. split.
    + intros (t' & i & d & l & a & qs & o' & S & H). exists t', i, d, l, a, qs, o'. split; auto. now constructor.
    + intros (t' & i & d & l & a & qs & o' & S & H). inversion S; subst. exists t', i, d, l, a, qs, o'. auto.
  - cbn [listen]. rewrite in_app_iff.
    assert (HERE : In r (if if i then ignore_intersections else ignore_unions then [] else if unwinded ps i then [] else reports error undefined o pos (Op t i d l)) <->
      (if i then ignore_intersections else ignore_unions) = false /\ ~ hidden ps i /\ In r (reports error undefined o pos (Op t i d l))).
    { rewrite <- unwinded_hidden. destruct (if i then ignore_intersections else ignore_unions); [split; [intros []|intros [H _]; discriminate]|]. destruct (unwinded ps i); [split; [intros []|intros (_ & H & _); now destruct H]|]. split; [intros H; repeat split; auto; discriminate|tauto]. }
    match goal with |- _ \/ In r (?F _ _) <-> _ => set (all := F) end.
    assert (ALL : forall l' pre, Forall (fun x => forall o ps pos, In r (listen error undefined ignore_unions ignore_intersections o ps pos x) <->
        exists t inter d l a qs o', sub x pos ps o (Op t inter d l) a qs o' /\ (if inter then ignore_intersections else ignore_unions) = false /\ ~ hidden qs inter /\ In r (reports error undefined o' a (Op t inter d l))) l' ->
      (In r (all (pos + (if d then 1 else 0) + zlen (texts i pre)) l') <-> exists mid x post t' inter d' l0 a qs o', l' = mid ++ x :: post /\
         sub x (pos + zlen ((if d then [operator i] else []) ++ concat (map (fun y => print y ++ [operator i]) (pre ++ mid)))) (KOp i :: ps) false (Op t' inter d' l0) a qs o' /\
         (if inter then ignore_intersections else ignore_unions) = false /\ ~ hidden qs inter /\ In r (reports error undefined o' a (Op t' inter d' l0)))).
    { induction l' as [|x l' IHl]; intros pre F.
      - split; [intros []|]. intros (mid & x & post & t' & i' & d' & l0 & a & qs & o' & E & _). destruct mid; discriminate.
      - inversion F as [|? ? FX FL]; subst. change (all (pos + (if d then 1 else 0) + zlen (texts i pre)) (x :: l')) with
          (listen error undefined ignore_unions ignore_intersections false (KOp i :: ps) (pos + (if d then 1 else 0) + zlen (texts i pre)) x ++ all (pos + (if d then 1 else 0) + zlen (texts i pre) + size x + 1) l').
        rewrite in_app_iff. replace (pos + (if d then 1 else 0) + zlen (texts i pre) + size x + 1) with (pos + (if d then 1 else 0) + zlen (texts i (pre ++ [x]))) by (rewrite texts_snoc; lia).
        rewrite (IHl (pre ++ [x]) FL), FX.
        assert (P : pos + zlen ((if d then [operator i] else []) ++ concat (map (fun y => print y ++ [operator i]) pre)) = pos + (if d then 1 else 0) + zlen (texts i pre)) by (rewrite zlen_app; unfold texts; destruct d; unfold zlen; cbn [List.length]; lia).
        split.
        + intros [(t' & i' & d' & l0 & a & qs & o' & S & H)|(mid & y & post & t' & i' & d' & l0 & a & qs & o' & -> & S & H)].
          * exists [], x, l', t', i', d', l0, a, qs, o'. split; [reflexivity|]. split; auto. rewrite app_nil_r, P. exact S.
          * exists (x :: mid), y, post, t', i', d', l0, a, qs, o'. split; [reflexivity|]. split; auto. rewrite <- app_assoc in S. exact S.
        + intros ([|z mid] & y & post & t' & i' & d' & l0 & a & qs & o' & E & S & H); cbn [app] in E; injection E as -> ->.
          * left. exists t', i', d', l0, a, qs, o'. split; auto. rewrite app_nil_r, P in S. exact S.
          * right. exists mid, y, post, t', i', d', l0, a, qs, o'. split; [reflexivity|]. split; auto. rewrite <- app_assoc. exact S. }
    specialize (ALL l [] IH). change (zlen (texts i [])) with 0 in ALL. rewrite Z.add_0_r in ALL. rewrite ALL, HERE. split.
    + intros [(H1 & H2 & H3)|(mid & x & post & t' & i' & d' & l0 & a & qs & o' & -> & S & H)].
      * exists t, i, d, l, pos, ps, o. split; [constructor|auto].
      * exists t', i', d', l0, a, qs, o'. split; auto. apply sub_op. exact S.
    + intros (t' & i' & d' & l0 & a & qs & o' & S & H). inversion S; subst; [now left|]. right. exists pre, y, post, t', i', d', l0, a, qs, o'. split; [reflexivity|]. split; auto.
Qed.
Print Assumptions C51_listen.

(** ** Fixes *)
(** No type loses all its constituents to the fixes for duplicates. *)
Lemma looked_last inter first n pos q x a par la : looked inter first n pos q x a par la -> forall p i m, q = p ++ [i] -> at_path inter n p = Some m -> S i = List.length (kids inter m) -> la = true.
Proof.
  assert (D : forall n pos p q x a par la, directly inter n pos p q x a par la -> forall i, q = p ++ [i] -> S i = List.length (kids inter n) -> la = true).
  { intros n' pos' p q' x' a' par' la' (k & t & d & pre & post & P & E & _ & _ & ->) i E' L. rewrite E' in E. apply app_inv_head in E. injection E as E. rewrite (kids_peeled _ _ _ _ P) in L. cbn [kids] in L. rewrite Bool.eqb_reflx, app_length in L. cbn in L. destruct post; auto. cbn in L. lia. }
  intros [q' x' a' par' la' H|q' x' a' par' la' r y a2 par2 la2 K F H] p i m E A L; destruct (directly_path _ _ _ _ _ _ _ _ _ H) as (j & EJ).
  - rewrite EJ in E. apply (app_inj_tail [] p) in E. destruct E as [<- ->]. cbn in A. injection A as <-. eapply D; eauto.
  - rewrite EJ in E. apply app_inj_tail in E. destruct E as [<- ->]. rewrite (looked_path _ _ _ _ _ _ _ _ _ K) in A. injection A as <-. eapply D; eauto.
Qed.
Lemma filled_without inter gone root : (forall p m, at_path inter root p = Some m -> kids inter m <> [] -> exists k, (k < List.length (kids inter m))%nat /\ gone (p ++ [k]) = false) ->
  forall n p, (forall i r, at_path inter root (p ++ i :: r) = at_path inter n (i :: r)) -> (exists m, at_path inter root p = Some m /\ kids inter m = kids inter n) -> filled n -> filled (without gone inter p n).
Proof.
  intros G. induction n as [t x|t n IH|t i d l IH] using tnode_ind'; intros p A (m & AM & KM) F; auto.
  - cbn [without filled] in *. apply IH; eauto.
  - rewrite without_op. destruct (Bool.eqb inter i) eqn:E; [|exact F]. apply eqb_prop in E. subst i. apply filled_op in F. destruct F as [N F]. apply filled_op. cbn [kids] in KM. rewrite Bool.eqb_reflx in KM. split.
    + destruct (G p m AM) as (k & K & GK); [congruence|]. rewrite KM in K. destruct (nth_error l k) as [x|] eqn:NX; [|apply nth_error_None in NX; lia].
      intros H. assert (I : In (without gone inter (p ++ [k]) x) (kept gone inter p 0 l)) by (apply in_kept; exists k, x; auto). rewrite H in I. destruct I.
    + intros y Y. apply in_kept in Y. destruct Y as (k & x & NX & _ & ->). cbn [Nat.add]. rewrite Forall_forall in IH. apply IH; eauto using nth_error_In.
      * intros i r. rewrite <- app_assoc. cbn [app]. rewrite A. cbn [at_path kids]. now rewrite Bool.eqb_reflx, NX.
      * exists x. split; auto. rewrite A. cbn [at_path kids]. now rewrite Bool.eqb_reflx, NX.
Qed.
Theorem C51_filled error undefined optional t inter leading l pos gone : let root := Op t inter leading l in filled root ->
  (forall q, gone q = true -> exists r, In r (reports error undefined optional pos root) /\ path (where_ r) = q /\ fixable r = true /\ says r <> Unnecessary) ->
  filled (without gone inter [] root).
Proof.
  intros root FI G. apply (filled_without inter gone root); auto.
  2: { exists root. auto. }
  assert (DUP : forall q, gone q = true -> exists v f, In v (visits error pos root) /\ path (at_ v) = q /\ with_fix v = true /\ found v = ODuplicate f).
  { intros q GQ. destruct (G q GQ) as (r & R & P & FX & N). apply C51_reports in R. destruct R as (v & V & H). revert P FX N. destruct H as [f F|F O I U]; cbn [where_ fixable says]; intros P FX N; [exists v, f; auto|exfalso; apply N; reflexivity]. }
  intros p m AM NE. set (i := (List.length (kids inter m) - 1)%nat). assert (LI : S i = List.length (kids inter m)) by (unfold i; destruct (kids inter m); [now destruct NE|cbn; lia]).
  destruct (gone (p ++ [i])) eqn:GI; [|exists i; split; auto; lia].
  destruct (DUP _ GI) as (v & f & V & P & FX & F). destruct (visits_looked error t inter leading l pos v V) as (la & K & W). apply W in FX. destruct FX as [FX|[FX|(w & p' & i' & j & IW & P1 & P2 & L & ND)]].
  - rewrite P, app_length in FX. cbn in FX. assert (p = []) by (apply length_zero_iff_nil; lia). subst p. exists 0%nat. split; [lia|]. destruct (gone ([] ++ [0%nat])) eqn:G0; auto. exfalso.
    destruct (DUP _ G0) as (u & g & U & PU & _ & FU). pose proof (visits_judged error t inter leading l pos u U) as J. red in J. rewrite FU in J. destruct J as [_ (w & IW & _ & B & _)]. cbn in B. rewrite PU in B. apply precedes_plt in B.
    pose proof (visits_path error t inter leading l pos w IW) as NP. destruct (path (at_ w)) as [|j r]; [now destruct NP|]. cbn in B. destruct B as [B|[_ B]]; [lia|]. destruct r; exact B.
  - rewrite (looked_last _ _ _ _ _ _ _ _ _ K p i m P AM LI) in FX. discriminate.
  - rewrite P in P1. apply app_inj_tail in P1. destruct P1 as [<- <-]. exists j. split; [lia|]. destruct (gone (p ++ [j])) eqn:GJ; auto. exfalso. destruct (DUP _ GJ) as (u & g & U & PU & _ & FU).
    assert (u = w) by (apply (visits_unique error t inter leading l pos); auto; congruence). subst u. exact (ND g FU).
Qed.
Print Assumptions C51_filled.
(** A fix can be made and gives the text without the constituent and without one operator, if no template with a substitution
    comes before it and, for an undefined, if it is not the only constituent. *)
Theorem C51_fix sf sm k A B error undefined optional t inter leading l r : let root := Op t inter leading l in let text := A ++ print root ++ B in
  correct_sort cmp_fix sf -> correct_sort cmp_msg sm -> scans root -> filled root ->
  In r (reports error undefined optional (zlen A) root) -> fixable r = true -> (says r = Unnecessary -> filled (without (only (path (where_ r))) inter [] root)) ->
  exists m, fix_message text k r = Ok m /\ apply_rule_fixes sf sm text [m] = Ok (A ++ print (without (only (path (where_ r))) inter [] root) ++ B, [], true).
Proof.
  intros root text C CM SC FI R FX UN.
  assert (FW : filled (without (only (path (where_ r))) inter [] root)).
  { assert (D : says r = Unnecessary \/ says r <> Unnecessary) by (destruct (says r); [right; discriminate|now left]). destruct D as [D|D]; auto.
    apply (C51_filled error undefined optional t inter leading l (zlen A) (only (path (where_ r))) FI). intros q Q. unfold only in Q. destruct (list_eq_dec Nat.eq_dec (path (where_ r)) q) as [<-|]; [|discriminate]. exists r. auto. }
  assert (LK : exists la, looked inter (firsts error t inter leading l (zlen A)) root (zlen A) (path (where_ r)) (node (where_ r)) (start (where_ r)) (around r) la).
  { apply C51_reports in R. destruct R as (v & V & H). destruct (visits_looked error t inter leading l (zlen A) v V) as (la & K & _). exists la. destruct H; exact K. }
  destruct LK as (la & K). destruct (looked_text _ _ _ _ _ _ _ _ _ K) as (A' & B' & p & t' & d & pre & post & E1 & _ & SC' & E3 & E4 & E5 & E6 & E7 & _ & _).
  set (x := node (where_ r)) in *. assert (NE : pre ++ post <> []) by (apply E7 in FW; apply filled_op in FW; apply FW).
  destruct (fix_one sf sm k (A ++ A') (B' ++ B) t' inter d pre x post C CM) as (fs & F1 & F2); auto.
  { intros y Y. apply SC'; auto. apply in_or_app. now left. }
  assert (ET : text = (A ++ A') ++ print (Op t' inter d (pre ++ x :: post)) ++ B' ++ B) by (unfold text; rewrite E3; now rewrite <- !app_assoc). rewrite <- ET in F1, F2.
  unfold fix_message. rewrite FX, E4, E5. rewrite <- zlen_app. fold x. rewrite F1. cbn [rbind]. eexists. split; [reflexivity|]. rewrite F2, E6. now rewrite <- !app_assoc.
Qed.
Print Assumptions C51_fix.
(** Leaving out duplicates whose first occurrence is not around them, and undefined in an optional parameter, does not change the type. *)
Theorem C51_meaning {value} (mean : Z -> value -> Prop) (is_undefined : value -> Prop) error undefined optional t inter leading l pos gone v : let root := Op t inter leading l in
  (forall w, In w (visits error pos root) -> found w <> OError -> forall x, mean (typ w) x <-> den mean (node (at_ w)) x) ->
  (forall u x, undefined u = true -> mean u x -> is_undefined x) ->
  (forall q, gone q = true -> exists r, In r (reports error undefined optional pos root) /\ path (where_ r) = q /\ forall f, first_seen r = Some f -> ~ encloses (path f) q) ->
  (optional = true -> ~ is_undefined v) ->
  den mean (without gone inter [] root) v <-> den mean root v.
Proof.
  intros root TY UN G NU. set (vs := visits error pos root).
  assert (PATH : forall w, In w vs -> at_path inter root (path (at_ w)) = Some (node (at_ w))). { intros w W. destruct (visits_looked error t inter leading l pos w W) as (la & K & _). exact (looked_path _ _ _ _ _ _ _ _ _ K). }
  assert (GOOD : good inter (den mean (without gone inter [] root) v) (den mean root v)).
  { apply (cover mean inter gone root v (den mean (without gone inter [] root) v) (fun q x => exists w, In w vs /\ found w = OFirst /\ path (at_ w) = q /\ node (at_ w) = x)) with (q := @nil nat).
    - intros q x (w & W & _ & <- & <-). now apply PATH.
    - intros q x GQ AX. destruct (G q GQ) as (r & R & P & NE). apply C51_reports in R. destruct R as (w & W & H). revert P NE. destruct H as [f F|F O I U]; cbn; intros P NE; subst q; rewrite (PATH w W) in AX; injection AX as <-.
      + right. pose proof (visits_judged error t inter leading l pos w W) as J. red in J. rewrite F in J. destruct J as [_ (u & IU & FU & B & T & AU)]. exists (path (at_ u)), (node (at_ u)). split; [exists u; auto|]. split.
        * specialize (NE f eq_refl). rewrite <- AU in NE. cbn in B. remember (path (at_ u)) as a. remember (path (at_ w)) as c. destruct B as [p i q|p i j q s L]; [destruct NE; exists i, q; reflexivity|]. exists p, i, j, q, s. auto.
        * rewrite <- (TY u IU ltac:(congruence) v), <- (TY w W ltac:(congruence) v). unfold typ. now rewrite T.
      + left. subst inter. cbn. intros D. exfalso. apply (NU O). apply (UN (typ w)); auto. apply (TY w W); auto. congruence.
    - reflexivity.
    - destruct inter; cbn; auto.
    - intros p y _ (a & i & j & r & s & _ & E & _). destruct a; discriminate. }
  pose proof (without_le mean gone inter v root []) as LE. unfold good in GOOD. destruct inter; split; auto.
Qed.
Print Assumptions C51_meaning.

(** ** Where the fixes go wrong *)
Definition no_error (t : Z) : bool := false.
Definition wd (t : Z) : tnode := Leaf t [IWord t].
(** [number | (string | 'a')]: the type of the parentheses is [string], so the [string] in them counts as a duplicate of them, and
    the fix leaves [number | ('a')]. *)
Inductive val := VNumber | VA | VOther.
Definition mean1 (t : Z) (v : val) : Prop := (t = 1 /\ v = VNumber) \/ (t = 2 /\ (v = VA \/ v = VOther)) \/ (t = 3 /\ v = VA).
Definition absorbed : tnode := Op 9 false false [wd 1; Par 2 (Op 2 false false [wd 2; wd 3])].
Theorem C51_absorbed_refuted : exists (mean : Z -> val -> Prop) l r v, let root := Op 9 false false l in
  (forall w, In w (visits no_error 0 root) -> forall x, mean (typ w) x <-> den mean (node (at_ w)) x) /\
  In r (reports no_error no_error false 0 root) /\ fixable r = true /\
  den mean root v /\ ~ den mean (without (only (path (where_ r))) false [] root) v.
Proof.
  exists mean1, [wd 1; Par 2 (Op 2 false false [wd 2; wd 3])]. set (vs := reports no_error no_error false 0 absorbed). vm_compute in vs.
  exists (Report (Place [1%nat; 0%nat] (wd 2) 3) (3, 6) true (Duplicate false (print (Par 2 (Op 2 false false [wd 2; wd 3])))) (Some (Place [1%nat] (Par 2 (Op 2 false false [wd 2; wd 3])) 2))), VOther.
  cbv zeta. split; [|split; [|split; [|split]]].
  - intros w W. vm_compute in W. destruct W as [<-|[<-|[<-|[<-|[]]]]]; intros x; cbn; try tauto. split; [tauto|].
    intros [H|[H|[]]]; auto. destruct H as [[H _]|[[H _]|[_ ->]]]; try discriminate. right. left. auto.
  - vm_compute. now left.
  - (vm_compute; reflexivity).
  - cbn. unfold mean1. right. left. left. right. left. auto.
  - change (without _ _ _ _) with (Op 9 false false [wd 1; Par 2 (Op 2 false false [wd 3])]). cbn. unfold mean1. intuition discriminate.
Qed.
Print Assumptions C51_absorbed_refuted.
(** After a template with a substitution the scanner takes the rest of the text for a template: in [B | `${A}` | B] the wrong operator is
    removed, and in [`${A}` | B | B] none is found. *)
Definition substituted : tnode := Leaf 5 [ITick; IHead; IWord 1; IBrace; ITick].
Theorem C51_template_refuted :
  (exists l r m out, let root := Op 9 false false l in In r (reports no_error no_error false 0 root) /\ fixable r = true /\ fix_message (print root) 0 r = Ok m /\
     apply_rule_fixes (@fsort item) (@msort item) (print root) [m] = Ok (out, [], true) /\ out <> print (without (only (path (where_ r))) false [] root)) /\
  (exists l r, let root := Op 9 false false l in In r (reports no_error no_error false 0 root) /\ fixable r = true /\ fix_message (print root) 0 r = Panic).
Proof.
  split.
  - exists [wd 4; substituted; wd 4], (Report (Place [2%nat] (wd 4) 8) (0, 9) true (Duplicate false [IWord 4]) (Some (Place [0%nat] (wd 4) 0))). eexists. eexists. cbv zeta. split; [vm_compute; now left|]. split; [(vm_compute; reflexivity)|]. split; [vm_compute; reflexivity|]. split; [vm_compute; reflexivity|]. vm_compute. discriminate.
  - exists [substituted; wd 4; wd 4], (Report (Place [2%nat] (wd 4) 8) (0, 9) true (Duplicate false [IWord 4]) (Some (Place [1%nat] (wd 4) 6))). cbv zeta. split; [vm_compute; now left|]. split; (vm_compute; reflexivity).
Qed.
Print Assumptions C51_template_refuted.
(** [x?: | undefined | undefined]: both fixes are made and nothing is left. *)
Theorem C51_empty_refuted : exists undefined l rs ms, let root := Op 9 false true l in
  rs = reports no_error undefined true 0 root /\ Forall2 (fun r m => exists k, fix_message (print root) k r = Ok m) rs ms /\
  print root <> [] /\ apply_rule_fixes (@fsort item) (@msort item) (print root) ms = Ok ([], [], true).
Proof.
  set (u := fun t => t =? 6). set (root := Op 9 false true [wd 6; wd 6]).
  assert (E : match reports no_error u true 0 root with
              | [r; s] => match fix_message (print root) 0 r, fix_message (print root) 1 s with
                          | Ok m, Ok n => apply_rule_fixes (@fsort item) (@msort item) (print root) [m; n] = Ok ([], [], true)
                          | _, _ => False
                          end
              | _ => False
              end) by (vm_compute; reflexivity).
  exists u, [wd 6; wd 6], (reports no_error u true 0 root). cbv zeta. fold root. destruct (reports no_error u true 0 root) as [|r [|s [|]]] eqn:R; try (now destruct E).
  destruct (fix_message (print root) 0 r) as [m|] eqn:M; [|destruct E]. destruct (fix_message (print root) 1 s) as [n|] eqn:N; [|destruct E].
  exists [m; n]. split; [now rewrite ?R|split; [|split; [discriminate|exact E]]].
  constructor; [exists 0%nat; exact M|]. constructor; [exists 1%nat; exact N|constructor].
Qed.
Print Assumptions C51_empty_refuted.

(** ** Examples *)
(** [A | (| B | A) | B & B]: the second [A] is a duplicate of the first. *)
Definition sample : tnode := Op 9 false false [wd 1; Par 8 (Op 8 false true [wd 2; wd 1]); Op 7 true false [wd 2; wd 2]].
Example C51_sample : map (fun r => (path (where_ r), start (where_ r), around r, fixable r, says r, option_map path (first_seen r))) (listen no_error no_error false false false [] 0 sample) =
  [([1%nat; 1%nat], 6, (3, 7), true, Duplicate false [IWord 1], Some [0%nat]); ([1%nat], 11, (9, 12), true, Duplicate true [IWord 2], Some [0%nat])].
Proof. vm_compute. reflexivity. Qed.
Example C51_sample_fixed : exists m, fix_message (print sample) 0 (nth 0 (reports no_error no_error false 0 sample) (Report (Place [] sample 0) (0, 0) false Unnecessary None)) = Ok m /\
  apply_rule_fixes (@fsort item) (@msort item) (print sample) [m] = Ok ([IWord 1; IBar; IOpen; IBar; IWord 2; IClose; IBar; IWord 2; IAmp; IWord 2], [], true).
Proof. eexists. split; (vm_compute; reflexivity). Qed.
Example C51_sample_scans : scans sample /\ filled sample /\ filled (without (only [1%nat; 1%nat]) false [] sample).
Proof. cbn. repeat split; try discriminate; repeat constructor; discriminate. Qed.
(** [A | (B | C) | (C | B | C)]: the fixes for two of the three would leave the third, for which none is offered if the others are duplicates. *)
Example C51_last : map (fun r => (path (where_ r), fixable r)) (reports no_error no_error false 0 (Op 9 false false [wd 1; Par 6 (Op 6 false false [wd 2; wd 3]); Par 8 (Op 8 false false [wd 3; wd 2; wd 3])])) =
  [([2%nat; 0%nat], true); ([2%nat; 1%nat], true); ([2%nat; 2%nat], false)].
Proof. vm_compute. reflexivity. Qed.
Example C51_hidden : listen no_error no_error false false false [KPar; KOp false] 0 (Op 9 false false [wd 1; wd 1]) = [] /\ listen no_error no_error true false false [] 0 (Op 9 false false [wd 1; wd 1]) = [] /\
  List.length (listen no_error no_error false false false [KPar; KOp true] 0 (Op 9 false false [wd 1; wd 1])) = 1%nat.
Proof. vm_compute. repeat split. Qed.
(** The sample with values: leaving out the second [A] keeps the type. *)
Definition mean2 (t v : Z) : Prop := if t =? 8 then v = 1 \/ v = 2 else if t =? 7 then v = 2 else v = t.
Example C51_sample_meaning v : den mean2 (without (only [1%nat; 1%nat]) false [] sample) v <-> den mean2 sample v.
Proof.
  apply (C51_meaning mean2 (fun _ => False) no_error no_error false 9 false false _ 0); try discriminate.
  - intros w W _ x. vm_compute in W. destruct W as [<-|[<-|[<-|[<-|[<-|[]]]]]]; cbn; tauto.
  - intros q Q. unfold only in Q. destruct (list_eq_dec Nat.eq_dec [1%nat; 1%nat] q) as [<-|]; [|discriminate]. eexists. split; [vm_compute; now left|]. split; [(vm_compute; reflexivity)|]. intros f [= <-] (i & r & E). discriminate.
Qed.
