(** Proofs for C63. *)
From Coq Require Import Bool List Arith Lia.
From Verif Require Import ReturnAwait ReturnAwaitSpec.
Import ListNotations.

(** ** Where *)
Fixpoint len (l : stmts) : nat := match l with SNil => 0 | SCons _ l => S (len l) end.
Definition scope (l : stmts) (s : stmt) (m : stmts) : frame := FScope (usings 0 (app l (SCons s m))) (len l).
Definition frames1 (h : hole) (s : stmt) : list frame :=
  match h with
  | HBlock l m => [scope l s m]
  | HThen _ _ | HElse _ _ | HWhile _ | HFor _ => [FOther]
  | HTry l m _ f => [scope l s m; FTry InTry (present f)]
  | HCatch _ l m f => [scope l s m; FTry InCatch (present f)]
  | HFinally _ _ l m => [scope l s m; FTry InFinally true]
  end.
(** From the inside out. *)
Fixpoint frames (hs : list hole) (s : stmt) : list frame := match hs with [] => [] | h :: hs => frames1 h s ++ frames hs (put h s) end.
Definition affects (path : list frame) : bool := affects_errors path || affects_resources path.
Lemma usings_app : forall l i m, usings i (app l m) = usings i l ++ usings (i + len l) m.
Proof.
  induction l as [|s l IH]; intros i m; [cbn; now rewrite Nat.add_0_r|]. cbn [app len]. replace (i + S (len l)) with (S i + len l) by lia.
  destruct s; cbn [usings]; rewrite IH; reflexivity.
Qed.
Lemma usings_ge : forall l i u, In u (usings i l) -> i <= u < i + len l.
Proof.
  induction l as [|s l IH]; intros i u H; [easy|]. cbn [len]. destruct s; cbn [usings] in H; try (apply IH in H; lia). destruct H as [<- |H]; [lia|apply IH in H; lia].
Qed.
Lemma usings_has : forall l i, usings i l <> [] <-> has_using l.
Proof.
  induction l as [|s l IH]; intro i; [cbn; split; [intro H; now apply H|easy]|]. destruct s; cbn [usings has_using]; try (rewrite IH; split; [now right|intros [[d0 E]|H]; [discriminate|exact H]]).
  split; [left; eauto|intros _ E; discriminate E].
Qed.
Lemma scope_has l s m : existsb (fun u => Nat.ltb u (len l)) (usings 0 (app l (SCons s m))) = true <-> has_using l.
Proof.
  rewrite existsb_exists, usings_app. split.
  - intros (u & I & L). apply Nat.ltb_lt in L. apply in_app_or in I as [I|I]; [apply (usings_has l 0); intro E; now rewrite E in I|apply usings_ge in I; lia].
  - intro H. apply (usings_has l 0) in H. destruct (usings 0 l) as [|u us] eqn:E; [easy|]. exists u. assert (I : In u (usings 0 l)) by (rewrite E; now left). split; [now left|]. apply usings_ge in I. apply Nat.ltb_lt. lia.
Qed.
Lemma present_iff o : present o = true <-> o <> Absent.
Proof. destruct o; cbn; intuition discriminate. Qed.
Lemma affects1 h s path : affects (frames1 h s ++ path) = true <-> sees h \/ affects path = true.
Proof.
  unfold affects, sees. rewrite !orb_true_iff.
  assert (R : forall l m rest, affects_resources (scope l s m :: rest) = true <-> has_using l \/ affects_resources rest = true).
  { intros. unfold scope. cbn [affects_resources]. now rewrite orb_true_iff, scope_has. }
  destruct h; cbn [frames1 List.app before_in]; try rewrite R; cbn [affects_errors affects_resources scope has_using]; rewrite ?orb_true_iff, ?present_iff; tauto.
Qed.
Lemma affects_frames : forall hs s path, affects (frames hs s ++ FFunction :: path) = true <-> Exists sees hs.
Proof.
  induction hs as [|h hs IH]; intros s path; [cbn; split; [easy|now intro H; apply Exists_nil in H]|]. cbn [frames]. rewrite <- app_assoc, affects1, IH, Exists_cons. reflexivity.
Qed.

(** ** What is tested *)
Section Rule.
Variables (opt : option_) (type_of : ret -> awaitable).
Notation test := (test opt type_of). Notation tests := (tests opt type_of).
Definition put_text (h : rhole) (ts : list tok) : list tok :=
  match h with RParens => KOpen :: ts ++ [KClose] | RThen c d => KIf c :: ts ++ KElse :: text d | RElse c a => KIf c :: text a ++ KElse :: ts end.
Fixpoint plug_text (hs : list rhole) (ts : list tok) : list tok := match hs with [] => ts | h :: hs => plug_text hs (put_text h ts) end.
Lemma rplug_snoc hs h e : rplug (hs ++ [h]) e = rput h (rplug hs e).
Proof. unfold rplug. now rewrite fold_left_app. Qed.
Lemma plug_text_snoc : forall hs h ts, plug_text (hs ++ [h]) ts = put_text h (plug_text hs ts).
Proof. induction hs as [|g hs IH]; intros h ts; [reflexivity|]. cbn [List.app plug_text]. apply IH. Qed.
Lemma test_ext path x f g : (forall ts, f ts = g ts) -> test path x f = test path x g.
Proof. intro E. unfold ReturnAwait.test. destruct x; rewrite ?E; reflexivity. Qed.
Lemma test_snoc path x k hs h : test path x (fun ts => k (plug_text (hs ++ [h]) ts)) = test path x (fun ts => k (put_text h (plug_text hs ts))).
Proof. apply test_ext. intro ts. now rewrite plug_text_snoc. Qed.
Lemma tests_iff : forall e path k r, In r (tests path e k) <-> exists hs x, e = rplug hs x /\ leaf x /\ In r (test path x (fun ts => k (plug_text hs ts))).
Proof.
  induction e as [n l br|nl e IH|e IH|c a IHa d IHd]; intros path k r.
  - split; [intro H; now exists [], (Plain n l br)|]. intros (hs & x & E & L & I). destruct hs as [|h hs] using rev_ind; [cbn in E; subst x; exact I|]. rewrite rplug_snoc in E. destruct h; discriminate.
  - split; [intro H; now exists [], (Awaits nl e)|]. intros (hs & x & E & L & I). destruct hs as [|h hs] using rev_ind; [cbn in E; subst x; exact I|]. rewrite rplug_snoc in E. destruct h; discriminate.
  - cbn [ReturnAwait.tests]. rewrite IH. split.
    + intros (hs & x & E & L & I). exists (hs ++ [RParens]), x. rewrite rplug_snoc. cbn [rput]. rewrite <- E. split; [reflexivity|]. split; [exact L|]. rewrite test_snoc. exact I.
    + intros (hs & x & E & L & I). destruct hs as [|h hs _] using rev_ind; [cbn in E; subst x; easy|]. rewrite rplug_snoc in E. destruct h; try discriminate. injection E as E. exists hs, x. split; [exact E|]. split; [exact L|]. rewrite test_snoc in I. exact I.
  - cbn [ReturnAwait.tests]. rewrite in_app_iff, IHa, IHd. split.
    + intros [(hs & x & E & L & I)|(hs & x & E & L & I)].
      * exists (hs ++ [RElse c a]), x. rewrite rplug_snoc. cbn [rput]. rewrite <- E. split; [reflexivity|]. split; [exact L|]. rewrite test_snoc. exact I.
      * exists (hs ++ [RThen c d]), x. rewrite rplug_snoc. cbn [rput]. rewrite <- E. split; [reflexivity|]. split; [exact L|]. rewrite test_snoc. exact I.
    + intros (hs & x & E & L & I). destruct hs as [|h hs _] using rev_ind; [cbn in E; subst x; easy|]. rewrite rplug_snoc in E. destruct h as [|c' d'|c' a']; try discriminate; injection E as -> E1 E2; subst.
      * right. exists hs, x. split; [reflexivity|]. split; [exact L|]. rewrite test_snoc in I. exact I.
      * left. exists hs, x. split; [reflexivity|]. split; [exact L|]. rewrite test_snoc in I. exact I.
Qed.
Lemma test_path p p' x k : affects p = affects p' -> test p x k = test p' x k.
Proof. intro E. unfold affects in E. unfold ReturnAwait.test. now rewrite E. Qed.
Lemma tests_path : forall e p p' k, affects p = affects p' -> tests p e k = tests p' e k.
Proof. induction e; intros p p' k E; cbn [ReturnAwait.tests]; try (now apply test_path); [now apply IHe|]. now rewrite (IHe1 p p'), (IHe2 p p'). Qed.

(** ** Functions *)
Definition own (p : list frame) (f : func) (r : report) : Prop :=
  is_async f = true /\ exists hs e, returns f hs e /\ In r (tests (frames hs (Return (Some e)) ++ FFunction :: p) e (fun ts => ts)).
Definition some_own (r : report) (Q : func -> Prop) : Prop := exists f p, Q f /\ own p f r.
Lemma own_any p p' f r : own p f r -> own p' f r.
Proof.
  intros (A & hs & e & R & I). split; [exact A|]. exists hs, e. split; [exact R|]. erewrite tests_path; [exact I|]. apply eq_true_iff_eq. now rewrite !affects_frames.
Qed.
Lemma plug_snoc hs h s : plug (hs ++ [h]) s = put h (plug hs s).
Proof. unfold plug. now rewrite fold_left_app. Qed.
Lemma frames_snoc : forall hs h s, frames (hs ++ [h]) s = frames hs s ++ frames1 h (plug hs s).
Proof. induction hs as [|g hs IH]; intros h s; [cbn; now rewrite app_nil_r|]. cbn [List.app frames]. rewrite IH. cbn [plug fold_left]. now rewrite app_assoc. Qed.
(** In the statement, in the function around, or in one that is in it. *)
Definition st_spec (a : bool) (path : list frame) (s : stmt) (r : report) : Prop :=
  (a = true /\ exists hs e, s = plug hs (Return (Some e)) /\ In r (tests (frames hs (Return (Some e)) ++ path) e (fun ts => ts))) \/ some_own r (fun f => in_s f s).
Definition li_spec (a : bool) (path : list frame) (us : list nat) (i : nat) (l : stmts) (r : report) : Prop :=
  exists l1 s l2, l = app l1 (SCons s l2) /\ st_spec a (FScope us (i + len l1) :: path) s r.
Lemma li_cons a path us i s l r : li_spec a path us i (SCons s l) r <-> st_spec a (FScope us i :: path) s r \/ li_spec a path us (S i) l r.
Proof.
  unfold li_spec. split.
  - intros (l1 & s' & l2 & E & H). destruct l1 as [|t l1]; cbn [app] in E; injection E as -> ->.
    + left. now rewrite Nat.add_0_r in H.
    + right. exists l1, s', l2. split; [reflexivity|]. cbn [len] in H. now replace (S i + len l1) with (i + S (len l1)) by lia.
  - intros [H|(l1 & s' & l2 & -> & H)].
    + exists SNil, s, l. cbn [len]. now rewrite Nat.add_0_r.
    + exists (SCons s l1), s', l2. split; [reflexivity|]. cbn [len]. now replace (i + S (len l1)) with (S i + len l1) by lia.
Qed.
(** A hole around what is known. *)
Lemma st_put a path h s r : (st_spec a (frames1 h s ++ path) s r) -> st_spec a path (put h s) r.
Proof.
  intros [(A & hs & e & -> & I)|(f & p & Q & O)].
  - left. split; [exact A|]. exists (hs ++ [h]), e. rewrite plug_snoc. split; [reflexivity|]. rewrite frames_snoc, <- app_assoc. exact I.
  - right. exists f, p. split; [now constructor|exact O].
Qed.
Lemma st_inv a path s r : st_spec a path s r ->
  (exists e, a = true /\ s = Return (Some e) /\ In r (tests path e (fun ts => ts))) \/ (exists n fs f p, s = Do n fs /\ in_fs f fs /\ exists g, in_g g f /\ own p g r)
  \/ (exists h t, s = put h t /\ st_spec a (frames1 h t ++ path) t r).
Proof.
  intros [(A & hs & e & E & I)|(f & p & Q & O)].
  - destruct hs as [|h hs _] using rev_ind; [left; exists e; auto|]. right. right. rewrite plug_snoc in E. exists h, (plug hs (Return (Some e))). split; [exact E|]. left. split; [exact A|]. exists hs, e. split; [reflexivity|].
    rewrite frames_snoc, <- app_assoc in I. exact I.
  - destruct Q as [f g n fs If Ig|f h s Q].
    + right. left. exists n, fs, f, p. split; [reflexivity|]. split; [exact If|]. exists g. auto.
    + right. right. exists h, s. split; [reflexivity|]. right. exists f, p. auto.
Qed.
Lemma li_block a path l r : li_spec a path (usings 0 l) 0 l r <-> st_spec a path (Block l) r.
Proof.
  split.
  - intros (l1 & s & l2 & -> & H). apply (st_put a path (HBlock l1 l2)). exact H.
  - intro H. apply st_inv in H as [(e & _ & E & _)|[(n & fs & f & p & E & _)|(h & t & E & H)]]; try discriminate. destruct h; try discriminate. injection E as ->. exists l0, t, m. split; [reflexivity|exact H].
Qed.
Theorem in_all :
  (forall s a path r, In r (in_stmt opt type_of a path s) <-> st_spec a path s r)
  /\ (forall l a path us i r, In r (in_list opt type_of a path us i l) <-> li_spec a path us i l r)
  /\ (forall o a path r, In r (in_ostmts opt type_of a path o) <-> exists l, o = Present l /\ li_spec a path (usings 0 l) 0 l r)
  /\ (forall f path r, In r (in_func opt type_of path f) <-> some_own r (fun g => in_g g f))
  /\ (forall fs path r, In r (in_funcs opt type_of path fs) <-> exists f, in_fs f fs /\ some_own r (fun g => in_g g f)).
Proof.
  apply program_ind; cbn [in_stmt in_list in_ostmts in_func in_funcs].
  - intros n fs IH a path r. rewrite IH. split.
    + intros (f & If & g & p & Ig & O). right. exists g, p. split; [now apply (is_do f)|exact O].
    + intro H. apply st_inv in H as [(e & _ & E & _)|[(n' & fs' & f & p & E & If & g & Ig & O)|(h & t & E & _)]]; [discriminate| |destruct h; discriminate]. injection E as -> ->. exists f. split; [exact If|]. exists g, p. auto.
  - intros n a path r. split; [easy|]. intro H. apply st_inv in H as [(e & _ & E & _)|[(n' & fs' & f & p & E & _)|(h & t & E & _)]]; try discriminate. destruct h; discriminate.
  - intros a path r. split; [easy|]. intro H. apply st_inv in H as [(e & _ & E & _)|[(n' & fs' & f & p & E & _)|(h & t & E & _)]]; try discriminate. destruct h; discriminate.
  - intros a path r. split; [easy|]. intro H. apply st_inv in H as [(e & _ & E & _)|[(n' & fs' & f & p & E & _)|(h & t & E & _)]]; try discriminate. destruct h; discriminate.
  - intros l IH a path r. rewrite IH. apply li_block.
  - intros c s IHs t IHt a path r. rewrite in_app_iff, IHs, IHt. split.
    + intros [H|H]; [now apply (st_put a path (HThen c t))|now apply (st_put a path (HElse c s))].
    + intro H. apply st_inv in H as [(e & _ & E & _)|[(n' & fs' & f & p & E & _)|(h & t' & E & H)]]; try discriminate. destruct h; try discriminate; injection E as -> -> ->; [now left|now right].
  - intros c s IH a path r. rewrite IH. split; [apply (st_put a path (HWhile c))|]. intro H. apply st_inv in H as [(e & _ & E & _)|[(n' & fs' & f & p & E & _)|(h & t' & E & H)]]; try discriminate. destruct h; try discriminate; injection E as -> ->; exact H.
  - intros d s IH a path r. rewrite IH. split; [apply (st_put a path (HFor d))|]. intro H. apply st_inv in H as [(e & _ & E & _)|[(n' & fs' & f & p & E & _)|(h & t' & E & H)]]; try discriminate. destruct h; try discriminate; injection E as -> ->; exact H.
  - intros n a path r. split; [easy|]. intro H. apply st_inv in H as [(e & _ & E & _)|[(n' & fs' & f & p & E & _)|(h & t & E & _)]]; try discriminate. destruct h; discriminate.
  - intros l IHl c IHc f IHf a path r. rewrite !in_app_iff, IHl, IHc, IHf. split.
    + intros [(l1 & s & l2 & -> & H)|[(m & -> & l1 & s & l2 & -> & H)|(m & -> & l1 & s & l2 & -> & H)]].
      * now apply (st_put a path (HTry l1 l2 c f)).
      * now apply (st_put a path (HCatch l l1 l2 f)).
      * now apply (st_put a path (HFinally l c l1 l2)).
    + intro H. apply st_inv in H as [(e & _ & E & _)|[(n' & fs' & g & p & E & _)|(h & t' & E & H)]]; try discriminate. destruct h; try discriminate; injection E as -> -> ->.
      * left. exists l0, t', m. auto.
      * right. left. exists (app l0 (SCons t' m)). split; [reflexivity|]. exists l0, t', m. auto.
      * right. right. exists (app l0 (SCons t' m)). split; [reflexivity|]. exists l0, t', m. auto.
  - intros [e|] a path r.
    + split; [destruct a; [|easy]; intro H; left; split; [reflexivity|]; exists [], e; auto|]. intro H. apply st_inv in H as [(e' & -> & E & H)|[(n' & fs' & f & p & E & _)|(h & t & E & _)]]; try discriminate; [injection E as ->; exact H|]. destruct h; discriminate.
    + split; [easy|]. intro H. apply st_inv in H as [(e' & _ & E & _)|[(n' & fs' & f & p & E & _)|(h & t & E & _)]]; try discriminate. destruct h; discriminate.
  - intros a path us i r. split; [easy|]. intros (l1 & s & l2 & E & _). destruct l1; discriminate.
  - intros s IHs l IHl a path us i r. now rewrite in_app_iff, IHs, IHl, li_cons.
  - intros a path r. split; [easy|]. now intros (l & E & _).
  - intros l IH a path r. rewrite IH. split; [intro H; now exists l|]. intros (l' & E & H). injection E as <-. exact H.
  - intros a g l IH path r. rewrite IH, li_block. split.
    + intros [(-> & hs & e & E & I)|(f & p & Q & O)].
      * exists (Func true g l), path. split; [constructor|]. split; [reflexivity|]. exists hs, e. split; [now constructor|exact I].
      * exists f, p. split; [|exact O]. apply ig_in. inversion Q as [|f' h s Q' E1 E2]; subst. destruct h; try discriminate. injection E2 as <-. now constructor.
    + intros (f & p & Q & O). inversion Q as [f'|f' a' g' l' I]; subst.
      * destruct (own_any p path _ r O) as (A & hs & e & R & I). cbn in A. left. split; [exact A|]. inversion R as [|a' g' l' hs' e' E]; subst. exists hs, e. auto.
      * right. exists f, p. split; [|exact O]. destruct I as [f l1 s l2 I]. apply (is_put f (HBlock l1 l2)). exact I.
  - intros a e path r. split.
    + intro H. destruct a; [|easy]. exists (Arrow true e), path. split; [constructor|]. split; [reflexivity|]. exists [], e. split; [constructor|exact H].
    + intros (f & p & Q & O). inversion Q; subst. destruct (own_any p path _ r O) as (A & hs & e' & R & I). cbn in A. subst a. inversion R; subst. exact I.
  - intros path r. split; [easy|]. intros (f & H & _). inversion H.
  - intros f IHf fs IHfs path r. rewrite in_app_iff, IHf, IHfs. split.
    + intros [H|(g & I & H)]; [exists f; split; [constructor|exact H]|exists g; split; [now constructor|exact H]].
    + intros (g & I & H). inversion I; subst; [now left|right; now exists g].
Qed.
Theorem file_iff l r : In r (in_file opt type_of l) <-> exists f hs e, in_f f l /\ is_async f = true /\ returns f hs e /\ In r (tests (frames hs (Return (Some e)) ++ [FFunction]) e (fun ts => ts)).
Proof.
  unfold in_file. destruct in_all as (_ & H & _). rewrite H. split.
  - intros (l1 & s & l2 & -> & [(E & _)|(f & p & Q & O)]); [discriminate|]. destruct (own_any p [] _ r O) as (A & hs & e & R & I). exists f, hs, e. split; [now constructor|]. auto.
  - intros (f & hs & e & [f' l1 s l2 Q] & A & R & I). exists l1, s, l2. split; [reflexivity|]. right. exists f', []. split; [exact Q|]. split; [exact A|]. exists hs, e. auto.
Qed.
End Rule.

(** ** Meaning *)
Section Meaning.
Variables (w : world) (gen : bool) (fuel : nat).
Notation run := (run w gen fuel). Notation run_list := (run_list w gen fuel). Notation eval := (eval w).
Definition plain_stmt (s : stmt) : Prop := match s with Using _ => False | _ => True end.
Lemma put_plain h s : plain_stmt (put h s).
Proof. destruct h; exact Logic.I. Qed.
Lemma run_cons s l st : plain_stmt s -> run_list (SCons s l) st = match run s st with Some (st, Normal) => run_list l st | x => x end.
Proof. destruct s; easy || reflexivity. Qed.
(** The first is the second, or still has to wait. *)
Definition later (o o' : option (state w * completion)) : Prop :=
  o = o' \/ exists st p, o = Some (st, Returned (P p)) /\ o' = Some match settle w p st with (st, Ok v) => (st, Returned (V v)) | (st, Err e) => (st, Threw e) end.
Lemma later_refl o : later o o. Proof. now left. Qed.
Lemma later_ends o o' : later o o' -> o = o' \/ (exists st p, o = Some (st, Returned (P p))) /\ exists st c, o' = Some (st, c) /\ match c with Returned _ | Threw _ => True | _ => False end.
Proof.
  intros [->|(st & p & -> & ->)]; [now left|]. right. split; [eauto|]. destruct (settle w p st) as [st' [v|e]]; eexists; eexists; (split; [reflexivity|exact Logic.I]).
Qed.
Lemma later_list s s' : plain_stmt s -> plain_stmt s' -> (forall st, later (run s st) (run s' st)) -> forall l m st, ~ has_using l -> later (run_list (app l (SCons s m)) st) (run_list (app l (SCons s' m)) st).
Proof.
  intros A A' H. induction l as [|t l IH]; intros m st U; cbn [app].
  - rewrite !run_cons by assumption. specialize (H st). pose proof (later_ends _ _ H) as [-> |((st1 & p & E) & st2 & c & E' & C)]; [apply later_refl|]. rewrite E, E' in *. destruct c; try easy; exact H.
  - assert (T : plain_stmt t) by (destruct t; cbn; auto; apply U; left; eauto). rewrite !run_cons by exact T. destruct (run t st) as [[st1 [| | | |]]|]; try apply later_refl. apply IH. intro X. apply U. now right.
Qed.
Lemma later_put h s s' : plain_stmt s -> plain_stmt s' -> (forall st, later (run s st) (run s' st)) -> ~ sees h -> ~ closes h -> forall st, later (run (put h s) st) (run (put h s') st).
Proof.
  intros A A' H N C st. assert (HL : forall l m st, ~ has_using l -> later (run_list (app l (SCons s m)) st) (run_list (app l (SCons s' m)) st)) by (intros; now apply later_list).
  destruct h as [l m|c t|c t|c|d|l m c f|b l m f|b c l m]; unfold sees in N; cbn [before_in] in N.
  - cbn [put]. change (later (run_list (app l (SCons s m)) st) (run_list (app l (SCons s' m)) st)). apply HL. tauto.
  - change (later (match cond w c st with (st, Err e) => Some (st, Threw e) | (st, Ok true) => run s st | (st, Ok false) => run t st end) (match cond w c st with (st, Err e) => Some (st, Threw e) | (st, Ok true) => run s' st | (st, Ok false) => run t st end)).
    destruct (cond w c st) as [st1 [[]|]]; try apply later_refl. apply H.
  - change (later (match cond w c st with (st, Err e) => Some (st, Threw e) | (st, Ok true) => run t st | (st, Ok false) => run s st end) (match cond w c st with (st, Err e) => Some (st, Threw e) | (st, Ok true) => run t st | (st, Ok false) => run s' st end)).
    destruct (cond w c st) as [st1 [[]|]]; try apply later_refl. apply H.
  - cbn [put ReturnAwaitSpec.run]. generalize fuel at 2 4 as n. intro n. revert st. induction n as [|n IH]; intro st; [apply later_refl|].
    destruct (cond w c st) as [st1 [[]|]]; try apply later_refl. specialize (H st1). pose proof (later_ends _ _ H) as [E|((st2 & p & E) & st3 & k & E' & K)].
    + rewrite E. destruct (run s' st1) as [[st2 [| | | |]]|]; try apply later_refl; apply IH.
    + rewrite E, E' in *. destruct k; try easy; exact H.
  - exfalso. apply C. now exists d.
  - tauto.
  - cbn [put]. destruct f as [|f]; [|exfalso; apply N; right; discriminate].
    change (later (match match run_list b st, Present (app l (SCons s m)) with Some (st, Threw _), Present l => run_list l st | x, _ => x end, Absent with Some (st, x), Present l => match run_list l st with Some (st, Normal) => Some (st, x) | y => y end | x, _ => x end)
      (match match run_list b st, Present (app l (SCons s' m)) with Some (st, Threw _), Present l => run_list l st | x, _ => x end, Absent with Some (st, x), Present l => match run_list l st with Some (st, Normal) => Some (st, x) | y => y end | x, _ => x end)).
    destruct (run_list b st) as [[st1 [| | | |e]]|]; try apply later_refl.
    assert (X : forall o : option (state w * completion), match o with Some (st, x) => Some (st, x) | None => None end = o) by (intros [[]|]; reflexivity).
    cbv beta iota. specialize (HL l m st1). rewrite X, X. apply HL. tauto.
  - cbn [put].
    change (later (match match run_list b st, c with Some (st, Threw _), Present l => run_list l st | x, _ => x end, Present (app l (SCons s m)) with Some (st, x), Present l => match run_list l st with Some (st, Normal) => Some (st, x) | y => y end | x, _ => x end)
      (match match run_list b st, c with Some (st, Threw _), Present l => run_list l st | x, _ => x end, Present (app l (SCons s' m)) with Some (st, x), Present l => match run_list l st with Some (st, Normal) => Some (st, x) | y => y end | x, _ => x end)).
    destruct (match run_list b st, c with Some (st, Threw _), Present l => run_list l st | x, _ => x end) as [[st1 x]|]; [|apply later_refl].
    specialize (HL l m st1). assert (HL' := HL ltac:(tauto)). clear HL. pose proof (later_ends _ _ HL') as [E|((st2 & p & E) & st3 & k & E' & K)]; [rewrite E; apply later_refl|]. rewrite E, E' in *. destruct k; try easy; exact HL'.
Qed.
Lemma plug_plain hs s : plain_stmt s -> plain_stmt (plug hs s).
Proof. destruct hs as [|h hs _] using rev_ind; [easy|]. intros _. rewrite plug_snoc. apply put_plain. Qed.
Lemma later_plug s s' : plain_stmt s -> plain_stmt s' -> (forall st, later (run s st) (run s' st)) -> forall hs, Forall (fun h => ~ sees h /\ ~ closes h) hs -> forall st, later (run (plug hs s) st) (run (plug hs s') st).
Proof.
  intros A A' H. induction hs as [|h hs IH] using rev_ind; intros F st; [apply H|]. rewrite !plug_snoc. apply Forall_app in F as [F1 F2]. inversion F2 as [|h' ? [N C]]; subst.
  apply later_put; auto using plug_plain.
Qed.
(** The same: anywhere. *)
Lemma same_list s s' : plain_stmt s -> plain_stmt s' -> (forall st, run s st = run s' st) -> forall l m st, run_list (app l (SCons s m)) st = run_list (app l (SCons s' m)) st.
Proof.
  intros A A' H. induction l as [|t l IH]; intros m st; cbn [app]; [now rewrite !run_cons, H by assumption|].
  destruct t; try (rewrite !run_cons by exact Logic.I; destruct (run _ st) as [[st1 [| | | |]]|]; auto). cbn [ReturnAwaitSpec.run_list]. destruct (acquire w d st) as [st1 [e|]]; [reflexivity|]. fold run_list. now rewrite IH.
Qed.
Lemma same_put h s s' : plain_stmt s -> plain_stmt s' -> (forall st, run s st = run s' st) -> forall st, run (put h s) st = run (put h s') st.
Proof.
  intros A A' H st. assert (HL := same_list s s' A A' H). destruct h as [l m|c t|c t|c|d|l m c f|b l m f|b c l m]; cbn [put ReturnAwaitSpec.run]; fold run_list.
  - apply HL.
  - destruct (cond w c st) as [st1 [[]|]]; auto.
  - destruct (cond w c st) as [st1 [[]|]]; auto.
  - generalize fuel at 2 4 as n. intro n. revert st. induction n as [|n IH]; intro st; [reflexivity|]. destruct (cond w c st) as [st1 [[]|]]; auto. rewrite H. destruct (run s' st1) as [[st2 [| | | |]]|]; auto.
  - generalize fuel at 2 4 as n. intro n. revert st. induction n as [|n IH]; intro st; [reflexivity|]. destruct (next w d st) as [st1 [[]|]]; auto. rewrite H. destruct (run s' st1) as [[st2 [| | | |]]|]; auto.
  - now rewrite HL.
  - destruct (run_list b st) as [[st1 [| | | |e]]|]; auto. now rewrite HL.
  - destruct (run_list b st) as [[st1 [| | | |e]]|]; rewrite ?HL; auto. destruct c; [now rewrite HL|]. destruct (run_list l0 st1) as [[st2 x]|]; auto. now rewrite HL.
Qed.
Lemma same_plug s s' : plain_stmt s -> plain_stmt s' -> (forall st, run s st = run s' st) -> forall hs st, run (plug hs s) st = run (plug hs s') st.
Proof.
  intros A A' H. induction hs as [|h hs IH] using rev_ind; intro st; [apply H|]. rewrite !plug_snoc. apply same_put; auto using plug_plain.
Qed.
(** Expressions. *)
Definition sooner (a a' : state w * res value) : Prop := a = a' \/ a' = wait w a.
Lemma wait_wait a : wait w (wait w a) = wait w a.
Proof. destruct a as [st [[v|p]|e]]; try reflexivity. cbn. now destruct (settle w p st) as [st1 [|]]. Qed.
Lemma sooner_plug e e' : (forall st, sooner (eval e st) (eval e' st)) -> forall hs st, sooner (eval (rplug hs e) st) (eval (rplug hs e') st).
Proof.
  intro H. induction hs as [|h hs IH] using rev_ind; intro st; [apply H|]. rewrite !rplug_snoc.
  destruct h as [|c d|c a]; cbn [rput ReturnAwaitSpec.eval]; [apply IH| |]; destruct (cond w c st) as [st1 [[]|]]; try apply IH; now left.
Qed.
Lemma eval_same e e' : (forall st, eval e st = eval e' st) -> forall hs st, eval (rplug hs e) st = eval (rplug hs e') st.
Proof.
  intro H. induction hs as [|h hs IH] using rev_ind; intro st; [apply H|]. rewrite !rplug_snoc. destruct h as [|c d|c a]; cbn [rput ReturnAwaitSpec.eval]; [apply IH| |]; destruct (cond w c st) as [st1 [[]|]]; auto.
Qed.
Lemma later_return e e' : (forall st, sooner (eval e st) (eval e' st)) -> forall st, later (run (Return (Some e)) st) (run (Return (Some e')) st).
Proof.
  intros H st. cbn [ReturnAwaitSpec.run]. destruct (H st) as [E|E].
  - fold eval. rewrite E. apply later_refl.
  - fold eval. rewrite E. destruct gen; [rewrite wait_wait; apply later_refl|]. destruct (eval e st) as [st1 [[v|p]|x]]; try apply later_refl. right. exists st1, p. split; [reflexivity|]. cbn [wait]. now destruct (settle w p st1) as [st2 [|]].
Qed.
Lemma settled_sooner a a' : sooner a a' -> settled w a = settled w a'.
Proof. intros [->|E]; [reflexivity|]. subst a'. unfold settled. now rewrite wait_wait. Qed.
End Meaning.

(** ** Texts *)
Lemma without_app a c : without_lines (a ++ c) = without_lines a ++ without_lines c.
Proof. unfold without_lines. apply filter_app. Qed.
Lemma without_line nl ts : without_lines (line nl ++ ts) = without_lines ts.
Proof. now destruct nl. Qed.
Lemma text_plug : forall hs e, text (rplug hs e) = plug_text hs (text e).
Proof. induction hs as [|h hs IH] using rev_ind; intro e; [reflexivity|]. rewrite rplug_snoc, plug_text_snoc. destruct h; cbn [rput text put_text]; now rewrite IH. Qed.
Lemma without_plug hs : forall t t', without_lines t = without_lines t' -> without_lines (plug_text hs t) = without_lines (plug_text hs t').
Proof.
  induction hs as [|h hs IH]; intros t t' E; [exact E|]. cbn [plug_text]. apply IH. destruct h; cbn [put_text].
  - change (KOpen :: t ++ [KClose]) with ([KOpen] ++ t ++ [KClose]). change (KOpen :: t' ++ [KClose]) with ([KOpen] ++ t' ++ [KClose]). now rewrite !without_app, E.
  - change (KIf c :: t ++ KElse :: text d) with ([KIf c] ++ t ++ KElse :: text d). change (KIf c :: t' ++ KElse :: text d) with ([KIf c] ++ t' ++ KElse :: text d). now rewrite !without_app, E.
  - change (KIf c :: text a ++ KElse :: t) with ([KIf c] ++ text a ++ [KElse] ++ t). change (KIf c :: text a ++ KElse :: t') with ([KIf c] ++ text a ++ [KElse] ++ t'). now rewrite !without_app, E.
Qed.
Lemma fits_le : forall e m n, fits m e -> n <= m -> fits n e.
Proof. destruct e; cbn [fits]; intros q k F L; intuition lia. Qed.
Lemma fits_plug x x' : (forall n, n <= 1 -> fits n x -> fits n x') -> forall hs n, n <= 1 -> fits n (rplug hs x) -> fits n (rplug hs x').
Proof.
  intro H. induction hs as [|h hs IH] using rev_ind; intros n L F; [now apply H|]. rewrite rplug_snoc in *. destruct h; cbn [rput fits] in *; [apply IH; [lia|exact F]| |]; intuition.
Qed.
Lemma plug_starts h hs t : match plug_text (h :: hs) t with KOpen :: _ | KIf _ :: _ => True | _ => False end.
Proof. revert h t. induction hs as [|g hs IH]; intros h t; [now destruct h|]. apply (IH g (put_text h t)). Qed.

(** ** One report *)
Section Report.
Variables (opt : option_) (type_of : ret -> awaitable).
Lemma test_iff path x k r : leaf x -> In r (test opt type_of path x k) <->
  verdict opt type_of (affects path = true) x (what r) (auto r) /\ new_text r = k (match x with Awaits nl c => line nl ++ text c | x => insert_await x end).
Proof.
  intro L. unfold test. fold (affects path). destruct r as [m a t]. cbn [what auto new_text].
  assert (N : forall q : bool, negb q = true <-> ~ q = true) by (intros []; cbn; intuition congruence).
  destruct x as [n l br|nl c| |]; try easy.
  - destruct (type_of (Plain n l br)) eqn:T; [| split; [easy|intros [V _]; inversion V; congruence] | split; [easy|intros [V _]; inversion V; congruence]].
    destruct (whether_to_await (affects path) opt) eqn:W.
    + split; [easy|]. intros [V _]. inversion V as [| |? ? ? ? O]; subst. destruct O as [-> |[[-> | ->] A]]; rewrite ?A in W; discriminate.
    + split.
      * intros [E|[]]. injection E as <- <- <-. split; [|reflexivity]. apply v_missing; [discriminate|exact T| |apply N]. destruct opt; try discriminate; [now left| |]; right; destruct (affects path); try discriminate; auto.
      * intros [V ->]. left. inversion V as [| |? ? ? ? O M]; subst. f_equal. apply eq_true_iff_eq. now rewrite N.
    + split; [easy|]. intros [V _]. inversion V as [| |? ? ? ? O]; subst. destruct O as [-> |[[-> | ->] A]]; rewrite ?A in W; discriminate.
  - destruct (type_of c) eqn:T.
    + destruct (whether_to_await (affects path) opt) eqn:W.
      * split; [easy|]. intros [V _]. inversion V as [? ? X|? ? ? X O|? ? X]; subst; try congruence. destruct O as [-> |[-> A]]; [discriminate|]. cbn in W. destruct (affects path); [easy|discriminate].
      * split; [easy|]. intros [V _]. inversion V as [? ? X|? ? ? X O|? ? X]; subst; try congruence. destruct O as [-> |[-> A]]; [discriminate|]. cbn in W. destruct (affects path); [easy|discriminate].
      * split.
        -- intros [E|[]]. injection E as <- <- <-. split; [|reflexivity]. apply v_awaited; [exact T| |apply N]. destruct opt; cbn in W; try discriminate; [|  |now left]; destruct (affects path); try discriminate. right. split; [reflexivity|discriminate].
        -- intros [V ->]. left. inversion V as [? ? X|? ? ? X O M|? ? X]; subst; try congruence. f_equal. apply eq_true_iff_eq. now rewrite N.
    + split; [easy|]. intros [V _]. inversion V as [? ? X|? ? ? X O|? ? X]; subst; congruence.
    + split.
      * intros [E|[]]. injection E as <- <- <-. split; [now constructor|reflexivity].
      * intros [V ->]. left. inversion V as [? ? X|? ? ? X O|? ? X]; subst; congruence.
Qed.
Lemma verdict_ext A B x m a : (A <-> B) -> verdict opt type_of A x m a -> verdict opt type_of B x m a.
Proof. intros E V. destruct V; constructor; tauto. Qed.
Theorem file_reported l m a : (exists t, In (Report m a t) (in_file opt type_of l)) <->
  exists f hs rhs x, in_f f l /\ is_async f = true /\ returns f hs (rplug rhs x) /\ leaf x /\ verdict opt type_of (Exists sees hs) x m a.
Proof.
  split.
  - intros [t H]. apply file_iff in H as (f & hs & e & I & A & R & H). apply tests_iff in H as (rhs & x & -> & L & H). apply test_iff in H as [V _]; [|exact L]. exists f, hs, rhs, x. repeat (split; [assumption|]). eapply verdict_ext; [|exact V]. apply affects_frames.
  - intros (f & hs & rhs & x & I & A & R & L & V). eexists. apply file_iff. exists f, hs, (rplug rhs x). repeat (split; [assumption|]). apply tests_iff. exists rhs, x. split; [reflexivity|]. split; [exact L|]. apply test_iff; [exact L|]. split; [|reflexivity].
    cbn [what auto]. eapply verdict_ext; [|exact V]. symmetry. apply affects_frames.
Qed.
Lemma replaced_exists f hs e e' : returns f hs e -> exists f', replaced f hs e e' f'.
Proof.
  intros [a x|a g l hs' x E]; [eexists; constructor|]. destruct hs' as [|h hs' _] using rev_ind; [discriminate|]. rewrite plug_snoc in E. destruct h as [p q| | | | | | | ]; try discriminate.
  exists (Func a g (app p (SCons (plug hs' (Return (Some e'))) q))). constructor; now rewrite plug_snoc.
Qed.
Theorem fix_right l r : In r (in_file opt type_of l) ->
  exists f hs rhs x x' f', in_f f l /\ is_async f = true /\ returns f hs (rplug rhs x) /\ leaf x /\ verdict opt type_of (Exists sees hs) x (what r) (auto r)
    /\ changed x x' /\ replaced f hs (rplug rhs x) (rplug rhs x') f'
    /\ (fits (if is_arrow f then 1 else 0) (rplug rhs x) -> safe_start f rhs x -> read_as (is_arrow f) (new_text r) (rplug rhs x'))
    /\ (auto r = true -> what r = NonPromise \/ Forall (fun h => ~ closes h) hs -> forall w fuel st, typed type_of w -> called w fuel f st = called w fuel f' st).
Proof.
  intro H. apply file_iff in H as (f & hs & e & I & A & R & H). apply tests_iff in H as (rhs & x & -> & L & H). apply test_iff in H as [V T]; [|exact L]. apply (verdict_ext _ (Exists sees hs)) in V; [|apply affects_frames].
  assert (exists x', changed x x' /\ without_lines (match x with Awaits nl c => line nl ++ text c | x => insert_await x end) = without_lines (text x')) as (x' & C & W).
  { destruct x as [n lv br|nl c| |]; try easy; [|exists c; split; [constructor|apply without_line]]. unfold insert_await. destruct (Nat.ltb_spec 14 lv); [exists (Awaits false (Plain n lv br))|exists (Awaits false (Parens (Plain n lv br)))]; (split; [now constructor|reflexivity]). }
  destruct (replaced_exists f hs (rplug rhs x) (rplug rhs x') R) as [f' RP]. exists f, hs, rhs, x, x', f'. repeat (split; [assumption|]). split.
  - intros F SS. split; [rewrite T, text_plug; now apply without_plug|]. split.
    + eapply fits_plug; [| |exact F]; [|destruct (is_arrow f); lia]. intros n N Fx. destruct C; cbn [fits] in *; [apply (fits_le _ 14); [easy|lia]| |]; intuition lia.
    + rewrite T. destruct rhs as [|h rhs]; [|pose proof (plug_starts h rhs (match x with Awaits nl c => line nl ++ text c | x => insert_await x end)) as PS; destruct (plug_text (h :: rhs) _) as [|[] ?]; easy].
      cbn [plug_text]. destruct x as [n lv br|nl c| |]; try easy; [unfold insert_await; now destruct (Nat.ltb 14 lv)|]. destruct f as [a g b|a b]; cbn [safe_start is_arrow] in *.
      * assert (nl = false) by (destruct c; exact SS). subst nl. cbn [line List.app]. destruct c as [? ? br|[]| |]; cbn; easy.
      * cbn in F. destruct nl; cbn [line List.app].
        -- split; [reflexivity|]. intros n lv ts E. destruct c as [? ? br|[]| |]; cbn in E; try discriminate. injection E as _ _ E _. congruence.
        -- destruct c as [? ? br|[]| |]; cbn; easy.
  - intros AU NC w fuel st TY.
    assert (ES : forall st, sooner w (eval w x st) (eval w x' st) \/ sooner w (eval w x' st) (eval w x st)).
    { intro st0. destruct C as [nl c|n lv br|n lv br]; [right|left|left]; right; reflexivity. }
    assert (EN : what r = NonPromise -> forall st, eval w x st = eval w x' st).
    { intros E st0. inversion V as [nl c X E1|nl c made X O M E1|y made X O M Q E1]; subst; try congruence. inversion C; subst. cbn [eval]. pose proof (TY x' st0) as Y. destruct (eval w x' st0) as [st1 [[v|p]|e]] eqn:EE; try reflexivity. exfalso. now apply (Y st1 p X). }
    remember (rplug rhs x) as ex eqn:Hx. remember (rplug rhs x') as ex' eqn:Hx'. destruct RP as [a e e'|a g b b' hs e e' E E']; subst e e'.
    + cbn [called]. f_equal. destruct C as [nl c|n lv br|n lv br].
      * symmetry. apply settled_sooner, sooner_plug. intro. now right.
      * apply settled_sooner, sooner_plug. intro. now right.
      * apply settled_sooner, sooner_plug. intro. now right.
    + cbn [called].
      assert (RR : later w (run_list w g fuel b st) (run_list w g fuel b' st) \/ later w (run_list w g fuel b' st) (run_list w g fuel b st)).
      { change (later w (run w g fuel (Block b) st) (run w g fuel (Block b') st) \/ later w (run w g fuel (Block b') st) (run w g fuel (Block b) st)). rewrite E, E'.
        destruct NC as [NP|NC].
        - left. left. apply same_plug; try exact Logic.I. intro st0. cbn [run]. now rewrite (eval_same w _ _ (EN NP)).
        - destruct (what r) eqn:WR.
          + assert (NS : ~ Exists sees hs) by (inversion V; subst; tauto). assert (F : Forall (fun h => ~ sees h /\ ~ closes h) hs).
            { apply Forall_forall. intros h Ih. split; [intro Q; apply NS, Exists_exists; eauto|]. rewrite Forall_forall in NC. now apply NC. }
            inversion C; subst; [right|left|left]; (apply later_plug; try exact Logic.I; try exact F; apply later_return, sooner_plug; intro; now right).
          + left. left. apply same_plug; try exact Logic.I. intro st0. cbn [run]. now rewrite (eval_same w _ _ (EN eq_refl)).
          + assert (NS : ~ Exists sees hs) by (inversion V; subst; tauto). assert (F : Forall (fun h => ~ sees h /\ ~ closes h) hs).
            { apply Forall_forall. intros h Ih. split; [intro Q; apply NS, Exists_exists; eauto|]. rewrite Forall_forall in NC. now apply NC. }
            inversion C; subst; [right|left|left]; (apply later_plug; try exact Logic.I; try exact F; apply later_return, sooner_plug; intro; now right). }
      assert (RL : forall o o' : option (state w * completion), later w o o' ->
        match o with None => None | Some (st, Returned x) => Some (settled w (st, Ok x)) | Some (st, Threw e) => Some (st, Err e) | Some (st, _) => Some (st, Ok 0) end
        = match o' with None => None | Some (st, Returned x) => Some (settled w (st, Ok x)) | Some (st, Threw e) => Some (st, Err e) | Some (st, _) => Some (st, Ok 0) end).
      { intros o o' [->|(st1 & p & -> & ->)]; [reflexivity|]. unfold settled. cbn [wait]. destruct (settle w p st1) as [st2 [v|e0]]; reflexivity. }
      destruct RR as [RR|RR]; [now apply RL|symmetry; now apply RL].
Qed.
End Report.

(** ** Affected indeed *)
Definition uses (l : stmts) : bool := match usings 0 l with [] => false | _ => true end.
Lemma uses_iff l : uses l = true <-> has_using l.
Proof. rewrite <- (usings_has l 0). unfold uses. destruct (usings 0 l); split; congruence. Qed.
Definition log : stmts := SCons (Do 1 FNil) SNil.
Definition plain_pre (l : stmts) : stmts := if uses l then SCons (Using 0) SNil else SNil.
Definition plain_o (o : ostmts) : ostmts := match o with Absent => Absent | Present _ => Present log end.
Definition canon (h : hole) : hole :=
  match h with
  | HBlock l _ => HBlock (plain_pre l) SNil
  | HThen _ _ => HThen 0 Break | HElse _ _ => HElse 1 Break | HWhile _ => HWhile 2 | HFor _ => HFor 0
  | HTry l _ c f => HTry (plain_pre l) SNil (plain_o c) (plain_o f)
  | HCatch _ l _ f => HCatch (SCons (Throw 0) SNil) (plain_pre l) SNil (plain_o f)
  | HFinally _ c l _ => HFinally SNil (plain_o c) (plain_pre l) SNil
  end.
Definition seen (t : list nat) : bool := existsb (Nat.eqb 9) t.
Definition demo : world :=
  World (list nat) (fun n t => (1 :: t, None)) (fun c t => (t, Ok match c with 0 => true | 1 => false | _ => negb (seen t) end)) (fun _ t => (t, Ok (P 0)))
    (fun _ t => (9 :: t, Err 5)) (fun _ t => (t, None)) (fun _ t => (1 :: t, None)) (fun _ t => (t, Ok (negb (seen t)))) (fun _ t => (t, None)) (fun a _ => a).
Lemma plain_pre_has l : has_using (plain_pre l) <-> has_using l.
Proof. rewrite <- (uses_iff l). unfold plain_pre. destruct (uses l); cbn; split; intro H; try reflexivity; try discriminate; try contradiction; left; eauto. Qed.
Lemma plain_o_same o : same_present o (plain_o o).
Proof. destruct o; cbn; split; congruence. Qed.
Lemma alike_canon h : alike h (canon h).
Proof. destruct h; cbn [canon]; constructor; try (symmetry; apply plain_pre_has); apply plain_o_same. Qed.
Definition p0 : ret := Plain 0 17 false.
Notation R := (run demo false 2). Notation RL := (run_list demo false 2).
Lemma pre_run l s : plain_stmt s -> forall t, RL (app (plain_pre l) (SCons s SNil)) t = match R s t with Some (t', c) => Some (if uses l then 1 :: t' else t', c) | None => None end.
Proof.
  intros A t. unfold plain_pre. destruct (uses l); cbn [app].
  - change (match RL (SCons s SNil) t with Some (st, c) => Some (1 :: st, c) | None => None end = match R s t with Some (t', c) => Some (1 :: t', c) | None => None end). rewrite run_cons by exact A. destruct (R s t) as [[t' [| | | |]]|]; reflexivity.
  - rewrite run_cons by exact A. destruct (R s t) as [[t' [| | | |]]|]; reflexivity.
Qed.
(** Not awaited: the function is left with the promise. *)
Lemma left_with hs : forall t, seen t = false -> exists t', R (plug (map canon hs) (Return (Some p0))) t = Some (t', Returned (P 0)) /\ seen t' = false.
Proof.
  induction hs as [|h hs IH] using rev_ind; intros t N; [exists t; split; [reflexivity|exact N]|]. rewrite map_app. cbn [map]. rewrite plug_snoc. set (s := plug (map canon hs) (Return (Some p0))) in *.
  assert (A : plain_stmt s) by (apply plug_plain; exact Logic.I). clearbody s. assert (PR : forall l t, RL (app (plain_pre l) (SCons s SNil)) t = match R s t with Some (t', c) => Some (if uses l then 1 :: t' else t', c) | None => None end) by (intros; now apply pre_run).
  destruct (IH t N) as (t' & E & N'). assert (N1 : forall q : bool, seen (if q then 1 :: t' else t') = false) by (intros []; exact N').
  destruct h as [l m|c x|c x|c|d|l m c f|b l m f|b c l m]; cbn [canon put].
  - change (R (Block ?l) t) with (RL l t). rewrite PR, E. exists (if uses l then 1 :: t' else t'); split; [reflexivity|apply N1].
  - change (R (If 0 s Break) t) with (R s t). eauto.
  - change (R (If 1 Break s) t) with (R s t). eauto.
  - cbn [run demo cond state]. rewrite N. cbn [negb]. change (ReturnAwaitSpec.run demo false 2 s t) with (R s t). rewrite E. eauto.
  - cbn [run demo next close state]. rewrite N. cbn [negb]. change (ReturnAwaitSpec.run demo false 2 s t) with (R s t). rewrite E. exists t'. split; [reflexivity|exact N'].
  - cbn [run]. rewrite PR, E. destruct f as [|f]; cbn [plain_o]; [exists (if uses l then 1 :: t' else t'); split; [reflexivity|apply N1]|]. exists (1 :: if uses l then 1 :: t' else t'). split; [reflexivity|]. apply (N1 (uses l)).
  - cbn [run]. change (RL (SCons (Throw 0) SNil) t) with (Some (t, Threw 0)). cbv beta iota. rewrite PR, E. destruct f as [|f]; cbn [plain_o]; [exists (if uses l then 1 :: t' else t'); split; [reflexivity|apply N1]|]. exists (1 :: if uses l then 1 :: t' else t'). split; [reflexivity|]. apply (N1 (uses l)).
  - cbn [run]. change (RL SNil t) with (Some (t, Normal)). cbv beta iota. rewrite PR, E. exists (if uses l then 1 :: t' else t'); split; [reflexivity|apply N1].
Qed.
(** Awaited: the exception is met by something that is done after it. *)
Definition met (q : bool) (o : option (list nat * completion)) : Prop :=
  exists t c, o = Some ((if q then 1 else 9) :: t, c) /\ (q = true -> seen t = true) /\ (c = Threw 5 \/ (q = true /\ c = Normal)).
Definition seesb (h : hole) : bool := match h with HBlock l _ | HFinally _ _ l _ => uses l | HTry _ _ _ _ => true | HCatch _ l _ f => uses l || present f | _ => false end.
Lemma sees_b h : sees h -> seesb h = true.
Proof.
  unfold sees, seesb. destruct h; cbn [before_in has_using]; rewrite <- ?uses_iff; intros [H|H]; try easy. - now rewrite H. - rewrite (proj2 (present_iff f) H). apply orb_true_r.
Qed.
Lemma met_after hs : Forall complete hs -> forall t, seen t = false -> met (existsb seesb hs) (R (plug (map canon hs) (Return (Some (Awaits false p0)))) t).
Proof.
  induction hs as [|h hs IH] using rev_ind; intros FC t N; [exists t, (Threw 5); split; [reflexivity|]; split; [easy|now left]|]. apply Forall_app in FC as [FC1 FC2]. inversion FC2 as [|h' ? FC]; subst. specialize (IH FC1 t N).
  rewrite map_app, existsb_app. cbn [map existsb]. rewrite orb_false_r, plug_snoc. set (s := plug (map canon hs) (Return (Some (Awaits false p0)))) in *.
  assert (A : plain_stmt s) by (apply plug_plain; exact Logic.I). clearbody s. assert (PR : forall l t, RL (app (plain_pre l) (SCons s SNil)) t = match R s t with Some (t', c) => Some (if uses l then 1 :: t' else t', c) | None => None end) by (intros; now apply pre_run).
  set (q := existsb seesb hs) in *. clearbody q. destruct IH as (t' & c0 & E & S & C).
  assert (SN : seen ((if q then 1 else 9) :: t') = true). { destruct q; [exact (S eq_refl)|reflexivity]. }
  assert (P1 : forall p : bool, seen (if p then 1 :: (if q then 1 else 9) :: t' else (if q then 1 else 9) :: t') = true) by (intros []; exact SN).
  assert (U : forall p : bool, met (q || p) (Some (if p then 1 :: (if q then 1 else 9) :: t' else (if q then 1 else 9) :: t', c0))).
  { intros []; [rewrite orb_true_r; exists ((if q then 1 else 9) :: t'), c0; split; [reflexivity|]; split; [now intros _|]; destruct C as [-> |[-> ->]]; auto|]. rewrite orb_false_r. exists t', c0. auto. }
  assert (D : forall x c, seen x = true -> c = Threw 5 \/ c = Normal -> met true (Some (1 :: x, c))). { intros x c X Y. exists x, c. split; [reflexivity|]. split; [auto|]. tauto. }
  assert (C' : c0 = Threw 5 \/ c0 = Normal) by tauto.
  destruct h as [l m|c x|c x|c|d|l m c f|b l m f|b c l m]; cbn [canon put seesb].
  - change (R (Block ?l) t) with (RL l t). rewrite PR, E. apply U.
  - change (R (If 0 s Break) t) with (R s t). rewrite E. apply (U false).
  - change (R (If 1 Break s) t) with (R s t). rewrite E. apply (U false).
  - cbn [run demo cond state]. rewrite N. cbn [negb]. change (ReturnAwaitSpec.run demo false 2 s t) with (R s t). rewrite E. destruct C' as [-> | ->]; [apply (U false)|]. rewrite SN. apply (U false).
  - cbn [run demo next close state]. rewrite N. cbn [negb]. change (ReturnAwaitSpec.run demo false 2 s t) with (R s t). rewrite E. destruct C' as [-> | ->]; [apply (U false)|]. rewrite SN. apply (U false).
  - rewrite orb_true_r. cbn [run]. rewrite PR, E. cbn in FC. destruct C' as [-> | ->]; destruct c as [|c], f as [|f]; cbn [plain_o]; try (destruct FC; congruence).
    + apply (D _ _ (P1 (uses l))). auto.
    + apply (D _ _ (P1 (uses l))). auto.
    + apply (D (1 :: _) _); [exact (P1 (uses l))|auto].
    + apply (D _ _ (P1 (uses l))). auto.
    + destruct C as [|[-> _]]; [discriminate|]. destruct (uses l); [apply D; auto|]. exists t', Normal. auto.
    + apply (D _ _ (P1 (uses l))). auto.
  - cbn [run]. change (RL (SCons (Throw 0) SNil) t) with (Some (t, Threw 0)). cbv beta iota. rewrite PR, E. destruct f as [|f]; cbn [plain_o present]; [rewrite orb_false_r; apply U|]. rewrite !orb_true_r. apply (D _ _ (P1 (uses l))). exact C'.
  - cbn [run]. change (RL SNil t) with (Some (t, Normal)). cbv beta iota. rewrite PR, E. destruct C' as [-> | ->]; apply U.
Qed.
Theorem affected_indeed a l hs e : returns (Func a false l) hs e -> Exists sees hs -> Forall complete hs ->
  exists hs' l1 l2 w fuel st, Forall2 alike hs hs' /\ Block l1 = plug hs' (Return (Some p0)) /\ Block l2 = plug hs' (Return (Some (Awaits false p0))) /\ called w fuel (Func a false l1) st <> called w fuel (Func a false l2) st.
Proof.
  intros RT EX FC. inversion RT as [|a' g l' hs' e' E]; subst. destruct hs as [|h hs _] using rev_ind; [discriminate|]. rewrite plug_snoc in E. destruct h as [p q| | | | | | | ]; try discriminate.
  set (hh := hs ++ [HBlock p q]) in *. exists (map canon hh), (app (plain_pre p) (SCons (plug (map canon hs) (Return (Some p0))) SNil)), (app (plain_pre p) (SCons (plug (map canon hs) (Return (Some (Awaits false p0)))) SNil)), demo, 2, [].
  assert (B1 : forall s, plug (map canon hh) s = Block (app (plain_pre p) (SCons (plug (map canon hs) s) SNil))). { intro s. unfold hh. rewrite map_app. cbn [map]. now rewrite plug_snoc. }
  split; [clear; induction hh; cbn; constructor; auto using alike_canon|]. split; [symmetry; apply B1|]. split; [symmetry; apply B1|].
  destruct (left_with hh [] eq_refl) as (t1 & E1 & N1). pose proof (met_after hh FC [] eq_refl) as (t2 & c & E2 & S2 & C2).
  assert (Q : existsb seesb hh = true). { apply existsb_exists. apply Exists_exists in EX as (h & Ih & Sh). exists h. split; [exact Ih|now apply sees_b]. } rewrite Q in *.
  rewrite B1 in E1, E2. change (R (Block ?l) []) with (RL l []) in E1, E2. cbn [called]. rewrite E1, E2. destruct C2 as [-> |[_ ->]]; discriminate.
Qed.
