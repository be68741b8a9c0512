From Coq Require Import String Bool List ZArith.
From Verif Require Import Base Report ReportSpec.
Import ListNotations.
Open Scope Z_scope.

Section Proofs.
Context {File Node : Type}.
Notation request := (@request File Node).
Variable trim : option File -> Node -> range.
Variable valid : range -> bool.

Lemma rmapM_id {A : Type} (g : A -> res A) l ys :
  (forall x y, g x = Ok y -> y = x) -> rmapM g l = Ok ys -> ys = l.
Proof.
  intros G. revert ys. induction l as [|x l IH]; intros ys H; simpl in H.
  - now inversion H.
  - destruct (g x) as [y|] eqn:E; [|easy]. simpl in H.
    destruct (rmapM g l) as [zs|]; [|easy]. simpl in H. inversion H; subst.
    apply G in E. subst. f_equal. now apply IH.
Qed.

Lemma rmapM_ok {A B : Type} (g : A -> res B) l :
  (exists ys, rmapM g l = Ok ys) <-> (forall x, In x l -> exists y, g x = Ok y).
Proof.
  induction l as [|x l IH]; simpl.
  - split; [easy|]. intros _. now exists [].
  - split.
    + intros (ys & H) z [<-|I].
      * destruct (g x) as [y|]; [now exists y|easy].
      * destruct (g x) as [y|]; [|easy]. simpl in H.
        destruct (rmapM g l) as [zs|] eqn:E; [|easy].
        apply IH; [now exists zs|exact I].
    + intros H. destruct (H x (or_introl eq_refl)) as (y & E). rewrite E. simpl.
      destruct (proj2 IH) as (ys & E'). { intros z I. apply H. now right. }
      rewrite E'. simpl. now exists (y :: ys).
Qed.

Lemma h_fixes_val fs ys : h_fixes valid fs = Ok ys -> ys = fs.
Proof.
  apply rmapM_id. intros [t r] y. unfold h_range. cbn [f_range f_text].
  destruct (valid r); simpl; [|easy]. now inversion 1.
Qed.

Lemma h_fixes_ok fs : (exists ys, h_fixes valid fs = Ok ys) <-> all_valid valid fs.
Proof.
  unfold h_fixes. rewrite rmapM_ok. unfold all_valid. split; intros H f I.
  - destruct (H f I) as (y & E). unfold h_range in E.
    destruct (valid (f_range f)); [reflexivity|easy].
  - specialize (H f I). unfold h_range. rewrite H. simpl. now eexists.
Qed.

Lemma suggs_val ss ys :
  rmapM (fun s => let! x := h_fixes valid (s_fixes s) in Ok (mkSugg (s_msg s) x)) ss = Ok ys ->
  ys = ss.
Proof.
  apply rmapM_id. intros [m fs] y. cbn [s_fixes s_msg].
  destruct (h_fixes valid fs) as [zs|] eqn:E; simpl; [|easy].
  apply h_fixes_val in E. subst. now inversion 1.
Qed.

Lemma suggs_ok ss :
  (exists ys, rmapM (fun s => let! x := h_fixes valid (s_fixes s) in Ok (mkSugg (s_msg s) x)) ss = Ok ys) <->
  (forall s, In s ss -> all_valid valid (s_fixes s)).
Proof.
  rewrite rmapM_ok. split; intros H s I.
  - apply h_fixes_ok. destruct (H s I) as (y & E).
    destruct (h_fixes valid (s_fixes s)) as [zs|]; [now exists zs|easy].
  - specialize (H s I). apply h_fixes_ok in H. destruct H as (zs & E).
    rewrite E. simpl. now eexists.
Qed.

Lemma labels_val ls ys :
  rmapM (fun l : bstr * range => let! r := deref (h_range valid (snd l)) in Ok (fst l, r)) ls = Ok ys ->
  ys = ls.
Proof.
  apply rmapM_id. intros [t r] y. unfold h_range. cbn [fst snd].
  destruct (valid r); simpl; [|easy]. now inversion 1.
Qed.

Lemma labels_ok ls :
  (exists ys, rmapM (fun l : bstr * range => let! r := deref (h_range valid (snd l)) in Ok (fst l, r)) ls = Ok ys) <->
  (forall l, In l ls -> valid (snd l) = true).
Proof.
  rewrite rmapM_ok. split; intros H l I.
  - destruct (H l I) as (y & E). unfold h_range in E.
    destruct (valid (snd l)); [reflexivity|easy].
  - specialize (H l I). unfold h_range. rewrite H. simpl. now eexists.
Qed.

(** What [report] emits. *)
Lemma report_shape fx sg f n (q : request) :
  let '(d, lf, ls) := report trim (mkB (Some f) n fx sg) q in
  rd_range d = place_of trim f q /\ rd_rule d = n /\ rd_msg d = text_of q /\
  rd_file d = Some f /\ rd_labels d = labels_of q /\
  (exists i v, offers_fix q i v /\ (fixes d = if fx then v else match i with Some _ => [] | None => v end) /\
               lf = if fx then as_list i else []) /\
  (exists i v, offers_sugg q i v /\ (suggestions d = if sg then v else match i with Some _ => [] | None => v end) /\
               ls = if sg then as_list i else []).
Proof.
  destruct q; cbn [report]; unfold guarded; cbn [b_fix b_sugg b_file b_rule].
  all: destruct fx, sg; cbn; repeat (split; [reflexivity|]); split.
  all: try (eexists _, _; split; [constructor; fail|split; reflexivity]).
  all: try (destruct (rd_fixes d) eqn:E;
            [ eexists _, _; split; [econstructor; exact E | split; unfold fixes; cbn; rewrite ?E; reflexivity ]
            | eexists (@None nat), (@nil fix_); split; [econstructor; exact E | split; unfold fixes; cbn; rewrite ?E; reflexivity ] ]; fail).
  all: try (destruct (rd_suggs d) eqn:E;
            [ eexists _, _; split; [econstructor; exact E | split; unfold suggestions; cbn; rewrite ?E; reflexivity ]
            | eexists (@None nat), (@nil suggestion); split; [econstructor; exact E | split; unfold suggestions; cbn; rewrite ?E; reflexivity ] ]; fail).
  all: try (eexists _, _; split; [constructor|split; reflexivity]).
Qed.

Lemma offers_fix_fun (q : request) i v i' v' :
  offers_fix q i v -> offers_fix q i' v' -> i = i' /\ v = v'.
Proof. destruct 1; inversion 1; subst; auto; try congruence; split; congruence. Qed.

Lemma offers_sugg_fun (q : request) i v i' v' :
  offers_sugg q i v -> offers_sugg q i' v' -> i = i' /\ v = v'.
Proof. destruct 1; inversion 1; subst; auto; try congruence; split; congruence. Qed.

Lemma report_logs b (q : request) i v j u :
  offers_fix q i v -> offers_sugg q j u ->
  snd (fst (report trim b q)) = (if b_fix b then as_list i else []) /\
  snd (report trim b q) = (if b_sugg b then as_list j else []).
Proof.
  intros F S. destruct q; cbn [report]; unfold guarded;
    inversion F; subst; inversion S; subst; destruct b as [bf br [] []]; split; reflexivity.
Qed.

Lemma headless_value fx sg f n (q : request) i v j u h :
  offers_fix q i v -> offers_sugg q j u ->
  headless trim valid fx sg f n q = Ok h ->
  plain h = (h_range valid (place_of trim f q), n, text_of q, f, labels_of q) /\
  hd_fixes h = (if fx then v else []) /\
  hd_suggs h = (if sg then u else []).
Proof.
  intros F S H. unfold headless in H.
  pose proof (report_shape fx sg f n q) as RS.
  destruct (report trim (mkB (Some f) n fx sg) q) as [[d lf] ls] eqn:E.
  cbn [fst snd] in *.
  destruct RS as (R1 & R2 & R3 & R4 & R5 & (i' & v' & F' & FX & _) & (j' & u' & S' & SX & _)).
  destruct (offers_fix_fun _ _ _ _ _ F F') as [<- <-].
  destruct (offers_sugg_fun _ _ _ _ _ S S') as [<- <-].
  unfold h_conv in H. rewrite R4 in H. cbn [deref rbind] in H.
  destruct (rmapM _ (rd_labels d)) as [lab|] eqn:EL; [|easy]. cbn [rbind] in H.
  apply labels_val in EL. subst lab.
  assert (GF : hd_fixes h = (if fx then v else []) /\ hd_suggs h = (if sg then u else []) /\
               plain h = (h_range valid (rd_range d), rd_rule d, rd_msg d, f, rd_labels d)).
  { rewrite FX, SX in H.
    destruct fx.
    - destruct (h_fixes valid v) as [fs|] eqn:EF; [|easy]. apply h_fixes_val in EF. subst fs.
      cbn [rbind] in H. destruct sg.
      + destruct (rmapM _ u) as [ss|] eqn:ES; [|easy]. apply suggs_val in ES. subst ss.
        cbn [rbind] in H. inversion H; subst. auto.
      + cbn [rbind] in H. inversion H; subst. auto.
    - cbn [rbind] in H. destruct sg.
      + destruct (rmapM _ u) as [ss|] eqn:ES; [|easy]. apply suggs_val in ES. subst ss.
        cbn [rbind] in H. inversion H; subst. auto.
      + cbn [rbind] in H. inversion H; subst. auto. }
  destruct GF as (A & B & C). rewrite C, R1, R2, R3, R5. auto.
Qed.

Lemma headless_ok fx sg f n (q : request) i v j u :
  offers_fix q i v -> offers_sugg q j u ->
  (exists h, headless trim valid fx sg f n q = Ok h) <->
  (forall l, In l (labels_of q) -> valid (snd l) = true) /\
  (fx = true -> all_valid valid v) /\
  (sg = true -> forall s, In s u -> all_valid valid (s_fixes s)).
Proof.
  intros F S. unfold headless.
  pose proof (report_shape fx sg f n q) as RS.
  destruct (report trim (mkB (Some f) n fx sg) q) as [[d lf] ls] eqn:E.
  cbn [fst snd] in *.
  destruct RS as (R1 & R2 & R3 & R4 & R5 & (i' & v' & F' & FX & _) & (j' & u' & S' & SX & _)).
  destruct (offers_fix_fun _ _ _ _ _ F F') as [<- <-].
  destruct (offers_sugg_fun _ _ _ _ _ S S') as [<- <-].
  unfold h_conv. rewrite R4, R5, FX, SX. cbn [deref rbind].
  rewrite <- labels_ok.
  destruct (rmapM (fun l : bstr * range => _) (labels_of q)) as [lab|] eqn:EL;
    cbn [rbind]; [|split; [intros (h & H); easy|intros ((ys & H) & _); easy]].
  destruct fx.
  - destruct (h_fixes valid v) as [fs|] eqn:EF; cbn [rbind].
    + assert (AV : all_valid valid v) by (apply h_fixes_ok; eauto).
      destruct sg.
      * rewrite <- suggs_ok. destruct (rmapM _ u) as [ss|]; cbn [rbind].
        -- split; [eauto 6|eauto].
        -- split; [intros (h & H); easy|]. intros (_ & _ & H). destruct (H eq_refl); easy.
      * cbn [rbind]. split; [|eauto]. intros _. repeat split; eauto; easy.
    + split; [intros (h & H); easy|]. intros (_ & H & _). specialize (H eq_refl).
      apply h_fixes_ok in H. destruct H as (ys & H). congruence.
  - cbn [rbind]. destruct sg.
    + rewrite <- suggs_ok. destruct (rmapM _ u) as [ss|]; cbn [rbind].
      * split; [|eauto]. intros _. repeat split; eauto; easy.
      * split; [intros (h & H); easy|]. intros (_ & _ & H). destruct (H eq_refl); easy.
    + cbn [rbind]. split; [|eauto]. intros _. repeat split; eauto; easy.
Qed.

Lemma offers_fix_total (q : request) : exists i v, offers_fix q i v.
Proof.
  destruct q; try (eexists _, _; constructor; fail);
    destruct (rd_fixes d) eqn:E; eexists _, _; econstructor; exact E.
Qed.

Lemma offers_sugg_total (q : request) : exists i v, offers_sugg q i v.
Proof.
  destruct q; try (eexists _, _; constructor; fail);
    destruct (rd_suggs d) eqn:E; eexists _, _; econstructor; exact E.
Qed.

End Proofs.
