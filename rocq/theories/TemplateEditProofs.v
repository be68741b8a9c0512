(** The edits of no-unnecessary-template-expression on the source text. *)
From Coq Require Import Bool List ZArith Lia Permutation Sorted.
From Verif Require Import Base JsText JsTemplate Fixer FixerSpec FixerProofs FixerDisjoint Template TemplateProofs TemplateValueProofs.
Import ListNotations.
Open Scope Z_scope.

Section Edits.
Variable hole : nat -> list Z.
Notation text := (text hole).

Lemma text_app a c : text (a ++ c) = text a ++ text c.
Proof.
  induction a as [|[x|i] a IH]; [reflexivity| |]; cbn [app JsTemplate.text]; rewrite IH; [reflexivity|].
  cbn [app]. now rewrite <- !app_assoc.
Qed.
Lemma text_C s : text (map C s) = s.
Proof. induction s as [|c s IH]; [reflexivity|]. cbn [map JsTemplate.text]. now rewrite IH. Qed.
Lemma zlen_app {A} (a c : list A) : zlen (a ++ c) = zlen a + zlen c.
Proof. unfold zlen. rewrite app_length. lia. Qed.
Lemma zlen_cons {A} (x : A) l : zlen (x :: l) = 1 + zlen l.
Proof. unfold zlen. cbn [List.length]. lia. Qed.
Lemma zlen_nil {A} : zlen (@nil A) = 0.
Proof. reflexivity. Qed.

(** The edits of one report in the order of the text; [next] is
    nextCharacterIsOpeningCurlyBrace after looking at the chunk behind the span. *)
Definition middle (x : expr) (next : bool) (expr_pos expr_end : Z) : list (fix_ Z) :=
  match literal_text x with
  | Some t => [mkFix (replacement t next) expr_pos expr_end]
  | None =>
      match x with
      | XNested _ _ raw more =>
          [mkFix [] expr_pos (expr_pos + 1)] ++
          (if next && ends_dollar (last_raw raw more) then [mkFix [92] (expr_end - 2) (expr_end - 2)] else []) ++
          [mkFix [] (expr_end - 1) expr_end]
      | _ => []
      end
  end.
Definition canon_span (prev : list Z) (pqe : Z) (s : span) (next : bool) : list (fix_ Z) :=
  let expr_pos := pqe + zlen (s_before s) in
  let expr_end := expr_pos + zlen (source_of hole (s_expr s)) in
  let lit_pos := expr_end + zlen (s_after s) in
  (if snd (item_rep (s_expr s) next) && ends_dollar prev then [mkFix [92; 36] (pqe - 3) (pqe - 2)] else []) ++
  [mkFix [] (pqe - 2) expr_pos] ++ middle (s_expr s) next expr_pos expr_end ++ [mkFix [] expr_end (lit_pos + 1)].
Definition next_pqe (pqe : Z) (s : span) : Z :=
  pqe + zlen (s_before s) + zlen (source_of hole (s_expr s)) + zlen (s_after s) + 1 + zlen (s_lit s) + 2.
Fixpoint canon (prev : list Z) (pqe : Z) (l : list span) (chs : list bool) : list (list (fix_ Z)) :=
  match l, chs with
  | s :: rest, ch :: chs =>
      let next := fst (go (s_lit s) rest) in
      let next := if empty (s_lit s) then next else has_prefix 123 (s_lit s) in
      (if ch && unnecessary s then [canon_span prev pqe s next] else []) ++ canon (s_lit s) (next_pqe pqe s) rest chs
  | _, _ => []
  end.

Lemma check_go l : forall prev pqe chs k,
  fst (check_spans hole prev pqe l) = fst (go prev l) /\
  Forall2 (fun d c => Permutation (mfixes d) c) (messages k (snd (check_spans hole prev pqe l)) chs) (canon prev pqe l chs).
Proof.
  induction l as [|s l IH]; intros prev pqe chs k; [split; [reflexivity|constructor]|].
  cbn [check_spans go]. change (pqe + zlen (s_before s) + zlen (source_of hole (s_expr s)) + zlen (s_after s) + 1 + zlen (s_lit s) + 2) with (next_pqe pqe s).
  destruct (check_spans hole (s_lit s) (next_pqe pqe s) l) as [nx ds] eqn:ED.
  assert (Enx : nx = fst (go (s_lit s) l)) by (specialize (IH (s_lit s) (next_pqe pqe s) [] k); rewrite ED in IH; apply IH).
  assert (IH2 : forall chs k, Forall2 (fun d c => Permutation (mfixes d) c) (messages k ds chs) (canon (s_lit s) (next_pqe pqe s) l chs)).
  { intros chs' k'. specialize (IH (s_lit s) (next_pqe pqe s) chs' k'). rewrite ED in IH. apply IH. }
  cbn [canon]. rewrite <- Enx. destruct (go (s_lit s) l) as [nx' ds'] eqn:EG. cbn [fst] in Enx. subst nx'.
  destruct (unnecessary s) eqn:UN.
  2:{ split; [reflexivity|]. destruct chs as [|ch chs]; [constructor|]. cbn [snd messages]. rewrite andb_false_r. apply IH2. }
  set (next1 := if empty (s_lit s) then nx else has_prefix 123 (s_lit s)).
  unfold canon_span, middle.
  destruct (item_rep (s_expr s) next1) as [its next2] eqn:ER. cbn [snd].
  set (p1 := pqe + zlen (s_before s)). set (p2 := p1 + zlen (source_of hole (s_expr s))). set (p3 := p2 + zlen (s_after s)).
  unfold item_rep in ER.
  assert (FIN : forall fs mid (nx2 : bool), Permutation fs (mkFix [] (pqe - 2) p1 :: mid ++ [mkFix [] p2 (p3 + 1)]) ->
     Forall2 (fun d c => Permutation (mfixes d) c)
       (messages k (Some (if nx2 && ends_dollar prev then fs ++ [mkFix [92; 36] (pqe - 3) (pqe - 2)] else fs) :: ds) chs)
       match chs with [] => [] | ch :: chs0 => (if ch && true then
         [(if nx2 && ends_dollar prev then [mkFix [92; 36] (pqe - 3) (pqe - 2)] else []) ++ [mkFix [] (pqe - 2) p1] ++ mid ++ [mkFix [] p2 (p3 + 1)]] else []) ++ canon (s_lit s) (next_pqe pqe s) l chs0 end).
  { intros fs mid nx2 P. destruct chs as [|ch chs]; [constructor|]. cbn [messages]. rewrite andb_true_r.
    apply Forall2_app; [|apply IH2]. destruct ch; [|constructor]. constructor; [|constructor]. cbn [mfixes].
    destruct (nx2 && ends_dollar prev); cbn [app]; [|exact P].
    etransitivity; [apply Permutation_app_comm|]. cbn [app]. now constructor. }
  destruct (literal_text (s_expr s)) as [t|] eqn:EL.
  - injection ER as <- <-. split; [reflexivity|]. cbn [snd]. apply FIN. cbn [app]. constructor. constructor.
  - destruct (s_expr s) as [q raw|raw|src t|p f|t|n|head i raw more|src] eqn:EX; try discriminate;
      try (injection ER as <- <-; split; [reflexivity|]; cbn [snd]; apply FIN; cbn [app]; reflexivity).
    injection ER as <- <-. split; [reflexivity|]. cbn [snd]. apply FIN.
    apply perm_skip. etransitivity; [apply Permutation_cons_append|].
    destruct (next1 && ends_dollar (last_raw raw more)); cbn [app]; [apply perm_swap|reflexivity].
Qed.

Lemma rw_at (t : list Z) p q del rest es out : q = p + zlen del -> rewrites q rest es out -> rewrites p (del ++ rest) (mkFix t p q :: es) (t ++ out).
Proof. intros -> R. apply (rw_edit p del rest (mkFix t p (p + zlen del)) es out); auto. Qed.
Lemma rw_del p q (del : list Z) rest es out : q = p + zlen del -> rewrites q rest es out -> rewrites p (del ++ rest) (mkFix [] p q :: es) out.
Proof. apply (rw_at []). Qed.
Lemma rw_keep_at keep p q rest (es : list (fix_ Z)) out : q = p + zlen keep -> rewrites q rest es out -> rewrites p (keep ++ rest) es (keep ++ out).
Proof. intros -> R. now apply rewrites_keep_app. Qed.

Lemma middle_rw x next p q rest es out : literal_text x <> None \/ (exists h i raw more, x = XNested h i raw more) \/ (exists w, x = XWord w) \/ (exists n, x = XName n) ->
  q = p + zlen (source_of hole x) -> rewrites q rest es out ->
  rewrites p (source_of hole x ++ rest) (middle x next p q ++ es) (text (fst (item_rep x next)) ++ out).
Proof.
  intros K -> R. unfold middle, item_rep. destruct (literal_text x) as [t|] eqn:EL.
  - cbn [fst app]. rewrite text_C. now apply rw_at.
  - destruct K as [K|[(h & i & raw & more & ->)|[(w & ->)|(n & ->)]]]; [easy| | |].
    + cbn [source_of] in *. destruct (chunks_last h i raw more) as (p' & Ep). set (its := chunks h ((i, raw) :: more)) in *.
      rewrite zlen_cons, zlen_app, zlen_cons, zlen_nil in *. cbn [app]. rewrite <- !app_assoc. cbn [app].
      apply (rw_del p (p + 1) [96] (text its ++ 96 :: rest)); [reflexivity|].
      destruct (next && ends_dollar (last_raw raw more)) eqn:D; cbn [fst app].
      * apply andb_prop in D. destruct D as [_ D]. destruct (fwd_removelast _ D) as (a & A). rewrite A, map_app in Ep. cbn [map] in Ep.
        rewrite app_assoc in Ep. remember ((p' ++ [H (last (map fst more) i)]) ++ map C a) as its0. rewrite Ep in R |- *. rewrite removelast_snoc. rewrite !text_app. cbn [JsTemplate.text].
        rewrite text_app, zlen_app in R. cbn [JsTemplate.text] in R. rewrite zlen_cons, zlen_nil in R.
        set (T := text its0) in *. rewrite zlen_app, zlen_cons, zlen_nil.
        rewrite <- !app_assoc. apply rw_keep_at with (q := p + 1 + zlen T); [reflexivity|]. cbn [app].
        replace (p + (1 + (zlen T + (1 + 0) + (1 + 0))) - 2) with (p + 1 + zlen T) by lia.
        apply (rw_at [92] (p + 1 + zlen T) (p + 1 + zlen T) []); [rewrite zlen_nil; lia|].
        apply rw_keep.
        replace (p + (1 + (zlen T + (1 + 0) + (1 + 0))) - 1) with (p + 1 + zlen T + 1) by lia.
        apply (rw_del _ _ [96]); [change (zlen [96]) with 1; lia|].
        match goal with |- rewrites ?a _ _ _ => match type of R with rewrites ?c _ _ _ => replace a with c by lia end end; exact R.
      * apply rw_keep_at with (q := p + 1 + zlen (text its)); [reflexivity|].
        replace (p + (1 + (zlen (text its) + (1 + 0))) - 1) with (p + 1 + zlen (text its)) by lia.
        apply (rw_del _ _ [96]); [change (zlen [96]) with 1; lia|exact R].
    + cbn [fst app source_of] in *. rewrite text_C. now apply rewrites_keep_app.
    + cbn [fst app source_of] in *. rewrite text_C. now apply rewrites_keep_app.
Qed.

Lemma unnecessary_kind s : unnecessary s = true ->
  literal_text (s_expr s) <> None \/ (exists h i raw more, s_expr s = XNested h i raw more) \/ (exists w, s_expr s = XWord w) \/ (exists n, s_expr s = XName n).
Proof.
  unfold unnecessary. destruct (s_comment s); [discriminate|]. destruct (s_expr s); cbn [literal_text]; intros X; try (left; discriminate); eauto 10.
Qed.

Lemma canon_rw l : forall prev pqe chs post, List.length chs = List.length l ->
  (forall s, In s l -> hole (s_id s) = s_before s ++ source_of hole (s_expr s) ++ s_after s) ->
  let '(next, ds) := go prev l in
  let '(b, its) := tail l ds chs in
  rewrites (pqe - 2 - zlen prev) (prev ++ text (orig l) ++ post) (concat (canon prev pqe l chs)) (esc_last b prev ++ text its ++ post).
Proof.
  induction l as [|s l IH]; intros prev pqe chs post LC HH.
  - cbn [go tail]. destruct chs; [|discriminate]. constructor.
  - destruct chs as [|ch chs]; [discriminate|]. injection LC as LC.
    specialize (IH (s_lit s) (next_pqe pqe s) chs post LC (fun s' I => HH s' (or_intror I))).
    cbn [go canon]. destruct (go (s_lit s) l) as [next ds]. cbn [fst].
    set (next1 := if empty (s_lit s) then next else has_prefix 123 (s_lit s)).
    assert (EQ : text (orig (s :: l)) ++ post = [36; 123] ++ (s_before s ++ source_of hole (s_expr s) ++ s_after s) ++ [125] ++ (s_lit s ++ text (orig l) ++ post)).
    { cbn [orig flat_map]. fold (orig l). cbn [app JsTemplate.text]. rewrite (HH s) by now left. rewrite !text_app, text_C. cbn [app].
      rewrite <- !app_assoc. cbn [app]. rewrite <- ?app_assoc. reflexivity. }
    assert (POS : next_pqe pqe s - 2 - zlen (s_lit s) = pqe + zlen (s_before s) + zlen (source_of hole (s_expr s)) + zlen (s_after s) + 1) by (unfold next_pqe; lia).
    assert (KEPT : forall d, let '(b, its) := tail (s :: l) (d :: ds) (false :: chs) in
      rewrites (pqe - 2 - zlen prev) (prev ++ text (orig (s :: l)) ++ post) (concat (canon (s_lit s) (next_pqe pqe s) l chs)) (esc_last b prev ++ text its ++ post)).
    { intros d. cbn [tail]. destruct (tail l ds chs) as [b its]. cbn [esc_last]. rewrite EQ.
      cbn [JsTemplate.text]. rewrite text_app, text_C. rewrite (HH s) by now left. rewrite <- !app_assoc.
      apply rw_keep_at with (q := pqe - 2); [lia|].
      apply (rw_keep_at [36; 123] _ pqe); [change (zlen [36; 123]) with 2; lia|].
      apply (rw_keep_at (s_before s) _ (pqe + zlen (s_before s))); [lia|].
      apply (rw_keep_at (source_of hole (s_expr s)) _ (pqe + zlen (s_before s) + zlen (source_of hole (s_expr s)))); [lia|].
      apply (rw_keep_at (s_after s) _ (pqe + zlen (s_before s) + zlen (source_of hole (s_expr s)) + zlen (s_after s))); [lia|].
      apply (rw_keep_at [125] _ (pqe + zlen (s_before s) + zlen (source_of hole (s_expr s)) + zlen (s_after s) + 1)); [reflexivity|].
      rewrite <- POS. exact IH. }
    destruct (unnecessary s) eqn:UN.
    2:{ rewrite andb_false_r. cbn [app]. specialize (KEPT None). cbn [tail] in *. destruct (tail l ds chs). destruct ch; exact KEPT. }
    destruct ch; cbn [andb app].
    2:{ specialize (KEPT (Some (snd (item_rep (s_expr s) next1) && ends_dollar prev, fst (item_rep (s_expr s) next1)))). fold next1.
        destruct (item_rep (s_expr s) next1) as [rep next2]. cbn [fst snd] in KEPT. exact KEPT. }
    clear KEPT. cbn [concat]. unfold canon_span. fold next1.
    pose proof (middle_rw (s_expr s) next1) as MR.
    destruct (item_rep (s_expr s) next1) as [rep next2]. cbn [fst snd tail] in *.
    destruct (tail l ds chs) as [b its].
    rewrite EQ. rewrite <- !app_assoc. cbn [app].
    rewrite !text_app, text_C. rewrite <- !app_assoc.
    set (p1 := pqe + zlen (s_before s)) in *. set (p2 := p1 + zlen (source_of hole (s_expr s))) in *. set (p3 := p2 + zlen (s_after s)) in *.
    assert (REST : rewrites (pqe - 2) (36 :: 123 :: s_before s ++ source_of hole (s_expr s) ++ s_after s ++ 125 :: s_lit s ++ text (orig l) ++ post)
       (mkFix [] (pqe - 2) p1 :: middle (s_expr s) next1 p1 p2 ++ mkFix [] p2 (p3 + 1) :: concat (canon (s_lit s) (next_pqe pqe s) l chs))
       (text rep ++ esc_last b (s_lit s) ++ text its ++ post)).
    { apply (rw_del (pqe - 2) p1 (36 :: 123 :: s_before s)); [rewrite !zlen_cons; unfold p1; lia|].
      apply MR; [now apply unnecessary_kind|reflexivity|].
      change (s_after s ++ 125 :: s_lit s ++ text (orig l) ++ post) with (s_after s ++ [125] ++ s_lit s ++ text (orig l) ++ post). rewrite app_assoc.
      apply (rw_del p2 (p3 + 1)); [rewrite zlen_app; change (zlen [125]) with 1; unfold p3; lia|]. fold p1 p2 p3 in POS. rewrite <- POS. exact IH. }
    destruct (next2 && ends_dollar prev) eqn:D; cbn [esc_last app].
    + apply andb_prop in D. destruct D as [_ D]. destruct (fwd_removelast _ D) as (a & ->). rewrite removelast_snoc.
      rewrite zlen_app. change (zlen [36]) with 1. rewrite <- !app_assoc. apply rw_keep_at with (q := pqe - 3); [lia|].
      apply (rw_at [92; 36] (pqe - 3) (pqe - 2) [36]); [change (zlen [36]) with 1; lia|]. exact REST.
    + apply rw_keep_at with (q := pqe - 2); [lia|]. exact REST.
Qed.

Lemma ascending_join l r (hi : Z) : Forall (fun f : fix_ Z => fend f <= hi /\ fpos f + 1 <= hi) l -> ascending hi r ->
  forall lo, lo <= hi -> ascending lo l -> ascending lo (l ++ r).
Proof.
  intros F R. induction F as [|f l [X1 X2] _ IH]; intros lo L A; cbn [app].
  - eapply ascending_weak; eauto.
  - destruct A as (A1 & A2 & A3). repeat split; auto. apply IH; [lia|auto].
Qed.

Lemma canon_ascending l : forall prev pqe chs,
  (forall s, In s l -> hole (s_id s) = s_before s ++ source_of hole (s_expr s) ++ s_after s /\ source_of hole (s_expr s) <> []) ->
  ascending (pqe - 2 - zlen prev) (concat (canon prev pqe l chs)) /\
  Forall (fun f => fend f <= pqe - 2 + zlen (text (orig l))) (concat (canon prev pqe l chs)) /\
  Forall (fun c => c <> []) (canon prev pqe l chs).
Proof.
  induction l as [|s l IH]; intros prev pqe chs HH; [cbn; auto|].
  destruct chs as [|ch chs]; [cbn; auto|].
  destruct (IH (s_lit s) (next_pqe pqe s) chs (fun s' I => HH s' (or_intror I))) as (I1 & I2 & I3).
  destruct (HH s (or_introl eq_refl)) as [HS NE].
  cbn [canon]. set (next1 := if empty (s_lit s) then fst (go (s_lit s) l) else has_prefix 123 (s_lit s)).
  assert (Z1 := zlen_nonneg _ prev). assert (Z2 := zlen_nonneg _ (s_before s)). assert (Z3 := zlen_nonneg _ (s_after s)). assert (Z4 := zlen_nonneg _ (s_lit s)).
  assert (Z5 : 1 <= zlen (source_of hole (s_expr s))) by (destruct (source_of hole (s_expr s)); [easy|rewrite zlen_cons; assert (Z6 := zlen_nonneg _ l0); lia]).
  assert (TL : zlen (text (orig (s :: l))) = 2 + zlen (s_before s) + zlen (source_of hole (s_expr s)) + zlen (s_after s) + 1 + zlen (s_lit s) + zlen (text (orig l))).
  { cbn [orig flat_map]. fold (orig l). cbn [app JsTemplate.text]. rewrite HS. rewrite text_app, text_C. cbn [app].
    rewrite !zlen_cons, !zlen_app, zlen_cons, !zlen_app. lia. }
  assert (Z6 := zlen_nonneg _ (text (orig l))).
  assert (I2' : Forall (fun f => fend f <= pqe - 2 + zlen (text (orig (s :: l)))) (concat (canon (s_lit s) (next_pqe pqe s) l chs))).
  { eapply Forall_impl; [|exact I2]. intros f. cbn beta. unfold next_pqe. rewrite TL. lia. }
  assert (LE : pqe - 2 - zlen prev <= next_pqe pqe s - 2 - zlen (s_lit s)) by (unfold next_pqe; lia).
  destruct (ch && unnecessary s) eqn:UN; cbn [app concat].
  2:{ repeat split; auto. eapply ascending_weak; eauto. }
  unfold canon_span, next_pqe in *.
  set (p1 := pqe + zlen (s_before s)) in *. set (p2 := p1 + zlen (source_of hole (s_expr s))) in *. set (p3 := p2 + zlen (s_after s)) in *.
  assert (MID : Forall (fun f => fend f <= p2 /\ fpos f + 1 <= p2) (middle (s_expr s) next1 p1 p2) /\ ascending p1 (middle (s_expr s) next1 p1 p2)).
  { unfold middle. destruct (literal_text (s_expr s)) as [t|].
    - split; [repeat constructor; cbn [fpos fend]; lia|]. cbn. repeat split; try lia.
    - destruct (s_expr s) as [q raw|raw|src t|p f|t|n|head i raw more|src] eqn:EX; cbn; auto.
      assert (Z7 := zlen_nonneg _ (text (chunks head ((i, raw) :: more)))).
      assert (L2 : p2 = p1 + zlen (text (chunks head ((i, raw) :: more))) + 2).
      { unfold p2. cbn [source_of]. rewrite zlen_cons, zlen_app. change (zlen [96]) with 1. lia. }
      destruct (next1 && ends_dollar (last_raw raw more)) eqn:D; cbn [app].
      + apply andb_prop in D. destruct D as [_ D]. destruct (fwd_removelast _ D) as (a & A).
        destruct (chunks_last head i raw more) as (p' & Ep). rewrite A in Ep.
        assert (L1 : 1 <= zlen (text (chunks head ((i, raw) :: more)))).
        { rewrite Ep, text_app, text_C, !zlen_app. change (zlen [36]) with 1.
          pose proof (zlen_nonneg _ (text (p' ++ [H (last (map fst more) i)]))). pose proof (zlen_nonneg _ a). lia. }
        split; [repeat constructor; cbn [fpos fend]; lia|]. cbn. repeat split; lia.
      + split; [repeat constructor; cbn [fpos fend]; lia|]. cbn. repeat split; lia. }
  destruct MID as [M1 M2].
  assert (REST : ascending (pqe - 2) (mkFix [] (pqe - 2) p1 :: middle (s_expr s) next1 p1 p2 ++ [mkFix [] p2 (p3 + 1)])).
  { cbn [ascending fpos fend]. repeat split; try (unfold p1; lia).
    replace (Z.max p1 (pqe - 2 + 1)) with p1 by (unfold p1; lia).
    eapply ascending_join with (hi := p2); auto; [|unfold p2; lia]. cbn. repeat split; unfold p3; lia. }
  assert (BND : Forall (fun f : fix_ Z => fend f <= p3 + 1 /\ fpos f + 1 <= p3 + 1) (mkFix [] (pqe - 2) p1 :: middle (s_expr s) next1 p1 p2 ++ [mkFix [] p2 (p3 + 1)])).
  { constructor; [cbn [fpos fend]; unfold p3, p2, p1; lia|]. apply Forall_app. split.
    - eapply Forall_impl; [|exact M1]. intros f. cbn beta. unfold p3. lia.
    - repeat constructor; cbn [fpos fend]; unfold p3; lia. }
  assert (ALL : ascending (pqe - 2 - zlen prev) ((if snd (item_rep (s_expr s) next1) && ends_dollar prev then [mkFix [92; 36] (pqe - 3) (pqe - 2)] else []) ++ mkFix [] (pqe - 2) p1 :: middle (s_expr s) next1 p1 p2 ++ [mkFix [] p2 (p3 + 1)]) /\
    Forall (fun f : fix_ Z => fend f <= p3 + 1 /\ fpos f + 1 <= p3 + 1) ((if snd (item_rep (s_expr s) next1) && ends_dollar prev then [mkFix [92; 36] (pqe - 3) (pqe - 2)] else []) ++ mkFix [] (pqe - 2) p1 :: middle (s_expr s) next1 p1 p2 ++ [mkFix [] p2 (p3 + 1)])).
  { destruct (snd (item_rep (s_expr s) next1) && ends_dollar prev) eqn:D; cbn [app].
    - apply andb_prop in D. destruct D as [_ D]. destruct (fwd_removelast _ D) as (a & A).
      assert (1 <= zlen prev) by (rewrite A, zlen_app; change (zlen [36]) with 1; pose proof (zlen_nonneg _ a); lia).
      split.
      + cbn [ascending fpos fend] in REST |- *. destruct REST as (R1 & R2 & R3). split; [lia|]. split; [lia|]. split; [lia|]. split; [lia|]. exact R3.
      + constructor; [cbn [fpos fend]; unfold p3, p2, p1; lia|auto].
    - split; [|auto]. eapply ascending_weak; [|exact REST]. lia. }
  destruct ALL as [ALL1 ALL2]. split; [|split].
  - eapply ascending_join with (hi := p3 + 1); auto; [|unfold p3, p2, p1; lia].
    replace (p3 + 1 + zlen (s_lit s) + 2 - 2 - zlen (s_lit s)) with (p3 + 1) in I1 by lia. exact I1.
  - apply Forall_app. split; [|exact I2'].
    eapply Forall_impl; [|exact ALL2]. intros f. cbn beta. unfold p3, p2, p1. rewrite TL. lia.
  - constructor; [|auto]. intros X; apply app_eq_nil in X; destruct X; discriminate.
Qed.
End Edits.
