(** The fixes of C51 (PropsDuplicateTypes.v) remove the constituent and one operator. *)
From Coq Require Import Bool List ZArith Lia Sorted Permutation.
From Verif Require Import Base Fixer FixOne DuplicateTypes DuplicateTypesSpec DuplicateTypesProofs.
Import ListNotations.
Open Scope Z_scope.

(** ** Two removals next to each other *)
Lemma sort2 {byte} (sf : list (fix_ byte) -> list (fix_ byte)) f g : correct_sort cmp_fix sf -> cmp_fix f g < 0 -> sf [f; g] = [f; g] /\ sf [g; f] = [f; g].
Proof.
  intros C L. assert (R : 0 < cmp_fix g f) by (unfold cmp_fix in *; destruct (Z.eqb_spec (fpos f - fpos g) 0), (Z.eqb_spec (fpos g - fpos f) 0); lia).
  assert (X : forall l, StronglySorted (fun x y => cmp_fix x y <= 0) l -> l <> [g; f]). { intros l S ->. inversion S as [|? ? _ F]; subst. inversion F; subst. cbn in *. lia. }
  split.
  - destruct (C [f; g]) as [P S]. apply Permutation_length_2_inv in P. destruct P as [P|P]; auto. destruct (X _ S P).
  - destruct (C [g; f]) as [P S]. apply Permutation_length_2_inv in P. destruct P as [P|P]; auto. destruct (X _ S P).
Qed.
Lemma removed2 (sf : list (fix_ item) -> list (fix_ item)) sm k pre u w post l : correct_sort cmp_fix sf -> correct_sort cmp_msg sm ->
  let f := remove (zlen pre) (zlen pre + zlen u) in let g := remove (zlen pre + zlen u) (zlen pre + zlen u + zlen w) in
  (l = [f; g] \/ l = [g; f]) -> 0 < zlen u \/ 0 < zlen w -> apply_rule_fixes sf sm (pre ++ u ++ w ++ post) [mkMsg k l] = Ok (pre ++ post, [], true).
Proof.
  intros C CM f g HL NE. assert (LT : cmp_fix f g < 0). { unfold f, g, remove, cmp_fix. cbn [fpos fend]. assert (0 <= zlen u) by (unfold zlen; lia). assert (0 <= zlen w) by (unfold zlen; lia). destruct (Z.eqb_spec (zlen pre - (zlen pre + zlen u)) 0); lia. }
  destruct (sort2 sf f g C LT) as [S1 S2]. assert (SL : sf l = [f; g]) by (destruct HL as [-> | ->]; auto).
  unfold apply_rule_fixes. cbn [split_msgs mfixes Fixer.mid]. destruct l as [|x l]; [destruct HL; discriminate|]. rewrite SL.
  destruct (CM [mkMsg k [f; g]]) as [MP _]. apply Permutation_length_1_inv in MP. rewrite MP. cbn [apply_loop mfixes]. rewrite (proj2 (Z.ltb_ge _ _)) by (cbn; unfold zlen; lia). cbn [write_fixes]. unfold f, g, remove. cbn [fpos fend ftext].
  assert (S0 : slice (pre ++ u ++ w ++ post) 0 (zlen pre) = Ok pre) by (pose proof (slice_mid [] pre (u ++ w ++ post)) as H; cbn [app] in H; exact H). rewrite S0. cbn [rbind].
  assert (S3 : slice (pre ++ u ++ w ++ post) (zlen pre + zlen u) (zlen pre + zlen u) = Ok []).
  { pose proof (slice_mid (pre ++ u) [] (w ++ post)) as H. rewrite <- app_assoc in H. cbn [app] in H. rewrite zlen_app in H. change (@zlen item []) with 0 in H. now rewrite Z.add_0_r in H. }
  rewrite S3. cbn [rbind].
  assert (T : slice_from (pre ++ u ++ w ++ post) (zlen pre + zlen u + zlen w) = Ok post).
  { unfold slice_from. pose proof (slice_mid (pre ++ u ++ w) post []) as H. rewrite app_nil_r, <- !app_assoc, !zlen_app in H. rewrite !zlen_app. rewrite !Z.add_assoc in *. exact H. }
  cbn [fst snd]. rewrite T. cbn [rbind]. now rewrite ?app_nil_r.
Qed.

(** ** Scanning *)
Lemma whole_app x y : whole x -> whole y -> whole (x ++ y).
Proof. induction 1 as [|a r N W IH|body r T H W IH]; intros Y; cbn [app]; auto; [constructor; auto|]. rewrite <- app_assoc. cbn [app]. apply wh_template; auto. Qed.
Lemma whole_bar i : whole [bar i].
Proof. constructor; [destruct i; discriminate|constructor]. Qed.
Lemma scans_all t i d l : scans (Op t i d l) -> forall x, In x l -> scans x.
Proof. cbn. induction l as [|y r IH]; intros S x []; [subst; apply S|]. apply IH; [apply S|auto]. Qed.
Lemma whole_joined i l : (forall x, In x l -> whole (print x)) -> whole (joined i l).
Proof.
  induction l as [|x r IH]; intros H; cbn [joined]; [constructor|]. apply whole_app; [apply H; now left|]. destruct r as [|y r]; [constructor|]. apply (whole_app [bar i]); [apply whole_bar|]. apply IH. intros z Z. apply H. now right.
Qed.
Lemma whole_print n : scans n -> whole (print n).
Proof.
  induction n as [t x|t n IH|t i d l IH] using tnode_ind'; intros S.
  - exact S.
  - cbn [print]. apply (whole_app [IOpen]); [constructor; [discriminate|constructor]|]. apply whole_app; auto. constructor; [discriminate|constructor].
  - rewrite print_op. apply whole_app; [destruct d; [apply whole_bar|constructor]|]. apply whole_joined. intros x X. rewrite Forall_forall in IH. apply IH; auto. eapply scans_all; eauto.
Qed.
Lemma whole_texts i l : (forall x, In x l -> scans x) -> whole (texts i l).
Proof.
  induction l as [|x r IH]; intros H; [constructor|]. unfold texts in *. cbn [map concat]. rewrite <- app_assoc. apply whole_app; [apply whole_print, H; now left|]. apply (whole_app [bar i]); [apply whole_bar|]. apply IH. intros y Y. apply H. now right.
Qed.
Lemma skipn_at {A} (x y : list A) : skipn (Z.to_nat (zlen x)) (x ++ y) = y.
Proof. unfold zlen. rewrite Nat2Z.id, skipn_app, skipn_all, Nat.sub_diag. reflexivity. Qed.
Lemma template_body body r : ~ In ITick body -> ~ In IHead body -> template (body ++ ITick :: r) = zlen body + 1.
Proof.
  induction body as [|x body IH]; intros T H; [reflexivity|]. cbn [app template]. rewrite IH by (intros X; first [apply T; now right|apply H; now right]). unfold zlen. cbn [length].
  destruct x; try lia; exfalso; [apply T|apply H]; now left.
Qed.
Lemma before_whole w : whole w -> forall A B pos fuel acc, zlen A + zlen w <= pos -> exists fuel' acc', (fuel <= fuel' + length w)%nat /\
  tokens_before fuel (A ++ w ++ B) (zlen A) pos acc = tokens_before fuel' (A ++ w ++ B) (zlen A + zlen w) pos acc'.
Proof.
  induction 1 as [|x r N W IH|body r NT NH W IH]; intros A B pos fuel acc L.
  - exists fuel, acc. cbn [length]. change (@zlen item []) with 0. rewrite Z.add_0_r. split; [lia|reflexivity].
  - destruct fuel as [|f]; [exists 0%nat, acc; split; [lia|reflexivity]|].
    assert (LX : zlen (x :: r) = 1 + zlen r) by (unfold zlen; cbn [length]; lia). assert (0 <= zlen r) by (unfold zlen; lia).
    assert (E : A ++ (x :: r) ++ B = (A ++ [x]) ++ r ++ B) by (rewrite <- app_assoc; reflexivity).
    assert (EA : zlen A + 1 = zlen (A ++ [x])) by (rewrite zlen_app; reflexivity).
    assert (ST : forall acc, exists fuel' acc', (S f <= fuel' + length (x :: r))%nat /\ tokens_before f (A ++ (x :: r) ++ B) (zlen A + 1) pos acc = tokens_before fuel' (A ++ (x :: r) ++ B) (zlen A + zlen (x :: r)) pos acc').
    { intros acc'. destruct (IH (A ++ [x]) B pos f acc') as (f' & ac & F & EQ); [rewrite <- EA; lia|]. exists f', ac. split; [cbn [length]; lia|]. rewrite E, EA, EQ. f_equal. rewrite <- EA. lia. }
    cbn [tokens_before]. destruct (Z.geb_spec (zlen A) pos) as [G|G]; [lia|].
    unfold scan at 1. rewrite skipn_at. cbn [app]. destruct x; try (now destruct N); try apply ST. destruct acc as [[fo pr] br]. apply ST.
  - destruct fuel as [|f]; [exists 0%nat, acc; split; [lia|reflexivity]|].
    set (tk := ITick :: body ++ [ITick]). assert (LT : zlen tk = zlen body + 2) by (unfold tk, zlen; cbn [length]; rewrite app_length; cbn [length]; lia).
    assert (E0 : ITick :: body ++ ITick :: r = tk ++ r) by (unfold tk; cbn [app]; now rewrite <- app_assoc). rewrite E0 in *. rewrite zlen_app in *.
    assert (0 <= zlen body) by (unfold zlen; lia). assert (0 <= zlen r) by (unfold zlen; lia).
    cbn [tokens_before]. destruct (Z.geb_spec (zlen A) pos) as [G|G]; [lia|].
    assert (SC : scan (A ++ (tk ++ r) ++ B) (zlen A) = (Some ITick, zlen (A ++ tk))).
    { unfold scan. rewrite skipn_at. unfold tk. cbn [app]. rewrite <- !app_assoc. cbn [app]. rewrite template_body by auto. f_equal. rewrite zlen_app. fold tk. lia. }
    rewrite SC. assert (E : A ++ (tk ++ r) ++ B = (A ++ tk) ++ r ++ B) by (now rewrite <- !app_assoc).
    destruct (IH (A ++ tk) B pos f acc) as (f' & ac & F & EQ); [rewrite zlen_app; lia|]. exists f', ac. split; [rewrite app_length; unfold tk; cbn [length]; lia|]. rewrite E, EQ. f_equal. rewrite zlen_app. lia.
Qed.
(** The operator before a constituent. *)
Lemma before_bar i w A B : whole w -> tokens_before (length (A ++ (w ++ [bar i]) ++ B)) (A ++ (w ++ [bar i]) ++ B) (zlen A) (zlen A + zlen w + 1) (false, 0, []) = (true, zlen A + zlen w, []).
Proof.
  intros W. destruct (before_whole w W A ([bar i] ++ B) (zlen A + zlen w + 1) (length (A ++ (w ++ [bar i]) ++ B)) (false, 0, [])) as (f & acc & F & E); [lia|]. rewrite <- !app_assoc in *. rewrite E.
  rewrite !app_length in F. cbn [length app] in F. destruct f as [|f]; [lia|]. cbn [tokens_before]. destruct (Z.geb_spec (zlen A + zlen w) (zlen A + zlen w + 1)) as [G|G]; [lia|].
  unfold scan. rewrite <- zlen_app. rewrite (app_assoc A w). rewrite skipn_at. rewrite zlen_app. cbn [app].
  assert (D : forall acc, tokens_before f ((A ++ w) ++ bar i :: B) (zlen A + zlen w + 1) (zlen A + zlen w + 1) acc = acc). { intros a. destruct f; cbn [tokens_before]; auto. destruct (Z.geb_spec (zlen A + zlen w + 1) (zlen A + zlen w + 1)); [auto|lia]. }
  destruct i; cbn [bar] in *; now rewrite D.
Qed.

(** ** The fix of one constituent *)
Lemma joined_mid i pre x post : joined i (pre ++ x :: post) = texts i pre ++ print x ++ match post with [] => [] | _ => bar i :: joined i post end.
Proof.
  induction pre as [|y pre IH]; [reflexivity|]. cbn [app joined]. destruct (pre ++ x :: post) as [|z r] eqn:E; [destruct pre; discriminate|]. rewrite IH. unfold texts. cbn [map concat]. now rewrite <- !app_assoc.
Qed.
Lemma joined_texts i pre post : post <> [] -> joined i (pre ++ post) = texts i pre ++ joined i post.
Proof.
  intros N. induction pre as [|y pre IH]; [reflexivity|]. cbn [app joined]. destruct (pre ++ post) as [|z r] eqn:E; [destruct pre, post; try discriminate; now destruct N|]. rewrite IH. unfold texts. cbn [map concat]. now rewrite <- !app_assoc.
Qed.
Lemma texts_last i pre : pre <> [] -> texts i pre = joined i pre ++ [bar i].
Proof.
  induction pre as [|y pre IH]; intros N; [now destruct N|]. unfold texts in *. cbn [map concat joined]. destruct pre as [|z r]; [cbn [map concat]; now rewrite !app_nil_r|]. rewrite IH by discriminate. rewrite <- !app_assoc. reflexivity.
Qed.
Theorem fix_one sf sm k A B t i d pre x post : correct_sort cmp_fix sf -> correct_sort cmp_msg sm -> (forall y, In y pre -> scans y) -> pre ++ post <> [] ->
  let text := A ++ print (Op t i d (pre ++ x :: post)) ++ B in
  let a := zlen A + zlen ((if d then [bar i] else []) ++ texts i pre) in
  exists l, fixes text (zlen A, zlen A + size (Op t i d (pre ++ x :: post))) a (a + size x) = Ok l /\
    apply_rule_fixes sf sm text [mkMsg k l] = Ok (A ++ print (Op t i d (pre ++ post)) ++ B, [], true).
Proof.
  intros C CM SC NE text a. set (lead := if d then [bar i] else [] : list item) in *.
  assert (BEFORE : forall w, whole w -> lead ++ texts i pre = w ++ [bar i] -> w ++ match post with [] => [] | _ => bar i :: joined i post end = print (Op t i d (pre ++ post)) ->
    exists l, fixes text (zlen A, zlen A + size (Op t i d (pre ++ x :: post))) a (a + size x) = Ok l /\ apply_rule_fixes sf sm text [mkMsg k l] = Ok (A ++ print (Op t i d (pre ++ post)) ++ B, [], true)).
  { intros w W E E2. assert (ET : text = A ++ (w ++ [bar i]) ++ print x ++ (match post with [] => [] | _ => bar i :: joined i post end) ++ B).
    { unfold text. rewrite print_op, joined_mid. fold lead. rewrite <- E, <- !app_assoc. reflexivity. }
    assert (EA : a = zlen A + zlen w + 1) by (unfold a; rewrite E, zlen_app; change (zlen [bar i]) with 1; lia).
    exists [remove a (a + size x); remove (zlen A + zlen w) (zlen A + zlen w + 1)]. split.
    - unfold fixes. cbn [fst snd]. rewrite EA, ET at 1. rewrite ET at 1. rewrite before_bar by auto. reflexivity.
    - rewrite ET, <- E2. rewrite <- (app_assoc w [bar i]). rewrite (app_assoc A w). rewrite removed2; auto; [now rewrite <- !app_assoc| |left; change (zlen [bar i]) with 1; lia].
      right. rewrite EA, zlen_app. change (zlen [bar i]) with 1. unfold size. reflexivity. }
  destruct (list_eq_dec Nat.eq_dec [length pre] [0%nat]) as [E0|E0].
  - injection E0 as E0. apply length_zero_iff_nil in E0. subst pre. cbn [app] in *. destruct post as [|y post]; [now destruct NE|]. destruct d.
    + apply (BEFORE []); [constructor|reflexivity|]. rewrite print_op. reflexivity.
    + assert (JM : joined i (x :: y :: post) = print x ++ bar i :: joined i (y :: post)) by reflexivity.
      subst lead. cbn [app] in *. change (zlen (texts i [])) with 0 in a. unfold a in *. rewrite Z.add_0_r in *.
      assert (ET : text = A ++ print x ++ [bar i] ++ joined i (y :: post) ++ B). { unfold text. rewrite print_op. cbn [app]. rewrite JM. now rewrite <- !app_assoc. }
      exists [remove (zlen A) (zlen A + size x); remove (zlen A + size x) (zlen A + size x + 1)]. split.
      * unfold fixes. cbn [fst snd]. assert (TB : forall f acc, tokens_before f text (zlen A) (zlen A) acc = acc). { intros f acc. destruct f; cbn [tokens_before]; auto. destruct (Z.geb_spec (zlen A) (zlen A)); [auto|lia]. }
        rewrite TB. cbn [tokens_after].
        replace (size (Op t i false (x :: y :: post))) with (size x + zlen (bar i :: joined i (y :: post))) by (unfold size at 2; rewrite print_op; cbn [app]; now rewrite JM, zlen_app).
        assert (0 < zlen (bar i :: joined i (y :: post))) by (unfold zlen; cbn [length]; lia). destruct (Z.geb_spec (zlen A + size x) (zlen A + (size x + zlen (bar i :: joined i (y :: post))))) as [G|G]; [lia|].
        assert (SCN : scan text (zlen A + size x) = (Some (bar i), zlen A + size x + 1)). { unfold scan. unfold size at 1. rewrite <- zlen_app, ET, (app_assoc A (print x)), skipn_at. cbn [app]. destruct i; reflexivity. }
        rewrite SCN. destruct i; reflexivity.
      * rewrite ET. rewrite print_op. cbn [app]. change (bar i :: joined i (y :: post) ++ B) with ([bar i] ++ joined i (y :: post) ++ B). rewrite removed2; auto. right. change (zlen [bar i]) with 1. lia.
  - assert (NP : pre <> []) by (intros ->; now destruct E0).
    apply (BEFORE (lead ++ joined i pre)).
    + apply whole_app; [subst lead; destruct d; [apply whole_bar|constructor]|]. apply whole_joined. intros y Y. apply whole_print; auto.
    + rewrite (texts_last i pre NP). now rewrite <- app_assoc.
    + rewrite print_op. fold lead. rewrite <- app_assoc. f_equal. destruct post as [|y post]; [now rewrite !app_nil_r|]. rewrite joined_texts by discriminate. rewrite (texts_last i pre NP), <- app_assoc. reflexivity.
Qed.

(** ** The text around a constituent *)
Lemma filled_op t i d l : filled (Op t i d l) <-> l <> [] /\ forall x, In x l -> filled x.
Proof.
  cbn [filled]. split; intros [N H]; split; auto.
  - clear N. induction l as [|y r IH]; intros x X; [destruct X|]. destruct X as [<-|X]; [apply H|apply IH; auto; apply H].
  - clear N. induction l as [|y r IH]; auto. split; [apply H; now left|apply IH; intros x X; apply H; now right].
Qed.
Lemma without_id gone inter : forall n p, (forall i r, gone (p ++ i :: r) = false) -> without gone inter p n = n.
Proof.
  induction n as [t x|t n IH|t i d l IH] using tnode_ind'; intros p G; auto.
  - cbn [without]. now rewrite IH.
  - rewrite without_op. destruct (Bool.eqb inter i); auto. f_equal. generalize 0%nat. induction IH as [|x r HX HR IHr]; intros k; auto. cbn [kept]. rewrite G, HX, IHr; auto. intros j q. rewrite <- app_assoc. apply G.
Qed.
Lemma kept_app gone inter p l m : forall i, kept gone inter p i (l ++ m) = kept gone inter p i l ++ kept gone inter p (i + length l) m.
Proof. induction l as [|x l IH]; intros i; cbn [app kept length]; [now rewrite Nat.add_0_r|]. rewrite IH. replace (S i + length l)%nat with (i + S (length l))%nat by lia. now destruct (gone (p ++ [i])). Qed.
Lemma kept_id gone inter p l : forall i, (forall k r, (i <= k < i + length l)%nat -> gone (p ++ k :: r) = false) -> kept gone inter p i l = l.
Proof.
  induction l as [|x l IH]; intros i G; auto. cbn [kept]. rewrite G by (cbn [length]; lia). rewrite IH by (intros k r K; apply G; cbn [length]; lia). f_equal. apply without_id. intros k r. rewrite <- app_assoc. apply G. cbn [length]. lia.
Qed.
Lemma only_refl q : only q q = true.
Proof. unfold only. now destruct (list_eq_dec Nat.eq_dec q q). Qed.
Lemma only_diff q r : q <> r -> only q r = false.
Proof. unfold only. now destruct (list_eq_dec Nat.eq_dec q r). Qed.
Lemma without_this inter p t d pre x post : without (only (p ++ [length pre])) inter p (Op t inter d (pre ++ x :: post)) = Op t inter d (pre ++ post).
Proof.
  rewrite without_op, Bool.eqb_reflx. f_equal. rewrite kept_app. cbn [kept Nat.add]. rewrite only_refl. f_equal; apply kept_id; intros k r K; apply only_diff; intros E; apply app_inv_head in E; injection E as E _; lia.
Qed.
Lemma without_inside inter p t d pre x post j r : let q := p ++ [length pre] in
  without (only (q ++ j :: r)) inter p (Op t inter d (pre ++ x :: post)) = Op t inter d (pre ++ without (only (q ++ j :: r)) inter q x :: post).
Proof.
  intros q. unfold q. rewrite without_op, Bool.eqb_reflx. f_equal. rewrite kept_app. cbn [kept Nat.add]. rewrite only_diff by (intros E; rewrite <- app_assoc in E; apply app_inv_head in E; discriminate).
  f_equal; [|f_equal]; apply kept_id; intros k s K; apply only_diff; intros E; rewrite <- app_assoc in E; apply app_inv_head in E; injection E as E _; lia.
Qed.
Lemma peeled_text n k m : peeled n k m -> (scans n -> scans m) /\ (forall gone inter p, filled (without gone inter p n) -> filled (without gone inter p m)) /\ exists A B, zlen A = Z.of_nat k /\ print n = A ++ print m ++ B /\ forall gone inter p, print (without gone inter p n) = A ++ print (without gone inter p m) ++ B.
Proof.
  induction 1 as [n|t n k m P (S & FI & A & B & L & E1 & E2)].
  - split; [auto|split; auto]. exists [], []. repeat split; intros; cbn [app]; now rewrite app_nil_r.
  - split; [auto|split; [intros gone inter p; cbn [without filled]; apply FI|]]. exists (IOpen :: A), (B ++ [IClose]). repeat split.
    + unfold zlen in *. cbn [length]. lia.
    + cbn [print]. rewrite E1. cbn [app]. now rewrite <- !app_assoc.
    + intros gone inter p. cbn [without print]. rewrite E2. cbn [app]. now rewrite <- !app_assoc.
Qed.
Lemma directly_text inter n pos p q x a par la : directly inter n pos p q x a par la -> exists A B t d pre post, q = p ++ [length pre] /\ la = lastp post /\
  (scans n -> forall y, In y (pre ++ x :: post) -> scans y) /\ print n = A ++ print (Op t inter d (pre ++ x :: post)) ++ B /\
  par = (pos + zlen A, pos + zlen A + size (Op t inter d (pre ++ x :: post))) /\ a = pos + zlen A + zlen ((if d then [bar inter] else []) ++ texts inter pre) /\
  (forall gone, filled (without gone inter p n) -> filled (without gone inter p (Op t inter d (pre ++ x :: post)))) /\
  forall gone, print (without gone inter p n) = A ++ print (without gone inter p (Op t inter d (pre ++ x :: post))) ++ B.
Proof.
  intros (k & t & d & pre & post & P & -> & -> & -> & ->). destruct (peeled_text _ _ _ P) as (S & FI & A & B & L & E1 & E2). exists A, B, t, d, pre, post. rewrite L. split; [reflexivity|]. split; [reflexivity|]. split; [|repeat split; auto].
  intros H y Y. eapply scans_all; eauto.
Qed.
Lemma looked_text inter first n pos q x a par la : looked inter first n pos q x a par la -> exists A B p t d pre post, q = p ++ [length pre] /\ la = lastp post /\
  (scans n -> forall y, In y (pre ++ x :: post) -> scans y) /\ print n = A ++ print (Op t inter d (pre ++ x :: post)) ++ B /\
  par = (pos + zlen A, pos + zlen A + size (Op t inter d (pre ++ x :: post))) /\ a = pos + zlen A + zlen ((if d then [bar inter] else []) ++ texts inter pre) /\
  print (without (only q) inter [] n) = A ++ print (Op t inter d (pre ++ post)) ++ B /\
  (filled (without (only q) inter [] n) -> filled (Op t inter d (pre ++ post))) /\
  (forall j r, filled (without (only (q ++ j :: r)) inter [] n) -> filled (without (only (q ++ j :: r)) inter q x)) /\
  forall j r, print (without (only (q ++ j :: r)) inter [] n) = A ++ print (Op t inter d (pre ++ without (only (q ++ j :: r)) inter q x :: post)) ++ B.
Proof.
  induction 1 as [q x a par la D|q x a par la r y a' par' la' K IH F D]; destruct (directly_text _ _ _ _ _ _ _ _ _ D) as (A & B & t & d & pre & post & E1 & E2 & SC & E3 & E4 & E5 & FI & E6).
  - exists A, B, [], t, d, pre, post. subst q. split; [reflexivity|]. split; [exact E2|]. split; [exact SC|]. split; [exact E3|]. split; [exact E4|]. split; [exact E5|]. split; [|split; [|split]].
    + now rewrite E6, without_this.
    + intros H. apply FI in H. now rewrite without_this in H.
    + intros j r H. apply FI in H. rewrite without_inside in H. apply filled_op in H. apply H. apply in_or_app. right. now left.
    + intros j r. now rewrite E6, without_inside.
  - destruct IH as (A' & B' & p' & t' & d' & pre' & post' & F1 & F2 & SC' & F3 & F4 & F5 & F6 & FI1 & FI2 & F7).
    set (lead' := if d' then [bar inter] else [] : list item) in *.
    set (tail' := match post' with [] => [] | _ => bar inter :: joined inter post' end : list item).
    assert (MID : forall z, print (Op t' inter d' (pre' ++ z :: post')) = lead' ++ texts inter pre' ++ print z ++ tail') by (intros z; now rewrite print_op, joined_mid).
    exists (A' ++ lead' ++ texts inter pre' ++ A), (B ++ tail' ++ B'), q, t, d, pre, post.
    assert (LEN : pos + zlen (A' ++ lead' ++ texts inter pre' ++ A) = a + zlen A) by (rewrite F5; fold lead'; rewrite !zlen_app; lia).
    assert (WI : forall j s, without (only (q ++ length pre :: j :: s)) inter q (Op t inter d (pre ++ y :: post)) = Op t inter d (pre ++ without (only (q ++ length pre :: j :: s)) inter (q ++ [length pre]) y :: post)).
    { intros j s. pose proof (without_inside inter q t d pre y post j s) as WI. cbv zeta in WI. rewrite <- app_assoc in WI. exact WI. }
    subst r. split; [reflexivity|]. split; [exact E2|]. split; [|split; [|split; [|split; [|split; [|split; [|split]]]]]].
    + intros H z Z. apply (SC (SC' H x ltac:(apply in_or_app; right; now left)) z Z).
    + rewrite F3, MID, E3. now rewrite <- !app_assoc.
    + now rewrite LEN.
    + now rewrite LEN.
    + rewrite F7, MID, E6, without_this. now rewrite <- !app_assoc.
    + intros H. apply FI2, FI in H. now rewrite without_this in H.
    + intros j s H. rewrite <- app_assoc in *. cbn [app] in *. apply FI2, FI in H. rewrite WI in H. apply filled_op in H. apply H. apply in_or_app. right. now left.
    + intros j s. rewrite <- app_assoc. cbn [app]. rewrite F7, MID, E6, WI. now rewrite <- !app_assoc.
Qed.
