(** Proofs about the text of snapshots. *)
From Coq Require Import Bool Arith Ascii String List Lia.
From Verif Require Import Base.
From Verif Require Import SourceUnderline SourceUnderlineSpec SourceUnderlineProofs PropsSourceUnderline SnapshotText SnapshotTextSpec.
Import ListNotations.
Local Open Scope list_scope.

Lemma place_writes p : writes p (place p).
Proof. unfold place. replace (S (fst p)) with (fst p + 1) by lia. replace (S (snd p)) with (snd p + 1) by lia. exists (itoa (fst p + 1)), (itoa (snd p + 1)). split; [apply C114_number|]. split; [apply C114_number|reflexivity]. Qed.
Lemma span_spans code position from to : spans code from to position (span code position from to).
Proof.
  destruct position as [f|]; [|constructor]. unfold span. eapply spans_file; [apply C114_start| |apply place_writes|apply place_writes].
  destruct (Nat.ltb_spec (start_of code from to) to); [left|right]; lia.
Qed.
Definition under (code : bstr) (f : nat -> nat * nat) (marker : ascii) (label : bstr) (from to : nat) : bstr := render code f marker label from to.
Lemma annotated_source code d marker label from to : source (under code) d marker label from to (annotated code (d_position d) marker label from to).
Proof. unfold annotated. destruct (d_position d) as [f|] eqn:E; [apply (source_file (under code)); exact E|apply source_none; exact E]. Qed.
Lemma head_headed code n d : headed (under code) code n d (head code n d).
Proof.
  unfold head. destruct (d_range d) as [[p e]|] eqn:R; cbn [has_range].
  - destruct (negb (p =? e) || negb (p =? 0)) eqn:H.
    + apply (headed_range (under code) code n d p e); [|apply C114_number|apply span_spans| |apply annotated_source].
      * split; [exact R|]. intros [-> ->]. discriminate.
      * destruct (d_help d) as [|c h]; constructor. discriminate.
    + apply headed_bare; [|apply C114_number]. intros p' e' [R' N]. rewrite R in R'. injection R' as <- <-. apply orb_false_iff in H as [A B].
      apply negb_false_iff, Nat.eqb_eq in A. apply negb_false_iff, Nat.eqb_eq in B. apply N. lia.
  - apply headed_bare; [|apply C114_number]. intros p e [R' _]. congruence.
Qed.
Lemma labels_each code d : each (fun _ => labels (under code) code d) (d_labels d) (map (label_part code d) (d_labels d)).
Proof.
  split; [apply map_length|]. intros i x t N T. rewrite nth_error_map, N in T. injection T as <-. unfold labels, label_part.
  eexists _, _. split; [apply span_spans|]. split; [apply annotated_source|reflexivity].
Qed.
Fixpoint suggestion_list (n : nat) (l : list (bstr * bstr)) : list bstr :=
  match l with [] => [] | s :: l => (b "  Suggestion " ++ itoa n ++ b ": [" ++ fst s ++ b "] " ++ snd s ++ [newline]) :: suggestion_list (S n) l end.
Lemma suggestion_concat : forall l n, suggestion_parts n l = concat (suggestion_list n l).
Proof. induction l as [|s l IH]; intros n; [reflexivity|]. cbn [suggestion_parts suggestion_list concat]. rewrite IH, <- !app_assoc. reflexivity. Qed.
Lemma suggestion_each : forall l n, List.length (suggestion_list n l) = List.length l /\
  forall i x t, nth_error l i = Some x -> nth_error (suggestion_list n l) i = Some t -> suggests (i + n) x t.
Proof.
  induction l as [|s l IH]; intros n; cbn [suggestion_list List.length]; (split; [try rewrite (proj1 (IH (S n))); reflexivity|]).
  - intros [|i] x t; discriminate.
  - intros [|i] x t N T; cbn [nth_error] in *.
    + injection N as ->. injection T as <-. exists (itoa n). split; [apply C114_number|reflexivity].
    + replace (S i + n) with (i + S n) by lia. exact (proj2 (IH (S n)) i x t N T).
Qed.
Lemma part_shown code n d : shown (under code) code n d (part code n d).
Proof.
  exists (head code n d), (map (label_part code d) (d_labels d)), (suggestion_list 1 (d_suggestions d)). split; [apply head_headed|]. split; [apply labels_each|].
  split; [exact (suggestion_each _ 1)|]. unfold part. rewrite suggestion_concat, flat_map_concat_map. reflexivity.
Qed.
Fixpoint part_list (code : bstr) (n : nat) (ds : list diag) : list bstr :=
  match ds with [] => [] | d :: ds => part code (S n) d :: part_list code (S n) ds end.
Lemma part_each code : forall ds n, List.length (part_list code n ds) = List.length ds /\
  forall i d t, nth_error ds i = Some d -> nth_error (part_list code n ds) i = Some t -> shown (under code) code (i + S n) d t.
Proof.
  induction ds as [|d ds IH]; intros n; cbn [part_list List.length]; (split; [try rewrite (proj1 (IH (S n))); reflexivity|]).
  - intros [|i] x t; discriminate.
  - intros [|i] x t N T; cbn [nth_error] in *.
    + injection N as ->. injection T as <-. apply part_shown.
    + replace (S i + S n) with (i + S (S n)) by lia. exact (proj2 (IH (S n)) i x t N T).
Qed.
Lemma parts_joined code : forall ds d n, exists t, joined (part_list code n (d :: ds)) t /\ parts code n (d :: ds) = (match n with 0 => [] | _ => [newline] end) ++ t.
Proof.
  induction ds as [|d' ds IH]; intros d n.
  - exists (part code (S n) d). split; [constructor|]. cbn [parts]. rewrite app_nil_r. reflexivity.
  - destruct (IH d' (S n)) as [t [J E]]. exists (part code (S n) d ++ newline :: t). split; [apply (joined_more _ (part_list code (S n) (d' :: ds))); exact J|].
    change (parts code n (d :: d' :: ds)) with ((match n with 0 => [] | _ => [newline] end) ++ part code (S n) d ++ parts code (S n) (d' :: ds)). rewrite E. reflexivity.
Qed.
Lemma trim_newlines_ok : forall s, exists k, s = repeat newline k ++ trim_newlines s /\ forall r, trim_newlines s <> newline :: r.
Proof.
  induction s as [|c s [k [E N]]]; [exists 0; split; [reflexivity|discriminate]|]. cbn [trim_newlines]. destruct (Ascii.eqb_spec c newline) as [->|D].
  - exists (S k). split; [cbn [repeat app]; f_equal; exact E|exact N].
  - exists 0. split; [reflexivity|]. intros r X. injection X as X _. contradiction.
Qed.
Lemma rev_repeat {A} (x : A) k : rev (repeat x k) = repeat x k.
Proof. induction k as [|k IH]; [reflexivity|]. cbn [repeat rev]. rewrite IH. symmetry. apply repeat_cons. Qed.
Lemma trim_end s : without_end s (rev (trim_newlines (rev s))).
Proof.
  destruct (trim_newlines_ok (rev s)) as [k [E N]]. split.
  - exists k. rewrite <- (rev_involutive s) at 1. rewrite E at 1. rewrite rev_app_distr, rev_repeat. reflexivity.
  - intros r X. apply (f_equal (@rev ascii)) in X. rewrite rev_involutive, rev_app_distr in X. exact (N _ X).
Qed.

(** * That the description leaves no choice. *)
Lemma numeral_positive s n : numeral s n -> s <> [].
Proof. intros H. inversion H; [discriminate|]. intros X. symmetry in X. exact (app_cons_not_nil _ _ _ X). Qed.
Lemma numeral_text : forall s n, numeral s n -> forall s', numeral s' n -> s = s'.
Proof.
  intros s n H. induction H as [d L|s n d H IH P L]; intros s' H'.
  - inversion H' as [e L' A B|s2 n2 e H2 P2 L2 A B]; subst; [reflexivity|lia].
  - inversion H' as [e L' A B|s2 n2 e H2 P2 L2 A B]; subst; [lia|]. assert (n2 = n) by lia. assert (e = d) by lia. subst. rewrite (IH _ H2). reflexivity.
Qed.
Lemma trimmed_unique code pos end_ x y : trimmed code pos end_ x -> trimmed code pos end_ y -> x = y.
Proof.
  assert (G : forall x y, trimmed code pos end_ x -> trimmed code pos end_ y -> ~ x < y).
  { intros u v [A1 [B1 [C1 D1]]] [A2 [B2 [C2 D2]]] L. destruct (C2 u) as [c [N W]]; [lia|]. apply (D1 ltac:(lia) c N W). }
  intros X Y. pose proof (G x y X Y). pose proof (G y x Y X). lia.
Qed.
Lemma writes_unique p s s' : writes p s -> writes p s' -> s = s'.
Proof. intros [x [y [X [Y ->]]]] [x' [y' [X' [Y' ->]]]]. rewrite (numeral_text _ _ X _ X'), (numeral_text _ _ Y _ Y'). reflexivity. Qed.
Lemma spans_unique code from to f s s' : spans code from to f s -> spans code from to f s' -> s = s'.
Proof.
  intros H H'. inversion H as [|g st la x y T L X Y]; subst; inversion H' as [|g' st' la' x' y' T' L' X' Y']; subst; [reflexivity|].
  rewrite (trimmed_unique _ _ _ _ _ T T') in *. assert (la = la') by (unfold last_of in *; lia). subst la'. rewrite (writes_unique _ _ _ X X'), (writes_unique _ _ _ Y Y'). reflexivity.
Qed.
Lemma source_unique u d m l p e s s' : source u d m l p e s -> source u d m l p e s' -> s = s'.
Proof. intros H H'. inversion H; inversion H'; congruence. Qed.
Lemma helps_unique h s s' : helps h s -> helps h s' -> s = s'.
Proof. intros H H'. inversion H; inversion H'; congruence. Qed.
Lemma headed_unique u code n d s s' : headed u code n d s -> headed u code n d s' -> s = s'.
Proof.
  intros H H'. inversion H as [p e x sp h us A N S1 E U|x A N]; subst; inversion H' as [p' e' x' sp' h' us' A' N' S1' E' U'|x' A' N']; subst.
  - destruct A as [A _], A' as [A' _]. rewrite A in A'. injection A' as <- <-. rewrite (numeral_text _ _ N _ N'), (spans_unique _ _ _ _ _ _ S1 S1'), (helps_unique _ _ _ E E'), (source_unique _ _ _ _ _ _ _ _ U U'). reflexivity.
  - destruct (A' _ _ A).
  - destruct (A _ _ A').
  - rewrite (numeral_text _ _ N _ N'). reflexivity.
Qed.
Lemma list_ext {A} : forall x y : list A, (forall i, nth_error x i = nth_error y i) -> x = y.
Proof.
  induction x as [|a x IH]; intros [|c y] H; [reflexivity|discriminate (H 0)|discriminate (H 0)|]. pose proof (H 0) as H0. injection H0 as ->. f_equal. apply IH. intros i. exact (H (S i)).
Qed.
Lemma each_unique {A} (P : nat -> A -> bstr -> Prop) l ts ts' : (forall n x t t', P n x t -> P n x t' -> t = t') -> each P l ts -> each P l ts' -> ts = ts'.
Proof.
  intros U [L H] [L' H']. apply list_ext. intros i. destruct (nth_error ts i) as [t|] eqn:T, (nth_error ts' i) as [t'|] eqn:T'; [| | |reflexivity].
  - assert (I1 : i < List.length l) by (rewrite <- L; apply nth_error_Some; congruence). destruct (nth_error l i) as [x|] eqn:X; [|apply nth_error_None in X; lia].
    f_equal. exact (U _ _ _ _ (H _ _ _ X T) (H' _ _ _ X T')).
  - apply nth_error_None in T'. assert (i < List.length ts) by (apply nth_error_Some; congruence). lia.
  - apply nth_error_None in T. assert (i < List.length ts') by (apply nth_error_Some; congruence). lia.
Qed.
Lemma labels_unique u code d x t t' : labels u code d x t -> labels u code d x t' -> t = t'.
Proof. intros [x1 [u1 [X1 [U1 ->]]]] [x2 [u2 [X2 [U2 ->]]]]. rewrite (spans_unique _ _ _ _ _ _ X1 X2), (source_unique _ _ _ _ _ _ _ _ U1 U2). reflexivity. Qed.
Lemma suggests_unique n x t t' : suggests n x t -> suggests n x t' -> t = t'.
Proof. intros [x1 [X1 ->]] [x2 [X2 ->]]. rewrite (numeral_text _ _ X1 _ X2). reflexivity. Qed.
Lemma shown_unique u code n d s s' : shown u code n d s -> shown u code n d s' -> s = s'.
Proof.
  intros [h [ls [gs [H [L [G ->]]]]]] [h' [ls' [gs' [H' [L' [G' ->]]]]]]. rewrite (headed_unique _ _ _ _ _ _ H H').
  rewrite (each_unique _ _ _ _ (fun _ => labels_unique u code d) L L'), (each_unique _ _ _ _ suggests_unique G G'). reflexivity.
Qed.
