From Coq Require Import Bool Arith ZArith Ascii String List Lia Permutation.
From Verif Require Import Base Fixer FixerSpec FixerProofs FixMany FixPieces.
From Verif Require Import VoidOperator VoidOperatorSpec.
Import ListNotations.
Open Scope Z_scope.

Lemma in_parts p t : In p (union_parts t) <-> part_of p t.
Proof.
  destruct t as [q|l]; cbn [union_parts]; split.
  - intros [->|[]]. constructor.
  - intros H. inversion H; subst. left. reflexivity.
  - intros H. constructor. exact H.
  - intros H. inversion H; subst. assumption.
Qed.
Lemma always_iff t : always_void_like t = true <-> forall p, part_of p t -> void_like p = true.
Proof. unfold always_void_like. rewrite forallb_forall. split; intros H p P; apply H, in_parts, P. Qed.
Lemma always_or_iff t : always_void_like_or_never t = true <-> forall p, part_of p t -> void_like p = true \/ never p = true.
Proof. unfold always_void_like_or_never. rewrite forallb_forall. split; intros H p P; apply in_parts, H, orb_true_iff in P || (apply orb_true_iff, H, in_parts, P); exact P. Qed.

(** The fixes of the reports, as pieces. *)
Definition seg_piece (s : seg) : piece ascii := match s with Plain t => Keep t | Void_word _ t _ => if always_void_like t then Swap (b "void") [] else Keep (b "void") end.
Lemma pieces_old l : old_text (map seg_piece l) = source l.
Proof.
  unfold old_text, source. induction l as [|s l IH]; [reflexivity|]. cbn [map flat_map]. rewrite IH. f_equal.
  destruct s as [t|e t n]; cbn [seg_piece seg_text]; [reflexivity|]. destruct (always_void_like t); reflexivity.
Qed.
Lemma pieces_new l l' : without_idle l l' -> new_text (map seg_piece l) = source l'.
Proof.
  unfold new_text, source. induction 1 as [|s l l' I W IH|s l l' I W IH]; cbn [map flat_map]; [reflexivity| |]; rewrite IH; destruct s as [t|e t n]; cbn [seg_piece seg_text]; auto.
  - destruct I.
  - assert (E : always_void_like t = true) by (apply always_iff; exact I). rewrite E. reflexivity.
  - destruct (always_void_like t) eqn:E; [|reflexivity]. destruct I. cbn [idle]. apply always_iff. exact E.
Qed.
Definition report_fixes (w : places * ty * bstr) : list (fix_ ascii) := match w with (p, t, n) => match check false p t n with Some r => fixes r | None => [] end end.
Lemma word_fixes l : forall pos, flat_map report_fixes (words pos l) = piece_fixes pos (map seg_piece l).
Proof.
  induction l as [|[t|e t n] l IH]; intros pos; cbn [words flat_map map seg_piece piece_fixes]; auto.
  rewrite IH. unfold report_fixes, check. cbn [andb]. destruct (always_void_like t); cbn [piece_fixes fixes app]; reflexivity.
Qed.
Lemma piece_keys l : forall pos, NoDup (map fix_key (piece_fixes pos (map seg_piece l))) /\ Forall (fun f => pos <= fpos f /\ fpos f < fend f) (piece_fixes pos (map seg_piece l)).
Proof.
  induction l as [|[t|e t n] l IH]; intros pos; cbn [map seg_piece piece_fixes].
  - split; constructor.
  - destruct (IH (pos + zlen t)) as [N F]. pose proof (zlen_nonneg t). split; auto. eapply Forall_impl; [|exact F]. cbn beta. intros f. lia.
  - assert (V : zlen (b "void") = 4) by reflexivity. destruct (IH (pos + zlen (b "void"))) as [N F]. destruct (always_void_like t); cbn [piece_fixes map].
    + split.
      * constructor; auto. intros I. apply in_map_iff in I as (f & K & I). rewrite Forall_forall in F. apply F in I. unfold fix_key in K. cbn [fpos fend] in K. injection K as K1 K2. lia.
      * constructor; [cbn [fpos fend]; lia|]. eapply Forall_impl; [|exact F]. cbn beta. intros f. lia.
    + split; auto. eapply Forall_impl; [|exact F]. cbn beta. intros f. lia.
Qed.
