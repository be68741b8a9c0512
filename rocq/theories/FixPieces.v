(** A source text as pieces that are kept and pieces that are exchanged; all fixes of one message applied by internal/linter/source_code_fixer.go (Fixer.v). *)
From Coq Require Import Bool List ZArith Lia Permutation Sorted.
From Verif Require Import Base Fixer FixerSpec FixerProofs FixMany.
Import ListNotations.
Open Scope Z_scope.

Section Pieces.
Context {byte : Type}.
Inductive piece := Keep (t : list byte) | Swap (old new : list byte).
Definition old_text (l : list piece) : list byte := flat_map (fun p => match p with Keep t => t | Swap o _ => o end) l.
Definition new_text (l : list piece) : list byte := flat_map (fun p => match p with Keep t => t | Swap _ n => n end) l.
Fixpoint piece_fixes (p : Z) (l : list piece) : list (fix_ byte) :=
  match l with
  | [] => []
  | Keep t :: l => piece_fixes (p + zlen t) l
  | Swap o n :: l => mkFix n p (p + zlen o) :: piece_fixes (p + zlen o) l
  end.
Lemma zlen_app (x y : list byte) : zlen (x ++ y) = zlen x + zlen y.
Proof. unfold zlen. rewrite app_length. lia. Qed.
Lemma zlen_nonneg (x : list byte) : 0 <= zlen x.
Proof. unfold zlen. lia. Qed.
Lemma piece_disjoint l : forall lo p, lo <= p -> disjoint_from lo (p + zlen (old_text l)) (piece_fixes p l).
Proof.
  induction l as [|[t|o n] l IH]; intros lo p H; cbn [piece_fixes old_text flat_map disjoint_from].
  - pose proof (zlen_nonneg []). lia.
  - rewrite zlen_app. replace (p + (zlen t + zlen (flat_map _ l))) with (p + zlen t + zlen (old_text l)) by (unfold old_text; lia). apply IH. pose proof (zlen_nonneg t). lia.
  - cbn [fpos fend]. pose proof (zlen_nonneg o). split; [exact H|]. split; [lia|]. rewrite zlen_app.
    replace (p + (zlen o + zlen (flat_map _ l))) with (p + zlen o + zlen (old_text l)) by (unfold old_text; lia). apply IH. lia.
Qed.
Lemma piece_rewrites l : forall p, rewrites p (old_text l) (piece_fixes p l) (new_text l).
Proof.
  induction l as [|[t|o n] l IH]; intros p; cbn [piece_fixes old_text new_text flat_map].
  - apply rw_done.
  - apply rewrites_keep_app. apply IH.
  - change n with (ftext (mkFix n p (p + zlen o))) at 2. apply rw_edit; [reflexivity|cbn [fend fpos]; lia|]. cbn [fend]. apply IH.
Qed.
(** Whatever the order of the fixes and however they are sorted, the new text results, if no two fixes have the same range. *)
Theorem pieces_applied (sf : list (fix_ byte) -> list (fix_ byte)) (sm : list (msg byte) -> list (msg byte)) n l fs :
  correct_sort cmp_fix sf -> correct_sort cmp_msg sm -> Permutation fs (piece_fixes 0 l) -> piece_fixes 0 l <> [] -> NoDup (map fix_key (piece_fixes 0 l)) ->
  apply_rule_fixes sf sm (old_text l) [mkMsg n fs] = Ok (new_text l, [], true).
Proof.
  intros C CM P NE N. apply (many sf sm (old_text l) (new_text l) [mkMsg n fs] [piece_fixes 0 l]).
  - exact C.
  - exact CM.
  - constructor; [cbn [mfixes]; exact P|constructor].
  - constructor; [exact NE|constructor].
  - discriminate.
  - cbn [concat]. rewrite app_nil_r. exact (piece_disjoint l 0 0 (Z.le_refl 0)).
  - cbn [concat]. rewrite app_nil_r. exact N.
  - cbn [concat]. rewrite app_nil_r. apply piece_rewrites.
  - apply Permutation_refl.
Qed.
Theorem pieces_text (sf : list (fix_ byte) -> list (fix_ byte)) (sm : list (msg byte) -> list (msg byte)) n l fs code out :
  correct_sort cmp_fix sf -> correct_sort cmp_msg sm -> code = old_text l -> out = new_text l -> Permutation fs (piece_fixes 0 l) -> piece_fixes 0 l <> [] -> NoDup (map fix_key (piece_fixes 0 l)) ->
  apply_rule_fixes sf sm code [mkMsg n fs] = Ok (out, [], true).
Proof. intros C CM -> -> P NE N. apply pieces_applied; auto. Qed.
Lemma zlen_pos (x : list byte) : x <> [] -> 0 < zlen x.
Proof. destruct x; [congruence|]. unfold zlen. cbn [length]. lia. Qed.
Lemma fix_eq (t : list byte) p q p' q' : p = p' -> q = q' -> mkFix t p q = mkFix t p' q'.
Proof. intros -> ->. reflexivity. Qed.
End Pieces.
Arguments piece : clear implicits.

(** Tactics for lists of fixes: equal texts, equal positions, different ranges. *)
Ltac texts := unfold old_text, new_text; cbn [app flat_map]; rewrite ?app_nil_r, <- ?app_assoc; reflexivity.
Ltac positions := rewrite ?zlen_app; change (@zlen Ascii.ascii []) with 0; lia.
Ltac same_fixes := repeat (apply f_equal2; [apply fix_eq; positions|]); reflexivity.
Ltac other_range H := apply pair_equal_spec in H; revert H; rewrite ?zlen_app; change (@zlen Ascii.ascii []) with 0; lia.
Ltac no_repeats := cbn [map fix_key piece_fixes app]; unfold fix_key; cbn [fpos fend]; repeat (constructor; [let H := fresh in intros H; cbn [In] in H; repeat (destruct H as [H|H]; [other_range H|]); exact H|]); constructor.
