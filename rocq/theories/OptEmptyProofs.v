(** Proofs for C62. *)
From Coq Require Import String Ascii Bool List ZArith Lia.
From Verif Require Import Base EngineProofs OptChain OptChainSpec OptChainProofs OptChainReport OptEmpty OptEmptySpec.
Import ListNotations.
Open Scope nat_scope.

Lemma empty_object_iff size e : empty_object size e = true <-> no_properties size e.
Proof.
  unfold empty_object, no_properties, around. split.
  - intro H. destruct e; try discriminate H; cbn [inside_parens] in H.
    + destruct e; try discriminate H. destruct k; try discriminate H. destruct (size n) as [[|]|] eqn:E; try discriminate H. exists n. auto.
    + destruct k; try discriminate H. destruct (size n) as [[|]|] eqn:E; try discriminate H. exists n. auto.
  - intros (n & S & [-> | ->]); cbn [inside_parens]; now rewrite S.
Qed.
Section Fix.
Variables (opts : options) (type_of : expr -> ty) (size : Z -> option nat).
Definition left_text (l : expr) : list tok := if parens_needed l then TOpen :: text l ++ [TClose] else text l.
Lemma fix_iff a p x : empty_fix opts type_of size a p = Some x <->
  exists n k l r, of_default size a p n k l r /\ (require_nullish opts = true -> In ANull (type_of l) \/ In AUndef (type_of l)) /\ x = (left_text l ++ new_step a, negb (unsafe opts)).
Proof.
  assert (N : forall l, require_nullish opts && negb (explicit_nullish (type_of l)) = false <-> (require_nullish opts = true -> In ANull (type_of l) \/ In AUndef (type_of l))).
  { intro l. rewrite <- null_iff, <- undef_iff. unfold explicit_nullish. destruct (require_nullish opts), (has_null (type_of l)), (has_undef (type_of l)); cbn; intuition congruence. }
  split.
  - unfold empty_fix. destruct (part_of a p) as [c|] eqn:P; [|easy]. destruct (inside_parens c) as [| | | | | | | | | | | | | | | | |k l r| | | | | | | | | | ] eqn:I; try easy.
    assert (A : around (Bin k l r) c) by (unfold around; destruct c; cbn in I; subst; auto; left; easy).
    intro H. assert (D : exists t, default_op k t) by (destruct k; try discriminate H; eexists; constructor). destruct D as [t D].
    assert (H' : (if negb (empty_object size r) then None else if require_nullish opts && negb (explicit_nullish (type_of l)) then None else if optional_access a then None else Some (left_text l ++ new_step a, negb (unsafe opts))) = Some x) by (destruct D; exact H). clear H.
    destruct (empty_object size r) eqn:E; [|easy]. cbn [negb] in H'. destruct (require_nullish opts && _) eqn:Q; [easy|]. destruct (optional_access a) eqn:O; [easy|]. injection H' as <-.
    exists (Bin k l r), k, l, r. split; [|split; [now apply N|reflexivity]]. apply empty_object_iff in E.
    destruct a; destruct p; try discriminate P; injection P as ->; cbn in O; subst.
    + change (Dot c private name false) with (step_on c (LName private name, false)). apply (od_object size k t); auto; exact Logic.I.
    + change (Elem c a2 false) with (step_on c (LIndex a2, false)). apply (od_object size k t); auto; exact Logic.I.
    + now apply (od_index size k t).
  - intros (n & k & l & r & D & Q & ->). destruct D as [k t c l r s K E A S|k t o c l r K E A]; apply empty_object_iff in E; apply N in Q.
    + assert (I : inside_parens c = Bin k l r) by (destruct A as [-> | ->]; reflexivity). unfold empty_fix. destruct s; try easy; cbn [step_on part_of optional_access]; rewrite I, E, Q; destruct K; reflexivity.
    + assert (I : inside_parens c = Bin k l r) by (destruct A as [-> | ->]; reflexivity). unfold empty_fix. cbn [part_of optional_access]. rewrite I, E, Q. destruct K; reflexivity.
Qed.
(** ** Steps *)
Definition taken (w : world) (e : expr) (st : link) (v : value) : out :=
  match st with
  | LName p n => of_option (prop w v p n)
  | LIndex i => after (fst (eval w i)) (fun k => of_option (index w v k))
  | LArgs _ x => match evals w x with Some vs => of_option (call w v (snd (eval w e)) vs) | None => Throw end
  end.
Lemma step_fst w e st q : fst (eval w (step_on e (st, q))) = link_step (fst (eval w e)) q (taken w e st).
Proof. destruct st; reflexivity. Qed.
Lemma step_snd w e st q : snd (eval w (step_on e (st, q))) = match st with LArgs _ _ => Undef | _ => match fst (eval w e) with Val v => v | _ => Undef end end.
Proof. destruct st; reflexivity. Qed.
Lemma steps_cong w : forall s e e', eval w e = eval w e' -> eval w (steps_on e s) = eval w (steps_on e' s).
Proof. induction s as [|[st q] s IH]; intros e e' H; [exact H|]. cbn [steps_on]. apply IH. destruct st; cbn [step_on eval]; now rewrite H. Qed.
Lemma steps_short w : forall s e, fst (eval w e) = Short -> fst (eval w (steps_on e s)) = Short.
Proof. induction s as [|[st q] s IH]; intros e H; [exact H|]. cbn [steps_on]. apply IH. rewrite step_fst. now rewrite H. Qed.
Lemma steps_throw w : forall s e, fst (eval w e) = Throw -> fst (eval w (steps_on e s)) = Throw.
Proof. induction s as [|[st q] s IH]; intros e H; [exact H|]. cbn [steps_on]. apply IH. rewrite step_fst. now rewrite H. Qed.
Lemma steps_gone w s e e' : fst (eval w e) = Val Undef -> fst (eval w e') = Short -> result w (steps_on e s) <> Throw -> result w (steps_on e s) = result w (steps_on e' s).
Proof.
  intros V S T. unfold result in *. rewrite (steps_short w s e' S). destruct s as [|[st q] s]; cbn [steps_on] in *; [now rewrite V|].
  destruct q.
  - rewrite (steps_short w s (step_on e (st, true))); [reflexivity|]. rewrite step_fst. now rewrite V.
  - exfalso. apply T. rewrite (steps_throw w s (step_on e (st, false))); [reflexivity|]. rewrite step_fst. now rewrite V.
Qed.
Theorem empty_right c k t l r s x sugg : default_op k t -> no_properties size r -> around (Bin k l r) c -> single_step s -> fits (step_on c (s, false)) -> closed_text l ->
  empty_fix opts type_of size (step_on c (s, false)) InObject = Some (x, sugg) ->
  exists e', text e' = x /\ fits e' /\ level e' = 17 /\ chained e' = true /\
    forall w more o, result w r = Val o -> nullishb o = false -> lacks w o s -> (t = true -> forall v, result w l = Val v -> ~ falsy_only v) ->
      result w (steps_on (step_on c (s, false)) more) <> Throw -> result w (steps_on (step_on c (s, false)) more) = result w (steps_on e' more).
Proof.
  intros K E A SS F CT FX. assert (E' := E). apply empty_object_iff in E'.
  assert (C : c = Paren (Bin k l r)). { destruct A as [-> | ->]; [|reflexivity]. exfalso. destruct s; try easy; cbn [step_on fits level] in F; destruct F as [F _]; destruct K; cbn in F; lia. }
  subst c. assert (FB : fits (Bin k l r)) by (destruct s; try easy; apply F).
  assert (Ll : 2 <= level l) by (cbn [fits] in FB; destruct K; cbn [op_level] in FB; lia).
  assert (X : x = left_text l ++ match s with LName p n => [TDot p n true] | LIndex i => [TIdx i true] | LArgs _ _ => [] end).
  { unfold empty_fix in FX. destruct s; try easy; cbn [step_on part_of inside_parens optional_access] in FX; rewrite E' in FX; destruct K; cbn [negb] in FX; destruct (_ && _); try discriminate; now injection FX as <- _. }
  set (l' := if parens_needed l then Paren l else l). exists (step_on l' (s, true)).
  assert (Tl : text l' = left_text l) by (unfold l', left_text; destruct (parens_needed l); reflexivity).
  assert (Fl : fits l' /\ 17 <= level l').
  { assert (fits l) by apply FB. unfold l'. destruct (parens_needed l) eqn:P; [split; [easy|cbn; lia]|]. split; [easy|]. destruct l; cbn in P, Ll, CT |- *; try easy; try lia; [destruct parens; [lia|easy]|]. destruct k0; try easy; cbn in Ll; lia. }
  split; [rewrite X; destruct s; try easy; cbn [step_on text]; now rewrite Tl|]. split; [destruct s; try easy; cbn [step_on fits]; tauto|]. split; [now destruct s|]. split; [now destruct s|].
  intros w more o Ro No La HF NT.
  assert (El : close (fst (eval w l')) = close (fst (eval w l)) /\ (fst (eval w l') = fst (eval w l) \/ fst (eval w l') = close (fst (eval w l)))).
  { unfold l'. destruct (parens_needed l); [|auto]. cbn [eval fst]. split; [now destruct (fst (eval w l))|auto]. }
  destruct El as [El1 El2].
  assert (NL : fst (eval w l) <> Throw).
  { intro Th. apply NT. unfold result. rewrite steps_throw; [reflexivity|]. destruct s; try easy; cbn [step_on eval fst]; destruct K; cbn [eval fst]; unfold after; rewrite Th; reflexivity. }
  assert (exists v, result w l = Val v) as [v Rl]. { unfold result. destruct (fst (eval w l)); try easy; cbn; eauto. }
  assert (Old : (if match k with Or => truthy v | _ => negb (nullishb v) end then Val v else Val o) = fst (eval w (Paren (Bin k l r)))).
  { cbn [eval fst]. destruct K; cbn [eval fst]; unfold after; fold (result w l); rewrite Rl; fold (result w r); rewrite Ro; [destruct (truthy v)|destruct (nullishb v)]; reflexivity. }
  destruct (match k with Or => truthy v | _ => negb (nullishb v) end) eqn:Tv.
  - (* there *)
    assert (Nv : nullishb v = false). { destruct K; [|now apply negb_true_iff in Tv]. destruct v; try easy; discriminate Tv. }
    assert (Ev : fst (eval w l') = Val v). { unfold result in Rl. destruct (fst (eval w l)) eqn:El; cbn in Rl; try easy; injection Rl as Rl; subst v; [destruct El2 as [H|H]; rewrite H; reflexivity|discriminate Nv]. }
    unfold result. rewrite (steps_cong w more (step_on (Paren (Bin k l r)) (s, false)) (step_on l' (s, true))); [reflexivity|].
    rewrite (surjective_pairing (eval w (step_on (Paren _) _))), (surjective_pairing (eval w (step_on l' _))), !step_fst, !step_snd, <- Old, Ev. cbn [link_step]. rewrite Nv. now destruct s.
  - (* not there *)
    assert (Nv : nullish v).
    { destruct K; [|apply negb_false_iff in Tv; destruct v; try easy; [now left|now right]]. destruct (nullishb v) eqn:Q; [destruct v; try easy; [now left|now right]|]. exfalso. apply (HF eq_refl v Rl). split; [exact Tv|]. intros [-> | ->]; discriminate Q. }
    apply steps_gone; [| |exact NT].
    + rewrite step_fst, <- Old. cbn [link_step]. rewrite No. destruct s; try easy; cbn [lacks taken] in La |- *; [now rewrite La|].
      unfold after. fold (result w i). destruct (result w i) as [u| |] eqn:Ri; [now rewrite (La u eq_refl)|unfold result in Ri; destruct (fst (eval w i)); discriminate|].
      exfalso. apply NT. unfold result. rewrite steps_throw; [reflexivity|]. rewrite step_fst, <- Old. cbn [link_step taken]. rewrite No. unfold after. fold (result w i). now rewrite Ri.
    + assert (Es : fst (eval w l') = Short \/ exists u, nullishb u = true /\ fst (eval w l') = Val u).
      { unfold result in Rl. destruct El2 as [-> | ->]; [|right; exists v; split; [destruct Nv as [-> | ->]; reflexivity|exact Rl]]. destruct (fst (eval w l)); cbn in Rl; [right; exists v0; injection Rl as Rl; subst v0; split; [destruct Nv as [-> | ->]; reflexivity|reflexivity]|now left|easy]. }
      rewrite step_fst. destruct Es as [-> |(u & Nu & ->)]; [reflexivity|]. cbn [link_step]. now rewrite Nu.
Qed.
End Fix.
