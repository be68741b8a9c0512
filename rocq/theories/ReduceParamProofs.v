From Coq Require Import Bool Arith ZArith Ascii String List Lia Permutation.
From Verif Require Import Base Fixer FixerSpec FixerProofs FixPieces.
From Verif Require Import ReduceParam ReduceParamSpec.
Import ListNotations.
Open Scope Z_scope.

Section TyInd.
Context (P : ty -> Prop) (HP : forall a k, P (Plain a k)) (HU : forall l, Forall P l -> P (UnionT l)) (HI : forall l, Forall P l -> P (InterT l)).
Fixpoint ty_full (t : ty) : P t :=
  match t with
  | Plain a k => HP a k
  | UnionT l => HU l ((fix all (l : list ty) : Forall P l := match l with [] => Forall_nil P | x :: l => Forall_cons x (ty_full x) (all l) end) l)
  | InterT l => HI l ((fix all (l : list ty) : Forall P l := match l with [] => Forall_nil P | x :: l => Forall_cons x (ty_full x) (all l) end) l)
  end.
End TyInd.
Lemma some_union l : some_other (UnionT l) = existsb some_other l.
Proof. induction l as [|t l IH]; [reflexivity|]. cbn [existsb]. rewrite <- IH. reflexivity. Qed.
Lemma some_inter l : some_other (InterT l) = existsb some_other l.
Proof. induction l as [|t l IH]; [reflexivity|]. cbn [existsb]. rewrite <- IH. reflexivity. Qed.
Lemma existsb_false {A} (f : A -> bool) l : existsb f l = false <-> forall x, In x l -> f x = false.
Proof.
  induction l as [|x l IH]; cbn; [split; [intros _ x []|reflexivity]|]. rewrite orb_false_iff, IH. split; [intros [E H] y [<-|I]; auto|intros H; split; auto].
Qed.
Lemma some_other_false t : some_other t = false <-> forall a, inside t a -> a = true.
Proof.
  induction t as [a k|l IH|l IH] using ty_full.
  - cbn. split; [intros E a' H; inversion H; subst; destruct a'; [reflexivity|discriminate]|]. intros H. rewrite (H a (i_plain a k)). reflexivity.
  - rewrite some_union, existsb_false. rewrite Forall_forall in IH. split.
    + intros H a I. inversion I as [|? t ? It Ia|]; subst. exact (proj1 (IH t It) (H t It) a Ia).
    + intros H t It. apply (IH t It). intros a Ia. apply H. eapply i_union; eauto.
  - rewrite some_inter, existsb_false. rewrite Forall_forall in IH. split.
    + intros H a I. inversion I as [| |? t ? It Ia]; subst. exact (proj1 (IH t It) (H t It) a Ia).
    + intros H t It. apply (IH t It). intros a Ia. apply H. eapply i_inter; eauto.
Qed.
Lemma part_middle x t q : part (x ++ t ++ q) (zlen x) (zlen (x ++ t)) = t.
Proof.
  unfold part. rewrite zlen_app. replace (zlen x + zlen t - zlen x) with (zlen t) by lia. unfold zlen. rewrite !Nat2Z.id.
  rewrite skipn_app, skipn_all, Nat.sub_diag. cbn [app skipn]. rewrite firstn_app, firstn_all, Nat.sub_diag. cbn [firstn]. apply app_nil_r.
Qed.
