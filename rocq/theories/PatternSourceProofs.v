From Coq Require Import Bool Arith Ascii String List Lia.
From Verif Require Import Base EngineProofs Deprecated.
From Verif Require Import PatternSource PatternSourceSpec.
Import ListNotations.

Section P.
Context (property : nat -> bstr -> option nat).
Lemma leads_app l l' : forall t r, leads property t (l ++ l') r <-> exists m, leads property t l m /\ leads property m l' r.
Proof.
  induction l as [|x l IH]; intros t r; cbn [app].
  - split; [intros H; exists t; split; [constructor|exact H]|intros (m & H & K); inversion H; subst; exact K].
  - split.
    + intros H. inversion H as [|? ? e ? ? P L|? e ? ? P L|? ? ? P L]; subst; apply IH in L as (m & L & M); exists m; split; auto; [eapply leads_name|eapply leads_first|eapply leads_array]; eauto.
    + intros (m & H & M). inversion H as [|? ? e ? ? P L|? e ? ? P L|? ? ? P L]; subst; [eapply leads_name|eapply leads_first|eapply leads_array]; eauto; apply IH; eauto.
Qed.
Lemma leads_one_name t x r : leads property t [By_name x] r <-> property t x = Some r.
Proof. split; [intros H; inversion H as [|? ? e ? ? P L| |]; subst; inversion L; subst; exact P|intros H; eapply leads_name; eauto; constructor]. Qed.
Lemma leads_one_array t r : leads property t [Into_array] r <-> property t (b "0") = Some r \/ property t (b "0") = None /\ r = t.
Proof.
  split.
  - intros H. inversion H as [| |? e ? ? P L|? ? ? P L]; subst; inversion L; subst; auto.
  - intros [H|[H ->]]; [eapply leads_first; eauto; constructor|eapply leads_array; eauto; constructor].
Qed.
Lemma source_path u : forall t, source_type property u = Some t -> exists top l, path u top l /\ leads property top l t.
Proof.
  induction u as [i|p|w n u IH|u IH|u IH|u IH|]; intros t H; cbn [source_type] in H.
  - subst i. exists t, []. split; constructor.
  - injection H as ->. exists t, []. split; constructor.
  - destruct (source_type property u) as [s|]; [|discriminate]. destruct (IH s eq_refl) as (top & l & P & L). unfold property_name in H.
    assert (X : exists x, x <> [] /\ (w = Written x \/ w = No_name /\ n = Name x) /\ property s x = Some t).
    { destruct w as [| |x]; [destruct n as [|x]| |]; try discriminate; destruct x as [|c0 r0]; try discriminate; exists (c0 :: r0); (split; [discriminate|]); auto. }
    destruct X as (x & N & W & E). exists top, (l ++ [By_name x]). split; [destruct W as [->|[-> ->]]; constructor; auto|]. apply leads_app. exists s. split; auto. apply leads_one_name. exact E.
  - destruct (source_type property u) as [s|]; [|discriminate]. destruct (IH s eq_refl) as (top & l & P & L). exists top, (l ++ [Into_array]). split; [constructor; exact P|].
    apply leads_app. exists s. split; auto. apply leads_one_array. destruct (property s (b "0")) as [e|]; injection H as <-; auto.
  - destruct (IH t H) as (top & l & P & L). exists top, l. split; [constructor; exact P|exact L].
  - destruct (IH t H) as (top & l & P & L). exists top, l. split; [constructor; exact P|exact L].
  - discriminate.
Qed.
Lemma path_source u top l : path u top l -> forall t, leads property top l t -> source_type property u = Some t.
Proof.
  induction 1 as [t|t|x u top l n N P IH|x u top l N P IH|u top l P IH|u top l P IH|u top l P IH]; intros r L; cbn [source_type].
  - inversion L; subst. reflexivity.
  - inversion L; subst. reflexivity.
  - apply leads_app in L as (m & L & M). rewrite (IH _ L). apply leads_one_name in M. unfold property_name. destruct x as [|c0 r0]; [congruence|exact M].
  - apply leads_app in L as (m & L & M). rewrite (IH _ L). apply leads_one_name in M. unfold property_name. destruct x as [|c0 r0]; [congruence|exact M].
  - apply leads_app in L as (m & L & M). rewrite (IH _ L). apply leads_one_array in M as [->|[-> ->]]; reflexivity.
  - apply IH. exact L.
  - apply IH. exact L.
Qed.
Lemma nested_source names : Forall (fun x => x <> []) names -> forall top, source_type property (nested top names) = match source_type property top with Some t => in_turn property t names | None => None end.
Proof.
  induction 1 as [|x names N F IH]; intros top; cbn [nested in_turn].
  - cbn [source_type]. destruct (source_type property top); reflexivity.
  - rewrite IH. cbn [source_type]. destruct (source_type property top) as [t|]; [|reflexivity]. unfold property_name. destruct x as [|c0 r0]; [congruence|]. reflexivity.
Qed.
Lemma above_none u : above_pattern u -> inside_array u -> source_type property u = None.
Proof.
  induction 1 as [i|t|w u A IH|u A IH]; intros I.
  - inversion I.
  - inversion I.
  - inversion I as [|w' n' u' J| |]; subst. inversion J as [| | |u'' K]; subst. cbn [source_type]. rewrite (IH K). reflexivity.
  - cbn [source_type]. unfold property_name. destruct (source_type property u) as [t|]; [|reflexivity]. destruct (property t (b "0")); reflexivity.
Qed.
End P.
