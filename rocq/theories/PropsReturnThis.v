(** C82: prefer-return-this-type. *)
From Coq Require Import Bool Arith List Lia.
From Verif Require Import ReturnThis ReturnThisSpec ReturnThisProofs.
Import ListNotations.

(** What is reported is the first reference to the class in the return type. *)
Theorem C82_first : forall skips known n f p, check skips known (Some n) f = Some p ->
  exists t, return_type f = Some t /\ reference skips n p t /\ forall q, reference skips n q t -> q = p \/ before p q.
Proof.
  intros skips known n f p H. unfold check in H. destruct (return_type f) as [t|]; [|discriminate]. exists t. split; [reflexivity|]. pose proof (find_ok skips _ t n (le_n _)) as F.
  destruct (fbody f); [discriminate| |]; (destruct (find_name skips n t) as [q|]; [|discriminate]; destruct (this_param f); [discriminate|]; cbv zeta in H; match type of H with (if ?c then _ else _) = _ => destruct c; [|discriminate] end; injection H as <-; exact F).
Qed.
Print Assumptions C82_first.
Example C82_first_ex : check true true (Some 1) {| return_type := Some (UnionNode [OtherNode 0; Ref 2; UnionNode [Ref 1; Ref 1]]); fbody := Block [NoExpression; Keyword]; this_param := false |} = Some [2; 0].
Proof. reflexivity. Qed.

(** A function is reported exactly if its class has a name that is in the return type, it has no parameter this, and it returns this and nothing of the type of the class. *)
Theorem C82_reported : forall skips known n f, (exists p, check skips known (Some n) f = Some p) <->
  (exists t q, return_type f = Some t /\ reference skips n q t) /\ this_param f = false /\
  match fbody f with
  | NoBody => False
  | Block l => (In Keyword l \/ (known = true /\ In ThisType l)) /\ (known = true -> ~ In ClassType l)
  | Expression r => known = true /\ (r = ThisType \/ r = Keyword)
  end.
Proof.
  intros skips known n f. unfold check. destruct (return_type f) as [t|]; [|split; [intros (p & H); discriminate|intros [(t & q & H & _) _]; discriminate]]. pose proof (find_ok skips _ t n (le_n _)) as F.
  assert ((exists t0 q, Some t = Some t0 /\ reference skips n q t0) <-> find_name skips n t <> None) as R.
  { destruct (find_name skips n t) as [p|]; split; try congruence; [intros _; exists t, p; tauto|]. intros (t0 & q & [= <-] & X). exfalso. eapply F; eauto. }
  rewrite R. clear R. destruct (fbody f) as [|l|r].
  - split; [intros (p & H); discriminate|tauto].
  - destruct (find_name skips n t) as [p|]; [|split; [intros (p & H); discriminate|intros [H _]; congruence]]. destruct (this_param f); [split; [intros (q & H); discriminate|intros (_ & H & _); discriminate]|]. cbv zeta.
    destruct (loop_ok known l false) as [A B]. destruct (loop known l false) as [c th]. cbn [fst snd] in A, B.
    assert (existsb (fun r => match r with ClassType => true | _ => false end) l = true <-> In ClassType l) as EC by (rewrite existsb_exists; split; [intros (x & I' & E); destruct x; try discriminate; auto|intros I'; exists ClassType; auto]).
    assert (existsb (fun r => match r with Keyword => true | ThisType => known | _ => false end) l = true <-> In Keyword l \/ (known = true /\ In ThisType l)) as ET.
    { rewrite existsb_exists. split; [intros (x & I' & E); destruct x; try discriminate; auto|intros [I'|[K I']]; [exists Keyword|exists ThisType]; auto]. }
    destruct c; cbn [orb negb].
    + split; [intros (q & H); discriminate|]. intros (_ & _ & _ & N). symmetry in A. apply andb_true_iff in A as [K A]. apply EC in A. exfalso. now apply N.
    + specialize (B eq_refl). cbn [orb] in B. rewrite negb_involutive. rewrite <- B in ET. assert (known = true -> ~ In ClassType l) as N. { intros K I'. apply EC in I'. rewrite K, I' in A. discriminate. }
      destruct th; split; try (intros (q & H); discriminate).
      * intros _. split; [congruence|]. split; [reflexivity|]. split; [now apply ET|auto].
      * intros _. eauto.
      * intros (_ & _ & X & _). apply ET in X. discriminate.
  - destruct (find_name skips n t) as [p|]; [|split; [intros (p & H); discriminate|intros [H _]; congruence]]. destruct (this_param f); [split; [intros (q & H); discriminate|intros (_ & H & _); discriminate]|]. cbv zeta.
    destruct known, r; cbn [andb]; split; try (intros (q & H); discriminate); try (intros (_ & _ & X & [Y|Y]); discriminate); try (intros _; eauto); (split; [congruence|]; split; auto).
Qed.
Print Assumptions C82_reported.
Example C82_reported_ex : check true true (Some 1) {| return_type := Some (Ref 1); fbody := Block [Keyword; ClassType]; this_param := false |} = None
  /\ check true true (Some 1) {| return_type := Some (Ref 1); fbody := Expression ThisType; this_param := false |} = Some []
  /\ check true true (Some 1) {| return_type := Some (Ref 1); fbody := Block [OtherType]; this_param := false |} = None.
Proof. repeat split. Qed.

(** Members: only methods and properties with functions of classes, and only classes with names. *)
Theorem C82_members : forall skips known cn m p, check_member skips known cn m = Some p -> exists f, (m = Method true f \/ m = Property true (Some (Some f))) /\ cn <> None /\ check skips known cn f = Some p.
Proof.
  intros skips known cn m p H. destruct m as [[] f|[] [[f|]|]|]; cbn [check_member] in H; try discriminate; exists f; (split; [auto|]); (split; [|exact H]); intros ->; unfold check in H; destruct (return_type f); try discriminate; destruct (fbody f); discriminate.
Qed.
Print Assumptions C82_members.
Theorem C82_checked : forall skips known cn f, check_member skips known cn (Method true f) = check skips known cn f /\ check_member skips known cn (Property true (Some (Some f))) = check skips known cn f.
Proof. intros. split; reflexivity. Qed.
Print Assumptions C82_checked.
Example C82_members_ex : check_member true true (Some 1) (Property true (Some (Some {| return_type := Some (Ref 1); fbody := Block [Keyword]; this_param := false |}))) = Some []
  /\ check_member true true None (Method true {| return_type := Some (Ref 1); fbody := Block [Keyword]; this_param := false |}) = None.
Proof. split; reflexivity. Qed.

(** The fixed type takes the object itself and what was taken beside the reference, and nothing else. *)
Theorem C82_fixed : forall sub own skips known n f p t v, check skips known (Some n) f = Some p -> return_type f = Some t ->
  (takes sub own (replace_at p t) v <-> v = Self \/ takes_beside sub own p t v).
Proof.
  intros sub own skips known n f p t v H T. destruct (C82_first _ _ _ _ _ H) as (t' & T' & R & _). rewrite T in T'. injection T' as <-. apply (replaced_takes sub own p t (Ref n)). eapply reference_place; eauto.
Qed.
Print Assumptions C82_fixed.
(** So what is returned fits the fixed type if it fits the written one and is not another instance of the class. *)
Theorem C82_fits : forall sub own skips known n f p t v, check skips known (Some n) f = Some p -> return_type f = Some t -> takes sub own t v -> (forall c, v = Instance c -> ~ sub c n) -> takes sub own (replace_at p t) v.
Proof.
  intros sub own skips known n f p t v H T TV N. apply (C82_fixed sub own skips known n f p t v H T). destruct (C82_first _ _ _ _ _ H) as (t' & T' & R & _). rewrite T in T'. injection T' as <-.
  destruct (takes_split sub own p t n v (reference_place _ _ _ _ R) TV) as [X|X]; auto. inversion X; subst; auto. exfalso. eapply N; eauto.
Qed.
Print Assumptions C82_fits.
Example C82_fits_ex : replace_at [1; 0] (UnionNode [OtherNode 0; UnionNode [Ref 1; Ref 2]]) = UnionNode [OtherNode 0; UnionNode [ThisNode; Ref 2]]
  /\ takes eq 1 (UnionNode [OtherNode 0; UnionNode [ThisNode; Ref 2]]) Self /\ ~ takes eq 1 (UnionNode [OtherNode 0; UnionNode [ThisNode; Ref 2]]) (Instance 1).
Proof.
  split; [reflexivity|]. split; [apply (TUnion _ _ _ (UnionNode [ThisNode; Ref 2])); [right; now left|]; apply (TUnion _ _ _ ThisNode); [now left|constructor]|].
  intros T. inversion T as [| | | |l t v I' T'|]; subst. destruct I' as [<-|[<-|[]]]; inversion T' as [| | | |l t v I' T''|]; subst. destruct I' as [<-|[<-|[]]]; inversion T''. discriminate.
Qed.
(** An instance of a subclass is not of the type of the class: it is returned beside this, and no longer fits. *)
Theorem C82_subclass_refuted : exists (sub : name -> name -> Prop) own f p t v, (forall c, sub c c) /\ return_type f = Some t /\ fbody f = Block [Keyword; OtherType] /\ check true true (Some own) f = Some p /\ takes sub own t v /\ ~ takes sub own (replace_at p t) v.
Proof.
  exists (fun c d => c = d \/ (c = 2 /\ d = 1)), 1, {| return_type := Some (Ref 1); fbody := Block [Keyword; OtherType]; this_param := false |}, [], (Ref 1), (Instance 2).
  split; [auto|]. split; [reflexivity|]. split; [reflexivity|]. split; [reflexivity|]. split; [constructor; auto|]. intros T. inversion T.
Qed.
Print Assumptions C82_subclass_refuted.
(** Returned conditionally, this is not seen: the same values, written with two statements, are reported. *)
Theorem C82_union_refuted : exists t, check true true (Some 1) {| return_type := Some t; fbody := Block [Keyword; OtherType]; this_param := false |} = Some [0] /\ check true true (Some 1) {| return_type := Some t; fbody := Block [OtherType]; this_param := false |} = None /\ check true true (Some 1) {| return_type := Some t; fbody := Expression OtherType; this_param := false |} = None.
Proof. exists (UnionNode [Ref 1; OtherNode 0]). repeat split. Qed.
Print Assumptions C82_union_refuted.
