(** The grammar of JsText.v gives each text at most one value: an executable reader and its
    equivalence with the grammar. *)
From Coq Require Import Bool List ZArith Lia.
From Verif Require Import JsText.
Import ListNotations.
Open Scope Z_scope.

Definition hexv (c : Z) : option Z :=
  if (48 <=? c) && (c <=? 57) then Some (c - 48)
  else if (65 <=? c) && (c <=? 70) then Some (c - 55)
  else if (97 <=? c) && (c <=? 102) then Some (c - 87)
  else None.
Fixpoint hexl (acc : Z) (l : list Z) : option Z :=
  match l with
  | [] => Some acc
  | c :: l' => match hexv c with Some v => hexl (acc * 16 + v) l' | None => None end
  end.
(** Digits up to the closing brace. *)
Fixpoint braces (l : list Z) : option (list Z * list Z) :=
  match l with
  | [] => None
  | c :: l' => if c =? 125 then Some ([], l') else option_map (fun x => (c :: fst x, snd x)) (braces l')
  end.
Definition decb (c : Z) : bool := (48 <=? c) && (c <=? 57).
Definition octb (c : Z) : bool := (48 <=? c) && (c <=? 55).
Definition nextb (f : Z -> bool) (r : list Z) : bool := match r with c :: _ => f c | [] => false end.
Definition newlineb (c : Z) : bool := (c =? 10) || (c =? 13) || (c =? 8232) || (c =? 8233).
Definition singlev (c : Z) : option Z :=
  if c =? 98 then Some 8 else if c =? 102 then Some 12 else if c =? 110 then Some 10
  else if c =? 114 then Some 13 else if c =? 116 then Some 9 else if c =? 118 then Some 11
  else if (c =? 39) || (c =? 34) || (c =? 92) then Some c else None.
Definition sloppyb (m : place) : bool := match m with Str _ false => true | _ => false end.

Definition read_escape (m : place) (s : list Z) : option (list Z * list Z) :=
  match s with
  | [] => None
  | c :: r =>
      match singlev c with
      | Some v => Some ([v], r)
      | None =>
          if newlineb c then
            match r with
            | d :: r' => if (c =? 13) && (d =? 10) then Some ([], r') else Some ([], r)
            | [] => Some ([], r)
            end
          else if c =? 120 then
            match r with
            | x :: y :: r' => option_map (fun v => ([v], r')) (hexl 0 [x; y])
            | _ => None
            end
          else if c =? 117 then
            match r with
            | 123 :: r' =>
                match braces r' with
                | Some (ds, r'') =>
                    match ds, hexl 0 ds with
                    | _ :: _, Some v => if v <=? 1114111 then Some (units v, r'') else None
                    | _, _ => None
                    end
                | None => None
                end
            | x :: y :: z :: w :: r' => option_map (fun v => ([v], r')) (hexl 0 [x; y; z; w])
            | _ => None
            end
          else if decb c then
            if (c =? 48) && negb (nextb decb r) then Some ([0], r)
            else if negb (sloppyb m) then None
            else if (c =? 56) || (c =? 57) then Some ([c], r)
            else match r with
                 | d :: r' =>
                     if octb d then
                       if (c <=? 51) && nextb octb r'
                       then match r' with
                            | e :: r'' => Some ([(c - 48) * 64 + (d - 48) * 8 + (e - 48)], r'')
                            | [] => None
                            end
                       else Some ([(c - 48) * 8 + (d - 48)], r')
                     else Some ([c - 48], r)
                 | [] => Some ([c - 48], r)
                 end
          else Some (units c, r)
      end
  end.

Fixpoint read (n : nat) (m : place) (s : list Z) : option (list Z) :=
  match n, s with
  | _, [] => Some []
  | O, _ => None
  | S n', c :: r =>
      if c =? 92 then
        match read_escape m r with
        | Some (u, r') => option_map (app u) (read n' m r')
        | None => None
        end
      else
        let self := option_map (app (units c)) (read n' m r) in
        match m with
        | Str q _ => if (c =? q) || (c =? 10) || (c =? 13) then None else self
        | Tpl =>
            if c =? 96 then None
            else if (c =? 36) && nextb (Z.eqb 123) r then None
            else if c =? 13 then
              match r with
              | d :: r' => if d =? 10 then option_map (cons 10) (read n' m r') else option_map (cons 10) (read n' m r)
              | [] => Some [10]
              end
            else self
        end
  end.

Ltac bsolve := rewrite ?andb_true_iff, ?orb_true_iff, ?Z.leb_le, ?Z.eqb_eq, ?Z.ltb_lt in *.
Ltac zcase := repeat match goal with
  | |- context[?a =? ?c] => destruct (Z.eqb_spec a c)
  | |- context[?a <=? ?c] => destruct (Z.leb_spec a c)
  end.

Lemma hexv_ok c v : hexd c v <-> hexv c = Some v.
Proof.
  unfold hexv. split.
  - inversion 1; subst; zcase; cbn [andb]; try lia; reflexivity.
  - zcase; cbn [andb]; intros [= <-]; constructor; lia.
Qed.
Lemma hexl_ok l : forall acc v, hexs acc l v <-> hexl acc l = Some v.
Proof.
  induction l as [|c l IH]; intros acc v; cbn [hexl].
  - split; [inversion 1; auto|intros [= <-]; constructor].
  - split.
    + inversion 1; subst. apply hexv_ok in H2. rewrite H2. now apply IH.
    + destruct (hexv c) as [d|] eqn:E; [|easy]. intros H. econstructor; [apply hexv_ok; eauto|now apply IH].
Qed.
Lemma hexd_not125 c v : hexd c v -> c <> 125.
Proof. inversion 1; lia. Qed.
Lemma hexd_not123 c v : hexd c v -> c <> 123.
Proof. inversion 1; lia. Qed.
Lemma braces_ok l ds r : braces l = Some (ds, r) <-> l = ds ++ 125 :: r /\ ~ In 125 ds.
Proof.
  revert ds r. induction l as [|c l IH]; intros ds r; cbn [braces].
  - split; [easy|]. intros [E _]. destruct ds; discriminate.
  - destruct (Z.eqb_spec c 125) as [->|N].
    + split.
      * intros [= <- <-]. auto.
      * intros [E NI]. destruct ds as [|d ds]; [injection E as <-; auto|].
        injection E as <- _. exfalso. apply NI. now left.
    + destruct (braces l) as [[ds' r']|] eqn:B; cbn [option_map fst snd].
      * destruct (proj1 (IH ds' r') eq_refl) as [E NI]. split.
        -- intros [= <- <-]. rewrite E. split; [reflexivity|]. intros [X|X]; [congruence|auto].
        -- intros [E2 N2]. destruct ds as [|d ds]; [injection E2 as -> _; congruence|].
           injection E2 as <- E2. assert (Some (ds', r') = Some (ds, r)) as [= <- <-].
           { apply IH. split; [auto|]. intros X. apply N2. now right. }
           auto.
      * split; [easy|]. intros [E2 N2]. destruct ds as [|d ds]; [injection E2 as -> _; congruence|].
        injection E2 as <- E2. assert (None = Some (ds, r)) as X; [|discriminate].
        apply IH. split; [auto|]. intros X. apply N2. now right.
Qed.
Lemma hexs_no125 l : forall acc v, hexs acc l v -> ~ In 125 l.
Proof.
  induction l as [|c l IH]; intros acc v H; [easy|]. inversion H; subst. intros [->|I].
  - eapply hexd_not125; eauto.
  - eapply IH; eauto.
Qed.
Lemma singlev_ok c v : single c v <-> singlev c = Some v.
Proof.
  unfold singlev. split.
  - inversion 1; reflexivity.
  - zcase; cbn [orb]; try discriminate; subst; intros [= <-]; constructor.
Qed.
Lemma singlev_none c : (forall v, ~ single c v) <-> singlev c = None.
Proof.
  destruct (singlev c) as [v|] eqn:E.
  - split; [|easy]. intros H. exfalso. apply (H v). now apply singlev_ok.
  - split; [auto|]. intros _ v H. apply singlev_ok in H. congruence.
Qed.
Lemma newlineb_ok c : newline c <-> newlineb c = true.
Proof. unfold newline, newlineb. zcase; cbn [orb]; split; auto; try discriminate; lia. Qed.
Lemma decb_ok c : decimal c <-> decb c = true.
Proof. unfold decimal, decb. zcase; cbn [andb]; split; auto; try discriminate; lia. Qed.
Lemma octb_ok c : octal c <-> octb c = true.
Proof. unfold octal, octb. zcase; cbn [andb]; split; auto; try discriminate; lia. Qed.
Lemma nextb_ok P f r : (forall c, P c <-> f c = true) -> (next_is P r <-> nextb f r = true).
Proof.
  intros H. unfold next_is. destruct r as [|c r]; cbn [nextb].
  - split; [intros (? & ? & [=] & _)|discriminate].
  - rewrite <- H. split; [intros (? & ? & [= -> ->] & X); auto|eauto].
Qed.
Lemma sloppyb_ok m : sloppy_string m <-> sloppyb m = true.
Proof.
  unfold sloppy_string. destruct m as [q [|]|]; cbn [sloppyb]; split; try discriminate; eauto;
    intros (? & [=]).
Qed.
Lemma not_true x : x <> true <-> x = false.
Proof. destruct x; split; congruence. Qed.

Lemma single_not c v : single c v -> ~ decimal c /\ ~ newline c.
Proof. inversion 1; unfold decimal, newline; lia. Qed.

Lemma escape_read m e r u : escape m e r u -> read_escape m (e ++ r) = Some (u, r).
Proof.
  intros H. inversion H; subst; cbn [app read_escape].
  - apply singlev_ok in H0. now rewrite H0.
  - apply singlev_none in H0. rewrite H0.
    rewrite (proj1 (not_true _) (fun X => H4 (proj2 (newlineb_ok c) X))).
    rewrite (proj2 (Z.eqb_neq _ _) H2), (proj2 (Z.eqb_neq _ _) H3).
    rewrite (proj1 (not_true _) (fun X => H1 (proj2 (decb_ok c) X))). auto.
  - change (singlev 48) with (@None Z); change (newlineb 48) with false; change (48 =? 120) with false; change (48 =? 117) with false; change (decb 48) with true; change (48 =? 48) with true; change (48 =? 56) with false; change (48 =? 57) with false; cbv iota.
    rewrite (proj1 (not_true _) (fun X => H0 (proj2 (nextb_ok _ _ r decb_ok) X))). reflexivity.
  - apply hexl_ok in H0. cbv [singlev newlineb]. cbn [Z.eqb Pos.eqb orb]. now rewrite H0.
  - apply hexl_ok in H0. cbv [singlev newlineb]. cbn [Z.eqb Pos.eqb orb].
    assert (N : a <> 123) by (apply hexl_ok in H0; inversion H0; subst; eapply hexd_not123; eauto).
    rewrite H0. cbn [option_map].
    destruct a as [|p|p]; try reflexivity.
    repeat (destruct p as [p|p|]; try reflexivity); congruence.
  - assert (NI : ~ In 125 ds) by (eapply hexs_no125; eauto). apply hexl_ok in H1.
    cbv [singlev newlineb]. cbn [Z.eqb Pos.eqb orb].
    rewrite <- app_assoc. cbn [app]. rewrite (proj2 (braces_ok _ ds r) (conj eq_refl NI)).
    destruct ds; [congruence|]. rewrite H1. now rewrite (proj2 (Z.leb_le _ _) H2).
  - assert (S1 : singlev c = None).
    { apply singlev_none. intros v S. apply single_not in S. tauto. }
    rewrite S1. rewrite (proj1 (newlineb_ok c) H0). destruct r as [|d r]; [auto|].
    destruct (Z.eqb_spec c 13) as [->|]; [|auto]. destruct (Z.eqb_spec d 10) as [->|]; [|auto].
    exfalso. apply H1; [auto|]. exists 10, r. auto.
  - reflexivity.
  - change (singlev 48) with (@None Z); change (newlineb 48) with false; change (48 =? 120) with false; change (48 =? 117) with false; change (decb 48) with true; change (48 =? 48) with true; change (48 =? 56) with false; change (48 =? 57) with false; cbv iota.
    destruct H1 as (c & r' & -> & Hc). apply sloppyb_ok in H0.
    rewrite H0. destruct Hc as [-> | ->]; reflexivity.
  - apply sloppyb_ok in H0. destruct H1 as [-> | ->]; cbv [singlev newlineb decb]; cbn [Z.eqb Pos.eqb orb andb Z.leb Z.compare Pos.compare Pos.compare_cont]; rewrite H0; reflexivity.
  - assert (S1 : singlev a = None) by (apply singlev_none; inversion 1; lia).
    assert (S2 : newlineb a = false) by (apply not_true; rewrite <- newlineb_ok; unfold newline; lia).
    apply sloppyb_ok in H0. rewrite S1, S2.
    rewrite (proj2 (Z.eqb_neq a 120)), (proj2 (Z.eqb_neq a 117)) by lia.
    rewrite (proj1 (decb_ok a)) by (unfold decimal; lia).
    rewrite (proj2 (Z.eqb_neq a 48)) by lia. cbn [andb]. rewrite H0. cbn [negb].
    rewrite (proj2 (Z.eqb_neq a 56)), (proj2 (Z.eqb_neq a 57)) by lia. cbn [orb].
    rewrite (nextb_ok _ _ r octb_ok) in H2. apply not_true in H2. destruct r as [|d r]; [auto|].
    cbn [nextb] in H2. rewrite H2. auto.
  - assert (S1 : singlev a = None) by (apply singlev_none; unfold octal in H1; inversion 1; lia).
    assert (S2 : newlineb a = false) by (apply not_true; rewrite <- newlineb_ok; unfold newline, octal in *; lia).
    apply sloppyb_ok in H0. rewrite S1, S2. pose proof (proj1 (octb_ok b) H2) as OB. unfold octal in H1, H2.
    rewrite (proj2 (Z.eqb_neq a 120)), (proj2 (Z.eqb_neq a 117)) by lia.
    rewrite (proj1 (decb_ok a)) by (unfold decimal; lia). cbn [nextb].
    rewrite (proj1 (decb_ok b)) by (unfold decimal; lia). cbn [negb]. rewrite andb_false_r. rewrite H0. cbn [negb].
    rewrite (proj2 (Z.eqb_neq a 56)), (proj2 (Z.eqb_neq a 57)) by lia. cbn [orb]. rewrite OB.
    destruct (Z.leb_spec a 51) as [L|L]; cbn [andb]; [|auto].
    specialize (H3 L). rewrite (nextb_ok _ _ r octb_ok) in H3. apply not_true in H3. now rewrite H3.
  - assert (S1 : singlev a = None) by (apply singlev_none; inversion 1; lia).
    assert (S2 : newlineb a = false) by (apply not_true; rewrite <- newlineb_ok; unfold newline; lia).
    apply sloppyb_ok in H0. rewrite S1, S2. pose proof (proj1 (octb_ok b) H2) as OB. pose proof (proj1 (octb_ok c) H3) as OC.
    unfold octal in H2, H3.
    rewrite (proj2 (Z.eqb_neq a 120)), (proj2 (Z.eqb_neq a 117)) by lia.
    rewrite (proj1 (decb_ok a)) by (unfold decimal; lia). cbn [nextb].
    rewrite (proj1 (decb_ok b)) by (unfold decimal; lia). cbn [negb]. rewrite andb_false_r. rewrite H0. cbn [negb].
    rewrite (proj2 (Z.eqb_neq a 56)), (proj2 (Z.eqb_neq a 57)) by lia. cbn [orb]. rewrite OB, OC.
    rewrite (proj2 (Z.leb_le a 51)) by lia. auto.
Qed.

Lemma read_escape_sound m s u r : read_escape m s = Some (u, r) -> exists e, s = e ++ r /\ escape m e r u.
Proof.
  unfold read_escape. destruct s as [|c s]; [easy|]. destruct (singlev c) as [v|] eqn:SV.
  { intros [= <- <-]. exists [c]. split; [auto|]. constructor. now apply singlev_ok. }
  destruct (newlineb c) eqn:NL.
  { apply newlineb_ok in NL.
    assert (G : (c = 13 -> ~ next_is (eq 10) s) -> exists e, c :: s = e ++ s /\ escape m e s []).
    { intros H. exists [c]. split; [auto|]. now constructor. }
    destruct s as [|d s'].
    - intros [= <- <-]. apply G. intros _ (? & ? & [=] & _).
    - destruct (Z.eqb_spec c 13) as [->|N]; cbn [andb].
      + destruct (Z.eqb_spec d 10) as [->|N].
        * intros [= <- <-]. exists [13; 10]. split; [auto|constructor].
        * intros [= <- <-]. apply G. intros _ (? & ? & [= -> ->] & X). congruence.
      + intros [= <- <-]. apply G. congruence. }
  destruct (Z.eqb_spec c 120) as [->|NX].
  { destruct s as [|x [|y s']]; try easy. destruct (hexl 0 [x; y]) as [v|] eqn:HX; [|easy]. intros [= <- <-].
    exists [120; x; y]. split; [auto|]. constructor. now apply hexl_ok. }
  destruct (Z.eqb_spec c 117) as [->|NU].
  { assert (FOUR : forall x y z w s', s = x :: y :: z :: w :: s' ->
       option_map (fun v => ([v], s')) (hexl 0 [x; y; z; w]) = Some (u, r) -> exists e, 117 :: s = e ++ r /\ escape m e r u).
    { intros x y z w s' -> H. destruct (hexl 0 [x; y; z; w]) as [v|] eqn:HX; [|easy]. injection H as <- <-.
      exists [117; x; y; z; w]. split; [auto|]. constructor. now apply hexl_ok. }
    destruct s as [|x s']; [easy|].
    destruct (Z.eq_dec x 123) as [->|N].
    - destruct (braces s') as [[ds r'']|] eqn:B; [|easy]. apply braces_ok in B. destruct B as [-> NI].
      destruct ds as [|d0 ds]; [easy|]. destruct (hexl 0 (d0 :: ds)) as [v|] eqn:HX; [|easy].
      destruct (Z.leb_spec v 1114111) as [L|L]; [|easy]. intros [= <- <-].
      exists (117 :: 123 :: (d0 :: ds) ++ [125]). split.
      + cbn [app]. rewrite <- app_assoc. reflexivity.
      + constructor; [easy|now apply hexl_ok|auto].
    - intros H.
      assert (H' : match s' with y :: z :: w :: r' => option_map (fun v => ([v], r')) (hexl 0 [x; y; z; w]) | _ => None end = Some (u, r)).
      { rewrite <- H. clear - N. destruct x as [|p|p]; try reflexivity.
        repeat (destruct p as [p|p|]; try reflexivity); congruence. }
      destruct s' as [|y [|z [|w s'']]]; try easy. eapply FOUR; eauto. }
  destruct (decb c) eqn:DC.
  { apply decb_ok in DC. destruct (Z.eqb_spec c 48) as [->|N48]; cbn [andb].
    - destruct (nextb decb s) eqn:ND; cbn [negb].
      + destruct (sloppyb m) eqn:SL; cbn [negb]; [|easy]. apply sloppyb_ok in SL.
        change (48 =? 56) with false. change (48 =? 57) with false. cbn [orb].
        destruct s as [|d s']; [easy|]. cbn [nextb] in ND. apply decb_ok in ND.
        destruct (octb d) eqn:OD.
        * apply octb_ok in OD. change (48 <=? 51) with true. cbn [andb]. destruct (nextb octb s') eqn:NO.
          -- destruct s' as [|e s'']; [easy|]. cbn [nextb] in NO. apply octb_ok in NO. intros [= <- <-].
             exists [48; d; e]. split; [auto|]. constructor; auto; lia.
          -- intros [= <- <-]. exists [48; d]. split; [auto|]. constructor; auto; try (split; lia).
             intros _ X. apply (nextb_ok _ _ s' octb_ok) in X. congruence.
        * intros [= <- <-]. exists [48]. split; [auto|]. apply e_zero89; auto. exists d, s'. split; [auto|].
          assert (~ octal d) by (rewrite octb_ok; congruence). unfold octal, decimal in *. lia.
      + intros [= <- <-]. exists [48]. split; [auto|]. apply e_zero. intros X. apply (nextb_ok _ _ s decb_ok) in X. congruence.
    - destruct (sloppyb m) eqn:SL; cbn [negb]; [|easy]. apply sloppyb_ok in SL.
      destruct ((c =? 56) || (c =? 57)) eqn:C89.
      { intros [= <- <-]. exists [c]. split; [auto|]. apply e_89; auto. apply orb_true_iff in C89. rewrite !Z.eqb_eq in C89. auto. }
      apply orb_false_iff in C89. rewrite !Z.eqb_neq in C89. unfold decimal in DC.
      assert (ONE : ~ next_is octal s -> exists e, c :: s = e ++ s /\ escape m e s [c - 48]).
      { intros X. exists [c]. split; [auto|]. apply e_oct1; auto. lia. }
      destruct s as [|d s'].
      + intros [= <- <-]. apply ONE. intros (? & ? & [=] & _).
      + destruct (octb d) eqn:OD.
        * apply octb_ok in OD. destruct (Z.leb_spec c 51) as [L|L]; cbn [andb].
          -- destruct (nextb octb s') eqn:NO.
             ++ destruct s' as [|e s'']; [easy|]. cbn [nextb] in NO. apply octb_ok in NO. intros [= <- <-].
                exists [c; d; e]. split; [auto|]. constructor; auto; lia.
             ++ intros [= <- <-]. exists [c; d]. split; [auto|]. constructor; auto; try (split; lia).
                intros _ X. apply (nextb_ok _ _ s' octb_ok) in X. congruence.
          -- intros [= <- <-]. exists [c; d]. split; [auto|]. constructor; auto; try (split; lia); lia.
        * intros [= <- <-]. apply ONE. intros (? & ? & [= <- <-] & X). apply octb_ok in X. congruence. }
  intros [= <- <-]. exists [c]. split; [auto|]. apply e_self; auto.
  - now apply singlev_none.
  - rewrite decb_ok. congruence.
  - rewrite newlineb_ok. congruence.
Qed.

Lemma escape_nonempty m e r u : escape m e r u -> e <> [].
Proof. inversion 1; discriminate. Qed.

Lemma eqb_next r : next_is (eq 123) r <-> nextb (Z.eqb 123) r = true.
Proof. apply nextb_ok. intros c. symmetry. apply Z.eqb_eq. Qed.

Lemma chars_read m s v : chars m s v -> forall n, (List.length s <= n)%nat -> read n m s = Some v.
Proof.
  induction 1 as [|c r v P C IH|e r u v E C IH|r v M N C IH|r v M C IH]; intros n L.
  - destruct n; reflexivity.
  - destruct n as [|n]; [simpl in L; lia|]. simpl in L. cbn [read].
    destruct P as [NB P]. rewrite (proj2 (Z.eqb_neq _ _) NB). rewrite IH by lia. cbn [option_map].
    destruct m as [q st|].
    + destruct P as (A & B & D). now rewrite !(proj2 (Z.eqb_neq _ _)) by auto.
    + destruct P as (A & B & D). rewrite (proj2 (Z.eqb_neq c 96)), (proj2 (Z.eqb_neq c 13)) by auto.
      destruct (Z.eqb_spec c 36) as [->|N]; cbn [andb]; [|auto].
      specialize (D eq_refl). rewrite eqb_next in D. apply not_true in D. now rewrite D.
  - pose proof (escape_nonempty _ _ _ _ E) as NE.
    destruct n as [|n]; [simpl in L; lia|]. cbn [read]. change (92 =? 92) with true. cbv iota.
    rewrite (escape_read _ _ _ _ E). rewrite IH; [reflexivity|]. cbn [List.length] in L. rewrite app_length in L. lia.
  - subst m. destruct n as [|n]; [simpl in L; lia|]. simpl in L. cbn [read].
    change (13 =? 92) with false. change (13 =? 96) with false. change (13 =? 36) with false. change (13 =? 13) with true.
    cbn [andb]. cbv iota. destruct r as [|d r].
    + inversion C; reflexivity.
    + destruct (Z.eqb_spec d 10) as [->|ND]; [exfalso; apply N; exists 10, r; auto|]. rewrite IH by lia. reflexivity.
  - subst m. destruct n as [|n]; [simpl in L; lia|]. simpl in L. cbn [read].
    change (13 =? 92) with false. change (13 =? 96) with false. change (13 =? 36) with false. change (13 =? 13) with true.
    change (10 =? 10) with true. cbn [andb]. cbv iota. rewrite IH by lia. reflexivity.
Qed.

Lemma read_chars m n : forall s v, read n m s = Some v -> chars m s v.
Proof.
  induction n as [|n IH]; intros s v.
  - destruct s; [|easy]. intros [= <-]. constructor.
  - destruct s as [|c r]; [intros [= <-]; constructor|]. cbn [read].
    destruct (Z.eqb_spec c 92) as [->|N92].
    + destruct (read_escape m r) as [[u r']|] eqn:RE; [|easy].
      destruct (read n m r') as [v'|] eqn:R; [|easy]. intros [= <-].
      destruct (read_escape_sound _ _ _ _ RE) as (e & -> & E). constructor; auto.
    + assert (SELF : plain m c r -> option_map (app (units c)) (read n m r) = Some v -> chars m (c :: r) v).
      { intros P. destruct (read n m r) as [v'|] eqn:R; [|easy]. intros [= <-]. constructor; auto. }
      destruct m as [q st|].
      * destruct (Z.eqb_spec c q), (Z.eqb_spec c 10), (Z.eqb_spec c 13); try easy. apply SELF. repeat split; auto.
      * destruct (Z.eqb_spec c 96); [easy|].
        destruct ((c =? 36) && nextb (Z.eqb 123) r) eqn:D; [easy|].
        destruct (Z.eqb_spec c 13) as [->|N13].
        -- destruct r as [|d r'].
           ++ intros [= <-]. apply c_cr; [auto| |constructor]. intros (? & ? & [=] & _).
           ++ destruct (Z.eqb_spec d 10) as [->|N10].
              ** destruct (read n Tpl r') as [v'|] eqn:R; [|easy]. intros [= <-]. apply c_crlf; auto.
              ** destruct (read n Tpl (d :: r')) as [v'|] eqn:R; [|easy]. intros [= <-]. apply c_cr; auto.
                 intros (? & ? & [= <- <-] & X). congruence.
        -- apply SELF. repeat split; auto. intros ->. cbn [andb] in D. rewrite Z.eqb_refl in D. cbn [andb] in D.
           rewrite eqb_next. congruence.
Qed.

Lemma chars_iff m s v : chars m s v <-> read (List.length s) m s = Some v.
Proof. split; [intros H; apply (chars_read _ _ _ H); lia|apply read_chars]. Qed.

Lemma chars_fun m s v v' : chars m s v -> chars m s v' -> v = v'.
Proof. rewrite !chars_iff. congruence. Qed.

(** A string literal has one value. *)
Lemma string_literal_fun strict s v v' : string_literal strict s v -> string_literal strict s v' -> v = v'.
Proof.
  intros (q & body & _ & -> & C) (q' & body' & _ & E & C'). injection E as <- E.
  apply app_inj_tail in E. destruct E as [<- _]. eapply chars_fun; eauto.
Qed.
