From Coq Require Import String Ascii Bool List ZArith Lia.
From Verif Require Import Base Run Payload PayloadSpec EngineProofs.
Import ListNotations.
Open Scope Z_scope.

Section Ind.
Variable P : json -> Prop.
Hypothesis H1 : P JNull.
Hypothesis H2 : forall x, P (JBool x).
Hypothesis H3 : forall x, P (JInt x).
Hypothesis H4 : forall x, P (JReal x).
Hypothesis H5 : forall x, P (JStr x).
Hypothesis H6 : forall l, Forall P l -> P (JArr l).
Hypothesis H7 : forall l, Forall (fun x => P (snd x)) l -> P (JObj l).
Fixpoint json_rec' (j : json) : P j :=
  match j with
  | JNull => H1 | JBool x => H2 x | JInt x => H3 x | JReal x => H4 x | JStr x => H5 x
  | JArr l => H6 l ((fix go l : Forall P l := match l with [] => Forall_nil _ | x :: r => Forall_cons _ (json_rec' x) (go r) end) l)
  | JObj l => H7 l ((fix go l : Forall (fun x => P (snd x)) l :=
       match l with [] => Forall_nil _ | x :: r => Forall_cons _ (json_rec' (snd x)) (go r) end) l)
  end.
End Ind.

Lemma member_some n l v : member n l = Some v -> In (n, v) l.
Proof.
  induction l as [|[n' v'] l IH]; cbn [member]; [easy|]. destruct (beqb n n') eqn:E.
  - apply beqb_eq in E. intros [= ->]. subst. now left.
  - intros H. right. auto.
Qed.
Lemma member_none n l : member n l = None <-> forall v, ~ In (n, v) l.
Proof.
  induction l as [|[n' v'] l IH]; cbn [member]; [split; easy|]. destruct (beqb n n') eqn:E.
  - apply beqb_eq in E. subst. split; [easy|]. intros H. exfalso. apply (H v'). now left.
  - rewrite IH. split; intros H v.
    + intros [[= <- <-]|I]; [rewrite beqb_refl in E; easy|now apply (H v)].
    + intros I. apply (H v). now right.
Qed.
Lemma not_in_fst {A} n (l : list (bstr * A)) : ~ In n (map fst l) <-> forall v, ~ In (n, v) l.
Proof.
  rewrite in_map_iff. split.
  - intros H v I. apply H. exists (n, v). auto.
  - intros H ([n' v] & <- & I). exact (H v I).
Qed.
Lemma fresh_names_spec l : fresh_names l = true <-> NoDup (map fst l).
Proof.
  induction l as [|[n v] l IH]; cbn [fresh_names map fst]; [split; [constructor|auto]|].
  destruct (member n l) as [w|] eqn:E.
  - apply member_some in E. split; [easy|]. inversion 1 as [|? ? N _]; subst. exfalso. apply N.
    apply in_map_iff. exists (n, w). auto.
  - rewrite IH. pose proof (proj2 (not_in_fst _ _) (proj1 (member_none _ _) E)) as E'. split; [now constructor|now inversion 1].
Qed.

Lemma no_repeats_spec j : no_repeats j = true <-> unambiguous j.
Proof.
  induction j as [|x|z|t|s|l IH|l IH] using json_rec'; try (split; [constructor|reflexivity]).
  - cbn [no_repeats].
    assert (X : ((fix all (l : list json) := match l with [] => true | x :: l' => no_repeats x && all l' end) l) = true
      <-> Forall unambiguous l).
    { induction IH as [|x l H F IH']; [split; [constructor|auto]|]. rewrite andb_true_iff, H, IH'.
      split; [intros []; now constructor|inversion 1; auto]. }
    rewrite X. split; [now constructor|now inversion 1].
  - cbn [no_repeats]. rewrite andb_true_iff, fresh_names_spec.
    assert (X : ((fix all (l : list (bstr * json)) := match l with [] => true | (_, x) :: l' => no_repeats x && all l' end) l) = true
      <-> Forall (fun x => unambiguous (snd x)) l).
    { induction IH as [|[n x] l H F IH']; [split; [constructor|auto]|]. simpl in H. rewrite andb_true_iff, H, IH'.
      split; [intros []; now constructor|inversion 1; auto]. }
    rewrite X. split; [intros []; now constructor|inversion 1; auto].
Qed.

(** A decoder agrees with a meaning. *)
Definition agrees {A} (d : json -> option A) (R : json -> A -> Prop) : Prop :=
  forall j x, unambiguous j -> (d j = Some x <-> R j x).

Lemma dec_string_ok : agrees dec_string string_is.
Proof. intros [|?|?|?|?|?|?] r _; simpl; split; intros H; inversion H; subst; try constructor; auto. Qed.
Lemma dec_bool_ok : agrees dec_bool bool_is.
Proof. intros [|?|?|?|?|?|?] r _; simpl; split; intros H; inversion H; subst; try constructor; auto. Qed.
Lemma dec_int_ok : agrees dec_int int_is.
Proof.
  intros [|?|z|?|?|?|?] r _; cbn [dec_int]; try (split; intros H; inversion H; subst; try constructor; auto; fail).
  destruct (Z.leb_spec (- 2 ^ 63) z); destruct (Z.ltb_spec z (2 ^ 63)); cbn [andb]; split; intros H'; inversion H'; subst; try lia; auto.
  now constructor.
Qed.
Lemma dec_any_ok : agrees dec_any any_is.
Proof.
  intros j x _. destruct j; cbn [dec_any]; split; intros H; inversion H; subst; try constructor; try easy; try congruence.
Qed.

Lemma traverse_ok {A B} (d : A -> option B) (R : A -> B -> Prop) (P : A -> Prop) l :
  (forall a x, P a -> (d a = Some x <-> R a x)) -> Forall P l ->
  forall xs, traverse d l = Some xs <-> Forall2 R l xs.
Proof.
  intros HD F. induction F as [|a l Ha F IH]; intros xs; cbn [traverse].
  - split; [intros [= <-]; constructor|inversion 1; auto].
  - destruct (d a) as [y|] eqn:E.
    + apply HD in E; [|auto]. destruct (traverse d l) as [r|] eqn:T.
      * specialize (proj1 (IH r) eq_refl) as FR. split.
        -- intros [= <-]. now constructor.
        -- inversion 1 as [|? x' ? r' Rx Fr]; subst. apply IH in Fr. injection Fr as ->.
           apply HD in Rx; [|auto]. apply HD in E; [|auto]. congruence.
      * split; [easy|]. inversion 1 as [|? x' ? r' Rx Fr]; subst. apply IH in Fr. easy.
    + split; [easy|]. inversion 1 as [|? x' ? r' Rx Fr]; subst. apply HD in Rx; [|auto]. congruence.
Qed.

Lemma dec_slice_ok {A} (d : json -> option A) R : agrees d R -> agrees (dec_slice d) (slice_is R).
Proof.
  intros H j x U. destruct j; cbn [dec_slice]; try (split; intros H'; inversion H'; subst; constructor; fail).
  inversion U; subst. rewrite (traverse_ok d R unambiguous) by auto.
  split; [now constructor|now inversion 1].
Qed.
Lemma dec_map_ok : agrees dec_map map_is.
Proof.
  intros j x U. destruct j as [| | | | |l|l]; cbn [dec_map]; try (split; intros H'; inversion H'; subst; constructor; fail).
  inversion U as [| | | | | |? ND F]; subst.
  rewrite (traverse_ok _ (fun m x => fst m = fst x /\ string_is (snd m) (snd x)) (fun m => unambiguous (snd m))).
  - split; [now constructor|now inversion 1].
  - intros [n v] [n' s] Uv. simpl in *. destruct (dec_string v) as [s'|] eqn:E.
    + apply dec_string_ok in E; [|auto]. split.
      * intros [= -> ->]. auto.
      * intros [-> H]. apply dec_string_ok in H; [|auto]. apply dec_string_ok in E; [|auto]. congruence.
    + split; [easy|]. intros [_ H]. apply dec_string_ok in H; [|auto]. congruence.
  - auto.
Qed.

Lemma field_ok {A} (d : json -> option A) R empty l n x : agrees d R ->
  unambiguous (JObj l) -> (field l (b n) d empty = Some x <-> member_is R empty l n x).
Proof.
  intros H U. inversion U as [| | | | | |? ND F]; subst. unfold field, member_is. rewrite Forall_forall in F.
  destruct (member (b n) l) as [v|] eqn:E.
  - apply member_some in E. pose proof (F _ E) as Uv. cbn [snd] in Uv. rewrite (H v x Uv). split.
    + intros Hr. left. exists v. auto.
    + intros [(w & I & Rw)|[N _]]; [|exfalso; exact (N v E)].
      assert (w = v); [|now subst]. clear - E I ND.
      induction l as [|[m u] l IH]; [easy|]. inversion ND as [|? ? NI ND']; subst. simpl in NI.
      destruct E as [E|E], I as [I|I].
      * congruence.
      * exfalso. apply NI. apply in_map_iff. exists (b n, w). split; [simpl; congruence|auto].
      * exfalso. apply NI. apply in_map_iff. exists (b n, v). split; [simpl; congruence|auto].
      * auto.
  - pose proof (proj1 (member_none _ _) E) as E'. clear E. rename E' into E. split.
    + intros [= <-]. right. auto.
    + intros [(w & I & _)|[_ ->]]; [exfalso; exact (E w I)|auto].
Qed.

Lemma struct_ok {A} (d : list (bstr * json) -> option A) (R : list (bstr * json) -> A -> Prop) :
  (forall l x, unambiguous (JObj l) -> (d l = Some x <-> R l x)) ->
  agrees (dec_struct d) (fun j x => exists l, members j l /\ R l x).
Proof.
  intros H j x U. destruct j as [| | | | |l|l]; cbn [dec_struct];
    try (split; [easy|intros (l0 & M & _); inversion M; fail]).
  - rewrite (H [] x) by repeat constructor. split.
    + intros Hr. exists []. split; [constructor|auto].
    + intros (l & M & Hr). inversion M; subst. auto.
  - rewrite (H l x U). split.
    + intros Hr. exists l. split; [constructor|auto].
    + intros (l' & M & Hr). inversion M; subst. auto.
Qed.

Lemma opt_split {A} (o : option A) (Q : A -> Prop) : (forall x, o = Some x <-> Q x) ->
  match o with Some y => Q y /\ forall z, Q z -> z = y | None => forall z, ~ Q z end.
Proof.
  intros H. destruct o as [y|].
  - split; [now apply H|]. intros z Hz. apply H in Hz. congruence.
  - intros z Hz. apply H in Hz. easy.
Qed.

Lemma version_ok : agrees (dec_struct (fun l => field l (b "version") dec_int 0)) version_is.
Proof. apply struct_ok. intros l x U. apply field_ok; [apply dec_int_ok|auto]. Qed.

Lemma dec_rule_ok : agrees dec_rule rule_is.
Proof.
  apply struct_ok with (R := fun l r => member_is string_is [] l "name" (h_name r) /\ member_is any_is None l "options" (h_opts r)).
  intros l [n o] U. cbn [h_name h_opts].
  pose proof (opt_split _ _ (fun x => field_ok dec_string string_is [] l "name" x dec_string_ok U)) as F1.
  pose proof (opt_split _ _ (fun x => field_ok dec_any any_is None l "options" x dec_any_ok U)) as F2.
  destruct (field l (b "name") dec_string []) as [n'|]; [|split; [easy|intros (H & _); exfalso; eapply F1; eauto]].
  destruct (field l (b "options") dec_any None) as [o'|]; [|split; [easy|intros (_ & H); exfalso; eapply F2; eauto]].
  destruct F1 as [A1 A2], F2 as [B1 B2]. split.
  - intros [= <- <-]. auto.
  - intros [H H']. apply A2 in H. apply B2 in H'. now subst.
Qed.

Lemma dec_config_ok : agrees dec_config config_is.
Proof.
  apply struct_ok with (R := fun l c => member_is (slice_is string_is) [] l "file_paths" (c_paths c) /\
    member_is (slice_is rule_is) [] l "rules" (c_rules c)).
  intros l [n o] U. cbn [c_paths c_rules].
  pose proof (opt_split _ _ (fun x => field_ok _ _ [] l "file_paths" x (dec_slice_ok _ _ dec_string_ok) U)) as F1.
  pose proof (opt_split _ _ (fun x => field_ok _ _ [] l "rules" x (dec_slice_ok _ _ dec_rule_ok) U)) as F2.
  destruct (field l (b "file_paths") _ []) as [n'|]; [|split; [easy|intros (H & _); exfalso; eapply F1; eauto]].
  destruct (field l (b "rules") _ []) as [o'|]; [|split; [easy|intros (_ & H); exfalso; eapply F2; eauto]].
  destruct F1 as [A1 A2], F2 as [B1 B2]. split.
  - intros [= <- <-]. auto.
  - intros [H H']. apply A2 in H. apply B2 in H'. now subst.
Qed.

Definition f1_pair (f : file_v1) : bstr * list bstr := (f1_path f, f1_rules f).

Lemma dec_file_ok : agrees dec_file_v1 (fun j f => file_is j (f1_pair f)).
Proof.
  apply struct_ok with (R := fun l f => member_is string_is [] l "file_path" (f1_path f) /\
    member_is (slice_is string_is) [] l "rules" (f1_rules f)).
  intros l [n o] U. cbn [f1_path f1_rules].
  pose proof (opt_split _ _ (fun x => field_ok (A := bstr) _ _ [] l "file_path" x dec_string_ok U)) as F1.
  pose proof (opt_split _ _ (fun x => field_ok _ _ [] l "rules" x (dec_slice_ok _ _ dec_string_ok) U)) as F2.
  destruct (field l (b "file_path") dec_string []) as [n'|]; [|split; [easy|intros (H & _); exfalso; eapply F1; eauto]].
  destruct (field l (b "rules") _ []) as [o'|]; [|split; [easy|intros (_ & H); exfalso; eapply F2; eauto]].
  destruct F1 as [A1 A2], F2 as [B1 B2]. split.
  - intros [= <- <-]. auto.
  - intros [H H']. apply A2 in H. apply B2 in H'. now subst.
Qed.

Lemma Forall2_map_r {A B C} (R : A -> C -> Prop) (g : B -> C) l : forall xs,
  Forall2 R l (map g xs) <-> Forall2 (fun a x => R a (g x)) l xs.
Proof.
  induction l as [|a l IH]; intros [|x xs]; simpl; split; intros H; inversion H; subst; constructor; auto; now apply IH.
Qed.
Lemma slice_pair j fs : slice_is (fun j f => file_is j (f1_pair f)) j fs <-> slice_is file_is j (map f1_pair fs).
Proof.
  split; intros H.
  - inversion H as [l xs F E1 E2|]; subst; constructor. now apply Forall2_map_r.
  - inversion H as [l xs F E1 E2|E1 E2]; subst; [constructor; now apply Forall2_map_r|].
    destruct fs; [constructor|discriminate].
Qed.

Lemma dec_v1_ok : agrees dec_v1 (fun j fs => v1_means j (map f1_pair fs)).
Proof.
  apply struct_ok with (R := fun l fs => member_is (slice_is file_is) [] l "files" (map f1_pair fs)).
  intros l fs U. rewrite (field_ok _ _ [] l "files" fs (dec_slice_ok _ _ dec_file_ok) U).
  unfold member_is. split.
  - intros [(v & I & S)|[N ->]]; [left; exists v; split; [auto|now apply slice_pair]|right; auto].
  - intros [(v & I & S)|[N E]]; [left; exists v; split; [auto|now apply slice_pair]|].
    right. destruct fs; [auto|discriminate].
Qed.

Lemma dec_v2_ok : agrees dec_v2 v2_means.
Proof.
  apply struct_ok with (R := fun l p => member_is int_is 0 l "version" (p_version p) /\
    member_is (slice_is config_is) [] l "configs" (p_configs p) /\
    member_is map_is [] l "source_overrides" (p_overrides p) /\
    member_is bool_is false l "report_syntactic" (p_syntactic p) /\
    member_is bool_is false l "report_semantic" (p_semantic p)).
  intros l [v c o x y] U. cbn [p_version p_configs p_overrides p_syntactic p_semantic].
  pose proof (opt_split _ _ (fun x => field_ok _ _ 0 l "version" x dec_int_ok U)) as F1.
  pose proof (opt_split _ _ (fun x => field_ok _ _ [] l "configs" x (dec_slice_ok _ _ dec_config_ok) U)) as F2.
  pose proof (opt_split _ _ (fun x => field_ok _ _ [] l "source_overrides" x dec_map_ok U)) as F3.
  pose proof (opt_split _ _ (fun x => field_ok _ _ false l "report_syntactic" x dec_bool_ok U)) as F4.
  pose proof (opt_split _ _ (fun x => field_ok _ _ false l "report_semantic" x dec_bool_ok U)) as F5.
  destruct (field l (b "version") _ 0) as [v'|]; [|split; [easy|intros (H & _); exfalso; eapply F1; eauto]].
  destruct (field l (b "configs") _ []) as [c'|]; [|split; [easy|intros (_ & H & _); exfalso; eapply F2; eauto]].
  destruct (field l (b "source_overrides") _ []) as [o'|]; [|split; [easy|intros (_ & _ & H & _); exfalso; eapply F3; eauto]].
  destruct (field l (b "report_syntactic") _ false) as [x'|]; [|split; [easy|intros (_ & _ & _ & H & _); exfalso; eapply F4; eauto]].
  destruct (field l (b "report_semantic") _ false) as [y'|]; [|split; [easy|intros (_ & _ & _ & _ & H); exfalso; eapply F5; eauto]].
  destruct F1 as [A1 A2], F2 as [B1 B2], F3 as [C1 C2], F4 as [D1 D2], F5 as [E1 E2]. split.
  - intros [= <- <- <- <- <-]. auto.
  - intros (Ha & Hb & Hc & Hd & He). apply A2 in Ha. apply B2 in Hb. apply C2 in Hc. apply D2 in Hd. apply E2 in He. now subst.
Qed.

Lemma unmarshal_ok {A} (d : json -> option A) R doc x : agrees d R ->
  (unmarshal d doc = Some x <-> exists j, doc = Some j /\ unambiguous j /\ R j x).
Proof.
  intros H. unfold unmarshal. destruct doc as [j|].
  - destruct (no_repeats j) eqn:N.
    + apply no_repeats_spec in N. rewrite (H j x N). split.
      * intros Hr. exists j. auto.
      * intros (j' & [= <-] & _ & Hr). auto.
    + split; [easy|]. intros (j' & [= <-] & U & _). apply no_repeats_spec in U. congruence.
  - split; [easy|]. intros (j' & ? & _). easy.
Qed.

(** The conversion loops. *)
Definition up_rule (r : bstr) : jrule := mkHR r None.
Definition up_file (f : bstr * list bstr) : jconfig := mkHC [fst f] (map up_rule (snd f)).

Lemma store_mid {A} (pre : list A) x post y i : i = List.length pre ->
  store (pre ++ x :: post) i y = Ok (pre ++ y :: post).
Proof.
  intros ->. unfold store. rewrite app_length. cbn [List.length].
  destruct (Nat.ltb_spec (List.length pre) (List.length pre + S (List.length post))) as [_|L]; [|lia].
  f_equal. rewrite firstn_app, firstn_all, Nat.sub_diag. cbn [firstn]. rewrite app_nil_r. f_equal. f_equal.
  replace (S (List.length pre)) with (List.length (pre ++ [x])) by (rewrite app_length; simpl; lia).
  replace (pre ++ x :: post) with ((pre ++ [x]) ++ post) by (rewrite <- app_assoc; reflexivity).
  rewrite skipn_app, skipn_all, Nat.sub_diag. reflexivity.
Qed.

Lemma fill_rules_ok rs : forall pre j, j = List.length pre ->
  fill_rules j rs (pre ++ repeat (mkHR [] None) (List.length rs)) = Ok (pre ++ map up_rule rs).
Proof.
  induction rs as [|r rs IH]; intros pre j Hj; cbn [fill_rules List.length repeat map]; [now rewrite app_nil_r|].
  rewrite store_mid by auto. cbn [rbind].
  replace (pre ++ {| h_name := r; h_opts := None |} :: repeat (mkHR [] None) (List.length rs))
    with ((pre ++ [up_rule r]) ++ repeat (mkHR [] None) (List.length rs)) by (rewrite <- app_assoc; reflexivity).
  rewrite IH by (rewrite app_length; simpl; lia). now rewrite <- app_assoc.
Qed.

Lemma fill_configs_ok fs : forall pre i, i = List.length pre ->
  fill_configs i fs (pre ++ repeat (mkHC [] []) (List.length fs)) = Ok (pre ++ map up_file (map f1_pair fs)).
Proof.
  induction fs as [|f fs IH]; intros pre i Hi; cbn [fill_configs List.length repeat map]; [now rewrite app_nil_r|].
  pose proof (fill_rules_ok (f1_rules f) [] 0 eq_refl) as FR. cbn [app] in FR. rewrite FR. cbn [rbind].
  rewrite store_mid by auto. cbn [rbind].
  match goal with |- context[pre ++ ?x :: ?y] => replace (pre ++ x :: y) with ((pre ++ [x]) ++ y) by (rewrite <- app_assoc; reflexivity) end.
  rewrite IH by (rewrite app_length; simpl; lia). rewrite <- app_assoc. reflexivity.
Qed.

Lemma map_pair_surj fs : exists gs, map f1_pair gs = fs.
Proof.
  induction fs as [|[p r] fs (gs & E)]; [exists []; auto|]. exists (mkF1 p r :: gs). simpl. now rewrite E.
Qed.

Definition upgraded (fs : list (bstr * list bstr)) : payload := mkPay 2 (map up_file fs) [] false false.

(** All outcomes. *)
Lemma deserialize_ok doc :
  match deserialize doc with
  | Panic => False
  | Ok (inl p) => exists j, doc = Some j /\ unambiguous j /\
      ((version_is j 2 /\ v2_means j p) \/
       (version_is j 0 /\ exists fs, v1_means j fs /\ fs <> [] /\ p = upgraded fs))
  | Ok (inr BadJson) => forall j v, doc = Some j -> unambiguous j -> ~ version_is j v
  | Ok (inr (BadVersion v)) => exists j, doc = Some j /\ unambiguous j /\ version_is j v /\ v <> 0 /\ v <> 2
  | Ok (inr BadV2) => exists j, doc = Some j /\ unambiguous j /\ version_is j 2 /\ forall p, ~ v2_means j p
  | Ok (inr BadV1) => exists j, doc = Some j /\ unambiguous j /\ version_is j 0 /\ forall fs, ~ v1_means j fs
  | Ok (inr NoFiles) => exists j, doc = Some j /\ unambiguous j /\ version_is j 0 /\ v1_means j []
  end.
Proof.
  unfold deserialize, get_version.
  destruct (unmarshal (dec_struct (fun l => field l (b "version") dec_int 0)) doc) as [v|] eqn:V.
  - apply (unmarshal_ok _ _ _ _ version_ok) in V. destruct V as (j & -> & U & V).
    destruct (Z.eqb_spec v 2) as [->|N2].
    + destruct (unmarshal dec_v2 (Some j)) as [p|] eqn:E.
      * apply (unmarshal_ok _ _ _ _ dec_v2_ok) in E. destruct E as (j' & [= <-] & _ & E). exists j. auto.
      * exists j. repeat (split; [auto|]). intros p Hp.
        assert (X : unmarshal dec_v2 (Some j) = Some p) by (apply (unmarshal_ok _ _ _ _ dec_v2_ok); eauto). congruence.
    + destruct (Z.eqb_spec v 0) as [->|N0]; cbn [negb]; [|exists j; auto].
      destruct (unmarshal dec_v1 (Some j)) as [fs|] eqn:E.
      * apply (unmarshal_ok _ _ _ _ dec_v1_ok) in E. destruct E as (j' & [= <-] & _ & E).
        destruct fs as [|f fs].
        -- cbn [List.length Nat.eqb]. exists j. auto.
        -- change (List.length (f :: fs) =? 0)%nat with false. cbv iota.
           pose proof (fill_configs_ok (f :: fs) [] 0 eq_refl) as FR. cbn [app] in FR. rewrite FR. cbn [rbind].
           exists j. split; [auto|]. split; [auto|]. right. split; [auto|].
           exists (map f1_pair (f :: fs)). split; [auto|]. split; [easy|]. reflexivity.
      * exists j. repeat (split; [auto|]). intros fs Hf. destruct (map_pair_surj fs) as (gs & <-).
        assert (X : unmarshal dec_v1 (Some j) = Some gs) by (apply (unmarshal_ok _ _ _ _ dec_v1_ok); eauto). congruence.
  - intros j v -> U Hv.
    assert (X : unmarshal (dec_struct (fun l => field l (b "version") dec_int 0)) (Some j) = Some v)
      by (apply (unmarshal_ok _ _ _ _ version_ok); eauto). congruence.
Qed.

(** Meanings are functions of the document. *)
Lemma agrees_fun {A} (d : json -> option A) R j x y : agrees d R -> unambiguous j -> R j x -> R j y -> x = y.
Proof. intros H U Hx Hy. apply H in Hx; [|auto]. apply H in Hy; [|auto]. congruence. Qed.
Lemma version_fun j v w : unambiguous j -> version_is j v -> version_is j w -> v = w.
Proof. intros. eapply (agrees_fun _ version_is); eauto. apply version_ok. Qed.
Lemma v2_fun j p q : unambiguous j -> v2_means j p -> v2_means j q -> p = q.
Proof. intros. eapply (agrees_fun _ v2_means); eauto. apply dec_v2_ok. Qed.
Lemma v1_fun j p q : unambiguous j -> v1_means j p -> v1_means j q -> p = q.
Proof.
  intros U Hp Hq. destruct (map_pair_surj p) as (gp & <-), (map_pair_surj q) as (gq & <-).
  f_equal. apply (agrees_fun _ _ j gp gq dec_v1_ok U Hp Hq).
Qed.

Lemma translation_unambiguous fs : unambiguous (translation fs).
Proof.
  unfold translation. constructor.
  - simpl. repeat constructor; simpl; intuition discriminate.
  - repeat constructor. simpl. apply Forall_forall. intros x I. apply in_map_iff in I. destruct I as (f & <- & _).
    constructor; [simpl; repeat constructor; simpl; intuition discriminate|].
    repeat constructor. simpl. apply Forall_forall. intros y I. apply in_map_iff in I. destruct I as (r & <- & _).
    constructor; [simpl; repeat constructor; easy|repeat constructor].
Qed.

Ltac absent := right; split; [let v := fresh in let I := fresh in intros v I; simpl in I; intuition discriminate|reflexivity].

Lemma translation_means fs : v2_means (translation fs) (upgraded fs).
Proof.
  unfold translation. eexists. split; [constructor|]. unfold upgraded.
  cbn [p_version p_configs p_overrides p_syntactic p_semantic].
  split; [left; eexists; split; [now left|constructor; lia]|].
  split.
  - left. eexists. split; [right; now left|]. constructor.
    induction fs as [|f fs IH]; simpl; constructor; [|auto].
    eexists. split; [constructor|]. unfold up_file. cbn [c_paths c_rules]. split.
    + left. eexists. split; [now left|]. constructor. repeat constructor.
    + left. eexists. split; [right; now left|]. constructor.
      induction (snd f) as [|r rs IHr]; simpl; constructor; [|auto].
      eexists. split; [constructor|]. unfold up_rule. cbn [h_name h_opts]. split.
      * left. eexists. split; [now left|constructor].
      * absent.
  - split; [absent|]. split; absent.
Qed.

Lemma deserialize_v2 j p : unambiguous j -> v2_means j p -> p_version p = 2 -> deserialize (Some j) = Ok (inl p).
Proof.
  intros U M V.
  assert (V2 : version_is j 2).
  { destruct M as (l & Hl & Hv & _). exists l. rewrite V in Hv. auto. }
  pose proof (deserialize_ok (Some j)) as D. destruct (deserialize (Some j)) as [[q|[]]|].
  - destruct D as (j' & [= <-] & _ & [[_ D]|[D _]]).
    + now rewrite (v2_fun j p q U M D).
    + pose proof (version_fun _ _ _ U V2 D). lia.
  - exfalso. eapply D; eauto.
  - destruct D as (j' & [= <-] & _ & _ & D). exfalso. eapply D; eauto.
  - destruct D as (j' & [= <-] & _ & D & N0 & N2). pose proof (version_fun _ _ _ U V2 D). lia.
  - destruct D as (j' & [= <-] & _ & D & _). pose proof (version_fun _ _ _ U V2 D). lia.
  - destruct D as (j' & [= <-] & _ & D & _). pose proof (version_fun _ _ _ U V2 D). lia.
  - destruct D.
Qed.
