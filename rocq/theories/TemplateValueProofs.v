(** Values of templates after the fixes of no-unnecessary-template-expression, on items. *)
From Coq Require Import Bool List ZArith Lia Permutation Sorted.
From Verif Require Import Base JsText JsTextProofs JsTemplate Fixer Template TemplateProofs.
Import ListNotations.
Open Scope Z_scope.

Section Value.
Variable E : nat -> list part -> Prop.

Definition begins (l : list item) : Prop := exists r, l = C 123 :: r.

Lemma map_C_inj s s' : map C s = map C s' -> s = s'.
Proof.
  revert s'. induction s as [|c s IH]; intros [|d s']; try discriminate; [auto|]. cbn [map]. intros [= -> X]. f_equal. auto.
Qed.
Lemma split_hole s s' i j r r' : map C s ++ H i :: r = map C s' ++ H j :: r' -> s = s' /\ i = j /\ r = r'.
Proof.
  revert s'. induction s as [|c s IH]; intros [|d s']; cbn [map app]; try discriminate.
  - intros [= -> ->]. auto.
  - intros [= -> X]. apply IH in X. destruct X as (-> & -> & ->). auto.
Qed.
Lemma no_hole s s' i r : map C s <> map C s' ++ H i :: r.
Proof.
  revert s'. induction s as [|c s IH]; intros [|d s']; cbn [map app]; try discriminate. intros [= _ X]. now apply IH in X.
Qed.
Lemma tv_inv_hole s i r v : tvalue E (map C s ++ H i :: r) v ->
  exists v0 w u, v = map U v0 ++ w ++ u /\ chars Tpl s v0 /\ E i w /\ tvalue E r u.
Proof.
  intros T. inversion T as [s0 v0 X Y Z0|s0 v0 j w r0 u X1 X2 X3 Y Z0].
  - symmetry in Y. exfalso. symmetry in Y. eapply no_hole; eauto.
  - apply split_hole in Y. destruct Y as (-> & -> & ->). exists v0, w, u. auto.
Qed.
Lemma tv_inv_end s v : tvalue E (map C s) v -> exists v0, v = map U v0 /\ chars Tpl s v0.
Proof.
  intros T. inversion T as [s0 v0 X Y Z0|s0 v0 j w r0 u X1 X2 X3 Y Z0].
  - apply map_C_inj in Y. subst s0. eauto.
  - exfalso. symmetry in Y. eapply no_hole; eauto.
Qed.

Lemma tv_chars s v : chars Tpl s v -> forall l u, tvalue E l u -> closed s -> (begins l -> fwd false s = false) ->
  tvalue E (map C s ++ l) (map U v ++ u).
Proof.
  intros X l u T K B. destruct T as [s' v' X'|s' v' i w r u X' Ei T].
  - rewrite <- !map_app. apply tv_end. apply chars_app; auto. intros (c & t & -> & <-). apply B. eexists. reflexivity.
  - rewrite app_assoc, <- map_app. rewrite app_assoc, <- map_app. apply tv_hole; auto.
    apply chars_app; auto. intros (c & t & -> & <-). apply B. eexists. reflexivity.
Qed.
(** Items [l] whose last chunk is [s]. *)
Definition last_chunk (l : list item) (s : list Z) : Prop :=
  exists p, l = p ++ map C s /\ (p = [] \/ exists p' i, p = p' ++ [H i]).
Lemma last_chunk_hole s0 i r s : last_chunk (map C s0 ++ H i :: r) s -> last_chunk r s.
Proof.
  intros (p & Ep & [->|(p' & j & ->)]).
  - exfalso. symmetry in Ep. eapply no_hole. exact Ep.
  - revert p' Ep. induction s0 as [|c s0 IH]; intros p' Ep; cbn [map app] in Ep.
    + destruct p' as [|x p'].
      * injection Ep as -> ->. exists []. auto.
      * injection Ep as <- ->. exists (p' ++ [H j]). split; [auto|]. right. eauto.
    + destruct p' as [|x p']; [discriminate|]. injection Ep as <- Ep. now apply IH in Ep.
Qed.
Lemma tv_app l v : tvalue E l v -> forall s, last_chunk l s -> forall l' u, tvalue E l' u -> closed s -> (begins l' -> fwd false s = false) ->
  tvalue E (l ++ l') (v ++ u).
Proof.
  induction 1 as [s0 v0 X|s0 v0 i w r u0 X Ei T IH]; intros s L l' u T' K B.
  - destruct L as (p & Ep & [->|(p' & j & ->)]).
    + apply map_C_inj in Ep. subst s. now apply tv_chars.
    + exfalso. rewrite <- app_assoc in Ep. cbn [app] in Ep.
      assert (I : In (H j) (map C s0)) by (rewrite Ep; apply in_or_app; right; now left).
      apply in_map_iff in I. destruct I as (? & [=] & _).
  - apply last_chunk_hole in L. rewrite <- !app_assoc. cbn [app]. apply tv_hole; auto. eapply IH; eauto.
Qed.

(** A nested template: its last chunk, with the final dollar sign escaped or not. *)
Lemma last_default {A} (l : list A) a d : last l a = match l with [] => a | _ => last l d end.
Proof. induction l as [|x [|y l] IH]; [reflexivity|reflexivity|]. exact IH. Qed.
Lemma chunks_last head i raw more :
  exists p', chunks head ((i, raw) :: more) = (p' ++ [H (last (map fst more) i)]) ++ map C (last_raw raw more).
Proof.
  unfold chunks, last_raw. revert head i raw. induction more as [|[j r] more IH]; intros head i raw.
  - cbn [flat_map fst snd map last app]. rewrite app_nil_r. exists (map C head). now rewrite <- app_assoc.
  - destruct (IH raw j r) as (p' & Ep).
    exists (map C head ++ H i :: p').
    transitivity (map C head ++ H i :: (map C raw ++ H j :: map C r ++ flat_map (fun x => H (fst x) :: map C (snd x)) more)).
    { reflexivity. }
    cbn [flat_map fst snd app] in Ep. rewrite Ep. rewrite <- !app_assoc. cbn [app map last fst snd].
    rewrite (last_default (map fst more) j i), (last_default (map snd more) r raw). reflexivity.
Qed.
Lemma removelast_snoc {A} (l : list A) x : removelast (l ++ [x]) = l.
Proof. apply removelast_last. Qed.
Lemma tv_dollar l v : tvalue E l v -> forall s, last_chunk l (s ++ [36]) -> fwd false (s ++ [36]) = true ->
  tvalue E (removelast l ++ [C 92; C 36]) v /\ last_chunk (removelast l ++ [C 92; C 36]) (s ++ [92; 36]).
Proof.
  intros T s L F. split.
  - revert s L F. induction T as [s0 v0 X|s0 v0 i w r u0 X Ei T IH]; intros s L F.
    + destruct L as (p & Ep & [->|(p' & j & ->)]).
      * apply map_C_inj in Ep. subst s0. rewrite map_app. cbn [map]. rewrite removelast_snoc.
        change [C 92; C 36] with (map C [92; 36]). rewrite <- map_app. apply tv_end. eapply dollar_escaped; eauto.
      * exfalso. rewrite <- app_assoc in Ep. cbn [app] in Ep.
        assert (I : In (H j) (map C s0)) by (rewrite Ep; apply in_or_app; right; now left).
        apply in_map_iff in I. destruct I as (? & [=] & _).
    + apply last_chunk_hole in L. specialize (IH s L F).
      assert (N : r <> []). { destruct L as (p & -> & _). rewrite map_app. destruct p; [destruct s; discriminate|discriminate]. }
      rewrite removelast_app by discriminate. cbn [removelast]. destruct r as [|x r]; [easy|].
      rewrite <- app_assoc. cbn [app]. apply tv_hole; auto.
  - destruct L as (p & -> & P). exists p. split; [|auto]. rewrite !map_app. cbn [map]. rewrite app_assoc, removelast_snoc. now rewrite <- app_assoc.
Qed.

(** ** The items a report makes of an expression *)
Definition item_rep (x : expr) (next : bool) : list item * bool :=
  match literal_text x with
  | Some t => let r := replacement t next in (map C r, if empty r then next else has_prefix 123 r)
  | None =>
      match x with
      | XNested head i raw more =>
          let its := chunks head ((i, raw) :: more) in
          (if next && ends_dollar (last_raw raw more) then removelast its ++ [C 92; C 36] else its,
           if empty head then next else has_prefix 123 head)
      | XWord w => (map C w, false)
      | XName w => (map C w, false)
      | _ => ([], false)
      end
  end.
Definition esc_last (b : bool) (s : list Z) : list Z := if b then removelast s ++ [92; 36] else s.

Fixpoint go (prev : list Z) (l : list span) : bool * list (option (bool * list item)) :=
  match l with
  | [] => (false, [])
  | s :: rest =>
      let '(next, ds) := go (s_lit s) rest in
      if unnecessary s then
        let next := if empty (s_lit s) then next else has_prefix 123 (s_lit s) in
        let '(its, next) := item_rep (s_expr s) next in
        (next, Some (next && ends_dollar prev, its) :: ds)
      else (next, None :: ds)
  end.
Fixpoint tail (l : list span) (ds : list (option (bool * list item))) (chs : list bool) : bool * list item :=
  match l, ds, chs with
  | s :: rest, d :: ds, ch :: chs =>
      let '(b, its) := tail rest ds chs in
      let lit := map C (esc_last b (s_lit s)) ++ its in
      match ch, d with
      | true, Some (bp, rep) => (bp, rep ++ lit)
      | _, _ => (false, H (s_id s) :: lit)
      end
  | _, _, _ => (false, [])
  end.

Lemma sorted_unique f f' : Permutation f f' -> StronglySorted Z.le f -> StronglySorted Z.le f' -> f = f'.
Proof.
  revert f'. induction f as [|x f IH]; intros f' P S S'.
  - symmetry. now apply Permutation_nil.
  - destruct f' as [|y f']; [apply Permutation_sym, Permutation_nil in P; discriminate|].
    inversion S as [|? ? S1 S2]; subst. inversion S' as [|? ? S1' S2']; subst.
    assert (x = y).
    { assert (Ix : In x (y :: f')) by (eapply Permutation_in; [exact P|now left]).
      assert (Iy : In y (x :: f)) by (eapply Permutation_in; [apply Permutation_sym, P|now left]).
      rewrite Forall_forall in S2, S2'. destruct Ix as [->|Ix]; [auto|]. destruct Iy as [->|Iy]; [auto|].
      apply S2 in Iy. apply S2' in Ix. lia. }
    subst y. f_equal. apply IH; auto. now apply Permutation_cons_inv in P.
Qed.
Lemma fixable_word n : is_fixable_name n = true -> n <> [] /\ Forall word_char n.
Proof.
  unfold is_fixable_name. intros X. apply existsb_exists in X. destruct X as (t & I & X).
  assert (Q : forall a b, text_eqb a b = true -> a = b).
  { induction a as [|x a IH]; intros [|y b0]; cbn [text_eqb]; try discriminate; [auto|]. intros Y. apply andb_prop in Y.
    destruct Y as [->%Z.eqb_eq Y]. f_equal. auto. }
  apply Q in X. subst t. destruct I as [<-|[<-|[<-|[]]]]; (split; [discriminate|]);
    repeat (constructor; [unfold word_char; lia|]); constructor.
Qed.

Lemma fwd_dollar a : fwd false (a ++ [36]) = true -> fwd false (a ++ [92; 36]) = false.
Proof.
  intros D. change (a ++ [92; 36]) with (a ++ [92] ++ [36]). rewrite app_assoc, fwd_snoc. rewrite rev_app_distr. cbn [rev app count92].
  change (92 =? 92) with true. change (36 =? 36) with true. cbv iota.
  replace (if forallb (Z.eqb 92) (a ++ [92]) then 0%nat else 0%nat) with 0%nat by (destruct forallb; reflexivity).
  rewrite Nat.add_0_r, andb_true_r. rewrite fwd_snoc in D. apply andb_prop in D. destruct D as [D _].
  replace (if forallb (Z.eqb 92) a then 0%nat else 0%nat) with 0%nat in D by (destruct forallb; reflexivity).
  rewrite Nat.add_0_r in D. rewrite Nat.even_succ, <- Nat.negb_even, D. reflexivity.
Qed.
Lemma replacement_ok t v next : chars Tpl (escape_template_raw t) v -> fopen false (escape_template_raw t) = false ->
  exists s, replacement t next = s /\ chars Tpl s v /\ closed s /\ (next = true -> fwd false s = false).
Proof.
  intros X F. unfold replacement. destruct (next && ends_dollar (escape_template_raw t)) eqn:D.
  - apply andb_prop in D. destruct D as [-> D]. rewrite ends_dollar_fwd in D. destruct (fwd_last _ _ D) as (a & A). rewrite A in *.
    rewrite removelast_snoc. eexists. split; [reflexivity|]. split; [eapply dollar_escaped; eauto|]. split; [apply closed_dollar|].
    intros _. now apply fwd_dollar.
  - eexists. split; [reflexivity|]. split; [auto|]. split; [now apply closed_fopen|]. intros ->. rewrite <- ends_dollar_fwd. exact D.
Qed.

Lemma last_chunk_chars (s : list Z) : last_chunk (map C s) s.
Proof. exists []. auto. Qed.

Lemma rep_ok s w next : unnecessary s = true -> fine (s_expr s) -> reads true E (s_expr s) w ->
  (forall n, s_expr s = XName n -> is_fixable_name n = true -> w = map U n) ->
  let '(its, next') := item_rep (s_expr s) next in
  exists t, last_chunk its t /\ tvalue E its w /\ closed t /\ (next = true -> fwd false t = false) /\
    forall l, (begins l -> next = true) -> begins (its ++ l) -> next' = true.
Proof.
  intros UN F R NM.
  assert (BG : forall r l, (begins l -> next = true) -> begins (map C r ++ l) -> (if empty r then next else has_prefix 123 r) = true).
  { intros [|c r] l Hl Hb; [now apply Hl|]. destruct Hb as (l' & [= -> _]). reflexivity. }
  assert (LIT : forall t v, chars Tpl (escape_template_raw t) v -> fopen false (escape_template_raw t) = false -> w = map U v ->
    exists t0, last_chunk (map C (replacement t next)) t0 /\ tvalue E (map C (replacement t next)) w /\ closed t0 /\ (next = true -> fwd false t0 = false) /\
    forall l, (begins l -> next = true) -> begins (map C (replacement t next) ++ l) -> (if empty (replacement t next) then next else has_prefix 123 (replacement t next)) = true).
  { intros t v X Y ->. destruct (replacement_ok t v next X Y) as (s0 & Q & Q1 & Q2 & Q3). rewrite Q. exists s0.
    split; [apply last_chunk_chars|]. split; [now apply tv_end|]. split; [auto|]. split; [auto|]. intros l. apply BG. }
  assert (WORD : forall t, t <> [] -> Forall word_char t -> w = map U t ->
    exists t0, last_chunk (map C t) t0 /\ tvalue E (map C t) w /\ closed t0 /\ (next = true -> fwd false t0 = false) /\
    forall l, (begins l -> next = true) -> begins (map C t ++ l) -> false = true).
  { intros t N W ->. destruct (word_ok t W) as (W1 & W2 & W3 & W4 & W5). exists t. repeat split; auto using last_chunk_chars.
    - now apply tv_end.
    - now apply closed_fopen.
    - intros l _ (l' & Eb). destruct t as [|c t]; [easy|]. injection Eb as -> _. exfalso. apply W4. exists 123, t. auto. }
  unfold item_rep. unfold unnecessary in UN. destruct (s_comment s); [discriminate|].
  destruct (s_expr s) as [q raw|raw|src t|p f|t|n|head i raw more|src]; cbn [literal_text fine reads] in *.
  - destruct R as (_ & v & X & Ew). apply LIT with (v := v); auto.
    + apply escape_from_ok with (m := Str q true); auto. right. eauto.
    + eapply escape_from_ok with (m := Str q true); eauto. { right. eauto. } now apply closed_fopen.
  - destruct R as (v & X & Ew). apply LIT with (v := v); auto.
    + apply escape_from_ok with (m := Tpl); auto. now left.
    + eapply escape_from_ok with (m := Tpl); eauto. { now left. } now apply closed_fopen.
  - destruct (word_ok t F) as (W1 & W2 & _ & _ & W5). apply LIT with (v := t); auto; unfold escape_template_raw; now rewrite W5.
  - destruct R as (f' & (P & S') & Ew). destruct F as (F1 & F2 & F3). assert (f = f') by now apply sorted_unique. subst f'.
    assert (NC : Forall (fun c => c <> 13) (47 :: p ++ 47 :: f)).
    { constructor; [lia|]. apply Forall_app. split; [auto|]. constructor; [lia|]. eapply Forall_impl; [|exact F2]. unfold word_char. lia. }
    destruct (doubled_ok _ NC [] eq_refl) as [D1 D2]. apply LIT with (v := flat_map units (47 :: p ++ 47 :: f)); auto.
  - destruct F as [F1 F2]. now apply WORD.
  - destruct (fixable_word n UN) as [F1 F2]. apply WORD; auto.
  - destruct (chunks_last head i raw more) as (p' & Ep). set (its := chunks head ((i, raw) :: more)) in *.
    assert (L : last_chunk its (last_raw raw more)) by (exists (p' ++ [H (last (map fst more) i)]); split; [auto|right; eauto]).
    assert (Hh : exists r, its = map C head ++ H i :: r) by (eexists; reflexivity).
    assert (BGN : forall l r, (begins l -> next = true) -> begins ((map C head ++ H i :: r) ++ l) -> (if empty head then next else has_prefix 123 head) = true).
    { intros l r Hl Hb. destruct head as [|c head]; [destruct Hb as (l' & [=])|]. destruct Hb as (l' & [= -> _]). reflexivity. }
    destruct (next && ends_dollar (last_raw raw more)) eqn:D.
    + apply andb_prop in D. destruct D as [-> D]. rewrite ends_dollar_fwd in D. destruct (fwd_last _ _ D) as (a & A). rewrite A in *.
      destruct (tv_dollar _ _ R a L D) as [T1 T2]. exists (a ++ [92; 36]). repeat split; auto using closed_dollar.
      * intros _. now apply fwd_dollar.
      * intros l Hl Hb. destruct Hh as (r & Er). rewrite Er in Hb.
        destruct r as [|x r].
        { exfalso. rewrite Er in Ep. rewrite map_app in Ep. cbn [map] in Ep. rewrite app_assoc in Ep.
          apply app_inj_tail in Ep. destruct Ep as [_ [=]]. }
        rewrite removelast_app in Hb by discriminate. rewrite <- !app_assoc in Hb.
        eapply BGN with (l := l) (r := removelast (x :: r) ++ [C 92; C 36]); auto.
        rewrite <- !app_assoc. cbn [app]. rewrite <- app_assoc. exact Hb.
    + exists (last_raw raw more). repeat split; auto.
      * intros ->. rewrite <- ends_dollar_fwd. exact D.
      * intros l Hl Hb. destruct Hh as (r & Er). rewrite Er in Hb. eauto.
  - discriminate.
Qed.

Fixpoint joints (prev : list Z) (l : list span) : Prop :=
  match l with [] => True | s :: rest => closed prev /\ fine (s_expr s) /\ joints (s_lit s) rest end.
Definition orig (l : list span) : list item := flat_map (fun s => H (s_id s) :: map C (s_lit s)) l.

Lemma fwd_removelast s : ends_dollar s = true -> exists a, s = a ++ [36].
Proof. rewrite ends_dollar_fwd. apply fwd_last. Qed.

Lemma go_ok l : forall prev chs, List.length chs = List.length l -> joints prev l ->
  (forall s w, In s l -> E (s_id s) w -> reads true E (s_expr s) w) ->
  (forall s w n, In s l -> E (s_id s) w -> s_expr s = XName n -> is_fixable_name n = true -> w = map U n) ->
  let '(next, ds) := go prev l in
  let '(b, its) := tail l ds chs in
  (begins its -> next = true) /\ (b = true -> ends_dollar prev = true) /\ (begins its -> b = ends_dollar prev) /\
  (forall v, tvalue E (map C prev ++ orig l) v -> tvalue E (map C (esc_last b prev) ++ its) v).
Proof.
  induction l as [|s l IH]; intros prev chs LC J HR HN.
  - cbn [go tail]. repeat split; try (intros (? & [=]); fail); [discriminate|auto].
  - destruct chs as [|ch chs]; [discriminate|]. injection LC as LC. destruct J as (J1 & J2 & J3).
    specialize (IH (s_lit s) chs LC J3). cbn [go].
    destruct (go (s_lit s) l) as [next ds].
    specialize (IH (fun s' w I => HR s' w (or_intror I)) (fun s' w n I => HN s' w n (or_intror I))).
    assert (KEPT : forall d next0 nx (P : Prop), P ->
      let '(b, its) := tail (s :: l) (d :: ds) (false :: chs) in
      (begins its -> next0 = true) /\ (b = true -> ends_dollar prev = true) /\ (begins its -> b = ends_dollar prev) /\
      (forall v, tvalue E (map C prev ++ orig (s :: l)) v -> tvalue E (map C (esc_last b prev) ++ its) v) /\ (nx = true \/ P)).
    { intros d next0 nx P HP. cbn [tail]. destruct (tail l ds chs) as [b its]. destruct IH as (I1 & I2 & I3 & I4).
      repeat split; try (intros (? & [=]); fail); [discriminate| |auto].
      intros v T. cbn [esc_last]. cbn [orig flat_map] in T. fold (orig l) in T. cbn [app] in T.
      apply tv_inv_hole in T. destruct T as (v0 & w & u & -> & X & Ei & T). apply tv_hole; auto. }
    destruct (unnecessary s) eqn:UN.
    + set (next1 := if empty (s_lit s) then next else has_prefix 123 (s_lit s)) in *.
      destruct (item_rep (s_expr s) next1) as [rep next2] eqn:ER.
      destruct ch.
      * cbn [tail]. destruct (tail l ds chs) as [b its]. destruct IH as (I1 & I2 & I3 & I4).
        set (B := map C (esc_last b (s_lit s)) ++ its) in *.
        assert (BN : begins B -> next1 = true).
        { intros BB. unfold next1, B in *. destruct b; cbn [esc_last] in BB.
          - destruct (fwd_removelast _ (I2 eq_refl)) as (a & A). rewrite A in *. rewrite removelast_snoc in BB.
            destruct a as [|c a]; [destruct BB as (? & [=])|]. destruct BB as (? & [= -> _]). reflexivity.
          - destruct (s_lit s) as [|c r]; [now apply I1|]. destruct BB as (? & [= -> _]). reflexivity. }
        assert (G : forall w, E (s_id s) w -> exists t, last_chunk rep t /\ tvalue E rep w /\ closed t /\ (next1 = true -> fwd false t = false) /\
            forall l0, (begins l0 -> next1 = true) -> begins (rep ++ l0) -> next2 = true).
        { intros w Ew. pose proof (rep_ok s w next1 UN J2 (HR s w (or_introl eq_refl) Ew) (fun n => HN s w n (or_introl eq_refl) Ew)) as G.
          rewrite ER in G. exact G. }
        assert (BR : begins (rep ++ B) -> next2 = true).
        { (* does not need a value *)
          intros BB. clear - ER BB BN UN J2. revert BB. unfold item_rep in ER. unfold unnecessary in UN. destruct (s_comment s); [discriminate|].
          assert (BG : forall r, begins (map C r ++ B) -> (if empty r then next1 else has_prefix 123 r) = true).
          { intros [|c r] BB; [now apply BN|]. destruct BB as (l' & [= -> _]). reflexivity. }
          assert (WORD : forall t, t <> [] -> Forall word_char t -> begins (map C t ++ B) -> false = true).
          { intros [|c t] N W BB; [easy|]. destruct BB as (l' & [= -> _]). inversion W; subst. unfold word_char in *. lia. }
          destruct (s_expr s) as [q raw|raw|src t|p f|t|n|head i raw more|src]; cbn [literal_text fine] in *; try (injection ER as <- <-; apply BG).
          - injection ER as <- <-. now apply WORD.
          - injection ER as <- <-. now apply WORD; apply fixable_word.
          - injection ER as <- <-. intros BB. destruct head as [|c head].
            + exfalso. unfold chunks in BB. cbn [map app flat_map fst snd] in BB.
              destruct (next1 && _); [|destruct BB as (? & [=])].
              cbn [removelast] in BB. destruct (map C raw ++ flat_map _ more); destruct BB as (? & [=]).
            + unfold chunks in BB. cbn [map app flat_map fst snd] in BB.
              destruct (next1 && _); [|destruct BB as (? & [= -> _]); reflexivity].
              cbn [removelast] in BB. destruct (map C head ++ _) eqn:Q; [destruct head; discriminate|]. destruct BB as (? & [= -> _]); reflexivity.
          - discriminate. }
        repeat split; auto.
        -- intros X. apply andb_prop in X. tauto.
        -- intros BB. rewrite (BR BB). reflexivity.
        -- intros v T. cbn [orig flat_map] in T. fold (orig l) in T. cbn [app] in T.
           apply tv_inv_hole in T. destruct T as (v0 & w & u & -> & X & Ei & T). apply I4 in T. fold B in T.
           destruct (G w Ei) as (t & G1 & G2 & G3 & G4 & _).
           assert (T2 : tvalue E (rep ++ B) (w ++ u)) by (eapply tv_app; eauto).
           destruct (next2 && ends_dollar prev) eqn:D; cbn [esc_last].
           ++ apply andb_prop in D. destruct D as [_ D]. rewrite ends_dollar_fwd in D. destruct (fwd_last _ _ D) as (a & A). rewrite A in *.
              rewrite removelast_snoc. apply tv_chars; auto using closed_dollar.
              ** eapply dollar_escaped; eauto.
              ** intros _. now apply fwd_dollar.
           ++ apply tv_chars; auto. intros BB. rewrite (BR BB) in D. rewrite <- ends_dollar_fwd. exact D.
      * specialize (KEPT (Some (next2 && ends_dollar prev, rep)) next2 true True I). cbn [tail] in *. destruct (tail l ds chs). tauto.
    + specialize (KEPT None next true True I). cbn [tail] in *. destruct (tail l ds chs). destruct ch; tauto.
Qed.
End Value.
