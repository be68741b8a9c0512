(** Lemmas about consistent-type-exports. *)
From Coq Require Import Bool String Ascii List Arith Lia Permutation.
From Verif Require Import Base EngineProofs.
From Verif Require Import TypeExports TypeExportsSpec.
Import ListNotations.
Local Open Scope nat_scope.

(** * Symbols *)
Section Symbols.
Context (table : list symbol).
Inductive stands_n : nat -> nat -> bool -> Prop :=
| N0 i y : nth_error table i = Some y -> type_only_declared y = true -> stands_n 0 i true
| N1 i y : nth_error table i = Some y -> type_only_declared y = false -> valued y = true -> stands_n 0 i false
| N2 i y : nth_error table i = Some y -> type_only_declared y = false -> valued y = false -> aliased y = None -> stands_n 0 i true
| N3 h i y j r : nth_error table i = Some y -> type_only_declared y = false -> valued y = false -> aliased y = Some (Some j) -> stands_n h j r -> stands_n (S h) i r.
Lemma stands_height i r : stands_for table i r <-> exists h, stands_n h i r.
Proof.
  split.
  - intros H. induction H as [| | |i y j r E T V A H [h IH]]; [exists 0; econstructor; eassumption | exists 0; eapply N1; eassumption | exists 0; eapply N2; eassumption|].
    exists (S h). eapply N3; eassumption.
  - intros [h H]. induction H as [i y E T|i y E T V|i y E T V A|h i y j r E T V A H IH];
      [eapply StandsTypeOnly | eapply StandsValue | eapply StandsType | eapply StandsAlias]; eassumption.
Qed.
Lemma height_unique h i r : stands_n h i r -> forall h' r', stands_n h' i r' -> h = h' /\ r = r'.
Proof.
  induction 1 as [i y E T|i y E T V|i y E T V A|h i y j r E T V A H IH]; intros h' r' H'; inversion H'; subst; rewrite E in *;
    match goal with X : Some _ = Some _ |- _ => injection X as <- end; try congruence; auto.
  assert (j = j0) by congruence. subst j0. edestruct IH as [-> ->]; eauto.
Qed.
Lemma loop_sound fuel : forall visited i r, type_based_loop fuel table visited (Some i) = Some r -> stands_for table i r.
Proof.
  induction fuel as [|fuel IH]; intros visited i r; cbn [type_based_loop]; [discriminate|].
  destruct (existsb _ _); [discriminate|]. destruct (nth_error table i) as [y|] eqn:E; [|discriminate].
  destruct (type_only_declared y) eqn:T; [intros [= <-]; eapply StandsTypeOnly; eassumption|].
  destruct (valued y) eqn:V; [intros [= <-]; eapply StandsValue; eassumption|].
  destruct (aliased y) as [[j|]|] eqn:A; [|discriminate|intros [= <-]; eapply StandsType; eassumption].
  intros H. eapply StandsAlias; try eassumption. eapply IH, H.
Qed.
Lemma loop_complete fuel : forall visited i r h, stands_n h i r -> NoDup visited -> (forall v, In v visited -> v < List.length table /\ exists h', h < h' /\ stands_n h' v r) ->
  List.length table < fuel + List.length visited -> type_based_loop fuel table visited (Some i) = Some r.
Proof.
  induction fuel as [|fuel IH]; intros visited i r h H ND IN L.
  - exfalso. assert (List.length visited <= List.length (seq 0 (List.length table))).
    { apply NoDup_incl_length; [assumption|]. intros v Hv. apply in_seq. destruct (IN v Hv). lia. }
    rewrite seq_length in *. lia.
  - cbn [type_based_loop]. assert (existsb (Nat.eqb i) visited = false) as ->.
    { apply not_true_iff_false. intros X. apply existsb_exists in X. destruct X as (v & Hv & X). apply Nat.eqb_eq in X. subst v.
      destruct (IN i Hv) as [_ (h' & lt & H')]. destruct (height_unique _ _ _ H _ _ H'). lia. }
    inversion H as [? y E T|? y E T V|? y E T V A|h0 ? y j ? E T V A H0]; subst; rewrite E, T; try rewrite V; try rewrite A; try reflexivity.
    apply IH with (h := h0); [assumption| |intros v [<-|Hv]|cbn; lia].
    + constructor; [|assumption]. intros Hv. destruct (IN i Hv) as [_ (h' & lt & H')]. destruct (height_unique _ _ _ H _ _ H'). lia.
    + split; [apply nth_error_Some; congruence|]. eauto.
    + destruct (IN v Hv) as [? (h' & ? & ?)]. split; [assumption|]. exists h'. split; [lia|assumption].
Qed.
Lemma symbols i r : is_symbol_type_based table (Some i) = Some r <-> stands_for table i r.
Proof.
  split; [apply loop_sound|]. intros H. apply stands_height in H. destruct H as [h H].
  eapply loop_complete; [eassumption | constructor | intros ? [] | cbn; lia].
Qed.
End Symbols.

(** * Scanning *)
Lemma scan_app t1 : forall s t2, scan s (t1 ++ t2) = let (s1, x) := scan s t1 in let (s2, y) := scan s1 t2 in (s2, x ++ y).
Proof.
  induction t1 as [|c t1 IH]; intros s t2; cbn [app scan]; [now destruct (scan s t2)|].
  destruct (step s c) as [s1 a]. rewrite IH. destruct (scan s1 t1) as [s2 r]. destruct (scan s2 t2) as [s3 z]. now rewrite app_assoc.
Qed.
Lemma scan_piece t x r : scan Out t = (Out, x) -> scan Out (t ++ r) = let (s, y) := scan Out r in (s, x ++ y).
Proof. intros H. now rewrite scan_app, H. Qed.
Definition whole (t : tok) : Prop :=
  match t with
  | W w => w <> [] /\ scan Out w = (InWord w, []) /\ forallb word_char w = true
  | Q s => scan Out s = (Out, [Q s]) /\ quote (hd " "%char s) = true /\ quote (last s " "%char) = true
  | P _ => True
  end.
Definition fine (s : state) : Prop :=
  match s with
  | InWord w => whole (W w)
  | InQuote q w => scan Out w = (InQuote q w, []) /\ quote q = true /\ quote (hd " "%char w) = true
  | Escaped q w => scan Out w = (Escaped q w, []) /\ quote q = true /\ quote (hd " "%char w) = true
  | _ => True
  end.
Lemma scan_one s c : scan s [c] = step s c.
Proof. cbn. destruct (step s c). now rewrite app_nil_r. Qed.
Lemma start_fine c : fine (fst (start c)) /\ Forall whole (snd (start c)).
Proof.
  assert (X : scan Out [c] = start c) by (rewrite scan_one; reflexivity).
  unfold start in *. destruct (word_char c) eqn:E1; [|destruct (quote c) eqn:E2; [|destruct (Ascii.eqb c "/"); [|destruct (blank c); [|destruct (existsb _ _)]]]];
    cbn [fst snd fine whole hd]; rewrite ?E1, ?E2; repeat split; auto.
  - discriminate.
  - cbn. now rewrite E1.
  - constructor; [|constructor]. exact Logic.I.
Qed.
Lemma scan_snoc w c s : scan Out w = (s, []) -> scan Out (w ++ [c]) = step s c.
Proof. intros H. rewrite scan_app, H, scan_one. now destruct (step s c). Qed.
Lemma hd_snoc (w : bstr) (c : ascii) d : w <> [] -> hd d (w ++ [c]) = hd d w.
Proof. now destruct w. Qed.
Lemma quote_nonempty w : quote (hd " "%char w) = true -> w <> [].
Proof. intros H ->. discriminate H. Qed.
Lemma last_snoc (w : bstr) c d : last (w ++ [c]) d = c.
Proof. apply last_last. Qed.
Lemma step_fine s c : fine s -> fine (fst (step s c)) /\ Forall whole (snd (step s c)).
Proof.
  destruct s as [|w|q w|q w| | | | |]; cbn [fine]; intros F.
  - apply start_fine.
  - unfold step. destruct (word_char c) eqn:E.
    + destruct F as (N & F & A). apply (scan_snoc _ c) in F as G. unfold step in G. rewrite E in G. cbn [fst snd fine whole]. repeat split; auto.
      * now destruct w.
      * rewrite forallb_app, A. cbn. now rewrite E.
    + pose proof (start_fine c) as X. destruct (start c). cbn [fst snd] in *. destruct X. split; [assumption|]. now constructor.
  - destruct F as (F & A & B). apply (scan_snoc _ c) in F as G. pose proof (quote_nonempty _ B) as NE. unfold step in *.
    destruct (Ascii.eqb c q) eqn:E; [|destruct (Ascii.eqb c "\"); [|destruct (line_end c)]]; cbn [fst snd fine whole]; repeat split; auto; try (now rewrite hd_snoc).
    apply Ascii.eqb_eq in E. subst q. constructor; [|constructor]. cbn [whole]. rewrite hd_snoc, last_snoc by assumption. auto.
  - destruct F as (F & A & B). apply (scan_snoc _ c) in F as G. pose proof (quote_nonempty _ B) as NE. cbn [step fst snd fine] in *. repeat split; auto. now rewrite hd_snoc.
  - unfold step. destruct (Ascii.eqb c "/"); [|destruct (Ascii.eqb c "*")]; split; constructor.
  - unfold step. destruct (line_end c); split; constructor.
  - unfold step. destruct (Ascii.eqb c "*"); split; constructor.
  - unfold step. destruct (Ascii.eqb c "/"); [|destruct (Ascii.eqb c "*")]; split; constructor.
  - split; constructor.
Qed.
Lemma scan_fine t : forall s, fine s -> fine (fst (scan s t)) /\ Forall whole (snd (scan s t)).
Proof.
  induction t as [|c t IH]; intros s F; cbn [scan]; [split; [assumption|constructor]|].
  destruct (step_fine s c F) as [F1 W1]. destruct (step s c) as [s1 a]. cbn [fst snd] in *.
  destruct (IH s1 F1) as [F2 W2]. destruct (scan s1 t) as [s2 r]. cbn [fst snd] in *. split; [assumption|]. now apply Forall_app.
Qed.
Lemma tokens_whole t l : tokens t = Some l -> Forall whole l.
Proof.
  unfold tokens. destruct (scan_fine t Out Logic.I) as [F A]. destruct (scan Out t) as [s r]. cbn [fst snd] in *.
  destruct s; intros [= <-]; auto. apply Forall_app. split; [assumption|]. constructor; [assumption|constructor].
Qed.

(** Texts that end in a token: what comes after does not change their tokens. *)
Definition ends (t : bstr) (l : list tok) : Prop := scan Out t = (Out, l) \/ exists w l0, scan Out t = (InWord w, l0) /\ l = l0 ++ [W w].
Lemma sep t l c r : ends t l -> word_char c = false -> scan Out (t ++ c :: r) = let (s, y) := scan Out (c :: r) in (s, l ++ y).
Proof.
  intros [E|(w & l0 & E & ->)] N; rewrite scan_app, E; [reflexivity|].
  cbn [scan step]. rewrite N. destruct (start c) as [s1 a]. destruct (scan s1 r) as [s2 z]. now rewrite <- app_assoc.
Qed.
Lemma tokens_ends t l : tokens t = Some l -> ends_token t -> ends t l.
Proof.
  unfold tokens, ends_token, ends. intros H [_ N]. destruct (scan Out t) as [s r]. cbn [fst] in N. destruct s; try discriminate H; injection H as <-; eauto. now destruct N.
Qed.
Lemma ends_tokens t l : ends t l -> tokens t = Some l.
Proof. unfold tokens. intros [-> |(w & l0 & -> & ->)]; reflexivity. Qed.
(** A name by itself. *)
Lemma whole_ends t w : whole t -> name t = Some w -> ends w [t].
Proof.
  destruct t as [v|s|c]; cbn; intros H [= <-].
  - right. exists v, []. now split.
  - left. apply H.
Qed.
Lemma word_not_blank c : word_char c = true -> blank c = false /\ space c = false.
Proof. destruct c as [[] [] [] [] [] [] [] []]; vm_compute; auto. Qed.
Lemma quote_not_blank c : quote c = true -> blank c = false /\ space c = false.
Proof. destruct c as [[] [] [] [] [] [] [] []]; vm_compute; auto. Qed.
Lemma space_blank c : space c = blank c.
Proof. destruct c as [[] [] [] [] [] [] [] []]; reflexivity. Qed.
Lemma trim_left_id cut t : match t with c :: _ => cut c = false | [] => True end -> trim_left cut t = t.
Proof. destruct t as [|c t]; cbn; [reflexivity|]. now intros ->. Qed.
Lemma last_rev_hd (t : bstr) c d : hd d (rev (t ++ [c])) = c.
Proof. now rewrite rev_app_distr. Qed.
Lemma trim_id t : match t with c :: _ => space c = false | [] => True end -> (t <> [] -> space (last t "000"%char) = false) -> trim_space t = t.
Proof.
  intros H1 H2. unfold trim_space. rewrite (trim_left_id space t) by assumption. rewrite trim_left_id; [apply rev_involutive|].
  destruct t as [|c t _] using rev_ind; [exact Logic.I|]. rewrite rev_app_distr. cbn. rewrite last_last in H2. apply H2. now destruct t.
Qed.
Lemma name_trim t w : whole t -> name t = Some w -> trim_space w = w.
Proof.
  destruct t as [v|s|c]; cbn; intros H [= <-].
  - destruct H as (N & _ & A). rewrite forallb_forall in A. apply trim_id.
    + destruct v; [exact Logic.I|]. apply word_not_blank, A. now left.
    + intros _. apply word_not_blank, A. destruct v as [|c v _] using rev_ind; [easy|]. rewrite last_last. apply in_or_app. right. now left.
  - destruct H as (_ & A & B). apply trim_id.
    + destruct s; [exact Logic.I|]. now apply quote_not_blank.
    + intros N. apply quote_not_blank. destruct s as [|c s _] using rev_ind; [easy|]. now rewrite last_last in *.
Qed.

(** * Specifiers *)
Definition no_punct (l : list tok) : Prop := Forall (fun t => match t with P _ => False | _ => True end) l.
Lemma name_punct t w : name t = Some w -> match t with P _ => False | _ => True end.
Proof. now destruct t. Qed.
Lemma word_punct w t : is_word w t = true -> t = W w.
Proof. destruct t; cbn; try discriminate. intros H. apply beqb_eq in H. now subst. Qed.
(** The readings of a specifier. *)
Inductive reading : list tok -> entry -> Prop :=
| R1 n w : name n = Some w -> reading [n] {| e_type := false; e_local := w; e_exported := w |}
| R2 n w : name n = Some w -> reading [W (b "type"); n] {| e_type := true; e_local := w; e_exported := w |}
| R3 n w m v : name n = Some w -> name m = Some v -> reading [n; W (b "as"); m] {| e_type := false; e_local := w; e_exported := v |}
| R4 n w m v : name n = Some w -> name m = Some v -> reading [W (b "type"); n; W (b "as"); m] {| e_type := true; e_local := w; e_exported := v |}.
Lemma an_entry_inv ty l e x : an_entry ty l e = Some x -> exists w v, name l = Some w /\ name e = Some v /\ x = {| e_type := ty; e_local := w; e_exported := v |}.
Proof. unfold an_entry. destruct (name l) as [w|], (name e) as [v|]; try discriminate. intros [= <-]. eauto. Qed.
Lemma reading_iff l e : read_specifier l = Some e <-> reading l e.
Proof.
  split.
  - destruct l as [|x [|y [|z [|u [|]]]]]; cbn [read_specifier]; try discriminate.
    + intros H. apply an_entry_inv in H. destruct H as (w & v & E1 & E2 & ->). assert (w = v) by congruence. subst v. now constructor.
    + destruct (is_word (b "type") x) eqn:T; [|discriminate]. apply word_punct in T. subst x.
      intros H. apply an_entry_inv in H. destruct H as (w & v & E1 & E2 & ->). assert (w = v) by congruence. subst v. now constructor.
    + destruct (is_word (b "as") y) eqn:T; [|discriminate]. apply word_punct in T. subst y.
      intros H. apply an_entry_inv in H. destruct H as (w & v & E1 & E2 & ->). now constructor.
    + destruct (is_word (b "type") x) eqn:T; [|discriminate]. destruct (is_word (b "as") z) eqn:T'; [|discriminate]. apply word_punct in T, T'. subst x z.
      intros H. apply an_entry_inv in H. destruct H as (w & v & E1 & E2 & ->). now constructor.
  - intros H. destruct H as [n w E|n w E|n w m v E E'|n w m v E E']; cbn [read_specifier]; unfold an_entry, is_word; rewrite ?beqb_refl; cbn [andb]; rewrite ?E, ?E'; reflexivity.
Qed.
Lemma reading_names l e : reading l e -> no_punct l.
Proof. intros H. destruct H; repeat constructor; try (eapply name_punct; eassumption). Qed.
(** Adding and removing the modifier. *)
Lemma reading_typed l w v : reading l {| e_type := false; e_local := w; e_exported := v |} -> reading (W (b "type") :: l) {| e_type := true; e_local := w; e_exported := v |}.
Proof. intros H. inversion H; subst; now constructor. Qed.
Lemma reading_untyped l w v : reading l {| e_type := true; e_local := w; e_exported := v |} -> exists l', l = W (b "type") :: l' /\ reading l' {| e_type := false; e_local := w; e_exported := v |}.
Proof. intros H. inversion H; subst; eexists; (split; [reflexivity|]); now constructor. Qed.
(** The text written for two names. *)
Lemma names_text n m w v : whole n -> whole m -> name n = Some w -> name m = Some v ->
  exists l, ends (if beqb w v then w else w ++ b " as " ++ v) l /\ reading l {| e_type := false; e_local := w; e_exported := v |}.
Proof.
  intros Wn Wm En Em. destruct (beqb w v) eqn:E.
  - apply beqb_eq in E. subst v. exists [n]. split; [now apply whole_ends|now constructor].
  - exists [n; W (b "as"); m]. split; [|now constructor]. pose proof (whole_ends _ _ Wn En) as X. pose proof (whole_ends _ _ Wm Em) as Y.
    assert (S1 : scan Out (w ++ b " as " ++ v) = let (s, y) := scan Out v in (s, n :: W (b "as") :: y)).
    { change (b " as " ++ v) with (" "%char :: b "as " ++ v). rewrite (sep _ _ _ _ X) by reflexivity.
      change (" "%char :: b "as " ++ v) with (b " as " ++ v). rewrite scan_app. replace (scan Out (b " as ")) with (Out, [W (b "as")]) by reflexivity. now destruct (scan Out v). }
    destruct Y as [Y|(u & l0 & Y & Z)]; rewrite Y in S1; [left; exact S1|right].
    destruct l0 as [|? [|]]; cbn in Z; try discriminate Z; injection Z as ->. exists u, [n; W (b "as")]. now split.
Qed.
Lemma reading_whole l e : Forall whole l -> reading l e -> exists n m, whole n /\ whole m /\ name n = Some (e_local e) /\ name m = Some (e_exported e).
Proof.
  intros F H. destruct H; cbn [e_local e_exported]; rewrite ?Forall_forall in F.
  - exists n, n. repeat split; auto; apply F; cbn; auto.
  - exists n, n. repeat split; auto; apply F; cbn; auto.
  - exists n, m. repeat split; auto; apply F; cbn; auto.
  - exists n, m. repeat split; auto; apply F; cbn; auto.
Qed.

(** * The modifier removed *)
Lemma word_split t : forall w s l, scan (InWord w) t = (s, l) ->
  exists u r, t = u ++ r /\ ((r = [] /\ s = InWord (w ++ u) /\ l = []) \/ exists c r' l', r = c :: r' /\ word_char c = false /\ l = W (w ++ u) :: l' /\ scan Out r = (s, l')).
Proof.
  induction t as [|c t IH]; intros w s l H.
  - injection H as <- <-. exists [], []. split; [reflexivity|]. left. now rewrite app_nil_r.
  - cbn [scan step] in H. destruct (word_char c) eqn:E.
    + destruct (scan (InWord (w ++ [c])) t) as [s' l'] eqn:X. injection H as <- <-. apply IH in X. destruct X as (u & r & -> & D).
      exists (c :: u), r. split; [reflexivity|]. rewrite <- app_assoc in D. exact D.
    + exists [], (c :: t). split; [reflexivity|]. right. destruct (start c) as [s1 a] eqn:Y. destruct (scan s1 t) as [s2 z] eqn:Z. injection H as <- <-.
      exists c, t, (a ++ z). rewrite app_nil_r. repeat split; auto. cbn [scan step]. now rewrite Y, Z.
Qed.
Lemma quote_first t : forall s l, (exists q w, s = InQuote q w \/ s = Escaped q w) -> snd (scan s t) = l -> l = [] \/ exists v l', l = Q v :: l'.
Proof.
  induction t as [|c t IH]; intros s l (q & w & D) H; [now left|].
  cbn [scan] in H. destruct D as [-> | ->]; cbn [step] in H.
  - destruct (Ascii.eqb c q); [|destruct (Ascii.eqb c "\"); [|destruct (line_end c)]].
    + destruct (scan Out t) as [s2 r]. cbn [snd app] in H. right. eauto.
    + destruct (scan (Escaped q (w ++ [c])) t) as [s2 r] eqn:X. cbn [snd app] in H. subst l. apply (IH (Escaped q (w ++ [c]))); [eauto|now rewrite X].
    + assert (Bd : forall t, scan Bad t = (Bad, [])) by (clear; induction t as [|c t IH]; cbn [scan step]; [reflexivity|]; now rewrite IH).
      rewrite Bd in H. now left.
    + destruct (scan (InQuote q (w ++ [c])) t) as [s2 r] eqn:X. cbn [snd app] in H. subst l. apply (IH (InQuote q (w ++ [c]))); [eauto|now rewrite X].
  - destruct (scan (InQuote q (w ++ [c])) t) as [s2 r] eqn:X. cbn [snd app] in H. subst l. apply (IH (InQuote q (w ++ [c]))); [eauto|now rewrite X].
Qed.
Lemma scan_bad t : scan Bad t = (Bad, []).
Proof. induction t as [|c t IH]; cbn [scan step]; [reflexivity|]. now rewrite IH. Qed.
Lemma first_word t w l : begins_token t -> ends t (W w :: l) -> l <> [] -> exists c r, t = w ++ c :: r /\ word_char c = false /\ ends (c :: r) l.
Proof.
  destruct t as [|c t]; [easy|]. intros [B S] E NE.
  assert (scan Out (c :: t) = let (s1, a) := start c in let (s2, r) := scan s1 t in (s2, a ++ r)) as X by reflexivity.
  unfold start in X. destruct (word_char c) eqn:Ec.
  - destruct (scan (InWord [c]) t) as [s r] eqn:Y. apply word_split in Y. destruct Y as (u & r' & -> & [(-> & -> & ->)|(d & r'' & l' & -> & Nd & -> & Y)]).
    + unfold ends in E; rewrite X in E. destruct E as [E|(v & l0 & E & Z)]; [discriminate E|]. injection E as <- <-. injection Z as _ Z. now destruct (NE Z).
    + exists d, r''. change (c :: u ++ d :: r'') with ((c :: u) ++ d :: r'').
      destruct E as [E|(v & l0 & E & Z)]; rewrite X in E.
      * injection E as -> E1 E2. split; [now rewrite <- E1|]. split; [assumption|]. left. rewrite <- E2. exact Y.
      * injection E as -> <-. cbn [app] in Z. injection Z as Z1 Z2. split; [now rewrite Z1|]. split; [assumption|]. right. exists v, l'. now split.
  - exfalso. destruct (quote c) eqn:Eq; [|destruct (Ascii.eqb c "/") eqn:Es; [|rewrite B in X; destruct (existsb _ _)]].
    + destruct (scan (InQuote c [c]) t) as [s r] eqn:Y. cbn [app] in X.
      destruct (quote_first t (InQuote c [c]) r) as [-> |(v & l' & ->)]; [eauto|now rewrite Y| |].
      * destruct E as [E|(v & l0 & E & Z)]; rewrite X in E; [discriminate E|]. injection E as -> <-. injection Z as _ Z. now destruct (NE Z).
      * destruct E as [E|(u & l0 & E & Z)]; rewrite X in E; [discriminate E|]. injection E as -> <-. discriminate Z.
    + apply Ascii.eqb_eq in Es. now apply S.
    + destruct (scan Out t) as [s r]. destruct E as [E|(u & l0 & E & Z)]; rewrite X in E; [discriminate E|]. injection E as -> <-. discriminate Z.
    + rewrite scan_bad in X. destruct E as [E|(u & l0 & E & Z)]; rewrite X in E; discriminate E.
Qed.
Lemma cutset_blank c : cutset c = true -> word_char c = false /\ start c = (Out, []).
Proof. destruct c as [[] [] [] [] [] [] [] []]; vm_compute; intros H; try discriminate H; auto. Qed.
Lemma scan_trim r : scan Out (trim_left cutset r) = scan Out r.
Proof.
  induction r as [|c r IH]; [reflexivity|]. cbn [trim_left]. destruct (cutset c) eqn:E; [|reflexivity].
  rewrite IH. apply cutset_blank in E. cbn [scan step]. rewrite (proj2 E). now destruct (scan Out r).
Qed.
Lemma ends_scan t t' l : scan Out t = scan Out t' -> ends t l -> ends t' l.
Proof. unfold ends. intros ->. auto. Qed.
Lemma ok_text s l : specifier_ok s l -> (type_only s = true -> apart s) ->
  exists l', ends (specifier_text s) l' /\ reading l' {| e_type := false; e_local := local s; e_exported := exported s |}.
Proof.
  intros (B & E & T & R) A. apply reading_iff in R. pose proof (tokens_whole _ _ T) as Wh. pose proof (tokens_ends _ _ T E) as En.
  unfold specifier_text. destruct (type_only s) eqn:Ty.
  - apply reading_untyped in R. destruct R as (l' & -> & R). exists l'. split; [|assumption].
    assert (Tr : trim_space (spec_text s) = spec_text s).
    { apply trim_id.
      - destruct (spec_text s) as [|c t]; [exact Logic.I|]. rewrite space_blank. apply B.
      - intros _. rewrite space_blank. apply E. }
    rewrite Tr. destruct (first_word _ _ _ B En) as (c & r & Et & Nc & En'); [intros ->; inversion R|].
    specialize (A eq_refl Ty). rewrite Et in *. cbn [app b skipn] in A.
    assert (Sp : negb (space c) && negb (Ascii.eqb c "/") = false).
    { rewrite space_blank. destruct (blank c) eqn:Ec; [reflexivity|]. destruct (Ascii.eqb c "/") eqn:Es; [reflexivity|]. exfalso.
      assert (X : scan Out (c :: r) = let (s1, a) := start c in let (s2, r) := scan s1 r in (s2, a ++ r)) by reflexivity.
      unfold start in X. rewrite Nc, A, Es, Ec in X. destruct (existsb _ _).
      - destruct (scan Out r) as [s2 z]. apply reading_names in R. cbn [app] in X. destruct En' as [En'|(u & l0 & En' & ->)]; rewrite X in En'; injection En' as -> <-; now inversion R.
      - rewrite scan_bad in X. destruct En' as [En'|(u & l0 & En' & ->)]; rewrite X in En'; discriminate En'. }
    replace (strip_type (b "type" ++ c :: r)) with (trim_left cutset (c :: r)).
    + eapply ends_scan; [|exact En']. symmetry. apply scan_trim.
    + unfold strip_type. cbn [app b]. now rewrite Sp.
  - destruct (reading_whole _ _ Wh R) as (n & m & Wn & Wm & Nn & Nm). cbn [e_local e_exported] in *.
    rewrite (name_trim _ _ Wn Nn), (name_trim _ _ Wm Nm). now apply (names_text n m).
Qed.

(** * Statements *)
Lemma read_specifiers_app l : no_punct l -> forall now r, read_specifiers now (l ++ r) = read_specifiers (now ++ l) r.
Proof.
  induction 1 as [|t l H F IH]; intros now r; [now rewrite app_nil_r|]. cbn [app].
  replace (now ++ t :: l) with ((now ++ [t]) ++ l) by now rewrite <- app_assoc.
  rewrite <- IH. destruct t as [w|s|c]; [reflexivity|reflexivity|easy].
Qed.
Definition untyped (l : bstr) (e : bstr) : entry := {| e_type := false; e_local := l; e_exported := e |}.
(** [texts_ok]: texts that are read as these entries. *)
Definition text_ok (t : bstr) (e : entry) : Prop := exists l, ends t l /\ reading l e.
Lemma joined ts es : Forall2 text_ok ts es -> ts <> [] ->
  exists l, (forall r, scan Out (join (b ", ") ts ++ b " }" ++ r) = let (s, y) := scan Out r in (s, l ++ P "}"%char :: y)) /\
            (forall r, read_specifiers [] (l ++ P "}"%char :: r) = Some (es, r)).
Proof.
  induction 1 as [|t e ts es (l & En & R) F IH]; [easy|]. intros _. pose proof (reading_names _ _ R) as NP. apply reading_iff in R as R'. destruct F as [|t2 e2 ts es T2 F].
  - exists l. split.
    + intros r. cbn [join]. change (b " }" ++ r) with (" "%char :: b "}" ++ r). rewrite (sep _ _ _ _ En) by reflexivity.
      change (" "%char :: b "}" ++ r) with (b " }" ++ r). rewrite scan_app. replace (scan Out (b " }")) with (Out, [P "}"%char]) by reflexivity. now destruct (scan Out r).
    + intros r. rewrite read_specifiers_app by assumption. cbn [app read_specifiers]. rewrite R'. destruct l; [discriminate R'|reflexivity].
  - destruct IH as (l2 & S2 & R2); [discriminate|]. exists (l ++ P ","%char :: l2). split.
    + intros r. change (join (b ", ") (t :: t2 :: ts)) with (t ++ b ", " ++ join (b ", ") (t2 :: ts)). rewrite <- !app_assoc.
      change (b ", " ++ join (b ", ") (t2 :: ts) ++ b " }" ++ r) with (","%char :: b " " ++ join (b ", ") (t2 :: ts) ++ b " }" ++ r). rewrite (sep _ _ _ _ En) by reflexivity.
      change (","%char :: b " " ++ join (b ", ") (t2 :: ts) ++ b " }" ++ r) with (b ", " ++ join (b ", ") (t2 :: ts) ++ b " }" ++ r).
      rewrite scan_app. replace (scan Out (b ", ")) with (Out, [P ","%char]) by reflexivity. rewrite S2. destruct (scan Out r). cbn [app]. f_equal. now rewrite <- app_assoc.
    + intros r. rewrite <- app_assoc. rewrite read_specifiers_app by assumption. cbn [app read_specifiers]. now rewrite R', R2.
Qed.
(** The module specifier: a string. *)
Definition source_ok (src : bstr) (f : option bstr) : Prop := match f with None => src = [] | Some s => src = s /\ src <> [] /\ whole (Q s) end.
Lemma statement ty ts es src f : Forall2 text_ok ts es -> ts <> [] -> source_ok src f -> Forall (fun e => e_type e = false) es ->
  exists l, (forall r, scan Out (export_statement ty ts src ++ r) = let (s, y) := scan Out r in (s, l ++ y)) /\
            (forall r, read_decl (l ++ r) = Some ({| d_type := ty; d_clause := Names es; d_from := f; d_with := [] |}, r)) /\ l <> [].
Proof.
  intros F NE So Un. destruct (joined _ _ F NE) as (l & Sc & Rd).
  assert (exists lf, (forall r, scan Out ((if beqb src [] then [] else b " from " ++ src) ++ b ";" ++ r) = let (s, y) := scan Out r in (s, lf ++ P ";"%char :: y)) /\
            (forall r, read_from (lf ++ P ";"%char :: r) = Some (f, [], P ";"%char :: r))) as (lf & Sf & Rf).
  { destruct f as [s|]; cbn in So.
    - destruct So as (-> & N & (Ws & _)). exists [W (b "from"); Q s]. split.
      + intros r. destruct (beqb s []) eqn:E; [apply beqb_eq in E; now subst|]. rewrite <- app_assoc, scan_app. replace (scan Out (b " from ")) with (Out, [W (b "from")]) by reflexivity.
        rewrite scan_app, Ws, scan_app. replace (scan Out (b ";")) with (Out, [P ";"%char]) by reflexivity. now destruct (scan Out r).
      + intros r. cbn [app read_from]. now rewrite beqb_refl.
    - subst src. exists []. split; [|reflexivity]. intros r. cbn [beqb app]. rewrite scan_app. replace (scan Out (b ";")) with (Out, [P ";"%char]) by reflexivity. now destruct (scan Out r). }
  assert (H0 : existsb e_type es = false).
  { apply not_true_iff_false. intros X. apply existsb_exists in X. destruct X as (e & I1 & I2). rewrite Forall_forall in Un. rewrite (Un e I1) in I2. discriminate. }
  exists (W (b "export") :: (if ty then [W (b "type")] else []) ++ P "{"%char :: l ++ P "}"%char :: lf ++ [P ";"%char]). repeat split.
  - intros r. unfold export_statement. rewrite <- !app_assoc.
    rewrite (scan_piece (b "export ") [W (b "export")]) by reflexivity.
    rewrite (scan_piece (if ty then b "type " else []) (if ty then [W (b "type")] else [])) by now destruct ty.
    rewrite (scan_piece (b "{ ") [P "{"%char]) by reflexivity. rewrite Sc, Sf. destruct (scan Out r) as [s y].
    cbn [app]. f_equal. f_equal. rewrite <- !app_assoc. f_equal. cbn [app]. f_equal. rewrite <- app_assoc. f_equal. cbn [app]. f_equal. now rewrite <- app_assoc.
  - intros r. cbn [app]. unfold read_decl. rewrite beqb_refl.
    replace (read_type (((if ty then [W (b "type")] else []) ++ P "{"%char :: l ++ P "}"%char :: lf ++ [P ";"%char]) ++ r)) with (ty, P "{"%char :: l ++ P "}"%char :: lf ++ P ";"%char :: r).
    + rewrite Rd, H0, andb_false_r, Rf. reflexivity.
    + replace ((P "{"%char :: l ++ P "}"%char :: lf ++ [P ";"%char]) ++ r) with (P "{"%char :: l ++ P "}"%char :: lf ++ P ";"%char :: r)
        by (cbn [app]; rewrite <- app_assoc; cbn [app]; now rewrite <- app_assoc).
      rewrite <- app_assoc. replace ((P "{"%char :: l ++ P "}"%char :: lf ++ [P ";"%char]) ++ r) with (P "{"%char :: l ++ P "}"%char :: lf ++ P ";"%char :: r)
        by (cbn [app]; rewrite <- app_assoc; cbn [app]; now rewrite <- app_assoc).
      destruct ty; reflexivity.
  - discriminate.
Qed.

(** * Declarations in the source *)
Lemma tokens_app t x r : scan Out t = (Out, x) -> tokens (t ++ r) = option_map (app x) (tokens r).
Proof.
  intros H. unfold tokens. rewrite (scan_piece _ _ _ H). destruct (scan Out r) as [s y]. destruct s; try reflexivity. cbn. now rewrite app_assoc.
Qed.
Lemma read_one l d : read_decl l = Some (d, []) -> read_decls (List.length l) l = Some [d].
Proof. intros H. destruct l as [|t l]; [discriminate H|]. cbn [List.length read_decls]. rewrite H. now destruct (List.length l). Qed.
Definition entry_of (f : specifier * bstr -> bool) (it : specifier * bstr) : entry :=
  {| e_type := type_only (fst it) || f it; e_local := local (fst it); e_exported := exported (fst it) |}.
Definition with_types (f : specifier * bstr -> bool) (l : list (specifier * bstr)) : bstr :=
  flat_map (fun it => (if f it then b "type " else []) ++ spec_text (fst it) ++ snd it) l.
Lemma specifier_reading s ts (f : bool) : specifier_ok s ts -> (f = true -> type_only s = false) ->
  reading ((if f then [W (b "type")] else []) ++ ts) {| e_type := type_only s || f; e_local := local s; e_exported := exported s |}.
Proof.
  intros (_ & _ & _ & R) H. apply reading_iff in R. destruct f; cbn [app]; [|now rewrite orb_false_r].
  rewrite H in * by reflexivity. now apply reading_typed.
Qed.
Lemma items_read f l : items_ok l -> (forall it, f it = true -> type_only (fst it) = false) -> l <> [] ->
  exists lt, scan Out (with_types f l) = (Out, lt) /\ (forall r, read_specifiers [] (lt ++ r) = Some (map (entry_of f) l, r)).
Proof.
  intros H Hf. induction H as [|s after l ts seps So Se Sc Ok IH]; [easy|]. intros _.
  pose proof (specifier_reading s ts (f (s, after)) So (Hf (s, after))) as R. set (ts' := (if f (s, after) then [W (b "type")] else []) ++ ts) in *.
  assert (S1 : scan Out ((if f (s, after) then b "type " else []) ++ spec_text s ++ after) = (Out, ts' ++ seps)).
  { rewrite (scan_piece (if f (s, after) then b "type " else []) (if f (s, after) then [W (b "type")] else [])) by now destruct (f (s, after)).
    rewrite Sc. unfold ts'. now rewrite app_assoc. }
  pose proof (reading_names _ _ R) as NP. apply reading_iff in R as R'. change {| e_type := _; e_local := _; e_exported := _ |} with (entry_of f (s, after)) in R'.
  cbn [with_types flat_map map fst snd]. fold (with_types f l). destruct l as [|it l].
  - exists (ts' ++ seps). split; [cbn [with_types flat_map]; rewrite app_nil_r; exact S1|]. intros r. rewrite <- app_assoc, read_specifiers_app by assumption. cbn [app map].
    destruct Se as [-> | ->]; cbn [app read_specifiers]; rewrite R'; [|reflexivity]. destruct ts'; [discriminate R'|reflexivity].
  - destruct IH as (lt & S2 & R2); [discriminate|]. cbn in Se. subst seps. exists (ts' ++ P ","%char :: lt). split.
    + rewrite (scan_piece _ _ _ S1), S2. now rewrite <- app_assoc.
    + intros r. rewrite <- app_assoc, read_specifiers_app by assumption. cbn [app read_specifiers]. now rewrite R', R2.
Qed.
Lemma named_read f d w : named_ok d w -> decl_type_only d = false -> (forall it, f it = true -> type_only (fst it) = false) -> items d <> [] ->
  read (head d ++ with_types f (items d) ++ tail d) = Some [{| d_type := false; d_clause := Names (map (entry_of f) (items d)); d_from := source d; d_with := w |}].
Proof.
  intros (Hd & It & lt & Tt & r & Rf & Re) Ty Hf NE. destruct (items_read f _ It Hf NE) as (li & Si & Ri). rewrite Ty in Hd.
  unfold read. rewrite (tokens_app _ _ _ Hd), (tokens_app _ _ _ Si), Tt. cbn [option_map]. destruct (items d) as [|it its] eqn:E; [easy|].
  apply read_one. cbn [app]. unfold read_decl. rewrite beqb_refl. cbn [read_type]. rewrite Ri, Rf, Re. reflexivity.
Qed.

(** * Inserted modifiers *)
Lemma edited_items (f : specifier * bstr -> bool) (nodes : nat -> list (specifier * bstr) -> list range) l :
  (forall p, nodes p [] = []) ->
  (forall p s after l, nodes p ((s, after) :: l) = (if f (s, after) then [(p, p + List.length (spec_text s))] else []) ++ nodes (p + List.length (spec_text s) + List.length after) l) ->
  forall pre at_ tl, edited at_ (pre ++ items_text l ++ tl) (map (fun r => ((fst r, fst r), b "type ")) (nodes (at_ + List.length pre) l)) = pre ++ with_types f l ++ tl.
Proof.
  intros N0 N1. induction l as [|[s after] l IH]; intros pre at_ tl; [rewrite N0; reflexivity|].
  rewrite N1. cbn [items_text with_types flat_map fst snd]. fold (items_text l) (with_types f l). destruct (f (s, after)).
  - cbn [app map fst edited]. replace (at_ + List.length pre - at_) with (List.length pre) by lia.
    rewrite firstn_app, Nat.sub_diag, firstn_all, firstn_O, app_nil_r. rewrite skipn_app, Nat.sub_diag, skipn_all. cbn [app skipn]. f_equal.
    rewrite <- !app_assoc. f_equal. specialize (IH (spec_text s ++ after) (at_ + List.length pre) tl). rewrite app_length in IH.
    rewrite Nat.add_assoc in IH. rewrite <- !app_assoc in IH. exact IH.
  - cbn [app]. specialize (IH (pre ++ spec_text s ++ after) at_ tl). rewrite !app_length, !Nat.add_assoc in IH. rewrite <- !app_assoc in *. exact IH.
Qed.

(** * The analysis *)
Section Analysis.
Context (table : list symbol) (resolve : bstr -> option nat) (is_type : bstr -> bool).
Hypothesis is_type_ok : forall w, is_type w = true <-> exists s, resolve w = Some s /\ stands_for table s true.
Definition wrong (it : specifier * bstr) : bool := negb (type_only (fst it)) && is_type (local (fst it)).
Definition resolved (it : specifier * bstr) : Prop := type_only (fst it) = false -> exists s r, resolve (local (fst it)) = Some s /\ stands_for table s r.
Lemma type_based w : match is_symbol_type_based table (resolve w) with Some true => is_type w = true | _ => is_type w = false end.
Proof.
  destruct (resolve w) as [s|] eqn:E.
  - destruct (is_symbol_type_based table (Some s)) as [[|]|] eqn:T.
    + apply is_type_ok. exists s. split; [assumption|]. now apply symbols.
    + apply not_true_iff_false. intros X. apply is_type_ok in X. destruct X as (s' & E' & X). assert (s' = s) by congruence. subst s'. apply symbols in X. congruence.
    + apply not_true_iff_false. intros X. apply is_type_ok in X. destruct X as (s' & E' & X). assert (s' = s) by congruence. subst s'. apply symbols in X. congruence.
  - cbn. apply not_true_iff_false. intros X. apply is_type_ok in X. destruct X as (s' & E' & X). congruence.
Qed.
Lemma resolved_some it : resolved it -> type_only (fst it) = false -> is_symbol_type_based table (resolve (local (fst it))) <> None.
Proof. intros R T. destruct (R T) as (s & r & -> & X). apply symbols in X. congruence. Qed.
(** All names are those of their tokens. *)
Lemma shown s l : specifier_ok s l -> type_only s = false -> specifier_text s = if beqb (local s) (exported s) then local s else local s ++ b " as " ++ exported s.
Proof.
  intros (_ & _ & T & R) Ty. apply reading_iff in R. destruct (reading_whole _ _ (tokens_whole _ _ T) R) as (n & m & Wn & Wm & Nn & Nm). cbn [e_local e_exported] in *.
  unfold specifier_text. rewrite Ty, (name_trim _ _ Wn Nn), (name_trim _ _ Wm Nm). reflexivity.
Qed.
Definition nodes (p : nat) (l : list (specifier * bstr)) : list range := type_nodes (analyze table resolve p l).
Lemma nodes_nil p : nodes p [] = [].
Proof. reflexivity. Qed.
Lemma nodes_cons p s after l :
  nodes p ((s, after) :: l) = (if wrong (s, after) then [(p, p + List.length (spec_text s))] else []) ++ nodes (p + List.length (spec_text s) + List.length after) l.
Proof.
  unfold nodes, wrong. cbn [analyze fst]. destruct (type_only s); [reflexivity|]. pose proof (type_based (local s)) as X.
  destruct (is_symbol_type_based table (resolve (local s))) as [[|]|]; rewrite X; reflexivity.
Qed.
Lemma names_are p l : type_names (analyze table resolve p l) = map (fun it => specifier_text (fst it)) (filter wrong l).
Proof.
  revert p. induction l as [|[s after] l IH]; intros p; [reflexivity|]. cbn [analyze filter]. unfold wrong at 1. cbn [fst]. destruct (type_only s); [apply IH|].
  pose proof (type_based (local s)) as X. destruct (is_symbol_type_based table (resolve (local s))) as [[|]|]; rewrite X; cbn [negb andb type_names map fst]; now rewrite IH.
Qed.
Lemma nodes_length p l : List.length (nodes p l) = List.length (filter wrong l).
Proof.
  revert p. induction l as [|[s after] l IH]; intros p; [reflexivity|]. rewrite nodes_cons, app_length, IH. cbn [filter]. destruct (wrong (s, after)); reflexivity.
Qed.
(** Specifiers that keep a value: not types. *)
Definition keeps (it : specifier * bstr) : bool := negb (type_only (fst it) || is_type (local (fst it))).
Definition plain_entry (it : specifier * bstr) : entry := untyped (local (fst it)) (exported (fst it)).
Lemma texts p l : items_ok l -> Forall (fun it => apart (fst it)) l -> Forall resolved l ->
  Forall2 text_ok (type_texts (analyze table resolve p l)) (map plain_entry (filter (fun it => negb (keeps it)) l)) /\
  Forall2 text_ok (value_texts (analyze table resolve p l)) (map plain_entry (filter keeps l)).
Proof.
  intros Ok. revert p. induction Ok as [|s after l ts seps So Se Sc Ok IH]; intros p Ap Re; [split; constructor|].
  inversion_clear Ap as [|? ? A1 A2]. inversion_clear Re as [|? ? R1 R2]. destruct (IH (p + List.length (spec_text s) + List.length after) A2 R2) as [I1 I2].
  assert (T : text_ok (specifier_text s) (plain_entry (s, after))).
  { destruct (ok_text s ts So (fun _ => A1)) as (l' & E & R). exists l'. now split. }
  cbn [analyze filter]. assert (K : keeps (s, after) = negb (type_only s || is_type (local s))) by reflexivity. rewrite K. destruct (type_only s) eqn:Ty; cbn [orb negb].
  - cbn [type_texts value_texts map]. split; [now constructor|assumption].
  - pose proof (type_based (local s)) as X. pose proof (resolved_some _ R1 Ty) as Y. cbn [fst] in Y.
    destruct (is_symbol_type_based table (resolve (local s))) as [[|]|]; [| |easy]; rewrite X; cbn [negb type_texts value_texts map]; split; try assumption; now constructor.
Qed.
(** Unresolved names do not count as values, even when there are some. *)
Lemma value_texts_length p l : Forall resolved l -> List.length (value_texts (analyze table resolve p l)) = List.length (filter keeps l).
Proof.
  intros R. revert p. induction R as [|[s after] l R1 R2 IH]; intros p; [reflexivity|]. cbn [analyze filter]. assert (K : keeps (s, after) = negb (type_only s || is_type (local s))) by reflexivity. rewrite K.
  destruct (type_only s) eqn:Ty; cbn [orb negb]; [apply IH|]. pose proof (type_based (local s)) as X. pose proof (resolved_some _ R1 Ty) as Y. cbn [fst] in Y.
  destruct (is_symbol_type_based table (resolve (local s))) as [[|]|]; [| |easy]; rewrite X; cbn [negb value_texts List.length]; now rewrite IH.
Qed.
End Analysis.

(** * Reports *)
Section Reports.
Context (table : list symbol) (resolve : bstr -> option nat) (is_type : bstr -> bool).
Hypothesis known : types_known table resolve is_type.
Notation wrong := (wrong is_type).
Lemma wrong_misplaced d : map fst (filter wrong (items d)) = misplaced is_type d.
Proof.
  unfold misplaced. induction (items d) as [|it l IH]; [reflexivity|]. cbn [filter map]. change (wrong it) with (negb (type_only (fst it)) && is_type (local (fst it))).
  destruct (negb (type_only (fst it)) && is_type (local (fst it))); cbn [map]; now rewrite IH.
Qed.
Lemma value_texts_nil p l : value_texts (analyze table resolve p l) = [] <->
  ~ exists s after i, In (s, after) l /\ type_only s = false /\ resolve (local s) = Some i /\ stands_for table i false.
Proof.
  revert p. induction l as [|[s after] l IH]; intros p; cbn [analyze].
  - split; [|reflexivity]. intros _ (s & after & i & [] & _).
  - set (q := p + _ + _).
    assert (Hrec : (~ exists s' after' i, In (s', after') l /\ type_only s' = false /\ resolve (local s') = Some i /\ stands_for table i false) ->
                   ~ (type_only s = false /\ exists i, resolve (local s) = Some i /\ stands_for table i false) ->
                   ~ exists s' after' i, In (s', after') ((s, after) :: l) /\ type_only s' = false /\ resolve (local s') = Some i /\ stands_for table i false).
    { intros H1 H2 (s' & a' & i & [[= <- <-]|I1] & T & E & X); [apply H2; eauto|apply H1; exists s', a', i; auto]. }
    destruct (type_only s) eqn:Ty.
    + cbn [value_texts]. rewrite IH. split; intros H; [apply Hrec; [assumption|intros [X _]; discriminate]|]. intros (s' & a' & i & I1 & X). apply H. exists s', a', i. split; [now right|assumption].
    + assert (Y : forall r, is_symbol_type_based table (resolve (local s)) = Some r <-> exists i, resolve (local s) = Some i /\ stands_for table i r).
      { intros r. destruct (resolve (local s)) as [i|]; [rewrite symbols|]; split.
        - intros X. eauto.
        - intros (j & [= <-] & X). exact X.
        - discriminate.
        - intros (j & [=] & _). }
      destruct (is_symbol_type_based table (resolve (local s))) as [[|]|] eqn:E; cbn [value_texts].
      * rewrite IH. split; intros H; [apply Hrec; [assumption|intros [_ X]; apply Y in X; discriminate]|]. intros (s' & a' & i & I1 & X). apply H. exists s', a', i. split; [now right|assumption].
      * split; [discriminate|]. intros H. exfalso. apply H. destruct (proj1 (Y false) eq_refl) as (i & Ei & X). exists s, after, i. split; [now left|auto].
      * rewrite IH. split; intros H; [apply Hrec; [assumption|intros [_ X]; apply Y in X; discriminate]|]. intros (s' & a' & i & I1 & X). apply H. exists s', a', i. split; [now right|assumption].
Qed.
Lemma nodes_wrong p l : type_nodes (analyze table resolve p l) = [] <-> filter wrong l = [].
Proof.
  pose proof (nodes_length table resolve is_type known p l) as X. unfold nodes in X. split; intros H; rewrite H in X; cbn in X; apply length_zero_iff_nil; lia.
Qed.
Lemma in_misplaced s d : In s (misplaced is_type d) <-> exists after, In (s, after) (items d) /\ type_only s = false /\ exists i, resolve (local s) = Some i /\ stands_for table i true.
Proof.
  unfold misplaced. rewrite filter_In, in_map_iff, andb_true_iff, negb_true_iff, (known (local s)). split.
  - intros [([s' a] & <- & H) [T X]]. cbn [fst] in *. eauto.
  - intros (a & H & T & X). split; [|auto]. exists (s, a). auto.
Qed.
Lemma items_ok_in l : items_ok l -> forall s after, In (s, after) l -> exists ts, specifier_ok s ts.
Proof. induction 1 as [|s0 a0 l ts seps So Se Sc Ok IH]; intros s after H; [easy|]. destruct H as [[= <- <-]|H]; eauto. Qed.
Lemma names_written d : items_ok (items d) -> forall p, type_names (analyze table resolve p (items d)) = map written (misplaced is_type d).
Proof.
  intros Ok p. rewrite (names_are table resolve is_type known), <- wrong_misplaced, map_map. apply map_ext_in. intros [s a] H. apply filter_In in H. destruct H as [H1 H2].
  destruct (items_ok_in _ Ok _ _ H1) as [ts So]. apply (shown s ts So). cbn in H2. apply andb_prop in H2. apply negb_true_iff, H2.
Qed.
Lemma nodes_parts pre tl l : Forall2 (fun r it => part_of (pre ++ items_text l ++ tl) r = spec_text (fst it)) (type_nodes (analyze table resolve (List.length pre) l)) (filter wrong l).
Proof.
  revert pre. induction l as [|[s after] l IH]; intros pre; [constructor|].
  change (type_nodes (analyze table resolve (List.length pre) ((s, after) :: l))) with (nodes table resolve (List.length pre) ((s, after) :: l)).
  rewrite (nodes_cons table resolve is_type known). specialize (IH (pre ++ spec_text s ++ after)). rewrite !app_length, Nat.add_assoc in IH.
  replace ((pre ++ spec_text s ++ after) ++ items_text l ++ tl) with (pre ++ items_text ((s, after) :: l) ++ tl) in IH by (cbn [items_text flat_map fst snd]; now rewrite <- !app_assoc).
  cbn [filter]. destruct (wrong (s, after)); [|exact IH]. constructor; [|exact IH].
  unfold part_of. cbn [fst snd]. replace (List.length pre + List.length (spec_text s) - List.length pre) with (List.length (spec_text s)) by lia.
  rewrite skipn_app, skipn_all, Nat.sub_diag. cbn [app skipn items_text flat_map fst snd]. rewrite <- !app_assoc.
  rewrite firstn_app, firstn_all, Nat.sub_diag. cbn. apply app_nil_r.
Qed.
Lemma join_snoc l x y : join (b ", ") (removelast (x :: y :: l)) ++ b ", and " ++ last (x :: y :: l) [] = x ++ more (y :: l).
Proof.
  revert x y. induction l as [|z l IH]; intros x y; [reflexivity|].
  specialize (IH y z). change (removelast (x :: y :: z :: l)) with (x :: removelast (y :: z :: l)). change (last (x :: y :: z :: l) []) with (last (y :: z :: l) []).
  change (more (y :: z :: l)) with (b ", " ++ y ++ more (z :: l)). rewrite <- IH.
  destruct (removelast (y :: z :: l)) as [|u l'] eqn:E; [destruct l; discriminate E|].
  change (join (b ", ") (x :: u :: l')) with (x ++ b ", " ++ join (b ", ") (u :: l')). now rewrite <- !app_assoc.
Qed.
Lemma join_words_enumeration l : join_words l = enumeration l.
Proof. destruct l as [|x [|y [|z l]]]; try reflexivity. apply (join_snoc (z :: l) x y). Qed.

Lemma source_is d w : named_ok d w -> source_ok (match source d with Some t => trim_space t | None => [] end) (source d).
Proof.
  intros (_ & _ & lt & Tt & r & Rf & _). apply tokens_whole in Tt. destruct (source d) as [s|]; [|reflexivity].
  assert (X : exists f l, lt = W f :: Q s :: l).
  { unfold read_from in Rf. destruct lt as [|[f|q|c] [|[u|q'|c'] lt]]; try discriminate Rf. destruct (beqb f (b "from")); [|discriminate Rf].
    exists f. destruct lt as [|[v|v|v] lt]; try (injection Rf as -> _ _; eauto).
    destruct lt as [|[v'|v'|v'] lt]; try (injection Rf as -> _ _; eauto).
    destruct v' as [[] [] [] [] [] [] [] []]; try (injection Rf as -> _ _; eauto).
    destruct (beqb v (b "with")); [|injection Rf as -> _ _; eauto]. destruct (upto_brace lt) as [[a lt']|]; [|discriminate Rf]. injection Rf as -> _ _; eauto. }
  destruct X as (f & l & ->). inversion_clear Tt as [|? ? _ F]. inversion_clear F as [|? ? F1 _]. pose proof F1 as F2.
  cbn [source_ok]. rewrite (name_trim (Q s) s F1 eq_refl). split; [reflexivity|]. split; [|assumption]. destruct F2 as (_ & F2 & _). now apply quote_nonempty.
Qed.
End Reports.

(** * What the new text exports *)
Lemma filter_split {A} (f : A -> bool) l : Permutation (filter (fun x => negb (f x)) l ++ filter f l) l.
Proof.
  induction l as [|x l IH]; [constructor|]. cbn [filter]. destruct (f x); cbn [negb app]; [|now constructor].
  etransitivity; [symmetry; apply Permutation_middle|]. now constructor.
Qed.
Lemma filter_none {A} (f : A -> bool) l : Forall (fun x => f x = false) l -> filter f l = [].
Proof. induction 1 as [|x l H F IH]; [reflexivity|]. cbn. now rewrite H. Qed.
Lemma filter_all {A} (f : A -> bool) l : Forall (fun x => f x = true) l -> filter f l = l.
Proof. induction 1 as [|x l H F IH]; [reflexivity|]. cbn. now rewrite H, IH. Qed.
Lemma filter_map {A B} (f : B -> bool) (g : A -> B) l : filter f (map g l) = map g (filter (fun x => f (g x)) l).
Proof. induction l as [|x l IH]; [reflexivity|]. cbn. destruct (f (g x)); cbn; now rewrite IH. Qed.
Section Fix.
Context (is_type : bstr -> bool) (f : option bstr).
Notation keeps := (keeps is_type).
Definition g (it : specifier * bstr) : export := {| x_type := negb (keeps it); x_local := local (fst it); x_exported := exported (fst it); x_from := f; x_with := [] |}.
Definition decl_of (ty : bool) (l : list (specifier * bstr)) : decl := {| d_type := ty; d_clause := Names (map plain_entry l); d_from := f; d_with := [] |}.
Lemma types_exports l : exports [decl_of true (filter (fun it => negb (keeps it)) l)] = map g (filter (fun it => negb (keeps it)) l).
Proof.
  unfold exports. cbn [flat_map]. rewrite app_nil_r. unfold exports_of, decl_of. cbn [d_clause d_type d_from d_with]. rewrite map_map. apply map_ext_in. intros it H.
  apply filter_In in H. destruct H as [_ H]. unfold g. rewrite H. reflexivity.
Qed.
Lemma values_exports l : exports [decl_of false (filter keeps l)] = map g (filter keeps l).
Proof.
  unfold exports. cbn [flat_map]. rewrite app_nil_r. unfold exports_of, decl_of. cbn [d_clause d_type d_from d_with]. rewrite map_map. apply map_ext_in. intros it H.
  apply filter_In in H. destruct H as [_ H]. unfold g. rewrite H. reflexivity.
Qed.
Lemma types_left l : left_ is_type [decl_of true (filter (fun it => negb (keeps it)) l)] = [].
Proof.
  unfold left_. rewrite types_exports. apply filter_none. apply Forall_forall. intros x H. apply in_map_iff in H. destruct H as (it & <- & H). apply filter_In in H. destruct H as [_ H].
  cbn [g x_type x_local]. now rewrite H.
Qed.
Lemma values_left l : left_ is_type [decl_of false (filter keeps l)] = map g (filter keeps l).
Proof.
  unfold left_. rewrite values_exports. apply filter_all. apply Forall_forall. intros x H. apply in_map_iff in H. destruct H as (it & <- & H). apply filter_In in H. destruct H as [_ H].
  cbn [g x_type x_local]. rewrite H. cbn. unfold TypeExportsProofs.keeps in H. apply negb_true_iff, orb_false_iff in H. destruct H as [_ ->]. reflexivity.
Qed.
Context (d : named) (plain_decl : decl_type_only d = false) (src : source d = f).
Lemma before_exports w : exports [the_decl d w] =
  map (fun it => {| x_type := type_only (fst it); x_local := local (fst it); x_exported := exported (fst it); x_from := f; x_with := w |}) (items d).
Proof. unfold exports. cbn [flat_map]. rewrite app_nil_r. unfold exports_of, the_decl. cbn [d_clause d_type d_from d_with]. rewrite map_map, plain_decl, src. reflexivity. Qed.
Lemma marked_exports : map (marked is_type) (exports [the_decl d []]) = map g (items d).
Proof.
  rewrite before_exports, map_map. apply map_ext. intros it. unfold marked, g, TypeExportsProofs.keeps. cbn [x_type x_local x_exported x_from x_with]. now rewrite negb_involutive.
Qed.
Lemma before_left : left_ is_type [the_decl d []] = map g (filter keeps (items d)).
Proof.
  unfold left_. rewrite before_exports, filter_map. cbn [x_type x_local].
  change (fun x => negb (type_only (fst x) || is_type (local (fst x)))) with keeps. apply map_ext_in. intros it H. apply filter_In in H. destruct H as [_ H].
  unfold g. rewrite H. unfold TypeExportsProofs.keeps in H. apply negb_true_iff, orb_false_iff in H. destruct H as [-> _]. reflexivity.
Qed.
Definition good (ds : list decl) : Prop :=
  Permutation (exports ds) (map (marked is_type) (exports [the_decl d []])) /\ left_ is_type ds = left_ is_type [the_decl d []] /\ loaded is_type ds = loaded is_type [the_decl d []].
Lemma good_types : filter keeps (items d) = [] -> good [decl_of true (filter (fun it => negb (keeps it)) (items d))].
Proof.
  intros H. pose proof (filter_split keeps (items d)) as Pm. rewrite H, app_nil_r in Pm. repeat split.
  - rewrite types_exports, marked_exports. now apply Permutation_map.
  - rewrite types_left, before_left, H. reflexivity.
  - unfold loaded. cbn [flat_map]. rewrite types_left, before_left, H. cbn [decl_of the_decl d_clause d_from map]. now destruct f, (source d).
Qed.
Lemma good_split : filter keeps (items d) <> [] -> good [decl_of true (filter (fun it => negb (keeps it)) (items d)); decl_of false (filter keeps (items d))].
Proof.
  intros H. pose proof (filter_split keeps (items d)) as Pm.
  assert (A : forall a c, exports [a; c] = exports [a] ++ exports [c]) by (intros a c; unfold exports; cbn [flat_map]; now rewrite !app_nil_r).
  repeat split.
  - rewrite A, types_exports, values_exports, marked_exports, <- map_app. now apply Permutation_map.
  - unfold left_ at 1. rewrite A, filter_app. fold (left_ is_type [decl_of true (filter (fun it => negb (keeps it)) (items d))]) (left_ is_type [decl_of false (filter keeps (items d))]).
    rewrite types_left, values_left, before_left. reflexivity.
  - unfold loaded. cbn [flat_map]. rewrite types_left, values_left, before_left. cbn [decl_of the_decl d_clause d_from map]. rewrite src. destruct f; [|reflexivity].
    destruct (filter keeps (items d)); [easy|reflexivity].
Qed.
(** With modifiers inserted. *)
Lemma inline_good w : let d' := {| d_type := false; d_clause := Names (map (entry_of (wrong is_type)) (items d)); d_from := f; d_with := w |} in
  exports [d'] = map (marked is_type) (exports [the_decl d w]) /\ left_ is_type [d'] = left_ is_type [the_decl d w] /\ loaded is_type [d'] = loaded is_type [the_decl d w].
Proof.
  intros d'. assert (X : exports [d'] = map (marked is_type) (exports [the_decl d w])).
  { rewrite before_exports, map_map. unfold exports. cbn [flat_map]. rewrite app_nil_r. unfold exports_of, d'. cbn [d_clause d_type d_from d_with]. rewrite map_map. apply map_ext. intros it.
    unfold marked, entry_of, wrong. cbn. f_equal. now destruct (type_only (fst it)). }
  assert (Y : left_ is_type [d'] = left_ is_type [the_decl d w]).
  { unfold left_. rewrite X, before_exports, map_map, !filter_map. unfold marked at 2. cbn [x_type x_local].
    assert (Z : forall l : list (specifier * bstr), filter (fun x => negb (type_only (fst x) || is_type (local (fst x)) || is_type (local (fst x)))) l = filter (fun x => negb (type_only (fst x) || is_type (local (fst x)))) l).
    { intros l. apply filter_ext. intros x. now destruct (type_only (fst x)), (is_type (local (fst x))). }
    cbn [marked x_type x_local]. rewrite Z. apply map_ext_in. intros it H. apply filter_In in H. destruct H as [_ H]. unfold marked. cbn.
    apply negb_true_iff, orb_false_iff in H. destruct H as [-> ->]. reflexivity. }
  repeat split; auto. unfold loaded. cbn [flat_map]. rewrite Y. cbn [d' the_decl d_clause d_from]. now rewrite src.
Qed.
End Fix.

Lemma forall2_length {A B} (R : A -> B -> Prop) l m : Forall2 R l m -> List.length l = List.length m.
Proof. induction 1; cbn; congruence. Qed.
Lemma edited_all t new : edited 0 t [((0, List.length t), new)] = new.
Proof. cbn [edited]. rewrite !Nat.sub_0_r, skipn_all. cbn. apply app_nil_r. Qed.
Section Whole.
Context (table : list symbol) (resolve : bstr -> option nat) (is_type : bstr -> bool) (known : types_known table resolve is_type).
Lemma read_statement ty ts es src f : Forall2 text_ok ts es -> ts <> [] -> source_ok src f -> Forall (fun e => e_type e = false) es ->
  read (export_statement ty ts src) = Some [{| d_type := ty; d_clause := Names es; d_from := f; d_with := [] |}].
Proof.
  intros F N S U. destruct (statement ty _ _ _ _ F N S U) as (l & Sc & Rd & _). specialize (Sc []). rewrite app_nil_r in Sc. cbn [scan] in Sc. rewrite app_nil_r in Sc.
  unfold read, tokens. rewrite Sc. apply read_one. specialize (Rd []). now rewrite app_nil_r in Rd.
Qed.
Lemma read_statements ts es vs fs src f : Forall2 text_ok ts es -> ts <> [] -> Forall (fun e => e_type e = false) es -> Forall2 text_ok vs fs -> vs <> [] -> Forall (fun e => e_type e = false) fs -> source_ok src f ->
  read (export_statement true ts src ++ "010"%char :: export_statement false vs src) =
  Some [{| d_type := true; d_clause := Names es; d_from := f; d_with := [] |}; {| d_type := false; d_clause := Names fs; d_from := f; d_with := [] |}].
Proof.
  intros F N U F' N' U' S. destruct (statement true _ _ _ _ F N S U) as (l & Sc & Rd & Ne). destruct (statement false _ _ _ _ F' N' S U') as (l' & Sc' & Rd' & Ne').
  specialize (Sc' []). rewrite app_nil_r in Sc'. cbn [scan] in Sc'. rewrite app_nil_r in Sc'.
  unfold read, tokens. rewrite Sc. change ("010"%char :: export_statement false vs src) with (b (String "010" "") ++ export_statement false vs src).
  rewrite (scan_piece (b (String "010" "")) []) by reflexivity. rewrite Sc'. cbn [app].
  destruct l as [|t l]; [easy|]. cbn [app List.length read_decls]. change (t :: l ++ l') with ((t :: l) ++ l'). rewrite Rd.
  destruct l' as [|t' l']; [easy|]. rewrite app_length. cbn [List.length]. rewrite Nat.add_succ_r. cbn [read_decls]. specialize (Rd' []). rewrite app_nil_r in Rd'. rewrite Rd'.
  now destruct (List.length l + List.length l').
Qed.
Lemma plain_untyped l : Forall (fun e => e_type e = false) (map plain_entry l).
Proof. apply Forall_forall. intros e H. apply in_map_iff in H. destruct H as (it & <- & _). reflexivity. Qed.
Lemma all_known_resolved d : all_known table resolve d -> Forall (resolved table resolve) (items d).
Proof. intros H. apply Forall_forall. intros [s a] Hi T. now apply (H s a). Qed.
Lemma all_apart_forall d : all_apart d -> Forall (fun it => apart (fst it)) (items d).
Proof. intros H. apply Forall_forall. intros [s a] Hi. now apply (H s a). Qed.
Lemma fixed inline d r : named_ok d [] -> all_known table resolve d -> all_apart d -> check_named inline table resolve d = Some r -> (inline = true -> ~ has_value table resolve d) ->
  exists ds, read (edited 0 (named_text d) (rep_edits r)) = Some ds /\ good is_type d ds.
Proof.
  intros Ok K A H Hin. unfold check_named in H. destruct (decl_type_only d) eqn:Pl; [discriminate H|].
  pose proof (source_is _ _ Ok) as So. destruct Ok as (_ & It & _).
  destruct (texts table resolve is_type known (List.length (head d)) _ It (all_apart_forall d A) (all_known_resolved d K)) as [Tt Vt].
  pose proof (value_texts_length table resolve is_type known (List.length (head d)) _ (all_known_resolved d K)) as VL.
  pose proof (value_texts_nil table resolve (List.length (head d)) (items d)) as VN.
  set (an := analyze table resolve (List.length (head d)) (items d)) in *. set (src := match source d with Some t => trim_space t | None => [] end) in *.
  destruct (type_nodes an) as [|first ns] eqn:En; [discriminate H|].
  assert (NT : type_texts an <> []).
  { intros X. pose proof (forall2_length _ _ _ Tt) as Tn. rewrite X, map_length in Tn. symmetry in Tn. apply length_zero_iff_nil in Tn. assert (Wn : type_nodes an = []); [|congruence].
    apply (nodes_wrong table resolve is_type known). destruct (filter (wrong is_type) (items d)) as [|it l] eqn:E; [reflexivity|]. exfalso.
    assert (I1 : In it (filter (wrong is_type) (items d))) by (rewrite E; now left). apply filter_In in I1. destruct I1 as [I1 I2].
    assert (In it (filter (fun it => negb (keeps is_type it)) (items d))) as I3; [|rewrite Tn in I3; easy]. apply filter_In. split; [assumption|].
    unfold keeps, wrong in *. rewrite negb_involutive. apply andb_prop in I2. destruct I2 as [_ ->]. apply orb_true_r. }
  destruct (value_texts an) as [|v vs] eqn:Ev.
  - injection H as <-. cbn [rep_edits]. rewrite edited_all. eexists. split; [eapply read_statement; [exact Tt|exact NT|exact So|apply plain_untyped]|].
    apply good_types; auto. now apply length_zero_iff_nil.
  - assert (inline = false) as ->.
    { destruct inline; [|reflexivity]. exfalso. assert (X : v :: vs = []); [|discriminate X]. apply VN. exact (Hin eq_refl). }
    assert (E : rep_edits r = [((0, List.length (named_text d)), export_statement true (type_texts an) src ++ "010"%char :: export_statement false (v :: vs) src)]).
    { destruct (type_names an) as [|n [|n2 nn]]; injection H as <-; reflexivity. }
    rewrite E, edited_all. eexists. split.
    + eapply read_statements; [exact Tt|exact NT|apply plain_untyped|exact Vt|discriminate|apply plain_untyped|exact So].
    + apply good_split; auto. intros X. rewrite X in VL. discriminate VL.
Qed.
Lemma fixed_inline d w r : named_ok d w -> check_named true table resolve d = Some r -> has_value table resolve d ->
  exists d', read (edited 0 (named_text d) (rep_edits r)) = Some [d'] /\
    exports [d'] = map (marked is_type) (exports [the_decl d w]) /\ left_ is_type [d'] = left_ is_type [the_decl d w] /\ loaded is_type [d'] = loaded is_type [the_decl d w].
Proof.
  intros Ok H Hv. unfold check_named in H. destruct (decl_type_only d) eqn:Pl; [discriminate H|].
  pose proof (value_texts_nil table resolve (List.length (head d)) (items d)) as VN. set (an := analyze table resolve (List.length (head d)) (items d)) in *.
  destruct (type_nodes an) as [|first ns] eqn:En; [discriminate H|]. destruct (value_texts an) as [|v vs] eqn:Ev; [exfalso; now apply (proj1 VN eq_refl)|].
  assert (E : rep_edits r = map (fun r => ((fst r, fst r), b "type ")) (nodes table resolve (0 + List.length (head d)) (items d))).
  { cbn [Nat.add]. unfold nodes. fold an. rewrite En. destruct (type_names an) as [|n [|n2 nn]]; injection H as <-; reflexivity. }
  rewrite E. unfold named_text.
  rewrite (edited_items (wrong is_type) (nodes table resolve) (items d) (nodes_nil table resolve) (nodes_cons table resolve is_type known)).
  eexists. split; [apply (named_read (wrong is_type) d w Ok Pl)|].
  - intros it X. unfold wrong in X. apply andb_prop in X. apply negb_true_iff, X.
  - intros X. unfold an in En. rewrite X in En. discriminate En.
  - now apply inline_good.
Qed.
End Whole.

(** * Stars *)
Lemma star_read (ins : bool) s as_ from w : star_ok s as_ from w -> star_type_only s = false ->
  read (before s ++ (if ins then b "type " else []) ++ "*"%char :: rest s) = Some [{| d_type := ins; d_clause := Star as_; d_from := Some from; d_with := w |}].
Proof.
  intros (Sb & l & r & Tr & Rf & Re) Pl. rewrite Pl in Sb. unfold read.
  rewrite (tokens_app _ _ _ Sb), (tokens_app (if ins then b "type " else []) (if ins then [W (b "type")] else [])) by now destruct ins.
  change ("*"%char :: rest s) with (b "*" ++ rest s). rewrite (tokens_app (b "*") [P "*"%char]) by reflexivity. rewrite Tr. cbn [option_map]. apply read_one.
  cbn [app]. unfold read_decl. rewrite beqb_refl. destruct as_ as [n|].
  - assert (N : name (if quote (hd " "%char n) then Q n else W n) = Some n) by now destruct (quote (hd " "%char n)).
    destruct ins; cbn [app read_type]; rewrite ?beqb_refl; cbn [andb orb Ascii.eqb Bool.eqb]; change (beqb (b "as") (b "as")) with true; cbv iota; rewrite N, Rf, Re; reflexivity.
  - cbn [app]. assert (X : exists q l', l = W (b "from") :: Q q :: l').
    { unfold read_from in Rf. destruct l as [|[f|q|c] [|[u|q'|c'] l]]; try discriminate Rf. destruct (beqb f (b "from")) eqn:E; [|discriminate Rf]. apply beqb_eq in E. subst f. eauto. }
    destruct X as (q & l' & ->). destruct ins; cbn [app read_type]; rewrite ?beqb_refl; cbn [andb orb Ascii.eqb Bool.eqb]; change (beqb (b "from") (b "as")) with false; cbv iota; rewrite Rf, Re; reflexivity.
Qed.
