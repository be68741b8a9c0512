(** Lemmas for C52 (PropsDotNotation.v). *)
From Coq Require Import String Ascii Bool List ZArith Lia Permutation Sorted.
From Verif Require Import Base EngineProofs Fixer FixerSpec FixerProofs FixMany DotNotation DotNotationSpec.
Import ListNotations.
Open Scope Z_scope.

(** ** Characters *)
Lemma code_inj c d : code c = code d -> c = d.
Proof. unfold code. intros H. rewrite <- (ascii_nat_embedding c), <- (ascii_nat_embedding d). f_equal. lia. Qed.
Lemma code_range c : 0 <= code c < 256.
Proof. unfold code. pose proof (nat_ascii_bounded c). lia. Qed.
Lemma in_range_spec lo hi c : DotNotation.in_range lo hi c = true <-> code lo <= code c <= code hi.
Proof. unfold DotNotation.in_range, code. rewrite andb_true_iff, !Nat.leb_le. lia. Qed.
Lemma char_spec x c : is_ascii_char x c = true <-> code c = code x.
Proof. unfold is_ascii_char. rewrite Ascii.eqb_eq. split; [now intros ->|]. intros H. symmetry. now apply code_inj. Qed.
Ltac chars := repeat rewrite ?orb_true_iff, ?andb_true_iff, ?negb_true_iff, ?in_range_spec, ?char_spec;
  change (code "a") with 97; change (code "z") with 122; change (code "A") with 65; change (code "Z") with 90; change (code "0") with 48; change (code "9") with 57; change (code "_") with 95; change (code "$") with 36; change (code "/") with 47; change (code "*") with 42.
Lemma part_spec c : part_char c = true <-> name_part c.
Proof. unfold part_char, name_part, name_start, digit. chars. tauto. Qed.
Lemma start_spec c : (DotNotation.in_range "a" "z" c || DotNotation.in_range "A" "Z" c || is_ascii_char "_" c || is_ascii_char "$" c) = true <-> name_start c.
Proof. unfold name_start. chars. tauto. Qed.
Lemma identifier_spec n : is_dot_identifier n = true <-> is_name n.
Proof.
  unfold is_dot_identifier, is_name. destruct n as [|c r]; [split; [discriminate|intros (? & ? & ? & _); discriminate]|].
  pose proof (start_spec c) as S. destruct (DotNotation.in_range "a" "z" c || DotNotation.in_range "A" "Z" c || is_ascii_char "_" c || is_ascii_char "$" c); cbn [negb].
  - rewrite forallb_forall. split.
    + intros H. exists c, r. split; [reflexivity|]. split; [now apply S|]. apply Forall_forall. intros x X. apply part_spec. unfold part_char. now apply H.
    + intros (d & q & E & _ & F) x X. injection E as <- <-. rewrite Forall_forall in F. apply F, part_spec in X. exact X.
  - split; [discriminate|]. intros (d & q & E & D & _). injection E as <- <-. apply S in D. discriminate.
Qed.
Lemma keyword_spec n : is_keyword n = true <-> is_reserved n.
Proof.
  unfold is_keyword, is_reserved. rewrite existsb_exists. split.
  - intros (k & I & E). apply beqb_eq in E. subst k.
    assert (X : forallb (fun n => existsb (fun w => beqb n (b w)) reserved) keywords = true) by (vm_compute; reflexivity).
    rewrite forallb_forall in X. apply X, existsb_exists in I. destruct I as (w & W & E). apply beqb_eq in E. eauto.
  - intros (w & W & ->). assert (X : forallb (fun w => existsb (beqb (b w)) keywords) reserved = true) by (vm_compute; reflexivity).
    rewrite forallb_forall in X. apply X, existsb_exists in W. exact W.
Qed.

(** ** Declarations *)
Lemma find_spec {A} (f : A -> bool) l d : find f l = Some d <-> exists pre post, l = pre ++ d :: post /\ f d = true /\ Forall (fun x => f x = false) pre.
Proof.
  split.
  - induction l as [|x l IH]; cbn [find]; [discriminate|]. destruct (f x) eqn:E.
    + intros [= ->]. exists [], l. repeat split; auto.
    + intros H. destruct (IH H) as (pre & post & -> & D & F). exists (x :: pre), post. repeat split; auto.
  - intros (pre & post & -> & D & F). induction F as [|x pre E F IH]; cbn [app find]; [now rewrite D|now rewrite E].
Qed.
Lemma find_none {A} (f : A -> bool) l : find f l = None <-> Forall (fun x => f x = false) l.
Proof.
  induction l as [|x l IH]; cbn [find]; [split; auto|]. destruct (f x) eqn:E; [split; [discriminate|intros H; inversion H; congruence]|]. rewrite IH. split; [auto|intros H; now inversion H].
Qed.
Definition kind_of (write : bool) : decl -> bool := if write then is_set else is_get.
Lemma kind_true w d : kind_of w d = true <-> dkind_of d = wanted w.
Proof. unfold kind_of, wanted, is_set, is_get. destruct w, (dkind_of d); split; congruence. Qed.
Lemma kind_false w d : kind_of w d = false <-> dkind_of d <> wanted w.
Proof. rewrite <- kind_true. destruct (kind_of w d); split; congruence. Qed.
Lemma forall_iff {A} (P Q : A -> Prop) l : (forall x, P x <-> Q x) -> Forall P l <-> Forall Q l.
Proof. intros H. split; apply Forall_impl; intros x; now apply H. Qed.
Lemma relevant_alt ds w : relevant (Some ds) w = match find (kind_of w) ds with Some d => Some d | None => match find (kind_of (negb w)) ds with Some d => Some d | None => hd_error ds end end.
Proof. unfold relevant. destruct ds as [|d ds]; [now destruct w|]. destruct w; cbn [negb kind_of]; destruct (find is_get (d :: ds)), (find is_set (d :: ds)); reflexivity. Qed.
Lemma relevant_spec ds w d : relevant (Some ds) w = Some d <-> consulted ds w d.
Proof.
  rewrite relevant_alt. split.
  - destruct (find (kind_of w) ds) as [x|] eqn:F.
    + intros [= ->]. apply find_spec in F. destruct F as (pre & post & E & K & N). eapply co_wanted; eauto; [now apply kind_true|]. eapply forall_iff; [|exact N]. intros y. symmetry. apply kind_false.
    + apply find_none in F. assert (F' : Forall (fun x => dkind_of x <> wanted w) ds) by (eapply forall_iff; [|exact F]; intros y; symmetry; apply kind_false).
      destruct (find (kind_of (negb w)) ds) as [x|] eqn:G.
      * intros [= ->]. apply find_spec in G. destruct G as (pre & post & E & K & N). eapply co_other; eauto; [now apply kind_true|]. eapply forall_iff; [|exact N]. intros y. symmetry. apply kind_false.
      * apply find_none in G. destruct ds as [|y ds]; [discriminate|]. cbn [hd_error]. intros [= ->]. apply (co_first _ _ d ds eq_refl). rewrite Forall_forall in *. intros x X. specialize (F' x X). specialize (G x X). apply kind_false in G. destruct w; cbn in *; auto.
  - intros [pre x post E K N|pre x post E K A N|x post E A].
    + rewrite (proj2 (find_spec (kind_of w) ds x)); [reflexivity|]. exists pre, post. split; [exact E|]. split; [now apply kind_true|]. eapply forall_iff; [|exact N]. intros y. apply kind_false.
    + rewrite (proj2 (find_none (kind_of w) ds)) by (eapply forall_iff; [|exact A]; intros y; apply kind_false). rewrite (proj2 (find_spec (kind_of (negb w)) ds x)); [reflexivity|]. exists pre, post. split; [exact E|]. split; [now apply kind_true|]. eapply forall_iff; [|exact N]. intros y. apply kind_false.
    + rewrite !(proj2 (find_none _ ds)); [now rewrite E| |]; (eapply Forall_impl; [|exact A]; intros y [G S]; apply kind_false; destruct w; auto).
Qed.
Definition symbol_of (s : site) (k : key) : option (list decl) :=
  match symbol_at s, static_name k, properties s with
  | None, Some name, Some ps => option_map snd (find (fun c => beqb (fst c) name) ps)
  | x, _, _ => x
  end.
Lemma static_spec k n : static_name k = Some n <-> k = KStr n \/ k = KTemplate n.
Proof. destruct k; cbn [static_name]; (split; [intros H; first [injection H as ->; auto|discriminate]|intros [H|H]; congruence]). Qed.
Lemma beqb_false x y : beqb x y = false <-> x <> y.
Proof. rewrite <- (beqb_eq x y). destruct (beqb x y); split; congruence. Qed.
Lemma found_spec s k sym : found s k sym <-> sym = symbol_of s k.
Proof.
  unfold symbol_of. split.
  - intros [ds E|n ps pre ds post E K P L F|E F].
    + rewrite E. now destruct (static_name k), (properties s).
    + rewrite E. apply static_spec in K. rewrite K, P. rewrite (proj2 (find_spec _ ps (n, ds))); [reflexivity|]. exists pre, post. split; [exact L|]. cbn [fst]. split; [apply beqb_refl|]. eapply Forall_impl; [|exact F]. intros y. apply beqb_false.
    + rewrite E. destruct (static_name k) as [n|] eqn:K; [|now destruct (properties s)]. destruct (properties s) as [ps|] eqn:P; [|reflexivity]. apply static_spec in K. specialize (F n ps K eq_refl). rewrite (proj2 (find_none _ ps)); [reflexivity|]. eapply Forall_impl; [|exact F]. intros y. apply beqb_false.
  - intros ->. destruct (symbol_at s) as [ds|] eqn:E; [assert (X : found s k (Some ds)) by (now constructor); now destruct (static_name k), (properties s)|].
    destruct (static_name k) as [n|] eqn:K; [|assert (X : found s k None) by (apply fo_none; auto; intros n ps H; apply static_spec in H; congruence); now destruct (properties s)].
    destruct (properties s) as [ps|] eqn:P; [|apply fo_none; auto; intros ? ? _ X; congruence]. destruct (find (fun c => beqb (fst c) n) ps) as [[n' ds]|] eqn:F; cbn [option_map snd].
    + apply find_spec in F. destruct F as (pre & post & L & N & F). cbn [fst] in N. apply beqb_eq in N. subst n'. apply static_spec in K. eapply fo_property; eauto. eapply Forall_impl; [|exact F]. intros y. apply beqb_false.
    + apply find_none in F. apply fo_none; auto. intros n' ps' H PS. rewrite P in PS. injection PS as <-. apply static_spec in H. rewrite K in H. injection H as <-. eapply Forall_impl; [|exact F]. intros y. apply beqb_false.
Qed.
Lemma skipped_spec o no_index s k : skipped o no_index s k = true <-> allowed o no_index s k.
Proof.
  unfold skipped. fold (symbol_of s k). unfold allowed. split.
  - destruct (negb (allow_private o) && negb (allow_protected o) && negb (allow_index o || no_index)) eqn:N; [discriminate|].
    intros H. exists (symbol_of s k). split; [now apply found_spec|].
    match type of H with (if ?x then _ else _) = _ => destruct x eqn:B end.
    + left. destruct (relevant (symbol_of s k) (written s)) as [d|] eqn:R; [|discriminate]. destruct (symbol_of s k) as [ds|]; [|discriminate]. exists ds, d. split; [reflexivity|]. split; [now apply relevant_spec|].
      rewrite !orb_true_iff, !andb_true_iff, orb_true_iff in B. destruct B as [[B|B]|[B C]]; [tauto..|]. right. right. split; [exact B|]. destruct (dkind_of d); congruence.
    + right. destruct (match symbol_of s k with None | Some [] => true | _ => false end) eqn:M; cbn [andb] in H; [|discriminate]. split; [destruct (symbol_of s k) as [[|]|]; [now right|discriminate|now left]|].
      destruct (allow_index o || no_index) eqn:I; [|discriminate]. destruct no_index; [now left|]. right. rewrite orb_false_r in I. split; [exact I|]. destruct (properties s); [|discriminate]. split; [discriminate|]. now apply orb_true_iff.
  - intros (sym & F & H). apply found_spec in F. subst sym.
    destruct (negb (allow_private o) && negb (allow_protected o) && negb (allow_index o || no_index)) eqn:N.
    { rewrite !andb_true_iff, !negb_true_iff, orb_false_iff in N. destruct N as [[N1 N2] [N3 N4]]. destruct H as [(ds & d & _ & _ & H)|(_ & H)]; rewrite ?N1, ?N2, ?N3, ?N4 in H; intuition discriminate. }
    destruct H as [(ds & d & E & C & H)|(E & H)].
    + rewrite E. apply relevant_spec in C. rewrite C.
      assert (B : (allow_private o && is_private d || allow_protected o && is_protected d || (allow_index o || no_index) && match dkind_of d with DIndex => true | _ => false end) = true).
      { rewrite !orb_true_iff, !andb_true_iff, orb_true_iff. destruct H as [H|[H|[H ->]]]; tauto. }
      now rewrite B.
    + assert (I : (allow_index o || no_index) = true) by (apply orb_true_iff; tauto).
      assert (R : relevant (symbol_of s k) (written s) = None) by (destruct E as [-> | ->]; reflexivity). rewrite R, I.
      assert (M : match symbol_of s k with None | Some [] => true | _ => false end = true) by (destruct E as [-> | ->]; reflexivity). rewrite M. cbn [andb].
      destruct no_index; [reflexivity|]. destruct H as [H|(_ & P & H)]; [discriminate|]. destruct (properties s); [now apply orb_true_iff|congruence].
Qed.
Lemma value_spec k v f : computed_value k = Some (v, f) <-> names k v f.
Proof.
  split.
  - destruct k; cbn [computed_value]; intros H; first [discriminate|injection H as <- <-; constructor].
  - intros []; reflexivity.
Qed.
