(** Proofs for C53: what leaving out constituents changes. *)
From Coq Require Import String Ascii Bool List ZArith Lia Permutation.
From Verif Require Import Base EngineProofs Types RedundantTypes RedundantTypesSpec RedundantTypesProofs.
Import ListNotations.
Open Scope Z_scope.

Lemma uni_spec l : (In Whatever l /\ uni l = Whatever) \/
  (~ In Whatever l /\ exists P, uni l = Values P /\ forall v, P v <-> exists Q, In (Values Q) l /\ Q v).
Proof.
  induction l as [|[|P] l IH]; cbn [uni].
  - right. split; [easy|]. eexists. split; [reflexivity|]. intros v. split; [easy|]. now intros (Q & [] & _).
  - left. split; [now left|reflexivity].
  - destruct IH as [[I E] | (N & R & E & H)]; rewrite E.
    + left. split; [now right|reflexivity].
    + right. split; [intros [Q|Q]; [discriminate|easy]|]. eexists. split; [reflexivity|]. intros v. cbn. rewrite H. split.
      * intros [p | (Q & I & q)]; [exists P; split; [now left|easy] | exists Q; split; [now right|easy]].
      * intros (Q & [I|I] & q); [injection I as <-; now left | right; eauto].
Qed.
Lemma meet_spec l : (In Whatever l /\ meet l = Whatever) \/
  (~ In Whatever l /\ exists P, meet l = Values P /\ forall v, P v <-> forall Q, In (Values Q) l -> Q v).
Proof.
  induction l as [|[|P] l IH]; cbn [meet].
  - right. split; [easy|]. eexists. split; [reflexivity|]. intros v. split; [easy|]. easy.
  - left. split; [now left|reflexivity].
  - destruct IH as [[I E] | (N & R & E & H)]; rewrite E.
    + left. split; [now right|reflexivity].
    + right. split; [intros [Q|Q]; [discriminate|easy]|]. eexists. split; [reflexivity|]. intros v. cbn. rewrite H. split.
      * intros [p q] Q [I|I]; [injection I as <-; exact p | exact (q Q I)].
      * intros A. split; [apply A; now left | intros; apply A; now right].
Qed.
Lemma without_in {A} (gone : nat -> bool) (l : list A) x : In x (without gone l) <-> exists i, nth_error l i = Some x /\ gone i = false.
Proof.
  unfold without.
  assert (G : forall n, In x (keep gone n l) <-> exists i, nth_error l i = Some x /\ gone (n + i)%nat = false).
  { induction l as [|y l IH]; intros n; cbn [keep].
    - split; [easy|]. intros ([|i] & H & _); discriminate.
    - destruct (gone n) eqn:E.
      + rewrite IH. split.
        * intros (i & N & F). exists (S i). split; [easy|]. now rewrite <- plus_n_Sm.
        * intros ([|i] & N & F); [rewrite Nat.add_0_r in F; congruence|]. exists i. split; [easy|]. now rewrite <- plus_n_Sm in F.
      + cbn [In]. rewrite IH. split.
        * intros [<- | (i & N & F)]; [exists 0%nat; now rewrite Nat.add_0_r | exists (S i); split; [easy|]; now rewrite <- plus_n_Sm].
        * intros ([|i] & N & F); [left; now injection N | right; exists i; split; [easy|]; now rewrite <- plus_n_Sm in F]. }
  apply G.
Qed.
Lemma same_refl d : same d d. Proof. destruct d; cbn; [easy|]. reflexivity. Qed.

(** Leaving out what others have. *)
Lemma uni_without gone l : (forall i, gone i = true -> nth_error l i <> Some Whatever) ->
  (forall i P v, gone i = true -> nth_error l i = Some (Values P) -> P v -> exists j Q, gone j = false /\ nth_error l j = Some (Values Q) /\ Q v) ->
  same (uni l) (uni (without gone l)).
Proof.
  intros W H.
  assert (WI : In Whatever l <-> In Whatever (without gone l)).
  { rewrite without_in. split.
    - intros I. apply In_nth_error in I. destruct I as (i & I). exists i. split; [easy|]. destruct (gone i) eqn:E; [|easy]. now apply W in E.
    - intros (i & I & _). eapply nth_error_In; eauto. }
  destruct (uni_spec l) as [[I ->] | (N & P & -> & HP)]; destruct (uni_spec (without gone l)) as [[I' ->] | (N' & P' & -> & HP')]; cbn; try tauto.
  intros v. rewrite HP, HP'. split.
  - intros (Q & I & q). apply In_nth_error in I. destruct I as (i & I). destruct (gone i) eqn:E.
    + destruct (H _ _ _ E I q) as (j & R & G & J & r). exists R. split; [apply without_in; eauto|easy].
    + exists Q. split; [apply without_in; eauto|easy].
  - intros (Q & I & q). apply without_in in I. destruct I as (i & I & _). exists Q. split; [eapply nth_error_In; eauto|easy].
Qed.
Lemma inter_without gone l : (forall i x, gone i = true -> nth_error l i = Some x -> exists P, x = Values P /\ (exists v, P v) /\
    forall v, (forall j Q, gone j = false -> nth_error l j = Some (Values Q) -> Q v) -> P v) ->
  forall d d', inter l d -> inter (without gone l) d' -> same d d'.
Proof.
  intros H d d' D D'.
  assert (E : Exists none l <-> Exists none (without gone l)).
  { rewrite !Exists_exists. split.
    - intros (x & I & N). apply In_nth_error in I. destruct I as (i & I). exists x. split; [|easy]. apply without_in. exists i. split; [easy|].
      destruct (gone i) eqn:G; [|easy]. destruct (H _ _ G I) as (P & -> & (v & p) & _). exfalso. exact (N v p).
    - intros (x & I & N). apply without_in in I. destruct I as (i & I & _). exists x. split; [eapply nth_error_In; eauto|easy]. }
  assert (NE : forall l, Forall (fun x => ~ none x) l -> ~ Exists none l) by (intros l0 F X; rewrite Exists_exists in X; destruct X as (x & I & N); rewrite Forall_forall in F; exact (F _ I N)).
  destruct D as [[X N] | [F ->]]; destruct D' as [[X' N'] | [F' ->]].
  - destruct d as [|P], d' as [|P']; cbn in *; try easy. intros v. split; intros p; [now apply N in p|now apply N' in p].
  - exfalso. apply E in X. exact (NE _ F' X).
  - exfalso. apply E in X'. exact (NE _ F X').
  - assert (WI : In Whatever l <-> In Whatever (without gone l)).
    { rewrite without_in. split.
      - intros I. apply In_nth_error in I. destruct I as (i & I). exists i. split; [easy|]. destruct (gone i) eqn:G; [|easy].
        destruct (H _ _ G I) as (P & Q & _). discriminate.
      - intros (i & I & _). eapply nth_error_In; eauto. }
    destruct (meet_spec l) as [[I ->] | (N & P & -> & HP)]; destruct (meet_spec (without gone l)) as [[I' ->] | (N' & P' & -> & HP')]; cbn; try tauto.
    intros v. rewrite HP, HP'. split.
    + intros A Q I. apply without_in in I. destruct I as (i & I & _). apply A. eapply nth_error_In; eauto.
    + intros A Q I. apply In_nth_error in I. destruct I as (i & I). destruct (gone i) eqn:G.
      * destruct (H _ _ G I) as (R & R1 & _ & R2). injection R1 as ->. apply R2. intros j S' GJ J. apply A. apply without_in. eauto.
      * apply A. apply without_in. eauto.
Qed.

(** ** Constituents *)
Section Facts.
Variables (number : sty -> Z) (show : ty -> bstr) (quoted : bstr -> bstr) (big : bstr -> Z).
Notation meaning := (meaning big).
Notation literal_names := (literal_names number show quoted).

Lemma boolean_holds v : holds boolean v <-> of_kind Boolean v.
Proof.
  cbn. split; [intros [-> | [-> | []]]; constructor|]. destruct v; intros H; inversion H. destruct x; tauto.
Qed.
Lemma primitive_holds y k v : primitive_type y = Some k -> holds y v <-> of_kind k v.
Proof. destruct y; cbn; try discriminate; intros H; injection H as <-; (split; [intros (? & ->); constructor | intros H; inversion H; eauto]). Qed.
Lemma literal_holds y k v : literal_type y = Some k -> holds y v -> of_kind k v.
Proof. destruct y; cbn; try discriminate; intros H; injection H as <-; try (intros ->; constructor). intros (? & ->). constructor. Qed.
Lemma any_meaning x : x <> SAny -> meaning (AType x) = Values (holds x).
Proof. destruct x; cbn; congruence. Qed.
Lemma union_holds s l v : holds (SUnion s l) v <-> exists y, In y l /\ holds y v.
Proof.
  induction l as [|y l IH]; [split; [easy|now intros (y & [] & _)]|]. change (holds (SUnion s (y :: l)) v) with (holds y v \/ holds (SUnion s l) v). rewrite IH. split.
  - intros [H | (z & I & H)]; [exists y; split; [now left|easy] | exists z; split; [now right|easy]].
  - intros (z & [<-|I] & H); [now left | right; eauto].
Qed.
Lemma members_holds x v : holds x v <-> exists y, In y (members x) /\ holds y v.
Proof.
  unfold members. destruct (is_boolean x); [split; [exists x; split; [now left|easy] | now intros (y & [<-|[]] & H)]|].
  destruct x; try (split; [eexists; split; [now left|eassumption] | now intros (y & [<-|[]] & H)]). apply union_holds.
Qed.
Lemma member_any x : normal x -> In SAny (members x) -> x = SAny.
Proof.
  intros [_ N]. unfold members. destruct (is_boolean x) eqn:E; [now intros [->|[]]|]. destruct x; try (now intros [?|[]]).
  intros I. destruct N as (_ & _ & N & _). rewrite Forall_forall in N. destruct (N _ I).
Qed.
(** A constituent with a primitive type has all its values. *)
Lemma has_primitive_meaning alias s k : proper s -> has_primitive alias s k -> exists P, meaning s = Values P /\ forall v, of_kind k v -> P v.
Proof.
  destruct s as [w|y|x]; cbn [has_primitive].
  - intros _ H. destruct w; cbn in H; try discriminate; injection H as <-; cbn; eauto.
  - easy.
  - intros N [(y & I & H) | (_ & E & ->)].
    + exists (holds x). split.
      * apply any_meaning. intros ->. cbn in I. destruct I as [<-|[]]. discriminate H.
      * intros v O. apply members_holds. exists y. split; [easy|]. now apply (primitive_holds _ k).
    + apply boolean_is in E. subst x. exists (holds boolean). split; [reflexivity|]. intros v. apply boolean_holds.
Qed.
Lemma picks_in k l y : In y (picks k l) <-> In y l /\ literal_type y = Some k.
Proof. unfold picks. rewrite filter_In. destruct (same_kind (literal_type y) k); intuition congruence. Qed.
Lemma apart_kinds s k : proper s -> literal_names s k <> [] -> ~ has_primitive true s k.
Proof.
  destruct s as [w|y|x]; cbn [literal_names has_primitive]; try easy. intros N L.
  assert (Y : exists y, In y (picks k (members x))) by (cbn in L; destruct (picks k (members x)) as [|y r]; [easy|]; exists y; now left).
  destruct Y as (y & Y). apply picks_in in Y. destruct Y as [Y K]. intros [(z & Z & H) | (_ & E & _)].
  - revert Y Z. unfold members. destruct (is_boolean x) eqn:E; [intros [<-|[]]; apply boolean_is in E; now subst|].
    destruct N as [_ N]. destruct x; try (intros [<-|[]] [<-|[]]; discriminate).
    intros Y Z. destruct N as (_ & _ & _ & N). exact (N y z k Y Z K H).
  - apply boolean_is in E. subst x. cbn in Y. destruct Y as [<-|[]]. discriminate.
Qed.

(** ** Unions *)
Variable l : list source.
Hypothesis ok : Forall proper l.
Lemma ok_nth i s : nth_error l i = Some s -> proper s.
Proof. intros H. apply nth_error_In in H. rewrite Forall_forall in ok. auto. Qed.
Lemma called_meaning s e n : called number show s e n -> meaning s = match e with Any => Whatever | Unknown => Values (fun _ => True) | Never => Values (fun _ => False) end.
Proof.
  destruct s as [w|y|x]; [destruct w, e; easy | destruct e; easy |].
  intros H. apply called_whole in H. destruct H as [_ ->]. destruct e; reflexivity.
Qed.
Lemma any_report_not n c i x : any_report n c <> Overridden x i.
Proof. unfold any_report. now destruct (beqb _ _). Qed.
Theorem union_left_out returned gone :
  (forall i s, gone i = true -> nth_error l i = Some s ->
    (exists n, union_report number show quoted returned l i (Overridden n false)) \/
    (exists P, meaning s = Values P /\ forall v, P v -> exists k t, of_kind k v /\ union_report number show quoted returned l i (LiteralOverridden t (word k)))) ->
  same (uni (map meaning l)) (uni (without gone (map meaning l))).
Proof.
  intros H.
  assert (G : forall i s, gone i = true -> nth_error l i = Some s -> exists P, meaning s = Values P /\ forall v, P v -> exists k, of_kind k v /\ literal_names s k <> [] /\ exists t, In t l /\ has_primitive true t k).
  { intros i s G N. destruct (H i s G N) as [(n & R) | (P & M & A)].
    - remember (Overridden n false) as m eqn:E. destruct R; try discriminate.
      + now apply any_report_not in E.
      + exists (fun _ => False). split; [|easy]. rewrite N in H1. injection H1 as <-. exact (called_meaning _ _ _ H2).
    - exists P. split; [easy|]. intros v p. destruct (A v p) as (k & t & O & R). exists k. split; [easy|]. remember (LiteralOverridden t (word k)) as m eqn:E. destruct R; try discriminate E.
      + unfold any_report in E. now destruct (beqb _ _).
      + injection E as _ E. apply word_inj in E. subst k0. rewrite N in H0. injection H0 as <-. easy. }
  apply uni_without.
  - intros i GI N. rewrite nth_error_map in N. destruct (nth_error l i) as [s|] eqn:S; [|discriminate]. destruct (G i s GI S) as (P & M & _). cbn in N. congruence.
  - intros i P v GI N p. rewrite nth_error_map in N. destruct (nth_error l i) as [s|] eqn:S; [|discriminate]. destruct (G i s GI S) as (P' & M & A).
    cbn in N. assert (P' = P) by congruence. subst P'. destruct (A v p) as (k & O & _ & t & T & Q). apply In_nth_error in T. destruct T as (j & T).
    destruct (has_primitive_meaning true t k (ok_nth _ _ T) Q) as (R & MR & AR). exists j, R. repeat split.
    + destruct (gone j) eqn:GJ; [|easy]. destruct (G j t GJ T) as (R' & MR' & AR'). assert (R' = R) by congruence. subst R'. destruct (AR' v (AR v O)) as (k' & O' & L' & _).
      assert (k' = k) by (inversion O; subst; inversion O'; congruence). subst k'. exfalso. exact (apart_kinds t k (ok_nth _ _ T) L' Q).
    + rewrite nth_error_map, T. cbn. now rewrite MR.
    + auto.
Qed.
Theorem union_overrides returned i s n m : nth_error l i = Some s -> m = Overrides n false \/ m = ErrorTypeOverrides n false ->
  union_report number show quoted returned l i m -> (meaning s = Whatever \/ ~ In Whatever (map meaning l)) -> same (uni (map meaning l)) (meaning s).
Proof.
  intros N M R W.
  assert (C : meaning s = Whatever \/ meaning s = Values (fun _ => True)).
  { destruct R as [j s' n' N' C | j s' n' N' C | j s' n' F N' C | ]; try (now destruct M); rewrite N in N'; injection N' as <-; apply called_meaning in C; tauto. }
  assert (I : In (meaning s) (map meaning l)) by (apply in_map; eapply nth_error_In; eauto).
  destruct (uni_spec (map meaning l)) as [[Y ->] | (Y & P & -> & HP)].
  - destruct W as [->|W]; [reflexivity|tauto].
  - destruct C as [C|C]; rewrite C in *; [tauto|]. cbn. intros v. rewrite HP. split; [easy|]. intros _. exists (fun _ => True). split; [exact I|easy].
Qed.

(** ** Intersections *)
Lemma single_primitive s k : proper s -> ~ several s -> has_primitive false s k -> exists P, meaning s = Values P /\ forall v, P v <-> of_kind k v.
Proof.
  destruct s as [w|y|x]; cbn [has_primitive several].
  - intros _ _ H. destruct w; cbn in H; try discriminate; injection H as <-; cbn; eexists; (split; [reflexivity|]); reflexivity.
  - easy.
  - intros N V [(y & I & H) | (Q & _)]; [|discriminate]. revert I V. unfold members. destruct (is_boolean x) eqn:E.
    + apply boolean_is in E. subst x. intros [<-|[]]. discriminate.
    + destruct N as [_ N]. destruct x; try (intros [<-|[]] _; try discriminate H; rewrite any_meaning by discriminate; eexists; (split; [reflexivity|]); intros v; apply primitive_holds; exact H).
      intros _ V. destruct N as (N & _). lia.
Qed.
Lemma single_literal s k : proper s -> ~ several s -> literal_names s k <> [] -> exists P, meaning s = Values P /\ forall v, P v -> of_kind k v.
Proof.
  destruct s as [w|y|x]; cbn [several].
  - easy.
  - intros _ _. cbn [literal_names]. unfold RedundantTypesSpec.literal_names. destruct (same_kind (Some (literal_kind y)) k) as [e|]; [|easy]. injection e as <-. intros _.
    destruct y; cbn; eexists; (split; [reflexivity|]); intros v ->; constructor.
  - intros N V L. assert (Y : exists y, In y (picks k (members x))) by (cbn in L; destruct (picks k (members x)) as [|y r]; [easy|]; exists y; now left).
    destruct Y as (y & Y). apply picks_in in Y. destruct Y as [Y K]. revert Y V. unfold members. destruct (is_boolean x) eqn:E.
    + apply boolean_is in E. subst x. intros [<-|[]]. discriminate.
    + destruct N as [_ N]. destruct x; try (intros [<-|[]] _; try discriminate K; rewrite any_meaning by discriminate; eexists; (split; [reflexivity|]); intros v; apply literal_holds; exact K).
      intros _ V. destruct N as (N & _). lia.
Qed.
Lemma kind_inhabited k : exists v, of_kind k v.
Proof. destruct k; eexists; constructor. Unshelve. all: try exact 0; try exact true; exact []. Qed.
Theorem inter_left_out gone :
  (forall i s, gone i = true -> nth_error l i = Some s ->
    (exists n, inter_report number show quoted l i (Overridden n true)) \/
    ((forall t, In t l -> ~ several t) /\ exists lit p, inter_report number show quoted l i (PrimitiveOverridden lit p))) ->
  forall d d', inter (map meaning l) d -> inter (without gone (map meaning l)) d' -> same d d'.
Proof.
  intros H. apply inter_without.
  assert (G : forall i s, gone i = true -> nth_error l i = Some s -> meaning s = Values (fun _ => True) \/
    ((forall t, In t l -> ~ several t) /\ exists k, has_primitive false s k /\ exists t, In t l /\ literal_names t k <> [])).
  { intros i s G N. destruct (H i s G N) as [(n & R) | (V & x & p & R)].
    - left. remember (Overridden n true) as m eqn:E. destruct R; try discriminate.
      + now apply any_report_not in E.
      + rewrite N in H0. injection H0 as <-. exact (called_meaning _ _ _ H1).
    - right. split; [easy|]. remember (PrimitiveOverridden x p) as m eqn:E. destruct R; try discriminate E.
      + unfold any_report in E. now destruct (beqb _ _).
      + exists k. rewrite N in H1. injection H1 as <-. easy.
      + exfalso. refine (V _ _ H2). eapply nth_error_In; eauto. }
  intros i x GI N. rewrite nth_error_map in N. destruct (nth_error l i) as [s|] eqn:S; [|discriminate]. cbn in N. injection N as <-.
  destruct (G i s GI S) as [-> | (V & k & Q & t & T & L)].
  - eexists. split; [reflexivity|]. split; [now exists Null|easy].
  - destruct (single_primitive s k (ok_nth _ _ S)) as (P & -> & HP); [apply V; eapply nth_error_In; eauto|easy|]. exists P. split; [easy|]. split.
    + destruct (kind_inhabited k) as (v & O). exists v. now apply HP.
    + intros v A. apply HP. apply In_nth_error in T. destruct T as (j & T).
      destruct (single_literal t k (ok_nth _ _ T)) as (R & MR & HR); [apply V; eapply nth_error_In; eauto|easy|]. apply HR. apply (A j).
      * destruct (gone j) eqn:GJ; [|easy]. exfalso. destruct (G j t GJ T) as [M | (_ & k' & Q' & _)].
        -- assert (X : R = fun _ => True) by congruence. subst R. pose proof (HR (Bool true) I) as O1. pose proof (HR Null I) as O2. inversion O2.
        -- destruct (single_primitive t k' (ok_nth _ _ T)) as (R' & MR' & HR'); [apply V; eapply nth_error_In; eauto|easy|]. assert (R' = R) by congruence. subst R'.
           destruct (kind_inhabited k') as (w & O'). assert (O : of_kind k w) by (apply HR, HR', O'). assert (k' = k) by (inversion O; subst; inversion O'; congruence). subst k'.
           apply (apart_kinds t k (ok_nth _ _ T) L). destruct t; cbn in *; [easy|easy|]. destruct Q' as [Q'|Q']; [now left|]. now destruct Q'.
      * rewrite nth_error_map, T. cbn. now rewrite MR.
Qed.
Theorem inter_overrides i s n m d : nth_error l i = Some s -> m = Overrides n true \/ m = ErrorTypeOverrides n true ->
  inter_report number show quoted l i m -> inter (map meaning l) d -> (meaning s = Whatever -> Forall (fun x => ~ none x) (map meaning l)) -> same d (meaning s).
Proof.
  intros N M R D W.
  assert (C : meaning s = Whatever \/ meaning s = Values (fun _ => False)).
  { destruct R as [j s' n' N' C | j s' n' N' C | j s' n' N' C | |]; try (now destruct M); rewrite N in N'; injection N' as <-; apply called_meaning in C; tauto. }
  assert (I : In (meaning s) (map meaning l)) by (apply in_map; eapply nth_error_In; eauto).
  destruct C as [C|C]; rewrite C in *.
  - specialize (W eq_refl). destruct D as [[X _] | [_ ->]].
    + exfalso. rewrite Exists_exists in X. destruct X as (x & X & Y). rewrite Forall_forall in W. exact (W _ X Y).
    + destruct (meet_spec (map meaning l)) as [[_ ->] | (Y & _)]; [reflexivity|tauto].
  - destruct D as [[_ D] | [F _]].
    + destruct d as [|P]; cbn in *; [easy|]. intros v. split; [apply D|easy].
    + rewrite Forall_forall in F. exfalso. apply (F _ I). cbn. tauto.
Qed.
(** A union of literals of one primitive type makes that type redundant. *)
Theorem inter_union_left_out i x p q k gone : nth_error l i = Some (AType x) -> several (AType x) ->
  inter_report number show quoted l i (PrimitiveOverridden p q) ->
  (forall v, holds x v -> exists j t, of_kind j v /\ In t l /\ has_primitive false t j) /\
  ((forall v, holds x v -> of_kind k v) -> (forall j t, gone j = true -> nth_error l j = Some t -> has_primitive false t k) ->
   forall d d', inter (map meaning l) d -> inter (without gone (map meaning l)) d' -> same d d').
Proof.
  intros N V R.
  assert (A : all_literal l x).
  { remember (PrimitiveOverridden p q) as m eqn:E. destruct R; try discriminate E.
    - unfold any_report in E. now destruct (beqb _ _).
    - exfalso. refine (H _ _ V). eapply nth_error_In; eauto.
    - rewrite N in H0. injection H0 as <-. easy. }
  assert (NA : x <> SAny) by (intros ->; cbn in V; lia).
  split.
  - intros v h. apply members_holds in h. destruct h as (y & Y & h). destruct (A y Y) as (j & t & L & T & Q). exists j, t. split; [|easy]. eapply literal_holds; eauto.
  - intros O G. apply inter_without. intros j y GJ NJ. rewrite nth_error_map in NJ. destruct (nth_error l j) as [t|] eqn:T; [|discriminate]. cbn in NJ. injection NJ as <-.
    destruct (has_primitive_meaning false t k (ok_nth _ _ T) (G j t GJ T)) as (P & -> & HP). exists P. split; [easy|]. split.
    + destruct (kind_inhabited k) as (v & K). eauto.
    + intros v B. apply HP, O. apply (B i).
      * destruct (gone i) eqn:GI; [|easy]. exfalso. pose proof (G i _ GI N) as Q. cbn in Q. destruct Q as [(y & Y & Q)|(Q & _)]; [|discriminate].
        destruct (A y Y) as (k' & _ & L & _). destruct y; cbn in *; congruence.
      * rewrite nth_error_map, N. cbn [option_map]. now rewrite any_meaning.
Qed.
End Facts.
