(** Proofs about no-useless-default-assignment. *)
From Coq Require Import Bool List Arith Lia.
From Verif Require Import Base EngineProofs.
From Verif Require Import UselessDefault UselessDefaultSpec.
Import ListNotations.
Local Open Scope nat_scope.

Lemma name_iff k n : property_name k = Some n <-> written_name k n.
Proof.
  split.
  - destruct k as [s|s|[s|s|m]]; simpl; intro H; try discriminate; injection H as <-; constructor.
  - intros []; reflexivity.
Qed.
Lemma branches_iff n e : in_all_branches e n = true <-> offers n e.
Proof.
  split.
  - induction e as [l|a IHa d IHd|e IH|]; simpl; intro H.
    + apply existsb_exists in H. destruct H as [[k|] [I H]]; [|discriminate]. destruct (property_name k) as [m|] eqn:N; [|discriminate]. apply beqb_eq in H. subst m.
      eapply OffersObject; [exact I|]. apply name_iff. exact N.
    + apply andb_prop in H. destruct H. constructor; auto.
    + constructor. auto.
    + discriminate.
  - induction 1 as [l k I N|a d _ IHa _ IHd|e _ IH]; simpl.
    + apply existsb_exists. exists (Some k). split; [exact I|]. apply name_iff in N. rewrite N. apply beqb_refl.
    + rewrite IHa, IHd. reflexivity.
    + exact IH.
Qed.
Section Types.
Context {T : Type} (ty : types T).
Lemma admits_iff t : can_be_undefined ty t = true <-> admits ty t.
Proof.
  unfold can_be_undefined. split.
  - intro H. apply orb_prop in H. destruct H as [H|H]; [apply orb_prop in H; destruct H; [apply AdmitsAny|apply AdmitsUnknown]; assumption|].
    apply existsb_exists in H. destruct H as [u [I H]]. eapply AdmitsPart; eassumption.
  - intros [H|H|u I H]; [rewrite H; reflexivity|rewrite H; apply orb_true_iff; left; apply orb_true_r|]. apply orb_true_iff. right. apply existsb_exists. eauto.
Qed.
Lemma admits_not t : can_be_undefined ty t = false <-> ~ admits ty t.
Proof. rewrite <- admits_iff. destruct (can_be_undefined ty t); split; congruence. Qed.
Lemma typed_iff r fs : forall t, source_type ty r fs = Some t <-> typed ty r fs t.
Proof.
  induction fs as [|f outer IH]; intro t.
  - simpl. split.
    + destruct r as [[[u e]|]|this i [[h ts]|]|]; simpl; intro H; try discriminate.
      * injection H as <-. eapply TypedVariable. reflexivity.
      * destruct h, this; simpl in H; try (eapply TypedParameter; [reflexivity|auto|exact H]).
        destruct i as [|i]; [discriminate|]. eapply TypedParameterThis; [reflexivity|exact H].
    + intro H. inversion H as [u e E|this i h ts u E C N|i ts u E N|k n o u op v Ht N P O|i rest o u l v Ht Tu N|i rest o u v Ht L N]; subst.
      * reflexivity.
      * simpl. destruct C as [-> | ->]; [rewrite andb_false_r|]; exact N.
      * exact N.
  - change (source_type ty r (f :: outer)) with (element_type ty r f outer (source_type ty r outer)). split.
    + unfold element_type. destruct (source_type ty r outer) as [p|] eqn:S; [|discriminate]. pose proof (proj1 (IH p) eq_refl) as Ht. destruct f as [k|i rest].
      * destruct (property_name k) as [n|] eqn:N; [|discriminate]. destruct (property ty p n) as [[op u]|] eqn:P; [|discriminate].
        intro H. apply name_iff in N.
        destruct op; simpl in H; [|injection H as <-; eapply TypedProperty; try eassumption; discriminate].
        destruct outer as [|? ?]; [|discriminate]. destruct r as [[[q e]|]| |]; try discriminate.
        destruct (in_all_branches e n) eqn:B; [|discriminate]. injection H as <-. eapply TypedProperty; try eassumption. intros _. split; [reflexivity|]. exists q, e. split; [reflexivity|]. apply branches_iff. exact B.
      * unfold array_element. destruct (tuple ty p) as [l|] eqn:Tu.
        -- destruct (nth_error l i) as [u|] eqn:N; intro H.
           ++ injection H as <-. eapply TypedTuple; eassumption.
           ++ eapply TypedArray; [exact Ht| |exact H]. intros l' E. rewrite Tu in E. injection E as <-. apply nth_error_None. exact N.
        -- intro H. eapply TypedArray; [exact Ht| |exact H]. intros l' E. congruence.
    + intro H. inversion H as [u e E|this i h ts u E C N|i ts u E N|k n o u op v Ht N P O|i rest o u l v Ht Tu N|i rest o u v Ht L N]; subst; unfold element_type; rewrite (proj2 (IH u) Ht).
      * apply name_iff in N. rewrite N, P. destruct op; [|reflexivity]. destruct (O eq_refl) as [-> (q & e & -> & B)]. apply branches_iff in B. rewrite B. reflexivity.
      * unfold array_element. rewrite Tu, N. reflexivity.
      * unfold array_element. destruct (tuple ty u) as [l|]; [|exact N]. rewrite (proj2 (nth_error_None l i) (L l eq_refl)). exact N.
Qed.
Lemma element_iff r f outer t : check_element ty r f outer false = Some (Useless t) <-> useless ty r f outer t.
Proof.
  unfold check_element. split.
  - destruct f as [k|i rest].
    + destruct (source_type ty r (FProperty k :: outer)) as [u|] eqn:S; [|discriminate]. destruct (can_be_undefined ty u) eqn:C; [discriminate|]. intro H. injection H as <-.
      constructor; [apply typed_iff; exact S|apply admits_not; exact C].
    + destruct (source_type ty r outer) as [u|] eqn:S; [|discriminate]. destruct (tuple ty u) as [l|] eqn:Tu; [|discriminate]. destruct (nth_error l i) as [v|] eqn:N; [|discriminate].
      destruct (can_be_undefined ty v) eqn:C; [discriminate|]. intro H. injection H as <-. econstructor; [apply typed_iff; exact S|exact Tu|exact N|apply admits_not; exact C].
  - intros [k o u Ht A|i rest o u l v Ht Tu N A]; apply typed_iff in Ht; rewrite Ht.
    + apply admits_not in A. rewrite A. reflexivity.
    + rewrite Tu, N. apply admits_not in A. rewrite A. reflexivity.
Qed.
Lemma element_only r f outer rep : check_element ty r f outer false = Some rep -> exists t, rep = Useless t.
Proof.
  unfold check_element. destruct f as [k|i rest].
  - destruct (source_type ty r (FProperty k :: outer)) as [u|]; [|discriminate]. destruct (can_be_undefined ty u); [discriminate|]. intro H. injection H as <-. eauto.
  - destruct (source_type ty r outer) as [u|]; [|discriminate]. destruct (tuple ty u) as [l|]; [|discriminate]. destruct (nth_error l i) as [v|]; [|discriminate].
    destruct (can_be_undefined ty v); [discriminate|]. intro H. injection H as <-. eauto.
Qed.
Lemma context_iff fe i c rep : check_context ty fe i c = Some rep <-> fe = true /\ exists t, rep = Useless t /\ useless_parameter ty i c t.
Proof.
  unfold check_context. split.
  - destruct fe; [|discriminate]. simpl. intro H. split; [reflexivity|]. destruct c as [[|s more]|]; try discriminate.
    destruct (c_own s) eqn:O; [discriminate|]. destruct (nth_error (c_parameters s) i) as [p|] eqn:N; [|discriminate].
    destruct (c_rest p) eqn:R; [discriminate|]. destruct (c_optional p) eqn:Op; [discriminate|].
    destruct (is_type_parameter ty (c_type p)) eqn:Tp; simpl in H; [discriminate|]. destruct (can_be_undefined ty (c_type p)) eqn:C; simpl in H; [discriminate|]. injection H as <-.
    exists (c_type p). split; [reflexivity|]. constructor; auto. apply admits_not. exact C.
  - intros [-> (t & -> & U)]. inversion U as [s more p O N R Op Tp A]; subst. simpl. rewrite O, N, R, Op, Tp. apply admits_not in A. rewrite A. reflexivity.
Qed.

(** * Meaning *)
Section Meaning.
Context {St V X : Type} (undefined : V) (is_undef : V -> bool) (w : world St V X) (has : V -> T -> Prop) (there : V -> bstr -> Prop) (fixed : T -> nat -> Prop).
Notation bind := (bind is_undef w).
Notation binds := (binds is_undef w).
Notation defaulted := (defaulted is_undef w).
Lemma binds_nil object i v e s : binds Nil object i v e s = (s, inl e).
Proof. reflexivity. Qed.
Lemma binds_hole l object i v e s : binds (Hole l) object i v e s = then_ (item w v i s) (fun _ s => binds l object (S i) v e s).
Proof. reflexivity. Qed.
Lemma binds_element h p d l object i v e s : binds (Element h p d l) object i v e s =
  then_ (fetch w h object i v e s) (fun u s => then_ (defaulted d u e s) (fun u s => then_ (bind p u e s) (fun e s => binds l object (S i) v e s))).
Proof. reflexivity. Qed.
Lemma then_same {A B : Type} (r : St * (A + X)) (k k' : A -> St -> St * (B + X)) : (forall a s, r = (s, inl a) -> k a s = k' a s) -> then_ r k = then_ r k'.
Proof. intro H. destruct r as [s [a|x]]; simpl; auto. Qed.
Lemma then_assoc {A B C : Type} (r : St * (A + X)) (k : A -> St -> St * (B + X)) (m : B -> St -> St * (C + X)) : then_ (then_ r k) m = then_ r (fun a s => then_ (k a s) m).
Proof. destruct r as [s [a|x]]; reflexivity. Qed.
Lemma binds_replace f object v h q d l : forall n i, nth_element l n = Some (h, q, d) ->
  (forall e s s' u, fetch w h object (i + n) v e s = (s', inl u) -> then_ (defaulted (snd (f q d)) u e s') (fun u s => bind (fst (f q d)) u e s) = then_ (defaulted d u e s') (fun u s => bind q u e s)) ->
  forall e s, binds (replace_element f l n) object i v e s = binds l object i v e s.
Proof.
  induction l as [|l IH|h' p' d' l IH]; intros n i N Eq e s; destruct n as [|n]; simpl in N; try discriminate.
  - cbn [replace_element]. rewrite !binds_hole. apply then_same. intros _ s1 _. apply IH; [exact N|]. intros e' s0 s' u F. apply (Eq e' s0 s' u). rewrite <- F. f_equal; lia.
  - injection N as -> -> ->. cbn [replace_element]. rewrite !binds_element. apply then_same. intros u s1 F. rewrite Nat.add_0_r in Eq. specialize (Eq e s s1 u F).
    rewrite <- !then_assoc. rewrite Eq. reflexivity.
  - cbn [replace_element]. rewrite !binds_element. apply then_same. intros u s1 _. apply then_same. intros u1 s2 _. apply then_same. intros e1 s3 _.
    apply IH; [exact N|]. intros e' s0 s' u0 F. apply (Eq e' s0 s' u0). rewrite <- F. f_equal; lia.
Qed.

Definition list_of (p : pattern) : option (bool * elements) := match p with PName _ => None | PObject l => Some (true, l) | PArray l => Some (false, l) end.
Lemma locate_cons p i path outer : locate p (i :: path) outer =
  match list_of p with
  | None => None
  | Some (object, l) => match nth_element l i with
      | None => None
      | Some (h, q, d) => match frame_of h object i with None => None | Some f => match path with [] => Some (f, outer, d) | _ => locate q path (f :: outer) end end
      end
  end.
Proof. reflexivity. Qed.
Lemma bind_list p object l f i v e s : list_of p = Some (object, l) ->
  (forall e s, binds (replace_element f l i) object 0 v e s = binds l object 0 v e s) ->
  bind (match p with PName x => PName x | PObject l => PObject (replace_element f l i) | PArray l => PArray (replace_element f l i) end) v e s = bind p v e s.
Proof.
  intros L Eq. destruct p; simpl in L; try discriminate; injection L as <- <-; cbn [UselessDefaultSpec.bind]; match goal with |- context [refuses w ?a v] => destruct (refuses w a v) end; auto; apply Eq.
Qed.
Lemma locate_plain r path : forall p outer f fs d, locate p path outer = Some (f, fs, d) -> plain ty fixed r (f :: fs) -> plain ty fixed r outer.
Proof.
  induction path as [|i path IH]; intros p outer f fs d H P; [discriminate|].
  rewrite locate_cons in H. destruct (list_of p) as [[object l]|]; [|discriminate]. destruct (nth_element l i) as [[[h q] d']|]; [|discriminate]. destruct (frame_of h object i) as [f'|]; [|discriminate].
  assert (A : forall g gs, plain ty fixed r (g :: gs) -> plain ty fixed r gs) by (intros g gs Q; inversion Q; assumption).
  destruct path as [|j path]; [injection H as -> -> ->; eapply A; exact P|]. eapply A. eapply IH; eassumption.
Qed.
Context (R : right_types undefined is_undef w ty has there fixed).
Lemma yields_there n e v : plain_init e -> offers n e -> yields there e v -> there v n.
Proof.
  intros P O. induction O as [l k I N|a d _ IHa _ IHd|e _ IH]; simpl in *.
  - intro Y. apply (Y k I). destruct N; auto. exfalso. eapply P. exact I.
  - destruct P as [Pa Pd]. intros [Y|Y]; auto.
  - auto.
Qed.
(** The value of an element has the type of the element. *)
Lemma fetched r outer h object i f v e s s' u t : frame_of h object i = Some f -> plain ty fixed r (f :: outer) -> typed ty r (f :: outer) t ->
  (forall t, typed ty r outer t -> has v t \/ admits ty t) -> (outer = [] -> comes has there r v) ->
  fetch w h object i v e s = (s', inl u) -> has u t.
Proof.
  intros Ff P Ht Inv Root F.
  inversion Ht as [? ? E|? ? ? ? ? E|? ? ? E|k n o t' op t'' Ht' N Pr O|i' rest o t' l t'' Ht' Tu N|i' rest o t' t'' Ht' L N]; subst.
  - assert (Hv : has v t'). { destruct (Inv _ Ht') as [Hv|A]; [exact Hv|]. rewrite (no_properties _ _ _ _ _ _ _ R _ n A) in Pr. discriminate. }
    inversion P as [|k' o' Po NC|]; subst.
    assert (Th : there v n).
    { destruct op; [|eapply required_right; eassumption]. destruct (O eq_refl) as [-> (q & e' & -> & Of)]. inversion Po; subst. destruct (Root eq_refl) as [_ Y]. eapply yields_there; eassumption. }
    assert (G : get w v n s = (s', inl u)).
    { destruct h as [k'|n'| | ]; simpl in Ff; [injection Ff as ->|injection Ff as <-|destruct object; discriminate|destruct object; discriminate].
      - destruct N; try exact F. exfalso. eapply NC. reflexivity.
      - inversion N; subst. exact F. }
    eapply property_right; eassumption.
  - inversion P as [| |i0 o' Po Fx]; subst. destruct (Fx _ Ht') as [_ Fi].
    assert (Hv : has v t'). { destruct (Inv _ Ht') as [Hv|A]; [exact Hv|]. rewrite (no_tuple _ _ _ _ _ _ _ R _ A) in Tu. discriminate. }
    destruct h; simpl in Ff; try discriminate; destruct object; try discriminate. injection Ff as <-. eapply item_right; eassumption.
  - exfalso. inversion P as [| |i0 o' Po Fx]; subst. destruct (Fx _ Ht') as [(l & Tu & Lt) _]. specialize (L l Tu). lia.
Qed.
Lemma without_cons p i path : without p (i :: path) =
  match p with PName x => PName x | PObject l => PObject (replace_element (fun q d => match path with [] => (q, None) | _ => (without q path, d) end) l i) | PArray l => PArray (replace_element (fun q d => match path with [] => (q, None) | _ => (without q path, d) end) l i) end.
Proof. reflexivity. Qed.
Lemma not_used r path : forall p outer f fs d t v, locate p path outer = Some (f, fs, d) -> plain ty fixed r (f :: fs) -> useless ty r f fs t ->
  (forall t, typed ty r outer t -> has v t \/ admits ty t) -> (outer = [] -> comes has there r v) -> forall e s, bind (without p path) v e s = bind p v e s.
Proof.
  induction path as [|i path IH]; intros p outer f fs d t v H P U Inv Root e s; [discriminate|].
  pose proof (locate_plain r _ _ _ _ _ _ H P) as Po.
  rewrite locate_cons in H. destruct (list_of p) as [[object l]|] eqn:L; [|discriminate]. destruct (nth_element l i) as [[[h q] d']|] eqn:N; [|discriminate]. destruct (frame_of h object i) as [f'|] eqn:Ff; [|discriminate].
  rewrite without_cons. eapply bind_list; [exact L|]. intros e1 s1. eapply binds_replace; [exact N|]. clear e s e1 s1. intros e s s' u F. rewrite Nat.add_0_l in F.
  destruct path as [|j path].
  - injection H as -> -> ->. cbn [fst snd].
    assert (Ht : typed ty r (f :: fs) t). { destruct U as [k o t0 Ht _|i0 rest o t0 l0 t1 Ht Tu Nt _]; [exact Ht|]. eapply TypedTuple; eassumption. }
    assert (NA : ~ admits ty t) by (destruct U; assumption).
    assert (Hu : has u t) by (eapply fetched; eassumption).
    assert (NU : is_undef u = false). { destruct (is_undef u) eqn:E; [|reflexivity]. apply (undef_right _ _ _ _ _ _ _ R) in E. subst u. exfalso. apply NA. eapply undefined_right; eassumption. }
    destruct d; cbn [UselessDefaultSpec.defaulted]; [rewrite NU|]; reflexivity.
  - cbn [fst snd]. apply then_same. intros u' s1 D. eapply IH; [exact H|exact P|exact U| |discriminate].
    intros t' Ht'. assert (Hu : has u t'). { eapply fetched; try eassumption. eapply locate_plain; eassumption. }
    destruct d' as [d'|]; cbn [UselessDefaultSpec.defaulted] in D; [|injection D as _ <-; auto].
    destruct (is_undef u) eqn:E; [|injection D as _ <-; auto]. apply (undef_right _ _ _ _ _ _ _ R) in E. subst u. right. eapply undefined_right; eassumption.
Qed.
Lemma comes_inv r v : comes has there r v -> forall t, typed ty r [] t -> has v t \/ admits ty t.
Proof.
  intros C t Ht. left. inversion Ht as [? ? E|? ? ? ? ? E D N|? ? ? E N|? ? ? ? ? ? ? ? ? ?|? ? ? ? ? ? ? ? ?|? ? ? ? ? ? ? ?]; subst; simpl in C.
  - apply C.
  - apply C. destruct D as [-> | ->]; [exact N|]. rewrite andb_false_r. exact N.
  - apply C. exact N.
Qed.
Lemma given i c t args s more : useless_parameter ty i c t -> c = Some (s :: more) -> conforms undefined has args s -> is_undef (nth i args undefined) = false.
Proof.
  intros U E C. inversion U as [s' more' p O N Rs Op Tp A]; subst. injection H as -> ->.
  destruct (is_undef (nth i args undefined)) eqn:D; [|reflexivity]. apply (undef_right _ _ _ _ _ _ _ R) in D.
  destruct (C i p N Rs) as [H|H]; [|congruence]. rewrite D in H. exfalso. apply A. eapply undefined_right; eassumption.
Qed.
End Meaning.
End Types.

Section Undefined.
Context {St V X : Type} (undefined : V) (is_undef : V -> bool) (w : world St V X).
Lemma undefined_same path : forall p outer f fs d v, locate p path outer = Some (f, fs, Some d) -> (forall u, is_undef u = true -> u = undefined) -> (forall e s, value w d e s = (s, inl undefined)) ->
  forall e s, bind is_undef w (without p path) v e s = bind is_undef w p v e s.
Proof.
  induction path as [|i path IH]; intros p outer f fs d v H Un D e s; [discriminate|].
  rewrite locate_cons in H. destruct (list_of p) as [[object l]|] eqn:L; [|discriminate]. destruct (nth_element l i) as [[[h q] d']|] eqn:N; [|discriminate]. destruct (frame_of h object i) as [f'|] eqn:Ff; [|discriminate].
  rewrite without_cons. eapply bind_list; [exact L|]. intros e1 s1. eapply binds_replace; [exact N|]. clear e s e1 s1. intros e s s' u F.
  destruct path as [|j path].
  - injection H as -> -> ->. cbn [fst snd defaulted]. destruct (is_undef u) eqn:E; [|reflexivity]. rewrite D. rewrite (Un u E). reflexivity.
  - cbn [fst snd]. apply then_same. intros u' s1 _. eapply IH; eassumption.
Qed.
End Undefined.

(** * Texts *)
Lemma texts_element h p d l : texts (Element h p d l) = head_text h ++ text p ++ default_text d ++ TComma :: texts l.
Proof. reflexivity. Qed.
Lemma element_at_text f l : forall n at_ start h q d, element_at l n at_ = Some (start, h, q, d) ->
  exists pre post, texts l = pre ++ (head_text h ++ text q ++ default_text d) ++ post /\ start = at_ + length pre /\
    texts (replace_element f l n) = pre ++ (head_text h ++ text (fst (f q d)) ++ default_text (snd (f q d))) ++ post.
Proof.
  induction l as [|l IH|h' p' d' l IH]; intros n at_ start h q d H; destruct n as [|n]; cbn [element_at] in H; try discriminate.
  - destruct (IH _ _ _ _ _ _ H) as (pre & post & E & S & R). exists (TComma :: pre), post. cbn [texts replace_element]. rewrite E, R. split; [reflexivity|]. split; [simpl; lia|reflexivity].
  - injection H as <- -> -> ->. exists [], (TComma :: texts l). cbn [replace_element]. rewrite !texts_element. cbn [app length]. repeat rewrite <- app_assoc. split; [reflexivity|]. split; [lia|reflexivity].
  - destruct (IH _ _ _ _ _ _ H) as (pre & post & E & S & R). exists ((head_text h' ++ text p' ++ default_text d') ++ TComma :: pre), post. cbn [replace_element]. rewrite !texts_element, E, R.
    split; [repeat rewrite <- app_assoc; reflexivity|]. split; [rewrite (app_length _ (TComma :: pre)); simpl length at 2; lia|repeat rewrite <- app_assoc; reflexivity].
Qed.
Lemma removal_text path : forall p at_ a e, removal p path at_ = Some (a, e) ->
  exists pre mid post, text p = pre ++ mid ++ post /\ a = at_ + length pre /\ e = a + length mid /\ text (without p path) = pre ++ post.
Proof.
  induction path as [|i path IH]; intros p at_ a e H; [discriminate|].
  cbn [removal] in H.
  assert (Main : forall object l, removal (if object : bool then PObject l else PArray l) (i :: path) at_ = Some (a, e) ->
    exists pre mid post, TOpen object :: texts l ++ [TClose object] = pre ++ mid ++ post /\ a = at_ + length pre /\ e = a + length mid /\
      TOpen object :: texts (replace_element (fun q d => match path with [] => (q, None) | _ => (without q path, d) end) l i) ++ [TClose object] = pre ++ post).
  { clear H p. intros object l H.
    assert (H' : match element_at l i (at_ + 1) with None => None | Some (start, h, q, d) => let name := start + length (head_text h) in
              match path with [] => Some (name + length (text q), start + length (head_text h ++ text q ++ default_text d)) | _ => removal q path name end end = Some (a, e)) by (destruct object; exact H).
    clear H. destruct (element_at l i (at_ + 1)) as [[[[start h] q] d]|] eqn:E; [|discriminate].
    destruct (element_at_text (fun q d => match path with [] => (q, None) | _ => (without q path, d) end) _ _ _ _ _ _ _ E) as (pre & post & Tx & S & R). rewrite Tx, R. cbn zeta in H'.
    destruct path as [|j path].
    - injection H' as <- <-. exists (TOpen object :: pre ++ head_text h ++ text q), (default_text d), (post ++ [TClose object]). cbn [fst snd default_text]. cbn [app]. repeat rewrite <- app_assoc.
      split; [reflexivity|]. cbn [length]. rewrite !app_length. split; [lia|]. split; [lia|]. reflexivity.
    - destruct (IH _ _ _ _ H') as (pre' & mid & post' & Tq & A & Ee & W). cbn [fst snd]. rewrite Tq. rewrite W.
      exists (TOpen object :: pre ++ head_text h ++ pre'), mid, (post' ++ default_text d ++ post ++ [TClose object]). cbn [app]. repeat rewrite <- app_assoc. split; [reflexivity|].
      cbn [length]. rewrite !app_length. split; [lia|]. split; [exact Ee|]. reflexivity. }
  destruct p as [x|l|l]; [discriminate| |].
  - destruct (Main true l H) as (pre & mid & post & A & B). exists pre, mid, post. split; [exact A|exact B].
  - destruct (Main false l H) as (pre & mid & post & A & B). exists pre, mid, post. split; [exact A|exact B].
Qed.
Lemma element_at_some l : forall n at_ h q d, nth_element l n = Some (h, q, d) -> exists start, element_at l n at_ = Some (start, h, q, d).
Proof.
  induction l as [|l IH|h' p' d' l IH]; intros n at_ h q d H; destruct n as [|n]; simpl in H; try discriminate; cbn [element_at]; eauto. injection H as -> -> ->. eauto.
Qed.
Lemma removal_some path : forall p at_ outer f fs d, locate p path outer = Some (f, fs, d) -> exists a e, removal p path at_ = Some (a, e).
Proof.
  induction path as [|i path IH]; intros p at_ outer f fs d H; [discriminate|].
  rewrite locate_cons in H. destruct (list_of p) as [[object l]|] eqn:L; [|discriminate]. destruct (nth_element l i) as [[[h q] d']|] eqn:N; [|discriminate]. destruct (frame_of h object i) as [f'|]; [|discriminate].
  destruct (element_at_some _ _ (at_ + 1) _ _ _ N) as [start E].
  assert (A : removal p (i :: path) at_ = match path with [] => Some (start + length (head_text h) + length (text q), start + length (head_text h ++ text q ++ default_text d')) | _ => removal q path (start + length (head_text h)) end).
  { destruct p; simpl in L; try discriminate; injection L as <- <-; cbn [removal]; rewrite E; reflexivity. }
  rewrite A. destruct path as [|j path]; [eauto|]. eapply IH. exact H.
Qed.
Lemma fix_text p path f fs d : locate p path [] = Some (f, fs, d) -> fix_element p path = Some (text (without p path)).
Proof.
  intro H. unfold fix_element. destruct (removal_some _ _ 0 _ _ _ _ H) as (a & e & E). rewrite E. destruct (removal_text _ _ _ _ _ E) as (pre & mid & post & Tx & A & Ee & W).
  rewrite Tx, W. simpl in A. subst a e. f_equal. f_equal.
  - rewrite firstn_app, Nat.sub_diag, firstn_all. simpl. apply app_nil_r.
  - rewrite app_assoc. rewrite skipn_app. rewrite skipn_all2 by (rewrite app_length; lia). rewrite app_length, Nat.sub_diag. reflexivity.
Qed.
Lemma parameter_right optional p : fix_parameter optional p = parameter_text (optional && p_identifier p) {| p_name := p_name p; p_identifier := p_identifier p; p_type := p_type p; p_default := None |}.
Proof.
  unfold fix_parameter, parameter_text. cbn [p_name p_type p_default p_identifier]. rewrite skipn_all. cbn [app].
  rewrite firstn_app, Nat.sub_diag, firstn_all. simpl firstn at 1. rewrite app_nil_r. f_equal. f_equal. rewrite !app_nil_r.
  destruct (p_type p) as [t|].
  - rewrite firstn_app. replace (length (p_name p) + 1 + length t - length (p_name p)) with (S (length t)) by lia. rewrite (firstn_all2 (p_name p)) by lia.
    rewrite skipn_app, skipn_all, Nat.sub_diag. cbn [app skipn firstn]. f_equal. rewrite firstn_app, firstn_all, Nat.sub_diag. simpl. apply app_nil_r.
  - rewrite firstn_app, Nat.sub_diag, firstn_all. simpl firstn. rewrite app_nil_r, skipn_all. reflexivity.
Qed.
