(** Proofs for C57 (Params.v, ParamsSpec.v). *)
From Coq Require Import String Ascii Bool List ZArith Lia.
From Verif Require Import Base EngineProofs Params ParamsSpec.
Import ListNotations.
Open Scope Z_scope.

Lemma mem_in x l : mem x l = true <-> In x l.
Proof. unfold mem. rewrite existsb_exists. split; [intros (y & I & E); apply Z.eqb_eq in E; now subst|]. intros I. exists x. split; [assumption|]. apply Z.eqb_refl. Qed.
Lemma hash_hidden p : hash_name p = true <-> hidden p.
Proof.
  unfold hash_name, hidden. destruct (p_value p) as [h|].
  - split; [intros ->; now left|]. intros [[= ->]|[E _]]; [reflexivity|discriminate].
  - rewrite existsb_exists. split; [intros (h & I & ->); auto|]. intros [E|[_ I]]; [discriminate|]. exists true. auto.
Qed.
Lemma mapped_covered p : private_mapped p = true <-> covered p.
Proof. unfold private_mapped, covered. apply andb_true_iff. Qed.
Lemma exempt_writable methods p : exempt methods p = false <-> writable methods p.
Proof.
  unfold exempt, writable. rewrite !orb_false_iff. rewrite <- hash_hidden, <- mapped_covered. rewrite !not_true_iff_false.
  unfold is_readonly. destruct methods, (p_method p), (p_symbol p), (p_check p), (p_synthetic p), (p_mapped p), (p_value p), (p_readonly p); cbn; intuition congruence.
Qed.

Section Types.
Variable methods : bool.
Variable types : Z -> info.
Notation flawed' := (flawed methods types).
Notation leads' := (leads types).
Notation reach' := (reach types).
Notation recurse' := (recurse methods types).

Definition good (s : seen) (u : Z) : Prop := ~ flawed' u /\ forall x, leads' u x -> In x s.
Definition fresh (s s' : seen) : Prop := forall u, In u s' -> In u s \/ good s' u.
Lemma good_mono s s' u : incl s s' -> good s u -> good s' u.
Proof. intros I [A B]. split; [exact A|]. intros x L. apply I, B, L. Qed.
Lemma fresh_refl s : fresh s s.
Proof. intros u I. now left. Qed.
Lemma fresh_trans s s' s'' : incl s' s'' -> fresh s s' -> fresh s' s'' -> fresh s s''.
Proof. intros I A B u U. destruct (B u U) as [V|G]; [|now right]. destruct (A u V) as [W|G]; [now left|]. right. now apply good_mono with s'. Qed.
Definition bad (x : Z) : Prop := exists u, reach' x u /\ flawed' u.
Definition post (x : Z) (s : seen) (r : readonlyness) (s' : seen) : Prop :=
  incl s s' /\ In x s' /\ ((r = Readonly /\ fresh s s') \/ (r = Mutable /\ bad x)).
(** A loop over these types; [more]: what is wrong besides them. *)
Definition loop_post (l : list Z) (more : Prop) (s : seen) (r : readonlyness) (s' : seen) : Prop :=
  incl s s' /\ ((r = Readonly /\ fresh s s' /\ (forall x, In x l -> In x s') /\ ~ more) \/ (r = Mutable /\ (more \/ exists x, In x l /\ bad x))).

Definition prop_types (ps : list prop) : list Z :=
  flat_map (fun p => if p_method p || hash_name p || private_mapped p then [] else
    match (match p_type p with Some t => Some t | None => p_symbol_type p end) with Some t => [t] | None => [] end) ps.
Definition index_types (l : list index) : list Z := flat_map (fun x => match x_value x with Some t => [t] | None => [] end) l.

Section Loops.
Variable rec : Z -> seen -> result.
Hypothesis call : forall x s r s', rec x s = Some (r, s') -> post x s r s'.
Lemma loop_nil s : loop_post [] False s Readonly s.
Proof. split; [apply incl_refl|]. left. split; [reflexivity|]. split; [apply fresh_refl|]. split; [easy|tauto]. Qed.
Lemma loop_skip l x more s r s' : In x s -> loop_post l more s r s' -> loop_post (x :: l) more s r s'.
Proof.
  intros I [A B]. split; [exact A|]. destruct B as [(E & F & C & N)|(E & [M|(y & J & K)])].
  - left. split; [exact E|]. split; [exact F|]. split; [|exact N]. intros y [<-|J]; auto.
  - right. auto.
  - right. split; [exact E|]. right. exists y. split; [now right|exact K].
Qed.
Lemma loop_call l x more s s1 r s' : post x s Readonly s1 -> loop_post l more s1 r s' -> loop_post (x :: l) more s r s'.
Proof.
  intros (I1 & X & P) [I2 L]. destruct P as [[_ F1]|[? _]]; [|discriminate]. split; [now apply incl_tran with s1|]. destruct L as [(E & F & C & N)|(E & [M|(y & J & K)])].
  - left. split; [exact E|]. split; [now apply fresh_trans with s1|]. split; [|exact N]. intros y [<-|J]; auto.
  - right. auto.
  - right. split; [exact E|]. right. exists y. split; [now right|exact K].
Qed.
Lemma loop_stop l x more s s' : post x s Mutable s' -> loop_post (x :: l) more s Mutable s'.
Proof. intros (I & X & [[? _]|[_ B]]); [discriminate|]. split; [exact I|]. right. split; [reflexivity|]. right. exists x. split; [now left|exact B]. Qed.
Lemma call_cases x s r s' : rec x s = Some (r, s') -> (r = Readonly \/ r = Mutable) /\ post x s r s'.
Proof. intros E. apply call in E. split; [|exact E]. destruct E as (_ & _ & [[-> _]|[-> _]]); auto. Qed.

Lemma parts_post l : forall s r s', parts rec l s = Some (r, s') -> loop_post l False s r s'.
Proof.
  induction l as [|x l IH]; intros s r s' E; cbn [parts] in E; [injection E as <- <-; apply loop_nil|].
  destruct (mem x s) eqn:M; [apply mem_in in M; apply loop_skip; auto|].
  destruct (rec x s) as [[r1 s1]|] eqn:R; [|discriminate]. destruct (call_cases _ _ _ _ R) as [[-> | ->] P].
  - apply loop_call with s1; auto.
  - injection E as <- <-. now apply loop_stop.
Qed.
Lemma arguments_post l : forall s r s', arguments rec l s = Some (r, s') -> loop_post l False s r s'.
Proof.
  induction l as [|x l IH]; intros s r s' E; cbn [arguments] in E; [injection E as <- <-; apply loop_nil|].
  destruct (rec x s) as [[r1 s1]|] eqn:R; [|discriminate]. destruct (call_cases _ _ _ _ R) as [[-> | ->] P].
  - apply loop_call with s1; auto.
  - injection E as <- <-. now apply loop_stop.
Qed.
Lemma properties_post l : forall s r s', properties rec l s = Some (r, s') -> loop_post (prop_types l) False s r s'.
Proof.
  induction l as [|p l IH]; intros s r s' E; cbn [properties] in E; [injection E as <- <-; apply loop_nil|]. cbn [prop_types flat_map].
  destruct (p_method p || hash_name p || private_mapped p); [cbn [app]; auto|].
  destruct (match p_type p with Some t => Some t | None => p_symbol_type p end) as [t|]; cbn [app]; [|auto].
  destruct (mem t s) eqn:M; [apply mem_in in M; apply loop_skip; auto|].
  destruct (rec t s) as [[r1 s1]|] eqn:R; [|discriminate]. destruct (call_cases _ _ _ _ R) as [[-> | ->] P].
  - apply loop_call with s1; auto.
  - injection E as <- <-. now apply loop_stop.
Qed.
Lemma indexes_post t l : forall s r s', In t s -> indexes rec t l s = Some (r, s') -> loop_post (index_types l) (exists x, In x l /\ x_readonly x = false) s r s'.
Proof.
  induction l as [|x l IH]; intros s r s' T E; cbn [indexes] in E.
  - injection E as <- <-. destruct (loop_nil s) as [A [(B & C & D & F)|[B _]]]; [|discriminate]. split; [exact A|]. left. split; [exact B|]. split; [exact C|]. split; [exact D|]. intros (y & [] & _).
  - destruct (x_readonly x) eqn:RO; cbn [negb] in E.
    + assert (G : forall l' s0, loop_post l' (exists y, In y l /\ x_readonly y = false) s0 r s' -> loop_post l' (exists y, In y (x :: l) /\ x_readonly y = false) s0 r s').
      { intros l' s0 [A [(B & C & D & F)|(B & D)]]; (split; [exact A|]).
        - left. split; [exact B|]. split; [exact C|]. split; [exact D|]. intros (y & [<-|I] & K); [congruence|]. apply F. eauto.
        - right. split; [exact B|]. destruct D as [(y & I & K)|D]; [left; exists y; split; [now right|exact K]|now right]. }
      apply G. cbn [index_types flat_map]. destruct (x_value x) as [v|]; cbn [app]; [|now apply IH].
      destruct ((v =? t) || mem v s) eqn:M.
      * apply loop_skip; [|now apply IH]. apply orb_true_iff in M. destruct M as [M|M]; [apply Z.eqb_eq in M; now subst|now apply mem_in].
      * destruct (rec v s) as [[r1 s1]|] eqn:R; [|discriminate]. destruct (call_cases _ _ _ _ R) as [[-> | ->] P].
        -- apply loop_call with s1; auto. apply IH; [|exact E]. destruct P as (I & _). now apply I.
        -- injection E as <- <-. now apply loop_stop.
    + injection E as <- <-. split; [apply incl_refl|]. right. split; [reflexivity|]. left. exists x. split; [now left|exact RO].
Qed.
Lemma prop_types_in ps x : In x (prop_types ps) <-> exists p, In p ps /\ p_method p = false /\ ~ hidden p /\ ~ covered p /\
  (p_type p = Some x \/ (p_type p = None /\ p_symbol_type p = Some x)).
Proof.
  unfold prop_types. rewrite in_flat_map. split.
  - intros (p & I & J). exists p. split; [exact I|]. rewrite <- hash_hidden, <- mapped_covered.
    destruct (p_method p), (hash_name p), (private_mapped p); cbn [orb] in J; try easy.
    repeat (split; [congruence|]). destruct (p_type p); [|destruct (p_symbol_type p); [|easy]]; destruct J as [->|[]]; auto.
  - intros (p & I & M & H & C & T). exists p. split; [exact I|]. rewrite <- hash_hidden, <- mapped_covered in *. rewrite M.
    apply not_true_iff_false in H, C. rewrite H, C. cbn [orb]. destruct T as [->|[-> ->]]; now left.
Qed.
Lemma index_types_in l x : In x (index_types l) <-> exists i, In i l /\ x_value i = Some x.
Proof.
  unfold index_types. rewrite in_flat_map. split.
  - intros (i & I & J). exists i. destruct (x_value i); [destruct J as [->|[]]; auto|easy].
  - intros (i & I & E). exists i. rewrite E. split; [exact I|now left].
Qed.
Lemma object_post t : as_properties types t -> forall s r s', In t s -> object methods types rec t s = Some (r, s') ->
  incl s s' /\ ((r = Readonly /\ fresh s s' /\ good s' t) \/ (r = Mutable /\ bad t)).
Proof.
  intros AP s r s' T E. unfold object in E. destruct (forallb (exempt methods) (i_props (types t))) eqn:F; cbn [negb] in E.
  - assert (NW : forall p, In p (i_props (types t)) -> ~ writable methods p).
    { intros p I W. apply exempt_writable in W. rewrite forallb_forall in F. rewrite (F p I) in W. discriminate. }
    destruct (properties rec (i_props (types t)) s) as [[r1 s1]|] eqn:P; [|discriminate]. apply properties_post in P. destruct P as [I1 [(-> & F1 & C1 & _)|(-> & [[]|(x & J & u & K & L)])]].
    + assert (T1 : In t s1) by (now apply I1). apply indexes_post in E; [|exact T1]. destruct E as [I2 [(-> & F2 & C2 & N2)|(-> & B)]].
      * split; [now apply incl_tran with s1|]. left. split; [reflexivity|]. split; [now apply fresh_trans with s1|]. split.
        -- intros FL. destruct FL as [S A|S A B|p _ I W|x _ I X].
           ++ destruct AP as [(_ & l & Q & _)|(_ & Q & _)]; [destruct S as (_ & Q' & _)|]; congruence.
           ++ destruct AP as [(_ & l & Q & _)|(_ & _ & [Q|(y & Q)])]; [destruct S as (_ & Q' & _)| |]; congruence.
           ++ now apply (NW p).
           ++ apply N2. eauto.
        -- intros x L. destruct L as [l Q I|Q I|p _ I M H C X|i _ I X].
           ++ destruct AP as [(_ & l' & Q' & N)|((_ & Q' & _) & _)].
              ** destruct Q as (_ & [Q|[Q (y & J & K)]]); [congruence|]. assert (l = l') by congruence. subst. now elim (N y).
              ** destruct Q as (_ & [Q|[Q _]]); congruence.
           ++ destruct AP as [(_ & l' & Q' & N)|(_ & Q' & Q'')]; destruct Q as ((_ & Q & _) & [(n & A & _)|[A B]]); try congruence.
              destruct Q'' as [Q''|(y & Q'')]; congruence.
           ++ apply I2, C1. apply prop_types_in. exists p. auto.
           ++ apply C2. apply index_types_in. eauto.
      * split; [now apply incl_tran with s1|]. right. split; [reflexivity|]. destruct B as [(x & I & X)|(x & I & u & K & L)].
        -- exists t. split; [constructor|]. now apply fl_index with x.
        -- apply index_types_in in I. destruct I as (i & I & X). exists u. split; [|exact L]. apply rc_step with x; [|exact K]. now apply ld_index with i.
    + injection E as <- <-. split; [exact I1|]. right. split; [reflexivity|]. apply prop_types_in in J. destruct J as (p & I & M & H & C & X).
      exists u. split; [|exact L]. apply rc_step with x; [|exact K]. now apply ld_property with p.
  - injection E as <- <-. split; [apply incl_refl|]. right. split; [reflexivity|].
    assert (X : exists p, In p (i_props (types t)) /\ exempt methods p = false).
    { clear -F. induction (i_props (types t)) as [|p l IH]; [discriminate|]. cbn [forallb] in F. destruct (exempt methods p) eqn:Q.
      - destruct (IH F) as (q & I & K). exists q. split; [now right|exact K].
      - exists p. split; [now left|exact Q]. }
    destruct X as (p & I & X). apply exempt_writable in X. exists t. split; [constructor|]. now apply fl_property with p.
Qed.
End Loops.

Lemma array_part_arrays x : array_part types x = true <-> arrays types x.
Proof. unfold array_part, arrays. destruct (i_array (types x)), (i_tuple (types x)); intuition congruence. Qed.
Lemma fresh_cons t s s' : incl (t :: s) s' -> fresh (t :: s) s' -> good s' t -> fresh s s'.
Proof. intros I F G u U. destruct (F u U) as [[<-|V]|K]; auto. Qed.
Lemma recurse_post fuel : forall t s r s', recurse' fuel t s = Some (r, s') -> post t s r s'.
Proof.
  induction fuel as [|fuel IH]; intros t s r s' E; [discriminate|]. cbn [recurse] in E.
  assert (DONE : incl (t :: s) s' -> ((r = Readonly /\ fresh (t :: s) s' /\ good s' t) \/ (r = Mutable /\ bad t)) -> post t s r s').
  { intros I C. split; [intros x X; apply I; now right|]. split; [apply I; now left|]. destruct C as [(-> & F & G)|[-> B]]; [left|right]; split; auto. now apply (fresh_cons t). }
  assert (STOP : (r, s') = (Readonly, t :: s) -> (~ flawed' t /\ forall x, ~ leads' t x) -> post t s r s').
  { intros [= -> ->] [N L]. apply DONE; [apply incl_refl|]. left. split; [reflexivity|]. split; [apply fresh_refl|]. split; [exact N|]. intros x K. now elim (L x). }
  assert (PARTS : forall l, as_parts types t l -> parts (recurse' fuel) l (t :: s) = Some (r, s') -> post t s r s').
  { intros l AP P. apply parts_post in P; [|exact IH]. destruct P as [I [(-> & F & C & _)|(-> & [[]|(x & J & u & K & L)])]]; apply DONE; auto.
    - left. split; [reflexivity|]. split; [exact F|]. destruct AP as [AL AP]. split.
      + intros FL. destruct FL as [(_ & Q & _) _|(_ & Q & _) _ _|p AS _ _|y AS _ _]; try (destruct AP as [Q'|[Q' _]]; congruence);
          (destruct AS as [(_ & l' & Q & N)|((_ & Q & _) & _)]; destruct AP as [Q'|[Q' (z & Z1 & Z2)]]; try congruence; assert (l = l') by congruence; subst; now elim (N z)).
      + intros x X. destruct X as [l' [_ Q] J|Q J|p AS _ _ _ _ _|i AS _ _].
        * apply C. destruct AP as [Q'|[Q' _]], Q as [Q|[Q _]]; congruence.
        * destruct Q as ((_ & Q & _) & _). destruct AP as [Q'|[Q' _]]; congruence.
        * exfalso. destruct AS as [(_ & l' & Q & N)|((_ & Q & _) & _)]; destruct AP as [Q'|[Q' (z & Z1 & Z2)]]; try congruence. assert (l = l') by congruence. subst. now elim (N z).
        * exfalso. destruct AS as [(_ & l' & Q & N)|((_ & Q & _) & _)]; destruct AP as [Q'|[Q' (z & Z1 & Z2)]]; try congruence. assert (l = l') by congruence. subst. now elim (N z).
    - right. split; [reflexivity|]. exists u. split; [|exact L]. apply rc_step with x; [|exact K]. now apply ld_part with l. }
  assert (OBJ : as_properties types t -> object methods types (recurse' fuel) t (t :: s) = Some (r, s') -> post t s r s').
  { intros AP O. apply object_post in O; [|exact IH|exact AP|now left]. destruct O as [I C]. apply DONE; assumption. }
  destruct (i_allowed (types t)) eqn:AL.
  { injection E as <- <-. apply STOP; [reflexivity|]. split.
    - intros FL. destruct FL as [(Q & _) _|(Q & _) _ _|p AS _ _|y AS _ _]; try congruence; destruct AS as [(Q & _)|((Q & _) & _)]; congruence.
    - intros x L. destruct L as [l (Q & _) _|((Q & _) & _) _|p AS _ _ _ _ _|i AS _ _]; try congruence; destruct AS as [(Q & _)|((Q & _) & _)]; congruence. }
  destruct (i_class (types t)) as [l|l| |] eqn:CL.
  - apply (PARTS l); [|exact E]. split; [exact AL|]. now left.
  - destruct (existsb (array_part types) l) eqn:X.
    + apply (PARTS l); [|exact E]. split; [exact AL|]. right. split; [exact CL|]. apply existsb_exists in X. destruct X as (x & I & X). exists x. split; [exact I|]. now apply array_part_arrays.
    + apply OBJ; [|exact E]. left. split; [exact AL|]. exists l. split; [exact CL|]. intros x I A. apply array_part_arrays in A.
      assert (existsb (array_part types) l = true) by (apply existsb_exists; eauto). congruence.
  - destruct (i_calls (types t) && match i_props (types t) with [] => true | _ => false end) eqn:PF.
    + injection E as <- <-. assert (PL : plain_function types t). { apply andb_true_iff in PF. destruct PF as [A B]. split; [exact A|]. now destruct (i_props (types t)). }
      apply STOP; [reflexivity|]. split.
      * intros FL. destruct FL as [(_ & _ & Q) _|(_ & _ & Q) _ _|p AS _ _|y AS _ _]; try contradiction; destruct AS as [(_ & l & Q & _)|((_ & _ & Q) & _)]; [congruence|contradiction|congruence|contradiction].
      * intros x L. destruct L as [l (_ & Q) _|((_ & _ & Q) & _) _|p AS _ _ _ _ _|i AS _ _]; try contradiction.
        -- destruct Q as [Q|[Q _]]; congruence.
        -- destruct AS as [(_ & l & Q & _)|((_ & _ & Q) & _)]; [congruence|contradiction].
        -- destruct AS as [(_ & l & Q & _)|((_ & _ & Q) & _)]; [congruence|contradiction].
    + assert (ST : structured types t). { split; [exact AL|]. split; [exact CL|]. intros [A B]. rewrite A, B in PF. discriminate. }
      assert (ARGS : as_elements types t -> arguments (recurse' fuel) (i_args (types t)) (t :: s) = Some (r, s') -> post t s r s').
      { intros AE P. apply arguments_post in P; [|exact IH]. destruct P as [I [(-> & F & C & _)|(-> & [[]|(x & J & u & K & L)])]]; apply DONE; auto.
        - left. split; [reflexivity|]. split; [exact F|].
          assert (NP : ~ as_properties types t). { destruct AE as [_ [(n & A & _)|[A B]]]; intros [(_ & l & Q & _)|(_ & Q & [Q'|(y & Q')])]; congruence. }
          split.
          + intros FL. destruct FL as [_ Q|_ Q Q'|p AS _ _|y AS _ _]; try contradiction; destruct AE as [_ [(n & A & B)|[A B]]]; congruence.
          + intros x X. destruct X as [l (_ & Q) J|Q J|p AS _ _ _ _ _|i AS _ _]; try contradiction; auto. destruct Q as [Q|[Q _]]; congruence.
        - right. split; [reflexivity|]. exists u. split; [|exact L]. apply rc_step with x; [|exact K]. now apply ld_element. }
      unfold array_or_tuple in E. destruct (i_array (types t)) as [name|] eqn:AR.
      * destruct (match name with Some n => beqb n (b "Array") | None => false end) eqn:NM.
        -- destruct name as [n|]; [|discriminate]. apply beqb_eq in NM. subst n. injection E as <- <-. apply DONE; [apply incl_refl|]. right. split; [reflexivity|].
           exists t. split; [constructor|]. now apply fl_array.
        -- apply ARGS.
           ++ split; [exact ST|]. left. exists name. split; [exact AR|]. intros ->. now rewrite beqb_refl in NM.
           ++ destruct (arguments (recurse' fuel) (i_args (types t)) (t :: s)) as [[r1 s1]|] eqn:Q; [|discriminate].
              destruct (arguments_post _ IH _ _ _ _ Q) as [_ [(-> & _)|(-> & _)]]; exact E.
      * destruct (i_tuple (types t)) as [[tt ro]|] eqn:TU; cbn [tu_target tu_readonly] in E.
        -- destruct tt; cbn [negb] in E.
           ++ destruct ro; cbn [negb] in E.
              ** apply ARGS; [split; auto|]. destruct (arguments (recurse' fuel) (i_args (types t)) (t :: s)) as [[r1 s1]|] eqn:Q; [|discriminate].
                 destruct (arguments_post _ IH _ _ _ _ Q) as [_ [(-> & _)|(-> & _)]]; exact E.
              ** injection E as <- <-. apply DONE; [apply incl_refl|]. right. split; [reflexivity|]. exists t. split; [constructor|]. now apply fl_tuple.
           ++ apply OBJ; [|exact E]. right. split; [exact ST|]. split; [exact AR|]. right. now exists ro.
        -- apply OBJ; [|exact E]. right. auto.
  - injection E as <- <-. apply STOP; [reflexivity|]. split.
    + intros FL. destruct FL as [(_ & Q & _) _|(_ & Q & _) _ _|p AS _ _|y AS _ _]; try congruence; destruct AS as [(_ & l & Q & _)|((_ & Q & _) & _)]; congruence.
    + intros x L. destruct L as [l (_ & Q) _|((_ & Q & _) & _) _|p AS _ _ _ _ _|i AS _ _]; try congruence.
      * destruct Q as [Q|[Q _]]; congruence.
      * destruct AS as [(_ & l & Q & _)|((_ & Q & _) & _)]; congruence.
      * destruct AS as [(_ & l & Q & _)|((_ & Q & _) & _)]; congruence.
Qed.
Lemma recurse_exact fuel t r s : recurse' fuel t [] = Some (r, s) -> (r = Readonly /\ ~ bad t) \/ (r = Mutable /\ bad t).
Proof.
  intros E. apply recurse_post in E. destruct E as (_ & T & [[-> F]|[-> B]]); [|now right]. left. split; [reflexivity|]. intros (u & R & FL).
  assert (G : forall x, In x s -> good s x) by (intros x I; destruct (F x I) as [[]|K]; exact K).
  induction R as [|t x u L R IH]; [now apply (G t T)|]. apply IH; auto. now apply (G t T).
Qed.

(** ** The end of the recursion *)
Section Ends.
Variable rec : Z -> seen -> result.
Hypothesis call : forall x s r s', rec x s = Some (r, s') -> post x s r s'.
Variable base : seen.
Lemma parts_ends l : (forall x s, In x l -> incl base s -> ~ In x s -> rec x s <> None) -> forall s, incl base s -> parts rec l s <> None.
Proof.
  induction l as [|x l IH]; intros H s I; cbn [parts]; [discriminate|]. destruct (mem x s) eqn:M; [apply IH; auto; intros y s' Y; apply H; now right|].
  assert (NI : ~ In x s) by (intros J; apply mem_in in J; congruence). specialize (H x s) as H'. destruct (rec x s) as [[r s1]|] eqn:R; [|elim H'; auto; now left].
  destruct (call _ _ _ _ R) as (I1 & _). destruct r; try discriminate. apply IH; [intros y s' Y; apply H; now right|]. now apply incl_tran with s.
Qed.
Lemma arguments_ends l : (forall x s, In x l -> incl base s -> rec x s <> None) -> forall s, incl base s -> arguments rec l s <> None.
Proof.
  induction l as [|x l IH]; intros H s I; cbn [arguments]; [discriminate|].
  specialize (H x s) as H'. destruct (rec x s) as [[r s1]|] eqn:R; [|elim H'; auto; now left].
  destruct (call _ _ _ _ R) as (I1 & _). destruct r; try discriminate; (apply IH; [intros y s' Y; apply H; now right|]; now apply incl_tran with s).
Qed.
Lemma properties_ends l : (forall x s, In x (prop_types l) -> incl base s -> ~ In x s -> rec x s <> None) -> forall s, incl base s -> properties rec l s <> None.
Proof.
  induction l as [|p l IH]; intros H s I; cbn [properties]; [discriminate|]. cbn [prop_types flat_map] in H.
  assert (H2 : forall x s, In x (prop_types l) -> incl base s -> ~ In x s -> rec x s <> None) by (intros x s' X; apply H; apply in_or_app; now right).
  destruct (p_method p || hash_name p || private_mapped p); [now apply IH|].
  destruct (match p_type p with Some t => Some t | None => p_symbol_type p end) as [x|]; [|now apply IH].
  destruct (mem x s) eqn:M; [now apply IH|]. assert (NI : ~ In x s) by (intros J; apply mem_in in J; congruence). specialize (H x s) as H'.
  destruct (rec x s) as [[r s1]|] eqn:R; [|elim H'; auto; now left].
  destruct (call _ _ _ _ R) as (I1 & _). destruct r; try discriminate; (apply IH; [exact H2|]; now apply incl_tran with s).
Qed.
Lemma indexes_ends t l : (forall x s, In x (index_types l) -> incl base s -> ~ In x s -> rec x s <> None) -> forall s, incl base s -> indexes rec t l s <> None.
Proof.
  induction l as [|i l IH]; intros H s I; cbn [indexes]; [discriminate|]. cbn [index_types flat_map] in H.
  assert (H2 : forall x s, In x (index_types l) -> incl base s -> ~ In x s -> rec x s <> None) by (intros x s' X; apply H; apply in_or_app; now right).
  destruct (x_readonly i); cbn [negb]; [|discriminate]. destruct (x_value i) as [x|]; [|now apply IH].
  destruct ((x =? t) || mem x s) eqn:M; [now apply IH|]. assert (NI : ~ In x s) by (intros J; apply mem_in in J; rewrite J, orb_true_r in M; discriminate). specialize (H x s) as H'.
  destruct (rec x s) as [[r s1]|] eqn:R; [|elim H'; auto; now left].
  destruct (call _ _ _ _ R) as (I1 & _). destruct r; try discriminate; (apply IH; [exact H2|]; now apply incl_tran with s).
Qed.
Lemma object_ends t : as_properties types t -> (forall x s, leads' t x -> incl base s -> ~ In x s -> rec x s <> None) -> forall s, incl base s -> object methods types rec t s <> None.
Proof.
  intros AP H s I. unfold object. destruct (negb (forallb (exempt methods) (i_props (types t)))); [discriminate|].
  destruct (properties rec (i_props (types t)) s) as [[r s1]|] eqn:P.
  - destruct (properties_post _ call _ _ _ _ P) as [I1 _]. assert (I2 : incl base s1) by (now apply incl_tran with s).
    destruct r; try discriminate; (apply indexes_ends; [|exact I2]; intros x s' X; apply H; apply index_types_in in X; destruct X as (i & X & Y); now apply ld_index with i).
  - exfalso. revert P. apply properties_ends; [|exact I]. intros x s' X. apply H. apply prop_types_in in X. destruct X as (p & X1 & X2 & X3 & X4 & X5). now apply ld_property with p.
Qed.
End Ends.
Definition unseen (u : list Z) (s : seen) : nat := List.length (filter (fun x => negb (mem x s)) u).
Lemma unseen_mono u s s' : incl s s' -> (unseen u s' <= unseen u s)%nat.
Proof.
  intros I. induction u as [|x u IH]; [apply le_n|]. unfold unseen in *. cbn [filter]. destruct (mem x s) eqn:M.
  - apply mem_in in M. apply I, mem_in in M. rewrite M. exact IH.
  - cbn [negb]. destruct (mem x s'); cbn [negb List.length]; lia.
Qed.
Lemma unseen_less u x s : In x u -> ~ In x s -> (unseen u (x :: s) < unseen u s)%nat.
Proof.
  intros U N. pose proof (unseen_mono u s (x :: s) ltac:(intros y; now right)) as G. induction u as [|y u IH]; [easy|]. unfold unseen in *. cbn [filter] in *.
  assert (M1 : incl s (x :: s)) by (intros z; now right). pose proof (unseen_mono u s (x :: s) M1) as G'. unfold unseen in G'.
  destruct (Z.eq_dec y x) as [->|NE].
  - assert (E1 : mem x (x :: s) = true) by (apply mem_in; now left). assert (E2 : mem x s = false) by (destruct (mem x s) eqn:Q; [apply mem_in in Q; contradiction|reflexivity]).
    rewrite E1, E2. cbn [negb List.length]. lia.
  - destruct U as [->|U]; [contradiction|]. specialize (IH U G'). assert (E : mem y (x :: s) = mem y s).
    { cbn. destruct (Z.eqb_spec y x); [contradiction|reflexivity]. }
    rewrite E in *. destruct (mem y s); cbn [negb List.length]; lia.
Qed.
Lemma recurse_ends universe rank height :
  (forall y x, In y universe -> leads' y x -> In x universe) ->
  (forall y x, In y universe -> as_elements types y -> In x (i_args (types y)) -> (rank x < rank y)%nat) ->
  (forall y, In y universe -> (rank y <= height)%nat) ->
  forall fuel t s, In t universe -> (unseen universe (t :: s) * S height + rank t < fuel)%nat -> recurse' fuel t s <> None.
Proof.
  intros CL RK HT fuel. induction fuel as [|fuel IH]; intros t s T F; [lia|]. cbn [recurse].
  destruct (i_allowed (types t)) eqn:AL; [discriminate|].
  assert (CALL : forall x s', leads' t x -> incl (t :: s) s' -> ~ In x s' -> recurse' fuel x s' <> None).
  { intros x s' L I N. pose proof (CL t x T L) as U. apply IH; [exact U|].
    pose proof (unseen_less universe x s' U N). pose proof (unseen_mono universe _ _ I). pose proof (HT x U). nia. }
  destruct (i_class (types t)) as [l|l| |] eqn:CLS.
  - apply (parts_ends (recurse' fuel) (recurse_post fuel) (t :: s)); [|apply incl_refl]. intros x s' X. apply CALL. apply ld_part with l; [|exact X]. split; auto.
  - destruct (existsb (array_part types) l) eqn:X.
    + apply (parts_ends (recurse' fuel) (recurse_post fuel) (t :: s)); [|apply incl_refl]. intros x s' I. apply CALL. apply ld_part with l; [|exact I]. split; [exact AL|]. right.
      split; [exact CLS|]. apply existsb_exists in X. destruct X as (y & J & Y). exists y. split; [exact J|]. now apply array_part_arrays.
    + apply (object_ends (recurse' fuel) (recurse_post fuel) (t :: s)); [|exact CALL|apply incl_refl]. left. split; [exact AL|]. exists l. split; [exact CLS|]. intros x I A.
      apply array_part_arrays in A. assert (existsb (array_part types) l = true) by (apply existsb_exists; eauto). congruence.
  - destruct (i_calls (types t) && match i_props (types t) with [] => true | _ => false end) eqn:PF; [discriminate|].
    assert (ST : structured types t). { split; [exact AL|]. split; [exact CLS|]. intros [A B]. rewrite A, B in PF. discriminate. }
    assert (ARGS : as_elements types t -> arguments (recurse' fuel) (i_args (types t)) (t :: s) <> None).
    { intros AE. apply (arguments_ends (recurse' fuel) (recurse_post fuel) (t :: s)); [|apply incl_refl]. intros x s' X I.
      assert (U : In x universe) by (apply (CL t x T); now apply ld_element). apply IH; [exact U|]. pose proof (RK t x T AE X).
      assert (I' : incl (t :: s) (x :: s')) by (intros z Z1; right; now apply I). pose proof (unseen_mono universe _ _ I'). nia. }
    unfold array_or_tuple. destruct (i_array (types t)) as [name|] eqn:AR.
    + destruct (match name with Some n => beqb n (b "Array") | None => false end) eqn:NM; [discriminate|].
      assert (AE : as_elements types t). { split; [exact ST|]. left. exists name. split; [exact AR|]. intros ->. now rewrite beqb_refl in NM. }
      specialize (ARGS AE). destruct (arguments (recurse' fuel) (i_args (types t)) (t :: s)) as [[r1 s1]|] eqn:Q; [|contradiction].
      destruct (arguments_post _ (recurse_post fuel) _ _ _ _ Q) as [_ [(-> & _)|(-> & _)]]; discriminate.
    + destruct (i_tuple (types t)) as [[tt ro]|] eqn:TU; cbn [tu_target tu_readonly].
      * destruct tt; cbn [negb].
        -- destruct ro; cbn [negb]; [|discriminate]. assert (AE : as_elements types t) by (split; auto).
           specialize (ARGS AE). destruct (arguments (recurse' fuel) (i_args (types t)) (t :: s)) as [[r1 s1]|] eqn:Q; [|contradiction].
           destruct (arguments_post _ (recurse_post fuel) _ _ _ _ Q) as [_ [(-> & _)|(-> & _)]]; discriminate.
        -- apply (object_ends (recurse' fuel) (recurse_post fuel) (t :: s)); [|exact CALL|apply incl_refl]. right. split; [exact ST|]. split; [exact AR|]. right. now exists ro.
      * apply (object_ends (recurse' fuel) (recurse_post fuel) (t :: s)); [|exact CALL|apply incl_refl]. right. auto.
  - discriminate.
Qed.
Lemma ends_recurse t fuel : ends types t fuel -> recurse' fuel t [] <> None.
Proof.
  intros (u & rank & h & T & ND & CL & RK & HT & F). apply (recurse_ends u rank h); auto.
  assert (unseen u [t] <= List.length u)%nat by (unfold unseen; clear; induction u as [|x u IH]; cbn [filter]; [apply le_n|destruct (negb (mem x [t])); cbn [List.length]; lia]).
  pose proof (HT t T). nia.
Qed.
(** Arrays whose first elements are such arrays again. *)
Lemma recurse_endless (S : Z -> Prop) : (forall t, S t -> as_elements types t /\ exists x l, i_args (types t) = x :: l /\ S x) ->
  forall fuel t s, S t -> recurse' fuel t s = None.
Proof.
  intros H fuel. induction fuel as [|fuel IH]; intros t s T; [reflexivity|]. cbn [recurse]. destruct (H t T) as [[(AL & CL & NF) AE] (x & l & A & X)].
  rewrite AL, CL. assert (PF : i_calls (types t) && match i_props (types t) with [] => true | _ => false end = false).
  { apply not_true_iff_false. intros Q. apply NF. apply andb_true_iff in Q. destruct Q as [Q1 Q2]. split; [exact Q1|]. now destruct (i_props (types t)). }
  rewrite PF. unfold array_or_tuple. destruct AE as [(n & -> & N)|[-> ->]].
  - assert (E : match n with Some n => beqb n (b "Array") | None => false end = false).
    { apply not_true_iff_false. intros Q. destruct n as [n|]; [|discriminate]. apply beqb_eq in Q. now subst. }
    rewrite E, A. cbn [arguments]. now rewrite IH.
  - cbn [negb tu_target tu_readonly]. rewrite A. cbn [arguments]. now rewrite IH.
Qed.

(** ** Brands *)
Lemma object_like_tag x : object_like types x = true <-> tag types x.
Proof. unfold object_like, tag. destruct (i_calls (types x)), (i_constructs (types x)), (i_class (types x)); cbn; intuition congruence. Qed.
Lemma branded_parts_spec l : forall o p, branded_parts types l o p = true <->
  (o = true \/ exists x, In x l /\ tag types x) /\ (p = true \/ exists x, In x l /\ ~ tag types x /\ i_literal (types x) = true) /\
  forall x, In x l -> tag types x \/ i_literal (types x) = true.
Proof.
  induction l as [|x l IH]; intros o p; cbn [branded_parts].
  - rewrite andb_true_iff. split; [intros [-> ->]; split; [now left|]; split; [now left|easy]|]. intros ([->|(x & [] & _)] & [->|(y & [] & _)] & _). auto.
  - pose proof (object_like_tag x) as OT. destruct (object_like types x).
    + rewrite IH. split.
      * intros (A & B & C). split; [right; exists x; split; [now left|now apply OT]|]. split.
        -- destruct B as [B|(y & I & B)]; [now left|right; exists y; split; [now right|exact B]].
        -- intros y [<-|I]; [left; now apply OT|auto].
      * intros (A & B & C). split; [now left|]. split; [|intros y I; apply C; now right].
        destruct B as [B|(y & [<-|I] & N & B)]; [now left|elim N; now apply OT|right; eauto].
    + assert (NT : ~ tag types x) by (intros T; apply OT in T; discriminate). destruct (i_literal (types x)) eqn:L.
      * rewrite IH. split.
        -- intros (A & B & C). split; [destruct A as [A|(y & I & A)]; [now left|right; exists y; split; [now right|exact A]]|]. split.
           ++ right. exists x. split; [now left|]. auto.
           ++ intros y [<-|I]; [now right|auto].
        -- intros (A & B & C). split; [destruct A as [A|(y & [<-|I] & A)]; [now left|contradiction|right; eauto]|]. split; [now left|]. intros y I. apply C. now right.
      * split; [discriminate|]. intros (_ & _ & C). destruct (C x) as [T|Q]; [now left|contradiction|congruence].
Qed.
Lemma branded_spec t : branded types t = true <-> brand types t.
Proof.
  unfold branded, brand. destruct (i_class (types t)) as [l|l| |]; try (split; [discriminate|]; intros (l' & E & _); discriminate).
  rewrite branded_parts_spec. split.
  - intros ([A|A] & [B|B] & C); try discriminate. exists l. auto.
  - intros (l' & [= <-] & A & B & C). auto.
Qed.
Lemma branded_like_spec t : branded_like types t = true <-> brands types t.
Proof.
  unfold branded_like, brands. destruct (i_class (types t)) as [l|l| |] eqn:E; try (rewrite branded_spec; split; [now right|]; intros [(l' & Q & _)|B]; [discriminate|exact B]).
  rewrite forallb_forall. split.
  - intros H. left. exists l. split; [reflexivity|]. intros x I. now apply branded_spec, H.
  - intros [(l' & [= <-] & H)|(l' & Q & _)]; [|congruence]. intros x I. now apply branded_spec, H.
Qed.
End Types.
