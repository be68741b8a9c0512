From Coq Require Import Bool Arith Ascii String List Lia.
From Verif Require Import Base EngineProofs.
From Verif Require Import BuiltinLike BuiltinLikeSpec.
Import ListNotations.

Lemma some_true f l : some_of f l = Some true -> exists t, In t l /\ f t = Some true.
Proof. induction l as [|t l IH]; cbn; [discriminate|]. destruct (f t) as [[]|] eqn:E; try discriminate; intros H; [exists t; auto|]. destruct (IH H) as (u & I & U). eauto. Qed.
Lemma some_false f l : some_of f l = Some false -> forall t, In t l -> f t = Some false.
Proof. induction l as [|t l IH]; cbn; [intros _ ? []|]. destruct (f t) as [[]|] eqn:E; try discriminate; intros H u [<-|I]; auto. Qed.
Lemma every_true f l : every_of f l = Some true -> forall t, In t l -> f t = Some true.
Proof. induction l as [|t l IH]; cbn; [intros _ ? []|]. destruct (f t) as [[]|] eqn:E; try discriminate; intros H u [<-|I]; auto. Qed.
Lemma every_false f l : every_of f l = Some false -> exists t, In t l /\ f t = Some false.
Proof. induction l as [|t l IH]; cbn; [discriminate|]. destruct (f t) as [[]|] eqn:E; try discriminate; intros H; [|exists t; auto]. destruct (IH H) as (u & I & U). eauto. Qed.

Section Proofs.
Context (info : nat -> type_info) (no_lib : bool) (libs : list bstr) (same_path : bstr -> bstr -> bool).
Notation recurse := (recurse info).
Notation lib := (in_library no_lib libs same_path).
Notation from_lib := (from_default_library no_lib libs same_path).

Lemma library s : from_lib s = true <-> lib s.
Proof.
  unfold from_default_library, in_library. rewrite existsb_exists. split; intros (f & I & H); exists f; (split; [auto|]).
  - unfold default_library_file in H. destruct (declaration_file f); [|discriminate]. split; auto. cbn in H. destruct (known_default f); auto. right. destruct no_lib; [discriminate|]. split; auto. apply existsb_exists in H. auto.
  - destruct H as [D H]. unfold default_library_file. rewrite D. cbn. destruct (known_default f); auto. destruct H as [H|[-> H]]; [discriminate|]. apply existsb_exists. auto.
Qed.

(* the general relations of a predicate *)
Inductive pos (p : nat -> option verdict) : nat -> Prop :=
| o_here : forall t, tkind (info t) = Plain -> p t = Some Yes -> pos p t
| o_inter : forall t l u, tkind (info t) = Inter l -> In u l -> pos p u -> pos p t
| o_union : forall t l, tkind (info t) = Union l -> (forall u, In u l -> pos p u) -> pos p t
| o_param : forall t u, tkind (info t) = Param (Some u) -> pos p u -> pos p t
| o_base : forall t s u, tkind (info t) = Plain -> p t = Some Open -> tsymbol (info t) = Some s -> classlike s = true -> In u (bases s) -> pos p u -> pos p t.
Lemma recurse_true p n : forall t, recurse p n t = Some true -> pos p t.
Proof.
  induction n as [|n IH]; intros t; cbn; [discriminate|]. destruct (tkind (info t)) as [l|l|[u|]|] eqn:K.
  - intros H. apply some_true in H as (u & I & U). eapply o_inter; eauto.
  - intros H. eapply o_union; eauto. intros u I. apply IH. eapply every_true; eauto.
  - intros H. eapply o_param; eauto.
  - discriminate.
  - destruct (p t) as [[]|] eqn:P; try discriminate.
    + destruct (tsymbol (info t)) as [s|] eqn:S; [|discriminate]. destruct (classlike s) eqn:C; [|discriminate]. intros H. apply some_true in H as (u & I & U). eapply o_base; eauto.
    + intros _. apply o_here; auto.
Qed.
Lemma recurse_false p t : pos p t -> forall n, recurse p n t <> Some false.
Proof.
  induction 1 as [t K P|t l u K I _ IH|t l K _ IH|t u K _ IH|t s u K P S C I _ IH]; intros [|n] E; cbn in E; try discriminate; rewrite K in E.
  - rewrite P in E. discriminate.
  - apply (IH n). eapply some_false; eauto.
  - apply every_false in E as (u & I & U). eapply IH; eauto.
  - apply (IH n). auto.
  - rewrite P, S, C in E. apply (IH n). eapply some_false; eauto.
Qed.

Lemma some_mono (f g : nat -> option bool) l x : (forall t y, f t = Some y -> g t = Some y) -> some_of f l = Some x -> some_of g l = Some x.
Proof. intros M. induction l as [|t l IH]; cbn; auto. destruct (f t) as [[]|] eqn:E; try discriminate; rewrite (M _ _ E); auto. Qed.
Lemma every_mono (f g : nat -> option bool) l x : (forall t y, f t = Some y -> g t = Some y) -> every_of f l = Some x -> every_of g l = Some x.
Proof. intros M. induction l as [|t l IH]; cbn; auto. destruct (f t) as [[]|] eqn:E; try discriminate; rewrite (M _ _ E); auto. Qed.
Lemma recurse_mono p n : forall m t x, n <= m -> recurse p n t = Some x -> recurse p m t = Some x.
Proof.
  induction n as [|n IH]; intros [|m] t x L; cbn; try discriminate; [lia|].
  assert (M : forall u y, recurse p n u = Some y -> recurse p m u = Some y) by (intros; apply IH; auto; lia).
  destruct (tkind (info t)) as [l|l|[u|]|]; auto; try (apply some_mono || apply every_mono; assumption).
  destruct (p t) as [[]|]; auto. destruct (tsymbol (info t)) as [s|]; auto. destruct (classlike s); auto. apply some_mono. auto.
Qed.
Lemma common p l : (forall u, In u l -> exists n, recurse p n u <> None) -> exists n, forall u, In u l -> recurse p n u <> None.
Proof.
  induction l as [|t l IH]; intros H; [exists 0; intros ? []|].
  destruct IH as [n N]; [intros; apply H; right; auto|]. destruct (H t (or_introl eq_refl)) as [m M]. exists (Nat.max n m).
  intros u [<-|I].
  - destruct (recurse p m t) as [x|] eqn:E; [|congruence]. rewrite (recurse_mono p m _ t x (Nat.le_max_r n m) E). discriminate.
  - specialize (N u I). destruct (recurse p n u) as [x|] eqn:E; [|congruence]. rewrite (recurse_mono p n _ u x (Nat.le_max_l n m) E). discriminate.
Qed.
Lemma some_total f l : (forall u, In u l -> f u <> None) -> some_of f l <> None.
Proof. induction l as [|t l IH]; cbn; [discriminate|]. intros H. pose proof (H t (or_introl eq_refl)). destruct (f t) as [[]|]; try congruence. apply IH. intros. apply H. right. auto. Qed.
Lemma every_total f l : (forall u, In u l -> f u <> None) -> every_of f l <> None.
Proof. induction l as [|t l IH]; cbn; [discriminate|]. intros H. pose proof (H t (or_introl eq_refl)). destruct (f t) as [[]|]; try congruence. apply IH. intros. apply H. right. auto. Qed.
Lemma recurse_total p t : (forall u, p u <> None) -> Acc (next info) t -> exists n, recurse p n t <> None.
Proof.
  intros P A. induction A as [t _ IH]. destruct (tkind (info t)) as [l|l|[u|]|] eqn:K.
  - destruct (common p l) as [n N]; [intros u I; apply IH; eapply n_inter; eauto|]. exists (S n). cbn. rewrite K. apply some_total. auto.
  - destruct (common p l) as [n N]; [intros u I; apply IH; eapply n_union; eauto|]. exists (S n). cbn. rewrite K. apply every_total. auto.
  - destruct (IH u) as [n N]; [apply n_param; auto|]. exists (S n). cbn. rewrite K. auto.
  - exists 1. cbn. rewrite K. discriminate.
  - pose proof (P t) as Q. destruct (tsymbol (info t)) as [s|] eqn:S.
    + destruct (common p (bases s)) as [n N]; [intros u I; apply IH; eapply n_base; eauto|]. exists (Datatypes.S n). cbn. rewrite K.
      destruct (p t) as [[]|]; try congruence. rewrite S. destruct (classlike s); [|discriminate]. apply some_total. auto.
    + exists 1. cbn. rewrite K. destruct (p t) as [[]|]; try congruence. rewrite S. discriminate.
Qed.

Definition test (good : symbol -> bool) (t : nat) : option verdict :=
  match tsymbol (info t) with None => Some No | Some s => if good s && from_lib s then Some Yes else Some Open end.
Lemma pos_like good (Good : symbol -> Prop) : (forall s, good s = true <-> Good s) -> forall t, pos (test good) t <-> like info no_lib libs same_path Good t.
Proof.
  intros G t. split.
  - induction 1 as [t K P|t l u K I _ IH|t l K _ IH|t u K _ IH|t s u K P S C I _ IH].
    + unfold test in P. destruct (tsymbol (info t)) as [s|] eqn:S; [|discriminate]. destruct (good s && from_lib s) eqn:E; [|discriminate]. apply andb_true_iff in E as [E1 E2].
      eapply k_here; eauto; [apply library; auto|apply G; auto].
    + eapply k_inter; eauto.
    + eapply k_union; eauto.
    + eapply k_param; eauto.
    + eapply k_base; eauto.
  - induction 1 as [t s K S L H|t l u K I _ IH|t l K _ IH|t u K _ IH|t s u K S C I _ IH].
    + apply o_here; auto. unfold test. rewrite S. apply library in L. apply G in H. rewrite L, H. auto.
    + eapply o_inter; eauto.
    + eapply o_union; eauto.
    + eapply o_param; eauto.
    + destruct (good s && from_lib s) eqn:E.
      * apply o_here; auto. unfold test. rewrite S, E. auto.
      * eapply o_base; eauto. unfold test. rewrite S, E. auto.
Qed.
Lemma test_total good u : test good u <> None.
Proof. unfold test. destruct (tsymbol (info u)) as [s|]; [|discriminate]. destruct (good s && from_lib s); discriminate. Qed.
Lemma recurse_like good (Good : symbol -> Prop) : (forall s, good s = true <-> Good s) ->
  forall n t x, recurse (test good) n t = Some x -> (x = true <-> like info no_lib libs same_path Good t).
Proof.
  intros G n t x E. rewrite <- (pos_like good Good G). destruct x.
  - split; auto. intros _. eapply recurse_true; eauto.
  - split; [discriminate|]. intros P. destruct (recurse_false _ _ P n). auto.
Qed.
Lemma recurse_ext p q : (forall t, p t = q t) -> forall n t, recurse p n t = recurse q n t.
Proof.
  intros E. assert (S1 : forall f g l, (forall t, f t = g t) -> some_of f l = some_of g l) by (intros f g l H; induction l as [|t l IH]; cbn; auto; rewrite H, IH; auto).
  assert (S2 : forall f g l, (forall t, f t = g t) -> every_of f l = every_of g l) by (intros f g l H; induction l as [|t l IH]; cbn; auto; rewrite H, IH; auto).
  induction n as [|n IH]; intros t; cbn; auto. rewrite E. destruct (tkind (info t)) as [l|l|[u|]|]; auto.
  destruct (q t) as [[]|]; auto. destruct (tsymbol (info t)) as [s|]; auto. destruct (classlike s); auto.
Qed.
Lemma names_test names s : existsb (fun x => beqb (sname s) x) names = true <-> named_one_of names s.
Proof.
  unfold named_one_of. rewrite existsb_exists. split.
  - intros (x & I & H). apply beqb_eq in H. congruence.
  - intros I. exists (sname s). split; auto. apply beqb_refl.
Qed.

(* Readonly of errors *)
Notation rerr := (readonly_error info no_lib libs same_path).
Notation rel := (readonly_error_like info no_lib libs same_path).
Lemma builtin_exact names n t x : builtin_like info no_lib libs same_path names n t = Some x -> (x = true <-> like info no_lib libs same_path (named_one_of names) t).
Proof. apply (recurse_like (fun s => existsb (fun x => beqb (sname s) x) names)). apply names_test. Qed.

Lemma readonly_exact n : forall t x, rel n t = Some x -> (x = true <-> rerr t).
Proof.
  induction n as [|m IH]; intros t x; [discriminate|]. cbn [readonly_error_like].
  set (inner := fun (_ : nat) (a : alias) => if beqb (sname (asymbol a)) (b "Readonly") then match arguments a with [] => None | u :: _ => match builtin_like info no_lib libs same_path [b "Error"] m u with None => None | Some true => Some true | Some false => rel m u end end else Some false).
  assert (Q : forall v a y, inner v a = Some y -> (y = true <-> sname (asymbol a) = b "Readonly" /\ exists u l, arguments a = u :: l /\ (like info no_lib libs same_path (named_one_of [b "Error"]) u \/ rerr u))).
  { intros v a y E. unfold inner in E. destruct (beqb (sname (asymbol a)) (b "Readonly")) eqn:N.
    - apply beqb_eq in N. destruct (arguments a) as [|u l] eqn:A; [discriminate|]. destruct (builtin_like _ _ _ _ _ m u) as [[]|] eqn:B; try discriminate.
      + injection E as <-. split; auto. intros _. split; auto. exists u, l. split; auto. left. apply (builtin_exact _ _ _ _ B). auto.
      + rewrite (IH _ _ E). split.
        * intros R. split; auto. exists u, l. auto.
        * intros (_ & u' & l' & A' & [L|R]); injection A' as <- <-; auto. apply (builtin_exact _ _ _ _ B) in L. discriminate.
    - injection E as <-. split; [discriminate|]. intros (N' & _). rewrite N', beqb_refl in N. discriminate. }
  unfold alias_like. set (p := fun t0 => match talias (info t0) with None => Some No | Some a => _ end). intros E.
  assert (QY : forall v, p v = Some Yes <-> exists a, talias (info v) = Some a /\ arguments a <> [] /\ from_lib (asymbol a) = true /\ inner v a = Some true).
  { intros v. unfold p. split.
    - destruct (talias (info v)) as [a|]; [|discriminate]. destruct (arguments a) as [|u l] eqn:A; [discriminate|]. destruct (from_lib (asymbol a)) eqn:F; [|discriminate].
 destruct (inner v a) as [[]|] eqn:I; try discriminate. intros _. exists a. rewrite A. repeat split; auto; discriminate.
    - intros (a & -> & A & F & I). destruct (arguments a) as [|u l] eqn:AA; [congruence|]. rewrite F. rewrite I. auto. }
  assert (QO : forall v, p v = Some Open -> exists a, talias (info v) = Some a /\ arguments a <> [] /\ (from_lib (asymbol a) = false \/ inner v a = Some false)).
  { intros v. unfold p. destruct (talias (info v)) as [a|]; [|discriminate]. destruct (arguments a) as [|u l] eqn:A; [discriminate|]. destruct (from_lib (asymbol a)) eqn:F.
    - destruct (inner v a) as [[]|] eqn:I; try discriminate. intros _. exists a. rewrite A. repeat split; auto; discriminate.
    - intros _. exists a. rewrite A. repeat split; auto; discriminate. }
  destruct x.
  - split; auto. intros _. apply recurse_true in E. clear - E Q QY QO.
    induction E as [t K P|t l u K I _ IH|t l K _ IH|t u K _ IH|t s u K P S C I _ IH].
    + apply QY in P as (a & T & A & F & I). apply Q in I. destruct (proj1 I eq_refl) as (N & u & l & AA & H). eapply r_here; eauto. apply library; auto.
    + eapply r_inter; eauto.
    + eapply r_union; eauto.
    + eapply r_param; eauto.
    + apply QO in P as (a & T & A & _). eapply r_base; eauto.
  - split; [discriminate|]. intros R. exfalso. revert E. generalize (S m) as k. clear - R Q QY.
    induction R as [t a u l K T A F N H|t l u K I _ IH|t l K _ IH|t u K _ IH|t a s u K T A S C I _ IH]; intros [|k] E; cbn in E; try discriminate; rewrite K in E.
    + assert (P : p t = Some Yes \/ p t = None).
      { unfold p. rewrite T, A. apply library in F. rewrite F.
        destruct (inner t a) as [[]|] eqn:I; auto. apply Q in I. assert (false = true) by (apply I; split; auto; exists u, l; auto). discriminate. }
      destruct P as [P|P]; rewrite P in E; discriminate.
    + apply (IH k). eapply some_false; eauto.
    + apply every_false in E as (u & I & U). eapply IH; eauto.
    + apply (IH k). auto.
    + assert (P : p t <> Some No).
      { unfold p. rewrite T. destruct (arguments a) as [|v l]; [congruence|]. destruct (from_lib (asymbol a)); [|discriminate]. match goal with |- match ?x with _ => _ end <> _ => destruct x as [[]|]; discriminate end. }
      destruct (p t) as [[]|]; try congruence. rewrite S, C in E. apply (IH k). eapply some_false; eauto.
Qed.
End Proofs.
