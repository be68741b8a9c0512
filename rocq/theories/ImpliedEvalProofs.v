From Coq Require Import Bool Arith Ascii String List Lia.
From Verif Require Import Base EngineProofs.
From Verif Require Import ImpliedEval ImpliedEvalSpec.
Import ListNotations.

Lemma contains_iff l x : contains l x = true <-> In x l.
Proof. unfold contains. rewrite existsb_exists. split; [intros (y & H & E); apply beqb_eq in E; subst; auto|intros H; exists x; split; auto; apply beqb_refl]. Qed.
Lemma global_iff o : global_object o = true <-> exists j g, o = Ident j g /\ In g [b "global"; b "globalThis"; b "window"].
Proof.
  destruct o; cbn [global_object]; try (split; [discriminate|intros (? & ? & E & _); discriminate]).
  rewrite contains_iff. unfold global_candidates. split; [eauto|]. intros (? & ? & [= <- <-] & H). exact H.
Qed.
Lemma name_iff e n : n <> [] -> (callee_name e = n <-> means e n).
Proof.
  intros N. split.
  - intros E. destruct e as [i x|i o x|i o a| | | | | ]; cbn [callee_name] in E; try congruence.
    + subst. apply m_name.
    + destruct x as [x|]; [|congruence]. destruct (global_object o) eqn:G; [|congruence]. subst. apply global_iff in G as (j & g & -> & G). apply m_member; auto.
    + destruct a as [| | |k x| | | | ]; try congruence. destruct (global_object o) eqn:G; [|congruence]. subst. apply global_iff in G as (j & g & -> & G). apply m_quoted; auto.
  - intros [i x|i j g x G|i j k g x G]; cbn [callee_name]; auto; rewrite (proj2 (global_iff (Ident j g))); auto; exists j, g; auto.
Qed.
Lemma bind_iff e : is_bind e = true <-> binds e.
Proof.
  split.
  - destruct e as [i x|i o x| | | | | | ]; cbn [is_bind]; try discriminate.
    + intros E. apply beqb_eq in E. subst. apply b_name.
    + destruct x as [x|]; [|discriminate]. intros E. apply beqb_eq in E. subst. apply b_member.
  - intros []; cbn [is_bind]; apply beqb_refl.
Qed.
Section S.
Context (type_of : nat -> type_info) (symbol_of : nat -> option (list bool)).
Lemma type_iff e : function_type type_of e = true <-> callable (type_of (number e)).
Proof.
  unfold function_type, callable. cbv zeta. destruct (type_of (number e)) as [s f c n]. cbn [tsymbol function_like signatures].
  destruct s as [[]|]; destruct f; try (split; auto; fail).
  all: destruct n; cbn [Nat.ltb Nat.leb]; split; auto; try discriminate; intros [H|[H|H]]; try discriminate; congruence.
Qed.
Lemma function_iff e : is_function type_of e = true <-> gives_function type_of e.
Proof.
  split.
  - destruct e; cbn [is_function]; intros H; try discriminate; try (apply g_typed; [congruence|congruence|apply type_iff; exact H]).
    + apply g_written.
    + apply orb_true_iff in H as [H|H]; [apply bind_iff in H; apply g_bound; auto|]. apply type_iff in H. apply g_typed; [congruence|congruence|exact H].
  - intros [i|i c a H|x A B C]; cbn [is_function]; auto.
    + apply bind_iff in H. rewrite H. auto.
    + apply type_iff in C. destruct x; cbn [is_function]; auto; try congruence. rewrite C. apply orb_true_r.
Qed.
Lemma here_iff s : (exists ds, s = Some ds /\ existsb (fun here : bool => here) ds = true) <-> declared_here s.
Proof.
  unfold declared_here. split; intros (ds & -> & H); exists ds; split; auto.
  - apply existsb_exists in H as (x & I & ->). auto.
  - apply existsb_exists. eauto.
Qed.
Lemma runs_not_empty n : runs_code n -> n <> [] /\ n <> b "Function".
Proof. intros [<-|[<-|[<-|[<-|[]]]]]; split; discriminate. Qed.
Lemma handler_iff c a h : In (Implied_eval h) (check_handler type_of symbol_of c a) <->
  (exists n l, means c n /\ runs_code n /\ a = h :: l /\ ~ gives_function type_of h /\ ~ declared_here (symbol_of (number c))).
Proof.
  unfold check_handler. destruct a as [|x l]; [split; [intros []|intros (? & ? & _ & _ & E & _); discriminate]|].
  split.
  - intros H. destruct (contains eval_like (callee_name c) && negb (is_function type_of x)) eqn:E; [|destruct H].
    apply andb_true_iff in E as [E F]. apply contains_iff in E. assert (R : runs_code (callee_name c)) by exact E.
    exists (callee_name c), l. assert (M : means c (callee_name c)) by (apply name_iff; auto; apply (runs_not_empty _ R)).
    assert (G : ~ gives_function type_of x) by (rewrite <- function_iff; destruct (is_function type_of x); auto; discriminate).
    assert (h = x /\ ~ declared_here (symbol_of (number c))) as (-> & D); auto.
    rewrite <- here_iff. destruct (symbol_of (number c)) as [ds|].
    + destruct (existsb (fun here => here) ds) eqn:X; [destruct H|]. destruct H as [[= <-]|[]]. split; auto. intros (d & [= <-] & Y). congruence.
    + destruct H as [[= <-]|[]]. split; auto. intros (d & Y & _). discriminate.
  - intros (n & m & M & R & [= -> <-] & G & D). apply name_iff in M; [|apply (runs_not_empty _ R)]. rewrite M. rewrite (proj2 (contains_iff eval_like n)) by exact R.
    rewrite <- function_iff in G. destruct (is_function type_of h); [congruence|]. cbn [negb andb]. rewrite <- here_iff in D.
    destruct (symbol_of (number c)) as [ds|]; [|left; auto]. destruct (existsb (fun here => here) ds) eqn:X; [|left; auto]. destruct D. eauto.
Qed.
Lemma handler_no_constructor c a : ~ In Function_constructor (check_handler type_of symbol_of c a).
Proof.
  unfold check_handler. destruct a as [|x l]; [intros []|]. destruct (_ && _); [|intros []]. destruct (symbol_of (number c)) as [ds|]; [destruct (existsb _ ds)|]; intros H; try destruct H as [H|H]; try discriminate; destruct H.
Qed.
Lemma handler_one c a : List.length (check_handler type_of symbol_of c a) <= 1.
Proof.
  unfold check_handler. destruct a as [|x l]; [cbn; lia|]. destruct (_ && _); [|cbn; lia]. destruct (symbol_of (number c)) as [ds|]; [destruct (existsb _ ds)|]; cbn; lia.
Qed.
Lemma handler_of_function c a : callee_name c = b "Function" -> check_handler type_of symbol_of c a = [].
Proof. intros E. unfold check_handler. destruct a; auto. rewrite E. reflexivity. Qed.
End S.
