(** C87: no-unsafe-member-access reports where an unsafe chain of accesses begins, once, whatever the order in which the nodes are met. *)
From Coq Require Import Bool Arith List Lia.
Import ListNotations.
From Verif Require Import MemberAccess MemberAccessSpec MemberAccessProofs.

(** No access is reported twice, though it is looked at once for each access around it. *)
Theorem C87_once : forall allow nit any cany file, numbered file -> NoDup (props (run allow nit any cany file)).
Proof. intros. apply (run_good allow nit any cany file). auto. Qed.
Print Assumptions C87_once.

(** Exactly the accesses outside heritage clauses are reported where an unsafe chain begins: the object is of type any, and is no unsafe access itself. *)
Theorem C87_where : forall allow nit any cany file, numbered file -> forall i,
  (exists t, In (Property i t) (run allow nit any cany file))
  <-> exists n, inside false file false n /\ access_id n i /\ origin allow any n.
Proof. intros. apply (run_good allow nit any cany file). auto. Qed.
Print Assumptions C87_where.

(** The message speaks of this exactly if the compiler lets this be any implicitly, and the access begins with a this of type any. *)
Theorem C87_this : forall allow nit any cany file, numbered file -> forall i t, In (Property i t) (run allow nit any cany file) ->
  exists n, inside false file false n /\ access_id n i /\ (t = true <-> nit = false /\ exists k, begins n k /\ cany k = true).
Proof.
  intros allow nit any cany file N i t H.
  destruct (proj1 (proj2 (proj2 (run_good allow nit any cany file N))) i t H) as (n & I & A & ->). exists n. split; auto. split; auto.
  unfold about_this. rewrite andb_true_iff, negb_true_iff. split.
  - intros [E X]. split; auto. destruct (this_expression n) as [k|] eqn:T; [|discriminate]. exists k. split; auto. apply this_begins. auto.
  - intros [E (k & B & K)]. split; auto. apply this_begins in B. rewrite B. auto.
Qed.
Print Assumptions C87_this.

(** Exactly the indexes of type any are reported, except literals, ++ and --, and those left out by the option. *)
Theorem C87_index : forall allow nit any cany file, numbered file -> forall j,
  In (Index j) (run allow nit any cany file)
  <-> exists h i opt o x, inside false file h (Access i opt o (Some x)) /\ j = id_of x /\ bad_index allow any opt x.
Proof. intros. apply (run_good allow nit any cany file). auto. Qed.
Print Assumptions C87_index.

(** If anything in a chain of accesses without heritage clauses is of type any, there is a report at or below its outermost access. *)
Theorem C87_never_missed : forall allow nit any cany file, numbered file -> forall n,
  inside false file false n -> unsafe allow any n ->
  exists i t m, In (Property i t) (run allow nit any cany file) /\ inside false n false m /\ access_id m i.
Proof.
  intros allow nit any cany file N n I U.
  assert (D : exists m, inside false n false m /\ origin allow any m).
  { clear I. induction U as [i opt o x P A|i opt o x P U IH].
    - assert (X : unsafe allow any o \/ ~ unsafe allow any o).
      { clear. induction o as [i opt o IH|i opt o x IH _|i l _|i|i n _|i|i n _|i n l _ _|i l _] using node_full;
          try (right; inversion 1; fail);
          (destruct (passed_dec allow opt) as [Q|Q]; [right; inversion 1; tauto|];
           destruct IH as [IH|IH]; [left; apply u_inner; auto|]; destruct (any (id_of o)) eqn:E; [left; apply u_any; auto|right; intros Y; inversion Y; subst; congruence || tauto]). }
      destruct X as [X|X]; [|exists (Access i opt o x); split; [constructor|cbn; auto]].
      (* the chain below *)
      clear P A. assert (Y : exists m, inside false o false m /\ origin allow any m).
      { revert X. induction o as [j opt' o IH|j opt' o y IH _|j l _|j|j n _|j|j n _|j n l _ _|j l _] using node_full; intros X; try (inversion X; fail).
        all: assert (Z : unsafe allow any o \/ ~ unsafe allow any o)
          by (clear; induction o as [i opt o IH|i opt o x IH _|i l _|i|i n _|i|i n _|i n l _ _|i l _] using node_full;
          try (right; inversion 1; fail);
          (destruct (passed_dec allow opt) as [Q|Q]; [right; inversion 1; tauto|];
           destruct IH as [IH|IH]; [left; apply u_inner; auto|]; destruct (any (id_of o)) eqn:E; [left; apply u_any; auto|right; intros Y; inversion Y; subst; congruence || tauto])).
        all: destruct Z as [Z|Z]; [destruct (IH Z) as (m & M & O); exists m; split; auto; econstructor; [apply c_object|auto]|].
        all: eexists; split; [constructor|]; cbn; inversion X; subst; tauto. }
      destruct Y as (m & M & O). exists m. split; auto. econstructor; [apply c_object|auto].
    - destruct IH as (m & M & O). exists m. split; auto. econstructor; [apply c_object|auto]. }
  destruct D as (m & M & O).
  assert (A : exists i, access_id m i) by (destruct m; cbn in O; try tauto; unfold access_id; eauto). destruct A as [i A].
  destruct (proj2 (C87_where allow nit any cany file N i)) as [t T].
  - exists m. split; [eapply inside_trans; eauto|auto].
  - exists i, t, m. auto.
Qed.
Print Assumptions C87_never_missed.

(** A chain is not always reported once: the accesses inside of parentheses are looked at by themselves.  (a.b).c *)
Theorem C87_one_report_for_a_chain_refuted : exists any file, numbered file /\
  file = Access 0 false (Paren 1 (Access 2 false (Other 3 []) None)) None
  /\ run false true any any file = [Property 0 false; Property 2 false].
Proof.
  exists (fun _ => true), (Access 0 false (Paren 1 (Access 2 false (Other 3 []) None)) None). split; [|split; reflexivity].
  intros h1 n1 h2 n2 I1 I2. 
  assert (L : forall h n, inside false (Access 0 false (Paren 1 (Access 2 false (Other 3 []) None)) None) h n -> h = false /\
     (n = Access 0 false (Paren 1 (Access 2 false (Other 3 []) None)) None \/ n = Paren 1 (Access 2 false (Other 3 []) None) \/ n = Access 2 false (Other 3 []) None \/ n = Other 3 [])).
  { intros h n I. repeat (apply inside_inv in I; destruct I as [[-> ->]|(? & ? & I0 & I)]; [tauto|inversion I0; subst; clear I0]). cbn in *. tauto. }
  apply L in I1. apply L in I2. destruct I1 as [-> I1], I2 as [-> I2]. intuition subst; cbn in *; try discriminate; auto.
Qed.
Print Assumptions C87_one_report_for_a_chain_refuted.

(** The index of an access in a heritage clause is reported although the access is not. *)
Theorem C87_heritage_quiet_refuted : exists any file,
  file = Heritage 0 [Access 1 false (Other 2 []) (Some (Other 3 []))] /\ run false true any any file = [Index 3].
Proof. exists (fun _ => true), (Heritage 0 [Access 1 false (Other 2 []) (Some (Other 3 []))]). split; reflexivity. Qed.
Print Assumptions C87_heritage_quiet_refuted.

(* this.a.b[i].c with this and everything after it of type any; the state of each access is found once *)
Definition ex_file : node := Other 9 [Access 0 false (Access 1 false (Access 2 false (Access 3 false (This 4) None) None) (Some (Other 5 []))) None; Access 6 true (Other 7 []) None].
Example C87_run : run false false (fun _ => true) (fun _ => true) ex_file = [Property 3 true; Index 5; Property 6 false].
Proof. reflexivity. Qed.
Example C87_run_allowed : run true true (fun _ => true) (fun _ => true) ex_file = [Property 3 false; Index 5].
Proof. reflexivity. Qed.
(* a?.b.c with the option: what comes after is looked at by itself *)
Example C87_chained : run true true (fun _ => true) (fun _ => true) (Access 0 false (Access 1 true (Other 2 []) None) None) = [Property 0 false].
Proof. reflexivity. Qed.
