From Coq Require Import Bool Arith ZArith Ascii String List Lia.
From Verif Require Import Base Types Condition.
From Verif Require Import GuardCalls GuardCallsSpec.
Import ListNotations.
Open Scope Z_scope.

Lemma set_iff t l : is_set t l = true <-> has t l.
Proof.
  unfold is_set, has. rewrite existsb_exists. split; intros [f [I H]]; exists f; (split; [exact I|]).
  - apply existsb_exists in H as [g [G E]]. unfold flag_eqb in E. destruct (flag_eq_dec f g); [subst; exact G|discriminate].
  - apply existsb_exists. exists f. split; [exact H|]. unfold flag_eqb. destruct (flag_eq_dec f f); [reflexivity|contradiction].
Qed.
Lemma set_false t l : is_set t l = false <-> ~ has t l.
Proof. rewrite <- set_iff. destruct (is_set t l); split; intros; congruence. Qed.
Lemma part_iff t p : In p (union_parts t) <-> part t p.
Proof.
  unfold union_parts, part. destruct (is_union t) eqn:U; unfold is_union in U; [apply set_iff in U|apply set_false in U].
  - destruct U as [f [I [<-|[]]]]. split; [left; auto|]. intros [[_ H]|[H _]]; [exact H|contradiction].
  - assert (N : ~ In FUnion (t_flags t)) by (intros X; apply U; exists FUnion; split; [exact X|left; reflexivity]). split; [intros [<-|[]]; right; auto|]. intros [[H _]|[_ ->]]; [contradiction|left; reflexivity].
Qed.
Lemma some_part t l : existsb (fun p => is_set p l) (union_parts t) = true <-> exists p, part t p /\ has p l.
Proof.
  rewrite existsb_exists. split; intros [p [I H]]; exists p.
  - apply part_iff in I. apply set_iff in H. auto.
  - apply part_iff in I. apply set_iff in H. auto.
Qed.

Lemma short_iff x n : truncate x = n <-> short x n.
Proof.
  unfold truncate, short. destruct (120 <? List.length x)%nat eqn:A; [apply Nat.ltb_lt in A|apply Nat.ltb_ge in A].
  - split; [intros <-; right; auto|]. intros [[H _]|[_ ->]]; [lia|reflexivity].
  - split; [intros <-; left; auto|]. intros [[_ ->]|[H _]]; [reflexivity|lia].
Qed.
Lemma short_nil x n : short x n -> (n = [] <-> x = []).
Proof.
  intros [[_ ->]|[H ->]]; [reflexivity|]. split; intros E; [|subst x; cbn in H; lia]. apply app_eq_nil in E as [_ E]. discriminate.
Qed.
Lemma words_iff show v g x : text (b "Type ") ++ named show v ++ text (b " already satisfies predicate type ") ++ named show g = x <-> guard_words show v g x.
Proof.
  unfold guard_words, named. split.
  - intros <-. exists (truncate (show v)), (truncate (show g)). rewrite <- !short_iff. auto.
  - intros [a [c [A [C ->]]]]. apply short_iff in A, C. rewrite A, C. reflexivity.
Qed.
Lemma said_iff show n v g r : r = guard_report show n v g <-> guard_said show r n v g.
Proof.
  unfold guard_said. split.
  - intros ->. unfold guard_report. cbn [id message at_ label]. repeat (split; [reflexivity|]). eexists. split; [reflexivity|]. apply words_iff. reflexivity.
  - intros [A [B [C [x [D E]]]]]. apply words_iff in E. destruct r as [r1 r2 r3 r4]. cbn [id message at_ label] in *. subst. reflexivity.
Qed.

Lemma checkable_nth l i n : nth_error (checkable l) i = Some n <-> exists before after, l = map Arg before ++ Arg n :: after /\ List.length before = i.
Proof.
  revert i. induction l as [|[m|m] l IH]; intros i; cbn [checkable].
  - destruct i; (split; [discriminate|]); intros [[|x bf] [af [E _]]]; discriminate.
  - destruct i as [|i]; cbn [nth_error].
    + split; [intros E; injection E as ->; exists [], l; auto|]. intros [[|x bf] [af [E L]]]; [injection E as -> _; reflexivity|discriminate].
    + rewrite IH. split.
      * intros [bf [af [-> L]]]. exists (m :: bf), af. split; [reflexivity|cbn; congruence].
      * intros [[|x bf] [af [E L]]]; [discriminate|]. injection E as <- E. exists bf, af. split; [exact E|cbn in L; congruence].
  - destruct i; (split; [discriminate|]); intros [[|x bf] [af [E _]]]; discriminate.
Qed.
Lemma plain_iff l i n : (0 <= i /\ nth_error (checkable l) (Z.to_nat i) = Some n) <-> plain_argument l i n.
Proof.
  unfold plain_argument. rewrite checkable_nth. split.
  - intros [P [bf [af [E L]]]]. exists bf, af. split; [exact E|lia].
  - intros [bf [af [E <-]]]. split; [lia|]. exists bf, af. rewrite Nat2Z.id. auto.
Qed.
Lemma plain_fun l i n m : plain_argument l i n -> plain_argument l i m -> n = m.
Proof. rewrite <- !plain_iff. intros [_ A] [_ C]. congruence. Qed.

Section Calls.
Context (constrained : nat -> option ty) (show : ty -> list Z) (check_node : nat -> list report).
Lemma same_iff a p v g : same a p = Some (v, g) <-> a = Some v /\ p = Some g /\ t_id v = t_id g.
Proof.
  unfold same. destruct a as [a|]; destruct p as [p|]; try (split; [discriminate|intros [H [K _]]; discriminate]). destruct (t_id a =? t_id p) eqn:E.
  - apply Z.eqb_eq in E. split; [intros X; injection X as <- <-; auto|]. intros [X [Y _]]. congruence.
  - apply Z.eqb_neq in E. split; [discriminate|]. intros [X [Y Z]]. injection X as ->. injection Y as ->. contradiction.
Qed.
Definition at_argument (n : nat) (p : predicate) : list report :=
  let compared := match same (constrained n) (ptype p) with Some (a, g) => [guard_report show n a g] | None => [] end in
  match pkind p with Asserts_identifier => match ptype p with None => check_node n | Some _ => compared end | Identifier_is => compared | _ => [] end.
Lemma call_at args p n : plain_argument args (pindex p) n -> check_guard_call constrained show check_node true args (Some p) = at_argument n p.
Proof.
  intros H. apply plain_iff in H as [P H]. unfold check_guard_call. cbn [negb]. destruct (checkable args) as [|m l] eqn:E; [destruct (Z.to_nat (pindex p)); discriminate|]. rewrite <- E in *.
  assert (L : (Z.to_nat (pindex p) < List.length (checkable args))%nat) by (apply nth_error_Some; congruence).
  destruct (pindex p <? 0) eqn:A; [apply Z.ltb_lt in A; lia|]. destruct (Z.of_nat (List.length (checkable args)) <=? pindex p) eqn:B; [apply Z.leb_le in B; lia|]. cbn [orb]. rewrite H. reflexivity.
Qed.
Lemma call_elsewhere on args s : (on = false \/ s = None \/ exists p, s = Some p /\ forall n, ~ plain_argument args (pindex p) n) -> check_guard_call constrained show check_node on args s = [].
Proof.
  unfold check_guard_call. intros H. destruct on; cbn [negb]; [|reflexivity]. destruct H as [H|[->|[p [-> H]]]]; [discriminate|destruct (checkable args); reflexivity|].
  destruct (checkable args) as [|m l] eqn:E; [reflexivity|]. rewrite <- E. destruct (pindex p <? 0) eqn:A; [reflexivity|]. cbn [orb]. apply Z.ltb_ge in A. destruct (Z.of_nat (List.length (checkable args)) <=? pindex p); [reflexivity|]. destruct (nth_error (checkable args) (Z.to_nat (pindex p))) as [n|] eqn:N; [|reflexivity]. destruct (H n). apply plain_iff. auto.
Qed.
End Calls.

Section Callbacks.
Context (assignable : ty -> ty -> bool) (constraint : ty -> option ty) (show : ty -> list Z) (explanatory : nat -> bool).
Lemma nth_split_iff (A : Type) (l : list A) i x : (0 <= i /\ i < Z.of_nat (List.length l) /\ nth_error l (Z.to_nat i) = Some x) <-> exists before after, l = before ++ x :: after /\ i = Z.of_nat (List.length before).
Proof.
  split.
  - intros [P [_ N]]. apply nth_error_split in N as [bf [af [-> L]]]. exists bf, af. split; [reflexivity|lia].
  - intros [bf [af [-> ->]]]. rewrite app_length. cbn [List.length]. repeat split; try lia. rewrite Nat2Z.id, nth_error_app2 by lia. rewrite Nat.sub_diag. reflexivity.
Qed.
Lemma unnecessary_iff f s r : unnecessary assignable show f true s = Some r <-> exists x g, needless assignable s x g /\ guard_said show r (match declared x with Some n => n | None => node f end) (type_of x) g.
Proof.
  unfold unnecessary, needless. split.
  - destruct (guard s) as [p|] eqn:G; [|discriminate]. cbn [andb]. destruct ((0 <=? pindex p) && (pindex p <? Z.of_nat (List.length (params s)))) eqn:B; [|discriminate]. apply andb_true_iff in B as [B1 B2]. apply Z.leb_le in B1. apply Z.ltb_lt in B2.
    destruct (nth_error (params s) (Z.to_nat (pindex p))) as [x|] eqn:N; [|discriminate]. destruct (ptype p) as [g|] eqn:T; [|discriminate].
    assert (S : exists before after, params s = before ++ x :: after /\ pindex p = Z.of_nat (List.length before)) by (apply nth_split_iff; auto). destruct S as [bf [af [S1 S2]]].
    intros H. exists x, g. destruct (pkind p) eqn:K; try discriminate; destruct (assignable (type_of x) g) eqn:A; try discriminate; injection H as <-; (split; [exists p, bf, af; auto 10|apply said_iff; reflexivity]).
  - intros [x [g [[p [bf [af [G [S1 [S2 [T [K A]]]]]]]] R]]]. rewrite G. assert (S : 0 <= pindex p /\ pindex p < Z.of_nat (List.length (params s)) /\ nth_error (params s) (Z.to_nat (pindex p)) = Some x) by (apply nth_split_iff; eauto). destruct S as [P1 [P2 P3]].
    apply Z.leb_le in P1. apply Z.ltb_lt in P2. rewrite P1, P2. cbn [andb]. rewrite P3, T, A. apply said_iff in R. subst r. destruct K as [-> | ->]; reflexivity.
Qed.
Lemma unnecessary_off f s : unnecessary assignable show f false s = None.
Proof. unfold unnecessary. destruct (guard s); reflexivity. Qed.
Lemma result_iff s t : result constraint s = t <-> gives constraint s t.
Proof.
  unfold result, gives. destruct (is_set (returned s) [FTypeParameter]) eqn:S; [apply set_iff in S|apply set_false in S].
  - destruct (constraint (returned s)) as [k|]; split.
    + intros <-. left. auto.
    + intros [[_ E]|[[H|H] _]]; [congruence|contradiction|discriminate].
    + intros <-. right. auto.
    + intros [[_ E]|[_ ->]]; [discriminate|reflexivity].
  - split; [intros <-; right; auto|]. intros [[H _]|[_ ->]]; [contradiction|reflexivity].
Qed.
Lemma place_iff f n : (if literal f then match body f with Some m => m | None => node f end else node f) = n <-> place f n.
Proof.
  unfold place. destruct (literal f).
  - destruct (body f) as [m|]; split.
    + intros <-. left. auto.
    + intros [[_ E]|[[H|H] _]]; [congruence|discriminate|discriminate].
    + intros <-. right. auto.
    + intros [[_ E]|[_ ->]]; [discriminate|reflexivity].
  - split; [intros <-; right; auto|]. intros [[H _]|[_ ->]]; [discriminate|reflexivity].
Qed.
Lemma return_iff f (truthy : bool) i m t r : words f truthy i m ->
  (r = return_report show explanatory i m (if literal f then match body f with Some k => k | None => node f end else node f) t <-> return_said show explanatory f truthy t r).
Proof.
  intros W. remember (if literal f then match body f with Some k => k | None => node f end else node f) as n eqn:N. symmetry in N. apply place_iff in N. unfold return_said, return_report. cbv zeta. split.
  - intros ->. exists n. cbn [at_ id message label]. split; [exact N|]. split; [reflexivity|]. split; [exact W|]. destruct (explanatory n) eqn:E; [left; auto|]. pose proof (proj1 (short_iff (show t) (named show t)) eq_refl) as S. pose proof (short_nil _ _ S) as Q. destruct (named show t) as [|z l] eqn:D.
    + left. split; [reflexivity|right]. apply Q. reflexivity.
    + right. split; [reflexivity|]. split; [intros X; apply Q in X; discriminate|]. exists (z :: l). auto.
  - intros [n' [N' [A [W' L]]]]. assert (n' = n) by (apply place_iff in N, N'; congruence). subst n'. destruct r as [r1 r2 r3 r4]. cbn [at_ id message label] in *. subst r3.
    assert (r1 = i /\ r2 = m) as [-> ->] by (unfold words in W, W'; destruct (literal f); destruct truthy; destruct W as [-> ->]; destruct W' as [-> ->]; auto). f_equal.
    destruct L as [[-> [->|L]]|[-> [NE [x [S ->]]]]]; [reflexivity| |].
    + unfold named. rewrite L. destruct (explanatory n); reflexivity.
    + pose proof (short_nil _ _ S) as Q. apply short_iff in S. unfold named. rewrite S. destruct x as [|z l]; [destruct NE; apply Q; reflexivity|reflexivity].
Qed.
Lemma returns_iff f s r : In r (returns constraint show explanatory f s) <->
  exists t, gives constraint s t /\ ((fst (check_type t) = true /\ return_said show explanatory f true t r) \/ (check_type t = (false, true) /\ return_said show explanatory f false t r)).
Proof.
  unfold returns. cbv zeta. remember (result constraint s) as t eqn:T. symmetry in T. apply result_iff in T.
  assert (U : forall u, gives constraint s u -> u = t) by (intros u H; apply result_iff in H, T; congruence).
  destruct (check_type t) as [tr fa] eqn:C. split.
  - intros H. exists t. split; [exact T|]. rewrite C. cbn [fst]. destruct tr; [left; split; [reflexivity|]|destruct fa; [right; split; [reflexivity|]|destruct H]].
    + destruct H as [<-|[]]. destruct (literal f) eqn:L; eapply return_iff; try (unfold words; rewrite L; split; reflexivity); rewrite L; reflexivity.
    + destruct H as [<-|[]]. destruct (literal f) eqn:L; eapply return_iff; try (unfold words; rewrite L; split; reflexivity); rewrite L; reflexivity.
  - intros [u [G H]]. apply U in G. subst u. rewrite C in H. cbn [fst] in H. destruct H as [[-> H]|[E H]].
    + left. destruct (literal f) eqn:L.
      * eapply return_iff in H; [|unfold words; rewrite L; split; reflexivity]. rewrite L in H. symmetry. exact H.
      * eapply return_iff in H; [|unfold words; rewrite L; split; reflexivity]. rewrite L in H. symmetry. exact H.
    + injection E as -> ->. left. destruct (literal f) eqn:L.
      * eapply return_iff in H; [|unfold words; rewrite L; split; reflexivity]. rewrite L in H. symmetry. exact H.
      * eapply return_iff in H; [|unfold words; rewrite L; split; reflexivity]. rewrite L in H. symmetry. exact H.
Qed.
Lemma returns_one f s : (List.length (returns constraint show explanatory f s) <= 1)%nat.
Proof. unfold returns. cbv zeta. destruct (check_type (result constraint s)) as [[] []]; cbn [List.length]; lia. Qed.
Lemma callback_none f on l : (forall s, In s l -> unnecessary assignable show f on s = None) -> check_callback assignable constraint show explanatory f on l = flat_map (returns constraint show explanatory f) l.
Proof.
  induction l as [|s l IH]; intros H; [reflexivity|]. cbn [check_callback flat_map]. rewrite (H s (or_introl eq_refl)), IH; [reflexivity|]. intros x I. apply H. right. exact I.
Qed.
Lemma callback_first f on before s after r : (forall x, In x before -> unnecessary assignable show f on x = None) -> unnecessary assignable show f on s = Some r ->
  check_callback assignable constraint show explanatory f on (before ++ s :: after) = flat_map (returns constraint show explanatory f) before ++ [r].
Proof.
  intros H R. induction before as [|x bf IH]; cbn [app check_callback flat_map]; [rewrite R; reflexivity|]. rewrite (H x (or_introl eq_refl)), IH; [rewrite app_assoc; reflexivity|]. intros y I. apply H. right. exact I.
Qed.
Lemma callback_split f on l : (forall s, In s l -> unnecessary assignable show f on s = None) \/ exists before s after r, l = before ++ s :: after /\ (forall x, In x before -> unnecessary assignable show f on x = None) /\ unnecessary assignable show f on s = Some r.
Proof.
  induction l as [|s l IH]; [left; intros s []|]. destruct (unnecessary assignable show f on s) as [r|] eqn:R; [right; exists [], s, l, r; repeat split; auto; intros x []|].
  destruct IH as [H|[bf [x [af [r [-> [H X]]]]]]]; [left; intros y [<-|I]; auto|]. right. exists (s :: bf), x, af, r. repeat split; auto. intros y [<-|I]; auto.
Qed.
End Callbacks.

Section Resolve.
Context (access : ty -> option (ty * ty)) (base : ty -> option ty) (property : ty -> list Z -> option ty) (strings numbers : ty -> option ty).
Lemma bounded_iff t u : constrained base t = u <-> bounded base t u.
Proof. unfold constrained, bounded. destruct (base t) as [k|]; split; [intros ->; left; reflexivity|intros [E|[E _]]; congruence|intros <-; right; auto|intros [E|[_ ->]]; [discriminate|reflexivity]]. Qed.
Lemma no_part (f : ty -> option ty) o i l : (if existsb (fun p => is_set p l) (union_parts i) then f o else None) = None <-> forall q, part i q -> has q l -> f o = None.
Proof.
  destruct (existsb (fun p => is_set p l) (union_parts i)) eqn:E.
  - apply some_part in E as [p [P H]]. split; [auto|]. intros X. exact (X p P H).
  - split; [|reflexivity]. intros _ q P H. assert (X : existsb (fun p => is_set p l) (union_parts i) = true) by (apply some_part; eauto). congruence.
Qed.
Lemma a_part (f : ty -> option ty) o i l u : (if existsb (fun p => is_set p l) (union_parts i) then f o else None) = Some u <-> exists p, part i p /\ has p l /\ f o = Some u.
Proof.
  destruct (existsb (fun p => is_set p l) (union_parts i)) eqn:E.
  - apply some_part in E as [p [P H]]. split; [eauto|]. intros [q [_ [_ X]]]. exact X.
  - split; [discriminate|]. intros [q [P [H _]]]. assert (X : existsb (fun p => is_set p l) (union_parts i) = true) by (apply some_part; eauto). congruence.
Qed.
Lemma property_none o i : (if is_set i [FStringLiteral; FNumberLiteral] then property o (t_text i) else None) = None <-> (has i [FStringLiteral; FNumberLiteral] -> property o (t_text i) = None).
Proof. destruct (is_set i [FStringLiteral; FNumberLiteral]) eqn:S; [apply set_iff in S|apply set_false in S]; split; auto; intros; contradiction. Qed.
Lemma reads_iff t o i u :
  match (if is_set i [FStringLiteral; FNumberLiteral] then property o (t_text i) else None) with
  | Some u => u
  | None => match (if existsb (fun p => is_set p StringLike) (union_parts i) then strings o else None) with
            | Some u => u
            | None => match (if existsb (fun p => is_set p NumberLike) (union_parts i) then numbers o else None) with Some u => u | None => t end
            end
  end = u <-> reads property strings numbers t o i u.
Proof.
  destruct (if is_set i [FStringLiteral; FNumberLiteral] then property o (t_text i) else None) as [x|] eqn:P.
  - destruct (is_set i [FStringLiteral; FNumberLiteral]) eqn:S; [|discriminate]. apply set_iff in S. split; [intros <-; apply re_property; assumption|]. intros H. inversion H; subst; try congruence;
      match goal with X : has i _ -> _ = None |- _ => rewrite (X S) in P; discriminate end.
  - rewrite property_none in P. destruct (if existsb (fun p => is_set p StringLike) (union_parts i) then strings o else None) as [x|] eqn:Q.
    + apply a_part in Q as [p [P1 [P2 P3]]]. split; [intros <-; eapply re_string; eassumption|]. intros H. inversion H as [? ? ? ? S X|? ? ? ? ? ? ? ? X|? ? ? ? ? ? X|? ? ? ? X]; subst; [rewrite (P S) in X; discriminate|congruence|rewrite (X p P1 P2) in P3; discriminate|rewrite (X p P1 P2) in P3; discriminate].
    + rewrite no_part in Q. destruct (if existsb (fun p => is_set p NumberLike) (union_parts i) then numbers o else None) as [x|] eqn:R.
      * apply a_part in R as [p [P1 [P2 P3]]]. split; [intros <-; eapply re_number; eassumption|]. intros H. inversion H as [? ? ? ? S X|? ? ? ? ? ? Y1 Y2 X|? ? ? ? ? ? ? ? ? X|? ? ? ? ? X]; subst; [rewrite (P S) in X; discriminate|rewrite (Q _ Y1 Y2) in X; discriminate|congruence|rewrite (X p P1 P2) in P3; discriminate].
      * rewrite no_part in R. split; [intros <-; apply re_nothing; assumption|]. intros H. inversion H as [? ? ? ? S X|? ? ? ? ? ? Y1 Y2 X|? ? ? ? ? ? ? Y1 Y2 X|]; subst; [rewrite (P S) in X; discriminate|rewrite (Q _ Y1 Y2) in X; discriminate|rewrite (R _ Y1 Y2) in X; discriminate|reflexivity].
Qed.
Lemma resolve_iff t u : resolve access base property strings numbers t = u <-> stands access base property strings numbers t u.
Proof.
  unfold resolve. destruct (is_set t [FIndexedAccess]) eqn:S; cbn [negb]; [apply set_iff in S|apply set_false in S].
  - destruct (access t) as [[o i]|] eqn:A.
    + cbv zeta. rewrite reads_iff. split.
      * intros R. eapply st_access; [exact S|exact A|apply bounded_iff; reflexivity|apply bounded_iff; reflexivity|exact R].
      * intros H. inversion H as [|t' S' A'|t' o' i' o1 i1 u' S' A' B1 B2 R]; subst; [contradiction|congruence|]. rewrite A in A'. injection A' as <- <-. apply bounded_iff in B1, B2. subst. exact R.
    + split; [intros <-; apply st_unknown; assumption|]. intros H. inversion H; subst; congruence.
  - split; [intros <-; apply st_plain; assumption|]. intros H. inversion H; subst; try contradiction. reflexivity.
Qed.
End Resolve.
