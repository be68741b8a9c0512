(** Proofs about no-confusing-void-expression. *)
From Coq Require Import Bool List Arith Lia.
From Verif Require Import VoidExpr VoidExprSpec.
Import ListNotations.

(** * Reports *)
Definition matches (opts : options) (fr : list frame) (u : use) : Prop :=
  match u with
  | Discarded => invalid_ancestor opts fr = None
  | ReturnedByArrow => invalid_ancestor opts fr = if ignore_arrow opts then None else Some FArrow
  | Returned => invalid_ancestor opts fr = Some FReturn
  | Marked => invalid_ancestor opts fr = if ignore_void opts then None else Some FVoid
  | Used => exists f, In f [FLogical false; FComma false; FConditional false; FOther] /\ invalid_ancestor opts fr = Some f
  end.
Lemma matches_same opts fr fr' u : invalid_ancestor opts fr = invalid_ancestor opts fr' -> matches opts fr u -> matches opts fr' u.
Proof. intros E. destruct u; simpl; rewrite E; auto. Qed.
Ltac used f := exists f; split; [simpl; auto|reflexivity].
Lemma parents_goes opts e : forall p outer x fr u, parents e p outer = Some (x, fr) -> matches opts outer u -> exists v, goes u e p x v /\ matches opts fr v.
Proof.
  induction e as [n k c|e IH|op l IHl r IHr|l IHl r IHr|c IHc a IHa d IHd|e IH|n k e IH]; intros [|st p] outer x fr u H M; simpl in H;
    try (injection H as <- <-; exists u; split; [constructor|exact M]); destruct st; try discriminate.
  - destruct (IH _ _ _ _ u H) as [v [G M']]; [exact M|]. exists v. split; [constructor; exact G|exact M'].
  - destruct (IHl _ _ _ _ Used H) as [v [G M']]; [used (FLogical false)|]. exists v. split; [constructor; exact G|exact M'].
  - destruct (IHr _ _ _ _ u H) as [v [G M']]; [exact M|]. exists v. split; [apply GoesLogicalRight; exact G|exact M'].
  - destruct (IHl _ _ _ _ Discarded H) as [v [G M']]; [reflexivity|]. exists v. split; [constructor; exact G|exact M'].
  - destruct (IHr _ _ _ _ Used H) as [v [G M']]; [used (FComma false)|]. exists v. split; [constructor; exact G|exact M'].
  - destruct (IHc _ _ _ _ Used H) as [v [G M']]; [used (FConditional false)|]. exists v. split; [constructor; exact G|exact M'].
  - destruct (IHa _ _ _ _ u H) as [v [G M']]; [exact M|]. exists v. split; [constructor; exact G|exact M'].
  - destruct (IHd _ _ _ _ u H) as [v [G M']]; [exact M|]. exists v. split; [constructor; exact G|exact M'].
  - destruct (IH _ _ _ _ Marked H) as [v [G M']]; [reflexivity|]. exists v. split; [constructor; exact G|exact M'].
  - destruct (IH _ _ _ _ Used H) as [v [G M']]; [used FOther|]. exists v. split; [constructor; exact G|exact M'].
Qed.
Lemma goes_parents opts u e p x v : goes u e p x v -> forall outer, matches opts outer u -> exists fr, parents e p outer = Some (x, fr) /\ matches opts fr v.
Proof.
  induction 1; intros outer M; simpl.
  - exists outer. split; [destruct e; reflexivity|exact M].
  - apply IHgoes. exact M.
  - apply IHgoes. exact M.
  - apply IHgoes. exact M.
  - apply IHgoes. exact M.
  - apply IHgoes. used (FLogical false).
  - apply IHgoes. used (FConditional false).
  - apply IHgoes. reflexivity.
  - apply IHgoes. used (FComma false).
  - apply IHgoes. reflexivity.
  - apply IHgoes. used FOther.
Qed.
Lemma goes_use u e p x v : goes u e p x v -> v = u \/ v = Used \/ v = Discarded \/ v = Marked.
Proof. induction 1; intuition congruence. Qed.
Lemma root_matches opts r : matches opts [root_frame r] (root_use r).
Proof. destruct r; simpl; try reflexivity. used FOther. Qed.
Lemma returning_iff f : void_returning f = true <-> returns_void f.
Proof.
  unfold void_returning. split.
  - destruct (annotation f) as [t|] eqn:A.
    + intro H. apply existsb_exists in H. destruct H as [x [I ->]]. eapply ByAnnotation; eassumption.
    + destruct (is_expression f) eqn:E; [|discriminate]. simpl. destruct (contextual f) as [ts|] eqn:C; [|discriminate].
      intro H. apply existsb_exists in H. destruct H as [sg [I1 H]]. apply existsb_exists in H. destruct H as [t [I2 H]]. apply existsb_exists in H. destruct H as [x [I3 ->]].
      eapply ByContext; eassumption.
  - intros [t A I|ts sg t A E C I1 I2 I3].
    + rewrite A. apply existsb_exists. exists true. auto.
    + rewrite A, E, C. simpl. apply existsb_exists. exists sg. split; [exact I1|]. apply existsb_exists. exists t. split; [exact I2|]. apply existsb_exists. exists true. auto.
Qed.
Lemma check_iff opts void_like final r e p m : check opts void_like final r e p = Some m <->
  exists n k u, goes (root_use r) e p (Leaf n k true) u /\ void_like (Leaf n k true) = true /\ says opts (function_of r) final u m.
Proof.
  unfold check. split.
  - destruct (parents e p [root_frame r]) as [[x fr]|] eqn:P; [|discriminate].
    destruct (parents_goes opts _ _ _ _ _ (root_use r) P (root_matches opts r)) as [u [G M]].
    destruct x as [n k c|?|? ? ?|? ?|? ? ?|?|? ? ?]; simpl; try discriminate. destruct c; simpl; [|discriminate].
    intro H. exists n, k, u. split; [exact G|].
    destruct (invalid_ancestor opts fr) as [a|] eqn:A; [|discriminate].
    destruct (void_like (Leaf n k true)); [|discriminate]. split; [reflexivity|]. cbn [negb] in H.
    destruct (goes_use _ _ _ _ _ G) as [Eu|Eu].
    + destruct u; cbn [matches] in M; rewrite A in M.
      * discriminate.
      * destruct r as [|f|f|]; try discriminate. destruct (ignore_arrow opts) eqn:Ia; [discriminate|]. injection M as ->.
        assert (NR : ignore_functions opts && void_returning f = false) by (destruct (ignore_functions opts && void_returning f); [discriminate|reflexivity]).
        rewrite NR in H.
        assert (NR' : ignore_functions opts = true -> forall g, function_of (RArrow f) = Some g -> ~ returns_void g).
        { intros I g E R. simpl in E. injection E as <-. apply returning_iff in R. rewrite I, R in NR. discriminate. }
        destruct (ignore_void opts) eqn:Iv; injection H as <-; constructor; assumption.
      * destruct r as [|f|f|]; try discriminate. injection M as ->.
        set (q := match f with Some f => void_returning f | None => false end) in *.
        assert (NR : ignore_functions opts && q = false) by (destruct (ignore_functions opts && q); [discriminate|reflexivity]).
        rewrite NR in H.
        assert (NR' : ignore_functions opts = true -> forall g, function_of (RReturn f) = Some g -> ~ returns_void g).
        { intros I g E R. simpl in E. subst f. apply returning_iff in R. unfold q in NR. rewrite I, R in NR. discriminate. }
        destruct (ignore_void opts) eqn:Iv; [injection H as <-; constructor; assumption|]. destruct final eqn:Ef; injection H as <-; constructor; assumption || reflexivity.
      * destruct (ignore_void opts) eqn:Iv; [discriminate|]. injection M as ->. injection H as <-. constructor; [auto|exact Iv].
      * destruct M as [f [I E]]. injection E as ->. assert (H' : (if ignore_void opts then Some MWrap else Some MExpr) = Some m) by (simpl in I; destruct I as [<-|[<-|[<-|[<-|[]]]]]; exact H).
        destruct (ignore_void opts) eqn:Iv; injection H' as <-; constructor; auto.
    + destruct Eu as [-> | [-> | ->]]; cbn [matches] in M; rewrite A in M.
      * destruct M as [f [I E]]. injection E as ->. assert (H' : (if ignore_void opts then Some MWrap else Some MExpr) = Some m) by (simpl in I; destruct I as [<-|[<-|[<-|[<-|[]]]]]; exact H).
        destruct (ignore_void opts) eqn:Iv; injection H' as <-; constructor; auto.
      * discriminate.
      * destruct (ignore_void opts) eqn:Iv; [discriminate|]. injection M as ->. injection H as <-. constructor; [auto|exact Iv].
  - intros (n & k & u & G & V & S).
    destruct (goes_parents opts _ _ _ _ _ G [root_frame r] (root_matches opts r)) as [fr [P M]]. rewrite P. cbn [negb]. rewrite V.
    assert (Root : u = ReturnedByArrow -> exists f, r = RArrow f). { intros ->. destruct (goes_use _ _ _ _ _ G) as [E|[E|[E|E]]]; try discriminate. destruct r; try discriminate. eauto. }
    assert (Root' : u = Returned -> exists f, r = RReturn f). { intros ->. destruct (goes_use _ _ _ _ _ G) as [E|[E|[E|E]]]; try discriminate. destruct r; try discriminate. eauto. }
    assert (F : forall (f : func), function_of r = Some f -> (ignore_functions opts = true -> forall g, function_of r = Some g -> ~ returns_void g) -> ignore_functions opts && void_returning f = false).
    { intros f E N. destruct (ignore_functions opts) eqn:I; [|reflexivity]. simpl. apply not_true_is_false. rewrite returning_iff. apply N; auto. }
    destruct S as [u Hu Iv|Iv|Ia Iv N|Ia Iv N|Hf Iv N|Hf Iv N|Iv N]; cbn [matches] in M.
    + destruct Hu as [-> | ->]; cbn [matches] in M.
      * destruct M as [f [I E]]. rewrite E. cbn [negb]. rewrite Iv. simpl in I. destruct I as [<-|[<-|[<-|[<-|[]]]]]; reflexivity.
      * rewrite Iv in M. rewrite M. cbn [negb]. rewrite Iv. reflexivity.
    + destruct M as [f [I E]]. rewrite E. cbn [negb]. rewrite Iv. simpl in I. destruct I as [<-|[<-|[<-|[<-|[]]]]]; reflexivity.
    + rewrite Ia in M. rewrite M. destruct (Root eq_refl) as [f ->]. cbn [negb]. rewrite (F f eq_refl N). rewrite Iv. reflexivity.
    + rewrite Ia in M. rewrite M. destruct (Root eq_refl) as [f ->]. cbn [negb]. rewrite (F f eq_refl N). rewrite Iv. reflexivity.
    + rewrite M. destruct (Root' eq_refl) as [f ->]. cbn [negb]. rewrite Iv, Hf.
      destruct f as [f|]; [rewrite (F f eq_refl N)|rewrite andb_false_r]; reflexivity.
    + rewrite M. destruct (Root' eq_refl) as [f ->]. cbn [negb]. rewrite Iv, Hf.
      destruct f as [f|]; [rewrite (F f eq_refl N)|rewrite andb_false_r]; reflexivity.
    + rewrite M. destruct (Root' eq_refl) as [f ->]. cbn [negb]. rewrite Iv.
      destruct f as [f|]; [rewrite (F f eq_refl N)|rewrite andb_false_r]; reflexivity.
Qed.

(** * void *)
Lemma insert_text u e p x v : goes u e p x v -> insert_void e p = text (put_void e p).
Proof. induction 1; [destruct e; reflexivity|..]; simpl; rewrite IHgoes; reflexivity. Qed.
Lemma put_binds strength op_level u e p x v : goes u e p x v -> binds strength op_level (put_void e p) = (match p with [] => 16 | _ => binds strength op_level e end).
Proof. intros G. destruct G as [u e| | | | | | | | | | ]; [destruct e|..]; reflexivity. Qed.
Lemma put_written strength op_level u e p n k v : (forall op, op_level op < 16) -> 16 <= strength n ->
  goes u e p (Leaf n k true) v -> (v = Returned \/ v = ReturnedByArrow) -> written strength op_level e -> written strength op_level (put_void e p).
Proof.
  intros O Sn G. remember (Leaf n k true) as x. induction G; intros Hv W; subst; simpl in *.
  all: try (exfalso; destruct (goes_use _ _ _ _ _ G) as [E|[E|[E|E]]]; destruct Hv; congruence).
  - auto.
  - apply IHG; auto.
  - destruct W as (Wl & Wr & Bl & Br). split; [exact Wl|]. split; [apply IHG; auto|]. split; [exact Bl|]. rewrite (put_binds strength op_level _ _ _ _ _ G). destruct p; [apply O|exact Br].
  - destruct W as (Wc & Wa & Wd & Bc & Ba & Bd). split; [exact Wc|]. split; [apply IHG; auto|]. split; [exact Wd|]. split; [exact Bc|]. split; [|exact Bd]. rewrite (put_binds strength op_level _ _ _ _ _ G). destruct p; [lia|exact Ba].
  - destruct W as (Wc & Wa & Wd & Bc & Ba & Bd). split; [exact Wc|]. split; [exact Wa|]. split; [apply IHG; auto|]. split; [exact Bc|]. split; [exact Ba|]. rewrite (put_binds strength op_level _ _ _ _ _ G). destruct p; [lia|exact Bd].
Qed.
Lemma goes_functional u e p x v : goes u e p x v -> forall x' v', goes u e p x' v' -> x = x' /\ v = v'.
Proof. induction 1; intros x' v' G; inversion G; subst; auto. Qed.
Lemma put_goes u e p x v : goes u e p x v -> goes u (put_void e p) (p ++ [Inside]) x Marked.
Proof. induction 1; [destruct e; repeat constructor|..]; cbn [app put_void]; solve [constructor; exact IHgoes|apply GoesLogicalRight; exact IHgoes|apply GoesCommaRight; exact IHgoes]. Qed.
Lemma settles opts void_like final r e p m : ignore_void opts = true -> check opts void_like final r e p = Some m -> check opts void_like final r (put_void e p) (p ++ [Inside]) = None.
Proof.
  intros Iv H. apply check_iff in H. destruct H as (n & k & u & G & _ & _). apply put_goes in G.
  destruct (check opts void_like final r (put_void e p) (p ++ [Inside])) as [m'|] eqn:C; [|reflexivity].
  apply check_iff in C. destruct C as (n' & k' & u' & G' & _ & S). destruct (goes_functional _ _ _ _ _ G _ _ G') as [_ <-].
  inversion S; subst. congruence.
Qed.
Section Meaning.
Context {St V X : Type} (undefined : V) (truthy nullish : V -> bool) (w : world St V X).
Notation eval := (eval undefined truthy nullish w).
Notation exec := (exec undefined truthy nullish w).
Notation exec_all := (exec_all undefined truthy nullish w).
Notation is_undefined := (is_undefined undefined truthy nullish w).
Lemma put_eval u e p x v : goes u e p x v -> is_undefined x -> forall s, eval (put_void e p) s = eval e s.
Proof.
  intros G U. induction G; intro s; [replace (put_void e []) with (VoidOperator e) by (destruct e; reflexivity)|..]; simpl; try (rewrite IHG by exact U; reflexivity).
  - specialize (U s). destruct (eval e s) as [s1 [y|y]]; [|reflexivity]. rewrite (U s1 y eq_refl). reflexivity.
  - destruct (eval l s) as [s1 [y|y]]; [|reflexivity]. rewrite IHG by exact U. reflexivity.
  - destruct (eval c s) as [s1 [y|y]]; [|reflexivity]. rewrite IHG by exact U. reflexivity.
  - destruct (eval c s) as [s1 [y|y]]; [|reflexivity]. rewrite IHG by exact U. reflexivity.
  - destruct (eval l s) as [s1 [y|y]]; [|reflexivity]. apply IHG. exact U.
Qed.

(** * return *)
Lemma exec_nil s : exec_all [] s = (s, Normal).
Proof. reflexivity. Qed.
Lemma exec_cons c l s : exec_all (c :: l) s = match exec c s with (s, Normal) => exec_all l s | r => r end.
Proof. reflexivity. Qed.
Lemma instead_cases t : instead_of_return t = [] /\ start t <> Some BOpen /\ start t <> Some BBracket \/ instead_of_return t = [TSemicolon] /\ (start t = Some BOpen \/ start t = Some BBracket).
Proof.
  destruct t as [|[[] ?| | | | | | | | | | | ] t]; simpl; try (left; repeat split; discriminate); right; auto.
Qed.
(** Statements for the tokens of the expression, with what follows. *)
Lemma reads_front e (semicolon : bool) t l : may_start (text e) -> reads t l ->
  exists l', reads (instead_of_return (text e) ++ text e ++ (if semicolon then [TSemicolon] else []) ++ TSemicolon :: t) l' /\
    forall s, exec_all l' s = match exec (SExpr e) s with (s, Normal) => exec_all l s | r => r end.
Proof.
  intros M R.
  assert (A : exists l', reads (text e ++ (if semicolon then [TSemicolon] else []) ++ TSemicolon :: t) l' /\ forall s, exec_all l' s = match exec (SExpr e) s with (s, Normal) => exec_all l s | r => r end).
  { destruct semicolon; cbn [app].
    - exists (SExpr e :: SEmpty :: l). split; [apply ReadsExpr; [exact M|]; apply ReadsEmpty; exact R|]. intro s. rewrite exec_cons. destruct (exec (SExpr e) s) as [s1 [|v|x]]; reflexivity.
    - exists (SExpr e :: l). split; [apply ReadsExpr; assumption|]. intro s. apply exec_cons. }
  destruct A as (l' & R' & E'). destruct (instead_cases (text e)) as [[-> _]|[-> _]].
  - exists l'. split; [exact R'|exact E'].
  - exists (SEmpty :: l'). split; [apply ReadsEmpty; exact R'|]. intro s. rewrite exec_cons. apply E'.
Qed.
Lemma return_same e s : is_undefined e -> match exec (SExpr e) s with (s, Normal) => exec_all [SReturn None] s | r => r end = exec (SReturn (Some e)) s.
Proof.
  intro U. simpl. specialize (U s). destruct (eval e s) as [s1 [v|x]]; [|reflexivity]. rewrite (U s1 v eq_refl). reflexivity.
Qed.
Lemma return_inner void_like in_block semicolon e toks : fix_return void_like false in_block semicolon e = Some toks -> may_start (text e) -> is_undefined e ->
  exists l, reads toks l /\ (in_block = false -> exists m, l = [SBlock m]) /\ forall s, exec_all l s = exec (SReturn (Some e)) s.
Proof.
  unfold fix_return. intros H M U. injection H as <-.
  destruct (reads_front e semicolon [TReturn; TSemicolon] [SReturn None] M) as (l & R & E); [apply ReadsReturn; constructor|].
  assert (T : (instead_of_return (text e) ++ text e ++ (if semicolon then [TSemicolon] else [])) ++ [TSemicolon; TReturn; TSemicolon] =
              instead_of_return (text e) ++ text e ++ (if semicolon then [TSemicolon] else []) ++ TSemicolon :: [TReturn; TSemicolon]) by (repeat rewrite <- app_assoc; reflexivity).
  rewrite T. destruct in_block.
  - exists l. split; [exact R|]. split; [discriminate|]. intro s. rewrite E. apply return_same. exact U.
  - exists [SBlock l]. split; [apply (ReadsBlock _ l [] []); [exact R|constructor]|]. split; [eauto|].
    intro s. rewrite exec_cons. change (exec (SBlock l)) with (exec_all l). rewrite E, return_same by exact U.
    destruct (exec (SReturn (Some e)) s) as [s1 [|v|x]]; reflexivity.
Qed.
Lemma return_last void_like in_block semicolon e toks : fix_return void_like true in_block semicolon e = Some toks -> may_start (text e) -> (void_like e = true -> is_undefined e) ->
  exists l, reads toks l /\ forall before s, result undefined (andthen before (exec_all l)) s = result undefined (andthen before (exec (SReturn (Some e)))) s.
Proof.
  unfold fix_return. destruct (void_like e); [|discriminate]. intros H M U. injection H as <-. specialize (U eq_refl).
  assert (A : exists l, reads (text e ++ (if semicolon then [TSemicolon] else [])) l /\ forall s, exec_all l s = exec (SExpr e) s).
  { exists [SExpr e]. split.
    - destruct semicolon; [apply ReadsExpr; [exact M|constructor]|]. rewrite app_nil_r. apply ReadsExprLast. exact M.
    - intro s. rewrite exec_cons. destruct (exec (SExpr e) s) as [s1 [|v|x]]; reflexivity. }
  destruct A as (l & R & E).
  assert (B : exists l, reads (instead_of_return (text e) ++ text e ++ (if semicolon then [TSemicolon] else [])) l /\ forall s, exec_all l s = exec (SExpr e) s).
  { destruct (instead_cases (text e)) as [[-> _]|[-> _]]; [eauto|]. exists (SEmpty :: l). split; [apply ReadsEmpty; exact R|]. intro s. rewrite exec_cons. apply E. }
  destruct B as (l' & R' & E'). exists l'. split; [exact R'|]. intros before s. unfold result, andthen.
  destruct (before s) as [s1 [|v|x]]; try reflexivity. rewrite E'. simpl. specialize (U s1). destruct (eval e s1) as [s2 [v|x]]; [|reflexivity]. rewrite (U s2 v eq_refl). reflexivity.
Qed.
Lemma alone void_like final in_block semicolon e toks : fix_return void_like final in_block semicolon e = Some toks -> goes_on toks -> exists k, start (text e) = Some k /\ In k [BTemplate; BSign; BSlash].
Proof.
  intros H [k [E I]].
  assert (NE : text e <> []). { destruct e as [| |op l r|l r| | |n [kk|] e]; simpl; try discriminate; try (intro X0; apply app_eq_nil in X0; destruct X0; discriminate). }
  assert (A : forall t, start (instead_of_return (text e) ++ text e ++ t) = Some k -> exists k, start (text e) = Some k /\ In k [BTemplate; BSign; BSlash]).
  { intros t Es. destruct (instead_cases (text e)) as [[Ei [N1 N2]]|[Ei _]]; rewrite Ei in Es; simpl in Es; [|discriminate].
    assert (Es' : start (text e) = Some k). { destruct (text e); [congruence|]. destruct t0; exact Es. }
    exists k. split; [exact Es'|]. rewrite Es' in N1, N2. simpl in I |- *. destruct I as [<-|[<-|I]]; [congruence|congruence|exact I]. }
  unfold fix_return in H. destruct final.
  - destruct (void_like e); [|discriminate]. injection H as <-. eapply A. exact E.
  - injection H as <-. destruct in_block; [|discriminate].
    repeat rewrite <- app_assoc in E. eapply A. exact E.
Qed.

(** * Arrow functions *)
Lemma skip_eval e s : eval (skip_parentheses e) s = eval e s.
Proof. induction e; simpl; auto. Qed.
Lemma arrow_right void_like e toks : fix_arrow void_like e = Some toks -> may_start (text (skip_parentheses e)) -> (void_like e = true -> is_undefined e) ->
  exists l, reads toks [SBlock l] /\ forall s, result undefined (exec_all l) s = eval e s.
Proof.
  unfold fix_arrow. destruct (void_like e); [|discriminate]. intros H M U. injection H as <-. specialize (U eq_refl).
  exists [SExpr (skip_parentheses e)]. split.
  - assert (T : text (skip_parentheses e) ++ [TSemicolon; TCloseBrace] = (text (skip_parentheses e) ++ [TSemicolon]) ++ TCloseBrace :: []) by (rewrite <- app_assoc; reflexivity).
    rewrite T. apply ReadsBlock; [|constructor]. apply ReadsExpr; [exact M|constructor].
  - intro s. unfold result. rewrite exec_cons. simpl. rewrite skip_eval. specialize (U s). destruct (eval e s) as [s1 [v|x]]; [|reflexivity]. rewrite (U s1 v eq_refl). reflexivity.
Qed.
End Meaning.
