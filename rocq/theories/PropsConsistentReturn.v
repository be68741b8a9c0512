(** C48: consistent-return (ConsistentReturn.v). *)
From Coq Require Import String Bool List ZArith Lia Permutation.
From Verif Require Import Base EngineProofs ConsistentReturn.
Import ListNotations.
Open Scope Z_scope.

(** ** Specification *)
(** The return statements of a function: those below it but not below a function in it, in the order of the text. *)
Fixpoint returns_of (n : node) : list return_ :=
  match n with
  | Function _ _ => []
  | Return r ch => r :: flat_map returns_of ch
  | Other ch => flat_map returns_of ch
  end.
Definition own (ch : list node) : list return_ := flat_map returns_of ch.
(** All functions of a tree with their children. *)
Fixpoint functions (n : node) : list (function * list node) :=
  match n with
  | Function f ch => (f, ch) :: flat_map functions ch
  | Return _ ch | Other ch => flat_map functions ch
  end.
(** [return;] gives no value; with the option neither does [return undefined]. *)
Definition gives_value (option : bool) (r : return_) : Prop :=
  exists t l, r_expr r = Some (t, l) /\ (option = true -> t = false /\ l = false).

Lemma node_ind' (P : node -> Prop) : (forall f ch, Forall P ch -> P (Function f ch)) -> (forall r ch, Forall P ch -> P (Return r ch)) -> (forall ch, Forall P ch -> P (Other ch)) -> forall n, P n.
Proof.
  intros HF HR HO. fix IH 1. intros [f ch|r ch|ch]; [apply HF|apply HR|apply HO]; induction ch; constructor; auto.
Qed.

Section Rule.
Variables (void_return : function -> bool) (opt : bool).
Notation walk := (walk void_return opt).
Notation hv := (has_return_value opt).
Lemma value_spec r : hv r = true <-> gives_value opt r.
Proof.
  unfold has_return_value, gives_value. destruct (r_expr r) as [[t l]|]; [|split; [discriminate|intros (t & l & E & _); discriminate]].
  split.
  - intros H. exists t, l. split; [reflexivity|]. intros ->. cbn in H. destruct t; [discriminate|]. now destruct l.
  - intros (t' & l' & [= <- <-] & H). destruct opt; [|reflexivity]. destruct (H eq_refl) as [-> ->]. reflexivity.
Qed.
(** Returns that count: not [return;] in a function that may return void. *)
Definition counts (f : function) (r : return_) : bool := match r_expr r with None => negb (void_return f) | Some _ => true end.
Definition expected (p : function * list node) : list (Z * bstr * bstr) :=
  let (f, ch) := p in
  match filter (counts f) (own ch) with
  | [] => []
  | r0 :: rest =>
      let bad := filter (fun r => negb (Bool.eqb (hv r) (hv r0))) rest in
      map (fun r => if hv r0 then missing (r_id r) f else unexpected (r_id r) f) bad ++
      match bad with [] => if hv r0 && fn_implicit f && negb (void_return f) then [missing (fn_id f) f] else [] | _ => [] end
  end.

(** The state of a function after its returns [rs], the memo apart. *)
Definition after_returns (f : function) (rs : list return_) (s : fstate) : Prop :=
  fs_fn s = f /\ (fs_void s = None \/ fs_void s = Some (void_return f)) /\
  match filter (counts f) rs with
  | [] => fs_return s = false /\ fs_mismatch s = false
  | r0 :: rest => fs_return s = true /\ fs_value s = hv r0 /\ fs_message s = (if hv r0 then b "missingReturnValue" else b "unexpectedReturnValue") /\
      fs_mismatch s = existsb (fun r => negb (Bool.eqb (hv r) (hv r0))) rest
  end.
Definition told (f : function) (rs : list return_) (r : return_) : list (Z * bstr * bstr) :=
  if counts f r then
    match filter (counts f) rs with
    | [] => []
    | r0 :: _ => if negb (Bool.eqb (hv r) (hv r0)) then [if hv r0 then missing (r_id r) f else unexpected (r_id r) f] else []
    end
  else [].
Lemma allows_ok f s : fs_fn s = f -> fs_void s = None \/ fs_void s = Some (void_return f) ->
  exists s', allows void_return s = (void_return f, s') /\ fs_fn s' = f /\ fs_void s' = Some (void_return f) /\ fs_return s' = fs_return s /\ fs_value s' = fs_value s /\ fs_mismatch s' = fs_mismatch s /\ fs_message s' = fs_message s.
Proof. intros <- [V|V]; unfold allows; rewrite V; eexists; split; try reflexivity; cbn; auto 8. Qed.
Lemma on_return_ok f rs s r up : after_returns f rs s -> exists s', on_return void_return opt r (s :: up) = (told f rs r, s' :: up) /\ after_returns f (rs ++ [r]) s'.
Proof.
  intros A.
  assert (GO : forall s, after_returns f rs s -> counts f r = true -> exists s',
    (let v := hv r in
        if negb (fs_return s) then ([], FS (fs_fn s) true v (fs_mismatch s) (fs_void s) (if v then b "missingReturnValue" else b "unexpectedReturnValue") :: up)
        else if negb (Bool.eqb (fs_value s) v) then
          ((if beqb (fs_message s) (b "missingReturnValue") then [missing (r_id r) (fs_fn s)]
            else if beqb (fs_message s) (b "unexpectedReturnValue") then [unexpected (r_id r) (fs_fn s)] else []),
           FS (fs_fn s) (fs_return s) (fs_value s) true (fs_void s) (fs_message s) :: up)
        else ([], s :: up)) = (told f rs r, s' :: up) /\ after_returns f (rs ++ [r]) s').
  { clear s A. intros s (F & V & S) C. unfold told, after_returns. rewrite C, filter_app. cbn [filter]. rewrite C. destruct (filter (counts f) rs) as [|r0 rest] eqn:FR; cbn [app].
    - destruct S as [S1 S2]. rewrite S1. cbn [negb]. eexists. split; [reflexivity|]. cbn. repeat split; auto.
    - destruct S as (S1 & S2 & S3 & S4). rewrite S1. cbn [negb]. rewrite S2. replace (Bool.eqb (hv r0) (hv r)) with (Bool.eqb (hv r) (hv r0)) by (now destruct (hv r), (hv r0)). rewrite existsb_app. cbn [existsb]. destruct (Bool.eqb (hv r) (hv r0)) eqn:EQ; cbn [negb].
      + eexists. split; [reflexivity|]. rewrite orb_false_r. repeat split; auto.
      + rewrite S3, F. assert (M : (if beqb (if hv r0 then b "missingReturnValue" else b "unexpectedReturnValue") (b "missingReturnValue") then [missing (r_id r) f] else if beqb (if hv r0 then b "missingReturnValue" else b "unexpectedReturnValue") (b "unexpectedReturnValue") then [unexpected (r_id r) f] else []) = [if hv r0 then missing (r_id r) f else unexpected (r_id r) f]) by (destruct (hv r0); reflexivity).
        rewrite M. eexists. split; [reflexivity|]. cbn [fs_fn fs_void fs_return fs_value fs_message fs_mismatch]. rewrite orb_true_r. repeat split; auto. }
  unfold on_return. destruct (r_expr r) as [e|] eqn:E.
  - apply GO; auto. unfold counts. now rewrite E.
  - destruct A as (F & V & S). destruct (allows_ok f s F V) as (s' & -> & F' & V' & E1 & E2 & E3 & E4).
    assert (A' : after_returns f rs s') by (unfold after_returns; rewrite E1, E2, E3, E4; auto). destruct (void_return f) eqn:VR.
    + exists s'. unfold told, counts. rewrite E, VR. cbn [negb]. split; [reflexivity|]. destruct A' as (_ & _ & A'). split; [auto|]. split; [rewrite VR; auto|]. rewrite filter_app. cbn [filter]. replace (counts f r) with false by (unfold counts; now rewrite E, VR). now rewrite app_nil_r.
    + apply GO; auto. unfold counts. now rewrite E, VR.
Qed.
(** What is told of the returns [new] after [rs]. *)
Fixpoint tells (f : function) (rs new : list return_) : list (Z * bstr * bstr) :=
  match new with [] => [] | r :: new => told f rs r ++ tells f (rs ++ [r]) new end.
Lemma tells_app f : forall new1 rs new2, tells f rs (new1 ++ new2) = tells f rs new1 ++ tells f (rs ++ new1) new2.
Proof.
  induction new1 as [|r new1 IH]; intros rs new2; cbn; [now rewrite app_nil_r|]. rewrite IH, <- !app_assoc. reflexivity.
Qed.
Lemma tells_expected f new : tells f [] new = match filter (counts f) new with [] => [] | r0 :: rest => map (fun r => if hv r0 then missing (r_id r) f else unexpected (r_id r) f) (filter (fun r => negb (Bool.eqb (hv r) (hv r0))) rest) end.
Proof.
  assert (G : forall new rs r0 rest, filter (counts f) rs = r0 :: rest -> tells f rs new = map (fun r => if hv r0 then missing (r_id r) f else unexpected (r_id r) f) (filter (fun r => negb (Bool.eqb (hv r) (hv r0))) (filter (counts f) new))).
  { clear new. induction new as [|r new IH]; intros rs r0 rest E; [reflexivity|]. cbn [tells filter]. unfold told. rewrite E. destruct (counts f r) eqn:C.
    - rewrite (IH _ r0 (rest ++ [r])) by (rewrite filter_app, E; cbn [filter]; now rewrite C). cbn [filter]. destruct (Bool.eqb (hv r) (hv r0)); cbn [negb app map]; reflexivity.
    - rewrite (IH _ r0 rest) by (rewrite filter_app, E; cbn [filter]; rewrite C; apply app_nil_r). reflexivity. }
  assert (H : forall new rs, filter (counts f) rs = [] -> tells f rs new = match filter (counts f) new with [] => [] | r0 :: rest => map (fun r => if hv r0 then missing (r_id r) f else unexpected (r_id r) f) (filter (fun r => negb (Bool.eqb (hv r) (hv r0))) rest) end).
  { clear new. induction new as [|r new IH]; intros rs E; [reflexivity|]. cbn [tells filter]. unfold told. rewrite E. destruct (counts f r) eqn:C.
    - cbn [app]. rewrite (G new (rs ++ [r]) r []) by (rewrite filter_app, E; cbn [filter]; now rewrite C). reflexivity.
    - cbn [app]. rewrite IH by (rewrite filter_app, E; cbn [filter]; now rewrite C). reflexivity. }
  now apply H.
Qed.
Definition walk_all := fix all l st := match l with [] => ([], st) | n :: l => let (a, st) := walk n st in let (c, st) := all l st in (a ++ c, st) end.
(** A walk below a function, and outside of all functions. *)
Definition below (n : node) : Prop :=
  (forall f rs s up, after_returns f rs s -> exists l s', walk n (s :: up) = (l, s' :: up) /\ after_returns f (rs ++ returns_of n) s' /\ Permutation l (tells f rs (returns_of n) ++ flat_map expected (functions n))) /\
  exists l, walk n [] = (l, []) /\ Permutation l (flat_map expected (functions n)).
Lemma perm_mid {A} (a c d e : list A) : Permutation ((a ++ c) ++ d ++ e) ((a ++ d) ++ c ++ e).
Proof. rewrite <- !app_assoc. apply Permutation_app_head. rewrite !app_assoc. apply Permutation_app_tail. apply Permutation_app_comm. Qed.
Lemma walk_list ch : Forall below ch ->
  (forall f rs s up, after_returns f rs s -> exists l s', walk_all ch (s :: up) = (l, s' :: up) /\ after_returns f (rs ++ own ch) s' /\ Permutation l (tells f rs (own ch) ++ flat_map expected (flat_map functions ch))) /\
  exists l, walk_all ch [] = (l, []) /\ Permutation l (flat_map expected (flat_map functions ch)).
Proof.
  induction 1 as [|n ch [N1 N2] _ [IH1 IH2]].
  - split; [intros f rs s up A; exists [], s; cbn; rewrite app_nil_r; auto|exists []; cbn; auto].
  - split.
    + intros f rs s up A. destruct (N1 f rs s up A) as (l1 & s1 & W1 & A1 & P1). destruct (IH1 f _ s1 up A1) as (l2 & s2 & W2 & A2 & P2).
      exists (l1 ++ l2), s2. cbn [walk_all]. rewrite W1. fold walk_all. rewrite W2. split; [reflexivity|]. unfold own in *. cbn [flat_map]. rewrite app_assoc. split; [exact A2|].
      rewrite tells_app, flat_map_app. eapply perm_trans; [apply Permutation_app; eassumption|]. apply perm_mid.
    + destruct N2 as (l1 & W1 & P1), IH2 as (l2 & W2 & P2). exists (l1 ++ l2). cbn [walk_all]. rewrite W1. fold walk_all. rewrite W2. split; [reflexivity|]. cbn [flat_map]. rewrite flat_map_app. now apply Permutation_app.
Qed.
Lemma leave_ok f rs s up : after_returns f rs s -> leave void_return (s :: up) =
  (match filter (counts f) rs with [] => [] | r0 :: rest => if negb (existsb (fun r => negb (Bool.eqb (hv r) (hv r0))) rest) && hv r0 && fn_implicit f && negb (void_return f) then [missing (fn_id f) f] else [] end, up).
Proof.
  intros (F & V & S). unfold leave. destruct (allows_ok f s F V) as (s' & -> & _). cbn [fst]. rewrite F. destruct (filter (counts f) rs) as [|r0 rest].
  - destruct S as [-> _]. now rewrite andb_false_r.
  - destruct S as (-> & -> & _ & ->). now rewrite andb_true_r.
Qed.
Lemma no_bad (l : list return_) p : filter p l = [] <-> existsb p l = false.
Proof. induction l as [|r l IH]; cbn; [tauto|]. destruct (p r); cbn; [split; discriminate|exact IH]. Qed.
Lemma walk_function f ch : Forall below ch -> forall up, exists l, walk (Function f ch) up = (l, up) /\ Permutation l (flat_map expected (functions (Function f ch))).
Proof.
  intros F up. destruct (walk_list ch F) as [W _]. assert (A : after_returns f [] (FS f false false false None [])) by (repeat split; cbn; auto).
  destruct (W f [] _ up A) as (l & s' & E & A' & P). cbn [app] in A'.
  pose proof (leave_ok _ _ _ up A') as L. rewrite tells_expected in P.
  exists (l ++ fst (leave void_return (s' :: up))). split.
  - change (walk (Function f ch) up) with (let (a, st) := walk_all ch (enter f up) in let (c, st) := leave void_return st in (a ++ c, st)). unfold enter. rewrite E, L. reflexivity.
  - rewrite L. cbn [fst functions flat_map]. unfold expected at 1. destruct (filter (counts f) (own ch)) as [|r0 rest]; [rewrite app_nil_r; exact P|].
    set (bad := filter (fun r => negb (Bool.eqb (hv r) (hv r0))) rest) in *. set (T := map _ bad) in *.
    assert (X : (if negb (existsb (fun r => negb (Bool.eqb (hv r) (hv r0))) rest) && hv r0 && fn_implicit f && negb (void_return f) then [missing (fn_id f) f] else []) =
      match bad with [] => if hv r0 && fn_implicit f && negb (void_return f) then [missing (fn_id f) f] else [] | _ => [] end).
    { destruct bad eqn:B; unfold bad in B.
      - apply no_bad in B. rewrite B. reflexivity.
      - destruct (existsb _ rest) eqn:EX; [reflexivity|]. apply no_bad in EX. congruence. }
    rewrite X. eapply perm_trans; [apply Permutation_app_tail; exact P|]. rewrite <- !app_assoc. apply Permutation_app_head. apply Permutation_app_comm.
Qed.
Lemma walk_below : forall n, below n.
Proof.
  apply node_ind'.
  - intros f ch F. split.
    + intros g rs s up A. destruct (walk_function f ch F (s :: up)) as (l & W & P). exists l, s. cbn [returns_of tells app]. rewrite app_nil_r. auto.
    + destruct (walk_function f ch F []) as (l & W & P). eauto.
  - intros r ch F. destruct (walk_list ch F) as [W1 (l2 & W2 & P2)]. split.
    + intros f rs s up A. destruct (on_return_ok f rs s r up A) as (s1 & E1 & A1). destruct (W1 f _ s1 up A1) as (l & s2 & E2 & A2 & P). exists (told f rs r ++ l), s2.
      change (walk (Return r ch) (s :: up)) with (let (a, st) := on_return void_return opt r (s :: up) in let (c, st) := walk_all ch st in (a ++ c, st)). rewrite E1, E2. split; [reflexivity|]. cbn [returns_of tells]. fold (own ch). rewrite <- app_assoc in A2. split; [exact A2|].
      rewrite <- app_assoc. apply Permutation_app_head. exact P.
    + exists l2. change (walk (Return r ch) []) with (let (c, st) := walk_all ch [] in (c, st)). rewrite W2. auto.
  - intros ch F. destruct (walk_list ch F) as [W1 W2]. split; [exact W1|exact W2].
Qed.

(** ** What is reported *)
(** Up to order: per function the returns that differ from its first one in giving a value, with the id that the first one asks
    for; and the function when all give values, its end can be reached and it may not return void.  Returns of other functions and outside of
    functions count for nothing. *)
Theorem C48_reports : forall n, Permutation (reports void_return opt n) (flat_map expected (functions n)).
Proof. intros n. unfold reports. destruct (walk_below n) as [_ (l & -> & P)]. exact P. Qed.
(** Nothing is reported exactly when every function either gives a value in all its returns and does not reach its end, or gives none.
    A function that may return void may also say [return;] and reach its end. *)
Definition consistent (f : function) (ch : list node) : Prop :=
  (forall r, In r (own ch) -> gives_value opt r \/ void_return f = true /\ r_expr r = None) /\ (fn_implicit f = true -> void_return f = true) \/
  (forall r, In r (own ch) -> ~ gives_value opt r).
Lemma expected_nil f ch : expected (f, ch) = [] <-> consistent f ch.
Proof.
  unfold expected, consistent. assert (OWN : forall r, In r (own ch) <-> In r (filter (counts f) (own ch)) \/ In r (own ch) /\ r_expr r = None /\ void_return f = true).
  { intros r. rewrite filter_In. unfold counts. destruct (r_expr r) as [e|], (void_return f); cbn; intuition (try discriminate). }
  assert (ONE : forall r, In r (own ch) -> r_expr r = None -> ~ gives_value opt r) by (intros r _ E (t & l & X & _); congruence).
  destruct (filter (counts f) (own ch)) as [|r0 rest] eqn:FR.
  - split; [|reflexivity]. intros _. right. intros r I. apply OWN in I. destruct I as [[]|(I & E & _)]; auto.
  - assert (I0 : In r0 (own ch)) by (apply OWN; left; now left). assert (C0 : counts f r0 = true). { assert (X : In r0 (filter (counts f) (own ch))) by (rewrite FR; now left). now apply filter_In in X. }
    assert (BAD : filter (fun r => negb (Bool.eqb (hv r) (hv r0))) rest = [] <-> forall r, In r (r0 :: rest) -> hv r = hv r0).
    { rewrite no_bad. split.
      - intros H r [<-|I]; [reflexivity|]. destruct (Bool.eqb (hv r) (hv r0)) eqn:E; [now apply eqb_prop|]. assert (X : existsb (fun r => negb (Bool.eqb (hv r) (hv r0))) rest = true) by (apply existsb_exists; exists r; split; auto; now rewrite E). congruence.
      - intros H. destruct (existsb _ rest) eqn:X; [|reflexivity]. apply existsb_exists in X. destruct X as (r & I & E). rewrite (H r) in E by (now right). rewrite eqb_reflx in E. discriminate. }
    split.
    + intros E. apply app_eq_nil in E. destruct E as [E1 E2]. apply map_eq_nil in E1. rewrite E1 in E2. pose proof (proj1 BAD E1) as B. destruct (hv r0) eqn:V.
      * left. split.
        -- intros r I. apply OWN in I. destruct I as [I|(I & E & VR)]; [left; apply value_spec; auto|right; auto].
        -- intros IM. rewrite IM in E2. cbn in E2. destruct (void_return f); [reflexivity|discriminate].
      * right. intros r I. apply OWN in I. destruct I as [I|(I & E & _)]; [|auto]. rewrite <- value_spec. rewrite (B r I). discriminate.
    + intros [(A & IM)|A].
      * assert (H : forall r, In r (r0 :: rest) -> hv r = true). { intros r I. assert (X : In r (own ch)) by (apply OWN; auto). destruct (A r X) as [G|[VR E]]; [now apply value_spec|]. assert (Y : In r (filter (counts f) (own ch))) by (now rewrite FR). apply filter_In in Y. destruct Y as [_ Y]. unfold counts in Y. rewrite E, VR in Y. discriminate. }
        assert (B : filter (fun r => negb (Bool.eqb (hv r) (hv r0))) rest = []) by (apply BAD; intros r I; rewrite !H; auto; now left). rewrite B. cbn [map app]. destruct (hv r0); [|reflexivity]. cbn [andb]. destruct (fn_implicit f); [|reflexivity]. now rewrite IM.
      * assert (H : forall r, In r (r0 :: rest) -> hv r = false). { intros r I. assert (X : In r (own ch)) by (apply OWN; auto). apply A in X. rewrite <- value_spec in X. now destruct (hv r). }
        assert (B : filter (fun r => negb (Bool.eqb (hv r) (hv r0))) rest = []) by (apply BAD; intros r I; rewrite !H; auto; now left). rewrite B, (H r0) by (now left). reflexivity.
Qed.
Theorem C48_silent : forall n, reports void_return opt n = [] <-> forall f ch, In (f, ch) (functions n) -> consistent f ch.
Proof.
  intros n. pose proof (C48_reports n) as P. split.
  - intros E f ch I. rewrite E in P. apply Permutation_nil in P. apply expected_nil. assert (H : forall l, flat_map expected l = [] -> forall p, In p l -> expected p = []). { clear. induction l as [|q l IH]; intros H p I; [contradiction|]. cbn [flat_map] in H. apply app_eq_nil in H. destruct H. destruct I as [<-|I]; auto. } eauto.
  - intros H. assert (E : flat_map expected (functions n) = []). { revert H. clear. induction (functions n) as [|[f ch] l IH]; intros H; [reflexivity|]. cbn [flat_map]. rewrite (proj2 (expected_nil f ch)) by (apply H; now left). cbn. apply IH. intros. apply H. now right. }
    rewrite E in P. apply Permutation_sym in P. now apply Permutation_nil in P.
Qed.
End Rule.
Print Assumptions C48_reports.
Print Assumptions C48_silent.
(** [async function f() { return 1; () => { return; }; return; }]: the last return; the arrow function is silent. *)
Example C48_example :
  let f := Fn 1 true false (Some (b "f")) [] in let g := Fn 2 false true None [] in
  let t := Other [Function f [Return (Ret 3 (Some (false, false))) []; Other [Function g [Return (Ret 4 None) []]]; Return (Ret 5 None) []]] in
  reports (fun _ => false) false t = [(5, b "missingReturnValue", b "Async function 'f' expected a return value.")] /\
  reports (fun _ => true) false t = [] /\
  reports (fun _ => false) false (Function g [Other [Return (Ret 3 (Some (true, false))) []]]) = [(2, b "missingReturnValue", b "Function expected a return value.")] /\
  reports (fun _ => false) true (Function g [Other [Return (Ret 3 (Some (true, false))) []]]) = [].
Proof. now vm_compute. Qed.

(** ** Void *)
Section Void.
Variables (void_type : Z -> bool) (shape_of : Z -> shape) (thenable : Z -> bool) (awaited : Z -> option Z).
Definition parts_of (s : shape) : option (list Z) := match s with Plain => None | Union l | Intersection l => Some l end.
(** [void], also in a union or intersection, or as what a promise is for, at any depth. *)
Inductive void_in : Z -> Prop :=
| vi_void t : void_type t = true -> void_in t
| vi_part t l p : parts_of (shape_of t) = Some l -> In p l -> void_in p -> void_in t
| vi_awaited t u : shape_of t = Plain -> thenable t = true -> awaited t = Some u -> void_in u -> void_in t.
(** The types met from a type. *)
Inductive step : Z -> Z -> Prop :=
| st_part t l p : parts_of (shape_of t) = Some l -> In p l -> step t p
| st_awaited t u : shape_of t = Plain -> thenable t = true -> awaited t = Some u -> step t u.
Notation visit := (void_value void_type shape_of thenable awaited).
Lemma mem_spec t l : existsb (Z.eqb t) l = true <-> In t l.
Proof. rewrite existsb_exists. split; [intros (x & I & E); apply Z.eqb_eq in E; now subst|intros I; exists t; split; auto; apply Z.eqb_refl]. Qed.
Definition some_visit fuel := fix some l visited :=
  match l with
  | [] => Some (false, visited)
  | p :: l => match visit fuel visited (Some p) with None => None | Some (true, v) => Some (true, v) | Some (false, v) => some l v end
  end.
Lemma visit_S fuel visited t : visit (S fuel) visited (Some t) =
  if existsb (Z.eqb t) visited then Some (false, visited)
  else if void_type t then Some (true, t :: visited)
  else match parts_of (shape_of t) with
       | Some l => some_visit fuel l (t :: visited)
       | None => if negb (thenable t) then Some (false, t :: visited) else match awaited t with None => Some (false, t :: visited) | Some u => if u =? t then Some (false, t :: visited) else visit fuel (t :: visited) (Some u) end
       end.
Proof. cbn [void_value]. destruct (existsb (Z.eqb t) visited); [reflexivity|]. destruct (void_type t); [reflexivity|]. destruct (shape_of t); reflexivity. Qed.
(** New types in [w] are not void, and what is met from them is in [w]. *)
Definition done (v w : list Z) : Prop := forall t, In t w -> In t v \/ void_type t = false /\ forall u, step t u -> In u w.
Lemma done_trans v w x : done v w -> done w x -> incl w x -> done v x.
Proof. intros A B I t T. destruct (B t T) as [W|W]; [|auto]. destruct (A t W) as [V|[V S]]; [auto|right; split; auto]. Qed.
Lemma done_refl v : done v v.
Proof. intros t T. auto. Qed.
(** All of [w] but the type being visited. *)
Lemma visit_ok : forall fuel v t r w, visit fuel v (Some t) = Some (r, w) ->
  incl v w /\ In t w /\ (r = true -> void_in t) /\ (r = false -> done v w).
Proof.
  induction fuel as [|fuel IH]; intros v t r w H; [discriminate|]. rewrite visit_S in H.
  destruct (existsb (Z.eqb t) v) eqn:M; [injection H as <- <-; repeat split; [apply incl_refl|now apply mem_spec|discriminate|intros _; apply done_refl]|].
  destruct (void_type t) eqn:V; [injection H as <- <-; repeat split; [apply incl_tl, incl_refl|now left|now constructor|discriminate]|].
  assert (SOME : forall l v0 r w, some_visit fuel l v0 = Some (r, w) -> incl v0 w /\ (r = true -> exists p, In p l /\ void_in p) /\ (r = false -> done v0 w /\ incl l w)).
  { induction l as [|p l IHl]; intros v0 r0 w0 S; cbn [some_visit] in S.
    - injection S as <- <-. repeat split; [apply incl_refl|discriminate|apply done_refl|intros x []].
    - destruct (visit fuel v0 (Some p)) as [[[] v1]|] eqn:E; [injection S as <- <-| |discriminate].
      + destruct (IH _ _ _ _ E) as (I1 & I2 & I3 & _). repeat split; auto; try discriminate. intros _. exists p. split; [now left|auto].
      + fold (some_visit fuel) in S. destruct (IH _ _ _ _ E) as (I1 & I2 & _ & I4). destruct (IHl _ _ _ S) as (J1 & J2 & J3). split; [eapply incl_tran; eauto|]. split.
        * intros R. destruct (J2 R) as (q & Q & VQ). exists q. split; [now right|auto].
        * intros R. destruct (J3 R) as [J4 J5]. split; [eapply done_trans; eauto|]. intros x [<-|X]; auto. }
  destruct (parts_of (shape_of t)) as [l|] eqn:P.
  - destruct (SOME _ _ _ _ H) as (I1 & I2 & I3). split; [intros x X; apply I1; now right|]. split; [apply I1; now left|]. split.
    + intros R. destruct (I2 R) as (p & Q & VP). eapply vi_part; eauto.
    + intros R. destruct (I3 R) as [D L]. intros x X. destruct (D x X) as [[<-|Y]|Y]; auto. right. split; [exact V|]. intros u S. inversion S as [? l' ? P' IL|? ? P' ? ?]; subst; [rewrite P in P'; injection P' as <-; auto|rewrite P' in P; discriminate].
  - assert (PL : shape_of t = Plain) by (destruct (shape_of t); try discriminate; reflexivity).
    assert (LEAF : forall r0 w0, Some (false, t :: v) = Some (r0, w0) -> (forall u, step t u -> u = t) -> incl v w0 /\ In t w0 /\ (r0 = true -> void_in t) /\ (r0 = false -> done v w0)).
    { intros r0 w0 [= <- <-] N. split; [apply incl_tl, incl_refl|]. split; [now left|]. split; [discriminate|]. intros _ x [<-|X]; [right; split; [exact V|intros u S; left; symmetry; now apply N]|auto]. }
    destruct (thenable t) eqn:T; cbn [negb] in H.
    + destruct (awaited t) as [u|] eqn:A.
      * destruct (Z.eqb_spec u t) as [->|NE].
        -- apply LEAF; auto. intros x S. inversion S as [? ? ? P' ?|? ? ? ? A']; subst; congruence.
        -- destruct (IH _ _ _ _ H) as (I1 & I2 & I3 & I4). split; [intros x X; apply I1; now right|]. split; [apply I1; now left|]. split; [intros R; eapply vi_awaited; eauto|].
           intros R x X. destruct (I4 R x X) as [[<-|Y]|Y]; auto. right. split; [exact V|]. intros y S. inversion S as [? ? ? P' ?|? ? ? ? A']; subst; [congruence|]. rewrite A in A'. now injection A' as <-.
      * apply LEAF; auto. intros x S. inversion S as [? ? ? P' ?|? ? ? ? A']; subst; congruence.
    + apply LEAF; auto. intros x S. inversion S as [? ? ? P' ?|? ? ? T' A']; subst; congruence.
Qed.
Lemma closed_no_void w : (forall t, In t w -> void_type t = false /\ forall u, step t u -> In u w) -> forall t, void_in t -> ~ In t w.
Proof.
  intros C t H. induction H as [t V|t l p P I _ IH|t u P T A _ IH]; intros J.
  - destruct (C t J). congruence.
  - apply IH. destruct (C t J) as [_ S]. apply S. econstructor; eauto.
  - apply IH. destruct (C t J) as [_ S]. apply S. eapply st_awaited; eauto.
Qed.
(** It ends if only finitely many types are met. *)
Definition left_over (all v : list Z) : nat := length (filter (fun t => negb (existsb (Z.eqb t) v)) all).
Lemma left_mono all v w : incl v w -> (left_over all w <= left_over all v)%nat.
Proof.
  intros I. unfold left_over. induction all as [|t all IH]; [auto|]. cbn [filter]. destruct (existsb (Z.eqb t) v) eqn:V; cbn [negb].
  - assert (W : existsb (Z.eqb t) w = true) by (apply mem_spec, I; now apply mem_spec). rewrite W. exact IH.
  - destruct (existsb (Z.eqb t) w); cbn [negb List.length]; lia.
Qed.
Lemma left_less all v t : In t all -> existsb (Z.eqb t) v = false -> (left_over all (t :: v) < left_over all v)%nat.
Proof.
  intros I V. unfold left_over. induction all as [|x all IH]; [contradiction|]. cbn [filter existsb].
  pose proof (left_mono all v (t :: v) (incl_tl t (incl_refl v))) as LM. unfold left_over in LM. cbn [existsb] in LM. destruct (Z.eqb_spec x t) as [->|NE]; cbn [orb negb].
  - rewrite V. cbn [negb List.length]. lia.
  - destruct I as [->|I]; [congruence|]. specialize (IH I). cbn [existsb] in IH. destruct (existsb (Z.eqb x) v); cbn [negb List.length]; lia.
Qed.
Lemma visit_ends all : (forall t u, In t all -> step t u -> In u all) -> forall fuel v t, In t all -> (left_over all v < fuel)%nat -> visit fuel v (Some t) <> None.
Proof.
  intros CL. induction fuel as [|fuel IH]; intros v t I L; [lia|]. rewrite visit_S. destruct (existsb (Z.eqb t) v) eqn:M; [discriminate|]. pose proof (left_less all v t I M) as LL. destruct (void_type t); [discriminate|].
  destruct (parts_of (shape_of t)) as [l|] eqn:P.
  - assert (S : forall l v0, incl l all -> (left_over all v0 < fuel)%nat -> some_visit fuel l v0 <> None).
    { clear l P. induction l as [|p l IHl]; intros v0 IL L0; cbn [some_visit]; [discriminate|]. pose proof (IH v0 p (IL p (or_introl eq_refl)) L0) as N. destruct (visit fuel v0 (Some p)) as [[[] v1]|] eqn:E; [discriminate| |congruence].
      fold (some_visit fuel). apply IHl; [intros x X; apply IL; now right|]. pose proof (proj1 (visit_ok _ _ _ _ _ E)) as IN. pose proof (left_mono all _ _ IN). lia. }
    apply S; [|lia]. intros p X. eapply CL; [exact I|]. econstructor; eauto.
  - destruct (thenable t) eqn:T; cbn [negb]; [|discriminate]. destruct (awaited t) as [u|] eqn:A; [|discriminate]. destruct (u =? t); [discriminate|]. apply IH; [|lia]. eapply CL; [exact I|]. eapply st_awaited; eauto. destruct (shape_of t); try discriminate; reflexivity.
Qed.
(** A function may return void: some signature returns [void], alone or in a union; for an async function, [void] wherever it may be in promises. *)
Theorem C48_void : forall (f : function) all, (forall t, In t (fn_signatures f) -> In t all) -> (forall t u, In t all -> step t u -> In u all) ->
  exists r, is_return_void void_type shape_of thenable awaited (S (length all)) f = Some r /\
  (r = true <-> exists t, In t (fn_signatures f) /\ if fn_async f then void_in t else void_type t = true /\ (forall l, shape_of t <> Union l) \/ exists l p, shape_of t = Union l /\ In p l /\ void_type p = true).
Proof.
  intros f all IN CL. unfold is_return_void. induction (fn_signatures f) as [|t l IH]; [exists false; split; [reflexivity|split; [discriminate|intros (t & [] & _)]]|].
  destruct IH as (r & E & SP); [intros; apply IN; now right|]. destruct (fn_async f) eqn:AS.
  - pose proof (visit_ends all CL (S (length all)) [] t (IN t (or_introl eq_refl))) as N. destruct (visit (S (length all)) [] (Some t)) as [[[] w]|] eqn:V.
    + exists true. split; [reflexivity|]. split; [intros _|auto]. exists t. split; [now left|]. now apply (visit_ok _ _ _ _ _ V).
    + exists r. split; [exact E|]. rewrite SP. destruct (visit_ok _ _ _ _ _ V) as (_ & I & _ & D). specialize (D eq_refl). split; intros (u & U & H); [exists u; split; [now right|auto]|].
      destruct U as [<-|U]; [|eauto]. exfalso. eapply closed_no_void; [|exact H|exact I]. intros x X. destruct (D x X) as [[]|Y]. exact Y.
    + exfalso. apply N; [|reflexivity]. assert (FL : forall (q : Z -> bool) m, (length (filter q m) <= length m)%nat) by (clear; intros q; induction m as [|x m IH]; cbn; [lia|destruct (q x); cbn; lia]). unfold left_over. specialize (FL (fun t0 => negb (existsb (Z.eqb t0) [])) all). lia.
  - unfold union_parts. destruct (existsb void_type (match shape_of t with Union l0 => l0 | _ => [t] end)) eqn:X.
    + exists true. split; [reflexivity|]. split; [intros _|auto]. exists t. split; [now left|]. apply existsb_exists in X. destruct X as (p & P & VP). destruct (shape_of t) eqn:SH; [left|right|left]; cbn in P; try (destruct P as [<-|[]]; split; [auto|discriminate]). eauto.
    + exists r. split; [exact E|]. rewrite SP. split; intros (u & U & H); [exists u; split; [now right|auto]|]. destruct U as [<-|U]; [|eauto]. exfalso.
      assert (Y : existsb void_type (match shape_of t with Union l0 => l0 | _ => [t] end) = true); [|congruence]. apply existsb_exists. destruct H as [[H NU]|(l0 & p & SH & P & VP)]; [exists t; split; auto; destruct (shape_of t) eqn:SH; [now left|now destruct (NU l0)|now left]|rewrite SH; eauto].
Qed.
End Void.
Print Assumptions C48_void.
(** [Promise<number | Promise<void>>], with the promises awaited in turn; and a type that awaits itself in a circle. *)
Example C48_void_example :
  let void t := t =? 4 in let shape t := if t =? 2 then Union [3; 1] else if t =? 5 then Intersection [6; 7] else Plain in
  let thenable t := negb (t =? 3) in let awaited t := if t =? 0 then Some 2 else if t =? 1 then Some 4 else if t =? 6 then Some 5 else Some t in
  is_return_void void shape thenable awaited 20 (Fn 1 true false None [0]) = Some true /\
  is_return_void void shape thenable awaited 20 (Fn 1 false false None [0]) = Some false /\
  is_return_void void shape thenable awaited 20 (Fn 1 true false None [5]) = Some false.
Proof. now vm_compute. Qed.

(** ** The messages *)
(** Kind of the function and its name in quotes, if it has one. *)
Inductive called : function -> bstr -> Prop :=
| cd_plain id implicit sigs name : name = None \/ name = Some [] -> called (Fn id false implicit name sigs) (b "Function")
| cd_async id implicit sigs name : name = None \/ name = Some [] -> called (Fn id true implicit name sigs) (b "Async function")
| cd_named id implicit sigs name : name <> [] -> called (Fn id false implicit (Some name) sigs) (b "Function '" ++ name ++ b "'")
| cd_async_named id implicit sigs name : name <> [] -> called (Fn id true implicit (Some name) sigs) (b "Async function '" ++ name ++ b "'").
Theorem C48_messages : forall node f, exists text, called f text /\
  missing node f = (node, b "missingReturnValue", text ++ b " expected a return value.") /\
  unexpected node f = (node, b "unexpectedReturnValue", text ++ b " expected no return value.").
Proof.
  intros node [id a i n s]. exists (name_with_kind (Fn id a i n s)). split; [|split; reflexivity].
  destruct n as [[|c n]|]; destruct a; try (constructor; auto; fail).
  - change (name_with_kind (Fn id true i (Some (c :: n)) s)) with (b "Async function '" ++ (c :: n) ++ b "'"). constructor. discriminate.
  - change (name_with_kind (Fn id false i (Some (c :: n)) s)) with (b "Function '" ++ (c :: n) ++ b "'"). constructor. discriminate.
Qed.
Print Assumptions C48_messages.
Example C48_messages_example : missing 3 (Fn 1 true false (Some (b "f")) []) = (3, b "missingReturnValue", b "Async function 'f' expected a return value.").
Proof. reflexivity. Qed.
