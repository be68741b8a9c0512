From Coq Require Import Bool Arith Ascii String List Lia.
From Verif Require Import Base VoidReturn VoidReturnSpec VoidReturnProofs PropsVoidReturn.
From Verif Require Import VoidReturnPlaces VoidReturnPlacesSpec.
Import ListNotations.
Local Open Scope list_scope.

Lemma called_iff symbol n x : (forall e, n <> NComputed e) -> (member_name symbol (Some n) = x /\ x <> [] <-> called symbol n x).
Proof.
  intros NC. unfold called, member_name. split.
  - intros [E N]. split; [exact N|]. destruct symbol as [[|c s]|]; [right; split; [auto|]|left; subst; reflexivity|right; split; [auto|]];
      (destruct n as [s|s|s|s|s|e|]; [subst; constructor..|destruct (NC e); reflexivity|congruence]).
  - intros [N H]. split; [|exact N]. destruct H as [->|[[->| ->] H]].
    + destruct x as [|c x]; [contradiction|reflexivity].
    + inversion H; reflexivity.
    + inversion H; reflexivity.
Qed.

Section Listeners.
Context (allow_any : bool) (contextual : nat -> option ftype) (function_of : nat -> given).
Notation say := (report_if allow_any function_of).
Definition keep (c : bool) (n : nat) : list nat := if c then [n] else [].
Definition ok (n : nat) : bool := check_expression (contextual n).
Lemma ok_iff n : ok n = true <-> expected contextual n.
Proof. unfold ok, expected. rewrite check_expression_iff. reflexivity. Qed.
Definition maybe (e : option nat) : list nat := match e with Some n => keep (ok n) n | None => [] end.
Fixpoint chosen_arguments (sigs : list signature) (i : nat) (l : list element) : list nat :=
  match l with
  | [] => []
  | ESpread _ :: l => chosen_arguments sigs (S i) l
  | EExpr n :: l => keep (argument_judged sigs i (Plain (contextual n))) n ++ chosen_arguments sigs (S i) l
  end.
Definition object_member (symbol : option bstr) (name : option name_node) (o : option (bstr -> option ftype)) : option ftype :=
  match o with None => None | Some members => match member_name symbol name with [] => None | x => members x end end.
Definition chosen (s : site) : list nat :=
  match s with
  | ArrayLiteral l => flat_map (fun e => match e with EExpr n => keep (ok n) n | ESpread _ => [] end) l
  | Arrow block body => if block then [] else maybe body
  | Binary assignment n => keep (assignment && ok n) n
  | CallOrNew sigs l => chosen_arguments sigs 0 l
  | Jsx a => match a with AExpression e => maybe e | _ => [] end
  | ObjectMethod n symbol name o => keep (object_method_judged (is_computed name) (object_member symbol name o)) n
  | ClassMethod n bases m has_body => match m with Some m => keep (method_judged bases m has_body) n | None => [] end
  | ClassProperty bases m initial => match initial with None => [] | Some n => keep (match m with Some m => property_judged bases m (Some (contextual n)) | None => ok n end) n end
  | PropertyAssignment n | Shorthand n => keep (ok n) n
  | ReturnStatement e | Declared e => maybe e
  | Elsewhere _ => []
  end.
Lemma keep_say c n : flat_map say (keep c n) = if c then say n else [].
Proof. destruct c; cbn [keep flat_map]; [apply app_nil_r|reflexivity]. Qed.
Lemma check_say n : check allow_any contextual function_of n = flat_map say (keep (ok n) n).
Proof. rewrite keep_say. reflexivity. Qed.
Lemma opt_say e : check_opt allow_any contextual function_of e = flat_map say (maybe e).
Proof. destruct e as [n|]; [apply check_say|reflexivity]. Qed.
Lemma flat_flat (A B C : Type) (f : A -> list B) (g : B -> list C) l : flat_map g (flat_map f l) = flat_map (fun x => flat_map g (f x)) l.
Proof. induction l as [|x l IH]; [reflexivity|]. cbn [flat_map]. rewrite flat_map_app, IH. reflexivity. Qed.
Lemma arguments_say sigs l : forall i, check_arguments allow_any contextual function_of sigs i l = flat_map say (chosen_arguments sigs i l).
Proof. induction l as [|[n|n] l IH]; intros i; cbn [check_arguments chosen_arguments]; [reflexivity|apply IH|]. rewrite flat_map_app, keep_say, IH. reflexivity. Qed.
Lemma listen_say s : listen allow_any contextual function_of s = flat_map say (chosen s).
Proof.
  destruct s as [l|block body|assignment n|sigs l|a|n symbol name o|n bases m hb|bases m e|n|n|e|e|l]; cbn [listen chosen].
  - rewrite flat_flat. apply flat_map_ext. intros [n|n]; [reflexivity|apply check_say].
  - destruct block; [reflexivity|apply opt_say].
  - destruct assignment; [apply check_say|reflexivity].
  - apply arguments_say.
  - destruct a as [| |e]; try reflexivity. apply opt_say.
  - rewrite keep_say. reflexivity.
  - destruct m as [m|]; [rewrite keep_say|]; reflexivity.
  - destruct e as [n|]; [rewrite keep_say|]; reflexivity.
  - apply check_say.
  - apply check_say.
  - apply opt_say.
  - apply opt_say.
  - reflexivity.
Qed.
Lemma run_say l : run allow_any contextual function_of l = flat_map say (flat_map chosen l).
Proof. unfold run. rewrite flat_flat. apply flat_map_ext. intros s. apply listen_say. Qed.

Lemma in_keep c n m : In m (keep c n) <-> c = true /\ m = n.
Proof. destruct c; cbn; split; [intros [<-|[]]; auto|intros [_ ->]; auto|intros []|intros [H _]; discriminate]. Qed.
Lemma in_maybe e m : In m (maybe e) <-> e = Some m /\ expected contextual m.
Proof.
  destruct e as [n|]; cbn [maybe]; [rewrite in_keep, ok_iff|split; [intros []|intros [H _]; discriminate]]. split; [intros [H ->]; auto|intros [H K]; injection H as ->; auto].
Qed.
Lemma argument_iff sigs i n : argument_judged sigs i (Plain (contextual n)) = true <-> callback contextual sigs i n.
Proof.
  unfold callback, expected. cbn [argument_judged]. cbv zeta.
  assert (W1 : forallb (fun r => is_void r || nullish_or_any r || is_parameter r) (expected_results sigs i) = true <-> forall r, wanted sigs i r -> exists p, r = One p /\ In p [VoidPart; UndefinedPart; NullPart; AnyPart; NeverPart; ParameterPart]).
  { rewrite forallb_forall. split.
    - intros H r W. apply wanted_iff in W. apply H in W. destruct r as [p|ps]; [|discriminate]. exists p. split; [reflexivity|]. destruct p; cbn in W; try discriminate; cbn; auto 10.
    - intros H r I. apply wanted_iff in I. destruct (H r I) as [p [-> K]]. destruct K as [<-|[<-|[<-|[<-|[<-|[<-|[]]]]]]]; reflexivity. }
  assert (W2 : existsb is_void (expected_results sigs i) = true <-> wanted sigs i (One VoidPart)).
  { rewrite existsb_exists, <- wanted_iff. split; [|intros H; exists (One VoidPart); auto]. intros [r [I E]]. destruct r as [[]|]; try discriminate. exact I. }
  assert (W3 : forallb nullish_or_any (expected_results sigs i) = true <-> forall r, wanted sigs i r -> exists p, r = One p /\ In p [VoidPart; UndefinedPart; NullPart; AnyPart; NeverPart]).
  { rewrite forallb_forall. split.
    - intros H r W. apply wanted_iff in W. apply H in W. destruct r as [p|ps]; [|discriminate]. exists p. split; [reflexivity|]. destruct p; cbn in W; try discriminate; cbn; auto 10.
    - intros H r I. apply wanted_iff in I. destruct (H r I) as [p [-> K]]. destruct K as [<-|[<-|[<-|[<-|[<-|[]]]]]]; reflexivity. }
  rewrite <- W1, <- W2, <- W3, <- check_expression_iff, <- (Nat.eqb_eq (List.length sigs) 1), <- orb_true_iff, <- !andb_true_iff, <- orb_true_iff.
  destruct ((_ || _) && check_expression _); reflexivity.
Qed.
Lemma in_arguments sigs n l : forall i, In n (chosen_arguments sigs i l) <-> exists before after, l = before ++ EExpr n :: after /\ callback contextual sigs (i + List.length before) n.
Proof.
  induction l as [|e l IH]; intros i.
  - cbn. split; [intros []|]. intros [[|x bf] [af [E _]]]; discriminate.
  - assert (T : (exists before after, e :: l = before ++ EExpr n :: after /\ callback contextual sigs (i + List.length before) n) <-> (e = EExpr n /\ callback contextual sigs i n) \/ In n (chosen_arguments sigs (S i) l)).
    { rewrite IH. split.
      - intros [[|x bf] [af [E C]]]; injection E as E1 E2.
        + left. cbn in C. rewrite Nat.add_0_r in C. auto.
        + right. exists bf, af. split; [exact E2|]. cbn [List.length] in C. replace (S i + List.length bf) with (i + S (List.length bf)) by lia. exact C.
      - intros [[-> C]|[bf [af [-> C]]]].
        + exists [], l. cbn. rewrite Nat.add_0_r. auto.
        + exists (e :: bf), af. split; [reflexivity|]. cbn [List.length]. replace (i + S (List.length bf)) with (S i + List.length bf) by lia. exact C. }
    rewrite T. destruct e as [m|m]; cbn [chosen_arguments].
    + split; [auto|]. intros [[H _]|H]; [discriminate|exact H].
    + rewrite in_app_iff, in_keep, argument_iff. split; (intros [H|H]; [left|right; exact H]).
      * destruct H as [H ->]. auto.
      * destruct H as [H K]. injection H as ->. auto.
Qed.
Lemma inherited_iff bases m : existsb void_function (base_members bases m) = true <-> inherited bases (Some m).
Proof.
  unfold inherited, base_members. rewrite existsb_exists. split.
  - intros [t [I V]]. apply in_flat_map in I as [c [C I]]. destruct (instance_members c (mname m)) as [u|] eqn:E; [|destruct I]. destruct I as [<-|[]]. apply void_function_iff in V. exists m, c, u. auto.
  - intros [x [c [t [E [C [M V]]]]]]. injection E as <-. apply void_function_iff in V. exists t. split; [|exact V]. apply in_flat_map. exists c. split; [exact C|]. rewrite M. left. reflexivity.
Qed.
Lemma chosen_iff s n : In n (chosen s) <-> judged contextual s n.
Proof.
  destruct s as [l|block body|assignment k|sigs l|a|k symbol name o|k bases m hb|bases m e|k|k|e|e|l]; cbn [chosen].
  - rewrite in_flat_map. split.
    + intros [[k|k] [I H]]; [destruct H|]. apply in_keep in H as [H ->]. apply ok_iff in H. constructor; assumption.
    + intros H. inversion H; subst. exists (EExpr n). split; [assumption|]. apply in_keep. split; [apply ok_iff; assumption|reflexivity].
  - destruct block; [split; [intros []|intros H; inversion H]|]. rewrite in_maybe. split; [intros [-> H]; constructor; exact H|intros H; inversion H; subst; auto].
  - rewrite in_keep, andb_true_iff, ok_iff. split; [intros [[-> H] ->]; constructor; exact H|intros H; inversion H; subst; auto].
  - rewrite in_arguments. split.
    + intros [bf [af [-> C]]]. constructor. exact C.
    + intros H. inversion H; subst. eexists _, _. split; [reflexivity|assumption].
  - destruct a as [| |e]; [split; [intros []|intros H; inversion H]..|]. rewrite in_maybe. split; [intros [-> H]; constructor; exact H|intros H; inversion H; subst; auto].
  - rewrite in_keep. split.
    + intros [H ->]. unfold object_method_judged, object_member in H. destruct (is_computed name) eqn:C; [discriminate|]. destruct o as [members|]; [|discriminate]. destruct name as [name|]; [|discriminate].
      assert (NC : forall e, name <> NComputed e) by (intros e ->; discriminate).
      destruct (member_name symbol (Some name)) as [|c x] eqn:M; [discriminate|]. destruct (members (c :: x)) as [t|] eqn:T; [|discriminate]. apply void_function_iff in H.
      eapply ju_object; [|exact NC|exact T|exact H]. apply (called_iff _ _ _ NC). split; [exact M|discriminate].
    + intros H. inversion H as [| | | | |k' s' name' x members t CA NC T V E| | | | | | |]; subst. split; [|reflexivity]. apply (called_iff _ _ _ NC) in CA as [M N]. unfold object_method_judged, object_member. assert (C : is_computed (Some name') = false) by (destruct name'; try reflexivity; destruct (NC e eq_refl)). rewrite C, M. destruct x as [|c x]; [contradiction|]. rewrite T. apply void_function_iff. exact V.
  - destruct m as [m|].
    + rewrite in_keep. unfold method_judged. rewrite andb_true_iff, inherited_iff. split; [intros [[-> H] ->]; constructor; exact H|intros H; inversion H; subst; auto].
    + split; [intros []|]. intros H. inversion H as [| | | | | |k' b' m' I E| | | | | |]; subst. destruct I as [x [c [t [E _]]]]. discriminate.
  - destruct e as [k|]; [|split; [intros []|intros H; inversion H]]. rewrite in_keep. destruct m as [m|].
    + cbn [property_judged]. fold (ok k). rewrite orb_true_iff, inherited_iff, ok_iff. split; [intros [[H|H] ->]; [apply ju_property_base; exact H|apply ju_property; exact H]|intros H; inversion H; subst; auto].
    + rewrite ok_iff. split; [intros [H ->]; apply ju_property; exact H|]. intros H. inversion H as [| | | | | | |b' m' k' I E| | | | |]; subst; auto. destruct I as [x [c [t [E _]]]]. discriminate.
  - rewrite in_keep, ok_iff. split; [intros [H ->]; constructor; exact H|intros H; inversion H; subst; auto].
  - rewrite in_keep, ok_iff. split; [intros [H ->]; constructor; exact H|intros H; inversion H; subst; auto].
  - rewrite in_maybe. split; [intros [-> H]; constructor; exact H|intros H; inversion H; subst; auto].
  - rewrite in_maybe. split; [intros [-> H]; constructor; exact H|intros H; inversion H; subst; auto].
  - split; [intros []|intros H; inversion H].
Qed.

(** Counting. *)
Notation count := (count_occ Nat.eq_dec).
Lemma keep_count c n m : count (keep c n) m <= count [n] m.
Proof. destruct c; cbn [keep]; [lia|]. cbn. destruct (Nat.eq_dec n m); lia. Qed.
Lemma maybe_count e m : count (maybe e) m <= count (opt e) m.
Proof. destruct e as [n|]; cbn [maybe opt]; [apply keep_count|cbn; lia]. Qed.
Lemma arguments_count sigs l m : forall i, count (chosen_arguments sigs i l) m <= count (map number l) m.
Proof.
  induction l as [|e l IH]; intros i; [cbn; lia|]. cbn [map]. change (number e :: map number l) with ([number e] ++ map number l). rewrite count_occ_app. specialize (IH (S i)). destruct e as [n|n]; cbn [chosen_arguments number].
  - lia.
  - rewrite count_occ_app. pose proof (keep_count (argument_judged sigs i (Plain (contextual n))) n m). lia.
Qed.
Lemma elements_count l m : count (flat_map (fun e => match e with EExpr n => keep (ok n) n | ESpread _ => [] end) l) m <= count (map number l) m.
Proof.
  induction l as [|e l IH]; [cbn; lia|]. cbn [map flat_map]. change (number e :: map number l) with ([number e] ++ map number l). rewrite !count_occ_app. destruct e as [n|n]; cbn [number].
  - cbn [count_occ]. lia.
  - pose proof (keep_count (ok n) n m). lia.
Qed.
Lemma chosen_count s m : count (chosen s) m <= count (members s) m.
Proof.
  destruct s as [l|block body|assignment k|sigs l|a|k symbol name o|k bases mm hb|bases mm e|k|k|e|e|l]; cbn [chosen members].
  - apply elements_count.
  - destruct block; [cbn; lia|apply maybe_count].
  - apply keep_count.
  - apply arguments_count.
  - destruct a as [| |e]; try (cbn; lia). apply maybe_count.
  - apply keep_count.
  - destruct mm; [apply keep_count|cbn; lia].
  - destruct e; [apply keep_count|cbn; lia].
  - apply keep_count.
  - apply keep_count.
  - apply maybe_count.
  - apply maybe_count.
  - cbn; lia.
Qed.
Lemma file_count l m : count (flat_map chosen l) m <= count (flat_map members l) m.
Proof. induction l as [|s l IH]; [cbn; lia|]. cbn [flat_map]. rewrite !count_occ_app. pose proof (chosen_count s m). lia. Qed.
Lemma filter_say n m : filter (fun p : nat * report => Nat.eqb (fst p) n) (say m) = if Nat.eqb m n then say m else [].
Proof.
  unfold report_if. induction (judge allow_any (function_of m)) as [|r l IH]; [destruct (Nat.eqb m n); reflexivity|]. cbn [map filter fst]. rewrite IH. destruct (Nat.eqb m n); reflexivity.
Qed.
Lemma filter_chosen n L : count L n <= 1 -> filter (fun p : nat * report => Nat.eqb (fst p) n) (flat_map say L) = if in_dec Nat.eq_dec n L then say n else [].
Proof.
  induction L as [|m L IH]; intros H; [reflexivity|]. cbn [flat_map]. rewrite filter_app, filter_say. cbn [count_occ] in H. destruct (Nat.eq_dec m n) as [->|D].
  - rewrite Nat.eqb_refl. assert (Z : count L n = 0) by lia. rewrite IH by lia. apply count_occ_not_In in Z. destruct (in_dec Nat.eq_dec n L); [contradiction|]. destruct (in_dec Nat.eq_dec n (n :: L)) as [_|N]; [apply app_nil_r|destruct N; left; reflexivity].
  - apply Nat.eqb_neq in D as E. rewrite E, IH by exact H. cbn [app]. destruct (in_dec Nat.eq_dec n L) as [I|I]; destruct (in_dec Nat.eq_dec n (m :: L)) as [J|J]; try reflexivity; [destruct J; right; exact I|destruct J; contradiction].
Qed.
End Listeners.
