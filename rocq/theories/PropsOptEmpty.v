(** C62: prefer-optional-chain on (x || {}).y and (x ?? {}).y: what it reports, and when the new text means the same. *)
From Coq Require Import String Ascii Bool List ZArith Lia.
From Verif Require Import Base EngineProofs OptChain OptChainSpec OptChainProofs OptChainReport OptEmpty OptEmptySpec OptEmptyProofs.
Import ListNotations.
Open Scope nat_scope.

(** What is reported, and when the change is made. *)
Theorem C62_reported opts type_of size a p sugg : (exists x, empty_fix opts type_of size a p = Some (x, sugg)) <->
  sugg = negb (unsafe opts) /\ exists n k l r, of_default size a p n k l r /\ (require_nullish opts = true -> In ANull (type_of l) \/ In AUndef (type_of l)).
Proof.
  split.
  - intros [x H]. apply fix_iff in H as (n & k & l & r & D & Q & E). injection E as _ ->. split; [reflexivity|]. exists n, k, l, r. auto.
  - intros (-> & n & k & l & r & D & Q). exists (left_text l ++ new_step a). apply fix_iff. exists n, k, l, r. auto.
Qed.
Print Assumptions C62_reported.
(** If the || or ?? is what the property is taken of, the new text is one expression, an optional chain (so it must not stand where one is not allowed: assigned to, after new, before a template),
    and with any further steps it gives what the old one gave, if the old one did not throw, the object without properties lacks the property indeed and, for ||, the left operand is not false, 0, '' and so on. *)
Theorem C62_right opts type_of size c k t l r s x sugg : default_op k t -> no_properties size r -> around (Bin k l r) c -> single_step s -> fits (step_on c (s, false)) -> closed_text l ->
  empty_fix opts type_of size (step_on c (s, false)) InObject = Some (x, sugg) ->
  exists e', text e' = x /\ fits e' /\ level e' = 17 /\ chained e' = true /\
    forall w more o, result w r = Val o -> nullishb o = false -> lacks w o s -> (t = true -> forall v, result w l = Val v -> ~ falsy_only v) ->
      result w (steps_on (step_on c (s, false)) more) <> Throw -> result w (steps_on (step_on c (s, false)) more) = result w (steps_on e' more).
Proof. apply empty_right. Qed.
Print Assumptions C62_right.

Section Concrete.
Let defaults := Options false true true true true true true false.
Let careful := Options false true true true true true true true.
Let size n := if Z.eqb n 0 then Some 0 else if Z.eqb n 1 then Some 1 else None.
Let types : expr -> ty := fun _ => [AObject; AUndef].
Let fixd a p := empty_fix defaults types size a p.
Let va := Id (b "a").
Let vx := Id (b "x").
Let none := Opaque Collection 0%Z.
Let dot o n q := Dot o false (b n) q.
Let world x o props := World (fun n => if beqb n (b "a") then Some x else if beqb n (b "x") then Some (Object 5) else None) Undef Undef (fun _ => Some o)
  props (fun v k => match v, k with Object 5, Object 1 => Some (Object 9) | Object 1, Object 1 => Some (Object 3) | _, _ => Some Undef end)
  (fun _ _ _ => Some (Number 4)) (fun _ _ => None) (fun _ _ => None) (fun v => Some v) (fun _ => None) (fun _ _ _ => None) (fun _ => []) (fun _ _ => false) (fun _ _ => false) (fun _ _ _ => None).
Let one : value -> bool -> bstr -> option value := fun v _ n => match v with Object 8 => Some Undef | _ => Some (Object 2) end.
(** [(a || {}).b] and [(await a ?? ({}))[x]]. *)
Example C62_reported_example :
  fixd (dot (Paren (Bin Or va none)) "b" false) InObject = Some ([TLeaf va; TDot false (b "b") true], true)
  /\ fixd (Elem (Paren (Bin Coal (Await va) (Paren none))) vx false) InObject = Some ([TOpen; TAwait; TLeaf va; TClose; TIdx vx true], true)
  /\ empty_fix (Options true true true true true true true false) types size (dot (Paren (Bin Or va none)) "b" false) InObject = Some ([TLeaf va; TDot false (b "b") true], false).
Proof. vm_compute. auto. Qed.
(** [(a || {p: 1}).b], [(a || []).b], [(a || {})?.b], [(a && {}).b], [((a || {})).b], and [(a || {}).b] with requireNullish. *)
Example C62_silent_example :
  fixd (dot (Paren (Bin Or va (Opaque Collection 1))) "b" false) InObject = None /\ fixd (dot (Paren (Bin Or va (Opaque Collection 2))) "b" false) InObject = None
  /\ fixd (dot (Paren (Bin Or va none)) "b" true) InObject = None /\ fixd (dot (Paren (Bin And va none)) "b" false) InObject = None
  /\ fixd (dot (Paren (Paren (Bin Or va none))) "b" false) InObject = None
  /\ empty_fix careful (fun _ => [AObject]) size (dot (Paren (Bin Or va none)) "b" false) InObject = None.
Proof. vm_compute. auto 10. Qed.
(** [(a || {}).b?.c()] and [a?.b?.c()], with and without a. *)
Example C62_right_example :
  let more := [(LName false (b "c"), true); (LArgs None Nil, false)] in
  result (world Undef (Object 8) one) (steps_on (dot (Paren (Bin Or va none)) "b" false) more) = Val Undef
  /\ result (world Undef (Object 8) one) (steps_on (dot va "b" true) more) = Val Undef
  /\ result (world (Object 1) (Object 8) one) (steps_on (dot (Paren (Bin Or va none)) "b" false) more) = Val (Number 4)
  /\ result (world (Object 1) (Object 8) one) (steps_on (dot va "b" true) more) = Val (Number 4).
Proof. vm_compute. auto. Qed.

(** What the new text is for an access at [p]. *)
Let becomes a p e' := fits a /\ fixd a p = Some (text e', true) /\ fits e'.
Ltac concrete := repeat split; try (vm_compute; reflexivity); try lia; cbn; try lia.
(** [x[a || {}]] becomes [a?.[a || {}]]. *)
Theorem C62_index_refuted : exists a e' w, becomes a InIndex e' /\ result w a = Val (Object 9) /\ result w e' = Val (Object 3).
Proof. exists (Elem vx (Bin Or va none) false), (Elem va (Bin Or va none) true), (world (Object 1) (Object 8) one). concrete. Qed.
Print Assumptions C62_index_refuted.
(** [(<T>!a || {}).b] becomes [<T>!a?.b]. *)
Theorem C62_cast_refuted : exists a e' w, becomes a InObject e' /\ result w a = Val (Object 2) /\ result w e' = Val (Boolean true).
Proof. exists (dot (Paren (Bin Or (Cast (b "T") (Pre Not va)) none)) "b" false), (Cast (b "T") (Pre Not (dot va "b" true))), (world Undef (Object 8) one). concrete. Qed.
Print Assumptions C62_cast_refuted.
(** [(a || {}).length] becomes [a?.length]; a is ''. *)
Theorem C62_falsy_refuted : exists a e' w, becomes a InObject e' /\ result w a = Val Undef /\ result w e' = Val (Number 0).
Proof. exists (dot (Paren (Bin Or va none)) "length" false), (dot va "length" true), (world (String_ []) (Object 8) (fun v _ n => match v with String_ s => Some (Number (Z.of_nat (length s))) | _ => Some Undef end)). concrete. Qed.
Print Assumptions C62_falsy_refuted.
(** [(a ?? {}).toString] becomes [a?.toString]; a is null. *)
Theorem C62_property_refuted : exists a e' w, becomes a InObject e' /\ result w a = Val (Object 6) /\ result w e' = Val Undef.
Proof. exists (dot (Paren (Bin Coal va none)) "toString" false), (dot va "toString" true), (world Nul (Object 8) (fun v _ n => if beqb n (b "toString") then Some (Object 6) else Some Undef)). concrete. Qed.
Print Assumptions C62_property_refuted.
(** [(a || {}).b.c] becomes [a?.b.c]; a is undefined. *)
Theorem C62_throw_refuted : exists a e' w, becomes a InObject e' /\ result w (dot a "c" false) = Throw /\ result w (dot e' "c" false) = Val Undef.
Proof. exists (dot (Paren (Bin Or va none)) "b" false), (dot va "b" true), (world Undef (Object 8) one). concrete. Qed.
Print Assumptions C62_throw_refuted.
Lemma text_long e : 1 <= length (text e).
Proof. destruct e; cbn [text]; rewrite ?app_length; cbn [length]; try rewrite ?app_length; cbn [length]; lia. Qed.
Lemma text_leaf e x : text e = [TLeaf x] -> e = x.
Proof.
  destruct e; cbn [text]; intro H; try now injection H as ->.
  all: try (apply (f_equal (@length tok)) in H; rewrite ?app_length in H; cbn [length] in H; pose proof (text_long e) ; rewrite ?app_length in H; cbn [length] in H; lia).
  all: try (apply (f_equal (@length tok)) in H; rewrite ?app_length in H; cbn [length] in H; pose proof (text_long e1); pose proof (text_long e2); lia).
Qed.
(** [(new a || {}).b] becomes [new a?.b]. *)
Theorem C62_new_refuted : exists a x, fits a /\ fixd a InObject = Some (x, true) /\ forall e', fits e' -> text e' <> x.
Proof.
  exists (dot (Paren (Bin Or (New va false Nil) none)) "b" false), [TLeaf (New va false Nil); TDot false (b "b") true]. split; [concrete|]. split; [vm_compute; reflexivity|].
  intros e' F H. change ([TLeaf (New va false Nil); TDot false (b "b") true]) with ([TLeaf (New va false Nil)] ++ [TDot false (b "b") true]) in H.
  destruct e'; cbn [text] in H; try discriminate H; try (apply app_inj_tail in H as [H G]; try discriminate G).
  - apply text_leaf in H. subst. cbn in F. lia.
  - apply (f_equal (@length tok)) in H. rewrite app_length in H. cbn [length] in H. pose proof (text_long e'1). pose proof (text_long e'2). cbn [length app] in H. lia.
Qed.
Print Assumptions C62_new_refuted.
End Concrete.
