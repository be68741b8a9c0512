(** no-unsafe-argument (internal/rules/no_unsafe_argument/no_unsafe_argument.go). *)
From Coq Require Import Bool List Arith.
Import ListNotations.

(** Elements of tuple types: ElementFlagsRequired, ElementFlagsOptional, ElementFlagsVariable (a rest or variadic element). *)
Inductive element := Required | Optional | Variable_.

Section Types.
(** Types.  [is_any]: utils.IsTypeAnyType; [any_array]: utils.IsTypeAnyArrayType; [tuple]: the type arguments of a tuple type with the flags of its elements.
    [unsafe]: whether utils.IsUnsafeAssignment says so (its theorems are those of C33); it is also told whether it is given the expression that is sent. *)
Context {T : Type} (is_any any_array : T -> bool) (tuple : T -> option (list (T * element))) (unsafe : bool -> T -> T -> bool).

(** * Signatures *)
(** 38-79, 107-126: parameters up to a rest parameter, and the type of that one by kind ([RestOther None]: there is none).  The caching of types is left out. *)
Inductive rest_type := RestArray (t : T) | RestTuple (l : list (T * element)) | RestOther (t : option T).
Record signature := { parameters : list T; rest : rest_type }.
(** 83-85 [hasConsumedArguments], [parameterTypeIndex]. *)
Record state := { consumed : bool; index : nat }.
(** 103-105 [skipParameter]. *)
Definition skip (s : state) : state := {| consumed := consumed s; index := S (index s) |}.
(** 97-99 [consumeRemainingArguments]. *)
Definition consume (s : state) : state := {| consumed := true; index := index s |}.
(** 128-163 [getNextParameterType]: the type; the state after it is [skip s]. *)
Definition next (g : signature) (s : state) : option T :=
  if (length (parameters g) <=? index s) || consumed s then
    match rest g with
    | RestTuple l =>
        match l with
        | [] => None
        | _ =>
            if consumed s then option_map fst (nth_error l (length l - 1))
            else let i := index s - length (parameters g) in
                 if length l <=? i then option_map fst (nth_error l (length l - 1)) else option_map fst (nth_error l i)
        end
    | RestArray t => Some t
    | RestOther t => t
    end
  else nth_error (parameters g) (index s).

(** * Arguments *)
(** [can]: 172-193 [argumentCanBeUnsafe], true of a spread. *)
Inductive argument := Plain (can : bool) (t : T) | Spread (t : T).
(** 13-34 the messages, with the argument they are reported on, what is sent and what receives it. *)
Inductive report := UnsafeArgument (i : nat) (t p : T) | UnsafeSpread (i : nat) (t : T) | UnsafeArraySpread (i : nat) (t : T) | UnsafeTupleSpread (i : nat) (t p : T).
(** 265-282: the elements of a tuple. *)
Fixpoint check_tuple (g : signature) (i : nat) (l : list (T * element)) (s : state) : list report * state :=
  match l with
  | [] => ([], s)
  | (t, _) :: l =>
      let r := match next g s with Some p => if unsafe false t p then [UnsafeTupleSpread i t p] else [] | None => [] end in
      let '(rs, s) := check_tuple g i l (skip s) in (r ++ rs, s)
  end.
(** 283: TupleType_combinedFlags & ElementFlagsVariable. *)
Definition combined (l : list (T * element)) : bool := existsb (fun e => match snd e with Variable_ => true | _ => false end) l.
(** 248-314: the loop. *)
Fixpoint check_arguments (g : signature) (i : nat) (args : list argument) (s : state) : list report :=
  match args with
  | [] => []
  | Spread t :: args =>
      if is_any t then UnsafeSpread i t :: check_arguments g (S i) args s
      else if any_array t then UnsafeArraySpread i t :: check_arguments g (S i) args s
      else match tuple t with
      | Some l => let '(rs, s) := check_tuple g i l s in rs ++ check_arguments g (S i) args (if combined l then consume s else s)
      | None => check_arguments g (S i) args s
      end
  | Plain can t :: args =>
      (if can then match next g s with Some p => if unsafe true t p then [UnsafeArgument i t p] else [] | None => [] end else []) ++ check_arguments g (S i) args (skip s)
  end.
(** 222-316 [checkUnsafeArguments]. *)
Definition check (callee : T) (tagged : bool) (g : signature) (args : list argument) : list report :=
  if negb (existsb (fun a => match a with Plain can _ => can | Spread _ => true end) args) then []
  else if is_any callee then []
  else check_arguments g 0 args (let s := {| consumed := false; index := 0 |} in if tagged then skip s else s).
End Types.
Arguments rest_type : clear implicits. Arguments signature : clear implicits. Arguments argument : clear implicits. Arguments report : clear implicits.
