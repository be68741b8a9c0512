(** Functions given as arguments where nothing should come back: internal/rules/no_misused_promises/no_misused_promises.go lines
    121-135, 226-244, 363-381, 448-622 (the rule no-misused-promises).
    Simplifications: types are given with the return types of their signatures; the labels that are added to a message (137-220, 485-489, 599) are left out; argument positions
    have one contextual type each (491), so that the second call of checkThenableOrVoidArgument (494) is the last. *)
From Coq Require Import Bool Arith List Lia.
Import ListNotations.

(** The return type of a signature: utils.IsThenableType says yes (126, 373), it has the flag void (377). *)
Record return_type := { thenable : bool; void : bool }.
(** A type: what it is compared by (493) and for each part of the union the call signatures. *)
Record ty := { id : nat; parts : list (list return_type) }.

(** 121-128 *)
Definition any_signature_thenable (sigs : list return_type) : bool := existsb thenable sigs.
(** 130-135 and 448-455 *)
Definition returns_thenable (t : ty) : bool := existsb any_signature_thenable (parts t).
(** 369-378: None is the return of 374. *)
Fixpoint signatures_void (sigs : list return_type) (had : bool) : option bool :=
  match sigs with
  | [] => Some had
  | r :: l => if thenable r then None else signatures_void l (had || void r)
  end.
(** 368-380 *)
Fixpoint parts_void (l : list (list return_type)) (had : bool) : bool :=
  match l with
  | [] => had
  | sigs :: l => match signatures_void sigs had with None => false | Some h => parts_void l h end
  end.
Definition void_returning (t : ty) : bool := parts_void (parts t) false.

(** A parameter (538-590): one of its own, the rest as an array of a type (545), the rest as a tuple (562), the rest as something else. *)
Inductive param := One (t : ty) | Rest (t : ty) | RestTuple (ts : list ty) | RestOther.
(** thenableReturnIndices and voidReturnIndices (521-522) *)
Record state := { thenables : list nat; voids : list nat }.
Definition mem (i : nat) (l : list nat) : bool := existsb (Nat.eqb i) l.
(** 477-490 *)
Definition note (t : ty) (i : nat) (s : state) : state :=
  if returns_thenable t then {| thenables := thenables s ++ [i]; voids := voids s |}
  else if void_returning t && negb (mem i (thenables s)) then {| thenables := thenables s; voids := voids s ++ [i] |}
  else s.

Section Call.
(** getContextualTypeForArgumentAtIndex (491); the number of arguments. *)
Context (contextual : nat -> ty) (n : nat).
(** 467-505 *)
Definition check_argument (t : ty) (i : nat) (s : state) : state :=
  let s := note t i s in
  if Nat.eqb (id (contextual i)) (id t) then s else note (contextual i) i s.
(** 550-561 *)
Fixpoint check_all (t : ty) (is : list nat) (s : state) : state :=
  match is with [] => s | i :: l => check_all t l (check_argument t i s) end.
(** 566-577 *)
Fixpoint check_tuple (ts : list ty) (i : nat) (s : state) : state :=
  match ts with
  | [] => s
  | t :: l => if Nat.ltb i n then check_tuple l (S i) (check_argument t i s) else s
  end.
(** 538-591 *)
Fixpoint check_params (ps : list param) (index : nat) (s : state) : state :=
  match ps with
  | [] => s
  | p :: l =>
      check_params l (S index)
        match p with
        | One t => check_argument t index s
        | Rest t => check_all t (seq index (n - index)) s
        | RestTuple ts => check_tuple ts index s
        | RestOther => s
        end
  end.
(** 529-593: the signatures of all parts of the type of what is called. *)
Fixpoint check_signatures (sigs : list (list param)) (s : state) : state :=
  match sigs with [] => s | ps :: l => check_signatures l (check_params ps 0 s) end.
End Call.

(** slices.Index and slices.Delete (596-598) *)
Fixpoint delete_first (i : nat) (l : list nat) : list nat :=
  match l with [] => [] | x :: l => if Nat.eqb i x then l else x :: delete_first i l end.
(** 595-601 *)
Fixpoint delete_all (is l : list nat) : list nat :=
  match is with [] => l | i :: is => delete_all is (delete_first i l) end.
(** 513-604 *)
Definition void_arguments (contextual : nat -> ty) (n : nat) (sigs : list (list param)) : list nat :=
  let s := check_signatures contextual n sigs {| thenables := []; voids := [] |} in
  delete_all (thenables s) (voids s).
(** 614-621 *)
Fixpoint report_args (v : list nat) (args : list ty) (i : nat) : list nat :=
  match args with
  | [] => []
  | a :: l => (if mem i v && returns_thenable a then [i] else []) ++ report_args v l (S i)
  end.
(** 606-622; [args]: the apparent types of the arguments (131); None: new without arguments (518). *)
Definition check_arguments (contextual : nat -> ty) (sigs : list (list param)) (args : option (list ty)) : list nat :=
  match args with
  | None => []
  | Some args =>
      match void_arguments contextual (List.length args) sigs with
      | [] => []
      | v => report_args v args 0
      end
  end.

(** 226-244, the listeners 907-908: for each property or element access that is a child of a call; [accesses] are such children.
    Each reports the first argument. *)
Record call := { accesses : nat; predicate_method : bool; given : list ty }.
Definition check_access (c : call) : nat :=
  match given c with [] => 0 | a :: _ => if predicate_method c && returns_thenable a then 1 else 0 end.
(** How often the first argument of a call is reported. *)
Fixpoint check_accesses (k : nat) (c : call) : nat :=
  match k with 0 => 0 | S k => check_access c + check_accesses k c end.
Definition predicates (option : bool) (c : call) : nat := if option then check_accesses (accesses c) c else 0.
