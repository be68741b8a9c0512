(** Types like built-in ones: internal/utils/builtin_symbol_likes.go; line numbers are of this file.  Rules ask by it for promises, errors, maps and more. *)
From Coq Require Import Bool Arith Ascii String List.
From Verif Require Import Base.
Import ListNotations.

(** A source file (18-51): a declaration file, whether the program knows it as one of the default library (23), its name. *)
Record source_file := { declaration_file : bool; known_default : bool; file_name : bstr }.
(** A symbol: name, the files of its declarations (61-62), a class or interface (258), the base types of its declared type (259-260). *)
Record symbol := { sname : bstr; files : list source_file; classlike : bool; bases : list nat }.
(** An alias of a type with its type arguments (170-171). *)
Record alias := { asymbol : symbol; arguments : list nat }.
(** A type: intersection, union, type parameter with its base constraint, or another with its symbol. *)
Inductive kind := Inter (l : list nat) | Union (l : list nat) | Param (constraint : option nat) | Plain.
Record type_info := { tkind : kind; tsymbol : option symbol; talias : option alias }.
(** 155-161 *)
Inductive verdict := Open | No | Yes.

Section Likes.
(** The types by their numbers; the options of the compiler (29-46): noLib, the paths of the library files; and when paths are the same (11-16). *)
Context (info : nat -> type_info) (no_lib : bool) (libs : list bstr) (same_path : bstr -> bstr -> bool).

(** 18-51 *)
Definition default_library_file (f : source_file) : bool :=
  if negb (declaration_file f) then false
  else if known_default f then true
  else if no_lib then false
  else existsb (same_path (file_name f)) libs.
(** 53-69 *)
Definition from_default_library (s : symbol) : bool := existsb default_library_file (files s).

(** utils.Some and utils.Every of a recursion that may not have ended. *)
Fixpoint some_of (f : nat -> option bool) (l : list nat) : option bool :=
  match l with [] => Some false | t :: l => match f t with None => None | Some true => Some true | Some false => some_of f l end end.
Fixpoint every_of (f : nat -> option bool) (l : list nat) : option bool :=
  match l with [] => Some true | t :: l => match f t with None => None | Some false => Some false | Some true => every_of f l end end.
(** 224-267; None: not ended within the steps [n]. *)
Fixpoint recurse (predicate : nat -> option verdict) (n : nat) (t : nat) : option bool :=
  match n with
  | O => None
  | S n =>
      match tkind (info t) with
      | Inter l => some_of (recurse predicate n) l
      | Union l => every_of (recurse predicate n) l
      | Param (Some u) => recurse predicate n u
      | Param None => Some false
      | Plain =>
          match predicate t with
          | None => None
          | Some Yes => Some true
          | Some No => Some false
          | Some Open =>
              match tsymbol (info t) with
              | Some s => if classlike s then some_of (recurse predicate n) (bases s) else Some false
              | None => Some false
              end
          end
      end
  end.
(** 189-202 *)
Definition named (names : list bstr) (t : nat) : option verdict :=
  match tsymbol (info t) with
  | None => Some No
  | Some s => if existsb (fun x => beqb (sname s) x) names && from_default_library s then Some Yes else Some Open
  end.
(** 183-203 *)
Definition builtin_like (names : list bstr) (n t : nat) : option bool := recurse (named names) n t.
(** 205-222 *)
Definition any_builtin_like (n t : nat) : option bool :=
  recurse (fun t => match tsymbol (info t) with None => Some No | Some s => if from_default_library s then Some Yes else Some Open end) n t.
(** 163-181 *)
Definition alias_like (predicate : nat -> alias -> option bool) (n t : nat) : option bool :=
  recurse (fun t =>
    match talias (info t) with
    | None => Some No
    | Some a =>
        match arguments a with
        | [] => Some No
        | _ :: _ => if from_default_library (asymbol a) then match predicate t a with None => None | Some true => Some Yes | Some false => Some Open end else Some Open
        end
    end) n t.
(** 124-153 *)
Fixpoint readonly_error_like (n t : nat) : option bool :=
  match n with
  | O => None
  | S m =>
      alias_like (fun _ a =>
        if beqb (sname (asymbol a)) (b "Readonly") then
          match arguments a with
          | [] => None
          | u :: _ => match builtin_like [b "Error"] m u with None => None | Some true => Some true | Some false => readonly_error_like m u end
          end
        else Some false) n t
  end.
End Likes.
