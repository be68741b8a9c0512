(** What no-unsafe-member-access should report, without a cache. *)
From Coq Require Import Bool Arith List.
Import ListNotations.
From Verif Require Import MemberAccess.

Section Spec.
Context (allow : bool) (any : nat -> bool).
(** Accesses that are left out by the option. *)
Definition passed (optional : bool) : Prop := allow = true /\ optional = true.
(** An access that is unsafe: of something of type any, or of an access that is. *)
Inductive unsafe : node -> Prop :=
| u_any : forall i opt o x, ~ passed opt -> any (id_of o) = true -> unsafe (Access i opt o x)
| u_inner : forall i opt o x, ~ passed opt -> unsafe o -> unsafe (Access i opt o x).
(** Where it starts: its object is of type any and no unsafe access itself. *)
Definition origin (n : node) : Prop :=
  match n with Access i opt o x => ~ passed opt /\ any (id_of o) = true /\ ~ unsafe o | _ => False end.
End Spec.

(** Nodes in a file, with whether they are in a heritage clause. *)
Inductive child : bool -> node -> bool -> node -> Prop :=
| c_object : forall h i opt o x, child h (Access i opt o x) h o
| c_index : forall h i opt o x, child h (Access i opt o (Some x)) h x
| c_heritage : forall h i l n, In n l -> child h (Heritage i l) true n
| c_update : forall h i n, child h (Update i n) h n
| c_paren : forall h i n, child h (Paren i n) h n
| c_callee : forall h i n l, child h (Call i n l) h n
| c_argument : forall h i n l a, In a l -> child h (Call i n l) h a
| c_other : forall h i l n, In n l -> child h (Other i l) h n.
Inductive inside : bool -> node -> bool -> node -> Prop :=
| i_here : forall h n, inside h n h n
| i_below : forall h n h1 m h2 k, child h n h1 m -> inside h1 m h2 k -> inside h n h2 k.
(** Nodes with the same number are the same. *)
Definition numbered (file : node) : Prop :=
  forall h1 n1 h2 n2, inside false file h1 n1 -> inside false file h2 n2 -> id_of n1 = id_of n2 -> n1 = n2 /\ h1 = h2.
(** An index that is worth a report. *)
Definition bad_index (allow : bool) (any : nat -> bool) (optional : bool) (x : node) : Prop :=
  ~ (allow = true /\ optional = true) /\ any (id_of x) = true /\ (forall i, x <> Literal i) /\ forall i n, x <> Update i n.
(** Accesses that begin with this. *)
Inductive begins : node -> nat -> Prop :=
| b_this : forall i, begins (This i) i
| b_paren : forall i n t, begins n t -> begins (Paren i n) t
| b_call : forall i n l t, begins n t -> begins (Call i n l) t
| b_access : forall i opt o x t, begins o t -> begins (Access i opt o x) t.
(** The access with a number. *)
Definition access_id (n : node) (i : nat) : Prop := exists opt o x, n = Access i opt o x.
(** The accesses that are reported, with repetitions. *)
Definition props (r : list report) : list nat := flat_map (fun x => match x with Property i _ => [i] | Index _ => [] end) r.
