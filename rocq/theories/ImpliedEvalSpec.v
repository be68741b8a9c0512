(** When code is given as a string. *)
From Coq Require Import Bool Arith Ascii String List.
From Verif Require Import Base.
From Verif Require Import ImpliedEval.
Import ListNotations.

(** A callee means a global function of this name: by name, or as a member of a global object. *)
Inductive means : expr -> bstr -> Prop :=
| m_name : forall i n, means (Ident i n) n
| m_member : forall i j g n, In g [b "global"; b "globalThis"; b "window"] -> means (Prop_access i (Ident j g) (Some n)) n
| m_quoted : forall i j k g n, In g [b "global"; b "globalThis"; b "window"] -> means (Elem_access i (Ident j g) (String_lit k n)) n.
(** What is called bind. *)
Inductive binds : expr -> Prop :=
| b_name : forall i, binds (Ident i (b "bind"))
| b_member : forall i e, binds (Prop_access i e (Some (b "bind"))).
(** The checker says a value can be called. *)
Definition callable (t : type_info) : Prop := tsymbol t = Some true \/ function_like t = true \/ signatures t <> 0.
(** A function is given. *)
Inductive gives_function (type_of : nat -> type_info) : expr -> Prop :=
| g_written : forall i, gives_function type_of (Function_like i)
| g_bound : forall i c a, binds c -> gives_function type_of (Call i c a)
| g_typed : forall e, (forall i t, e <> String_lit i t) -> (forall i t, e <> Other_lit i t) -> callable (type_of (number e)) -> gives_function type_of e.
Definition runs_code (n : bstr) : Prop := In n [b "execScript"; b "setImmediate"; b "setInterval"; b "setTimeout"].
(** Something of this name is declared in this file. *)
Definition declared_here (s : option (list bool)) : Prop := exists ds, s = Some ds /\ In true ds.
