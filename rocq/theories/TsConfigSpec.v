(** What the tsconfig lookup should find, as relations over the file system. *)
From Coq Require Import Bool List Arith.
From Verif Require Import Base TsConfig.
Import ListNotations.
Open Scope nat_scope.

Section Spec.
Variable load : bstr -> option cfg.
Variable possibly : cfg -> bstr -> bool.
Variable to_path : bstr -> bstr.
Variable compute : bstr -> bool -> bstr.
Variable reg_up : bstr -> bstr -> bstr -> bstr.

(** The config exists and its file list contains the file (same path after
    normalisation); a composite project must also consider the name possible. *)
Definition owns (file n : bstr) : Prop :=
  exists c, load n = Some c /\
    (exists f, In f (c_files c) /\ to_path f = to_path file) /\
    (c_composite c = true -> possibly c file = true).

(** Project references. *)
Inductive refers : bstr -> bstr -> Prop :=
| refers_intro n c m : load n = Some c -> c_projrefs c <> [] -> In m (c_refs c) -> refers n m.

(** [n] is reached from [a] through [k] project references. *)
Inductive ref_walk (a : bstr) : bstr -> nat -> Prop :=
| rw_0 : ref_walk a a 0
| rw_S n m k : ref_walk a n k -> refers n m -> ref_walk a m (S k).

(** The config of the nearest directory, then those further up. *)
Inductive ancestor (file : bstr) (skip : bool) : nat -> bstr -> Prop :=
| anc_0 : compute file skip <> [] -> ancestor file skip 0 (compute file skip)
| anc_reg k n : ancestor file skip k n -> reg_up file (to_path file) n <> [] ->
    ancestor file skip (S k) (reg_up file (to_path file) n)
| anc_up k n : ancestor file skip k n -> reg_up file (to_path file) n = [] -> compute n true <> [] ->
    ancestor file skip (S k) (compute n true).

(** [c] is the best config: it owns the file, it is reached from the nearest possible
    ancestor and through the fewest references. *)
Definition best (file : bstr) (skip : bool) (c : bstr) : Prop :=
  owns file c /\
  exists k a d, ancestor file skip k a /\ ref_walk a c d /\
    (forall c' d', owns file c' -> ref_walk a c' d' -> d <= d') /\
    (forall k' a' c' d', k' < k -> ancestor file skip k' a' -> ref_walk a' c' d' -> ~ owns file c').

(** The references of a config in the order of its declaration. *)
Definition declared_refs (refs : bstr -> list bstr) : Prop :=
  forall n, (forall c, load n = Some c -> c_projrefs c <> [] -> refs n = c_refs c) /\
            ((forall c, load n = Some c -> c_projrefs c = []) -> refs n = []).

Definition no_owner (file : bstr) (skip : bool) : Prop :=
  forall k a c d, ancestor file skip k a -> ref_walk a c d -> ~ owns file c.

End Spec.

(** Facts about paths used by the fast checks (find_tsconfig.go:115-142). *)
Record path_laws (case_sensitive : bool) (to_path base : bstr -> bstr) (fold : bstr -> bstr -> bool) : Prop := {
  pl_idem : case_sensitive = true -> forall x, to_path (to_path x) = to_path x;
  pl_fold : case_sensitive = false -> forall f x, fold f (to_path x) = true -> to_path f = to_path x;
  pl_base : case_sensitive = true -> forall f x, to_path f = to_path x -> base f = base (to_path x);
  pl_bfold : case_sensitive = false -> forall f x, to_path f = to_path x -> fold (base f) (base (to_path x)) = true
}.
