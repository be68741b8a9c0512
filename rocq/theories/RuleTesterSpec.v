(** C113: when a test of a rule passes, said without the functions of RuleTester.v. *)
From Coq Require Import Bool Arith Ascii String List.
From Verif Require Import Base.
From Verif Require Import RuleTester.
Import ListNotations.
Local Open Scope list_scope.

(** A case is left out if it says so, or if it is not marked while some case is. *)
Definition left_out (valid : list test) (invalid : list invalid_test) (t : test) : Prop :=
  skip t = true \/ (only t = false /\ ((exists v, In v valid /\ only v = true) \/ (exists i, In i invalid /\ only (base i) = true))).

Section Spec.
Variable linted : bstr -> option (list diag).
Variable apply_fixes : bstr -> list diag -> bstr * bool.
Variable apply_suggestion : bstr -> suggestion -> bstr.
Variable position : bstr -> nat -> nat * nat.
(** Fixing [x] once makes [y]; there is nothing to fix in [x]. *)
Definition fixes (x y : bstr) : Prop := exists ds, linted x = Some ds /\ apply_fixes x ds = (y, true).
Definition settled (x : bstr) : Prop := exists ds y, linted x = Some ds /\ apply_fixes x ds = (y, false).
(** One after the other. *)
Inductive chain : bstr -> list bstr -> bstr -> Prop :=
| chain_end x : chain x [] x
| chain_more x y l z : fixes x y -> chain y l z -> chain x (y :: l) z.
(** A place that is given is the place, counted from 1. *)
Definition at_place (given from_zero : nat) : Prop := given <> 0 -> given = from_zero + 1.
Definition agrees (text : bstr) (e : expected) (d : diag) : Prop :=
  d_id d = e_id e /\
  at_place (e_line e) (fst (position text (d_pos d))) /\ at_place (e_column e) (snd (position text (d_pos d))) /\
  at_place (e_end_line e) (fst (position text (d_end d))) /\ at_place (e_end_column e) (snd (position text (d_end d))) /\
  exists ss, (d_suggestions d = Some ss \/ (d_suggestions d = None /\ ss = [])) /\
    Forall2 (fun p s => fst p = s_id s /\ snd p = apply_suggestion text s) (e_suggestions e) ss.
End Spec.
