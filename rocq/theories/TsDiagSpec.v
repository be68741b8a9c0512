(** What the type-check report and the program construction owe to the user. *)
From Coq Require Import String Ascii Bool List ZArith Sorted.
From Verif Require Import Base TsDiag.
Import ListNotations.
Open Scope Z_scope.

(** Decimal numerals without leading zeros. *)
Inductive dchar : ascii -> Z -> Prop :=
| dchar_at c n : nth_error (b "0123456789") n = Some c -> dchar c (Z.of_nat n).
Inductive dvalue : bstr -> Z -> Prop :=
| dv_one c n : dchar c n -> dvalue [c] n
| dv_snoc s v c n : dvalue s v -> dchar c n -> dvalue (s ++ [c]) (10 * v + n).
Definition canonical (s : bstr) : Prop := s = b "0" \/ forall s', s <> "0"%char :: s'.
Definition decimal (s : bstr) (z : Z) : Prop :=
  (0 <= z /\ dvalue s z /\ canonical s) \/
  (z < 0 /\ exists s', s = "-"%char :: s' /\ dvalue s' (- z) /\ canonical s').

(** [i] reports the type-check diagnostic [d] of the file [name]. *)
Definition reports (name : bstr) (d : tsd) (i : internal) : Prop :=
  n_pos i = t_pos d /\ n_end i = t_end d /\ n_desc i = t_msg d /\ n_help i = [] /\
  n_file i = Some name /\ exists s, decimal s (t_code d) /\ n_id i = b "TS" ++ s.

(** The diagnostics of a list that lie in the file, in order. *)
Inductive located (name : bstr) : list tsd -> list tsd -> Prop :=
| loc_nil : located name [] []
| loc_keep d l l' : t_file d = Some name -> located name l l' -> located name (d :: l) (d :: l')
| loc_skip d l l' : t_file d <> Some name -> located name l l' -> located name (d :: l) l'.

Section Spec.
Context {SF : Type}.
Variable sf_name : SF -> bstr.
Variables syn sem incl : SF -> list tsd.
Variable no_emit : list tsd -> list tsd.
Variable lt : tsd -> tsd -> Prop.

(** Report of the syntactic errors of one file: all of them, in the order given. *)
Definition syn_part (on : bool) (sf : SF) (is : list internal) : Prop :=
  if on then exists ds, located (sf_name sf) (syn sf) ds /\ Forall2 (reports (sf_name sf)) ds is
  else is = [].

(** Report of the semantic errors of one file: sorted, without duplicates, the ones that
    the checker gives for that file after the noEmit filter and the ones of the include
    processor. *)
Definition sem_part (on : bool) (sf : SF) (is : list internal) : Prop :=
  if on then exists ds, StronglySorted lt ds /\ NoDup ds /\
      (forall d, In d ds <-> t_file d = Some (sf_name sf) /\ (In d (no_emit (sem sf)) \/ In d (incl sf))) /\
      Forall2 (reports (sf_name sf)) ds is
  else is = [].
End Spec.

(** [SortAndDeduplicateDiagnostics] (typescript-go, assumed). *)
Definition sorts_and_dedups (lt : tsd -> tsd -> Prop) (f : list tsd -> list tsd) : Prop :=
  forall l, StronglySorted lt (f l) /\ NoDup (f l) /\ forall d, In d (f l) <-> In d l.

(** Help text of a diagnostic about the program. *)
Definition occurs (sub s : bstr) : Prop := exists a c, s = a ++ sub ++ c.
Definition removed_option : bstr := b "Please remove it from your configuration.".
Definition help_for (msg help : bstr) : Prop :=
  (occurs removed_option msg /\
   help = msg ++ ascii_of_nat 10 :: b "See https://github.com/oxc-project/tsgolint/issues/351 for more information.") \/
  (~ occurs removed_option msg /\ help = msg).

(** [i] explains the config diagnostic [d]; [cfg] is the path of the config. *)
Definition explains (cfg : bstr) (d : tsd) (i : internal) : Prop :=
  n_pos i = t_pos d /\ n_end i = t_end d /\ n_id i = b "tsconfig-error" /\ n_desc i = b "Invalid tsconfig" /\
  exists f, n_file i = Some f /\
    ((t_file d = Some f /\ f <> []) \/ ((t_file d = None \/ t_file d = Some []) /\ f = cfg)).
