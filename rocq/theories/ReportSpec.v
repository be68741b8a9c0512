(** Specification vocabulary for reporting: what a request offers, and what a
    message on the wire is once edits and suggestions are left out. *)
From Coq Require Import String Bool List ZArith.
From Verif Require Import Base Report.
Import ListNotations.
Open Scope Z_scope.

Section Spec.
Context {File Node : Type}.
Notation request := (@request File Node).

(** The edits a request offers, with the generator's identity if they are to be generated. *)
Inductive offers_fix : request -> option nat -> list fix_ -> Prop :=
| of_df d g : offers_fix (QDiagFix d g) (Some (g_id g)) (g_val g)
| of_nf n m g : offers_fix (QNodeFix n m g) (Some (g_id g)) (g_val g)
| of_d d l : rd_fixes d = Some l -> offers_fix (QDiag d) None l
| of_d0 d : rd_fixes d = None -> offers_fix (QDiag d) None []
| of_ds d g l : rd_fixes d = Some l -> offers_fix (QDiagSugg d g) None l
| of_ds0 d g : rd_fixes d = None -> offers_fix (QDiagSugg d g) None []
| of_r r m : offers_fix (QRange r m) None []
| of_rs r m g : offers_fix (QRangeSugg r m g) None []
| of_n n m : offers_fix (QNode n m) None []
| of_ns n m g : offers_fix (QNodeSugg n m g) None [].

Inductive offers_sugg : request -> option nat -> list suggestion -> Prop :=
| os_ds d g : offers_sugg (QDiagSugg d g) (Some (g_id g)) (g_val g)
| os_rs r m g : offers_sugg (QRangeSugg r m g) (Some (g_id g)) (g_val g)
| os_ns n m g : offers_sugg (QNodeSugg n m g) (Some (g_id g)) (g_val g)
| os_d d l : rd_suggs d = Some l -> offers_sugg (QDiag d) None l
| os_d0 d : rd_suggs d = None -> offers_sugg (QDiag d) None []
| os_df d g l : rd_suggs d = Some l -> offers_sugg (QDiagFix d g) None l
| os_df0 d g : rd_suggs d = None -> offers_sugg (QDiagFix d g) None []
| os_r r m : offers_sugg (QRange r m) None []
| os_n n m : offers_sugg (QNode n m) None []
| os_nf n m g : offers_sugg (QNodeFix n m g) None [].

Definition as_list {A : Type} (o : option A) : list A :=
  match o with Some a => [a] | None => [] end.

(** A wire message with edits and suggestions left out. *)
Definition plain (h : @hdiag File) : option range * bstr * message * File * list (bstr * range) :=
  (hd_range h, hd_rule h, hd_msg h, hd_file h, hd_labels h).

(** Where the report points and what it says. *)
Definition place_of (trim : option File -> Node -> range) (f : File) (q : request) : range :=
  match q with
  | QDiag d | QDiagFix d _ | QDiagSugg d _ => rd_range d
  | QRange r _ | QRangeSugg r _ _ => r
  | QNode n _ | QNodeFix n _ _ | QNodeSugg n _ _ => trim (Some f) n
  end.

Definition text_of (q : request) : message :=
  match q with
  | QDiag d | QDiagFix d _ | QDiagSugg d _ => rd_msg d
  | QRange _ m | QRangeSugg _ m _ | QNode _ m | QNodeFix _ m _ | QNodeSugg _ m _ => m
  end.

Definition labels_of (q : request) : list (bstr * range) :=
  match q with
  | QDiag d | QDiagFix d _ | QDiagSugg d _ => rd_labels d
  | _ => []
  end.

Definition all_valid (valid : range -> bool) (fs : list fix_) : Prop :=
  forall f, In f fs -> valid (f_range f) = true.

End Spec.
