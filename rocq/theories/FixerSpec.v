(** What it means to apply edits to a text, stated without the fixer. *)
From Coq Require Import List ZArith Permutation Sorted.
From Verif Require Import Base Fixer.
Import ListNotations.
Open Scope Z_scope.

Section Spec.
Context {byte : Type}.
Notation fix_ := (fix_ byte).
Notation msg := (msg byte).

(** [rewrites p rest es out]: reading [rest] from offset [p], performing the
    edits [es] in order and copying every other byte gives [out]. The relation
    copies one byte at a time; an edit deletes exactly the bytes of its range
    and inserts its text. *)
Inductive rewrites : Z -> list byte -> list fix_ -> list byte -> Prop :=
| rw_done p rest : rewrites p rest [] rest
| rw_keep p c rest es out :
    rewrites (p + 1) rest es out -> rewrites p (c :: rest) es (c :: out)
| rw_edit p del rest e es out :
    fpos e = p -> fend e = p + zlen del ->
    rewrites (fend e) rest es out ->
    rewrites p (del ++ rest) (e :: es) (ftext e ++ out).

(** Undoing: the list of (offset in the output, inserted text, deleted text)
    is determined by [rewrites]; [undo] replays it backwards. *)
Inductive undoes : list byte -> list (list byte * list byte) -> list byte -> Prop :=
| un_done out : undoes out [] out
| un_keep c out us rest : undoes out us rest -> undoes (c :: out) us (c :: rest)
| un_edit ins del out us rest :
    undoes out us rest -> undoes (ins ++ out) ((ins, del) :: us) (del ++ rest).

(** Order on edits used by both sorts: by start, then by end. *)
Definition key_le (a c : Z * Z) : Prop :=
  fst a < fst c \/ (fst a = fst c /\ snd a <= snd c).

Definition fix_key (f : fix_) : Z * Z := (fpos f, fend f).
Definition msg_key (d : msg) : Z * Z :=
  match mfixes d with
  | [] => (0, 0)
  | f :: fs => (fpos f, fend (last fs f))
  end.

(** What any correct, possibly unstable, sort guarantees. *)
Definition is_fix_sort (s : list fix_ -> list fix_) : Prop :=
  forall l, Permutation l (s l) /\ StronglySorted (fun x y => key_le (fix_key x) (fix_key y)) (s l).
Definition is_msg_sort (s : list msg -> list msg) : Prop :=
  forall l, Permutation l (s l) /\ StronglySorted (fun x y => key_le (msg_key x) (msg_key y)) (s l).

(** Edits in ascending order without overlap, within [lo, hi]. *)
Fixpoint disjoint_from (lo hi : Z) (fs : list fix_) : Prop :=
  match fs with
  | [] => lo <= hi
  | f :: fs' => lo <= fpos f /\ fpos f <= fend f /\ disjoint_from (fend f) hi fs'
  end.

(** A message as the same message with its edits reordered. *)
Definition same_msg (d d' : msg) : Prop :=
  mid d = mid d' /\ Permutation (mfixes d) (mfixes d').

(** An edit of [a] ends after the first edit of [d] starts. *)
Definition clash (a d : msg) : Prop :=
  exists f g fr, In f (mfixes a) /\ mfixes d = g :: fr /\ fpos g < fend f.

(** Two edits whose ranges do not overlap (touching is allowed). *)
Definition no_overlap (f g : fix_) : Prop := fend f <= fpos g \/ fend g <= fpos f.

(** [k] is the (start of the least edit, end of the greatest edit) of [d]. *)
Definition is_span (d : msg) (k : Z * Z) : Prop :=
  exists f g, In f (mfixes d) /\ In g (mfixes d) /\
    (forall h, In h (mfixes d) -> key_le (fix_key f) (fix_key h)) /\
    (forall h, In h (mfixes d) -> key_le (fix_key h) (fix_key g)) /\
    k = (fpos f, fend g).

(** No two messages, and no two edits of a message, tie in the sort order. *)
Definition no_ties (ds : list msg) : Prop :=
  Forall (fun d => NoDup (map fix_key (mfixes d))) ds /\
  ForallOrdPairs (fun d d' => forall k, is_span d k -> is_span d' k -> False) ds.

(** Every edit of every message lies inside a text of length [n]. *)
Definition in_range (n : Z) (f : fix_) : Prop :=
  0 <= fpos f /\ fpos f <= fend f /\ fend f <= n.

Definition well_formed_range (f : fix_) : Prop := fpos f <= fend f.

End Spec.
