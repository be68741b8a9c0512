(** Which values a written type takes, and which are returned. *)
From Coq Require Import Bool Arith List.
From Verif Require Import ReturnThis.
Import ListNotations.

Section Classes.
(** [sub c d]: instances of c are instances of d.  Values: the object itself, instances of classes that are other objects, other values. *)
Context (sub : name -> name -> Prop) (own : name).
Inductive value := Self | Instance (c : name) | OtherValue (k : nat).
Inductive takes : node -> value -> Prop :=
| TSelf n : sub own n -> takes (Ref n) Self
| TInstance n c : sub c n -> takes (Ref n) (Instance c)
| TThis : takes ThisNode Self
| TParen t v : takes t v -> takes (ParenNode t) v
| TUnion l t v : In t l -> takes t v -> takes (UnionNode l) v
| TOther k : takes (OtherNode k) (OtherValue k).
(** The part at a place. *)
Inductive at_place : list nat -> node -> node -> Prop :=
| AHere t : at_place [] t t
| AParen p t u : at_place p t u -> at_place (0 :: p) (ParenNode t) u
| AUnion i p l t u : nth_error l i = Some t -> at_place p t u -> at_place (i :: p) (UnionNode l) u.
(** Values that are taken by a part that is not at (or above) a place. *)
Inductive takes_beside : list nat -> node -> value -> Prop :=
| BParen p t v : takes_beside p t v -> takes_beside (0 :: p) (ParenNode t) v
| BUnion i p l t v : nth_error l i = Some t -> takes_beside p t v -> takes_beside (i :: p) (UnionNode l) v
| BOther i j p l t v : nth_error l j = Some t -> j <> i -> takes t v -> takes_beside (i :: p) (UnionNode l) v.
(** The places of references to a name (through unions, and parentheses if they are skipped). *)
Inductive reference (skips : bool) (n : name) : list nat -> node -> Prop :=
| RHere : reference skips n [] (Ref n)
| RParen p t : skips = true -> reference skips n p t -> reference skips n (0 :: p) (ParenNode t)
| RUnion i p l t : nth_error l i = Some t -> reference skips n p t -> reference skips n (i :: p) (UnionNode l).
(** One place is before another. *)
Inductive before : list nat -> list nat -> Prop :=
| BFirst i j p q : i < j -> before (i :: p) (j :: q)
| BRest i p q : before p q -> before (i :: p) (i :: q).
End Classes.
