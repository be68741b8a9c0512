(** Template literals with interpolations (ECMA-262, sections 12.9.6 and 13.2.8), on top of
    the characters of JsText.v.  This is specification: nothing here is taken from /repo.

    The text between the backquotes is a list of items: characters and interpolations, the
    latter known by a number.  The value is a list of parts: code units, and results of
    interpolations whose value is not looked into, in the order of evaluation. *)
From Coq Require Import Bool List ZArith Permutation Sorted.
From Verif Require Import JsText.
Import ListNotations.
Open Scope Z_scope.

Inductive item := C (c : Z) | H (id : nat).
Inductive part := U (u : Z) | Ho (id : nat).

(** The source text of items, when [hole] gives the text of the interpolations. *)
Fixpoint text (hole : nat -> list Z) (l : list item) : list Z :=
  match l with
  | [] => []
  | C c :: r => c :: text hole r
  | H i :: r => [36; 123] ++ hole i ++ [125] ++ text hole r
  end.

(** The value of a template when interpolation [i] gives the parts [w] with [E i w]. *)
Inductive tvalue (E : nat -> list part -> Prop) : list item -> list part -> Prop :=
| tv_end s v : chars Tpl s v -> tvalue E (map C s) (map U v)
| tv_hole s v i w r u : chars Tpl s v -> E i w -> tvalue E r u ->
    tvalue E (map C s ++ H i :: r) (map U v ++ w ++ u).

(** Expressions that may stand in an interpolation. *)
Inductive expr :=
| XStr (q : Z) (raw : list Z)              (* string literal *)
| XTpl (raw : list Z)                      (* template without interpolations *)
| XNum (src value : list Z)                (* number or bigint literal, and the text of its value *)
| XRegex (pattern flags : list Z)          (* regular expression literal *)
| XWord (word : list Z)                    (* null, true, false *)
| XName (name : list Z)                    (* an identifier *)
| XNested (head : list Z) (id : nat) (raw : list Z) (more : list (nat * list Z))
                                           (* template with interpolations *)
| XOther (src : list Z).                   (* anything else *)

(** The items of a template given by its chunks and interpolations. *)
Definition chunks (head : list Z) (l : list (nat * list Z)) : list item :=
  map C head ++ flat_map (fun x => H (fst x) :: map C (snd x)) l.

(** Source text of an expression. *)
Definition source_of (hole : nat -> list Z) (x : expr) : list Z :=
  match x with
  | XStr q raw => q :: raw ++ [q]
  | XTpl raw => 96 :: raw ++ [96]
  | XNum src _ => src
  | XRegex p f => 47 :: p ++ 47 :: f
  | XWord w => w
  | XName n => n
  | XNested head i raw more => 96 :: text hole (chunks head ((i, raw) :: more)) ++ [96]
  | XOther src => src
  end.

(** The flags property of a regular expression lists the flags in alphabetical order. *)
Definition flags_value (flags sorted : list Z) : Prop := Permutation flags sorted /\ StronglySorted Z.le sorted.

(** The string a literal is converted to in a template; of identifiers and other
    expressions nothing is known.  [strict]: strict mode code. *)
Definition reads (strict : bool) (E : nat -> list part -> Prop) (x : expr) (w : list part) : Prop :=
  match x with
  | XStr q raw => (q = 39 \/ q = 34) /\ exists v, chars (Str q strict) raw v /\ w = map U v
  | XTpl raw => exists v, chars Tpl raw v /\ w = map U v
  | XNum _ t => w = map U t
  | XRegex p f => exists f', flags_value f f' /\ w = map U (flat_map units (47 :: p ++ 47 :: f'))
  | XWord t => w = map U t
  | XName _ => True
  | XNested head i raw more => tvalue E (chunks head ((i, raw) :: more)) w
  | XOther _ => True
  end.

(** A text that ends with a null escape or a carriage return: what follows may change how it is
    read. *)
Definition open_end (s : list Z) : Prop :=
  (exists a, s = a ++ [13]) \/ (exists a, complete a /\ s = a ++ [92; 48]).
Definition closed (s : list Z) : Prop := ~ open_end s.

(** Characters of numbers and words. *)
Definition word_char (c : Z) : Prop := 48 <= c <= 57 \/ 65 <= c <= 90 \/ 97 <= c <= 122 \/ c = 43 \/ c = 45 \/ c = 46.

(** Expressions whose text does not depend on what follows, and regular expressions with flags
    in order; numbers and words are what they look like. *)
Definition fine (x : expr) : Prop :=
  match x with
  | XStr _ raw | XTpl raw => closed raw
  | XNum _ t => Forall word_char t
  | XRegex p f => Forall (fun c => c <> 13) p /\ Forall word_char f /\ StronglySorted Z.le f
  | XWord w => w <> [] /\ Forall word_char w
  | XName _ => True
  | XNested _ _ raw more => closed (last (map snd more) raw)
  | XOther _ => True
  end.
