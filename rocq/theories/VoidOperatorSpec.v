(** What no-meaningless-void-operator should do. *)
From Coq Require Import Bool Arith ZArith Ascii String List.
From Verif Require Import Base Fixer.
From Verif Require Import VoidOperator.
Import ListNotations.
Open Scope Z_scope.

(** Parts of a type. *)
Inductive part_of : part -> ty -> Prop :=
| part_single p : part_of p (Single p)
| part_member p l : In p l -> part_of p (Union l).

(** A text with void operators: plain text, and keywords each with the expression's text behind it. *)
Inductive seg := Plain (t : bstr) | Void_word (end_ : Z) (t : ty) (name : bstr).
Definition seg_text (s : seg) : bstr := match s with Plain t => t | Void_word _ _ _ => b "void" end.
Definition source (l : list seg) : bstr := flat_map seg_text l.
(** The positions of the keywords; each expression starts with its keyword and its operand right behind it. *)
Fixpoint words (pos : Z) (l : list seg) : list (places * ty * bstr) :=
  match l with
  | [] => []
  | Plain t :: l => words (pos + zlen t) l
  | Void_word e t n :: l => ({| node_start := pos; node_end := e; arg_pos := pos + 4 |}, t, n) :: words (pos + 4) l
  end.
(** Keywords without meaning. *)
Definition idle (s : seg) : Prop := match s with Plain _ => False | Void_word _ t _ => forall p, part_of p t -> void_like p = true end.
(** [l'] is [l] without the idle keywords. *)
Inductive without_idle : list seg -> list seg -> Prop :=
| wi_nil : without_idle [] []
| wi_drop s l l' : idle s -> without_idle l l' -> without_idle (s :: l) l'
| wi_keep s l l' : ~ idle s -> without_idle l l' -> without_idle (s :: l) (s :: l').

(** Blanks; and texts in which the grammar reads something else than meant. *)
Definition blank (c : ascii) : bool := (c =? " ")%char || (c =? "010")%char.
Fixpoint skip_blanks (s : bstr) : bstr := match s with c :: s' => if blank c then skip_blanks s' else s | [] => [] end.
Fixpoint starts (p s : bstr) : bool := match p, s with [], _ => true | x :: p, y :: s => (x =? y)%char && starts p s | _, [] => false end.
(** A statement that begins with the word function declares a function and cannot be called at once. *)
Definition declares (s : bstr) : bool := starts (b "function") (skip_blanks s).
(** A parenthesis that begins a line goes on with the expression before it, if there is no semicolon. *)
Fixpoint goes_on (last : option ascii) (line : bool) (s : bstr) : bool :=
  match s with
  | [] => false
  | c :: s => if (c =? "010")%char then goes_on last true s else if (c =? " ")%char then goes_on last line s
              else (line && (c =? "(")%char && match last with Some d => negb ((d =? ";")%char) | None => false end) || goes_on (Some c) false s
  end.
(** The line ends after the word return: nothing is returned and what follows is another statement. *)
Fixpoint line_ends (s : bstr) : bool := match s with c :: s => if (c =? "010")%char then true else if (c =? " ")%char then line_ends s else false | [] => true end.
Fixpoint cut_off (s : bstr) : bool := match s with [] => false | c :: s' => (starts (b "return") s && line_ends (skipn 6 s)) || cut_off s' end.
