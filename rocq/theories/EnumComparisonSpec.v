(** String literals as they are read, values of operands, and comparisons as they are run. *)
From Coq Require Import Bool List Arith NArith.
From Verif Require Import EnumComparison.
Import ListNotations.

(** * Reading a string literal after its opening quote (ECMAScript, SingleStringCharacters): the value and what follows the closing quote. *)
Definition hex_value (c : N) : option N :=
  (if (48 <=? c) && (c <=? 57) then Some (c - 48) else if (65 <=? c) && (c <=? 70) then Some (c - 55) else if (97 <=? c) && (c <=? 102) then Some (c - 87) else None)%N.
Definition single_escape (c : N) : option N :=
  (if c =? 98 then Some 8 else if c =? 116 then Some 9 else if c =? 110 then Some 10 else if c =? 118 then Some 11 else if c =? 102 then Some 12 else if c =? 114 then Some 13
   else if c =? 39 then Some 39 else if c =? 34 then Some 34 else if c =? 92 then Some 92 else None)%N.
Definition cons_value (c : N) (o : option (str * str)) : option (str * str) := match o with Some (v, r) => Some (c :: v, r) | None => None end.
Fixpoint scan (s : str) : option (str * str) :=
  match s with
  | [] => None
  | c :: s' =>
      if (c =? 39)%N then Some ([], s')
      else if ((c =? 10) || (c =? 13))%N then None
      else if (c =? 92)%N then
        match s' with
        | e :: s'' =>
            if (e =? 117)%N then
              match s'' with
              | d1 :: d2 :: d3 :: d4 :: s3 =>
                  match hex_value d1, hex_value d2, hex_value d3, hex_value d4 with
                  | Some v1, Some v2, Some v3, Some v4 => cons_value (v1 * 4096 + v2 * 256 + v3 * 16 + v4)%N (scan s3)
                  | _, _, _, _ => None
                  end
              | _ => None
              end
            else match single_escape e with Some v => cons_value v (scan s'') | None => None end
        | [] => None
        end
      else cons_value c (scan s')
  end.

(** * Mismatched comparisons *)
(** An enum on one side whose values are like all those of the other. *)
Definition like_all (a c : list part) : Prop :=
  exists p, In p a /\ enum_like p = true /\
   ((number_literal p = true /\ forall q, In q c -> number_like q = true) \/ (number_literal p = false /\ forall q, In q c -> string_like q = true)).
Definition shares_enum (a c : list part) : Prop := exists p q, In p a /\ In q c /\ enum_literal p = true /\ enum_literal q = true /\ base p = base q.
Definition shares_part (a c : list part) : Prop := exists p q, In p a /\ In q c /\ id p = id q.

(** * Values *)
Section Numbers.
Context {Nu Q : Type} (neg : Nu -> Nu) (add : Nu -> Nu -> Nu) (num_eqb : Nu -> Nu -> bool) (num_str : Nu -> str) (is_identifier : str -> bool).
(** Addition: concatenation if one of the values is a string. *)
Definition plus (a c : static Nu) : static Nu :=
  match a, c with
  | SNumber a, SNumber c => SNumber (add a c)
  | SString a, SString c => SString (a ++ c)
  | SString a, SNumber c => SString (a ++ num_str c)
  | SNumber a, SString c => SString (num_str a ++ c)
  end.
Inductive evaluates : operand Nu Q -> static Nu -> Prop :=
| EvLiteral s : evaluates (ELiteral s) (SString s)
| EvNumeric n : evaluates (ENumeric n) (SNumber n)
| EvParentheses e v : evaluates e v -> evaluates (EParentheses e) v
| EvWrap e v : evaluates e v -> evaluates (EWrap e) v
| EvMinus e n : evaluates e (SNumber n) -> evaluates (EMinus e) (SNumber (neg n))
| EvPlus e n : evaluates e (SNumber n) -> evaluates (EPlus e) (SNumber n)
| EvAdd l r a c : evaluates l a -> evaluates r c -> evaluates (EAdd l r) (plus a c).

(** The value of the text of a literal; [literal]: of those that do not begin with a single quote. *)
Definition read_literal (literal : str -> option str) (t : str) : option str :=
  match t with
  | [] => None
  | c :: t' => if (c =? 39)%N then match scan t' with Some (n, []) => Some n | _ => None end else literal t
  end.
(** The property that the text after a qualifier accesses. *)
Definition denotes (literal : str -> option str) (t : str) : option str :=
  match t with
  | [] => None
  | c :: t =>
      if (c =? 46)%N then if is_identifier t then Some t else None
      else if (c =? 91)%N then if (last t 0 =? 93)%N then read_literal literal (removelast t) else None
      else None
  end.
(** The names of members. *)
Inductive named (literal : str -> option str) : name -> str -> Prop :=
| NamedIdentifier s : is_identifier s = true -> named literal (NIdentifier s) s
| NamedString s : named literal (NString s) s
| NamedComputed t s : read_literal literal t = Some s -> named literal (NComputed t) s.
(** A member of an enum accessed with a qualifier. *)
Inductive accesses : operand Nu Q -> Q -> nat -> Prop :=
| AParentheses e q d : accesses e q d -> accesses (EParentheses e) q d
| AAccess q d : accesses (EAccess q (Some d)) q d
| AElement q d a : accesses (EElement q (Some d) a) q d
| AArgument q s d : accesses (EElement q s (Some d)) q d.

(** A name with dots. *)
Inductive dotted : str -> Prop :=
| DOne s : is_identifier s = true -> ~ In 46%N s -> dotted s
| DMore s t : is_identifier s = true -> ~ In 46%N s -> dotted t -> dotted (s ++ 46%N :: t).
(** The enum can be written: a member is accessed, or the text of the type is a name with dots or the name of the enum in scope. *)
Definition reachable (type_text : nat -> str) (scope : list (str * option nat)) (side : operand Nu Q) (d : nat) : Prop :=
  (exists q, accesses side q d) \/ (dotted (type_text d) /\ (In 46%N (type_text d) \/ In (type_text d, Some d) scope)).
(** A member that has the value and a name. *)
Definition fits (m : member Nu) (v : static Nu) : Prop :=
  m_name m <> NOther /\ match constant m, v with Some (SString a), SString c => a = c | Some (SNumber a), SNumber c => num_eqb a c = true | _, _ => False end.

(** * Running comparisons *)
(** [run]: what operands do in a state: a value, or [None] if they throw; [run_qualifier]: the enum object; [field]: the properties of enum objects; [cmp]: the comparison. *)
Section Run.
Context {W V : Type} (of_static : static Nu -> V) (run : operand Nu Q -> W -> option V * W) (run_qualifier : qualifier Q -> W -> option nat * W) (field : nat -> str -> V) (cmp : V -> V -> bool).
Inductive run_key (literal : str -> option str) : qualifier Q * str -> W -> option V -> W -> Prop :=
| KValue q s w d w' n : run_qualifier q w = (Some d, w') -> denotes literal s = Some n -> run_key literal (q, s) w (Some (field d n)) w'
| KThrows q s w w' : run_qualifier q w = (None, w') -> run_key literal (q, s) w None w'.
(** The left side, then the right side, then the comparison. *)
Inductive compares (left_ right_ : W -> option V -> W -> Prop) : W -> option bool -> W -> Prop :=
| CLeft w w' : left_ w None w' -> compares left_ right_ w None w'
| CRight w a w' w'' : left_ w (Some a) w' -> right_ w' None w'' -> compares left_ right_ w None w''
| CBoth w a w' c w'' : left_ w (Some a) w' -> right_ w' (Some c) w'' -> compares left_ right_ w (Some (cmp a c)) w''.
Definition runs (e : operand Nu Q) : W -> option V -> W -> Prop := fun w o w' => run e w = (o, w').
End Run.
End Numbers.
