(** prefer-return-this-type (internal/rules/prefer_return_this_type/prefer_return_this_type.go): the name of the class in the return type, what is returned, the replaced type.  Line numbers are of this file. *)
From Coq Require Import Bool Arith List.
Import ListNotations.

(** Names, and written types: a reference to an identifier (type arguments are left out), [this], a type in parentheses, a union, any other type. *)
Definition name := nat.
Inductive node := Ref (n : name) | ThisNode | ParenNode (t : node) | UnionNode (l : list node) | OtherNode (k : nat).

Section Parens.
(** 21: whether SkipParentheses of typescript-go skips parentheses of types, too (it is written for expressions); all that is proved holds in both cases. *)
Context (skips : bool).
(** 19-37: the place of the reference, as numbers of parts of unions (and 0 for parentheses). *)
Fixpoint find_name (n : name) (t : node) : option (list nat) :=
  match t with
  | Ref m => if Nat.eqb m n then Some [] else None
  | ParenNode t => if skips then option_map (cons 0) (find_name n t) else None
  | UnionNode l =>
      (fix parts (i : nat) (l : list node) : option (list nat) :=
        match l with
        | [] => None
        | t :: l => match find_name n t with Some p => Some (i :: p) | None => parts (S i) l end
        end) 0 l
  | _ => None
  end.
End Parens.
(** 108: the text at that place becomes this. *)
Fixpoint set_nth (i : nat) (f : node -> node) (l : list node) : list node := match l with [] => [] | t :: l => match i with 0 => f t :: l | S i => t :: set_nth i f l end end.
Fixpoint replace_at (p : list nat) (t : node) : node :=
  match p with
  | [] => ThisNode
  | i :: p => match t with ParenNode t => ParenNode (replace_at p t) | UnionNode l => UnionNode (set_nth i (replace_at p) l) | t => t end
  end.

(** What is returned: nothing, the keyword this, an expression whose type is that of the class, the this type of the class, or something else; [classes]: whether the type of the class is known (65, 80, 99). *)
Inductive returned := NoExpression | Keyword | ClassType | ThisType | OtherType.
(** 68-93: the loop over the return statements (ForEachReturnStatement stops when told to): whether there is one of the type of the class, and whether this is returned. *)
Fixpoint loop (known : bool) (l : list returned) (this_ : bool) : bool * bool :=
  match l with
  | [] => (false, this_)
  | NoExpression :: l => loop known l this_
  | Keyword :: l => loop known l true
  | r :: l =>
      if negb known then loop known l this_
      else match r with
      | ClassType => (true, this_)
      | ThisType => loop known l true
      | _ => loop known l this_
      end
  end.
Inductive body := NoBody | Block (l : list returned) | Expression (r : returned).
(** 39-109: [class_name]: that of the class if it has one; [this_param]: the first parameter is named this.  The place that is reported. *)
Record function := { return_type : option node; fbody : body; this_param : bool }.
Definition check (skips known : bool) (class_name : option name) (f : function) : option (list nat) :=
  match return_type f, fbody f, class_name with
  | None, _, _ | _, NoBody, _ | _, _, None => None
  | Some t, bd, Some n =>
      match find_name skips n t with
      | None => None
      | Some p =>
          if this_param f then None
          else
            let ok := match bd with
              | Block l => let (c, this_) := loop known l false in negb (c || negb this_)
              | Expression r => known && match r with ThisType | Keyword => true | _ => false end
              | NoBody => false
              end in
            if ok then Some p else None
      end
  end.
(** 111-133: members of classes; properties with a function as value. *)
Inductive member := Method (in_class : bool) (f : function) | Property (in_class : bool) (init : option (option function)) | OtherMember.
Definition check_member (skips known : bool) (class_name : option name) (m : member) : option (list nat) :=
  match m with
  | Method true f => check skips known class_name f
  | Property true (Some (Some f)) => check skips known class_name f
  | _ => None
  end.
