(** Model of internal/rules/consistent_return/consistent_return.go.

    A file is a tree of the nodes the rule listens to; the traversal calls the listeners on entering a node, then
    visits its children, then calls the exit listeners (proved of the engine in PropsTraverse.v, C14).  Nodes and types
    are named by numbers.  Questions to the type checker are parameters. *)
From Coq Require Import String Bool List ZArith.
From Verif Require Import Base.
Import ListNotations.
Open Scope Z_scope.

(** The node of a function of any kind (lines 209-224): whether [ast.GetFunctionFlags] has [Async], whether its flags
    have [HasImplicitReturn], the text of its name, the return types of its call signatures. *)
Record function := Fn { fn_id : Z; fn_async : bool; fn_implicit : bool; fn_name : option bstr; fn_signatures : list Z }.
(** A return statement: for its expression, whether the flags of the type are exactly [Undefined], and whether it is
    [undefined] or [void ...] (internal/utils/ts_api_utils.go 223-225). *)
Record return_ := Ret { r_id : Z; r_expr : option (bool * bool) }.
Inductive node := Function (f : function) (ch : list node) | Return (r : return_) (ch : list node) | Other (ch : list node).

(** ** Void *)
Inductive shape := Plain | Union (l : list Z) | Intersection (l : list Z).
Section Void.
(** [utils.IsIntrinsicVoidType], kind and parts, [utils.IsThenableType], [Checker_getAwaitedType]. *)
Variables (void_type : Z -> bool) (shape_of : Z -> shape) (thenable : Z -> bool) (awaited : Z -> option Z).
(** Lines 64-93 [isThenableTypeWithVoidValue]; the map [visited] is a list.  [None]: no fuel left. *)
Fixpoint void_value (fuel : nat) (visited : list Z) (t : option Z) : option (bool * list Z) :=
  match fuel with
  | O => None
  | S fuel =>
      match t with
      | None => Some (false, visited)
      | Some t =>
          if existsb (Z.eqb t) visited then Some (false, visited)
          else let visited := t :: visited in
          if void_type t then Some (true, visited)
          else match shape_of t with
          | Union l | Intersection l =>
              (fix some l visited :=
                 match l with
                 | [] => Some (false, visited)
                 | p :: l =>
                     match void_value fuel visited (Some p) with
                     | None => None
                     | Some (true, v) => Some (true, v)
                     | Some (false, v) => some l v
                     end
                 end) l visited
          | Plain =>
              if negb (thenable t) then Some (false, visited)
              else match awaited t with
              | None => Some (false, visited)
              | Some u => if u =? t then Some (false, visited) else void_value fuel visited (Some u)
              end
          end
      end
  end.
(** internal/utils/ts_api_utils.go 9-14. *)
Definition union_parts (t : Z) : list Z := match shape_of t with Union l => l | _ => [t] end.
(** Lines 95-113 [isReturnVoidOrThenableVoid]; no signatures: false. *)
Definition is_return_void (fuel : nat) (f : function) : option bool :=
  (fix some l :=
     match l with
     | [] => Some false
     | t :: l =>
         if fn_async f then
           match void_value fuel [] (Some t) with None => None | Some (true, _) => Some true | Some (false, _) => some l end
         else if existsb void_type (union_parts t) then Some true else some l
     end) (fn_signatures f).
End Void.

(** ** The listeners *)
(** Lines 38-62 [getFunctionNameWithKind]; an empty text is no name. *)
Definition name_with_kind (f : function) : bstr :=
  let prefix := if fn_async f then b "Async function" else b "Function" in
  match fn_name f with
  | None | Some [] => prefix
  | Some n => prefix ++ b " '" ++ n ++ b "'"
  end.
(** Node, id and description. *)
Notation report := (Z * bstr * bstr)%type.
Definition missing (node : Z) (f : function) : report := (node, b "missingReturnValue", name_with_kind f ++ b " expected a return value.").
Definition unexpected (node : Z) (f : function) : report := (node, b "unexpectedReturnValue", name_with_kind f ++ b " expected no return value.").

Section Rule.
Variable void_return : function -> bool.
Variable undefined_as_unspecified : bool.
(** Lines 27-36; [fs_void]: the memo [allowsVoidReturn], with [allowsVoidReturnComputed]. *)
Record fstate := FS { fs_fn : function; fs_return : bool; fs_value : bool; fs_mismatch : bool; fs_void : option bool; fs_message : bstr }.
(** Lines 152-158 [allowsVoidReturn]. *)
Definition allows (s : fstate) : bool * fstate :=
  match fs_void s with
  | Some v => (v, s)
  | None => let v := void_return (fs_fn s) in (v, FS (fs_fn s) (fs_return s) (fs_value s) (fs_mismatch s) (Some v) (fs_message s))
  end.
(** Lines 115-130 [getHasReturnValue]. *)
Definition has_return_value (r : return_) : bool :=
  match r_expr r with
  | None => false
  | Some (only_undefined, literal) => if negb undefined_as_unspecified then true else if only_undefined then false else negb literal
  end.
(** Lines 180-207 [onReturnStatement], lines 132-139. *)
Definition on_return (r : return_) (st : list fstate) : list report * list fstate :=
  match st with
  | [] => ([], [])
  | s :: up =>
      let go s :=
        let v := has_return_value r in
        if negb (fs_return s) then ([], FS (fs_fn s) true v (fs_mismatch s) (fs_void s) (if v then b "missingReturnValue" else b "unexpectedReturnValue") :: up)
        else if negb (Bool.eqb (fs_value s) v) then
          ((if beqb (fs_message s) (b "missingReturnValue") then [missing (r_id r) (fs_fn s)]
            else if beqb (fs_message s) (b "unexpectedReturnValue") then [unexpected (r_id r) (fs_fn s)] else []),
           FS (fs_fn s) (fs_return s) (fs_value s) true (fs_void s) (fs_message s) :: up)
        else ([], s :: up) in
      match r_expr r with
      | None => let (v, s) := allows s in if v then ([], s :: up) else go s
      | Some _ => go s
      end
  end.
(** Lines 160-165. *)
Definition enter (f : function) (st : list fstate) : list fstate := FS f false false false None [] :: st.
(** Lines 167-178. *)
Definition leave (st : list fstate) : list report * list fstate :=
  match st with
  | [] => ([], [])
  | s :: up =>
      ((if negb (fs_mismatch s) && fs_return s && fs_value s && fn_implicit (fs_fn s) && negb (fst (allows s)) then [missing (fn_id (fs_fn s)) (fs_fn s)] else []), up)
  end.
(** The traversal. *)
Fixpoint walk (n : node) (st : list fstate) : list report * list fstate :=
  let all := fix all l st := match l with [] => ([], st) | n :: l => let (a, st) := walk n st in let (c, st) := all l st in (a ++ c, st) end in
  match n with
  | Function f ch => let (a, st) := all ch (enter f st) in let (c, st) := leave st in (a ++ c, st)
  | Return r ch => let (a, st) := on_return r st in let (c, st) := all ch st in (a ++ c, st)
  | Other ch => all ch st
  end.
Definition reports (n : node) : list report := fst (walk n []).
End Rule.
