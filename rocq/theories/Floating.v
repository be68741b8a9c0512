(** no-floating-promises (internal/rules/no_floating_promises/no_floating_promises.go), over the trees of Js.v.

    Optional chains and [new] with its arguments are operands there ([AOther]); the only assignments are those to a variable. *)
From Coq Require Import String Ascii Bool List ZArith.
From Verif Require Import Base Js.
Import ListNotations.
Open Scope Z_scope.

(** ** Types *)
(** What the rule sees of a type: whether a specifier of allowForKnownSafePromises matches; the parts of its union, of which: whether it is a
    promise ([utils.IsPromiseLike]); of the property [then], if any, the parts of its type as lists of signatures, which are lists of parameters
    that have call signatures or not; the type arguments of an array or a tuple.  The parts are taken as apparent types. *)
Inductive ptype := PType (safe : bool) (parts : list part)
with part := Part (promise : bool) (thens : option (list (list (list bool)))) (elements : elements)
with elements := NoElements | ArrayOf (t : ptype) | TupleOf (l : list ptype).

Record options := Options { check_thenables : bool; ignore_iife : bool; ignore_void : bool }.

Section Rule.
Variable opts : options.
(** [GetTypeAtLocation]; whether an expression has call signatures; the name of an index ([getAccessedPropertyName]); whether allowForKnownSafeCalls
    matches the function of a call (205-232); whether an operand is a function (234-242). *)
Variables (type_of : tree -> ptype) (callable : tree -> bool) (index_name : Z -> option bstr) (safe_callee : tree -> bool) (is_function : tree -> bool).

(** 171-174, the signature of a [then]. *)
Definition rejects (signature : list bool) : bool :=
  match signature with x :: y :: _ => x && y | _ => false end.
(** 134-182 [isPromiseLike]. *)
Definition promise_like (t : ptype) : bool :=
  let 'PType safe parts := t in
  if safe then false
  else if existsb (fun p => let 'Part promise _ _ := p in promise) parts then true
  else if negb (check_thenables opts) then false
  else existsb (fun p => let 'Part _ thens _ := p in match thens with Some l => existsb (existsb rejects) l | None => false end) parts.
(** 183-203 [isPromiseArray]. *)
Definition promise_array (t : ptype) : bool :=
  let 'PType _ parts := t in
  existsb (fun p => let 'Part _ _ e := p in
    match e with NoElements => false | ArrayOf x => promise_like x | TupleOf l => existsb promise_like l end) parts.

(** ** Expressions *)
(** [ast.SkipParentheses]. *)
Fixpoint skip (e : tree) : tree := match e with Par x => skip x | _ => e end.
(** The arguments of a call; Js.v has them as one expression with commas. *)
Fixpoint arguments (a : tree) : list tree := match a with Bin OComma l r => arguments l ++ [r] | _ => [a] end.
Definition is_spread (e : tree) : bool := match e with Pre USpread _ => true | _ => false end.
(** 248-253 [isKnownArgumentAt]. *)
Definition known_argument (args : list tree) (i : nat) : bool :=
  negb (List.length args <=? i)%nat && negb (existsb is_spread (firstn (S i) args)).
(** The object and the name of a method, as far as known (311-317). *)
Definition method (callee : tree) : option (tree * bstr) :=
  match callee with
  | Member o n => Some (o, n)
  | Suf o (SIndex k) => match index_name k with Some n => Some (o, n) | None => Some (o, []) end
  | _ => None
  end.

(** 255-260 [unhandledPromise]: the node and its type, whether it is an array, a handler that cannot be called. *)
Record unhandled := Unhandled { u_node : tree; u_array : bool; u_handler : option tree }.
Definition orelse (x y : option unhandled) : option unhandled := match x with Some _ => x | None => y end.

(** 307-356: what becomes of a call; [again] is the recursion. *)
Definition handles (again : tree -> option unhandled) (e callee : tree) (args : list tree) : option unhandled :=
  match method callee with
  | Some (o, name) =>
      if beqb name (b "catch") && (1 <=? List.length args)%nat then
        if negb (known_argument args 0) then Some (Unhandled e false None)
        else match nth_error args 0 with Some h => if callable h then None else Some (Unhandled e false (Some h)) | None => None end
      else if beqb name (b "then") && (2 <=? List.length args)%nat then
        if negb (known_argument args 1) then Some (Unhandled e false None)
        else match nth_error args 1 with Some h => if callable h then None else Some (Unhandled e false (Some h)) | None => None end
      else if beqb name (b "finally") then
        match again o with Some r => Some (Unhandled e (u_array r) (u_handler r)) | None => None end
      else Some (Unhandled e false None)
  | None => Some (Unhandled e false None)
  end.
(** 262-382 [isUnhandledPromise]. *)
Fixpoint find_unhandled (e : tree) : option unhandled :=
  let typed (rest : option unhandled) : option unhandled :=
    if promise_array (type_of e) then Some (Unhandled e true None)
    else match e with
         | Pre UAwait _ => None
         | _ => if promise_like (type_of e) then rest else None
         end in
  match e with
  | Pre (UAssign _ _) _ => None
  | Bin OComma l r => orelse (find_unhandled l) (find_unhandled r)
  | Pre UVoid x => if negb (ignore_void opts) then find_unhandled x else typed (Some (Unhandled e false None))
  | Call0 f => typed (match f with
                      | Member o _ | Suf o (SIndex _) => handles (fun _ => find_unhandled o) e f []
                      | _ => Some (Unhandled e false None)
                      end)
  | Call f a => typed (match f with
                       | Member o _ | Suf o (SIndex _) => handles (fun _ => find_unhandled o) e f (arguments a)
                       | _ => Some (Unhandled e false None)
                       end)
  | Cond _ x y => typed (orelse (find_unhandled y) (find_unhandled x))
  | Bin OAnd l r | Bin OOr l r | Bin OCoalesce l r => typed (orelse (find_unhandled l) (find_unhandled r))
  | _ => typed (Some (Unhandled e false None))
  end.

(** ** Suggestions *)
(** 84-91 [isHigherPrecedenceThanUnary]; the precedences of typescript-go are from memory: [!] after an expression counts as unary, [++] after
    one does not. *)
Definition strong (e : tree) : bool :=
  match e with
  | Atom _ | Par _ | Member _ _ | Call0 _ | Call _ _ | Suf _ SIncr | Suf _ (SIndex _) | Suf _ (STagged _) => true
  | _ => false
  end.
(** A statement with a token after the expression under its parentheses; with another token for a [void] there. *)
Fixpoint closed (e : tree) : list tok := match e with Par x => TOpen :: closed x ++ [TClose] | _ => print e ++ [TClose] end.
Fixpoint awaited (e : tree) : option (list tok) :=
  match e with
  | Par x => option_map (fun l => TOpen :: l ++ [TClose]) (awaited x)
  | Pre UVoid x => Some (TPre UAwait :: print x)
  | _ => None
  end.
Definition prefixed (u : prefix) (e : tree) : list tok := if strong e then TPre u :: print e else TPre u :: TOpen :: closed e.
(** 93-108 [addAwait]. *)
Definition add_await (e : tree) : list tok := match awaited e with Some l => l | None => prefixed UAwait e end.

(** ** Reports *)
(** The description and the help of a message. *)
Definition message_base := b "Promises must be awaited, add await operator.".
Definition message_help := b "The promise must end with a call to .catch, or end with a call to .then with a rejection handler.".
Definition message_void := b "Promises must be awaited, add void operator to ignore.".
Definition message_void_help := b "The promise must end with a call to .catch, or end with a call to .then with a rejection handler, or be explicitly marked as ignored with the `void` operator.".
Definition message_handler := b "A rejection handler that is not a function will be ignored.".
Record report := Report {
  r_id : bstr; r_text : bstr; r_help : bstr; r_node : tree; r_array : bool; r_handler : option tree; r_fixes : list (bstr * bstr * list tok) }.
(** 234-242 [isAsyncIife]. *)
Definition iife (e : tree) : bool :=
  match e with Call0 f | Call f _ => is_function (skip f) | _ => false end.
(** 205-232 [isKnownSafePromiseReturn]. *)
Definition known_safe (e : tree) : bool := match e with Call0 f | Call f _ => safe_callee f | _ => false end.
(** 13-78, 384-409, 411-482: the expression of a statement.  The labels show the type of the node and of the handler. *)
Definition statement (e : tree) : option report :=
  if ignore_iife opts && iife e then None
  else if known_safe (skip e) then None
  else match find_unhandled (skip e) with
  | None => None
  | Some u =>
      let void_fix := (b "floatingFixVoid", b "Add void operator to ignore.", prefixed UVoid e) in
      let await_fix := (b "floatingFixAwait", b "Add await operator.", add_await e) in
      Some (
        if u_array u then
          (if ignore_void opts
           then Report (b "floatingPromiseArrayVoid") (b "An array of Promises may be unintentional.")
                  (b "Consider handling the promises' fulfillment or rejection with Promise.all or similar," ++
                   b " or explicitly marking the expression as ignored with the `void` operator.")
           else Report (b "floatingPromiseArray") (b "An array of Promises may be unintentional.")
                  (b "Consider handling the promises' fulfillment or rejection with Promise.all or similar."))
            (u_node u) true (u_handler u) []
        else if ignore_void opts then
          (match u_handler u with
           | Some _ => Report (b "floatingUselessRejectionHandlerVoid") message_void (message_void_help ++ b " " ++ message_handler)
           | None => Report (b "floatingVoid") message_void message_void_help
           end) (u_node u) false (u_handler u) [void_fix; await_fix]
        else
          (match u_handler u with
           | Some _ => Report (b "floatingUselessRejectionHandler") message_base (message_help ++ b " " ++ message_handler)
           | None => Report (b "floating") message_base message_help
           end) (u_node u) false (u_handler u) [await_fix])
  end.
End Rule.
