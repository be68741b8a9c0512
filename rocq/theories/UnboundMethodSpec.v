(** Where references to methods lose their object, which functions need it, what is no code. *)
From Coq Require Import Bool Ascii String List.
From Verif Require Import Base.
From Verif Require Import UnboundMethod.
Import ListNotations.

(** The value of a reference to a method, in these places, gets somewhere without the object ([reference]: it is still a reference, so that a call passes the object as [this]).  Functions are truthy; parentheses and assertions keep references.
    What is written to a property of [this] from the same of [super] is still used with its object; the value of that assignment is not. *)
Inductive escapes : bool -> list frame -> Prop :=
| EKeeps r f above : In f [Parenthesized; NonNull; As; Assertion; Satisfies] -> escapes r above -> escapes r (f :: above)
| EValue r f above : In f [Branch; Await; Left Or; Left Coalesce; Left OrAssign; Left CoalesceAssign; Right Assign true] -> escapes false above -> escapes r (f :: above)
| EValueRight r o k above : In o [And; Or; Coalesce; Comma] -> escapes false above -> escapes r (Right o k :: above)
| EStored r o k above : In o [OrAssign; AndAssign; CoalesceAssign; OtherAssign] -> escapes r (Right o k :: above)
| EAssigned r above : escapes r (Right Assign false :: above)
| ECalled f above : In f [Callee; Tag] -> escapes false (f :: above)
| EPassed r f above : In f [CallArgument; NewCallee; NewArgument; Elsewhere] -> escapes r (f :: above).

(** Places through which the loop goes on, and places it takes as harmless. *)
Definition passes (f : frame) : Prop := f = Parenthesized \/ f = NonNull \/ f = As \/ f = Assertion \/ f = Left Or \/ exists k, f = Right Or k \/ f = Right And k.
Definition harmless (f : frame) : Prop :=
  In f [IfCondition; ForPart; WhileCondition; SwitchValue; PropertyObject; ElementObject; ElementIndex; Postfix PlusPlus; Postfix MinusMinus; Prefix PlusPlus; Prefix MinusMinus; Prefix Exclamation;
        Callee; Tag; Condition; Delete; TypeOf; Void; Left And; Left Assign; Right Assign true]
  \/ exists o, In o [Equal; NotEqual; StrictEqual; StrictNotEqual; InstanceOf] /\ (f = Left o \/ exists k, f = Right o k).

(** Methods and functions written as values of properties of object literals. *)
Inductive function_of : declaration -> bool -> list parameter -> Prop :=
| FOMethod s ps : function_of (MethodDeclaration s ps) s ps
| FOSignature ps : function_of (MethodSignature ps) false ps
| FOAssigned ps : function_of (PropertyAssignment (FunctionExpression ps)) false ps.
Definition this_typed (ps : list parameter) (t : option bool) : Prop := exists p l, ps = p :: l /\ parameter_name p = Some (b "this") /\ parameter_type p = t.
Definition names_this (ps : list parameter) : Prop := exists t, this_typed ps t.

(** The parts of a type, in order. *)
Fixpoint leaves (t : type) : list (option declaration) := match t with Parts l => flat_map leaves l | Basic d => [d] end.
(** What a property of a pattern may come from, in order. *)
Definition sources (initial : option (bool * option declaration)) (pattern : type) (assignment_like : bool) : list (option declaration) :=
  match initial, assignment_like with
  | None, _ => leaves pattern
  | Some (false, d), _ => d :: leaves pattern
  | Some (true, _), true => leaves pattern
  | Some (true, _), false => []
  end.
(** The first that is not fine. *)
Definition first_of (verdicts : list outcome) (o : outcome) : Prop :=
  (o = Nothing /\ Forall (eq Nothing) verdicts) \/ (o <> Nothing /\ exists l m, verdicts = l ++ o :: m /\ Forall (eq Nothing) l).

(** Nodes whose inside is no code. *)
Definition no_code (a : around) : Prop :=
  a = ClassDeclaration true \/ a = VariableStatement true \/ a = Namespace true \/ In a [FunctionType; InterfaceDeclaration; TypeAliasDeclaration; TypeLiteral] \/
  a = FunctionDeclaration false \/ a = Constructor_ false \/ (exists x, a = Method x false) \/ (exists y, a = Method true y).
