(** What C63 is measured against: how async functions run, and where a returned expression stands. *)
From Coq Require Import Bool List Arith.
From Verif Require Import ReturnAwait.
Import ListNotations.

(** ** Running *)
(** Values and promises; a result or an exception. *)
Inductive value := V (v : nat) | P (p : nat).
Inductive res (A : Type) := Ok (x : A) | Err (e : nat).
Arguments Ok {A}. Arguments Err {A}.
(** All effects are on [state]; [settle]: waiting for a promise; [dispose]: the end of a using declaration; [next], [close]: the iterator of for-of. *)
Record world := World {
  state : Type; act : nat -> state -> state * option nat; cond : nat -> state -> state * res bool; eval_plain : nat -> state -> state * res value;
  settle : nat -> state -> state * res nat; acquire : nat -> state -> state * option nat; dispose : nat -> state -> state * option nat;
  next : nat -> state -> state * res bool; close : nat -> state -> state * option nat; suppressed : nat -> nat -> nat }.
Inductive completion := Normal | Broke | Continued | Returned (x : value) | Threw (e : nat).
Section Run.
Variables (w : world) (gen : bool) (fuel : nat).
Definition wait (x : state w * res value) : state w * res value :=
  match x with (st, Ok (P p)) => match settle w p st with (st, Ok v) => (st, Ok (V v)) | (st, Err e) => (st, Err e) end | x => x end.
Fixpoint eval (e : ret) (st : state w) : state w * res value :=
  match e with
  | Plain n _ _ => eval_plain w n st
  | Awaits _ e => wait (eval e st)
  | Parens e => eval e st
  | Cond c a d => match cond w c st with (st, Ok x) => eval (if x then a else d) st | (st, Err e) => (st, Err e) end
  end.
Definition done (x : state w * option nat) (c : completion) : state w * completion := match x with (st, None) => (st, c) | (st, Some e) => (st, Threw e) end.
Fixpoint run (s : stmt) (st : state w) {struct s} : option (state w * completion) :=
  match s with
  | Do n _ => Some (done (act w n st) Normal)
  | Throw e => Some (st, Threw e)
  | Break => Some (st, Broke)
  | Continue => Some (st, Continued)
  | Using d => Some (done (acquire w d st) Normal)
  | Block l => run_list l st
  | If c s t => match cond w c st with (st, Err e) => Some (st, Threw e) | (st, Ok true) => run s st | (st, Ok false) => run t st end
  | While c s =>
      (fix loop n st :=
         match n with
         | 0 => None
         | S n => match cond w c st with
                  | (st, Err e) => Some (st, Threw e) | (st, Ok false) => Some (st, Normal)
                  | (st, Ok true) => match run s st with Some (st, (Normal | Continued)) => loop n st | Some (st, Broke) => Some (st, Normal) | x => x end
                  end
         end) fuel st
  | ForOf d s =>
      (fix loop n st :=
         match n with
         | 0 => None
         | S n => match next w d st with
                  | (st, Err e) => Some (st, Threw e) | (st, Ok false) => Some (st, Normal)
                  | (st, Ok true) => match run s st with
                                     | Some (st, (Normal | Continued)) => loop n st
                                     | Some (st, Broke) => Some (done (close w d st) Normal)
                                     | Some (st, Threw e) => Some (fst (close w d st), Threw e)
                                     | Some (st, c) => Some (done (close w d st) c)
                                     | None => None
                                     end
                  end
         end) fuel st
  | Try l c f =>
      match match run_list l st, c with Some (st, Threw _), Present l => run_list l st | x, _ => x end, f with
      | Some (st, x), Present l => match run_list l st with Some (st, Normal) => Some (st, x) | y => y end
      | x, _ => x
      end
  | Return None => Some (st, Returned (V 0))
  | Return (Some e) => let x := eval e st in Some match (if gen then wait x else x) with (st, Ok v) => (st, Returned v) | (st, Err e) => (st, Threw e) end
  end
with run_list (l : stmts) (st : state w) {struct l} : option (state w * completion) :=
  match l with
  | SNil => Some (st, Normal)
  | SCons (Using d) l =>
      match acquire w d st with
      | (st, Some e) => Some (st, Threw e)
      | (st, None) => match run_list l st with
                      | Some (st, c) => match dispose w d st with (st, None) => Some (st, c) | (st, Some e) => Some (st, Threw (match c with Threw e' => suppressed w e' e | _ => e end)) end
                      | None => None
                      end
      end
  | SCons s l => match run s st with Some (st, Normal) => run_list l st | x => x end
  end.
End Run.
(** What a call of an async function comes to: it takes over a promise that is returned. *)
Definition settled (w : world) (x : state w * res value) : state w * res nat := match wait w x with (st, Ok (V v)) => (st, Ok v) | (st, Ok (P p)) => (st, Ok p) | (st, Err e) => (st, Err e) end.
Definition called (w : world) (fuel : nat) (f : func) (st : state w) : option (state w * res nat) :=
  match f with
  | Func _ gen l =>
      match run_list w gen fuel l st with
      | None => None
      | Some (st, Returned x) => Some (settled w (st, Ok x))
      | Some (st, Threw e) => Some (st, Err e)
      | Some (st, _) => Some (st, Ok 0)
      end
  | Arrow _ e => Some (settled w (eval w e st))
  end.
(** The types are right about the values: never awaited, never a promise. *)
Definition typed (type_of : ret -> awaitable) (w : world) : Prop := forall e st st' p, type_of e = Never -> eval w e st <> (st', Ok (P p)).

(** ** Places *)
(** In a returned expression, from the inside out. *)
Inductive rhole := RParens | RThen (c : nat) (d : ret) | RElse (c : nat) (a : ret).
Definition rput (h : rhole) (e : ret) : ret := match h with RParens => Parens e | RThen c d => Cond c e d | RElse c a => Cond c a e end.
Definition rplug (hs : list rhole) (e : ret) : ret := fold_left (fun e h => rput h e) hs e.
(** Neither parentheses nor a conditional expression. *)
Definition leaf (e : ret) : Prop := match e with Plain _ _ _ | Awaits _ _ => True | _ => False end.
Fixpoint app (l m : stmts) : stmts := match l with SNil => m | SCons s l => SCons s (app l m) end.
(** In a statement, from the inside out. *)
Inductive hole :=
| HBlock (l m : stmts) | HThen (c : nat) (t : stmt) | HElse (c : nat) (s : stmt) | HWhile (c : nat) | HFor (d : nat)
| HTry (l m : stmts) (c f : ostmts) | HCatch (b l m : stmts) (f : ostmts) | HFinally (b : stmts) (c : ostmts) (l m : stmts).
Definition put (h : hole) (s : stmt) : stmt :=
  match h with
  | HBlock l m => Block (app l (SCons s m))
  | HThen c t => If c s t | HElse c t => If c t s | HWhile c => While c s | HFor d => ForOf d s
  | HTry l m c f => Try (app l (SCons s m)) c f
  | HCatch b l m f => Try b (Present (app l (SCons s m))) f
  | HFinally b c l m => Try b c (Present (app l (SCons s m)))
  end.
Definition plug (hs : list hole) (s : stmt) : stmt := fold_left (fun s h => put h s) hs s.
(** Something is done before a function ends when an exception is thrown in the hole: a catch clause, a finally block, the end of a using declaration. *)
Fixpoint has_using (l : stmts) : Prop := match l with SNil => False | SCons s l => (exists d, s = Using d) \/ has_using l end.
Definition before_in (h : hole) : stmts := match h with HBlock l _ | HTry l _ _ _ | HCatch _ l _ _ | HFinally _ _ l _ => l | _ => SNil end.
Definition sees (h : hole) : Prop := has_using (before_in h) \/ match h with HTry _ _ _ _ => True | HCatch _ _ _ f => f <> Absent | _ => False end.
Definition closes (h : hole) : Prop := exists d, h = HFor d.
(** A function written somewhere in a file. *)
Inductive in_f : func -> stmts -> Prop :=
| if_here f l s m : in_s f s -> in_f f (app l (SCons s m))
with in_s : func -> stmt -> Prop :=
| is_do f g n fs : in_fs f fs -> in_g g f -> in_s g (Do n fs)
| is_put f h s : in_s f s -> in_s f (put h s)
with in_fs : func -> funcs -> Prop :=
| ifs_here f fs : in_fs f (FCons f fs)
| ifs_there f g fs : in_fs f fs -> in_fs f (FCons g fs)
with in_g : func -> func -> Prop :=
| ig_self f : in_g f f
| ig_in f a g l : in_f f l -> in_g f (Func a g l).
(** A returned expression of a function, and the holes it is in. *)
Inductive returns : func -> list hole -> ret -> Prop :=
| r_arrow a e : returns (Arrow a e) [] e
| r_stmt a g l hs e : Block l = plug hs (Return (Some e)) -> returns (Func a g l) hs e.
Definition is_async (f : func) : bool := match f with Func a _ _ | Arrow a _ => a end.

(** ** Texts *)
Definition without_lines (ts : list tok) : list tok := filter (fun t => match t with KNewline => false | _ => true end) ts.
(** Can stand where operands of precedence [n] can. *)
Fixpoint fits (n : nat) (e : ret) : Prop :=
  match e with
  | Plain _ l _ => n <= l
  | Awaits _ e => n <= 14 /\ fits 14 e
  | Parens e => fits 0 e
  | Cond _ a d => n <= 1 /\ fits 1 a /\ fits 1 d
  end.
(** After return, or after the arrow, the text is read as the expression: no line break first, no brace first. *)
Definition read_as (arrow : bool) (ts : list tok) (e : ret) : Prop :=
  without_lines ts = without_lines (text e) /\ fits (if arrow then 1 else 0) e
  /\ match ts with KNewline :: _ => arrow = true /\ forall n l ts', ts <> KNewline :: KPlain n l true :: ts' | KPlain _ _ br :: _ => arrow = true -> br = false | _ => True end.

(** ** What is reported *)
Section Verdict.
Variables (opt : option_) (type_of : ret -> awaitable) (affected : Prop).
Inductive verdict : ret -> message -> bool -> Prop :=
| v_plain nl c : type_of c = Never -> verdict (Awaits nl c) NonPromise true
| v_awaited nl c made : type_of c = Always -> opt = ONever \/ (opt = OInTry /\ ~ affected) -> (made = true <-> ~ affected) -> verdict (Awaits nl c) Disallowed made
| v_missing x made : (forall nl c, x <> Awaits nl c) -> type_of x = Always -> opt = OAlways \/ ((opt = OInTry \/ opt = OCorrectness) /\ affected) -> (made = true <-> ~ affected) -> verdict x Required made.
End Verdict.
(** The change. *)
Inductive changed : ret -> ret -> Prop :=
| ch_out nl c : changed (Awaits nl c) c
| ch_in n l br : 14 < l -> changed (Plain n l br) (Awaits false (Plain n l br))
| ch_parens n l br : l <= 14 -> changed (Plain n l br) (Awaits false (Parens (Plain n l br))).
Inductive replaced : func -> list hole -> ret -> ret -> func -> Prop :=
| rp_arrow a e e' : replaced (Arrow a e) [] e e' (Arrow a e')
| rp_func a g l l' hs e e' : Block l = plug hs (Return (Some e)) -> Block l' = plug hs (Return (Some e')) -> replaced (Func a g l) hs e e' (Func a g l').
Definition is_arrow (f : func) : bool := match f with Arrow _ _ => true | _ => false end.
(** If await comes first, what is awaited is on the same line after return, and does not begin with a brace after an arrow. *)
Definition safe_start (f : func) (rhs : list rhole) (x : ret) : Prop :=
  match rhs, x, f with [], Awaits nl _, Func _ _ _ => nl = false | [], Awaits _ (Plain _ _ br), Arrow _ _ => br = false | _, _, _ => True end.
(** Holes of the same kind: what stands before, after and beside may differ. *)
Definition same_present (o o' : ostmts) : Prop := o = Absent <-> o' = Absent.
Inductive alike : hole -> hole -> Prop :=
| a_block l m l' m' : (has_using l <-> has_using l') -> alike (HBlock l m) (HBlock l' m')
| a_then c t c' t' : alike (HThen c t) (HThen c' t')
| a_else c t c' t' : alike (HElse c t) (HElse c' t')
| a_while c c' : alike (HWhile c) (HWhile c')
| a_for d d' : alike (HFor d) (HFor d')
| a_try l m c f l' m' c' f' : (has_using l <-> has_using l') -> same_present c c' -> same_present f f' -> alike (HTry l m c f) (HTry l' m' c' f')
| a_catch b l m f b' l' m' f' : (has_using l <-> has_using l') -> same_present f f' -> alike (HCatch b l m f) (HCatch b' l' m' f')
| a_finally b c l m b' c' l' m' : (has_using l <-> has_using l') -> same_present c c' -> alike (HFinally b c l m) (HFinally b' c' l' m').
(** A try statement has a catch clause or a finally block. *)
Definition complete (h : hole) : Prop := match h with HTry _ _ c f => c <> Absent \/ f <> Absent | _ => True end.
