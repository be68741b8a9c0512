(** What C59 is measured against: how expressions are evaluated, which values types have, which expressions can be written without further parentheses, what two accesses have in
    common, and when the rule should report. *)
From Coq Require Import String Ascii Bool List ZArith.
From Verif Require Import Base Nullish.
Import ListNotations.
Open Scope Z_scope.

(** Values; symbols are among the objects. *)
Inductive value := Undef | Nul | Boolean (x : bool) | Number (z : Z) | NaN | BigInt (z : Z) | String_ (s : bstr) | Object (n : Z).
Definition nullish (v : value) : Prop := v = Undef \/ v = Nul.
Definition nullishb (v : value) : bool := match v with Undef | Nul => true | _ => false end.
Definition truthy (v : value) : bool :=
  match v with
  | Undef | Nul | NaN => false
  | Boolean x => x
  | Number z | BigInt z => negb (z =? 0)
  | String_ [] => false
  | String_ _ | Object _ => true
  end.
(** 0, "", false, NaN and 0n: where || and ?? differ. *)
Definition falsy_only (v : value) : Prop := truthy v = false /\ ~ nullish v.

(** [Short]: an optional chain was left. *)
Inductive out := Val (v : value) | Short | Throw.
Definition close (x : out) : out := match x with Short => Val Undef | x => x end.
(** A private name is another key than the string. *)
Definition key := (bool * bstr)%type.
Inductive loc := LVar (x : bstr) | LProp (object : value) (k : key).

Section Run.
(** The state of the program. *)
Variable St : Type.
Variables (var : St -> bstr -> value) (this : St -> value) (prop : St -> value -> key -> value).
Variables (set_var : St -> bstr -> value -> St) (set_prop : St -> value -> key -> value -> St).
(** Other expressions do anything, they end with a value or throw. *)
Variable opaque : Z -> St -> option value * St.
(** Numbers and bigints as written; other values as keys; comparisons of values that are not both null or undefined; other operators. *)
Variables (number bigint : bstr -> value) (other_key : value -> bstr) (strict_rest loose_rest : value -> value -> bool) (compute : bstr -> value -> value -> value).

Definition key_of (v : value) : bstr := match v with String_ s => s | v => other_key v end.
Definition strict (v w : value) : bool :=
  match v, w with
  | Undef, Undef | Nul, Nul => true
  | Undef, _ | Nul, _ | _, Undef | _, Nul => false
  | v, w => strict_rest v w
  end.
Definition loose (v w : value) : bool :=
  match nullishb v, nullishb w with true, true => true | false, false => loose_rest v w | _, _ => false end.
Definition after (x : out * St) (k : value -> St -> out * St) : out * St :=
  match close (fst x) with Val v => k v (snd x) | y => (y, snd x) end.
Definition get (s : St) (l : loc) : value := match l with LVar x => if beqb x (b "undefined") then Undef else var s x | LProp v k => prop s v k end.
Definition put (s : St) (l : loc) (v : value) : St := match l with LVar x => set_var s x v | LProp w k => set_prop s w k v end.

(** Evaluation; reading members has no effects.  [resolve]: what an assignment writes to. *)
Fixpoint run (e : expr) (s : St) {struct e} : out * St :=
  match e with
  | Id x => (Val (if beqb x (b "undefined") then Undef else var s x), s)
  | This => (Val (this s), s)
  | Null => (Val Nul, s)
  | Str t | Tmpl t => (Val (String_ t), s)
  | Num t => (Val (number t), s)
  | Big t => (Val (bigint t), s)
  | Dot o p n q =>
      match run o s with
      | (Val v, s) => if nullishb v then (if q then Short else Throw, s) else (Val (prop s v (p, n)), s)
      | x => x
      end
  | Elem o i q =>
      match run o s with
      | (Val v, s) => if nullishb v then (if q then Short else Throw, s) else after (run i s) (fun k s => (Val (prop s v (false, key_of k)), s))
      | x => x
      end
  | NonNull e => run e s
  | Paren e => (close (fst (run e s)), snd (run e s))
  | Not e => after (run e s) (fun v s => (Val (Boolean (negb (truthy v))), s))
  | Bin k l r =>
      match k with
      | Or => after (run l s) (fun v s => if truthy v then (Val v, s) else after (run r s) (fun w s => (Val w, s)))
      | And => after (run l s) (fun v s => if truthy v then after (run r s) (fun w s => (Val w, s)) else (Val v, s))
      | Coal => after (run l s) (fun v s => if nullishb v then after (run r s) (fun w s => (Val w, s)) else (Val v, s))
      | Eq2 => after (run l s) (fun v s => after (run r s) (fun w s => (Val (Boolean (loose v w)), s)))
      | Ne2 => after (run l s) (fun v s => after (run r s) (fun w s => (Val (Boolean (negb (loose v w))), s)))
      | Eq3 => after (run l s) (fun v s => after (run r s) (fun w s => (Val (Boolean (strict v w)), s)))
      | Ne3 => after (run l s) (fun v s => after (run r s) (fun w s => (Val (Boolean (negb (strict v w))), s)))
      | Comma => after (run l s) (fun _ s => after (run r s) (fun w s => (Val w, s)))
      | Arith k => after (run l s) (fun v s => after (run r s) (fun w s => (Val (compute k v w), s)))
      | Assign a =>
          match resolve l s with
          | (None, s) => (Throw, s)
          | (Some x, s) =>
              match a with
              | Plain => after (run r s) (fun v s => (Val v, put s x v))
              | OrA => if truthy (get s x) then (Val (get s x), s) else after (run r s) (fun v s => (Val v, put s x v))
              | CoalA => if nullishb (get s x) then after (run r s) (fun v s => (Val v, put s x v)) else (Val (get s x), s)
              | Comp k => let v := get s x in after (run r s) (fun w s => (Val (compute k v w), put s x (compute k v w)))
              end
          end
      end
  | Cond c t f => after (run c s) (fun v s => if truthy v then after (run t s) (fun w s => (Val w, s)) else after (run f s) (fun w s => (Val w, s)))
  | Opaque n _ _ _ => match opaque n s with (Some v, s) => (Val v, s) | (None, s) => (Throw, s) end
  end
with resolve (e : expr) (s : St) {struct e} : option loc * St :=
  match e with
  | Id x => (Some (LVar x), s)
  | Dot o p n false =>
      match run o s with
      | (Val v, s) => if nullishb v then (None, s) else (Some (LProp v (p, n)), s)
      | (_, s) => (None, s)
      end
  | Elem o i false =>
      match run o s with
      | (Val v, s) =>
          if nullishb v then (None, s)
          else match close (fst (run i s)) with Val k => (Some (LProp v (false, key_of k)), snd (run i s)) | _ => (None, snd (run i s)) end
      | (_, s) => (None, s)
      end
  | NonNull e | Paren e => resolve e s
  | _ => (None, s)
  end.
(** The value at the end and the state then. *)
Definition result (e : expr) (s : St) : out * St := (close (fst (run e s)), snd (run e s)).
(** if (test) e; and e;.  None: it throws. *)
Definition exec (e : expr) (s : St) : option St := match result e s with (Val _, s) => Some s | _ => None end.
Definition exec_if (test e : expr) (s : St) : option St :=
  match result test s with (Val v, s) => if truthy v then exec e s else Some s | _ => None end.
End Run.

(** Values of types. *)
Definition has_value (a : atom) (v : value) : Prop :=
  match a with
  | TAny | TUnknown | TParam => True
  | TNull => v = Nul
  | TUndefined | TVoid => v = Undef
  | TString => exists s, v = String_ s
  | TNumber => (exists z, v = Number z) \/ v = NaN
  | TBigint => exists z, v = BigInt z
  | TBoolean => exists x, v = Boolean x
  | TObject => exists n, v = Object n
  | TShape => ~ nullish v
  end.
Definition inhabits (t : ty) (v : value) : Prop := exists part, In part t /\ Forall (fun a => has_value a v) part.
(** The type says which of null and undefined it has. *)
Definition clear_type (t : ty) : Prop :=
  forall part, In part t -> part = [TNull] \/ part = [TUndefined] \/ part = [TAny] /\ t = [[TAny]] \/ part = [TUnknown] /\ t = [[TUnknown]]
    \/ exists a, In a part /\ (a = TString \/ a = TNumber \/ a = TBigint \/ a = TBoolean \/ a = TObject \/ a = TShape).
(** The type says which primitives it has. *)
Definition known_type (t : ty) : Prop :=
  forall part, In part t -> part = [TNull] \/ part = [TUndefined] \/ part = [TVoid]
    \/ exists a, In a part /\ (a = TString \/ a = TNumber \/ a = TBigint \/ a = TBoolean \/ a = TObject).

(** What an access reads: [SDot] by name (private or not), [SElem] by a computed index. *)
Inductive form := SId (x : bstr) | SThis | SNull | SStr (s : bstr) | SNum (s : bstr) | SBig (s : bstr) | SDot (o : form) (k : key) | SElem (o i : form).
Inductive reads : expr -> form -> Prop :=
| r_id x : reads (Id x) (SId x)
| r_this : reads This SThis
| r_null : reads Null SNull
| r_str s : reads (Str s) (SStr s)
| r_tmpl s : reads (Tmpl s) (SStr s)
| r_num s : reads (Num s) (SNum s)
| r_big s : reads (Big s) (SBig s)
| r_dot e o p n q : reads e o -> reads (Dot e p n q) (SDot o (p, n))
| r_str_elem e o s q : reads e o -> reads (Elem e (Str s) q) (SDot o (false, s))
| r_tmpl_elem e o s q : reads e o -> reads (Elem e (Tmpl s) q) (SDot o (false, s))
| r_elem e i o f q : reads e o -> reads i f -> (forall s, i <> Str s /\ i <> Tmpl s) -> reads (Elem e i q) (SElem o f)
| r_nonnull e f : reads e f -> reads (NonNull e) f
| r_paren e f : reads e f -> reads (Paren e) f.
Fixpoint no_chain (e : expr) : Prop :=
  match e with Dot o _ _ q => q = false /\ no_chain o | Elem o i q => q = false /\ no_chain o /\ no_chain i | NonNull e | Paren e => no_chain e | _ => True end.
(** No name other than a private one and no index that is a string has # in front, and there are no optional chains inside indices. *)
Fixpoint tame (e : expr) : Prop :=
  match e with
  | Dot o p n _ => tame o /\ (p = false -> forall s, n <> b "#" ++ s)
  | Elem o i _ => tame o /\ no_chain i /\ (forall s, i <> Str (b "#" ++ s) /\ i <> Tmpl (b "#" ++ s))
  | NonNull e | Paren e | Not e => tame e
  | Bin _ l r => tame l /\ tame r
  | Cond c t f => tame c /\ tame t /\ tame f
  | _ => True
  end.
(** Accesses as they are usually written. *)
Inductive usual_index : expr -> Prop :=
| u_id x : usual_index (Id x) | u_num s : usual_index (Num s) | u_big s : usual_index (Big s) | u_this : usual_index This
| u_dot o n q : usual_index o -> usual_index (Dot o false n q).
Inductive usual : expr -> Prop :=
| u_plain e : usual_core e -> usual e
| u_nonnull e : usual_core e -> usual (NonNull e)
| u_paren e : usual e -> usual (Paren e)
with usual_core : expr -> Prop :=
| u_name x : usual_core (Id x)
| u_self : usual_core This
| u_member o p n q : usual o -> n <> [] -> usual_core (Dot o p n q)
| u_string o s q : usual o -> s <> [] -> usual_core (Elem o (Str s) q)
| u_template o s q : usual o -> s <> [] -> usual_core (Elem o (Tmpl s) q)
| u_index o i q : usual o -> usual_index i -> usual_core (Elem o i q).

(** Which expressions can be written as they are: operands bind closely enough, and ?? is not mixed with || or && without parentheses. *)
Definition closer (e : expr) : Prop :=
  match e with Bin (Or | And | Coal | Comma | Assign _) _ _ | Cond _ _ _ => False | Opaque _ _ t _ => t = true | _ => True end.
Definition unary (e : expr) : Prop := match e with Bin _ _ _ | Cond _ _ _ => False | Opaque _ _ t _ => t = true | _ => True end.
Definition primary (e : expr) : Prop := match e with Bin _ _ _ | Cond _ _ _ | Not _ => False | Opaque _ s _ _ => s = true | _ => True end.
Definition compares (k : op) : bool := match k with Eq2 | Ne2 | Eq3 | Ne3 => true | _ => false end.
Definition assigns (e : expr) : Prop := match e with Bin Comma _ _ => False | _ => True end.
Definition logical_with (k : op) (e : expr) : Prop := match e with Bin k' _ _ => k' = k | _ => False end.
(** [e] can be the child at [f]. *)
Definition fits (f : frame) (e : expr) : Prop :=
  match f with
  | FParen | FTest => True
  | FNot => unary e
  | FBinL Or _ => closer e \/ logical_with Or e \/ logical_with And e
  | FBinR _ Or => closer e \/ logical_with And e
  | FBinL And _ => closer e \/ logical_with And e
  | FBinR _ And => closer e
  | FBinL Coal _ => closer e \/ logical_with Coal e
  | FBinR _ Coal => closer e
  | FBinL (Eq2 | Ne2 | Eq3 | Ne3) _ => closer e
  | FBinR _ (Eq2 | Ne2 | Eq3 | Ne3) => closer e /\ match e with Bin k _ _ => compares k = false | _ => True end
  | FBinL (Arith _) _ => closer e /\ match e with Bin k _ _ => compares k = false | _ => True end
  | FBinR _ (Arith _) => unary e
  | FBinL Comma _ => True
  | FBinR _ Comma => assigns e
  | FBinL (Assign _) _ => primary e
  | FBinR _ (Assign _) => assigns e
  | FCondC _ _ => closer e \/ logical_with Or e \/ logical_with And e \/ logical_with Coal e
  | FCondT _ _ | FCondF _ _ => assigns e
  | FBoolean | FCall | FOther => assigns e
  end.
Fixpoint writable (e : expr) : Prop :=
  match e with
  | Dot o _ _ _ => primary o /\ writable o
  | Elem o i _ => primary o /\ writable o /\ writable i
  | NonNull e => primary e /\ writable e
  | Paren e => writable e
  | Not e => fits FNot e /\ writable e
  | Bin k l r => fits (FBinL k r) l /\ fits (FBinR l k) r /\ writable l /\ writable r
  | Cond c t f => fits (FCondC t f) c /\ fits (FCondT c f) t /\ fits (FCondF c t) f /\ writable c /\ writable t /\ writable f
  | Opaque _ s t _ => s = true -> t = true
  | _ => True
  end.
(** The whole expression around [e], up to the statement or call. *)
Fixpoint plug (ctx : list frame) (e : expr) : expr :=
  match ctx with
  | [] | (FTest | FBoolean | FCall | FOther) :: _ => e
  | f :: ctx => plug ctx (plug1 f e)
  end.
(** [e] can stand at [ctx]. *)
Definition stands (ctx : list frame) (e : expr) : Prop := writable (plug ctx e) /\ match ctx with f :: _ => fits f e | [] => True end.

(** The edit of [l || r] takes out the right operand of an &&, or splits a || with && on the right. *)
Definition entangled (ctx : list frame) (l : expr) : Prop :=
  exists x rest kl ll lr, ctx = FBinL Or x :: rest /\ l = Bin kl ll lr /\ (kl = And \/ kl = Or /\ logical_with And lr /\ ~ logical_with Or ll).
(** The right side of the new ?? stands for itself or is put in parentheses. *)
Definition for_itself (e : expr) : Prop :=
  match e with Id _ | Str _ | Tmpl _ | Num _ | Big _ | Dot _ _ _ _ | Elem _ _ _ | Paren _ => True | Opaque _ s _ _ => s = true | _ => False end.
Inductive guarded (e : expr) : expr -> Prop :=
| g_itself : for_itself e -> guarded e e
| g_paren : ~ for_itself e -> guarded e (Paren e).

(** Reporting. *)
Definition may_be_nullish (t : ty) : Prop := t = [[TAny]] \/ t = [[TUnknown]] \/ In [TNull] t \/ In [TUndefined] t.
Definition ignored (o : options) (a : atom) : Prop :=
  a = TBigint /\ ig_bigint o = true \/ a = TBoolean /\ ig_bool o = true \/ a = TNumber /\ ig_number o = true \/ a = TString /\ ig_string o = true.
Definition type_due (o : options) (t : ty) : Prop :=
  may_be_nullish t /\ ((exists a, ignored o a) -> t <> [[TAny]] /\ t <> [[TUnknown]] /\ forall part a, In part t -> In a part -> ~ ignored o a).
Inductive passes : frame -> Prop :=
| p_paren : passes FParen | p_not : passes FNot | p_then c f : passes (FCondT c f) | p_else c t : passes (FCondF c t)
| p_left k r : k = Or \/ k = And \/ k = Coal -> passes (FBinL k r)
| p_right l k : k = Or \/ k = And \/ k = Coal \/ k = Comma -> passes (FBinR l k).
Inductive as_test : list frame -> Prop :=
| t_statement ctx : as_test (FTest :: ctx)
| t_cond t f ctx : as_test (FCondC t f :: ctx)
| t_passes f ctx : passes f -> as_test ctx -> as_test (f :: ctx).
(** A logical expression under parentheses and !. *)
Inductive logical_inside : expr -> Prop :=
| i_bin k l r : k = Or \/ k = And \/ k = Coal -> logical_inside (Bin k l r)
| i_paren e : logical_inside e -> logical_inside (Paren e)
| i_not e : logical_inside e -> logical_inside (Not e).
Inductive to_boolean : list frame -> expr -> Prop :=
| b_call ctx e : to_boolean (FBoolean :: ctx) e
| b_passes f ctx e : passes f -> (f = FNot -> logical_inside e) -> to_boolean ctx (plug1 f e) -> to_boolean (f :: ctx) e.
(** && that || is mixed with: below, or around. *)
Inductive meets_and : expr -> Prop :=
| m_and l r : meets_and (Bin And l r)
| m_left l r : meets_and l -> meets_and (Bin Or l r)
| m_right l r : meets_and r -> meets_and (Bin Or l r)
| m_paren e : meets_and e -> meets_and (Paren e).
Definition joins (f : frame) : Prop := match f with FParen | FBinL Or _ | FBinR _ Or => True | _ => False end.
Definition and_frame (f : frame) : Prop := match f with FBinL And _ | FBinR _ And => True | _ => False end.
Definition among_and (ctx : list frame) (e : expr) : Prop :=
  exists up rest, ctx = up ++ rest /\ Forall joins up /\ (meets_and (plug up e) \/ exists f rest', rest = f :: rest' /\ and_frame f).
(** The truth of something of type [t] is tested by the node [e] at [ctx]. *)
Definition truth_due (o : options) (t : ty) (ctx : list frame) (e : option expr) : Prop :=
  type_due o t /\ (ig_conditional o = true -> ~ as_test ctx)
  /\ (ig_boolean o = true -> forall x, e = Some x -> to_boolean ctx x -> exists c y n f rest, x = Cond c y n /\ ctx = f :: rest /\ (f = FBoolean \/ f = FCall)).
Fixpoint bare (e : expr) : expr := match e with Paren e => bare e | e => e end.
Definition undefined : expr := Id (b "undefined").
(** The identifier of what can be tested for truth: identifiers, members, and what is in an optional chain. *)
Inductive chained : expr -> Prop :=
| h_dot o p n : chained (Dot o p n true) | h_elem o i : chained (Elem o i true) | h_call n s t : chained (Opaque n s t true)
| h_later o p n q : chained o -> chained (Dot o p n q) | h_later_elem o i q : chained o -> chained (Elem o i q) | h_nonnull e : chained e -> chained (NonNull e).
Definition access (e : expr) : Prop :=
  (exists x, e = Id x) \/ (exists o p n q, e = Dot o p n q) \/ (exists o i q, e = Elem o i q) \/ chained e.
Definition literal (e : expr) : Prop := e = Null \/ e = undefined.
(** == and !=, === and !==. *)
Definition comparison (negated loosely : bool) (k : op) : Prop :=
  k = if negated then (if loosely then Ne2 else Ne3) else (if loosely then Eq2 else Eq3).
(** The nodes compare with null and undefined, with [null] and [undef], for a type that has only what is compared with. *)
Definition complete (nodes : list expr) (loosely : bool) (t : ty) : Prop :=
  (In Null nodes /\ In undefined nodes) \/ ((In Null nodes \/ In undefined nodes) /\ loosely = true)
  \/ (t <> [[TAny]] /\ t <> [[TUnknown]] /\ ((In Null nodes /\ ~ In [TUndefined] t) \/ (In undefined nodes /\ ~ In [TNull] t))).
(** The test compares the nodes; [loosely] if one of the comparisons is loose. *)
Inductive test_compares : expr -> bool -> bool -> list expr -> Prop :=
| c_one c (negated loosely : bool) k l r : bare c = Bin k l r -> comparison negated loosely k -> test_compares c negated loosely [bare l; bare r]
| c_two c (negated loose1 loose2 : bool) k1 l1 r1 k2 l2 r2 :
    bare c = Bin (if negated then And else Or) (Bin k1 l1 r1) (Bin k2 l2 r2) -> comparison negated loose1 k1 -> comparison negated loose2 k2 ->
    ~ (literal (bare l1) /\ literal (bare r1)) -> ~ (literal (bare l2) /\ literal (bare r2)) ->
    test_compares c negated (loose1 || loose2) [bare l1; bare r1; bare l2; bare r2].
(** The first node that is no literal. *)
Inductive first_target : list expr -> expr -> Prop :=
| f_here x l : ~ literal x -> first_target (x :: l) x
| f_later x l y : literal x -> first_target l y -> first_target (x :: l) y.
Inductive ternary_due (o : options) (type_of : expr -> ty) (ctx : list frame) (c t f : expr) : expr -> expr -> Prop :=
| d_truth : access (bare c) -> similar (bare c) (bare t) = true -> truth_due o (type_of (bare c)) ctx (Some (Cond c t f)) ->
    ternary_due o type_of ctx c t f (bare c) f
| d_negated e : bare c = Not e -> access (bare e) -> similar (bare e) (bare f) = true -> truth_due o (type_of (bare e)) ctx (Some (Cond c t f)) ->
    ternary_due o type_of ctx c t f (bare e) t
| d_compare (negated loosely : bool) nodes lhs : test_compares c negated loosely nodes ->
    (forall x, In x nodes -> literal x \/ similar x (bare (if negated then t else f)) = true) -> first_target nodes lhs -> complete nodes loosely (type_of lhs) ->
    ternary_due o type_of ctx c t f lhs (if negated then f else t).
Inductive if_due (o : options) (type_of : expr -> ty) (test target : expr) : Prop :=
| d_not e : bare test = Not e -> access (bare e) -> similar (bare e) target = true -> truth_due o (type_of (bare e)) [] None -> if_due o type_of test target
| d_equal loosely nodes : test_compares test false loosely nodes -> (forall x, In x nodes -> literal x \/ similar x target = true) ->
    (exists x, In x nodes /\ ~ literal x) -> complete nodes loosely (type_of target) -> if_due o type_of test target.
(** Every comparison in the test is one with null or undefined. *)
Definition honest (c : expr) : Prop :=
  forall k k1 l1 r1 k2 l2 r2, bare c = Bin k (Bin k1 l1 r1) (Bin k2 l2 r2) -> k = Or \/ k = And ->
    (literal (bare l1) \/ literal (bare r1)) /\ (literal (bare l2) \/ literal (bare r2)).
