(** What C109 (PropsChainCheck.v) says of optional chains. *)
From Coq Require Import String Ascii Bool List ZArith.
From Verif Require Import Base Types Condition.
From Verif Require Import ChainCheck.
Import ListNotations.
Open Scope Z_scope.

(** The alternatives of a type, through unions of unions; its parts, one union deep. *)
Definition union (t : ty) : Prop := In FUnion (t_flags t).
Inductive alternative : ty -> ty -> Prop :=
| a_itself t : ~ union t -> alternative t t
| a_part t p a : union t -> In p (t_parts t) -> alternative p a -> alternative t a.
Definition parts (t : ty) (l : list ty) : Prop := union t /\ l = t_parts t \/ ~ union t /\ l = [t].
Definition has (t : ty) (l : list flag) : Prop := exists f, In f (t_flags t) /\ In f l.
Definition null_flags : list flag := [FNull; FUndefined; FVoid].
(** Null or undefined is among them. *)
Definition can_be_nullish (t : ty) : Prop := exists a, alternative t a /\ has a null_flags.
(** The first part that is not nullish. *)
Definition kept (t p : ty) : Prop := exists l before after, parts t l /\ l = before ++ p :: after /\ Forall can_be_nullish before /\ ~ can_be_nullish p.
Definition all_nullish (t : ty) : Prop := forall l, parts t l -> Forall can_be_nullish l.
(** A type of which nothing is known, as a condition and as an object. *)
Definition open_type (t : ty) : Prop := exists l p, parts t l /\ In p l /\ has p [FAny; FUnknown; FTypeParameter; FIndexedAccess].
Definition vague (t : ty) : Prop := exists p, (p = t \/ union t /\ In p (t_parts t)) /\ has p [FAny; FUnknown; FTypeParameter; FIndex].

Inductive peeled : expr -> expr -> Prop :=
| pe_itself e : (forall x, e <> Paren x) -> peeled e e
| pe_paren e x : peeled e x -> peeled (Paren e) x.
(** [link e y o]: [e] reads or calls [y], with [?.] or not. *)
Inductive link : expr -> expr -> bool -> Prop :=
| li_prop y o n : link (Prop_ y o n) y o | li_elem y o i : link (Elem y o i) y o | li_call y o a : link (Call y o a) y o.
(** What a chain goes through, parentheses left out. *)
Inductive through : expr -> expr -> Prop :=
| th_here e x : peeled e x -> through e x
| th_link e x y o z : peeled e x -> link x y o -> through y z -> through e z.

Section Checker.
Context (c : checker).

(** A read by index that may be of nothing without TypeScript saying so; the read of a tuple at a number is none. *)
Definition risky (x : expr) : Prop :=
  unchecked c = false /\ exists y i, x = Elem y false i /\ ~ ((exists n, peeled i (Digits n)) /\ exists t, resolved c y = Some t /\ tuple c t = true).
(** Reads that are let off: the last one, or if that has [?.] any before it. *)
Definition let_off (e : expr) : Prop := (exists x, peeled e x /\ risky x) \/ (exists x y, peeled e x /\ link x y true) /\ exists z, through e z /\ risky z.

(** A member or result of the type itself that may be nullish. *)
Definition literal (t : ty) : Prop := has t [FStringLiteral; FNumberLiteral].
Definition nullish_key (p k : ty) : Prop := exists a, alternative k a /\
  ((literal a /\ exists t, property c p (t_text a) = Some t /\ can_be_nullish t) \/
   ((~ literal a \/ property c p (t_text a) = None) /\ exists v, In (key_name c a, v) (indexes c p))).
Definition nullish_name (p : ty) (name : bstr) : Prop := name <> [] /\
  ((exists t, property c p (text name) = Some t /\ can_be_nullish t) \/
   (property c p (text name) = None /\ exists v, In (text (b "string"), v) (indexes c p) /\ (unchecked c = true \/ can_be_nullish v))).
Inductive own_nullish : expr -> ty -> Prop :=
| on_name y o name p : ~ can_be_nullish p -> nullish_name p name -> own_nullish (Prop_ y o name) p
| on_key y o i p k : ~ can_be_nullish p -> resolved c i = Some k -> nullish_key p k -> own_nullish (Elem y o i) p
| on_call f o a p r : In r (returns c p) -> can_be_nullish r -> own_nullish (Call f o a) p.
(** Being nullish comes from the object or function: that is nullish, and no part of it makes the member or result so. *)
Definition inherited (x : expr) : Prop := exists y o t, link x y o /\ resolved c y = Some t /\ union t /\ can_be_nullish t /\ forall p, In p (t_parts t) -> ~ own_nullish x p.
(** The [?.] after [e] is needed. *)
Definition needed (e : expr) : Prop := exists x t, peeled e x /\ resolved c x = Some t /\ (open_type t \/ can_be_nullish t /\ ~ inherited x).

(** No [?.] on the way. *)
Inductive optional_in : expr -> Prop :=
| oi_here e x y : peeled e x -> link x y true -> optional_in e
| oi_below e x y o : peeled e x -> link x y o -> optional_in y -> optional_in e.

(** What a call gives. *)
Definition plainly_typed (e f : expr) (o : bool) : Prop := o = false /\ ~ optional_in f /\ resolved c e <> None.
Inductive call_type : expr -> ty -> Prop :=
| ct_plain f o a t : plainly_typed (Call f o a) f o -> resolved c (Call f o a) = Some t -> call_type (Call f o a) t
| ct_signature f o a t : ~ plainly_typed (Call f o a) f o -> signature_return c (Call f o a) = Some t -> call_type (Call f o a) t
| ct_union f o a ft n p r l t : ~ plainly_typed (Call f o a) f o -> signature_return c (Call f o a) = None -> resolved c f = Some ft -> kept ft n -> union n -> In p (t_parts n) -> returns c p = r :: l -> can_be_nullish r ->
    raw c (Call f o a) = Some t -> call_type (Call f o a) t
| ct_first f o a ft n t l : ~ plainly_typed (Call f o a) f o -> signature_return c (Call f o a) = None -> resolved c f = Some ft -> kept ft n ->
    (forall p r l, union n -> In p (t_parts n) -> returns c p = r :: l -> ~ can_be_nullish r) -> returns c n = t :: l -> call_type (Call f o a) t.

(** What reading a name gives: a property, of the type or what it stands for; what its index signature says, of strings; what a mapped type has. *)
Definition declared (n : ty) (name : bstr) (t : ty) : Prop :=
  property c n (text name) = Some t \/ property c n (text name) = None /\ exists a, apparent c n = Some a /\ property c a (text name) = Some t.
Definition indexed (n t : ty) : Prop :=
  string_index c n = Some t \/ string_index c n = None /\ exists a, apparent c n = Some a /\ string_index c a = Some t.
Inductive name_type : ty -> expr -> bstr -> ty -> Prop :=
| nt_none base n e t : kept base n -> raw c e = Some t -> name_type base e [] t
| nt_declared base n e name t : kept base n -> name <> [] -> declared n name t -> name_type base e name t
| nt_index base n e name t : kept base n -> name <> [] -> (forall u, ~ declared n name u) -> indexed n t -> unchecked c = false -> name_type base e name t
| nt_mapped base n e name before after t : kept base n -> name <> [] -> (forall u, ~ declared n name u) -> (forall u, ~ indexed n u) -> mapped c n = true ->
    mapped_properties c n = before ++ (text name, false, t) :: after -> (forall q, In q before -> fst (fst q) <> text name) -> name_type base e name t
| nt_else base n e name t : kept base n -> name <> [] -> (forall u, ~ declared n name u) -> (forall u, ~ indexed n u) -> mapped c n = false -> raw c e = Some t -> name_type base e name t.

(** The string literals a key may be. *)
Inductive keys_of : ty -> list (list Z) -> Prop :=
| ko_one k : has k [FStringLiteral] -> keys_of k [t_text k]
| ko_union k : ~ has k [FStringLiteral] -> union k -> t_parts k <> [] -> (forall p, In p (t_parts k) -> has p [FStringLiteral]) -> keys_of k (map t_text (t_parts k)).
(** The first of each. *)
Fixpoint firsts (l : list (list Z)) : list (list Z) :=
  match l with [] => [] | x :: l => x :: filter (fun y => if list_eq_dec Z.eq_dec y x then false else true) (firsts l) end.
Definition between (s : list Z) (l : list (list Z)) : list Z := match l with [] => [] | x :: l => x ++ concat (map (fun y => s ++ y) l) end.
Definition short (x : list Z) : list Z := if (List.length x <=? 120)%nat then x else firstn 117 x ++ text (b "...").

Definition base_of (y : expr) (n : ty) : Prop := exists t, resolved c y = Some t /\ kept t n.
Definition solid_keys (n : ty) (i : expr) (ts : list ty) : Prop :=
  exists k keys, raw c i = Some k /\ keys_of k keys /\ Forall2 (fun x t => property c n x = Some t /\ ~ can_be_nullish t) keys ts.
(** The type before the [?.], when what is before that is there; a name for it if it is no type of the checker. *)
Inductive effect : expr -> ty -> list Z -> Prop :=
| ef_name y name n t : base_of y n -> name_type n (Prop_ y true name) name t -> effect (Prop_ y true name) t []
| ef_mapped y name n u t : base_of y n -> (forall t, ~ name_type n (Prop_ y true name) name t) -> raw c (Prop_ y true name) = Some u ->
    unchecked c = false -> mapped c n = true -> mapped_optional c n = false -> kept u t -> effect (Prop_ y true name) t []
| ef_raw y name n t : base_of y n -> (forall t, ~ name_type n (Prop_ y true name) name t) -> raw c (Prop_ y true name) = Some t ->
    unchecked c = true \/ mapped c n = false \/ mapped_optional c n = true -> effect (Prop_ y true name) t []
| ef_keys y i n t ts : base_of y n -> solid_keys n i (t :: ts) -> effect (Elem y true i) t (short (between (text (b " | ")) (firsts (map (written c) (t :: ts)))))
| ef_element y i n t : base_of y n -> (forall ts, ~ solid_keys n i ts) -> raw c (Elem y true i) = Some t -> effect (Elem y true i) t []
| ef_call f o a t : (o = true -> exists n, base_of f n) -> call_type (Call f o a) t -> effect (Call f o a) t []
| ef_call_else f o a t : (o = true -> exists n, base_of f n) -> (forall t, ~ call_type (Call f o a) t) -> resolved c (Call f o a) = Some t -> effect (Call f o a) t []
| ef_result_name f o a name u n t : of_call (Call f o a) u -> kept u n -> name_type n (Prop_ (Call f o a) false name) name t -> effect (Prop_ (Call f o a) false name) t []
| ef_result_element f o a i u n t : of_call (Call f o a) u -> kept u n -> raw c (Elem (Call f o a) false i) = Some t -> effect (Elem (Call f o a) false i) t []
| ef_other e t : (forall y, ~ link e y true) -> (forall f o a y, e <> Call f o a /\ (link e y false -> y <> Call f o a)) -> resolved c e = Some t -> effect e t []
with of_call : expr -> ty -> Prop :=
| oc_type e t : call_type e t -> of_call e t
| oc_raw e t : (forall t, ~ call_type e t) -> raw c e = Some t -> of_call e t.

(** A call of what is only nullish by its function is taken without that. *)
Definition settled (e : expr) (t u : ty) : Prop :=
  ((exists f o a, e = Call f o a) /\ inherited e /\ kept t u) \/ (~ ((exists f o a, e = Call f o a) /\ inherited e) /\ u = t).
(** A function that is called may give nothing by its first signature. *)
Definition gives_nullish (e : expr) : Prop := exists f o a t l p r rs, e = Call f o a /\ resolved c f = Some t /\ parts t l /\ In p l /\ ~ has p null_flags /\ returns c p = r :: rs /\ can_be_nullish r.

Definition literal_word (x : expr) : Prop := x = TrueWord \/ x = FalseWord \/ x = NullWord \/ exists s, x = Digits s \/ x = BigDigits s \/ x = Quoted s.
Definition called (e : expr) (t : ty) (name : list Z) (n : list Z) : Prop :=
  (name <> [] /\ n = name) \/ (name = [] /\ exists x, peeled e x /\ ((literal_word x /\ n = []) \/ (~ literal_word x /\ n = short (written c t)))).
Definition labelled (e : expr) (n : list Z) (l : option (list Z * expr)) : Prop := (n = [] /\ l = None) \/ (n <> [] /\ l = Some (text (b "Type: ") ++ n, e)).
(** [reported node r]: [r] is what is said of [node]. *)
Definition reported (node : expr) (r : chain_report) : Prop := exists e t name u n,
  link node e true /\ ~ let_off e /\ ~ needed e /\ effect e t name /\ settled e t u /\ ~ gives_nullish e /\ ~ vague u /\ ~ can_be_nullish u /\
  called e u name n /\ at_ r = node /\ id r = b "neverOptionalChain" /\ message r = b "Unnecessary optional chain on a non-nullish value." /\ labelled e n (label r).
End Checker.
