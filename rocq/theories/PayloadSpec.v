(** What a request document means. *)
From Coq Require Import String Ascii Bool List ZArith.
From Verif Require Import Base Run Payload.
Import ListNotations.
Open Scope Z_scope.

(** Documents in which no object repeats a name. *)
Inductive unambiguous : json -> Prop :=
| un_null : unambiguous JNull
| un_bool x : unambiguous (JBool x)
| un_int z : unambiguous (JInt z)
| un_real t : unambiguous (JReal t)
| un_str s : unambiguous (JStr s)
| un_arr l : Forall unambiguous l -> unambiguous (JArr l)
| un_obj l : NoDup (map fst l) -> Forall (fun x => unambiguous (snd x)) l -> unambiguous (JObj l).

(** Values; [null] is the empty value of each type. *)
Inductive string_is : json -> bstr -> Prop :=
| str_text s : string_is (JStr s) s
| str_null : string_is JNull [].
Inductive bool_is : json -> bool -> Prop :=
| bool_val x : bool_is (JBool x) x
| bool_null : bool_is JNull false.
Inductive int_is : json -> Z -> Prop :=
| int_val z : - 2 ^ 63 <= z < 2 ^ 63 -> int_is (JInt z) z
| int_null : int_is JNull 0.
Inductive any_is : json -> option json -> Prop :=
| any_null : any_is JNull None
| any_val j : j <> JNull -> any_is j (Some j).
Inductive slice_is {A : Type} (R : json -> A -> Prop) : json -> list A -> Prop :=
| slice_arr l xs : Forall2 R l xs -> slice_is R (JArr l) xs
| slice_null : slice_is R JNull [].
Inductive map_is : json -> list (bstr * bstr) -> Prop :=
| map_obj l xs : Forall2 (fun m x => fst m = fst x /\ string_is (snd m) (snd x)) l xs -> map_is (JObj l) xs
| map_null : map_is JNull [].

(** The member [n] of an object has value [x]; an absent one has the empty value. *)
Definition member_is {A : Type} (R : json -> A -> Prop) (empty : A) (l : list (bstr * json)) (n : string) (x : A) : Prop :=
  (exists v, In (b n, v) l /\ R v x) \/ ((forall v, ~ In (b n, v) l) /\ x = empty).

(** The members of a document that stands for a record. *)
Inductive members : json -> list (bstr * json) -> Prop :=
| mem_obj l : members (JObj l) l
| mem_null : members JNull [].

Definition version_is (j : json) (v : Z) : Prop :=
  exists l, members j l /\ member_is int_is 0 l "version" v.

(** Current format. *)
Definition rule_is (j : json) (r : jrule) : Prop :=
  exists l, members j l /\ member_is string_is [] l "name" (h_name r) /\
    member_is any_is None l "options" (h_opts r).
Definition config_is (j : json) (c : jconfig) : Prop :=
  exists l, members j l /\ member_is (slice_is string_is) [] l "file_paths" (c_paths c) /\
    member_is (slice_is rule_is) [] l "rules" (c_rules c).
Definition v2_means (j : json) (p : payload) : Prop :=
  exists l, members j l /\ member_is int_is 0 l "version" (p_version p) /\
    member_is (slice_is config_is) [] l "configs" (p_configs p) /\
    member_is map_is [] l "source_overrides" (p_overrides p) /\
    member_is bool_is false l "report_syntactic" (p_syntactic p) /\
    member_is bool_is false l "report_semantic" (p_semantic p).

(** Old format: a list of files, each with the names of its rules. *)
Definition file_is (j : json) (x : bstr * list bstr) : Prop :=
  exists l, members j l /\ member_is string_is [] l "file_path" (fst x) /\
    member_is (slice_is string_is) [] l "rules" (snd x).
Definition v1_means (j : json) (fs : list (bstr * list bstr)) : Prop :=
  exists l, members j l /\ member_is (slice_is file_is) [] l "files" fs.

(** The same request in the current format. *)
Definition translation (fs : list (bstr * list bstr)) : json :=
  JObj [(b "version", JInt 2);
        (b "configs", JArr (map (fun f => JObj
           [(b "file_paths", JArr [JStr (fst f)]);
            (b "rules", JArr (map (fun r => JObj [(b "name", JStr r)]) (snd f)))]) fs))].
