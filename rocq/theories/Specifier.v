(** Model of the JSON form of type-or-value specifiers, internal/utils/type_matches_specifier.go 16-144
    and 450-514.  JSON documents and the decoder library's rules are those of Payload.v. *)
From Coq Require Import String Ascii Bool List ZArith.
From Verif Require Import Base Payload.
Import ListNotations.
Open Scope Z_scope.

(** Lines 16-23: the named values; any other [uint8] is [FOther]. *)
Inductive from := FFile | FLib | FPackage | FName | FOther (n : Z).
(** Lines 25-32.  A nil slice of names is the empty list. *)
Record specifier := Spec { s_from : from; s_names : list bstr; s_path : bstr; s_package : bstr }.

(** A [*string] member: null leaves it nil. *)
Definition dec_pointer (j : json) : option (option bstr) :=
  match j with JNull => Some None | JStr s => Some (Some s) | _ => None end.
(** A [*string] that is read with the empty string for nil (lines 99-104). *)
Definition or_empty (o : option bstr) : bstr := match o with Some s => s | None => [] end.
(** Lines 60-70: the source. *)
Definition parse_from (s : bstr) : option from :=
  if beqb s [] || beqb s (b "file") then Some FFile
  else if beqb s (b "lib") then Some FLib
  else if beqb s (b "package") then Some FPackage
  else None.
(** Lines 73-91: the names. *)
Definition string_element (j : json) : option bstr := match j with JStr s => Some s | _ => None end.
Definition parse_names (o : option json) : option (list bstr) :=
  match o with
  | None => Some []
  | Some (JStr s) => Some [s]
  | Some (JArr l) => traverse string_element l
  | Some _ => None
  end.
(** Lines 36-107 [UnmarshalJSON]: first as a string, which null is too; then as an object. *)
Definition dec_specifier (j : json) : option specifier :=
  match dec_string j with
  | Some s => Some (Spec FName [s] [] [])
  | None =>
      dec_struct (fun l =>
        match field l (b "from") dec_string [], field l (b "name") dec_any None, field l (b "path") dec_pointer None, field l (b "package") dec_pointer None with
        | Some f, Some n, Some p, Some k =>
            match parse_from f, parse_names n with
            | Some f, Some n => Some (Spec f n (or_empty p) (or_empty k))
            | _, _ => None
            end
        | _, _, _, _ => None
        end) j
  end.

(** Lines 111-144 [MarshalJSON]: the members of the object come from a map and are written in any
    order; here in one of them. *)
Definition enc_specifier (s : specifier) : option json :=
  let object f :=
    Some (JObj ([(b "from", JStr f); (b "name", JArr (map JStr (s_names s)))]
      ++ (if beqb (s_path s) [] then [] else [(b "path", JStr (s_path s))])
      ++ (if beqb (s_package s) [] then [] else [(b "package", JStr (s_package s))]))) in
  match s_from s with
  | FFile => object (b "file")
  | FLib => object (b "lib")
  | FPackage => object (b "package")
  | FName => match s_names s with [n] => Some (JStr n) | _ => None end
  | FOther _ => None
  end.

(** Lines 450-514 [ConvertTypeOrValueSpecifier], on values that came from JSON. *)
Fixpoint string_elements (l : list json) : list bstr :=
  match l with JStr s :: l' => s :: string_elements l' | _ :: l' => string_elements l' | [] => [] end.
Definition string_member (n : bstr) (l : list (bstr * json)) : bstr :=
  match member n l with Some (JStr s) => s | _ => [] end.
Definition convert (j : json) : option specifier :=
  match j with
  | JStr s => Some (Spec FName [s] [] [])
  | JObj l =>
      match member (b "from") l with
      | Some (JStr f) =>
          let from :=
            if beqb f (b "file") then Some FFile else if beqb f (b "lib") then Some FLib
            else if beqb f (b "package") then Some FPackage else None in
          let names :=
            match member (b "name") l with
            | Some (JStr s) => Some [s]
            | Some (JArr l') => Some (string_elements l')
            | _ => None
            end in
          match from, names with
          | Some f, Some n => Some (Spec f n (string_member (b "path") l) (string_member (b "package") l))
          | _, _ => None
          end
      | _ => None
      end
  | _ => None
  end.
