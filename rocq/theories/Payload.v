(** Model of the request decoder, cmd/tsgolint/payload.go.

    The input is the parsed JSON document ([None]: not well-formed JSON).  The decoder
    library (github.com/go-json-experiment/json, not in /repo) is modelled by its
    documented rules: [null] gives the zero value, absent object members leave the zero
    value, unknown members are ignored, names match exactly, an object with a repeated
    name anywhere in the document is an error, an [int] needs an integer literal in range,
    any other mismatch of kinds is an error.  Simplification: the value of an [any] field
    is kept as the JSON value (Go turns its numbers into float64). *)
From Coq Require Import String Ascii Bool List ZArith.
From Verif Require Import Base Run.
Import ListNotations.
Open Scope Z_scope.

Inductive json :=
| JNull
| JBool (x : bool)
| JInt (z : Z)          (* a number literal without fraction and exponent *)
| JReal (text : bstr)   (* any other number literal *)
| JStr (s : bstr)
| JArr (l : list json)
| JObj (l : list (bstr * json)).

(** No object of the document repeats a name. *)
Fixpoint member (n : bstr) (l : list (bstr * json)) : option json :=
  match l with [] => None | (n', v) :: l' => if beqb n n' then Some v else member n l' end.
Fixpoint fresh_names (l : list (bstr * json)) : bool :=
  match l with
  | [] => true
  | (n, _) :: l' => match member n l' with None => fresh_names l' | Some _ => false end
  end.
Fixpoint no_repeats (j : json) : bool :=
  match j with
  | JArr l => (fix all (l : list json) := match l with [] => true | x :: l' => no_repeats x && all l' end) l
  | JObj l => fresh_names l &&
      (fix all (l : list (bstr * json)) := match l with [] => true | (_, x) :: l' => no_repeats x && all l' end) l
  | _ => true
  end.

(** Decoders of the Go types used in the request. *)
Definition dec_string (j : json) : option bstr :=
  match j with JStr s => Some s | JNull => Some [] | _ => None end.
Definition dec_bool (j : json) : option bool :=
  match j with JBool x => Some x | JNull => Some false | _ => None end.
Definition dec_int (j : json) : option Z :=
  match j with
  | JInt z => if (- 2 ^ 63 <=? z) && (z <? 2 ^ 63) then Some z else None
  | JNull => Some 0
  | _ => None
  end.
Definition dec_any (j : json) : option (option json) :=
  match j with JNull => Some None | _ => Some (Some j) end.
Fixpoint traverse {A B : Type} (d : A -> option B) (l : list A) : option (list B) :=
  match l with
  | [] => Some []
  | x :: l' => match d x, traverse d l' with Some y, Some r => Some (y :: r) | _, _ => None end
  end.
Definition dec_slice {A : Type} (d : json -> option A) (j : json) : option (list A) :=
  match j with JArr l => traverse d l | JNull => Some [] | _ => None end.
Definition dec_map (j : json) : option (list (bstr * bstr)) :=
  match j with
  | JObj l => traverse (fun x => match dec_string (snd x) with Some s => Some (fst x, s) | None => None end) l
  | JNull => Some []
  | _ => None
  end.
Definition field {A : Type} (l : list (bstr * json)) (n : bstr) (d : json -> option A) (zero : A) : option A :=
  match member n l with Some v => d v | None => Some zero end.
Definition dec_struct {A : Type} (d : list (bstr * json) -> option A) (j : json) : option A :=
  match j with JObj l => d l | JNull => d [] | _ => None end.

(** payload.go:11-17. *)
Record file_v1 := mkF1 { f1_path : bstr; f1_rules : list bstr }.
Definition dec_file_v1 : json -> option file_v1 := dec_struct (fun l =>
  match field l (b "file_path") dec_string [], field l (b "rules") (dec_slice dec_string) [] with
  | Some p, Some r => Some (mkF1 p r)
  | _, _ => None
  end).
Definition dec_v1 : json -> option (list file_v1) := dec_struct (fun l =>
  field l (b "files") (dec_slice dec_file_v1) []).

(** payload.go:20-36; configs and rules are those of Run.v. *)
Notation jrule := (@hrule json).
Notation jconfig := (@hconfig json).
Record payload := mkPay {
  p_version : Z;
  p_configs : list jconfig;
  p_overrides : list (bstr * bstr);
  p_syntactic : bool;
  p_semantic : bool
}.
Definition dec_rule : json -> option jrule := dec_struct (fun l =>
  match field l (b "name") dec_string [], field l (b "options") dec_any None with
  | Some n, Some o => Some (mkHR n o)
  | _, _ => None
  end).
Definition dec_config : json -> option jconfig := dec_struct (fun l =>
  match field l (b "file_paths") (dec_slice dec_string) [], field l (b "rules") (dec_slice dec_rule) [] with
  | Some p, Some r => Some (mkHC p r)
  | _, _ => None
  end).
Definition dec_v2 : json -> option payload := dec_struct (fun l =>
  match field l (b "version") dec_int 0, field l (b "configs") (dec_slice dec_config) [],
        field l (b "source_overrides") dec_map [], field l (b "report_syntactic") dec_bool false,
        field l (b "report_semantic") dec_bool false with
  | Some v, Some c, Some o, Some x, Some y => Some (mkPay v c o x y)
  | _, _, _, _, _ => None
  end).

(** [json.Unmarshal]. *)
Definition unmarshal {A : Type} (d : json -> option A) (doc : option json) : option A :=
  match doc with
  | Some j => if no_repeats j then d j else None
  | None => None
  end.

(** payload.go:85-93. *)
Definition get_version (doc : option json) : option Z :=
  unmarshal (dec_struct (fun l => field l (b "version") dec_int 0)) doc.

(** [s[i] = x]. *)
Definition store {A : Type} (s : list A) (i : nat) (x : A) : res (list A) :=
  if (i <? List.length s)%nat then Ok (firstn i s ++ x :: skipn (S i) s) else Panic.

(** payload.go:76-78, [j] the index of the loop. *)
Fixpoint fill_rules (j : nat) (rs : list bstr) (s : list jrule) : res (list jrule) :=
  match rs with
  | [] => Ok s
  | r :: rs' => let! s := store s j (mkHR r None) in fill_rules (S j) rs' s
  end.
(** payload.go:71-80. *)
Fixpoint fill_configs (i : nat) (fs : list file_v1) (s : list jconfig) : res (list jconfig) :=
  match fs with
  | [] => Ok s
  | f :: fs' =>
      let! rules := fill_rules 0 (f1_rules f) (repeat (mkHR [] None) (List.length (f1_rules f))) in
      let! s := store s i (mkHC [f1_path f] rules) in
      fill_configs (S i) fs' s
  end.

Inductive perror := BadJson | BadV2 | BadVersion (v : Z) | BadV1 | NoFiles.

(** payload.go:38-83. *)
Definition deserialize (doc : option json) : res (payload + perror) :=
  match get_version doc with
  | None => Ok (inr BadJson)
  | Some v =>
      if v =? 2 then
        match unmarshal dec_v2 doc with
        | None => Ok (inr BadV2)
        | Some p => Ok (inl p)
        end
      else if negb (v =? 0) then Ok (inr (BadVersion v))
      else match unmarshal dec_v1 doc with
           | None => Ok (inr BadV1)
           | Some fs =>
               if (List.length fs =? 0)%nat then Ok (inr NoFiles)
               else
                 let! cs := fill_configs 0 fs (repeat (mkHC [] []) (List.length fs)) in
                 Ok (inl (mkPay 2 cs [] false false))
           end
  end.
