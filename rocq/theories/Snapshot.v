(** Model of internal/rule_tester/snapshot.go 41-266: snapshot keys, snapshot files and the registry.
    Strings are lists of bytes. *)
From Coq Require Import Bool List ZArith.
Import ListNotations.
Open Scope Z_scope.

(** ** Order of keys *)

(** Lines 235-237 [isASCIIDigit]. *)
Definition is_digit (c : Z) : bool := (48 <=? c) && (c <=? 57).
(** Lines 162-167 and the slices of lines 169-170: the run of digits at the front and what follows. *)
Fixpoint digit_run (s : list Z) : list Z * list Z :=
  match s with
  | c :: s' => if is_digit c then (c :: fst (digit_run s'), snd (digit_run s')) else ([], s)
  | [] => ([], [])
  end.
(** [strings.TrimLeft(s, cut)] for a single byte. *)
Fixpoint trim_left (c : Z) (s : list Z) : list Z :=
  match s with d :: s' => if d =? c then trim_left c s' else s | [] => [] end.
(** [strings.TrimRight(s, cut)] for a single byte. *)
Definition trim_right (c : Z) (s : list Z) : list Z := rev (trim_left c (rev s)).
(** Go's [<] on strings. *)
Fixpoint less (x y : list Z) : bool :=
  match x, y with
  | [], [] => false
  | [], _ :: _ => true
  | _ :: _, [] => false
  | c :: x', d :: y' => if c =? d then less x' y' else c <? d
  end.
(** Go's [==] on strings. *)
Definition same (x y : list Z) : bool := if list_eq_dec Z.eq_dec x y then true else false.
Definition len (s : list Z) : Z := Z.of_nat (length s).
(** Lines 200-233 [compareDigitRuns]. *)
Definition compare_digit_runs (a b : list Z) : Z :=
  let a_trim := match trim_left 48 a with [] => [48] | s => s end in
  let b_trim := match trim_left 48 b with [] => [48] | s => s end in
  if negb (len a_trim =? len b_trim) then (if len a_trim <? len b_trim then -1 else 1)
  else if negb (same a_trim b_trim) then (if less a_trim b_trim then -1 else 1)
  else if negb (len a =? len b) then (if len a <? len b then -1 else 1)
  else 0.
(** Lines 150-198 [compareSnapshotKeys]: [a] and [b] are what is left from [i] and [j] on; [la] and [lb]
    are the lengths of the whole strings, which lines 190-197 compare.  Every round consumes a byte of
    [a]; [fuel] bounds the rounds and is never used up (C34_order). *)
Fixpoint compare_loop (fuel : nat) (la lb : Z) (a b : list Z) : option Z :=
  match fuel with
  | O => None
  | S fuel' =>
      match a, b with
      | ai :: a', bj :: b' =>
          if is_digit ai && is_digit bj then
            let '(ra, ta) := digit_run a in
            let '(rb, tb) := digit_run b in
            let cmp := compare_digit_runs ra rb in
            if negb (cmp =? 0) then Some cmp else compare_loop fuel' la lb ta tb
          else if negb (ai =? bj) then (if ai <? bj then Some (-1) else Some 1)
          else compare_loop fuel' la lb a' b'
      | _, _ => if la <? lb then Some (-1) else if lb <? la then Some 1 else Some 0
      end
  end.
Definition compare_keys (a b : list Z) : option Z := compare_loop (S (length a)) (len a) (len b) a b.

(** ** Files *)

(** A Go map from keys to contents: an association list in which every key occurs once.  The order of
    the list is the order of iteration, about which nothing is assumed. *)
Definition entries := list (list Z * list Z).
Fixpoint get (k : list Z) (es : entries) : option (list Z) :=
  match es with (k', c) :: es' => if same k' k then Some c else get k es' | [] => None end.
Fixpoint set (k c : list Z) (es : entries) : entries :=
  match es with (k', c') :: es' => if same k' k then (k, c) :: es' else (k', c') :: set k c es' | [] => [(k, c)] end.

(** [strings.Cut] (and one step of [strings.SplitSeq]): around the first occurrence. *)
Fixpoint strip (p s : list Z) : option (list Z) :=
  match p, s with
  | [], _ => Some s
  | c :: p', d :: s' => if c =? d then strip p' s' else None
  | _ :: _, [] => None
  end.
Fixpoint cut (sep s : list Z) : option (list Z * list Z) :=
  match strip sep s with
  | Some r => Some ([], r)
  | None => match s with
            | [] => None
            | c :: s' => match cut sep s' with Some (x, y) => Some (c :: x, y) | None => None end
            end
  end.
(** [strings.SplitSeq]: every piece is shorter, so [fuel] above the length is enough. *)
Fixpoint split (fuel : nat) (sep s : list Z) : list (list Z) :=
  match fuel with
  | O => []
  | S fuel' => match cut sep s with Some (x, y) => x :: split fuel' sep y | None => [s] end
  end.
(** The separator of line 244: three dashes and a newline. *)
Definition dashes : list Z := [45; 45; 45].
Definition separator : list Z := [45; 45; 45; 10].
(** Lines 246-263: one block. *)
Definition parse_block (es : entries) (block : list Z) : entries :=
  match trim_left 10 block with
  | [] => es
  | block' =>
      match cut [10] block' with
      | None => es
      | Some (key, after) =>
          match strip [91] key, strip [93] (rev key) with
          | Some _, Some _ => set key (trim_right 10 after) es
          | _, _ => es
          end
      end
  end.
(** Lines 241-266 [parseSnapshotFile]. *)
Definition parse (data : list Z) : entries := fold_left parse_block (split (S (length data)) separator data) [].

(** Line 136: one entry. *)
Definition print_entry (k c : list Z) : list Z := [10] ++ k ++ [10] ++ c ++ [10] ++ separator.
Section Run.
(** Lines 144-148 [sortSnapshotKeys]: [sort.Slice] on the keys. *)
Variable sort : list (list Z) -> list (list Z).
(** Lines 120-142 [write]: the text written; the file system does not fail. *)
Definition written (es : entries) : list Z :=
  flat_map (fun k => print_entry k (match get k es with Some c => c | None => [] end)) (sort (map fst es)).

(** One snapshot file: what is on disk, the cache and whether it was loaded.  The registry keeps one
    such record for each path (lines 57-76); locks make the calls for one file follow each other. *)
Record file := File { disk : option (list Z); cache : entries; loaded : bool }.
Definition fresh (d : option (list Z)) : file := File d [] false.
(** Lines 109-118 [load]. *)
Definition load (f : file) : file :=
  match disk f with None => File None (cache f) true | Some d => File (disk f) (parse d) true end.
(** Lines 78-100 [matchSnapshot]: the new state and whether the test passes. *)
Definition match_snapshot (f : file) (key content : list Z) (update : bool) : file * bool :=
  let f := if loaded f then f else load f in
  match get key (cache f) with
  | None => let es := set key content (cache f) in (File (Some (written es)) es true, true)
  | Some existing =>
      if update then let es := set key content (cache f) in (File (Some (written es)) es true, true)
      else (f, same existing content)
  end.
(** A run of the tests: calls in the order in which they take the lock. *)
Fixpoint run (f : file) (update : bool) (calls : list (list Z * list Z)) : file * list bool :=
  match calls with
  | [] => (f, [])
  | (k, c) :: l => let '(f1, p) := match_snapshot f k c update in let '(f2, ps) := run f1 update l in (f2, p :: ps)
  end.
End Run.
