(** Model of [printDiagnostic], cmd/tsgolint/main.go 232-362: the code box below a diagnostic on a terminal.

    Simplifications: the result of a row is its number and three texts, the middle one underlined; the escape
    sequences around them are left out.  Of the heading only the message is modelled.  Machine integers are 64 bit
    wide; texts are far shorter than that, so only the sum with [math.MaxInt] can wrap around. *)
From Coq Require Import String Ascii Bool List ZArith.
From Verif Require Import Base Utf8.
Import ListNotations.
Open Scope Z_scope.

(** [for i, char := range s]: runes with the positions of their first bytes, counted from [i]; as Utf8.v. *)
Fixpoint runes_at (i : Z) (s : bstr) : list (Z * Z) :=
  match s with
  | [] => []
  | c0 :: s1 =>
      let x := bz c0 in
      if x <? 128 then (i, x) :: runes_at (i + 1) s1 else
      match s1 with
      | [] => [(i, 65533)]
      | c1 :: s2 =>
          if between 194 c0 223 && cont c1 then (i, (x - 192) * 64 + (bz c1 - 128)) :: runes_at (i + 2) s2 else
          match s2 with
          | [] => (i, 65533) :: runes_at (i + 1) s1
          | c2 :: s3 =>
              if between 224 c0 239 && between (if x =? 224 then 160 else 128) c1 (if x =? 237 then 159 else 191) && cont c2
              then (i, (x - 224) * 4096 + (bz c1 - 128) * 64 + (bz c2 - 128)) :: runes_at (i + 3) s3 else
              match s3 with
              | [] => (i, 65533) :: runes_at (i + 1) s1
              | c3 :: s4 =>
                  if between 240 c0 244 && between (if x =? 240 then 144 else 128) c1 (if x =? 244 then 143 else 191) && cont c2 && cont c3
                  then (i, (x - 240) * 262144 + (bz c1 - 128) * 4096 + (bz c2 - 128) * 64 + (bz c3 - 128)) :: runes_at (i + 4) s4
                  else (i, 65533) :: runes_at (i + 1) s1
              end
          end
      end
  end.
(** [unicode.IsSpace] (Go standard library). *)
Definition space (r : Z) : bool :=
  existsb (Z.eqb r) [9; 10; 11; 12; 13; 32; 133; 160; 5760; 8232; 8233; 8239; 8287; 12288] || ((8192 <=? r) && (r <=? 8202)).
(** [stringutil.IsLineBreak] of typescript-go (not in /repo): \n, \r, U+2028, U+2029. *)
Definition line_break (r : Z) : bool := existsb (Z.eqb r) [10; 13; 8232; 8233].

(** [slice[i]] of [lineMap]. *)
Definition at_line (lm : list Z) (i : Z) : res Z :=
  if i <? 0 then Panic else match nth_error lm (Z.to_nat i) with Some v => Ok v | None => Panic end.
(** [scanner.GetECMALineAndUTF16CharacterOfPosition] of typescript-go (not in /repo): the last line that starts at or
    before the position. *)
Definition line_of (lm : list Z) (pos : Z) : Z := zlen (filter (fun s => s <=? pos) lm) - 1.
(** [scanner.GetECMAEndLinePosition] of typescript-go (not in /repo): the first line break from the start of the line.
    What it gives when there is none is the parameter [past]; typescript-go is believed to give the length of the
    text, TypeScript gives one less. *)
Definition end_line_position (past : Z) (text : bstr) (start : Z) : Z :=
  match find (fun p => line_break (snd p)) (runes_at start (skipn (Z.to_nat start) text)) with Some p => fst p | None => past end.

(** [make([]int, 13)] (lines 280-281). *)
Definition arr := Z -> Z.
Definition arr_len : Z := 13.
Definition put (a : arr) (i v : Z) : res arr := if (0 <=? i) && (i <? arr_len) then Ok (fun j => if j =? i then v else a j) else Panic.
Definition get (a : arr) (i : Z) : res Z := if (0 <=? i) && (i <? arr_len) then Ok (a i) else Panic.

Definition max_int : Z := 9223372036854775807.
(** The 64-bit result of an addition. *)
Definition wrap (z : Z) : Z := (z + 9223372036854775808) mod 18446744073709551616 - 9223372036854775808.

(** Lines 275-278. *)
Record scan := Scan { indent : Z; line : Z; found : bool; last : Z; starts : arr; ends : arr }.
(** Lines 288-307, for one rune. *)
Definition scan_rune (lm : list Z) (cs ce cstart : Z) (s : scan) (p : Z * Z) : res scan :=
  let '(i, r) := p in
  if r =? 10 then
    if line s =? ce then Ok s
    else let! l := at_line lm (line s) in
         let! e := put (ends s) (line s - cs) (last s - l + cstart) in
         Ok (Scan (indent s) (line s + 1) false (-1) (starts s) e)
  else
    let! s := (if negb (found s) && negb (space r) then
                 let! l := at_line lm (line s) in
                 let! a := put (starts s) (line s - cs) (i - l + cstart) in
                 Ok (Scan (Z.min (indent s) (i - l + cstart)) (line s) true (last s) a (ends s))
               else Ok s) in
    Ok (if found s && negb (space r) then Scan (indent s) (line s) (found s) (i + 1) (starts s) (ends s) else s).
Fixpoint scan_runes (lm : list Z) (cs ce cstart : Z) (s : scan) (l : list (Z * Z)) : res scan :=
  match l with
  | [] => Ok s
  | p :: l' => let! s := scan_rune lm cs ce cstart s p in scan_runes lm cs ce cstart s l'
  end.
(** Lines 288-310. *)
Definition scan_box (lm : list Z) (cs ce cstart : Z) (box : bstr) : res scan :=
  let! s := scan_runes lm cs ce cstart (Scan max_int cs false (-1) (fun _ => 0) (fun _ => 0)) (runes_at 0 box) in
  if line s =? ce then
    let! l := at_line lm (line s) in
    let! e := put (ends s) (line s - cs) (last s - l + cstart) in
    Ok (Scan (indent s) (line s) (found s) (last s) (starts s) e)
  else Ok s.

(** [strconv.Itoa] for numbers that are not negative. *)
Fixpoint itoa_fuel (fuel : nat) (n : Z) : bstr :=
  match fuel with
  | O => []
  | S fuel => if n <? 10 then [zb (48 + n)] else itoa_fuel fuel (n / 10) ++ [zb (48 + n mod 10)]
  end.
Definition itoa (n : Z) : bstr := itoa_fuel (S (Z.to_nat n)) n.

(** A row of the box: line number with padding, text before, underlined text, text after. *)
Record row := Row { number : bstr; before : bstr; under : bstr; after : bstr }.
(** Lines 313-323. *)
Definition row_number (ce line : Z) : bstr :=
  if line =? ce then itoa (ce + 1)
  else (if zlen (itoa (line + 1)) <? zlen (itoa (ce + 1)) then b " " else []) ++ itoa (line + 1).
(** Lines 326-340: where the text and the underlined part begin and end, and whether the range goes on. *)
Definition row_marks (lm : list Z) (cs ds de : Z) (s : scan) (active : bool) (line : Z) : res (Z * Z * Z * Z * bool) :=
  let! l := at_line lm line in
  let! st := get (starts s) (line - cs) in
  let! en := get (ends s) (line - cs) in
  let text_start := wrap (l + indent s) in
  let under_start := Z.max text_start (l + st) in
  let under_end := under_start in
  let text_end := Z.max (l + en) text_start in
  let here := fun pos : Z =>
    if l <=? pos then
      if line =? zlen lm - 1 then Ok true
      else let! next := at_line lm (line + 1) in Ok (pos <? next)
    else Ok false in
  let! (under_start, under_end, active) :=
    (if active then Ok (under_start, text_end, active)
     else let! h := here ds in
          Ok (if h : bool then (Z.min (Z.max text_start ds) text_end, text_end, true) else (under_start, under_end, active))) in
  let! h := here de in
  let '(under_end, active) := if h : bool then (Z.min (Z.max under_start de) text_end, false) else (under_end, active) in
  Ok (text_start, under_start, under_end, text_end, active).
(** Lines 313-361 for one line. *)
Definition print_row (text : bstr) (lm : list Z) (cs ce ds de : Z) (s : scan) (active : bool) (line : Z) : res (row * bool) :=
  let! (ts, us, ue, te, active) := row_marks lm cs ds de s active line in
  let n := row_number ce line in
  if negb (us =? ue) then
    let! x := slice text ts us in
    let! y := slice text us ue in
    let! z := slice text ue te in
    Ok (Row n x y z, active)
  else if negb (ts =? te) then
    let! x := slice text ts te in
    Ok (Row n x [] [], active)
  else Ok (Row n [] [] [], active).
Fixpoint print_rows (text : bstr) (lm : list Z) (cs ce ds de : Z) (s : scan) (active : bool) (line : Z) (count : nat) : res (list row) :=
  match count with
  | O => Ok []
  | S count =>
      let! (r, active) := print_row text lm cs ce ds de s active line in
      let! l := print_rows text lm cs ce ds de s active (line + 1) count in
      Ok (r :: l)
  end.
(** Lines 236-248 and 275-361 for the range [ds, de); [None]: the range is too big. *)
Definition print_box (past : Z) (text : bstr) (lm : list Z) (ds de : Z) : res (option (list row)) :=
  let cs := Z.max (line_of lm ds - 1) 0 in
  let ce := Z.min (line_of lm de + 1) (zlen lm - 1) in
  let! cstart := at_line lm cs in
  let! last_start := at_line lm ce in
  let cend := end_line_position past text last_start + 1 in
  if arr_len <=? ce - cs then Ok None
  else
    let! box := slice text cstart cend in
    let! s := scan_box lm cs ce cstart box in
    let! l := print_rows text lm cs ce ds de s false cs (Z.to_nat (ce - cs + 1)) in
    Ok (Some l).

(** Lines 230 and 253-265: the message below the rule name; the bar without its escape sequences. *)
Definition spaces : bstr := repeat " "%char 100.
Definition bar : bstr := b "    |".
Fixpoint print_message (rule : bstr) (s : bstr) : res bstr :=
  match s with
  | [] => Ok []
  | c :: s' =>
      if Ascii.eqb c "010"%char then
        let! pad := slice spaces 0 (zlen rule + 1) in
        let! r := print_message rule s' in
        Ok (c :: bar ++ pad ++ r)
      else let! r := print_message rule s' in Ok (c :: r)
  end.
