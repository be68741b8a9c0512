(** UTF-8 as Go's [range] loop over a string and [strings.Builder.WriteRune] treat it
    (Go standard library, unicode/utf8; not in /repo, modelled by its documentation).
    Used for internal/utils/string_literal.go, prefer_includes.go,
    prefer_string_starts_ends_with.go and others that loop over a string. *)
From Coq Require Import String Ascii Bool List ZArith.
From Verif Require Import Base.
Import ListNotations.
Open Scope Z_scope.

(** A byte as a number and back. *)
Definition bz (c : ascii) : Z := Z.of_N (N_of_ascii c).
Definition zb (z : Z) : ascii := ascii_of_N (Z.to_N z).

Definition between (lo : Z) (c : ascii) (hi : Z) : bool := (lo <=? bz c) && (bz c <=? hi).
Definition cont (c : ascii) : bool := between 128 c 191.

(** [for _, ch := range s]: the sequence of [ch]; every byte that does not start a valid
    encoding gives U+FFFD. *)
Fixpoint runes (s : bstr) : list Z :=
  match s with
  | [] => []
  | c0 :: s1 =>
      let x := bz c0 in
      if x <? 128 then x :: runes s1 else
      match s1 with
      | [] => [65533]
      | c1 :: s2 =>
          if between 194 c0 223 && cont c1 then (x - 192) * 64 + (bz c1 - 128) :: runes s2 else
          match s2 with
          | [] => 65533 :: runes s1
          | c2 :: s3 =>
              if between 224 c0 239 && between (if x =? 224 then 160 else 128) c1 (if x =? 237 then 159 else 191) && cont c2
              then (x - 224) * 4096 + (bz c1 - 128) * 64 + (bz c2 - 128) :: runes s3 else
              match s3 with
              | [] => 65533 :: runes s1
              | c3 :: s4 =>
                  if between 240 c0 244 && between (if x =? 240 then 144 else 128) c1 (if x =? 244 then 143 else 191) && cont c2 && cont c3
                  then (x - 240) * 262144 + (bz c1 - 128) * 4096 + (bz c2 - 128) * 64 + (bz c3 - 128) :: runes s4
                  else 65533 :: runes s1
              end
          end
      end
  end.

(** [WriteRune]. *)
Definition enc (r : Z) : bstr :=
  if (0 <=? r) && (r <? 128) then [zb r]
  else if (0 <=? r) && (r <? 2048) then [zb (192 + r / 64); zb (128 + r mod 64)]
  else if (r <? 0) || (1114111 <? r) || ((55296 <=? r) && (r <=? 57343)) then [zb 239; zb 191; zb 189]
  else if r <? 65536 then [zb (224 + r / 4096); zb (128 + (r / 64) mod 64); zb (128 + r mod 64)]
  else [zb (240 + r / 262144); zb (128 + (r / 4096) mod 64); zb (128 + (r / 64) mod 64); zb (128 + r mod 64)].
