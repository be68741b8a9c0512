(** Specification vocabulary for the headless output: what a frame stream is,
    and what orders of reports are possible. Independent of the writer. *)
From Coq Require Import List NArith Ascii.
From Verif Require Import Base.
Import ListNotations.
Open Scope N_scope.

(** [stream bytes frames]: [bytes] is the concatenation of [frames], each being
    a 4-byte little-endian payload length, one type byte and the payload. *)
Inductive stream : bstr -> list (N * bstr) -> Prop :=
| stream_nil : stream [] []
| stream_cons l0 l1 l2 l3 t payload rest frames :
    N_of_ascii l0 + 256 * (N_of_ascii l1 + 256 * (N_of_ascii l2 + 256 * N_of_ascii l3))
      = N.of_nat (List.length payload) ->
    stream rest frames ->
    stream (l0 :: l1 :: l2 :: l3 :: t :: payload ++ rest)
           ((N_of_ascii t, payload) :: frames).

(** [interleave ws l]: [l] is an interleaving of the sequences [ws]. *)
Inductive interleave {D : Type} : list (list D) -> list D -> Prop :=
| il_nil ws : Forall (fun w => w = []) ws -> interleave ws []
| il_cons ws1 d w ws2 l :
    interleave (ws1 ++ w :: ws2) l -> interleave (ws1 ++ (d :: w) :: ws2) (d :: l).

(** Stages run one after the other; inside a stage workers interleave. *)
Inductive staged {D : Type} : list (list (list D)) -> list D -> Prop :=
| sg_nil : staged [] []
| sg_cons ws rest l1 l2 :
    interleave ws l1 -> staged rest l2 -> staged (ws :: rest) (l1 ++ l2).

(** A payload that the 32-bit length field can describe. *)
Definition fits (p : bstr) : Prop := N.of_nat (List.length p) < 4294967296.
