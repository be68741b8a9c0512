(** Model of [FindTsConfigParallel] and [work], internal/utils/find_tsconfig.go:216-267:
    a main goroutine, worker goroutines and a closing goroutine that communicate over
    two buffered channels.

    A schedule is a list of threads; the chosen thread makes one channel operation.
    A thread that cannot move (send on a full channel, receive on an open empty one,
    [wg.Wait] with a running worker) makes no step: [l_step] is [None].  The lookup
    of one file is a function [look] (TsConfig.v); the registry it uses is shared and
    thread safe. *)
From Coq Require Import Bool List Arith.
Import ListNotations.

Section PL.
Context {File Res : Type}.
Variable feqb : File -> File -> bool.
Variable look : File -> Res.

(** Position of the main goroutine: files still to send (251-253; [close(in)] and the
    start of the closing goroutine, 254-259, follow), collecting (262-264), returned. *)
Inductive mainpc := MPush (rest : list File) | MCollect | MDone.
(** Position of a worker: at the range receive (217), with a file in hand, returned. *)
Inductive workpc := WIdle | WHas (f : File) | WDone.

Record lst := mkLst {
  l_cap : nat;                        (* capacity of both channels, 239-240 *)
  l_main : mainpc;
  l_in : list File;                   (* contents of [in] *)
  l_workers : list workpc;
  l_out : list (File * Res);          (* contents of [out] *)
  l_closed : bool;                    (* [out] closed, 258 *)
  l_got : list (File * Res)           (* results received so far, oldest first *)
}.

(** find_tsconfig.go:239-249. *)
Definition l_init (files : list File) (workers : nat) : lst :=
  mkLst (length files) (MPush files) [] (repeat WIdle workers) [] false [].

Inductive thread := TMain | TCloser | TWorker (i : nat).

Definition in_closed (s : lst) : bool := match l_main s with MPush _ => false | _ => true end.

Definition set_nth_w (l : list workpc) (i : nat) (w : workpc) : list workpc :=
  firstn i l ++ w :: skipn (S i) l.

Definition l_step (s : lst) (t : thread) : option lst :=
  match t with
  | TMain =>
      match l_main s with
      | MPush (f :: rest) =>                                        (* 252 *)
          if length (l_in s) <? l_cap s
          then Some (mkLst (l_cap s) (MPush rest) (l_in s ++ [f]) (l_workers s) (l_out s) (l_closed s) (l_got s))
          else None
      | MPush [] =>                                                 (* 254-259 *)
          Some (mkLst (l_cap s) MCollect (l_in s) (l_workers s) (l_out s) (l_closed s) (l_got s))
      | MCollect =>
          match l_out s with
          | r :: out =>                                             (* 262-263 *)
              Some (mkLst (l_cap s) MCollect (l_in s) (l_workers s) out (l_closed s) (l_got s ++ [r]))
          | [] => if l_closed s
                  then Some (mkLst (l_cap s) MDone (l_in s) (l_workers s) [] true (l_got s))
                  else None
          end
      | MDone => None
      end
  | TCloser =>                                                      (* 256-259 *)
      if in_closed s && negb (l_closed s) &&
         forallb (fun w => match w with WDone => true | _ => false end) (l_workers s)
      then Some (mkLst (l_cap s) (l_main s) (l_in s) (l_workers s) (l_out s) true (l_got s))
      else None
  | TWorker i =>
      match nth_error (l_workers s) i with
      | Some WIdle =>                                               (* 217 *)
          match l_in s with
          | f :: rest => Some (mkLst (l_cap s) (l_main s) rest (set_nth_w (l_workers s) i (WHas f)) (l_out s) (l_closed s) (l_got s))
          | [] => if in_closed s
                  then Some (mkLst (l_cap s) (l_main s) [] (set_nth_w (l_workers s) i WDone) (l_out s) (l_closed s) (l_got s))
                  else None
          end
      | Some (WHas f) =>                                            (* 218-234 *)
          if length (l_out s) <? l_cap s
          then Some (mkLst (l_cap s) (l_main s) (l_in s) (set_nth_w (l_workers s) i WIdle)
                       (l_out s ++ [(f, look f)]) (l_closed s) (l_got s))
          else None
      | _ => None
      end
  end.

Fixpoint l_run (s : lst) (sched : list thread) : option lst :=
  match sched with
  | [] => Some s
  | t :: sched' => match l_step s t with Some s' => l_run s' sched' | None => None end
  end.

(** find_tsconfig.go:261-264: the map built from the received results. *)
Fixpoint put (m : list (File * Res)) (f : File) (r : Res) : list (File * Res) :=
  match m with
  | [] => [(f, r)]
  | (f', r') :: m' => if feqb f f' then (f, r) :: m' else (f', r') :: put m' f r
  end.
Definition l_result (s : lst) : list (File * Res) :=
  fold_left (fun m x => put m (fst x) (snd x)) (l_got s) [].

End PL.
