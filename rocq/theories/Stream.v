(** Model of the headless output pipeline of cmd/tsgolint/headless.go:
    producers, the diagnostics channel, the writer goroutine with its buffered
    writer, and the main goroutine up to process exit. *)
From Coq Require Import Bool List ZArith NArith Ascii.
From Verif Require Import Base.
Import ListNotations.
Open Scope N_scope.

(** * Frames *)

(** headless.go 149-153: message types. *)
Definition mt_error : N := 0.
Definition mt_diagnostic : N := 1.
Definition mt_timing : N := 2.

Definition nlen {A : Type} (l : list A) : N := N.of_nat (List.length l).

(** headless.go 200-202: the five header bytes. [binary.LittleEndian.PutUint32]
    of [uint32(len)] keeps the length modulo 2^32; byte(messageType) modulo 256.
    [ascii_of_N] takes the low eight bits. *)
Definition header (ty : N) (len : N) : bstr :=
  let n := len mod 4294967296 in
  [ ascii_of_N (n mod 256)
  ; ascii_of_N (n / 256 mod 256)
  ; ascii_of_N (n / 65536 mod 256)
  ; ascii_of_N (n / 16777216 mod 256)
  ; ascii_of_N (ty mod 256) ].

(** * bufio.Writer (Go standard library), on an underlying writer that always
    accepts everything. The state is the buffered bytes; writing returns the
    list of chunks passed to the underlying writer, in order.

    [func (b *Writer) Write(p)]: while len(p) > Available: if the buffer is
    empty pass p through directly, else fill the buffer and flush; finally copy
    the rest of p into the buffer. The loop runs at most twice (after a fill and
    flush the buffer is empty). [firstn]/[skipn] take [N] counts here. *)
Definition take (n : N) (l : bstr) : bstr := firstn (N.to_nat n) l.
Definition drop (n : N) (l : bstr) : bstr := skipn (N.to_nat n) l.

Definition bufio_write (cap : N) (buf p : bstr) : list bstr * bstr :=
  if nlen p <=? cap - nlen buf then ([], buf ++ p)
  else
    match buf with
    | [] => ([p], [])
    | _ :: _ =>
        let room := cap - nlen buf in
        let full := buf ++ take room p in
        let p' := drop room p in
        if nlen p' <=? cap then ([full], p') else ([full; p'], [])
    end.

(** [func (b *Writer) Flush()]: nothing when empty. *)
Definition bufio_flush (buf : bstr) : list bstr * bstr :=
  match buf with
  | [] => ([], [])
  | _ :: _ => ([buf], [])
  end.

(** headless.go 195-206 [writeMessage] into a bufio.Writer: a serialisation
    error writes nothing; otherwise header and payload are written separately. *)
Definition write_message_buf (cap : N) (ty : N) (payload : option bstr) (buf : bstr)
  : list bstr * bstr :=
  match payload with
  | None => ([], buf)
  | Some p =>
      let (c1, buf1) := bufio_write cap buf (header ty (nlen p)) in
      let (c2, buf2) := bufio_write cap buf1 p in
      (c1 ++ c2, buf2)
  end.

(** headless.go 195-206 into os.Stdout directly: the chunks written. Go's
    os.File.Write of an empty slice makes no visible write. *)
Definition write_message_direct (ty : N) (payload : option bstr) : list bstr :=
  match payload with
  | None => []
  | Some p => [header ty (nlen p); p]
  end.

(** headless.go 335: buffer size 4096*100; 398-400: flush when fewer than 4096
    bytes are available. *)
Definition buf_cap : N := 409600.
Definition flush_below : N := 4096.

Section Pipeline.

(** A queued diagnostic, and its conversion plus serialisation (headless.go
    338-397): [Panic] is the nil dereference of an invalid range, [Ok None] a
    json.Marshal error (ignored by the caller), [Ok (Some p)] the payload. *)
Context {D : Type}.
Variable conv : D -> res (option bstr).

(** Channel capacity, headless.go 331 (4096 there). *)
Variable chan_cap : nat.

(** Result of linter.RunLinter (413-450): error text payload if it failed.
    [None]: success. [Some p]: serialised error payload (455), where [p = None]
    stands for a serialisation error. *)
Variable run_err : option (option bstr).

(** Timing payload, if timings were requested (461-466): [Some (Some p)] is
    written, [Some None] is a serialisation error. *)
Variable timing : option (option bstr).

(** headless.go 337-401: one turn of the writer loop after a receive: chunks
    passed to stdout and the new buffer. *)
Definition writer_turn (payload : option bstr) (buf : bstr) : list bstr * bstr :=
  let (cs, buf1) := write_message_buf buf_cap mt_diagnostic payload buf in
  if buf_cap - nlen buf1 <? flush_below then
    let (fs, buf2) := bufio_flush buf1 in (cs ++ fs, buf2)
  else (cs, buf1).

Inductive wphase : Type :=
| WIdle                              (* at [range diagnosticsChan] *)
| WOut (pending : list bstr)         (* writing chunks of the current turn *)
| WLast (pending : list bstr)        (* deferred Flush after the loop *)
| WDone.                             (* goroutine returned, wg counter 0 *)

Inductive mphase : Type :=
| MRun                               (* inside RunLinter *)
| MWait                              (* at wg.Wait() *)
| MOut (pending : list bstr) (code : nat)  (* writing directly to stdout *)
| MExit (code : nat)                 (* process gone *)
| MCrash.                            (* process died from a panic *)

Record st : Type := mkSt {
  stages : list (list (list D));  (* remaining reports: stages of workers *)
  chan : list D;                  (* queued diagnostics, oldest first *)
  closed : bool;
  wph : wphase;
  buf : bstr;
  mph : mphase;
  out : bstr;                     (* bytes on stdout *)
  recvd : list D                  (* ghost: diagnostics received so far *)
}.

(** Initial state. RunLinter reports in stages (one or more per program, see
    internal/linter/linter.go 80-212); within a stage any number of workers
    report concurrently, and a stage ends when all have returned
    (core.WorkGroup.RunAndWait, linter.go 617). *)
Definition init (sts : list (list (list D))) : st :=
  mkSt sts [] false WIdle [] MRun [] [].

(** Take the next report of worker [i] of a stage. *)
Fixpoint take_report (i : nat) (ws : list (list D)) : option (D * list (list D)) :=
  match ws, i with
  | [], _ => None
  | [] :: _, O => None
  | (d :: ds) :: ws', O => Some (d, ds :: ws')
  | w :: ws', S i' =>
      match take_report i' ws' with
      | Some (d, ws'') => Some (d, w :: ws'')
      | None => None
      end
  end.

Definition all_done (ws : list (list D)) : bool :=
  forallb (fun w => match w with [] => true | _ => false end) ws.

Inductive choice : Type :=
| CSend (i : nat)   (* worker i of the current stage sends (438-439) *)
| CStage            (* current stage finished *)
| CClose            (* RunLinter returned; close(diagnosticsChan) (452) *)
| CRecv             (* writer receives (337) *)
| CWrite            (* writer passes one chunk to stdout / finishes a turn *)
| CEnd              (* writer sees the closed, drained channel (401, 336) *)
| CWaited           (* wg.Wait returns (459) *)
| CMain.            (* main writes one chunk / exits *)

Definition alive (s : st) : bool :=
  match mph s with MExit _ | MCrash => false | _ => true end.

Definition step (c : choice) (s : st) : option st :=
  if negb (alive s) then None else
  match c with
  | CSend i =>
      match mph s, stages s with
      | MRun, ws :: rest =>
          if (List.length (chan s) <? chan_cap)%nat then
            match take_report i ws with
            | Some (d, ws') =>
                Some (mkSt (ws' :: rest) (chan s ++ [d]) (closed s) (wph s) (buf s)
                           (mph s) (out s) (recvd s))
            | None => None
            end
          else None
      | _, _ => None
      end
  | CStage =>
      match mph s, stages s with
      | MRun, ws :: rest =>
          if all_done ws then
            Some (mkSt rest (chan s) (closed s) (wph s) (buf s) (mph s) (out s) (recvd s))
          else None
      | _, _ => None
      end
  | CClose =>
      match mph s, stages s with
      | MRun, [] =>
          let m := match run_err with
                   | Some p => MOut (write_message_direct mt_error p) 1
                   | None => MWait
                   end in
          Some (mkSt [] (chan s) true (wph s) (buf s) m (out s) (recvd s))
      | _, _ => None
      end
  | CRecv =>
      match wph s, chan s with
      | WIdle, d :: ds =>
          match conv d with
          | Panic => Some (mkSt (stages s) ds (closed s) WIdle (buf s) MCrash (out s)
                                (recvd s ++ [d]))
          | Ok payload =>
              let (cs, buf') := writer_turn payload (buf s) in
              Some (mkSt (stages s) ds (closed s) (WOut cs) buf' (mph s) (out s)
                         (recvd s ++ [d]))
          end
      | _, _ => None
      end
  | CWrite =>
      match wph s with
      | WOut (c :: cs) =>
          Some (mkSt (stages s) (chan s) (closed s) (WOut cs) (buf s) (mph s)
                     (out s ++ c) (recvd s))
      | WOut [] =>
          Some (mkSt (stages s) (chan s) (closed s) WIdle (buf s) (mph s)
                     (out s) (recvd s))
      | WLast (c :: cs) =>
          Some (mkSt (stages s) (chan s) (closed s) (WLast cs) (buf s) (mph s)
                     (out s ++ c) (recvd s))
      | WLast [] =>
          Some (mkSt (stages s) (chan s) (closed s) WDone (buf s) (mph s)
                     (out s) (recvd s))
      | _ => None
      end
  | CEnd =>
      match wph s, chan s, closed s with
      | WIdle, [], true =>
          let (cs, buf') := bufio_flush (buf s) in
          Some (mkSt (stages s) [] true (WLast cs) buf' (mph s) (out s) (recvd s))
      | _, _, _ => None
      end
  | CWaited =>
      match mph s, wph s with
      | MWait, WDone =>
          let m := match timing with
                   | None => MOut [] 0
                   | Some None => MOut [] 1
                   | Some (Some q) => MOut (write_message_direct mt_timing (Some q)) 0
                   end in
          Some (mkSt (stages s) (chan s) (closed s) WDone (buf s) m (out s) (recvd s))
      | _, _ => None
      end
  | CMain =>
      match mph s with
      | MOut (c :: cs) code =>
          Some (mkSt (stages s) (chan s) (closed s) (wph s) (buf s) (MOut cs code)
                     (out s ++ c) (recvd s))
      | MOut [] code =>
          Some (mkSt (stages s) (chan s) (closed s) (wph s) (buf s) (MExit code)
                     (out s) (recvd s))
      | _ => None
      end
  end.

(** An execution is a list of scheduling choices; a choice that is not enabled
    makes the execution invalid. *)
Fixpoint run (cs : list choice) (s : st) : option st :=
  match cs with
  | [] => Some s
  | c :: cs' =>
      match step c s with
      | Some s' => run cs' s'
      | None => None
      end
  end.

End Pipeline.

Arguments st : clear implicits.
