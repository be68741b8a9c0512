(** Model of the two overlays over a file system: [overlayFS] (cmd/tsgolint/overlayfs.go,
    used for the source overrides of a request) and [OverlayVFS]
    (internal/utils/overlay_vfs.go).

    The underlying file system is any state machine [base]: one operation of the
    interface [vfs.FS] (typescript-go) turns a state into a state and an answer.  The
    callback of [WalkDir] is modelled by the list of entries it is called with. *)
From Coq Require Import String Ascii Bool List ZArith.
From Verif Require Import Base Run.
Import ListNotations.
Open Scope nat_scope.

(** The methods of [vfs.FS]; times are numbers. *)
Inductive fop :=
| FCaseSensitive
| FFileExists (p : bstr)
| FReadFile (p : bstr)
| FWriteFile (p d : bstr)
| FAppendFile (p d : bstr)
| FRemove (p : bstr)
| FChtimes (p : bstr) (a m : Z)
| FDirectoryExists (p : bstr)
| FEntries (p : bstr)
| FStat (p : bstr)
| FWalkDir (p : bstr)
| FRealpath (p : bstr).

Inductive fans :=
| ABool (x : bool)
| ARead (x : option bstr)                  (* contents, ok *)
| AErr (failed : bool)
| AEntries (files dirs : list bstr)
| AStat (info : option (bstr * nat))       (* nil, or name and size *)
| AWalk (seen : list bstr) (failed : bool)
| APath (p : bstr).

Section Overlay.
Context {St : Type}.
Variable base : St -> fop -> St * fans.

(** overlayfs.go:21-74. *)
Definition overlay (ov : list (bstr * bstr)) (s : St) (o : fop) : St * fans :=
  match o with
  | FFileExists p =>                                        (* 25-30 *)
      match get ov p with Some _ => (s, ABool true) | None => base s (FFileExists p) end
  | FReadFile p =>                                          (* 32-37 *)
      match get ov p with Some c => (s, ARead (Some c)) | None => base s (FReadFile p) end
  | o => base s o                                           (* 21-23, 39-74 *)
  end.

(** A sequence of operations with their answers. *)
Fixpoint trace (step : St -> fop -> St * fans) (s : St) (os : list fop) : St * list fans :=
  match os with
  | [] => (s, [])
  | o :: os' => let (s1, a) := step s o in let (s2, r) := trace step s1 os' in (s2, a :: r)
  end.

(** headless.go:255-257: the overlay is used only if there are overrides. *)
Definition request_fs (ov : list (bstr * bstr)) : St -> fop -> St * fans :=
  match ov with [] => base | _ => overlay ov end.

(** overlay_vfs.go.  [npath]: [tspath.NormalizePath]; [iter]: iteration order of the map. *)
Variable npath : bstr -> bstr.
Variable iter : list (bstr * bstr) -> list (bstr * bstr).

Definition has_suffix_slash (p : bstr) : bool :=
  match rev p with c :: _ => Ascii.eqb c "/"%char | [] => false end.
(** overlay_vfs.go:40-43, 56-59. *)
Definition dir_prefix (p : bstr) : bstr :=
  let n := npath p in if has_suffix_slash n then n else n ++ b "/".

(** [strings.CutPrefix]. *)
Fixpoint cut_prefix (p s : bstr) : option bstr :=
  match p, s with
  | [], _ => Some s
  | c :: p', d :: s' => if Ascii.eqb c d then cut_prefix p' s' else None
  | _, [] => None
  end.
(** [strings.Cut(s, "/")]: the part before the first slash, if there is one. *)
Fixpoint cut_slash (s : bstr) : option bstr :=
  match s with
  | [] => None
  | c :: s' => if Ascii.eqb c "/"%char then Some [] else option_map (cons c) (cut_slash s')
  end.

(** overlay_vfs.go:61-72, the loop over the virtual files. *)
Fixpoint add_virtual (prefix : bstr) (vs : list (bstr * bstr)) (files dirs : list bstr) : list bstr * list bstr :=
  match vs with
  | [] => (files, dirs)
  | (p, _) :: vs' =>
      match cut_prefix prefix p with
      | None => add_virtual prefix vs' files dirs
      | Some rest =>
          match cut_slash rest with
          | Some before => add_virtual prefix vs' files (dirs ++ [before])
          | None => add_virtual prefix vs' (files ++ [rest]) dirs
          end
      end
  end.

Definition ov_vfs (vf : list (bstr * bstr)) (s : St) (o : fop) : res (St * fans) :=
  match o with
  | FFileExists p =>                                        (* 25-30 *)
      match get vf p with Some _ => Ok (s, ABool true) | None => Ok (base s o) end
  | FReadFile p =>                                          (* 32-37 *)
      match get vf p with Some c => Ok (s, ARead (Some c)) | None => Ok (base s o) end
  | FDirectoryExists p =>                                   (* 39-51 *)
      if existsb (fun v => match cut_prefix (dir_prefix p) (fst v) with Some _ => true | None => false end) (iter vf)
      then Ok (s, ABool true) else Ok (base s o)
  | FEntries p =>                                           (* 53-75 *)
      match base s o with
      | (s', AEntries fs ds) =>
          let (fs', ds') := add_virtual (dir_prefix p) (iter vf) fs ds in Ok (s', AEntries fs' ds')
      | x => Ok x
      end
  | FStat p =>                                              (* 120-128 *)
      match get vf p with Some c => Ok (s, AStat (Some (p, List.length c))) | None => Ok (base s o) end
  | FRealpath p =>                                          (* 135-140 *)
      match get vf p with Some _ => Ok (s, APath p) | None => Ok (base s o) end
  | FWriteFile p _ | FAppendFile p _ | FRemove p | FChtimes p _ _ =>   (* 142-168 *)
      match get vf p with Some _ => Panic | None => Ok (base s o) end
  | FCaseSensitive | FWalkDir _ => Ok (base s o)            (* 21-23, 130-133 *)
  end.
End Overlay.
