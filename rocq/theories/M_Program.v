(** Model of the whole program on a file system that can fail or be interrupted. *)
From Verif Require Import M_Base M_Float M_Rng M_Geom M_Offset M_Text M_IO M_Files.
Open Scope Z_scope.

(** The contents of every path that is a file. *)
Definition files : Type := bytes -> option bytes.
Definition with_file (fs : files) (path : bytes) (c : option bytes) : files :=
  fun q => if bytes_eqb q path then c else fs q.

(** fileutil.SaveText (external), called at main.go:98: the file is created, which empties it, and the text is written to it
    in one write. *)
Definition save_text (d : disk) (old : option bytes) (text : bytes) : effects :=
  if negb (create d) then Effects [old] true
  else match broken d 0 with
       | Some n => Effects (old :: passing [] text n) true
       | None => Effects (old :: passing [] text (length text)) false
       end.

(** What an execution does to the files: the file systems it passes through, and whether it ends with exit code 0. *)
Record journal := Journal { j_states : list files; j_success : bool }.

(** main.go:22-103 on a disk.  Reading changes nothing; exits (main.go:33, 41, 60) and panics end the program with nothing
    written; main.go:98-101 writes, and panics if that fails.  [write] is json.Marshal of a feature (external). *)
Definition program_on {P} (lib : jsonlib P) (decode : bytes -> option config) (write : @ofeature P -> bytes) (d : disk) (fs : files)
    (S : setup) (dp sed : scorefn) (b f : bytes) : journal :=
  match program lib decode fs S dp sed b f with
  | Ok (path, outs) =>
    let e := save_text d (fs path) (output_text write outs) in
    Journal (fs :: map (with_file fs path) (e_states e)) (negb (e_error e))
  | _ => Journal [fs] false
  end.
