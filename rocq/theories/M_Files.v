(** Model of the two writers of io.go on a file system that can fail, and of what a crash leaves. *)
From Verif Require Import M_Base M_Float M_Geom M_Text M_Wkt.
Open Scope Z_scope.

(** The file system as seen by one call (external: os, fileutil.MakeDirs).  [mkdirs], [create]: the directory can be
    made, the file can be created (which empties it).  [broken k] = Some n: the k-th Write of the call writes n bytes
    and returns an error (all bytes when n is not below their number); None: it writes everything. *)
Record disk := Disk { mkdirs : bool; create : bool; broken : nat -> option nat }.

(** What happens to the file named in the call: the contents it has from the start on, one after the other (None: there
    is no such file), and whether the call returns an error.  A write passes through every prefix of its bytes: a crash
    may come at any time. *)
Record effects := Effects { e_states : list (option bytes); e_error : bool }.

(** One write of [out] to a file with the contents [done]: the contents on the way. *)
Definition passing (done out : bytes) (upto : nat) : list (option bytes) :=
  map (fun n => Some (done ++ firstn n out)) (seq 0 (S upto)).

(** io.go:127-135 the loop of writeCoords, before the k-th write. *)
Fixpoint write_loop (d : disk) (writer : list point -> bytes) (k : nat) (done : bytes) (coords : list (list point)) : effects :=
  match coords with
  | [] => Effects [Some done] false
  | o :: r =>
    let out := writer o ++ [nl] in
    match broken d k with
    | Some n => Effects (passing done out n) true
    | None =>
      let e := write_loop d writer (S k) (done ++ out) r in
      Effects (passing done out (length out) ++ e_states e) (e_error e)
    end
  end.
(** io.go:115-136 writeCoords.  The file is not closed: nothing is flushed or checked at the end. *)
Definition write_coords_on (d : disk) (old : option bytes) (writer : list point -> bytes) (coords : list (list point)) : effects :=
  if negb (mkdirs d) then Effects [old] true
  else if negb (create d) then Effects [old] true
  else
    let e := write_loop d writer 0 [] coords in
    Effects (old :: e_states e) (e_error e).

(** io.go:138-155 writeTomlCoords.  [marshalled]: the result of toml.Marshal (external), None for an error; it is
    called when the file has been created already. *)
Definition write_toml_on (d : disk) (old : option bytes) (marshalled : option bytes) : effects :=
  if negb (mkdirs d) then Effects [old] true
  else if negb (create d) then Effects [old] true
  else match marshalled with
       | None => Effects [old; Some []] true
       | Some out =>
         match broken d 0 with
         | Some n => Effects (old :: passing [] out n) true
         | None => Effects (old :: passing [] out (length out)) false
         end
       end.
