(** Claim C82: the field Hulls after any runs holds the computed hulls, and what was handed out before stays.
    Vocabulary: Spec_Alias.v. *)
From Verif Require Import M_Base M_Slice P_Slice M_Ctx P_Ctx M_Alias Spec_Alias P_Alias.
Open Scope Z_scope.

(** However the runtime sizes arrays, after any series of runs over [n] new objects, alone or as a class, the
    field Hulls of every object reads as the list of hulls that the same runs compute on plain values: no hull is
    overwritten between its computation and the final copy. *)
Theorem C82_hulls_as_computed g n cs :
  map (s_read (fst (hruns g (hstart n) cs))) (snd (hruns g (hstart n) cs)) = fold_left v_run cs (repeat [] n).
Proof. exact (proj2 (proj1 (hruns_ok g cs _ _ (hstart_good n)))). Qed.

(** A slice of hulls taken from an object after some runs reads the same after any further runs, also of the same
    object. *)
Theorem C82_results_stay g n cs cs' s :
  In s (snd (hruns g (hstart n) cs)) ->
  s_read (fst (hruns g (hstart n) (cs ++ cs'))) s = s_read (fst (hruns g (hstart n) cs)) s.
Proof.
  intros H. destruct (hruns_ok g cs _ _ (hstart_good n)) as [[A B] _]. set (w := hruns g (hstart n) cs) in *.
  destruct (hruns_ok g cs' w _ (conj A B)) as [_ X]. unfold hruns at 1. rewrite fold_left_app. fold (hruns g (hstart n) cs).
  apply extends_sl_read; [exact X|]. rewrite Forall_forall in A. exact (A s H).
Qed.

(** Two objects.  The first run splits the hull 12 into 21 and 22 and lists them from the end, so that the final copy
    writes over the array the hulls came in; the class run then replaces 13 and 53 by 31 and 61.  Hulls below 40
    are of the first object. *)
Definition c82_p := Plan [11; 12; 13] None [([4; 3; 2; 0]%nat, [21; 22])].
Definition c82_q := Plan [51; 52] (Some [51; 53; 54]) [([2; 0; 1]%nat, [])].
Definition c82_first := [HSimplify 0 c82_p].
Definition c82_then :=
  [HClass [c82_p; c82_q] true [([0; 1; 3; 7; 4; 5; 8]%nat, [31; 61])] (fun v => if v <? 40 then 0%nat else 1%nat)].
Example C82_case :
  let w1 := hruns (fun _ => 4%nat) (hstart 2) c82_first in
  let w2 := hruns (fun _ => 4%nat) (hstart 2) (c82_first ++ c82_then) in
  map (s_read (fst w1)) (snd w1) = [[22; 21; 13; 11]; []] /\
  map (s_read (fst w2)) (snd w2) = [[22; 21; 11; 31]; [54; 51; 61]] /\
  map (s_read (fst w2)) (snd w1) = [[22; 21; 13; 11]; []].
Proof. vm_compute. repeat split. Qed.

Print Assumptions C82_hulls_as_computed.
Print Assumptions C82_results_stay.
