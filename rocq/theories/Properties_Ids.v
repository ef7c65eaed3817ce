(** Claim C75: ids drawn concurrently.  All lines and the class phase draw from one generator
    (simplify.go:13 and 30, passed on by constdp/fc_simplify.go:71-106); a schedule decides which
    line draws next.  Vocabulary: Spec_Run.v, Spec_Docs.v, Spec_Modes.v. *)
From Coq Require Import Ascii String Cantor.
From Verif Require Import M_Base M_Float M_Rng M_Geom M_Offset M_Node M_Decompose M_Hdb M_Knn M_Lnr M_Homotopy M_Relate M_Constrain M_ConstDP
  M_Text M_IO Spec Spec_Hdb Spec_Lnr Spec_Relate Spec_ConstDP Spec_Text Spec_IO Spec_Run Spec_Out Spec_Docs Spec_Modes
  P_Base Toy Toy_Box Properties_Core Properties_ConstDP Properties_IO Properties_Run Properties_Docs Properties_Modes Properties_Near.
Open Scope Z_scope.

(** Draw number [n] is the [k]-th draw of line [i]: [sched] lists who draws, draw after draw. *)
Definition drawn_by (sched : list Z) (i : Z) (k n : nat) : Prop :=
  nth_error sched n = Some i /\ count_occ Z.eq_dec (firstn n sched) i = k.

(** A run with one generator that counts up from [first]: first the [n] lines draw their ids (simplify.go:18-22), then
    the lines draw ids of hulls in the order [sched], then the class phase draws. *)
Record one_generator (first : Z) (n : nat) (sched : list Z) (S : setup) : Prop := {
  og_lines : forall k, (k < n)%nat -> su_ids S k = first + Z.of_nat k;
  og_hulls : forall i k m, drawn_by sched i k m -> su_gens S i k = first + Z.of_nat (n + m);
  og_class : forall k, w_gen (su_world S) k = first + Z.of_nat (n + length sched + k)
}.

(** The number of the [k]-th draw of line [i]. *)
Fixpoint draw (sched : list Z) (i : Z) (k : nat) : option nat :=
  match sched with
  | [] => None
  | j :: r =>
    if Z.eq_dec j i then match k with O => Some O | Datatypes.S k' => option_map Datatypes.S (draw r i k') end
    else option_map Datatypes.S (draw r i k)
  end.
Lemma draw_spec sched i : forall k n, draw sched i k = Some n <-> drawn_by sched i k n.
Proof.
  unfold drawn_by. induction sched as [|j r IH]; intros k n.
  - cbn [draw]. split; [discriminate|]. intros [H _]. destruct n; discriminate H.
  - cbn [draw]. destruct (Z.eq_dec j i) as [->|Hj].
    + destruct k as [|k].
      * split.
        -- intros H. injection H as <-. split; reflexivity.
        -- intros [H1 H2]. destruct n as [|n]; [reflexivity|]. cbn [firstn count_occ] in H2. destruct (Z.eq_dec i i); [discriminate|congruence].
      * split.
        -- destruct (draw r i k) as [m|] eqn:E; [|discriminate]. intros H. injection H as <-. apply IH in E. destruct E as [E1 E2].
           split; [exact E1|]. cbn [firstn count_occ]. destruct (Z.eq_dec i i); [congruence|congruence].
        -- intros [H1 H2]. destruct n as [|n]; [discriminate H2|]. cbn [nth_error] in H1. cbn [firstn count_occ] in H2.
           destruct (Z.eq_dec i i); [|congruence]. injection H2 as H2. rewrite (proj2 (IH k n)) by (split; assumption). reflexivity.
    + split.
      * destruct (draw r i k) as [m|] eqn:E; [|discriminate]. intros H. injection H as <-. apply IH in E. destruct E as [E1 E2].
        split; [exact E1|]. cbn [firstn count_occ]. destruct (Z.eq_dec j i); [congruence|exact E2].
      * intros [H1 H2]. destruct n as [|n]; [cbn in H1; congruence|]. cbn [nth_error] in H1. cbn [firstn count_occ] in H2.
        destruct (Z.eq_dec j i); [congruence|]. rewrite (proj2 (IH k n)) by (split; assumption). reflexivity.
Qed.
Lemma draw_lt sched i k n : draw sched i k = Some n -> (n < length sched)%nat.
Proof. intros H. apply draw_spec in H. destruct H as [H _]. apply nth_error_Some. congruence. Qed.

(** Draws that no schedule contains get numbers below [first]. *)
Definition z_code (i : Z) : nat := if i <? 0 then (2 * Z.to_nat (- i) + 1)%nat else (2 * Z.to_nat i)%nat.
Lemma z_code_inj i j : z_code i = z_code j -> i = j.
Proof. unfold z_code. destruct (Z.ltb_spec i 0), (Z.ltb_spec j 0); lia. Qed.
Definition spare (first : Z) (i : Z) (k : nat) : Z := first - 1 - Z.of_nat (Cantor.to_nat (z_code i, k)).
Lemma spare_inj first i k j l : spare first i k = spare first j l -> i = j /\ k = l.
Proof.
  intros H. assert (E : Cantor.to_nat (z_code i, k) = Cantor.to_nat (z_code j, l)) by (unfold spare in H; lia).
  apply Cantor.to_nat_inj in E. injection E as E1 E2. split; [apply z_code_inj; exact E1|exact E2].
Qed.

Definition shared_setup (L : geomlib) (O : hdb_oracle) (pop : popfn) (N : lnr_oracle) (first : Z) (n : nat) (sched : list Z)
    (ords : Z -> nat -> list node -> list node) (ord : nat -> list node -> list node) (fuel : nat) : setup :=
  Setup (World L (fun k => first + Z.of_nat (n + length sched + k)) O pop N)
    (fun k => first + Z.of_nat k)
    (fun i k => match draw sched i k with Some m => first + Z.of_nat (n + m) | None => spare first i k end)
    ords ord fuel.

(** Whatever the schedule, such a run is one of those the other claims quantify over. *)
Theorem C75_every_interleaving_is_covered :
  forall (W : world) (first : Z) (n : nat) (sched : list Z) ords ord fuel,
  libs_ok W -> (forall i, any_order (ords i)) -> any_order ord ->
  exists S, setup_ok S /\ one_generator first n sched S /\
    w_geom (su_world S) = w_geom W /\ w_hdb (su_world S) = w_hdb W /\ w_pop (su_world S) = w_pop W /\ w_lnr (su_world S) = w_lnr W /\
    su_ords S = ords /\ su_ord S = ord /\ su_fuel S = fuel.
Proof.
  intros W first n sched ords ord fuel HW Hs Ho.
  exists (shared_setup (w_geom W) (w_hdb W) (w_pop W) (w_lnr W) first n sched ords ord fuel).
  split; [|split; [|cbn; auto 10]].
  - split; cbn [shared_setup su_world su_ids su_gens su_ords su_ord w_gen]; auto.
    + destruct HW. split; auto. cbn [w_gen]. intros. lia.
    + intros. lia.
    + intros i j k l H. destruct (draw sched i k) as [a|] eqn:E, (draw sched j l) as [b|] eqn:F.
      * assert (a = b) as <- by lia. apply draw_spec in E, F. destruct E as [E1 E2], F as [F1 F2]. rewrite E1 in F1. injection F1 as <-. split; congruence.
      * exfalso. unfold spare in H. lia.
      * exfalso. unfold spare in H. lia.
      * exact (spare_inj _ _ _ _ _ H).
    + intros i k l H. destruct (draw sched i l) as [a|] eqn:E.
      * apply draw_lt in E. lia.
      * unfold spare in H. lia.
  - split; cbn [shared_setup su_world su_ids su_gens w_gen].
    + reflexivity.
    + intros i k m H. apply draw_spec in H. rewrite H. reflexivity.
    + reflexivity.
Qed.

(** In one run no two hulls, of whatever lines and phases, get the same id, and none gets the id of a line. *)
Theorem C75_ids_are_distinct : forall first n sched S, one_generator first n sched S ->
  (forall i k m j l q, drawn_by sched i k m -> drawn_by sched j l q -> su_gens S i k = su_gens S j l -> i = j /\ k = l) /\
  (forall i k m l, drawn_by sched i k m -> su_gens S i k <> w_gen (su_world S) l) /\
  (forall k l, w_gen (su_world S) k = w_gen (su_world S) l -> k = l) /\
  (forall j, (j < n)%nat -> (forall i k m, drawn_by sched i k m -> su_gens S i k <> su_ids S j) /\ (forall k, w_gen (su_world S) k <> su_ids S j)).
Proof.
  intros first n sched S [A B C]. split; [|split; [|split]].
  - intros i k m j l q H1 H2 E. rewrite (B _ _ _ H1), (B _ _ _ H2) in E. assert (m = q) as <- by lia.
    destruct H1 as [H1 K1], H2 as [H2 K2]. rewrite H1 in H2. injection H2 as <-. split; congruence.
  - intros i k m l H E. rewrite (B _ _ _ H), C in E. destruct H as [H _].
    assert (m < length sched)%nat by (apply nth_error_Some; congruence). lia.
  - intros k l E. rewrite !C in E. lia.
  - intros j Hj. rewrite (A j Hj). split.
    + intros i k m H E. rewrite (B _ _ _ H) in E. lia.
    + intros k E. rewrite C in E. lia.
Qed.

(** Two lines draw in turn, or the second one first. *)
Example C75_case :
  drawn_by [0; 1; 1; 0] 1 1 2 /\ drawn_by [1; 1; 0; 0] 1 1 1 /\
  libs_ok exB /\
  let S := shared_setup boxy (w_hdb exB) (w_pop exB) (w_lnr exB) 0 2 [0; 1; 1; 0] (fun _ => in_turn) in_turn 20 in
  su_gens S 1 1%nat = 4 /\ su_gens S 0 1%nat = 5 /\ w_gen (su_world S) 0%nat = 6.
Proof.
  split; [split; reflexivity|]. split; [split; reflexivity|]. split; [exact exB_ok|]. vm_compute. repeat split.
Qed.

Print Assumptions C75_every_interleaving_is_covered.
Print Assumptions C75_ids_are_distinct.
