(** Claim C91: failing writes and crashes. *)
From Coq Require Import Ascii String.
From Verif Require Import M_Base M_Float M_Geom M_Text M_Wkt M_Files Spec_Text P_Base P_Text P_Run Toy Properties_Wkt.
Open Scope Z_scope.

(** The beginning of a text. *)
Definition starts (p text : bytes) : Prop := exists r, text = p ++ r.
(** The file at the end of the call. *)
Definition left_behind (e : effects) : option bytes := last (e_states e) None.

(** ** Lemmas *)

Lemma passing_in done out n s : In s (passing done out n) -> exists k, s = Some (done ++ firstn k out).
Proof. intros H. apply in_map_iff in H. destruct H as (k & <- & _). eauto. Qed.
Lemma passing_last done out n : last (passing done out n) None = Some (done ++ firstn n out).
Proof.
  unfold passing. rewrite seq_S, map_app. cbn [map Nat.add]. apply last_last.
Qed.
Lemma last_app_ne {A} (l r : list A) d : r <> [] -> last (l ++ r) d = last r d.
Proof.
  intros H. induction l as [|x l IH]; [reflexivity|]. cbn [app]. rewrite <- IH. destruct (l ++ r) eqn:E; [|reflexivity].
  apply app_eq_nil in E. destruct E; congruence.
Qed.
Lemma loop_states_ne d w k done coords : e_states (write_loop d w k done coords) <> [].
Proof.
  destruct coords as [|o r]; cbn [write_loop]; [discriminate|]. destruct (broken d k) as [n|]; cbn [e_states]; [discriminate|].
  intros H. apply app_eq_nil in H. destruct H as [H _]. discriminate.
Qed.

(** Everything the loop leaves: complete lines and the beginning of one more. *)
Lemma loop_states d w coords : forall k done s, In s (e_states (write_loop d w k done coords)) ->
  exists u t n, s = Some (done ++ write_coords w u ++ firstn n t) /\
    ((u = coords /\ t = []) \/ exists c v, coords = u ++ c :: v /\ t = w c ++ [nl]).
Proof.
  induction coords as [|o r IH]; intros k done s H; cbn [write_loop] in H.
  - destruct H as [<- |[]]. exists [], [], 0%nat. cbn. rewrite app_nil_r. auto.
  - assert (P : forall n, In s (passing done (w o ++ [nl]) n) -> exists u t m, s = Some (done ++ write_coords w u ++ firstn m t) /\
      ((u = o :: r /\ t = []) \/ exists c v, o :: r = u ++ c :: v /\ t = w c ++ [nl])).
    { intros n Hn. apply passing_in in Hn. destruct Hn as (m & ->). exists [], (w o ++ [nl]), m. split; [reflexivity|]. right. exists o, r. auto. }
    destruct (broken d k) as [n|]; cbn [e_states] in H; [exact (P n H)|].
    apply in_app_or in H. destruct H as [H|H]; [exact (P _ H)|].
    destruct (IH _ _ _ H) as (u & t & n & E & Hu). exists (o :: u), t, n. split.
    + rewrite E. cbn [write_coords]. rewrite <- !app_assoc. reflexivity.
    + destruct Hu as [[-> ->]|(c & v & -> & ->)]; [left; auto|right; exists c, v; auto].
Qed.

Lemma loop_result d w coords : forall k done,
  let e := write_loop d w k done coords in
  (e_error e = false <-> forall i, (i < length coords)%nat -> broken d (k + i) = None) /\
  (e_error e = false -> left_behind e = Some (done ++ write_coords w coords)) /\
  (e_error e = true -> exists u c v n, coords = u ++ c :: v /\ broken d (k + length u) = Some n /\
     (forall i, (i < length u)%nat -> broken d (k + i) = None) /\
     left_behind e = Some (done ++ write_coords w u ++ firstn n (w c ++ [nl]))).
Proof.
  induction coords as [|o r IH]; intros k done; cbn [write_loop].
  - cbn. rewrite app_nil_r. split; [split; [intros _ i Hi; lia|auto]|]. split; [auto|discriminate].
  - destruct (broken d k) as [n|] eqn:E.
    + cbn [e_error left_behind e_states]. split; [split; [discriminate|]|split; [discriminate|]].
      * intros H. specialize (H 0%nat). rewrite Nat.add_0_r, E in H. cbn in H. assert (Some n = None) by (apply H; lia). discriminate.
      * intros _. exists [], o, r, n. cbn [length write_coords app]. rewrite Nat.add_0_r. split; [reflexivity|]. split; [exact E|].
        split; [intros i Hi; lia|]. unfold left_behind; cbn [e_states]. apply passing_last.
    + cbn [e_error]. specialize (IH (S k) (done ++ (w o ++ [nl]))). cbv zeta in IH. destruct IH as (A & B & C).
      unfold left_behind in *; cbn [e_states] in *. rewrite last_app_ne by apply loop_states_ne.
      split; [|split].
      * rewrite A. split; intros H i Hi.
        -- destruct i as [|i]; [rewrite Nat.add_0_r; exact E|]. rewrite Nat.add_succ_r. apply (H i). cbn in Hi. lia.
        -- specialize (H (S i)). rewrite Nat.add_succ_r in H. apply H. cbn. lia.
      * intros H. rewrite (B H). cbn [write_coords]. rewrite <- !app_assoc. reflexivity.
      * intros H. destruct (C H) as (u & c & v & n & -> & Hb & Hi & L). exists (o :: u), c, v, n. cbn [length app].
        rewrite Nat.add_succ_r. split; [reflexivity|]. split; [exact Hb|]. split.
        -- intros i Hl. destruct i as [|i]; [rewrite Nat.add_0_r; exact E|]. rewrite Nat.add_succ_r. apply (Hi i). lia.
        -- rewrite L. cbn [write_coords]. rewrite <- !app_assoc. reflexivity.
Qed.

Lemma write_coords_app w u v : write_coords w (u ++ v) = write_coords w u ++ write_coords w v.
Proof. induction u as [|o u IH]; cbn [app write_coords]; [reflexivity|]. rewrite IH, <- !app_assoc. reflexivity. Qed.

Lemma states_last d old w coords : (mkdirs d && create d)%bool = true ->
  left_behind (write_coords_on d old w coords) = left_behind (write_loop d w 0 [] coords).
Proof.
  intros H. apply andb_prop in H. destruct H as [H1 H2]. unfold write_coords_on. rewrite H1, H2. cbn [negb]. unfold left_behind. cbn [e_states].
  pose proof (loop_states_ne d w 0 [] coords). destruct (e_states (write_loop d w 0 [] coords)); [congruence|reflexivity].
Qed.

(** ** C91 *)

(** At any time the file is as it was before the call, or a beginning of what is to be written. *)
Theorem C91_crash_leaves_a_beginning : forall d old writer coords s,
  In s (e_states (write_coords_on d old writer coords)) ->
  s = old \/ exists p, s = Some p /\ starts p (write_coords writer coords).
Proof.
  intros d old w coords s H. unfold write_coords_on in H.
  destruct (mkdirs d); cbn [negb e_states] in H; [|destruct H as [<- |[]]; auto].
  destruct (create d); cbn [negb e_states] in H; [|destruct H as [<- |[]]; auto].
  destruct H as [<- |H]; [auto|]. right. destruct (loop_states _ _ _ _ _ _ H) as (u & t & n & E & Hu). cbn [app] in E.
  eexists. split; [exact E|]. destruct Hu as [[-> ->]|(c & v & -> & ->)].
  - exists []. rewrite firstn_nil, !app_nil_r. reflexivity.
  - exists (skipn n (w c ++ [nl]) ++ write_coords w v). rewrite write_coords_app. cbn [write_coords].
    rewrite <- app_assoc. f_equal. rewrite (app_assoc (firstn n _)), firstn_skipn, <- app_assoc. reflexivity.
Qed.

(** And each beginning is a state the file passes through, when nothing fails. *)
Theorem C91_every_beginning_occurs : forall d old writer coords p,
  mkdirs d = true -> create d = true -> (forall i, (i < length coords)%nat -> broken d i = None) ->
  starts p (write_coords writer coords) ->
  In old (e_states (write_coords_on d old writer coords)) /\ In (Some p) (e_states (write_coords_on d old writer coords)).
Proof.
  intros d old w coords p H1 H2 Hb (r & Hr). unfold write_coords_on. rewrite H1, H2. cbn [negb e_states].
  split; [left; reflexivity|right].
  assert (G : forall cs k done q r, (forall i, (i < length cs)%nat -> broken d (k + i) = None) -> write_coords w cs = q ++ r ->
    In (Some (done ++ q)) (e_states (write_loop d w k done cs))).
  2:{ exact (G coords 0%nat [] p r Hb Hr). }
  clear. induction cs as [|o cs IH]; intros k done q r Hb E; cbn [write_loop].
  - symmetry in E. apply app_eq_nil in E. destruct E as [-> _]. left. cbn. rewrite app_nil_r. reflexivity.
  - pose proof (Hb 0%nat) as H0. rewrite Nat.add_0_r in H0. rewrite H0 by (cbn; lia). cbn [e_states].
    cbn [write_coords] in E. set (t := w o ++ [nl]) in *.
    assert (E' : t ++ write_coords w cs = q ++ r) by (unfold t; rewrite <- app_assoc; exact E).
    destruct (Nat.le_gt_cases (length q) (length t)) as [Hq|Hq]; apply in_or_app.
    + left. apply in_map_iff. exists (length q). split; [|apply in_seq; lia]. f_equal. f_equal.
      assert (F : firstn (length q) (t ++ write_coords w cs) = firstn (length q) (q ++ r)) by (rewrite E'; reflexivity).
      rewrite !firstn_app, firstn_all, Nat.sub_diag in F. replace (length q - length t)%nat with 0%nat in F by lia.
      cbn [firstn] in F. rewrite !app_nil_r in F. exact F.
    + right. assert (F : firstn (length t) (t ++ write_coords w cs) = firstn (length t) (q ++ r)) by (rewrite E'; reflexivity).
      rewrite !firstn_app, firstn_all, Nat.sub_diag in F. replace (length t - length q)%nat with 0%nat in F by lia.
      cbn [firstn] in F. rewrite !app_nil_r in F.
      assert (Eq : q = t ++ skipn (length t) q) by (rewrite F at 1; symmetry; apply firstn_skipn).
      rewrite Eq, app_assoc. apply (IH _ _ _ r).
      * intros i Hi. specialize (Hb (S i)). rewrite Nat.add_succ_r in Hb. apply Hb. cbn. lia.
      * rewrite Eq, <- app_assoc in E'. apply app_inv_head in E'. exact E'.
Qed.

(** So a reader never sees a torn line: it reads complete lines that were to be written, in order, from the first. *)
Theorem C91_crash_reads_back : forall lib d old writer coords p,
  wkt_ok lib writer coords -> In (Some p) (e_states (write_coords_on d old writer coords)) -> Some p <> old ->
  exists k, read_wkt_input lib (Some p) = Ok (firstn k coords, EOF).
Proof.
  intros lib d old w coords p Hw H Hne. unfold write_coords_on in H.
  destruct (mkdirs d); cbn [negb e_states] in H; [|destruct H as [H|[]]; congruence].
  destruct (create d); cbn [negb e_states] in H; [|destruct H as [H|[]]; congruence].
  destruct H as [H|H]; [congruence|]. destruct (loop_states _ _ _ _ _ _ H) as (u & t & n & E & Hu). cbn [app] in E. injection E as ->.
  assert (Back : forall v, (exists r, coords = v ++ r) -> exists k, read_wkt_input lib (Some (write_coords w v)) = Ok (firstn k coords, EOF)).
  { intros v (r & ->). exists (length v). rewrite firstn_app, firstn_all, Nat.sub_diag. cbn [firstn]. rewrite app_nil_r.
    apply C76_written_lines_read_back. intros c t' Hc. apply Hw. apply in_or_app. left. exact Hc. }
  destruct Hu as [[-> ->]|(c & v & -> & ->)].
  - rewrite firstn_nil, app_nil_r. apply Back. exists []. rewrite app_nil_r. reflexivity.
  - destruct (Nat.le_gt_cases n (length (w c))) as [Hn|Hn].
    + assert (Hf : firstn n (w c ++ [nl]) = firstn n (w c)) by (rewrite firstn_app; replace (n - length (w c))%nat with 0%nat by lia; apply app_nil_r).
      rewrite Hf.
      assert (Er : read_lines (write_coords w u ++ firstn n (w c)) = read_lines (write_coords w u)).
      { assert (Eu : forall last, write_coords w u ++ last = unlines (map w u ++ [last])).
        { clear. intros last. induction u as [|o u IH]; [reflexivity|]. cbn [write_coords map app]. rewrite <- !app_assoc. cbn [app]. rewrite IH.
          destruct u; reflexivity. }
        assert (Hl : Forall (fun l => ~ In newline l) (map w u)).
        { apply Forall_forall. intros l Hl. apply in_map_iff in Hl. destruct Hl as (x & <- & Hx).
          apply (Hw x _ (in_or_app _ _ _ (or_introl Hx)) (trim_spec _)). }
        rewrite <- (app_nil_r (write_coords w u)) at 2. rewrite !Eu, !read_lines_spec; auto.
        intros Hin. destruct (Hw c _ (in_or_app u (c :: v) c (or_intror (or_introl eq_refl))) (trim_spec _)) as (N & _). apply N.
        rewrite <- (firstn_skipn n (w c)). apply in_or_app. left. exact Hin. }
      destruct (Back u) as (k & Ek); [exists (c :: v); reflexivity|]. exists k. rewrite <- Ek. unfold read_wkt_input. rewrite Er. reflexivity.
    + rewrite firstn_all2 by (rewrite app_length; cbn; lia).
      replace (write_coords w u ++ w c ++ [nl]) with (write_coords w (u ++ [c])).
      * apply Back. exists v. rewrite <- app_assoc. reflexivity.
      * rewrite write_coords_app. cbn [write_coords]. rewrite app_nil_r. reflexivity.
Qed.

(** No error is returned exactly when every step works, and then the file is complete. *)
Theorem C91_no_error_means_complete : forall d old writer coords,
  let e := write_coords_on d old writer coords in
  (e_error e = false <-> mkdirs d = true /\ create d = true /\ forall i, (i < length coords)%nat -> broken d i = None) /\
  (e_error e = false -> left_behind e = Some (write_coords writer coords)).
Proof.
  intros d old w coords. cbv zeta. destruct (mkdirs d && create d)%bool eqn:Hd.
  - rewrite (states_last d old w coords Hd). apply andb_prop in Hd. destruct Hd as [H1 H2].
    assert (Ee : e_error (write_coords_on d old w coords) = e_error (write_loop d w 0 [] coords)) by (unfold write_coords_on; rewrite H1, H2; reflexivity).
    rewrite Ee. destruct (loop_result d w coords 0 []) as (A & B & _). cbn [Nat.add app] in A, B. split; [|exact B]. rewrite A. tauto.
  - assert (Ee : e_error (write_coords_on d old w coords) = true).
    { unfold write_coords_on. destruct (mkdirs d); [|reflexivity]. cbn in Hd. rewrite Hd. reflexivity. }
    rewrite Ee. split; [|discriminate]. split; [discriminate|]. intros (H1 & H2 & _). rewrite H1, H2 in Hd. discriminate.
Qed.

(** With an error the file is untouched, or ends where the first failing write did. *)
Theorem C91_error_means_cut : forall d old writer coords,
  let e := write_coords_on d old writer coords in e_error e = true ->
  ((mkdirs d = false \/ create d = false) /\ left_behind e = old) \/
  exists u c v n, coords = u ++ c :: v /\ (forall i, (i < length u)%nat -> broken d i = None) /\ broken d (length u) = Some n /\
    left_behind e = Some (write_coords writer u ++ firstn n (writer c ++ [newline])).
Proof.
  intros d old w coords. cbv zeta. intros H. destruct (mkdirs d && create d)%bool eqn:Hd.
  - right. rewrite (states_last d old w coords Hd). apply andb_prop in Hd. destruct Hd as [H1 H2].
    assert (Ee : e_error (write_coords_on d old w coords) = e_error (write_loop d w 0 [] coords)) by (unfold write_coords_on; rewrite H1, H2; reflexivity).
    rewrite Ee in H. destruct (loop_result d w coords 0 []) as (_ & _ & C). destruct (C H) as (u & c & v & n & A & B & B' & L).
    exists u, c, v, n. auto.
  - left. unfold write_coords_on. destruct (mkdirs d); cbn [negb].
    + cbn in Hd. rewrite Hd. auto.
    + auto.
Qed.

(** The other writer: the same, but a map that cannot be encoded leaves an empty file. *)
Theorem C91_toml : forall d old marshalled,
  let e := write_toml_on d old marshalled in
  (forall s, In s (e_states e) -> s = old \/ s = Some [] \/ exists out p, marshalled = Some out /\ s = Some p /\ starts p out) /\
  (e_error e = false <-> mkdirs d = true /\ create d = true /\ marshalled <> None /\ broken d 0 = None) /\
  (e_error e = false -> exists out, marshalled = Some out /\ left_behind e = Some out).
Proof.
  intros d old ms. cbv zeta. unfold write_toml_on.
  destruct (mkdirs d); cbn [negb e_states e_error].
  2:{ split; [intros s [<- |[]]; auto|]. split; [split; [discriminate|intros (H & _); discriminate]|discriminate]. }
  destruct (create d); cbn [negb e_states e_error].
  2:{ split; [intros s [<- |[]]; auto|]. split; [split; [discriminate|intros (_ & H & _); discriminate]|discriminate]. }
  destruct ms as [out|]; cbn [e_states e_error].
  2:{ split; [intros s [<- |[<- |[]]]; auto|]. split; [split; [discriminate|intros (_ & _ & H & _); congruence]|discriminate]. }
  assert (P : forall n s, In s (old :: passing [] out n) -> s = old \/ s = Some [] \/ exists o p, Some out = Some o /\ s = Some p /\ starts p o).
  { intros n s [<- |H]; [auto|]. apply passing_in in H. destruct H as (m & ->). right. right. exists out, (firstn m out). cbn [app].
    split; [reflexivity|]. split; [reflexivity|]. exists (skipn m out). symmetry. apply firstn_skipn. }
  destruct (broken d 0) as [n|]; cbn [e_states e_error].
  - split; [apply P|]. split; [split; [discriminate|intros (_ & _ & _ & H); discriminate]|discriminate].
  - split; [apply P|]. split; [split; [intros _; repeat split; discriminate|auto]|]. intros _. exists out. split; [reflexivity|].
    unfold left_behind. cbn [e_states]. transitivity (last (passing [] out (length out)) None).
    + destruct (passing [] out (length out)) eqn:E; [discriminate|reflexivity].
    + rewrite passing_last, firstn_all. reflexivity.
Qed.

(** With an error the file is untouched, empty, or ends where the failing write did. *)
Theorem C91_toml_error_means_cut : forall d old marshalled,
  let e := write_toml_on d old marshalled in e_error e = true ->
  ((mkdirs d = false \/ create d = false) /\ left_behind e = old) \/
  (marshalled = None /\ left_behind e = Some []) \/
  exists out n, marshalled = Some out /\ broken d 0 = Some n /\ left_behind e = Some (firstn n out).
Proof.
  intros d old ms. cbv zeta. unfold write_toml_on.
  destruct (mkdirs d); cbn [negb e_error]; [|intros _; left; auto].
  destruct (create d); cbn [negb e_error]; [|intros _; left; auto].
  destruct ms as [out|]; cbn [e_error]; [|intros _; right; left; auto].
  destruct (broken d 0) as [n|]; cbn [e_error]; [|discriminate]. intros _. right. right. exists out, n.
  split; [reflexivity|]. split; [reflexivity|]. unfold left_behind. cbn [e_states].
  transitivity (last (passing [] out n) None).
  - destruct (passing [] out n) eqn:E; [discriminate|reflexivity].
  - rewrite passing_last. reflexivity.
Qed.

(** What one would like more: after an error, or a crash, the old file is still there.  It is not: creating the file
    empties it, and there is no second file. *)
Definition ex_disk : disk := Disk true true (fun k => if Nat.eqb k 1 then Some 4%nat else None).
Definition ex_writer (c : list point) : bytes := str "linestring" ++ map (fun _ => "."%char) c.
Theorem C91_old_file_lost_refuted : exists d writer coords old,
  e_error (write_coords_on d (Some old) writer coords) = true /\
  left_behind (write_coords_on d (Some old) writer coords) <> Some old /\
  left_behind (write_coords_on d (Some old) writer coords) <> Some (write_coords writer coords) /\
  e_error (write_toml_on d (Some old) None) = true /\ left_behind (write_toml_on d (Some old) None) = Some [].
Proof.
  exists ex_disk, ex_writer, [[P2 0 0; P2 1 1]; [P2 2 2; P2 3 3]], (str "old").
  split; [reflexivity|]. split; [vm_compute; discriminate|]. split; [vm_compute; discriminate|]. split; reflexivity.
Qed.

(** Two lines; the disk is full after four bytes of the second one. *)
Definition ex_wkt : wktlib := WktLib (fun _ => wkt_linestring)
  (fun t => if Nat.eqb (length t) 11 then Ok [[P2 0 0]] else Ok [[P2 2 2; P2 3 3]]) (fun _ => Ok (GPoint (P2 0 0))).
Example C91_case :
  let coords := [[P2 0 0]; [P2 2 2; P2 3 3]] in
  wkt_ok ex_wkt ex_writer coords /\
  e_error (write_coords_on ex_disk None ex_writer coords) = true /\
  left_behind (write_coords_on ex_disk None ex_writer coords) = Some (str "linestring." ++ [newline] ++ str "line") /\
  read_wkt_input ex_wkt (Some (str "linestring." ++ [newline] ++ str "line")) = Ok ([[P2 0 0]], EOF) /\
  e_error (write_coords_on (Disk true true (fun _ => None)) None ex_writer coords) = false.
Proof.
  cbv zeta. split; [|vm_compute; repeat split].
  intros c t Hc Ht.
  assert (Et : t = trim (ex_writer c)) by (symmetry; exact (trimmed_unique _ _ Ht)). subst t.
  destruct Hc as [<- |[<- |[]]]; (split; [vm_compute; intuition discriminate|split; [|split; reflexivity]]);
    intros Hb; vm_compute in Hb; inversion Hb as [|? ? H _]; destruct H as [H|H]; vm_compute in H; try discriminate H; intuition discriminate.
Qed.

Print Assumptions C91_crash_leaves_a_beginning.
Print Assumptions C91_every_beginning_occurs.
Print Assumptions C91_crash_reads_back.
Print Assumptions C91_no_error_means_complete.
Print Assumptions C91_error_means_cut.
Print Assumptions C91_toml.
Print Assumptions C91_toml_error_means_cut.
Print Assumptions C91_old_file_lost_refuted.
