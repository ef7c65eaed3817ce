(** Claim C93: what the program does to the files, and a crash at any time. *)
From Coq Require Import Ascii String.
From Verif Require Import M_Base M_Float M_Rng M_Geom M_Offset M_Relate M_ConstDP M_Text M_IO M_Files M_Program Spec Spec_Text Spec_IO P_Base P_Text P_IO P_Run
  Toy Properties_Core Properties_ConstDP Properties_IO Properties_Files Properties_Run.
Open Scope Z_scope.

(** ** Vocabulary *)

(** The file systems agree. *)
Definition same_files (fs fs' : files) : Prop := forall p, fs p = fs' p.
(** They agree on all paths but one. *)
Definition same_but (path : bytes) (fs fs' : files) : Prop := forall p, p <> path -> fs' p = fs p.
(** The end of an execution. *)
Definition final (j : journal) (fs : files) : Prop := exists l, j_states j = l ++ [fs].

(** The program reads the file: the configuration given by -f, or the input or the constraints named in the configuration. *)
Definition reads_file (decode : bytes -> option config) (fs : files) (b f p : bytes) : Prop :=
  (f <> dash /\ p = f) \/
  exists text c, config_text fs b f = Ok text /\ decode text = Some c /\ (trimmed (g_input c) p \/ trimmed (g_constraints c) p).

(** ** Proofs *)

Lemma with_same fs path : same_files (with_file fs path (fs path)) fs.
Proof. intros p. unfold with_file. destruct (bytes_eqb p path) eqn:E; [|reflexivity]. apply bytes_eqb_spec in E. subst. reflexivity. Qed.
Lemma with_but fs path c : same_but path fs (with_file fs path c).
Proof. intros p Hp. unfold with_file. destruct (bytes_eqb p path) eqn:E; [|reflexivity]. apply bytes_eqb_spec in E. congruence. Qed.
Lemma with_at fs path c : with_file fs path c path = c.
Proof. unfold with_file. assert (bytes_eqb path path = true) as -> by (apply bytes_eqb_spec; reflexivity). reflexivity. Qed.

Lemma save_states d old text s : In s (e_states (save_text d old text)) -> s = old \/ exists k, s = Some (firstn k text).
Proof.
  unfold save_text. destruct (create d); cbn [negb e_states]; [|intros [<- |[]]; auto].
  assert (K : forall n, In s (old :: passing [] text n) -> s = old \/ exists k, s = Some (firstn k text)).
  { intros n [<- |H]; [auto|]. right. apply passing_in in H. destruct H as (k & ->). exists k. reflexivity. }
  destruct (broken d 0); cbn [e_states]; apply K.
Qed.
Lemma save_last d old text : exists l s, e_states (save_text d old text) = l ++ [s] /\
  (e_error (save_text d old text) = false -> s = Some text) /\
  (create d = true -> broken d 0 = None -> e_error (save_text d old text) = false).
Proof.
  unfold save_text. destruct (create d); cbn [negb e_states e_error].
  - destruct (broken d 0) as [n|]; cbn [e_states e_error].
    + unfold passing. rewrite seq_S, map_app. cbn [map Nat.add]. eexists (old :: _), _. split; [reflexivity|]. split; discriminate.
    + unfold passing. rewrite seq_S, map_app. cbn [map Nat.add app]. eexists (old :: _), _. split; [reflexivity|]. split; [|auto].
      intros _. rewrite firstn_all. reflexivity.
  - exists [], old. split; [reflexivity|]. split; discriminate.
Qed.

(** The program looks at nothing but the files it reads. *)
Lemma config_same fs fs' b f : (f <> dash -> fs' f = fs f) -> config_text fs' b f = config_text fs b f.
Proof.
  intros H. unfold config_text. destruct (_ && _); [reflexivity|]. destruct (_ && _); [reflexivity|].
  destruct (bytes_eqb f dash) eqn:E; cbn [negb]; [reflexivity|]. apply bytes_eqb_false in E. rewrite (H E). reflexivity.
Qed.
Lemma program_same {P} (lib : jsonlib P) decode fs fs' S dp sed b f :
  (forall p, reads_file decode fs b f p -> fs' p = fs p) ->
  program lib decode fs' S dp sed b f = program lib decode fs S dp sed b f.
Proof.
  intros H. unfold program. rewrite (config_same fs fs' b f) by (intros Hf; apply H; left; auto).
  destruct (config_text fs b f) as [text| |] eqn:Et; cbn [bind]; try reflexivity.
  destruct (decode text) as [c|] eqn:Ec; cbn [check bind]; [|reflexivity].
  rewrite !(H (trim (g_input c))), !(H (trim (g_constraints c))); [reflexivity| |];
    right; exists text, c; (split; [exact Et|]); (split; [exact Ec|]); [right|left]; apply trim_spec.
Qed.

(** ** C93 *)

(** At any time of an execution: no file but the output file has changed, and that only once everything is read and simplified;
    it is then as before or holds a beginning of the text to be written. *)
Theorem C93_only_the_output_changes : forall {P} (lib : jsonlib P) decode write d fs S dp sed b f fs',
  In fs' (j_states (program_on lib decode write d fs S dp sed b f)) ->
  same_files fs' fs \/
  exists path outs, program lib decode fs S dp sed b f = Ok (path, outs) /\ same_but path fs fs' /\
    exists p, fs' path = Some p /\ starts p (output_text write outs).
Proof.
  intros P lib decode write d fs S dp sed b f fs' H. unfold program_on in H.
  destruct (program lib decode fs S dp sed b f) as [[path outs]| |] eqn:E; cbn [j_states] in H;
    try (destruct H as [<- |[]]; left; intros p; reflexivity).
  destruct H as [<- |H]; [left; intros p; reflexivity|]. apply in_map_iff in H. destruct H as (s & <- & Hs).
  apply save_states in Hs. destruct Hs as [-> |(k & ->)]; [left; apply with_same|].
  right. exists path, outs. split; [reflexivity|]. split; [apply with_but|]. exists (firstn k (output_text write outs)).
  split; [apply with_at|]. exists (skipn k (output_text write outs)). rewrite firstn_skipn. reflexivity.
Qed.

(** The program ends with success exactly if it could do everything, and then the output file holds the whole text computed from the
    files as they were when it started (also when the output file is the input file); if it stops before it writes, all is as before. *)
Theorem C93_success : forall {P} (lib : jsonlib P) decode write d fs S dp sed b f,
  let j := program_on lib decode write d fs S dp sed b f in
  (j_success j = true <-> create d = true /\ broken d 0 = None /\ exists r, program lib decode fs S dp sed b f = Ok r) /\
  (forall path outs, program lib decode fs S dp sed b f = Ok (path, outs) -> j_success j = true ->
     exists fs', final j fs' /\ same_but path fs fs' /\ fs' path = Some (output_text write outs)) /\
  ((forall r, program lib decode fs S dp sed b f <> Ok r) -> j_states j = [fs]).
Proof.
  intros P lib decode write d fs S dp sed b f. unfold program_on.
  destruct (program lib decode fs S dp sed b f) as [[path outs]| |] eqn:E; cbv zeta; cbn [j_states j_success].
  - split; [|split].
    + unfold save_text. destruct (create d); cbn [negb e_error].
      * destruct (broken d 0); cbn [e_error negb]; split; try discriminate; try (intros (_ & K & _); discriminate); eauto.
      * split; [discriminate|intros (K & _); discriminate].
    + intros path' outs' E'. injection E' as <- <-. intros Hs. apply negb_true_iff in Hs.
      destruct (save_last d (fs path) (output_text write outs)) as (l & s & El & Hl & _). rewrite (Hl Hs) in El.
      exists (with_file fs path (Some (output_text write outs))). split; [|split; [apply with_but|apply with_at]].
      exists (fs :: map (with_file fs path) l). cbn [j_states]. rewrite El, map_app. reflexivity.
    + intros K. exfalso. exact (K _ eq_refl).
  - split; [split; [discriminate|intros (_ & _ & r & K); discriminate]|]. split; [discriminate|reflexivity].
  - split; [split; [discriminate|intros (_ & _ & r & K); discriminate]|]. split; [discriminate|reflexivity].
Qed.

(** After a crash, or a failed write, at any time: if the output file is none of the files read, starting the program again does what it
    would have done the first time. *)
Theorem C93_run_again_after_a_crash : forall {P} (lib : jsonlib P) decode write d d' fs S dp sed b f path outs fs',
  program lib decode fs S dp sed b f = Ok (path, outs) -> ~ reads_file decode fs b f path ->
  In fs' (j_states (program_on lib decode write d fs S dp sed b f)) ->
  create d' = true -> broken d' 0 = None ->
  let again := program_on lib decode write d' fs' S dp sed b f in
  j_success again = true /\ exists fs'', final again fs'' /\ same_but path fs fs'' /\ fs'' path = Some (output_text write outs).
Proof.
  intros P lib decode write d d' fs S dp sed b f path outs fs' E Hr Hin Hc Hb again.
  assert (Hbut : same_but path fs fs').
  { destruct (C93_only_the_output_changes lib decode write d fs S dp sed b f fs' Hin) as [K|(path' & outs' & E' & K & _)].
    - intros p _. apply K.
    - rewrite E in E'. injection E' as <- <-. exact K. }
  assert (E2 : program lib decode fs' S dp sed b f = Ok (path, outs)).
  { rewrite (program_same lib decode fs fs'); [exact E|]. intros p Hp. apply Hbut. intros ->. exact (Hr Hp). }
  destruct (C93_success lib decode write d' fs' S dp sed b f) as (A & B & _). fold again in A, B.
  assert (Hs : j_success again = true) by (apply A; eauto). split; [exact Hs|].
  destruct (B path outs E2 Hs) as (fs'' & F & K & T). exists fs''. split; [exact F|]. split; [|exact T].
  intros p Hp. rewrite (K p Hp). apply Hbut, Hp.
Qed.

(** A crash while the output is written, seen by who reads the file afterwards: some of the features, whole and in order, and then
    nothing or the non-blank beginning of one more.  (A feature is written on one line without white space around it.) *)
Definition one_line (t : bytes) : Prop := ~ In newline t /\ ~ blank t /\ trimmed t t.

Lemma cut_unlines ls : forall p, ls <> [] -> starts p (unlines ls) ->
  exists k q l, (k < length ls)%nat /\ nth_error ls k = Some l /\ starts q l /\ p = unlines (firstn k ls ++ [q]).
Proof.
  induction ls as [|l ls IH]; intros p Hne (r & Hr); [contradiction|]. clear Hne.
  assert (Short : forall a b, l = a ++ b -> p = a ->
    exists k q l0, (k < length (l :: ls))%nat /\ nth_error (l :: ls) k = Some l0 /\ starts q l0 /\ p = unlines (firstn k (l :: ls) ++ [q])).
  { intros a b E ->. exists 0%nat, a, l. split; [cbn; lia|]. split; [reflexivity|]. split; [exists b; exact E|reflexivity]. }
  destruct ls as [|l' ls'].
  - cbn [unlines] in Hr. exact (Short p r Hr eq_refl).
  - cbn [unlines] in Hr. fold (unlines (l' :: ls')) in Hr.
    assert (C : (exists b, l = p ++ b) \/ exists p', p = l ++ newline :: p' /\ unlines (l' :: ls') = p' ++ r).
    { clear - Hr. revert p Hr. induction l as [|c l IHl]; intros p Hr; destruct p as [|d p].
      - left. exists []. reflexivity.
      - cbn [app] in Hr. injection Hr as <- Hr. right. exists p. split; [reflexivity|exact Hr].
      - left. exists (c :: l). reflexivity.
      - cbn [app] in Hr. injection Hr as <- Hr. destruct (IHl p Hr) as [(b & ->)|(p' & -> & E)].
        + left. exists b. reflexivity.
        + right. exists p'. split; [reflexivity|exact E]. }
    destruct C as [(b & E)|(p' & -> & E)]; [exact (Short p b E eq_refl)|].
    destruct (IH p' ltac:(discriminate) (ex_intro _ r E)) as (k & q & l0 & A & B & C & ->).
    exists (S k), q, l0. split; [cbn [length] in *; lia|]. split; [exact B|]. split; [exact C|].
    cbn [firstn app]. destruct (firstn k (l' :: ls') ++ [q]) as [|x y] eqn:Ex; [destruct (firstn k (l' :: ls')); discriminate|]. reflexivity.
Qed.

Lemma whole_kept a : Forall one_line a -> forall ls ts, lines_kept ls ts -> lines_kept (a ++ ls) (a ++ ts).
Proof.
  induction 1 as [|l a (_ & B & C) F IH]; intros ls ts H; [exact H|]. cbn [app]. apply LK_keep; [exact B|exact C|]. apply IH, H.
Qed.

Theorem C93_torn_output : forall {P} (lib : jsonlib P) decode write d fs S dp sed b f path outs fs' p,
  program lib decode fs S dp sed b f = Ok (path, outs) -> Forall (fun t => one_line (write t)) outs ->
  In fs' (j_states (program_on lib decode write d fs S dp sed b f)) -> fs' path = Some p -> fs path <> Some p ->
  exists k, (k <= length outs)%nat /\
    (read_json_tokens p = map write (firstn k outs) \/
     exists o q rest t, nth_error outs k = Some o /\ write o = q ++ rest /\ rest <> [] /\ trimmed q t /\ t <> [] /\
       read_json_tokens p = map write (firstn k outs) ++ [t]).
Proof.
  intros P lib decode write d fs S dp sed b f path outs fs' p E Hw Hin Hp Hne.
  destruct (C93_only_the_output_changes lib decode write d fs S dp sed b f fs' Hin) as [K|(path' & outs' & E' & _ & p' & Hp' & Hs)].
  { exfalso. apply Hne. rewrite <- (K path). exact Hp. }
  rewrite E in E'. injection E' as <- <-. rewrite Hp in Hp'. injection Hp' as <-.
  destruct outs as [|o0 outs0] eqn:Eo.
  { exists 0%nat. split; [lia|]. left. destruct Hs as (r & Hr). cbn in Hr. symmetry in Hr. apply app_eq_nil in Hr. destruct Hr as [-> _]. reflexivity. }
  rewrite <- Eo in *. assert (Hn : map write outs <> []) by (rewrite Eo; discriminate). clear Eo o0 outs0.
  unfold output_text in Hs. rewrite join_unlines in Hs.
  destruct (cut_unlines _ p Hn Hs) as (k & q & l & Hk & Hl & (rest & Hq) & ->). rewrite map_length in Hk.
  rewrite nth_error_map in Hl. destruct (nth_error outs k) as [o|] eqn:Ek; [|discriminate]. cbn in Hl. injection Hl as <-.
  assert (Hwo : one_line (write o)) by (rewrite Forall_forall in Hw; apply Hw; eapply nth_error_In; exact Ek).
  assert (Hws : Forall one_line (map write outs)) by (rewrite Forall_map; exact Hw).
  assert (Hfk : Forall one_line (firstn k (map write outs))).
  { rewrite <- (firstn_skipn k (map write outs)) in Hws. apply Forall_app in Hws. tauto. }
  assert (Hnl : Forall (fun x => ~ In newline x) (firstn k (map write outs) ++ [q])).
  { apply Forall_app. split; [eapply Forall_impl; [|exact Hfk]; intros x Hx; apply Hx|].
    constructor; [|constructor]. intros K. destruct Hwo as (Q & _). apply Q. rewrite Hq. apply in_or_app. left; exact K. }
  assert (Cases : blank q \/ ~ blank q).
  { unfold blank. destruct (trim q) as [|c t] eqn:Et; [left; apply trim_nil; exact Et|].
    right. intros K. apply trim_blank in K. congruence. }
  destruct Cases as [Hb|Hb].
  - exists k. split; [lia|]. left. rewrite <- firstn_map, (tokens_of _ (firstn k (map write outs) ++ [])); [apply app_nil_r|exact Hnl|].
    apply whole_kept; [exact Hfk|]. apply LK_blank; [exact Hb|constructor].
  - destruct rest as [|c rest].
    + rewrite app_nil_r in Hq. subst q. exists (Datatypes.S k). split; [lia|]. left.
      assert (Hm : firstn (Datatypes.S k) (map write outs) = firstn k (map write outs) ++ [write o]).
      { clear - Ek. revert k Ek. induction outs as [|x l IH]; intros k Ek; [destruct k; discriminate|]. destruct k as [|k].
        - injection Ek as ->. reflexivity.
        - cbn [map firstn app]. f_equal. exact (IH k Ek). }
      rewrite <- firstn_map, Hm. apply tokens_of; [exact Hnl|]. apply whole_kept; [exact Hfk|]. apply LK_keep; [exact Hb|apply Hwo|constructor].
    + exists k. split; [lia|]. right. exists o, q, (c :: rest), (trim q). split; [exact Ek|]. split; [exact Hq|]. split; [discriminate|].
      split; [apply trim_spec|]. split; [intros K; apply Hb, trim_nil, K|].
      rewrite <- firstn_map. apply tokens_of; [exact Hnl|]. apply whole_kept; [exact Hfk|]. apply LK_keep; [exact Hb|apply trim_spec|constructor].
Qed.

(** If no proper beginning of a feature is a JSON document, the torn file is read as the features before the tear, or refused:
    never as anything else. *)
Theorem C93_torn_output_as_input : forall {P} (lib : jsonlib P) decode write d fs S dp sed b f path outs fs' p,
  program lib decode fs S dp sed b f = Ok (path, outs) -> Forall (fun t => one_line (write t)) outs ->
  (forall o q rest t, In o outs -> write o = q ++ rest -> rest <> [] -> trimmed q t -> jl_type lib t = None) ->
  In fs' (j_states (program_on lib decode write d fs S dp sed b f)) -> fs' path = Some p -> fs path <> Some p ->
  (exists k, (k <= length outs)%nat /\ parse_input lib (read_json_tokens p) = parse_input lib (map write (firstn k outs))) \/
  (forall plns, parse_input lib (read_json_tokens p) <> Ok plns).
Proof.
  intros P lib decode write d fs S dp sed b f path outs fs' p E Hw Hj Hin Hp Hne.
  destruct (C93_torn_output lib decode write d fs S dp sed b f path outs fs' p E Hw Hin Hp Hne)
    as (k & Hk & [-> |(o & q & rest & t & Ho & Eq & Hr & Ht & _ & ->)]); [left; exists k; auto|].
  right. pose proof (Hj o q rest t (nth_error_In _ _ Ho) Eq Hr Ht) as Hnone.
  unfold parse_input. generalize 0 as i. generalize (map write (firstn k outs)) as l.
  induction l as [|x l IH]; intros i plns K; cbn [app parse_from] in K.
  - unfold features_of in K. rewrite Hnone in K. discriminate.
  - destruct (features_of lib x) as [fts| |]; cbn [bind] in K; try discriminate.
    destruct (mapM (create_polylines lib i) fts); cbn [bind] in K; try discriminate.
    destruct (parse_from lib (i + 1) (l ++ [t])) as [r| |] eqn:Er; cbn [bind] in K; try discriminate. exact (IH _ _ Er).
Qed.

(** ** Cases *)

Definition ex_write (t : @ofeature bool) : bytes := str "l".
Definition good_disk : disk := Disk true true (fun _ => None).
(** The files of C53: one is written, and there are states in between. *)
Example C93_case :
  program ex_lib (fun _ => Some ex_config) ex_files ex_setup toy_score toy_score (str "-") (str "cfg") =
    Ok (str "out", [OFeat false (OLine (map flat (pick origin zig [0; 4])))]) /\
  ~ reads_file (fun _ => Some ex_config) ex_files (str "-") (str "cfg") (str "out") /\
  let j := program_on ex_lib (fun _ => Some ex_config) ex_write good_disk ex_files ex_setup toy_score toy_score (str "-") (str "cfg") in
  j_success j = true /\ map (fun fs => fs (str "out")) (j_states j) = [None; None; Some []; Some (str "l")].
Proof.
  split; [vm_compute; reflexivity|]. split.
  - intros [[_ K]|(text & c & _ & Ec & K)]; [discriminate|]. injection Ec as <-.
    assert (T : forall s p, trimmed s p -> p = trim s) by (intros s p H; symmetry; apply trimmed_unique; exact H).
    destruct K as [K|K]; apply T in K; vm_compute in K; discriminate.
  - vm_compute. split; reflexivity.
Qed.

(** Written as three characters, of which no proper beginning is a document, the feature can be torn in two ways. *)
Definition ex_write3 (t : @ofeature bool) : bytes := str "{l}".
Example C93_torn_case :
  let o := OFeat false (OLine (map flat (pick origin zig [0; 4]))) in
  let j := program_on ex_lib (fun _ => Some ex_config) ex_write3 good_disk ex_files ex_setup toy_score toy_score (str "-") (str "cfg") in
  program ex_lib (fun _ => Some ex_config) ex_files ex_setup toy_score toy_score (str "-") (str "cfg") = Ok (str "out", [o]) /\
  Forall (fun t => one_line (ex_write3 t)) [o] /\
  (forall o' q rest t, In o' [o] -> ex_write3 o' = q ++ rest -> rest <> [] -> trimmed q t -> jl_type ex_lib t = None) /\
  (exists fs', In fs' (j_states j) /\ fs' (str "out") = Some (str "{l") /\ ex_files (str "out") <> Some (str "{l") /\
     read_json_tokens (str "{l") = [str "{l"]).
Proof.
  cbv zeta. split; [vm_compute; reflexivity|]. split; [|split].
  - constructor; [|constructor]. split; [|split].
    + vm_compute. intros [K|[K|[K|[]]]]; discriminate.
    + intros K. apply trim_blank in K. vm_compute in K. discriminate.
    + change (trimmed (str "{l}") (trim (str "{l}"))). apply trim_spec.
  - intros o' q rest t _ E Hr Ht. apply trimmed_unique in Ht. subst t. cbn in E.
    destruct q as [|c q]; [vm_compute; reflexivity|]. injection E as <- E.
    destruct q as [|c q]; [vm_compute; reflexivity|]. injection E as <- E.
    destruct q as [|c q]; [vm_compute; reflexivity|]. injection E as <- E.
    destruct q; [|discriminate]. cbn in E. congruence.
  - exists (with_file ex_files (str "out") (Some (str "{l"))). split; [|repeat split; vm_compute; try reflexivity; discriminate].
    unfold program_on.
    assert (E : program ex_lib (fun _ => Some ex_config) ex_files ex_setup toy_score toy_score (str "-") (str "cfg") =
      Ok (str "out", [OFeat false (OLine (map flat (pick origin zig [0; 4])))])) by (vm_compute; reflexivity).
    rewrite E. cbn [j_states]. right. apply in_map. vm_compute. tauto.
Qed.

(** If the output file is the input file, a crash can lose the input: started again, the program writes an empty file. *)
Definition in_place : config :=
  Config (str "in") (str "in") (str "") (str "DP") (f_of_Z 10) (f_of_Z 1) fzero false true false true true true true.
Theorem C93_in_place_refuted :
  exists fs', In fs' (j_states (program_on ex_lib (fun _ => Some in_place) ex_write good_disk ex_files ex_setup toy_score toy_score (str "-") (str "cfg"))) /\
    fs' (str "in") = Some [] /\
    (exists t, program ex_lib (fun _ => Some in_place) ex_files ex_setup toy_score toy_score (str "-") (str "cfg") = Ok (str "in", [t])) /\
    program ex_lib (fun _ => Some in_place) fs' ex_setup toy_score toy_score (str "-") (str "cfg") = Ok (str "in", []).
Proof.
  exists (with_file ex_files (str "in") (Some [])). split; [|split; [reflexivity|split]].
  - unfold program_on. assert (E : program ex_lib (fun _ => Some in_place) ex_files ex_setup toy_score toy_score (str "-") (str "cfg") =
      Ok (str "in", [OFeat false (OLine (map flat (pick origin zig [0; 4])))])) by (vm_compute; reflexivity).
    rewrite E. cbn [j_states]. right. apply in_map. vm_compute. right. left. reflexivity.
  - eexists. vm_compute. reflexivity.
  - vm_compute. reflexivity.
Qed.

Print Assumptions C93_only_the_output_changes.
Print Assumptions C93_success.
Print Assumptions C93_run_again_after_a_crash.
Print Assumptions C93_torn_output.
Print Assumptions C93_torn_output_as_input.
Print Assumptions C93_in_place_refuted.
