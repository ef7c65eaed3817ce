(** Proofs about the text handling. *)
From Coq Require Import Ascii String.
From Verif Require Import M_Base M_Text Spec_Text.
Open Scope Z_scope.

(** ** Decimal numerals *)

Lemma code_digit d : 0 <= d < 10 -> code (digit d) = 48 + d.
Proof.
  intros H. unfold code, digit.
  rewrite N_ascii_embedding by lia. lia.
Qed.

Lemma is_digit_digit d : 0 <= d < 10 -> is_digit (digit d) = true.
Proof. intros H. unfold is_digit. rewrite code_digit by lia. lia. Qed.

Definition dstep (v : Z) (c : ascii) : Z := 10 * v + (code c - 48).

Lemma digits_value fuel : forall n acc, 0 <= n < 10 ^ Z.of_nat fuel ->
  fold_left dstep (digits fuel n acc) 0 = fold_left dstep acc n.
Proof.
  induction fuel as [|f IH]; intros n acc H.
  - change (10 ^ Z.of_nat 0) with 1 in H. assert (n = 0) by lia. subst. reflexivity.
  - cbn [digits]. destruct (n <? 10) eqn:E.
    + cbn [fold_left]. f_equal. unfold dstep. rewrite code_digit by lia. lia.
    + rewrite IH.
      * cbn [fold_left]. f_equal. unfold dstep.
        assert (Hm := Z.mod_pos_bound n 10 ltac:(lia)).
        rewrite code_digit by lia. pose proof (Z.div_mod n 10 ltac:(lia)). lia.
      * split; [apply Z.div_pos; lia|].
        apply Z.div_lt_upper_bound; [lia|].
        rewrite Nat2Z.inj_succ, Z.pow_succ_r in H by lia. lia.
Qed.

Lemma digits_digit fuel : forall n acc, 0 <= n -> forallb is_digit acc = true ->
  forallb is_digit (digits fuel n acc) = true.
Proof.
  induction fuel as [|f IH]; intros n acc H Ha; [exact Ha|].
  cbn [digits]. destruct (n <? 10) eqn:E.
  - cbn [forallb]. rewrite is_digit_digit by lia. exact Ha.
  - apply IH; [apply Z.div_pos; lia|]. cbn [forallb].
    assert (Hm := Z.mod_pos_bound n 10 ltac:(lia)).
    rewrite is_digit_digit by lia. exact Ha.
Qed.

Lemma digits_cons fuel : forall n acc, digits (S fuel) n acc <> [].
Proof.
  induction fuel as [|f IH]; intros n acc; cbn [digits].
  - destruct (n <? 10); discriminate.
  - destruct (n <? 10); [discriminate|]. exact (IH _ _).
Qed.

Lemma fuel_enough n : 0 <= n -> n < 10 ^ Z.of_nat (S (Z.to_nat (Z.log2 n))).
Proof.
  intros H. pose proof (Z.log2_nonneg n).
  rewrite Nat2Z.inj_succ, Z2Nat.id by lia.
  destruct (Z.eq_dec n 0) as [-> | Hn]; [reflexivity|].
  destruct (Z.log2_spec n ltac:(lia)) as [_ Hu].
  eapply Z.lt_le_trans; [exact Hu|]. apply Z.pow_le_mono_l. lia.
Qed.

Lemma fmt_value n : 0 <= n -> fold_left dstep (fmt_int n) 0 = n.
Proof.
  intros H. unfold fmt_int. rewrite digits_value; [reflexivity|].
  split; [lia|]. apply fuel_enough; lia.
Qed.
Lemma fmt_digits n : 0 <= n -> forallb is_digit (fmt_int n) = true.
Proof. intros H. apply digits_digit; [lia|reflexivity]. Qed.
Lemma fmt_cons n : fmt_int n <> [].
Proof. apply digits_cons. Qed.

Lemma atoi_fmt n : 0 <= n <= max_int -> atoi (fmt_int n) = n.
Proof.
  intros H. unfold atoi. change (fun v c => 10 * v + (code c - 48)) with dstep.
  rewrite fmt_value by lia. destruct (Z.leb_spec n max_int); lia.
Qed.

Lemma runs_app ds : forall run r, forallb is_digit ds = true ->
  digit_runs run (ds ++ r) = digit_runs (rev ds ++ run) r.
Proof.
  induction ds as [|d ds IH]; intros run r H; [reflexivity|].
  cbn [forallb] in H. apply andb_true_iff in H as [Hd H].
  cbn [app digit_runs]. rewrite Hd, IH by exact H. cbn [rev]. rewrite <- app_assoc. reflexivity.
Qed.

Lemma flush_rev ds : ds <> [] -> flush (rev ds) = [ds].
Proof.
  intros H. unfold flush. destruct (rev ds) eqn:E.
  - apply (f_equal (@rev _)) in E. rewrite rev_involutive in E. contradiction.
  - rewrite <- E, rev_involutive. reflexivity.
Qed.

Lemma runs_id i p : 0 <= i -> 0 <= p ->
  digit_runs [] (compose_id i p) = [fmt_int i; fmt_int p].
Proof.
  intros Hi Hp. unfold compose_id.
  change (digit_runs [] (str "idx:" ++ fmt_int i ++ str "-pos:" ++ fmt_int p))
    with (digit_runs [] (fmt_int i ++ str "-pos:" ++ fmt_int p)).
  rewrite runs_app by (apply fmt_digits; lia).
  rewrite app_nil_r.
  change (digit_runs (rev (fmt_int i)) (str "-pos:" ++ fmt_int p))
    with (flush (rev (fmt_int i)) ++ digit_runs [] (fmt_int p)).
  rewrite flush_rev by apply fmt_cons. cbn [app]. f_equal.
  rewrite <- (app_nil_r (fmt_int p)) at 1.
  rewrite runs_app by (apply fmt_digits; lia). rewrite app_nil_r. cbn [digit_runs].
  apply flush_rev, fmt_cons.
Qed.

Lemma index_pos_id i p : 0 <= i <= max_int -> 0 <= p <= max_int ->
  index_pos (compose_id i p) = Ok (i, p).
Proof.
  intros Hi Hp. unfold index_pos. rewrite runs_id by lia.
  rewrite !atoi_fmt by lia. reflexivity.
Qed.

(** ** Trimming *)

Lemma code_inj_N c n : code c = Z.of_N n <-> N_of_ascii c = n.
Proof. unfold code. split; [apply N2Z.inj|congruence]. Qed.

Lemma is_space_spec c : is_space c = true <-> space c.
Proof.
  unfold is_space, space, code. cbn [In].
  set (n := N_of_ascii c). lia.
Qed.
Lemma is_space_false c : is_space c = false <-> ~ space c.
Proof. rewrite <- is_space_spec. destruct (is_space c); split; congruence. Qed.

Lemma trim_left_spec s : exists a, s = a ++ trim_left s /\ Forall space a /\
  (forall c r, trim_left s = c :: r -> ~ space c).
Proof.
  induction s as [|c s (a & E & Ha & Hh)].
  - exists []. cbn. repeat split; auto. intros; discriminate.
  - cbn [trim_left]. destruct (is_space c) eqn:Ec.
    + exists (c :: a). split; [cbn; f_equal; exact E|]. split; [|exact Hh].
      constructor; [apply is_space_spec; exact Ec|exact Ha].
    + exists []. repeat split; auto. intros c' r K. injection K as <- <-.
      apply is_space_false; exact Ec.
Qed.

Lemma trim_spec s : trimmed s (trim s).
Proof.
  unfold trim. destruct (trim_left_spec s) as (a & E & Ha & Hh).
  destruct (trim_left_spec (rev (trim_left s))) as (b & E2 & Hb & Ht).
  set (m := trim_left s) in *. set (t := trim_left (rev m)) in *.
  assert (Em : m = rev t ++ rev b).
  { rewrite <- rev_app_distr, <- E2, rev_involutive. reflexivity. }
  exists a, (rev b). repeat split.
  - rewrite E at 1. f_equal. exact Em.
  - exact Ha.
  - apply Forall_rev. exact Hb.
  - intros c r K. apply (Hh c (r ++ rev b)). rewrite Em, K. reflexivity.
  - intros c r K. apply (Ht c (rev r)).
    apply (f_equal (@rev _)) in K. rewrite rev_involutive, rev_app_distr in K. exact K.
Qed.

Lemma trim_left_space a s : Forall space a -> trim_left (a ++ s) = trim_left s.
Proof.
  induction 1 as [|c a Hc Ha IH]; [reflexivity|].
  cbn [app trim_left]. apply is_space_spec in Hc. rewrite Hc. exact IH.
Qed.
Lemma trim_left_keep t : (forall c r, t = c :: r -> ~ space c) -> trim_left t = t.
Proof.
  destruct t as [|c t]; intros H; [reflexivity|]. cbn [trim_left].
  destruct (is_space c) eqn:E; [|reflexivity]. apply is_space_spec in E.
  destruct (H c t eq_refl E).
Qed.
Lemma trim_left_blank a : Forall space a -> trim_left a = [].
Proof. intros H. rewrite <- (app_nil_r a), trim_left_space by exact H. reflexivity. Qed.

Lemma trimmed_unique s t : trimmed s t -> trim s = t.
Proof.
  intros (a & b & -> & Ha & Hb & Hh & Ht). unfold trim.
  rewrite trim_left_space by exact Ha.
  destruct t as [|c t].
  - cbn [app]. rewrite (trim_left_blank b) by exact Hb. reflexivity.
  - cbn [app]. rewrite (trim_left_keep (c :: t ++ b)).
    2: { intros c' r K. injection K as <- <-. apply (Hh c t). reflexivity. }
    change (c :: t ++ b) with ((c :: t) ++ b).
    rewrite rev_app_distr, trim_left_space by (apply Forall_rev; exact Hb).
    rewrite trim_left_keep; [apply rev_involutive|].
    intros c' r K. apply (Ht c' (rev r)).
    apply (f_equal (@rev _)) in K. rewrite rev_involutive in K. exact K.
Qed.

Lemma trim_blank l : blank l -> trim l = [].
Proof.
  intros H. unfold trim. rewrite (trim_left_blank l) by exact H. reflexivity.
Qed.
Lemma trim_nil l : trim l = [] -> blank l.
Proof.
  intros H. destruct (trim_spec l) as (a & b & E & Ha & Hb & _). rewrite H in E. cbn in E.
  rewrite E. apply Forall_app. auto.
Qed.

Lemma trim_cons c s : space c -> trim (c :: s) = trim s.
Proof. intros H. unfold trim. cbn [trim_left]. apply is_space_spec in H. rewrite H. reflexivity. Qed.
Lemma trim_snoc c s : space c -> trim (s ++ [c]) = trim s.
Proof.
  intros H. apply trimmed_unique.
  destruct (trim_spec s) as (a & b & E & Ha & Hb & Hh & Ht).
  exists a, (b ++ [c]). repeat split; auto.
  - rewrite E at 1. rewrite <- !app_assoc. reflexivity.
  - apply Forall_app. auto.
Qed.

(** ** Lines *)

Lemma newline_nl : newline = nl. Proof. reflexivity. Qed.
Lemma space_nl : space nl. Proof. unfold space. cbn. auto. Qed.

Lemma split_lines_cons s : exists l ls, split_lines s = l :: ls.
Proof.
  destruct s as [|c s]; cbn [split_lines]; [eauto|].
  destruct (Ascii.eqb c nl); [eauto|]. destruct (split_lines s); eauto.
Qed.

Definition keep (ls : list bytes) : list bytes := filter nonempty (map trim ls).

Lemma keep_lead c s : space c -> keep (split_lines (c :: s)) = keep (split_lines s).
Proof.
  intros H. cbn [split_lines]. destruct (Ascii.eqb c nl) eqn:E; [reflexivity|].
  destruct (split_lines_cons s) as (l & ls & ->).
  unfold keep. cbn [map]. rewrite trim_cons by exact H. reflexivity.
Qed.

Lemma split_app_nl s : split_lines (s ++ [nl]) = split_lines s ++ [[]].
Proof.
  induction s as [|c s IH]; [reflexivity|].
  cbn [app split_lines]. rewrite IH. destruct (Ascii.eqb c nl); [reflexivity|].
  destruct (split_lines_cons s) as (l & ls & ->). reflexivity.
Qed.
Lemma split_app_other s c : Ascii.eqb c nl = false ->
  exists ls l, split_lines s = ls ++ [l] /\ split_lines (s ++ [c]) = ls ++ [l ++ [c]].
Proof.
  intros Hc. induction s as [|x s (ls & l & E1 & E2)].
  - exists [], []. cbn [app split_lines]. rewrite Hc. split; reflexivity.
  - cbn [app split_lines]. rewrite E1, E2. destruct (Ascii.eqb x nl).
    + exists ([] :: ls), l. split; reflexivity.
    + destruct ls as [|l0 ls].
      * exists [], (x :: l). split; reflexivity.
      * exists ((x :: l0) :: ls), l. split; reflexivity.
Qed.

Lemma keep_app a b : keep (a ++ b) = keep a ++ keep b.
Proof. unfold keep. rewrite map_app, filter_app. reflexivity. Qed.

Lemma keep_trail s c : space c -> keep (split_lines (s ++ [c])) = keep (split_lines s).
Proof.
  intros H. destruct (Ascii.eqb c nl) eqn:E.
  - apply Ascii.eqb_eq in E. subst c. rewrite split_app_nl, keep_app. cbn. apply app_nil_r.
  - destruct (split_app_other s c E) as (ls & l & -> & ->).
    rewrite !keep_app. unfold keep at 2 4. cbn [map].
    rewrite trim_snoc by exact H. reflexivity.
Qed.

Lemma keep_lead_all a s : Forall space a -> keep (split_lines (a ++ s)) = keep (split_lines s).
Proof.
  induction 1 as [|c a Hc Ha IH]; [reflexivity|].
  cbn [app]. rewrite keep_lead by exact Hc. exact IH.
Qed.
Lemma keep_trail_all b : forall s, Forall space b -> keep (split_lines (s ++ b)) = keep (split_lines s).
Proof.
  induction b as [|c b IH] using rev_ind; intros s H; [rewrite app_nil_r; reflexivity|].
  apply Forall_app in H as [Hb Hc]. inversion Hc; subst.
  rewrite app_assoc, keep_trail by assumption. apply IH. exact Hb.
Qed.

Lemma keep_trim s : keep (split_lines (trim s)) = keep (split_lines s).
Proof.
  destruct (trim_spec s) as (a & b & E & Ha & Hb & _).
  rewrite E at 2. rewrite keep_lead_all by exact Ha. rewrite keep_trail_all by exact Hb. reflexivity.
Qed.

Lemma split_unline l s : ~ In newline l -> split_lines (l ++ newline :: s) = l :: split_lines s.
Proof.
  induction l as [|c l IH]; intros H; [reflexivity|].
  cbn [app split_lines]. rewrite IH by (intros K; apply H; right; exact K).
  destruct (Ascii.eqb c nl) eqn:E; [|reflexivity].
  apply Ascii.eqb_eq in E. destruct H. left. exact E.
Qed.
Lemma split_single l : ~ In newline l -> split_lines l = [l].
Proof.
  induction l as [|c l IH]; intros H; [reflexivity|].
  cbn [split_lines]. rewrite IH by (intros K; apply H; right; exact K).
  destruct (Ascii.eqb c nl) eqn:E; [|reflexivity].
  apply Ascii.eqb_eq in E. destruct H. left. exact E.
Qed.

Lemma split_unlines ls : ls <> [] -> Forall (fun l => ~ In newline l) ls ->
  split_lines (unlines ls) = ls.
Proof.
  intros Hne H. induction ls as [|l [|l2 ls] IH]; [contradiction| |].
  - inversion H; subst. cbn [unlines]. apply split_single; assumption.
  - inversion H; subst. change (unlines (l :: l2 :: ls)) with (l ++ newline :: unlines (l2 :: ls)).
    rewrite split_unline by assumption. f_equal. apply IH; [discriminate|assumption].
Qed.

Lemma keep_kept ls : lines_kept ls (keep ls).
Proof.
  induction ls as [|l ls IH]; [constructor|].
  unfold keep in *. cbn [map filter]. destruct (trim l) as [|c t] eqn:E; cbn [nonempty].
  - constructor; [apply trim_nil; exact E|exact IH].
  - constructor; [|rewrite <- E; apply trim_spec|exact IH].
    intros K. rewrite trim_blank in E by exact K. discriminate.
Qed.

Lemma read_json_lines ls : ls <> [] -> Forall (fun l => ~ In newline l) ls ->
  lines_kept ls (read_json_tokens (unlines ls)).
Proof.
  intros Hne H. unfold read_json_tokens. fold (keep (split_lines (trim (unlines ls)))).
  rewrite keep_trim, split_unlines by assumption. apply keep_kept.
Qed.

Lemma terminated_line l : forall run s, ~ In newline l ->
  terminated run (l ++ newline :: s) = (rev run ++ l ++ [newline]) :: terminated [] s.
Proof.
  induction l as [|c l IH]; intros run s H.
  - reflexivity.
  - cbn [app terminated]. destruct (Ascii.eqb c nl) eqn:E.
    + apply Ascii.eqb_eq in E. destruct H. left. exact E.
    + rewrite IH by (intros K; apply H; right; exact K). cbn [rev].
      rewrite <- !app_assoc. reflexivity.
Qed.
Lemma terminated_none l : forall run, ~ In newline l -> terminated run l = [].
Proof.
  induction l as [|c l IH]; intros run H; [reflexivity|].
  cbn [terminated]. destruct (Ascii.eqb c nl) eqn:E.
  - apply Ascii.eqb_eq in E. destruct H. left. exact E.
  - apply IH. intros K; apply H; right; exact K.
Qed.

Lemma keep_cons l ls : keep (l :: ls) = keep [l] ++ keep ls.
Proof. apply (keep_app [l] ls). Qed.

(** Every line but the last one, which has no line feed. *)
Lemma read_lines_spec ls last : Forall (fun l => ~ In newline l) ls -> ~ In newline last ->
  read_lines (unlines (ls ++ [last])) = keep ls.
Proof.
  intros H Hl. unfold read_lines. fold (keep (terminated [] (unlines (ls ++ [last])))).
  induction H as [|l ls Hx H IH].
  - cbn [app unlines]. rewrite terminated_none by exact Hl. reflexivity.
  - cbn [app].
    assert (E : unlines (l :: ls ++ [last]) = l ++ newline :: unlines (ls ++ [last])).
    { destruct ls; reflexivity. }
    rewrite E, terminated_line by exact Hx. cbn [rev app].
    transitivity (keep [l] ++ keep ls); [|symmetry; apply keep_cons].
    rewrite <- IH. rewrite keep_cons. f_equal.
    unfold keep. cbn [map]. rewrite trim_snoc by exact space_nl. reflexivity.
Qed.

(** ** Base64 *)

Definition b64_check (c : ascii) : bool :=
  negb (is_space c) && negb (is_break c) && negb (Ascii.eqb c pad) && negb (Ascii.eqb c "-"%char).
Lemma sextet_table s : b64_sextet (b64_char s) = Some s /\ b64_check (b64_char s) = true.
Proof.
  destruct s as [[[[[a b] c] d] e] f].
  destruct a, b, c, d, e, f; split; vm_compute; reflexivity.
Qed.
Lemma sextet_back s : b64_sextet (b64_char s) = Some s.
Proof. apply sextet_table. Qed.
Lemma sextet_char s : b64_check (b64_char s) = true.
Proof. apply sextet_table. Qed.
Lemma pad_none : b64_sextet pad = None.
Proof. vm_compute. reflexivity. Qed.

Lemma bytes3_ind (P : bytes -> Prop) :
  P [] -> (forall a, P [a]) -> (forall a b, P [a; b]) ->
  (forall a b c r, P r -> P (a :: b :: c :: r)) -> forall s, P s.
Proof.
  intros H0 H1 H2 H3.
  assert (K : forall n s, (length s <= n)%nat -> P s).
  { induction n as [|n IH]; intros s Hs.
    - destruct s; [exact H0|cbn in Hs; lia].
    - destruct s as [|a [|b [|c r]]]; auto. apply H3, IH. cbn in Hs. lia. }
  intros s. apply (K (length s)). lia.
Qed.

Lemma decode_encode s : decode_quads (encode64 s) = Ok s.
Proof.
  induction s as [|a|a b|a b c r IH] using bytes3_ind.
  - reflexivity.
  - destruct a. cbn [encode64 decode_quads]. rewrite !sextet_back, pad_none.
    rewrite Ascii.eqb_refl. reflexivity.
  - destruct a, b. cbn [encode64 decode_quads]. rewrite !sextet_back, pad_none.
    rewrite Ascii.eqb_refl. reflexivity.
  - destruct a, b, c. cbn [encode64]. destruct (encode64 r) as [|x e] eqn:E.
    + cbn [decode_quads] in *. rewrite !sextet_back.
      injection IH as <-. reflexivity.
    + cbn [decode_quads] in IH |- *. rewrite !sextet_back.
      rewrite IH. reflexivity.
Qed.

Definition b64_text (c : ascii) : bool := negb (is_space c) && negb (is_break c) && negb (Ascii.eqb c "-"%char).
Lemma check_text c : b64_check c = true -> b64_text c = true.
Proof. unfold b64_check, b64_text. destruct (is_space c), (is_break c), (Ascii.eqb c pad), (Ascii.eqb c "-"); auto. Qed.
Lemma encode_chars s : forallb b64_text (encode64 s) = true.
Proof.
  induction s as [|a|a b|a b c r IH] using bytes3_ind.
  - reflexivity.
  - destruct a. cbn [encode64 forallb]. rewrite !(check_text _ (sextet_char _)). reflexivity.
  - destruct a, b. cbn [encode64 forallb]. rewrite !(check_text _ (sextet_char _)). reflexivity.
  - destruct a, b, c. cbn [encode64 forallb]. rewrite !(check_text _ (sextet_char _)). exact IH.
Qed.

Lemma filter_all {A} (f : A -> bool) l : forallb f l = true -> filter f l = l.
Proof.
  induction l as [|x l IH]; [reflexivity|]. cbn [forallb filter].
  intros H. apply andb_true_iff in H as [-> H]. f_equal. auto.
Qed.
Lemma forallb_imp {A} (f g : A -> bool) l :
  (forall x, f x = true -> g x = true) -> forallb f l = true -> forallb g l = true.
Proof.
  intros Hfg. rewrite !forallb_forall. auto.
Qed.

Lemma decode64_encode64 s : decode64 (encode64 s) = Ok s.
Proof.
  unfold decode64. rewrite filter_all; [apply decode_encode|].
  eapply forallb_imp; [|apply encode_chars].
  intros c. unfold b64_text. destruct (is_space c), (is_break c); auto.
Qed.

Lemma trim_none s : forallb (fun c => negb (is_space c)) s = true -> trim s = s.
Proof.
  intros H. apply trimmed_unique. exists [], [].
  assert (K : forall c, In c s -> ~ space c).
  { rewrite forallb_forall in H. intros c Hc. apply is_space_false, negb_true_iff, H. exact Hc. }
  repeat split; auto.
  - rewrite app_nil_r. reflexivity.
  - intros c r ->. apply K. left. reflexivity.
  - intros c r ->. apply K. apply in_or_app. right. left. reflexivity.
Qed.
Lemma trim_encode s : trim (encode64 s) = encode64 s.
Proof.
  apply trim_none. eapply forallb_imp; [|apply encode_chars].
  intros c. unfold b64_text. destruct (is_space c); auto.
Qed.

Lemma bytes_eqb_spec a : forall b, bytes_eqb a b = true <-> a = b.
Proof.
  induction a as [|x a IH]; intros [|y b]; cbn [bytes_eqb]; split; try congruence; try reflexivity.
  - intros H. apply andb_true_iff in H as [Hx H]. apply Ascii.eqb_eq in Hx. apply IH in H. congruence.
  - intros H. injection H as -> ->. rewrite Ascii.eqb_refl. apply IH. reflexivity.
Qed.
Lemma bytes_eqb_false a b : bytes_eqb a b = false <-> a <> b.
Proof. rewrite <- bytes_eqb_spec. destruct (bytes_eqb a b); split; congruence. Qed.

Lemma encode_dash s : encode64 s <> dash.
Proof.
  intros E. pose proof (encode_chars s) as H. rewrite E in H. discriminate.
Qed.

Lemma config_file file f t : f <> dash -> file f = Some t ->
  config_text file dash f = Ok (trim t).
Proof.
  intros Hf Ht. unfold config_text.
  apply bytes_eqb_false in Hf. rewrite Hf, Ht. cbn [bytes_eqb negb andb].
  assert (E : bytes_eqb dash dash = true) by reflexivity. rewrite E. cbn [negb andb bind].
  rewrite trim_encode. apply decode64_encode64.
Qed.
Lemma config_b64 file t : config_text file (encode64 t) dash = Ok t.
Proof.
  unfold config_text. assert (E : bytes_eqb (encode64 t) dash = false)
    by (apply bytes_eqb_false, encode_dash).
  rewrite E. assert (E2 : bytes_eqb dash dash = true) by reflexivity. rewrite E2.
  cbn [negb andb bind]. rewrite trim_encode. apply decode64_encode64.
Qed.

(** ** What the base64 decoder accepts *)

Lemma index_of_in c l : forall i, In c l <-> exists v, index_of c l i = Some v.
Proof.
  induction l as [|x l IH]; intros i; cbn [index_of In].
  - split; [tauto|intros [v H]; discriminate].
  - destruct (Ascii.eqb x c) eqn:E.
    + apply Ascii.eqb_eq in E. split; eauto.
    + apply Ascii.eqb_neq in E. rewrite <- IH. tauto.
Qed.
Lemma sextet_in c : In c base64_alphabet <-> exists s, b64_sextet c = Some s.
Proof.
  rewrite (index_of_in c base64_alphabet 0). change base64_alphabet with alphabet. unfold b64_sextet.
  destruct (index_of c alphabet 0); split; intros [v H]; eauto; discriminate.
Qed.
Lemma sextet_none c : ~ In c base64_alphabet <-> b64_sextet c = None.
Proof.
  rewrite sextet_in. destruct (b64_sextet c) as [s|]; split; auto; try discriminate.
  - intros H. destruct H. eauto.
  - intros _ [s H]. discriminate.
Qed.
Lemma sextet_fwd c s : b64_sextet c = Some s -> b64_char s = c.
Proof.
  intros H. assert (Hin : In c base64_alphabet) by (apply sextet_in; eauto).
  assert (K : forallb (fun c => match b64_sextet c with Some s => Ascii.eqb (b64_char s) c | None => false end) base64_alphabet = true)
    by (vm_compute; reflexivity).
  rewrite forallb_forall in K. specialize (K c Hin). rewrite H in K. apply Ascii.eqb_eq, K.
Qed.
Lemma pad_eq : pad = "="%char.
Proof. reflexivity. Qed.
Lemma pad_out : ~ In "="%char base64_alphabet.
Proof. apply sextet_none. vm_compute. reflexivity. Qed.

Lemma bytes4_ind (P : bytes -> Prop) :
  P [] -> (forall a, P [a]) -> (forall a b, P [a; b]) -> (forall a b c, P [a; b; c]) ->
  (forall a b c d r, P r -> P (a :: b :: c :: d :: r)) -> forall s, P s.
Proof.
  intros H0 H1 H2 H3 H4.
  assert (K : forall n s, (length s <= n)%nat -> P s).
  { induction n as [|n IH]; intros s Hs.
    - destruct s; [exact H0|cbn in Hs; lia].
    - destruct s as [|a [|b [|c [|d r]]]]; auto. apply H4, IH. cbn in Hs. lia. }
  intros s. apply (K (length s)). lia.
Qed.

Lemma text_cons x y z w r n : In x base64_alphabet -> In y base64_alphabet -> In z base64_alphabet -> In w base64_alphabet ->
  base64_text r n -> base64_text (x :: y :: z :: w :: r) n.
Proof.
  intros Hx Hy Hz Hw (body & -> & Hb & Hn & q & Hq). exists (x :: y :: z :: w :: body). split; [reflexivity|].
  split; [repeat (apply Forall_cons; [assumption|]); assumption|]. split; [exact Hn|]. exists (S q). cbn [length]. lia.
Qed.
Lemma text_uncons x y z w r n : base64_text (x :: y :: z :: w :: r) n -> r <> [] ->
  In x base64_alphabet /\ In y base64_alphabet /\ In z base64_alphabet /\ In w base64_alphabet /\ base64_text r n.
Proof.
  intros (body & E & Hb & Hn & q & Hq) Hr.
  assert (El := f_equal (@length _) E). rewrite app_length, repeat_length in El. cbn [length] in El, Hq.
  assert (0 < length r)%nat by (destruct r; [congruence|cbn; lia]).
  destruct body as [|a [|b [|c [|d body]]]]; cbn [length] in El; try lia.
  cbn [app] in E. injection E as -> -> -> -> E. inversion Hb as [|? ? A1 B1]; subst. inversion B1 as [|? ? A2 B2]; subst.
  inversion B2 as [|? ? A3 B3]; subst. inversion B3 as [|? ? A4 B4]; subst. repeat (split; [assumption|]).
  exists body. split; [reflexivity|]. split; [exact B4|]. split; [exact Hn|]. exists (q - 1)%nat. lia.
Qed.
Lemma text_last x y z w n : base64_text [x; y; z; w] n <->
  In x base64_alphabet /\ In y base64_alphabet /\
  ((n = 0%nat /\ In z base64_alphabet /\ In w base64_alphabet) \/
   (n = 1%nat /\ In z base64_alphabet /\ w = "="%char) \/ (n = 2%nat /\ z = "="%char /\ w = "="%char)).
Proof.
  split.
  - intros (body & E & Hb & Hn & _). destruct n as [|[|[|n]]]; [..|lia]; cbn [repeat] in E.
    + rewrite app_nil_r in E. subst body. rewrite !Forall_cons_iff in Hb. tauto.
    + change [x; y; z; w] with ([x; y; z] ++ [w]) in E. apply app_inj_tail in E. destruct E as [<- ->].
      rewrite !Forall_cons_iff in Hb. tauto.
    + change [x; y; z; w] with (([x; y] ++ [z]) ++ [w]) in E. change ["="; "="]%char with (["="] ++ ["="])%char in E.
      rewrite app_assoc in E. apply app_inj_tail in E. destruct E as [E ->]. apply app_inj_tail in E. destruct E as [<- ->].
      rewrite !Forall_cons_iff in Hb. tauto.
  - intros (Hx & Hy & [(-> & Hz & Hw)|[(-> & Hz & ->)|(-> & -> & ->)]]).
    + exists [x; y; z; w]. split; [reflexivity|]. split; [repeat (apply Forall_cons; [assumption|]); apply Forall_nil|]. split; [lia|]. exists 1%nat. reflexivity.
    + exists [x; y; z]. split; [reflexivity|]. split; [repeat (apply Forall_cons; [assumption|]); apply Forall_nil|]. split; [lia|]. exists 1%nat. reflexivity.
    + exists [x; y]. split; [reflexivity|]. split; [repeat (apply Forall_cons; [assumption|]); apply Forall_nil|]. split; [lia|]. exists 1%nat. reflexivity.
Qed.

Lemma decode_quads_last x y z w n : base64_text [x; y; z; w] n ->
  exists out, decode_quads [x; y; z; w] = Ok out /\ (length out + n = 3)%nat /\ (n = 0%nat -> encode64 out = [x; y; z; w]).
Proof.
  intros H. apply text_last in H. destruct H as (Hx & Hy & H). apply sextet_in in Hx, Hy. destruct Hx as [sx Ex], Hy as [sy Ey].
  cbn [decode_quads]. rewrite Ex, Ey. destruct sx as [[[[[x1 x2] x3] x4] x5] x6], sy as [[[[[y1 y2] y3] y4] y5] y6].
  destruct H as [(-> & Hz & Hw)|[(-> & Hz & ->)|(-> & -> & ->)]].
  - apply sextet_in in Hz, Hw. destruct Hz as [sz Ez], Hw as [sw Ew]. rewrite Ez, Ew.
    destruct sz as [[[[[z1 z2] z3] z4] z5] z6], sw as [[[[[w1 w2] w3] w4] w5] w6].
    eexists. split; [reflexivity|]. split; [reflexivity|]. intros _. cbn [encode64].
    rewrite (sextet_fwd _ _ Ex), (sextet_fwd _ _ Ey), (sextet_fwd _ _ Ez), (sextet_fwd _ _ Ew). reflexivity.
  - apply sextet_in in Hz. destruct Hz as [sz Ez]. rewrite Ez, (proj1 (sextet_none _) pad_out).
    destruct sz as [[[[[z1 z2] z3] z4] z5] z6]. rewrite pad_eq. rewrite Ascii.eqb_refl. eexists. split; [reflexivity|].
    split; [reflexivity|discriminate].
  - rewrite (proj1 (sextet_none _) pad_out), pad_eq, Ascii.eqb_refl. cbn [andb].
    eexists. split; [reflexivity|]. split; [reflexivity|discriminate].
Qed.

Lemma decode_quads_text (s : bytes) : forall n, base64_text s n ->
  exists out, decode_quads s = Ok out /\ (4 * (length out + n) = 3 * length s)%nat /\ (n = 0%nat -> encode64 out = s).
Proof.
  induction s as [|a|a b|a b c|x y z w r IH] using bytes4_ind; intros n H.
  - destruct H as (body & E & _). destruct body as [|c body]; [|discriminate E].
    destruct n; [|discriminate E]. exists []. repeat split.
  - destruct H as (_ & _ & _ & _ & q & Hq). cbn in Hq. lia.
  - destruct H as (_ & _ & _ & _ & q & Hq). cbn in Hq. lia.
  - destruct H as (_ & _ & _ & _ & q & Hq). cbn in Hq. lia.
  - destruct r as [|u r].
    + destruct (decode_quads_last x y z w n H) as (out & E & El & Ee). exists out. split; [exact E|]. split; [cbn [length]; lia|exact Ee].
    + destruct (text_uncons x y z w (u :: r) n H) as (Hx & Hy & Hz & Hw & Hr); [discriminate|].
      destruct (IH n Hr) as (out & E & El & Ee). apply sextet_in in Hx, Hy, Hz, Hw.
      destruct Hx as [sx Ex], Hy as [sy Ey], Hz as [sz Ez], Hw as [sw Ew].
      assert (Ed : decode_quads (x :: y :: z :: w :: u :: r) =
        match b64_sextet x, b64_sextet y, b64_sextet z, b64_sextet w with
        | Some (a7, a6, a5, a4, a3, a2), Some (a1, a0, b7, b6, b5, b4), Some (b3, b2, b1, b0, c7, c6),
          Some (c5, c4, c3, c2, c1, c0) =>
          rest <- decode_quads (u :: r) ;;
          Ok (Ascii a0 a1 a2 a3 a4 a5 a6 a7 :: Ascii b0 b1 b2 b3 b4 b5 b6 b7 ::
              Ascii c0 c1 c2 c3 c4 c5 c6 c7 :: rest)
        | _, _, _, _ => Panic
        end) by reflexivity.
      rewrite Ed, Ex, Ey, Ez, Ew, E. destruct sx as [[[[[x1 x2] x3] x4] x5] x6], sy as [[[[[y1 y2] y3] y4] y5] y6],
        sz as [[[[[z1 z2] z3] z4] z5] z6], sw as [[[[[w1 w2] w3] w4] w5] w6]. cbn [bind].
      eexists. split; [reflexivity|]. split; [cbn [length] in *; lia|]. intros Hn. cbn [encode64].
      rewrite (sextet_fwd _ _ Ex), (sextet_fwd _ _ Ey), (sextet_fwd _ _ Ez), (sextet_fwd _ _ Ew), (Ee Hn). reflexivity.
Qed.

Lemma decode_quads_ok (s : bytes) : forall out, decode_quads s = Ok out -> exists n, base64_text s n.
Proof.
  induction s as [|a|a b|a b c|x y z w r IH] using bytes4_ind; intros out H; try discriminate.
  - exists 0%nat. exists []. split; [reflexivity|]. split; [constructor|]. split; [lia|]. exists 0%nat. reflexivity.
  - destruct r as [|u r].
    + cbn [decode_quads] in H.
      destruct (b64_sextet x) as [[[[[[x1 x2] x3] x4] x5] x6]|] eqn:Ex; [|discriminate].
      destruct (b64_sextet y) as [[[[[[y1 y2] y3] y4] y5] y6]|] eqn:Ey; [|discriminate].
      assert (Hx : In x base64_alphabet) by (apply sextet_in; eauto). assert (Hy : In y base64_alphabet) by (apply sextet_in; eauto).
      destruct (b64_sextet z) as [[[[[[z1 z2] z3] z4] z5] z6]|] eqn:Ez; destruct (b64_sextet w) as [[[[[[w1 w2] w3] w4] w5] w6]|] eqn:Ew;
        try discriminate.
      * exists 0%nat. apply text_last. split; [exact Hx|]. split; [exact Hy|]. left. split; [reflexivity|]. split; apply sextet_in; eauto.
      * destruct (Ascii.eqb w pad) eqn:Ep; [|discriminate]. apply Ascii.eqb_eq in Ep. exists 1%nat. apply text_last.
        split; [exact Hx|]. split; [exact Hy|]. right. left. split; [reflexivity|]. split; [apply sextet_in; eauto|exact Ep].
      * destruct (Ascii.eqb z pad) eqn:Ep; [|discriminate]. destruct (Ascii.eqb w pad) eqn:Ep'; [|discriminate].
        apply Ascii.eqb_eq in Ep, Ep'. exists 2%nat. apply text_last. tauto.
    + remember (u :: r) as t eqn:Et.
      assert (Hd : exists o sx sy sz sw, decode_quads t = Ok o /\ b64_sextet x = Some sx /\ b64_sextet y = Some sy /\
        b64_sextet z = Some sz /\ b64_sextet w = Some sw).
      { rewrite Et in *. cbn [decode_quads] in H.
        destruct (b64_sextet x) as [[[[[[x1 x2] x3] x4] x5] x6]|] eqn:Ex; [|discriminate].
        destruct (b64_sextet y) as [[[[[[y1 y2] y3] y4] y5] y6]|] eqn:Ey; [|discriminate].
        destruct (b64_sextet z) as [[[[[[z1 z2] z3] z4] z5] z6]|] eqn:Ez; [|discriminate].
        destruct (b64_sextet w) as [[[[[[w1 w2] w3] w4] w5] w6]|] eqn:Ew; [|discriminate].
        match type of H with bind ?e _ = _ => destruct e as [o| |] eqn:Eo; try discriminate end.
        exists o. do 4 eexists. split; [exact Eo|]. repeat split. }
      destruct Hd as (o & sx & sy & sz & sw & Eo & Ex & Ey & Ez & Ew). destruct (IH o Eo) as (n & Hn). exists n.
      apply text_cons; auto; apply sextet_in; eauto.
Qed.

Lemma is_break_spec c : is_break c = true <-> line_break c.
Proof.
  unfold is_break, line_break, code. cbn [In]. rewrite orb_true_iff, !Z.eqb_eq. split.
  - intros [H|H]; [left|right; left]; lia.
  - intros [H|[H|[]]]; [left|right]; lia.
Qed.
Lemma unbroken_filter s : unbroken s (filter (fun c => negb (is_break c)) s).
Proof.
  induction s as [|c s IH]; [constructor|]. cbn [filter]. destruct (is_break c) eqn:E; cbn [negb].
  - apply UB_skip; [apply is_break_spec, E|exact IH].
  - apply UB_keep; [|exact IH]. rewrite <- is_break_spec. congruence.
Qed.
Lemma unbroken_unique s t : unbroken s t -> t = filter (fun c => negb (is_break c)) s.
Proof.
  intros H. induction H as [|c s t B H IH|c s t B H IH]; [reflexivity|..]; cbn [filter].
  - apply is_break_spec in B. rewrite B. exact IH.
  - rewrite <- is_break_spec in B. destruct (is_break c); [congruence|]. cbn. f_equal. exact IH.
Qed.
Lemma decode_quads_total (s : bytes) : decode_quads s = Panic \/ exists out, decode_quads s = Ok out.
Proof.
  induction s as [|a|a b|a b c|x y z w r IH] using bytes4_ind; try (left; reflexivity).
  - right. eexists. reflexivity.
  - destruct r as [|u r]; cbn [decode_quads] in *; remember (b64_sextet x) as sx; remember (b64_sextet y) as sy;
      remember (b64_sextet z) as sz; remember (b64_sextet w) as sw;
      destruct sx as [[[[[[x1 x2] x3] x4] x5] x6]|], sy as [[[[[[y1 y2] y3] y4] y5] y6]|],
        sz as [[[[[[z1 z2] z3] z4] z5] z6]|], sw as [[[[[[w1 w2] w3] w4] w5] w6]|]; eauto.
    + destruct (Ascii.eqb w pad); eauto.
    + destruct (Ascii.eqb z pad && Ascii.eqb w pad); eauto.
    + destruct IH as [-> |(o & ->)]; cbn [bind]; eauto.
Qed.
