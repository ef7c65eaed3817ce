(** Claim C16: the partial selection of bulk loading.  Vocabulary: Spec_Select.v. *)
From Verif Require Import M_Base M_Float M_Geom M_Node M_Hdb P_HdbIns P_HdbHist P_FSub M_Select Spec_Select P_Select.
Open Scope Z_scope.

(** ** It ends, never panics and only permutes the items between the bounds, whatever the
    keys are (NaN and infinities included). *)
Theorem C16_only_permutes :
  forall (A : Type) samp (key : A -> f64) a k left right,
  sample_ok samp -> 0 <= left -> right < zlen a -> left <= k <= right ->
  exists a', select_box samp key a k left right = Ok a' /\
    Permutation a a' /\ only_within left right a a'.
Proof.
  intros A samp key a k left right SO Hl Hr Hk.
  destruct (select_box_blk samp key a k left right SO Hl Hr Hk) as (a' & E & P & O & _).
  exists a'. auto.
Qed.

Definition ex_samp (l r k : Z) : Z * Z := (Z.max l (k - 30), Z.min r (k + 30)).
Lemma ex_samp_ok : sample_ok ex_samp.
Proof. intros l r k H1 H2. unfold ex_samp. lia. Qed.

Definition ex_keys : list f64 := [f_of_Z 5; fnan; f_of_Z 3; f_of_Z 9; finf; f_of_Z 3; f_of_Z (-1)].
Example C16_only_permutes_case :
  (sample_ok ex_samp /\ 6 < zlen ex_keys) /\
  select_box ex_samp (fun x => x) ex_keys 3 1 6 =
    Ok [f_of_Z 5; f_of_Z (-1); f_of_Z 3; f_of_Z 3; f_of_Z 9; fnan; finf].
Proof. split; [split; [exact ex_samp_ok|vm_compute; reflexivity]|vm_compute; reflexivity]. Qed.

(** ** Ranges of at most 601 items: the item at k is the one a sort would put there.
    Missing: larger ranges, where the code violates it (next theorem). *)
Theorem C16_selects_partial :
  forall (A : Type) samp (key : A -> f64) a k left right a',
  (forall x, In x a -> f_num (key x) = true) ->
  0 <= left -> right < zlen a -> left <= k <= right -> right - left <= 600 ->
  select_box samp key a k left right = Ok a' -> selected key a' k left right.
Proof.
  intros A samp key a k left right a' HK Hl Hr Hk Hs E. unfold select_box in E.
  eapply sel_selects in E; [exact E|..]; auto; try lia.
  - intros p q x y Hp; lia.
  - intros p q x y Hp Hq; lia.
Qed.

Definition ex_nums : list Z := [5; 3; 7; 1; 9; 2; 8; 4; 3].
Example C16_selects_case :
  (forall x, In x ex_nums -> f_num (f_of_Z x) = true) /\ 8 < zlen ex_nums /\
  select_box ex_samp f_of_Z ex_nums 3 0 8 = Ok [1; 2; 3; 3; 4; 5; 8; 7; 9].
Proof.
  split; [intros x H; repeat (destruct H as [<- | H]; [reflexivity|]); destruct H|].
  split; [reflexivity|]. vm_compute; reflexivity.
Qed.

(** ** Larger ranges: the bounds from which sample ranges are computed are never updated
    (hdb/select.go:34), so a later sample can reach outside the current range and undo an
    earlier partition.  1303 distinct numbers, the first range and k that NewHdb(16).Load
    uses for 1303 items, and the sample range 634..693 that lines 40-50 compute for them. *)
Definition big_keys : list Z := map (fun i => (Z.of_nat i * 1288) mod 1303) (seq 0 1303).
Definition big_samp (l r k : Z) : Z * Z :=
  if (l =? 0) && (r =? 1302) && (k =? 654) then (634, 693) else ex_samp l r k.

Lemma big_samp_ok : sample_ok big_samp.
Proof.
  intros l r k H1 H2. unfold big_samp.
  destruct ((l =? 0) && (r =? 1302) && (k =? 654)) eqn:E; [|apply ex_samp_ok; auto].
  apply andb_prop in E; destruct E as [E E3]. apply andb_prop in E; destruct E as [E1 E2].
  apply Z.eqb_eq in E1, E2, E3. lia.
Qed.

Lemma big_result :
  match select_box big_samp f_of_Z big_keys 654 0 1302 with
  | Ok a' => match znth a' 654 with
             | Some y => existsb (fun x => negb (fle (f_of_Z x) (f_of_Z y))) (firstn 654 a')
             | None => false end
  | _ => false end = true.
Proof. vm_compute. reflexivity. Qed.

Theorem C16_selects_refuted :
  exists samp (a : list Z) k left right,
    sample_ok samp /\ (forall x, In x a -> f_num (f_of_Z x) = true) /\
    0 <= left /\ right < zlen a /\ left <= k <= right /\
    forall a', select_box samp f_of_Z a k left right = Ok a' -> ~ selected f_of_Z a' k left right.
Proof.
  exists big_samp, big_keys, 654, 0, 1302.
  split; [exact big_samp_ok|].
  assert (HK : forallb (fun x => f_num (f_of_Z x)) big_keys = true) by (vm_compute; reflexivity).
  split; [intros x Hx; exact (proj1 (forallb_forall _ _) HK x Hx)|].
  split; [lia|]. split; [vm_compute; reflexivity|]. split; [lia|].
  intros a' E S. pose proof big_result as B. rewrite E in B.
  destruct (znth a' 654) as [y|] eqn:Ey; [|discriminate].
  apply existsb_exists in B. destruct B as (x & Hx & Nx).
  apply In_nth_error in Hx. destruct Hx as [p Hp].
  assert (Hlt : (p < 654)%nat).
  { assert (p < length (firstn 654 a'))%nat by (apply nth_error_Some; rewrite Hp; discriminate).
    pose proof (firstn_le_length 654 a'). lia. }
  assert (Hp' : znth a' (Z.of_nat p) = Some x).
  { unfold znth. destruct (Z.ltb_spec (Z.of_nat p) 0); [lia|]. rewrite Nat2Z.id.
    rewrite <- Hp. symmetry. rewrite <- (firstn_skipn 654 a') at 2.
    rewrite nth_error_app1; [reflexivity|]. apply nth_error_Some; rewrite Hp; discriminate. }
  rewrite (S (Z.of_nat p) 654 x y ltac:(lia) ltac:(lia) Hp' Ey) in Nx. discriminate.
Qed.

(** ** The repeated selection only permutes as well *)
Theorem C16_multi_only_permutes :
  forall (A : Type) samp (key : A -> f64) a left right n,
  sample_ok samp -> 0 < n -> 0 <= left -> right < zlen a ->
  exists a', multi_select samp key a left right n = Ok a' /\
    Permutation a a' /\ only_within left right a a'.
Proof.
  intros A samp key a left right n SO Hn Hl Hr.
  destruct (multi_select_blk samp key a left right n SO Hn Hl Hr) as (a' & E & P & O & _).
  exists a'. auto.
Qed.

Example C16_multi_case :
  (sample_ok ex_samp /\ 8 < zlen ex_nums) /\
  multi_select ex_samp f_of_Z ex_nums 0 8 2 = Ok [1; 2; 3; 3; 4; 5; 7; 8; 9].
Proof. split; [split; [exact ex_samp_ok|reflexivity]|vm_compute; reflexivity]. Qed.

(** Its documented result, groups of n items in order, is not reached: a range of n+1
    items is left alone (hdb/select.go:19, right is inclusive). *)
Theorem C16_groups_refuted :
  exists samp (a : list Z) a' left right n,
    sample_ok samp /\ 0 < n /\ 0 <= left /\ right < zlen a /\
    multi_select samp f_of_Z a left right n = Ok a' /\ ~ in_groups f_of_Z a' left right n.
Proof.
  exists ex_samp, [2; 0; 1], [2; 0; 1], 0, 2, 2.
  split; [exact ex_samp_ok|]. split; [lia|]. split; [lia|]. split; [reflexivity|].
  split; [vm_compute; reflexivity|].
  intros G. assert (H : fle (f_of_Z 2) (f_of_Z 1) = true).
  { apply (G 0 2 2 1); try lia; reflexivity. }
  vm_compute in H. discriminate.
Qed.

(** ** The index built with it: the assumption that C11-C15 make about the selection holds *)
Definition code_msel (samp : Z -> Z -> Z -> Z * Z) (cmp : bool) (n : nat) (l : list node) : list node :=
  match multi_select samp (sel_key cmp) l 0 (zlen l - 1) (Z.of_nat (Nat.max 1 n)) with
  | Ok l' => l' | _ => [] end.
Definition with_msel (O : hdb_oracle) (samp : Z -> Z -> Z -> Z * Z) : hdb_oracle :=
  HdbOracle (o_sort O) (code_msel samp) (o_height O) (o_eps O).

Theorem C16_index_selection :
  forall O samp, oracle_ok O -> sample_ok samp -> oracle_ok (with_msel O samp).
Proof.
  intros O samp HO SO. split; cbn [with_msel o_sort o_msel o_height].
  - apply (ok_sort O HO).
  - intros cmp n l. unfold code_msel.
    destruct (multi_select_blk samp (sel_key cmp) l 0 (zlen l - 1) (Z.of_nat (Nat.max 1 n)) SO
       ltac:(lia) ltac:(lia) ltac:(lia)) as (l' & E & P & _). rewrite E. exact P.
  - apply (ok_height O HO).
Qed.

Example C16_index_selection_case : oracle_ok (with_msel plain_oracle big_samp).
Proof. exact (C16_index_selection plain_oracle big_samp plain_oracle_ok big_samp_ok). Qed.

Print Assumptions C16_only_permutes.
Print Assumptions C16_selects_partial.
Print Assumptions C16_selects_refuted.
Print Assumptions C16_multi_only_permutes.
Print Assumptions C16_groups_refuted.
Print Assumptions C16_index_selection.
