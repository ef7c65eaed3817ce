(** Claims C11-C15: the spatial index.  Vocabulary: Spec_Hdb.v. *)
From Verif Require Import M_Base M_Float M_Rng M_Geom M_Node M_Hdb M_Knn Spec Spec_Hdb
  P_Float P_Hdb P_HdbIns P_HdbQuery P_Tame P_Knn P_HdbHist Toy.
From Coq Require Import Sorted.
Open Scope Z_scope.

(** Hulls for the examples: twelve point-like boxes on a diagonal and one long one. *)
Definition ex_item (k : Z) : node :=
  let p := P2 (3 * k) k in Node k (full_coords [p]) (Rng k (k + 1)) (MBR (px p) (py p) (px p) (py p)) (GPoint p) 1.
Definition ex_long : node :=
  Node 99 (full_coords []) (Rng 0 9) (MBR (f_of_Z 0) (f_of_Z 2) (f_of_Z 30) (f_of_Z 3)) (GSeg (P2 0 2) (P2 30 3)) 1.
Definition ex_ops : list db_op :=
  [OpLoad (map ex_item (zseq 1 10)); OpRemove (ex_item 4); OpLoad [ex_long]; OpRemove (ex_item 40);
   OpLoad [ex_item 11]; OpLoad [ex_item 12]; OpRemove (ex_item 1)].
Definition ex_q : mbr := MBR (f_of_Z 5) (f_of_Z 0) (f_of_Z 16) (f_of_Z 20).

(** ** C13: no operation panics, and the tree is balanced, bounded and enclosing *)

Theorem C13_operations_never_fail :
  forall O cap ops, oracle_ok O -> Forall good_op ops ->
  exists t, run_ops O (new_hdb cap) ops = Ok t /\ index_ok (max_entries cap) t.
Proof.
  intros O cap ops HO Hg.
  destruct (run_ops_spec O HO cap ops _ (new_ok cap) Hg) as (t & b & E & T & _).
  exists t. split; [exact E|]. exact (tok_index cap t T).
Qed.

(** The bound on the coordinates is needed: after six hulls that fill a root of two levels, one hull whose box is finite
    and ordered but has an area beyond the range of float64 makes Load panic (no child is chosen: Inf - Inf is NaN). *)
Definition huge : f64 := S754_finite false 4503599627370496 548.
Definition ex_huge : node :=
  Node 99 (full_coords []) (Rng 0 9) (MBR fzero fzero huge huge) (GPoint (P2 0 0)) 1.
Theorem C13_huge_boxes_refuted : exists O cap ops,
  oracle_ok O /\ (forall items it, In (OpLoad items) ops -> In it items -> 
    below_pow2 601 (minx (n_mbr it)) /\ below_pow2 601 (miny (n_mbr it)) /\ below_pow2 601 (maxx (n_mbr it)) /\
    below_pow2 601 (maxy (n_mbr it)) /\ fle (minx (n_mbr it)) (maxx (n_mbr it)) = true /\
    fle (miny (n_mbr it)) (maxy (n_mbr it)) = true) /\
  run_ops O (new_hdb cap) ops = Panic.
Proof.
  exists plain_oracle, 4, [OpLoad (map ex_item (zseq 1 6)); OpLoad [ex_huge]].
  split; [exact plain_oracle_ok|]. split; [|vm_compute; reflexivity].
  intros items it [E|[E|[]]] H; injection E as <-; cbn in H; intuition (subst; vm_compute; intuition congruence).
Qed.

(** ** C12: faithful multiset *)

Theorem C12_bag :
  forall O cap ops t, oracle_ok O -> Forall good_op ops -> run_ops O (new_hdb cap) ops = Ok t ->
  exists b r, bag_run [] ops b /\ all t = Ok r /\ Permutation r b.
Proof.
  intros O cap ops t HO Hg Hr.
  destruct (reach O HO cap ops t Hg Hr) as (T & b & B & P).
  destruct (all_spec _ _ _ t T) as (r & E & Pr).
  exists b, r. split; [exact B|]. split; [exact E|]. rewrite Pr. symmetry; exact P.
Qed.

(** IsEmpty answers whether anything is left in the bag. *)
Theorem C12_is_empty :
  forall O cap ops t, oracle_ok O -> Forall good_op ops -> run_ops O (new_hdb cap) ops = Ok t ->
  exists b, bag_run [] ops b /\ (is_empty t = true <-> b = []).
Proof.
  intros O cap ops t HO Hg Hr.
  destruct (reach O HO cap ops t Hg Hr) as (T & b & B & P). exists b. split; [exact B|].
  destruct T as (_ & _ & [E|(h & W)]).
  - assert (Eb : contents (h_root t) = []) by (rewrite E; reflexivity). rewrite Eb in P.
    apply Permutation_sym, Permutation_nil in P. unfold is_empty. rewrite E. cbn. split; auto.
  - pose proof (wf_nonempty _ _ _ _ W) as K. rewrite <- (contents_wf _ _ _ _ W) in K.
    destruct W as (_ & _ & _ & N & _). unfold is_empty. destruct (db_children (h_root t)); [congruence|]. split; [discriminate|].
    intros ->. apply Permutation_nil in P. congruence.
Qed.

Example C12_is_empty_case :
  Forall good_op [OpLoad [ex_item 1]; OpRemove (ex_item 1)] /\
  match run_ops plain_oracle (new_hdb 4) [OpLoad [ex_item 1]], run_ops plain_oracle (new_hdb 4) [OpLoad [ex_item 1]; OpRemove (ex_item 1)] with
  | Ok t, Ok t' => is_empty t = false /\ is_empty t' = true
  | _, _ => False
  end.
Proof.
  split; [|vm_compute; auto]. repeat constructor; vm_compute; repeat split; try reflexivity; discriminate.
Qed.

(** When ids are unique the bag is a function of the history. *)
Theorem C12_bag_of_tidy_history :
  forall O cap ops t, oracle_ok O -> Forall good_op ops -> tidy [] ops -> run_ops O (new_hdb cap) ops = Ok t ->
  exists r, all t = Ok r /\ Permutation r (bag_of [] ops).
Proof.
  intros O cap ops t HO Hg Ht Hr.
  destruct (C12_bag O cap ops t HO Hg Hr) as (b & r & B & E & P).
  exists r. split; [exact E|]. rewrite P. apply bag_run_tidy; auto. constructor.
Qed.

(** ** C11: search is exact *)

Theorem C11_search_exact :
  forall O cap ops t q, oracle_ok O -> Forall good_op ops -> run_ops O (new_hdb cap) ops = Ok t -> num_box q ->
  exists b r, bag_run [] ops b /\ search t q = Ok r /\
    Permutation r (filter (fun it => boxes_meet q (n_mbr it)) b).
Proof.
  intros O cap ops t q HO Hg Hr Hq.
  destruct (reach O HO cap ops t Hg Hr) as (T & b & B & P).
  destruct (search_bag cap t q T Hq) as (r & E & Pr).
  exists b, r. split; [exact B|]. split; [exact E|]. rewrite Pr. apply filter_perm. symmetry; exact P.
Qed.

Theorem C11_search_exact_tidy :
  forall O cap ops t q, oracle_ok O -> Forall good_op ops -> tidy [] ops ->
  run_ops O (new_hdb cap) ops = Ok t -> num_box q ->
  exists r, search t q = Ok r /\
    Permutation r (filter (fun it => boxes_meet q (n_mbr it)) (bag_of [] ops)).
Proof.
  intros O cap ops t q HO Hg Ht Hr Hq.
  destruct (C11_search_exact O cap ops t q HO Hg Hr Hq) as (b & r & B & E & P).
  exists r. split; [exact E|]. rewrite P. apply filter_perm, bag_run_tidy; auto. constructor.
Qed.

(** ** C14: collision test *)

Theorem C14_collides_iff_search :
  forall O cap ops t q, oracle_ok O -> Forall good_op ops -> run_ops O (new_hdb cap) ops = Ok t -> num_box q ->
  exists r, search t q = Ok r /\ collides t q = Ok (match r with [] => false | _ => true end).
Proof.
  intros O cap ops t q HO Hg Hr Hq.
  destruct (reach O HO cap ops t Hg Hr) as (T & b & B & P).
  destruct (search_bag cap t q T Hq) as (r & E & Pr).
  exists r. split; [exact E|]. rewrite (collides_bag cap t q T Hq). f_equal.
  set (f := fun it => boxes_meet q (n_mbr it)) in *.
  destruct (existsb f (contents (h_root t))) eqn:Ex.
  - apply existsb_exists in Ex. destruct Ex as (x & Hx & Hf).
    destruct r; [|reflexivity]. apply Permutation_nil in Pr.
    assert (Hin : In x (filter f (contents (h_root t)))) by (apply filter_In; auto). rewrite Pr in Hin. destruct Hin.
  - destruct r as [|x r]; [reflexivity|].
    assert (Hin : In x (filter f (contents (h_root t)))) by (eapply Permutation_in; [exact Pr|left; auto]).
    apply filter_In in Hin. assert (existsb f (contents (h_root t)) = true); [|congruence].
    apply existsb_exists; exists x; exact Hin.
Qed.

(** ** C15: neighbours within a distance, nearest first *)

(** With a priority queue that returns a true minimum. *)
Theorem C15_neighbours_exact :
  forall O cap ops t L pop query dist, oracle_ok O -> Forall good_op ops ->
  run_ops O (new_hdb cap) ops = Ok t ->
  pop_ok (fun a b => flt a b = true) pop -> is_nan dist = false ->
  (forall b it, (exists items, In (OpLoad items) ops /\ In it items) -> box_within (n_mbr it) b = true ->
     fle (gl_dist L query (mbr_polygon b)) (gl_dist L query (n_geom it)) = true) ->
  exists b r, bag_run [] ops b /\ context_neighbours L pop t query dist = Ok r /\
    Permutation r (filter (fun it => fle (gl_dist L query (n_geom it)) dist) b) /\
    StronglySorted (fun x y => fle (gl_dist L query (n_geom x)) (gl_dist L query (n_geom y)) = true) r.
Proof.
  intros O cap ops t L pop query dist HO Hg Hr Hp Hn Hd.
  destruct (reach O HO cap ops t Hg Hr) as (T & b & B & P).
  destruct (neighbours_exact cap L pop query dist t Hp T Hn) as (r & E & F & S).
  - intros bb it Hin. apply Hd. eapply bag_run_loaded; [exact B|].
    eapply Permutation_in; [symmetry; exact P|exact Hin].
  - exists b, r. split; [exact B|]. split; [exact E|]. split; [|exact S].
    rewrite F. apply filter_perm. symmetry; exact P.
Qed.

(** With a priority queue that may confuse nearly equal distances ([below] = smaller by more
    than the tolerance, any relation compatible with the order). *)
Theorem C15_neighbours_tolerant :
  forall O cap ops t L (below : f64 -> f64 -> Prop) pop query dist, oracle_ok O -> Forall good_op ops ->
  run_ops O (new_hdb cap) ops = Ok t ->
  (forall a b c, fle a b = true -> below b c -> below a c) -> pop_ok below pop ->
  (forall b it, (exists items, In (OpLoad items) ops /\ In it items) -> box_within (n_mbr it) b = true ->
     fle (gl_dist L query (mbr_polygon b)) (gl_dist L query (n_geom it)) = true) ->
  let d it := gl_dist L query (n_geom it) in
  exists b r rest, bag_run [] ops b /\ context_neighbours L pop t query dist = Ok r /\
    Permutation b (r ++ rest) /\
    (forall it, In it r -> fle (d it) dist = true) /\
    (forall it, In it rest -> exists v, is_nan v = false /\ fle v dist = false /\ ~ below (d it) v) /\
    StronglySorted (fun x y => ~ below (d y) (d x)) r.
Proof.
  intros O cap ops t L below pop query dist HO Hg Hr Hm Hp Hd d.
  destruct (reach O HO cap ops t Hg Hr) as (T & b & B & P).
  destruct (neighbours_bag cap L below pop query dist t Hm Hp T) as (r & E & [(rest & P1 & P2) Kn Ko]).
  - intros bb it Hin. apply Hd. eapply bag_run_loaded; [exact B|].
    eapply Permutation_in; [symmetry; exact P|exact Hin].
  - exists b, r, rest. split; [exact B|]. split; [exact E|]. split; [rewrite P; exact P1|].
    split; [exact Kn|]. split; [exact P2|exact Ko].
Qed.

(** The polygon whose distance is compared is the outline of the box: the ring starts and ends in the same corner,
    its points are the four corners, and each step goes along one side. *)
Theorem C15_box_outline : forall b, exists ring, mbr_polygon b = GPoly [ring] /\ length ring = 5%nat /\
  hd_error ring = Some (last ring (Pt fzero fzero fzero)) /\
  (forall x y, In (Pt x y fzero) ring <-> (x = minx b \/ x = maxx b) /\ (y = miny b \/ y = maxy b)) /\
  (forall u p q w, ring = u ++ p :: q :: w ->
     (px p = px q /\ (py p = miny b /\ py q = maxy b \/ py p = maxy b /\ py q = miny b)) \/
     (py p = py q /\ (px p = minx b /\ px q = maxx b \/ px p = maxx b /\ px q = minx b))).
Proof.
  intros b. eexists. split; [reflexivity|]. split; [reflexivity|]. split; [reflexivity|]. split.
  - intros x y. split.
    + intros H. repeat (destruct H as [H|H]; [injection H as <- <-; auto|]). destruct H.
    + intros [[-> | ->] [-> | ->]]; cbn; auto 6.
  - intros u p q w E.
    destruct u as [|? [|? [|? [|? [|? [|? u]]]]]]; cbn [app] in E; try discriminate E; try (inversion E; subst; cbn; auto 6; fail);
      apply (f_equal (@length _)) in E; cbn [length app] in E; rewrite ?app_length in E; cbn [length] in E; lia.
Qed.

(** ** Cases *)

Example C11_C15_case :
  oracle_ok plain_oracle /\ Forall good_op ex_ops /\ tidy [] ex_ops /\ num_box ex_q /\
  pop_ok (fun a b => flt a b = true) plain_pop /\
  match run_ops plain_oracle (new_hdb 4) ex_ops with
  | Ok t =>
      db_height (h_root t) = 2%nat /\
      match all t, search t ex_q, collides t ex_q, context_neighbours toy plain_pop t (GPoint (P2 16 5)) (f_of_Z 4) with
      | Ok a, Ok s, Ok c, Ok k =>
          (length a = 11%nat /\ length s = 4%nat /\ c = true) /\ map n_id k = [5; 6; 99]
      | _, _, _, _ => False
      end
  | _ => False
  end.
Proof.
  split; [exact plain_oracle_ok|]. split; [|split; [|split; [|split; [exact plain_pop_ok|]]]].
  - repeat constructor; vm_compute; repeat split; try reflexivity; discriminate.
  - cbn [tidy ex_ops]. split; [|split; [|split; [|split; [|split; [|split; [|split]]]]]]; auto.
    1, 3, 5, 6: vm_compute; repeat constructor; cbn; intuition congruence.
    all: intros x Hx Hi; vm_compute in Hx; repeat (destruct Hx as [<-|Hx]; [first [discriminate Hi|reflexivity]|]); destruct Hx.
  - repeat split.
  - vm_compute. repeat split.
Qed.

Print Assumptions C11_search_exact.
Print Assumptions C11_search_exact_tidy.
Print Assumptions C12_bag.
Print Assumptions C12_is_empty.
Print Assumptions C12_bag_of_tidy_history.
Print Assumptions C13_operations_never_fail.
Print Assumptions C14_collides_iff_search.
Print Assumptions C15_neighbours_exact.
Print Assumptions C15_neighbours_tolerant.
Print Assumptions C15_box_outline.
Print Assumptions C13_huge_boxes_refuted.
