(** Property theorems C08 - C11: intervals, partitions, segmentation. *)
From Verif Require Import Outcome DyadicModel DyadicSpec IntervalModel IntervalProofs IntervalProofs2 SegModel SegProofs3 IntervalLemmas.
From Coq Require Import QArith Sorted.
Open Scope Q_scope.

(** ** C08 *)
Theorem C08_intersection : forall i j,
  ri_inf i < ri_sup i -> ri_inf j < ri_sup j -> ri_inf i < ri_sup j -> ri_inf j < ri_sup i ->
  ri_t (intersection i j) = Clopen /\
  (ri_inf i <= ri_inf (intersection i j) /\ ri_inf j <= ri_inf (intersection i j) /\
   (ri_inf (intersection i j) = ri_inf i \/ ri_inf (intersection i j) = ri_inf j)) /\
  (ri_sup (intersection i j) <= ri_sup i /\ ri_sup (intersection i j) <= ri_sup j /\
   (ri_sup (intersection i j) = ri_sup i \/ ri_sup (intersection i j) = ri_sup j)).
Proof. intros i j H1 H2 H3 H4. rewrite (intersection_spec i j) by assumption. exact (conj eq_refl (conj (qmax_spec _ _) (qmin_spec _ _))). Qed.
Print Assumptions C08_intersection.
Theorem C08_intersection_points : forall i j, ri_t i = Clopen -> ri_t j = Clopen ->
  ri_inf i < ri_sup i -> ri_inf j < ri_sup j -> ri_inf i < ri_sup j -> ri_inf j < ri_sup i ->
  forall x, in_set (intersection i j) x <-> in_set i x /\ in_set j x.
Proof. exact intersection_points. Qed.
Print Assumptions C08_intersection_points.
Theorem C08_union : forall i j, ri_inf i <= ri_sup i -> ri_inf j <= ri_sup j ->
  ri_t (interval_union i j) = Clopen /\
  contains (interval_union i j) i = true /\ contains (interval_union i j) j = true /\
  (forall k, contains k i = true -> contains k j = true -> contains k (interval_union i j) = true).
Proof. intros i j H1 H2. split; [rewrite union_spec by assumption; reflexivity|exact (union_contains i j H1 H2)]. Qed.
Print Assumptions C08_union.
Theorem C08_disjoint_intersection : forall i j, ri_sup j <= ri_inf i \/ ri_sup i <= ri_inf j ->
  intersection i j = mkRI 0 1 Clopen.
Proof. exact intersection_disjoint. Qed.
Print Assumptions C08_disjoint_intersection.
Theorem C08_equality : forall i j, interval_eq i j = true <-> ri_t i = ri_t j /\ ri_inf i == ri_inf j /\ ri_sup i == ri_sup j.
Proof. exact interval_eq_spec. Qed.
Print Assumptions C08_equality.
Example C08_ex : let i := mkRI 0 2 Opencl in let j := mkRI 1 3 Clopen in
  ri_inf i < ri_sup i /\ ri_inf j < ri_sup j /\ ri_inf i < ri_sup j /\ ri_inf j < ri_sup i /\ intersection i j = mkRI 1 2 Clopen.
Proof. repeat split. Qed.

(** ** C09 *)
Theorem C09_contains_point : forall i x, contains_point i x = true <-> in_set i x.
Proof. exact contains_point_spec. Qed.
Print Assumptions C09_contains_point.
Theorem C09_contains : forall i j, ri_inf i < ri_sup i -> ri_inf j < ri_sup j -> ri_t i = ri_t j ->
  (contains i j = true <-> forall x, in_set j x -> in_set i x).
Proof. exact contains_spec. Qed.
Print Assumptions C09_contains.
Theorem C09_intersects_with : forall i j, ri_inf i < ri_sup i -> ri_inf j < ri_sup j ->
  (intersects_with i j = true <-> exists x, in_set i x /\ in_set j x).
Proof. exact intersects_spec. Qed.
Print Assumptions C09_intersects_with.
Theorem C09_is_associated : forall i j,
  is_associated i j = true <-> in_set i (match ri_t j with Clopen => ri_inf j | Opencl => ri_sup j end).
Proof. exact is_associated_spec. Qed.
Print Assumptions C09_is_associated.
Example C09_ex : intersects_with (mkRI 0 1 Opencl) (mkRI 1 2 Clopen) = true /\ intersects_with (mkRI 0 1 Clopen) (mkRI 1 2 Opencl) = false.
Proof. split; reflexivity. Qed.

(** ** C10 *)
Theorem C10_pieces_tile : forall p, made p -> exists e : list Q,
  nth_error e 0 = Some (p_inf p) /\ nth_error e (p_size p) = Some (p_sup p) /\
  (forall i, (i < p_size p)%nat -> exists a b, nth_error e i = Some a /\ nth_error e (S i) = Some b /\ a <= b /\
     piece p i = Ok (mkRI a b (p_type p))) /\
  (forall i, (p_size p <= i)%nat -> piece p i = Throw).
Proof. exact made_tiles. Qed.
Print Assumptions C10_pieces_tile.
Theorem C10_refine_halves : forall p, made p -> p_size (refine_midpoints p) = (2 * p_size p)%nat /\
  forall i, (i < p_size p)%nat -> exists a b, piece p i = Ok (mkRI a b (p_type p)) /\
    piece (refine_midpoints p) (2 * i) = Ok (mkRI a ((b + a) / 2) (p_type p)) /\
    piece (refine_midpoints p) (2 * i + 1) = Ok (mkRI ((b + a) / 2) b (p_type p)).
Proof. exact made_refine_halves. Qed.
Print Assumptions C10_refine_halves.
Theorem C10_mesh : forall p, made p -> exists m, mesh p = Some m /\
  (forall i s, (i < p_size p)%nat -> piece p i = Ok s -> m <= ri_sup s - ri_inf s) /\
  (exists i s, (i < p_size p)%nat /\ piece p i = Ok s /\ m == ri_sup s - ri_inf s).
Proof. exact made_mesh. Qed.
Print Assumptions C10_mesh.
Theorem C10_new_points : forall base pts x,
  inQ x (p_pts (partition_new base pts)) <-> inQ x pts /\ ri_inf base < x /\ x < ri_sup base.
Proof. exact partition_new_in. Qed.
Print Assumptions C10_new_points.
Theorem C10_insert : forall p x p', made p -> insert_intermediate p x = Ok p' ->
  p_base p' = p_base p /\ p_size p' = S (p_size p) /\ (forall y, inQ y (p_pts p') <-> x == y \/ inQ y (p_pts p)).
Proof. intros p x p' H E. exact (proj2 (insert_intermediate_wf p x p' (made_wf p H) E)). Qed.
Print Assumptions C10_insert.
Theorem C10_insert_rejects : forall p x, insert_intermediate p x = Throw <-> ~ in_set (p_base p) x.
Proof. exact insert_intermediate_outside. Qed.
Print Assumptions C10_insert_rejects.
(** Merging partitions that touch: every end of a piece of either is an end of a
    piece of the result, and there are no others. *)
Theorem C10_merge : forall p o q x, made p -> made o -> merge p o = Ok q -> ~ apart p o ->
  (inQ x (ends q) <-> inQ x (ends p) \/ inQ x (ends o)).
Proof. exact merge_ends. Qed.
Print Assumptions C10_merge.
Theorem C10_merge_type : forall p o, (p_type p = p_type o -> exists q, merge p o = Ok q) /\ (p_type p <> p_type o -> merge p o = Throw).
Proof. intros p o. exact (conj (merge_ok p o) (merge_throw p o)). Qed.
Print Assumptions C10_merge_type.
(** Merging partitions with a gap between them loses the intermediate points. *)
Theorem C10_merge_gap : forall p o q, p_inf p < p_sup p -> p_inf o < p_sup o -> merge p o = Ok q -> p_sup p < p_inf o ->
  p_pts q = [p_sup p; p_inf o].
Proof. exact merge_apart. Qed.
Print Assumptions C10_merge_gap.
Theorem C10_merge_gap_refuted : exists p o q, made p /\ made o /\ merge p o = Ok q /\ inQ (1 # 2) (p_pts p) /\ ~ inQ (1 # 2) (ends q).
Proof. exact merge_apart_loses. Qed.
Print Assumptions C10_merge_gap_refuted.
Example C10_ex : exists q, merge ex_p (refine_midpoints ex_o) = Ok q /\ made q /\ p_size q = 7%nat /\ ~ apart ex_p (refine_midpoints ex_o).
Proof. exact ex_merge. Qed.

(** ** C11 *)
(** Any predicate: the search ends without error, its answers come in increasing
    order of right end, and each is a row of adjacent (scaled) dyadic cells of depth
    1 .. max_depth on each of which the predicate held. *)
Theorem C11_answers_are_rows_of_cells : forall o P N, (0 <= N <= 28)%Z -> ri_inf o < ri_sup o -> P o = false ->
  exists rs, segment o P N = Ok rs /\
  StronglySorted (fun r r' => ri_sup r < ri_sup r') rs /\
  (forall r, In r rs -> ri_t r = Clopen /\ exists l x y, l <> [] /\ end_to_end x y l /\
     ri_inf r == x * (ri_sup o - ri_inf o) + ri_inf o /\ ri_sup r == y * (ri_sup o - ri_inf o) + ri_inf o /\
     (forall k n, In (k, n) l -> (1 <= n <= N)%Z /\ P (cell_of o k n) = true)).
Proof. intros o P N HN Ho HP. exact (segment_any o P N HN Ho HP). Qed.
Print Assumptions C11_answers_are_rows_of_cells.
Theorem C11_whole_interval : forall o P N, P o = true -> segment o P N = Ok [o].
Proof. exact seg_whole. Qed.
Print Assumptions C11_whole_interval.
Theorem C11_degenerate_rejected : forall o P N, P o = false -> ri_sup o <= ri_inf o -> segment o P N = Throw.
Proof. exact seg_degenerate. Qed.
Print Assumptions C11_degenerate_rejected.
(** A predicate that asks for inclusion in a set S inside the interval: the answers
    are inside S, separated, in order, contain every cell of depth 1 .. max_depth that
    is inside S, and cannot be enlarged by a cell of depth max_depth at either end. *)
Theorem C11_finds_maximal_pieces : forall o P N (S : Q -> Prop),
  (0 <= N <= 28)%Z -> ri_inf o < ri_sup o -> ri_t o = Clopen ->
  (forall x y, x == y -> S x -> S y) -> (forall x, S x -> ri_inf o <= x < ri_sup o) ->
  (forall i, ri_t i = Clopen -> ri_inf i < ri_sup i -> (P i = true <-> ri_subset i S)) ->
  exists rs, segment o P N = Ok rs /\
  StronglySorted (fun r r' => ri_sup r < ri_inf r') rs /\
  (forall r, In r rs -> ri_t r = Clopen /\ ri_inf r < ri_sup r /\ ri_subset r S) /\
  (forall k n, (1 <= n <= N)%Z -> ri_subset (cell_of o k n) S -> exists r, In r rs /\ ri_subset (cell_of o k n) (in_set r)) /\
  (P o = false -> forall r, In r rs -> exists i s,
     ri_inf r == dy i N * (ri_sup o - ri_inf o) + ri_inf o /\ ri_sup r == dy s N * (ri_sup o - ri_inf o) + ri_inf o /\
     ~ ri_subset (cell_of o (i - 1) N) S /\ ~ ri_subset (cell_of o s N) S).
Proof. intros o P N S HN Ho Ht HS Hsub HP. exact (segment_set o P N HN Ho S HS Hsub HP Ht). Qed.
Print Assumptions C11_finds_maximal_pieces.
Example C11_ex1 : (forall x y, x == y -> ex_S x -> ex_S y) /\ (forall x, ex_S x -> ri_inf ri_default <= x < ri_sup ri_default) /\
  (forall i, ri_t i = Clopen -> ri_inf i < ri_sup i -> (ex_pred i = true <-> ri_subset i ex_S)).
Proof. exact ex_seg_hyps. Qed.
Example C11_ex2 : exists r1 r2, segment ri_default ex_pred 4 = Ok [r1; r2] /\
  ri_approx r1 (mkRI (3 # 16) (13 # 16) Clopen) /\ ri_approx r2 (mkRI (15 # 16) 1 Clopen).
Proof. exact ex_seg. Qed.
(** For other predicates the answers need not satisfy the predicate, can overlap and
    can stick out of the interval. *)
Theorem C11_disjoint_inside_refuted : exists r1 r2 r3, segment ri_default short_pred 4 = Ok [r1; r2; r3] /\
  short_pred r2 = false /\ ri_inf r1 < 0 /\ 1 < ri_sup r3 /\ intersects_with r2 r3 = true.
Proof. exact seg_short. Qed.
Print Assumptions C11_disjoint_inside_refuted.
