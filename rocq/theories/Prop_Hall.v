(** Property theorems C27 - C29: the Lie basis. *)
From Verif Require Import Outcome Mem Mobius HallModel HallSpec HallTab HallLemmas.
Open Scope Z_scope.

(** ** C27 *)
Theorem C27_hall_set : forall junk1 junk2 w N, 0 <= w -> 1 <= N < 46339 * 46339 -> N * w ^ N < I64_MAX ->
  exists B M (tree_of : Z -> tree),
    construct_lie_basis junk1 junk2 w N = Ok B /\ lb_size B = Ok M /\
    (forall k, 1 <= k <= M -> decodes B k (tree_of k)) /\
    (forall k k', 1 <= k <= M -> 1 <= k' <= M -> (k < k' <-> tlt (tree_of k) (tree_of k'))) /\
    (forall t, Hall w t /\ tdeg t <= N <-> exists k, 1 <= k <= M /\ tree_of k = t) /\
    (forall d, 1 <= d <= N -> exists lo hi, bget (lb_db B) d = Ok lo /\ bget (lb_db B) (d + 1) = Ok hi /\
        forall k, 1 <= k <= M -> (tdeg (tree_of k) = d <-> lo <= k < hi)).
Proof. exact hall_set. Qed.
Print Assumptions C27_hall_set.
Example C27_ex : basis_rows (construct_lie_basis junk0 junk0 2 4) =
  Some ([(0, 1); (0, 2); (1, 2); (1, 3); (2, 3); (1, 4); (2, 4); (2, 5)], [0; 1; 3; 4; 6; 9]).
Proof. exact ex_basis24. Qed.
(** Depth 0: the reported size is whatever the uninitialised array contained. *)
Theorem C27_depth_zero_refuted : forall junk2 w, 0 <= w -> forall s,
  exists B, construct_lie_basis (fun _ => s + 1) junk2 w 0 = Ok B /\ lb_size B = Ok s.
Proof. exact construct_depth0. Qed.
Print Assumptions C27_depth_zero_refuted.
(** Depth -2 and width -1: writes outside the allocated arrays. *)
Theorem C27_negative_refuted : forall junk1 junk2,
  construct_lie_basis junk1 junk2 2 (-2) = UB /\ construct_lie_basis junk1 junk2 (-1) 1 = UB.
Proof. exact construct_negative. Qed.
Print Assumptions C27_negative_refuted.

(** ** C28 *)
Theorem C28_degree : forall B w N, standard B w N -> forall k t, decodes B k t -> lb_degree B k = Ok (tdeg t).
Proof. exact degree_key. Qed.
Print Assumptions C28_degree.
Theorem C28_parents : forall B w N, standard B w N -> exists M, lb_size B = Ok M /\
  forall k, (1 <= k <= M -> exists t, decodes B k t) /\ (~ 1 <= k <= M -> get_parents B k = Throw).
Proof. exact parents_range. Qed.
Print Assumptions C28_parents.
Theorem C28_find_present : forall B w N, standard B w N ->
  forall k a b, 1 <= a -> get_parents B k = Ok (a, b) -> find_word B (a, b) (-1) = Ok k.
Proof. exact find_present. Qed.
Print Assumptions C28_find_present.
(** A pair without key is reported absent, unless no key comes after it; then the
    search reads past the array. *)
Theorem C28_find_absent : forall B w N, standard B w N ->
  forall a b s t, decodes B a s -> decodes B b t -> (forall k, get_parents B k <> Ok (a, b)) ->
  (find_word B (a, b) (-1) = Ok (-1) /\
     (N < tdeg s + tdeg t \/ exists k u, decodes B k u /\ (tdeg s + tdeg t < tdeg u \/ tdeg u = tdeg s + tdeg t /\
         exists a' b', get_parents B k = Ok (a', b') /\ (a < a' \/ a = a' /\ b < b')))) \/
  (find_word B (a, b) (-1) = UB /\ tdeg s + tdeg t <= N /\
     forall k u, decodes B k u -> tdeg u <= tdeg s + tdeg t /\
        (tdeg u = tdeg s + tdeg t -> exists a' b', get_parents B k = Ok (a', b') /\ (a' < a \/ a' = a /\ b' < b))).
Proof. exact find_absent. Qed.
Print Assumptions C28_find_absent.
Example C28_ex : exists B, construct_lie_basis junk0 junk0 2 4 = Ok B /\
  find_word B (2, 4) (-1) = Ok 7 /\ find_word B (1, 5) (-1) = Ok (-1) /\ find_word B (4, 1) (-1) = UB /\ lb_degree B 5 = Ok 3.
Proof. exact ex_find24. Qed.

(** ** C29 *)
Theorem C29_mobius : forall n, 1 <= n < 46339 * 46339 -> exists m, mobius_func n = Ok m /\ is_mobius n m.
Proof. exact mobius_func_ok. Qed.
Print Assumptions C29_mobius.
Example C29_ex1 : mobius_func 30 = Ok (-1) /\ mobius_func 2021 = Ok 1 /\ mobius_func 99 = Ok 0.
Proof. repeat split; vm_compute; reflexivity. Qed.
(** Near the top of the 32-bit range the trial division overflows. *)
Theorem C29_mobius_overflow_refuted : mobius_func 2147483647 = UB.
Proof. exact mobius_func_overflow. Qed.
Print Assumptions C29_mobius_overflow_refuted.
Theorem C29_witt : forall w n, 0 <= w -> 1 <= n < 46339 * 46339 -> n * w ^ n < I64_MAX ->
  exists v, compute_lie_degree_dim w n = Ok v /\ witt_number w n v.
Proof. exact dim_witt. Qed.
Print Assumptions C29_witt.
Theorem C29_allocation_exact : forall junk1 junk2 w N, 0 <= w -> 1 <= N < 46339 * 46339 -> N * w ^ N < I64_MAX ->
  exists M B, compute_lie_dim w N = Ok M /\ construct_lie_basis junk1 junk2 w N = Ok B /\ lb_size B = Ok M /\ blen (lb_data B) = 2 * (M + 1).
Proof. exact alloc_exact. Qed.
Print Assumptions C29_allocation_exact.
Example C29_ex2 : compute_lie_degree_dim 3 6 = Ok 116 /\ compute_lie_dim 5 8 = Ok 63319.
Proof. split; vm_compute; reflexivity. Qed.
