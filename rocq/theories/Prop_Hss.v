(** C47, C53: Hall set sizes and the default sizes of contexts. *)
From Verif Require Import Mobius HallModel HallLemmas HssModel HssProofs.
Open Scope Z_scope.

(** Up to depth 51 the helper can be made, and answers Witt's number at every degree up to 50 for
    which degree times that number is below 2^64 (whatever the intermediate wrap-around). *)
Theorem C47_witt : forall fuel depth, 0 <= depth <= 51 -> exists mob, helper_construct fuel depth = Ok mob /\
  forall w k v, 1 <= k <= 50 -> witt_number w k v -> 0 <= k * v < 2 ^ 64 -> helper_call w mob k = Ok v.
Proof. exact (fun fuel depth H => ex_intro _ init_buf (conj (construct_ok fuel depth H) call_witt)). Qed.
Print Assumptions C47_witt.

(** It agrees with the dimension computed by the compute module's Lie basis. *)
Theorem C47_agrees : forall w k, 0 <= w -> 1 <= k <= 50 -> k * w ^ k < I64_MAX -> helper_call w init_buf k = compute_lie_degree_dim w k.
Proof. exact call_agrees. Qed.
Print Assumptions C47_agrees.
Example C47_ex : helper_call 3 init_buf 6 = Ok 116 /\ compute_lie_degree_dim 3 6 = Ok 116 /\ helper_call 2 init_buf 50 = Ok 22517997465744.
Proof. repeat split; vm_compute; reflexivity. Qed.

(** Degree 51 is read past the end of the table, also at depth 51; degree 0 divides by zero. *)
Theorem C47_end_refuted : forall w k, (51 <= k -> helper_call w init_buf k = UB) /\ (k = 0 -> helper_call w init_buf k = UB) /\ (- 2 ^ 31 <= k < 0 -> helper_call w init_buf k = Ok 0).
Proof. exact (fun w k => conj (call_beyond w k) (call_low w k)). Qed.
Print Assumptions C47_end_refuted.

(** For greater depths the constructor's sieve does not advance: it multiplies one entry by -2 until
    that overflows. *)
Theorem C47_deep_refuted : forall fuel depth, (32 <= fuel)%nat -> 52 <= depth <= 2147483647 -> helper_construct fuel depth = UB.
Proof. exact construct_ub. Qed.
Print Assumptions C47_deep_refuted.

(** A base context with default sizes: [tensor_size(d)] is the number of words of at most [d] letters,
    modulo 2^64; [lie_size(d)] is the product of the numbers of Lie basis elements of degrees 1 to d;
    degrees outside 0..depth stand for the depth. *)
Theorem C53_sizes : forall fuel w depth, 0 <= w < 2147483647 -> 1 <= depth <= 50 -> depth * w ^ depth < I64_MAX ->
  exists s v, context_base fuel w depth = Ok s /\ (forall i, 1 <= i <= depth -> witt_number w i (v i)) /\
    (forall d, 0 <= d <= depth -> tensor_size s d = Ok (words_below w (S (Z.to_nat d)) mod 2 ^ 64)) /\
    lie_size s 0 = Ok 0 /\ (forall d, 1 <= d <= depth -> lie_size s d = Ok (witt_product v (Z.to_nat d) mod 2 ^ 64)) /\
    (forall d, d < 0 \/ depth < d -> tensor_size s d = tensor_size s depth /\ lie_size s d = lie_size s depth).
Proof. exact context_sizes. Qed.
Print Assumptions C53_sizes.
Definition asked (w depth d : Z) : outcome (Z * Z) := let! s := context_base 40 w depth in let! t := tensor_size s d in let! l := lie_size s d in Ok (t, l).
Example C53_ex : asked 3 4 4 = Ok (121, 1296) /\ compute_lie_dim 3 4 = Ok 32 /\ asked 2 3 (-1) = Ok (15, 4).
Proof. repeat split; vm_compute; reflexivity. Qed.

(** So "[lie_size(d)] is the dimension of the Lie algebra up to degree d" is false, at degree two for
    every width. *)
Theorem C53_lie_refuted : forall fuel w depth s, 1 <= w < 2 ^ 21 -> 2 <= depth <= 50 -> context_base fuel w depth = Ok s ->
  witt_number w 1 w /\ witt_number w 2 (w * (w - 1) / 2) /\ lie_size s 2 = Ok (w * (w * (w - 1) / 2)) /\ w * (w * (w - 1) / 2) <> w + w * (w - 1) / 2.
Proof. exact (fun fuel w depth s Hw Hd E => conj (witt_first w) (conj (witt_two w) (lie_two_wrong fuel w depth s Hw Hd E))). Qed.
Print Assumptions C53_lie_refuted.

(** Other depths: 0 and -1 write past the end of the arrays, 51 and more end in undefined behaviour,
    below -1 the allocation throws. *)
Theorem C53_depth_refuted : forall fuel w depth, (32 <= fuel)%nat -> 0 <= w < 2147483647 -> -2147483648 <= depth <= 2147483647 -> ~ 1 <= depth <= 50 ->
  context_base fuel w depth = if depth <? -1 then Throw else UB.
Proof. exact context_depths. Qed.
Print Assumptions C53_depth_refuted.
