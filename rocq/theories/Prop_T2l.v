(** Property theorems C32: projecting tensors onto Lie elements. *)
From Coq Require Import QArith Qcanon.
From Verif Require Import Outcome Alg Words Mem Series Shuffle TensorModel TensorLemmas SparseModel SparseProofs HallModel HallSpec LieSpec HallLemmas BracketModel BracketLemmas SmhModel SmhLemmas L2tModel L2tLemmas Dynkin T2lLemmas.
Open Scope Z_scope.

(** From every state of the bracket cache: the matrix is a valid compressed matrix with
    a zero column for the empty word, and the column of every other word u expands to
    1/|u| times the right-normed bracket of u and uses only keys of degree |u|.  The cache
    is left in a reachable state. *)
Theorem C32_columns : forall (R : cring) (isz : R -> bool), (forall x, isz x = true <-> x = r0) -> (r1 : R) <> r0 ->
  forall inv : Z -> R, (forall d, 1 <= d -> rmul (zr R d) (inv d) = r1) ->
  forall B w N c0 tree_of, standard B w N -> 1 <= w -> small_brackets B w -> reachable w c0 -> (forall M k, lb_size B = Ok M -> 1 <= k <= M -> decodes B k (tree_of k)) ->
  exists F M, lb_size B = Ok M /\ forall fuel jd ji jp, (F <= fuel)%nat -> exists m c', construct_new_t2l isz fuel inv jd ji jp B c0 = Ok (m, c') /\ reachable w c' /\
    cs_valid m /\ cs_n m = words_below w (S (Z.to_nat N)) /\ cs_inner m = M /\ (forall j, entry m 0 j = r0) /\
    forall u, letters_ok w u -> u <> [] -> (length u <= Z.to_nat N)%nat ->
      (forall k, 1 <= k <= M -> tdeg (tree_of k) <> Z.of_nat (length u) -> entry m (pos w u) (k - 1) = r0) /\
      forall v, lie_expand (entry m (pos w u)) tree_of M v = rmul (inv (Z.of_nat (length u))) (rnorm R u v).
Proof. exact t2l_columns. Qed.
Print Assumptions C32_columns.
(** tensor_to_lie is the linear extension of that map, times the scale factor. *)
Theorem C32_tensor_to_lie : forall (R : cring) (isz : R -> bool), (forall x, isz x = true <-> x = r0) -> (r1 : R) <> r0 ->
  forall inv : Z -> R, (forall d, 1 <= d -> rmul (zr R d) (inv d) = r1) ->
  forall B w N M c0 tree_of, standard B w N -> 1 <= w -> small_brackets B w -> reachable w c0 -> lb_size B = Ok M -> (forall k, 1 <= k <= M -> decodes B k (tree_of k)) ->
  exists F, forall fuel jd ji jp arg D scale, (F <= fuel)%nat -> blen arg = words_below w (S (Z.to_nat N)) ->
  exists y c', py_tensor_to_lie isz fuel inv jd ji jp B c0 arg (tensor_basis w D) scale = Ok (y, c') /\ reachable w c' /\ blen y = M /\
    forall v, lie_expand (bat y) tree_of M v = scaled scale (dynkin_map inv w N (bat arg) v).
Proof. exact t2l_apply. Qed.
Print Assumptions C32_tensor_to_lie.
(** Every tensor that vanishes on the empty word and on all shuffles of non-empty words
    (every primitive element) is recovered by tensor_to_lie followed by lie_to_tensor. *)
Theorem C32_primitive_recovered : forall (R : cring) (isz : R -> bool), (forall x, isz x = true <-> x = r0) -> (r1 : R) <> r0 ->
  forall inv : Z -> R, (forall d, 1 <= d -> rmul (zr R d) (inv d) = r1) ->
  forall B w N M c0, standard B w N -> l2t_fits w N -> small_brackets B w -> reachable w c0 -> lb_size B = Ok M ->
  exists F, forall fuel jd ji jp jd' ji' jp' arg, (F <= fuel)%nat -> blen arg = words_below w (S (Z.to_nat N)) -> bat arg 0 = r0 ->
  (forall u v, letters_ok w u -> letters_ok w v -> u <> [] -> v <> [] -> (length u + length v <= Z.to_nat N)%nat -> sum (shuffles u v) (fun s => bat arg (pos w s)) = r0) ->
  exists x c' y, py_tensor_to_lie isz fuel inv jd ji jp B c0 arg (tensor_basis w N) None = Ok (x, c') /\ reachable w c' /\ blen x = M /\
    py_lie_to_tensor isz jd' ji' jp' B x (tensor_basis w N) None = Ok y /\ blen y = blen arg /\ forall i, 0 <= i < blen arg -> bat y i = bat arg i.
Proof. exact t2l_retract. Qed.
Print Assumptions C32_primitive_recovered.
(** In particular tensor_to_lie followed by lie_to_tensor is the identity on embedded Lie
    elements. *)
Theorem C32_lie_recovered : forall (R : cring) (isz : R -> bool), (forall x, isz x = true <-> x = r0) -> (r1 : R) <> r0 ->
  forall inv : Z -> R, (forall d, 1 <= d -> rmul (zr R d) (inv d) = r1) ->
  forall B w N M c0, standard B w N -> l2t_fits w N -> small_brackets B w -> reachable w c0 -> lb_size B = Ok M ->
  exists F, forall fuel jd ji jp jd' ji' jp' arg, (F <= fuel)%nat -> blen arg = M ->
  exists a x c' y, py_lie_to_tensor isz jd' ji' jp' B arg (tensor_basis w N) None = Ok a /\ py_tensor_to_lie isz fuel inv jd ji jp B c0 a (tensor_basis w N) None = Ok (x, c') /\
    reachable w c' /\ py_lie_to_tensor isz jd' ji' jp' B x (tensor_basis w N) None = Ok y /\ blen y = blen a /\ forall i, 0 <= i < blen a -> bat y i = bat a i.
Proof. exact t2l_l2t. Qed.
Print Assumptions C32_lie_recovered.
Theorem C32_mismatch : forall (R : cring) (isz : R -> bool), (forall x, isz x = true <-> x = r0) -> (r1 : R) <> r0 ->
  forall inv : Z -> R, (forall d, 1 <= d -> rmul (zr R d) (inv d) = r1) ->
  forall B w N M c0, standard B w N -> 1 <= w -> small_brackets B w -> reachable w c0 -> lb_size B = Ok M ->
  exists F, forall fuel jd ji jp arg w' D scale, (F <= fuel)%nat -> w' <> w \/ blen arg <> words_below w (S (Z.to_nat N)) ->
  py_tensor_to_lie isz fuel inv jd ji jp B c0 arg (tensor_basis w' D) scale = Throw.
Proof. exact t2l_mismatch. Qed.
Print Assumptions C32_mismatch.
Example C32_ex : exists B, construct_lie_basis junk0 junk0 2 3 = Ok B /\ standard B 2 3 /\ l2t_fits 2 3 /\ small_brackets B 2 /\
  option_map (map this) (buf_list (fstout (py_tensor_to_lie qisz 50 qinvz (fun _ => 0%Qc : Qccr) (fun _ => 88) (fun _ => 99) B lc_empty
     (buf_of (0%Qc : Qccr) (map Q2Qc [7; 3; -1; 0; 5; -5; 0; 0; 0; 0; -2; 0; 4; -2; 0]%Q)) (tensor_basis 2 3) None))) = Some [3; -1; 5; 0; 2]%Q.
Proof. exact ex_t2l. Qed.
Example C32_ex_scalars : (forall x, qisz x = true <-> x = @r0 Qccr) /\ (forall d, 1 <= d -> rmul (zr Qccr d) (qinvz d) = r1).
Proof. exact (conj qisz_ok qinvz_ok). Qed.
