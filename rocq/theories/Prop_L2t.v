(** Property theorems C31: embedding Lie elements into tensors. *)
From Verif Require Import Outcome Alg Words Mem Series Shuffle TensorModel SparseModel SparseProofs HallModel HallSpec LieSpec HallLemmas SmhModel SmhLemmas L2tModel L2tLemmas.
Open Scope Z_scope.

(** The matrix is a valid compressed matrix; the column of every key is the tensor
    obtained by reading the brackets of the key as commutators. *)
Theorem C31_columns : forall (R : cring) (isz : R -> bool), (forall x, isz x = true <-> x = r0) -> (r1 : R) <> r0 ->
  forall B w N jd ji jp, standard B w N -> l2t_fits w N ->
  exists m M, construct_new_l2t isz jd ji jp B = Ok m /\ lb_size B = Ok M /\ cs_valid m /\ cs_n m = M /\ cs_inner m = words_below w (S (Z.to_nat N)) /\
    forall k t u, decodes B k t -> letters_ok w u -> (length u <= Z.to_nat N)%nat -> entry m (k - 1) (pos w u) = texpand R t u.
Proof. exact l2t_columns. Qed.
Print Assumptions C31_columns.
(** lie_to_tensor is the sum over keys of coefficient times expanded bracket, times the
    scale factor if one is given. *)
Theorem C31_lie_to_tensor : forall (R : cring) (isz : R -> bool), (forall x, isz x = true <-> x = r0) -> (r1 : R) <> r0 ->
  forall B w N M arg scale jd ji jp tree_of, standard B w N -> l2t_fits w N -> lb_size B = Ok M -> blen arg = M ->
  (forall k, 1 <= k <= M -> decodes B k (tree_of k)) ->
  exists y, py_lie_to_tensor isz jd ji jp B arg (tensor_basis w N) scale = Ok y /\ blen y = words_below w (S (Z.to_nat N)) /\
    forall u, letters_ok w u -> (length u <= Z.to_nat N)%nat -> bat y (pos w u) = scaled scale (lie_expand (bat arg) tree_of M u).
Proof. exact l2t_apply. Qed.
Print Assumptions C31_lie_to_tensor.
(** The result is primitive: it vanishes on the empty word and on every shuffle of two
    non-empty words. *)
Theorem C31_primitive : forall (R : cring) (isz : R -> bool), (forall x, isz x = true <-> x = r0) -> (r1 : R) <> r0 ->
  forall B w N M arg jd ji jp y, standard B w N -> l2t_fits w N -> lb_size B = Ok M -> blen arg = M ->
  py_lie_to_tensor isz jd ji jp B arg (tensor_basis w N) None = Ok y ->
  bat y 0 = r0 /\ forall u v, letters_ok w u -> letters_ok w v -> u <> [] -> v <> [] -> (length u + length v <= Z.to_nat N)%nat ->
    sum (shuffles u v) (fun s => bat y (pos w s)) = r0.
Proof. exact l2t_primitive. Qed.
Print Assumptions C31_primitive.
Theorem C31_mismatch : forall (R : cring) (isz : R -> bool), (forall x, isz x = true <-> x = r0) -> (r1 : R) <> r0 ->
  forall B w N M arg scale jd ji jp D w', standard B w N -> l2t_fits w N -> lb_size B = Ok M -> 0 <= D -> 1 <= w' ->
  D <> N \/ blen arg <> M \/ w' <> w -> py_lie_to_tensor isz jd ji jp B arg (tensor_basis w' D) scale = Throw.
Proof. exact l2t_mismatch. Qed.
Print Assumptions C31_mismatch.
Example C31_ex : standard (match construct_lie_basis junk0 junk0 2 3 with Ok B => B | _ => mkLB 0 0 (mkbuf 0 (fun _ => 0)) (mkbuf 0 (fun _ => 0)) end) 2 3 /\ l2t_fits 2 3 /\
  csmat_lists (let! B := construct_lie_basis junk0 junk0 2 3 in construct_new_l2t zisz (fun _ => 77 : Zcr) (fun _ => 88) (fun _ => 99) B) =
    Some ([0; 1; 2; 4; 7; 10], [1; 2; 4; 5; 8; 9; 11; 10; 12; 13], [1 : Zcr; 1 : Zcr; 1 : Zcr; -1 : Zcr; 1 : Zcr; -2 : Zcr; 1 : Zcr; -1 : Zcr; 2 : Zcr; -1 : Zcr]) /\
  buf_list (let! B := construct_lie_basis junk0 junk0 2 3 in
            py_lie_to_tensor zisz (fun _ => 77 : Zcr) (fun _ => 88) (fun _ => 99) B (buf_of 0 [3; -1; 5; 0; 2]) (tensor_basis 2 3) (Some (10 : Zcr))) =
    Some ([0; 30; -10; 0; 50; -50; 0; 0; 0; 0; -20; 0; 40; -20; 0] : list Zcr).
Proof. exact ex_l2t. Qed.
(** Outside [l2t_fits] the construction can leave the defined behaviour of C. *)
Theorem C31_width_zero_refuted : (let! B := construct_lie_basis junk0 junk0 0 2 in construct_new_l2t zisz (fun _ => 77 : Zcr) (fun _ => 88) (fun _ => 99) B) = UB.
Proof. exact l2t_width0. Qed.
Print Assumptions C31_width_zero_refuted.
Theorem C31_depth64_refuted : (let! B := construct_lie_basis junk0 junk0 1 64 in construct_new_l2t zisz (fun _ => 77 : Zcr) (fun _ => 88) (fun _ => 99) B) = UB.
Proof. exact l2t_depth64. Qed.
Print Assumptions C31_depth64_refuted.
