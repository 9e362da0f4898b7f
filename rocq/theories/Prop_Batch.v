(** Property theorems C68: roughpy_compute on arrays with batch dimensions. *)
From Verif Require Import Outcome Alg Words Mem Series Shuffle TensorModel SparseModel SmhModel HallModel L2tModel BatchModel BatchSpec TensorTop TensorLemmas BatchTop3.
Open Scope Z_scope.

(** Arrays with arbitrary batch strides (negative, zero for the inputs, gaps between the
    pieces), of any number of dimensions, with consecutive elements in the last dimension:
    each piece of the output is what the call without batch dimensions gives for the pieces
    with the same index, and nothing else in memory changes. *)
Theorem C68_ft_fma : forall (R : cring) sz sh, 0 < sz < 2 ^ 64 -> Forall (fun n => 0 <= n) sh -> forall b out n (ob : buf R), 0 <= b_depth b ->
  usable sz sh out n (blen ob) -> separate sz sh out n -> forall od ld rd l r nl nr (lb rb : buf R), -1 <= od -> -1 <= ld -> -1 <= rd ->
  usable sz sh l nl (blen lb) -> usable sz sh r nr (blen rb) ->
  let one I := nd_ft_fma sz b od ld rd (vec sz n) (vec sz nl) (vec sz nr) (piece ob (start sz out I) n) (piece lb (start sz l I) nl) (piece rb (start sz r I) nr) in
  (forall I, in_box sh I -> exists p, one I = Ok p) ->
  exists x, nd_ft_fma sz b od ld rd out l r ob lb rb = Ok x /\ batch_result sz sh out n ob x (fun I p => one I = Ok p).
Proof. exact nd_ft_fma_batch. Qed.
Print Assumptions C68_ft_fma.
Theorem C68_ft_inplace_mul : forall (R : cring) sz sh, 0 < sz < 2 ^ 64 -> Forall (fun n => 0 <= n) sh -> forall b out n (ob : buf R), 0 <= b_depth b ->
  usable sz sh out n (blen ob) -> separate sz sh out n -> forall ld rd r nr (rb : buf R), -1 <= ld -> -1 <= rd -> usable sz sh r nr (blen rb) ->
  let one I := nd_ft_inplace_mul sz b ld rd (vec sz n) (vec sz nr) (piece ob (start sz out I) n) (piece rb (start sz r I) nr) in
  (forall I, in_box sh I -> exists p, one I = Ok p) ->
  exists x, nd_ft_inplace_mul sz b ld rd out r ob rb = Ok x /\ batch_result sz sh out n ob x (fun I p => one I = Ok p).
Proof. exact nd_ft_inplace_mul_batch. Qed.
Print Assumptions C68_ft_inplace_mul.
Theorem C68_antipode : forall (R : cring) sz sh, 0 < sz < 2 ^ 64 -> Forall (fun n => 0 <= n) sh -> forall b out n (ob : buf R), 0 <= b_depth b ->
  usable sz sh out n (blen ob) -> separate sz sh out n -> forall a na (ab : buf R), usable sz sh a na (blen ab) ->
  let one I := nd_antipode sz b (vec sz n) (vec sz na) (piece ob (start sz out I) n) (piece ab (start sz a I) na) in
  (forall I, in_box sh I -> exists p, one I = Ok p) ->
  exists x, nd_antipode sz b out a ob ab = Ok x /\ batch_result sz sh out n ob x (fun I p => one I = Ok p).
Proof. exact nd_antipode_batch. Qed.
Print Assumptions C68_antipode.
Theorem C68_adjoint : forall (R : cring) sz sh, 0 < sz < 2 ^ 64 -> Forall (fun n => 0 <= n) sh -> forall b out n (ob : buf R), 0 <= b_depth b ->
  usable sz sh out n (blen ob) -> separate sz sh out n -> forall od pd ad p a np na (pb ab : buf R), -1 <= od -> -1 <= pd -> -1 <= ad ->
  usable sz sh p np (blen pb) -> usable sz sh a na (blen ab) ->
  let one I := nd_ft_adj_lmul sz b od pd ad (vec sz n) (vec sz np) (vec sz na) (piece ob (start sz out I) n) (piece pb (start sz p I) np) (piece ab (start sz a I) na) in
  (forall I, in_box sh I -> exists x, one I = Ok x) ->
  exists x, nd_ft_adj_lmul sz b od pd ad out p a ob pb ab = Ok x /\ batch_result sz sh out n ob x (fun I p => one I = Ok p).
Proof. exact nd_ft_adj_lmul_batch. Qed.
Print Assumptions C68_adjoint.
Theorem C68_st_fma : forall (R : cring) sz sh, 0 < sz < 2 ^ 64 -> Forall (fun n => 0 <= n) sh -> forall b out n (ob : buf R), 0 <= b_depth b ->
  usable sz sh out n (blen ob) -> separate sz sh out n -> forall l r nl nr (lb rb : buf R), usable sz sh l nl (blen lb) -> usable sz sh r nr (blen rb) ->
  let one I := nd_st_fma sz b (vec sz n) (vec sz nl) (vec sz nr) (piece ob (start sz out I) n) (piece lb (start sz l I) nl) (piece rb (start sz r I) nr) in
  (forall I, in_box sh I -> exists p, one I = Ok p) ->
  exists x, nd_st_fma sz b out l r ob lb rb = Ok x /\ batch_result sz sh out n ob x (fun I p => one I = Ok p).
Proof. exact nd_st_fma_batch. Qed.
Print Assumptions C68_st_fma.
Theorem C68_ft_exp : forall (R : qalg) sz sh, 0 < sz < 2 ^ 64 -> Forall (fun n => 0 <= n) sh -> forall b out n (ob : buf R), 0 <= b_depth b ->
  usable sz sh out n (blen ob) -> separate sz sh out n -> forall a na (ab : buf R), usable sz sh a na (blen ab) ->
  let one I := nd_ft_exp sz b (vec sz n) (vec sz na) (piece ob (start sz out I) n) (piece ab (start sz a I) na) in
  (forall I, in_box sh I -> exists p, one I = Ok p) ->
  exists x, nd_ft_exp sz b out a ob ab = Ok x /\ batch_result sz sh out n ob x (fun I p => one I = Ok p).
Proof. exact nd_ft_exp_batch. Qed.
Print Assumptions C68_ft_exp.
Theorem C68_ft_log : forall (R : qalg) sz sh, 0 < sz < 2 ^ 64 -> Forall (fun n => 0 <= n) sh -> forall b out n (ob : buf R), 0 <= b_depth b ->
  usable sz sh out n (blen ob) -> separate sz sh out n -> forall a na (ab : buf R), usable sz sh a na (blen ab) ->
  let one I := nd_ft_log sz b (vec sz n) (vec sz na) (piece ob (start sz out I) n) (piece ab (start sz a I) na) in
  (forall I, in_box sh I -> exists p, one I = Ok p) ->
  exists x, nd_ft_log sz b out a ob ab = Ok x /\ batch_result sz sh out n ob x (fun I p => one I = Ok p).
Proof. exact nd_ft_log_batch. Qed.
Print Assumptions C68_ft_log.
Theorem C68_ft_fmexp : forall (R : qalg) sz sh, 0 < sz < 2 ^ 64 -> Forall (fun n => 0 <= n) sh -> forall b out n (ob : buf R), 0 <= b_depth b ->
  usable sz sh out n (blen ob) -> separate sz sh out n -> forall m e nm ne (mb eb : buf R), usable sz sh m nm (blen mb) -> usable sz sh e ne (blen eb) ->
  let one I := nd_ft_fmexp sz b (vec sz n) (vec sz nm) (vec sz ne) (piece ob (start sz out I) n) (piece mb (start sz m I) nm) (piece eb (start sz e I) ne) in
  (forall I, in_box sh I -> exists p, one I = Ok p) ->
  exists x, nd_ft_fmexp sz b out m e ob mb eb = Ok x /\ batch_result sz sh out n ob x (fun I p => one I = Ok p).
Proof. exact nd_ft_fmexp_batch. Qed.
Print Assumptions C68_ft_fmexp.
(** Products with the conversion matrices. *)
Theorem C68_matrix : forall (R : cring) sz sh, 0 < sz < 2 ^ 64 -> Forall (fun n => 0 <= n) sh -> forall (m : csmat R) op out n a na (ob ab : buf R),
  usable sz sh out n (blen ob) -> separate sz sh out n -> usable sz sh a na (blen ab) -> 0 < zprod sh ->
  let one I := dense_apply m n na (piece ob (start sz out I) n) (piece ab (start sz a I) na) op in
  (forall I, in_box sh I -> exists p, one I = Ok p) ->
  exists x, nd_apply sz m op out a ob ab = Ok x /\ batch_result sz sh out n ob x (fun I p => one I = Ok p).
Proof. exact nd_apply_batch. Qed.
Print Assumptions C68_matrix.
(** Output rows reversed, input broadcast. *)
Example C68_ex_strides : usable 8 [2] (mkNp 48 [2; 3] [-24; 8]) 3 9 /\ separate 8 [2] (mkNp 48 [2; 3] [-24; 8]) 3 /\ usable 8 [2] (mkNp 0 [2; 3] [0; 8]) 3 3 /\
  blist (nd_antipode 8 (tensor_basis 2 1) (mkNp 48 [2; 3] [-24; 8]) (mkNp 0 [2; 3] [0; 8]) (zeros 9) (sqbuf 3)) = Some [0; 0; 0; 1; -2; -5; 1; -2; -5].
Proof. exact ex_strides. Qed.

(** The Python functions on stacks of tensors in C order give, for every batch index, the
    result of the function on the tensors with that index. *)
Theorem C68_stacks : forall (R : cring) sz, 0 < sz < 2 ^ 64 -> forall a b c : stack R, stack_ok a -> stack_ok b -> stack_ok c ->
  s_shape b = s_shape a -> s_shape c = s_shape a -> b_width (s_basis b) = b_width (s_basis a) -> b_width (s_basis c) = b_width (s_basis a) ->
  0 <= b_depth (s_basis a) -> 0 <= b_depth (s_basis b) -> 0 <= b_depth (s_basis c) ->
  itemwise (s_shape a) (fun I => py_ft_fma (s_at a I) (s_at b I) (s_at c I)) (s_ft_fma sz a b c) /\
  itemwise (s_shape a) (fun I => py_ft_mul (s_at a I) (s_at b I)) (s_ft_mul sz a b) /\
  itemwise (s_shape a) (fun I => py_ft_inplace_mul (s_at a I) (s_at b I)) (s_ft_inplace_mul sz a b) /\
  itemwise (s_shape a) (fun I => py_antipode (s_at a I)) (s_antipode sz a) /\
  itemwise (s_shape a) (fun I => py_st_fma (s_at a I) (s_at b I) (s_at c I)) (s_st_fma sz a b c) /\
  itemwise (s_shape a) (fun I => py_st_mul (s_at a I) (s_at b I)) (s_st_mul sz a b) /\
  itemwise (s_shape a) (fun I => py_ft_adjoint_left_mul (s_at b I) (s_at a I)) (s_ft_adjoint_left_mul sz b a).
Proof. exact stacks_all. Qed.
Print Assumptions C68_stacks.
Theorem C68_stacks_exp : forall (R : qalg) sz, 0 < sz < 2 ^ 64 -> forall (a x : stack R) ob, stack_ok a -> stack_ok x ->
  s_shape x = s_shape a -> b_width (s_basis a) = b_width ob -> b_width (s_basis x) = b_width ob -> 0 <= b_depth ob -> (exists n, basis_size ob = Ok n /\ 0 <= n) ->
  itemwise (s_shape x) (fun I => py_ft_exp (s_at x I) ob) (s_ft_exp sz x ob) /\
  itemwise (s_shape x) (fun I => py_ft_log (s_at x I) ob) (s_ft_log sz x ob) /\
  itemwise (s_shape a) (fun I => py_ft_fmexp (s_at a I) (s_at x I) ob) (s_ft_fmexp sz a x ob).
Proof. exact stacks_exp_all. Qed.
Print Assumptions C68_stacks_exp.
Theorem C68_lie_to_tensor : forall (R : cring) (isz : R -> bool) sz, 0 < sz < 2 ^ 64 -> forall jd ji jp B sh dim (mem : buf R) tb scale,
  Forall (fun n => 0 <= n) sh -> 0 < zprod sh -> 0 <= dim -> blen mem = zprod sh * dim -> (exists n, basis_size tb = Ok n /\ 0 <= n) ->
  (forall I, in_box sh I -> exists y, py_lie_to_tensor isz jd ji jp B (piece mem (ravel sh I * dim) dim) tb scale = Ok y) ->
  exists r, s_lie_to_tensor isz sz jd ji jp B sh dim mem tb scale = Ok r /\ s_shape r = sh /\ stack_ok r /\
    forall I, in_box sh I -> exists y, py_lie_to_tensor isz jd ji jp B (piece mem (ravel sh I * dim) dim) tb scale = Ok y /\ same_tensor (mkT y tb) (s_at r I).
Proof. exact stack_lie_to_tensor. Qed.
Print Assumptions C68_lie_to_tensor.
Theorem C68_tensor_to_lie : forall (R : cring) (isz : R -> bool) sz, 0 < sz < 2 ^ 64 -> forall fuel inv jd ji jp B c (x : stack R) scale, stack_ok x -> 0 < zprod (s_shape x) ->
  (exists n, lb_size B = Ok n /\ 0 <= n) ->
  (forall I, in_box (s_shape x) I -> exists y, py_tensor_to_lie isz fuel inv jd ji jp B c (t_data (s_at x I)) (s_basis x) scale = Ok y) ->
  exists r c' n, s_tensor_to_lie isz sz fuel inv jd ji jp B c x scale = Ok (r, c') /\ lb_size B = Ok n /\ blen r = zprod (s_shape x) * n /\
    forall I, in_box (s_shape x) I -> exists y, py_tensor_to_lie isz fuel inv jd ji jp B c (t_data (s_at x I)) (s_basis x) scale = Ok (y, c') /\ blen y = n /\
      forall k, 0 <= k < n -> bat r (ravel (s_shape x) I * n + k) = bat y k.
Proof. exact stack_tensor_to_lie. Qed.
Print Assumptions C68_tensor_to_lie.
(** In full for some of them: no further hypothesis on the items. *)
Theorem C68_products : forall sz, 0 < sz < 2 ^ 64 -> forall (R : cring) w D (a b : stack R), 0 < w -> tensor_stack w D a -> tensor_stack w D b -> s_shape b = s_shape a ->
  exists r, s_ft_mul sz a b = Ok r /\ s_shape r = s_shape a /\
    forall I, in_box (s_shape a) I -> tensor_ok w D (s_at r I) /\ agree D (tv w D (s_at r I)) (conv (tv w D (s_at a I)) (tv w D (s_at b I))).
Proof. exact values_ft_mul. Qed.
Print Assumptions C68_products.
Theorem C68_shuffles : forall sz, 0 < sz < 2 ^ 64 -> forall (R : cring) w D (a b : stack R), 0 < w -> w <= 32768 -> (D < 64)%nat -> tensor_stack w D a -> tensor_stack w D b -> s_shape b = s_shape a ->
  exists r, s_st_mul sz a b = Ok r /\ s_shape r = s_shape a /\
    forall I, in_box (s_shape a) I -> tensor_ok w D (s_at r I) /\ agree D (tv w D (s_at r I)) (shuf (tv w D (s_at a I)) (tv w D (s_at b I))).
Proof. exact values_st_mul. Qed.
Print Assumptions C68_shuffles.
Theorem C68_antipodes : forall sz, 0 < sz < 2 ^ 64 -> forall (R : cring) w D (a : stack R), 0 < w -> (1 <= D)%nat -> tensor_stack w D a ->
  exists r, s_antipode sz a = Ok r /\ s_shape r = s_shape a /\
    forall I, in_box (s_shape a) I -> tensor_ok w D (s_at r I) /\ agree D (tv w D (s_at r I)) (fun u => rmul (rpow (ropp r1) (length u)) (tv w D (s_at a I) (rev u))).
Proof. exact values_antipode. Qed.
Print Assumptions C68_antipodes.
Theorem C68_exponentials : forall sz, 0 < sz < 2 ^ 64 -> forall (R : qalg) w Dx D (x : stack R), 0 < w -> (D <= Dx)%nat -> tensor_stack w Dx x ->
  exists r, s_ft_exp sz x (tensor_basis w (Z.of_nat D)) = Ok r /\ s_shape r = s_shape x /\
    forall I, in_box (s_shape x) I -> tensor_ok w D (s_at r I) /\
      agree D (tv w D (s_at r I)) (fun u => sum (seq O (S D)) (fun k => rmul (invfact R k) (tpow (noconst R (tv w Dx (s_at x I))) k u))).
Proof. exact values_ft_exp. Qed.
Print Assumptions C68_exponentials.
Theorem C68_logarithms : forall sz, 0 < sz < 2 ^ 64 -> forall (R : qalg) w Dx D (x : stack R), 0 < w -> (D <= Dx)%nat -> tensor_stack w Dx x ->
  exists r, s_ft_log sz x (tensor_basis w (Z.of_nat D)) = Ok r /\ s_shape r = s_shape x /\
    forall I, in_box (s_shape x) I -> tensor_ok w D (s_at r I) /\
      agree D (tv w D (s_at r I)) (fun u => sum (seq O (S D)) (fun k => rmul (plog R k) (tpow (noconst R (tv w Dx (s_at x I))) k u))).
Proof. exact values_ft_log. Qed.
Print Assumptions C68_logarithms.
Theorem C68_fused_exponentials : forall sz, 0 < sz < 2 ^ 64 -> forall (R : qalg) w Da Dx D (a x : stack R), 0 < w -> (D <= Da)%nat -> (D <= Dx)%nat -> tensor_stack w Da a -> tensor_stack w Dx x -> s_shape x = s_shape a ->
  exists r, s_ft_fmexp sz a x (tensor_basis w (Z.of_nat D)) = Ok r /\ s_shape r = s_shape a /\
    forall I, in_box (s_shape a) I -> tensor_ok w D (s_at r I) /\
      agree D (tv w D (s_at r I)) (conv (tv w Da (s_at a I)) (texp D (noconst R (tv w Dx (s_at x I))))).
Proof. exact values_ft_fmexp. Qed.
Print Assumptions C68_fused_exponentials.
(** Every in-range index has its own place in C order. *)
Theorem C68_c_order : forall sz sh n, 0 < sz -> 0 <= n ->
  usable sz sh (c_array sz sh n) n (zprod sh * n) /\ separate sz sh (c_array sz sh n) n /\
  (forall I, in_box sh I -> start sz (c_array sz sh n) I = ravel sh I * n /\ 0 <= ravel sh I < zprod sh) /\
  (forall I J, in_box sh I -> in_box sh J -> ravel sh I = ravel sh J -> I = J).
Proof. exact c_order. Qed.
Print Assumptions C68_c_order.
Example C68_ex : tensor_stack 2 2 stack227 /\ in_box [2; 2] [1; 0] /\
  shown (py_ft_mul (s_at stack227 [1; 0]) (s_at stack227 [1; 0])) = Ok (firstn 7 (skipn 14 (match slist (s_ft_mul 8 stack227 stack227) with Some p => snd p | None => [] end))) /\
  option_map fst (slist (s_ft_mul 8 stack227 stack227)) = Some [2; 2].
Proof. exact ex_stack. Qed.
(** Different batch shapes are refused; there is no broadcasting. *)
Theorem C68_shape_mismatch : forall (R : cring) sz (a b : stack R), s_shape b <> s_shape a ->
  s_ft_mul sz a b = Throw /\ s_ft_inplace_mul sz a b = Throw /\ s_st_mul sz a b = Throw /\ s_ft_adjoint_left_mul sz b a = Throw /\
  forall c, s_ft_fma sz a b c = Throw /\ s_ft_fma sz a c b = Throw /\ s_st_fma sz a b c = Throw /\ s_st_fma sz a c b = Throw.
Proof. exact mismatch_all. Qed.
Print Assumptions C68_shape_mismatch.
(** Nor are vectors of a length that is not that of the conversion matrix. *)
Theorem C68_matrix_mismatch : forall (R : cring) sz (m : csmat R) op out a so no sa na (ob ab : buf R), np_shape out = so ++ [no] -> np_shape a = sa ++ [na] ->
  sa <> so \/ no <> cs_inner m \/ na <> cs_n m -> nd_apply sz m op out a ob ab = Throw.
Proof. exact mismatch_matrix. Qed.
Print Assumptions C68_matrix_mismatch.
(** Data in Fortran order is accepted and gives wrong results. *)
Theorem C68_fortran_order_refuted : exists (ab r : buf Zcr) t, blen ab = 14 /\
  nd_antipode 8 (tensor_basis 2 2) (mkNp 0 [2; 7] [8; 16]) (mkNp 0 [2; 7] [8; 16]) (zeros 14) ab = Ok r /\
  py_antipode (fcol ab 0) = Ok t /\ bat (t_data (fcol r 0)) 2 <> bat (t_data t) 2.
Proof. exact fortran_witness. Qed.
Print Assumptions C68_fortran_order_refuted.
(** The last dimension is not compared with the size of the basis. *)
Theorem C68_short_rows_refuted : nd_antipode (R:=Zcr) 8 (tensor_basis 2 2) (c_array 8 [2] 3) (c_array 8 [2] 3) (zeros 6) (sqbuf 6) = UB.
Proof. exact short_witness. Qed.
Print Assumptions C68_short_rows_refuted.
