(** Property theorems C12 - C26, C48, C49: the dense tensor calls.

    Reading guide.  A tensor of width [w] and depth [D] is an array with one cell
    per word of length <= D ([tensor_ok w D a]); [tv w D a u] is the coefficient
    of the word [u] (a list of letters; 0 for words that are too long or use a
    letter outside 0..w-1).  [agree D f g] says f and g coincide on all words of
    length <= D.  [conv], [tpow], [texp], [tlog1p], [anti], [shuf] are the usual
    operations on formal series (Series.v, Shuffle.v), defined without reference
    to arrays.  R is an arbitrary commutative ring, or Q-algebra for exp/log. *)
From Verif Require Import TensorLemmas3.
From Coq Require Import QArith Qcanon.
Open Scope Z_scope.

(** ** C12 *)
(** Level starts count the shorter words; [words w n] lists the words of length n. *)
Theorem C12_level_starts : forall w D d, 0 < w -> 0 <= D -> 0 <= d <= D + 1 ->
  dbget (tensor_basis w D) d = Ok (Z.of_nat (length (flat_map (words w) (seq O (Z.to_nat d))))).
Proof. exact db_counts_words. Qed.
Print Assumptions C12_level_starts.
Theorem C12_words_listed_once : forall w n, NoDup (words w n) /\
  forall u, In u (words w n) <-> (Forall (fun x => 0 <= x < w) u /\ length u = n).
Proof. exact (fun w n => conj (words_NoDup w n) (words_In w n)). Qed.
Print Assumptions C12_words_listed_once.
Theorem C12_bijection : forall w, 0 < w -> forall D : nat,
  (forall u, letters_ok w u -> (length u <= D)%nat -> 0 <= pos w u < words_below w (S D)) /\
  (forall u v, letters_ok w u -> letters_ok w v -> pos w u = pos w v -> u = v) /\
  (forall k, 0 <= k < words_below w (S D) -> exists u, letters_ok w u /\ (length u <= D)%nat /\ pos w u = k) /\
  basis_size (tensor_basis w (Z.of_nat D)) = Ok (words_below w (S D)).
Proof. exact coord_bijection. Qed.
Print Assumptions C12_bijection.
Theorem C12_concatenation : forall w, 0 < w -> forall u v, idx w (u ++ v) = idx w u * w ^ Z.of_nat (length v) + idx w v.
Proof. exact idx_app. Qed.
Print Assumptions C12_concatenation.
Theorem C12_unpack_pack : forall w, 0 < w -> forall u, letters_ok w u ->
  unpack_index_to_letters (length u) (idx w u) w = rev u /\
  pack_masked_index (unpack_index_to_letters (length u) (idx w u) w) w (2 ^ Z.of_nat (length u) - 1) (length u) (0, 0, 0, 0)
  = (Z.of_nat (length u), idx w u, 0, 0).
Proof. exact unpack_pack. Qed.
Print Assumptions C12_unpack_pack.
Theorem C12_pack_unpack : forall w, 0 < w -> forall (n : nat) i, 0 <= i < w ^ Z.of_nat n ->
  Forall (fun x => 0 <= x < w) (unpack_index_to_letters n i w) /\ length (unpack_index_to_letters n i w) = n /\
  pack_masked_index (unpack_index_to_letters n i w) w (2 ^ Z.of_nat n - 1) n (0, 0, 0, 0) = (Z.of_nat n, i, 0, 0).
Proof. exact pack_unpack. Qed.
Print Assumptions C12_pack_unpack.
Example C12_ex : pos 3 [2;0;1] = 13 + 19 /\ idx 3 [2;0;1] = 19 /\ letters_ok 3 [2;0;1]. Proof. split; [reflexivity|split; [reflexivity|repeat constructor; lia]]. Qed.

(** ** C13 *)
(** Kernel, any degree bounds (vmin..vmax of each view), any in-bounds offset, any
    post-processing [op] of each product. *)
Theorem C13_ft_fma : forall (R : cring) w, 0 < w -> forall out lhs rhs oo lo ro (ob lb rb : buf R) (op : R -> R),
  vwf w out oo -> vwf w lhs lo -> vwf w rhs ro -> fits w out oo ob -> fits w lhs lo lb -> fits w rhs ro rb ->
  exists ob', ft_fma out lhs rhs ob lb rb op = Ok ob' /\ blen ob' = blen ob /\
    (forall u, letters_ok w u -> in_rng out (Z.of_nat (length u)) = true ->
       bat ob' (oo + pos w u) = radd (bat ob (oo + pos w u))
         (sum (seq O (S (length u))) (fun k =>
            if in_rng lhs (Z.of_nat k) && in_rng rhs (Z.of_nat (length u - k))
            then op (rmul (bat lb (lo + pos w (firstn k u))) (bat rb (ro + pos w (skipn k u)))) else r0))) /\
    (forall k, (forall u, letters_ok w u -> in_rng out (Z.of_nat (length u)) = true -> k <> oo + pos w u) -> bat ob' k = bat ob k).
Proof. exact ft_fma_ok. Qed.
Print Assumptions C13_ft_fma.
(** From Python, with explicit depth arguments. *)
Theorem C13_dense_ft_fma : forall (R : cring) w, 0 < w -> forall (D : nat) od ld rd (ob lb rb : buf R),
  -1 <= od -> -1 <= ld -> -1 <= rd ->
  words_below w (S (Z.to_nat (eff (Z.of_nat D) od))) <= blen ob ->
  words_below w (S (Z.to_nat (eff (Z.of_nat D) ld))) <= blen lb ->
  words_below w (S (Z.to_nat (eff (Z.of_nat D) rd))) <= blen rb ->
  exists ob', dense_ft_fma ob lb rb (tensor_basis w (Z.of_nat D)) od ld rd = Ok ob' /\ blen ob' = blen ob /\
    (forall u, letters_ok w u -> Z.of_nat (length u) <= eff (Z.of_nat D) od ->
       bat ob' (pos w u) = radd (bat ob (pos w u))
         (conv (tvb w (Z.to_nat (eff (Z.of_nat D) ld)) lb) (tvb w (Z.to_nat (eff (Z.of_nat D) rd)) rb) u)) /\
    (forall k, ~ (0 <= k < words_below w (S (Z.to_nat (eff (Z.of_nat D) od)))) -> bat ob' k = bat ob k).
Proof. exact dense_ft_fma_spec. Qed.
Print Assumptions C13_dense_ft_fma.
Theorem C13_ft_mul : forall (R : cring) w, 0 < w -> forall (Da Db : nat) (a b : dtensor R),
  tensor_ok w Da a -> tensor_ok w Db b ->
  exists c, py_ft_mul a b = Ok c /\ tensor_ok w Da c /\ agree Da (tv w Da c) (conv (tv w Da a) (tv w Db b)).
Proof. exact py_ft_mul_spec. Qed.
Print Assumptions C13_ft_mul.
Example C13_ex : tensor_ok 2 2 a22 /\ tensor_ok 2 2 b22 /\ shown (py_ft_mul a22 b22) = Ok [2;4;7;7;15;12;19].
Proof. split; [exact a22_ok|split; [exact b22_ok|reflexivity]]. Qed.

(** ** C14 *)
Theorem C14_inplace_equals_fma : forall (R : cring) w, 0 < w -> forall lhs rhs lo ro (b rb zb : buf R) op,
  vwf w lhs lo -> vwf w rhs ro -> fits w lhs lo b -> fits w rhs ro rb -> blen zb = blen b -> (forall k, bat zb k = r0) ->
  exists r p, ft_inplace_mul lhs rhs b rb op = Ok r /\ ft_fma lhs lhs rhs zb b rb op = Ok p /\
    forall u, letters_ok w u -> in_rng lhs (Z.of_nat (length u)) = true -> bat r (lo + pos w u) = bat p (lo + pos w u).
Proof. exact inplace_is_fma. Qed.
Print Assumptions C14_inplace_equals_fma.
Theorem C14_inplace_product : forall (R : cring) w, 0 < w -> forall lhs rhs lo ro (b rb : buf R) (op : R -> R),
  vwf w lhs lo -> vwf w rhs ro -> fits w lhs lo b -> fits w rhs ro rb ->
  exists b', ft_inplace_mul lhs rhs b rb op = Ok b' /\ blen b' = blen b /\
    (forall u, letters_ok w u -> in_rng lhs (Z.of_nat (length u)) = true ->
       bat b' (lo + pos w u) = sum (seq O (S (length u))) (fun k =>
            if in_rng lhs (Z.of_nat k) && in_rng rhs (Z.of_nat (length u - k))
            then op (rmul (bat b (lo + pos w (firstn k u))) (bat rb (ro + pos w (skipn k u)))) else r0)) /\
    (forall k, (forall u, letters_ok w u -> in_rng lhs (Z.of_nat (length u)) = true -> k <> lo + pos w u) -> bat b' k = bat b k).
Proof. exact ft_inplace_mul_ok. Qed.
Print Assumptions C14_inplace_product.
Theorem C14_inplace_equals_mul : forall (R : cring) w, 0 < w -> forall (D : nat) (a b : dtensor R),
  tensor_ok w D a -> tensor_ok w D b ->
  exists r p, py_ft_inplace_mul a b = Ok r /\ py_ft_mul a b = Ok p /\ agree D (tv w D r) (tv w D p).
Proof. exact inplace_is_mul. Qed.
Print Assumptions C14_inplace_equals_mul.
Example C14_ex : shown (py_ft_inplace_mul a22 b22) = Ok [2;4;7;7;15;12;19]. Proof. reflexivity. Qed.

(** ** C15 *)
Theorem C15_associative : forall (R : cring) w, 0 < w -> forall (Da Db Dc : nat) (a b c : dtensor R),
  tensor_ok w Da a -> tensor_ok w Db b -> tensor_ok w Dc c -> (Da <= Db)%nat ->
  exists ab abc bc abc', py_ft_mul a b = Ok ab /\ py_ft_mul ab c = Ok abc /\ py_ft_mul b c = Ok bc /\ py_ft_mul a bc = Ok abc' /\
    agree Da (tv w Da abc) (tv w Da abc').
Proof. exact mul_assoc. Qed.
Print Assumptions C15_associative.
Theorem C15_unit : forall (R : cring) w, 0 < w -> forall (D : nat) (a : dtensor R), tensor_ok w D a ->
  exists l r, py_ft_mul (t_one R w D) a = Ok l /\ py_ft_mul a (t_one R w D) = Ok r /\ agree D (tv w D l) (tv w D a) /\ agree D (tv w D r) (tv w D a).
Proof. exact mul_unit. Qed.
Print Assumptions C15_unit.
Theorem C15_linear_left : forall (R : cring) w, 0 < w -> forall (Da Db : nat) (a a' b : dtensor R) (c : R),
  tensor_ok w Da a -> tensor_ok w Da a' -> tensor_ok w Db b ->
  exists s p p', py_ft_mul (t_add (t_scale c a) a') b = Ok s /\ py_ft_mul a b = Ok p /\ py_ft_mul a' b = Ok p' /\
    agree Da (tv w Da s) (tv w Da (t_add (t_scale c p) p')).
Proof. exact mul_linear_l. Qed.
Print Assumptions C15_linear_left.
Theorem C15_linear_right : forall (R : cring) w, 0 < w -> forall (Da Db : nat) (a b b' : dtensor R) (c : R),
  tensor_ok w Da a -> tensor_ok w Db b -> tensor_ok w Db b' ->
  exists s p p', py_ft_mul a (t_add (t_scale c b) b') = Ok s /\ py_ft_mul a b = Ok p /\ py_ft_mul a b' = Ok p' /\
    agree Da (tv w Da s) (tv w Da (t_add (t_scale c p) p')).
Proof. exact mul_linear_r. Qed.
Print Assumptions C15_linear_right.
Theorem C15_truncation : forall (R : cring) w, 0 < w -> forall (D Da Db : nat) (a b : dtensor R),
  tensor_ok w Da a -> tensor_ok w Db b -> (D <= Da)%nat -> (D <= Db)%nat ->
  exists p q, py_ft_mul a b = Ok p /\ py_ft_mul (t_cut w D a) (t_cut w D b) = Ok q /\ agree D (tv w D q) (tv w Da p).
Proof. exact mul_truncation. Qed.
Print Assumptions C15_truncation.
Example C15_ex : tensor_ok 2 1 b21 /\ tensor_ok 2 2 a22 /\ (1 <= 2)%nat. Proof. split; [exact b21_ok|split; [exact a22_ok|lia]]. Qed.
(** With a shallower middle operand the two bracketings differ. *)
Theorem C15_mixed_depth_refuted : exists a b c : dtensor Zcr,
  tensor_ok 2 2 a /\ tensor_ok 2 1 b /\ tensor_ok 2 2 c /\
  shown (let! ab := py_ft_mul a b in py_ft_mul ab c) <> shown (let! bc := py_ft_mul b c in py_ft_mul a bc) /\
  (exists l, shown (let! ab := py_ft_mul a b in py_ft_mul ab c) = Ok l) /\ (exists l, shown (let! bc := py_ft_mul b c in py_ft_mul a bc) = Ok l).
Proof. exact assoc_mixed_witness. Qed.
Print Assumptions C15_mixed_depth_refuted.

(** ** C16 *)
Theorem C16_antipode : forall (R : cring) w, 0 < w -> forall (D : nat) (a : dtensor R), tensor_ok w D a -> (1 <= D)%nat ->
  exists r, py_antipode a = Ok r /\ tensor_ok w D r /\
    forall u, (length u <= D)%nat -> tv w D r u = rmul (rpow (ropp r1) (length u)) (tv w D a (rev u)).
Proof. exact antipode_coefficients. Qed.
Print Assumptions C16_antipode.
Theorem C16_involution : forall (R : cring) w, 0 < w -> forall (D : nat) (a : dtensor R), tensor_ok w D a -> (1 <= D)%nat ->
  exists r s, py_antipode a = Ok r /\ py_antipode r = Ok s /\ agree D (tv w D s) (tv w D a).
Proof. exact antipode_involution. Qed.
Print Assumptions C16_involution.
Theorem C16_antihomomorphism : forall (R : cring) w, 0 < w -> forall (D : nat) (a b : dtensor R),
  tensor_ok w D a -> tensor_ok w D b -> (1 <= D)%nat ->
  exists ab l a' b' r, py_ft_mul a b = Ok ab /\ py_antipode ab = Ok l /\ py_antipode a = Ok a' /\ py_antipode b = Ok b' /\ py_ft_mul b' a' = Ok r /\
    agree D (tv w D l) (tv w D r).
Proof. exact antipode_antihom. Qed.
Print Assumptions C16_antihomomorphism.
(** [signature]: exponentials of Lie elements and everything ft_mul / ft_fmexp make of them. *)
Theorem C16_inverse : forall (R : qalg) w, 0 < w -> forall (D : nat) (g : dtensor R), signature R w D g -> (1 <= D)%nat ->
  exists h p q, py_antipode g = Ok h /\ py_ft_mul h g = Ok p /\ py_ft_mul g h = Ok q /\ agree D (tv w D p) tone /\ agree D (tv w D q) tone.
Proof. exact antipode_inverse. Qed.
Print Assumptions C16_inverse.
Theorem C16_depth_zero_refuted : forall (R : cring) w (a : dtensor R), t_basis a = tensor_basis w 0 -> blen (t_data a) = 1 -> py_antipode a = UB.
Proof. exact py_antipode_depth0. Qed.
Print Assumptions C16_depth_zero_refuted.
Example C16_ex : shown (py_antipode a22) = Ok [1;-2;-3;4;6;5;7]. Proof. reflexivity. Qed.

(** ** C17 *)
Theorem C17_exp_kernel : forall (R : qalg) w, 0 < w -> forall out arg oo ao (ob ab : buf R),
  vwf w out oo -> v_min out = 0 -> fits w out oo ob -> vwf w arg ao -> fits w arg ao ab ->
  exists ob', ft_exp out arg ob ab = Ok ob' /\ untouched R w out oo ob ob' /\
    holds R w oo ob' (v_max out) (texp (Z.to_nat (v_max out)) (noconst R (den w arg ao ab))).
Proof. exact ft_exp_ok. Qed.
Print Assumptions C17_exp_kernel.
Theorem C17_exp : forall (R : qalg) w, 0 < w -> forall (Dx D : nat) (x : dtensor R), tensor_ok w Dx x -> (D <= Dx)%nat ->
  exists r, py_ft_exp x (tensor_basis w (Z.of_nat D)) = Ok r /\ tensor_ok w D r /\
    agree D (tv w D r) (fun u => sum (seq O (S D)) (fun k => rmul (invfact R k) (tpow (noconst R (tv w Dx x)) k u))).
Proof. exact py_ft_exp_spec. Qed.
Print Assumptions C17_exp.
Example C17_ex : showq (py_ft_exp (R:=Qcqa) (tq 2 2 [7;1;2;0;0;3;0]) (tensor_basis 2 2)) = Some [1;1;2;1#2;1;4;2]%Q. Proof. vm_compute. reflexivity. Qed.
(** An output basis deeper than the operand reads past the end of the operand. *)
Theorem C17_deeper_output_refuted : exists x : dtensor Qccr, tensor_ok 2 1 x /\ py_ft_exp (R:=Qcqa) x (tensor_basis 2 2) = UB.
Proof. exact exp_deeper_witness. Qed.
Print Assumptions C17_deeper_output_refuted.

(** ** C18 *)
(** The kernel adds (initial first entry) * x^N to the logarithm. *)
Theorem C18_log_kernel : forall (R : qalg) w, 0 < w -> forall out arg oo ao (ob ab : buf R),
  vwf w out oo -> v_min out = 0 -> fits w out oo ob -> vwf w arg ao -> fits w arg ao ab -> 1 <= v_max out ->
  exists ob', ft_log out arg ob ab = Ok ob' /\ untouched R w out oo ob ob' /\
    holds R w oo ob' (v_max out) (tadd (tlog1p (Z.to_nat (v_max out)) (noconst R (den w arg ao ab)))
       (tscal (bat ob oo) (tpow (noconst R (den w arg ao ab)) (Z.to_nat (v_max out))))).
Proof. exact ft_log_ok. Qed.
Print Assumptions C18_log_kernel.
Theorem C18_log : forall (R : qalg) w, 0 < w -> forall (Dx D : nat) (x : dtensor R), tensor_ok w Dx x -> (D <= Dx)%nat ->
  exists r, py_ft_log x (tensor_basis w (Z.of_nat D)) = Ok r /\ tensor_ok w D r /\
    agree D (tv w D r) (fun u => sum (seq O (S D)) (fun k => rmul (plog R k) (tpow (noconst R (tv w Dx x)) k u))).
Proof. exact py_ft_log_spec. Qed.
Print Assumptions C18_log.
(** The coefficients are (-1)^(k+1)/k, and k! times 1/k! is 1. *)
Theorem C18_log_coefficients : forall (R : qalg) (k : nat),
  plog R O = r0 /\ rmul (rnat (S k)) (plog R (S k)) = rpow (ropp r1) k /\ invfact R O = r1 /\ rmul (rnat (S k)) (invfact R (S k)) = invfact R k.
Proof. exact series_coefficients. Qed.
Print Assumptions C18_log_coefficients.
Example C18_ex : showq (py_ft_log (R:=Qcqa) (tq 2 2 [7;1;2;0;0;3;0]) (tensor_basis 2 2)) = Some [0;1;2;-1#2;-1;2;-2]%Q. Proof. vm_compute. reflexivity. Qed.
Theorem C18_log_leak_refuted : exists (ob ob' : buf Qccr) (x : buf Qccr) r r',
  blen ob = 7 /\ blen ob' = 7 /\ blen x = 7 /\
  let v := make_view (Ptr 0) (tensor_basis 2 2) 0 2 in
  ft_log (R:=Qcqa) v v ob x = Ok r /\ ft_log (R:=Qcqa) v v ob' x = Ok r' /\ bat r 3 <> bat r' 3.
Proof. exact log_leak_witness. Qed.
Print Assumptions C18_log_leak_refuted.

(** ** C19 *)
Theorem C19_fmexp_kernel : forall (R : qalg) w, 0 < w -> forall out mul ex oo mo eo (ob mb eb : buf R),
  vwf w out oo -> v_min out = 0 -> fits w out oo ob -> vwf w mul mo -> v_min mul = 0 -> fits w mul mo mb ->
  vwf w ex eo -> fits w ex eo eb ->
  exists ob', ft_fmexp out mul ex ob mb eb = Ok ob' /\ untouched R w out oo ob ob' /\
    holds R w oo ob' (v_max out) (conv (den w mul mo mb) (texp (Z.to_nat (v_max out)) (noconst R (den w ex eo eb)))).
Proof. exact ft_fmexp_ok. Qed.
Print Assumptions C19_fmexp_kernel.
Theorem C19_fmexp : forall (R : qalg) w, 0 < w -> forall (D : nat) (a x : dtensor R), tensor_ok w D a -> tensor_ok w D x ->
  exists r e p, py_ft_fmexp a x (tensor_basis w (Z.of_nat D)) = Ok r /\ py_ft_exp x (tensor_basis w (Z.of_nat D)) = Ok e /\ py_ft_mul a e = Ok p /\
    agree D (tv w D r) (tv w D p).
Proof. exact fmexp_is_mul_exp. Qed.
Print Assumptions C19_fmexp.
Theorem C19_fmexp_depths : forall (R : qalg) w, 0 < w -> forall (Da Dx D : nat) (a x : dtensor R),
  tensor_ok w Da a -> tensor_ok w Dx x -> (D <= Da)%nat -> (D <= Dx)%nat ->
  exists r, py_ft_fmexp a x (tensor_basis w (Z.of_nat D)) = Ok r /\ tensor_ok w D r /\
    agree D (tv w D r) (conv (tv w Da a) (texp D (noconst R (tv w Dx x)))).
Proof. exact py_ft_fmexp_spec. Qed.
Print Assumptions C19_fmexp_depths.
Example C19_ex : showq (py_ft_fmexp (R:=Qcqa) (tq 2 2 [2;1;0;0;0;0;0]) (tq 2 2 [7;1;2;0;0;3;0]) (tensor_basis 2 2)) = Some [2;3;4;2;4;8;4]%Q.
Proof. vm_compute. reflexivity. Qed.

(** ** C20 *)
Theorem C20_log_exp : forall (R : qalg) w, 0 < w -> forall (D : nat) (x : dtensor R), tensor_ok w D x -> bat (t_data x) 0 = r0 ->
  exists g y, py_ft_exp x (tensor_basis w (Z.of_nat D)) = Ok g /\ py_ft_log g (tensor_basis w (Z.of_nat D)) = Ok y /\ agree D (tv w D y) (tv w D x).
Proof. exact log_exp. Qed.
Print Assumptions C20_log_exp.
Theorem C20_exp_log : forall (R : qalg) w, 0 < w -> forall (D : nat) (g : dtensor R), tensor_ok w D g -> bat (t_data g) 0 = r1 ->
  exists x h, py_ft_log g (tensor_basis w (Z.of_nat D)) = Ok x /\ py_ft_exp x (tensor_basis w (Z.of_nat D)) = Ok h /\ agree D (tv w D h) (tv w D g).
Proof. exact exp_log. Qed.
Print Assumptions C20_exp_log.
Example C20_ex : tensor_ok 2 2 (tq 2 2 [1;1;2;0;0;3;0]) /\ bat (t_data (tq 2 2 [1;1;2;0;0;3;0])) 0 = @r1 Qccr.
Proof. split; [split; reflexivity|reflexivity]. Qed.

(** ** C21 *)
Theorem C21_adjoint : forall (R : cring) w, 0 < w -> forall (D : nat) (A x s : dtensor R),
  tensor_ok w D A -> tensor_ok w D x -> tensor_ok w D s ->
  exists p q, py_ft_mul A x = Ok p /\ py_ft_adjoint_left_mul A s = Ok q /\
    pairing w D (tv w D p) (tv w D s) = pairing w D (tv w D x) (tv w D q).
Proof. exact adjoint_duality. Qed.
Print Assumptions C21_adjoint.
(** The coefficients, for operands of any depths. *)
Theorem C21_adjoint_coefficients : forall (R : cring) w, 0 < w -> forall (Dp Da : nat) (op arg : dtensor R),
  tensor_ok w Dp op -> tensor_ok w Da arg ->
  exists r, py_ft_adjoint_left_mul op arg = Ok r /\ tensor_ok w Da r /\
    (forall v, (length v <= Nat.min Dp Da)%nat -> tv w Da r v =
       sum (seq O (S (Nat.min Dp Da - length v))) (fun m => sum (words w m) (fun u => rmul (tv w Dp op u) (tv w Da arg (u ++ v))))) /\
    (forall v, (Nat.min Dp Da < length v)%nat -> tv w Da r v = r0).
Proof. exact py_ft_adj_spec. Qed.
Print Assumptions C21_adjoint_coefficients.
Example C21_ex : shown (py_ft_adjoint_left_mul a22 b22) = Ok [30;-2;13;-1;3;0;2]. Proof. reflexivity. Qed.
Theorem C21_shallow_operator_refuted : exists (A x s p q : dtensor Zcr),
  tensor_ok 2 1 A /\ tensor_ok 2 2 x /\ tensor_ok 2 2 s /\
  py_ft_mul (t_lift A) x = Ok p /\ py_ft_adjoint_left_mul A s = Ok q /\
  pairing 2 2 (tv 2 2 p) (tv 2 2 s) <> pairing 2 2 (tv 2 2 x) (tv 2 2 q).
Proof. exact adjoint_shallow_witness. Qed.
Print Assumptions C21_shallow_operator_refuted.

(** ** C22 *)
Theorem C22_shuffle_kernel : forall (R : cring) w, 0 < w -> w <= 32768 -> forall out lhs rhs oo lo ro (ob lb rb : buf R) (op : R -> R),
  vwf w out oo -> vwf w lhs lo -> vwf w rhs ro -> fits w out oo ob -> fits w lhs lo lb -> fits w rhs ro rb ->
  v_max lhs <= v_max out -> v_max lhs <= v_max rhs -> v_max lhs < 64 ->
  exists ob', st_fma out lhs rhs ob lb rb op = Ok ob' /\ blen ob' = blen ob /\
    (forall u, letters_ok w u -> Z.of_nat (length u) <= v_max lhs ->
       bat ob' (oo + pos w u) = radd (bat ob (oo + pos w u))
         (op (sum (splits u) (fun p => rmul (bat lb (lo + pos w (fst p))) (bat rb (ro + pos w (snd p))))))) /\
    (forall k, (forall u, letters_ok w u -> Z.of_nat (length u) <= v_max lhs -> k <> oo + pos w u) -> bat ob' k = bat ob k).
Proof. exact st_fma_ok. Qed.
Print Assumptions C22_shuffle_kernel.
Theorem C22_st_fma : forall (R : cring) w, 0 < w -> forall (Da Db Dc : nat) (a b c : dtensor R),
  tensor_ok w Da a -> tensor_ok w Db b -> tensor_ok w Dc c -> (Da <= Db)%nat -> (Da <= Dc)%nat -> w <= 32768 -> (Da < 64)%nat ->
  exists r, py_st_fma a b c = Ok r /\ tensor_ok w Da r /\ agree Da (tv w Da r) (tadd (tv w Da a) (shuf (tv w Db b) (tv w Dc c))).
Proof. exact py_st_fma_spec. Qed.
Print Assumptions C22_st_fma.
Theorem C22_commutative : forall (R : cring) w, 0 < w -> forall (D : nat) (a b : dtensor R),
  tensor_ok w D a -> tensor_ok w D b -> w <= 32768 -> (D < 64)%nat ->
  exists p q, py_st_mul a b = Ok p /\ py_st_mul b a = Ok q /\ agree D (tv w D p) (tv w D q).
Proof. exact stmul_comm. Qed.
Print Assumptions C22_commutative.
Theorem C22_associative : forall (R : cring) w, 0 < w -> forall (D : nat) (a b c : dtensor R),
  tensor_ok w D a -> tensor_ok w D b -> tensor_ok w D c -> w <= 32768 -> (D < 64)%nat ->
  exists ab l bc r, py_st_mul a b = Ok ab /\ py_st_mul ab c = Ok l /\ py_st_mul b c = Ok bc /\ py_st_mul a bc = Ok r /\ agree D (tv w D l) (tv w D r).
Proof. exact stmul_assoc. Qed.
Print Assumptions C22_associative.
Theorem C22_unit : forall (R : cring) w, 0 < w -> forall (D : nat) (a : dtensor R), tensor_ok w D a -> w <= 32768 -> (D < 64)%nat ->
  exists l, py_st_mul (t_one R w D) a = Ok l /\ agree D (tv w D l) (tv w D a).
Proof. exact stmul_unit. Qed.
Print Assumptions C22_unit.
Theorem C22_linear : forall (R : cring) w, 0 < w -> forall (D : nat) (a a' b : dtensor R) (c : R),
  tensor_ok w D a -> tensor_ok w D a' -> tensor_ok w D b -> w <= 32768 -> (D < 64)%nat ->
  exists s p p', py_st_mul (t_add (t_scale c a) a') b = Ok s /\ py_st_mul a b = Ok p /\ py_st_mul a' b = Ok p' /\
    agree D (tv w D s) (tv w D (t_add (t_scale c p) p')).
Proof. exact stmul_linear. Qed.
Print Assumptions C22_linear.
(** The product as the dual of interleaving: pairing with any g counts the shuffles. *)
Theorem C22_recursive : forall (R : cring) w, 0 < w -> forall (D : nat) (a b : dtensor R) (g : tens R Z),
  tensor_ok w D a -> tensor_ok w D b -> w <= 32768 -> (D < 64)%nat ->
  exists r, py_st_mul a b = Ok r /\
    pairing w D (tv w D r) g =
    sum (seq O (S D)) (fun n => sum (seq O (S n)) (fun i => sum (words w i) (fun u => sum (words w (n - i)) (fun v =>
      rmul (rmul (tv w D a u) (tv w D b v)) (sum (shuffles u v) g))))).
Proof. exact stmul_shuffles. Qed.
Print Assumptions C22_recursive.
Example C22_ex : shown (py_st_mul a22 b22) = Ok [2;4;7;7;15;14;22]. Proof. reflexivity. Qed.
Theorem C22_shallow_second_refuted : exists a b : dtensor Zcr, tensor_ok 2 2 a /\ tensor_ok 2 1 b /\ py_st_mul a b = UB.
Proof. exact stmul_shallow_witness. Qed.
Print Assumptions C22_shallow_second_refuted.

(** ** C23 *)
Theorem C23_shuffle_identity : forall (R : qalg) w, 0 < w -> forall (D : nat) (g : dtensor R) u v,
  signature R w D g -> (length u + length v <= D)%nat ->
  sum (shuffles u v) (tv w D g) = rmul (tv w D g u) (tv w D g v).
Proof. exact signature_shuffle. Qed.
Print Assumptions C23_shuffle_identity.
(** The same with the product computed by st_mul. *)
Theorem C23_shuffle_product : forall (R : qalg) w, 0 < w -> forall (D p q : nat) (g f h : dtensor R),
  signature R w D g -> tensor_ok w D f -> tensor_ok w D h -> w <= 32768 -> (D < 64)%nat -> (p + q <= D)%nat ->
  (forall u, (p < length u)%nat -> tv w D f u = r0) -> (forall u, (q < length u)%nat -> tv w D h u = r0) ->
  exists r, py_st_mul f h = Ok r /\
    pairing w D (tv w D r) (tv w D g) = rmul (pairing w D (tv w D f) (tv w D g)) (pairing w D (tv w D h) (tv w D g)).
Proof. exact signature_stmul. Qed.
Print Assumptions C23_shuffle_product.
Example C23_ex : exists g, signature Qcqa 2 2 g. Proof. exact signature_example. Qed.

(** ** C24 *)
Theorem C24_csr : forall (R : cring) oit ait oo ao osz asz (m : csmat R) (ob ab : buf R) (op : R -> R),
  cs_valid m -> op r0 = r0 -> (forall x y, op (radd x y) = radd (op x) (op y)) ->
  (forall n, it_addr oit n = oo + n) -> (forall n, it_addr ait n = ao + n) ->
  0 <= oo -> oo + cs_n m <= blen ob -> 0 <= ao -> ao + cs_inner m <= blen ab ->
  exists ob', apply_csr (oit, osz) m (ait, asz) ob ab op = Ok ob' /\ blen ob' = blen ob /\
    (forall i, 0 <= i < cs_n m -> bat ob' (oo + i) = radd (bat ob (oo + i)) (op (sum (zrange (cs_inner m)) (fun j => rmul (entry m i j) (bat ab (ao + j)))))) /\
    (forall k, ~ (oo <= k < oo + cs_n m) -> bat ob' k = bat ob k).
Proof. exact apply_csr_ok. Qed.
Print Assumptions C24_csr.
Theorem C24_csc : forall (R : cring) oit ait oo ao osz asz (m : csmat R) (ob ab : buf R) (op : R -> R),
  cs_valid m -> op r0 = r0 -> (forall x y, op (radd x y) = radd (op x) (op y)) ->
  (forall n, it_addr oit n = oo + n) -> (forall n, it_addr ait n = ao + n) ->
  0 <= oo -> oo + cs_inner m <= blen ob -> 0 <= ao -> ao + cs_n m <= blen ab ->
  exists ob', apply_csc (oit, osz) m (ait, asz) ob ab op = Ok ob' /\ blen ob' = blen ob /\
    (forall i, 0 <= i < cs_inner m -> bat ob' (oo + i) = radd (bat ob (oo + i)) (op (sum (zrange (cs_n m)) (fun j => rmul (entry m j i) (bat ab (ao + j)))))) /\
    (forall k, ~ (oo <= k < oo + cs_inner m) -> bat ob' k = bat ob k).
Proof. exact apply_csc_ok. Qed.
Print Assumptions C24_csc.
Example C24_ex : cs_valid csr_example. Proof. exact csr_example_valid. Qed.

(** ** C25 *)
Theorem C25_stride_one : forall o b mn mx, alike o (mkView (Ptr o) b mn mx) (mkView (Strided o 1) b mn mx).
Proof. exact alike_ptr_stride1. Qed.
Print Assumptions C25_stride_one.
Theorem C25_ft_fma : forall (R : cring) w, 0 < w -> forall out lhs rhs out' lhs' rhs' oo lo ro (ob lb rb : buf R) op,
  alike oo out out' -> alike lo lhs lhs' -> alike ro rhs rhs' ->
  vwf w out oo -> vwf w lhs lo -> vwf w rhs ro -> fits w out oo ob -> fits w lhs lo lb -> fits w rhs ro rb ->
  same R (ft_fma out lhs rhs ob lb rb op) (ft_fma out' lhs' rhs' ob lb rb op).
Proof. exact fma_alike. Qed.
Print Assumptions C25_ft_fma.
Theorem C25_ft_inplace_mul : forall (R : cring) w, 0 < w -> forall lhs rhs lhs' rhs' lo ro (b rb : buf R) op,
  alike lo lhs lhs' -> alike ro rhs rhs' -> vwf w lhs lo -> vwf w rhs ro -> fits w lhs lo b -> fits w rhs ro rb ->
  same R (ft_inplace_mul lhs rhs b rb op) (ft_inplace_mul lhs' rhs' b rb op).
Proof. exact inplace_alike. Qed.
Print Assumptions C25_ft_inplace_mul.
Theorem C25_antipode : forall (R : cring) w, 0 < w -> forall out arg out' arg' oo ao (ob ab : buf R),
  alike oo out out' -> alike ao arg arg' -> vwf w out oo -> vwf w arg ao -> fits w out oo ob -> fits w arg ao ab ->
  1 <= v_max out -> 1 <= v_max arg -> same R (ft_antipode out arg ob ab) (ft_antipode out' arg' ob ab).
Proof. exact antipode_alike. Qed.
Print Assumptions C25_antipode.
Theorem C25_adjoint : forall (R : cring) w, 0 < w -> forall out op arg out' op' arg' oo po ao (ob pb ab : buf R),
  alike oo out out' -> alike po op op' -> alike ao arg arg' ->
  vwf w out oo -> vwf w op po -> vwf w arg ao -> fits w out oo ob -> fits w op po pb -> fits w arg ao ab ->
  same R (ft_adj_lmul out op arg ob pb ab) (ft_adj_lmul out' op' arg' ob pb ab).
Proof. exact adjoint_alike. Qed.
Print Assumptions C25_adjoint.
Theorem C25_st_fma : forall (R : cring) w, 0 < w -> forall out lhs rhs out' lhs' rhs' oo lo ro (ob lb rb : buf R) op,
  alike oo out out' -> alike lo lhs lhs' -> alike ro rhs rhs' ->
  vwf w out oo -> vwf w lhs lo -> vwf w rhs ro -> fits w out oo ob -> fits w lhs lo lb -> fits w rhs ro rb ->
  v_max lhs <= v_max out -> v_max lhs <= v_max rhs -> v_max lhs < 64 -> w <= 32768 ->
  same R (st_fma out lhs rhs ob lb rb op) (st_fma out' lhs' rhs' ob lb rb op).
Proof. exact stfma_alike. Qed.
Print Assumptions C25_st_fma.
Theorem C25_exp : forall (R : qalg) w, 0 < w -> forall out arg out' arg' oo ao (ob ab : buf R),
  alike oo out out' -> alike ao arg arg' -> vwf w out oo -> v_min out = 0 -> vwf w arg ao -> fits w out oo ob -> fits w arg ao ab ->
  same R (ft_exp out arg ob ab) (ft_exp out' arg' ob ab).
Proof. exact exp_alike. Qed.
Print Assumptions C25_exp.
Theorem C25_log : forall (R : qalg) w, 0 < w -> forall out arg out' arg' oo ao (ob ab : buf R),
  alike oo out out' -> alike ao arg arg' -> vwf w out oo -> v_min out = 0 -> vwf w arg ao -> fits w out oo ob -> fits w arg ao ab -> 1 <= v_max out ->
  same R (ft_log out arg ob ab) (ft_log out' arg' ob ab).
Proof. exact log_alike. Qed.
Print Assumptions C25_log.
Theorem C25_fmexp : forall (R : qalg) w, 0 < w -> forall out mul ex out' mul' ex' oo mo eo (ob mb eb : buf R),
  alike oo out out' -> alike mo mul mul' -> alike eo ex ex' -> vwf w out oo -> v_min out = 0 -> vwf w mul mo -> v_min mul = 0 -> vwf w ex eo ->
  fits w out oo ob -> fits w mul mo mb -> fits w ex eo eb ->
  same R (ft_fmexp out mul ex ob mb eb) (ft_fmexp out' mul' ex' ob mb eb).
Proof. exact fmexp_alike. Qed.
Print Assumptions C25_fmexp.
(** Any other stride: the cell addressed is not the element's cell, except in level 0. *)
Theorem C25_other_strides : forall base s db i,
  it_addr (it_add (Strided base s) db) i = base + (db + i) * s <-> s = 1 \/ db = 0.
Proof. exact strided_address. Qed.
Print Assumptions C25_other_strides.
Theorem C25_stride_two_refuted : exists (a2 : buf Zcr) (a1 : buf Zcr) (r r' : buf Zcr),
  (forall e, 0 <= e < 3 -> bat a2 (2 * e) = bat a1 e) /\ blen a2 = 5 /\ blen a1 = 3 /\
  let bs := tensor_basis 2 1 in let o := make_view (Ptr 0) bs 0 1 in
  ft_fma o (make_view (Ptr 0) bs 0 1) o (zeros 3) a1 a1 (fun x => x) = Ok r /\
  ft_fma o (make_view (Strided 0 2) bs 0 1) o (zeros 3) a2 a1 (fun x => x) = Ok r' /\ bat r 1 <> bat r' 1.
Proof. exact stride_two_witness. Qed.
Print Assumptions C25_stride_two_refuted.

(** ** C26 *)
Theorem C26_ft_mul : forall (R : cring) w, 0 < w -> forall (Da Db : nat) (a b : dtensor R),
  tensor_ok w Da a -> tensor_ok w Db b ->
  exists c, py_ft_mul a b = Ok c /\ tensor_ok w Da c /\ agree Da (tv w Da c) (conv (tv w Da a) (tv w Db b)).
Proof. exact py_ft_mul_spec. Qed.
Print Assumptions C26_ft_mul.
Theorem C26_ft_inplace_mul : forall (R : cring) w, 0 < w -> forall (Da Db : nat) (a b : dtensor R),
  tensor_ok w Da a -> tensor_ok w Db b ->
  exists r, py_ft_inplace_mul a b = Ok r /\ tensor_ok w Da r /\
    agree (Nat.min Da Db) (tv w Da r) (conv (tv w Da a) (tv w Db b)) /\
    (forall u, (Nat.min Da Db < length u)%nat -> tv w Da r u = tv w Da a u).
Proof. exact py_ft_inplace_mul_spec. Qed.
Print Assumptions C26_ft_inplace_mul.
Theorem C26_ft_fma : forall (R : cring) w, 0 < w -> forall (Da Db Dc : nat) (a b c : dtensor R),
  tensor_ok w Da a -> tensor_ok w Db b -> tensor_ok w Dc c -> (Nat.min Db Dc <= Da)%nat ->
  exists r, py_ft_fma a b c = Ok r /\ tensor_ok w Da r /\
    agree (Nat.min Db Dc) (tv w Da r) (tadd (tv w Da a) (conv (tv w Db b) (tv w Dc c))) /\
    (forall u, (Nat.min Db Dc < length u)%nat -> tv w Da r u = tv w Da a u).
Proof. exact py_ft_fma_spec. Qed.
Print Assumptions C26_ft_fma.
Theorem C26_ft_fma_shallow_accumulator_refuted : forall (R : cring) w, 0 < w -> forall (Da Db Dc : nat) (a b c : dtensor R),
  tensor_ok w Da a -> tensor_ok w Db b -> tensor_ok w Dc c -> (Da < Nat.min Db Dc)%nat -> py_ft_fma a b c = UB.
Proof. exact py_ft_fma_ub. Qed.
Print Assumptions C26_ft_fma_shallow_accumulator_refuted.
Theorem C26_adjoint_deeper_operator : forall (R : cring) w, 0 < w -> forall (Dp Da : nat) (op arg : dtensor R),
  tensor_ok w Dp op -> tensor_ok w Da arg -> (Da <= Dp)%nat ->
  exists r, py_ft_adjoint_left_mul op arg = Ok r /\ tensor_ok w Da r /\ agree Da (tv w Da r) (adjl w Da (tv w Dp op) (tv w Da arg)).
Proof. exact adjoint_deeper_operator. Qed.
Print Assumptions C26_adjoint_deeper_operator.
(** Concrete differences from the product. *)
Theorem C26_inplace_refuted : exists a b : dtensor Zcr, tensor_ok 2 2 a /\ tensor_ok 2 1 b /\
  exists l l', shown (py_ft_inplace_mul a b) = Ok l /\ shown (py_ft_mul a b) = Ok l' /\ l <> l'.
Proof. exact inplace_shallow_witness. Qed.
Print Assumptions C26_inplace_refuted.
Theorem C26_fma_refuted : exists a b c p : dtensor Zcr, tensor_ok 2 2 a /\ tensor_ok 2 2 b /\ tensor_ok 2 1 c /\ py_ft_mul b c = Ok p /\
  exists l l', shown (py_ft_fma a b c) = Ok l /\ show (t_add a p) = l' /\ l <> l'.
Proof. exact fma_shallow_witness. Qed.
Print Assumptions C26_fma_refuted.

(** ** C48 *)
Theorem C48_bounds : forall w D mx mn, 0 <= D ->
  let m := if (mx =? -1) || (D <? mx) then D else mx in
  (mn <= m -> update_bounds (tensor_basis w D) mx mn = Ok (mn, m)) /\
  (m < mn -> update_bounds (tensor_basis w D) mx mn = Throw).
Proof. exact bounds_thm. Qed.
Print Assumptions C48_bounds.
(** Effect on a call: depths below -1 raise, all others act as the clamped depth. *)
Theorem C48_dense_ft_fma : forall (R : cring) w (D : nat) od ld rd (ob lb rb : buf R),
  (od < -1 \/ ld < -1 \/ rd < -1 -> dense_ft_fma ob lb rb (tensor_basis w (Z.of_nat D)) od ld rd = Throw) /\
  (-1 <= od -> -1 <= ld -> -1 <= rd ->
   dense_ft_fma ob lb rb (tensor_basis w (Z.of_nat D)) od ld rd =
   dense_ft_fma ob lb rb (tensor_basis w (Z.of_nat D)) (eff (Z.of_nat D) od) (eff (Z.of_nat D) ld) (eff (Z.of_nat D) rd)).
Proof. exact fma_depth_args. Qed.
Print Assumptions C48_dense_ft_fma.

(** ** C49 *)
Theorem C49_inplace_addition : forall (R : cring) w, 0 < w -> forall lhs rhs lo ro (b rb : buf R) op, okv R w lhs lo b -> okv R w rhs ro rb ->
  exists b', vector_inplace_addition lhs rhs b rb op = Ok b' /\ blen b' = blen b /\
    forall k, bat b' k = if (lo <=? k) && (k <? lo + Z.min (vsize w lhs) (vsize w rhs)) then radd (bat b k) (op (bat rb (ro + (k - lo)))) else bat b k.
Proof. exact vector_inplace_addition_ok. Qed.
Print Assumptions C49_inplace_addition.
Theorem C49_scalar_multiply : forall (R : cring) w, 0 < w -> forall out inp oo io (ob ib : buf R) c, okv R w out oo ob -> okv R w inp io ib ->
  exists b', vector_scalar_multiply out inp ob ib c = Ok b' /\ blen b' = blen ob /\
    forall k, bat b' k = if (oo <=? k) && (k <? oo + Z.min (vsize w out) (vsize w inp)) then rmul (bat ib (io + (k - oo))) c else bat ob k.
Proof. exact vector_scalar_multiply_ok. Qed.
Print Assumptions C49_scalar_multiply.
Theorem C49_inplace_scalar_multiply : forall (R : cring) w, 0 < w -> forall arg ao (b : buf R) c, okv R w arg ao b ->
  exists b', vector_inplace_scalar_multiply arg b c = Ok b' /\ blen b' = blen b /\
    forall k, bat b' k = if (ao <=? k) && (k <? ao + vsize w arg) then rmul (bat b k) c else bat b k.
Proof. exact vector_inplace_scalar_multiply_ok. Qed.
Print Assumptions C49_inplace_scalar_multiply.
Theorem C49_addition : forall (R : cring) w, 0 < w -> forall out lhs rhs oo lo ro (ob lb rb : buf R) lop rop,
  okv R w out oo ob -> okv R w lhs lo lb -> okv R w rhs ro rb ->
  exists b', vector_addition out lhs rhs ob lb rb lop rop = Ok b' /\ blen b' = blen ob /\
    forall k, bat b' k = if (oo <=? k) && (k <? oo + Z.min (vsize w out) (Z.max (vsize w lhs) (vsize w rhs))) then
        (if k - oo <? vsize w lhs then if k - oo <? vsize w rhs then radd (lop (bat lb (lo + (k - oo)))) (rop (bat rb (ro + (k - oo))))
                                      else lop (bat lb (lo + (k - oo)))
         else rop (bat rb (ro + (k - oo))))
      else bat ob k.
Proof. exact vector_addition_ok. Qed.
Print Assumptions C49_addition.
(** The number of cells of a view, as the code computes it. *)
Theorem C49_view_size : forall w, 0 < w -> forall v off, vwf w v off -> v_min v <= v_max v + 1 -> v_size v = Ok (vsize w v).
Proof. exact v_size_ok. Qed.
Print Assumptions C49_view_size.
