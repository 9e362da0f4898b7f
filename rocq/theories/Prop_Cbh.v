(** Property theorems C51: the Campbell-Baker-Hausdorff product.  [conv] is the tensor
    product of series, [tone] its unit (Series.v); [agree], [tv] as in Prop_Tensor.v. *)
From Coq Require Import QArith Qcanon.
From Verif Require Import Outcome Alg Words Mem Series Shuffle TensorModel TensorTop TensorLemmas TensorLemmas2 HallModel HallSpec LieSpec HallLemmas BracketModel BracketLemmas SmhModel SmhLemmas L2tModel L2tLemmas T2lLemmas CbhModel Cbh.
Open Scope Z_scope.

(** Whatever is built from exponentials of Lie elements by products has a logarithm that
    is a Lie element: tensor_to_lie and back loses nothing. *)
Theorem C51_log_of_signature_is_lie : forall (R : qalg) (isz : R -> bool), (forall x, isz x = true <-> x = r0) -> (r1 : R) <> r0 ->
  forall inv : Z -> R, (forall d, 1 <= d -> rmul (zr R d) (inv d) = r1) ->
  forall B w N M c0, standard B w N -> l2t_fits w N -> small_brackets B w -> reachable w c0 -> lb_size B = Ok M ->
  exists F, forall fuel jd ji jp g, (F <= fuel)%nat -> signature R w (Z.to_nat N) g ->
  exists l x c' y, py_ft_log g (tensor_basis w N) = Ok l /\ py_tensor_to_lie isz fuel inv jd ji jp B c0 (t_data l) (tensor_basis w N) None = Ok (x, c') /\
    reachable w c' /\ blen x = M /\ py_lie_to_tensor isz jd ji jp B x (tensor_basis w N) None = Ok y /\
    agree (Z.to_nat N) (tv w (Z.to_nat N) (mkT y (tensor_basis w N))) (tv w (Z.to_nat N) l).
Proof. exact log_signature_is_lie. Qed.
Print Assumptions C51_log_of_signature_is_lie.
(** cbh of a list of Lie elements: its signature is the product, in order, of theirs. *)
Theorem C51_cbh : forall (R : qalg) (isz : R -> bool), (forall x, isz x = true <-> x = r0) -> (r1 : R) <> r0 ->
  forall inv : Z -> R, (forall d, 1 <= d -> rmul (zr R d) (inv d) = r1) ->
  forall B w N M, standard B w N -> l2t_fits w N -> lb_size B = Ok M -> small_brackets B w -> forall c0, reachable w c0 ->
  exists F, forall fuel jd ji jp xs, (F <= fuel)%nat -> Forall (fun x => blen x = M) xs ->
  exists z c' s gs, cbh isz fuel inv jd ji jp B (tensor_basis w N) c0 xs = Ok (z, c') /\ reachable w c' /\ blen z = M /\
    to_signature isz jd ji jp B (tensor_basis w N) z = Ok s /\
    Forall2 (fun x g => to_signature isz jd ji jp B (tensor_basis w N) x = Ok g) xs gs /\
    agree (Z.to_nat N) (tv w (Z.to_nat N) s) (fold_right (fun g a => conv (tv w (Z.to_nat N) g) a) tone gs).
Proof. exact cbh_product. Qed.
Print Assumptions C51_cbh.
(** The two-argument overload. *)
Theorem C51_cbh2 : forall (R : qalg) (isz : R -> bool), (forall x, isz x = true <-> x = r0) -> (r1 : R) <> r0 ->
  forall inv : Z -> R, (forall d, 1 <= d -> rmul (zr R d) (inv d) = r1) ->
  forall B w N M, standard B w N -> l2t_fits w N -> lb_size B = Ok M -> small_brackets B w -> forall c0, reachable w c0 ->
  exists F, forall fuel jd ji jp x y, (F <= fuel)%nat -> blen x = M -> blen y = M ->
  exists z c' s gx gy, cbh2 isz fuel inv jd ji jp B (tensor_basis w N) c0 x y = Ok (z, c') /\ reachable w c' /\ blen z = M /\
    to_signature isz jd ji jp B (tensor_basis w N) z = Ok s /\ to_signature isz jd ji jp B (tensor_basis w N) x = Ok gx /\
    to_signature isz jd ji jp B (tensor_basis w N) y = Ok gy /\
    agree (Z.to_nat N) (tv w (Z.to_nat N) s) (conv (tv w (Z.to_nat N) gx) (tv w (Z.to_nat N) gy)).
Proof. exact cbh2_product. Qed.
Print Assumptions C51_cbh2.
(** cbh(x, y) = x + y + 1/2 [x,y] + 1/12 [x,[x,y]] - 1/12 [y,[x,y]] for the two letters. *)
Example C51_ex : exists B, construct_lie_basis junk0 junk0 2 3 = Ok B /\ standard B 2 3 /\ l2t_fits 2 3 /\ small_brackets B 2 /\
  option_map (map this) (buf_list (fstout (cbh (R:=Qcqa) qisz 50 qinvz (fun _ => 0%Qc : Qccr) (fun _ => 88) (fun _ => 99) B (tensor_basis 2 3) lc_empty
     [buf_of (0%Qc : Qccr) (map Q2Qc [1; 0; 0; 0; 0]%Q); buf_of (0%Qc : Qccr) (map Q2Qc [0; 1; 0; 0; 0]%Q)]))) = Some [1; 1; 1#2; 1#12; -1#12]%Q.
Proof. exact ex_cbh. Qed.
