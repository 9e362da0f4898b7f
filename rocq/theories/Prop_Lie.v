(** Property theorems C60 and C61: Lie elements and the group they generate.
    [same_coords M x y]: the M coordinates of x and y are equal.  [bracket_table B w M br]:
    br a b is the library's answer for the bracket of keys a and b.  [lprod M br x y]: the
    bracket of two elements given by coordinates, by bilinearity.  [agree], [tv], [conv] as
    in Prop_Tensor.v.  Calls are given with any state of the bracket cache left by earlier
    calls, any fuel with which they return, and any contents of uninitialised memory. *)
From Coq Require Import QArith Qcanon.
From Verif Require Import Outcome Alg Words Mem Series Shuffle TensorModel TensorTop TensorLemmas TensorLemmas2 HallModel HallSpec LieSpec HallLemmas BracketModel BracketLemmas SmhModel SmhLemmas L2tModel L2tLemmas T2lLemmas CbhModel Cbh LieLaws GroupLaws.
Open Scope Z_scope.

(** ** C60 *)
(** Different Lie elements have different tensors. *)
Theorem C60_lie_to_tensor_injective : forall (R : cring) (isz : R -> bool), (forall x, isz x = true <-> x = r0) -> (r1 : R) <> r0 ->
  forall B w N M, standard B w N -> l2t_fits w N -> lb_size B = Ok M ->
  forall jd ji jp jd' ji' jp' x y t t', blen x = M -> blen y = M ->
  py_lie_to_tensor isz jd ji jp B x (tensor_basis w N) None = Ok t -> py_lie_to_tensor isz jd' ji' jp' B y (tensor_basis w N) None = Ok t' ->
  (forall i, 0 <= i < blen t -> bat t i = bat t' i) -> forall i, 0 <= i < M -> bat x i = bat y i.
Proof. exact l2t_injective. Qed.
Print Assumptions C60_lie_to_tensor_injective.
(** tensor_to_lie after lie_to_tensor returns the same coordinates. *)
Theorem C60_round_trip : forall (R : cring) (isz : R -> bool), (forall x, isz x = true <-> x = r0) -> (r1 : R) <> r0 ->
  forall B w N M, standard B w N -> l2t_fits w N -> lb_size B = Ok M ->
  forall inv : Z -> R, (forall d, 1 <= d -> rmul (zr R d) (inv d) = r1) -> small_brackets B w ->
  forall c0 fuel jd ji jp jd' ji' jp' x a y c', reachable w c0 -> blen x = M ->
  py_lie_to_tensor isz jd' ji' jp' B x (tensor_basis w N) None = Ok a -> py_tensor_to_lie isz fuel inv jd ji jp B c0 a (tensor_basis w N) None = Ok (y, c') ->
  blen y = M /\ forall i, 0 <= i < M -> bat y i = bat x i.
Proof. exact t2l_l2t_exact. Qed.
Print Assumptions C60_round_trip.
Theorem C60_tables_exist : forall B w N M, standard B w N -> lb_size B = Ok M -> exists br, bracket_table B w M br.
Proof. exact bracket_table_ex. Qed.
Print Assumptions C60_tables_exist.
(** The bracket makes the coordinate vectors a Lie algebra. *)
Theorem C60_alternating : forall (R : cring) B w N M, standard B w N -> lb_size B = Ok M -> forall br, bracket_table B w M br ->
  forall x i, 0 <= i < M -> @lprod R M br x x i = r0.
Proof. exact lie_alternating. Qed.
Print Assumptions C60_alternating.
Theorem C60_antisymmetric : forall (R : cring) B w N M, standard B w N -> lb_size B = Ok M -> forall br, bracket_table B w M br ->
  forall x y i, 0 <= i < M -> @lprod R M br x y i = ropp (lprod M br y x i).
Proof. exact lie_antisymmetric. Qed.
Print Assumptions C60_antisymmetric.
Theorem C60_jacobi : forall (R : cring) B w N M, standard B w N -> lb_size B = Ok M -> forall br, bracket_table B w M br ->
  forall x y z i, 0 <= i < M ->
  radd (lprod M br x (lprod M br y z) i) (radd (lprod M br y (lprod M br z x) i) (@lprod R M br z (lprod M br x y) i)) = r0.
Proof. exact lie_jacobi. Qed.
Print Assumptions C60_jacobi.
(** lie_to_tensor is a homomorphism: brackets become commutators of tensors. *)
Theorem C60_expands_to_commutator : forall (R : cring) B w N M, standard B w N -> lb_size B = Ok M -> forall br, bracket_table B w M br ->
  forall jd ji jp (isz : R -> bool), (forall x, isz x = true <-> x = r0) -> (r1 : R) <> r0 -> l2t_fits w N ->
  forall x y z tx ty tz, blen x = M -> blen y = M -> blen z = M -> (forall i, 0 <= i < M -> bat z i = lprod M br (bat x) (bat y) i) ->
  py_lie_to_tensor isz jd ji jp B x (tensor_basis w N) None = Ok tx -> py_lie_to_tensor isz jd ji jp B y (tensor_basis w N) None = Ok ty ->
  py_lie_to_tensor isz jd ji jp B z (tensor_basis w N) None = Ok tz ->
  agree (Z.to_nat N) (tv w (Z.to_nat N) (mkT tz (tensor_basis w N))) (comm (tv w (Z.to_nat N) (mkT tx (tensor_basis w N))) (tv w (Z.to_nat N) (mkT ty (tensor_basis w N)))).
Proof. exact lprod_tensor. Qed.
Print Assumptions C60_expands_to_commutator.
(** A key that is not a letter is the bracket of its parents. *)
Theorem C60_key_is_bracket_of_parents : forall (R : cring) B w N M, standard B w N -> lb_size B = Ok M -> forall br, bracket_table B w M br ->
  forall k a b, get_parents B k = Ok (a, b) -> 1 <= a -> forall i, 0 <= i < M ->
  sum (br a b) (fun p => if fst p =? i + 1 then zr R (snd p) else r0) = if k =? i + 1 then r1 else r0.
Proof. exact key_is_bracket. Qed.
Print Assumptions C60_key_is_bracket_of_parents.

(** ** C61 *)
(** Signatures determine Lie elements. *)
Theorem C61_signature_injective : forall (R : qalg) (isz : R -> bool), (forall x, isz x = true <-> x = r0) -> (r1 : R) <> r0 ->
  forall inv : Z -> R, (forall d, 1 <= d -> rmul (zr R d) (inv d) = r1) ->
  forall B w N M, standard B w N -> l2t_fits w N -> lb_size B = Ok M ->
  forall j1 j2 j3 k1 k2 k3 x y g h, blen x = M -> blen y = M ->
  to_signature isz j1 j2 j3 B (tensor_basis w N) x = Ok g -> to_signature isz k1 k2 k3 B (tensor_basis w N) y = Ok h ->
  agree (Z.to_nat N) (tv w (Z.to_nat N) g) (tv w (Z.to_nat N) h) -> same_coords M x y.
Proof. intros; eapply signature_injective; eauto. Qed.
Print Assumptions C61_signature_injective.
(** The logarithm of the signature, projected, is the element. *)
Theorem C61_log_signature : forall (R : qalg) (isz : R -> bool), (forall x, isz x = true <-> x = r0) -> (r1 : R) <> r0 ->
  forall inv : Z -> R, (forall d, 1 <= d -> rmul (zr R d) (inv d) = r1) ->
  forall B w N M, standard B w N -> l2t_fits w N -> lb_size B = Ok M -> small_brackets B w ->
  forall f j1 j2 j3 k1 k2 k3 c d x g l y, reachable w c -> blen x = M ->
  to_signature isz j1 j2 j3 B (tensor_basis w N) x = Ok g -> py_ft_log g (tensor_basis w N) = Ok l ->
  py_tensor_to_lie isz f inv k1 k2 k3 B c (t_data l) (tensor_basis w N) None = Ok (y, d) -> same_coords M y x.
Proof. exact log_signature_roundtrip. Qed.
Print Assumptions C61_log_signature.
(** The product is the only element whose signature is the product of the signatures. *)
Theorem C61_unique : forall (R : qalg) (isz : R -> bool), (forall x, isz x = true <-> x = r0) -> (r1 : R) <> r0 ->
  forall inv : Z -> R, (forall d, 1 <= d -> rmul (zr R d) (inv d) = r1) ->
  forall B w N M, standard B w N -> l2t_fits w N -> lb_size B = Ok M -> small_brackets B w ->
  forall fuel jd ji jp c x y z c' j1 j2 j3 z' s gx gy, reachable w c -> blen x = M -> blen y = M -> blen z' = M ->
  cbh2 isz fuel inv jd ji jp B (tensor_basis w N) c x y = Ok (z, c') ->
  to_signature isz j1 j2 j3 B (tensor_basis w N) x = Ok gx -> to_signature isz j1 j2 j3 B (tensor_basis w N) y = Ok gy -> to_signature isz j1 j2 j3 B (tensor_basis w N) z' = Ok s ->
  agree (Z.to_nat N) (tv w (Z.to_nat N) s) (conv (tv w (Z.to_nat N) gx) (tv w (Z.to_nat N) gy)) -> same_coords M z' z.
Proof. exact cbh2_unique. Qed.
Print Assumptions C61_unique.
Theorem C61_history_independent : forall (R : qalg) (isz : R -> bool), (forall x, isz x = true <-> x = r0) -> (r1 : R) <> r0 ->
  forall inv : Z -> R, (forall d, 1 <= d -> rmul (zr R d) (inv d) = r1) ->
  forall B w N M, standard B w N -> l2t_fits w N -> lb_size B = Ok M -> small_brackets B w ->
  forall f1 f2 j1 j2 j3 k1 k2 k3 c1 c2 x y x' y' z z' d1 d2, reachable w c1 -> reachable w c2 -> blen x = M -> blen y = M -> blen x' = M -> blen y' = M ->
  same_coords M x x' -> same_coords M y y' -> cbh2 isz f1 inv j1 j2 j3 B (tensor_basis w N) c1 x y = Ok (z, d1) ->
  cbh2 isz f2 inv k1 k2 k3 B (tensor_basis w N) c2 x' y' = Ok (z', d2) -> same_coords M z z'.
Proof. exact cbh2_deterministic. Qed.
Print Assumptions C61_history_independent.
Theorem C61_associative : forall (R : qalg) (isz : R -> bool), (forall x, isz x = true <-> x = r0) -> (r1 : R) <> r0 ->
  forall inv : Z -> R, (forall d, 1 <= d -> rmul (zr R d) (inv d) = r1) ->
  forall B w N M, standard B w N -> l2t_fits w N -> lb_size B = Ok M -> small_brackets B w ->
  forall f1 f2 f3 f4 j1 j2 j3 c1 c2 c3 c4 d1 d2 d3 d4 x y z xy yz l r,
  reachable w c1 -> reachable w c2 -> reachable w c3 -> reachable w c4 -> blen x = M -> blen y = M -> blen z = M ->
  cbh2 isz f1 inv j1 j2 j3 B (tensor_basis w N) c1 x y = Ok (xy, d1) -> cbh2 isz f2 inv j1 j2 j3 B (tensor_basis w N) c2 xy z = Ok (l, d2) ->
  cbh2 isz f3 inv j1 j2 j3 B (tensor_basis w N) c3 y z = Ok (yz, d3) -> cbh2 isz f4 inv j1 j2 j3 B (tensor_basis w N) c4 x yz = Ok (r, d4) -> same_coords M l r.
Proof. exact cbh2_assoc. Qed.
Print Assumptions C61_associative.
(** The product of a list may be split anywhere. *)
Theorem C61_list_splits : forall (R : qalg) (isz : R -> bool), (forall x, isz x = true <-> x = r0) -> (r1 : R) <> r0 ->
  forall inv : Z -> R, (forall d, 1 <= d -> rmul (zr R d) (inv d) = r1) ->
  forall B w N M, standard B w N -> l2t_fits w N -> lb_size B = Ok M -> small_brackets B w ->
  forall f1 f2 f3 f4 j1 j2 j3 c1 c2 c3 c4 d1 d2 d3 d4 xs ys a b l r,
  reachable w c1 -> reachable w c2 -> reachable w c3 -> reachable w c4 -> Forall (fun x => blen x = M) xs -> Forall (fun x => blen x = M) ys ->
  cbh isz f1 inv j1 j2 j3 B (tensor_basis w N) c1 xs = Ok (a, d1) -> cbh isz f2 inv j1 j2 j3 B (tensor_basis w N) c2 ys = Ok (b, d2) ->
  cbh isz f3 inv j1 j2 j3 B (tensor_basis w N) c3 (xs ++ ys) = Ok (l, d3) -> cbh2 isz f4 inv j1 j2 j3 B (tensor_basis w N) c4 a b = Ok (r, d4) -> same_coords M l r.
Proof. exact cbh_app. Qed.
Print Assumptions C61_list_splits.
(** Elements with zero bracket are added. *)
Theorem C61_commuting : forall (R : qalg) (isz : R -> bool), (forall x, isz x = true <-> x = r0) -> (r1 : R) <> r0 ->
  forall inv : Z -> R, (forall d, 1 <= d -> rmul (zr R d) (inv d) = r1) ->
  forall B w N M, standard B w N -> l2t_fits w N -> lb_size B = Ok M -> small_brackets B w ->
  forall br f j1 j2 j3 c d x y z, bracket_table B w M br -> reachable w c -> blen x = M -> blen y = M ->
  (forall i, 0 <= i < M -> lprod M br (bat x) (bat y) i = r0) -> cbh2 isz f inv j1 j2 j3 B (tensor_basis w N) c x y = Ok (z, d) ->
  forall i, 0 <= i < M -> bat z i = radd (bat x i) (bat y i).
Proof. exact cbh2_commuting. Qed.
Print Assumptions C61_commuting.
Theorem C61_multiples : forall (R : qalg) (isz : R -> bool), (forall x, isz x = true <-> x = r0) -> (r1 : R) <> r0 ->
  forall inv : Z -> R, (forall d, 1 <= d -> rmul (zr R d) (inv d) = r1) ->
  forall B w N M, standard B w N -> l2t_fits w N -> lb_size B = Ok M -> small_brackets B w ->
  forall f j1 j2 j3 c d a b e x y z, reachable w c -> blen x = M -> blen y = M ->
  (forall i, 0 <= i < M -> bat x i = rmul a (bat e i)) -> (forall i, 0 <= i < M -> bat y i = rmul b (bat e i)) ->
  cbh2 isz f inv j1 j2 j3 B (tensor_basis w N) c x y = Ok (z, d) -> forall i, 0 <= i < M -> bat z i = rmul (radd a b) (bat e i).
Proof. exact cbh2_multiples. Qed.
Print Assumptions C61_multiples.
Theorem C61_unit : forall (R : qalg) (isz : R -> bool), (forall x, isz x = true <-> x = r0) -> (r1 : R) <> r0 ->
  forall inv : Z -> R, (forall d, 1 <= d -> rmul (zr R d) (inv d) = r1) ->
  forall B w N M, standard B w N -> l2t_fits w N -> lb_size B = Ok M -> small_brackets B w ->
  forall f j1 j2 j3 c d x y z, reachable w c -> blen x = M -> blen y = M -> cbh2 isz f inv j1 j2 j3 B (tensor_basis w N) c x y = Ok (z, d) ->
  ((forall i, 0 <= i < M -> bat y i = r0) -> same_coords M z x) /\ ((forall i, 0 <= i < M -> bat x i = r0) -> same_coords M z y).
Proof. exact cbh2_unit. Qed.
Print Assumptions C61_unit.
(** The negative of an element is its inverse, and nothing else is. *)
Theorem C61_inverse : forall (R : qalg) (isz : R -> bool), (forall x, isz x = true <-> x = r0) -> (r1 : R) <> r0 ->
  forall inv : Z -> R, (forall d, 1 <= d -> rmul (zr R d) (inv d) = r1) ->
  forall B w N M, standard B w N -> l2t_fits w N -> lb_size B = Ok M -> small_brackets B w ->
  forall f j1 j2 j3 c d x y z, reachable w c -> blen x = M -> blen y = M -> cbh2 isz f inv j1 j2 j3 B (tensor_basis w N) c x y = Ok (z, d) ->
  ((forall i, 0 <= i < M -> bat z i = r0) <-> forall i, 0 <= i < M -> bat y i = ropp (bat x i)).
Proof. exact cbh2_inverse. Qed.
Print Assumptions C61_inverse.
Example C61_ex : exists B, standard B 2 3 /\ l2t_fits 2 3 /\ small_brackets B 2 /\ lb_size B = Ok 5 /\
  let x := Ok (qb [1; 0; 0; 0; 0]%Q) in let y := Ok (qb [0; 1; 0; 0; 0]%Q) in let z := Ok (qb [1; -1; 2; 0; 0]%Q) in
  qlist (qcbh2 B (qcbh2 B x y) z) = Some [2; 0; 3#2; 5#6; 5#6]%Q /\ qlist (qcbh2 B x (qcbh2 B y z)) = Some [2; 0; 3#2; 5#6; 5#6]%Q /\
  qlist (qcbh2 B (Ok (qb [1; 2; 3; 4; 5]%Q)) (Ok (qb [-1; -2; -3; -4; -5]%Q))) = Some [0; 0; 0; 0; 0]%Q.
Proof. exact ex_group. Qed.
