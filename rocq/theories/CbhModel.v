(** Model of algebra/src/context.cpp: Campbell-Baker-Hausdorff products and signatures
    of Lie elements.  The context's maps and tensor operations are those of libalgebra_lite
    in the C++ library; here they are the modelled compute functions [py_lie_to_tensor],
    [py_tensor_to_lie], [py_ft_exp], [py_ft_fmexp], [py_ft_log], on dense coordinates. *)
From Verif Require Export L2tModel TensorModel.
Open Scope Z_scope.

Section Cbh.
  Variable R : qalg.
  Variable isz : R -> bool.
  Variable fuel : nat.
  Variable inv : Z -> R.
  Variables (jd : Z -> R) (ji jp : Z -> Z).

  (** context.cpp:162-165 [to_signature]: lie_to_tensor(x).exp() *)
  Definition to_signature (B : lie_basis) (tb : basis) (x : buf R) : outcome (dtensor R) :=
    let! t := py_lie_to_tensor isz jd ji jp B x tb None in
    py_ft_exp (mkT t tb) tb.

  (** context.cpp:175-183 [cbh_fallback]: multiply the collector by each exponential,
      skipping elements without coordinates. *)
  Fixpoint cbh_fallback (B : lie_basis) (tb : basis) (collector : dtensor R) (lies : list (buf R)) : outcome (dtensor R) :=
    match lies with
    | [] => Ok collector
    | x :: lies =>
        if negb (blen x =? 0) then
          let! t := py_lie_to_tensor isz jd ji jp B x tb None in
          let! collector := py_ft_fmexp collector (mkT t tb) tb in
          cbh_fallback B tb collector lies
        else cbh_fallback B tb collector lies
    end.

  (** context.cpp:187-197 [cbh].  [convert] of a single element of the same context
      returns a copy of it. *)
  Definition cbh (B : lie_basis) (tb : basis) (c : lcache) (lies : list (buf R)) : outcome (buf R * lcache) :=
    match lies with
    | [x] => Ok (x, c)
    | _ =>
        let! size := basis_size tb in
        let! one := bset (zeros size) 0 r1 in
        let! collector := cbh_fallback B tb (mkT one tb) lies in
        let! l := py_ft_log collector tb in
        py_tensor_to_lie isz fuel inv jd ji jp B c (t_data l) tb None
    end.

  (** context.cpp:210-216 [cbh] of two elements: exp of the first times exp of the second. *)
  Definition cbh2 (B : lie_basis) (tb : basis) (c : lcache) (x y : buf R) : outcome (buf R * lcache) :=
    let! tx := py_lie_to_tensor isz jd ji jp B x tb None in
    let! e := py_ft_exp (mkT tx tb) tb in
    let! ty := py_lie_to_tensor isz jd ji jp B y tb None in
    let! g := py_ft_fmexp e (mkT ty tb) tb in
    let! l := py_ft_log g tb in
    py_tensor_to_lie isz fuel inv jd ji jp B c (t_data l) tb None.
End Cbh.
Arguments to_signature {R}. Arguments cbh_fallback {R}. Arguments cbh {R}. Arguments cbh2 {R}.
