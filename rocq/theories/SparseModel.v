(** Model of the sparse linear map kernel. *)
From Verif Require Export TensorModel.

(** roughpy_compute/common/sparse_matrix.hpp:158-215 [CompressedMatrix]: data and
    inner indices (n_non_zero entries each), offsets (n_offsets + 1 entries). *)
Record csmat (R : Type) := mkCS {
  cs_data : buf R; cs_idx : buf Z; cs_off : buf Z; cs_n : Z; cs_inner : Z }.
Arguments mkCS {R}. Arguments cs_data {R}. Arguments cs_idx {R}. Arguments cs_off {R}. Arguments cs_n {R}. Arguments cs_inner {R}.

Section Apply.
  Variable R : cring.
  Notation buf := (buf R).
  Local Open Scope cr_scope.

  (** sparse_matrix.hpp:222-227 [in_dim], 65-71 and 102-106: the positions of one
      compressed slice.  The iteration stops when a counter starting at 0 equals
      the slice length, so a negative length never stops inside the arrays. *)
  Definition in_dim (m : csmat R) (d : Z) : outcome (list Z) :=
    let! b := bget (cs_off m) d in
    let! e := bget (cs_off m) (d + 1) in
    if (e - b <? 0)%Z then UB else Ok (zseq b (Z.to_nat (e - b))).

  (** dense/basic/apply_sparse_linear_map.hpp:16-55, compressed rows: lines 25-33. *)
  Definition apply_csr (out : iter * Z) (m : csmat R) (arg : iter * Z) (ob ab : buf) (op : R -> R) : outcome buf :=
    for_ (zrange (cs_n m)) ob (fun i ob =>
      let! row := in_dim m i in
      for_ row ob (fun t ob =>
        let! j := bget (cs_idx m) t in
        let! c := bget (cs_data m) t in
        let! x := fget ab arg j in
        fadd ob out i (op (c * x)))).
  (** Compressed columns: lines 35-42. *)
  Definition apply_csc (out : iter * Z) (m : csmat R) (arg : iter * Z) (ob ab : buf) (op : R -> R) : outcome buf :=
    for_ (zrange (cs_n m)) ob (fun j ob =>
      let! col := in_dim m j in
      for_ col ob (fun t ob =>
        let! i := bget (cs_idx m) t in
        let! c := bget (cs_data m) t in
        let! x := fget ab arg j in
        fadd ob out i (op (c * x)))).
End Apply.
Arguments in_dim {R}. Arguments apply_csr {R}. Arguments apply_csc {R}.
