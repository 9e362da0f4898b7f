(** Property theorems C34: building a compressed sparse matrix column by column. *)
From Verif Require Import Outcome Alg Mem SparseModel SparseProofs SmhModel SmhLemmas.
Open Scope Z_scope.

(** For every sequence of "new column" and "add v at row i" calls, the matrix that comes
    out is valid, has exactly the totals as entries, stores no zero and has strictly
    increasing row indices in each column.  [not_cancelled] excludes a column that
    cancels completely while everything before it is zero (see below). *)
Theorem C34_builds : forall (R : cring) (isz : R -> bool), (forall x, isz x = true <-> x = r0) ->
  forall jd ji jp nrows ncols est ops, first_frame R ops -> nframes ops = ncols -> est <> 0 -> not_cancelled ops ->
  (forall i v, In (OVal i v) ops -> 0 <= i < nrows) ->
  exists m, (let! h := srun isz jd ji jp nrows ncols est ops in build_matrix isz h) = Ok m /\
    cs_valid m /\ cs_n m = ncols /\ cs_inner m = nrows /\
    (forall k i, 0 <= k < ncols -> entry m k i = total ops k i) /\
    (forall k t, 0 <= k < ncols -> In t (slice m k) -> bat (cs_data m) t <> r0) /\
    (forall k t t', 0 <= k < ncols -> In t (slice m k) -> In t' (slice m k) -> t < t' -> bat (cs_idx m) t < bat (cs_idx m) t') /\
    blen (cs_data m) = bat (cs_off m) ncols /\ blen (cs_idx m) = bat (cs_off m) ncols.
Proof. exact smh_builds. Qed.
Print Assumptions C34_builds.
Theorem C34_too_few_columns : forall (R : cring) (isz : R -> bool), (forall x, isz x = true <-> x = r0) ->
  forall jd ji jp nrows ncols est ops, first_frame R ops -> nframes ops < ncols -> est <> 0 -> not_cancelled ops ->
  (let! h := srun isz jd ji jp nrows ncols est ops in build_matrix isz h) = Throw.
Proof. exact smh_too_few. Qed.
Print Assumptions C34_too_few_columns.
Theorem C34_too_many_columns : forall (R : cring) (isz : R -> bool), (forall x, isz x = true <-> x = r0) ->
  forall jd ji jp nrows ncols est ops rest, first_frame R ops -> 1 <= ncols -> nframes ops = ncols -> est <> 0 -> not_cancelled ops ->
  srun isz jd ji jp nrows ncols est (ops ++ OFrame :: rest) = Throw.
Proof. exact smh_too_many. Qed.
Print Assumptions C34_too_many_columns.
Example C34_ex_hyps : first_frame Zcr ex_ops /\ nframes ex_ops = 4 /\ not_cancelled ex_ops /\ (forall i v, In (OVal i v) ex_ops -> 0 <= i < 6).
Proof. exact ex_ops_ok. Qed.
Example C34_ex_result : csmat_lists (let! h := srun zisz (fun _ => 77 : Zcr) (fun _ => 88) (fun _ => 99) 6 4 1 ex_ops in build_matrix zisz h) =
  Some ([0; 2; 2; 2; 5], [1; 4; 0; 3; 5], [5 : Zcr; 4 : Zcr; 2 : Zcr; -9 : Zcr; 1 : Zcr]).
Proof. exact ex_ops_result. Qed.

(** Without the side conditions the claim is false: a first column whose values cancel,
    a capacity estimate of zero and a value before any column are out-of-bounds accesses. *)
Theorem C34_cancelled_first_column_refuted : forall jd ji jp,
  (let! h := srun zisz jd ji jp 4 2 8 cancel_ops in build_matrix zisz h) = UB.
Proof. exact cancel_ub. Qed.
Print Assumptions C34_cancelled_first_column_refuted.
Theorem C34_zero_estimate_refuted : forall jd ji jp, (let! h := srun zisz jd ji jp 4 1 0 short_ops in build_matrix zisz h) = UB.
Proof. exact est_zero_ub. Qed.
Print Assumptions C34_zero_estimate_refuted.
Theorem C34_value_before_column_refuted : forall jd ji jp est i v, 1 <= est -> v <> 0 ->
  srun zisz jd ji jp 4 1 est [OVal i (v : Zcr)] = UB.
Proof. exact no_frame_ub. Qed.
Print Assumptions C34_value_before_column_refuted.
