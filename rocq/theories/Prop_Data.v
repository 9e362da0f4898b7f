(** C69, C70: how Python data becomes coefficients and stream rows.  The specification is in
    DataSpec.v. *)
From Verif Require Import DataWit.
Open Scope Z_scope.

(** C69.  Lie(data), FreeTensor(data), ShuffleTensor(data) without arrays. *)
Theorem C69_elements : forall V of_int conv zero tensor t (v : pyval V) xs ks, plain v = true ->
  (coefficients of_int conv zero (elem_opts tensor (Some t)) v = Ok ((xs, ks), t) <-> element_data of_int conv tensor t v xs ks).
Proof. exact w_elements. Qed.
Print Assumptions C69_elements.
(** LieIncrementStream.from_increments(data) without arrays. *)
Theorem C69_streams : forall V of_int conv zero t (v : pyval V) rows, plain v = true ->
  (increments of_int conv zero (Some t) v = Ok (rows, t) <-> stream_rows of_int conv t v rows).
Proof. exact increments_exact. Qed.
Print Assumptions C69_streams.
Theorem C69_defined : forall V of_int conv zero o t (v : pyval V), plain v = true ->
  coefficients of_int conv zero o v <> UB /\ coefficients of_int conv zero o v <> NoFuel /\
  increments of_int conv zero t v <> UB /\ increments of_int conv zero t v <> NoFuel.
Proof. exact plain_safe. Qed.
Print Assumptions C69_defined.
Example C69_ex_plain : plain some_rows = true /\ zinc (Some SRational) some_rows = Ok ([[1; 2]; [5; 4]; [7; 8; 9]], SRational) /\
  zinc None some_rows = Ok ([[1; 2]; [5; 4]; [7; 8; 9]], SDouble) /\ zco (lie_opts (Some SRational)) (PDict [(int 3, dbl 5); (int 1, dbl 4)]) = Ok (([5; 4], Some [3; 1]), SRational).
Proof. exact ex_rows. Qed.
(** One-dimensional arrays, contiguous or not. *)
Theorem C69_vectors : forall V of_int conv zero tensor t (a : arr V) n s, number_array a -> halved a -> a_shape a = [n] -> 0 < n ->
  (a_strides a = None /\ s = 1 \/ a_strides a = Some [s]) -> misread t a = false -> same_type_same_value conv t a ->
  (forall i, 0 <= i < n -> exists x, value_at conv t (elem1 a s i) x) ->
  exists r, increments of_int conv zero (Some t) (PDl a) = Ok ([r], t) /\ coefficients of_int conv zero (elem_opts tensor (Some t)) (PDl a) = Ok ((r, None), t) /\
    vector r n (fun i x => value_at conv t (elem1 a s i) x).
Proof. exact w_vector. Qed.
Print Assumptions C69_vectors.
(** Two-dimensional arrays: contiguous ones, transposed ones, ones with a step in the last
    dimension. *)
Theorem C69_matrices : forall V of_int conv zero t (a : arr V) m n s0 s1, number_array a -> halved a -> a_shape a = [m; n] -> 0 < m -> 0 < n ->
  (a_strides a = None /\ s0 = n /\ s1 = 1 \/ a_strides a = Some [s0; s1] /\ (s1 <> 1 \/ s0 = n \/ m = 1 \/ n = 1)) ->
  misread t a = false -> same_type_same_value conv t a ->
  (forall i j, 0 <= i < m -> 0 <= j < n -> exists x, value_at conv t (elem2 a s0 s1 i j) x) ->
  exists rows, increments of_int conv zero (Some t) (PDl a) = Ok (rows, t) /\ matrix rows m n (fun i j x => value_at conv t (elem2 a s0 s1 i j) x).
Proof. exact w_matrix. Qed.
Print Assumptions C69_matrices.
Theorem C69_list_of_vectors : forall V of_int conv zero t (l : list (arr V)) rows, l <> [] -> Forall (fun a => length (a_shape a) = 1%nat) l ->
  (increments of_int conv zero (Some t) (PList (map PDl l)) = Ok (rows, t) <->
   exists rs, Forall2 (fun a r => increments of_int conv zero (Some t) (PDl a) = Ok (r, t)) l rs /\ rows = concat rs).
Proof. exact list_of_vectors. Qed.
Print Assumptions C69_list_of_vectors.
(** Contiguous buffers of the type asked for. *)
Theorem C69_buffers : forall V of_int conv zero t (a : arr V) m n, st_info t = a_info a -> a_shape a = [m; n] -> 0 < m -> 0 < n ->
  (a_strides a = None \/ a_strides a = Some [n * ti_bytes (a_info a); ti_bytes (a_info a)]) ->
  (forall i j, 0 <= i < m -> 0 <= j < n -> exists x, a_mem a (a_info a) ((i * n + j) * ti_bytes (a_info a)) = Some x) ->
  exists rows, increments of_int conv zero (Some t) (PBuf a) = Ok (rows, t) /\ matrix rows m n (fun i j x => a_mem a (a_info a) ((i * n + j) * ti_bytes (a_info a)) = Some x).
Proof. exact buffer_matrix. Qed.
Print Assumptions C69_buffers.
Example C69_ex_arrays : misread SDouble strided1 = false /\ misread SDouble strided2 = false /\ good_strides Z strided2 2 3 1 2 /\
  zinc (Some SDouble) (PDl strided1) = Ok ([[0; 3; 6]], SDouble) /\ zinc (Some SDouble) (PDl strided2) = Ok ([[0; 2; 4]; [1; 3; 5]], SDouble) /\
  zinc (Some SRational) (PList [PDl strided1; PDl strided1]) = Ok ([[0; 3; 6]; [0; 3; 6]], SRational).
Proof. exact ex_strided. Qed.

Example C69_ex_unsigned : number_array small_bytes /\ halved small_bytes /\ zinc (Some SDouble) (PDl small_bytes) = Ok ([[5; 7]; [6; 8]], SDouble).
Proof. exact small_bytes_ex. Qed.

(** What does not hold.  Unsigned integers are taken for signed ones of the same size. *)
Theorem C69_unsigned_read : forall V of_int conv zero t (a : arr V) n s, number_array a -> ti_code (a_info a) = TUInt -> a_shape a = [n] -> 0 < n ->
  (a_strides a = None /\ s = 1 \/ a_strides a = Some [s]) ->
  (forall i, 0 <= i < n -> exists x, value_at conv t (elem1_as (mkTI TInt (ti_bytes (a_info a))) a s i) x) ->
  exists r, increments of_int conv zero (Some t) (PDl a) = Ok ([r], t) /\ vector r n (fun i x => value_at conv t (elem1_as (mkTI TInt (ti_bytes (a_info a))) a s i) x).
Proof. exact w_unsigned. Qed.
Print Assumptions C69_unsigned_read.
Theorem C69_unsigned_refuted : elem1 bytes2 1 0 = Some 200 /\ elem1 bytes2 1 1 = Some 7 /\ zinc (Some SDouble) (PDl bytes2) = Ok ([[-56; 7]], SDouble).
Proof. exact unsigned_witness. Qed.
Print Assumptions C69_unsigned_refuted.
(** Arrays of bool, complex numbers and other types end the process. *)
Theorem C69_other_types_refuted : forall V of_int conv zero t (a : arr V) n, (t = SFloat \/ t = SDouble) -> ti_code (a_info a) = TOther ->
  a_shape a = [n] -> 0 < n -> a_strides a = None -> increments of_int conv zero (Some t) (PDl a) = UB.
Proof. exact w_unreadable. Qed.
Print Assumptions C69_other_types_refuted.
(** Some columns of a wider matrix: row [i] is written from position [i]
    on, over what was there, and the end stays zero. *)
Theorem C69_columns_read : forall V of_int conv zero t (a : arr V) m n s0, number_array a -> halved a -> a_shape a = [m; n] -> 1 < m -> 1 < n ->
  a_strides a = Some [s0; 1] -> s0 <> n -> misread t a = false -> same_type_same_value conv t a ->
  (forall i j, 0 <= i < m -> 0 <= j < n -> exists x, value_at conv t (elem2 a s0 1 i j) x) ->
  exists rows, increments of_int conv zero (Some t) (PDl a) = Ok (rows, t) /\
    matrix rows m n (fun i j x => let k := i * n + j in let p := Z.min k (m - 1) in
      if k <? m - 1 + n then value_at conv t (elem2 a s0 1 p (k - p)) x else x = zero t).
Proof. exact w_overlap. Qed.
Print Assumptions C69_columns_read.
Theorem C69_columns_refuted : (forall i j, 0 <= i < 3 -> 0 <= j < 2 -> elem2 columns 4 1 i j = Some (4 * i + j)) /\
  zinc (Some SDouble) (PDl columns) = Ok ([[0; 4]; [8; 9]; [0; 0]], SDouble).
Proof. exact columns_witness. Qed.
Print Assumptions C69_columns_refuted.
(** Keys of stream rows are lost. *)
Theorem C69_stream_keys_refuted : forall V of_int conv zero t k k' (x : pyval V) y, 0 <= k < 2 ^ 64 -> 0 <= k' < 2 ^ 64 ->
  number of_int conv t x y -> (exists i, known_type x i) ->
  increments of_int conv zero (Some t) (PDict [(PInt true k, x)]) = Ok ([[y]], t) /\ increments of_int conv zero (Some t) (PDict [(PInt true k', x)]) = Ok ([[y]], t).
Proof. exact w_keys. Qed.
Print Assumptions C69_stream_keys_refuted.
(** A list of two-entry tuples is one keyed row; a list of two-entry lists is rows. *)
Theorem C69_tuples_refuted : zinc (Some SDouble) (PList [PTuple [int 1; int 2]; PTuple [int 3; int 4]]) = Ok ([[2; 4]], SDouble) /\
  zinc (Some SDouble) (PList [PList [int 1; int 2]; PList [int 3; int 4]]) = Ok ([[1; 2]; [3; 4]], SDouble).
Proof. exact tuples_witness. Qed.
Print Assumptions C69_tuples_refuted.
(** Every eighth element of an array of doubles; an array with stride zero. *)
Theorem C69_eighth_refuted : elem1 every8 8 1 = Some 8 /\ zinc (Some SDouble) (PDl every8) = Ok ([[0; 1; 2]], SDouble).
Proof. exact sliced_witness. Qed.
Print Assumptions C69_eighth_refuted.
Theorem C69_broadcast_refuted : (forall i, elem1 broadcast 0 i = Some 0) /\ zinc (Some SDouble) (PDl broadcast) = UB.
Proof. exact broadcast_witness. Qed.
Print Assumptions C69_broadcast_refuted.
(** Arrays without dimensions. *)
Theorem C69_zero_dim_refuted : zinc (Some SDouble) (PDl scalar0) = UB /\
  a_mem one_elem (a_info one_elem) 0 = Some 7 /\ zco (tensor_opts (Some SDouble)) (PDl one_elem) = Ok (([7], None), SDouble) /\ zco (tensor_opts (Some SRational)) (PDl one_elem) = Ok (([0], None), SRational).
Proof. exact (conj (proj1 zero_dim_witness) zero_dim_value_witness). Qed.
Print Assumptions C69_zero_dim_refuted.
(** Buffers of another type than the one asked for are read out of bounds, those in Fortran
    order in the wrong order. *)
Theorem C69_buffer_conversion_refuted : forall V of_int conv zero t (a : arr V), st_info t <> a_info a -> llen (a_shape a) <= 2 ->
  llen (a_shape a) < ti_bytes (a_info a) -> increments of_int conv zero (Some t) (PBuf a) = UB.
Proof. exact buffer_conversion_ub. Qed.
Print Assumptions C69_buffer_conversion_refuted.
Theorem C69_fortran_buffer_refuted : a_mem f_order (a_info f_order) (0 * 8 + 1 * 16) = Some 2 /\ zinc (Some SDouble) (PBuf f_order) = Ok ([[0; 1]; [2; 3]], SDouble).
Proof. exact fortran_buf_witness. Qed.
Print Assumptions C69_fortran_buffer_refuted.
(** Whether a list is accepted depends on which number comes first. *)
Theorem C69_order_refuted : zinc (Some SDouble) (PList [foreign 1; dbl 2]) = Throw /\ zinc (Some SDouble) (PList [dbl 1; foreign 2]) = Ok ([[1; 2]], SDouble).
Proof. exact foreign_witness. Qed.
Print Assumptions C69_order_refuted.

(** C70.  The type chosen when none is given. *)
Theorem C70_streams : forall V of_int conv zero (v : pyval V) rows t, plain v = true ->
  (forall is, stream_types of_int conv t v rows is -> Forall ordinary is) ->
  (increments of_int conv zero None v = Ok (rows, t) <-> exists is, stream_types of_int conv t v rows is /\ t = common_type is).
Proof. exact increments_typed. Qed.
Print Assumptions C70_streams.
Theorem C70_elements : forall V of_int conv zero tensor (v : pyval V) xs ks t, plain v = true ->
  (forall i, element_types of_int conv tensor t v xs ks i -> ordinary i) ->
  (coefficients of_int conv zero (elem_opts tensor None) v = Ok ((xs, ks), t) <-> exists i, element_types of_int conv tensor t v xs ks i /\ t = common_type [i]).
Proof. exact w_elements_typed. Qed.
Print Assumptions C70_elements.
(** Asking for the type that was chosen changes nothing, for any data. *)
Theorem C70_asking : forall V of_int conv zero tensor (v : pyval V), v <> PNone ->
  (forall rows t, increments of_int conv zero None v = Ok (rows, t) -> increments of_int conv zero (Some t) v = Ok (rows, t)) /\
  (forall c t, coefficients of_int conv zero (elem_opts tensor None) v = Ok (c, t) -> coefficients of_int conv zero (elem_opts tensor (Some t)) v = Ok (c, t)).
Proof. exact w_type_given. Qed.
Print Assumptions C70_asking.
Example C70_ex : zinc None some_rows = Ok ([[1; 2]; [5; 4]; [7; 8; 9]], SDouble) /\ zinc None (PList [PList [int 1; int 2]; PList [rat 3; int 4]]) = Ok ([[1; 2]; [3; 4]], SRational).
Proof. split; reflexivity. Qed.
(** Only the first entry of a row counts. *)
Theorem C70_first_entry_refuted : zinc None (PList [dbl 1; rat 2]) = Ok ([[1; 2]], SDouble) /\ zinc None (PList [rat 2; dbl 1]) = Ok ([[2; 1]], SRational).
Proof. exact first_entry_witness. Qed.
Print Assumptions C70_first_entry_refuted.
