(** Property theorems C71: streams made by LieIncrementStream.from_increments.
    [to_float] converts a scalar to a parameter, [construct] makes the Lie element of a row,
    [assign v k x] sets coefficient k, [get_context w d] finds a context; nothing is assumed
    of them but the width of the context found.  [index_of … i x]: row i is at parameter x. *)
From Coq Require Import QArith.
From Verif Require Import Outcome IndexTop IndexEx.
Open Scope Z_scope.

(** The increments: the rows in the order of their indices, of rows with equal indices only
    the first; with include_time the last letter holds the time since the row before. *)
Theorem C71_rows : forall (V lie : Type) (to_float : V -> Q) (construct : actx lie -> list V -> lie) (assign : lie -> Z -> Q -> lie) (get_context : Z -> Z -> actx lie),
  (forall w d, cx_width (get_context w d) = w) -> forall se a rows s, context_widths lie se -> plain_buffer a ->
  from_increments to_float construct assign get_context se a rows = Ok s ->
  exists idx, length idx = length rows /\ (forall i x, nth_error idx i = Some x -> index_of to_float a rows i x) /\ ascending (st_data s) /\
    forall k v, In (k, v) (st_data s) <-> exists i r, nth_error idx i = Some k /\ nth_error rows i = Some r /\
      v = (if se_time se then assign (construct (st_ctx s) r) (cx_width (st_ctx s)) (k - match i with O => 0 | S j => nth j idx 0 end)%Q else construct (st_ctx s) r) /\
      forall j y, (j < i)%nat -> nth_error idx j = Some y -> ~ (y == k)%Q.
Proof. exact increments_placed. Qed.
Print Assumptions C71_rows.
(** Rows given in order are the increments in that order. *)
Theorem C71_in_order : forall (V lie : Type) (to_float : V -> Q) (construct : actx lie -> list V -> lie) (assign : lie -> Z -> Q -> lie) (get_context : Z -> Z -> actx lie),
  (forall w d, cx_width (get_context w d) = w) -> forall se a rows s, context_widths lie se -> se_time se = false ->
  from_increments to_float construct assign get_context se a rows = Ok s ->
  no_indices a \/ (exists l, a = Some (ISeq (map Some l)) /\ StronglySorted Qlt l) -> map snd (st_data s) = map (construct (st_ctx s)) rows.
Proof. exact increments_in_order. Qed.
Print Assumptions C71_in_order.
(** The context: the one given, else one of the given depth and of as many letters as
    width= says or the longest row has. *)
Theorem C71_context : forall (V lie : Type) (to_float : V -> Q) (construct : actx lie -> list V -> lie) (assign : lie -> Z -> Q -> lie) (get_context : Z -> Z -> actx lie),
  (forall w d, cx_width (get_context w d) = w) -> forall se a rows s, from_increments to_float construct assign get_context se a rows = Ok s ->
  letters se rows (cx_width (st_ctx s)) /\ match se_ctx se with Some c => st_ctx s = c | None => st_ctx s = get_context (cx_width (st_ctx s)) (se_depth se) end.
Proof. exact increments_context. Qed.
Print Assumptions C71_context.
(** Which calls succeed. *)
Theorem C71_accepted : forall (V lie : Type) (to_float : V -> Q) (construct : actx lie -> list V -> lie) (assign : lie -> Z -> Q -> lie) (get_context : Z -> Z -> actx lie),
  (forall w d, cx_width (get_context w d) = w) -> forall se a rows, context_widths lie se -> inside a -> plain_buffer a ->
  (exists w, letters se rows w /\ 0 < w /\ (se_time se = true -> 2 <= w)) /\ (se_ctx se = None -> se_depth se <> 0) /\ fitting a rows ->
  exists s, from_increments to_float construct assign get_context se a rows = Ok s.
Proof. exact increments_accepted. Qed.
Print Assumptions C71_accepted.
(** All others raise an exception. *)
Theorem C71_refused : forall (V lie : Type) (to_float : V -> Q) (construct : actx lie -> list V -> lie) (assign : lie -> Z -> Q -> lie) (get_context : Z -> Z -> actx lie),
  (forall w d, cx_width (get_context w d) = w) -> forall se a rows, context_widths lie se -> inside a -> plain_buffer a ->
  ~ ((exists w, letters se rows w /\ 0 < w /\ (se_time se = true -> 2 <= w)) /\ (se_ctx se = None -> se_depth se <> 0) /\ fitting a rows) ->
  from_increments to_float construct assign get_context se a rows = Throw.
Proof. exact increments_refused. Qed.
Print Assumptions C71_refused.
(** Resolution and support.  Without indices the resolution is 0, even if one is given. *)
Theorem C71_frame : forall (V lie : Type) (to_float : V -> Q) (construct : actx lie -> list V -> lie) (assign : lie -> Z -> Q -> lie) (get_context : Z -> Z -> actx lie) se a rows s,
  from_increments to_float construct assign get_context se a rows = Ok s ->
  (no_indices a \/ rows = [] -> st_res s = 0) /\
  (~ no_indices a -> rows <> [] -> match se_res se with
     | Some r => st_res s = r
     | None => plain_buffer a -> exists m i, index_of to_float a rows i m /\ (i < length rows)%nat /\ (forall j x, (j < length rows)%nat -> index_of to_float a rows j x -> (m <= x)%Q) /\ resolution_for m (st_res s)
     end) /\
  match se_support se with
  | Some i => st_support s = i
  | None => (rows = [] -> st_support s = mkRI 0 1 Clopen) /\
      (rows <> [] -> plain_buffer a -> exists m M i i', index_of to_float a rows i m /\ index_of to_float a rows i' M /\ (i < length rows)%nat /\ (i' < length rows)%nat /\
         (forall j x, (j < length rows)%nat -> index_of to_float a rows j x -> (m <= x)%Q /\ (x <= M)%Q) /\
         st_support s = mkRI m (M + Qpower 2 (- st_res s)) Clopen)
  end.
Proof. exact increments_frame. Qed.
Print Assumptions C71_frame.
(** The log-signature of the whole stream at its own resolution: all increments. *)
Theorem C71_whole_at : forall (V lie : Type) (to_float : V -> Q) (construct : actx lie -> list V -> lie) (assign : lie -> Z -> Q -> lie) (get_context : Z -> Z -> actx lie)
  (is_zero : lie -> bool) (none : lie), is_zero none = true -> forall S ok ctx, sound is_zero S ok ctx -> (forall c r, ok (construct c r)) -> (forall v k x, ok v -> ok (assign v k x)) ->
  forall se a rows s, se_support se = None -> from_increments to_float construct assign get_context se a rows = Ok s -> fits_call s ctx (QAt (st_support s) (st_res s)) ->
  exists x, ok x /\ sg_eq S (sg_of S x) (sg_prod S (map snd (st_data s))) /\ forall h, Forall (fits_call s ctx) h -> replies is_zero none s ctx h (QAt (st_support s) (st_res s)) x.
Proof. exact whole_stream_at. Qed.
Print Assumptions C71_whole_at.
(** Without indices, of up to 2^26 rows, also when no resolution is named: the product of
    all rows. *)
Theorem C71_whole_plain : forall (V lie : Type) (to_float : V -> Q) (construct : actx lie -> list V -> lie) (assign : lie -> Z -> Q -> lie) (get_context : Z -> Z -> actx lie),
  (forall w d, cx_width (get_context w d) = w) ->
  forall (is_zero : lie -> bool) (none : lie), is_zero none = true -> forall S ok ctx, sound is_zero S ok ctx -> (forall c r, ok (construct c r)) -> (forall v k x, ok v -> ok (assign v k x)) ->
  forall se a rows s, context_widths lie se -> se_support se = None -> se_time se = false -> no_indices a -> Z.of_nat (length rows) <= 2 ^ 26 ->
  from_increments to_float construct assign get_context se a rows = Ok s ->
  exists x, ok x /\ sg_eq S (sg_of S x) (sg_prod S (map (construct (st_ctx s)) rows)) /\ forall h, Forall (fits_call s ctx) h -> replies is_zero none s ctx h (QDefault (st_support s)) x.
Proof. exact whole_stream_plain. Qed.
Print Assumptions C71_whole_plain.
(** With indices, when the least index is a multiple of the cell length, or the cells are
    no longer than 1/4 and the stream at least four cells long. *)
Theorem C71_whole_default : forall (V lie : Type) (to_float : V -> Q) (construct : actx lie -> list V -> lie) (assign : lie -> Z -> Q -> lie) (get_context : Z -> Z -> actx lie)
  (is_zero : lie -> bool) (none : lie), is_zero none = true -> forall S ok ctx, sound is_zero S ok ctx -> (forall c r, ok (construct c r)) -> (forall v k x, ok v -> ok (assign v k x)) ->
  forall se a rows s, se_support se = None -> from_increments to_float construct assign get_context se a rows = Ok s -> fits_call s ctx (QDefault (st_support s)) ->
  (exists k, (ri_inf (st_support s) == dy k (st_res s))%Q) \/ (2 <= st_res s /\ (Qpower 2 (2 - st_res s) <= ri_sup (st_support s) - ri_inf (st_support s))%Q) ->
  exists x, ok x /\ sg_eq S (sg_of S x) (sg_prod S (map snd (st_data s))) /\ forall h, Forall (fits_call s ctx) h -> replies is_zero none s ctx h (QDefault (st_support s)) x.
Proof. exact whole_stream_default. Qed.
Print Assumptions C71_whole_default.
(** Calls meeting the hypotheses. *)
Example C71_ex : ix_from ix_plain None [[5]; [7]; [9]] = Ok (mkStream [(0%Q, 5); (1%Q, 7); (2%Q, 9)] 0 add_ctx (mkRI 0 3 Clopen)) /\
  ix_from ix_plain (Some (ISeq [Some (1#2); Some (1#4); Some (1#2)])) [[5]; [7]; [9]] = Ok (mkStream [((1#4)%Q, 7); ((1#2)%Q, 5)] 3 add_ctx (mkRI (1#4) (10#16) Clopen)) /\
  option_map st_data (match ix_from ix_plain (Some (IColumn 0)) [[1]; [2]; [4]] with Ok s => Some s | _ => None end) = Some [((1#1)%Q, 1); ((3#1)%Q, 2); ((7#1)%Q, 4)] /\
  whole (streamed (ix_from ix_plain None [[5]; [7]; [9]])) = Some 21.
Proof. exact ix_example. Qed.
(** Otherwise log_signature() may miss rows: of rows 1, 2, 4 at 100, 150, 200 it misses the
    first, of a single row at 0.45 the only one. *)
Theorem C71_whole_refuted : exists a rows s x, from_increments ix_float ix_construct ix_assign ix_context ix_plain a rows = Ok s /\
  rows = [[1]; [2]; [4]] /\ a = Some (ISeq [Some 100; Some 150; Some 200]%Q) /\ map snd (st_data s) = [1; 2; 4] /\
  whole s = Some x /\ x = 6 /\ sg_prod add_sigs (map snd (st_data s)) = 7.
Proof. exact ix_offgrid. Qed.
Print Assumptions C71_whole_refuted.
Theorem C71_single_refuted : exists a s, from_increments ix_float ix_construct ix_assign ix_context ix_plain a [[5]] = Ok s /\ a = Some (ISeq [Some (9#20)%Q]) /\ map snd (st_data s) = [5] /\ whole s = Some 0.
Proof. exact ix_single. Qed.
Print Assumptions C71_single_refuted.
(** The default resolution does not separate the indices: rows 1, 2, 4 at 0, 1/16, 2/16 and
    a query of [0, 1/16), which holds only the first. *)
Theorem C71_separated_refuted : exists a s, from_increments ix_float ix_construct ix_assign ix_context ix_plain a [[1]; [2]; [4]] = Ok s /\ a = Some (ISeq [Some 0; Some (1#16); Some (2#16)])%Q /\
  within 0 (1#16) (st_data s) = [1] /\ val (ask (Z.eqb 0) 0 31 s add_ctx [] (QDefault (mkRI 0 (1#16) Clopen))) = Some 7.
Proof. exact ix_close. Qed.
Print Assumptions C71_separated_refuted.
(** A buffer that is not contiguous: the wrong numbers are read, or memory outside it. *)
Theorem C71_strided_refuted : exists b s, from_increments ix_float ix_construct ix_assign ix_context ix_plain (Some (IBuffer b)) [[5]; [7]] = Ok s /\
  index_of ix_float (Some (IBuffer b)) [[5]; [7]] 1 1 /\ map (fun e => Qred (fst e)) (st_data s) = [0; 9]%Q.
Proof. exact ix_strided. Qed.
Print Assumptions C71_strided_refuted.
Theorem C71_reversed_refuted : exists b, from_increments ix_float ix_construct ix_assign ix_context ix_plain (Some (IBuffer b)) [[5]; [7]] = UB /\
  index_of ix_float (Some (IBuffer b)) [[5]; [7]] 0 0 /\ index_of ix_float (Some (IBuffer b)) [[5]; [7]] 1 1.
Proof. exact ix_reversed. Qed.
Print Assumptions C71_reversed_refuted.
(** A buffer of unsigned integers: 100 and 200 of 8 bits are read as 100 and -56, which puts
    the second row first.  One of bool or complex numbers ends the process. *)
Theorem C71_unsigned_refuted : exists b s, from_increments ix_float ix_construct ix_assign ix_context ix_plain (Some (IBuffer b)) [[5]; [7]] = Ok s /\
  ib_type b = IBUnsigned 8 /\ index_of ix_float (Some (IBuffer b)) [[5]; [7]] 0 100 /\ index_of ix_float (Some (IBuffer b)) [[5]; [7]] 1 200 /\ map (fun e => (Qred (fst e), snd e)) (st_data s) = [((-56)%Q, 7); (100%Q, 5)].
Proof. exact ix_unsigned. Qed.
Print Assumptions C71_unsigned_refuted.
Theorem C71_other_types_refuted : forall se b rows, ib_type b = IBOther -> 0 < ib_count b -> se_ctx se = Some add_ctx ->
  from_increments ix_float ix_construct ix_assign ix_context se (Some (IBuffer b)) rows = UB.
Proof. exact ix_other. Qed.
Print Assumptions C71_other_types_refuted.
(** include_time with rows as wide as the context: time replaces the last entry of the row. *)
Theorem C71_time_overwrites : exists s, from_increments (fun x : Q => x) vx_construct vx_assign vx_context (mkSet None 0 2 true None None) (Some (ISeq [Some (1#4); Some 1]))%Q [[5; 6]; [7; 8]]%Q = Ok s /\
  map (fun e => map Qred (snd e)) (st_data s) = [[5; 1#4]; [7; 3#4]]%Q.
Proof. exact vx_time. Qed.
Print Assumptions C71_time_overwrites.
