(** Property theorem C83: tick streams made from Python ticks.  [made_by first c t]: t is the tick of the call c, at the
    seconds after the stamp first; [in_order l out]: out is l in the order of time, ticks of one time in the order of l;
    [rows_mean co s ts l rows]: rows has the times of the ticks l and elements with the coordinates that the ticks give;
    [channels_of calls]: the channels of the labels used.  [co] is any family of Lie elements with coordinates. *)
From Coq Require Import ZArith QArith List String Bool Permutation Sorted.
Import ListNotations.
From Verif Require Import Outcome Alg SchemaModel SchemaProofs PsModel PsSpec PsProofs PtModel PtSpec PtProofs PtRows PtSchema PtWhole PtEx.
Open Scope nat_scope.

(** The helper turns calls into ticks, and only one order of them is sorted: by time, then by the order of the calls. *)
Theorem C83_order : forall data to_label s calls h, add_calls data to_label (mkHp data [] s false None []) calls = Ok h ->
  exists ts, Forall2 (made_by data (first_stamp data calls)) calls ts /\ hp_ticks data h = ts /\ in_order data ts (sort_ticks data ts) /\
    (forall out, Permutation out ts -> StronglySorted (fun a b => before_tick data a b = true) out -> out = sort_ticks data ts).
Proof. exact calls_in_order. Qed.
Print Assumptions C83_order.
(** A stream has one row for each tick in that order, with the coordinates that the ticks give. *)
Theorem C83_rows : forall data (R : cring) to_label to_scalar lie (co : coordinates_of R lie) k calls s w d rows,
  from_ticks data R to_label to_scalar lie (co_zero R lie co) (co_letter R lie co) r1 (co_sub R lie co) (co_cbh R lie co) (co_set R lie co) k calls = Ok (s, w, d, rows) ->
  calls <> [] /\ final s = true /\
  (exists ts out, Forall2 (made_by data (first_stamp data calls)) calls ts /\ in_order data ts out /\ rows_mean data R to_scalar co s [] out rows).
Proof. exact streams_are. Qed.
Print Assumptions C83_rows.
(** The rows of any ticks, after any others. *)
Theorem C83_rows_from : forall data (R : cring) to_scalar lie (co : coordinates_of R lie) s l ts previous rows, prev_ok data R to_scalar lie co s ts previous ->
  tick_rows data R to_scalar lie (co_letter R lie co) r1 (co_sub R lie co) (co_cbh R lie co) (co_set R lie co) s previous (last_time data ts) l = Ok rows ->
  rows_mean data R to_scalar co s ts l rows.
Proof. exact rows_are. Qed.
Print Assumptions C83_rows_from.
(** The whole change of a dimension is its last value, its increments and one for each categorical tick. *)
Theorem C83_total : forall data (R : cring) to_scalar lie (co : coordinates_of R lie) s d l rows, (time s = false \/ d <> width s - 1) -> rows_mean data R to_scalar co s [] l rows ->
  sum rows (fun r => co_at R lie co (snd r) d) = radd (value_after data R to_scalar s (rev l) d) (sum l (plain_step data R to_scalar s d)).
Proof. exact total_all. Qed.
Print Assumptions C83_total.
(** With no schema given, the channels are those of the labels, and width, depth and time are as expected. *)
Theorem C83_channels : forall data (R : cring) to_label to_scalar lie (co : coordinates_of R lie) k calls s w d rows, no_schema k -> Forall usable (map (c_label data) calls) ->
  from_ticks data R to_label to_scalar lie (co_zero R lie co) (co_letter R lie co) r1 (co_sub R lie co) (co_cbh R lie co) (co_set R lie co) k calls = Ok (s, w, d, rows) ->
  chans s = channels_of data to_label calls /\ final s = true /\ (exists md, kwargs_to_metadata k = Ok md /\ time s = md_time md) /\ w = Z.of_nat (width s) /\
  d = (if Z.eqb (or_else (k_depth k) 0) 0 then 2 else or_else (k_depth k) 0)%Z.
Proof. exact stream_channels. Qed.
Print Assumptions C83_channels.
(** A schema that is given stays as it is. *)
Theorem C83_given_schema_kept : forall data to_label s, final s = true -> forall calls h h', hp_schema data h = s -> add_calls data to_label h calls = Ok h' -> hp_schema data h' = s.
Proof. exact schema_kept. Qed.
Print Assumptions C83_given_schema_kept.
(** The width of the stream has room for the schema, and is the width asked for or that of the schema. *)
Theorem C83_width_depth : forall s md s' w d, (0 <= md_width md)%Z -> finalize_schema s md = Ok (s', w, d) ->
  final s' = true /\ (0 < width s')%nat /\ (Z.of_nat (width s') <= w)%Z /\ (md_width md <= w)%Z /\ (w = md_width md \/ w = Z.of_nat (width s'))%Z /\
  d = (if Z.eqb (md_depth md) 0 then 2 else md_depth md)%Z.
Proof. exact finalize_schema_are. Qed.
Print Assumptions C83_width_depth.
(** Calls that can be read make a stream. *)
Theorem C83_accepts : forall data (R : cring) to_label to_scalar lie (co : coordinates_of R lie) k calls, no_schema k -> (exists md, kwargs_to_metadata k = Ok md) -> calls <> [] ->
  Forall usable (map (c_label data) calls) -> Forall (readable data R to_scalar to_label (first_stamp data calls)) calls ->
  exists r, from_ticks data R to_label to_scalar lie (co_zero R lie co) (co_letter R lie co) r1 (co_sub R lie co) (co_cbh R lie co) (co_set R lie co) k calls = Ok r.
Proof. exact stream_accepts. Qed.
Print Assumptions C83_accepts.
(** Either a stream or an error, with no schema given and with labels of channels. *)
Theorem C83_defined : forall data (R : cring) to_label to_scalar lie (co : coordinates_of R lie) k calls, no_schema k -> Forall usable (map (c_label data) calls) ->
  (forall x, defined_outcome (to_label x)) -> (forall x, defined_outcome (to_scalar x)) ->
  defined_outcome (from_ticks data R to_label to_scalar lie (co_zero R lie co) (co_letter R lie co) r1 (co_sub R lie co) (co_cbh R lie co) (co_set R lie co) k calls).
Proof. exact stream_plain. Qed.
Print Assumptions C83_defined.
(** The same for the rows, for any good schema whose channels all have a dimension. *)
Theorem C83_defined_rows : forall data (R : cring) to_scalar lie (co : coordinates_of R lie) s, good s -> no_empty_channel s -> forall l previous q, width s <= List.length previous ->
  (forall t, In t l -> plain_label (tk_label data t) /\ defined_outcome (to_scalar (tk_data data t))) ->
  defined_outcome (tick_rows data R to_scalar lie (co_letter R lie co) r1 (co_sub R lie co) (co_cbh R lie co) (co_set R lie co) s previous q l).
Proof. exact rows_safe. Qed.
Print Assumptions C83_defined_rows.
(** The first tick given is at time 0, whatever its stamp. *)
Theorem C83_first_at_zero : forall data c calls ts, Forall2 (made_by data (first_stamp data (c :: calls))) (c :: calls) ts -> exists t r, ts = t :: r /\ (tk_time data t == 0)%Q.
Proof. exact first_at_zero. Qed.
Print Assumptions C83_first_at_zero.
(** What does not hold: without the hypotheses on labels and on channels there are reads out of range; categories do not
    move their own coordinates; times of floats are not kept. *)
Theorem C83_always_defined_refuted : ~ (forall k calls, defined_outcome (stream_of k calls)).
Proof. exact always_defined_refuted. Qed.
Print Assumptions C83_always_defined_refuted.
Theorem C83_defined_for_schemas_refuted : ~ (forall l calls, good (mkSch l true false) -> Forall usable (map (c_label dat) calls) -> defined_outcome (stream_of (ll_schema l) calls)).
Proof. exact defined_for_schemas_refuted. Qed.
Print Assumptions C83_defined_for_schemas_refuted.
Theorem C83_categories_move_refuted : ~ (forall calls s w d rows, Forall usable (map (c_label dat) calls) -> stream_of plain_args calls = Ok (s, w, d, rows) ->
  forall i c v r j, nth_error calls i = Some c -> c_type dat c = TCategorical -> c_data dat c = Some (inr v) -> nth_error rows i = Some r ->
    label_to_stream_dim s (c_label dat c ++ ":" ++ v) = Ok j -> snd r j = 1%Z).
Proof. exact categories_move_refuted. Qed.
Print Assumptions C83_categories_move_refuted.
Theorem C83_times_kept_refuted : ~ (forall calls s w d rows q0, Forall usable (map (c_label dat) calls) -> stream_of plain_args calls = Ok (s, w, d, rows) ->
  (forall c, In c calls -> c_stamp dat c = SFloat q0) -> forall r, In r rows -> (fst r == q0)%Q).
Proof. exact times_kept_refuted. Qed.
Print Assumptions C83_times_kept_refuted.
