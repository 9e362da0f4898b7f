(** Property theorem C83, the width asked for: the channels added to those of the ticks.  [numbered t k m]: m channels of
    type t named k, k+1, ...; [asked k]: the width given by the arguments; [ticks_width]: that of the channels of the
    ticks (with time); [only_type k t]: no schema given, and t the type of the channels added. *)
From Coq Require Import ZArith QArith List String Bool.
Import ListNotations.
From Verif Require Import Outcome Alg SchemaModel SchemaSpec SchemaProofs PsModel PtModel PtSpec PtPad PtEx PtPadWhole.
Open Scope nat_scope.

(** Numbered channels follow those of the schema, until the width is reached or a number is already a label. *)
Theorem C83_channels_added : forall s md s' w d, final s = false -> finalize_schema s md = Ok (s', w, d) -> exists m, m <= missing s md /\
  chans s' = chans s ++ numbered (md_default md) (size s) m /\ final s' = true /\ time s' = (time s || md_time md) /\
  (forall j, j < m -> ~ In (to_string (size s + j)) (names (chans s))) /\ (m = missing s md \/ In (to_string (size s + m)) (names (chans s))).
Proof. exact finalize_pads. Qed.
Print Assumptions C83_channels_added.
(** With free numbers and channels that have a dimension, the schema has the width asked for, and one more for time. *)
Theorem C83_width_reached : forall s md s' w d, final s = false -> names_free s md -> md_default md <> TCategorical -> (0 <= md_width md)%Z -> finalize_schema s md = Ok (s', w, d) ->
  Z.of_nat (width s') = (Z.max (Z.of_nat (width s)) (md_width md) + (if md_time md && negb (time s) then 1 else 0))%Z /\ w = Z.of_nat (width s').
Proof. exact padded_width. Qed.
Print Assumptions C83_width_reached.
(** Exactly these requests are refused: no dimension at all, time as the only one, a width that the channels exceed. *)
Theorem C83_width_refused : forall s md, final s = false -> names_free s md -> md_default md <> TCategorical -> (0 <= md_width md)%Z ->
  (finalize_schema s md = Throw <-> (md_time md = false /\ time s = false /\ width s = 0 /\ md_width md = 0%Z) \/
     (md_time md = true /\ (width s = (if time s then 1 else 0) /\ (md_width md <= (if time s then 1 else 0))%Z)) \/
     (0 < md_width md /\ md_width md < Z.of_nat (width s) /\ (md_time md = false \/ (md_width md + 1 < Z.of_nat (width s) + (if time s then 0 else 1))))%Z).
Proof. exact refused. Qed.
Print Assumptions C83_width_refused.
(** A final schema is not touched. *)
Theorem C83_final_untouched : forall s md s' w d, final s = true -> finalize_schema s md = Ok (s', w, d) -> s' = s.
Proof. exact final_stays. Qed.
Print Assumptions C83_final_untouched.
(** The channels of a stream made from ticks with a width asked for. *)
Theorem C83_stream_channels : forall data (R : cring) to_label to_scalar lie (co : coordinates_of R lie) k t calls s w d rows, only_type k t -> Forall usable (map (c_label data) calls) ->
  from_ticks data R to_label to_scalar lie (co_zero R lie co) (co_letter R lie co) r1 (co_sub R lie co) (co_cbh R lie co) (co_set R lie co) k calls = Ok (s, w, d, rows) ->
  exists m, chans s = channels_of data to_label calls ++ numbered t (List.length (channels_of data to_label calls)) m /\ final s = true /\ time s = timed k /\
    m <= Z.to_nat (asked k - Z.of_nat (ticks_width data to_label k calls)) /\
    (forall j, j < m -> ~ In (to_string (List.length (channels_of data to_label calls) + j)) (map (c_label data) calls)) /\
    (m = Z.to_nat (asked k - Z.of_nat (ticks_width data to_label k calls)) \/ In (to_string (List.length (channels_of data to_label calls) + m)) (map (c_label data) calls)).
Proof. exact stream_padded. Qed.
Print Assumptions C83_stream_channels.
(** Its width, when no tick has a number for a label. *)
Theorem C83_stream_width : forall data (R : cring) to_label to_scalar lie (co : coordinates_of R lie) k t calls s w d rows, only_type k t -> t <> TCategorical -> (0 <= asked k)%Z ->
  Forall usable (map (c_label data) calls) -> numbers_free data to_label calls ->
  from_ticks data R to_label to_scalar lie (co_zero R lie co) (co_letter R lie co) r1 (co_sub R lie co) (co_cbh R lie co) (co_set R lie co) k calls = Ok (s, w, d, rows) ->
  chans s = channels_of data to_label calls ++ numbered t (List.length (channels_of data to_label calls)) (Z.to_nat (asked k - Z.of_nat (ticks_width data to_label k calls))) /\
  w = Z.of_nat (width s) /\ w = Z.max (asked k) (Z.of_nat (ticks_width data to_label k calls)).
Proof. exact stream_width. Qed.
Print Assumptions C83_stream_width.
(** Either a stream or an error. *)
Theorem C83_stream_defined : forall data (R : cring) to_label to_scalar lie (co : coordinates_of R lie) k t calls, only_type k t -> t <> TCategorical -> (0 <= asked k)%Z ->
  Forall usable (map (c_label data) calls) -> (forall x, defined_outcome (to_label x)) -> (forall x, defined_outcome (to_scalar x)) ->
  defined_outcome (from_ticks data R to_label to_scalar lie (co_zero R lie co) (co_letter R lie co) r1 (co_sub R lie co) (co_cbh R lie co) (co_set R lie co) k calls).
Proof. exact padded_defined. Qed.
Print Assumptions C83_stream_defined.
(** What does not hold: a label that is a number can leave the schema narrower than the stream. *)
Theorem C83_width_reached_refuted : ~ (forall k t calls s w d rows, only_type k t -> t <> TCategorical -> (0 <= asked k)%Z -> Forall usable (map (c_label dat) calls) ->
  stream_of k calls = Ok (s, w, d, rows) -> w = Z.of_nat (width s)).
Proof. exact width_reached_refuted. Qed.
Print Assumptions C83_width_reached_refuted.
