(** Property theorem C84: data for tick streams.  [says b x items]: after the known fields b, the data x say these items,
    each with timestamp, label, type and data; [item_calls i c]: the calls that the item i makes. *)
From Coq Require Import ZArith QArith List String Bool.
Import ListNotations.
From Verif Require Import Outcome Alg SchemaModel PsModel PtModel PtSpec TpModel TpSpec TpProofs TpEx.
Open Scope nat_scope.

(** Data are read exactly as they say. *)
Theorem C84_items : forall x items, visit [] x = Ok items <-> says [] x items.
Proof. exact visit_iff. Qed.
Print Assumptions C84_items.
(** The calls made are those of the items, in order. *)
Theorem C84_calls : forall x calls, parse_data x = Ok calls <-> exists items cs, says [] x items /\ Forall2 item_calls items cs /\ calls = List.concat cs.
Proof. exact parse_iff. Qed.
Print Assumptions C84_calls.
(** Other data give an error. *)
Theorem C84_or_error : forall x, defined_outcome (parse_data x).
Proof. exact parse_plain_out. Qed.
Print Assumptions C84_or_error.
(** Items always have four fields. *)
Theorem C84_four_fields : forall b x items, says b x items -> List.length b <= 4 -> Forall (fun i => List.length i = 4) items.
Proof. exact (proj1 says_four). Qed.
Print Assumptions C84_four_fields.
(** The common forms, for any number of ticks. *)
Theorem C84_tuples : forall rows, Forall (fun r => List.length r = 4) rows -> says [] (DList (map DTuple rows)) rows.
Proof. exact tuples. Qed.
Print Assumptions C84_tuples.
Theorem C84_records : forall ds rows, Forall2 (fun d r => Forall2 (fun k v => has k v d) field_names r) ds rows -> says [] (DList (map DDict ds)) rows.
Proof. exact records. Qed.
Print Assumptions C84_records.
Theorem C84_by_label : forall groups, ~ In (DStr "timestamp") (map fst groups) ->
  (forall g, In g groups -> exists k, In k ["label"; "type"; "data"]%string /\ ~ In (DStr k) (map fst (snd g))) -> says [] (by_label groups) (items_by_label groups).
Proof. exact nested. Qed.
Print Assumptions C84_by_label.
Theorem C84_by_time : forall groups, ~ In (DStr "timestamp") (map fst groups) -> says [] (by_time groups) (items_by_label groups).
Proof. exact listed. Qed.
Print Assumptions C84_by_time.
Theorem C84_numbers : forall groups, ~ In (DStr "timestamp") (map fst groups) ->
  (forall g, In g groups -> (exists k, In k ["label"; "type"; "data"]%string /\ ~ In (DStr k) (map fst (snd g))) /\ forall e, In e (snd g) -> number (snd e)) ->
  says [] (of_numbers groups) (flat_map (fun g => flat_map (fun e => [[fst g; fst e; DStr "increment"; snd e]]) (snd g)) groups).
Proof. exact numbers. Qed.
Print Assumptions C84_numbers.
Theorem C84_parts : forall a b r, says [] (DList (a ++ b)) r <-> exists ra rb, says [] (DList a) ra /\ says [] (DList b) rb /\ r = (ra ++ rb)%list.
Proof. exact parts. Qed.
Print Assumptions C84_parts.
(** The rows of the stream are those of the ticks that the data say (C83), and data that can be read make a stream. *)
Theorem C84_rows : forall (R : cring) to_scalar lie (co : coordinates_of R lie) k x s w d rows,
  from_data R to_scalar lie (co_zero R lie co) (co_letter R lie co) r1 (co_sub R lie co) (co_cbh R lie co) (co_set R lie co) k x = Ok (s, w, d, rows) ->
  exists items cs ts out, says [] x items /\ Forall2 item_calls items cs /\ Forall2 (made_by tdata (first_stamp tdata (List.concat cs))) (List.concat cs) ts /\
    in_order tdata ts out /\ rows_mean tdata R to_scalar co s [] out rows.
Proof. exact data_to_rows. Qed.
Print Assumptions C84_rows.
Theorem C84_accepted : forall (R : cring) to_scalar lie (co : coordinates_of R lie) k x calls, parse_data x = Ok calls -> no_schema k -> (exists md, kwargs_to_metadata k = Ok md) -> calls <> [] ->
  Forall usable (map (c_label tdata) calls) -> Forall (readable tdata R to_scalar tdata_label (first_stamp tdata calls)) calls ->
  exists r, from_data R to_scalar lie (co_zero R lie co) (co_letter R lie co) r1 (co_sub R lie co) (co_cbh R lie co) (co_set R lie co) k x = Ok r.
Proof. exact data_accepted. Qed.
Print Assumptions C84_accepted.
Theorem C84_defined : forall (R : cring) to_scalar lie (co : coordinates_of R lie) k x, no_schema k -> (forall calls, parse_data x = Ok calls -> Forall usable (map (c_label tdata) calls)) ->
  (forall y, defined_outcome (to_scalar y)) -> defined_outcome (from_data R to_scalar lie (co_zero R lie co) (co_letter R lie co) r1 (co_sub R lie co) (co_cbh R lie co) (co_set R lie co) k x).
Proof. exact data_defined. Qed.
Print Assumptions C84_defined.
(** What does not hold: labels may be the names of fields; each item makes a call; names of types are as in schemas; data
    may be tuples. *)
Theorem C84_any_labels_refuted : ~ (forall groups, ~ In (DStr "timestamp") (map fst groups) -> says [] (by_label groups) (items_by_label groups)).
Proof. exact any_labels_refuted. Qed.
Print Assumptions C84_any_labels_refuted.
Theorem C84_each_item_counts_refuted : ~ (forall x items calls, says [] x items -> parse_data x = Ok calls -> List.length calls = List.length items).
Proof. exact each_item_counts_refuted. Qed.
Print Assumptions C84_each_item_counts_refuted.
Theorem C84_types_as_in_schemas_refuted : ~ (forall s t, py_to_channel_type (PStr s) = Ok t -> convert_channel_type (DStr s) = Ok (Some t)).
Proof. exact types_as_in_schemas_refuted. Qed.
Print Assumptions C84_types_as_in_schemas_refuted.
Theorem C84_tuple_data_refuted : ~ (forall t s ty x, says [t; s; ty] x [[t; s; ty; x]]).
Proof. exact tuple_data_refuted. Qed.
Print Assumptions C84_tuple_data_refuted.
