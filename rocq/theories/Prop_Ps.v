(** Property theorem C81: schemas described by Python data.  [says_schema data l]: the data describe the
    channels l, in order; [takes a b]: the labels are the same, or b is a followed by a colon and more. *)
From Coq Require Import List String Bool.
Import ListNotations.
From Verif Require Import Outcome SchemaModel SchemaProofs PsModel PsSpec PsProofs PsMeta PsEx.
Open Scope list_scope.

(** Data that describe channels with labels of their own give exactly these channels, in order. *)
Theorem C81_described : forall data l, says_schema data l -> free_labels (map fst l) -> parse_schema data = Ok (mkSch l false false).
Proof. exact parse_ok. Qed.
Print Assumptions C81_described.
(** No other data are accepted, and they are refused with an error. *)
Theorem C81_only_described : forall data, (exists s l, parse_schema data = Ok s /\ says_schema data l) \/ parse_schema data = Throw.
Proof.
  intros data. pose proof (parse_plain data) as P. destruct (parse_schema data) as [s| | |] eqn:E; try contradiction; auto. left. destruct (parse_inv data s E) as [l H]. eauto.
Qed.
Print Assumptions C81_only_described.
(** Data describe one list of channels only. *)
Theorem C81_one_meaning : forall data l l', says_schema data l -> says_schema data l' -> l = l'.
Proof. exact schema_fun. Qed.
Print Assumptions C81_one_meaning.
(** Types are ChannelType objects and the four names in any case. *)
Theorem C81_types : forall o t, py_to_channel_type o = Ok t <-> says_type o t.
Proof. exact type_iff. Qed.
Print Assumptions C81_types.
(** Categories that have names are listed once each, in order. *)
Theorem C81_categories : forall l, ~ In ""%string l -> named [] l = first_of_each l.
Proof. exact named_distinct. Qed.
Print Assumptions C81_categories.
(** That options may be left out is false: a type alone is refused in each of the three short forms. *)
Theorem C81_type_alone_refuted : (forall d label o, In (label, PSeq [o]) d -> parse_schema (PDict d) = Throw) /\
  (forall d label s, In (label, PStr s) d -> parse_schema (PDict d) = Throw) /\
  (forall items label o, In (PSeq [label; o]) items -> parse_schema (PSeq items) = Throw).
Proof. exact (conj type_alone_dict (conj type_name_dict type_alone_seq)). Qed.
Print Assumptions C81_type_alone_refuted.
(** That each item makes a channel is false: one whose label is taken makes none, whatever its type, without an error. *)
Theorem C81_taken_refuted : forall a b t t', a <> ""%string -> takes a b -> parse_schema (PSeq [triple a t []; triple b t' []]) = Ok (mkSch [(a, plain t)] false false).
Proof. exact taken. Qed.
Print Assumptions C81_taken_refuted.
(** Its options change the earlier channel. *)
Theorem C81_taken_options_refuted : forall a b v, a <> ""%string -> takes a b ->
  parse_schema (PSeq [triple a TIncrement []; triple b TValue [(PStr "lead_lag", PTruth v)]]) = Ok (mkSch [(a, Increment v)] false false).
Proof. exact taken_lead_lag. Qed.
Print Assumptions C81_taken_options_refuted.
(** Two descriptions of a lead-lag price and a mood of two categories, and labels that are taken *)
Theorem C81_example : says_schema items channels /\ says_schema by_label channels /\ free_labels (map fst channels) /\
  (takes "price" "price:lead" /\ takes "price" "price" /\ ~ takes "price" "prices").
Proof. exact (conj items_say (conj by_label_says (conj channels_free taken_ex))). Qed.
Print Assumptions C81_example.
