(** Property theorem C82: the metadata of stream constructors.  [picks k s t]: the arguments k ask for the
    schema s and the channel type t; [asks_time k b]: they ask for a time channel or not. *)
From Coq Require Import ZArith List String Bool.
Import ListNotations.
From Verif Require Import Outcome SchemaModel PsModel PsSpec PsProofs PsMeta PsEx.
Open Scope nat_scope.

(** The schema is the one asked for, with the time added if it is asked for. *)
Theorem C82_schema : forall k s t b md, picks k s t -> asks_time k b -> kwargs_to_metadata k = Ok md ->
  md_schema md = mkSch (chans s) (final s) (time s || b) /\ md_default md = t /\ md_time md = b /\ md_ctx md = k_ctx k.
Proof. exact meta_schema. Qed.
Print Assumptions C82_schema.
(** They are accepted unless the schema is final and the time is asked for or another width is given; then there is an error. *)
Theorem C82_accepted : forall k s t b, picks k s t -> asks_time k b ->
  (exists md, kwargs_to_metadata k = Ok md) <-> (final s = true -> b = false /\ forall w, k_width k = Some w -> w = Z.of_nat (width s)).
Proof. exact meta_accepts. Qed.
Print Assumptions C82_accepted.
Theorem C82_accepted_or_error : forall k s t b, picks k s t -> asks_time k b -> (exists md, kwargs_to_metadata k = Ok md) \/ kwargs_to_metadata k = Throw.
Proof. exact meta_refuses. Qed.
Print Assumptions C82_accepted_or_error.
(** Accepted arguments are of these kinds. *)
Theorem C82_only_these : forall k md, kwargs_to_metadata k = Ok md ->
  (forall o, k_schema k = Some (SData o) -> exists l, says_schema o l) /\
  (forall n, k_channels k = Some (PStr n) -> exists t, says_type (PStr n) t) /\
  (forall l, k_channels k = Some (PSeq l) -> exists ts, says_types l ts) /\
  (forall d, k_channels k = Some (PDict d) -> exists l, Forall2 says_labelled d l) /\
  exists b, asks_time k b.
Proof. exact meta_inv. Qed.
Print Assumptions C82_only_these.
(** Width, depth and scalar type, for all arguments: those of the context or those given; the width of a final schema if no width is given. *)
Theorem C82_width : forall k md, kwargs_to_metadata k = Ok md ->
  md_ctx md = k_ctx k /\ md_depth md = base_depth k /\ md_type md = base_type k /\
  (final (md_schema md) = false -> md_width md = base_width k) /\
  (final (md_schema md) = true -> k_width k = None -> md_width md = Z.of_nat (width (md_schema md))) /\
  (final (md_schema md) = true -> forall w, k_width k = Some w -> w = Z.of_nat (width (md_schema md)) /\ md_width md = base_width k).
Proof. exact meta_any. Qed.
Print Assumptions C82_width.
(** The time is one more coordinate, after all others. *)
Theorem C82_time : forall k md, kwargs_to_metadata k = Ok md -> md_time md = true ->
  final (md_schema md) = false /\ width (md_schema md) = S (width (mkSch (chans (md_schema md)) false false)) /\ time_channel_to_lie_key (md_schema md) = width (md_schema md).
Proof. exact meta_time. Qed.
Print Assumptions C82_time.
(** That the time can be asked for with a given schema is false, even one that is not final. *)
Theorem C82_time_with_schema_refuted : forall k s t, one_type k t -> given k s -> k_time k = Some (PTruth true) -> kwargs_to_metadata k = Throw.
Proof.
  intros k s t Ht Hg Hb. rewrite (meta k (mkSch (chans s) true (time s)) t true); [reflexivity| |now right]. now apply pk_given.
Qed.
Print Assumptions C82_time_with_schema_refuted.
(** That the context and the metadata agree about the width is false: a context of any width is accepted with a schema of any other. *)
Theorem C82_context_width_refuted : forall k s t w d ct, picks k s t -> final s = true -> asks_time k false -> k_width k = None -> k_ctx k = Some (w, d, ct) ->
  exists md, kwargs_to_metadata k = Ok md /\ md_ctx md = Some (w, d, ct) /\ md_width md = Z.of_nat (width s).
Proof. exact meta_ctx_clash. Qed.
Print Assumptions C82_context_width_refuted.
(** That channel types are ignored beside a schema, as the warning says, is false: the schema is. *)
Theorem C82_schema_kept_refuted : picks kw_named (mkSch [("x"%string, Increment false); ("y"%string, Value false)] false false) TIncrement /\
  given kw_named (mkSch channels false false) /\
  exists md, kwargs_to_metadata kw_named = Ok md /\ chans (md_schema md) = [("x"%string, Increment false); ("y"%string, Value false)].
Proof. split; [exact kw_named_picks|]. split; [eapply gv_data; [reflexivity|exact items_say|exact channels_free]|]. eexists. split; [exact kw_named_run|reflexivity]. Qed.
Print Assumptions C82_schema_kept_refuted.
(** A schema with a width, a list of types with the time and a context, and a context of another width than the schema *)
Theorem C82_example : picks kw_schema (mkSch channels true false) TIncrement /\ asks_time kw_schema false /\
  picks kw_types (mkSch [("0"%string, Value false); ("1"%string, LieCh)] false false) TIncrement /\ asks_time kw_types true /\
  picks kw_clash (mkSch channels true false) TIncrement /\ k_ctx kw_clash = Some (7%Z, 2%Z, 0).
Proof. repeat split; [exact kw_schema_picks|left; split; reflexivity|exact kw_types_picks|right; reflexivity|exact kw_clash_picks]. Qed.
Print Assumptions C82_example.
