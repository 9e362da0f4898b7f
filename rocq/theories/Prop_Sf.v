(** Property theorem C85: streams of sound files.  [first_at f p n]: n is the first frame at or after the time p;
    [rows_of f s b rows]: one row for each frame from b on, with the samples (for values, the differences to the frame
    before) of the channels at their dimensions; [fits f s]: the schema has no more channels than the file, and each has
    a dimension; [whole f]: a positive rate and a sample for each channel in every frame. *)
From Coq Require Import ZArith QArith List String Bool.
Import ListNotations.
From Verif Require Import Outcome Alg SchemaModel SchemaProofs PsModel PtPadWhole SfModel SfSpec SfProofs SfWhole SfEx SfGiven.
Open Scope nat_scope.

(** The rows of an interval are those of the frames in it without the first frame of the file; times outside the file
    are refused, unless no frame lies between them. *)
Theorem C85_rows : forall (R : cring) (f : sound R) s p q b e, whole R f -> fits R f s -> (p <= q)%Q -> first_at R f p b -> first_at R f q e ->
  (b = e -> query R f s p q = Ok []) /\
  (b <> e -> (0 <= b)%Z -> (e <= num_frames R f)%Z -> exists rows, query R f s p q = Ok rows /\ List.length rows = Z.to_nat e - Z.to_nat (Z.max 1 b) /\ rows_of R f s (Z.to_nat (Z.max 1 b)) rows) /\
  (b <> e -> (b < 0 \/ num_frames R f < e)%Z -> query R f s p q = Throw).
Proof. exact query_is. Qed.
Print Assumptions C85_rows.
(** Every time has exactly one such frame. *)
Theorem C85_frame : forall (R : cring) (f : sound R) p, exists n, first_at R f p n /\ forall m, first_at R f p m -> m = n.
Proof. intros R f p. exists (param_to_frame R f p). split; [exact (frame_first R f p)|]. intros m H. exact (first_unique R f p m _ H (frame_first R f p)). Qed.
Print Assumptions C85_frame.
(** An interval cut in two has the rows of its parts. *)
Theorem C85_split : forall (R : cring) (f : sound R) s p q r rows, whole R f -> fits R f s -> (p <= q)%Q -> (q <= r)%Q -> query R f s p r = Ok rows ->
  exists a b, query R f s p q = Ok a /\ query R f s q r = Ok b /\ rows = (a ++ b)%list.
Proof. exact query_split. Qed.
Print Assumptions C85_split.
(** The rows of a value channel add up to the change of its samples. *)
Theorem C85_total : forall (R : cring) (f : sound R) s p q b e rows c n ll, whole R f -> fits R f s -> (p <= q)%Q -> first_at R f p b -> first_at R f q e -> b <> e -> query R f s p q = Ok rows ->
  nth_error (chans s) c = Some (n, Value ll) ->
  sum rows (fun r => nth (width_to s c) r r0) = rsub (sample R f (Z.to_nat (e - 1)) c) (sample R f (Z.to_nat (b - 1)) c).
Proof. exact query_total. Qed.
Print Assumptions C85_total.
(** With the width of the schema and the type of the stream, the rows that enter the log signature are those. *)
Theorem C85_increments : forall (R : cring) (f : sound R) st p q, Z.to_nat (ss_width st) = width (ss_schema st) -> increments R f st (ss_type st) p q = query R f (ss_schema st) p q.
Proof. exact increments_are. Qed.
Print Assumptions C85_increments.
(** Streams that are made have a final schema, the width of the file, the scalar type of their context and the length of the file. *)
Theorem C85_made : forall (R : cring) (f : sound R) k st, from_uri R f k = Ok st ->
  final (ss_schema st) = true /\ ss_width st = Z.of_nat (sd_channels R f) /\ ss_type st = snd (ss_ctx st) /\ (ss_end st == inject_Z (num_frames R f) / inject_Z (sd_rate R f))%Q.
Proof. exact uri_has. Qed.
Print Assumptions C85_made.
(** With no schema and no time the increments are the frames of the file, from the second on. *)
Theorem C85_frames : forall (R : cring) (f : sound R) k t st p q b e, whole R f -> only_type k t -> timed k = false -> from_uri R f k = Ok st -> (p <= q)%Q -> first_at R f p b -> first_at R f q e ->
  (0 <= b)%Z -> (e <= num_frames R f)%Z -> increments R f st (snd (ss_ctx st)) p q = Ok (firstn (Z.to_nat e - Z.to_nat (Z.max 1 b)) (skipn (Z.to_nat (Z.max 1 b)) (sd_frames R f))).
Proof. exact uri_frames. Qed.
Print Assumptions C85_frames.
(** With a final schema given and no width, the schema has the width of the file, and if its channels all have a dimension
    the stream gives the rows of the query: rows of that width, or an error. *)
Theorem C85_given_width : forall (R : cring) (f : sound R) k s st, schema_given k s -> 0 < width s -> from_uri R f k = Ok st ->
  ss_schema st = s /\ width s = sd_channels R f /\ ss_width st = Z.of_nat (width s).
Proof. exact given_width. Qed.
Print Assumptions C85_given_width.
Theorem C85_given_rows : forall (R : cring) (f : sound R) k s st p q, schema_given k s -> 0 < width s -> (forall x, In x (chans s) -> 0 < num_variants (snd x)) -> from_uri R f k = Ok st ->
  fits R f s /\ increments R f st (snd (ss_ctx st)) p q = query R f s p q.
Proof. exact given_rows. Qed.
Print Assumptions C85_given_rows.
Theorem C85_given_defined : forall (R : cring) (f : sound R) k s st p q, whole R f -> schema_given k s -> 0 < width s -> (forall x, In x (chans s) -> 0 < num_variants (snd x)) -> from_uri R f k = Ok st -> (p <= q)%Q ->
  match increments R f st (snd (ss_ctx st)) p q with Ok rows => Forall (fun r => List.length r = sd_channels R f) rows | Throw => True | _ => False end.
Proof. exact given_safe. Qed.
Print Assumptions C85_given_defined.
Theorem C85_given_always_defined_refuted : ~ (forall (f : sound Zcr) k s st p q, whole Zcr f -> schema_given k s -> 0 < width s -> from_uri Zcr f k = Ok st -> (p <= q)%Q ->
  increments Zcr f st (snd (ss_ctx st)) p q <> UB).
Proof. exact given_all_safe_refuted. Qed.
Print Assumptions C85_given_always_defined_refuted.
(** What does not hold: the channel type asked for is used; the time asked for is recorded; nothing is read out of range. *)
Theorem C85_value_type_refuted : ~ (forall (f : sound Zcr) k st, whole Zcr f -> only_type k TValue -> from_uri Zcr f k = Ok st -> forall x, In x (chans (ss_schema st)) -> is_value (snd x) = true).
Proof. exact value_type_refuted. Qed.
Print Assumptions C85_value_type_refuted.
Theorem C85_time_refuted : ~ (forall (f : sound Zcr) k st p q rows, whole Zcr f -> timed k = true -> from_uri Zcr f k = Ok st -> increments Zcr f st (snd (ss_ctx st)) p q = Ok rows ->
  forall r, In r rows -> nth (width (ss_schema st) - 1) r 0%Z <> 0%Z).
Proof. exact time_refuted. Qed.
Print Assumptions C85_time_refuted.
Theorem C85_defined_refuted : ~ (forall (f : sound Zcr) k st p q, whole Zcr f -> from_uri Zcr f k = Ok st -> (0 <= p)%Q -> (p <= q)%Q -> (q <= ss_end st)%Q -> increments Zcr f st (snd (ss_ctx st)) p q <> UB).
Proof. exact defined_refuted. Qed.
Print Assumptions C85_defined_refuted.
