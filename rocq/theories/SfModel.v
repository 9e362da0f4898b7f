(** Streams of sound files (streams/src/external_data_sources/sound_file_data_source.cpp, external_data_stream.cpp,
    roughpy/src/streams/externally_sourced_stream.cpp). *)
From Coq Require Import ZArith QArith Qround List Bool String.
Import ListNotations.
From Verif Require Import Outcome Alg SchemaModel PsModel.
Open Scope nat_scope.
Open Scope list_scope.

Section Sound.
  (** Samples; conversions between the types of samples and of scalars are exact *)
  Variable R : cring.
  (** SndfileHandle: the frames, with one sample for each channel of the file; frames per second; the scalar type of
      the format (sound_file_data_source.cpp:300-324) *)
  Record sound := mkSound { sd_frames : list (list R); sd_channels : nat; sd_rate : Z; sd_type : nat }.
  Definition num_frames (f : sound) : Z := Z.of_nat (List.length (sd_frames f)).
  (** sound_file_data_source.cpp:49-58, where m_file_start is 0 and m_time_param_scaling 1 (sound_file_data_source.h:45-46)
      and nothing sets them *)
  Definition param_to_frame (f : sound) (p : Q) : Z := Qceiling ((p - 0) * 1 * inject_Z (sd_rate f))%Q.
  (** SndfileHandle::readf of one frame at a position: libsndfile writes zeros at the end of the file *)
  Definition read_frame (f : sound) (pos : nat) : list R :=
    match nth_error (sd_frames f) pos with Some x => x | None => repeat r0 (sd_channels f) end.
  Definition at_index (l : list R) (i : nat) : outcome R := match nth_error l i with Some x => Ok x | None => UB end.
  Definition write_at (l : list R) (i : nat) (x : R) : outcome (list R) := if (i <? List.length l)%nat then Ok (upd l i x) else UB.
  Definition is_value (c : channel) : bool := match c with Value _ => true | _ => false end.
  (** sound_file_data_source.cpp:130-141: the loop over the channels of the schema from the channel i on *)
  Fixpoint fill (s : schema) (previous current : list R) (i : nat) (l : list (string * channel)) (working : list R) : outcome (list R) :=
    match l with
    | [] => Ok working
    | (_, c) :: l =>
        let! out := channel_to_stream_dim s i in
        let! x := at_index current i in
        let! y := if is_value c then let! p := at_index previous i in Ok (rsub x p) else Ok x in
        let! working := write_at working out y in
        fill s previous current (S i) l working
    end.
  (** sound_file_data_source.cpp:114-151: n rows from the position of the file on *)
  Fixpoint read_rows (f : sound) (s : schema) (n pos : nat) (previous working : list R) : outcome (list (list R)) :=
    match n with
    | O => Ok []
    | S n =>
        let current := read_frame f pos in
        let! working := fill s previous current 0 (chans s) working in
        let! rows := read_rows f s n (S pos) current working in
        Ok (working :: rows)
    end.
  (** sound_file_data_source.cpp:61-154.  The seek and the first reading come before the check; when the check fails
      they have no effect that can be seen. *)
  Definition query (f : sound) (s : schema) (inf sup : Q) : outcome (list (list R)) :=
    let b := param_to_frame f inf in
    let e := param_to_frame f sup in
    if Z.eqb b e then Ok [] else
    let b := if Z.eqb b 0 then 1%Z else b in
    if (Z.ltb 0 b && Z.leb b e && Z.leb e (num_frames f))%bool then
      read_rows f s (Z.to_nat (e - b)) (Z.to_nat b) (read_frame f (Z.to_nat (b - 1))) (repeat r0 (width s))
    else Throw.
  (** external_data_stream.cpp:56-76: the buffer that the query fills is read again in rows of the width of the metadata;
      reading past it, or reading scalars of one type as another, is undefined *)
  Fixpoint regroup (n w : nat) (buffer : list R) : outcome (list (list R)) :=
    match n with
    | O => Ok []
    | S n => if (List.length buffer <? w)%nat then UB else let! rows := regroup n w (skipn w buffer) in Ok (firstn w buffer :: rows)
    end.
  Record sstream := mkSs { ss_schema : schema; ss_width : Z; ss_type : nat; ss_ctx : Z * Z * nat; ss_end : Q }.
  Definition increments (f : sound) (st : sstream) (ctype : nat) (inf sup : Q) : outcome (list (list R)) :=
    let! rows := query f (ss_schema st) inf sup in
    match rows with
    | [] => Ok []
    | _ => if Nat.eqb ctype (ss_type st) then regroup (List.length rows) (Z.to_nat (ss_width st)) (List.concat rows) else UB
    end.
  (** externally_sourced_stream.cpp:66-130 with sound_file_data_source.cpp:271-370 for a file that can be opened: setters
      are called for the arguments given, then the stream is made.  A context that has to be found is that of the width, depth and type. *)
  Definition from_uri (f : sound) (k : kwargs) : outcome sstream :=
    let! md := kwargs_to_metadata k in
    let n := Z.of_nat (sd_channels f) in
    let! w := if Z.eqb (md_width md) 0 then Ok n else if Z.eqb (md_width md) n then Ok n else Throw in
    let t := or_else (md_type md) (sd_type f) in
    let! ctx := match md_ctx md with
      | Some c => Ok c
      | None => if Z.eqb w 0 || Z.eqb (md_depth md) 0 then Throw else Ok (w, md_depth md, t)
      end in
    let! s := if final (md_schema md) then Ok (md_schema md) else finalize (md_schema md) w in
    Ok (mkSs s w t ctx (inject_Z (num_frames f) / inject_Z (sd_rate f))%Q).
End Sound.
