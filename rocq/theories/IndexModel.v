(** LieIncrementStream.from_increments, from rows of scalars on:
    roughpy/src/streams/lie_increment_stream.cpp:61-245,
    roughpy/src/args/kwargs_to_path_metadata.cpp:224-229,
    roughpy/src/streams/schema_finalization.cpp and the constructor in
    streams/src/lie_increment_stream.cpp:103-147.

    The rows are what [DataModel.increments] reads.  Parameters are exact rationals. *)
From Coq Require Export Qabs.
From Verif Require Export StreamModel.
Open Scope Z_scope.

(** Element types of a buffer: signed integers and floats, unsigned integers of some number of
    bits, all others (bool, complex, ...). *)
Inductive ibtype := IBNumber | IBUnsigned (bits : Z) | IBOther.
(** A buffer of numbers (the elements as the user sees them): its element type, the numbers of
    the allocation it is a view of, the place of its first element, the distance of consecutive
    elements and their number. *)
Record ibuf := mkIB { ib_type : ibtype; ib_cells : list Q; ib_off : Z; ib_stride : Z; ib_count : Z }.
(** The [indices] argument: a buffer, an int, a sequence (None for an item that does not
    convert to a float), anything else. *)
Inductive iarg := IBuffer (b : ibuf) | IColumn (c : Z) | ISeq (l : list (option Q)) | IOther.

(** lie_increment_stream.cpp:61-71 [buffer_to_indices]: [info.size] consecutive numbers from
    [info.ptr]; the strides are not looked at. *)
Fixpoint consecutive (cells : list Q) (at_ : Z) (n : nat) : outcome (list Q) :=
  match n with
  | O => Ok []
  | S n =>
      match (if at_ <? 0 then None else nth_error cells (Z.to_nat at_)) with
      | None => UB
      | Some x => let! l := consecutive cells (at_ + 1) n in Ok (x :: l)
      end
  end.
(** An unsigned number taken for a signed one. *)
Definition as_signed (bits : Z) (x : Q) : Q := if Qle_bool (inject_Z (2 ^ (bits - 1))) x then (x - inject_Z (2 ^ bits))%Q else x.
(** The source array is made from a type description, which forgets that numbers are unsigned
    (C72); for types without a case the [noexcept] function [src.type()] throws
    (scalar_array.cpp:244-249, standard_scalar_type.h:127-194). *)
Definition buffer_to_indices (b : ibuf) : outcome (list Q) :=
  let elements := consecutive (ib_cells b) (ib_off b) (Z.to_nat (ib_count b)) in
  match ib_type b with
  | IBNumber => elements
  | IBUnsigned bits => let! l := elements in Ok (map (as_signed bits) l)
  | IBOther => if 0 <? ib_count b then UB else Ok []
  end.

(** frexp: the exponent *)
Definition frexp_exp (x : Q) : Z := if qeq x 0 then 0 else qlog2 (Qabs x) + 1.
(** kwargs_to_path_metadata.cpp:224-229 *)
Definition py_param_to_resolution (x : Q) : Z := - Z.min 5 (frexp_exp x - 1).
(** lie_increment_stream.cpp:193-206.  [None] is infinity; [previous] stays 0.  The result
    of the last round is the one left in md.resolution. *)
Fixpoint resolution_loop (previous : Q) (min_diff : option Q) (res : option Z) (l : list Q) : option Z :=
  match l with
  | [] => res
  | x :: l =>
      let diff := (x - previous)%Q in
      let m := match min_diff with None => diff | Some m => if qlt diff m then diff else m end in
      resolution_loop previous (Some m) (Some (py_param_to_resolution m + 1)) l
  end.
(** std::minmax_element *)
Fixpoint minmax (lo hi : Q) (l : list Q) : Q * Q :=
  match l with [] => (lo, hi) | x :: l => minmax (if qlt x lo then x else lo) (if qlt x hi then hi else x) l end.
(** lines 179-180 *)
Definition counting (n : nat) : list Q := map (fun i => inject_Z (Z.of_nat i)) (seq 0 n).

Section FromIncrements.
  Variable V lie : Type.
  (** scalar_cast<param_t> *)
  Variable to_float : V -> Q.
  (** Context::construct_lie for a row without keys *)
  Variable construct : actx lie -> list V -> lie.
  (** [x[key] = value] *)
  Variable assign : lie -> Z -> Q -> lie.
  (** algebra::get_context(width, depth, scalar type) *)
  Variable get_context : Z -> Z -> actx lie.

  (** PyStreamMetaData, without schema, vector type and scalar type: ctx=, width=, depth=
      (0 if not given), include_time=, resolution=, support=. *)
  Record settings := mkSet { se_ctx : option (actx lie); se_width : Z; se_depth : Z; se_time : bool; se_res : option Z; se_support : option ri }.

  (** scalar_stream.cpp:100-112 *)
  Definition max_row_size (rows : list (list V)) : Z := fold_left (fun m r => Z.max m (Z.of_nat (length r))) rows 0.
  (** lie_increment_stream.cpp:101-113 *)
  Definition choose_ctx (se : settings) (rows : list (list V)) : outcome (actx lie) :=
    match se_ctx se with
    | Some c => Ok c
    | None =>
        let w := if se_width se =? 0 then max_row_size rows else se_width se in
        if (w =? 0) || (se_depth se =? 0) then Throw else Ok (get_context w (se_depth se))
    end.
  (** lines 126-164: the column [c] of the rows, added up.  The rows have no keys
      ([fill_ks_stream] drops them). *)
  Fixpoint column (c : Z) (last : option Q) (rows : list (list V)) : outcome (list Q) :=
    match rows with
    | [] => Ok []
    | r :: rows =>
        match nth_error r (Z.to_nat c) with
        | None => Throw
        | Some v =>
            let x := match last with None => to_float v | Some y => (y + to_float v)%Q end in
            let! l := column c (Some x) rows in Ok (x :: l)
        end
    end.
  Fixpoint all_floats (l : list (option Q)) : outcome (list Q) :=
    match l with
    | [] => Ok []
    | None :: _ => Throw
    | Some x :: l => let! r := all_floats l in Ok (x :: r)
    end.
  (** lines 119-174 *)
  Definition read_indices (a : option iarg) (rows : list (list V)) : outcome (list Q) :=
    match a with
    | None => Ok []
    | Some (IBuffer b) => buffer_to_indices b
    | Some (IColumn c) => if c <? 0 then Throw else column c None rows
    | Some (ISeq l) => all_floats l
    | Some IOther => Throw
    end.
  (** lines 176-188 *)
  Definition default_indices (se : settings) (rows : list (list V)) (idx : list Q) : outcome (list Q * option Z) :=
    match idx with
    | [] => Ok (counting (length rows), Some 0)
    | _ => if (length idx =? length rows)%nat then Ok (idx, se_res se) else Throw
    end.
  (** lines 193-206 *)
  Definition settle_resolution (r : option Z) (idx : list Q) : option Z :=
    match r with Some _ => r | None => resolution_loop 0 None None idx end.
  (** lines 117, 208-215; md.interval_type is Clopen. *)
  Definition effective_support (idx : list Q) (res : Z) : ri :=
    match idx with
    | [] => ri_make 0 1 Clopen
    | x :: l => let (lo, hi) := minmax x x l in ri_make lo (hi + Qpower 2 (- res)) Clopen
    end.
  (** schema_finalization.cpp:48-128 for the schema made by kwargs_to_path_metadata.cpp:129-149:
      the schema gets channels until it is as wide as the context, the time channel among
      them.  Returned is the key of the time channel, 0 without it. *)
  Definition finalize_schema (se : settings) (c : actx lie) : outcome Z :=
    let channels := if se_time se then Z.max 0 (cx_width c - 1) else cx_width c in
    let schema_width := if se_time se then channels + 1 else channels in
    if schema_width =? 0 then Throw
    else if se_time se && (schema_width =? 1) then Throw
    else Ok (if se_time se then channels + 1 else 0).
  (** streams/src/lie_increment_stream.cpp:124-146.  The time entry is set on rows that are
      inserted; setting it before the insertion is the same. *)
  Fixpoint insert_rows (c : actx lie) (slot : Z) (previous : Q) (idx : list Q) (rows : list (list V)) (d : incs lie) : incs lie :=
    match idx, rows with
    | x :: idx, r :: rows =>
        let v := construct c r in
        let v := if 0 <? slot then assign v slot (x - previous)%Q else v in
        insert_rows c slot x idx rows (try_emplace x v d)
    | _, _ => d
    end.

  (** lie_increment_stream.cpp:73-245, from the rows on. *)
  Definition from_increments (se : settings) (a : option iarg) (rows : list (list V)) : outcome (stream lie) :=
    let! c := choose_ctx se rows in
    let! idx := read_indices a rows in
    let! (idx, r) := default_indices se rows idx in
    match settle_resolution r idx with
    | None => UB
    | Some res =>
        let support := effective_support idx res in
        let! slot := finalize_schema se c in
        if negb (length idx =? length rows)%nat then Throw
        else
          let d := insert_rows c slot 0 idx rows [] in
          Ok (mkStream d res c (match se_support se with Some i => i | None => support end))
    end.
End FromIncrements.
Arguments mkSet {lie}. Arguments se_ctx {lie}. Arguments se_width {lie}. Arguments se_depth {lie}. Arguments se_time {lie}. Arguments se_res {lie}. Arguments se_support {lie}.
Arguments max_row_size {V}. Arguments choose_ctx {V lie}. Arguments column {V}. Arguments read_indices {V}. Arguments default_indices {V lie}.
Arguments finalize_schema {lie}. Arguments insert_rows {V lie}. Arguments from_increments {V lie}.
