(** What a user expects of the indices, resolution and support of
    LieIncrementStream.from_increments. *)
From Verif Require Export IndexModel StreamSpec.
Open Scope Z_scope.

Section Spec.
  Context {V lie : Type}.
  Variable to_float : V -> Q.

  Definition qsum (l : list Q) : Q := fold_right Qplus 0%Q l.
  (** No indices: nothing or an empty sequence or buffer. *)
  Definition no_indices (a : option iarg) : Prop :=
    match a with None => True | Some (ISeq l) => l = [] | Some (IBuffer b) => ib_count b <= 0 | _ => False end.
  (** The parameter of row i: i itself without indices, else element i of the indices or,
      for a column, the sum of the entries of that column down to row i. *)
  Inductive index_of (a : option iarg) (rows : list (list V)) (i : nat) : Q -> Prop :=
  | ix_count x : no_indices a -> x = inject_Z (Z.of_nat i) -> index_of a rows i x
  | ix_seq l x : a = Some (ISeq l) -> nth_error l i = Some (Some x) -> index_of a rows i x
  | ix_buffer b x : a = Some (IBuffer b) -> Z.of_nat i < ib_count b -> 0 <= ib_off b + Z.of_nat i * ib_stride b ->
      nth_error (ib_cells b) (Z.to_nat (ib_off b + Z.of_nat i * ib_stride b)) = Some x -> index_of a rows i x
  | ix_column c entries x : a = Some (IColumn c) -> Forall2 (fun r v => nth_error r (Z.to_nat c) = Some v) (firstn (S i) rows) entries ->
      (x == qsum (map to_float entries))%Q -> index_of a rows i x.
  (** Buffers whose elements are stored one after another and are signed integers, floats, or
      unsigned integers less than half of their range. *)
  Definition plain_buffer (a : option iarg) : Prop :=
    match a with
    | Some (IBuffer b) => (ib_stride b = 1 \/ ib_count b <= 1) /\
        match ib_type b with
        | IBNumber => True
        | IBUnsigned bits => Forall (fun x => (x < inject_Z (2 ^ (bits - 1)))%Q) (ib_cells b)
        | IBOther => ib_count b <= 0
        end
    | _ => True
    end.

  (** The number of letters: of the context, else width=, else the longest row. *)
  Definition letters (se : settings lie) (rows : list (list V)) (w : Z) : Prop :=
    match se_ctx se with
    | Some c => w = cx_width c
    | None => if se_width se =? 0 then (rows = [] /\ w = 0 \/ (exists r, In r rows /\ Z.of_nat (length r) = w) /\ forall r, In r rows -> Z.of_nat (length r) <= w) else w = se_width se
    end.
  (** Indices that fit the rows. *)
  Definition fitting (a : option iarg) (rows : list (list V)) : Prop :=
    match a with
    | None => True
    | Some (ISeq l) => Forall (fun o => o <> None) l /\ (l = [] \/ length l = length rows)
    | Some (IColumn c) => 0 <= c /\ Forall (fun r => c < Z.of_nat (length r)) rows
    | Some (IBuffer b) => ib_count b <= 0 \/ ib_count b = Z.of_nat (length rows)
    | Some IOther => False
    end.
  (** The buffer lies inside its allocation. *)
  Definition inside (a : option iarg) : Prop :=
    match a with Some (IBuffer b) => 0 <= ib_off b /\ ib_off b + ib_count b <= Z.of_nat (length (ib_cells b)) | _ => True end.

  (** The resolution used when none is given: for the least index m, one more than the
      resolution of a cell of m's size, cells being at most 32 long. *)
  Definition resolution_for (m : Q) (r : Z) : Prop :=
    ((m == 0)%Q -> r = 2) /\ forall e, (Qpower 2 e <= Qabs m)%Q -> (Qabs m < Qpower 2 (e + 1))%Q -> r = 1 - Z.min 5 e.
  Definition least (m : Q) (l : list Q) : Prop := In m l /\ forall x, In x l -> (m <= x)%Q.
  Definition greatest (m : Q) (l : list Q) : Prop := In m l /\ forall x, In x l -> (x <= m)%Q.
End Spec.
Arguments letters {V lie}. Arguments fitting {V}.
