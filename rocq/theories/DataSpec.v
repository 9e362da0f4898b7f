(** What data given by a user means. *)
From Verif Require Export DataModel.
Open Scope Z_scope.

Section DataSpec.
  Variable V : Type.
  Variable of_int : Z -> V.
  Variable conv : stype -> V -> option V.
  Variable zero : stype -> V.
  Notation pyval := (pyval V).
  Notation arr := (arr V).

  (** A Python number and its value in a scalar type. *)
  Definition number (t : stype) (v : pyval) (x : V) : Prop :=
    match v with
    | PInt _ z => - 2 ^ 63 <= z < 2 ^ 63 /\ conv t (of_int z) = Some x
    | PNum _ y => conv t y = Some x
    | _ => False
    end.
  Definition a_number (v : pyval) : Prop := match v with PInt _ _ | PNum _ _ => True | _ => False end.
  (** Its type is one the library knows. *)
  Definition known_type (v : pyval) (i : tinfo) : Prop :=
    match v with PInt true _ => i = mkTI TFloat 8 | PNum (Some j) _ => i = j | _ => False end.
  (** A basis key: an int, or for tensors a key object. *)
  Definition key (tensor : bool) (v : pyval) (k : Z) : Prop :=
    match v with PInt _ z => 0 <= z < 2 ^ 64 /\ k = z | PKey j => tensor = true /\ k = j | _ => False end.
  Definition a_key (tensor : bool) (v : pyval) : Prop := match v with PInt _ _ => True | PKey _ => tensor = true | _ => False end.
  (** (key, number) *)
  Definition a_pair (tensor : bool) (v : pyval) : Prop :=
    match v with PTuple [k; s] => a_key tensor k /\ a_number s | _ => False end.
  Definition pair_of (tensor : bool) (t : stype) (v : pyval) (k : Z) (x : V) : Prop :=
    exists a s, v = PTuple [a; s] /\ key tensor a k /\ number t s x.
  Definition first_known (l : list pyval) : Prop := match l with v :: _ => exists i, known_type v i | [] => False end.
  Definition sequence (v : pyval) (l : list pyval) : Prop := v = PList l \/ v = PTuple l.

  (** One row of data: its values, and its keys when it is keyed. *)
  Inductive row (tensor : bool) (t : stype) : pyval -> list V -> option (list Z) -> Prop :=
  | row_numbers v l xs : sequence v l -> first_known l -> Forall2 (number t) l xs -> row tensor t v xs None
  | row_pairs v l kx : sequence v l -> (match l with PTuple [_; s] :: _ => exists i, known_type s i | _ => False end) ->
      Forall2 (fun p q => pair_of tensor t p (fst q) (snd q)) l kx -> row tensor t v (map snd kx) (Some (map fst kx))
  | row_dict l kx : (match l with (_, s) :: _ => exists i, known_type s i | _ => False end) ->
      Forall2 (fun p q => key tensor (fst p) (fst q) /\ number t (snd p) (snd q)) l kx ->
      row tensor t (PDict l) (map snd kx) (Some (map fst kx))
  | row_lie s l xs : Forall2 (fun v x => s = t /\ x = v \/ s <> t /\ conv t v = Some x) l xs -> row tensor t (PLieD s l) xs None
  | row_sparse_lie s l kx : Forall2 (fun p q => fst q = fst p /\ conv t (snd p) = Some (snd q)) l kx ->
      row tensor t (PLieS s l) (map snd kx) (match kx with [] => None | _ => Some (map fst kx) end).

  (** No arrays inside. *)
  Fixpoint plain (v : pyval) : bool :=
    match v with
    | PDl _ | PBuf _ => false
    | PTuple l | PList l => forallb plain l
    | PDict l => forallb (fun p => plain (snd p)) l
    | _ => true
    end.

  (** Data of Lie(data) and, with [tensor], of FreeTensor(data) and ShuffleTensor(data). *)
  Inductive element_data (tensor : bool) (t : stype) : pyval -> list V -> option (list Z) -> Prop :=
  | el_none : element_data tensor t PNone [] None
  | el_scalar v x i : tensor = true -> known_type v i -> number t v x -> element_data tensor t v [x] None
  | el_pair v k x : pair_of tensor t v k x -> (exists i, match v with PTuple [_; s] => known_type s i | _ => False end) ->
      element_data tensor t v [x] (Some [k])
  | el_row v xs ks : ~ (exists k s, v = PTuple [k; s] /\ a_key tensor k) -> row tensor t v xs ks -> element_data tensor t v xs ks.

  (** Data of LieIncrementStream.from_increments: one row, or a sequence of rows.  A sequence
      of (int, number) pairs is one row, so a sequence of rows must show that it is not such a
      row: the first item that is no pair is the first item of all, or a tuple. *)
  Definition shows_rows (l : list pyval) : Prop :=
    exists l1 y l2, l = l1 ++ y :: l2 /\ Forall (a_pair false) l1 /\ ~ a_pair false y /\ (l1 = [] \/ exists m, y = PTuple m).
  Inductive stream_rows (t : stype) : pyval -> list (list V) -> Prop :=
  | sr_none : stream_rows t PNone []
  | sr_row v xs ks : ~ (exists k s, v = PTuple [k; s] /\ a_key false k) -> row false t v xs ks -> stream_rows t v [xs]
  | sr_rows v l rows : ~ (exists k s, v = PTuple [k; s] /\ a_key false k) -> sequence v l -> shows_rows l ->
      Forall2 (fun y xs => exists ks, row false t y xs ks) l rows -> stream_rows t v rows.

  (** *** Arrays.  Element (i,j) of a DLPack array taken as an element of some type, strides
      counted in elements. *)
  Definition elem1_as (ty : tinfo) (a : arr) (s i : Z) : option V := a_mem a ty (i * s * ti_bytes (a_info a)).
  Definition elem2_as (ty : tinfo) (a : arr) (s0 s1 i j : Z) : option V := a_mem a ty ((i * s0 + j * s1) * ti_bytes (a_info a)).
  Definition elem1 (a : arr) : Z -> Z -> option V := elem1_as (a_info a) a.
  Definition elem2 (a : arr) : Z -> Z -> Z -> Z -> option V := elem2_as (a_info a) a.
  (** Arrays of integers of 8 to 64 bits or floats of 16 to 64 bits. *)
  Definition number_array (a : arr) : Prop :=
    match ti_code (a_info a) with
    | TInt | TUInt => In (ti_bytes (a_info a)) [1; 2; 4; 8]
    | TFloat => In (ti_bytes (a_info a)) [2; 4; 8]
    | TBFloat => ti_bytes (a_info a) = 2
    | _ => False
    end.
  (** Unsigned elements that are the same taken as signed ones: below half of the range. *)
  Definition halved (a : arr) : Prop := ti_code (a_info a) = TUInt -> forall o, a_mem a (mkTI TInt (ti_bytes (a_info a))) o = a_mem a (a_info a) o.
  (** The value a user expects at an element: its conversion. *)
  Definition value_at (t : stype) (m : option V) (x : V) : Prop := exists v, m = Some v /\ conv t v = Some x.
  (** Elements of the type asked for need no conversion. *)
  Definition same_type_same_value (t : stype) (a : arr) : Prop :=
    st_info t = a_info a -> forall o v, a_mem a (a_info a) o = Some v -> conv t v = Some v.
  Definition ith {A} (l : list A) (i : Z) (x : A) : Prop := nth_error l (Z.to_nat i) = Some x.
  (** [rows] are the m rows of n values. *)
  Definition matrix (rows : list (list V)) (m n : Z) (at_ : Z -> Z -> V -> Prop) : Prop :=
    Z.of_nat (length rows) = m /\
    forall i, 0 <= i < m -> exists r, ith rows i r /\ Z.of_nat (length r) = n /\ forall j, 0 <= j < n -> exists x, ith r j x /\ at_ i j x.
  Definition vector (r : list V) (n : Z) (at_ : Z -> V -> Prop) : Prop :=
    Z.of_nat (length r) = n /\ forall j, 0 <= j < n -> exists x, ith r j x /\ at_ j x.
  (** Arrays of the scalar type asked for whose strides look contiguous when elements are
      taken for bytes, or add up to zero. *)
  Definition misread (t : stype) (a : arr) : bool :=
    tinfo_eqb (st_info t) (a_info a) &&
    match a_strides a, a_shape a with
    | Some [s], [_] => (s mod 2 ^ 32 =? 0) || (s =? ti_bytes (a_info a))
    | Some [s0; s1], [_; n] => ((s0 + s1) mod 2 ^ 32 =? 0) || ((s1 =? ti_bytes (a_info a)) && (s0 =? ti_bytes (a_info a) * n))
    | _, _ => false
    end.

  (** *** Scalar types.  The type all given types can be turned into: polynomials before
      rationals before double before float; integers alone are double. *)
  Definition ordinary (i : tinfo) : Prop :=
    match ti_code i with
    | TInt | TUInt => 1 <= ti_bytes i <= 8
    | TFloat => ti_bytes i = 4 \/ ti_bytes i = 8
    | TRational | TPoly => True
    | _ => False
    end.
  Definition some_are (c : tcode) (b : Z) (l : list tinfo) : bool := existsb (fun i => tcode_eqb (ti_code i) c && ((b =? 0) || (ti_bytes i =? b))) l.
  Definition common_type (l : list tinfo) : stype :=
    if some_are TPoly 0 l then SPoly else if some_are TRational 0 l then SRational
    else if some_are TFloat 8 l then SDouble else if some_are TFloat 4 l then SFloat else SDouble.
  (** The type of a row is that of its first entry. *)
  Definition row_type (v : pyval) (i : tinfo) : Prop :=
    match v with
    | PList (x :: _) | PTuple (x :: _) => known_type x i \/ exists k s, x = PTuple [k; s] /\ known_type s i
    | PDict ((_, s) :: _) => known_type s i
    | PLieD t _ | PLieS t _ => i = st_info t
    | _ => False
    end.
  (** Data together with the types found in it. *)
  Inductive element_types (tensor : bool) (t : stype) : pyval -> list V -> option (list Z) -> tinfo -> Prop :=
  | et_scalar v x i : tensor = true -> known_type v i -> number t v x -> element_types tensor t v [x] None i
  | et_pair k s kk x i : pair_of tensor t (PTuple [k; s]) kk x -> known_type s i -> element_types tensor t (PTuple [k; s]) [x] (Some [kk]) i
  | et_row v xs ks i : ~ (exists k s, v = PTuple [k; s] /\ a_key tensor k) -> row tensor t v xs ks -> row_type v i -> element_types tensor t v xs ks i.
  Inductive stream_types (t : stype) : pyval -> list (list V) -> list tinfo -> Prop :=
  | st_row v xs ks i : ~ (exists k s, v = PTuple [k; s] /\ a_key false k) -> row false t v xs ks -> row_type v i -> stream_types t v [xs] [i]
  | st_rows v l rows is : ~ (exists k s, v = PTuple [k; s] /\ a_key false k) -> sequence v l -> shows_rows l ->
      Forall2 (fun y xs => exists ks, row false t y xs ks) l rows -> Forall2 row_type l is -> stream_types t v rows is.
End DataSpec.
Arguments number {V}. Arguments a_number {V}. Arguments known_type {V}. Arguments key {V}. Arguments a_key {V}. Arguments a_pair {V}. Arguments pair_of {V}.
Arguments first_known {V}. Arguments sequence {V}. Arguments row {V}. Arguments plain {V}. Arguments element_data {V}. Arguments shows_rows {V}. Arguments stream_rows {V}.
Arguments elem1_as {V}. Arguments elem2_as {V}. Arguments elem1 {V}. Arguments elem2 {V}. Arguments number_array {V}. Arguments halved {V}. Arguments value_at {V}. Arguments same_type_same_value {V}. Arguments matrix {V}. Arguments vector {V}. Arguments misread {V}. Arguments row_type {V}. Arguments element_types {V}. Arguments stream_types {V}.
