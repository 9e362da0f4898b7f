(** Model of roughpy_compute/common/cache_array.hpp: a small array with inline storage. *)
From Verif Require Export Mem.
Open Scope Z_scope.

Section CacheArray.
  Context {T : Type}.
  Variable I : Z.    (** template parameter [InlineSize] *)

  (** Lines 29-32: the union of the inline elements and [alloc_]; reading a member other than
      the one last written is undefined. *)
  Inductive storage := Elems (x : Z -> T) | Alloc (n : Z).
  (** Heap blocks: contents and whether the block is allocated.  [deallocate] must be given the
      number of elements that was allocated. *)
  Record block := mkBlock { bk_buf : buf T; bk_live : bool }.
  Definition blocks := list block.
  (** Lines 29-34: [ptr_] points to the inline buffer (None) or to a block. *)
  Record carr := mkCarr { ca_un : storage; ca_ptr : option nat; ca_size : Z }.
  Definition state := (blocks * carr)%type.

  Definition set_block (m : blocks) (p : nat) (b : block) : blocks := firstn p m ++ b :: skipn (S p) m.
  Definition allocate (m : blocks) (n : Z) (junk : Z -> T) : blocks * nat := (m ++ [mkBlock (mkbuf n junk) true], length m).
  Definition deallocate (m : blocks) (p : option nat) (n : Z) : outcome blocks :=
    match p with
    | None => UB
    | Some p =>
        match nth_error m p with
        | Some b => if bk_live b && (blen (bk_buf b) =? n) then Ok (set_block m p (mkBlock (bk_buf b) false)) else UB
        | None => UB
        end
    end.

  (** Lines 36-38 *)
  Definition is_inline (a : carr) : bool := ca_size a <=? I.
  (** Lines 42-49; [junk] is what the fresh storage contains. *)
  Definition construct (m : blocks) (size : Z) (junk : Z -> T) : state :=
    if size >? I then let '(m, p) := allocate m size junk in (m, mkCarr (Alloc size) (Some p) size)
    else (m, mkCarr (Elems junk) None size).
  (** Lines 51-55 *)
  Definition destroy (s : state) : outcome blocks :=
    let '(m, a) := s in if negb (is_inline a) then deallocate m (ca_ptr a) (ca_size a) else Ok m.
  (** Lines 57-67, without the assertion. *)
  Definition read (s : state) (i : Z) : outcome T :=
    let '(m, a) := s in
    match ca_ptr a with
    | None => if (0 <=? i) && (i <? I) then match ca_un a with Elems x => Ok (x i) | Alloc _ => UB end else UB
    | Some p => match nth_error m p with Some b => if bk_live b then bget (bk_buf b) i else UB | None => UB end
    end.
  Definition write (s : state) (i : Z) (v : T) (junk : Z -> T) : outcome state :=
    let '(m, a) := s in
    match ca_ptr a with
    | None =>
        if (0 <=? i) && (i <? I) then
          let x := match ca_un a with Elems x => x | Alloc _ => junk end in
          Ok (m, mkCarr (Elems (fun j => if j =? i then v else x j)) None (ca_size a))
        else UB
    | Some p =>
        match nth_error m p with
        | Some b => if bk_live b then let! d := bset (bk_buf b) i v in Ok (set_block m p (mkBlock d true), a) else UB
        | None => UB
        end
    end.
  Definition get_alloc (a : carr) : outcome Z := match ca_un a with Alloc n => Ok n | Elems _ => UB end.
  (** Lines 69-75 *)
  Definition size_of (s : state) : Z := ca_size (snd s).
  Definition capacity (s : state) : outcome Z := if is_inline (snd s) then Ok I else get_alloc (snd s).
  (** Lines 93-111 *)
  Definition resize (s : state) (n : Z) (junk : Z -> T) : outcome state :=
    let '(m, a) := s in
    if is_inline a then
      if n >? I then let '(m, p) := allocate m n junk in Ok (m, mkCarr (Alloc n) (Some p) n) else Ok s
    else
      let! al := get_alloc a in
      if n >? al then
        let! m := deallocate m (ca_ptr a) al in
        let '(m, p) := allocate m n junk in Ok (m, mkCarr (Alloc n) (Some p) n)
      else Ok (m, mkCarr (ca_un a) (ca_ptr a) n).

  (** The life of one array. *)
  Inductive use := Resize (n : Z) (junk : Z -> T) | Write (i : Z) (v : T) (junk : Z -> T) | Read (i : Z) | Size | Capacity.
  Inductive told := Done | Value (v : T) | Count (n : Z).
  Definition step (s : state) (u : use) : outcome (state * told) :=
    match u with
    | Resize n junk => let! s := resize s n junk in Ok (s, Done)
    | Write i v junk => let! s := write s i v junk in Ok (s, Done)
    | Read i => let! v := read s i in Ok (s, Value v)
    | Size => Ok (s, Count (size_of s))
    | Capacity => let! c := capacity s in Ok (s, Count c)
    end.
  Fixpoint uses (s : state) (us : list use) : outcome (state * list told) :=
    match us with
    | [] => Ok (s, [])
    | u :: us => let! (s, t) := step s u in let! (s, l) := uses s us in Ok (s, t :: l)
    end.
  (** Construct, use, destroy: the answers and the blocks that are still allocated. *)
  Definition life (size : Z) (junk : Z -> T) (us : list use) : outcome (list told * blocks) :=
    let! (s, l) := uses (construct [] size junk) us in
    let! m := destroy s in Ok (l, filter bk_live m).
End CacheArray.
Arguments storage : clear implicits. Arguments block : clear implicits. Arguments blocks : clear implicits.
Arguments carr : clear implicits. Arguments state : clear implicits. Arguments use : clear implicits. Arguments told : clear implicits.
