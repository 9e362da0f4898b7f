(** Model of tick streams: streams/src/tick_stream.cpp and
    streams/include/roughpy/streams/tick_stream.h, with the parts of
    streams/src/stream_base.cpp and streams/src/stream.cpp through which they are asked.

    As in StreamModel.v Lie elements are abstract, parameters are exact rationals, vector
    types are left out and calls run one after another.  Only clopen streams are modelled
    (the default of StreamMetadata): [metadata().interval_type] is Clopen throughout. *)
From Verif Require Export StreamModel.
Open Scope Z_scope.

Section Ticks.
  Variable lie : Type.
  (** algebra_base_impl.h:351 [is_zero]; [operator bool]: does the object hold anything. *)
  Variable is_zero : lie -> bool.
  Variable is_null : lie -> bool.
  (** The default-constructed [algebra::Lie()]. *)
  Variable lie_none : lie.
  (** Context::cbh of two elements; [cx_cbh] of the context is the one of a list. *)
  Variable cbh2 : lie -> lie -> lie.

  (** tick_stream.h [m_granular_times]: the included ends of the cells that hold ticks, a
      sorted vector without repetitions, and [m_data], a std::map.  The vector is kept as a
      map to [unit], so that [lower_bound] etc. of StreamModel.v apply. *)
  Record ticks := mkTicks { tk_times : incs Datatypes.unit; tk_data : cache lie; tk_res : Z }.

  (** The loops [for (; !i.contains_dyadic(end); j = i.expand_interval(), i = j) {}]. *)
  Fixpoint tk_grow (fuel : nat) (i end_ : dint) : outcome dint :=
    match fuel with
    | O => NoFuel
    | S f => let! c := contains_dyadic i end_ in
             if c then Ok i else let! j := expand_interval i 1 in tk_grow f j end_
    end.
  (** Dereferencing an iterator into the times. *)
  Definition time_at (times : incs Datatypes.unit) (p : nat) : outcome Q :=
    match nth_error times p with Some (t, _) => Ok t | None => UB end.

  (** tick_stream.cpp:42-78 [smallest_dyadic_containing_all_events] *)
  Definition tk_smallest (fuel : nat) (times : incs Datatypes.unit) (res : Z) (di : dint) : outcome (option dint) :=
    let! lo := dinf di in
    let! hi := dsup di in
    let be := lower_bound times (to_param lo) in
    let en := (be + lower_bound (skipn be times) (to_param hi))%nat in
    if (en =? be)%nat then Ok None
    else
      let! (back, i) :=
        match di_t di with
        | Clopen => let! b := time_at times (en - 1) in
                    let! back := di_of_param b res Clopen in
                    let! a := time_at times be in
                    let! i := di_of_param a res Clopen in
                    Ok (back, i)
        | Opencl => let! b := time_at times en in
                    let! back := di_of_param b res Clopen in
                    let! a := time_at times (be + 1) in
                    let! i := di_of_param a res Clopen in
                    Ok (back, i)
        end in
      let! i := tk_grow fuel i (of_d (dincluded back) Clopen) in
      Ok (Some i).
  (** tick_stream.cpp:79-97 [smallest_dyadic_containing_all_negative_events] *)
  Definition tk_negative (fuel : nat) (times : incs Datatypes.unit) (res : Z) : outcome (option dint) :=
    let zeu := upper_bound times 0 in
    if (zeu =? 0)%nat then Ok None
    else
      let! b := time_at times (zeu - 1) in
      let! end_ := di_of_param b res Clopen in
      let! a := time_at times 0 in
      let! i := di_of_param a res Clopen in
      let! i := tk_grow fuel i end_ in
      Ok (Some i).
  (** tick_stream.cpp:98-121 [smallest_dyadic_containing_all_positive_events];
      [zero_negative] looks at the excluded end of the cell at 0. *)
  Definition tk_positive (fuel : nat) (times : incs Datatypes.unit) (res : Z) : outcome (option dint) :=
    let! z := di_of_param 0 res Clopen in
    let! x := dexcluded z in
    let zeu := if qlt (to_param x) 0 then upper_bound times 0 else lower_bound times 0 in
    if (zeu =? length times)%nat then Ok None
    else
      let! b := time_at times (length times - 1) in
      let! end_ := di_of_param b res Clopen in
      let! a := time_at times zeu in
      let! i := di_of_param a res Clopen in
      let! i := tk_grow fuel i end_ in
      Ok (Some i).

  (** [m_data[i] = v] for a key that is there or not. *)
  Fixpoint tk_put (m : cache lie) (i : dint) (v : lie) : outcome (cache lie) :=
    match m with
    | [] => Ok [(i, v)]
    | (j, w) :: m' =>
        let! s := same_key j i in
        if s then Ok ((j, v) :: m') else let! m1 := tk_put m' i v in Ok ((j, w) :: m1)
    end.
  (** [m_data[i]]: the entry, default-constructed if it is not there. *)
  Definition tk_entry (m : cache lie) (i : dint) : outcome (lie * cache lie) :=
    let! r := cache_find m i in
    match r with
    | Some v => Ok (v, m)
    | None => let! m1 := tk_put m i lie_none in Ok (lie_none, m1)
    end.

  (** tick_stream.cpp:122-147 [recursive_logsig] *)
  Fixpoint tk_recursive (fuel : nat) (times : incs Datatypes.unit) (res : Z) (ctx : actx lie) (m : cache lie) (di : dint) : outcome (lie * cache lie) :=
    match fuel with
    | O => NoFuel
    | S f =>
        let! p := tk_smallest fuel times res di in
        match p with
        | None => Ok (cx_zero ctx, m)
        | Some i =>
            let! (it, m) := tk_entry m i in
            if negb (is_zero it) then Ok (it, m)
            else if di_n i =? res then Ok (it, m)
            else
              let! lf := shrink_interval_left i 1 in
              let! rt := shrink_interval_right i in
              let! (a, m) := tk_recursive f times res ctx m lf in
              let! (b, m) := tk_recursive f times res ctx m rt in
              let v := cx_cbh ctx [a; b] in
              let! m := tk_put m i v in
              Ok (v, m)
        end
    end.

  (** tick_stream.cpp:161-177, 202-212: filing one tick (the Lie element made of it by the
      context, or taken from the construction helper) under its cell. *)
  Definition tk_file (res : Z) (st : incs Datatypes.unit * cache lie) (e : Q * lie) : outcome (incs Datatypes.unit * cache lie) :=
    let (times, m) := st in
    let! di := di_of_param (fst e) res Clopen in
    let! (existing, m) := tk_entry m di in
    let! m := tk_put m di (if is_null existing then snd e else cbh2 existing (snd e)) in
    Ok (try_emplace (to_param (dincluded di)) tt times, m).
  Fixpoint tk_file_all (res : Z) (st : incs Datatypes.unit * cache lie) (rows : list (Q * lie)) : outcome (incs Datatypes.unit * cache lie) :=
    match rows with
    | [] => Ok st
    | e :: rows => let! st := tk_file res st e in tk_file_all res st rows
    end.
  (** tick_stream.h:67-84: the constructor from times and data; the ends of the other two
      (tick_stream.cpp:183-188, 216-221) are the same.  [ctx] is the stream's own context. *)
  Definition tk_build (fuel : nat) (ctx : actx lie) (res : Z) (times : incs Datatypes.unit) (m : cache lie) : outcome ticks :=
    let! neg := tk_negative fuel times res in
    let! m := match neg with Some i => let! (_, m) := tk_recursive fuel times res ctx m i in Ok m | None => Ok m end in
    let! pos := tk_positive fuel times res in
    let! m := match pos with Some i => let! (_, m) := tk_recursive fuel times res ctx m i in Ok m | None => Ok m end in
    Ok (mkTicks times m res).
  (** tick_stream.cpp:148-189, 191-222: a stream of the ticks [rows], in the order in which
      the constructor takes them. *)
  Definition tk_make (fuel : nat) (ctx : actx lie) (res : Z) (rows : list (Q * lie)) : outcome ticks :=
    let! (times, m) := tk_file_all res ([], []) rows in
    tk_build fuel ctx res times m.

  (** tick_stream.cpp:223-235 [log_signature_impl]; [found] past the end is dereferenced. *)
  Definition tk_impl (fuel : nat) (s : ticks) (ctx : actx lie) (di : dint) : outcome lie :=
    let! p := tk_smallest fuel (tk_times s) (tk_res s) di in
    match p with
    | None => Ok (cx_zero ctx)
    | Some i => let! r := cache_find (tk_data s) i in match r with Some v => Ok v | None => UB end
    end.
  (** tick_stream.cpp:236-247 [empty] *)
  Definition tk_empty (fuel : nat) (s : ticks) (inf sup : Q) : outcome bool :=
    let! l := to_dyadic_intervals fuel inf sup (tk_res s) Clopen in
    (fix go l := match l with
     | [] => Ok true
     | i :: l => let! p := tk_smallest fuel (tk_times s) (tk_res s) i in
                 match p with Some _ => Ok false | None => go l end
     end) l.

  (** stream.cpp:106-123: the query of the [Stream] around it; the dyadic query of the tick
      stream is [log_signature_impl] (tick_stream.cpp:248-254, stream_base.cpp:72-80). *)
  Fixpoint tk_pieces (fuel : nat) (s : ticks) (ctx : actx lie) (l : list dint) : outcome (list lie) :=
    match l with
    | [] => Ok []
    | i :: l => let! x := tk_impl fuel s ctx i in
                let! xs := tk_pieces fuel s ctx l in
                Ok (if is_zero x then xs else x :: xs)
    end.
  Definition tk_stream_impl (fuel : nat) (s : ticks) (inf sup : Q) (resolution : Z) (ctx : actx lie) : outcome lie :=
    let! l := to_dyadic_intervals fuel inf sup resolution Clopen in
    let! xs := tk_pieces fuel s ctx l in
    Ok (cx_cbh ctx xs).
  (** stream.cpp:125-157: the queries, cut down to the support (the default resolution of
      the metadata is the stream's, roughpy/src/streams/tick_stream.cpp:136-142, 237-240). *)
  Definition tk_log_signature_at (fuel : nat) (s : ticks) (support query : ri) (resolution : Z) (ctx : actx lie) : outcome lie :=
    match refine_interval (mkStream [] (tk_res s) ctx support) query with
    | None => Ok (cx_zero ctx)
    | Some (q, _) => tk_stream_impl fuel s (ri_inf q) (ri_sup q) resolution ctx
    end.
  Definition tk_log_signature (fuel : nat) (s : ticks) (support query : ri) (ctx : actx lie) : outcome lie :=
    match refine_interval (mkStream [] (tk_res s) ctx support) query with
    | None => Ok (cx_zero ctx)
    | Some (q, r) => tk_stream_impl fuel s (ri_inf q) (ri_sup q) r ctx
    end.
End Ticks.
Arguments mkTicks {lie}. Arguments tk_times {lie}. Arguments tk_data {lie}. Arguments tk_res {lie}.
Arguments tk_put {lie}. Arguments tk_entry {lie}. Arguments tk_recursive {lie}. Arguments tk_file {lie}. Arguments tk_file_all {lie}.
Arguments tk_build {lie}. Arguments tk_make {lie}. Arguments tk_impl {lie}. Arguments tk_empty {lie}. Arguments tk_pieces {lie}.
Arguments tk_stream_impl {lie}. Arguments tk_log_signature_at {lie}. Arguments tk_log_signature {lie}.
