(** Tick streams from Python ticks: the construction helper
    (roughpy/src/streams/r_py_tick_construction_helper.cpp), the timestamps (roughpy/src/args/convert_timestamp.cpp),
    the schema made final (roughpy/src/streams/schema_finalization.cpp) and the Lie elements of the ticks
    (roughpy/src/streams/tick_stream.cpp:64-254).  The rows made here are those that [TickModel.tk_make] files. *)
From Coq Require Import ZArith QArith List Bool Ascii String.
Import ListNotations.
From Verif Require Import Outcome SchemaModel PsModel.
Open Scope nat_scope.
Open Scope list_scope.

(** Timestamps: floats (exact rationals here), datetimes (in microseconds from a fixed moment), None and all other
    objects.  Ints are among the others: PyDateTime_FromTimestamp wants a tuple and always fails on them. *)
Inductive stamp := SFloat (q : Q) | STime (us : Z) | SNone | SOther.
(** convert_timestamp.cpp:106-121 with options that count seconds (r_py_tick_construction_helper.cpp:51-73) *)
Definition delta (current previous : stamp) : outcome Q :=
  match current, previous with
  | SFloat a, SFloat b => Ok (a - b)%Q
  | STime a, STime b => Ok (inject_Z (a - b) / 1000000)%Q
  | _, _ => Throw
  end.

Section Ticks.
  (** Data of ticks (None apart), strings and scalars read from them *)
  Variable data : Type.
  Variable R : Type.
  Variable to_label : data -> outcome string.
  Variable to_scalar : data -> outcome R.

  (** r_py_tick_construction_helper.h:45-51 *)
  Record tick := mkTick { tk_label : string; tk_time : Q; tk_data : data; tk_type : ctype; tk_prec : nat }.
  (** m_precedence: how many ticks were added for a time; [operator[]] starts with 0 *)
  Fixpoint bump (m : list (Q * nat)) (t : Q) : nat * list (Q * nat) :=
    match m with
    | [] => (0, [(t, 1)])
    | (u, n) :: m => if Qeq_bool u t then (n, (u, S n) :: m) else let (k, m) := bump m t in (k, (u, n) :: m)
    end.
  Record helper := mkHp { hp_ticks : list tick; hp_schema : schema; hp_only : bool; hp_ref : option stamp; hp_prec : list (Q * nat) }.
  (** One call of add_increment, add_value or add_categorical.  None stands for Python's None. *)
  Record call := mkCall { c_type : ctype; c_label : string; c_stamp : stamp; c_data : option data }.
  (** r_py_tick_construction_helper.cpp:75-94 *)
  Definition extend_schema (s : schema) (c : call) : outcome schema :=
    if final s then Ok s else
    let! (s, i) := insert s (c_label c) (new_channel (c_type c)) in
    match c_type c, c_data c with
    | TCategorical, Some d => let! v := to_label d in on_channel s i (fun x => Ok (insert_variant x v))
    | _, _ => Ok s
    end.
  (** r_py_tick_construction_helper.cpp:121-143 *)
  Definition add_tick (h : helper) (c : call) : outcome helper :=
    if hp_only h then Ok h else
    match c_stamp c, c_data c with
    | SNone, _ => Throw
    | _, None => Throw
    | st, Some d =>
        let ref := or_else (hp_ref h) st in
        let! t := delta st ref in
        let (p, m) := bump (hp_prec h) t in
        Ok (mkHp (hp_ticks h ++ [mkTick (c_label c) t d (c_type c) p]) (hp_schema h) (hp_only h) (Some ref) m)
    end.
  (** r_py_tick_construction_helper.cpp:145-184 *)
  Definition add_call (h : helper) (c : call) : outcome helper :=
    let! s := extend_schema (hp_schema h) c in
    add_tick (mkHp (hp_ticks h) s (hp_only h) (hp_ref h) (hp_prec h)) c.
  Fixpoint add_calls (h : helper) (l : list call) : outcome helper :=
    match l with [] => Ok h | c :: l => let! h := add_call h c in add_calls h l end.
  (** r_py_tick_construction_helper.cpp:107-119: std::sort with this comparison.  Insertion sort stands for it;
      as no two ticks are equal for the comparison there is only one sorted order (shown in PtProofs). *)
  Definition before_tick (a b : tick) : bool :=
    (Qle_bool (tk_time a) (tk_time b) && negb (Qeq_bool (tk_time a) (tk_time b))) || (Qeq_bool (tk_time a) (tk_time b) && (tk_prec a <? tk_prec b)).
  Fixpoint put_tick (t : tick) (l : list tick) : list tick :=
    match l with [] => [t] | u :: l => if before_tick u t then u :: put_tick t l else t :: u :: l end.
  Definition sort_ticks (l : list tick) : list tick := fold_right put_tick [] l.

  (** schema_finalization.cpp:57-72 *)
  Fixpoint pad (n : nat) (t : ctype) (s : schema) : outcome schema :=
    match n with O => Ok s | S n => let! (s, _) := insert s ""%string (new_channel t) in pad n t s end.
  (** schema_finalization.cpp:52-80 *)
  Definition last_minute_setup (s : schema) (md : metadata) : outcome schema :=
    if final s then Ok s else
    let! s := pad (Z.to_nat (md_width md - Z.of_nat (width s))) (md_default md) s in
    finalize (mkSch (chans s) (final s) (time s || md_time md)) 0.
  (** schema_finalization.cpp:82-157 up to the scalar type and the context, which is one of this width and depth:
      the schema, the width and the depth of the stream *)
  Definition finalize_schema (s : schema) (md : metadata) : outcome (schema * Z * Z) :=
    let! s := last_minute_setup s md in
    let w := Z.of_nat (width s) in
    if Z.eqb w 0 then Throw else
    if md_time md && Z.eqb w 1 then Throw else
    let! w := if Z.eqb (md_width md) 0 then Ok w
      else if Z.ltb (md_width md) w then if negb (md_time md) || Z.ltb (md_width md + 1) w then Throw else Ok w
      else Ok (md_width md) in
    Ok (s, w, if Z.eqb (md_depth md) 0 then 2%Z else md_depth md).

  (** Lie elements: zero, [zero[key] += x], subtraction, the product cbh and [x[key] = t] *)
  Variable lie : Type.
  Variable zero : lie.
  Variable letter : nat -> R -> lie.
  Variable one : R.
  Variable sub : lie -> lie -> lie.
  Variable cbh : lie -> lie -> lie.
  Variable set_time : lie -> nat -> Q -> lie.
  (** stream_channel.cpp:74, lead_laggable_channel.cpp:46-49 *)
  Definition is_lead_lag (c : channel) : bool := match c with Increment ll | Value ll => ll | _ => false end.
  Definition at_dim (l : list lie) (i : nat) : outcome lie := match nth_error l i with Some x => Ok x | None => UB end.
  (** tick_stream.cpp:164-228: the switch.  A label that is not found gives the end of the schema; only its address is
      taken before label_to_stream_dim throws. *)
  Definition tick_value (s : schema) (previous : list lie) (t : tick) : outcome (lie * list lie) :=
    let! idx := label_to_stream_dim s (tk_label t) in
    let! key := label_to_lie_key s (tk_label t) in
    match tk_type t with
    | TIncrement => let! x := to_scalar (tk_data t) in Ok (letter key x, previous)
    | TValue =>
        let! x := to_scalar (tk_data t) in
        match find s (tk_label t) with
        | None => UB
        | Some c => match nth_error (chans s) c with
            | None => UB
            | Some (_, ch) =>
                if is_lead_lag ch then
                  let! prev_lead := at_dim previous idx in
                  let! prev_lag := at_dim previous (idx + 1) in
                  let next_lead := letter key x in
                  let next_lag := letter (key + 1) x in
                  Ok (cbh (sub next_lead prev_lead) (sub next_lag prev_lag), upd (upd previous idx next_lead) (idx + 1) next_lag)
                else
                  let! prev := at_dim previous idx in
                  Ok (sub (letter key x) prev, upd previous idx (letter key x))
            end
        end
    | TCategorical => Ok (letter key one, previous)
    | TLie => Throw
    end.
  (** tick_stream.cpp:157-236: the loop; the rows are the times and the Lie elements *)
  Fixpoint tick_rows (s : schema) (previous : list lie) (previous_time : Q) (l : list tick) : outcome (list (Q * lie)) :=
    match l with
    | [] => Ok []
    | t :: l =>
        let! (x, previous) := tick_value s previous t in
        let x := if time s then set_time x (time_channel_to_lie_key s) (tk_time t - previous_time)%Q else x in
        let! rows := tick_rows s previous (tk_time t) l in
        Ok ((tk_time t, x) :: rows)
    end.
  (** tick_stream.cpp:64-254: from the keyword arguments and the calls that the parser makes; the schema, width and
      depth of the stream and its rows *)
  Definition from_ticks (k : kwargs) (calls : list call) : outcome (schema * Z * Z * list (Q * lie)) :=
    let! md := kwargs_to_metadata k in
    let! h := add_calls (mkHp [] (md_schema md) false None []) calls in
    match sort_ticks (hp_ticks h) with
    | [] => Throw
    | ts =>
        let! (s, w, d) := finalize_schema (hp_schema h) md in
        let! rows := tick_rows s (repeat zero (Z.to_nat w)) 0%Q ts in
        Ok (s, w, d, rows)
    end.
End Ticks.
