(** Model of Stream::simplify, streams/src/stream.cpp:232-257, and of the queries of the stream
    it returns: streams/src/stream.cpp:36-71, 106-157 over
    streams/src/stream_base.cpp:72-80 and streams/src/piecewise_abelian_stream.cpp:155-189.
    The stream simplified is a Lie increment stream; schema and vector types are left out. *)
From Verif Require Export PwModel.
Open Scope Z_scope.

Section Simp.
  Variable lie : Type.
  Variable is_zero : lie -> bool.
  Variable none : lie.
  Variable smul : Q -> lie -> lie.

  (** A Stream over a PiecewiseAbelianStream: pieces, default resolution, default context, support. *)
  Record pwstream := mkPws { pws_data : list (lie_piece lie); pws_res : Z; pws_ctx : actx lie; pws_support : ri }.

  (** stream.cpp:244-247: from piece number [i] on, [n] pieces. *)
  Fixpoint simplify_loop (fuel : nat) (s : stream lie) (c : cache lie) (p : IntervalModel.partition) (r : Z) (ctx : actx lie) (i n : nat) : outcome (list (lie_piece lie) * cache lie) :=
    match n with
    | O => Ok ([], c)
    | S n =>
        let! interval := piece p i in
        let! (x, c1) := log_signature_at is_zero none fuel s c interval r ctx in
        let! (l, c2) := simplify_loop fuel s c1 p r ctx (S i) n in
        Ok ((interval, x) :: l, c2)
    end.
  (** Lines 232-257.  [effective] is the support in the stream's metadata, which the new stream takes over
      (stream.h:273-277); the support of the stream itself differs from it after restrict. *)
  Definition simplify (fuel : nat) (s : stream lie) (effective : ri) (c : cache lie) (p : IntervalModel.partition) (r : Z) (ctx : actx lie) : outcome (pwstream * cache lie) :=
    let! (l, c1) := simplify_loop fuel s c p r ctx 0 (p_size p) in
    Ok (mkPws l r ctx effective, c1).

  (** What refine_interval looks at. *)
  Definition pws_view (w : pwstream) : stream lie := mkStream [] (pws_res w) (pws_ctx w) (pws_support w).
  (** stream.cpp:113-120 over stream_base.cpp:72-80 *)
  Fixpoint pws_pieces (d : list (lie_piece lie)) (ctx : actx lie) (l : list dint) : outcome (list lie) :=
    match l with
    | [] => Ok []
    | i :: l =>
        let! lo := dinf i in
        let! hi := dsup i in
        let x := pw_impl smul d ctx (mkRI (to_param lo) (to_param hi) (di_t i)) in
        let! xs := pws_pieces d ctx l in
        Ok (if is_zero x then xs else x :: xs)
    end.
  (** stream.cpp:106-123 *)
  Definition pws_impl (fuel : nat) (w : pwstream) (q : ri) (resolution : Z) (ctx : actx lie) : outcome lie :=
    let! l := to_dyadic_intervals fuel (ri_inf q) (ri_sup q) resolution Clopen in
    let! xs := pws_pieces (pws_data w) ctx l in
    Ok (cx_cbh ctx xs).
  (** stream.cpp:137-157 *)
  Definition pws_at (fuel : nat) (w : pwstream) (interval : ri) (resolution : Z) (ctx : actx lie) : outcome lie :=
    match refine_interval (pws_view w) interval with
    | None => Ok (cx_zero ctx)
    | Some (q, _) => pws_impl fuel w q resolution ctx
    end.
  (** stream.cpp:125-135 *)
  Definition pws_default (fuel : nat) (w : pwstream) (interval : ri) (ctx : actx lie) : outcome lie :=
    match refine_interval (pws_view w) interval with
    | None => Ok (cx_zero ctx)
    | Some (q, r) => pws_impl fuel w q r ctx
    end.
End Simp.
Arguments mkPws {lie}. Arguments pws_data {lie}. Arguments pws_res {lie}. Arguments pws_ctx {lie}. Arguments pws_support {lie}. Arguments pws_view {lie}.
Arguments simplify_loop {lie}. Arguments simplify {lie}. Arguments pws_pieces {lie}. Arguments pws_impl {lie}. Arguments pws_at {lie}. Arguments pws_default {lie}.
