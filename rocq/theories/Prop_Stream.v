(** Property theorems C36 and C37: log-signature queries of Lie increment streams.
    [within a b d] are the increments with parameter in [a, b), in order; [from], [upto]
    the ends of the query cut down to the support; [grid_floor x n] is x rounded down to a
    multiple of 2^-n; [replies … h q x]: after the calls h the call q returns x. *)
From Coq Require Import QArith.
From Verif Require Import Outcome Alg Words Mem Series Shuffle TensorModel TensorTop TensorTop3 TensorLemmas HallModel HallSpec LieSpec HallLemmas BracketModel BracketLemmas SmhModel SmhLemmas L2tModel L2tLemmas.
From Verif Require Import StreamProofs StreamDense StreamAlign.
Open Scope Z_scope.

(** The increments of a stream: the rows in ascending order; of several rows with the
    same parameter only the first is kept. *)
Theorem C36_increments : forall (lie : Type) (rows : list (Q * lie)), ascending (lis_data rows) /\
  forall k v, In (k, v) (lis_data rows) <-> exists before after, rows = before ++ (k, v) :: after /\ forall e, In e before -> ~ (fst e == k)%Q.
Proof. exact increments_spec. Qed.
Print Assumptions C36_increments.
(** A query no finer than the stream's resolution, after any calls: the signature of the
    answer is the product of the signatures of the increments between the rounded ends. *)
Theorem C36_product : forall (lie : Type) (is_zero : lie -> bool) (none : lie), is_zero none = true -> forall S ok ctx, sound is_zero S ok ctx ->
  forall s i tol, stream_ok ok s -> fits_call s ctx (QAt i tol) -> tol <= st_res s ->
  exists x, ok x /\ sg_eq S (sg_of S x) (sg_prod S (within (grid_floor (from s i) tol) (grid_floor (upto s i) tol) (st_data s))) /\
    forall h, Forall (fits_call s ctx) h -> replies is_zero none s ctx h (QAt i tol) x.
Proof. exact query_product. Qed.
Print Assumptions C36_product.
(** The same over the modelled compute functions: exp(log_signature) is the tensor
    product of the exponentials of the increments. *)
Theorem C36_signature : forall (R : qalg) (isz : R -> bool), (forall x, isz x = true <-> x = r0) -> (r1 : R) <> r0 ->
  forall inv : Z -> R, (forall d, 1 <= d -> rmul (zr R d) (inv d) = r1) ->
  forall B w N M, standard B w N -> l2t_fits w N -> lb_size B = Ok M -> small_brackets B w ->
  exists F, forall fuel jd ji jp, (F <= fuel)%nat -> let ctx := dense_ctx isz fuel inv jd ji jp B w N M in
  forall s i tol, stream_ok (fun x => blen x = M) s -> fits_call s ctx (QAt i tol) -> tol <= st_res s ->
  exists x g gs, blen x = M /\ to_signature isz jd ji jp B (tensor_basis w N) x = Ok g /\
    Forall2 (fun y h => to_signature isz jd ji jp B (tensor_basis w N) y = Ok h) (within (grid_floor (from s i) tol) (grid_floor (upto s i) tol) (st_data s)) gs /\
    agree (Z.to_nat N) (tv w (Z.to_nat N) g) (fold_right (fun h a => conv (tv w (Z.to_nat N) h) a) tone gs) /\
    forall h, Forall (fits_call s ctx) h -> replies (dense_is_zero isz M) dense_none s ctx h (QAt i tol) x.
Proof. exact stream_signature. Qed.
Print Assumptions C36_signature.
(** Without a resolution, for queries at least four cells long. *)
Theorem C36_default : forall (lie : Type) (is_zero : lie -> bool) (none : lie), is_zero none = true -> forall S ok ctx, sound is_zero S ok ctx ->
  forall s i, stream_ok ok s -> fits_call s ctx (QDefault i) -> 2 <= st_res s -> (Qpower 2 (2 - st_res s) <= upto s i - from s i)%Q ->
  exists x, ok x /\ sg_eq S (sg_of S x) (sg_prod S (within (grid_floor (from s i) (st_res s)) (grid_floor (upto s i) (st_res s)) (st_data s))) /\
    forall h, Forall (fits_call s ctx) h -> replies is_zero none s ctx h (QDefault i) x.
Proof. exact query_default. Qed.
Print Assumptions C36_default.
(** Chen's identity, whatever was asked before each of the three calls. *)
Theorem C36_chen : forall (lie : Type) (is_zero : lie -> bool) (none : lie), is_zero none = true -> forall S ok ctx, sound is_zero S ok ctx ->
  forall s a b c t1 t2 t3 tol, stream_ok ok s -> (a <= b)%Q -> (b <= c)%Q -> tol <= st_res s ->
  fits_call s ctx (QAt (mkRI a b t1) tol) -> fits_call s ctx (QAt (mkRI b c t2) tol) -> fits_call s ctx (QAt (mkRI a c t3) tol) ->
  forall h1 h2 h3 x y z, Forall (fits_call s ctx) h1 -> Forall (fits_call s ctx) h2 -> Forall (fits_call s ctx) h3 ->
  replies is_zero none s ctx h1 (QAt (mkRI a b t1) tol) x -> replies is_zero none s ctx h2 (QAt (mkRI b c t2) tol) y -> replies is_zero none s ctx h3 (QAt (mkRI a c t3) tol) z ->
  sg_eq S (sg_of S z) (sg_mul S (sg_of S x) (sg_of S y)).
Proof. exact chen. Qed.
Print Assumptions C36_chen.
(** The cache is never visible, for any context (correct or not), as long as all calls
    use the same one. *)
Theorem C36_cache_transparent : forall (lie : Type) (is_zero : lie -> bool) (none : lie), is_zero none = true -> forall ctx s,
  stream_ok (fun _ => True) s -> forall q, fits_call s ctx q -> exists x, forall h, Forall (fits_call s ctx) h -> replies is_zero none s ctx h q x.
Proof. exact transparent. Qed.
Print Assumptions C36_cache_transparent.
(** The hypotheses met. *)
Example C36_ex : stream_ok (fun _ => True) add_stream /\ sound (Z.eqb 0) add_sigs (fun _ => True) add_ctx /\ fits_call add_stream add_ctx (QAt (mkRI (1#10) (9#10) Clopen) 2) /\
  within (grid_floor (1#10) 2) (grid_floor (9#10) 2) (st_data add_stream) = [1; 2; 4] /\
  val (ask (Z.eqb 0) 0 31 add_stream add_ctx [] (QAt (mkRI (1#10) (9#10) Clopen) 2)) = Some 7.
Proof. exact ex_product. Qed.
(** With two contexts the cache shows: a depth 2 query after a depth 1 query of the same
    cell returns the depth 1 answer. *)
Theorem C36_contexts_refuted : exists (s : stream heis) i c x1 x2 fresh, stream_ok (fun _ => True) s /\ sound heis_is_zero heis_sigs (fun _ => True) heis2 /\
  fits_call s heis1 (QAt i 2) /\ fits_call s heis2 (QAt i 2) /\
  ask heis_is_zero (0, 0, 0) 31 s heis1 [] (QAt i 2) = Ok (x1, c) /\
  val (ask heis_is_zero (0, 0, 0) 31 s heis2 c (QAt i 2)) = Some x2 /\
  val (ask heis_is_zero (0, 0, 0) 31 s heis2 [] (QAt i 2)) = Some fresh /\ x2 <> fresh.
Proof. exact other_context. Qed.
Print Assumptions C36_contexts_refuted.

(** Any resolution: the query is cut into dyadic pieces, each contributing as
    [piece_gives] says. *)
Theorem C37_pieces : forall (lie : Type) (is_zero : lie -> bool) (none : lie), is_zero none = true -> forall S ok ctx, sound is_zero S ok ctx ->
  forall s i tol, stream_ok ok s -> fits_call s ctx (QAt i tol) -> (from s i <= upto s i)%Q ->
  exists x pieces outs, end_to_end (grid_floor (from s i) tol) (grid_floor (upto s i) tol) pieces /\ Forall (fun c => snd c <= tol) pieces /\
    Forall2 (piece_gives (st_res s) (st_data s)) pieces outs /\ ok x /\ sg_eq S (sg_of S x) (sg_prod S (concat outs)) /\
    forall h, Forall (fits_call s ctx) h -> replies is_zero none s ctx h (QAt i tol) x.
Proof. exact query_pieces. Qed.
Print Assumptions C37_pieces.
(** A query inside a cell that does not start at its left end sees none of its data. *)
Theorem C37_inside_cell : forall (lie : Type) (is_zero : lie -> bool) (none : lie), is_zero none = true -> forall S ok ctx, sound is_zero S ok ctx ->
  forall s i tol q, stream_ok ok s -> fits_call s ctx (QAt i tol) -> (from s i <= upto s i)%Q ->
  (dy q (st_res s) < grid_floor (from s i) tol)%Q -> (grid_floor (upto s i) tol <= dy (q + 1) (st_res s))%Q ->
  exists x, sg_eq S (sg_of S x) (sg_one S) /\ forall h, Forall (fits_call s ctx) h -> replies is_zero none s ctx h (QAt i tol) x.
Proof. exact query_inside_cell. Qed.
Print Assumptions C37_inside_cell.
(** A first fraction of a cell that contains an increment is answered with all of the
    cell's increments. *)
Theorem C37_cell_start : forall (lie : Type) (is_zero : lie -> bool) (none : lie), is_zero none = true -> forall S ok ctx, sound is_zero S ok ctx ->
  forall s i m q, stream_ok ok s -> fits_call s ctx (QAt i (st_res s + m)) -> 0 < m ->
  (from s i == dy q (st_res s))%Q -> (upto s i == dy (q * 2 ^ m + 1) (st_res s + m))%Q -> within (from s i) (upto s i) (st_data s) <> [] ->
  exists x, sg_eq S (sg_of S x) (sg_prod S (within (dy q (st_res s)) (dy (q + 1) (st_res s)) (st_data s))) /\
    forall h, Forall (fits_call s ctx) h -> replies is_zero none s ctx h (QAt i (st_res s + m)) x.
Proof. exact query_cell_start. Qed.
Print Assumptions C37_cell_start.
(** Queries whose ends are multiples of the cell length are exact at every finer
    resolution, *)
Theorem C37_on_grid : forall (lie : Type) (is_zero : lie -> bool) (none : lie), is_zero none = true -> forall S ok ctx, sound is_zero S ok ctx ->
  forall s i tol a b, stream_ok ok s -> fits_call s ctx (QAt i tol) -> st_res s <= tol -> (from s i == dy a (st_res s))%Q -> (upto s i == dy b (st_res s))%Q ->
  exists x, ok x /\ sg_eq S (sg_of S x) (sg_prod S (within (from s i) (upto s i) (st_data s))) /\
    forall h, Forall (fits_call s ctx) h -> replies is_zero none s ctx h (QAt i tol) x.
Proof. exact query_on_grid. Qed.
Print Assumptions C37_on_grid.
(** also when no resolution is named. *)
Theorem C37_default_on_grid : forall (lie : Type) (is_zero : lie -> bool) (none : lie), is_zero none = true -> forall S ok ctx, sound is_zero S ok ctx ->
  forall s i a b, stream_ok ok s -> fits_call s ctx (QDefault i) -> (from s i == dy a (st_res s))%Q -> (upto s i == dy b (st_res s))%Q ->
  exists x, ok x /\ sg_eq S (sg_of S x) (sg_prod S (within (from s i) (upto s i) (st_data s))) /\
    forall h, Forall (fits_call s ctx) h -> replies is_zero none s ctx h (QDefault i) x.
Proof. exact query_default_on_grid. Qed.
Print Assumptions C37_default_on_grid.
(** The layer's own query, for a context of another depth than the stream's, goes to the
    data and is exact at every resolution. *)
Theorem C37_direct : forall (lie : Type) (is_zero : lie -> bool) (none : lie), is_zero none = true -> forall S ok ctx, sound is_zero S ok ctx ->
  forall s i tol, stream_ok ok s -> fits_call s ctx (QLayer i tol) -> cx_depth ctx <> cx_depth (st_ctx s) \/ tol <= st_res s ->
  exists x, ok x /\ sg_eq S (sg_of S x) (sg_prod S (within (grid_floor (ri_inf i) tol) (grid_floor (ri_sup i) tol) (st_data s))) /\
    forall h, Forall (fits_call s ctx) h -> replies is_zero none s ctx h (QLayer i tol) x.
Proof. exact layer_direct. Qed.
Print Assumptions C37_direct.
(** Chen's identity fails at split points finer than the stream's resolution. *)
Theorem C37_chen_refuted : exists s ctx S, stream_ok (fun _ => True) s /\ sound (Z.eqb 0) S (fun _ => True) ctx /\
  (forall a b, In (a, b) [(0, 1#8); (1#8, 1#4); (0, 1#4)]%Q -> fits_call s ctx (QAt (mkRI a b Clopen) 3)) /\
  exists x y z, val (ask (Z.eqb 0) 0 31 s ctx [] (QAt (mkRI 0 (1#8) Clopen) 3)) = Some x /\
    val (ask (Z.eqb 0) 0 31 s ctx [] (QAt (mkRI (1#8) (1#4) Clopen) 3)) = Some y /\
    val (ask (Z.eqb 0) 0 31 s ctx [] (QAt (mkRI 0 (1#4) Clopen) 3)) = Some z /\ ~ sg_eq S (sg_of S z) (sg_mul S (sg_of S x) (sg_of S y)).
Proof. exact chen_fails_finer. Qed.
Print Assumptions C37_chen_refuted.
(** A query that names no resolution may lose all of its data. *)
Theorem C37_default_refuted : exists s ctx S i, stream_ok (fun _ => True) s /\ sound (Z.eqb 0) S (fun _ => True) ctx /\ fits_call s ctx (QDefault i) /\
  within (ri_inf i) (ri_sup i) (st_data s) <> [] /\
  exists x, val (ask (Z.eqb 0) 0 31 s ctx [] (QDefault i)) = Some x /\ sg_of S x = sg_one S /\
    ~ sg_eq S (sg_of S x) (sg_prod S (within (ri_inf i) (ri_sup i) (st_data s))).
Proof. exact default_loses. Qed.
Print Assumptions C37_default_refuted.
