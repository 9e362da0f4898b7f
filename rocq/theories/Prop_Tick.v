(** Property theorems C62: tick streams.
    A stream made of ticks (time, Lie element) at resolution [res] files each tick under
    its cell of length 2^-res.  [filed res rows ts]: ts are the ticks in the order of their
    cells, those of one cell in the order given.  [cut_from], [cut_upto] are the ends of a
    query cut down to the support; [grid_floor x n] is x rounded down to a multiple of 2^-n;
    [within a b l] are the entries of l with parameter in [a, b), in order. *)
From Coq Require Import QArith Permutation.
From Verif Require Import Outcome Alg Words Mem Series Shuffle TensorModel TensorTop TensorTop3 TensorLemmas HallModel HallSpec LieSpec HallLemmas BracketModel BracketLemmas SmhModel SmhLemmas L2tModel L2tLemmas.
From Verif Require Import TickEx.
Open Scope Z_scope.

(** Ticks in any order, several to a cell: the construction ends. *)
Theorem C62_constructed : forall (lie : Type) (is_zero is_null : lie -> bool) none cbh2 S ok, sound2 is_zero is_null none cbh2 S ok -> forall ctx, sound is_zero S ok ctx ->
  forall res rows, fits_ticks res rows -> Forall (fun e => ok (snd e)) rows -> exists s, constructed is_zero is_null none cbh2 ctx res rows s.
Proof. exact tick_constructed. Qed.
Print Assumptions C62_constructed.
(** Every list of ticks has an order of the kind the other theorems speak of; if the ticks
    come in the order of time it is that order. *)
Theorem C62_filed : forall (lie : Type) res (rows : list (Q * lie)), (exists ts, filed res rows ts) /\ (in_time_order rows -> filed res rows rows).
Proof. exact (fun lie res rows => conj (filed_exists res rows) (filed_self res rows)). Qed.
Print Assumptions C62_filed.
(** A query no finer than the stream's resolution: the signature of the answer is the
    product of the signatures of the ticks between the rounded ends. *)
Theorem C62_product : forall (lie : Type) (is_zero is_null : lie -> bool) none cbh2 S ok, sound2 is_zero is_null none cbh2 S ok ->
  forall ctx0 ctx, sound is_zero S ok ctx0 -> sound is_zero S ok ctx ->
  forall res rows ts s support i tol, fits_ticks res rows -> Forall (fun e => ok (snd e)) rows -> filed res rows ts -> constructed is_zero is_null none cbh2 ctx0 res rows s ->
  (ri_inf support <= ri_sup support)%Q -> (ri_inf i <= ri_sup i)%Q -> fits_query (cut_from support i) (cut_upto support i) tol res -> tol <= res ->
  exists x, ok x /\ sg_eq S (sg_of S x) (sg_prod S (within (grid_floor (cut_from support i) tol) (grid_floor (cut_upto support i) tol) ts)) /\ tick_answer is_zero s support i tol ctx x.
Proof. exact tick_product. Qed.
Print Assumptions C62_product.
(** For ticks in the order of time: their product in that order. *)
Theorem C62_in_order : forall (lie : Type) (is_zero is_null : lie -> bool) none cbh2 S ok, sound2 is_zero is_null none cbh2 S ok ->
  forall ctx0 ctx, sound is_zero S ok ctx0 -> sound is_zero S ok ctx ->
  forall res rows s support i tol, fits_ticks res rows -> Forall (fun e => ok (snd e)) rows -> in_time_order rows -> constructed is_zero is_null none cbh2 ctx0 res rows s ->
  (ri_inf support <= ri_sup support)%Q -> (ri_inf i <= ri_sup i)%Q -> fits_query (cut_from support i) (cut_upto support i) tol res -> tol <= res ->
  exists x, ok x /\ sg_eq S (sg_of S x) (sg_prod S (within (grid_floor (cut_from support i) tol) (grid_floor (cut_upto support i) tol) rows)) /\ tick_answer is_zero s support i tol ctx x.
Proof. exact tick_in_order. Qed.
Print Assumptions C62_in_order.
(** The same over the modelled compute functions: exp(log_signature) is the tensor product
    of the exponentials of the ticks. *)
Theorem C62_signature : forall (R : qalg) (isz : R -> bool), (forall x, isz x = true <-> x = r0) -> (r1 : R) <> r0 ->
  forall inv : Z -> R, (forall d, 1 <= d -> rmul (zr R d) (inv d) = r1) ->
  forall B w N M, standard B w N -> l2t_fits w N -> lb_size B = Ok M -> small_brackets B w ->
  exists F, forall fuel jd ji jp, (F <= fuel)%nat -> let ctx := dense_ctx isz fuel inv jd ji jp B w N M in let cbh2 := fun a b => cx_cbh ctx [a; b] in
  forall is_null, is_null dense_none = true -> (forall x, is_null x = true -> dense_is_zero isz M x = true) ->
  forall res rows, fits_ticks res rows -> Forall (fun e => blen (snd e) = M) rows -> in_time_order rows ->
  exists s, constructed (dense_is_zero isz M) is_null dense_none cbh2 ctx res rows s /\
  forall support i tol, (ri_inf support <= ri_sup support)%Q -> (ri_inf i <= ri_sup i)%Q -> fits_query (cut_from support i) (cut_upto support i) tol res -> tol <= res ->
  exists x g gs, blen x = M /\ to_signature isz jd ji jp B (tensor_basis w N) x = Ok g /\
    Forall2 (fun y h => to_signature isz jd ji jp B (tensor_basis w N) y = Ok h) (within (grid_floor (cut_from support i) tol) (grid_floor (cut_upto support i) tol) rows) gs /\
    agree (Z.to_nat N) (tv w (Z.to_nat N) g) (fold_right (fun h a => conv (tv w (Z.to_nat N) h) a) tone gs) /\
    tick_answer (dense_is_zero isz M) s support i tol ctx x.
Proof. exact tick_signature. Qed.
Print Assumptions C62_signature.
(** Any resolution: the query is cut into dyadic pieces, each contributing as [tick_gives]
    says. *)
Theorem C62_pieces : forall (lie : Type) (is_zero is_null : lie -> bool) none cbh2 S ok, sound2 is_zero is_null none cbh2 S ok ->
  forall ctx0 ctx, sound is_zero S ok ctx0 -> sound is_zero S ok ctx ->
  forall res rows ts s support i tol, fits_ticks res rows -> Forall (fun e => ok (snd e)) rows -> filed res rows ts -> constructed is_zero is_null none cbh2 ctx0 res rows s ->
  (ri_inf support <= ri_sup support)%Q -> (ri_inf i <= ri_sup i)%Q -> fits_query (cut_from support i) (cut_upto support i) tol res -> (cut_from support i <= cut_upto support i)%Q ->
  exists x pieces outs, end_to_end (grid_floor (cut_from support i) tol) (grid_floor (cut_upto support i) tol) pieces /\ Forall (fun c => snd c <= tol) pieces /\
    Forall2 (tick_gives res ts) pieces outs /\ ok x /\ sg_eq S (sg_of S x) (sg_prod S (concat outs)) /\ tick_answer is_zero s support i tol ctx x.
Proof. exact tick_pieces. Qed.
Print Assumptions C62_pieces.
(** Chen's identity. *)
Theorem C62_chen : forall (lie : Type) (is_zero is_null : lie -> bool) none cbh2 S ok, sound2 is_zero is_null none cbh2 S ok ->
  forall ctx0 ctx, sound is_zero S ok ctx0 -> sound is_zero S ok ctx ->
  forall res rows s support a b c t1 t2 t3 tol x y z, fits_ticks res rows -> Forall (fun e => ok (snd e)) rows -> constructed is_zero is_null none cbh2 ctx0 res rows s ->
  (ri_inf support <= ri_sup support)%Q -> (a <= b)%Q -> (b <= c)%Q -> tol <= res ->
  (forall i, In i [mkRI a b t1; mkRI b c t2; mkRI a c t3] -> fits_query (cut_from support i) (cut_upto support i) tol res) ->
  tick_answer is_zero s support (mkRI a b t1) tol ctx x -> tick_answer is_zero s support (mkRI b c t2) tol ctx y -> tick_answer is_zero s support (mkRI a c t3) tol ctx z ->
  sg_eq S (sg_of S z) (sg_mul S (sg_of S x) (sg_of S y)).
Proof. exact tick_chen. Qed.
Print Assumptions C62_chen.
(** [empty] says whether there is a tick between the rounded ends. *)
Theorem C62_empty : forall (lie : Type) (is_zero is_null : lie -> bool) none cbh2 S ok, sound2 is_zero is_null none cbh2 S ok ->
  forall ctx0 ctx, sound is_zero S ok ctx0 -> sound is_zero S ok ctx ->
  forall res rows s inf sup, fits_ticks res rows -> Forall (fun e => ok (snd e)) rows -> constructed is_zero is_null none cbh2 ctx0 res rows s ->
  (inf <= sup)%Q -> fits_query inf sup res res ->
  tick_empty s inf sup (match within (grid_floor inf res) (grid_floor sup res) rows with [] => true | _ => false end).
Proof. exact tick_empty_iff. Qed.
Print Assumptions C62_empty.
(** A query that names no resolution is the query at the resolution [default_resolution]
    describes. *)
Theorem C62_default : forall (lie : Type) (is_zero is_null : lie -> bool) none cbh2 S ok, sound2 is_zero is_null none cbh2 S ok ->
  forall ctx0 ctx, sound is_zero S ok ctx0 ->
  forall res rows s support i, fits_ticks res rows -> Forall (fun e => ok (snd e)) rows -> constructed is_zero is_null none cbh2 ctx0 res rows s ->
  (ri_inf support <= ri_sup support)%Q -> (ri_inf i <= ri_sup i)%Q -> (cut_from support i < cut_upto support i)%Q ->
  exists tol, default_resolution (mkStream [] res ctx support) i tol /\ forall x, tick_answer_default is_zero s support i ctx x <-> tick_answer is_zero s support i tol ctx x.
Proof. exact tick_default. Qed.
Print Assumptions C62_default.
(** The hypotheses met: ticks at -1/2, 1/8, 3/16 (the cell of 1/8), 5/8 and 3/4. *)
Example C62_ex : fits_ticks 3 heis_rows /\ in_time_order heis_rows /\
  sound heis_is_zero heis_sigs (fun _ => True) heis2 /\ sound2 heis_is_zero heis_is_zero (0, 0, 0) (fun a b => cx_cbh heis2 [a; b]) heis_sigs (fun _ => True) /\
  fits_query (cut_from (mkRI (-1) 1 Clopen) (mkRI (-3#4) (11#16) Clopen)) (cut_upto (mkRI (-1) 1 Clopen) (mkRI (-3#4) (11#16) Clopen)) 2 3 /\
  within (grid_floor (-3#4) 2) (grid_floor (11#16) 2) heis_rows = [(1, 0, 0); (0, 1, 0); (1, 0, 0)] /\
  exists s, heis_make 3 heis_rows s /\ tick_answer heis_is_zero s (mkRI (-1) 1 Clopen) (mkRI (-3#4) (11#16) Clopen) 2 heis2 (2, 1, 0) /\
    tick_answer heis_is_zero s (mkRI (-1) 1 Clopen) (mkRI (1#8) (7#8) Clopen) 3 heis2 (2, 4, 3) /\ tick_empty s (1#4) (1#2) true /\ tick_empty s (1#4) (3#4) false.
Proof. exact ex_ticks. Qed.
(** Ticks of one cell given out of order are multiplied in the order given: the signature
    is not the product in the order of time. *)
Theorem C62_order_refuted : fits_ticks 3 swapped_rows /\ Permutation swapped_rows sorted_rows /\ in_time_order sorted_rows /\
  fits_query (cut_from (mkRI 0 1 Clopen) (mkRI 0 1 Clopen)) (cut_upto (mkRI 0 1 Clopen) (mkRI 0 1 Clopen)) 3 3 /\
  exists s x, heis_make 3 swapped_rows s /\ tick_answer heis_is_zero s (mkRI 0 1 Clopen) (mkRI 0 1 Clopen) 3 heis2 x /\
    sg_of heis_sigs x <> sg_prod heis_sigs (within (grid_floor 0 3) (grid_floor 1 3) sorted_rows).
Proof. exact order_matters. Qed.
Print Assumptions C62_order_refuted.
(** Resolution 0 and queries that name no resolution: ticks at 1/4 and 3/4 are both in the
    answer for [0, 1/2), none in that for [1/2, 1). *)
Theorem C62_default_refuted : fits_ticks 0 unit_rows /\ in_time_order unit_rows /\ sound (Z.eqb 0) add_sigs (fun _ => True) add_ctx /\
  within 0 (1#2) unit_rows = [1] /\ within (1#2) 1 unit_rows = [2] /\
  exists s, constructed (Z.eqb 0) (Z.eqb 0) 0 Z.add add_ctx 0 unit_rows s /\
    tick_answer_default (Z.eqb 0) s (mkRI 0 1 Clopen) (mkRI 0 (1#2) Clopen) add_ctx 3 /\ tick_answer_default (Z.eqb 0) s (mkRI 0 1 Clopen) (mkRI (1#2) 1 Clopen) add_ctx 0.
Proof. exact default_halves. Qed.
Print Assumptions C62_default_refuted.
(** A tick in the cell that starts at 0 and one before 0: the construction never ends with
    a stream, whatever the context and the Lie elements. *)
Theorem C62_zero_cell_refuted : forall (lie : Type) (is_zero is_null : lie -> bool) none cbh2 (ctx : actx lie) res rows,
  - 2 ^ 27 <= res <= 2 ^ 27 -> (forall e, In e rows -> - 2 ^ 28 <= tick_cell res (fst e)) ->
  (exists e, In e rows /\ tick_cell res (fst e) = 0) -> (exists e, In e rows /\ tick_cell res (fst e) < 0) ->
  forall fuel s, tk_make is_zero is_null none cbh2 fuel ctx res rows <> Ok s.
Proof. exact @zero_cell_never. Qed.
Print Assumptions C62_zero_cell_refuted.
Example C62_zero_cell_ex : let rows := [((-1#2)%Q, 1); (0%Q, 2)] in
  (forall e, In e rows -> - 2 ^ 28 <= tick_cell 2 (fst e)) /\ (exists e, In e rows /\ tick_cell 2 (fst e) = 0) /\ (exists e, In e rows /\ tick_cell 2 (fst e) < 0) /\
  tk_make (Z.eqb 0) (Z.eqb 0) 0 Z.add 60 add_ctx 2 rows = UB.
Proof. exact ex_zero_cell. Qed.
