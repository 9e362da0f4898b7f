(** Tick streams: the exponential over the modelled compute functions, and examples. *)
From Coq Require Import ZifyBool Lqa Qround Permutation.
From Verif Require Export TickLemmas.
From Verif Require Import Outcome Alg Words Mem Series Shuffle TensorModel TensorTop TensorTop3 TensorLemmas HallModel HallSpec LieSpec HallLemmas BracketModel BracketLemmas SmhModel SmhLemmas L2tModel L2tLemmas.
Open Scope Z_scope.

Theorem tick_signature : forall (R : qalg) (isz : R -> bool), (forall x, isz x = true <-> x = r0) -> (r1 : R) <> r0 ->
  forall inv : Z -> R, (forall d, 1 <= d -> rmul (zr R d) (inv d) = r1) ->
  forall B w N M, standard B w N -> l2t_fits w N -> lb_size B = Ok M -> small_brackets B w ->
  exists F, forall fuel jd ji jp, (F <= fuel)%nat -> let ctx := dense_ctx isz fuel inv jd ji jp B w N M in let cbh2 := fun a b => cx_cbh ctx [a; b] in
  forall is_null, is_null dense_none = true -> (forall x, is_null x = true -> dense_is_zero isz M x = true) ->
  forall res rows, fits_ticks res rows -> Forall (fun e => blen (snd e) = M) rows -> in_time_order rows ->
  exists s, constructed (dense_is_zero isz M) is_null dense_none cbh2 ctx res rows s /\
  forall support i tol, (ri_inf support <= ri_sup support)%Q -> (ri_inf i <= ri_sup i)%Q -> fits_query (cut_from support i) (cut_upto support i) tol res -> tol <= res ->
  exists x g gs, blen x = M /\ to_signature isz jd ji jp B (tensor_basis w N) x = Ok g /\
    Forall2 (fun y h => to_signature isz jd ji jp B (tensor_basis w N) y = Ok h) (within (grid_floor (cut_from support i) tol) (grid_floor (cut_upto support i) tol) rows) gs /\
    agree (Z.to_nat N) (tv w (Z.to_nat N) g) (fold_right (fun h a => conv (tv w (Z.to_nat N) h) a) tone gs) /\
    tick_answer (dense_is_zero isz M) s support i tol ctx x.
Proof.
  intros R isz Hz H1 inv Hinv B w N M HS HF EM Hsm. destruct (dense_sound R isz Hz H1 inv Hinv B w N M HS HF EM Hsm) as (F & Hd). exists F. intros fuel jd ji jp Hfu ctx cbh2 is_null Hn1 Hn2 res rows Hf Ho Hto.
  assert (Sd := Hd fuel jd ji jp Hfu). fold ctx in Sd. assert (S2 := pair_sound2 _ is_null dense_none _ _ ctx Sd Hn1 Hn2). fold cbh2 in S2.
  destruct (tick_constructed _ _ _ _ _ _ _ S2 ctx Sd res rows Hf Ho) as (s & Hm). exists s. split; auto. intros support i tol Hs Hi Hq Ht.
  destruct (tick_in_order _ _ _ _ _ _ _ S2 ctx ctx Sd Sd res rows s support i tol Hf Ho Hto Hm Hs Hi Hq Ht) as (x & Lx & Px & Ax).
  destruct (sig_ok R isz Hz H1 B w N M HS HF EM x jd ji jp Lx) as (g & Eg & _).
  set (l := within (grid_floor (cut_from support i) tol) (grid_floor (cut_upto support i) tol) rows) in *.
  assert (Hl : Forall (fun y => blen y = M) l).
  { apply Forall_forall. intros y Hy. unfold l, within in Hy. apply in_map_iff in Hy. destruct Hy as (e & <- & He). apply filter_In in He. rewrite Forall_forall in Ho. apply Ho. apply He. }
  assert (Hg : exists gs, Forall2 (fun y h => to_signature isz jd ji jp B (tensor_basis w N) y = Ok h) l gs /\
     sg_prod (dense_sigs isz jd ji jp B w N M) l = fold_right (fun h a => conv (tv w (Z.to_nat N) h) a) tone gs).
  { clear - Hl Hz H1 HS HF EM. induction l as [|y l IH]; [exists []; split; [constructor|reflexivity]|]. destruct (IH (Forall_inv_tail Hl)) as (gs & G1 & G2). assert (Ly := Forall_inv Hl). cbn beta in Ly.
    destruct (sig_ok R isz Hz H1 B w N M HS HF EM y jd ji jp Ly) as (h & Eh & _). exists (h :: gs). split; [constructor; auto|]. cbn [sg_prod fold_right sg_mul dense_sigs sg_of]. rewrite Ly, Z.eqb_refl, Eh. f_equal. exact G2. }
  destruct Hg as (gs & G1 & G2). exists x, g, gs. repeat (split; auto). rewrite G2 in Px. cbn [sg_of dense_sigs sg_eq] in Px. rewrite Lx, Z.eqb_refl, Eg in Px. exact Px.
Qed.

(** *** Examples: the group of 2-step signatures of paths in the plane *)
Definition heis_sound2 : sound2 heis_is_zero heis_is_zero (0, 0, 0) (fun a b => cx_cbh heis2 [a; b]) heis_sigs (fun _ => True) :=
  pair_sound2 heis_is_zero heis_is_zero (0, 0, 0) heis_sigs (fun _ => True) heis2 heis2_sound eq_refl (fun x H => H).
Notation heis_make res rows s := (constructed heis_is_zero heis_is_zero (0, 0, 0) (fun a b => cx_cbh heis2 [a; b]) heis2 res rows s).
(** Ticks at -1/2, 1/8, 3/16 (the cell of 1/8), 5/8 and 3/4. *)
Definition heis_rows : list (Q * heis) := [((-1#2)%Q, (1, 0, 0)); ((1#8)%Q, (0, 1, 0)); ((3#16)%Q, (1, 0, 0)); ((5#8)%Q, (1, 1, 0)); ((3#4)%Q, (0, 2, 0))].
Lemma heis_rows_fit : fits_ticks 3 heis_rows /\ in_time_order heis_rows.
Proof.
  split; [split; [lia|]; split; [|left]; cbn [heis_rows]; intros e He; repeat (destruct He as [<-|He]; [vm_compute; try split; congruence|]); destruct He|].
  unfold in_time_order, heis_rows. repeat (constructor; auto); cbn; unfold Qle; cbn; lia.
Qed.
Lemma all_ok {A} (l : list (Q * A)) : Forall (fun e => True) l.
Proof. apply Forall_forall. auto. Qed.
Lemma query_fits a b tol res : - 2 ^ 27 <= tol <= 2 ^ 27 -> - 2 ^ 27 <= res <= 2 ^ 27 -> tol - res <= 30 ->
  (- 2 ^ 28 <=? Qfloor (grid_floor a tol * Qpower 2 (Z.max tol res))) && (Qfloor (grid_floor a tol * Qpower 2 (Z.max tol res)) <=? 2 ^ 28) &&
  (- 2 ^ 28 <=? Qfloor (grid_floor b tol * Qpower 2 (Z.max tol res))) && (Qfloor (grid_floor b tol * Qpower 2 (Z.max tol res)) <=? 2 ^ 28) = true -> fits_query a b tol res.
Proof. intros H1 H2 H3 H. split; auto. split; auto. split; auto. intros x [-> | ->]; lia. Qed.
Lemma ex_ticks : fits_ticks 3 heis_rows /\ in_time_order heis_rows /\
  sound heis_is_zero heis_sigs (fun _ => True) heis2 /\ sound2 heis_is_zero heis_is_zero (0, 0, 0) (fun a b => cx_cbh heis2 [a; b]) heis_sigs (fun _ => True) /\
  fits_query (cut_from (mkRI (-1) 1 Clopen) (mkRI (-3#4) (11#16) Clopen)) (cut_upto (mkRI (-1) 1 Clopen) (mkRI (-3#4) (11#16) Clopen)) 2 3 /\
  within (grid_floor (-3#4) 2) (grid_floor (11#16) 2) heis_rows = [(1, 0, 0); (0, 1, 0); (1, 0, 0)] /\
  exists s, heis_make 3 heis_rows s /\ tick_answer heis_is_zero s (mkRI (-1) 1 Clopen) (mkRI (-3#4) (11#16) Clopen) 2 heis2 (2, 1, 0) /\
    tick_answer heis_is_zero s (mkRI (-1) 1 Clopen) (mkRI (1#8) (7#8) Clopen) 3 heis2 (2, 4, 3) /\ tick_empty s (1#4) (1#2) true /\ tick_empty s (1#4) (3#4) false.
Proof.
  destruct heis_rows_fit as [Hf Ht]. split; auto. split; auto. split; [apply heis2_sound|]. split; [apply heis_sound2|]. split; [apply query_fits; [lia..|vm_compute; reflexivity]|]. split; [vm_compute; reflexivity|].
  eexists. split; [exists 60%nat; intros fuel Hf'; eapply (make_more _ _ _ _ 60 fuel); [vm_compute; reflexivity|exact Hf']|].
  split; [exists 60%nat; intros fuel Hf'; eapply (at_more _ 60 fuel); [vm_compute; reflexivity|exact Hf']|]. split; [exists 60%nat; intros fuel Hf'; eapply (at_more _ 60 fuel); [vm_compute; reflexivity|exact Hf']|].
  split; exists 60%nat; intros fuel Hf'; (eapply (empty_more 60 fuel); [vm_compute; reflexivity|exact Hf']).
Qed.
(** Within a cell the ticks are multiplied in the order given, not in the order of time. *)
Definition swapped_rows : list (Q * heis) := [((3#16)%Q, (1, 0, 0)); ((1#8)%Q, (0, 1, 0))].
Definition sorted_rows : list (Q * heis) := [((1#8)%Q, (0, 1, 0)); ((3#16)%Q, (1, 0, 0))].
Lemma order_matters : fits_ticks 3 swapped_rows /\ Permutation swapped_rows sorted_rows /\ in_time_order sorted_rows /\
  fits_query (cut_from (mkRI 0 1 Clopen) (mkRI 0 1 Clopen)) (cut_upto (mkRI 0 1 Clopen) (mkRI 0 1 Clopen)) 3 3 /\
  exists s x, heis_make 3 swapped_rows s /\ tick_answer heis_is_zero s (mkRI 0 1 Clopen) (mkRI 0 1 Clopen) 3 heis2 x /\
    sg_of heis_sigs x <> sg_prod heis_sigs (within (grid_floor 0 3) (grid_floor 1 3) sorted_rows).
Proof.
  split; [|split; [apply perm_swap|split; [|split]]].
  - split; [lia|]. split; [|left]; cbn [swapped_rows]; intros e He; repeat (destruct He as [<-|He]; [vm_compute; try split; congruence|]); destruct He.
  - unfold in_time_order, sorted_rows. repeat (constructor; auto); cbn; unfold Qle; cbn; lia.
  - apply query_fits; [lia..|vm_compute; reflexivity].
  - eexists _, _. split; [exists 60%nat; intros fuel Hf'; eapply (make_more _ _ _ _ 60 fuel); [vm_compute; reflexivity|exact Hf']|].
    split; [exists 60%nat; intros fuel Hf'; eapply (at_more _ 60 fuel); [vm_compute; reflexivity|exact Hf']|]. vm_compute. discriminate.
Qed.
(** A query that names no resolution, of a stream of resolution 0 (the default): the first
    half of a cell is answered with all of it, the second with nothing. *)
Definition unit_rows : list (Q * Z) := [((1#4)%Q, 1); ((3#4)%Q, 2)].
Lemma default_halves : fits_ticks 0 unit_rows /\ in_time_order unit_rows /\ sound (Z.eqb 0) add_sigs (fun _ => True) add_ctx /\
  within 0 (1#2) unit_rows = [1] /\ within (1#2) 1 unit_rows = [2] /\
  exists s, constructed (Z.eqb 0) (Z.eqb 0) 0 Z.add add_ctx 0 unit_rows s /\
    tick_answer_default (Z.eqb 0) s (mkRI 0 1 Clopen) (mkRI 0 (1#2) Clopen) add_ctx 3 /\ tick_answer_default (Z.eqb 0) s (mkRI 0 1 Clopen) (mkRI (1#2) 1 Clopen) add_ctx 0.
Proof.
  split; [|split; [|split; [apply add_sound|split; [reflexivity|split; [reflexivity|]]]]].
  - split; [lia|]. split; [|right]; cbn [unit_rows]; intros e He; repeat (destruct He as [<-|He]; [vm_compute; try split; congruence|]); destruct He.
  - unfold in_time_order, unit_rows. repeat (constructor; auto); cbn; unfold Qle; cbn; lia.
  - eexists. split; [exists 60%nat; intros fuel Hf'; eapply (make_more _ _ _ _ 60 fuel); [vm_compute; reflexivity|exact Hf']|].
    split; exists 60%nat; intros fuel Hf'; (eapply (default_more _ 60 fuel); [vm_compute; reflexivity|exact Hf']).
Qed.
(** Ticks at -1/2 and 0: the undefined behaviour. *)
Lemma ex_zero_cell : let rows := [((-1#2)%Q, 1); (0%Q, 2)] in
  (forall e, In e rows -> - 2 ^ 28 <= tick_cell 2 (fst e)) /\ (exists e, In e rows /\ tick_cell 2 (fst e) = 0) /\ (exists e, In e rows /\ tick_cell 2 (fst e) < 0) /\ tk_make (Z.eqb 0) (Z.eqb 0) 0 Z.add 60 add_ctx 2 rows = UB.
Proof.
  intros rows. split; [|split; [|split; [|vm_compute; reflexivity]]].
  - intros e [<-|[<-|[]]]; vm_compute; discriminate.
  - exists (0%Q, 2). split; [right; left; auto|reflexivity].
  - exists ((-1#2)%Q, 1). split; [left; auto|reflexivity].
Qed.
