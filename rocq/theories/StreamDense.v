(** Streams over the modelled compute functions: the exponential of the log-signature. *)
From Verif Require Export StreamEx.
From Verif Require Import Outcome Alg Words Mem Series Shuffle TensorModel TensorTop TensorTop3 TensorLemmas HallModel HallSpec LieSpec HallLemmas BracketModel BracketLemmas SmhModel SmhLemmas L2tModel L2tLemmas.
Open Scope Z_scope.

Theorem stream_signature : forall (R : qalg) (isz : R -> bool), (forall x, isz x = true <-> x = r0) -> (r1 : R) <> r0 ->
  forall inv : Z -> R, (forall d, 1 <= d -> rmul (zr R d) (inv d) = r1) ->
  forall B w N M, standard B w N -> l2t_fits w N -> lb_size B = Ok M -> small_brackets B w ->
  exists F, forall fuel jd ji jp, (F <= fuel)%nat -> let ctx := dense_ctx isz fuel inv jd ji jp B w N M in
  forall s i tol, stream_ok (fun x => blen x = M) s -> fits_call s ctx (QAt i tol) -> tol <= st_res s ->
  exists x g gs, blen x = M /\ to_signature isz jd ji jp B (tensor_basis w N) x = Ok g /\
    Forall2 (fun y h => to_signature isz jd ji jp B (tensor_basis w N) y = Ok h) (within (grid_floor (from s i) tol) (grid_floor (upto s i) tol) (st_data s)) gs /\
    agree (Z.to_nat N) (tv w (Z.to_nat N) g) (fold_right (fun h a => conv (tv w (Z.to_nat N) h) a) tone gs) /\
    forall h, Forall (fits_call s ctx) h -> replies (dense_is_zero isz M) dense_none s ctx h (QAt i tol) x.
Proof.
  intros R isz Hz H1 inv Hinv B w N M HS HF EM Hsm. destruct (dense_sound R isz Hz H1 inv Hinv B w N M HS HF EM Hsm) as (F & Hd). exists F. intros fuel jd ji jp Hfu ctx s i tol Hs Hf Ht.
  destruct (query_product (buf R) (dense_is_zero isz M) dense_none eq_refl _ _ ctx (Hd fuel jd ji jp Hfu) s i tol Hs Hf Ht) as (x & Lx & Px & Ax).
  destruct (sig_ok R isz Hz H1 B w N M HS HF EM x jd ji jp Lx) as (g & Eg & _).
  set (l := within (grid_floor (from s i) tol) (grid_floor (upto s i) tol) (st_data s)) in *.
  assert (Hl : Forall (fun y => blen y = M) l).
  { apply Forall_forall. intros y Hy. unfold l, within in Hy. apply in_map_iff in Hy. destruct Hy as (e & <- & He). apply filter_In in He. destruct Hs as (_ & Ho & _). rewrite Forall_forall in Ho. apply Ho. apply He. }
  assert (Hg : exists gs, Forall2 (fun y h => to_signature isz jd ji jp B (tensor_basis w N) y = Ok h) l gs /\
     sg_prod (dense_sigs isz jd ji jp B w N M) l = fold_right (fun h a => conv (tv w (Z.to_nat N) h) a) tone gs).
  { clear - Hl Hz H1 HS HF EM. induction l as [|y l IH]; [exists []; split; [constructor|reflexivity]|]. destruct (IH (Forall_inv_tail Hl)) as (gs & G1 & G2). assert (Ly := Forall_inv Hl). cbn beta in Ly.
    destruct (sig_ok R isz Hz H1 B w N M HS HF EM y jd ji jp Ly) as (h & Eh & _). exists (h :: gs). split; [constructor; auto|]. cbn [sg_prod fold_right sg_mul dense_sigs sg_of]. rewrite Ly, Z.eqb_refl, Eh. f_equal. exact G2. }
  destruct Hg as (gs & G1 & G2). exists x, g, gs. repeat (split; auto). rewrite G2 in Px. cbn [sg_of dense_sigs sg_eq] in Px. rewrite Lx, Z.eqb_refl, Eg in Px. exact Px.
Qed.
