(** A context for streams made of the modelled compute functions: Lie elements are dense
    coordinate vectors, the product is [cbh] of CbhModel.v, signatures are [to_signature]. *)
From Coq Require Import ZifyBool.
From Verif Require Export StreamSpec Cbh.
From Verif Require Import Outcome Alg Words Mem Series Shuffle TensorModel TensorTop TensorTop3 TensorProofs3 TensorLemmas SparseModel SparseProofs Mobius HallModel HallSpec LieSpec HallTab HallCount HallDim HallProofs HallTrees HallLookup HallLemmas BracketModel BracketProofs BracketCache BracketSem BracketLemmas SmhModel SmhProofs SmhBuild SmhLemmas L2tModel L2tProofs L2tBuild L2tLemmas Dynkin T2lBuild T2lNorm.
Open Scope Z_scope.

(** Elements without coordinates (the default-constructed Lie) and elements all of whose
    coordinates are zero count as zero. *)
Definition dense_is_zero {R : cring} (isz : R -> bool) (M : Z) (x : buf R) : bool :=
  (blen x =? 0) || ((blen x =? M) && forallb (fun k => isz (bat x k)) (zrange M)).
Definition dense_none {R : cring} : buf R := zeros 0.
(** algebra::Context over the compute functions for width [w], depth [N] and [M] basis
    elements.  The bracket cache the product starts with is fixed to the empty one; by
    C29 its contents do not matter. *)
Definition dense_ctx {R : qalg} (isz : R -> bool) (fuel : nat) (inv : Z -> R) (jd : Z -> R) (ji jp : Z -> Z) (B : lie_basis) (w N M : Z) : actx (buf R) :=
  mkCtx w N (zeros M) (fun l => match cbh isz fuel inv jd ji jp B (tensor_basis w N) lc_empty l with Ok (z, _) => z | _ => dense_none end).
(** Signatures: truncated tensor series, compared up to degree N. *)
Definition dense_sigs {R : qalg} (isz : R -> bool) (jd : Z -> R) (ji jp : Z -> Z) (B : lie_basis) (w N M : Z) : sigs (buf R) :=
  mkSigs _ (tens (qr R) Z) (agree (Z.to_nat N)) conv tone
    (fun x => if blen x =? M then match to_signature isz jd ji jp B (tensor_basis w N) x with Ok g => tv w (Z.to_nat N) g | _ => tone end else tone).

Section Dense.
  Variable R : qalg.
  Add Ring RringD : (rth (qr R)).
  Variable isz : R -> bool.
  Hypothesis isz_ok : forall x, isz x = true <-> x = r0.
  Hypothesis R1 : (r1 : R) <> r0.
  Variable inv : Z -> R.
  Hypothesis inv_ok : forall d, 1 <= d -> rmul (zr R d) (inv d) = r1.
  Variables (B : lie_basis) (w N M : Z).
  Hypothesis HS : standard B w N.
  Hypothesis HF : l2t_fits w N.
  Hypothesis EM : lb_size B = Ok M.
  Hypothesis Hsm : small_brackets B w.
  Notation D := (Z.to_nat N).
  Notation tb := (tensor_basis w N).

  Lemma texp_zero (x : tens (qr R) Z) : (forall u, (length u <= D)%nat -> x u = r0) -> agree D (texp (R:=R) D x) tone.
  Proof.
    intros Hx u Hu. unfold texp, tpoly. rewrite (sum_seq_S _ 0 D). cbn [tpow]. rewrite sum_zero.
    - cbn [invfact]. ring.
    - intros k Hk. apply in_seq in Hk. destruct k as [|k]; [lia|]. cbn [tpow]. unfold conv. rewrite sum_zero; [ring|]. intros p Hp. rewrite Hx; [ring|]. rewrite firstn_length. lia.
  Qed.
  Lemma zero_emb x jd ji jp t : blen x = M -> forallb (fun k => isz (bat x k)) (zrange M) = true -> py_lie_to_tensor isz jd ji jp B x tb None = Ok t ->
    forall u, (length u <= D)%nat -> tv w D (mkT t tb) u = r0.
  Proof.
    intros Hx Hz Et u Hu. destruct (standard_ok _ _ _ HS) as (M' & HB & _). assert (M' = M) as -> by (rewrite (size_ok _ _ _ _ HB) in EM; congruence).
    destruct (l2t_apply R isz isz_ok R1 B w N M x None jd ji jp (tr (fun k => bat (lb_data B) (2 * k)) (fun k => bat (lb_data B) (2 * k + 1))) HS HF EM Hx) as (t' & Et' & Hl & V).
    { intros k Hk. apply (tr_decodes _ _ _ _ HB); auto. }
    assert (t' = t) as -> by congruence. unfold tv. destruct ((length u <=? D)%nat && okw w u) eqn:E; auto. apply andb_true_iff in E. destruct E as [_ E]. apply okw_true in E.
    cbn [t_data]. rewrite V by auto. cbn [scaled]. unfold lie_expand. apply sum_zero. intros k Hk. rewrite forallb_forall in Hz. assert (X : bat x (k - 1) = r0).
    { apply isz_ok, Hz. apply zrange_In. apply zseq_In in Hk. lia. }
    rewrite X. ring.
  Qed.
  Theorem dense_sound : exists F, forall fuel jd ji jp, (F <= fuel)%nat ->
    sound (dense_is_zero isz M) (dense_sigs isz jd ji jp B w N M) (fun x => blen x = M) (dense_ctx isz fuel inv jd ji jp B w N M).
  Proof.
    destruct (cbh_product R isz isz_ok R1 inv inv_ok B w N M HS HF EM Hsm lc_empty (reach_empty w)) as (F & HC). exists F. intros fuel jd ji jp Hfu.
    destruct (cbh_N B w N HS HF) as (H1 & H2 & H3). assert (HM := cbh_M B w N M HS HF EM).
    assert (Zero : forall x, blen x = M -> forallb (fun k => isz (bat x k)) (zrange M) = true -> agree D (sg_of (dense_sigs isz jd ji jp B w N M) x) tone).
    { intros x Hx Hz. cbn [sg_of dense_sigs]. rewrite Hx, Z.eqb_refl. destruct (sig_ok R isz isz_ok R1 B w N M HS HF EM x jd ji jp Hx) as (g & -> & _ & _ & V).
      destruct (emb R isz isz_ok R1 B w N M HS HF EM x jd ji jp Hx) as (t & Et & _). apply agree_trans with (1 := V t Et). apply texp_zero. intros u Hu. unfold noconst. destruct u; auto. apply (zero_emb x jd ji jp t Hx Hz Et). auto. }
    constructor; cbn [sg_t sg_eq sg_mul sg_one dense_sigs].
    - intros; apply agree_refl.
    - intros; apply agree_sym; auto.
    - intros a b c X Y; apply agree_trans with (1 := X); auto.
    - intros; apply agree_conv; auto.
    - intros a b c u _. apply conv_assoc.
    - intros a u _. apply conv_one_l.
    - intros a u _. apply conv_one_r.
    - reflexivity.
    - apply Zero; [reflexivity|]. apply forallb_forall. intros k _. apply isz_ok. reflexivity.
    - intros x Hx. unfold dense_is_zero in Hx. apply orb_true_iff in Hx. destruct Hx as [Hx|Hx].
      + cbn [sg_of dense_sigs]. replace (blen x =? M) with false by lia. apply agree_refl.
      + apply andb_true_iff in Hx. destruct Hx as [Hx Hz]. apply Zero; auto. lia.
    - intros l Hl. cbn [cx_cbh dense_ctx]. destruct (HC fuel jd ji jp l Hfu Hl) as (z & c' & s & gs & -> & _ & Lz & _). exact Lz.
    - intros l Hl. cbn [cx_cbh dense_ctx]. destruct (HC fuel jd ji jp l Hfu Hl) as (z & c' & s & gs & -> & _ & Lz & Es & Fs & A). cbn [sg_of dense_sigs]. rewrite Lz, Z.eqb_refl, Es.
      apply agree_trans with (1 := A). clear A Es Lz. revert gs Fs. induction l as [|x l IH]; intros gs Fs; inversion Fs as [|x' g l' gs' E1 E2]; [apply agree_refl|].
      assert (Hx := Forall_inv Hl). cbn beta in Hx. cbn [fold_right tprod sg_prod sg_mul sg_of dense_sigs]. rewrite Hx, Z.eqb_refl, E1. apply agree_conv; [apply agree_refl|]. apply IH; auto. apply (Forall_inv_tail Hl).
  Qed.
End Dense.
