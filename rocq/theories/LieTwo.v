(** Operations on stored Lie elements of one context. *)
From Coq Require Import ZArith List Bool Lia ZifyBool.
From Verif Require Import LieObjModel Alg Words Series Shuffle LalBasis LalFma LalTensor LalDense LhSpec ShufFma KeyProofs KeyProofs2 LhProofs HallModel HallSpec HallTab HallDim HallTrees HsProofs HsLemmas BracketModel BracketProofs BracketSem LieSpec L2tProofs Dynkin T2lLemmas L2tLemmas HallIndep LieTab LieBasis LieProd LieMult LieMaps LieVec LieOne.
From Verif Require Import Cbh.
Import ListNotations.
Open Scope Z_scope.

Section Two.
  Variable R : qalg.
  Add Ring Rtw : (rth R).
  Variable req : R -> R -> bool.
  Hypothesis Hreq : forall x y, req x y = true <-> x = y.
  Hypothesis R10 : @r1 R <> r0.
  Variables (w N : Z) (L : lctx).
  Hypothesis HC : ctx_ok w N L.
  Notation M := (nM w N). Notation H := (lc_h L). Notation B := (lc_t L). Notation n := (Z.to_nat N).
  Let Hw : 1 <= w := c_w w N L HC.
  Let HN : 1 <= N <= 254 := c_N w N L HC.
  Let HP : packs w N := c_packs w N L HC.
  Let HT : tb_ok w N B := c_tb w N L HC.
  Let HS : sized w N := proj1 (proj2 HC).
  Let HN1 : 1 <= N := proj1 HN.
  Notation tensor := (tens R Z).
  Notation tr := (LhSpec.trunc R w n).
  Notation HB := (hall_basis_ok w N L HC).
  Notation LD := (dense_good R req Hreq (hall_vb L) M (lkey w) (lcnt w) HB).
  Notation LS := (sparse_good R req Hreq (hall_vb L) M (lkey w) (lcnt w) HB).
  Notation TD := (dense_tgood R req Hreq w N B HP HS HT).
  Notation TS := (sparse_tgood R req Hreq w N B HP HS HT).
  Notation lval := (lval R w N).
  Notation minv := (LieVec.minv w N).
  Notation lrep := (lrep R w N L).
  Notation trep := (trep R w N L).
  Notation dyn := (dyn R w N).

  Lemma dyn_lie d t v : lrep d t -> dyn t v = t v.
  Proof. intros Hd. rewrite (dyn_fix R w N t v) by (eapply lrep_prim; eauto). eapply lrep_tr; eauto. Qed.
  Lemma conv_lie_ok dense d t m : lrep d t -> minv m -> exists d' m', conv_lie R req Ok L dense d m = Ok (d', m') /\ minv m' /\ is_dense R d' = dense /\ lrep d' t.
  Proof.
    intros Hd Hm. unfold conv_lie. destruct (l2t_td_ok R req Hreq w N L HC d t m Hd Hm) as (d1 & m1 & -> & I1 & D1 & T1). cbn [bind].
    destruct (conv_tensor_ok R req Hreq w N N L L HC HC dense d1 t T1 ltac:(right; lia)) as (d2 & -> & D2 & T2). cbn [bind].
    destruct (t2l_td_ok R req Hreq w N L HC d2 _ m1 T2 I1) as (d3 & m3 & -> & I3 & D3 & T3). exists d3, m3. split; [reflexivity|]. split; [auto|]. split; [congruence|].
    eapply lrep_ext; [|exact T3]. intros u. rewrite dyn_tr. apply (dyn_lie d t u Hd).
  Qed.
  Lemma like_ok a b t m : lrep b t -> minv m -> exists b' m', like R req Ok L a b m = Ok (b', m') /\ minv m' /\ is_dense R b' = is_dense R a /\ lrep b' t.
  Proof.
    intros Hb Hm. unfold like. destruct (Bool.eqb (is_dense R a) (is_dense R b)) eqn:E.
    - exists b, m. apply Bool.eqb_prop in E. auto.
    - apply conv_lie_ok; auto.
  Qed.
  Lemma ld_un_ok (f : R -> R) d t : f r0 = r0 -> (forall c u, lval (fun i => f (c i)) u = f (lval c u)) -> lrep d t -> is_dense R (ld_un R req L f d) = is_dense R d /\ lrep (ld_un R req L f d) (fun u => f (t u)).
  Proof.
    intros F0 F1 Hd. destruct d as [v|v]; destruct Hd as [Ov Cv]; cbn [ld_un is_dense]; (split; [reflexivity|]).
    - destruct (g_unary _ _ _ _ _ _ _ _ _ LD v f Ov F0) as (O1 & C1 & _). split; [exact O1|]. intros u. rewrite (lval_ext R w N _ _ C1), F1, Cv. reflexivity.
    - destruct (g_unary _ _ _ _ _ _ _ _ _ LS v f Ov F0) as (O1 & C1 & _). split; [exact O1|]. intros u. rewrite (lval_ext R w N _ _ C1), F1, Cv. reflexivity.
  Qed.
  Lemma ld_bin_ok (op : R -> R -> R) a b ta tb m : (forall x, op x r0 = x) -> (forall y, op r0 y = r0 -> y = r0) -> (forall c c' u, lval (fun i => op (c i) (c' i)) u = op (lval c u) (lval c' u)) ->
    lrep a ta -> lrep b tb -> minv m -> exists d m', ld_bin R req Ok L op a b m = Ok (d, m') /\ minv m' /\ is_dense R d = is_dense R a /\ lrep d (fun u => op (ta u) (tb u)).
  Proof.
    intros O1 O2 O3 Ha Hb Hm. unfold ld_bin. destruct (like_ok a b tb m Hb Hm) as (b' & m' & -> & Im & Eb & Hb'). cbn [bind].
    destruct a as [x|x], b' as [y|y]; try discriminate; destruct Ha as [Ox Cx], Hb' as [Oy Cy].
    - destruct (g_binary _ _ _ _ _ _ _ _ _ LD x y op Ox Oy O1 O2) as (A & C & _). eexists. exists m'. split; [reflexivity|]. split; [auto|]. split; [reflexivity|]. split; [exact A|].
      intros u. rewrite (lval_ext R w N _ _ C), O3, Cx, Cy. reflexivity.
    - destruct (g_binary _ _ _ _ _ _ _ _ _ LS x y op Ox Oy O1 O2) as (A & C & _). eexists. exists m'. split; [reflexivity|]. split; [auto|]. split; [reflexivity|]. split; [exact A|].
      intros u. rewrite (lval_ext R w N _ _ C), O3, Cx, Cy. reflexivity.
  Qed.
  Lemma ld_mul_ok a b ta tb m : lrep a ta -> lrep b tb -> minv m -> exists d m', ld_mul R req Ok L a b m = Ok (d, m') /\ minv m' /\ is_dense R d = is_dense R a /\ lrep d (tr (comm ta tb)).
  Proof.
    intros Ha Hb Hm. unfold ld_mul. destruct (like_ok a b tb m Hb Hm) as (b' & m' & -> & Im & Eb & Hb'). cbn [bind]. destruct Im as (I1 & I2 & I3).
    assert (Ext : forall x y u, (forall u, lval x u = ta u) -> (forall u, lval y u = tb u) -> tr (comm (lval x) (lval y)) u = tr (comm ta tb) u).
    { intros x y u Ex Ey. unfold LhSpec.trunc. destruct (inside w n u); [|reflexivity]. apply comm_ext; auto. }
    destruct a as [x|x], b' as [y|y]; try discriminate; destruct Ha as [Ox Cx], Hb' as [Oy Cy].
    - destruct (lmul_ok R w N L HC _ _ _ _ _ LD x y (mc_lie m') Ox Oy I1) as (z & c & -> & Oz & Ic & Cz). cbn [bind]. eexists. eexists. split; [reflexivity|]. split; [split; auto|]. split; [reflexivity|].
      split; [auto|]. intros u. rewrite Cz. apply Ext; auto.
    - destruct (lmul_ok R w N L HC _ _ _ _ _ LS x y (mc_lie m') Ox Oy I1) as (z & c & -> & Oz & Ic & Cz). cbn [bind]. eexists. eexists. split; [reflexivity|]. split; [split; auto|]. split; [reflexivity|].
      split; [auto|]. intros u. rewrite Cz. apply Ext; auto.
  Qed.
  Lemma ld_eqb_ok a b ta tb m : lrep a ta -> lrep b tb -> minv m -> exists r m', ld_eqb R req Ok L a b m = Ok (r, m') /\ minv m' /\ (r = true <-> forall u, ta u = tb u).
  Proof.
    intros Ha Hb Hm. unfold ld_eqb. destruct (like_ok a b tb m Hb Hm) as (b' & m' & -> & Im & Eb & Hb'). cbn [bind].
    assert (Q : forall x y : Z -> R, (forall u, lval x u = ta u) -> (forall u, lval y u = tb u) -> (forall i, 0 <= i < M -> x i = y i) <-> (forall u, ta u = tb u)).
    { intros x y Ex Ey. split; [intros E u; rewrite <- Ex, <- Ey; apply lval_ext; auto|]. intros E. apply (lval_inj R w N L HC). intros u. rewrite Ex, Ey. auto. }
    destruct a as [x|x], b' as [y|y]; try discriminate; destruct Ha as [Ox Cx], Hb' as [Oy Cy].
    - eexists. exists m'. split; [reflexivity|]. split; [auto|]. rewrite (g_eqb _ _ _ _ _ _ _ _ _ LD x y Ox Oy). apply Q; auto.
    - eexists. exists m'. split; [reflexivity|]. split; [auto|]. rewrite (g_eqb _ _ _ _ _ _ _ _ _ LS x y Ox Oy). apply Q; auto.
  Qed.
  Lemma index_ok i : 0 <= i < M -> vb_index (hall_vb L) (lkey w i) = Ok i.
  Proof. intros Hi. apply (bo_index _ _ _ _ HB); auto. Qed.
  Lemma items_gen (l : list (Z * R)) (co : Z -> R) : (forall e, In e l -> 0 <= fst e < M) -> (forall a b l1 l2, l = l1 ++ a :: l2 -> In b l2 -> fst a < fst b) ->
    (forall i, 0 <= i < M -> co i = sum l (fun e => if fst e =? i then snd e else r0)) ->
    omap (fun e : Z * R => let! i := vb_index (hall_vb L) (fst e) in Ok (i, snd e)) (map (fun e : Z * R => (lkey w (fst e), snd e)) l) = Ok l /\
    (forall i x, In (i, x) l -> 0 <= i < M /\ x = co i) /\ (forall i, 0 <= i < M -> ~ In i (map fst l) -> co i = r0).
  Proof.
    intros Hl Hs Hc. split; [|split].
    - rewrite (omap_map _ _ (fun e : Z * R => e)); [rewrite map_id; reflexivity|]. intros [i x] Hi. cbn [fst snd]. rewrite index_ok by (apply (Hl _ Hi)). reflexivity.
    - intros i x Hi. assert (X := Hl _ Hi). cbn [fst] in X. split; [exact X|]. rewrite Hc by exact X. clear Hc Hl X. induction l as [|e l IH]; [destruct Hi|]. cbn [sum].
      assert (Hx : forall b, In b l -> fst b <> fst e) by (intros b Hb E; assert (Q := Hs e b [] l eq_refl Hb); lia).
      destruct Hi as [->|Hi].
      + cbn [fst snd]. rewrite Z.eqb_refl, sum_zero; [ring|]. intros b Hb. destruct (Z.eqb_spec (fst b) i) as [E|]; [destruct (Hx b Hb E)|reflexivity].
      + destruct (Z.eqb_spec (fst e) i) as [E|]; [destruct (Hx _ Hi (eq_sym E))|]. rewrite <- IH; auto; [ring|]. intros a b l1 l2 E. apply (Hs a b (e :: l1) l2). rewrite E. reflexivity.
    - intros i Hi Hn. rewrite Hc by auto. apply sum_zero. intros e He. destruct (Z.eqb_spec (fst e) i) as [<-|]; [|reflexivity]. exfalso. apply Hn. apply in_map; auto.
  Qed.
  Lemma ld_shows_ok d t : lrep d t -> exists co, (forall u, t u = lval co u) /\
    (exists l, ld_items R req L d = Ok l /\ (forall a b l1 l2, l = l1 ++ a :: l2 -> In b l2 -> fst a < fst b) /\
      (forall i x, In (i, x) l -> 0 <= i < M /\ x = co i) /\ (forall i, 0 <= i < M -> ~ In i (map fst l) -> co i = r0)) /\
    (forall i, 0 <= i < M -> is_dense R d = false \/ i < td_dimension R d -> ld_get R req L d i = Ok (co i)).
  Proof.
    intros Hd. destruct d as [v|v]; destruct Hd as [Ov Cv].
    - exists (dv_at R v). split; [intros u; rewrite Cv; reflexivity|]. split.
      + destruct (g_items _ _ _ _ _ _ _ _ _ LD v Ov) as (l & E & Il & Sl & _ & Cl). exists l. unfold ld_items. rewrite E. cbn [bind].
        destruct (items_gen l (dv_at R v) Il Sl Cl) as (A1 & A2 & A3). auto.
      + intros i Hi [X|X]; [discriminate|]. cbn in X. unfold ld_get. rewrite (c_key w N L HC) by auto. cbn [bind dense_ops vo_get]. unfold dv_get. rewrite index_ok by auto. cbn [bind].
        rewrite bget_ok by lia. f_equal. rewrite (dv_at_in R v i) by lia. reflexivity.
    - exists (s_cf R (lkey w) v). split; [intros u; rewrite Cv; reflexivity|]. split.
      + destruct (g_items _ _ _ _ _ _ _ _ _ LS v Ov) as (l & E & Il & Sl & _ & Cl). exists l. unfold ld_items. rewrite E. cbn [bind].
        destruct (items_gen l (s_cf R (lkey w) v) Il Sl Cl) as (A1 & A2 & A3). auto.
      + intros i Hi _. unfold ld_get. rewrite (c_key w N L HC) by auto. reflexivity.
  Qed.
  Lemma dimension_zero d t : lrep d t -> td_dimension R d = 0 -> forall u, t u = r0.
  Proof.
    intros Hd E u. destruct d as [v|v]; destruct Hd as [Ov Cv]; rewrite <- Cv; apply sum_zero; intros i Hi; apply zrange_In in Hi.
    - cbn in E. rewrite (dv_at_out R v i) by lia. ring.
    - cbn in E. destruct v as [|e v]; [|cbn [length] in E; lia]. unfold s_cf, s_get. cbn. ring.
  Qed.

  (** ** Signatures *)
  Lemma unit_ok dense : exists d, td_unit R req L dense = Ok d /\ is_dense R d = dense /\ trep d tone.
  Proof.
    unfold td_unit. destruct dense.
    - destruct (t_new _ _ _ _ _ _ _ _ _ _ TD) as (F0 & C0 & _). destruct (t_upd _ _ _ _ _ _ _ _ _ _ TD _ (fun _ => r1) (t_sub _ _ _ _ _ _ _ _ _ _ TD _ F0)) as (v & E & Fv & _ & Cv).
      rewrite E. cbn [bind]. exists (LhModel.Dn v). split; [reflexivity|]. split; [reflexivity|]. exists v. split; [reflexivity|]. split; [auto|]. intros u. rewrite Cv. destruct u; [reflexivity|]. apply C0.
    - destruct (t_new _ _ _ _ _ _ _ _ _ _ TS) as (F0 & C0 & _). destruct (t_upd _ _ _ _ _ _ _ _ _ _ TS _ (fun _ => r1) (t_sub _ _ _ _ _ _ _ _ _ _ TS _ F0)) as (v & E & Fv & _ & Cv).
      rewrite E. cbn [bind]. exists (LhModel.Sp v). split; [reflexivity|]. split; [reflexivity|]. exists v. split; [reflexivity|]. split; [auto|]. intros u. rewrite Cv. destruct u; [reflexivity|]. apply C0.
  Qed.
  (** [g] is stored truncated; it is the product so far *)
  Lemma fmexp_step d g x t : trep d (tr g) -> trep x t -> t [] = r0 -> exists d', td_fmexp R req B d x = Ok d' /\ is_dense R d' = is_dense R d /\ trep d' (tr (conv g (texp n t))).
  Proof.
    intros Hd Hx H0. destruct (td_fmexp_ok R req Hreq w N B HP HS HT HN1 _ _ _ _ _ _ Hd Hx) as (d' & -> & Hd'). rewrite kd_fresh in Hd'. exists d'. split; [reflexivity|].
    assert (E := kd_dense _ _ _ _ _ _ _ Hd'). split; [exact E|]. unfold LieOne.trep. rewrite E. eapply drep_ext; [|exact Hd'].
    intros u. unfold LhSpec.trunc at 1 3. destruct (inside w n u) eqn:Iu; [|reflexivity]. apply (conv_in R w n).
    - exact Iu.
    - intros v Hv _. unfold LhSpec.trunc. rewrite Hv. reflexivity.
    - intros v Hv _. apply texp_ext. intros [|y z]; [symmetry; exact H0|reflexivity].
  Qed.
End Two.
