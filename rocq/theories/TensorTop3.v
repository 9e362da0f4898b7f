(** Antipode, adjoint, shuffle, exp, log and fmexp calls from Python. *)
From Verif Require Export TensorTop2 TensorProofs6 TensorProofs7 TensorProofs8 TensorProofs5.

Section Calls.
  Variable R : cring.
  Add Ring Rring19 : (rth R).
  Notation buf := (buf R).
  Notation dtensor := (dtensor R).
  Local Open Scope cr_scope.
  Variable w : Z.
  Hypothesis Hw : (0 < w)%Z.

  Lemma fits_nat (D e : nat) (b : buf) : (words_below w (S e) <= blen b)%Z -> fits w (make_view (Ptr 0) (tensor_basis w (Z.of_nat D)) 0 (Z.of_nat e)) 0 b.
  Proof. intros H. unfold fits. rewrite mv_max by lia. replace (Z.to_nat (Z.of_nat e + 1)) with (S e) by lia. lia. Qed.
  Lemma rng_nat bs (e : nat) (u : list Z) : (length u <= e)%nat -> in_rng (make_view (Ptr 0) bs 0 (Z.of_nat e)) (Z.of_nat (length u)) = true.
  Proof. intros H. apply in_rng_true. rewrite mv_max, mv_min by lia. lia. Qed.

  Theorem py_antipode_spec (D : nat) (a : dtensor) : tensor_ok w D a -> (1 <= D)%nat ->
    exists r, py_antipode a = Ok r /\ tensor_ok w D r /\ agree D (tv w D r) (anti (tv w D a)).
  Proof.
    intros (Ba & La) HD. unfold py_antipode. rewrite Ba, (bounds_m1 w). cbn [bind].
    set (v := make_view (Ptr 0) (tensor_basis w (Z.of_nat D)) 0 (Z.of_nat D)).
    destruct (ft_antipode_ok R w Hw v v 0 0 (zeros (blen (t_data a))) (t_data a)) as (r & E & L & V & K); unfold v; try (apply mv_vwf; lia); try (rewrite mv_max; lia).
    - apply fits_nat. cbn [zeros blen]. lia.
    - apply fits_nat. lia.
    - fold v. fold v in E. rewrite E. cbn [bind]. eexists. split; [reflexivity|]. split; [split; cbn [t_basis t_data]; [auto|rewrite L; auto]|].
      apply (agree_supp R w); [apply supp_tv|apply supp_anti; apply supp_tv|].
      intros u Hu Hl. rewrite tv_ok by auto. cbn [t_data]. rewrite <- (Z.add_0_l (pos w u)), V by (auto; apply rng_nat; auto).
      unfold anti. rewrite tv_ok by (rewrite ?rev_length; auto using letters_ok_rev). reflexivity.
  Qed.
  Theorem py_antipode_depth0 (a : dtensor) : t_basis a = tensor_basis w 0 -> blen (t_data a) = 1%Z -> py_antipode a = UB.
  Proof.
    intros Ba La. unfold py_antipode. rewrite Ba. unfold update_bounds. cbn [tensor_basis b_depth].
    cbn [Z.eqb Pos.eqb orb Z.gtb Z.compare bind].
    unfold ft_antipode. cbn [make_view v_min v_max v_basis v_it]. cbn [Z.eqb tensor_basis b_depth Z.max Z.min Z.compare].
    replace (vget (t_data a) (make_view (Ptr 0) (tensor_basis w 0) 0 0) 0%Z) with (Ok (bat (t_data a) 0%Z)) by (symmetry; apply (bget_ok R (t_data a) 0); lia).
    cbn [bind]. unfold vset. rewrite bset_ok by (cbn [zeros blen]; rewrite La; cbn; lia). cbn [bind].
    cbn [Z.leb Z.compare]. unfold at_level. cbn [v_basis]. reflexivity.
  Qed.

  (** Left-multiplication adjoint: words longer than the operator's depth are not read. *)
  Theorem py_ft_adj_spec (Dp Da : nat) (op arg : dtensor) : tensor_ok w Dp op -> tensor_ok w Da arg ->
    exists r, py_ft_adjoint_left_mul op arg = Ok r /\ tensor_ok w Da r /\
      agree (Nat.min Dp Da) (tv w Da r) (adjl w (Nat.min Dp Da) (tv w Dp op) (tv w Da arg)) /\
      (forall u, (Nat.min Dp Da < length u)%nat -> tv w Da r u = 0).
  Proof.
    intros (Bp & Lp) (Ba & La). unfold py_ft_adjoint_left_mul. rewrite Bp, Ba, compat_same. cbn [negb].
    change (b_depth (tensor_basis w (Z.of_nat Da))) with (Z.of_nat Da). change (b_depth (tensor_basis w (Z.of_nat Dp))) with (Z.of_nat Dp).
    rewrite !(bounds_nat w). cbn [bind]. rewrite Nat.min_id. set (m := Nat.min Dp Da).
    set (bs := tensor_basis w (Z.of_nat Dp)).
    destruct (ft_adj_lmul_ok R w Hw (make_view (Ptr 0) bs 0 (Z.of_nat m)) (make_view (Ptr 0) bs 0 (Z.of_nat Dp)) (make_view (Ptr 0) bs 0 (Z.of_nat m)) 0 0 0
       (zeros (blen (t_data arg))) (t_data op) (t_data arg)) as (r & E & L & V & K); unfold bs; try (apply mv_vwf; lia).
    - apply fits_nat. cbn [zeros blen]. rewrite La. apply words_below_mono; lia.
    - apply fits_nat. lia.
    - apply fits_nat. rewrite La. apply words_below_mono; lia.
    - fold bs. rewrite E. cbn [bind]. eexists. split; [reflexivity|]. split; [split; cbn [t_basis t_data]; [auto|rewrite L; cbn [zeros blen]; auto]|]. split.
      + intros u Hl. destruct (okw w u) eqn:Eu.
        * apply okw_true in Eu. rewrite tv_ok by (auto; lia). cbn [t_data]. rewrite <- (Z.add_0_l (pos w u)), V by (auto; apply rng_nat; auto).
          rewrite (adj_term_adjl R w) by (rewrite ?mv_min, ?mv_max; lia). rewrite mv_max by lia. rewrite Nat2Z.id. cbn [zeros bat].
          transitivity (adjl w m (tv w Dp op) (tv w Da arg) u); [|reflexivity].
          assert (X : forall z : R, 0 + z = z) by (intros; ring). rewrite X.
          unfold adjl. apply sum_ext. intros n Hn. apply in_seq in Hn. apply sum_ext. intros x Hx. apply (words_In w) in Hx. destruct Hx as [Lx Ox].
          rewrite (den_agree R w Dp op) by (auto; lia). rewrite (den_agree R w Da arg); [reflexivity|lia|apply letters_ok_app; auto|rewrite app_length; lia].
        * unfold tv at 1. rewrite Eu, andb_false_r. symmetry. unfold adjl. apply sum_zero. intros n _. apply sum_zero. intros x _.
          assert (B : okw w (x ++ u) = false). { destruct (okw w (x ++ u)) eqn:B; [|reflexivity]. apply okw_true in B. apply letters_ok_app in B. destruct B as [_ B]. apply okw_true in B. congruence. }
          unfold tv at 2. rewrite B, andb_false_r. ring.
      + intros u Hl. unfold tv. destruct ((length u <=? Da)%nat && okw w u) eqn:Eu; [|reflexivity]. cbn [t_data].
        apply andb_true_iff in Eu. destruct Eu as [_ Eu]. apply okw_true in Eu.
        rewrite K; [reflexivity|]. intros v Hv Hr Epos. apply in_rng_true in Hr. rewrite mv_max in Hr by lia.
        rewrite Z.add_0_l in Epos. apply (pos_inj w Hw) in Epos; auto. subst v. lia.
  Qed.

  (** Shuffle products. *)
  Theorem py_st_fma_spec (Da Db Dc : nat) (a b c : dtensor) : tensor_ok w Da a -> tensor_ok w Db b -> tensor_ok w Dc c ->
    (Da <= Db)%nat -> (Da <= Dc)%nat -> (w <= 32768)%Z -> (Da < 64)%nat ->
    exists r, py_st_fma a b c = Ok r /\ tensor_ok w Da r /\ agree Da (tv w Da r) (tadd (tv w Da a) (shuf (tv w Db b) (tv w Dc c))).
  Proof.
    intros (Ba & La) (Bb & Lb) (Bc & Lc) Hb Hc H16 H64. unfold py_st_fma, dense_st_fma. rewrite Ba, Bb, Bc, !compat_same. cbn [negb andb].
    rewrite (bounds_m1 w). cbn [bind].
    set (v := make_view (Ptr 0) (tensor_basis w (Z.of_nat Da)) 0 (Z.of_nat Da)).
    destruct (st_fma_ok R w Hw H16 v v v 0 0 0 (t_data a) (t_data b) (t_data c) (fun x => x)) as (r & E & L & V & K); unfold v;
      try (apply mv_vwf; lia); try (rewrite ?mv_max; lia).
    - apply fits_nat. lia.
    - apply fits_nat. rewrite Lb. apply words_below_mono; lia.
    - apply fits_nat. rewrite Lc. apply words_below_mono; lia.
    - fold v. fold v in E. rewrite E. cbn [bind]. eexists. split; [reflexivity|]. split; [split; cbn [t_basis t_data]; [auto|congruence]|].
      apply (agree_supp R w); [apply supp_tv|apply supp_add; [apply supp_tv|apply supp_shuf; apply supp_tv]|].
      intros u Hu Hl. rewrite tv_ok by auto. cbn [t_data]. rewrite <- (Z.add_0_l (pos w u)), V by (auto; unfold v; rewrite mv_max by lia; lia).
      unfold tadd. rewrite tv_ok by auto. f_equal.
      unfold shuf. apply sum_ext. intros p Hp. destruct (splits_ok w u p Hu Hp) as [O1 O2]. assert (X := splits_length _ _ _ Hp).
      unfold lcoef. rewrite !tv_ok by (auto; lia). reflexivity.
  Qed.
  Theorem py_st_mul_spec (Da Db : nat) (a b : dtensor) : tensor_ok w Da a -> tensor_ok w Db b ->
    (Da <= Db)%nat -> (w <= 32768)%Z -> (Da < 64)%nat ->
    exists r, py_st_mul a b = Ok r /\ tensor_ok w Da r /\ agree Da (tv w Da r) (shuf (tv w Da a) (tv w Db b)).
  Proof.
    intros Ha Hb Hab H16 H64.
    assert (Hz : tensor_ok w Da (mkT (@zeros R (blen (t_data a))) (t_basis a) : dtensor)) by (destruct Ha as [X Y]; split; auto).
    destruct (py_st_fma_spec Da Da Db _ a b Hz Ha Hb ltac:(lia) Hab H16 H64) as (r & E & Hr & V).
    exists r. split; [|split; auto].
    - rewrite <- E. unfold py_st_fma, py_st_mul. cbn [t_basis t_data]. destruct Ha as [-> _], Hb as [-> _]. rewrite !compat_same. reflexivity.
    - intros u Hl. rewrite V by auto. unfold tadd. unfold tv at 1. cbn [t_data zeros bat].
      destruct ((length u <=? Da)%nat && okw w u); ring.
  Qed.
End Calls.

Section Calls2.
  Variable R : qalg.
  Add Ring Rring20 : (rth (qr R)).
  Notation buf := (buf (qr R)).
  Notation dtensor := (dtensor (qr R)).
  Local Open Scope cr_scope.
  Variable w : Z.
  Hypothesis Hw : (0 < w)%Z.

  Lemma basis_size_ok (D : nat) : basis_size (tensor_basis w (Z.of_nat D)) = Ok (words_below w (S D)).
  Proof.
    unfold basis_size. rewrite dbget_ok by (cbn [tensor_basis b_depth]; lia). cbn [tensor_basis b_depth]. f_equal. f_equal. lia.
  Qed.
  Lemma compat_out (D : nat) Dx : negb (compat (tensor_basis w (Z.of_nat D)) (tensor_basis w Dx)) = false.
  Proof. rewrite compat_same. reflexivity. Qed.
  Lemma noconst_agree (D D' : nat) bs (x : dtensor) : (D <= D')%nat ->
    forall u, letters_ok w u -> (length u <= D)%nat ->
      noconst R (den w (make_view (Ptr 0) bs 0 (Z.of_nat D)) 0 (t_data x)) u = noconst R (tv w D' x) u.
  Proof. intros HD u Hu Hl. unfold noconst. destruct u; [reflexivity|]. apply den_agree; auto; lia. Qed.
  Lemma supp_noconst x : supp w x -> supp w (noconst R x).
  Proof. intros Hx u Hu. unfold noconst. destruct u; [reflexivity|auto]. Qed.

  (** Equality of powers only needs equality on words over the alphabet. *)
  Lemma tpow_ok (x y : tens (qr R) Z) n u : letters_ok w u -> (forall v, letters_ok w v -> (length v <= length u)%nat -> x v = y v) -> tpow x n u = tpow y n u.
  Proof.
    revert u. induction n as [|n IH]; intros u Hu H; [reflexivity|]. cbn [tpow]. unfold conv. apply sum_ext. intros k Hk. apply in_seq in Hk.
    rewrite H by (auto using letters_ok_firstn; rewrite firstn_length; lia).
    rewrite (IH (skipn k u)); [reflexivity|auto using letters_ok_skipn|]. intros v Hv Hl. apply H; auto. rewrite skipn_length in Hl. lia.
  Qed.
  Lemma tpoly_ok N f (x y : tens (qr R) Z) u : letters_ok w u -> (forall v, letters_ok w v -> (length v <= length u)%nat -> x v = y v) -> tpoly N f x u = tpoly N f y u.
  Proof. intros Hu H. unfold tpoly. apply sum_ext. intros k _. rewrite (tpow_ok x y k u); auto. Qed.

  Lemma conv_okl (a a' b b' : tens (qr R) Z) u : letters_ok w u -> (forall v, letters_ok w v -> (length v <= length u)%nat -> a v = a' v) ->
    (forall v, letters_ok w v -> (length v <= length u)%nat -> b v = b' v) -> conv a b u = conv a' b' u.
  Proof.
    intros Hu Ha Hb. unfold conv. apply sum_ext. intros k Hk. apply in_seq in Hk.
    rewrite Ha by (auto using letters_ok_firstn; rewrite firstn_length; lia).
    rewrite Hb by (auto using letters_ok_skipn; rewrite skipn_length; lia). reflexivity.
  Qed.

  Theorem py_ft_exp_spec (Dx D : nat) (x : dtensor) : tensor_ok w Dx x -> (D <= Dx)%nat ->
    exists r, py_ft_exp x (tensor_basis w (Z.of_nat D)) = Ok r /\ tensor_ok w D r /\ agree D (tv w D r) (texp D (noconst R (tv w Dx x))).
  Proof.
    intros (Bx & Lx) HD. unfold py_ft_exp. rewrite Bx, compat_out, basis_size_ok, (bounds_m1 w). cbn [bind].
    set (v := make_view (Ptr 0) (tensor_basis w (Z.of_nat D)) 0 (Z.of_nat D)).
    assert (Mv : v_max v = Z.of_nat D) by (unfold v; rewrite mv_max; lia).
    destruct (ft_exp_ok R w Hw v v 0 0 (zeros (words_below w (S D))) (t_data x)) as (r & E & (L & K) & V); unfold v; try (apply mv_vwf; lia); try reflexivity.
    - apply fits_nat. cbn [zeros blen]. lia.
    - apply fits_nat. rewrite Lx. apply words_below_mono; lia.
    - fold v. fold v in E. rewrite E. cbn [bind]. eexists. split; [reflexivity|]. split; [split; cbn [t_basis t_data]; [auto|rewrite L; auto]|].
      apply (agree_supp (qr R) w); [apply supp_tv|apply supp_tpoly, supp_noconst, supp_tv|].
      intros u Hu Hl. rewrite tv_ok by auto. cbn [t_data]. rewrite <- (Z.add_0_l (pos w u)), V by (auto; fold v; rewrite Mv; lia).
      fold v. rewrite Mv, Nat2Z.id. apply tpoly_ok; auto. intros z Hz Hlz. apply noconst_agree; auto; lia.
  Qed.

  Theorem py_ft_log_spec (Dx D : nat) (x : dtensor) : tensor_ok w Dx x -> (D <= Dx)%nat ->
    exists r, py_ft_log x (tensor_basis w (Z.of_nat D)) = Ok r /\ tensor_ok w D r /\ agree D (tv w D r) (tlog1p D (noconst R (tv w Dx x))).
  Proof.
    intros (Bx & Lx) HD. unfold py_ft_log. rewrite Bx, compat_out, basis_size_ok, (bounds_m1 w). cbn [bind].
    set (v := make_view (Ptr 0) (tensor_basis w (Z.of_nat D)) 0 (Z.of_nat D)).
    assert (Mv : v_max v = Z.of_nat D) by (unfold v; rewrite mv_max; lia).
    destruct D as [|D'].
    - unfold ft_log. rewrite Mv. change (zdown (Z.of_nat 0) 1) with (@nil Z). cbn [for_ bind]. eexists. split; [reflexivity|].
      split; [split; cbn [t_basis t_data zeros blen]; auto|].
      intros u Hl. destruct u as [|? ?]; [|cbn in Hl; lia]. unfold tlog1p. rewrite tpoly_nil by reflexivity. reflexivity.
    - set (D := S D') in *.
      destruct (ft_log_ok R w Hw v v 0 0 (zeros (words_below w (S D))) (t_data x)) as (r & E & (L & K) & V); unfold v; try (apply mv_vwf; lia); try reflexivity.
      + apply fits_nat. cbn [zeros blen]. lia.
      + apply fits_nat. rewrite Lx. apply words_below_mono; lia.
      + fold v. rewrite Mv. lia.
      + fold v. fold v in E. rewrite E. cbn [bind]. eexists. split; [reflexivity|]. split; [split; cbn [t_basis t_data]; [auto|rewrite L; auto]|].
        apply (agree_supp (qr R) w); [apply supp_tv|apply supp_tpoly, supp_noconst, supp_tv|].
        intros u Hu Hl. rewrite tv_ok by auto. cbn [t_data]. rewrite <- (Z.add_0_l (pos w u)), V by (auto; fold v; rewrite Mv; lia).
        fold v. rewrite Mv, Nat2Z.id. unfold tadd, tscal. cbn [zeros bat].
        transitivity (tlog1p D (noconst R (den w v 0 (t_data x))) u); [ring|].
        apply tpoly_ok; auto. intros z Hz Hlz. apply noconst_agree; auto; lia.
  Qed.

  Theorem py_ft_fmexp_spec (Da Dx D : nat) (a x : dtensor) : tensor_ok w Da a -> tensor_ok w Dx x -> (D <= Da)%nat -> (D <= Dx)%nat ->
    exists r, py_ft_fmexp a x (tensor_basis w (Z.of_nat D)) = Ok r /\ tensor_ok w D r /\
      agree D (tv w D r) (conv (tv w Da a) (texp D (noconst R (tv w Dx x)))).
  Proof.
    intros (Ba & La) (Bx & Lx) HDa HD. unfold py_ft_fmexp. rewrite Ba, Bx, !compat_same. cbn [andb negb]. rewrite basis_size_ok, (bounds_m1 w). cbn [bind].
    set (v := make_view (Ptr 0) (tensor_basis w (Z.of_nat D)) 0 (Z.of_nat D)).
    assert (Mv : v_max v = Z.of_nat D) by (unfold v; rewrite mv_max; lia).
    destruct (ft_fmexp_ok R w Hw v v v 0 0 0 (zeros (words_below w (S D))) (t_data a) (t_data x)) as (r & E & (L & K) & V); unfold v; try (apply mv_vwf; lia); try reflexivity.
    - apply fits_nat. cbn [zeros blen]. lia.
    - apply fits_nat. rewrite La. apply words_below_mono; lia.
    - apply fits_nat. rewrite Lx. apply words_below_mono; lia.
    - fold v. fold v in E. rewrite E. cbn [bind]. eexists. split; [reflexivity|]. split; [split; cbn [t_basis t_data]; [auto|rewrite L; auto]|].
      apply (agree_supp (qr R) w); [apply supp_tv|apply supp_conv; [apply supp_tv|apply supp_tpoly, supp_noconst, supp_tv]|].
      intros u Hu Hl. rewrite tv_ok by auto. cbn [t_data]. rewrite <- (Z.add_0_l (pos w u)), V by (auto; fold v; rewrite Mv; lia).
      fold v. rewrite Mv, Nat2Z.id. apply conv_okl; auto.
      + intros z Hz Hlz. apply den_agree; auto; lia.
      + intros z Hz Hlz. apply tpoly_ok; auto. intros y Hy Hly. apply noconst_agree; auto; lia.
  Qed.
End Calls2.
