(** Multiplication calls with operands of any depths. *)
From Verif Require Export TensorTop.

(** A view with a smaller maximum degree; same array, same basis. *)
Definition clip (v : view) (m : Z) : view := mkView (v_it v) (v_basis v) (v_min v) (Z.min (v_max v) m).
Lemma at_level_clip v m d : at_level (clip v m) d = at_level v d. Proof. reflexivity. Qed.

Section Clip.
  Variable R : cring.
  Notation buf := (buf R).
  Local Open Scope cr_scope.
  (** Degrees of the factors above the degree of the result are never looked at. *)
  Lemma ft_fma_clip out lhs rhs (ob lb rb : buf) op : v_min lhs = 0%Z -> v_min rhs = 0%Z ->
    ft_fma out lhs rhs ob lb rb op = ft_fma out (clip lhs (v_max out)) (clip rhs (v_max out)) ob lb rb op.
  Proof.
    intros Hl Hr. unfold ft_fma. cbn [clip v_min v_max]. rewrite Hl, Hr.
    match goal with |- bind ?x _ = bind ?y _ => assert (E : x = y) end.
    { apply for_ext. intros n t Hn. apply zdown_In in Hn.
      replace (Z.min (Z.min (v_max lhs) (v_max out)) (n - 0)) with (Z.min (v_max lhs) (n - 0)) by lia.
      replace (Z.max 0 (n - Z.min (v_max rhs) (v_max out))) with (Z.max 0 (n - v_max rhs)) by lia. reflexivity. }
    rewrite E. reflexivity.
  Qed.
  Lemma ft_inplace_clip lhs rhs (b rb : buf) op : v_min rhs = 0%Z -> v_min lhs = 0%Z ->
    ft_inplace_mul lhs rhs b rb op = ft_inplace_mul lhs (clip rhs (v_max lhs)) b rb op.
  Proof.
    intros Hr Hl. unfold ft_inplace_mul. cbn [clip v_min v_max].
    match goal with |- bind ?x _ = bind ?y _ => assert (E : x = y) end.
    { apply for_ext. intros n t Hn. apply zdown_In in Hn.
      replace (Z.max (v_min lhs) (n - Z.min (v_max rhs) (v_max lhs))) with (Z.max (v_min lhs) (n - v_max rhs)) by lia. reflexivity. }
    rewrite E. reflexivity.
  Qed.
End Clip.

Section Mul.
  Variable R : cring.
  Add Ring Rring18 : (rth R).
  Notation buf := (buf R).
  Notation dtensor := (dtensor R).
  Local Open Scope cr_scope.
  Variable w : Z.
  Hypothesis Hw : (0 < w)%Z.

  Lemma clip_vwf v off m : vwf w v off -> (0 <= m)%Z -> vwf w (clip v m) off.
  Proof.
    intros [(D & HB & HD) Hit Ho Hmn Hmx] Hm. constructor; cbn [clip v_basis v_it v_min v_max]; auto; try lia.
    exists D. split; [auto|lia].
  Qed.

  (** Multiply-add where each array only has to be as deep as the degrees looked at. *)
  Lemma fma_core (D : nat) (eo el er : nat) (ob lb rb : buf) : (eo <= D)%nat -> (el <= D)%nat -> (er <= D)%nat ->
    (words_below w (S eo) <= blen ob)%Z -> (words_below w (S (Nat.min el eo)) <= blen lb)%Z -> (words_below w (S (Nat.min er eo)) <= blen rb)%Z ->
    let bs := tensor_basis w (Z.of_nat D) in
    exists ob', ft_fma (make_view (Ptr 0) bs 0 (Z.of_nat eo)) (make_view (Ptr 0) bs 0 (Z.of_nat el)) (make_view (Ptr 0) bs 0 (Z.of_nat er)) ob lb rb (fun x => x) = Ok ob' /\
      blen ob' = blen ob /\
      (forall u, letters_ok w u -> (length u <= eo)%nat ->
         bat ob' (pos w u) = bat ob (pos w u) + conv (tvb w el lb) (tvb w er rb) u) /\
      (forall k, ~ (0 <= k < words_below w (S eo))%Z -> bat ob' k = bat ob k).
  Proof.
    intros H1 H2 H3 F1 F2 F3 bs. rewrite ft_fma_clip by reflexivity. rewrite mv_max by lia.
    set (vo := make_view (Ptr 0) bs 0 (Z.of_nat eo)). set (vl := clip (make_view (Ptr 0) bs 0 (Z.of_nat el)) (Z.of_nat eo)).
    set (vr := clip (make_view (Ptr 0) bs 0 (Z.of_nat er)) (Z.of_nat eo)).
    assert (Mo : v_max vo = Z.of_nat eo) by (unfold vo; rewrite mv_max; lia).
    assert (Ml : v_max vl = Z.of_nat (Nat.min el eo)) by (unfold vl, clip; cbn [v_max]; rewrite mv_max; lia).
    assert (Mr : v_max vr = Z.of_nat (Nat.min er eo)) by (unfold vr, clip; cbn [v_max]; rewrite mv_max; lia).
    destruct (ft_fma_ok R w Hw vo vl vr 0 0 0 ob lb rb (fun x => x)) as (ob' & E & L & V & K).
    - apply mv_vwf; lia.
    - apply clip_vwf; [apply mv_vwf; lia|lia].
    - apply clip_vwf; [apply mv_vwf; lia|lia].
    - unfold fits. rewrite Mo. replace (Z.to_nat (Z.of_nat eo + 1)) with (S eo) by lia. lia.
    - unfold fits. rewrite Ml. replace (Z.to_nat (Z.of_nat (Nat.min el eo) + 1)) with (S (Nat.min el eo)) by lia. lia.
    - unfold fits. rewrite Mr. replace (Z.to_nat (Z.of_nat (Nat.min er eo) + 1)) with (S (Nat.min er eo)) by lia. lia.
    - exists ob'. split; [exact E|]. split; [exact L|]. split.
      + intros u Hu Hl. rewrite <- (Z.add_0_l (pos w u)), V; auto.
        * f_equal. unfold lcoef. rewrite (pconv_id R w). unfold conv. apply sum_ext. intros k Hk. apply in_seq in Hk.
          assert (G : forall v x (m : nat) (b : buf), letters_ok w v -> (length v <= eo)%nat -> v_min x = 0%Z -> v_max x = Z.of_nat (Nat.min m eo) ->
             den w x 0 b v = tvb w m b v).
          { intros v x m b Hv Hlv Hmn Hmx. unfold den, tvb. assert (Hv' := proj2 (okw_true w v) Hv). rewrite Hv', andb_true_r.
            replace (in_rng x (Z.of_nat (length v))) with (length v <=? m)%nat; [rewrite Z.add_0_l; reflexivity|].
            apply eq_true_iff_eq. rewrite in_rng_true, Nat.leb_le. lia. }
          rewrite (G (firstn k u) vl el) by (auto using letters_ok_firstn; rewrite firstn_length; lia).
          rewrite (G (skipn k u) vr er) by (auto using letters_ok_skipn; rewrite skipn_length; lia). reflexivity.
        * apply in_rng_true. rewrite Mo. cbn [vo make_view v_min]. lia.
      + intros k Hk. apply K. intros u Hu Hr E'. apply Hk. apply in_rng_true in Hr. rewrite Mo in Hr.
        rewrite E', Z.add_0_l. apply pos_bound; auto. lia.
  Qed.

  Lemma tv_tvb D (a : dtensor) : tv w D a = tvb w D (t_data a). Proof. reflexivity. Qed.
  Lemma compat_same D D' : compat (tensor_basis w D) (tensor_basis w D') = true.
  Proof. unfold compat. cbn. apply Z.eqb_refl. Qed.
  Lemma bounds_nat D (x : nat) : update_bounds (tensor_basis w (Z.of_nat D)) (Z.of_nat x) 0 = Ok (0%Z, Z.of_nat (Nat.min D x)).
  Proof. rewrite update_bounds_spec by lia. destruct (Z.ltb_spec (Z.of_nat x) (-1)); [lia|]. rewrite eff_min by lia. do 2 f_equal. lia. Qed.
  Lemma bounds_m1 D : update_bounds (tensor_basis w (Z.of_nat D)) (-1) 0 = Ok (0%Z, Z.of_nat D).
  Proof. rewrite update_bounds_spec by lia. reflexivity. Qed.

  (** ft_mul: the product truncated at the depth of the first operand, whatever the depths. *)
  Theorem py_ft_mul_spec (Da Db : nat) (a b : dtensor) : tensor_ok w Da a -> tensor_ok w Db b ->
    exists c, py_ft_mul a b = Ok c /\ tensor_ok w Da c /\ agree Da (tv w Da c) (conv (tv w Da a) (tv w Db b)).
  Proof.
    intros (Ba & La) (Bb & Lb). unfold py_ft_mul, dense_ft_fma. rewrite Ba, Bb, compat_same. cbn [negb].
    rewrite bounds_m1. cbn [bind]. change (b_depth (tensor_basis w (Z.of_nat Db))) with (Z.of_nat Db). rewrite bounds_nat. cbn [bind].
    destruct (fma_core Da Da Da (Nat.min Da Db) (zeros (blen (t_data a))) (t_data a) (t_data b)) as (c & E & L & V & K); try lia.
    - cbn [zeros blen]. lia.
    - rewrite La. apply words_below_mono; lia.
    - rewrite Lb. apply words_below_mono; lia.
    - rewrite E. cbn [bind]. eexists. split; [reflexivity|]. split; [split; cbn [t_basis t_data]; [auto|rewrite L; cbn [zeros blen]; auto]|].
      apply (agree_supp R w); [apply supp_tv|apply supp_conv; apply supp_tv|].
      intros u Hu Hl. rewrite tv_ok by auto. cbn [t_data]. rewrite V by auto. cbn [zeros bat].
      assert (C : conv (tvb w Da (t_data a)) (tvb w (Nat.min Da Db) (t_data b)) u = conv (tv w Da a) (tv w Db b) u).
      { apply conv_local; [reflexivity|]. intros v Hv. rewrite tv_tvb. unfold tvb.
        replace (length v <=? Nat.min Da Db)%nat with (length v <=? Db)%nat; [reflexivity|]. apply eq_true_iff_eq. rewrite !Nat.leb_le. lia. }
      rewrite C. ring.
  Qed.

  (** ft_fma(a,b,c): m is the smaller of the depths of b and c. *)
  Theorem py_ft_fma_spec (Da Db Dc : nat) (a b c : dtensor) : tensor_ok w Da a -> tensor_ok w Db b -> tensor_ok w Dc c -> (Nat.min Db Dc <= Da)%nat ->
    exists r, py_ft_fma a b c = Ok r /\ tensor_ok w Da r /\
      agree (Nat.min Db Dc) (tv w Da r) (tadd (tv w Da a) (conv (tv w Db b) (tv w Dc c))) /\
      (forall u, (Nat.min Db Dc < length u)%nat -> tv w Da r u = tv w Da a u).
  Proof.
    intros (Ba & La) (Bb & Lb) (Bc & Lc) Hm. unfold py_ft_fma, dense_ft_fma. rewrite Ba, Bb, Bc, !compat_same. cbn [negb andb].
    change (b_depth (tensor_basis w (Z.of_nat Dc))) with (Z.of_nat Dc). rewrite bounds_nat, bounds_m1. cbn [bind].
    destruct (fma_core Db (Nat.min Db Dc) Db Db (t_data a) (t_data b) (t_data c)) as (r & E & L & V & K); try lia.
    - rewrite La. apply words_below_mono; lia.
    - rewrite Lb. apply words_below_mono; lia.
    - rewrite Lc. apply words_below_mono; lia.
    - rewrite E. cbn [bind]. eexists. split; [reflexivity|]. split; [split; cbn [t_basis t_data]; [auto|congruence]|]. split.
      + apply (agree_supp R w); [apply supp_tv|apply supp_add; [apply supp_tv|apply supp_conv; apply supp_tv]|].
        intros u Hu Hl. rewrite tv_ok by (auto; lia). cbn [t_data]. rewrite V by (auto; lia). unfold tadd. rewrite tv_ok by (auto; lia). f_equal.
        apply conv_local; [reflexivity|]. intros v Hv. rewrite tv_tvb. unfold tvb.
        replace (length v <=? Db)%nat with (length v <=? Dc)%nat; [reflexivity|]. apply eq_true_iff_eq. rewrite !Nat.leb_le. lia.
      + intros u Hl. unfold tv. destruct ((length u <=? Da)%nat && okw w u) eqn:Eu; [|reflexivity]. cbn [t_data]. apply K.
        apply andb_true_iff in Eu. destruct Eu as [_ Eu]. apply okw_true in Eu.
        assert (X := idx_bound w Hw u Eu). assert (Y := words_below_mono w Hw (S (Nat.min Db Dc)) (length u) ltac:(lia)). unfold pos. lia.
  Qed.
  (** ... and out of bounds when the accumulator is shallower than both factors. *)
  Lemma for_cons {A S} (x : A) l (s : S) f : for_ (x :: l) s f = let! s' := f x s in for_ l s' f.
  Proof. reflexivity. Qed.
  Lemma zrange_pos n : (0 < n)%Z -> zrange n = 0%Z :: zseq 1 (Z.to_nat (n - 1)).
  Proof. intros H. unfold zrange. replace (Z.to_nat n) with (S (Z.to_nat (n - 1))) by lia. reflexivity. Qed.
  Theorem py_ft_fma_ub (Da Db Dc : nat) (a b c : dtensor) : tensor_ok w Da a -> tensor_ok w Db b -> tensor_ok w Dc c -> (Da < Nat.min Db Dc)%nat ->
    py_ft_fma a b c = UB.
  Proof.
    intros (Ba & La) (Bb & Lb) (Bc & Lc) Hm. unfold py_ft_fma, dense_ft_fma. rewrite Ba, Bb, Bc, !compat_same. cbn [negb andb].
    change (b_depth (tensor_basis w (Z.of_nat Dc))) with (Z.of_nat Dc). rewrite bounds_nat, bounds_m1. cbn [bind].
    set (m := Nat.min Db Dc) in *.
    unfold ft_fma. rewrite !mv_max, !mv_min by lia.
    rewrite zdown_cons by lia. rewrite for_cons.
    assert (VW : forall e, (e <= Db)%nat -> vwf w (make_view (Ptr 0) (tensor_basis w (Z.of_nat Db)) 0 (Z.of_nat e)) 0) by (intros; apply mv_vwf; lia).
    rewrite (at_level_ok w Hw _ 0) by (try apply VW; rewrite ?mv_max; lia). cbn [bind].
    replace (Z.min (Z.of_nat Db) (Z.of_nat m - 0)) with (Z.of_nat m) by lia.
    rewrite zdown_cons by lia. rewrite for_cons.
    rewrite (at_level_ok w Hw _ 0) by (try apply VW; rewrite ?mv_max; lia). cbn [bind].
    rewrite Z.sub_diag. rewrite (at_level_ok w Hw _ 0) by (try apply VW; rewrite ?mv_max; lia). cbn [bind snd].
    rewrite (zrange_pos (w ^ Z.of_nat m)) by (apply pow_pos; auto). rewrite for_cons.
    rewrite Z.pow_0_r. rewrite (zrange_pos 1) by lia. rewrite for_cons.
    unfold fget at 1. cbn [fst make_view v_it it_add it_addr]. rewrite bget_ok.
    2:{ assert (X := words_below_nonneg w Hw (Z.to_nat (Z.of_nat m))). assert (Y := words_below_lt w Hw m (S Db) ltac:(lia)).
        assert (P := pow_pos w Hw m). replace (Z.to_nat (Z.of_nat m)) with m in * by lia.
        replace (0 + words_below w m + 0)%Z with (words_below w m) by lia. lia. }
    cbn [bind]. unfold fget at 1. cbn [fst make_view v_it it_add it_addr]. rewrite bget_ok.
    2:{ assert (Y := words_below_lt w Hw 0 (S Dc) ltac:(lia)). change (words_below w 0) with 0%Z in *. change (Z.to_nat 0) with O. change (words_below w 0) with 0%Z.
        assert (P := pow_pos w Hw 0). lia. }
    cbn [bind]. unfold fadd. unfold fget at 1. cbn [fst make_view v_it it_add it_addr]. rewrite bget_ub; [reflexivity|].
    rewrite La, Nat2Z.id. assert (Y := words_below_mono w Hw (S Da) m ltac:(lia)). lia.
  Qed.

  (** ft_inplace_mul: levels up to the smaller depth are multiplied, the others kept. *)
  Lemma inplace_core (D : nat) (el er : nat) (lb rb : buf) : (el <= D)%nat -> (er <= D)%nat ->
    (words_below w (S el) <= blen lb)%Z -> (words_below w (S (Nat.min er el)) <= blen rb)%Z ->
    let bs := tensor_basis w (Z.of_nat D) in
    exists b', ft_inplace_mul (make_view (Ptr 0) bs 0 (Z.of_nat el)) (make_view (Ptr 0) bs 0 (Z.of_nat er)) lb rb (fun x => x) = Ok b' /\
      blen b' = blen lb /\
      (forall u, letters_ok w u -> (length u <= el)%nat -> bat b' (pos w u) = conv (tvb w el lb) (tvb w er rb) u) /\
      (forall k, ~ (0 <= k < words_below w (S el))%Z -> bat b' k = bat lb k).
  Proof.
    intros H1 H2 F1 F2 bs. rewrite ft_inplace_clip by reflexivity. rewrite mv_max by lia.
    set (vl := make_view (Ptr 0) bs 0 (Z.of_nat el)). set (vr := clip (make_view (Ptr 0) bs 0 (Z.of_nat er)) (Z.of_nat el)).
    assert (Ml : v_max vl = Z.of_nat el) by (unfold vl; rewrite mv_max; lia).
    assert (Mr : v_max vr = Z.of_nat (Nat.min er el)) by (unfold vr, clip; cbn [v_max]; rewrite mv_max; lia).
    destruct (ft_inplace_mul_ok R w Hw vl vr 0 0 lb rb (fun x => x)) as (b' & E & L & V & K).
    - apply mv_vwf; lia.
    - apply clip_vwf; [apply mv_vwf; lia|lia].
    - unfold fits. rewrite Ml. replace (Z.to_nat (Z.of_nat el + 1)) with (S el) by lia. lia.
    - unfold fits. rewrite Mr. replace (Z.to_nat (Z.of_nat (Nat.min er el) + 1)) with (S (Nat.min er el)) by lia. lia.
    - exists b'. split; [exact E|]. split; [exact L|]. split.
      + intros u Hu Hl. rewrite <- (Z.add_0_l (pos w u)), V; auto.
        * unfold lcoef. rewrite (pconv_id R w). unfold conv. apply sum_ext. intros k Hk. apply in_seq in Hk.
          assert (G : forall v x (m : nat) (b : buf), letters_ok w v -> (length v <= el)%nat -> v_min x = 0%Z -> v_max x = Z.of_nat (Nat.min m el) ->
             den w x 0 b v = tvb w m b v).
          { intros v x m b Hv Hlv Hmn Hmx. unfold den, tvb. assert (Hv' := proj2 (okw_true w v) Hv). rewrite Hv', andb_true_r.
            replace (in_rng x (Z.of_nat (length v))) with (length v <=? m)%nat; [rewrite Z.add_0_l; reflexivity|].
            apply eq_true_iff_eq. rewrite in_rng_true, Nat.leb_le. lia. }
          rewrite (G (firstn k u) vl el) by (auto using letters_ok_firstn; rewrite ?firstn_length; try lia; rewrite Ml; lia).
          rewrite (G (skipn k u) vr er) by (auto using letters_ok_skipn; rewrite skipn_length; lia). reflexivity.
        * apply in_rng_true. rewrite Ml. cbn [vl make_view v_min]. lia.
      + intros k Hk. apply K. intros u Hu Hr E'. apply Hk. apply in_rng_true in Hr. rewrite Ml in Hr.
        rewrite E', Z.add_0_l. apply pos_bound; auto. lia.
  Qed.
  Theorem py_ft_inplace_mul_spec (Da Db : nat) (a b : dtensor) : tensor_ok w Da a -> tensor_ok w Db b ->
    exists r, py_ft_inplace_mul a b = Ok r /\ tensor_ok w Da r /\
      agree (Nat.min Da Db) (tv w Da r) (conv (tv w Da a) (tv w Db b)) /\
      (forall u, (Nat.min Da Db < length u)%nat -> tv w Da r u = tv w Da a u).
  Proof.
    intros (Ba & La) (Bb & Lb). unfold py_ft_inplace_mul, dense_ft_inplace_mul. rewrite Ba, Bb, compat_same. cbn [negb].
    change (b_depth (tensor_basis w (Z.of_nat Db))) with (Z.of_nat Db). rewrite bounds_nat, bounds_m1. cbn [bind].
    destruct (inplace_core Da (Nat.min Da Db) Da (t_data a) (t_data b)) as (r & E & L & V & K); try lia.
    - rewrite La. apply words_below_mono; lia.
    - rewrite Lb. apply words_below_mono; lia.
    - rewrite E. cbn [bind]. eexists. split; [reflexivity|]. split; [split; cbn [t_basis t_data]; [auto|congruence]|]. split.
      + apply (agree_supp R w); [apply supp_tv|apply supp_conv; apply supp_tv|].
        intros u Hu Hl. rewrite tv_ok by (auto; lia). cbn [t_data]. rewrite V by (auto; lia).
        apply conv_local; intros v Hv; rewrite tv_tvb; unfold tvb.
        * replace (length v <=? Da)%nat with (length v <=? Nat.min Da Db)%nat; [reflexivity|]. apply eq_true_iff_eq. rewrite !Nat.leb_le. lia.
        * replace (length v <=? Db)%nat with (length v <=? Da)%nat; [reflexivity|]. apply eq_true_iff_eq. rewrite !Nat.leb_le. lia.
      + intros u Hl. unfold tv. destruct ((length u <=? Da)%nat && okw w u) eqn:Eu; [|reflexivity]. cbn [t_data]. apply K.
        apply andb_true_iff in Eu. destruct Eu as [_ Eu]. apply okw_true in Eu.
        assert (X := idx_bound w Hw u Eu). assert (Y := words_below_mono w Hw (S (Nat.min Da Db)) (length u) ltac:(lia)). unfold pos. lia.
  Qed.
End Mul.
