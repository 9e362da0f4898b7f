(** The dense product of the vendored library. *)
From Verif Require Export LalTensor.

Section DenseTensor.
  Variable R : cring.
  Add Ring Rr3 : (rth R).
  Variable req : R -> R -> bool.
  Hypothesis Hreq : forall x y, req x y = true <-> x = y.
  Variables (w N : Z) (B : tbasis).
  Hypothesis HP : packs w N.
  Hypothesis HS : sized w N.
  Hypothesis HT : tb_ok w N B.
  Notation V := (tensor_vb B).
  Notation n := (Z.to_nat N).
  Notation len v := (blen (dv_data v)).
  Notation cnt := (tcnt w).
  Notation dim := (tdim w N).
  Notation key := (tkey B).
  Let W : 0 < w := Hw w N HP.
  Let XN : 0 <= N < 255 := HN w N HP.
  Notation HBt := (tensor_basis_ok' w N B HP HS HT).
  Notation GD := (dense_good R req Hreq V dim key cnt HBt).

  (** As constructors and operations leave a dense tensor ... *)
  Definition d_fr (v : dvec R) : Prop := 0 <= dv_deg v <= N /\ (len v = cnt (dv_deg v) \/ len v = 0 /\ dv_deg v = 0).
  (** ... and after clearing. *)
  Definition d_st (v : dvec R) : Prop := 0 <= dv_deg v <= N /\ (len v = cnt (dv_deg v) \/ len v = 0).
  Lemma fr_st v : d_fr v -> d_st v. Proof. unfold d_fr, d_st. intuition. Qed.
  Lemma st_ok v : d_st v -> d_ok R V cnt v.
  Proof.
    intros [H1 H2]. split; [cbn [tensor_vb vb_depth]; rewrite (depth_N w N B HT); auto|]. destruct H2 as [H2|H2]; [right|left; auto]. exists (dv_deg v). split; [lia|auto].
  Qed.
  Lemma cnt_pos d : 0 < cnt d.
  Proof. unfold tcnt. rewrite words_below_rec by auto. assert (Q := words_below_nonneg w W (Z.to_nat d)). nia. Qed.
  Lemma cnt_lt a b : 0 <= a < b -> cnt a < cnt b.
  Proof. intros H. unfold tcnt. assert (Q := words_below_lt w W (S (Z.to_nat a)) (S (Z.to_nat b)) ltac:(lia)). assert (P := pow_pos w W (S (Z.to_nat a))). lia. Qed.
  Lemma cnt_le a b : 0 <= a <= b -> cnt a <= cnt b.
  Proof. intros H. unfold tcnt. apply words_below_mono; auto. lia. Qed.
  Lemma cnt_dim : cnt N = dim. Proof. reflexivity. Qed.
  Lemma size_ok d : 0 <= d <= N -> tb_size B d = Ok (cnt d).
  Proof. intros H. unfold tb_size. destruct (d >=? 0) eqn:E; [|lia]. apply (size_at w N); auto. lia. Qed.
  Lemma cnt_small d : 0 <= d <= N -> u64 (cnt d - 1) = cnt d - 1.
  Proof.
    intros H. apply u64_small. assert (C := cnt_pos d). assert (C2 := words_below_mono w W (S (Z.to_nat d)) (n + 2) ltac:(lia)).
    unfold sized in HS. unfold tcnt in *. lia.
  Qed.
  Lemma resize_deg v d : 0 <= d <= N -> dv_resize R V v (cnt d - 1) = Ok (dv_resize_exact R v (cnt d) d).
  Proof.
    intros H. unfold dv_resize. assert (C := cnt_pos d).
    assert (Hi : 0 <= cnt d - 1 < dim) by (assert (Q := cnt_le d N); rewrite <- cnt_dim; lia).
    assert (Ed : k_degree (key (cnt d - 1)) = d).
    { assert (Q := bo_deg _ _ _ _ HBt _ Hi). cbn [tensor_vb vb_depth] in Q. rewrite (depth_N w N B HT) in Q.
      assert (Q1 := bo_cnt _ _ _ _ HBt (cnt d - 1) d Hi). assert (Q2 := bo_cnt _ _ _ _ HBt (cnt d - 1) (d - 1) Hi).
      cbn [tensor_vb vb_depth] in Q1, Q2. rewrite (depth_N w N B HT) in Q1, Q2.
      destruct (Z.eq_dec d 0) as [->|]; [lia|]. assert (Q3 := cnt_lt (d - 1) d). lia. }
    rewrite (next_dim _ _ _ _ HBt) by auto. rewrite Ed. reflexivity.
  Qed.
  Lemma off_ok d : 0 <= d <= N -> fwd_offset B w (mk_key d 0) = Ok (words_below w (Z.to_nat d)).
  Proof.
    intros H. unfold fwd_offset. rewrite key_deg, key_idx by lia. rewrite (start_ok w N) by (auto; lia). cbn [bind]. f_equal.
  Qed.
  Lemma wbS d : 0 <= d -> cnt d = words_below w (Z.to_nat d) + w ^ d.
  Proof. intros H. unfold tcnt. cbn [words_below]. rewrite Z2Nat.id by lia. reflexivity. Qed.

  (** The loops add, at each word of length at most [od], the products over all its cuts. *)
  Lemma traditional_ok (ob lb rb : buf R) dl dr od (fn : R -> R) :
    0 <= dl <= N -> 0 <= dr <= N -> 0 <= od <= N -> od <= dl + dr ->
    blen lb = cnt dl -> blen rb = cnt dr -> cnt od <= blen ob ->
    exists ob', fma_dense_traditional R B w ob lb rb dl dr fn od = Ok ob' /\ blen ob' = blen ob /\
      (forall u, letters_ok w u -> Z.of_nat (length u) <= od -> bat ob' (pos w u) = radd (bat ob (pos w u))
         (sum (seq O (S (length u))) (fun k => if (Z.of_nat k <=? dl) && (Z.of_nat (length u - k) <=? dr)
            then fn (rmul (bat lb (pos w (firstn k u))) (bat rb (pos w (skipn k u)))) else r0))) /\
      (forall k, cnt od <= k -> bat ob' k = bat ob k).
  Proof.
    intros Hdl Hdr Hod Hle Ll Lr Lo. unfold fma_dense_traditional.
    assert (Pw : forall d, (0 <= d -> 0 < w ^ d)%Z) by (intros; apply Z.pow_pos_nonneg; lia).
    match goal with |- context [for_ ?l ob ?f] => destruct (for_adds R (fun _ => False) l ob f
      (fun d k => level_contrib R w fn (bat lb) (bat rb) (words_below w (Z.to_nat d)) (Z.min d dl) (Z.max 0 (d - dr)) d k)) as (b1 & E1 & L1 & A1) end.
    - intros d t Hd Hlen _. apply zdown_In in Hd. rewrite off_ok by lia. cbn [bind].
      apply (for_adds R (fun _ => False)); [|intros ? ? ? []].
      intros a t' Ha Hlen' _. apply zdown_In in Ha.
      rewrite !off_ok by lia. cbn [bind]. rewrite !(power_at w N) by (auto; lia). cbn [bind].
      replace (w ^ Z.of_nat (Z.to_nat a)) with (w ^ a) by (f_equal; lia).
      replace (w ^ Z.of_nat (Z.to_nat (d - a))) with (w ^ (d - a)) by (f_equal; lia).
      apply (for_adds R (fun _ => False)); [|intros ? ? ? []].
      intros i t2 Hi Hlen2 _. apply zrange_In in Hi.
      apply (for_adds R (fun _ => False)); [|intros ? ? ? []].
      intros j t3 Hj Hlen3 _. apply zrange_In in Hj.
      assert (Wa := words_below_nonneg w W (Z.to_nat a)). assert (Wb := words_below_nonneg w W (Z.to_nat (d - a))). assert (Wd := words_below_nonneg w W (Z.to_nat d)).
      assert (Ca := cnt_le a dl ltac:(lia)). rewrite wbS in Ca by lia.
      assert (Cb := cnt_le (d - a) dr ltac:(lia)). rewrite (wbS (d - a)) in Cb by lia.
      assert (Cd := cnt_le d od ltac:(lia)). rewrite (wbS d) in Cd by lia.
      rewrite !bget_ok by lia. cbn [bind].
      apply (badd_ok R t3 (words_below w (Z.to_nat d) + (i * w ^ (d - a) + j))).
      assert (Ed : w ^ d = w ^ a * w ^ (d - a)) by (rewrite <- Z.pow_add_r by lia; f_equal; lia).
      assert (Pa := Pw a ltac:(lia)). assert (Pb := Pw (d - a) ltac:(lia)). nia.
    - intros ? ? ? [].
    - exists b1. split; [exact E1|]. split; [exact L1|]. split.
      + intros u Hu Hl. rewrite A1. f_equal. rewrite (sum_single R (zdown od 0) _ (Z.of_nat (length u))).
        * rewrite Nat2Z.id. unfold pos at 1. rewrite (level_contrib_hit R w W) by (auto; lia). apply sum_ext. intros k Hk. apply in_seq in Hk.
          replace ((Z.max 0 (Z.of_nat (length u) - dr) <=? Z.of_nat k) && (Z.of_nat k <=? Z.min (Z.of_nat (length u)) dl))
            with ((Z.of_nat k <=? dl) && (Z.of_nat (length u - k) <=? dr)) by lia. reflexivity.
        * apply zdown_NoDup.
        * apply zdown_In. lia.
        * intros d Hd Hne. apply zdown_In in Hd. apply (level_contrib_miss R w W); [lia|lia|]. unfold pos. intros Q.
          assert (Bu := idx_bound w W u Hu). apply Hne.
          assert (Z.to_nat d = length u); [|lia]. apply (Words.level_unique w W (Z.to_nat d) (length u) (pos w u - words_below w (Z.to_nat d)) (idx w u)); unfold pos; rewrite ?Z2Nat.id by lia; lia.
      + intros k Hk. rewrite A1. rewrite (sum_zero R (zdown od 0)); [ring|].
        intros d Hd. apply zdown_In in Hd. apply (level_contrib_miss R w W); [lia|lia|].
        assert (Cd := cnt_le d od ltac:(lia)). rewrite (wbS d) in Cd by lia. lia.
  Qed.

  Notation at_w := (wcf R w N (dv_at R)).
  Lemma at_len (v : dvec R) i : dv_at R v i = if i <? len v then bat (dv_data v) i else r0. Proof. reflexivity. Qed.
  Lemma pos_cnt u d : letters_ok w u -> 0 <= d -> (pos w u < cnt d <-> Z.of_nat (length u) <= d).
  Proof.
    intros Hu Hd. unfold tcnt. split; intros H.
    - destruct (Z_le_gt_dec (Z.of_nat (length u)) d); auto. exfalso.
      assert (Q2 := words_below_mono w W (S (Z.to_nat d)) (length u) ltac:(lia)).
      assert (Q3 := idx_bound w W u Hu). unfold pos in H. lia.
    - apply pos_bound; auto. lia.
  Qed.
  Lemma size_le v : dv_size R req v <= Z.max 0 (len v).
  Proof.
    unfold dv_size. assert (H : forall m s, Z.of_nat (length (filter (fun i => negb (req (bat (dv_data v) i) r0)) (zseq s m))) <= Z.of_nat m).
    { induction m as [|m IH]; intros s; cbn [zseq filter length]; [lia|]. specialize (IH (s + 1)). destruct (negb _); cbn [length]; lia. }
    unfold zrange. specialize (H (Z.to_nat (len v)) 0). lia.
  Qed.

  (** The product, into a vector not longer than the product. *)
  Theorem ft_fma_dense_ok out l r (fn : R -> R) md : 1 <= N -> d_st l -> d_st r -> len l <> 0 -> len r <> 0 -> 0 <= md ->
    fn r0 = r0 -> len out = 0 \/ (len out = cnt (dv_deg out) /\ 0 <= dv_deg out <= Z.min (Z.min md N) (dv_deg l + dv_deg r)) ->
    exists x, ft_fma_dense R req B out l r fn md tt = Ok (x, tt) /\ dv_deg x = Z.min (Z.min md N) (dv_deg l + dv_deg r) /\ len x = cnt (dv_deg x) /\
      forall u, inside w n u = true -> Z.of_nat (length u) <= md -> dv_at R x (pos w u) =
        radd (dv_at R out (pos w u)) (sum (seq O (S (length u))) (fun k => fn (rmul (dv_at R l (pos w (firstn k u))) (dv_at R r (pos w (skipn k u)))))).
  Proof.
    intros HN1 [Dl Ll] [Dr Lr] Nl Nr Hmd F0 Ho. destruct Ll as [Ll|]; [|lia]. destruct Lr as [Lr|]; [|lia].
    unfold ft_fma_dense. rewrite (depth_N w N B HT).
    replace (if md >=? N then N else md) with (Z.min md N) by (destruct (md >=? N) eqn:E; lia).
    set (od := Z.min (Z.min md N) (dv_deg l + dv_deg r)) in *.
    assert (Hod : 0 <= od <= N) by lia. rewrite size_ok by auto. cbn [bind]. rewrite cnt_small by auto.
    assert (Hre : exists out1, (if dv_size R req out <? cnt od then dv_resize R V out (cnt od - 1) else Ok out) = Ok out1 /\ len out1 = cnt od /\ dv_deg out1 = od /\
       forall i, i < cnt od -> bat (dv_data out1) i = dv_at R out i).
    { rewrite resize_deg by auto. assert (C := cnt_pos od). assert (Sz := size_le out). destruct (Z.ltb_spec (dv_size R req out) (cnt od)) as [H|H].
      - eexists. split; [reflexivity|]. split; [reflexivity|]. split; [reflexivity|]. intros i Hi. reflexivity.
      - destruct Ho as [Ho|[Ho Hd]]; [lia|]. exists out. split; [reflexivity|].
        assert (Q := cnt_le (dv_deg out) od ltac:(lia)). assert (E : dv_deg out = od).
        { destruct (Z.eq_dec (dv_deg out) od); auto. assert (Q2 := cnt_lt (dv_deg out) od). lia. }
        rewrite E in Ho. split; [auto|]. split; [auto|]. intros i Hi. rewrite at_len. destruct (Z.ltb_spec i (len out)); [reflexivity|lia]. }
    destruct Hre as (out1 & E1 & L1 & D1 & V1). rewrite E1. cbn [bind].
    rewrite (power_at w N) by (auto; lia). cbn [bind]. rewrite Z.pow_1_r.
    assert (Es : exists z, (if dv_deg l >? 1 then tb_size B (dv_deg l - 1) else Ok 0) = Ok z).
    { destruct (dv_deg l >? 1) eqn:E; [|eauto]. rewrite size_ok by lia. eauto. }
    destruct Es as (z & ->). cbn [bind].
    destruct (traditional_ok (dv_data out1) (dv_data l) (dv_data r) (dv_deg l) (dv_deg r) od fn) as (ob & E & Lo & Vo & _); auto; try lia.
    rewrite E. cbn [bind]. eexists. split; [reflexivity|]. cbn [dv_deg dv_data]. split; [exact D1|]. split; [rewrite Lo, D1; exact L1|].
    intros u Hu Hl. apply inside_iff in Hu. destruct Hu as [Hu Hn].
    assert (Hterm : forall k, (k <= length u)%nat -> (if (Z.of_nat k <=? dv_deg l) && (Z.of_nat (length u - k) <=? dv_deg r)
        then fn (rmul (bat (dv_data l) (pos w (firstn k u))) (bat (dv_data r) (pos w (skipn k u)))) else r0)
      = fn (rmul (dv_at R l (pos w (firstn k u))) (dv_at R r (pos w (skipn k u))))).
    { intros k Hk. rewrite !at_len, Ll, Lr.
      assert (P1 := pos_cnt (firstn k u) (dv_deg l) ltac:(apply letters_ok_firstn; auto) ltac:(lia)). rewrite firstn_length_le in P1 by lia.
      assert (P2 := pos_cnt (skipn k u) (dv_deg r) ltac:(apply letters_ok_skipn; auto) ltac:(lia)). rewrite skipn_length in P2.
      destruct (Z.leb_spec (Z.of_nat k) (dv_deg l)); destruct (Z.ltb_spec (pos w (firstn k u)) (cnt (dv_deg l))); try lia; cbn [andb].
      - destruct (Z.leb_spec (Z.of_nat (length u - k)) (dv_deg r)); destruct (Z.ltb_spec (pos w (skipn k u)) (cnt (dv_deg r))); try lia; [reflexivity|].
        rewrite <- F0 at 1. f_equal. ring.
      - rewrite <- F0 at 1. f_equal. ring. }
    rewrite at_len. cbn [dv_data]. rewrite Lo, L1. assert (P := pos_cnt u od Hu ltac:(lia)).
    destruct (Z.ltb_spec (pos w u) (cnt od)) as [H|H].
    - rewrite Vo by (auto; lia). rewrite V1 by lia. f_equal. apply sum_ext. intros k Hk. apply in_seq in Hk. apply Hterm. lia.
    - assert (Q : forall v : dvec R, (len v = 0 \/ exists d, len v = cnt d /\ 0 <= d <= od) -> dv_at R v (pos w u) = r0).
      { intros v [Hv|(d & Hv & Hd)]; rewrite at_len, Hv; assert (Q1 := cnt_pos od); [destruct (Z.ltb_spec (pos w u) 0); [lia|reflexivity]|].
        assert (Q2 := cnt_le d od Hd). destruct (Z.ltb_spec (pos w u) (cnt d)); [lia|reflexivity]. }
      rewrite Q by (destruct Ho as [Ho|[Ho Hd]]; [left; auto|right; eauto]).
      symmetry. rewrite (sum_zero R (seq O (S (length u)))); [ring|]. intros k Hk. apply in_seq in Hk. rewrite <- Hterm by lia.
      destruct (Z.leb_spec (Z.of_nat k) (dv_deg l)); cbn [andb]; [|reflexivity].
      destruct (Z.leb_spec (Z.of_nat (length u - k)) (dv_deg r)); [|reflexivity]. exfalso. lia.
  Qed.

  Lemma dense_tgood : tgood R (dvec R) (dense_ops R req V) (ft_fma_dense R req B) (dv_resize_to_degree R B) w n d_fr d_st at_w.
  Proof.
    assert (D := dim_pos w N HP). pose proof GD as G.
    assert (Hw0 : forall (a b : dvec R), (forall i, 0 <= i < dim -> dv_at R a i = dv_at R b i) -> forall u, at_w a u = at_w b u).
    { intros a b H u. unfold wcf. destruct (inside w n u) eqn:Hu; [apply H, (pos_dim w N HP); auto|auto]. }
    assert (Hem : forall v, dv_empty R v = false <-> len v <> 0) by (intros v; unfold dv_empty; lia).
    assert (Dk0 : k_degree (key 0) = 0) by (rewrite tkey0; apply key_deg; lia).
    constructor.
    - apply fr_st.
    - intros v u Hu. unfold wcf. rewrite Hu. reflexivity.
    - split; [split; [cbn; lia|right; split; reflexivity]|]. split; [|reflexivity]. intros u. unfold wcf. destruct (inside w n u) eqn:Hu; auto.
      apply (g_new _ _ _ _ _ _ _ _ _ G). apply (pos_dim w N HP); auto.
    - intros v Hv He u. unfold wcf. destruct (inside w n u) eqn:Hu; auto. eapply (g_empty _ _ _ _ _ _ _ _ _ G); eauto; [apply st_ok; auto|]. apply (pos_dim w N HP); auto.
    - intros v Hv. split; [destruct Hv as [Hv _]; split; [exact Hv|right; reflexivity]|]. intros u. unfold wcf. destruct (inside w n u) eqn:Hu; auto.
      apply (g_clear _ _ _ _ _ _ _ _ _ G v (st_ok v Hv)). apply (pos_dim w N HP); auto.
    - intros s. destruct (dv_single_ok R V dim key cnt HBt 0 s ltac:(lia)) as (v & E & A & C & _ & Lv & Dv). rewrite Dk0 in Lv, Dv. exists v.
      split; [exact E|]. split; [split; [lia|left; rewrite Lv, Dv; reflexivity]|]. split.
      + intros u. unfold wcf. destruct (inside w n u) eqn:Hu.
        * rewrite C by (apply (pos_dim w N HP); auto). rewrite (pos_zero w N HP) by auto. destruct u; reflexivity.
        * destruct u; [discriminate|reflexivity].
      + intros _. apply Hem. assert (C0 := cnt_pos 0). lia.
    - intros v f Hv. destruct (dv_upd_ok R V dim key cnt HBt v 0 f (st_ok v Hv) ltac:(lia)) as (v' & E & A & C & _ & Lv & Dv). rewrite Dk0 in Lv, Dv. exists v'.
      assert (C0 := cnt_pos 0).
      assert (Hc : len v' = cnt (dv_deg v') /\ 0 <= dv_deg v' <= N).
      { destruct (Z.ltb_spec 0 (len v)) as [H|H]; rewrite Lv, Dv; [|split; [reflexivity|lia]]. destruct Hv as [Hv [Hv2|Hv2]]; [auto|lia]. }
      split; [exact E|]. split; [split; [apply Hc|left; apply Hc]|]. split.
      + right. apply Hem. destruct Hc as [Hc _]. rewrite Hc. assert (C1 := cnt_pos (dv_deg v')). lia.
      + intros u. unfold wcf. destruct (inside w n u) eqn:Hu.
        * rewrite C by (apply (pos_dim w N HP); auto). rewrite (pos_zero w N HP) by auto. destruct u; reflexivity.
        * destruct u; [discriminate|reflexivity].
    - intros l r fn d md Hn0 Hl Hr El Er Hmd F0 Fa.
      apply Hem in El. apply Hem in Er.
      destruct (ft_fma_dense_ok (vo_update_degree (dense_ops R req V) d (vo_new (dense_ops R req V))) l r fn md) as (x & E & Dx & Lx & Vx); auto; [lia|].
      destruct Hl as [Hl _], Hr as [Hr _].
      exists x. split; [exact E|]. split; [split; [lia|left; exact Lx]|]. split; [right; apply Hem; assert (Q := cnt_pos (dv_deg x)); lia|].
      intros u Hu Hlu. unfold wcf at 1. rewrite Hu, Vx by auto. rewrite (conv_wcf R w N (dv_at R) l r fn u) by auto.
      rewrite (dv_at_out R); [ring|]. cbn. apply (pos_dim w N HP); auto.
    - intros l r fn md. unfold ft_fma_dense. reflexivity.
    - intros v f Hv Hf. split; [exact Hv|]. split; [auto|]. intros u. unfold wcf. destruct (inside w n u) eqn:Hu; auto.
      apply (g_unary _ _ _ _ _ _ _ _ _ G v f (st_ok v Hv) Hf). apply (pos_dim w N HP); auto.
    - intros a b op Ha Hb H1 H2. destruct (g_binary _ _ _ _ _ _ _ _ _ G a b op (st_ok a (fr_st a Ha)) (st_ok b (fr_st b Hb)) H1 H2) as (_ & C & _). split.
      + destruct Ha as [Da Ha], Hb as [Db Hb]. split; [cbn; lia|]. cbn [dense_ops vo_binary dv_binary dv_data dv_deg blen].
        assert (Q1 := cnt_le (dv_deg a) (dv_deg b)). assert (Q2 := cnt_le (dv_deg b) (dv_deg a)). assert (Q3 := cnt_pos (dv_deg a)). assert (Q4 := cnt_pos (dv_deg b)).
        destruct (Z.max_spec (dv_deg a) (dv_deg b)) as [[? ->]|[? ->]]; destruct Ha as [Ha|Ha], Hb as [Hb|Hb]; try lia.
      + intros u. unfold wcf. destruct (inside w n u) eqn:Hu; [apply C, (pos_dim w N HP); auto|auto].
    - intros a b op Ha Hb H1 H2. destruct (g_ibinary _ _ _ _ _ _ _ _ _ G a b op (st_ok a Ha) (st_ok b Hb) H1 H2) as (_ & C & _).
      assert (Lab : len (vo_ibinary (dense_ops R req V) op a b) = Z.max (len a) (len b)) by reflexivity.
      assert (Dab : dv_deg (vo_ibinary (dense_ops R req V) op a b) = if len b >? len a then dv_deg b else dv_deg a) by reflexivity.
      destruct Ha as [Da Ha], Hb as [Db Hb]. assert (Q3 := cnt_pos (dv_deg a)). assert (Q4 := cnt_pos (dv_deg b)).
      split; [|split; [|split; [|split]]].
      + unfold d_st. rewrite Lab, Dab. destruct (len b >? len a) eqn:E; (split; [lia|]); destruct Ha as [Ha|Ha], Hb as [Hb|Hb]; lia.
      + intros u. unfold wcf. destruct (inside w n u) eqn:Hu; [apply C, (pos_dim w N HP); auto|auto].
      + intros [_ Fa]. unfold d_fr. rewrite Lab, Dab. destruct (len b >? len a) eqn:E; (split; [lia|]); destruct Fa as [Fa|Fa], Hb as [Hb|Hb]; lia.
      + intros [Hk|Hk]; [left; exact Hk|right]. apply Hem. apply Hem in Hk. rewrite Lab. destruct Ha as [Ha|Ha]; lia.
      + intros [_ Fb] Hne. apply Hem in Hne. unfold d_fr. rewrite Lab, Dab. destruct (len b >? len a) eqn:E; (split; [lia|]); destruct Ha as [Ha|Ha], Fb as [Fb|Fb]; lia.
    - intros v Hv. unfold dv_resize_to_degree. rewrite Z2Nat.id by lia. rewrite size_ok by lia. cbn [bind]. rewrite cnt_small by lia. rewrite resize_deg by lia. cbn [bind].
      eexists. split; [reflexivity|]. split; [split; [cbn; lia|left; reflexivity]|]. split; [right; apply Hem; change (cnt N <> 0); assert (Q := cnt_pos N); lia|].
      apply Hw0. intros i Hi. apply (resize_at R v (cnt N) N i). rewrite cnt_dim. lia.
    - intros a b Ha Hb. rewrite (g_eqb _ _ _ _ _ _ _ _ _ G a b (st_ok a Ha) (st_ok b Hb)). split.
      + intros H u. apply Hw0. auto.
      + intros H i Hi. destruct (tpos w N HP i Hi) as (u & Hu & Hl & ->). specialize (H u). rewrite !wcf_in in H by auto. exact H.
    - intros v u f Hv Hu. destruct (dv_upd_ok R V dim key cnt HBt v (pos w u) f (st_ok v Hv) (pos_dim w N HP u Hu)) as (v' & E & A & C & _ & Lv & Dv). exists v'.
      assert (Hu' := proj1 (inside_iff w n u) Hu). rewrite (tkey_pos w N B HP HS HT) in E by tauto. split; [exact E|].
      rewrite (tdeg_pos w N B HP HS HT) in Lv, Dv by tauto. assert (P := pos_dim w N HP u Hu). split; [|apply (wcf_word R w N HP); auto].
      unfold d_fr. destruct (Z.ltb_spec (pos w u) (len v)) as [H|H]; rewrite Lv, Dv; [|split; [lia|left; reflexivity]].
      destruct Hv as [Hv1 [Hv2|Hv2]]; [auto|lia].
    - intros v Hv. destruct (g_items _ _ _ _ _ _ _ _ _ G v (st_ok v Hv)) as (l & E & Hi & Hs & _ & Hc). apply (wcf_items R w N B HP HS HT (dv_at R) v _ l); auto.
  Qed.
End DenseTensor.
