(** The dense and sparse vectors of the vendored library implement the same finitely supported
    functions on the basis. *)
From Verif Require Export LalModel KeyProofs2.
Arguments Z.mul : simpl never. Arguments Z.pow : simpl never. Arguments Z.add : simpl never. Arguments Z.sub : simpl never.
Arguments Z.of_nat : simpl never. Arguments Z.to_nat : simpl never.

(** What the vector templates need from a basis: [key i] is the [i]th key, [cnt n] the number of
    keys of degree at most [n]. *)
Record basis_ok (V : vbasis) (dim : Z) (key : Z -> Z) (cnt : Z -> Z) : Prop := mkBO {
  bo_depth : 0 <= vb_depth V;
  bo_len : vb_depth V < blen (vb_sizes V);
  bo_sizes : forall n, 0 <= n <= vb_depth V -> bat (vb_sizes V) n = cnt n;
  bo_mono : forall j j', 0 <= j <= j' -> j' < blen (vb_sizes V) -> bat (vb_sizes V) j <= bat (vb_sizes V) j';
  bo_index : forall i, 0 <= i < dim -> vb_index V (key i) = Ok i;
  bo_key0 : exists k, vb_key V 0 = Ok k /\ (0 < dim -> k = key 0);
  bo_adv : forall i, 0 <= i < dim -> exists k, vb_advance V (key i) = Ok k /\ (i + 1 < dim -> k = key (i + 1));
  bo_lt : forall i j, 0 <= i < j -> j < dim -> key i < key j;
  bo_deg : forall i, 0 <= i < dim -> 0 <= k_degree (key i) <= vb_depth V;
  bo_cnt : forall i n, 0 <= i < dim -> 0 <= n <= vb_depth V -> (k_degree (key i) <= n <-> i < cnt n);
  bo_cnt0 : forall n, 0 <= n <= vb_depth V -> 0 <= cnt n;
  bo_dim : cnt (vb_depth V) = dim }.

Section Basis.
  Variables (V : vbasis) (dim : Z) (key cnt : Z -> Z).
  Hypothesis HB : basis_ok V dim key cnt.
  Notation deg i := (k_degree (key i)).
  Lemma cnt_mono a b : 0 <= a <= b -> b <= vb_depth V -> cnt a <= cnt b.
  Proof.
    intros H H'. rewrite <- (bo_sizes _ _ _ _ HB a), <- (bo_sizes _ _ _ _ HB b) by lia.
    apply (bo_mono _ _ _ _ HB); [lia|]. assert (L := bo_len _ _ _ _ HB). lia.
  Qed.
  Lemma key_inj i j : 0 <= i < dim -> 0 <= j < dim -> key i = key j -> i = j.
  Proof.
    intros Hi Hj E. destruct (Z.lt_trichotomy i j) as [H|[H|H]]; auto.
    - assert (L := bo_lt _ _ _ _ HB i j). lia.
    - assert (L := bo_lt _ _ _ _ HB j i). lia.
  Qed.
  Lemma key_eqb i j : 0 <= i < dim -> 0 <= j < dim -> (key i =? key j) = (i =? j).
  Proof.
    intros Hi Hj. apply eq_true_iff_eq. rewrite !Z.eqb_eq. split; [apply key_inj; auto|congruence].
  Qed.
  Lemma key_ltb i j : 0 <= i < dim -> 0 <= j < dim -> (key i <? key j) = (i <? j).
  Proof.
    intros Hi Hj. apply eq_true_iff_eq. rewrite !Z.ltb_lt. split; intros H.
    - destruct (Z.lt_trichotomy i j) as [L|[L|L]]; auto; [subst; lia|]. assert (X := bo_lt _ _ _ _ HB j i). lia.
    - apply (bo_lt _ _ _ _ HB); lia.
  Qed.
  Lemma next_dim i : 0 <= i < dim -> get_next_dimension V i = Ok (cnt (deg i), deg i).
  Proof.
    intros Hi. unfold get_next_dimension. assert (D := bo_deg _ _ _ _ HB i Hi). assert (L := bo_len _ _ _ _ HB).
    rewrite (bisect_ok _ (fun j => bat (vb_sizes V) j <=? i) (blen (vb_sizes V)) (deg i)).
    - cbn [bind]. destruct (Z.eqb_spec (deg i) (blen (vb_sizes V))); [lia|].
      rewrite bget_ok by lia. cbn [bind]. rewrite (bo_sizes _ _ _ _ HB) by lia. reflexivity.
    - intros j Hj. rewrite bget_ok by lia. reflexivity.
    - lia.
    - intros j Hj. apply Z.leb_le. rewrite (bo_sizes _ _ _ _ HB) by lia.
      assert (C := bo_cnt _ _ _ _ HB i j). lia.
    - intros j Hj. apply Z.leb_gt.
      assert (C := bo_cnt _ _ _ _ HB i (deg i) Hi ltac:(lia)).
      apply Z.lt_le_trans with (bat (vb_sizes V) (deg i)).
      + rewrite (bo_sizes _ _ _ _ HB) by lia. lia.
      + apply (bo_mono _ _ _ _ HB); lia.
    - lia.
    - lia.
    - lia.
    - lia.
  Qed.
End Basis.

(** What an implementation of vectors guarantees: [ok] vectors denote coefficient functions [cf] on
    the positions 0..dim-1 of the basis, [bnd v d] says that nothing is stored above degree [d]. *)
Record vgood (R : cring) (X : Type) (O : vops R X) (depth dim : Z) (key : Z -> Z)
    (ok : X -> Prop) (cf : X -> Z -> R) (bnd : X -> Z -> Prop) : Prop := mkVG {
  g_new : ok (vo_new O) /\ (forall i, 0 <= i < dim -> cf (vo_new O) i = r0) /\ (forall d, 0 <= d <= depth -> bnd (vo_new O) d) /\ vo_empty O (vo_new O) = true;
  g_empty : forall v, ok v -> vo_empty O v = true -> forall i, 0 <= i < dim -> cf v i = r0;
  g_clear : forall v, ok v -> ok (vo_clear O v) /\ (forall i, 0 <= i < dim -> cf (vo_clear O v) i = r0) /\ (forall d, 0 <= d <= depth -> bnd (vo_clear O v) d);
  g_degree : forall v, ok v -> 0 <= vo_degree O v <= depth /\ bnd v (vo_degree O v);
  g_bnd : forall v d i, ok v -> bnd v d -> 0 <= d <= depth -> 0 <= i < dim -> d < k_degree (key i) -> cf v i = r0;
  g_update : forall v d, ok v -> bnd v d -> 0 <= d <= depth -> ok (vo_update_degree O d v) /\
    (forall i, 0 <= i < dim -> cf (vo_update_degree O d v) i = cf v i) /\ (forall d', bnd v d' -> bnd (vo_update_degree O d v) d');
  g_single : forall i s, 0 <= i < dim -> exists v, vo_single O (key i) s = Ok v /\ ok v /\
    (forall j, 0 <= j < dim -> cf v j = if j =? i then s else r0) /\ (forall d, k_degree (key i) <= d <= depth -> bnd v d);
  g_upd : forall v i f, ok v -> 0 <= i < dim -> exists v', vo_upd O v (key i) f = Ok v' /\ ok v' /\
    (forall j, 0 <= j < dim -> cf v' j = if j =? i then f (cf v i) else cf v j) /\
    (forall d, bnd v d -> k_degree (key i) <= d <= depth -> bnd v' d);
  g_items : forall v, ok v -> exists l, vo_items O v = Ok (map (fun e => (key (fst e), snd e)) l) /\
    (forall e, In e l -> 0 <= fst e < dim) /\
    (forall a b l1 l2, l = l1 ++ a :: l2 -> In b l2 -> fst a < fst b) /\
    (forall d, bnd v d -> 0 <= d <= depth -> forall e, In e l -> k_degree (key (fst e)) <= d) /\
    (forall i, 0 <= i < dim -> cf v i = sum l (fun e => if fst e =? i then snd e else r0));
  g_unary : forall v f, ok v -> f r0 = r0 -> ok (vo_unary O f v) /\
    (forall i, 0 <= i < dim -> cf (vo_unary O f v) i = f (cf v i)) /\ (forall d, bnd v d -> bnd (vo_unary O f v) d);
  g_binary : forall a b op, ok a -> ok b -> (forall x, op x r0 = x) -> (forall y, op r0 y = r0 -> y = r0) ->
    ok (vo_binary O op a b) /\ (forall i, 0 <= i < dim -> cf (vo_binary O op a b) i = op (cf a i) (cf b i)) /\
    (forall d, bnd a d -> bnd b d -> bnd (vo_binary O op a b) d);
  g_ibinary : forall a b op, ok a -> ok b -> (forall x, op x r0 = x) -> (forall y, op r0 y = r0 -> y = r0) ->
    ok (vo_ibinary O op a b) /\ (forall i, 0 <= i < dim -> cf (vo_ibinary O op a b) i = op (cf a i) (cf b i)) /\
    (forall d, bnd a d -> bnd b d -> bnd (vo_ibinary O op a b) d);
  g_eqb : forall a b, ok a -> ok b -> (vo_eqb O a b = true <-> forall i, 0 <= i < dim -> cf a i = cf b i) }.

Section Dense.
  Variable R : cring.
  Variable req : R -> R -> bool.
  Hypothesis Hreq : forall x y, req x y = true <-> x = y.
  Variables (V : vbasis) (dim : Z) (key cnt : Z -> Z).
  Hypothesis HB : basis_ok V dim key cnt.
  Notation deg i := (k_degree (key i)).
  Notation depth := (vb_depth V).
  Notation len v := (blen (dv_data v)).

  (** Storage is a whole number of degrees, none above the recorded degree. *)
  Definition d_ok (v : dvec R) : Prop :=
    0 <= dv_deg v <= depth /\ (len v = 0 \/ exists n, 0 <= n <= dv_deg v /\ len v = cnt n).
  Definition d_bnd (v : dvec R) (d : Z) : Prop := 0 <= len v <= cnt d.

  Lemma d_len v : d_ok v -> 0 <= len v <= cnt (dv_deg v).
  Proof.
    intros [H1 [H2|(n & Hn & H2)]]; rewrite H2.
    - assert (X := bo_cnt0 _ _ _ _ HB (dv_deg v)). lia.
    - assert (X := bo_cnt0 _ _ _ _ HB n). assert (Y := cnt_mono _ _ _ _ HB n (dv_deg v)). lia.
  Qed.
  Lemma d_len_dim v : d_ok v -> 0 <= len v <= dim.
  Proof.
    intros H. assert (X := d_len v H). destruct H as [H _]. assert (Y := cnt_mono _ _ _ _ HB (dv_deg v) depth).
    rewrite (bo_dim _ _ _ _ HB) in Y. lia.
  Qed.
  Lemma dv_at_out v i : len v <= i -> dv_at R v i = r0.
  Proof. intros H. unfold dv_at. destruct (Z.ltb_spec i (len v)); [lia|reflexivity]. Qed.
  Lemma dv_at_in v i : i < len v -> dv_at R v i = bat (dv_data v) i.
  Proof. intros H. unfold dv_at. destruct (Z.ltb_spec i (len v)); [reflexivity|lia]. Qed.
  Lemma resize_at v n d i : i < n -> dv_at R (dv_resize_exact R v n d) i = dv_at R v i.
  Proof. intros H. unfold dv_at at 1, dv_resize_exact. cbn [dv_data blen bat]. destruct (Z.ltb_spec i n); [reflexivity|lia]. Qed.

  Lemma dv_upd_ok v i f : d_ok v -> 0 <= i < dim -> exists v', dv_upd R V v (key i) f = Ok v' /\ d_ok v' /\
    (forall j, 0 <= j < dim -> dv_at R v' j = if j =? i then f (dv_at R v i) else dv_at R v j) /\
    (forall d, d_bnd v d -> deg i <= d <= depth -> d_bnd v' d) /\
    (len v' = if i <? len v then len v else cnt (deg i)) /\ dv_deg v' = (if i <? len v then dv_deg v else deg i).
  Proof.
    intros Hv Hi. unfold dv_upd. rewrite (bo_index _ _ _ _ HB) by auto. cbn [bind].
    assert (Dg := bo_deg _ _ _ _ HB i Hi). assert (Cn := bo_cnt _ _ _ _ HB i (deg i) Hi Dg).
    assert (C0 := bo_cnt0 _ _ _ _ HB (deg i) Dg). assert (Lv := d_len v Hv).
    rewrite Z.geb_leb. destruct (Z.leb_spec (len v) i) as [H|H].
    - unfold dv_resize. rewrite (next_dim _ _ _ _ HB) by auto. cbn [bind].
      unfold dv_resize_exact at 1 2. cbn [dv_data]. rewrite bget_ok by (cbn [blen]; lia). cbn [bind].
      rewrite bset_ok by (cbn [blen]; lia). cbn [bind].
      destruct (Z.ltb_spec i (len v)) as [H'|_]; [lia|].
      eexists; split; [reflexivity|]. cbn [dv_deg dv_data blen].
      split; [|split; [|split; [|split; reflexivity]]].
      + unfold d_ok. cbn [dv_resize_exact dv_deg dv_data blen]. split; [lia|]. right. exists (deg i). lia.
      + intros j Hj. unfold dv_at at 1. cbn [dv_data blen bat]. destruct (Z.ltb_spec j (cnt (deg i))) as [Q|Q].
        * destruct (Z.eqb_spec j i) as [->|]; reflexivity.
        * destruct (Z.eqb_spec j i); [lia|]. rewrite dv_at_out; [reflexivity|lia].
      + intros d [_ Hd] Hd2. unfold d_bnd. cbn [dv_data blen]. assert (Y := cnt_mono _ _ _ _ HB (deg i) d). lia.
    - cbn [bind]. rewrite bget_ok by lia. cbn [bind]. rewrite bset_ok by lia. cbn [bind].
      destruct (Z.ltb_spec i (len v)) as [_|H']; [|lia].
      eexists; split; [reflexivity|]. cbn [dv_deg dv_data blen].
      split; [exact Hv|]. split; [|split; [|split; reflexivity]].
      + intros j Hj. unfold dv_at. cbn [dv_data blen bat].
        destruct (Z.eqb_spec j i) as [->|]; [|reflexivity]. destruct (Z.ltb_spec i (len v)); [reflexivity|lia].
      + intros d Hd _. exact Hd.
  Qed.
  Lemma dv_single_upd k s : dv_single R V k s = let! i := vb_index V k in
    let! v := dv_resize R V (dv_new R) i in let! d := bset (dv_data v) i s in Ok (mkDV d (dv_deg v)).
  Proof. reflexivity. Qed.
  Lemma dv_single_ok i s : 0 <= i < dim -> exists v, dv_single R V (key i) s = Ok v /\ d_ok v /\
    (forall j, 0 <= j < dim -> dv_at R v j = if j =? i then s else r0) /\ (forall d, deg i <= d <= depth -> d_bnd v d) /\
    len v = cnt (deg i) /\ dv_deg v = deg i.
  Proof.
    intros Hi. unfold dv_single. rewrite (bo_index _ _ _ _ HB) by auto. cbn [bind].
    assert (Dg := bo_deg _ _ _ _ HB i Hi). assert (Cn := bo_cnt _ _ _ _ HB i (deg i) Hi Dg).
    unfold dv_resize. rewrite (next_dim _ _ _ _ HB) by auto. cbn [bind].
    rewrite bset_ok by (cbn [dv_resize_exact dv_data blen]; lia). cbn [bind].
    eexists; split; [reflexivity|]. cbn [dv_resize_exact dv_deg dv_data blen].
    split; [|split; [|split; [|split; reflexivity]]].
    - unfold d_ok. cbn [dv_resize_exact dv_deg dv_data blen]. split; [lia|]. right. exists (deg i). lia.
    - intros j Hj. unfold dv_at. cbn [dv_data blen bat dv_new]. destruct (Z.ltb_spec j (cnt (deg i))).
      + destruct (Z.eqb_spec j i); [reflexivity|]. destruct (Z.ltb_spec j 0); reflexivity.
      + destruct (Z.eqb_spec j i); [lia|reflexivity].
    - intros d Hd. unfold d_bnd. cbn [dv_data blen]. assert (Y := cnt_mono _ _ _ _ HB (deg i) d). lia.
  Qed.
  Lemma dv_items_ok v : d_ok v -> dv_items R V v = Ok (map (fun i => (key i, dv_at R v i)) (zrange (len v))).
  Proof.
    intros Hv. unfold dv_items. destruct (bo_key0 _ _ _ _ HB) as (k0 & -> & E0). cbn [bind].
    assert (Ld := d_len_dim v Hv). unfold zrange. remember (Z.to_nat (len v)) as n eqn:En.
    assert (G : forall m a l k, (a + m = n)%nat -> (0 < m -> k = key (Z.of_nat a))%nat ->
      exists k', for_ (zseq (Z.of_nat a) m) (l, k) (fun i s => let '(l, k) := s in
        let! x := bget (dv_data v) i in let! k' := vb_advance V k in Ok (l ++ [(k, x)], k'))
      = Ok (l ++ map (fun i => (key i, dv_at R v i)) (zseq (Z.of_nat a) m), k')).
    { induction m as [|m IH]; intros a l k Ha Hk; cbn [zseq for_ map].
      - exists k. rewrite app_nil_r. reflexivity.
      - rewrite bget_ok by lia. cbn [bind]. rewrite Hk by lia.
        destruct (bo_adv _ _ _ _ HB (Z.of_nat a) ltac:(lia)) as (k' & -> & Hk'). cbn [bind].
        replace (Z.of_nat a + 1) with (Z.of_nat (S a)) in * by lia.
        destruct (IH (S a) (l ++ [(key (Z.of_nat a), bat (dv_data v) (Z.of_nat a))]) k') as (k2 & ->); [lia|intros; apply Hk'; lia|].
        exists k2. rewrite <- app_assoc. cbn [app]. rewrite dv_at_in by lia. reflexivity. }
    destruct (G n O [] k0) as (k' & E); [lia|intros; apply E0; lia|]. change (Z.of_nat 0) with 0 in E. rewrite E. reflexivity.
  Qed.

  Lemma dense_good : vgood R (dvec R) (dense_ops R req V) depth dim key d_ok (dv_at R) d_bnd.
  Proof.
    assert (D0 := bo_depth _ _ _ _ HB).
    constructor; cbn [dense_ops vo_new vo_empty vo_clear vo_degree vo_update_degree vo_single vo_upd vo_items vo_unary vo_binary vo_ibinary vo_eqb].
    - split; [split; [cbn; lia|left; reflexivity]|]. split; [|split; [|reflexivity]].
      + intros i Hi. apply dv_at_out. cbn. lia.
      + intros d Hd. unfold d_bnd. cbn. assert (X := bo_cnt0 _ _ _ _ HB d). lia.
    - intros v Hv He i Hi. apply dv_at_out. unfold dv_empty in He. apply Z.eqb_eq in He. lia.
    - intros v [Hv _]. split; [split; [cbn; lia|left; reflexivity]|]. split.
      + intros i Hi. apply dv_at_out. cbn. lia.
      + intros d Hd. unfold d_bnd. cbn. assert (X := bo_cnt0 _ _ _ _ HB d). lia.
    - intros v Hv. split; [apply Hv|apply d_len; auto].
    - intros v d i Hv [_ Hd] Hd2 Hi Hlt. apply dv_at_out. assert (X := bo_cnt _ _ _ _ HB i d). lia.
    - intros v d Hv Hd Hd2. split; [|split].
      + split; [exact Hd2|]. destruct Hv as [Hv [E|(n & Hn & E)]]; [left; exact E|right]. cbn [dv_update_degree dv_data dv_deg].
        destruct (Z_le_gt_dec n d); [exists n; split; [lia|exact E]|].
        exists d. split; [lia|]. unfold d_bnd in Hd. assert (Y := cnt_mono _ _ _ _ HB d n). lia.
      + reflexivity.
      + intros d' Hd'. exact Hd'.
    - intros i s Hi. destruct (dv_single_ok i s Hi) as (v & E & A & B & C & _). eauto.
    - intros v i f Hv Hi. destruct (dv_upd_ok v i f Hv Hi) as (v' & E & A & B & C & _). eauto.
    - intros v Hv. assert (Ld := d_len_dim v Hv). exists (map (fun i => (i, dv_at R v i)) (zrange (len v))).
      split; [rewrite dv_items_ok, map_map by auto; reflexivity|]. split; [|split; [|split]].
      + intros e He. apply in_map_iff in He. destruct He as (i & <- & Hi). apply zrange_In in Hi. cbn. lia.
      + intros a b l1 l2 El Hb.
        assert (G : forall m s l1 l2 a b, map (fun i => (i, dv_at R v i)) (zseq s m) = l1 ++ a :: l2 -> In b l2 -> fst a < fst b).
        { clear. induction m as [|m IH]; intros s l1 l2 a b E Hb; cbn [zseq map] in E; [destruct l1; discriminate|].
          destruct l1 as [|c l1]; cbn [app] in E; injection E as E1 E2; [|eapply IH; eauto].
          subst a. rewrite <- E2 in Hb. apply in_map_iff in Hb. destruct Hb as (j & <- & Hj). apply zseq_In in Hj. cbn. lia. }
        eapply G; eauto.
      + intros d [_ Hd] Hd2 e He. apply in_map_iff in He. destruct He as (i & <- & Hi). apply zrange_In in Hi. cbn [fst].
        assert (X := bo_cnt _ _ _ _ HB i d). lia.
      + intros i Hi. rewrite sum_map. cbn [fst snd]. destruct (Z_lt_le_dec i (len v)) as [H|H].
        * rewrite (sum_single R (zrange (len v)) _ i); [rewrite Z.eqb_refl; reflexivity|apply zrange_NoDup|apply zrange_In; lia|].
          intros j _ Hj. destruct (Z.eqb_spec j i); [congruence|reflexivity].
        * rewrite dv_at_out by lia. symmetry. apply sum_zero. intros j Hj. apply zrange_In in Hj.
          destruct (Z.eqb_spec j i); [lia|reflexivity].
    - intros v f Hv Hf. split; [exact Hv|]. split; [|intros d Hd; exact Hd].
      intros i Hi. unfold dv_at. cbn [dv_unary dv_data blen bat]. destruct (i <? len v); auto.
    - intros a b op Ha Hb Hop _. assert (La := d_len a Ha). assert (Lb := d_len b Hb). split; [|split].
      + destruct Ha as [Da Ha], Hb as [Db Hb]. split; [cbn; lia|]. cbn [dv_binary dv_data dv_deg blen].
        destruct (Z.max_spec (len a) (len b)) as [[? ->]|[? ->]].
        * destruct Hb as [Hb|(n & Hn & Hb)]; [left; lia|right; exists n; lia].
        * destruct Ha as [Ha|(n & Hn & Ha)]; [left; lia|right; exists n; lia].
      + intros i Hi. unfold dv_at at 1. cbn [dv_binary dv_data blen bat].
        destruct (Z.ltb_spec i (Z.max (len a) (len b))); [reflexivity|]. rewrite !dv_at_out by lia. auto.
      + intros d Xa Xb. unfold d_bnd in *. cbn [dv_binary dv_data blen]. lia.
    - intros a b op Ha Hb Hop _. assert (La := d_len a Ha). assert (Lb := d_len b Hb). split; [|split].
      + destruct Ha as [Da Ha], Hb as [Db Hb]. unfold d_ok. cbn [dv_ibinary dv_data dv_deg blen]. rewrite Z.gtb_ltb.
        destruct (Z.ltb_spec (len a) (len b)) as [H|H]; (split; [lia|]).
        * destruct Hb as [Hb|(n & Hn & Hb)]; [left; lia|right; exists n; lia].
        * destruct Ha as [Ha|(n & Hn & Ha)]; [left; lia|right; exists n; lia].
      + intros i Hi. unfold dv_at at 1. cbn [dv_ibinary dv_data blen bat].
        destruct (Z.ltb_spec i (Z.max (len a) (len b))); [reflexivity|]. rewrite !dv_at_out by lia. auto.
      + intros d Xa Xb. unfold d_bnd in *. cbn [dv_ibinary dv_data blen]. lia.
    - intros a b Ha Hb. assert (La := d_len_dim a Ha). assert (Lb := d_len_dim b Hb). unfold dv_eqb.
      rewrite !andb_true_iff, !forallb_forall. split.
      + intros [[H1 H2] H3] i Hi.
        destruct (Z_lt_le_dec i (Z.min (len a) (len b))) as [H|H].
        * rewrite !dv_at_in by lia. apply Hreq. apply H1. apply zrange_In. lia.
        * destruct (Z_lt_le_dec i (len a)).
          -- rewrite (dv_at_in a), (dv_at_out b) by lia. apply Hreq. apply H2. apply zseq_In. lia.
          -- rewrite (dv_at_out a) by lia. destruct (Z_lt_le_dec i (len b)); [|rewrite dv_at_out by lia; reflexivity].
             rewrite dv_at_in by lia. symmetry. apply Hreq. apply H3. apply zseq_In. lia.
      + intros H. split; [split|].
        * intros i Hi. apply zrange_In in Hi. apply Hreq. specialize (H i). rewrite !dv_at_in in H by lia. apply H. lia.
        * intros i Hi. apply zseq_In in Hi. apply Hreq. specialize (H i). rewrite dv_at_in, dv_at_out in H by lia. apply H. lia.
        * intros i Hi. apply zseq_In in Hi. apply Hreq. specialize (H i). rewrite dv_at_out, dv_at_in in H by lia. symmetry. apply H. lia.
  Qed.
End Dense.
