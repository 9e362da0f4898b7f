(** Programs over tensor and shuffle tensor objects compute as specified. *)
From Verif Require Export ShufVec ShufObjSpec LhProofs.

Section Products.
  Variable R : qalg.
  Add Ring Rr : (rth R).
  Variable req : R -> R -> bool.
  Hypothesis Hreq : forall x y, req x y = true <-> x = y.
  Hypothesis R10 : @r1 R <> r0.
  Section Data.
    Variables (w N N2 : Z) (B B2 : tbasis).
    Hypothesis HP : packs w N.
    Hypothesis HS : sized w N.
    Hypothesis HT : tb_ok w N B.
    Hypothesis HP2 : packs w N2.
    Hypothesis HS2 : sized w N2.
    Hypothesis HT2 : tb_ok w N2 B2.
    Hypothesis HNN : N <= N2.
    Notation n := (Z.to_nat N).
    Notation V := (tensor_vb B).
    Notation dim := (tdim w N).
    Notation key := (tkey B).
    Notation tensor := (tens R Z).
    Notation tr := (trunc R w n).
    Notation len v := (blen (dv_data v)).
    Notation HBt := (tensor_basis_ok' w N B HP HS HT).
    Notation HBt2 := (tensor_basis_ok' w N2 B2 HP2 HS2 HT2).
    Notation GD := (dense_good R req Hreq V dim key (tcnt w) HBt).
    Notation GD2 := (dense_good R req Hreq (tensor_vb B2) (tdim w N2) (tkey B2) (tcnt w) HBt2).
    Notation GS := (sparse_good R req Hreq V dim key (tcnt w) HBt).
    Notation GS2 := (sparse_good R req Hreq (tensor_vb B2) (tdim w N2) (tkey B2) (tcnt w) HBt2).

    Definition d_full (v : dvec R) : Prop := d_st R w N v /\ len v <> 0.
    Lemma full_fr v : d_full v -> d_fr R w N v.
    Proof. intros [[H1 [H2|H2]] H3]; [split; auto|congruence]. Qed.
    Lemma dense_PQ v i f v' : d_ok R V (tcnt w) v -> d_st R w N v -> 0 <= i < dim -> vo_upd (dense_ops R req V) v (key i) f = Ok v' -> d_full v'.
    Proof.
      intros Hv [S1 S2] Hi E. destruct (dv_upd_ok R V dim key (tcnt w) HBt v i f Hv Hi) as (v1 & E1 & _ & _ & _ & L & D).
      cbn [vo_upd dense_ops] in E. rewrite E1 in E. injection E as <-. unfold d_full, d_st. rewrite L, D.
      assert (W := Hw w N HP). assert (Dg := bo_deg _ _ _ _ HBt i Hi). cbn [tensor_vb vb_depth] in Dg. rewrite (depth_N w N B HT) in Dg.
      destruct (Z.ltb_spec i (len v)).
      - split; [split; [auto|left; lia]|lia].
      - split; [split; [lia|left; reflexivity]|]. assert (Q := cnt_pos w N HP (k_degree (key i))). lia.
    Qed.
    Lemma dense_P0 d : 0 <= d <= N -> d_st R w N (vo_update_degree (dense_ops R req V) d (vo_new (dense_ops R req V))).
    Proof. intros H. split; [exact H|right; reflexivity]. Qed.

    Variable mult : tbasis -> Z -> Z -> hcache -> outcome (kprod * hcache).
    Variables (L : list Z -> list Z -> list (list Z)) (Sp : list Z -> list (list Z * list Z)).
    Hypothesis Hm : forall u v c, letters_ok w u -> letters_ok w v -> Z.of_nat (length u) + Z.of_nat (length v) <= N -> c_inv w c ->
      exists p c', mult B (wkey w u) (wkey w v) c = Ok (p, c') /\ c_inv w c' /\ counts p (map (wkey w) (L u v)).
    Hypothesis HLlen : forall u v s, In s (L u v) -> length s = (length u + length v)%nat.
    Hypothesis HLok : forall u v s, letters_ok w u -> letters_ok w v -> In s (L u v) -> letters_ok w s.
    Hypothesis HLsp : forall u v s, count_occ (list_eq_dec Z.eq_dec) (L u v) s = count_occ (pdec Z.eq_dec) (Sp s) (u, v).
    Hypothesis HSlen : forall s p, In p (Sp s) -> (length (fst p) + length (snd p))%nat = length s.
    Hypothesis HSok : forall s p, letters_ok w s -> In p (Sp s) -> letters_ok w (fst p) /\ letters_ok w (snd p).

    Lemma bil_ext (a a' b b' : tensor) : (forall u, a u = a' u) -> (forall u, b u = b' u) -> forall u, bil Sp a b u = bil Sp a' b' u.
    Proof. intros Ha Hb u. unfold bil. apply sum_ext. intros p _. rewrite Ha, Hb. reflexivity. Qed.
    Lemma fn_ok k kb a b ta tb c : drep R w N B k a ta -> drep R w N2 B2 kb b tb -> c_inv w c ->
      exists d c', fn_data R req mult B B2 a b c = Ok (d, c') /\ c_inv w c' /\ drep R w N B (cleared k) d (tr (bil Sp ta tb)).
    Proof.
      intros Ha Hb Hc.
      assert (K1 : k <> KNull) by (intros ->; destruct Ha). assert (K2 : kb <> KNull) by (intros ->; destruct Hb).
      destruct (kdense k) eqn:Kd.
      - destruct (drep_dense R w N B HP k a ta Kd Ha) as (x & -> & Sx & _ & Cx). assert (Kc : cleared k = KCleared) by (destruct k; try discriminate; reflexivity).
        destruct (kdense kb) eqn:Kbd.
        + destruct (drep_dense R w N2 B2 HP2 kb b tb Kbd Hb) as (y & -> & Sy & _ & Cy). cbn [fn_data].
          destruct (mixed_ok R w N N2 B B2 HP HS HT HP2 HS2 HT2 HNN hcache (c_inv w) (mult B) L Sp Hm HLlen HLok HLsp HSlen HSok _ _ _ _ _ _ _ _ _ _ GD GD2 (d_st R w N) d_full dense_PQ (fun v H => proj1 H) dense_P0 x y c)
            as (z & c' & E & Ic & _ & Pz & _ & Cz & _); auto; try (apply (st_ok R w N B HT); auto); try (apply (st_ok R w N2 B2 HT2); auto).
          unfold kprod in *. rewrite E. cbn [bind]. exists (LhModel.Dn z), c'. split; [reflexivity|]. split; [auto|]. rewrite Kc. exists z. split; [reflexivity|]. split; [auto|].
          intros u. rewrite Cz. unfold trunc. destruct (inside w n u); [|reflexivity]. apply bil_ext; auto.
        + destruct kb; try discriminate; [congruence|]. destruct Hb as (y & -> & Sy & Cy). cbn [fn_data].
          destruct (mixed_ok R w N N2 B B2 HP HS HT HP2 HS2 HT2 HNN hcache (c_inv w) (mult B) L Sp Hm HLlen HLok HLsp HSlen HSok _ _ _ _ _ _ _ _ _ _ GD GS2 (d_st R w N) d_full dense_PQ (fun v H => proj1 H) dense_P0 x y c)
            as (z & c' & E & Ic & _ & Pz & _ & Cz & _); auto; try (apply (st_ok R w N B HT); auto).
          unfold kprod in *. rewrite E. cbn [bind]. exists (LhModel.Dn z), c'. split; [reflexivity|]. split; [auto|]. rewrite Kc. exists z. split; [reflexivity|]. split; [auto|].
          intros u. rewrite Cz. unfold trunc. destruct (inside w n u); [|reflexivity]. apply bil_ext; auto.
      - destruct k; try discriminate; [congruence|]. destruct Ha as (x & -> & Sx & Cx).
        destruct (kdense kb) eqn:Kbd.
        + destruct (drep_dense R w N2 B2 HP2 kb b tb Kbd Hb) as (y & -> & Sy & _ & Cy). cbn [fn_data].
          destruct (mixed_ok R w N N2 B B2 HP HS HT HP2 HS2 HT2 HNN hcache (c_inv w) (mult B) L Sp Hm HLlen HLok HLsp HSlen HSok _ _ _ _ _ _ _ _ _ _ GS GD2 (fun _ => True) (fun _ => True) (fun _ _ _ _ _ _ _ _ => I) (fun _ _ => I) (fun _ _ => I) x y c)
            as (z & c' & E & Ic & Oz & _ & _ & Cz & _); auto; try (apply (st_ok R w N2 B2 HT2); auto).
          unfold kprod in *. rewrite E. cbn [bind]. exists (LhModel.Sp z), c'. split; [reflexivity|]. split; [auto|]. exists z. split; [reflexivity|]. split; [auto|].
          intros u. rewrite Cz. unfold trunc. destruct (inside w n u); [|reflexivity]. apply bil_ext; auto.
        + destruct kb; try discriminate; [congruence|]. destruct Hb as (y & -> & Sy & Cy). cbn [fn_data].
          destruct (mixed_ok R w N N2 B B2 HP HS HT HP2 HS2 HT2 HNN hcache (c_inv w) (mult B) L Sp Hm HLlen HLok HLsp HSlen HSok _ _ _ _ _ _ _ _ _ _ GS GS2 (fun _ => True) (fun _ => True) (fun _ _ _ _ _ _ _ _ => I) (fun _ _ => I) (fun _ _ => I) x y c)
            as (z & c' & E & Ic & Oz & _ & _ & Cz & _); auto.
          unfold kprod in *. rewrite E. cbn [bind]. exists (LhModel.Sp z), c'. split; [reflexivity|]. split; [auto|]. exists z. split; [reflexivity|]. split; [auto|].
          intros u. rewrite Cz. unfold trunc. destruct (inside w n u); [|reflexivity]. apply bil_ext; auto.
    Qed.
  End Data.

  (** The two multipliers *)
  Lemma half_bil (a b : tens R Z) s : bil half_splits a b s = half R a b s.
  Proof. unfold bil, half. destruct s as [|x s]; [reflexivity|]. cbn [half_splits]. rewrite sum_map. reflexivity. Qed.
  Section Two.
    Variables (w N N2 : Z) (B B2 : tbasis).
    Hypothesis HP : packs w N.
    Hypothesis HS : sized w N.
    Hypothesis HT : tb_ok w N B.
    Hypothesis HP2 : packs w N2.
    Hypothesis HS2 : sized w N2.
    Hypothesis HT2 : tb_ok w N2 B2.
    Hypothesis HNN : N <= N2.
    Hypothesis H33 : N <= 33.
    Notation tr := (trunc R w (Z.to_nat N)).
    Lemma fn_shuffle_ok k kb a b ta tb c : drep R w N B k a ta -> drep R w N2 B2 kb b tb -> c_inv w c ->
      exists d c', fn_data R req shuffle_mult B B2 a b c = Ok (d, c') /\ c_inv w c' /\ drep R w N B (cleared k) d (tr (shuf ta tb)).
    Proof.
      apply (fn_ok w N N2 B B2 HP HS HT HP2 HS2 HT2 HNN shuffle_mult (@shuffles Z) (@splits Z)).
      - intros u v c0 Hu Hv Hl Hc. apply (shuffle_mult_ok w N B HP HT H33); auto.
      - intros u v s. apply shuffles_length.
      - intros u v s Hu Hv. apply shuffles_Forall; auto.
      - intros u v s. apply shuffles_splits.
      - intros s p. apply splits_length.
      - intros s p Hs. apply splits_Forall; auto.
    Qed.
    Lemma fn_half_ok k kb a b ta tb c : drep R w N B k a ta -> drep R w N2 B2 kb b tb -> c_inv w c ->
      exists d c', fn_data R req half_mult B B2 a b c = Ok (d, c') /\ c_inv w c' /\ drep R w N B (cleared k) d (tr (half R ta tb)).
    Proof.
      intros Ha Hb Hc.
      destruct (fn_ok w N N2 B B2 HP HS HT HP2 HS2 HT2 HNN half_mult (@halves Z) (@half_splits Z)) with (k := k) (kb := kb) (a := a) (b := b) (ta := ta) (tb := tb) (c := c) as (d & c' & E & Ic & D); auto.
      - intros u v c0 Hu Hv Hl Hc0. apply (half_mult_ok w N B HP HT H33); auto.
      - intros u v s. apply halves_length.
      - intros u v s Hu Hv. apply halves_Forall; auto.
      - intros u v s. apply halves_splits.
      - intros s p. apply half_splits_length.
      - intros s p Hs. apply half_splits_Forall; auto.
      - exists d, c'. split; [auto|]. split; [auto|]. eapply drep_ext; [|exact D]. intros u. unfold trunc. destruct (inside _ _ u); [apply half_bil|reflexivity].
    Qed.
  End Two.

  (** The operator [*] of ShuffleTensor *)
  Section Times.
    Variables (w N : Z) (B : tbasis).
    Hypothesis HP : packs w N.
    Hypothesis HS : sized w N.
    Hypothesis HT : tb_ok w N B.
    Hypothesis HN1 : 1 <= N.
    Hypothesis H33 : N <= 33.
    Notation n := (Z.to_nat N).
    Notation tr := (trunc R w n).
    Notation V := (tensor_vb B).
    Notation dim := (tdim w N).
    Notation key := (tkey B).
    Notation HBt := (tensor_basis_ok' w N B HP HS HT).
    Notation GD := (dense_good R req Hreq V dim key (tcnt w) HBt).
    Notation GS := (sparse_good R req Hreq V dim key (tcnt w) HBt).
    Notation len v := (blen (dv_data v)).
    Lemma shuf_ext (a a' b b' : tens R Z) : (forall u, a u = a' u) -> (forall u, b u = b' u) -> forall u, shuf a b u = shuf a' b' u.
    Proof. intros Ha Hb u. unfold shuf. apply sum_ext. intros p _. rewrite Ha, Hb. reflexivity. Qed.
    Lemma shuf_zero_l (a b : tens R Z) : (forall u, a u = r0) -> forall u, shuf a b u = r0.
    Proof. intros Ha u. unfold shuf. apply sum_zero. intros p _. rewrite Ha. ring. Qed.
    Lemma shuf_zero_r (a b : tens R Z) : (forall u, b u = r0) -> forall u, shuf a b u = r0.
    Proof. intros Ha u. unfold shuf. apply sum_zero. intros p _. rewrite Ha. ring. Qed.
    Lemma items0 v : d_st R w N v -> len v <> 0 -> exists l, vo_items (dense_ops R req V) v = Ok l /\ In (mk_key 0 0) (map fst l).
    Proof.
      intros Sv Hl. cbn [vo_items dense_ops]. rewrite (dv_items_ok R V dim key (tcnt w) HBt) by (apply (st_ok R w N B HT); auto).
      eexists. split; [reflexivity|]. rewrite map_map. cbn [fst]. apply in_map_iff. exists 0. split; [apply tkey0|]. apply zrange_In.
      destruct Sv as [S1 [S2|S2]]; [|congruence]. assert (Q := cnt_pos w N HP (dv_deg v)). lia.
    Qed.
    Lemma times_ok k kb a b ta tb c : drep R w N B k a ta -> drep R w N B kb b tb -> c_inv w c ->
      exists d c', times_data R req B a b c = Ok (d, c') /\ c_inv w c' /\ drep R w N B (fresh k) d (tr (shuf ta tb)).
    Proof.
      intros Ha Hb Hc. assert (K1 : k <> KNull) by (intros ->; destruct Ha).
      assert (MX := fun X O ok cf bnd HV P Q H1 H2 H3 x y => mixed_ok R w N N B B HP HS HT HP HS HT (Z.le_refl N) hcache (c_inv w) (shuffle_mult B) (@shuffles Z) (@splits Z)
        (fun u v c0 Hu Hv Hl Hc0 => shuffle_mult_ok w N B HP HT H33 u v c0 Hu Hv Hl Hc0) (fun u v s => @shuffles_length Z u v s) (fun u v s Hu Hv Hs => shuffles_Forall _ u v Hu Hv s Hs) (fun u v s => shuffles_splits Z.eq_dec s u v)
        (fun s p => @splits_length Z s p) (fun s p Hs => splits_Forall _ s Hs p) X X O O ok cf bnd ok cf bnd HV HV P Q H1 H2 H3 x y c).
      destruct (kdense k) eqn:Kd.
      - destruct (drep_dense R w N B HP k a ta Kd Ha) as (x & -> & Sx & _ & Cx). destruct (to_dense_ok R req Hreq w N B HP HS HT HN1 kb b tb Hb) as (y & Ey & Sy & _ & Cy).
        assert (Kf : fresh k = KDense) by (destruct k; try discriminate; reflexivity). rewrite Kf.
        cbn [times_data]. rewrite Ey. cbn [bind]. unfold op_mul. cbn [vo_empty dense_ops]. unfold dv_empty.
        assert (Zx : forall v : dvec R, len v = 0 -> forall u, wcf R w N (dv_at R) v u = r0).
        { intros v Hv u. unfold wcf. destruct (inside w n u) eqn:Hu; [|reflexivity]. rewrite (at_len R v), Hv. assert (Q := pos_dim w N HP u Hu). destruct (Z.ltb_spec (pos w u) 0); [lia|reflexivity]. }
        destruct (Z.eqb_spec (len x) 0) as [E1|E1]; cbn [negb andb]; [|destruct (Z.eqb_spec (len y) 0) as [E2|E2]; cbn [negb]].
        + exists (LhModel.Dn (dv_new R)), c. split; [reflexivity|]. split; [auto|]. exists (dv_new R). split; [reflexivity|]. split; [split; [cbn; lia|right; split; reflexivity]|].
          intros u. rewrite (Zx (dv_new R)) by reflexivity. unfold trunc. destruct (inside w n u); [|reflexivity]. symmetry. apply shuf_zero_l. intros s. rewrite <- Cx. auto.
        + exists (LhModel.Dn (dv_new R)), c. split; [reflexivity|]. split; [auto|]. exists (dv_new R). split; [reflexivity|]. split; [split; [cbn; lia|right; split; reflexivity]|].
          intros u. rewrite (Zx (dv_new R)) by reflexivity. unfold trunc. destruct (inside w n u); [|reflexivity]. symmetry. apply shuf_zero_r. intros s. rewrite <- Cy. auto.
        + destruct (MX _ _ _ _ _ GD (d_st R w N) (d_full w N) (dense_PQ w N B HP HS HT) (fun v H => proj1 H) (dense_P0 w N B) x y) as (z & c' & E & Ic & _ & Pz & Qz & Cz & _); auto; try (apply (st_ok R w N B HT); auto).
          destruct (items0 x Sx E1) as (li & Eli & Hli). destruct (items0 y Sy E2) as (ri & Eri & Hri).
          change (exists d c', (let! (z, c) := mixed_multiply R _ _ (dense_ops R req V) (dense_ops R req V) (tb_depth B) (tb_depth B) hcache (shuffle_mult B) x y c in Ok (LhModel.Dn z, c)) = Ok (d, c') /\ c_inv w c' /\ drep R w N B KDense d (tr (shuf ta tb))).
          unfold kprod in *. rewrite E. cbn [bind]. exists (LhModel.Dn z), c'. split; [reflexivity|]. split; [auto|]. exists z. split; [reflexivity|]. split; [apply full_fr; eapply Qz; eauto|].
          intros u. rewrite Cz. unfold trunc. destruct (inside w n u); [|reflexivity]. apply shuf_ext; auto.
      - destruct k; try discriminate; [congruence|]. destruct Ha as (x & -> & Sx & Cx). destruct (to_sparse_ok R req Hreq w N B HP HS HT HN1 kb b tb Hb) as (y & Ey & Sy & Cy).
        cbn [times_data fresh]. rewrite Ey. cbn [bind]. unfold op_mul. cbn [vo_empty sparse_ops].
        assert (S0 : s_ok R dim key []) by (apply (g_new _ _ _ _ _ _ _ _ _ GS)).
        destruct (sv_empty R x) eqn:E1; cbn [negb andb]; [|destruct (sv_empty R y) eqn:E2; cbn [negb]].
        + exists (LhModel.Sp []), c. split; [reflexivity|]. split; [auto|]. exists []. split; [reflexivity|]. split; [auto|]. destruct x; [|discriminate].
          intros u. rewrite Cx. unfold trunc. destruct (inside w n u) eqn:Hu; [|rewrite <- Cx; unfold wcf; rewrite Hu; reflexivity].
          assert (Zt : forall s, ta s = r0) by (intros s; rewrite <- Cx; unfold wcf; destruct (inside w n s); reflexivity). rewrite Zt. symmetry. apply shuf_zero_l. auto.
        + exists (LhModel.Sp []), c. split; [reflexivity|]. split; [auto|]. exists []. split; [reflexivity|]. split; [auto|]. destruct y; [|discriminate].
          assert (Zt : forall s, tb s = r0) by (intros s; rewrite <- Cy; unfold wcf; destruct (inside w n s); reflexivity).
          intros u. rewrite Cy, Zt. unfold trunc. destruct (inside w n u) eqn:Hu; [|reflexivity]. symmetry. apply shuf_zero_r. auto.
        + destruct (MX _ _ _ _ _ GS (fun _ => True) (fun _ => True) (fun _ _ _ _ _ _ _ _ => I) (fun _ _ => I) (fun _ _ => I) x y) as (z & c' & E & Ic & Oz & _ & _ & Cz & _); auto.
          change (exists d c', (let! (z, c) := mixed_multiply R _ _ (sparse_ops R req) (sparse_ops R req) (tb_depth B) (tb_depth B) hcache (shuffle_mult B) x y c in Ok (LhModel.Sp z, c)) = Ok (d, c') /\ c_inv w c' /\ drep R w N B KSparse d (tr (shuf ta tb))).
          unfold kprod in *. rewrite E. cbn [bind]. exists (LhModel.Sp z), c'. split; [reflexivity|]. split; [auto|]. exists z. split; [reflexivity|]. split; [auto|].
          intros u. rewrite Cz. unfold trunc. destruct (inside w n u); [|reflexivity]. apply shuf_ext; auto.
    Qed.
  End Times.

  (** ** Programs *)
  Section Programs.
    Variables (width depth : Z -> Z) (ctxs : Z -> tbasis).
    Notation ctx := (context width depth ctxs).
    Notation drp c := (drep R (width c) (depth c) (ctxs c)).
    Lemma ctx_tb c : ctx c -> tb_ok (width c) (depth c) (ctxs c).
    Proof. intros (HP & _ & _ & E). apply (basis_unique (width c) (depth c)); auto. Qed.
    Lemma ctx_width c : ctx c -> tb_width (ctxs c) = width c.
    Proof. intros H. apply (ctx_tb c H). Qed.
    Definition orep (o : option (sobj R)) (t : option (tobj R)) : Prop :=
      match o, t with
      | None, None => True
      | Some o, Some t => so_ctx R o = t_ctx R t /\ so_free R o = t_free R t /\ ctx (t_ctx R t) /\ drp (t_ctx R t) (t_kind R t) (so_data R o) (t_val R t)
      | _, _ => False
      end.
    Definition crep (cs : caches) : Prop := (forall w, c_inv w (sh_cache cs w)) /\ forall w, c_inv w (hf_cache cs w).
    Definition srep (st : sstate R) (t : tenv R) : Prop := (forall x, orep (fst st x) (t x)) /\ crep (snd st).
    Lemma orep_set e t x o a : (forall x, orep (e x) (t x)) -> orep (Some o) (Some a) -> forall y, orep (so_set R e x o y) (tset R t x a y).
    Proof. intros H1 H2 y. unfold so_set, tset. destruct (y =? x); auto. Qed.
    Lemma cput_ok f w c : (forall w, c_inv w (f w)) -> c_inv w c -> forall v, c_inv v (cput f w c v).
    Proof. intros H1 H2 v. unfold cput. destruct (Z.eqb_spec v w) as [->|]; auto. Qed.
    Lemma solid_up c k d t : ctx c -> (k <> KCleared \/ exists u, t u <> r0) -> drp c k d t -> drp c (fresh k) d t.
    Proof.
      intros Hc Hs Hd. destruct k; auto. destruct Hs as [Hs|(u & Hu)]; [congruence|]. destruct Hd as (v & -> & [S1 S2] & C). exists v. split; [reflexivity|]. split; [|auto].
      split; [auto|]. destruct S2 as [S2|S2]; [left; auto|]. exfalso. apply Hu. rewrite <- C. unfold wcf. destruct (inside _ _ u) eqn:Iu; [|reflexivity].
      rewrite (at_len R v), S2. destruct Hc as (HP & _). assert (Q := pos_dim (width c) (depth c) HP u Iu). destruct (Z.ltb_spec (pos (width c) u) 0); [lia|reflexivity].
    Qed.
    Lemma step_ok k st t : smay R width depth ctx k t -> srep st t -> exists st', sh_step R req ctxs k st = Ok st' /\ srep st' (tstep R width depth k t).
    Proof.
      destruct st as [e cs]. intros Hk [He [Hc1 Hc2]]. cbn [fst snd] in *.
      assert (Get : forall y a, t y = Some a -> exists o, e y = Some o /\ so_ctx R o = t_ctx R a /\ so_free R o = t_free R a /\ ctx (t_ctx R a) /\ drp (t_ctx R a) (t_kind R a) (so_data R o) (t_val R a)).
      { intros y a E. specialize (He y). rewrite E in He. destruct (e y) as [o|]; [|destruct He]. exists o. auto. }
      destruct k as [x c free dense keys data|x o y|x o y z|x y z|f x y z]; cbn [sh_step tstep smay] in *.
      - destruct Hk as [Hctx Hk]. assert (T := ctx_tb c Hctx). assert (Hctx' := Hctx). destruct Hctx as (HP & HS & HN1 & HE).
        destruct dense.
        + destruct (LhProofs.construct_ok R (width c) (depth c) (ctxs c) HP HS T HN1 _ _ _ _ _ _ _ (dense_tgood R req Hreq (width c) (depth c) (ctxs c) HP HS T) keys data Hk) as (v & E & Fv & Cv).
          rewrite E. cbn [bind]. eexists. split; [reflexivity|]. split; [|split; auto]. cbn [fst]. apply orep_set; auto. cbn. split; [auto|]. split; [auto|]. split; [exact Hctx'|]. exists v. auto.
        + destruct (LhProofs.construct_ok R (width c) (depth c) (ctxs c) HP HS T HN1 _ _ _ _ _ _ _ (sparse_tgood R req Hreq (width c) (depth c) (ctxs c) HP HS T) keys data Hk) as (v & E & Fv & Cv).
          rewrite E. cbn [bind]. eexists. split; [reflexivity|]. split; [|split; auto]. cbn [fst]. apply orep_set; auto. cbn. split; [auto|]. split; [auto|]. split; [exact Hctx'|]. exists v. auto.
      - destruct (t y) as [a|] eqn:Ey; [|congruence]. destruct (Get y a Ey) as (o1 & -> & E1 & E2 & Hctx & Hd). assert (T := ctx_tb _ Hctx).
        assert (Kn : t_kind R a <> KNull) by (intros Q; rewrite Q in Hd; destruct Hd). assert (Hctx' := Hctx). destruct Hctx as (HP & HS & HN1 & HE). rewrite E1.
        destruct o as [|s]; unfold on1; rewrite Ey.
        + destruct (td_neg_ok R req Hreq _ _ _ HP HS T _ _ _ Kn Hd) as (d & -> & Hd'). cbn [bind]. eexists. split; [reflexivity|]. split; [|split; auto]. cbn [fst]. apply orep_set; auto. cbn. auto.
        + destruct (td_smul_ok R req Hreq _ _ _ HP HS T s _ _ _ Kn Hd) as (d & -> & Hd'). cbn [bind]. eexists. split; [reflexivity|]. split; [|split; auto]. cbn [fst]. apply orep_set; auto. cbn. auto.
      - destruct Hk as (a & b & Ey & Ez & Ec & Ef & Hs). destruct (Get y a Ey) as (o1 & -> & E1 & E2 & Hctx & Hd). destruct (Get z b Ez) as (o2 & -> & E3 & E4 & Hctx2 & Hd2).
        unfold alike. rewrite E1, E2, E3, E4, Ec, Ef, Z.eqb_refl, Bool.eqb_reflx. cbn [andb]. rewrite <- Ec in *. assert (T := ctx_tb _ Hctx).
        assert (Kn : t_kind R a <> KNull) by (intros Q; rewrite Q in Hd; destruct Hd). assert (Hctx' := Hctx). destruct Hctx as (HP & HS & HN1 & HE).
        assert (Main : forall op : R -> R -> R, (forall x, op x r0 = x) -> (forall y, op r0 y = r0 -> y = r0) ->
          exists d, bin R req (ctxs (t_ctx R a)) (fun x y => Ok (vo_binary (dense_ops R req (tensor_vb (ctxs (t_ctx R a)))) op x y)) (fun x y => Ok (vo_binary (sparse_ops R req) op x y)) (so_data R o1) (so_data R o2) = Ok d /\
            drp (t_ctx R a) (fresh (t_kind R a)) d (fun u => op (t_val R a u) (t_val R b u))).
        { intros op O1 O2. destruct (kdense (t_kind R a)) eqn:Kd.
          - destruct (Hs eq_refl) as [Sa Sb]. apply (solid_up _ _ _ _ Hctx' Sa) in Hd. apply (solid_up _ _ _ _ Hctx' Sb) in Hd2.
            assert (Q1 : fresh (t_kind R a) <> KCleared) by (destruct (t_kind R a); discriminate).
            assert (Q2 : fresh (t_kind R a) = KDense -> fresh (t_kind R b) <> KCleared) by (intros _; destruct (t_kind R b); discriminate).
            destruct (td_binary_ok R req Hreq _ _ _ HP HS T HN1 op _ _ _ _ _ _ O1 O2 Q1 Q2 Hd Hd2) as (d & E & D).
            exists d. split; [exact E|]. destruct (t_kind R a); try discriminate; exact D.
          - assert (Q1 : t_kind R a <> KCleared) by (destruct (t_kind R a); discriminate).
            assert (Q2 : t_kind R a = KDense -> t_kind R b <> KCleared) by (destruct (t_kind R a); discriminate).
            destruct (td_binary_ok R req Hreq _ _ _ HP HS T HN1 op _ _ _ _ _ _ O1 O2 Q1 Q2 Hd Hd2) as (d & E & D).
            exists d. split; [exact E|]. destruct (t_kind R a); try discriminate; exact D. }
        destruct o; unfold on2; rewrite Ey, Ez.
        + destruct (Main (fun x y => radd x y) (add_r0 R) (add_0r R)) as (d & E & D). unfold td_add, v_add. rewrite E. cbn [bind]. eexists. split; [reflexivity|]. split; [|split; auto]. cbn [fst]. apply orep_set; auto. cbn. auto.
        + destruct (Main (fun x y => rsub x y) (sub_r0 R) (sub_0r R)) as (d & E & D). unfold td_sub, v_sub. rewrite E. cbn [bind]. eexists. split; [reflexivity|]. split; [|split; auto]. cbn [fst]. apply orep_set; auto. cbn. auto.
      - destruct Hk as (a & b & Ey & Ez & Ec & Ef & H33). destruct (Get y a Ey) as (o1 & -> & E1 & E2 & Hctx & Hd). destruct (Get z b Ez) as (o2 & -> & E3 & E4 & Hctx2 & Hd2).
        unfold alike. rewrite E1, E2, E3, E4, Ec, Ef, Z.eqb_refl, Bool.eqb_reflx. cbn [andb]. rewrite <- Ec, <- Ef in *. assert (T := ctx_tb _ Hctx). assert (Tw := ctx_width _ Hctx).
        assert (Hctx' := Hctx). destruct Hctx as (HP & HS & HN1 & HE). unfold on2. rewrite Ey, Ez. unfold cut.
        destruct (t_free R a) eqn:Fa.
        + destruct (td_mul_ok R req Hreq _ _ _ HP HS T HN1 _ _ _ _ _ _ Hd Hd2) as (d & -> & Hd'). cbn [bind]. eexists. split; [reflexivity|]. split; [|split; auto]. cbn [fst]. apply orep_set; auto. cbn. auto.
        + rewrite Tw. destruct (times_ok _ _ _ HP HS T HN1 (H33 eq_refl) _ _ _ _ _ _ _ Hd Hd2 (Hc1 (width (t_ctx R a)))) as (d & c' & -> & Hc' & Hd'). cbn [bind]. eexists. split; [reflexivity|]. split; [|split; auto].
          * cbn [fst]. apply orep_set; auto. cbn. auto.
          * cbn [snd sh_cache]. apply cput_ok; auto.
      - destruct Hk as (a & b & Ey & Ez & Ew & En & H33). destruct (Get y a Ey) as (o1 & -> & E1 & E2 & Hctx & Hd). destruct (Get z b Ez) as (o2 & -> & E3 & E4 & Hctx2 & Hd2).
        assert (T := ctx_tb _ Hctx). assert (Tw := ctx_width _ Hctx). assert (T2 := ctx_tb _ Hctx2). rewrite E1, E3, Tw.
        assert (Hctx' := Hctx). destruct Hctx as (HP & HS & HN1 & HE). destruct Hctx2 as (HP2 & HS2 & _ & _). rewrite <- Ew in *.
        destruct f; unfold on2; rewrite Ey, Ez; unfold cut.
        + destruct (fn_shuffle_ok _ _ _ _ _ HP HS T HP2 HS2 T2 En H33 _ _ _ _ _ _ _ Hd Hd2 (Hc1 (width (t_ctx R a)))) as (d & c' & -> & Hc' & Hd'). cbn [bind]. eexists. split; [reflexivity|]. split; [|split; auto].
          * cbn [fst]. apply orep_set; auto. cbn. auto.
          * cbn [snd sh_cache]. apply cput_ok; auto.
        + destruct (fn_half_ok _ _ _ _ _ HP HS T HP2 HS2 T2 En H33 _ _ _ _ _ _ _ Hd Hd2 (Hc2 (width (t_ctx R a)))) as (d & c' & -> & Hc' & Hd'). cbn [bind]. eexists. split; [reflexivity|]. split; [|split; auto].
          * cbn [fst]. apply orep_set; auto. cbn. auto.
          * cbn [snd hf_cache]. apply cput_ok; auto.
    Qed.
    Theorem run_ok p : forall st t, scovered R width depth ctx p t -> srep st t -> exists st', sh_run R req ctxs p st = Ok st' /\ srep st' (trun R width depth p t).
    Proof.
      unfold sh_run, trun. induction p as [|k p IH]; intros st t Hc H; cbn [for_ fold_left].
      - exists st. auto.
      - destruct Hc as [Hm Hc]. destruct (step_ok k st t Hm H) as (st' & E & H'). rewrite E. cbn [bind]. apply IH; auto.
    Qed.
    Lemma srep_start : srep (sh_start R) (tstart R).
    Proof. split; [intros x; exact I|]. split; intros w; apply c_inv_nil. Qed.
    Lemma sees_ok o t : orep (Some o) (Some t) -> sees R width depth req ctxs o t.
    Proof.
      intros (E1 & E2 & Hctx & Hd). assert (T := ctx_tb _ Hctx). destruct Hctx as (HP & HS & HN1 & HE).
      assert (Kn : t_kind R t <> KNull) by (intros Q; rewrite Q in Hd; destruct Hd).
      assert (Hr : rep R (width (t_ctx R t)) (depth (t_ctx R t)) (ctxs (t_ctx R t)) (t_ctx R t) (t_kind R t) (handle_of R o) (t_val R t)).
      { unfold handle_of. rewrite E1. apply some_rep; auto. }
      split; [auto|]. split; [auto|]. split; [eapply dense_flag; eauto|]. split; [|split].
      - destruct (items_ok R req Hreq _ _ _ HP HS T HN1 ctxs (t_ctx R t) eq_refl _ _ _ Hr) as (l & E & A1 & A2 & A3). exists l. split; [exact E|]. split; [auto|]. split; [|auto].
        intros i x Hi. destruct (A2 i x Hi) as (u & B1 & B2 & B3 & _). eauto.
      - intros u Hu Hd'. eapply (get_ok R req _ _ _ HP HS T HN1 ctxs _ eq_refl); eauto. rewrite <- (dense_flag _ _ _ _ HP _ _ _ _ Hr). auto.
      - eapply (is_zero_ok R req Hreq _ _ _ HP HS T HN1); eauto.
    Qed.
    Theorem programs p : scovered R width depth ctx p (tstart R) ->
      exists e cs, sh_run R req ctxs p (sh_start R) = Ok (e, cs) /\
      (forall x, match e x, trun R width depth p (tstart R) x with
         | Some o, Some t => sees R width depth req ctxs o t | None, None => True | _, _ => False end) /\
      (forall x y o o' t t', e x = Some o -> e y = Some o' -> trun R width depth p (tstart R) x = Some t -> trun R width depth p (tstart R) y = Some t' -> t_ctx R t = t_ctx R t' ->
         exists r, h_eqb R req ctxs (handle_of R o) (handle_of R o') = Ok r /\ (r = true <-> forall u, t_val R t u = t_val R t' u)).
    Proof.
      intros Hc. destruct (run_ok p (sh_start R) (tstart R) Hc srep_start) as ([e cs] & E & [He _]). exists e, cs. split; [exact E|]. cbn [fst] in He. split.
      - intros x. specialize (He x). destruct (e x) as [o|], (trun R width depth p (tstart R) x) as [t|]; try exact He. apply sees_ok. exact He.
      - intros x y o o' t t' E1 E2 E3 E4 Ec. assert (H1 := He x). assert (H2 := He y). rewrite E1, E3 in H1. rewrite E2, E4 in H2. destruct H1 as (A1 & A2 & Hctx & Hd). destruct H2 as (A3 & A4 & _ & Hd2).
        assert (T := ctx_tb _ Hctx). destruct Hctx as (HP & HS & HN1 & HE). unfold handle_of. rewrite A1, A3, <- Ec in *.
        eapply (eqb_ok R req Hreq _ _ _ HP HS T HN1 ctxs _ eq_refl); apply some_rep; eauto; intros Q; [rewrite Q in Hd; destruct Hd|rewrite Q in Hd2; destruct Hd2].
    Qed.
  End Programs.
End Products.
