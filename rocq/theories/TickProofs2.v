(** Tick streams: filling the tree of log-signatures. *)
From Coq Require Import ZifyBool Lqa Qround.
From Verif Require Export TickProofs.
From Verif Require Import DyadicProofs DyadicProofs2 DyadicProofs3.
Open Scope Z_scope.

Lemma filter_two {A} (key : A -> Z) (f : A -> bool) t l : StronglySorted (fun a b => key a <= key b) l ->
  filter f l = filter (fun e => f e && (key e <? t)) l ++ filter (fun e => f e && (t <=? key e)) l.
Proof.
  induction 1 as [|e l Hl IH He]; auto. cbn [filter]. destruct (key e <? t) eqn:E.
  - replace (t <=? key e) with false by lia. rewrite andb_true_r, andb_false_r. destruct (f e); cbn [app]; rewrite IH; auto.
  - replace (t <=? key e) with true by lia. rewrite andb_true_r, andb_false_r. assert (N : filter (fun e0 => f e0 && (key e0 <? t)) l = []).
    { clear IH. induction l as [|x l IHl]; auto. rewrite Forall_forall in He. cbn [filter]. assert (key e <= key x) by (apply He; left; auto). replace (key x <? t) with false by lia. rewrite andb_false_r. apply IHl.
      - inversion Hl; auto.
      - rewrite Forall_forall. intros y Hy. apply He. right; auto. }
    rewrite N in *. cbn [app] in *. rewrite IH. reflexivity.
Qed.

Section Fill.
  Variable lie : Type.
  Variable is_zero is_null : lie -> bool.
  Variable none : lie.
  Variable cbh2 : lie -> lie -> lie.
  Variable S : sigs lie.
  Variable ok : lie -> Prop.
  Variable ctx : actx lie.
  Hypothesis HS : sound is_zero S ok ctx.
  Hypothesis H2 : sound2 is_zero is_null none cbh2 S ok.
  Variable res : Z.
  Hypothesis Hres : - 2 ^ 27 <= res <= 2 ^ 27.
  Variable ts : list (Q * lie).
  Notation cell e := (tick_cell res (fst e)).
  Hypothesis Hsort : StronglySorted (fun a b : Q * lie => cell a <= cell b) ts.
  Definition C (c : Z) : Prop := exists e, In e ts /\ cell e = c.
  Hypothesis Cb : forall c, C c -> - 2 ^ 28 <= c < 2 ^ 28.
  Variable times : incs Datatypes.unit.
  Hypothesis Tasc : ascending times.
  Hypothesis Tin : forall t, In t times <-> exists c, t = (dy c res, tt) /\ C c.
  Infix "===" := (sg_eq S) (at level 70).
  Notation nd := (nd res).
  Notation look := (look lie).
  Notation ends := (ends C).
  Notation mfit := (mfit lie res).

  Lemma none_zero : is_zero none = true.
  Proof. apply (s2_null _ _ _ _ _ _ H2), (s2_none _ _ _ _ _ _ H2). Qed.

  (** The ticks below a node. *)
  Definition tkp (k m : Z) : list (Q * lie) := filter (fun e => cell e / 2 ^ m =? k) ts.
  Definition good (v : lie) (l : list (Q * lie)) : Prop := sg_of S v === sg_prod S (map snd l) /\ ok v.
  Definition below (k m c : Z) : Prop := c / 2 ^ m = k.
  Lemma inside_below k m c : 0 <= m -> (inside res k (res - m) c <-> below k m c).
  Proof.
    intros Hm. unfold inside, below. rewrite (div_range c m k Hm). rewrite (dy_scale k (res - m) m), (dy_scale (k + 1) (res - m) m) by lia. replace (res - m + m) with res by lia.
    rewrite dy_same_le, dy_same_lt. reflexivity.
  Qed.
  Lemma tkp_split k m : 1 <= m -> tkp k m = tkp (2 * k) (m - 1) ++ tkp (2 * k + 1) (m - 1).
  Proof.
    intros Hm. unfold tkp. rewrite (filter_two (fun e => cell e) _ ((2 * k + 1) * 2 ^ (m - 1)) ts Hsort). assert (P := pow2_pos (m - 1) ltac:(lia)).
    assert (E : 2 ^ m = 2 * 2 ^ (m - 1)) by (rewrite <- Z.pow_succ_r by lia; f_equal; lia).
    f_equal; apply filter_ext; intros e; apply eq_true_iff_eq; rewrite andb_true_iff, !Z.eqb_eq, !div_range, E by lia; nia.
  Qed.
  Lemma tkp_same k m k' m' : (forall c, C c -> (below k m c <-> below k' m' c)) -> tkp k m = tkp k' m'.
  Proof.
    intros H. unfold tkp. apply filter_ext_in. intros e He. apply eq_true_iff_eq. rewrite !Z.eqb_eq. apply H. exists e. auto.
  Qed.

  Definition has (M : cache lie) (k m : Z) : Prop := nfit k m /\ exists v, look M (nd k m) = Some v /\ good v (tkp k m).
  Definition covered (M : cache lie) (k m : Z) : Prop :=
    forall k' m' a b u, 0 <= m' <= m -> k' / 2 ^ (m - m') = k -> ends (below k' m') a b -> meet a b u -> has M (a / 2 ^ u) u.
  Record inv (M : cache lie) : Prop := mkInv {
    i_fit : mfit M;
    i_val : forall k m v, nfit k m -> look M (nd k m) = Some v -> m = 0 \/ is_zero v = false -> good v (tkp k m);
    i_cell : forall c, C c -> exists v, look M (nd c 0) = Some v;
    i_cov : forall k m v, nfit k m -> look M (nd k m) = Some v -> is_zero v = false -> covered M k m }.

  Lemma nfit_cell c : C c -> nfit c 0.
  Proof. intros Hc. assert (X := nfit_div c 0 ltac:(lia) (Cb c Hc)). rewrite Z.pow_0_r, Z.div_1_r in X. exact X. Qed.
  Lemma inv_cell M c : inv M -> C c -> has M c 0.
  Proof. intros HM Hc. split; [apply nfit_cell; auto|]. destruct (i_cell M HM c Hc) as (v & E). exists v. split; auto. apply (i_val M HM c 0 v (nfit_cell c Hc) E). auto. Qed.
  Lemma has_mono M M' : (forall k m, has M k m -> has M' k m) -> forall k m, covered M k m -> covered M' k m.
  Proof. intros H k m Hc k' m' a b u H1 H3 H4 H5. apply H. eapply Hc; eauto. Qed.
  Lemma cov_any M kr mr : covered M kr mr -> 0 <= mr -> forall k m a b u, 0 <= m -> ends (below k m) a b -> (forall c, C c -> below k m c -> below kr mr c) -> meet a b u -> has M (a / 2 ^ u) u.
  Proof.
    intros Hc Hmr k m a b u Hm He Hsub Hu. assert (A := He). destruct A as (Ca & Ba & _). assert (Br := Hsub a Ca Ba). unfold below in Ba, Br. destruct (Z_le_gt_dec m mr) as [L|L].
    - apply (Hc k m a b u); auto. rewrite <- Ba. rewrite <- (div_up a m mr) by lia. exact Br.
    - apply (Hc kr mr a b u); [lia|rewrite Z.sub_diag, Z.pow_0_r, Z.div_1_r; reflexivity| |exact Hu]. apply (ends_ext C (below k m)); auto. intros c Cc. split; [apply Hsub; auto|].
      unfold below. intros X. rewrite (div_up c mr m) by lia. rewrite X, <- Br, <- (div_up a mr m) by lia. exact Ba.
  Qed.
  Lemma nd_inj k m k' m' : nd k m = nd k' m' -> k = k' /\ m = m'.
  Proof. unfold TickProofs.nd. intros [= -> H]. split; auto. lia. Qed.
  Lemma nd_fit k m : nfit k m -> kfit res (nd k m).
  Proof. intros H. exists k, m. auto. Qed.

  Lemma rec_ok (N : nat) : forall k m M fuel, nfit k m -> m < Z.of_nat N -> inv M -> (N + 29 <= fuel)%nat ->
    exists v M', tk_recursive is_zero none fuel times res ctx M (nd k m) = Ok (v, M') /\ inv M' /\ (forall k m, has M k m -> has M' k m) /\ good v (tkp k m) /\ covered M' k m.
  Proof.
    induction N as [|N IH]; intros k m M fuel Hkm HN HM Hf; [destruct Hkm; lia|]. destruct fuel as [|fuel]; [lia|]. cbn [tk_recursive].
    assert (Kb := nfit_k _ _ Hkm). assert (Hm : 0 <= m) by apply Hkm.
    destruct (smallest_eval res Hres times C Tasc Tin Cb k (res - m) (Datatypes.S fuel) Kb ltac:(lia)) as [[E Hno]|(a & b & Hab & Hgo)].
    - change (mkDI k (res - m) Clopen) with (nd k m) in E. rewrite E. cbn [bind]. exists (cx_zero ctx), M. split; auto. split; auto. split; auto. split.
      + split; [|apply (sd_zero_ok _ _ _ _ HS)]. replace (tkp k m) with (@nil (Q * lie)); [apply (sd_zero _ _ _ _ HS)|]. symmetry. unfold tkp.
        destruct (filter _ ts) as [|e l] eqn:F; auto. exfalso. assert (In e (filter (fun e => cell e / 2 ^ m =? k) ts)) as Hin by (rewrite F; left; auto). apply filter_In in Hin. destruct Hin as [Hin X].
        apply (Hno (cell e)); [exists e; auto|]. apply inside_below; auto. unfold below. lia.
      + intros k' m' a b u Hm' Hk' (Ca & Ba & _) _. exfalso. apply (Hno a Ca). apply inside_below; auto. unfold below in *. rewrite (div_up a m' m) by lia. rewrite Ba. exact Hk'.
    - apply (ends_ext C _ (below k m)) in Hab; [|intros; apply inside_below; auto]. assert (A := Hab). destruct A as (Ca & Ba & Cbb & Bb & Hall). unfold below in Ba, Bb.
      assert (Ra := proj1 (div_range a m k Hm) Ba). assert (Rb := proj1 (div_range b m k Hm) Bb). assert (Pm := pow2_pos m Hm). assert (Le : a <= b) by (apply Hall; auto).
      assert (Hsign : 0 <= a \/ b < 0) by (destruct (Z_le_gt_dec 0 k); [left|right]; nia).
      destruct (Hgo Hsign) as (u & Hu & U28 & E). change (mkDI k (res - m) Clopen) with (nd k m) in E. rewrite E. cbn [bind]. clear Hgo E.
      assert (Ub : 0 <= u <= m) by (split; [apply Hu|apply (meet_le a b u m Hu Hm); congruence]).
      set (kj := a / 2 ^ u) in *. assert (Fj : nfit kj u) by (apply nfit_div; [lia|apply Cb; auto]).
      assert (Ej : forall c, C c -> (below k m c <-> below kj u c)).
      { intros c Cc. unfold below. split.
        - intros X. assert (R := Hall c Cc X). apply (div_between a c b u); [lia|lia|apply Hu].
        - intros X. rewrite (div_up c u m) by lia. rewrite X. unfold kj. rewrite <- (div_up a u m) by lia. exact Ba. }
      assert (Tj : tkp k m = tkp kj u) by (apply tkp_same; exact Ej).
      assert (Hab_j : ends (below kj u) a b) by (apply (ends_ext C (below k m)); auto).
      destruct (entry_look lie res none M (nd kj u) (i_fit M HM) (nd_fit _ _ Fj)) as (v0 & M1 & E1 & F1 & L1 & L2 & L3). rewrite E1. cbn [bind]. clear E1.
      assert (HM1 : inv M1).
      { destruct HM as [I1 I2 I3 I4].
        assert (Hlk : forall k m v, nfit k m -> look M1 (nd k m) = Some v -> look M (nd k m) = Some v \/ (k = kj /\ m = u /\ v = none /\ look M (nd k m) = None)).
        { intros k1 m1 v1 Hf1 Hl1. destruct (Z.eq_dec k1 kj) as [->|N1]; [destruct (Z.eq_dec m1 u) as [->|N1]|].
          - assert (v1 = v0) as -> by congruence. destruct (look M (nd kj u)) as [w|]; [left; congruence|right; auto].
          - rewrite L2 in Hl1; [auto|apply nd_fit; auto|]. intros X. apply nd_inj in X. lia.
          - rewrite L2 in Hl1; [auto|apply nd_fit; auto|]. intros X. apply nd_inj in X. lia. }
        assert (Hlk2 : forall k m v, nfit k m -> look M (nd k m) = Some v -> look M1 (nd k m) = Some v).
        { intros k1 m1 v1 Hf1 Hl1. destruct (Z.eq_dec k1 kj) as [->|N1]; [destruct (Z.eq_dec m1 u) as [->|N1]|].
          - rewrite Hl1 in L3. congruence.
          - rewrite L2; [auto|apply nd_fit; auto|]. intros X. apply nd_inj in X. lia.
          - rewrite L2; [auto|apply nd_fit; auto|]. intros X. apply nd_inj in X. lia. }
        constructor; auto.
        - intros k1 m1 v1 Hf1 Hl1 Hz. destruct (Hlk k1 m1 v1 Hf1 Hl1) as [X|(-> & -> & -> & X)]; [eapply I2; eauto|]. exfalso. destruct Hz as [->|Hz]; [|rewrite none_zero in Hz; discriminate].
          unfold kj in X. rewrite Z.pow_0_r, Z.div_1_r in X. destruct (I3 a Ca) as (w & Ew). congruence.
        - intros c Cc. destruct (I3 c Cc) as (w & Ew). exists w. apply Hlk2; auto. apply nfit_cell; auto.
        - intros k1 m1 v1 Hf1 Hl1 Hz. destruct (Hlk k1 m1 v1 Hf1 Hl1) as [X|(-> & -> & -> & X)]; [|rewrite none_zero in Hz; discriminate].
          apply (has_mono M M1); [|eapply I4; eauto]. intros k2 m2 (Hf2 & w & Ew & Gw). split; auto. exists w. split; auto. }
      assert (Mono1 : forall k m, has M k m -> has M1 k m).
      { intros k2 m2 (Hf2 & w & Ew & Gw). split; auto. exists w. split; auto. destruct (Z.eq_dec k2 kj) as [->|N1]; [destruct (Z.eq_dec m2 u) as [->|N1]|].
        - rewrite Ew in L3. congruence.
        - rewrite L2; [auto|apply nd_fit; auto|]. intros X. apply nd_inj in X. lia.
        - rewrite L2; [auto|apply nd_fit; auto|]. intros X. apply nd_inj in X. lia. }
      assert (CovUp : forall M', covered M' kj u -> covered M' k m).
      { intros M' Hc k' m' a' b' u' Hm' Hk' He' Hu'. apply (cov_any M' kj u Hc ltac:(lia) k' m' a' b' u'); auto; [lia|]. intros c Cc Bc. apply Ej; auto. unfold below in *. rewrite (div_up c m' m) by lia. rewrite Bc. exact Hk'. }
      destruct (is_zero v0) eqn:Z0; cbn [negb].
      2:{ exists v0, M1. split; auto. split; auto. split; auto. split; [rewrite Tj; apply (i_val M1 HM1 kj u v0); auto|]. apply CovUp. apply (i_cov M1 HM1 kj u v0); auto. }
      change (di_n (nd kj u)) with (res - u). destruct (res - u =? res) eqn:Eu.
      + assert (u = 0) as -> by lia. exists v0, M1. split; auto. split; auto. split; auto. split; [rewrite Tj; apply (i_val M1 HM1 kj 0 v0); auto|]. apply CovUp.
        intros k' m' a' b' u' Hm' Hk' He' Hu'. assert (m' = 0) as -> by lia. rewrite Z.sub_diag, Z.pow_0_r, Z.div_1_r in Hk'. subst k'. destruct (ends_fun C _ _ _ _ _ He' Hab_j) as [-> ->].
        rewrite (meet_fun a b u' 0 Hu' Hu). fold kj. unfold kj. rewrite Z.pow_0_r, Z.div_1_r. apply inv_cell; auto.
      + assert (U1 : 1 <= u) by lia. assert (Kj := nfit_k _ _ Fj). assert (Hh : half_ok (nd kj u)) by (split; cbn; lia).
        destruct (left_right_eval (nd kj u) Hh) as [EL ER]. cbn [di_k di_n di_t TickProofs.nd] in EL, ER. rewrite EL, ER. cbn [bind]. clear EL ER.
        replace (mkDI (2 * kj) (res - u + 1) Clopen) with (nd (2 * kj) (u - 1)) by (unfold TickProofs.nd; f_equal; lia).
        replace (mkDI (2 * kj + 1) (res - u + 1) Clopen) with (nd (2 * kj + 1) (u - 1)) by (unfold TickProofs.nd; f_equal; lia).
        assert (Pu := pow2_pos (u - 1) ltac:(lia)). assert (E2 : 2 ^ u = 2 * 2 ^ (u - 1)) by (rewrite <- Z.pow_succ_r by lia; f_equal; lia).
        assert (FL : nfit (2 * kj) (u - 1)) by (destruct Fj as (? & ? & ?); split; [lia|]; nia). assert (FR : nfit (2 * kj + 1) (u - 1)) by (destruct Fj as (? & ? & ?); split; [lia|]; nia).
        destruct (IH (2 * kj) (u - 1) M1 fuel FL ltac:(lia) HM1 ltac:(lia)) as (vl & M2 & R2 & I2 & Mo2 & G2 & Cv2). rewrite R2. cbn [bind].
        destruct (IH (2 * kj + 1) (u - 1) M2 fuel FR ltac:(lia) I2 ltac:(lia)) as (vr & M3 & R3 & I3 & Mo3 & G3 & Cv3). rewrite R3. cbn [bind].
        set (v := cx_cbh ctx [vl; vr]). destruct (put_look lie res M3 (nd kj u) v (i_fit M3 I3) (nd_fit _ _ Fj)) as (M4 & R4 & F4 & L4 & L4'). rewrite R4. cbn [bind].
        assert (Gv : good v (tkp kj u)).
        { destruct G2 as [G2 O2]. destruct G3 as [G3 O3]. assert (FO : Forall ok [vl; vr]) by (repeat constructor; auto). split; [|apply (sd_cbh_ok _ _ _ _ HS); auto].
          rewrite tkp_split, map_app by lia. eapply (sd_trans _ _ _ _ HS); [apply (sd_cbh _ _ _ _ HS); auto|]. apply (sd_sym _ _ _ _ HS).
          eapply (sd_trans _ _ _ _ HS); [apply (prod_app lie is_zero S ok ctx HS)|]. cbn [sg_prod fold_right]. apply (sd_mul _ _ _ _ HS); [apply (sd_sym _ _ _ _ HS); auto|].
          eapply (sd_trans _ _ _ _ HS); [apply (sd_sym _ _ _ _ HS); exact G3|]. apply (sd_sym _ _ _ _ HS), (sd_one_r _ _ _ _ HS). }
        assert (Oth : forall k1 m1, nfit k1 m1 -> (k1 = kj /\ m1 = u) \/ look M4 (nd k1 m1) = look M3 (nd k1 m1)).
        { intros k1 m1 Hf1. destruct (Z.eq_dec k1 kj) as [->|N1]; [destruct (Z.eq_dec m1 u) as [->|N1]|]; auto; right; apply L4'; try (apply nd_fit; auto); intros X; apply nd_inj in X; lia. }
        assert (Mo4 : forall k m, has M3 k m -> has M4 k m).
        { intros k1 m1 (Hf1 & w & Ew & Gw). split; auto. destruct (Oth k1 m1 Hf1) as [[-> ->]|X]; [exists v; auto|]. exists w. rewrite X. auto. }
        assert (Cj : covered M4 kj u).
        { intros k' m' a' b' u' Hm' Hk' He' Hu'. destruct (Z.eq_dec m' u) as [->|Nu].
          - rewrite Z.sub_diag, Z.pow_0_r, Z.div_1_r in Hk'. subst k'. destruct (ends_fun C _ _ _ _ _ He' Hab_j) as [-> ->]. rewrite (meet_fun a b u' u Hu' Hu). fold kj. split; auto. exists v. auto.
          - assert (D1 : k' / 2 ^ (u - m') = (k' / 2 ^ (u - 1 - m')) / 2). { rewrite (div_up k' (u - 1 - m') (u - m')) by lia. replace (u - m' - (u - 1 - m')) with 1 by lia. reflexivity. }
            assert (Hh2 : k' / 2 ^ (u - 1 - m') = 2 * kj \/ k' / 2 ^ (u - 1 - m') = 2 * kj + 1).
            { rewrite D1 in Hk'. assert (D := Z.div_mod (k' / 2 ^ (u - 1 - m')) 2 ltac:(lia)). assert (B := Z.mod_pos_bound (k' / 2 ^ (u - 1 - m')) 2 ltac:(lia)). lia. }
            apply Mo4. destruct Hh2 as [X|X]; [apply Mo3; apply (Cv2 k' m' a' b' u')|apply (Cv3 k' m' a' b' u')]; auto; lia. }
        exists v, M4. split; auto. split; [|split; [|split]].
        * constructor; auto.
          -- intros k1 m1 w Hf1 Hl Hz. destruct (Oth k1 m1 Hf1) as [[-> ->]|X]; [assert (w = v) as -> by congruence; auto|]. rewrite X in Hl. apply (i_val M3 I3 k1 m1 w); auto.
          -- intros c Cc. destruct (Oth c 0 (nfit_cell c Cc)) as [[-> <-]|X]; [eauto|]. rewrite X. apply (i_cell M3 I3); auto.
          -- intros k1 m1 w Hf1 Hl Hz. destruct (Oth k1 m1 Hf1) as [[-> ->]|X]; [auto|]. rewrite X in Hl. apply (has_mono M3 M4 Mo4). apply (i_cov M3 I3 k1 m1 w); auto.
        * intros k1 m1 X. auto.
        * rewrite Tj. exact Gv.
        * apply CovUp. exact Cj.
  Qed.
End Fill.
