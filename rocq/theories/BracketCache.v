(** Correctness of the cache for every history of queries. *)
From Coq Require Import ZifyBool Sorted.
From Verif Require Import Outcome Alg Words Mem Mobius HallModel HallSpec HallTab HallCount HallDim HallProofs HallTrees HallLookup BracketModel BracketProofs.
Local Open Scope Z_scope.

Section Cache.
  Variables (w N M : Z) (db L R : Z -> Z).
  Hypothesis H : hall_data w N M db L R.
  Notation dg := (dg N db). Notation mu := (mu N M db). Notation valid := (valid N M db). Notation BR := (BR N M db L R).
  Notation find_key := (find_key M L R). Notation half := (half N M db L R).

  (** [B] is the part of the big table up to depth [N']. *)
  Record subbasis (B : lie_basis) (N' M' : Z) : Prop := mkSB {
    sb_ok : basis_ok B w N' M';
    sb_N : N' <= N;
    sb_rows : forall k, 0 <= k <= M' -> row B k = (L k, R k);
    sb_db : forall d, 0 <= d <= N' + 1 -> bat (lb_db B) d = db d }.

  Definition Inv (c : lcache) (S : list (Z * Z)) : Prop := forall a b,
    match c a b with Absent => True | Null => In (a, b) S | Entry e => valid a b /\ e = BR a b end.

  Section One.
    Variables (B : lie_basis) (N' M' : Z).
    Hypothesis SB : subbasis B N' M'.
    Notation HB := (sb_ok _ _ _ SB).

    Lemma sub_N : 1 <= N' <= N.
    Proof. split; [apply (hd_N _ _ _ _ _ _ (bo_hall _ _ _ _ HB))|apply (sb_N _ _ _ SB)]. Qed.
    Lemma sub_top : db (N' + 1) = M' + 1.
    Proof. assert (X := sub_N). rewrite <- (sb_db _ _ _ SB) by lia. apply (hd_top _ _ _ _ _ _ (bo_hall _ _ _ _ HB)). Qed.
    Lemma sub_M : M' <= M.
    Proof. assert (X := sub_N). assert (Y := db_mono _ _ _ _ _ _ H (N' + 1) (N + 1) ltac:(lia) ltac:(lia) ltac:(lia)). rewrite sub_top, (hd_top _ _ _ _ _ _ H) in Y. lia. Qed.
    Lemma sub_key k : 1 <= k <= M -> (k <= M' <-> dg k <= N').
    Proof.
      intros Hk. assert (X := sub_N). destruct (dg_level _ _ _ _ _ _ H k Hk) as [D1 D2]. split; intros Hle.
      - destruct (Z_le_gt_dec (dg k) N'); auto. assert (Y := db_mono _ _ _ _ _ _ H (N' + 1) (dg k) ltac:(lia) ltac:(lia) ltac:(lia)). rewrite sub_top in Y. lia.
      - assert (Y := db_mono _ _ _ _ _ _ H (dg k + 1) (N' + 1) ltac:(lia) ltac:(lia) ltac:(lia)). rewrite sub_top in Y. lia.
    Qed.
    Lemma sub_degree k : 1 <= k <= M' -> lb_degree B k = Ok (dg k).
    Proof.
      intros Hk. assert (X := sub_N). assert (Y := sub_M). destruct (dg_level _ _ _ _ _ _ H k ltac:(lia)) as [D1 D2].
      assert (Hd : dg k <= N') by (apply sub_key; lia). apply (degree_ok _ _ _ _ HB); [lia|]. rewrite !(sb_db _ _ _ SB) by lia. auto.
    Qed.
    Lemma sub_degree_big k : M' < k -> lb_degree B k = Ok N'.
    Proof.
      intros Hk. assert (X := sub_N). unfold lb_degree. rewrite (bo_N _ _ _ _ HB).
      destruct (degree_loop_ok _ _ _ _ HB (S (Z.to_nat (N' + 1))) k 0 (N' + 1)) as (p & -> & P1 & P2 & P3); try lia.
      cbn [bind]. f_equal. destruct (Z.eq_dec p (N' + 1)); [lia|]. assert (Y := P3 N' ltac:(lia)).
      assert (Z0 := hd_mono _ _ _ _ _ _ (bo_hall _ _ _ _ HB) N' ltac:(lia)). rewrite (hd_top _ _ _ _ _ _ (bo_hall _ _ _ _ HB)) in Z0. lia.
    Qed.
    Lemma sub_find i j : valid i j -> i < j -> dg i + dg j <= N' ->
      find_word B (i, j) (dg i + dg j) = Ok (match find_key i j with Some k => k | None => -1 end).
    Proof.
      intros V Hij Hd. assert (X := sub_N). assert (HV := V). destruct V as (Hi & Hj & _).
      assert (D1 := proj1 (dg_level _ _ _ _ _ _ H i Hi)). assert (D2 := proj1 (dg_level _ _ _ _ _ _ H j Hj)).
      assert (Hblk : forall k, 1 <= k <= M -> dg k = dg i + dg j -> bat (lb_db B) (dg i + dg j) <= k < bat (lb_db B) (dg i + dg j + 1)).
      { intros k Hk Ek. rewrite !(sb_db _ _ _ SB) by lia. rewrite <- Ek. apply (dg_level _ _ _ _ _ _ H k Hk). }
      assert (Hrow : forall k, bat (lb_db B) (dg i + dg j) <= k < bat (lb_db B) (dg i + dg j + 1) -> 1 <= k <= M' /\ row B k = (L k, R k)).
      { intros k Hk. assert (Y := lpos _ _ _ _ _ _ (bo_hall _ _ _ _ HB) _ _ Hk ltac:(lia)). split; auto. apply (sb_rows _ _ _ SB). lia. }
      assert (HM := sub_M).
      destruct (find_word_hint_ok _ _ _ _ HB (dg i + dg j) (i, j) ltac:(lia)) as [(k & -> & K1 & K2)|[(-> & N1 & _)|(_ & N1 & _)]].
      - destruct (Hrow k K1) as [P1 P2]. rewrite P2 in K2. injection K2 as K2 K3.
        rewrite (find_key_unique _ _ _ _ _ _ H i j k); auto; lia.
      - destruct (find_key i j) as [k|] eqn:E; [|reflexivity]. exfalso. apply (find_key_some _ _ _ _ _ _ H) in E; [|lia]. destruct E as (E1 & E2 & E3 & E4).
        assert (Y := Hblk k E1 E4). apply (N1 k Y). destruct (Hrow k Y) as [_ ->]. rewrite E2, E3. reflexivity.
      - exfalso. destruct (not_last _ _ _ _ _ _ H i j HV Hij) as (k & K1 & K2 & K3). assert (Y := Hblk k K1 K2).
        assert (Hlt := N1 k Y). rewrite (proj2 (Hrow k Y)) in Hlt. destruct K3 as [K3|K3].
        + rewrite K3 in Hlt. apply (lex_irrefl _ Hlt).
        + apply (lex_irrefl (i, j)). apply (lex_trans _ (L k, R k)); auto.
    Qed.

    Definition below (c : Z) (S : list (Z * Z)) : Prop := forall s, In s S -> c < mu (fst s) (snd s).
    Definition good (get : getter) (S : list (Z * Z)) (bound : Z) : Prop := forall c a b,
      valid a b -> dg a + dg b <= N' -> mu a b < bound -> Inv c S ->
      exists c', get c (a, b) = Ok (Some (BR a b), c') /\ Inv c' S.

    Lemma half_loop_ok get S bound r sign : good get S bound -> forall o m c,
      (forall p, In p o -> valid (fst p) r /\ dg (fst p) + dg r <= N' /\ mu (fst p) r < bound) -> Inv c S ->
      exists c', half_loop get o r sign m c = Ok (Some (half o r sign m), c') /\ Inv c' S.
    Proof.
      intros HG. induction o as [|[x val] o IH]; intros m c Ho Hc; cbn [half_loop].
      - exists c. auto.
      - destruct (Ho (x, val) (or_introl eq_refl)) as (V & D & U). cbn [fst] in *.
        destruct (HG c x r V D U Hc) as (c1 & -> & Hc1). cbn [bind].
        destruct (IH (vals_add_all (sign * val) (BR x r) m) c1) as (c2 & -> & Hc2); auto; [intros; apply Ho; right; auto|].
        exists c2. auto.
    Qed.

    Lemma slow_ok get S i j sign c : sign = 1 \/ sign = -1 -> valid i j -> i < j -> dg i + dg j <= N' -> find_key i j = None ->
      good get S (mu i j) -> Inv c S ->
      exists c', bracket_slow get B c (i, j) sign = Ok (Some (if sign =? 1 then BR i j else BR j i), c') /\ Inv c' S.
    Proof.
      intros Hs V Hij Hd E HG Hc. destruct (slow_calls _ _ _ _ _ _ H i j V Hij E) as ((V1 & M1) & (V2 & M2) & C1 & C2 & (B1 & B2 & B3 & B4)).
      assert (HM := sub_M). assert (HN := sub_N). destruct V as (Hi & Hj & Hd0). assert (HjM : j <= M') by (apply sub_key; auto; assert (X := proj1 (dg_level _ _ _ _ _ _ H i Hi)); lia).
      unfold bracket_slow. cbn [fst snd]. rewrite (parents_ok _ _ _ _ HB). replace ((j <=? 0) || (j >=? M' + 1)) with false by lia.
      rewrite (sb_rows _ _ _ SB) by lia. replace ((L j >? 0) && negb (i =? L j)) with true by lia. replace (negb (i =? R j)) with true by lia.
      assert (Dj : dg (L j) + dg (R j) = dg j) by (destruct (find_key_none _ _ _ _ _ _ H i j (conj Hi (conj Hj Hd0)) Hij E) as [_ Hw]; destruct (node_dg _ _ _ _ _ _ H j Hj Hw); tauto).
      assert (P1 := proj1 (dg_level _ _ _ _ _ _ H (L j) ltac:(lia))). assert (P2 := proj1 (dg_level _ _ _ _ _ _ H (R j) ltac:(lia))).
      assert (K1 : forall p, In p (BR i (L j)) -> valid (fst p) (R j) /\ dg (fst p) + dg (R j) <= N' /\ mu (fst p) (R j) < mu i j).
      { intros p Hp. destruct (BR_keys _ _ _ _ _ _ H i (L j) V1 p Hp) as [X1 X2]. destruct (C1 _ X1 X2) as (Y1 & Y2 & Y3). split; auto. split; [lia|auto]. }
      assert (K2 : forall p, In p (BR i (R j)) -> valid (fst p) (L j) /\ dg (fst p) + dg (L j) <= N' /\ mu (fst p) (L j) < mu i j).
      { intros p Hp. destruct (BR_keys _ _ _ _ _ _ H i (R j) V2 p Hp) as [X1 X2]. destruct (C2 _ X1 X2) as (Y1 & Y2 & Y3). split; auto. split; [lia|auto]. }
      unfold bracket_half.
      destruct (HG c i (L j) V1 ltac:(lia) M1 Hc) as (c1 & -> & Hc1). cbn [bind].
      destruct (half_loop_ok get S (mu i j) (R j) sign HG (BR i (L j)) [] c1 K1 Hc1) as (c2 & -> & Hc2). cbn [bind].
      destruct (HG c2 i (R j) V2 ltac:(lia) M2 Hc2) as (c3 & -> & Hc3). cbn [bind].
      destruct (half_loop_ok get S (mu i j) (L j) (- sign) HG (BR i (R j)) (half (BR i (L j)) (R j) sign []) c3 K2 Hc3) as (c4 & -> & Hc4).
      exists c4. split; auto. rewrite (BR_slow_sign _ _ _ _ _ _ H); auto. repeat split; tauto.
    Qed.

    Lemma get_ok fuel : forall S a b c, valid a b -> dg a + dg b <= N' -> mu a b < Z.of_nat fuel -> below (mu a b) S -> Inv c S ->
      exists c', lmc_get fuel B c (a, b) = Ok (Some (BR a b), c') /\ Inv c' S.
    Proof.
      induction fuel as [|fuel IH]; intros S a b c V Hd Hf Hb Hc; [assert (X := min_dg _ _ _ _ _ _ H a b V); lia|].
      assert (HM := sub_M). assert (HN := sub_N). assert (HV := V). destruct V as (Ha & Hbb & Hd0).
      assert (D1 := proj1 (dg_level _ _ _ _ _ _ H a Ha)). assert (D2 := proj1 (dg_level _ _ _ _ _ _ H b Hbb)).
      assert (HaM : a <= M') by (apply sub_key; auto; lia). assert (HbM : b <= M') by (apply sub_key; auto; lia).
      cbn [lmc_get]. replace ((a =? 0) || (b =? 0)) with false by lia.
      destruct (a =? b) eqn:Eab.
      { assert (a = b) by lia. subst b. rewrite BR_same. eauto. }
      rewrite !sub_degree by lia. cbn [bind]. rewrite (bo_N _ _ _ _ HB). replace (dg a + dg b >? N') with false by lia.
      rewrite (true_size_ok _ _ _ _ HB). cbn [bind]. replace ((a >=? M' + 1) || (b >=? M' + 1)) with false by lia.
      assert (Iab := Hc a b). destruct (c a b) as [| |e] eqn:Ec.
      - (* absent *)
        set (c1 := cset c a b Null).
        assert (E1 : c1 b a = c b a) by (unfold c1, cset; replace ((b =? a) && (a =? b)) with false by lia; reflexivity).
        assert (Hc1 : Inv c1 ((a, b) :: S)).
        { intros x y. unfold c1, cset. destruct ((x =? a) && (y =? b)) eqn:Exy; [left; f_equal; lia|]. assert (X := Hc x y). destruct (c x y); auto. right; auto. }
        assert (Hfin : forall c' e, e = BR a b -> Inv c' ((a, b) :: S) -> Inv (cset c' a b (Entry e)) S).
        { intros c' e -> Hc' x y. unfold cset. destruct ((x =? a) && (y =? b)) eqn:Exy.
          - replace x with a by lia. replace y with b by lia. auto.
          - assert (X := Hc' x y). destruct (c' x y); auto. destruct X as [X|X]; auto. injection X as -> ->. lia. }
        rewrite E1. assert (Iba := Hc b a). destruct (c b a) as [| |e] eqn:Ecb.
        + (* compute *)
          assert (HG : good (lmc_get fuel B) ((a, b) :: S) (mu a b)).
          { intros c' x y Vx Dx Ux Hc'. apply IH; auto; [lia|]. intros s [<-|Hs]; cbn [fst snd]; [auto|]. apply Hb in Hs. lia. }
          unfold compute_bracket. cbn [fst snd]. destruct (a >? b) eqn:Egt.
          * assert (HV' : valid b a) by (unfold BracketProofs.valid; lia).
            rewrite (Z.add_comm (dg a)), (sub_find b a HV' ltac:(lia) ltac:(lia)). cbn [bind].
            destruct (find_key b a) as [k|] eqn:Ef.
            -- assert (X := find_key_some _ _ _ _ _ _ H b a k ltac:(lia) Ef). replace (k >? 0) with true by lia. cbn [bind].
               assert (EB : BR a b = [(k, -1)]) by (rewrite (BR_swap _ _ _ _ _ b a), (BR_hall _ _ _ _ _ b a k) by (auto; lia); reflexivity).
               rewrite EB. eexists. split; [reflexivity|]. apply Hfin; auto.
            -- replace (-1 >? 0) with false by reflexivity.
               destruct (slow_ok (lmc_get fuel B) ((a, b) :: S) b a (-1) c1) as (c2 & -> & Hc2); auto; try lia.
               { rewrite (mu_sym _ _ _ b a). auto. }
               cbn [bind]. cbn [Z.eqb]. eexists. split; [reflexivity|]. apply Hfin; auto.
          * rewrite (sub_find a b HV ltac:(lia) ltac:(lia)). cbn [bind].
            destruct (find_key a b) as [k|] eqn:Ef.
            -- assert (X := find_key_some _ _ _ _ _ _ H a b k ltac:(lia) Ef). replace (k >? 0) with true by lia. cbn [bind].
               assert (EB : BR a b = [(k, 1)]) by (apply BR_hall; auto; lia).
               rewrite EB. eexists. split; [reflexivity|]. apply Hfin; auto.
            -- replace (-1 >? 0) with false by reflexivity.
               destruct (slow_ok (lmc_get fuel B) ((a, b) :: S) a b 1 c1) as (c2 & -> & Hc2); auto; try lia.
               cbn [bind]. cbn [Z.eqb Pos.eqb]. eexists. split; [reflexivity|]. apply Hfin; auto.
        + exfalso. apply Hb in Iba. cbn [fst snd] in Iba. rewrite (mu_sym _ _ _ b a) in Iba. lia.
        + destruct Iba as [_ ->]. fold (neg (BR b a)). rewrite <- BR_swap. eexists. split; [reflexivity|]. apply Hfin; auto.
      - exfalso. apply Hb in Iab. cbn [fst snd] in Iab. lia.
      - destruct Iab as [_ ->]. eauto.
    Qed.

    (** Keys outside the basis, or total degree above its depth: the zero element. *)
    Lemma get_out fuel a b c : 1 <= a -> 1 <= b -> M' < a \/ M' < b \/ N' < dg a + dg b ->
      lmc_get (S fuel) B c (a, b) = Ok (Some [], c).
    Proof.
      intros Ha Hb Hout. assert (HM := sub_M). assert (HN := sub_N). cbn [lmc_get]. replace ((a =? 0) || (b =? 0)) with false by lia.
      destruct (a =? b); auto.
      assert (Dany : forall k, 1 <= k -> exists d, lb_degree B k = Ok d /\ 1 <= d /\ (M' < k -> d = N') /\ (k <= M' -> d = dg k)).
      { intros k Hk. destruct (Z_le_gt_dec k M') as [Hle|Hgt].
        - exists (dg k). split; [apply sub_degree; lia|]. split; [apply (dg_level _ _ _ _ _ _ H k); lia|]. split; [lia|auto].
        - exists N'. split; [apply sub_degree_big; lia|]. split; [lia|]. split; [auto|lia]. }
      destruct (Dany a Ha) as (da & -> & A1 & A2 & A3). destruct (Dany b Hb) as (db' & -> & B1 & B2 & B3). cbn [bind].
      rewrite (bo_N _ _ _ _ HB).
      assert (Hgt : da + db' > N').
      { destruct (Z_le_gt_dec a M') as [Ha'|Ha']; [|rewrite A2 by lia; lia]. destruct (Z_le_gt_dec b M') as [Hb'|Hb']; [|rewrite B2 by lia; lia].
        rewrite A3, B3 by lia. lia. }
      replace (da + db' >? N') with true by lia. reflexivity.
    Qed.
  End One.
End Cache.
