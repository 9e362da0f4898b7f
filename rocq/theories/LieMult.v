(** The Lie multiplier of the vendored library: with any cache that earlier products of any contexts of
    the same width left, its answers are the brackets of Hall basis elements. *)
From Coq Require Import ZifyBool Sorted.
From Verif Require Import LieObjModel Alg Words KeyProofs KeyProofs2 HallModel HallTab HallDim HallTrees HsProofs HsLemmas BracketModel BracketProofs BracketSem LieSpec LieTab LieBasis LieProd.
Open Scope Z_scope.

Section Width.
  Variable w : Z.
  Hypothesis Hw : 1 <= w.
  Notation UM := (UM w). Notation Udb := (Udb w). Notation UL := (UL w). Notation UR := (UR w). Notation UK := (UK w). Notation ug := (ug w). Notation UH := (UH w Hw).
  Notation co := (co Z Z.eqb).
  (** A basis element of some context whose keys fit *)
  Definition small (k : Z) : Prop := exists N, packs w N /\ 1 <= N /\ 1 <= k <= nM w N.
  Lemma packs_N N : packs w N -> 1 <= N -> 1 <= N <= 254. Proof. intros (_ & X & _). lia. Qed.
  Lemma nM_mono N N' : 1 <= N <= N' -> N' <= 254 -> nM w N <= nM w N'.
  Proof.
    intros H1 H2. assert (A := nM_top w Hw N ltac:(lia)). assert (B := nM_top w Hw N' ltac:(lia)).
    assert (C := db_mono _ _ _ _ _ _ UH (N + 1) (N' + 1) ltac:(lia) ltac:(lia) ltac:(assert (Z1 := UN_eq); lia)). lia.
  Qed.
  Lemma small_inj a b : small a -> small b -> UK a = UK b -> a = b.
  Proof.
    assert (G : forall N, packs w N -> 1 <= N -> forall a b, 1 <= a <= nM w N -> 1 <= b <= nM w N -> UK a = UK b -> a = b).
    { intros N HP HN x y Hx Hy E. assert (HN' := packs_N N HP HN). rewrite <- !(nK w Hw N HN') in E by auto.
      apply (K_inj w N) in E; auto; try (unfold nM in *; lia). apply (packs_lev w Hw N HP HN). }
    intros (N & HP & HN & Ha) (N' & HP' & HN' & Hb) E. assert (A := packs_N N HP HN). assert (B := packs_N N' HP' HN').
    destruct (Z_le_gt_dec N N').
    - apply (G N'); auto. assert (C := nM_mono N N' ltac:(lia) ltac:(lia)). lia.
    - apply (G N); auto. assert (C := nM_mono N' N ltac:(lia) ltac:(lia)). lia.
  Qed.
  Definition inD (d k : Z) : Prop := 1 <= k <= UM /\ ug k = d.
  Definition UBR (a b : Z) : list (Z * Z) := BR UN UM Udb UL UR a b.
  Definition ubr (a b k : Z) : Z := co (UBR a b) k.
  Notation rep := (rep Z Z.eqb UK).
  Definition cinv (c : hcache) : Prop :=
    forall a b e p, small a -> small b -> ShufModel.c_find (UK a) (UK b) c = Some (e :: p) -> rep (inD (ug a + ug b)) (e :: p) (ubr a b).
  Lemma cinv_nil : cinv []. Proof. intros a b e p _ _ E. discriminate. Qed.

  Lemma co_vals_add m k v x : co (vals_add m k v) x = co m x + (if k =? x then v else 0).
  Proof.
    induction m as [|[k' y] m IH]; cbn [vals_add].
    - destruct (Z.eqb_spec v 0) as [->|]; [unfold LieProd.co; cbn; destruct (k =? x); lia|]. rewrite co_cons. unfold LieProd.co. cbn. lia.
    - destruct (k <? k').
      + destruct (Z.eqb_spec v 0) as [->|]; [destruct (k =? x); lia|]. rewrite (co_cons _ _ k). lia.
      + destruct (Z.eqb_spec k k') as [<-|].
        * destruct (Z.eqb_spec (y + v) 0); rewrite ?co_cons; destruct (k =? x); lia.
        * rewrite !co_cons, IH. lia.
  Qed.
  Lemma co_add_all f ip x : forall m, co (vals_add_all f ip m) x = co m x + f * co ip x.
  Proof.
    unfold vals_add_all. induction ip as [|[k v] ip IH]; intros m; cbn [fold_left fst snd].
    - unfold LieProd.co at 3. cbn. lia.
    - rewrite IH, co_vals_add, co_cons. destruct (k =? x); lia.
  Qed.
  Lemma co_half o r s x : forall m, co (half UN UM Udb UL UR o r s m) x = co m x + s * lz Z (fun k => ubr k r x) o.
  Proof.
    unfold half. induction o as [|[k v] o IH]; intros m; cbn [fold_left].
    - unfold lz. cbn. lia.
    - rewrite IH, co_add_all, lz_cons. cbn [fst snd]. fold (UBR k r). fold (ubr k r x). lia.
  Qed.
  Lemma co_neg e x : co (neg e) x = - co e x.
  Proof. induction e as [|[k v] e IH]; [reflexivity|]. cbn [neg map fst snd]. rewrite !co_cons. fold (neg e). rewrite IH. destruct (k =? x); lia. Qed.
  Lemma ubr_swap a b x : ubr b a x = - ubr a b x.
  Proof. unfold ubr, UBR. rewrite BR_swap. apply co_neg. Qed.
  Lemma ubr_same a x : ubr a a x = 0.
  Proof. unfold ubr, UBR. rewrite BR_same. reflexivity. Qed.

  (** One context *)
  Section Ctx.
    Variables (N : Z) (L : lctx).
    Hypothesis HC : ctx_ok w N L.
    Notation M := (nM w N). Notation H := (lc_h L).
    Notation nd := (ndb w N). Notation nL := (nL w N). Notation nR := (nR w N).
    Notation nv := (valid N M nd). Notation nmu := (mu N M nd).
    Let HN : 1 <= N <= 254 := c_N w N L HC.
    Notation HH := (nH w Hw N HN).
    Lemma M_small k : 1 <= k <= M -> small k.
    Proof. intros Hk. exists N. split; [apply (c_packs w N L HC)|]. destruct HN. split; auto. Qed.
    Lemma inD_M d k : inD d k -> d <= N -> 1 <= k <= M.
    Proof. intros [A B] Hd. assert (X := ug_le w Hw N HN k A). lia. Qed.
    Lemma M_UM k : 1 <= k <= M -> 1 <= k <= UM. Proof. intros. assert (X := nM_le w Hw N HN). lia. Qed.
    Lemma inD_inj d a b : d <= N -> inD d a -> inD d b -> UK a = UK b -> a = b.
    Proof. intros Hd A B. apply small_inj; apply M_small; eapply inD_M; eauto. Qed.
    Lemma nv_iff a b : nv a b <-> 1 <= a <= M /\ 1 <= b <= M /\ ug a + ug b <= N.
    Proof. unfold valid. split; intros (A & B & C); rewrite ?(ng_eq w Hw N HN) in * by auto; auto. Qed.
    Lemma nv_uv a b : nv a b -> valid UN UM Udb a b.
    Proof. rewrite nv_iff. intros (A & B & C). split; [apply M_UM; auto|]. split; [apply M_UM; auto|]. fold (ug a) (ug b). assert (Z1 := UN_eq). lia. Qed.
    Lemma find_agree a b : nv a b -> find_key UM UL UR a b = find_key M nL nR a b.
    Proof.
      intros V. assert (V' := proj1 (nv_iff a b) V). destruct V' as (A & B & C). destruct (find_key M nL nR a b) as [k|] eqn:E.
      - destruct (find_key_some _ _ _ _ _ _ HH a b k ltac:(lia) E) as (E1 & E2 & E3 & _). assert (U := M_UM k E1).
        destruct (nLR w Hw N HN k ltac:(lia)) as [Q1 Q2]. apply (find_key_unique _ _ _ _ _ _ UH); auto; lia.
      - destruct (find_key UM UL UR a b) as [k|] eqn:E'; [|auto]. exfalso.
        destruct (find_key_some _ _ _ _ _ _ UH a b k ltac:(lia) E') as (E1 & E2 & E3 & E4). fold (ug k) in E4. fold (ug a) in E4. fold (ug b) in E4.
        assert (Hk := proj1 (ug_le w Hw N HN k E1) ltac:(lia)). destruct (nLR w Hw N HN k ltac:(lia)) as [Q1 Q2].
        rewrite (find_key_unique _ _ _ _ _ _ HH a b k) in E by (auto; lia). discriminate.
    Qed.
    Lemma ubr_hall i j k : nv i j -> i < j -> find_key M nL nR i j = Some k -> forall x, ubr i j x = if k =? x then 1 else 0.
    Proof. intros V Hij E x. rewrite <- find_agree in E by auto. unfold ubr, UBR. rewrite (BR_hall _ _ _ _ _ i j k) by auto. rewrite co_cons. unfold LieProd.co. cbn. lia. Qed.
    Lemma ubr_slow i j : nv i j -> i < j -> find_key M nL nR i j = None -> forall x,
      ubr i j x = lz Z (fun k => ubr k (nR j) x) (UBR i (nL j)) - lz Z (fun k => ubr k (nL j) x) (UBR i (nR j)).
    Proof.
      intros V Hij E x. assert (V' := proj1 (nv_iff i j) V). destruct V' as (A & B & C). rewrite <- find_agree in E by auto. unfold ubr at 1. unfold UBR at 1.
      rewrite (BR_slow _ _ _ _ _ _ UH i j (nv_uv _ _ V) Hij E), !co_half. destruct (nLR w Hw N HN j ltac:(lia)) as [-> ->]. change (co [] x) with 0. unfold UBR. lia.
    Qed.
    Lemma cinv_add a b p c : 1 <= a <= M -> 1 <= b <= M -> cinv c -> rep (inD (ug a + ug b)) p (ubr a b) \/ p = [] -> cinv (((UK a, UK b), p) :: c).
    Proof.
      intros Ha Hb Hc Hp a' b' e q Sa Sb E. cbn [ShufModel.c_find] in E. destruct (Z.eqb_spec (UK a) (UK a')) as [E1|]; [destruct (Z.eqb_spec (UK b) (UK b')) as [E2|]|]; cbn [andb] in E.
      - apply small_inj in E1; [|apply M_small; auto|auto]. apply small_inj in E2; [|apply M_small; auto|auto]. subst. injection E as ->. destruct Hp; [auto|discriminate].
      - apply Hc; auto. - apply Hc; auto.
    Qed.
    Lemma repD p g d : rep (inD d) p g -> d <= N -> exists q, p = map (fun e => (UK (fst e), snd e)) q /\ (forall e, In e q -> 1 <= fst e <= M /\ ug (fst e) = d) /\ forall k, co q k = g k.
    Proof. intros (q & E & Hq & C) Hd. exists q. split; [auto|]. split; [|auto]. intros e He. specialize (Hq e He). split; [eapply inD_M; eauto|apply Hq]. Qed.

    Theorem lie_op_ok : forall fuel a b c, nv a b -> cinv c -> 2 * nmu a b + (if b <? a then 1 else 0) < Z.of_nat fuel ->
      exists p c', lie_op Ok L fuel (UK a) (UK b) c = Ok (p, c') /\ cinv c' /\ rep (inD (ug a + ug b)) p (ubr a b).
    Proof.
      induction fuel as [|fuel IH]; intros a b c V Hc Hf; [assert (X := min_dg _ _ _ _ _ _ HH a b V); destruct (b <? a); lia|].
      cbn [lie_op]. unfold k_eqb. assert (V' := proj1 (nv_iff a b) V). destruct V' as (Ha & Hb & Hd). rewrite (uk_eq w N L HC a b Ha Hb).
      destruct (Z.eqb_spec a b) as [<-|Hne].
      { exists [], c. split; [reflexivity|]. split; [auto|]. eapply rep_ext; [|apply rep_nil]. intros x. symmetry. apply ubr_same. }
      destruct (ShufModel.c_find (UK a) (UK b) c) as [[|e0 p0]|] eqn:Ec.
      2:{ exists (e0 :: p0), c. split; [reflexivity|]. split; [auto|]. apply Hc; auto; apply M_small; auto. }
      all: assert (Hc0 : cinv (((UK a, UK b), []) :: c)) by (apply cinv_add; auto); set (c0 := ((UK a, UK b), []) :: c) in *; clearbody c0; clear Ec.
      all: assert (G : exists p c', lie_key_prod Ok L (lie_op Ok L fuel) (UK a) (UK b) c0 = Ok (p, c') /\ cinv c' /\ rep (inD (ug a + ug b)) p (ubr a b));
        [|destruct G as (p & c' & -> & Hc' & Rp); cbn [bind]; eexists; eexists; split; [reflexivity|]; split; [apply cinv_add; auto|auto]].
      all: unfold lie_key_prod, k_ltb; rewrite (uk_lt w N L HC b a Hb Ha).
      all: destruct (Z.ltb_spec b a) as [Hlt|Hge];
        [destruct (IH b a c0) as (p & c1 & -> & Hc1 & Rp);
           [apply nv_iff; lia|auto|rewrite (mu_sym _ _ _ b a); replace (a <? b) with false by lia; lia|];
         cbn [bind]; destruct (uminus_ok Z Z.eqb UK _ p _ Rp) as (p' & -> & Rp'); cbn [bind];
         exists p', c1; split; [reflexivity|]; split; [auto|]; rewrite (Z.add_comm (ug a)); eapply rep_ext; [|exact Rp']; intros x; cbv beta; rewrite ubr_swap; lia|].
      all: rewrite (proj1 (uk_read w N L HC a Ha)), (proj1 (uk_read w N L HC b Hb)), (c_depth w N L HC); replace (ug a + ug b >? N) with false by lia; rewrite (uk_find w N L HC a b Ha Hb).
      all: assert (Hij : a < b) by lia.
      all: destruct (find_key M nL nR a b) as [k|] eqn:Ef;
        [exists [(UK k, 1)], c0; split; [reflexivity|]; split; [auto|]; exists [(k, 1)]; split; [reflexivity|];
         destruct (find_key_some _ _ _ _ _ _ HH a b k ltac:(lia) Ef) as (E1 & _ & _ & E4); split;
         [intros e [<-|[]]; split; [apply M_UM; auto|]; cbn [fst]; rewrite !(ng_eq w Hw N HN) in E4 by auto; auto|];
         intros x; rewrite (ubr_hall a b k) by auto; rewrite co_cons; unfold LieProd.co; cbn; lia|].
      all: destruct (slow_calls _ _ _ _ _ _ HH a b V Hij Ef) as ((V1 & M1) & (V2 & M2) & C1 & C2 & (B1 & B2 & B3 & B4)).
      all: assert (Hbw : w < b) by (apply (find_key_none _ _ _ _ _ _ HH a b V Hij Ef)).
      all: rewrite (uk_parents w N L HC b Hb Hbw); cbn [bind fst snd].
      all: assert (IJ : forall x y, inD (ug a + ug b) x -> inD (ug a + ug b) y -> UK x = UK y -> x = y) by (intros x y; apply inD_inj; lia).
      all: assert (V1' := proj1 (nv_iff _ _) V1); assert (V2' := proj1 (nv_iff _ _) V2).
      all: assert (ED : ug (nL b) + ug (nR b) = ug b) by (destruct (node_dg _ _ _ _ _ _ HH b Hb Hbw) as (_ & _ & X & _); rewrite !(ng_eq w Hw N HN) in X by lia; lia).
      all: assert (Call : forall x y c, nv x y -> nmu x y < nmu a b -> cinv c -> exists p c', lie_op Ok L fuel (UK x) (UK y) c = Ok (p, c') /\ cinv c' /\ rep (inD (ug x + ug y)) p (ubr x y))
        by (intros x y c2 Vx Mx Hc2; apply IH; auto; destruct (y <? x); destruct (b <? a); lia).
      all: destruct (Call a (nL b) c0 V1 M1 Hc0) as (p1 & c1 & -> & Hc1 & R1); cbn [bind]; destruct (repD _ _ _ R1 ltac:(lia)) as (q1 & -> & Hq1 & Co1).
      all: destruct (p_mul_key_ok Z Z.eqb UK (inD (ug a + ug b)) IJ cinv (lie_op Ok L fuel) Z UK q1 (UK (nR b)) (fun k => ubr k (nR b))) with (c := c1) as (r1 & c2 & E1 & Hc2 & S1 & RR1);
        [intros e He c3 Hc3; destruct (Hq1 e He) as [X1 X2]; destruct (C1 (fst e) X1) as (Y1 & Y2 & _); [rewrite !(ng_eq w Hw N HN) by lia; auto|];
         destruct (Call (fst e) (nR b) c3 Y1 Y2 Hc3) as (p & c4 & E & Hc4 & Rp); exists p, c4; split; [auto|]; split; [auto|]; replace (ug a + ug b) with (ug (fst e) + ug (nR b)) by lia; auto|auto|].
      all: rewrite E1; cbn [bind].
      all: destruct (Call a (nR b) c2 V2 M2 Hc2) as (p2 & c3 & -> & Hc3 & R2); cbn [bind]; destruct (repD _ _ _ R2 ltac:(lia)) as (q2 & -> & Hq2 & Co2).
      all: destruct (p_mul_key_ok Z Z.eqb UK (inD (ug a + ug b)) IJ cinv (lie_op Ok L fuel) Z UK q2 (UK (nL b)) (fun k => ubr k (nL b))) with (c := c3) as (r2 & c4 & E2 & Hc4 & S2 & RR2);
        [intros e He c5 Hc5; destruct (Hq2 e He) as [X1 X2]; destruct (C2 (fst e) X1) as (Y1 & Y2 & _); [rewrite !(ng_eq w Hw N HN) by lia; auto|];
         destruct (Call (fst e) (nL b) c5 Y1 Y2 Hc5) as (p & c6 & E & Hc6 & Rp); exists p, c6; split; [auto|]; split; [auto|]; replace (ug a + ug b) with (ug (fst e) + ug (nL b)) by lia; auto|auto|].
      all: rewrite E2; cbn [bind].
      all: destruct (p_sub_ok Z Z.eqb UK (inD (ug a + ug b)) IJ r1 r2 _ _ RR1 S1 RR2) as (r & -> & _ & Rr); cbn [bind].
      all: exists r, c4; split; [reflexivity|]; split; [auto|]; eapply rep_ext; [|exact Rr]; intros x; cbv beta; rewrite (ubr_slow a b V Hij Ef).
      all: change (lz Z (fun k => ubr k (nR b) x) q1 - lz Z (fun k => ubr k (nL b) x) q2 = lz Z (fun k => ubr k (nR b) x) (UBR a (nL b)) - lz Z (fun k => ubr k (nL b) x) (UBR a (nR b))).
      all: rewrite (lz_co Z Z.eqb Z.eqb_spec _ q1 (UBR a (nL b))), (lz_co Z Z.eqb Z.eqb_spec _ q2 (UBR a (nR b))); auto.
    Qed.
    Theorem lie_mult_ok a b c : 1 <= a <= M -> 1 <= b <= M -> ug a + ug b <= N -> cinv c ->
      exists p c', lie_mult Ok L (UK a) (UK b) c = Ok (p, c') /\ cinv c' /\ rep (inD (ug a + ug b)) p (ubr a b).
    Proof.
      intros Ha Hb Hd Hc. apply lie_op_ok; auto; [apply nv_iff; auto|]. assert (X := c_N w N L HC). unfold lie_fuel. rewrite (c_depth w N L HC).
      destruct (c_hs w N L HC) as (_ & O2 & _). assert (EV : vlen (hs_data H) = M + 1). { unfold vlen. rewrite O2, map_length. change (dbat _ (N + 1)) with (nd (N + 1)). rewrite (hd_top _ _ _ _ _ _ HH). unfold zrng. rewrite zseq_length. assert (MP := c_Mpos w N L HC). lia. }
      rewrite EV. unfold mu. rewrite !(ng_eq w Hw N HN) by auto. assert (MP := c_Mpos w N L HC).
      apply Z.lt_le_trans with (2 * (N * (M + 1))); [destruct (b <? a); nia|rewrite Z2Nat.id; nia].
    Qed.
  End Ctx.
End Width.
