(** The constructed table enumerates the Hall set in increasing order; lookups. *)
From Coq Require Import ZifyBool Sorted.
From Verif Require Import Outcome Alg Words Mem Mobius HallModel HallSpec HallTab HallCount HallDim HallProofs.
Local Open Scope Z_scope.

Lemma tdeg_pos t : 1 <= tdeg t.
Proof. induction t; cbn [tdeg]; lia. Qed.
Lemma tcmp_refl t : tcmp t t = Eq.
Proof. induction t as [l|a IHa b IHb]; cbn [tcmp]; rewrite Z.compare_refl; [apply Z.compare_refl|]. rewrite IHa. auto. Qed.

Section Trees.
  Variables (w N M : Z) (db L R : Z -> Z).
  Hypothesis H : hall_data w N M db L R.

  Lemma lpos d k : db d <= k < db (d + 1) -> 1 <= d <= N -> 1 <= k <= M.
  Proof. intros Hk Hd. apply (level_pos _ _ _ _ _ _ H d k Hd Hk). Qed.

  Fixpoint trk (fuel : nat) (k : Z) : tree :=
    match fuel with
    | O => Leaf 0
    | S f => if L k =? 0 then Leaf (R k) else Node (trk f (L k)) (trk f (R k))
    end.
  Definition tr (k : Z) : tree := trk (Z.to_nat k) k.

  Lemma lvl_node d k : 2 <= d <= N -> db d <= k < db (d + 1) ->
     exists a, 1 <= a /\ 1 <= d - a /\ db a <= L k < db (a + 1) /\ db (d - a) <= R k < db (d - a + 1) /\
               L k < R k /\ L (R k) <= L k /\ 1 <= L k /\ L k < k /\ R k < k.
  Proof.
    intros Hd Hk. destruct (hd_node _ _ _ _ _ _ H d k Hd Hk) as (a & A1 & A2 & A3 & A4 & A5 & A6).
    exists a. repeat (split; auto).
    - assert (X := level_pos _ _ _ _ _ _ H a (L k) ltac:(lia) A3). lia.
    - assert (X := db_mono _ _ _ _ _ _ H (a + 1) d ltac:(lia) ltac:(lia) ltac:(lia)). lia.
    - assert (X := db_mono _ _ _ _ _ _ H (d - a + 1) d ltac:(lia) ltac:(lia) ltac:(lia)). lia.
  Qed.
  Lemma trk_fuel f : forall k f', 1 <= k <= M -> (Z.to_nat k <= f)%nat -> (f <= f')%nat -> trk f k = trk f' k.
  Proof.
    induction f as [|f IH]; intros k f' Hk Hf Hf'; [lia|]. destruct f' as [|f']; [lia|]. cbn [trk].
    destruct (L k =? 0) eqn:E; auto.
    destruct (level_ex _ _ _ _ _ _ H k Hk) as (d & Hd & Hkd).
    destruct (Z.eq_dec d 1) as [->|Hd1].
    - apply (level_letter _ _ _ _ _ _ H) in Hkd. destruct (hd_let _ _ _ _ _ _ H k Hkd). lia.
    - destruct (lvl_node d k ltac:(lia) Hkd) as (a & A1 & A2 & A3 & A4 & A5 & A6 & A7 & A8 & A9).
      rewrite (IH (L k) f'), (IH (R k) f'); auto; lia.
  Qed.
  Lemma tr_letter k : 1 <= k <= w -> tr k = Leaf k.
  Proof.
    intros Hk. unfold tr. destruct (Z.to_nat k) eqn:E; [lia|]. cbn [trk]. destruct (hd_let _ _ _ _ _ _ H k Hk) as [-> ->]. reflexivity.
  Qed.
  Lemma tr_node d k : 2 <= d <= N -> db d <= k < db (d + 1) -> tr k = Node (tr (L k)) (tr (R k)).
  Proof.
    intros Hd Hk. destruct (lvl_node d k Hd Hk) as (a & A1 & A2 & A3 & A4 & A5 & A6 & A7 & A8 & A9).
    assert (HkM := level_pos _ _ _ _ _ _ H d k ltac:(lia) Hk).
    unfold tr at 1. destruct (Z.to_nat k) eqn:E; [lia|]. cbn [trk]. replace (L k =? 0) with false by lia.
    unfold tr. rewrite (trk_fuel (Z.to_nat (L k)) (L k) n), (trk_fuel (Z.to_nat (R k)) (R k) n); auto; lia.
  Qed.

  Lemma tr_deg d k : 1 <= d <= N -> db d <= k < db (d + 1) -> tdeg (tr k) = d.
  Proof.
    intros Hd. assert (Hp : 0 <= d) by lia. revert Hd k. pattern d. apply Z_lt_induction; [|exact Hp]. clear d Hp. intros d IH Hd k Hk.
    destruct (Z.eq_dec d 1) as [->|Hd1].
    - apply (level_letter _ _ _ _ _ _ H) in Hk. rewrite tr_letter by auto. reflexivity.
    - destruct (lvl_node d k ltac:(lia) Hk) as (a & A1 & A2 & A3 & A4 & _).
      rewrite (tr_node d) by (auto; lia). cbn [tdeg]. rewrite (IH a), (IH (d - a)); auto; lia.
  Qed.

  Lemma tr_order k k' : 1 <= k <= M -> 1 <= k' <= M -> tcmp (tr k) (tr k') = (k ?= k').
  Proof.
    intros Hk Hk'. destruct (level_ex _ _ _ _ _ _ H k Hk) as (d & Hd & Hkd).
    assert (Hp : 0 <= d) by lia. revert Hd k Hk Hkd k' Hk'. pattern d. apply Z_lt_induction; [|exact Hp]. clear d Hp.
    intros d IH Hd k Hk Hkd k' Hk'. destruct (level_ex _ _ _ _ _ _ H k' Hk') as (d' & Hd' & Hkd').
    assert (Eg : tdeg (tr k) = d) by (apply tr_deg; auto). assert (Eg' : tdeg (tr k') = d') by (apply tr_deg; auto).
    destruct (Z.eq_dec d d') as [<-|Hne].
    - destruct (Z.eq_dec d 1) as [->|Hd1].
      + apply (level_letter _ _ _ _ _ _ H) in Hkd, Hkd'. rewrite !tr_letter by auto. reflexivity.
      + destruct (lvl_node d k ltac:(lia) Hkd) as (a & A1 & A2 & A3 & A4 & _).
        destruct (lvl_node d k' ltac:(lia) Hkd') as (a' & B1 & B2 & B3 & B4 & _).
        rewrite (tr_node d k), (tr_node d k') in * by (auto; lia). cbn [tcmp]. rewrite Eg, Eg', Z.compare_refl.
        assert (P1 := lpos _ _ A3 ltac:(lia)). assert (P2 := lpos _ _ A4 ltac:(lia)).
        assert (P3 := lpos _ _ B3 ltac:(lia)). assert (P4 := lpos _ _ B4 ltac:(lia)).
        rewrite (IH a) by (auto; lia). rewrite (IH (d - a)) by (auto; lia).
        destruct (Z.compare_spec k k') as [->|Hlt|Hlt].
        * rewrite !Z.compare_refl. reflexivity.
        * destruct (hd_sorted _ _ _ _ _ _ H d k k' ltac:(lia) ltac:(lia) Hlt ltac:(lia)) as [X|[X Y]]; cbn [fst snd] in *.
          -- apply Z.compare_lt_iff in X. rewrite X. reflexivity.
          -- rewrite X, Z.compare_refl. apply Z.compare_lt_iff. auto.
        * destruct (hd_sorted _ _ _ _ _ _ H d k' k ltac:(lia) ltac:(lia) Hlt ltac:(lia)) as [X|[X Y]]; cbn [fst snd] in *.
          -- apply Z.compare_gt_iff in X. rewrite X. reflexivity.
          -- rewrite X, Z.compare_refl. apply Z.compare_gt_iff. auto.
    - assert (E : tcmp (tr k) (tr k') = (d ?= d')).
      { destruct (tr k) as [l|x y], (tr k') as [l'|x' y']; cbn [tcmp]; rewrite Eg, Eg'; destruct (Z.compare_spec d d'); auto; lia. }
      rewrite E. destruct (Z.compare_spec d d') as [|X|X]; [lia| |]; symmetry.
      + apply Z.compare_lt_iff. destruct (Z.lt_trichotomy k k') as [|[->|Y]]; auto.
        * exfalso. assert (d = d') by (apply (level_unique _ _ _ _ _ _ H d d' k'); auto; lia). lia.
        * assert (Y' := level_lt _ _ _ _ _ _ H d' d k' k ltac:(lia) ltac:(lia) ltac:(lia) ltac:(lia) ltac:(lia) ltac:(lia) Y). lia.
      + apply Z.compare_gt_iff. destruct (Z.lt_trichotomy k k') as [Y|[->|]]; auto.
        * assert (Y' := level_lt _ _ _ _ _ _ H d d' k k' ltac:(lia) ltac:(lia) ltac:(lia) ltac:(lia) ltac:(lia) ltac:(lia) Y). lia.
        * exfalso. assert (d = d') by (apply (level_unique _ _ _ _ _ _ H d d' k'); auto; lia). lia.
  Qed.
  Lemma tr_lt k k' : 1 <= k <= M -> 1 <= k' <= M -> (tlt (tr k) (tr k') <-> k < k').
  Proof. intros. unfold tlt. rewrite tr_order by auto. apply Z.compare_lt_iff. Qed.
  Lemma tr_inj k k' : 1 <= k <= M -> 1 <= k' <= M -> tr k = tr k' -> k = k'.
  Proof. intros Hk Hk' E. assert (X := tr_order k k' Hk Hk'). rewrite E, tcmp_refl in X. symmetry in X. apply Z.compare_eq_iff in X. auto. Qed.

  Lemma tr_hall k : 1 <= k <= M -> Hall w (tr k).
  Proof.
    intros Hk. destruct (level_ex _ _ _ _ _ _ H k Hk) as (d & Hd & Hkd).
    assert (Hp : 0 <= d) by lia. revert Hd k Hk Hkd. pattern d. apply Z_lt_induction; [|exact Hp]. clear d Hp.
    intros d IH Hd k Hk Hkd. destruct (Z.eq_dec d 1) as [->|Hd1].
    - apply (level_letter _ _ _ _ _ _ H) in Hkd. rewrite tr_letter by auto. constructor; auto.
    - destruct (lvl_node d k ltac:(lia) Hkd) as (a & A1 & A2 & A3 & A4 & A5 & A6 & A7 & A8 & A9).
      rewrite (tr_node d) by (auto; lia).
      assert (P1 := lpos _ _ A3 ltac:(lia)). assert (P2 := lpos _ _ A4 ltac:(lia)).
      assert (H1 : Hall w (tr (L k))) by (apply (IH a); auto; lia).
      assert (H2 : Hall w (tr (R k))) by (apply (IH (d - a)); auto; lia).
      assert (H3 : tlt (tr (L k)) (tr (R k))) by (apply tr_lt; auto).
      destruct (Z.eq_dec (d - a) 1) as [E1|E1].
      + rewrite E1 in A4. apply (level_letter _ _ _ _ _ _ H) in A4. rewrite (tr_letter (R k)) in * by auto. constructor; auto.
      + destruct (lvl_node (d - a) (R k) ltac:(lia) A4) as (a' & B1 & B2 & B3 & B4 & B5 & B6 & B7 & B8 & B9).
        assert (P3 := lpos _ _ B3 ltac:(lia)).
        assert (H4 : tle (tr (L (R k))) (tr (L k))).
        { destruct (Z.eq_dec (L (R k)) (L k)) as [->|]; [right; auto|left]. apply tr_lt; auto. lia. }
        rewrite (tr_node (d - a) (R k)) in * by (auto; lia). constructor; auto.
  Qed.
  Lemma hall_tr t : Hall w t -> tdeg t <= N -> exists k, 1 <= k <= M /\ tr k = t.
  Proof.
    assert (HN := hd_N _ _ _ _ _ _ H).
    assert (HwM : w <= M).
    { assert (X := db_mono _ _ _ _ _ _ H 2 (N + 1) ltac:(lia) ltac:(lia) ltac:(lia)). rewrite (hd_2 _ _ _ _ _ _ H), (hd_top _ _ _ _ _ _ H) in X. lia. }
    assert (Hlet : forall l, 1 <= l <= w -> exists k, 1 <= k <= M /\ tr k = Leaf l) by (intros l Hl; exists l; rewrite tr_letter by auto; split; [lia|auto]).
    assert (Hlv : forall k t, 1 <= k <= M -> tr k = t -> db (tdeg t) <= k < db (tdeg t + 1) /\ 1 <= tdeg t <= N).
    { intros k t0 Hk E. destruct (level_ex _ _ _ _ _ _ H k Hk) as (d & Hd & Hkd). assert (X := tr_deg d k Hd Hkd). rewrite E in X. subst d. auto. }
    assert (Hmk : forall i j, 1 <= i <= M -> 1 <= j <= M -> tdeg (tr i) + tdeg (tr j) <= N -> i < j -> L j <= i -> exists k, 1 <= k <= M /\ tr k = Node (tr i) (tr j)).
    { intros i j Hi Hj Hd Hij HL. destruct (Hlv i _ Hi eq_refl) as [Li Di]. destruct (Hlv j _ Hj eq_refl) as [Lj Dj].
      destruct (hd_all _ _ _ _ _ _ H (tdeg (tr i)) (tdeg (tr j)) i j ltac:(lia) ltac:(lia) Hd Li Lj Hij HL) as (k & K1 & K2 & K3).
      exists k. split; [apply (level_pos _ _ _ _ _ _ H (tdeg (tr i) + tdeg (tr j))); auto; lia|].
      rewrite (tr_node (tdeg (tr i) + tdeg (tr j))) by (auto; lia). rewrite K2, K3. reflexivity. }
    induction 1 as [l Hl|a l Ha IHa Hl IHl Hlt|a c e Ha IHa Hb IHb Hlt Hle]; intros Hd; cbn [tdeg] in Hd.
    - auto.
    - destruct (IHa ltac:(lia)) as (i & Hi & Ei). inversion Hl as [l0 Hl0| |]; subst.
      assert (Hlw : 1 <= l <= M) by lia.
      rewrite <- (tr_letter l Hl0) in *. apply Hmk; auto.
      + rewrite (tr_letter l Hl0). cbn [tdeg]. lia.
      + apply tr_lt; auto.
      + destruct (hd_let _ _ _ _ _ _ H l Hl0) as [-> _]. lia.
    - assert (Pa := tdeg_pos a). assert (Pc := tdeg_pos c). assert (Pe := tdeg_pos e).
      destruct (IHa ltac:(lia)) as (i & Hi & Ei). destruct (IHb ltac:(cbn [tdeg]; lia)) as (j & Hj & Ej).
      destruct (Hlv j _ Hj Ej) as [Lj Dj]. cbn [tdeg] in Lj, Dj.
      assert (EN := tr_node (tdeg c + tdeg e) j ltac:(lia) Lj). rewrite Ej in EN. injection EN as Ec Ee.
      destruct (lvl_node (tdeg c + tdeg e) j ltac:(lia) Lj) as (a' & B1 & B2 & B3 & _).
      assert (P3 := lpos _ _ B3 ltac:(lia)).
      rewrite <- Ei, <- Ej. apply Hmk; auto.
      + rewrite Ei, Ej. cbn [tdeg]. lia.
      + apply tr_lt; auto. rewrite Ei, Ej. auto.
      + rewrite <- Ei, Ec in Hle. destruct Hle as [X|X]; [apply tr_lt in X; auto; lia|]. apply tr_inj in X; auto; lia.
  Qed.
End Trees.
