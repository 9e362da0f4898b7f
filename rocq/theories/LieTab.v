(** The Hall tables of one width: the keys of every depth are numbered by one table. *)
From Coq Require Import ZifyBool.
From Verif Require Import LieObjModel Alg Words HallModel Mobius KeyProofs KeyProofs2 LalBasis HallTab HallDim HallTrees HsProofs HsLemmas BracketProofs BracketSem LieSpec.
Open Scope Z_scope.

(** 255, kept opaque: the table of this depth is never computed *)
Lemma UNs : {n : Z | n = 255}. Proof. exists 255. reflexivity. Qed.
Definition UN : Z := proj1_sig UNs.
Lemma UN_eq : UN = 255. Proof. exact (proj2_sig UNs). Qed.

Section U.
  Variable w : Z.
  Hypothesis Hw : 1 <= w.
  Definition UT := fst (tab w (Z.to_nat (UN - 1))).
  Definition UM : Z := zlen UT - 1.
  Definition Udb : Z -> Z := dbat (snd (tab w (Z.to_nat (UN - 1)))).
  Definition UL : Z -> Z := tabL UT.
  Definition UR : Z -> Z := tabR UT.
  Lemma UH : hall_data w UN UM Udb UL UR. Proof. apply HsProofs.HD; assert (E := UN_eq); lia. Qed.
  (** degree, key of row k *)
  Definition ug (k : Z) : Z := dg UN Udb k.
  Definition UK (k : Z) : Z := mk_key (ug k) (k - Udb (ug k)).

  Section N.
    Variable N : Z.
    Hypothesis HN : 1 <= N <= 254.
    Definition nM : Z := zlen (fst (tab w (Z.to_nat (N - 1)))) - 1.
    Definition ndb : Z -> Z := dbat (snd (tab w (Z.to_nat (N - 1)))).
    Definition nL : Z -> Z := tabL (fst (tab w (Z.to_nat (N - 1)))).
    Definition nR : Z -> Z := tabR (fst (tab w (Z.to_nat (N - 1)))).
    Lemma nH : hall_data w N nM ndb nL nR. Proof. apply HsProofs.HD; lia. Qed.
    Lemma ndb_eq d : 0 <= d <= N + 1 -> ndb d = Udb d.
    Proof. intros. assert (E := UN_eq); apply (tab_db w UN); lia. Qed.
    Lemma nM_top : nM + 1 = Udb (N + 1).
    Proof. rewrite <- ndb_eq by lia. symmetry. apply (hd_top _ _ _ _ _ _ nH). Qed.
    Lemma nLR k : 0 <= k <= nM -> nL k = UL k /\ nR k = UR k.
    Proof. intros Hk. assert (E := UN_eq); apply (tab_row w UN); try lia. replace (Z.of_nat (Z.to_nat (N - 1)) + 2) with (N + 1) by lia. change (0 <= k < Udb (N + 1)). rewrite <- nM_top. lia. Qed.
    Lemma nM_le : nM <= UM.
    Proof.
      assert (X := db_mono _ _ _ _ _ _ UH (N + 1) (UN + 1) ltac:(lia) ltac:(rewrite ?UN_eq; lia) ltac:(lia)). rewrite (hd_top _ _ _ _ _ _ UH), <- nM_top in X. lia.
    Qed.
    Lemma ug_in k : 1 <= k <= nM -> 1 <= ug k <= N.
    Proof.
      intros Hk. destruct (dg_level _ _ _ _ _ _ UH k ltac:(assert (X := nM_le); lia)) as [A C]. fold (ug k) in A, C. split; [lia|].
      destruct (Z_le_gt_dec (ug k) N); [lia|]. exfalso. assert (X := db_mono _ _ _ _ _ _ UH (N + 1) (ug k) ltac:(lia) ltac:(lia) ltac:(lia)). rewrite <- nM_top in X. lia.
    Qed.
    Lemma ug_le k : 1 <= k <= UM -> ug k <= N <-> k <= nM.
    Proof.
      intros Hk. split; [|intros; apply ug_in; lia]. intros Hg. destruct (dg_level _ _ _ _ _ _ UH k Hk) as [A C]. fold (ug k) in A, C.
      assert (X := db_mono _ _ _ _ _ _ UH (ug k + 1) (N + 1) ltac:(lia) ltac:(lia) ltac:(rewrite ?UN_eq; lia)). rewrite <- nM_top in X. lia.
    Qed.
    Lemma ng_eq k : 1 <= k <= nM -> dg N ndb k = ug k.
    Proof.
      intros Hk. assert (G := ug_in k Hk). apply (dg_eq _ _ _ _ _ _ nH); [auto|]. rewrite !ndb_eq by lia.
      apply (dg_level _ _ _ _ _ _ UH k ltac:(assert (X := nM_le); lia)).
    Qed.
    Lemma nK k : 1 <= k <= nM -> K w N k = UK k.
    Proof. intros Hk. unfold K. change (lv w N k) with (dg N ndb k). fold ndb. rewrite ng_eq by auto. unfold UK. rewrite ndb_eq; auto. assert (X := ug_in k Hk). lia. Qed.
    Lemma UM_pos : w <= nM. Proof. apply w_M; lia. Qed.
    (** letters and their trees do not depend on the depth *)
    Lemma ntr k : 1 <= k <= nM -> tr nL nR k = tr UL UR k.
    Proof.
      intros Hk. assert (G : forall n k, (Z.to_nat k <= n)%nat -> 1 <= k <= nM -> tr nL nR k = tr UL UR k).
      { clear k Hk. induction n as [|n IH]; intros k Hn Hk; [lia|]. assert (HM := nM_le).
        destruct (Z_le_gt_dec k w) as [Hkw|Hkw]; [rewrite (tr_letter _ _ _ _ _ _ nH), (tr_letter _ _ _ _ _ _ UH); auto; lia|].
        destruct (node_dg _ _ _ _ _ _ nH k Hk ltac:(lia)) as (A1 & A2 & A3 & A4 & A5 & A6).
        destruct (dg_level _ _ _ _ _ _ nH k Hk) as [D1 D2].
        assert (D3 : dg N ndb k <> 1) by (intros Q; rewrite Q in D2; apply (level_letter _ _ _ _ _ _ nH) in D2; lia).
        rewrite (tr_node _ _ _ _ _ _ nH (dg N ndb k) k) by (auto; lia).
        destruct (dg_level _ _ _ _ _ _ UH k ltac:(lia)) as [E1 E2]. fold (ug k) in E1, E2. rewrite ng_eq in D3 by auto.
        rewrite (tr_node _ _ _ _ _ _ UH (ug k) k) by (auto; lia). destruct (nLR k ltac:(lia)) as [<- <-]. rewrite !IH by lia. reflexivity. }
      apply (G (Z.to_nat k)); auto.
    Qed.
  End N.
  Lemma packs_level N : packs w N -> 1 <= N -> forall d, 1 <= d <= N -> ndb N (d + 1) - ndb N d <= w ^ d.
  Proof.
    intros (Hw1 & HN0 & HP) HN d Hd. assert (HB : N * w ^ N < I64_MAX).
    { unfold I64_MAX. destruct (Z.eq_dec w 1) as [->|]; [rewrite Z.pow_1_l by lia; lia|].
      assert (N <= 56). { destruct (Z_le_gt_dec N 56); auto. exfalso. assert (2 ^ 57 <= w ^ N); [|lia]. apply Z.le_trans with (2 ^ N); [apply Z.pow_le_mono_r; lia|apply Z.pow_le_mono_l; lia]. }
      assert (0 <= w ^ N) by (apply Z.pow_nonneg; lia). nia. }
    assert (HDD := HsProofs.HD w N ltac:(lia) ltac:(lia)). assert (HF : 0 <= w /\ 1 <= N < 46339 * 46339 /\ N * w ^ N < I64_MAX) by (split; [lia|split; [lia|exact HB]]). destruct (level_dim _ _ _ _ _ _ HDD HF d Hd) as [_ X]. exact X.
  Qed.
  Lemma packs_lev N : packs w N -> 1 <= N -> forall d, 1 <= d <= N -> dbat (snd (tab w (Z.to_nat (N - 1)))) (d + 1) - dbat (snd (tab w (Z.to_nat (N - 1)))) d <= 2 ^ 56.
  Proof.
    intros HP HN d Hd. assert (X := packs_level N HP HN d Hd). unfold ndb in X. destruct (packs_pow w N d HP ltac:(lia)). lia.
  Qed.
  Lemma nM_lt N : packs w N -> 1 <= N -> nM N < words_below w (S (Z.to_nat N)).
  Proof.
    intros HP HN. assert (G : forall n, Z.of_nat n <= N -> ndb N (Z.of_nat n + 1) <= words_below w (S n)).
    { assert (HN' : 1 <= N <= 254) by (destruct HP as (_ & X & _); lia). induction n as [|n IH]; intros Hn.
      - change (Z.of_nat 0 + 1) with 1. rewrite (hd_1 _ _ _ _ _ _ (nH N HN')). cbn [words_below]. rewrite Z.pow_0_r. lia.
      - assert (X := packs_level N HP HN (Z.of_nat (S n)) ltac:(lia)). replace (Z.of_nat (S n)) with (Z.of_nat n + 1) in X |- * at 1 by lia.
        replace (words_below w (S (S n))) with (words_below w (S n) + w ^ Z.of_nat (S n)) by reflexivity. specialize (IH ltac:(lia)). replace (Z.of_nat (S n)) with (Z.of_nat n + 1) in * by lia. lia. }
    specialize (G (Z.to_nat N) ltac:(lia)). replace (Z.of_nat (Z.to_nat N) + 1) with (N + 1) in G by lia.
    assert (HN' : 1 <= N <= 254) by (destruct HP as (_ & X & _); lia). rewrite (hd_top _ _ _ _ _ _ (nH N HN')) in G. lia.
  Qed.
End U.
