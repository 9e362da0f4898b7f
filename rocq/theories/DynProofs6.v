(** Dynamically constructed streams: the dissection of one dyadic interval. *)
From Coq Require Import ZifyBool Lqa Qround.
From Verif Require Export DynProofs5.
From Verif Require Import DyadicLemmas DyadicProofs DyadicProofs2 DyadicProofs3 StreamProofs2.
Open Scope Z_scope.

Section One.
  Variable k n e : Z.
  Hypothesis He : 0 <= e.
  Hypothesis Hn : - 2 ^ 27 <= n + e <= 2 ^ 27.
  Hypothesis Hk1 : - 2 ^ 28 <= k * 2 ^ e.
  Hypothesis Hk2 : (k + 1) * 2 ^ e <= 2 ^ 28.
  Let P := pow2_pos e He.
  Lemma e_small : e <= 29.
  Proof. assert (P' := pow2_pos e He). apply (Z.pow_le_mono_r_iff 2); [lia|lia|]. replace (2 ^ 29) with (2 ^ 28 + 2 ^ 28) by reflexivity. lia. Qed.
  Lemma k_small d : 0 <= d <= e -> - 2 ^ 28 <= k * 2 ^ d /\ (k + 1) * 2 ^ d <= 2 ^ 28.
  Proof.
    intros Hd. assert (Pd := pow2_pos d ltac:(lia)). assert (Q1 := pow2_pos (e - d) ltac:(lia)). assert (E : 2 ^ e = 2 ^ d * 2 ^ (e - d)) by (rewrite <- Z.pow_add_r by lia; f_equal; lia). rewrite E in *.
    change (2 ^ 28) with 268435456 in *. split; [destruct (Z_le_gt_dec 0 k); nia|destruct (Z_le_gt_dec 0 (k + 1)); nia].
  Qed.
  Notation E0 := (mkDI ((k + 1) * 2 ^ e) (n + e) Clopen).
  Lemma double d : 0 <= d -> 2 ^ (d + 1) = 2 * 2 ^ d. Proof. intros. rewrite Z.pow_add_r by lia. lia. Qed.
  Lemma even_pow a d : 1 <= d -> Z.even (a * 2 ^ d) = true.
  Proof. intros H. replace d with (d - 1 + 1) by lia. rewrite double, !Z.even_mul by lia. cbn [Z.even]. rewrite orb_true_r. reflexivity. Qed.
  Lemma half_pow a d : 1 <= d -> a * 2 ^ d / 2 = a * 2 ^ (d - 1).
  Proof. intros H. replace d with (d - 1 + 1) at 1 by lia. rewrite double by lia. replace (a * (2 * 2 ^ (d - 1))) with (a * 2 ^ (d - 1) * 2) by ring. rewrite Z.div_mul; lia. Qed.
  Lemma begin_apart d : 0 <= d <= e -> contains_dyadic (mkDI (k * 2 ^ d) (n + d) Clopen) E0 = Ok false.
  Proof.
    intros Hd. assert (S1 := e_small). assert (Pd := pow2_pos d ltac:(lia)). assert (Q1 := pow2_pos (e - d) ltac:(lia)). assert (E : 2 ^ e = 2 ^ d * 2 ^ (e - d)) by (rewrite <- Z.pow_add_r by lia; f_equal; lia).
    rewrite contains_dyadic_eval; cbn [di_k di_n di_t]; auto; replace (n + e - (n + d)) with (e - d) by lia; [|lia|unfold small; lia|unfold INT_MIN, INT_MAX; rewrite <- Z.mul_assoc, <- E; lia].
    unfold unit. cbn [di_t unit_t]. rewrite !Z.mul_1_l. rewrite E, Z.mul_assoc, Z.div_mul by lia. f_equal. nia.
  Qed.
  Lemma loop1_up f : forall d, 0 <= Z.of_nat d <= e -> tdi_loop1 (d + f) (mkDI (k * 2 ^ Z.of_nat d) (n + Z.of_nat d) Clopen) E0 [] = tdi_loop1 f (mkDI k n Clopen) E0 [].
  Proof.
    induction d as [|d IH]; intros Hd; [cbn [Nat.add]; change (Z.of_nat 0) with 0; rewrite Z.pow_0_r, Z.mul_1_r, Z.add_0_r; reflexivity|]. rewrite <- IH by lia. rewrite Nat2Z.inj_succ in *. cbn [Nat.add tdi_loop1]. assert (S1 := e_small). destruct (k_small (Z.succ (Z.of_nat d)) ltac:(lia)). assert (Pd := pow2_pos (Z.succ (Z.of_nat d)) ltac:(lia)).
    rewrite begin_apart by lia. cbn [bind]. rewrite expand_eval by (cbn [di_k di_n]; unfold small; lia). cbn [bind di_k di_n]. rewrite aligned_clopen_eval by (cbn [di_k di_n di_t]; auto; lia). cbn [di_k bind]. rewrite even_pow by lia. rewrite Z.pow_1_r, half_pow by lia. do 2 f_equal; [f_equal; f_equal; lia|lia].
  Qed.
  Notation kb := ((k + 1) / 2).
  Notation B := (mkDI kb (n - 1) Clopen).
  Lemma kb_range : 2 * kb = k \/ 2 * kb = k + 1. Proof. assert (D := Z.div_mod (k + 1) 2 ltac:(lia)). assert (M := Z.mod_pos_bound (k + 1) 2 ltac:(lia)). lia. Qed.
  Lemma b_has d : 0 <= d <= e -> contains_dyadic B (mkDI ((k + 1) * 2 ^ d) (n + d) Clopen) = Ok true.
  Proof.
    intros Hd. assert (S1 := e_small). destruct (k_small d ltac:(lia)). assert (Pd := pow2_pos d ltac:(lia)). assert (R := kb_range).
    rewrite contains_dyadic_eval; cbn [di_k di_n di_t]; auto; replace (n + d - (n - 1)) with (d + 1) by lia; [|lia|unfold small; lia|unfold INT_MIN, INT_MAX; rewrite double by lia; nia].
    unfold unit. cbn [di_t unit_t]. rewrite !Z.mul_1_l. rewrite double by lia. rewrite (Z.mul_comm 2), <- Z.div_div by lia. rewrite Z.div_mul by lia. f_equal. lia.
  Qed.
  Lemma loop2_up f : forall d acc, 0 <= Z.of_nat d <= e -> tdi_loop2 (d + f) B (mkDI ((k + 1) * 2 ^ Z.of_nat d) (n + Z.of_nat d) Clopen) (mkDI ((k + 1) * 2 ^ Z.of_nat d) (n + Z.of_nat d) Clopen) acc = tdi_loop2 f B (mkDI (k + 1) n Clopen) (mkDI (k + 1) n Clopen) acc.
  Proof.
    induction d as [|d IH]; intros acc Hd; [cbn [Nat.add]; change (Z.of_nat 0) with 0; rewrite Z.pow_0_r, Z.mul_1_r, Z.add_0_r; reflexivity|]. rewrite <- IH by lia. rewrite Nat2Z.inj_succ in *. cbn [Nat.add tdi_loop2]. assert (S1 := e_small). destruct (k_small (Z.succ (Z.of_nat d)) ltac:(lia)). assert (Pd := pow2_pos (Z.succ (Z.of_nat d)) ltac:(lia)).
    rewrite expand_eval by (cbn [di_k di_n]; unfold small; lia). cbn [bind di_k di_n]. rewrite Z.pow_1_r, half_pow by lia. replace (Z.succ (Z.of_nat d) - 1) with (Z.of_nat d) by lia. replace (n + Z.succ (Z.of_nat d) - 1) with (n + Z.of_nat d) by lia. rewrite b_has by lia. cbn [bind].
    rewrite aligned_clopen_eval by (cbn [di_k di_n di_t]; auto; lia). cbn [di_k bind]. rewrite even_pow by lia. reflexivity.
  Qed.
  Lemma dissect_one inf sup fuel : (inf == dy k n)%Q -> (sup == dy (k + 1) n)%Q -> (31 <= fuel)%nat -> to_dyadic_intervals fuel inf sup (n + e) Clopen = Ok [mkDI k n Clopen].
  Proof.
    intros Hi Hs Hf. assert (S1 := e_small). unfold to_dyadic_intervals, di_of_param, qscale.
    assert (X : forall j x, (x == dy j n)%Q -> Qfloor (x * Qpower 2 (n + e)) = j * 2 ^ e).
    { intros j x Hx. assert (E : (x * Qpower 2 (n + e) == inject_Z (j * 2 ^ e))%Q); [|rewrite E; apply Qfloor_Z]. rewrite Hx. unfold dy. rewrite <- Qmult_assoc, <- Qpow2_plus. replace (- n + (n + e)) with e by lia. rewrite Qpow2_Z by lia. rewrite inject_Z_mult. reflexivity. }
    rewrite (X _ _ Hi), (X _ _ Hs). rewrite i32_ok by (unfold INT_MIN, INT_MAX; lia). cbn [bind]. rewrite i32_ok by (unfold INT_MIN, INT_MAX; lia). cbn [bind].
    assert (F : fuel = (Z.to_nat e + Datatypes.S (Datatypes.S (fuel - Z.to_nat e - 2)))%nat) by lia. rewrite F. set (f := (fuel - Z.to_nat e - 2)%nat). clearbody f. assert (K := k_small 0 ltac:(lia)). rewrite Z.pow_0_r, !Z.mul_1_r in K.
    assert (U1 := loop1_up (Datatypes.S (Datatypes.S f)) (Z.to_nat e) ltac:(lia)). rewrite Z2Nat.id in U1 by lia. rewrite U1. clear U1.
    assert (U2 := loop2_up (Datatypes.S (Datatypes.S f)) (Z.to_nat e) [] ltac:(lia)). rewrite Z2Nat.id in U2 by lia.
    cbn [tdi_loop1]. assert (BA := begin_apart 0 ltac:(lia)). rewrite Z.pow_0_r, Z.mul_1_r, Z.add_0_r in BA. rewrite BA. cbn [bind]. rewrite expand_eval by (cbn [di_k di_n]; unfold small; lia). cbn [bind di_k di_n]. rewrite Z.pow_1_r. rewrite aligned_clopen_eval by (cbn [di_k di_n di_t]; auto; lia). cbn [di_k bind].
    assert (HB := b_has e ltac:(lia)). destruct (Z.even k) eqn:Ev.
    - destruct (flip_even k Ev) as [_ E2]. assert (EB : k / 2 = kb) by (assert (R := kb_range); lia). rewrite EB, HB. cbn [bind]. rewrite U2. clear U2. cbn [tdi_loop2]. rewrite expand_eval by (cbn [di_k di_n]; unfold small; lia). cbn [bind di_k di_n]. rewrite Z.pow_1_r.
      rewrite contains_dyadic_eval; cbn [di_k di_n di_t]; rewrite ?Z.sub_diag, ?Z.pow_0_r, ?Z.div_1_r, ?Z.mul_1_r; auto; [|lia|unfold small; lia|unfold INT_MIN, INT_MAX; lia]. unfold unit at 1 2. cbn [di_t unit_t]. rewrite Z.eqb_refl. cbn [bind].
      rewrite aligned_clopen_eval by (cbn [di_k di_n di_t]; auto; lia). cbn [di_k bind]. replace (Z.even (k + 1)) with false by (replace (k + 1) with (Z.succ k) by lia; rewrite Z.even_succ, <- Z.negb_even, Ev; reflexivity).
      rewrite contained_end_eval by (cbn [di_k di_n]; unfold INT_MIN, INT_MAX; lia). cbn [bind di_k di_n di_t]. rewrite expand_eval by (cbn [di_k di_n]; unfold small; lia). cbn [bind di_k di_n]. unfold contains_dyadic. cbn [di_t di_n itype_eqb negb]. replace (n - 1 - 1 >=? n - 1) with false by lia. cbn [negb bind app]. do 3 f_equal; lia.
    - destruct (flip_odd k Ev) as [_ E2]. assert (EB : k / 2 + 1 = kb) by (assert (R := kb_range); lia). rewrite omitted_end_eval by (split; cbn [di_k di_n]; lia). cbn [bind di_k di_n di_t]. unfold unit. cbn [di_t unit_t]. unfold advance, unit. cbn [di_k di_n di_t unit_t]. rewrite i32_ok by (unfold INT_MIN, INT_MAX; lia). cbn [bind]. rewrite EB. rewrite HB. cbn [bind app]. rewrite U2. clear U2.
      cbn [tdi_loop2]. rewrite expand_eval by (cbn [di_k di_n]; unfold small; lia). cbn [bind di_k di_n]. rewrite Z.pow_1_r.
      rewrite contains_dyadic_eval; cbn [di_k di_n di_t]; rewrite ?Z.sub_diag, ?Z.pow_0_r, ?Z.div_1_r, ?Z.mul_1_r; auto; [|lia|unfold small; lia|unfold INT_MIN, INT_MAX; lia]. unfold unit at 1 2. cbn [di_t unit_t]. rewrite Z.eqb_refl. cbn [bind].
      rewrite aligned_clopen_eval by (cbn [di_k di_n di_t]; auto; lia). cbn [di_k bind]. replace (Z.even (k + 1)) with true by (replace (k + 1) with (Z.succ k) by lia; rewrite Z.even_succ, <- Z.negb_even, Ev; reflexivity).
      rewrite expand_eval by (cbn [di_k di_n]; unfold small; lia). cbn [bind di_k di_n]. unfold contains_dyadic. cbn [di_t di_n itype_eqb negb]. replace (n - 1 - 1 >=? n - 1) with false by lia. cbn [negb bind app]. do 3 f_equal; lia.
  Qed.
End One.
