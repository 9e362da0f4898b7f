(** The dyadic dissection is the coarsest one (C06). *)
From Verif Require Import Outcome DyadicModel DyadicSpec DyadicProofs DyadicProofs2 DyadicProofs3.
From Coq Require Import QArith Qround Qpower Qfield ZifyBool Lqa.
Open Scope Z_scope.
Arguments Z.mul : simpl never.
Arguments Z.pow : simpl never.
Arguments Z.add : simpl never.
Arguments Z.sub : simpl never.

(** The next coarser dyadic interval sticks out on the left of x, on the right of y. *)
Definition out_left (x : Q) (i : dint) : Prop := (dy (di_k i / 2) (di_n i - 1) < x)%Q.
Definition out_right (y : Q) (i : dint) : Prop := (y < dy (di_k i / 2 + 1) (di_n i - 1))%Q.

Section Loops.
  Variable tol : Z.
  Hypothesis Htol : - 2 ^ 28 <= tol <= 2 ^ 28.

  Lemma loop1_max : forall (m : nat) kb d ke k0 fuel acc,
    m = Z.to_nat (30 - d) -> 0 <= d <= 30 -> (S m <= fuel)%nat ->
    - 2 ^ 28 <= ke <= 2 ^ 28 -> - 2 ^ 28 <= kb * 2 ^ d -> kb * 2 ^ d <= ke -> kb * 2 ^ d - k0 < 2 ^ d ->
    Forall (out_left (dy k0 tol)) acc ->
    exists kb' d' acc', tdi_loop1 fuel (mkDI kb (tol - d) Clopen) (mkDI ke tol Clopen) acc
        = Ok (mkDI kb' (tol - d') Clopen, acc') /\
      0 <= d' <= 30 /\ kb' = ke / 2 ^ d' /\ - 2 ^ 28 <= kb' * 2 ^ d' /\
      Forall (out_left (dy k0 tol)) acc'.
  Proof.
    induction m as [m IH] using lt_wf_ind.
    intros kb d ke k0 fuel acc Hm Hd Hf Hke Hlo Hle H0 Hall.
    destruct fuel as [|fuel]; [lia|]. cbn [tdi_loop1].
    assert (P := pow2_pos d ltac:(lia)).
    rewrite contains_dyadic_eval; cbn [di_k di_n di_t]; try (unfold small; lia); auto;
      replace (tol - (tol - d)) with d by lia; try lia; try (unfold INT_MIN, INT_MAX; lia).
    cbn [bind]. unfold unit; cbn [di_t unit_t]. rewrite !Z.mul_1_l.
    destruct (kb =? ke / 2 ^ d) eqn:E.
    { exists kb, d, acc. repeat split; auto; lia. }
    assert (Hge : (kb + 1) * 2 ^ d <= ke).
    { pose proof (Z.div_mod ke (2 ^ d) ltac:(lia)). pose proof (Z.mod_pos_bound ke (2 ^ d) ltac:(lia)).
      assert (kb <= ke / 2 ^ d) by (apply Z.div_le_lower_bound; lia). nia. }
    assert (Hd30 : d < 30).
    { destruct (Z.eq_dec d 30); [|lia]. subst d. change (2 ^ 30) with 1073741824 in *.
      change (2 ^ 28) with 268435456 in *. lia. }
    assert (Hkb : - 2 ^ 28 <= kb <= 2 ^ 28).
    { change (2 ^ 28) with 268435456 in *. destruct (Z_le_gt_dec 0 kb); nia. }
    assert (B2 := Z.mod_pos_bound kb 2 ltac:(lia)). assert (D2 := Z.div_mod kb 2 ltac:(lia)).
    rewrite expand_eval; cbn [di_k di_n]; try (unfold small; lia); try lia. cbn [bind].
    change (2 ^ 1) with 2.
    rewrite aligned_clopen_eval; cbn [di_k di_n di_t]; try lia; auto. cbn [bind].
    assert (PS := two_pow_S d ltac:(lia)).
    destruct (Z.even kb) eqn:Ev.
    - assert (Ek := even_div kb Ev).
      replace (tol - d - 1) with (tol - (d + 1)) by lia.
      assert (Ek2 : kb / 2 * 2 ^ (d + 1) = kb * 2 ^ d).
      { rewrite PS. replace (kb / 2 * (2 * 2 ^ d)) with (2 * (kb / 2) * 2 ^ d) by ring. rewrite Ek. lia. }
      apply (IH (Z.to_nat (30 - (d + 1)))); try lia. auto.
    - assert (Ek := odd_div kb Ev).
      rewrite omitted_end_eval by (split; cbn [di_k di_n]; lia). cbn [bind]. unfold unit; cbn [di_k di_n di_t unit_t].
      unfold advance, unit; cbn [di_k di_n di_t unit_t].
      rewrite i32_ok by (unfold INT_MIN, INT_MAX; lia). cbn [bind].
      replace (tol - d - 1 + 1) with (tol - d) by lia.
      replace (2 * (kb / 2) + 1) with kb by lia.
      replace (tol - d - 1) with (tol - (d + 1)) by lia.
      assert (Ek2 : (kb / 2 + 1) * 2 ^ (d + 1) = (kb + 1) * 2 ^ d).
      { rewrite PS. replace ((kb / 2 + 1) * (2 * 2 ^ d)) with ((2 * (kb / 2) + 1 + 1) * 2 ^ d) by ring.
        rewrite Ek. ring. }
      apply (IH (Z.to_nat (30 - (d + 1)))); try lia.
      apply Forall_app; split; auto. constructor; [|constructor]. unfold out_left; cbn [di_k di_n].
      rewrite (dy_scale (kb / 2) (tol - d - 1) (d + 1)) by lia. replace (tol - d - 1 + (d + 1)) with tol by lia.
      apply dy_same_lt. lia.
  Qed.

  Lemma loop2_max : forall (m : nat) kb d kc c ke fuel acc,
    m = Z.to_nat (d - c) -> 0 <= c <= d -> d <= 30 -> (S m <= fuel)%nat ->
    - 2 ^ 28 <= ke <= 2 ^ 28 -> - 2 ^ 28 <= kb * 2 ^ d ->
    kb = ke / 2 ^ d -> kc = ke / 2 ^ c -> Forall (out_right (dy ke tol)) acc ->
    exists acc', tdi_loop2 fuel (mkDI kb (tol - d) Clopen) (mkDI kc (tol - c) Clopen)
                   (mkDI kc (tol - c) Clopen) acc = Ok acc' /\ Forall (out_right (dy ke tol)) acc'.
  Proof.
    induction m as [m IH] using lt_wf_ind.
    intros kb d kc c ke fuel acc Hm Hc Hd Hf Hke Hlo Hkb Hkc Hall.
    destruct fuel as [|fuel]; [lia|]. cbn [tdi_loop2].
    assert (Pc := pow2_pos c ltac:(lia)). assert (Pd := pow2_pos d ltac:(lia)).
    assert (Hkcs : - 2 ^ 28 <= kc <= 2 ^ 28).
    { subst kc. pose proof (Z.div_mod ke (2 ^ c) ltac:(lia)). pose proof (Z.mod_pos_bound ke (2 ^ c) ltac:(lia)).
      change (2 ^ 28) with 268435456 in *. split.
      - apply Z.div_le_lower_bound; nia. - apply Z.div_le_upper_bound; nia. }
    assert (B2 := Z.mod_pos_bound kc 2 ltac:(lia)). assert (D2 := Z.div_mod kc 2 ltac:(lia)).
    rewrite expand_eval; cbn [di_k di_n]; try (unfold small; lia); try lia. cbn [bind].
    change (2 ^ 1) with 2.
    assert (Hkb_le : kb * 2 ^ d <= ke).
    { subst kb. pose proof (Z.div_mod ke (2 ^ d) ltac:(lia)). pose proof (Z.mod_pos_bound ke (2 ^ d) ltac:(lia)). lia. }
    destruct (Z.eq_dec c d) as [->|Hcd].
    - unfold contains_dyadic; cbn [di_t di_n di_k itype_eqb negb].
      destruct (tol - d - 1 >=? tol - d) eqn:E; [lia|]. cbn [bind]. exists acc. auto.
    - assert (Hnext : kc / 2 = ke / 2 ^ (c + 1)).
      { rewrite two_pow_S, (Z.mul_comm 2), <- Z.div_div by lia. rewrite Hkc. reflexivity. }
      assert (Hkbn : kb = (kc / 2) / 2 ^ (d - (c + 1))).
      { rewrite Hnext, Z.div_div by (try (apply pow2_pos; lia); pose proof (pow2_pos (c + 1)); lia).
        rewrite <- Z.pow_add_r by lia. replace (c + 1 + (d - (c + 1))) with d by lia. auto. }
      rewrite contains_dyadic_eval; cbn [di_k di_n di_t]; auto; try (unfold small; lia);
        replace (tol - c - 1 - (tol - d)) with (d - (c + 1)) by lia; try lia.
      2:{ assert (2 ^ (d - (c+1)) <= 2 ^ d) by (apply Z.pow_le_mono_r; lia).
          pose proof (pow2_pos (d - (c+1)) ltac:(lia)).
          unfold INT_MIN, INT_MAX. change (2 ^ 28) with 268435456 in *.
          destruct (Z_le_gt_dec 0 kb); nia. }
      cbn [bind]. unfold unit; cbn [di_t unit_t]. rewrite !Z.mul_1_l, <- Hkbn, Z.eqb_refl.
      rewrite aligned_clopen_eval; cbn [di_k di_n di_t]; try lia; auto. cbn [bind].
      replace (tol - c - 1) with (tol - (c + 1)) by lia.
      destruct (Z.even kc) eqn:Ev.
      + apply (IH (Z.to_nat (d - (c + 1))) ltac:(lia) kb d (kc / 2) (c + 1) ke); auto; lia.
      + rewrite contained_end_eval; cbn [di_k di_n di_t]; try lia.
        2:{ change (2 ^ 1) with 2. unfold INT_MIN, INT_MAX. lia. }
        cbn [bind]. change (2 ^ 1) with 2.
        apply (IH (Z.to_nat (d - (c + 1))) ltac:(lia) kb d (kc / 2) (c + 1) ke); auto; try lia.
        constructor; auto. unfold out_right; cbn [di_k di_n]. rewrite Z.div_mul by lia.
        replace (tol - (c + 1) + 1 - 1) with (tol - (c + 1)) by lia.
        rewrite (dy_scale _ (tol - (c + 1)) (c + 1)) by lia. replace (tol - (c + 1) + (c + 1)) with tol by lia.
        apply dy_same_lt. rewrite Hnext. pose proof (pow2_pos (c + 1) ltac:(lia)).
        pose proof (Z.div_mod ke (2 ^ (c + 1)) ltac:(lia)). pose proof (Z.mod_pos_bound ke (2 ^ (c + 1)) ltac:(lia)). lia.
  Qed.
End Loops.

Lemma dissection_max (inf sup : Q) (tol : Z) :
  (inf <= sup)%Q -> - 2 ^ 28 <= tol <= 2 ^ 28 -> window inf tol -> window sup tol ->
  forall fuel l, (31 <= fuel)%nat -> to_dyadic_intervals fuel inf sup tol Clopen = Ok l ->
  Forall (fun i => out_left (grid_floor inf tol) i \/ out_right (grid_floor sup tol) i) l.
Proof.
  intros Hle Htol Hwi Hws fuel l Hf. unfold to_dyadic_intervals, di_of_param, qscale, window in *.
  rewrite i32_ok by (unfold INT_MIN, INT_MAX; lia). cbn [bind].
  rewrite i32_ok by (unfold INT_MIN, INT_MAX; lia). cbn [bind].
  unfold grid_floor.
  assert (Hfl : Qfloor (inf * Qpower 2 tol) <= Qfloor (sup * Qpower 2 tol)).
  { apply Qfloor_resp_le. apply Qmult_le_r; auto. apply Qpow2_pos. }
  set (kb := Qfloor (inf * Qpower 2 tol)) in *. set (ke := Qfloor (sup * Qpower 2 tol)) in *.
  destruct (loop1_max tol Htol 30 kb 0 ke kb fuel []) as (kb' & d' & acc & H1 & Hd' & Hkb' & Hlo' & Hall);
    try lia; try (rewrite Z.pow_0_r; lia); [constructor|].
  replace (tol - 0) with tol in H1 by lia. rewrite H1. cbn [bind].
  destruct (loop2_max tol Htol (Z.to_nat (d' - 0)) kb' d' ke 0 ke fuel []) as (acc' & H2 & Hall');
    auto; try lia.
  { rewrite Z.pow_0_r, Z.div_1_r. reflexivity. }
  replace (tol - 0) with tol in H2 by lia. rewrite H2. cbn [bind]. intros [= <-].
  apply Forall_app. split; eapply Forall_impl; [|exact Hall| |exact Hall']; cbn; auto.
Qed.

(** Coarser dyadic intervals around a piece contain the next coarser one. *)
Lemma coarser_contains k n k' n' : n' < n -> (forall x, clopen_pts k n x -> clopen_pts k' n' x) ->
  (dy k' n' <= dy (k / 2) (n - 1))%Q /\ (dy (k / 2 + 1) (n - 1) <= dy (k' + 1) n')%Q.
Proof.
  intros Hn H. assert (Hp := H _ (clopen_inhabited k n)). assert (P := pow2_pos (n - 1 - n') ltac:(lia)).
  assert (E : k / 2 / 2 ^ (n - 1 - n') = k').
  { assert (C : clopen_pts (k / 2) (n - 1) (dy k n)).
    { change 2 with (2 ^ 1) at 1. apply clopen_coarse; [lia|]. replace (n - 1 + 1) with n by lia. apply clopen_inhabited. }
    apply (clopen_unique _ _ n' (dy k n)); auto. apply clopen_coarse; [lia|]. replace (n' + (n - 1 - n')) with (n - 1) by lia. exact C. }
  assert (DM := Z.div_mod (k / 2) (2 ^ (n - 1 - n')) ltac:(lia)). assert (MB := Z.mod_pos_bound (k / 2) (2 ^ (n - 1 - n')) ltac:(lia)). rewrite E in DM.
  rewrite (dy_scale k' n' (n - 1 - n')), (dy_scale (k' + 1) n' (n - 1 - n')) by lia. replace (n' + (n - 1 - n')) with (n - 1) by lia.
  split; apply dy_same_le; lia.
Qed.
Lemma dissection_coarsest : forall inf sup tol,
  (inf <= sup)%Q -> - 2 ^ 28 <= tol <= 2 ^ 28 -> window inf tol -> window sup tol ->
  forall fuel l, (31 <= fuel)%nat -> to_dyadic_intervals fuel inf sup tol Clopen = Ok l ->
  forall i k n, In i l -> n < di_n i -> (forall x, di_pts i x -> clopen_pts k n x) ->
  exists x, clopen_pts k n x /\ ~ (grid_floor inf tol <= x /\ x < grid_floor sup tol)%Q.
Proof.
  intros inf sup tol Hle Htol W1 W2 fuel l Hf Hl i k n Hi Hn Hc.
  assert (HM := dissection_max _ _ _ Hle Htol W1 W2 _ _ Hf Hl). rewrite Forall_forall in HM.
  destruct (dissection_correct _ _ _ Hle Htol W1 W2 _ Hf) as (l' & Hl' & HT & HE). rewrite Hl in Hl'. injection Hl' as <-.
  rewrite Forall_forall in HT. destruct (HT i Hi) as [Ti _].
  assert (Hc' : forall x, clopen_pts (di_k i) (di_n i) x -> clopen_pts k n x). { intros x Hx. apply Hc. unfold di_pts. rewrite Ti. exact Hx. }
  destruct (coarser_contains _ _ _ _ Hn Hc') as [A B].
  destruct (HM i Hi) as [O|O]; unfold out_left, out_right in O.
  - exists (dy k n). split; [apply clopen_inhabited|]. intros [X _]. lra.
  - assert (S1 : (dy (di_k i / 2) (di_n i - 1) < dy (di_k i / 2 + 1) (di_n i - 1))%Q) by (apply dy_same_lt; lia).
    exists (if Qlt_le_dec (grid_floor sup tol) (dy k n) then dy k n else grid_floor sup tol).
    destruct (Qlt_le_dec (grid_floor sup tol) (dy k n)).
    + split; [apply clopen_inhabited|]. intros [_ X]. lra.
    + split; [split; lra|]. intros [_ X]. lra.
Qed.
