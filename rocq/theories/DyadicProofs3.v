(** Dyadic dissection (C06). *)
From Verif Require Import Outcome DyadicModel DyadicSpec DyadicProofs DyadicProofs2.
From Coq Require Import QArith Qround Qpower Qfield ZifyBool.
Open Scope Z_scope.
Arguments Z.mul : simpl never.
Arguments Z.pow : simpl never.
Arguments Z.add : simpl never.
Arguments Z.sub : simpl never.

Definition cell (i : dint) : Z * Z := (di_k i, di_n i).

Lemma end_to_end_app x y z l1 l2 :
  end_to_end x y l1 -> end_to_end y z l2 -> end_to_end x z (l1 ++ l2).
Proof.
  revert x; induction l1 as [|[k n] l1 IH]; simpl; intros x H1 H2.
  - destruct l2 as [|[k n] l2]; simpl in *; [rewrite H1; auto|rewrite H1; auto].
  - destruct H1 as [H1 H1']. split; auto.
Qed.
Lemma end_to_end_eq x x' y y' l : (x == x')%Q -> (y == y')%Q -> end_to_end x y l -> end_to_end x' y' l.
Proof.
  revert x x'. induction l as [|[k n] l IH]; simpl; intros x x' Hx Hy.
  - rewrite Hx, Hy. auto.
  - intros [H1 H2]. split; [rewrite <- Hx; auto|]. eapply IH; eauto; reflexivity.
Qed.

Section Loops.
  Variable tol : Z.
  Hypothesis Htol : - 2 ^ 28 <= tol <= 2 ^ 28.

  Lemma even_div k : Z.even k = true -> 2 * (k / 2) = k.
  Proof. intros H. apply Z.even_spec in H as [m ->]. rewrite (Z.mul_comm 2 m), Z.div_mul; lia. Qed.
  Lemma odd_div k : Z.even k = false -> 2 * (k / 2) + 1 = k.
  Proof.
    intros H. rewrite <- Z.negb_odd in H. apply negb_false_iff in H.
    apply Z.odd_spec in H as [m ->]. replace (2 * m + 1) with (1 + m * 2) by lia.
    rewrite Z.div_add by lia. change (1 / 2) with 0. lia.
  Qed.

  Lemma two_pow_S d : 0 <= d -> 2 ^ (d + 1) = 2 * 2 ^ d.
  Proof. intros. rewrite Z.pow_add_r by lia. change (2 ^ 1) with 2. lia. Qed.

  (** First loop. *)
  Lemma loop1_correct : forall (m : nat) kb d ke fuel acc x0,
    m = Z.to_nat (30 - d) -> 0 <= d <= 30 -> (S m <= fuel)%nat ->
    - 2 ^ 28 <= ke <= 2 ^ 28 -> - 2 ^ 28 <= kb * 2 ^ d -> kb * 2 ^ d <= ke ->
    end_to_end x0 (dy kb (tol - d)) (map cell acc) ->
    Forall (fun i => di_t i = Clopen /\ di_n i <= tol) acc ->
    exists kb' d' acc', tdi_loop1 fuel (mkDI kb (tol - d) Clopen) (mkDI ke tol Clopen) acc
        = Ok (mkDI kb' (tol - d') Clopen, acc') /\
      0 <= d' <= 30 /\ kb' = ke / 2 ^ d' /\ - 2 ^ 28 <= kb' * 2 ^ d' /\
      end_to_end x0 (dy kb' (tol - d')) (map cell acc') /\
      Forall (fun i => di_t i = Clopen /\ di_n i <= tol) acc'.
  Proof.
    induction m as [m IH] using lt_wf_ind.
    intros kb d ke fuel acc x0 Hm Hd Hf Hke Hlo Hle Hacc Hall.
    destruct fuel as [|fuel]; [lia|]. cbn [tdi_loop1].
    assert (P := pow2_pos d ltac:(lia)).
    rewrite contains_dyadic_eval; cbn [di_k di_n di_t]; try (unfold small; lia); auto;
      replace (tol - (tol - d)) with d by lia; try lia; try (unfold INT_MIN, INT_MAX; lia).
    cbn [bind]. unfold unit; cbn [di_t unit_t]. rewrite !Z.mul_1_l.
    destruct (kb =? ke / 2 ^ d) eqn:E.
    { exists kb, d, acc. repeat split; auto; lia. }
    assert (Hge : (kb + 1) * 2 ^ d <= ke).
    { pose proof (Z.div_mod ke (2 ^ d) ltac:(lia)). pose proof (Z.mod_pos_bound ke (2 ^ d) ltac:(lia)).
      assert (kb <= ke / 2 ^ d) by (apply Z.div_le_lower_bound; lia). nia. }
    assert (Hd30 : d < 30).
    { destruct (Z.eq_dec d 30); [|lia]. subst d. change (2 ^ 30) with 1073741824 in *.
      change (2 ^ 28) with 268435456 in *. lia. }
    assert (Hkb : - 2 ^ 28 <= kb <= 2 ^ 28).
    { change (2 ^ 28) with 268435456 in *. destruct (Z_le_gt_dec 0 kb); nia. }
    assert (B2 := Z.mod_pos_bound kb 2 ltac:(lia)). assert (D2 := Z.div_mod kb 2 ltac:(lia)).
    rewrite expand_eval; cbn [di_k di_n]; try (unfold small; lia); try lia. cbn [bind].
    change (2 ^ 1) with 2.
    rewrite aligned_clopen_eval; cbn [di_k di_n di_t]; try lia; auto. cbn [bind].
    assert (PS := two_pow_S d ltac:(lia)).
    destruct (Z.even kb) eqn:Ev.
    - assert (Ek := even_div kb Ev).
      replace (tol - d - 1) with (tol - (d + 1)) by lia.
      assert (Ek2 : kb / 2 * 2 ^ (d + 1) = kb * 2 ^ d).
      { rewrite PS. replace (kb / 2 * (2 * 2 ^ d)) with (2 * (kb / 2) * 2 ^ d) by ring. rewrite Ek. lia. }
      apply (IH (Z.to_nat (30 - (d + 1)))); try lia.
      + eapply end_to_end_eq; [reflexivity| |exact Hacc].
        rewrite (dy_scale (kb / 2) (tol - (d + 1)) 1) by lia. change (2 ^ 1) with 2.
        replace (kb / 2 * 2) with kb by lia. replace (tol - (d + 1) + 1) with (tol - d) by lia. reflexivity.
      + auto.
    - assert (Ek := odd_div kb Ev).
      rewrite omitted_end_eval by (split; cbn [di_k di_n]; lia). cbn [bind]. unfold unit; cbn [di_k di_n di_t unit_t].
      unfold advance, unit; cbn [di_k di_n di_t unit_t].
      rewrite i32_ok by (unfold INT_MIN, INT_MAX; lia). cbn [bind].
      replace (tol - d - 1 + 1) with (tol - d) by lia.
      replace (2 * (kb / 2) + 1) with kb by lia.
      replace (tol - d - 1) with (tol - (d + 1)) by lia.
      assert (Ek2 : (kb / 2 + 1) * 2 ^ (d + 1) = (kb + 1) * 2 ^ d).
      { rewrite PS. replace ((kb / 2 + 1) * (2 * 2 ^ d)) with ((2 * (kb / 2) + 1 + 1) * 2 ^ d) by ring.
        rewrite Ek. ring. }
      apply (IH (Z.to_nat (30 - (d + 1)))); try lia.
      + rewrite map_app. eapply end_to_end_app; [exact Hacc|].
        simpl. split; [reflexivity|].
        rewrite (dy_scale (kb / 2 + 1) (tol - (d + 1)) 1) by lia. change (2 ^ 1) with 2.
        replace ((kb / 2 + 1) * 2) with (kb + 1) by lia.
        replace (tol - (d + 1) + 1) with (tol - d) by lia. reflexivity.
      + apply Forall_app; split; auto. repeat constructor; cbn; lia.
  Qed.

  (** Second loop. *)
  Lemma loop2_correct : forall (m : nat) kb d kc c ke fuel acc,
    m = Z.to_nat (d - c) -> 0 <= c <= d -> d <= 30 -> (S m <= fuel)%nat ->
    - 2 ^ 28 <= ke <= 2 ^ 28 -> - 2 ^ 28 <= kb * 2 ^ d ->
    kb = ke / 2 ^ d -> kc = ke / 2 ^ c ->
    end_to_end (dy kc (tol - c)) (dy ke tol) (map cell acc) ->
    Forall (fun i => di_t i = Clopen /\ di_n i <= tol) acc ->
    exists acc', tdi_loop2 fuel (mkDI kb (tol - d) Clopen) (mkDI kc (tol - c) Clopen)
                   (mkDI kc (tol - c) Clopen) acc = Ok acc' /\
      end_to_end (dy kb (tol - d)) (dy ke tol) (map cell acc') /\
      Forall (fun i => di_t i = Clopen /\ di_n i <= tol) acc'.
  Proof.
    induction m as [m IH] using lt_wf_ind.
    intros kb d kc c ke fuel acc Hm Hc Hd Hf Hke Hlo Hkb Hkc Hacc Hall.
    destruct fuel as [|fuel]; [lia|]. cbn [tdi_loop2].
    assert (Pc := pow2_pos c ltac:(lia)). assert (Pd := pow2_pos d ltac:(lia)).
    assert (Hkcs : - 2 ^ 28 <= kc <= 2 ^ 28).
    { subst kc. pose proof (Z.div_mod ke (2 ^ c) ltac:(lia)). pose proof (Z.mod_pos_bound ke (2 ^ c) ltac:(lia)).
      change (2 ^ 28) with 268435456 in *. split.
      - apply Z.div_le_lower_bound; nia. - apply Z.div_le_upper_bound; nia. }
    assert (B2 := Z.mod_pos_bound kc 2 ltac:(lia)). assert (D2 := Z.div_mod kc 2 ltac:(lia)).
    rewrite expand_eval; cbn [di_k di_n]; try (unfold small; lia); try lia. cbn [bind].
    change (2 ^ 1) with 2.
    assert (Hkb_le : kb * 2 ^ d <= ke).
    { subst kb. pose proof (Z.div_mod ke (2 ^ d) ltac:(lia)). pose proof (Z.mod_pos_bound ke (2 ^ d) ltac:(lia)). lia. }
    destruct (Z.eq_dec c d) as [->|Hcd].
    - (* next is coarser than begin: stop *)
      unfold contains_dyadic; cbn [di_t di_n di_k itype_eqb negb].
      destruct (tol - d - 1 >=? tol - d) eqn:E; [lia|]. cbn [bind].
      exists acc. subst kb kc. auto.
    - assert (Hnext : kc / 2 = ke / 2 ^ (c + 1)).
      { rewrite two_pow_S, (Z.mul_comm 2), <- Z.div_div by lia. rewrite Hkc. reflexivity. }
      assert (Hkbn : kb = (kc / 2) / 2 ^ (d - (c + 1))).
      { rewrite Hnext, Z.div_div by (try (apply pow2_pos; lia); pose proof (pow2_pos (c + 1)); lia).
        rewrite <- Z.pow_add_r by lia. replace (c + 1 + (d - (c + 1))) with d by lia. auto. }
      rewrite contains_dyadic_eval; cbn [di_k di_n di_t]; auto; try (unfold small; lia);
        replace (tol - c - 1 - (tol - d)) with (d - (c + 1)) by lia; try lia.
      2:{ assert (2 ^ (d - (c+1)) <= 2 ^ d) by (apply Z.pow_le_mono_r; lia).
          pose proof (pow2_pos (d - (c+1)) ltac:(lia)).
          unfold INT_MIN, INT_MAX. change (2 ^ 28) with 268435456 in *.
          destruct (Z_le_gt_dec 0 kb); nia. }
      cbn [bind]. unfold unit; cbn [di_t unit_t]. rewrite !Z.mul_1_l, <- Hkbn, Z.eqb_refl.
      rewrite aligned_clopen_eval; cbn [di_k di_n di_t]; try lia; auto. cbn [bind].
      replace (tol - c - 1) with (tol - (c + 1)) by lia.
      destruct (Z.even kc) eqn:Ev.
      + assert (Ek := even_div kc Ev).
        apply (IH (Z.to_nat (d - (c + 1))) ltac:(lia) kb d (kc / 2) (c + 1) ke); auto; try lia.
        eapply end_to_end_eq; [|reflexivity|exact Hacc].
        rewrite (dy_scale (kc / 2) (tol - (c + 1)) 1) by lia. change (2 ^ 1) with 2.
        replace (kc / 2 * 2) with kc by lia. replace (tol - (c + 1) + 1) with (tol - c) by lia. reflexivity.
      + assert (Ek := odd_div kc Ev).
        rewrite contained_end_eval; cbn [di_k di_n di_t]; try lia.
        2:{ change (2 ^ 1) with 2. unfold INT_MIN, INT_MAX. lia. }
        cbn [bind]. change (2 ^ 1) with 2.
        apply (IH (Z.to_nat (d - (c + 1))) ltac:(lia) kb d (kc / 2) (c + 1) ke); auto; try lia.
        * simpl. split.
          -- rewrite (dy_scale (kc / 2) (tol - (c + 1)) 1) by lia. change (2 ^ 1) with 2. reflexivity.
          -- replace (kc / 2 * 2 + 1) with kc by lia. replace (tol - (c + 1) + 1) with (tol - c) by lia.
             exact Hacc.
        * constructor; auto. cbn; split; auto; lia.
  Qed.
End Loops.

Definition window (x : Q) (n : Z) : Prop :=
  - 2 ^ 28 <= Qfloor (x * Qpower 2 n) <= 2 ^ 28.

Lemma dissection_correct (inf sup : Q) (tol : Z) :
  (inf <= sup)%Q -> - 2 ^ 28 <= tol <= 2 ^ 28 -> window inf tol -> window sup tol ->
  forall fuel, (31 <= fuel)%nat ->
  exists l, to_dyadic_intervals fuel inf sup tol Clopen = Ok l /\
    Forall (fun i => di_t i = Clopen /\ di_n i <= tol) l /\
    end_to_end (grid_floor inf tol) (grid_floor sup tol) (map cell l).
Proof.
  intros Hle Htol Hwi Hws fuel Hf. unfold to_dyadic_intervals, di_of_param, qscale, window in *.
  rewrite i32_ok by (unfold INT_MIN, INT_MAX; lia). cbn [bind].
  rewrite i32_ok by (unfold INT_MIN, INT_MAX; lia). cbn [bind].
  unfold grid_floor.
  assert (Hfl : Qfloor (inf * Qpower 2 tol) <= Qfloor (sup * Qpower 2 tol)).
  { apply Qfloor_resp_le. apply Qmult_le_r; auto. apply Qpow2_pos. }
  set (kb := Qfloor (inf * Qpower 2 tol)) in *. set (ke := Qfloor (sup * Qpower 2 tol)) in *.
  destruct (loop1_correct tol Htol 30 kb 0 ke fuel [] (dy kb tol)) as (kb' & d' & acc & H1 & Hd' & Hkb' & Hlo' & Hacc & Hall);
    try lia; try (rewrite Z.pow_0_r; lia).
  { replace (tol - 0) with tol by lia. simpl. reflexivity. }
  { constructor. }
  replace (tol - 0) with tol in H1 by lia. rewrite H1. cbn [bind].
  destruct (loop2_correct tol Htol (Z.to_nat (d' - 0)) kb' d' ke 0 ke fuel []) as (acc' & H2 & Hacc' & Hall');
    auto; try lia.
  { rewrite Z.pow_0_r, Z.div_1_r. reflexivity. }
  { replace (tol - 0) with tol by lia. simpl. reflexivity. }
  replace (tol - 0) with tol in H2 by lia. rewrite H2. cbn [bind].
  exists (acc ++ acc'). repeat split; auto.
  - apply Forall_app; auto.
  - rewrite map_app. eapply end_to_end_app; eauto.
Qed.

(** What end-to-end means for points. *)
Lemma end_to_end_points x y l z : end_to_end x y l ->
  ((exists c, In c l /\ clopen_pts (fst c) (snd c) z) <-> (x <= z /\ z < y)%Q).
Proof.
  revert x. induction l as [|[k n] l IH]; simpl; intros x H.
  - split; [intros (c & [] & _)|]. intros [H1 H2]. exfalso.
    rewrite <- H in H2. apply (Qlt_irrefl x). eapply Qle_lt_trans; eauto.
  - destruct H as [Hx H]. specialize (IH _ H).
    assert (Hmono : (dy (k + 1) n <= y)%Q).
    { clear - H. revert H. generalize (dy (k + 1) n) as u. induction l as [|[k' n'] l IHl]; simpl; intros u H.
      - rewrite H; apply Qle_refl.
      - destruct H as [H1 H2]. eapply Qle_trans; [|apply IHl, H2].
        rewrite H1. apply dy_same_le. lia. }
    split.
    + intros (c & [<-|Hc] & Hp).
      * destruct Hp as [P1 P2]; cbn [fst snd] in *. split; [rewrite Hx; auto|].
        eapply Qlt_le_trans; eauto.
      * destruct (proj1 IH (ex_intro _ c (conj Hc Hp))) as [P1 P2]. split; auto.
        rewrite Hx. eapply Qle_trans; [|exact P1]. apply dy_same_le. lia.
    + intros [P1 P2]. destruct (Qlt_le_dec z (dy (k + 1) n)) as [Hz|Hz].
      * exists (k, n). split; auto. split; cbn; auto. rewrite <- Hx; auto.
      * destruct (proj2 IH (conj Hz P2)) as (c & Hc & Hp). exists c; auto.
Qed.

(** Opencl dissection never returns unless the two ends fall in the same cell. *)
Lemma loop1_mixed_never fuel b e acc r : di_t b = Clopen -> di_t e = Opencl ->
  tdi_loop1 fuel b e acc <> Ok r.
Proof.
  revert b acc. induction fuel as [|fuel IH]; intros b acc Hb He; cbn [tdi_loop1]; [discriminate|].
  unfold contains_dyadic at 1. rewrite Hb, He. cbn [itype_eqb negb bind].
  intros H. apply bind_ok in H as (nx & Hnx & H).
  assert (Hnt : di_t nx = Clopen).
  { unfold expand_interval in Hnx. apply i32_bind in Hnx as [Hnx _].
    unfold di_make in Hnx. apply bind_ok in Hnx as ([d1 ok] & _ & Hnx). destruct ok.
    - injection Hnx as <-. reflexivity.
    - apply i32_bind in Hnx as [Hnx _]. apply bind_ok in Hnx as (p & _ & Hnx).
      apply i32_bind in Hnx as [Hnx _]. apply bind_ok in Hnx as (m & _ & Hnx).
      apply i32_bind in Hnx as [Hnx _]. apply i32_bind in Hnx as [Hnx _].
      apply bind_ok in Hnx as ([d2 b2] & _ & Hnx). destruct b2; [|discriminate].
      injection Hnx as <-. reflexivity. }
  apply bind_ok in H as (al & _ & H). destruct al.
  - eapply IH; eauto.
  - apply bind_ok in H as (pc & _ & H). apply bind_ok in H as (nx' & Hadv & H).
    eapply (IH nx'); eauto. unfold advance in Hadv. apply i32_bind in Hadv as [Hadv _].
    injection Hadv as <-. exact Hnt.
Qed.

Lemma opencl_dissection_never (inf sup : Q) (tol : Z) :
  ~ Qceiling (inf * Qpower 2 tol) = Qceiling (sup * Qpower 2 tol) ->
  small (Qceiling (inf * Qpower 2 tol)) -> small (Qceiling (sup * Qpower 2 tol)) ->
  forall fuel l, to_dyadic_intervals fuel inf sup tol Opencl <> Ok l.
Proof.
  intros Hne Hi Hs fuel l H. unfold to_dyadic_intervals, di_of_param, qscale in H.
  rewrite i32_ok in H by (apply small_i32; auto). cbn [bind] in H.
  rewrite i32_ok in H by (apply small_i32; auto). cbn [bind] in H.
  apply bind_ok in H as ([b l1] & H & _).
  destruct fuel as [|fuel]; [discriminate|]. cbn [tdi_loop1] in H.
  rewrite contains_dyadic_eval in H; cbn [di_k di_n di_t]; auto;
    rewrite ?Z.sub_diag, ?Z.pow_0_r, ?Z.mul_1_r; try lia; try (apply small_i32; auto).
  cbn [bind di_n di_k] in H. rewrite Z.sub_diag, Z.pow_0_r, Z.div_1_r in H. unfold unit in H; cbn [di_t unit_t] in H.
  destruct (_ =? _) eqn:E in H; [lia|].
  apply bind_ok in H as (nx & Hnx & H).
  assert (Hnt : di_t nx = Clopen).
  { unfold expand_interval in Hnx. apply i32_bind in Hnx as [Hnx _].
    unfold di_make in Hnx. apply bind_ok in Hnx as ([d1 ok] & _ & Hnx). destruct ok.
    - injection Hnx as <-. reflexivity.
    - apply i32_bind in Hnx as [Hnx _]. apply bind_ok in Hnx as (p & _ & Hnx).
      apply i32_bind in Hnx as [Hnx _]. apply bind_ok in Hnx as (m & _ & Hnx).
      apply i32_bind in Hnx as [Hnx _]. apply i32_bind in Hnx as [Hnx _].
      apply bind_ok in Hnx as ([d2 b2] & _ & Hnx). destruct b2; [|discriminate].
      injection Hnx as <-. reflexivity. }
  apply bind_ok in H as (al & _ & H). destruct al.
  - eapply loop1_mixed_never; [| |exact H]; auto.
  - apply bind_ok in H as (pc & _ & H). apply bind_ok in H as (nx' & Hadv & H).
    eapply (loop1_mixed_never _ nx'); [| |exact H]; auto. unfold advance in Hadv. apply i32_bind in Hadv as [Hadv _].
    injection Hadv as <-. exact Hnt.
Qed.
