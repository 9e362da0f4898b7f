(** The Lie-to-tensor matrix of a constructed basis. *)
From Coq Require Import ZifyBool Sorted.
From Verif Require Import Outcome Alg Words Mem Series Shuffle SparseModel SparseProofs Mobius HallModel HallSpec LieSpec HallTab HallCount HallDim HallProofs HallTrees HallLookup HallLemmas SmhModel SmhProofs SmhBuild SmhLemmas L2tModel L2tProofs.
Local Open Scope Z_scope.

Lemma i64_pos x : 0 <= x <= I64_MAX -> i64 x = Ok x.
Proof. intros H. apply i64_ok. unfold I64_MIN. lia. Qed.

Section Build.
  Variable R : cring.
  Add Ring Rring_l2b : (rth R).
  Variable isz : R -> bool.
  Hypothesis isz_ok : forall x, isz x = true <-> x = r0.
  Hypothesis R1 : (r1 : R) <> r0.
  Variables (B : lie_basis) (w N M : Z).
  Hypothesis HB : basis_ok B w N M.
  Hypothesis Hw : 1 <= w.
  Hypothesis Hfit : N * w ^ N < I64_MAX.
  Notation col := (list (Z * R)).
  Notation db := (bat (lb_db B)).
  Notation L := (fun k => bat (lb_data B) (2 * k)). Notation Rt := (fun k => bat (lb_data B) (2 * k + 1)).
  Notation T := (tr L Rt).
  Notation H := (bo_hall _ _ _ _ HB).
  Notation colk := (colk R). Notation ready := (ready R isz). Notation repr := (repr R w). Notation cinsall := (cinsall R isz).
  Notation rows := (words_below w (S (Z.to_nat N))).
  Notation deg k := (Z.to_nat (tdeg (T k))).

  Lemma HN1 : 1 <= N. Proof. apply (hd_N _ _ _ _ _ _ H). Qed.
  Lemma rows_fit : rows <= I64_MAX. Proof. apply words_below_fits; auto. apply HN1. Qed.
  Lemma wpow_fit d : 0 <= d <= N -> 0 < w ^ d <= I64_MAX.
  Proof.
    intros Hd. assert (X : w ^ d <= w ^ N) by (apply Z.pow_le_mono_r; lia). assert (0 < w ^ d) by (apply Z.pow_pos_nonneg; lia). assert (Y := HN1). nia.
  Qed.
  Lemma tsd_ok d : 0 <= d <= N -> tensor_size_of_degree B d = Ok (w ^ d).
  Proof.
    intros Hd. unfold tensor_size_of_degree, zrange. rewrite (bo_w _ _ _ _ HB).
    destruct (for_zseq (fun i s => s = w ^ i) (fun _ size => i64 (size * w)) (Z.to_nat d) 0 1) as (s & E & Hs); [rewrite Z.pow_0_r; auto| |].
    - intros i t Hi ->. exists (w ^ (i + 1)). split; auto. replace (w ^ i * w) with (w ^ (i + 1)) by (rewrite Z.pow_add_r, Z.pow_1_r; lia).
      apply i64_pos. assert (X := wpow_fit (i + 1) ltac:(lia)). lia.
    - rewrite E, Hs. do 2 f_equal. lia.
  Qed.
  Lemma tensor_size_ok : get_tensor_size B = Ok rows.
  Proof.
    unfold get_tensor_size. rewrite (bo_w _ _ _ _ HB), (bo_N _ _ _ _ HB). assert (HN := HN1). assert (RF := rows_fit).
    destruct (for_zseq (fun i s => s = words_below w (Z.to_nat i)) (fun _ size => i64 (1 + w * size)) (Z.to_nat N) 1 1) as (s & E & Hs); [reflexivity| |].
    - intros i t Hi ->. exists (words_below w (Z.to_nat (i + 1))). split; auto. replace (Z.to_nat (i + 1)) with (S (Z.to_nat i)) by lia.
      assert (E : words_below w (S (Z.to_nat i)) = 1 + w * words_below w (Z.to_nat i)) by (rewrite words_below_rec by lia; lia). rewrite <- E. apply i64_pos.
      assert (X := words_below_mono w ltac:(lia) (S (Z.to_nat i)) (S (Z.to_nat N)) ltac:(lia)). assert (Y := words_below_nonneg w ltac:(lia) (S (Z.to_nat i))).
      unfold I64_MAX in *. lia.
    - rewrite E, Hs. do 2 f_equal. lia.
  Qed.

  Definition cols_ok (n : Z) (rc : list col) : Prop :=
    zlen rc = n /\ forall k, 1 <= k <= n -> repr (colk rc (k - 1)) (deg k) (texpand R (T k)).
  Definition linv (n : Z) (h : smh R) : Prop := exists rc, ready rows M h rc /\ cols_ok n rc.

  Lemma sum_nz (l : list (Z * R)) j : cval R l j <> r0 -> exists p, In p l /\ nz R isz p = true.
  Proof.
    intros Hs. destruct (existsb (nz R isz) l) eqn:E; [apply existsb_exists in E; exact E|]. exfalso. apply Hs. unfold cval. apply sum_zero.
    intros p Hp. destruct (fst p =? j); auto. apply isz_ok. destruct (isz (snd p)) eqn:Ez; auto.
    assert (X : existsb (nz R isz) l = true) by (apply existsb_exists; exists p; split; auto; unfold nz; rewrite Ez; auto). congruence.
  Qed.
  Lemma cols_safe n rc : cols_ok n rc -> n <= M -> safe R isz rc.
  Proof.
    intros [Hl Hc] Hn. apply (anchored_safe R isz 0); [lia|intros; lia|]. intros Hpos. rewrite Hl in Hpos.
    destruct (Hc 1 ltac:(lia)) as [_ X]. change (1 - 1) with 0 in X. assert (Y := M_nonneg _ _ _ _ HB).
    rewrite (tr_letter _ _ _ _ _ _ H) in X by lia. specialize (X [0]). cbn [tdeg texpand length] in X.
    apply (sum_nz _ (pos w [0])). rewrite X; auto. constructor; [lia|constructor].
  Qed.
  Lemma cols_push n rc c : cols_ok n rc -> 0 <= n -> repr c (deg (n + 1)) (texpand R (T (n + 1))) -> cols_ok (n + 1) (c :: finish R isz rc).
  Proof.
    intros [Hl Hc] Hn Hr. split; [rewrite zlen_cons, zlen_finish; lia|]. intros k Hk. destruct (Z.eq_dec k (n + 1)) as [->|Hne].
    - replace (n + 1 - 1) with (zlen (finish R isz rc)) by (rewrite zlen_finish; lia). rewrite colk_cur. exact Hr.
    - rewrite colk_old by (rewrite zlen_finish; lia). destruct (colk_finish R isz rc (k - 1) ltac:(lia)) as [->| ->]; [apply Hc; lia|].
      apply repr_filter; auto. apply Hc. lia.
  Qed.

  Lemma letter_step i h : 0 <= i < w -> linv i h -> exists h', (let! h := insert_frame isz h in insert_value isz h (i + 1) r1) = Ok h' /\ linv (i + 1) h'.
  Proof.
    intros Hi (rc & Hr & Hc). assert (Y := M_nonneg _ _ _ _ HB). assert (Hs := cols_safe i rc Hc ltac:(lia)).
    destruct (ready_frame R isz rows M h rc Hr Hs) as (h1 & E1 & H1); [destruct Hc; lia|]. rewrite E1. cbn [bind].
    destruct (ready_insert R isz rows M h1 [] (finish R isz rc) (i + 1) r1 H1) as (h2 & E2 & H2). exists h2. split; auto.
    eexists. split; [exact H2|]. apply cols_push; auto; [lia|]. rewrite (tr_letter _ _ _ _ _ _ H) by lia. cbn [tdeg texpand].
    assert (Ez : isz r1 = false) by (destruct (isz r1) eqn:E; auto; apply isz_ok in E; contradiction).
    unfold SmhBuild.cinsall. cbn [fold_left snd fst]. rewrite Ez. cbn [cins].
    assert (P1 : forall x, pos w [x] = x + 1).
    { intros x. unfold pos. cbn [length words_below idx]. change (Z.of_nat 0) with 0. rewrite Z.pow_0_r. lia. }
    split.
    - intros p [<-|[]]. exists [i]. split; [constructor; [lia|constructor]|]. split; [reflexivity|]. rewrite P1. reflexivity.
    - intros u Hu Hl. destruct u as [|x [|y u]]; try discriminate Hl. rewrite P1. unfold cval. cbn [sum fst snd].
      replace (i + 1 =? x + 1) with (x =? i + 1 - 1) by lia. destruct (x =? i + 1 - 1); ring.
  Qed.

  Lemma comm_step d k h : 2 <= d <= N -> db d <= k < db (d + 1) -> linv (k - 1) h -> exists h', insert_l2t_commutator R isz B k h = Ok h' /\ linv k h'.
  Proof.
    intros Hd Hk (rc & Hr & Hc). assert (HkM := lpos _ _ _ _ _ _ H d k Hk ltac:(lia)).
    destruct (lvl_node _ _ _ _ _ _ H d k Hd Hk) as (a & A1 & A2 & A3 & A4 & A5 & _ & A7 & A8 & A9). cbn beta in *.
    set (lk := L k) in *. set (rk := Rt k) in *. cbn beta in lk, rk.
    assert (Dl := tr_deg _ _ _ _ _ _ H a lk ltac:(lia) A3). assert (Dr := tr_deg _ _ _ _ _ _ H (d - a) rk ltac:(lia) A4).
    assert (Et := tr_node _ _ _ _ _ _ H d k Hd Hk). cbn beta in Et. fold lk rk in Et.
    assert (Hs := cols_safe _ rc Hc ltac:(lia)). assert (Hlen := proj1 Hc).
    unfold insert_l2t_commutator. rewrite !bget_ok by (rewrite (bo_data _ _ _ _ HB); lia). cbn [bind]. fold lk rk.
    destruct (ready_frame R isz rows M h rc Hr Hs) as (h1 & E1 & H1); [lia|]. rewrite E1. cbn [bind].
    rewrite (degree_ok _ _ _ _ HB a lk ltac:(lia) A3), (degree_ok _ _ _ _ HB (d - a) rk ltac:(lia) A4). cbn [bind].
    rewrite (tsd_ok a), (tsd_ok (d - a)) by lia. cbn [bind].
    set (r := finish R isz rc) in *. assert (Zr : zlen r = k - 1) by (unfold r; rewrite zlen_finish; lia).
    assert (Hcr : forall j, 1 <= j < k -> repr (colk r (j - 1)) (deg j) (texpand R (T j))).
    { intros j Hj. unfold r. destruct (colk_finish R isz rc (j - 1) ltac:(lia)) as [->| ->]; [|apply repr_filter; auto]; apply (proj2 Hc); lia. }
    set (lc := colk r (lk - 1)) in *. set (rcl := colk r (rk - 1)) in *.
    assert (RL : repr lc (deg lk) (texpand R (T lk))) by (apply Hcr; lia). assert (RR : repr rcl (deg rk) (texpand R (T rk))) by (apply Hcr; lia).
    assert (FL : forall cur h, ready rows M h (cur :: r) -> exists o, frame_at h (lk - 1) = Ok (o, zlen lc) /\
       forall n p, nth_error lc n = Some p -> bget (s_idx h) (o + Z.of_nat n) = Ok (fst p) /\ bget (s_data h) (o + Z.of_nat n) = Ok (snd p)).
    { intros cur h' Hh'. destruct (frame_read R isz h' (cur :: r) (lk - 1) (rd_rep _ _ _ _ _ _ Hh')) as (o & X); [rewrite zlen_cons; lia|].
      exists o. rewrite colk_old in X by lia. exact X. }
    assert (FR : forall cur h, ready rows M h (cur :: r) -> exists o, frame_at h (rk - 1) = Ok (o, zlen rcl) /\
       forall n p, nth_error rcl n = Some p -> bget (s_idx h) (o + Z.of_nat n) = Ok (fst p) /\ bget (s_data h) (o + Z.of_nat n) = Ok (snd p)).
    { intros cur h' Hh'. destruct (frame_read R isz h' (cur :: r) (rk - 1) (rd_rep _ _ _ _ _ _ Hh')) as (o & X); [rewrite zlen_cons; lia|].
      exists o. rewrite colk_old in X by lia. exact X. }
    assert (Rng : forall p q, In p lc -> In q rcl -> 0 <= fst p * w ^ (d - a) + fst q <= I64_MAX /\ 0 <= fst q * w ^ a + fst p <= I64_MAX).
    { intros p q Hp Hq. destruct (proj1 RL p Hp) as (u & Hu & Lu & ->). destruct (proj1 RR q Hq) as (v & Hv & Lv & ->).
      assert (RF := rows_fit). rewrite Dl in Lu. rewrite Dr in Lv.
      replace (d - a) with (Z.of_nat (length v)) by lia. replace a with (Z.of_nat (length u)) by lia.
      rewrite <- !pos_app by lia.
      assert (X := pos_bound w ltac:(lia) (u ++ v) (Z.to_nat N)). assert (Y := pos_bound w ltac:(lia) (v ++ u) (Z.to_nat N)).
      rewrite app_length in X, Y. specialize (X ltac:(apply letters_ok_app; auto) ltac:(lia)). specialize (Y ltac:(apply letters_ok_app; auto) ltac:(lia)). lia. }
    destruct (FL [] h1 H1) as (o0 & E0 & _). rewrite E0. cbn [bind snd].
    match goal with |- context [for_ (zrange (zlen lc)) h1 ?f] => destruct (for_col0 R isz (fun cur h => ready rows M h (cur :: r)) (fun p => flat_map (cpair R (w ^ a) (w ^ (d - a)) p) rcl) f lc [] h1 H1) as (h2 & E2 & H2) end.
    - intros n p cur h2 Hn H2. destruct (FL cur h2 H2) as (o1 & E2 & G2). rewrite E2. cbn [bind fst]. destruct (G2 n p Hn) as [G2i _]. rewrite G2i. cbn [bind].
      destruct (FR cur h2 H2) as (o2 & E3 & _). rewrite E3. cbn [bind snd]. clear o1 E2 G2 G2i o2 E3.
      match goal with |- context [for_ (zrange (zlen rcl)) h2 ?f] => destruct (for_col0 R isz (fun cur h => ready rows M h (cur :: r)) (cpair R (w ^ a) (w ^ (d - a)) p) f rcl cur h2 H2) as (h3 & E3 & H3) end.
      + intros n' q cur' h3 Hn' H3. destruct (Rng p q (nth_error_In _ _ Hn) (nth_error_In _ _ Hn')) as [N1 N2].
        destruct (FR cur' h3 H3) as (or & Er & Gr). rewrite Er. cbn [bind fst]. destruct (Gr n' q Hn') as [Gi Gd]. rewrite Gi. cbn [bind].
        rewrite i64_pos by lia. cbn [bind]. destruct (FL cur' h3 H3) as (ol & El & Gl). rewrite El. cbn [bind fst]. destruct (Gl n p Hn) as [Gli Gld]. rewrite Gld, Gd. cbn [bind].
        destruct (ready_insert R isz rows M h3 cur' r (fst p * w ^ (d - a) + fst q) (product R 1 (snd p) (snd q)) H3) as (h4 & E4 & H4). rewrite E4. cbn [bind].
        rewrite i64_pos by lia. cbn [bind]. clear ol El Gl Gli Gld or Er Gr Gi Gd.
        destruct (FL _ h4 H4) as (ol & El & Gl). rewrite El. cbn [bind fst]. destruct (FR _ h4 H4) as (or & Er & Gr). rewrite Er. cbn [bind fst].
        destruct (Gl n p Hn) as [_ ->]. destruct (Gr n' q Hn') as [_ ->]. cbn [bind].
        destruct (ready_insert R isz rows M h4 _ r (fst q * w ^ a + fst p) (product R (-1) (snd q) (snd p)) H4) as (h5 & E5 & H5). exists h5. split; [exact E5|exact H5].
      + exists h3. split; [exact E3|exact H3].
    - exists h2. split; [exact E2|]. eexists. split; [exact H2|].
      replace k with (k - 1 + 1) at 1 by lia. apply cols_push; auto; [lia|]. replace (k - 1 + 1) with k by lia. rewrite Et. cbn [tdeg texpand].
      rewrite Dl, Dr, Z2Nat.inj_add by lia. rewrite Dl in RL. rewrite Dr in RR.
      assert (X := repr_comm R isz isz_ok w Hw lc rcl _ _ _ _ RL RR). rewrite !Z2Nat.id in X by lia. apply X.
      + rewrite <- Dl. apply homog_texpand.
      + rewrite <- Dr. apply homog_texpand.
  Qed.
End Build.
