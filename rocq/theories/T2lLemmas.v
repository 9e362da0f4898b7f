(** Forms of the tensor-to-Lie results used in the property file. *)
From Coq Require Import ZifyBool Sorted QArith Qcanon.
From Verif Require Import Outcome Alg Words Mem Series Shuffle TensorModel TensorTop3 TensorLemmas SparseModel SparseProofs Mobius HallModel HallSpec LieSpec HallTab HallCount HallDim HallProofs HallTrees HallLookup HallLemmas BracketModel BracketProofs BracketCache BracketSem BracketLemmas SmhModel SmhProofs SmhBuild SmhLemmas L2tModel L2tProofs L2tBuild L2tLemmas Dynkin T2lBuild T2lNorm.
Local Open Scope Z_scope.

(** The bracket of a letter and a key has coefficients that fit a C [int]. *)
Definition small_brackets (B : lie_basis) (w : Z) : Prop :=
  forall x k e c', 1 <= x <= w -> 1 <= k -> returns B lc_empty (x, k) (Some e) c' -> Forall (fun p => - 2 ^ 31 <= snd p < 2 ^ 31) e.

Section Final.
  Variable R : cring.
  Add Ring Rring_t2l : (rth R).
  Variable isz : R -> bool.
  Hypothesis isz_ok : forall x, isz x = true <-> x = r0.
  Hypothesis R1 : (r1 : R) <> r0.
  Variable inv : Z -> R.
  Hypothesis inv_ok : forall d, 1 <= d -> rmul (zr R d) (inv d) = r1.

  Lemma inv_zero d x : 1 <= d -> rmul x (inv d) = r0 -> x = r0.
  Proof. intros Hd E. transitivity (rmul (rmul x (inv d)) (zr R d)); [|rewrite E; ring]. transitivity (rmul x (rmul (zr R d) (inv d))); [rewrite inv_ok by auto; ring|ring]. Qed.
  Lemma csum_range M G (c : list (Z * R)) : (forall p, In p c -> 0 <= fst p < M) -> csum R G c = sum (zrange M) (fun j => rmul (cval R c j) (G j)).
  Proof.
    induction c as [|p c IH]; intros Hc.
    - unfold csum. cbn [sum]. symmetry. apply sum_zero. intros j _. unfold cval. cbn [sum]. ring.
    - unfold csum in *. cbn [sum]. rewrite IH by (intros; apply Hc; right; auto). unfold cval. cbn [sum].
      rewrite (sum_ext _ _ (fun j => rmul (radd _ _) (G j)) (fun j => radd (rmul (if fst p =? j then snd p else r0) (G j)) (rmul (sum c (fun p => if fst p =? j then snd p else r0)) (G j)))) by (intros; ring).
      rewrite sum_add. f_equal. rewrite (sum_single _ _ _ (fst p)); [rewrite Z.eqb_refl; auto|apply zrange_NoDup|apply zrange_In; apply Hc; left; auto|].
      intros j _ Hj. replace (fst p =? j) with false by lia. ring.
  Qed.
  Lemma csum_sc d G c : csum R G (map (sc R inv d) c) = rmul (inv d) (csum R G c).
  Proof. unfold csum. rewrite sum_map, <- sum_mul_l. apply sum_ext. intros p _. unfold sc. cbn [fst snd]. ring. Qed.

  Section One.
  Variables (B : lie_basis) (w N M n : Z).
  Hypothesis HS : standard B w N.
  Hypothesis HB : basis_ok B w N M.
  Hypothesis Hw : 1 <= w.
  Hypothesis Hfit : N * w ^ N < I64_MAX.
  Hypothesis Hn : N <= n.
  Variable fuel : nat.
  Notation db := (bat (lb_db B)).
  Notation L := (fun k => bat (lb_data B) (2 * k)). Notation Rt := (fun k => bat (lb_data B) (2 * k + 1)).
  Notation T := (tr L Rt).
  Notation H := (bo_hall _ _ _ _ HB).
  Notation rows := (words_below w (S (Z.to_nat N))).
  Notation tdg := (dg n (dbat (tD w n))).
  Hypothesis Hget : forall c a b, inv_at w n c -> 1 <= a <= M -> 1 <= b <= M -> tdg a + tdg b <= N ->
    exists c', lmc_get fuel B c (a, b) = Ok (Some (ans w n a b), c') /\ inv_at w n c' /\ returns B c (a, b) (Some (ans w n a b)) c'.
  Hypothesis Hcast : forall x k p, 1 <= x <= w -> 1 <= k <= M -> tdg x + tdg k <= N -> In p (ans w n x k) -> - 2 ^ 31 <= snd p < 2 ^ 31.
  Notation tinv := (tinv R isz B w N M n).
  Definition cond (d i : Z) : Prop := 0 <= d <= N /\ words_below w (Z.to_nat d) <= i < words_below w (S (Z.to_nat d)).

  Lemma degree_step d h c : (2 <= d)%nat -> Z.of_nat d <= N -> tinv (words_below w d) h c ->
    exists s', t2l_degree R isz fuel B (words_below w (d - 1)) (w ^ Z.of_nat (d - 1)) (h, c) = Ok s' /\ tinv (words_below w (S d)) (fst s') (snd s').
  Proof.
    intros Hd HdN Hi. unfold t2l_degree, zrange. rewrite (bo_w _ _ _ _ HB).
    assert (Ep : w ^ Z.of_nat (d - 1) * w = w ^ Z.of_nat d) by (replace d with (S (d - 1)) at 2 by lia; rewrite pow_S by lia; lia). rewrite Ep.
    assert (Pp := pow_pos w ltac:(lia) d).
    match goal with |- context [for_ _ (h, c) ?f] => destruct (for_zseq (fun i s => tinv (words_below w d + i) (fst s) (snd s)) f (Z.to_nat (w ^ Z.of_nat d)) 0 (h, c)) as (s' & E & H') end.
    - cbn [fst snd]. rewrite Z.add_0_r. exact Hi.
    - intros i [h1 c1] Hi1 H1. cbn [fst snd] in H1. apply (t2l_col_step R isz isz_ok R1 B w N M n HS HB Hw Hn fuel Hget Hcast d i h1 c1); auto. lia.
    - exists s'. split; [exact E|]. replace (words_below w (S d)) with (words_below w d + (0 + Z.of_nat (Z.to_nat (w ^ Z.of_nat d)))) by (cbn [words_below]; lia). exact H'.
  Qed.

  Lemma normalize_ok rc h : ready R isz M rows h rc -> zlen rc = rows -> (0 < zlen rc -> colk R rc 0 = []) ->
    exists h' rc', t2l_normalize_cols R inv w N h = Ok h' /\ ready R isz M rows h' rc' /\ nrm R inv cond rc' rc.
  Proof.
    intros Hr Hl H0. assert (HN := HN1 B w N M HB). assert (W0 : 0 < w) by lia. assert (Rp := words_below_lt w W0 0 (S (Z.to_nat N)) ltac:(lia)).
    cbn [words_below] in Rp. change (Z.of_nat 0) with 0 in Rp. rewrite Z.pow_0_r in Rp. fold (words_below w (S (Z.to_nat N))) in Rp.
    unfold t2l_normalize_cols.
    match goal with |- context [for_ _ (h, 1) ?f] => destruct (for_zseq (fun d s => ninv R isz inv M rows cond rc (words_below w (Z.to_nat d)) (fst s) /\ snd s = words_below w (Z.to_nat d)) f (Z.to_nat N) 1 (h, 1)) as (s' & E & H') end.
    - change (Z.to_nat 1) with 1%nat. assert (E1 : words_below w 1 = 1) by (cbn [words_below]; change (Z.of_nat 0) with 0; rewrite Z.pow_0_r; lia). cbn [fst snd]. change (Pos.to_nat 1) with 1%nat. rewrite E1. split; auto.
      destruct rc as [|c rc] using rev_ind; [unfold zlen in Hl; cbn in Hl; lia|]. clear IHrc. exists rc, [c], [c]. split; auto. split; auto.
      split; [|exact Hr]. cbn [nrm]. split; auto. exists 0. split; [split; [lia|]; change (Z.to_nat 0) with 0%nat; rewrite E1; cbn [words_below]; unfold zlen; cbn [length]; lia|].
      assert (Ec : c = []) by (symmetry; rewrite <- H0 by (rewrite zlen_app; change (zlen [c]) with 1; assert (X := zlen_pos rc); lia); unfold colk; change (Z.to_nat 0) with 0%nat; rewrite rev_app_distr; reflexivity). rewrite Ec. reflexivity.
    - intros d [h1 b] Hd [H1 Eb]. cbn [fst snd] in H1, Eb. subst b.
      assert (Er : 1 + words_below w (Z.to_nat d) * w = words_below w (S (Z.to_nat d))) by (rewrite words_below_rec by lia; lia). rewrite Er.
      assert (Hm := words_below_mono w W0 (Z.to_nat d) (S (Z.to_nat d)) ltac:(lia)). assert (Hm2 := words_below_mono w W0 (S (Z.to_nat d)) (S (Z.to_nat N)) ltac:(lia)). assert (Hnn := words_below_nonneg w W0 (Z.to_nat d)).
      match goal with |- context [for_ (zseq (words_below w (Z.to_nat d)) ?m) h1 ?f] => destruct (for_zseq (fun i h => ninv R isz inv M rows cond rc i h) f m (words_below w (Z.to_nat d)) h1 H1) as (h2 & E2 & H2) end.
      + intros i t Hi Ht. apply (ninv_step R isz isz_ok inv inv_zero M rows cond rc i t d Ht); try lia. split; [lia|]. lia.
      + rewrite E2. cbn [bind]. eexists. split; [reflexivity|]. cbn [fst snd]. replace (Z.to_nat (d + 1)) with (S (Z.to_nat d)) by lia. split; auto.
        replace (words_below w (Z.to_nat d) + Z.of_nat (Z.to_nat (words_below w (S (Z.to_nat d)) - words_below w (Z.to_nat d)))) with (words_below w (S (Z.to_nat d))) in H2 by lia. exact H2.
    - rewrite E. cbn [bind]. replace (Z.to_nat (1 + Z.of_nat (Z.to_nat N))) with (S (Z.to_nat N)) in H' by lia. destruct H' as [(r2 & r1 & r1' & Ec & El & Hnm & Hrd) _].
      exists (fst s'), r1'. split; [reflexivity|]. assert (r2 = []) as ->. { assert (X : zlen rc = zlen r2 + zlen r1) by (rewrite Ec, zlen_app; auto). destruct r2; auto. rewrite zlen_cons in X. assert (Y := zlen_pos r2). lia. }
      cbn [app] in *. subst r1. auto.
  Qed.

  Lemma t2l_one jd ji jp c0 : inv_at w n c0 -> reachable w c0 -> exists m c', construct_new_t2l isz fuel inv jd ji jp B c0 = Ok (m, c') /\ reachable w c' /\
    cs_valid m /\ cs_n m = rows /\ cs_inner m = M /\ blen (cs_data m) = blen (cs_idx m) /\ blen (cs_off m) = rows + 1 /\
    (forall j, entry m 0 j = r0) /\
    forall u, letters_ok w u -> u <> [] -> (length u <= Z.to_nat N)%nat ->
      (forall k, 1 <= k <= M -> tdeg (T k) <> Z.of_nat (length u) -> entry m (pos w u) (k - 1) = r0) /\
      forall v, sum (zseq 1 (Z.to_nat M)) (fun k => rmul (entry m (pos w u) (k - 1)) (texpand R (T k) v)) = rmul (inv (Z.of_nat (length u))) (rnorm R u v).
  Proof.
    intros Hinv Hre. assert (HN := HN1 B w N M HB). assert (HM := M_nonneg _ _ _ _ HB). assert (W0 : 0 < w) by lia. assert (TS := tensor_size_ok B w N M HB Hw Hfit).
    unfold construct_new_t2l, size_to_degree. rewrite (bo_N _ _ _ _ HB), (bo_w _ _ _ _ HB). replace (N <=? 0) with false by lia. replace (N >=? N + 1) with false by lia.
    rewrite bget_ok by (rewrite (bo_db _ _ _ _ HB); lia). cbn [bind]. rewrite (hd_top _ _ _ _ _ _ H), TS. cbn [bind]. replace (M + 1 - 1) with M by lia.
    assert (Rp := words_below_lt w W0 0 (S (Z.to_nat N)) ltac:(lia)). change (words_below w 0) with 0 in Rp. change (Z.of_nat 0) with 0 in Rp. rewrite Z.pow_0_r in Rp.
    destruct (hinv_init R isz jd ji jp M rows rows ltac:(lia) ltac:(lia)) as (h0 & E0 & H0). rewrite E0. cbn [bind].
    assert (Rd0 : ready R isz M rows h0 []) by (destruct H0; constructor; auto).
    destruct (ready_frame R isz M rows h0 [] Rd0) as (h1 & E1 & Rd1); [exact I|unfold zlen; cbn [length]; lia|]. rewrite E1. cbn [bind]. cbn [finish] in Rd1.
    assert (I1 : tinv 1 h1 c0).
    { split; [|auto]. exists [[]]. split; auto. split; [reflexivity|]. split; [reflexivity|]. split; [intros; lia|]. intros u Hu Hne Hl Hp. exfalso.
      assert (X := idx_bound w W0 u Hu). assert (X2 := words_below_nonneg w W0 (length u)). assert (pos w u = 0) by (unfold pos in *; lia). apply Hne. apply (pos_inj w W0); auto. constructor. }
    unfold t2l_insert_letters, zrange.
    destruct (for_zseq (fun i h => tinv (i + 1) h c0) (fun i h => let! h := insert_frame isz h in insert_value isz h i r1) (Z.to_nat w) 0 h1 I1) as (h2 & E2 & I2).
    { intros i h Hi Hti. apply (t2l_letter_step R isz isz_ok R1 B w N M n HB Hw); auto. lia. }
    rewrite E2. cbn [bind]. replace (0 + Z.of_nat (Z.to_nat w) + 1) with (words_below w 2) in I2 by (cbn [words_below]; change (Z.of_nat 0) with 0; change (Z.of_nat 1) with 1; rewrite Z.pow_0_r, Z.pow_1_r; lia).
    match goal with |- context [for_ (zseq 2 (Z.to_nat (N - 1))) (h2, c0, 1, w) ?f] => destruct (for_zseq (fun d s => let '(h, c, b, p) := s in tinv (words_below w (Z.to_nat d)) h c /\ b = words_below w (Z.to_nat (d - 1)) /\ p = w ^ (d - 1)) f (Z.to_nat (N - 1)) 2 (h2, c0, 1, w)) as ([[[h3 c3] b3] p3] & E3 & I3 & _) end.
    { split; [exact I2|]. change (2 - 1) with 1. split; [change (Z.to_nat 1) with 1%nat; cbn [words_below]; change (Z.of_nat 0) with 0; rewrite Z.pow_0_r; lia|rewrite Z.pow_1_r; lia]. }
    { intros d [[[h c] b] p] Hd (Hi & -> & ->). destruct (degree_step (Z.to_nat d) h c ltac:(lia) ltac:(lia) Hi) as (s' & Es & Is).
      replace (Z.to_nat d - 1)%nat with (Z.to_nat (d - 1)) in Es by lia. replace (Z.of_nat (Z.to_nat (d - 1))) with (d - 1) in Es by lia. rewrite Es. cbn [bind].
      eexists. split; [reflexivity|]. cbn beta iota. split; [replace (Z.to_nat (d + 1)) with (S (Z.to_nat d)) by lia; exact Is|]. replace (d + 1 - 1) with d by lia.
      split; [replace (Z.to_nat d) with (S (Z.to_nat (d - 1))) by lia; rewrite words_below_rec by lia; lia|]. replace (w ^ d) with (w ^ (d - 1 + 1)) by (f_equal; lia). rewrite Z.pow_add_r, Z.pow_1_r by lia. reflexivity. }
    rewrite E3. cbn [bind]. replace (Z.to_nat (2 + Z.of_nat (Z.to_nat (N - 1)))) with (S (Z.to_nat N)) in I3 by lia.
    destruct I3 as ((rc & Rd & Hc) & Inv3 & Re3). assert (Hl := proj1 Hc).
    destruct (normalize_ok rc h3 Rd Hl) as (h4 & rc' & E4 & Rd4 & Nrm); [intros _; apply (proj1 (proj2 Hc)); lia|].
    assert (Hl' := nrm_len _ _ _ _ _ Nrm).
    assert (Hk0 : 0 < zlen rc' -> colk R rc' 0 = []).
    { intros _. destruct (nrm_colk R inv cond rc' rc 0 Nrm ltac:(lia)) as (d & _ & ->). rewrite (proj1 (proj2 Hc)) by lia. reflexivity. }
    assert (Hsc : forall u, letters_ok w u -> u <> [] -> (length u <= Z.to_nat N)%nat -> colk R rc' (pos w u) = map (sc R inv (Z.of_nat (length u))) (colk R rc (pos w u))).
    { intros u Hu Hne Hlu. assert (P := pos_bound w W0 u _ Hu Hlu). destruct (nrm_colk R inv cond rc' rc (pos w u) Nrm ltac:(lia)) as (d & [Hd1 Hd2] & ->). do 2 f_equal.
      assert (P2 := pos_bound w W0 u _ Hu (le_n _)). assert (P3 : words_below w (length u) <= pos w u) by (unfold pos; assert (X := idx_bound w W0 u Hu); lia).
      destruct (Z.lt_trichotomy d (Z.of_nat (length u))) as [Hlt|[Heq|Hgt]]; auto.
      - assert (Y := words_below_mono w W0 (S (Z.to_nat d)) (length u) ltac:(lia)). lia.
      - assert (Y := words_below_mono w W0 (S (length u)) (Z.to_nat d) ltac:(lia)). lia. }
    assert (Hsafe : safe R isz rc').
    { apply (anchored_safe R isz 1); [lia|intros i Hi; assert (i = 0) as -> by lia; apply Hk0; lia|]. intros Hp.
      assert (X : colk R rc' 1 = [(0, rmul r1 (inv 1))]).
      { transitivity (colk R rc' (pos w [0])); [rewrite (pos1 w 0); reflexivity|]. rewrite Hsc; [|constructor; [lia|constructor]|discriminate|cbn; lia]. rewrite (pos1 w 0).
        rewrite (proj1 (proj2 (proj2 Hc)) 0) by lia. reflexivity. }
      rewrite X. exists (0, rmul r1 (inv 1)). split; [left; auto|]. unfold nz. cbn [snd]. destruct (isz (rmul r1 (inv 1))) eqn:Ez; auto. apply isz_ok in Ez. apply inv_zero in Ez; [contradiction|lia]. }
    rewrite E4. cbn [bind]. destruct rc' as [|c r]; [unfold zlen in Hl' at 1; cbn [length] in Hl'; lia|].
    destruct (build_ok R isz h4 c r (rd_rep _ _ _ _ _ _ Rd4) Hsafe) as (m & Em & Hm & Hi).
    { rewrite (rd_alloc _ _ _ _ _ _ Rd4). lia. } { rewrite (rd_alloc _ _ _ _ _ _ Rd4), (rd_cols _ _ _ _ _ _ Rd4). auto. }
    rewrite Em. cbn [bind]. exists m, c3. split; [reflexivity|]. split; [exact Re3|].
    rewrite (rd_rows _ _ _ _ _ _ Rd4) in Hi.
    set (rc1 := filter (nz R isz) c :: r) in *. assert (Zrc : zlen rc1 = rows) by (unfold rc1; rewrite zlen_cons in *; lia).
    assert (Hent : forall k j, 0 <= k < rows -> entry m k j = cval R (colk R rc1 k) j).
    { intros k j Hk. destruct (split_rev rc1 (Z.to_nat k)) as (r2 & d & r1' & E5 & El); [unfold zlen in Zrc; lia|].
      assert (Ed : colk R rc1 k = d) by (unfold colk; rewrite E5, <- El; apply nth_rev_split).
      assert (Hm2 := Hm). rewrite E5 in Hm2. replace k with (zlen r1') at 1 by (unfold zlen; lia). rewrite (mc_entry R m r2 d r1' _ Hm2). rewrite <- Ed. reflexivity. }
    assert (Hcol0 : colk R rc1 0 = []).
    { assert (Ef : rc1 = finish R isz (c :: r)) by reflexivity. rewrite Ef. destruct (colk_finish R isz (c :: r) 0 ltac:(lia)) as [->| ->]; rewrite Hk0 by lia; reflexivity. }
    assert (Hcol : forall u, letters_ok w u -> u <> [] -> (length u <= Z.to_nat N)%nat -> exists cu, crepr R B cu u /\
      (colk R rc1 (pos w u) = map (sc R inv (Z.of_nat (length u))) cu \/ colk R rc1 (pos w u) = filter (nz R isz) (map (sc R inv (Z.of_nat (length u))) cu))).
    { intros u Hu Hne Hlu. assert (P := pos_bound w W0 u _ Hu Hlu). exists (colk R rc (pos w u)). split; [apply (proj2 (proj2 (proj2 Hc))); auto; lia|].
      assert (Ef : rc1 = finish R isz (c :: r)) by reflexivity. rewrite Ef. rewrite <- Hsc by auto. apply colk_finish. lia. }
    assert (Hlev : forall k, 1 <= k <= M -> forall u : list Z, (1 <= length u <= Z.to_nat N)%nat -> db (Z.of_nat (length u)) <= k < db (Z.of_nat (length u) + 1) -> tdeg (T k) = Z.of_nat (length u)).
    { intros k Hk u Hu X. rewrite (tr_deg _ _ _ _ _ _ H (Z.of_nat (length u)) k); auto. lia. }
    assert (Hkey : forall u p, letters_ok w u -> u <> [] -> (length u <= Z.to_nat N)%nat -> In p (colk R rc1 (pos w u)) -> db (Z.of_nat (length u)) <= fst p + 1 < db (Z.of_nat (length u) + 1)).
    { intros u p Hu Hne Hlu Hp. destruct (Hcol u Hu Hne Hlu) as (cu & [C1 _] & [E6|E6]); rewrite E6 in Hp; [|apply filter_In in Hp; destruct Hp as [Hp _]];
        apply in_map_iff in Hp; destruct Hp as (q & <- & Hq); apply (C1 q Hq). }
    assert (Hkey1 : forall u p, letters_ok w u -> u <> [] -> (length u <= Z.to_nat N)%nat -> In p (colk R rc1 (pos w u)) -> 0 <= fst p < M).
    { intros u p Hu Hne Hlu Hp. assert (X := Hkey u p Hu Hne Hlu Hp). assert (Lu1 : (1 <= length u)%nat) by (destruct u; [congruence|cbn; lia]). assert (Y := lpos _ _ _ _ _ _ H (Z.of_nat (length u)) (fst p + 1) X ltac:(lia)). lia. }
    split; [|split; [|split; [|split; [|split; [|split]]]]].
    - apply (mc_valid R m rc1 Hm). intros p Hp. apply flat_colk in Hp. destruct Hp as (k & Hk & Hp). rewrite Hi.
      destruct (pos_surj w W0 (Z.to_nat N) k ltac:(lia)) as (u & Hu & Hlu & <-). destruct u as [|x u]; [change (pos w []) with 0 in Hp; rewrite Hcol0 in Hp; destruct Hp|].
      apply (Hkey1 (x :: u) p); auto. discriminate.
    - rewrite (mc_n _ _ _ Hm). auto.
    - exact Hi.
    - rewrite (mc_dlen _ _ _ Hm), (mc_ilen _ _ _ Hm). auto.
    - rewrite (mc_plen _ _ _ Hm). lia.
    - intros j. rewrite Hent by lia. rewrite Hcol0. reflexivity.
    - intros u Hu Hne Hlu. assert (P := pos_bound w W0 u _ Hu Hlu). assert (Lu1 : (1 <= length u)%nat) by (destruct u; [congruence|cbn; lia]). split.
      + intros k Hk Hdk. rewrite Hent by lia. unfold cval. apply sum_zero. intros p Hp. destruct (fst p =? k - 1) eqn:Ek; auto. exfalso. apply Hdk. apply Hlev; auto.
        assert (X := Hkey u p Hu Hne Hlu Hp). replace k with (fst p + 1) by lia. auto.
      + intros v. destruct (Hcol u Hu Hne Hlu) as (cu & [C1 C2] & E6).
        transitivity (csum R (fun j => texpand R (T (j + 1)) v) (colk R rc1 (pos w u))).
        * rewrite (csum_range M) by (intros p Hp; apply (Hkey1 u); auto). rewrite zrange_shift. apply sum_ext. intros k Hk. rewrite Hent by lia. replace (k - 1 + 1) with k by lia. reflexivity.
        * rewrite <- C2, <- csum_sc. destruct E6 as [-> | ->]; [|rewrite csum_filter by auto]; reflexivity.
  Qed.
  End One.
End Final.

Lemma zr_rnat (R : cring) n : zr R (Z.of_nat n) = rnat n.
Proof. induction n as [|n IH]; [reflexivity|]. rewrite Nat2Z.inj_succ, <- Z.add_1_l, zr_add, zr_1, IH. reflexivity. Qed.
Lemma rnorm_homog (R : cring) u : u <> [] -> homog R (length u) (rnorm R u).
Proof.
  induction u as [|x u IH]; [congruence|]. intros _. destruct u as [|y u].
  - exact (homog_texpand R (Leaf (x + 1))).
  - specialize (IH ltac:(discriminate)). change (length (x :: y :: u)) with (1 + length (y :: u))%nat. apply (homog_comm R 1); auto. exact (homog_texpand R (Leaf (x + 1))).
Qed.
(** All non-empty words of at most [N] letters, and the linear extension to a tensor of
    u |-> (1/|u|) times the right-normed bracket of u. *)
Definition words_upto (w N : Z) : list (list Z) := flat_map (all_words w) (seq 1 (Z.to_nat N)).
Definition dynkin_map {R : cring} (inv : Z -> R) (w N : Z) (a : Z -> R) : tens R Z :=
  fun v => sum (words_upto w N) (fun u => rmul (a (pos w u)) (rmul (inv (Z.of_nat (length u))) (rnorm R u v))).

Section Stmt.
  Variable R : cring.
  Add Ring Rring_t2s : (rth R).
  Variable isz : R -> bool.
  Hypothesis isz_ok : forall x, isz x = true <-> x = r0.
  Hypothesis R1 : (r1 : R) <> r0.
  Variable inv : Z -> R.
  Hypothesis inv_ok : forall d, 1 <= d -> rmul (zr R d) (inv d) = r1.

  Lemma t2l_setup B w N M c0 : standard B w N -> basis_ok B w N M -> 1 <= w -> small_brackets B w -> reachable w c0 ->
    exists F, forall fuel jd ji jp, (F <= fuel)%nat -> exists m c', construct_new_t2l isz fuel inv jd ji jp B c0 = Ok (m, c') /\ reachable w c' /\
    cs_valid m /\ cs_n m = words_below w (S (Z.to_nat N)) /\ cs_inner m = M /\ blen (cs_data m) = blen (cs_idx m) /\ blen (cs_off m) = words_below w (S (Z.to_nat N)) + 1 /\
    (forall j, entry m 0 j = r0) /\
    forall u, letters_ok w u -> u <> [] -> (length u <= Z.to_nat N)%nat ->
      (forall k, 1 <= k <= M -> tdeg (tr (fun k => bat (lb_data B) (2 * k)) (fun k => bat (lb_data B) (2 * k + 1)) k) <> Z.of_nat (length u) -> entry m (pos w u) (k - 1) = r0) /\
      forall v, sum (zseq 1 (Z.to_nat M)) (fun k => rmul (entry m (pos w u) (k - 1)) (texpand R (tr (fun k => bat (lb_data B) (2 * k)) (fun k => bat (lb_data B) (2 * k + 1)) k) v)) = rmul (inv (Z.of_nat (length u))) (rnorm R u v).
  Proof.
    intros HS HB Hw Hsm Hre. destruct (reachable_inv w c0 Hre) as (n0 & Hn0). set (n := Z.max n0 N).
    assert (Hn : N <= n) by (unfold n; lia). assert (Hinv : inv_at w n c0) by (apply Hn0; unfold n; lia).
    destruct (get_uniform B w N M n HB Hn) as (F & HF). exists F. intros fuel jd ji jp Hfu.
    apply (t2l_one R isz isz_ok R1 inv inv_ok B w N M n HS HB Hw (proj2 (proj2 (proj1 HS))) Hn fuel); auto.
    intros x k p Hx Hk Hd Hp. destruct (HF F lc_empty x k (le_n _) (inv_empty w n)) as (c' & _ & _ & HR); auto; [assert (Y := M_nonneg _ _ _ _ HB); lia|].
      assert (X := Hsm x k _ _ Hx ltac:(lia) HR). rewrite Forall_forall in X. apply X. auto.
  Qed.

  (** The matrix. *)
  Theorem t2l_columns B w N c0 tree_of : standard B w N -> 1 <= w -> small_brackets B w -> reachable w c0 -> (forall M k, lb_size B = Ok M -> 1 <= k <= M -> decodes B k (tree_of k)) ->
    exists F M, lb_size B = Ok M /\ forall fuel jd ji jp, (F <= fuel)%nat -> exists m c', construct_new_t2l isz fuel inv jd ji jp B c0 = Ok (m, c') /\ reachable w c' /\
    cs_valid m /\ cs_n m = words_below w (S (Z.to_nat N)) /\ cs_inner m = M /\ (forall j, entry m 0 j = r0) /\
    forall u, letters_ok w u -> u <> [] -> (length u <= Z.to_nat N)%nat ->
      (forall k, 1 <= k <= M -> tdeg (tree_of k) <> Z.of_nat (length u) -> entry m (pos w u) (k - 1) = r0) /\
      forall v, lie_expand (entry m (pos w u)) tree_of M v = rmul (inv (Z.of_nat (length u))) (rnorm R u v).
  Proof.
    intros HS Hw Hsm Hre Htr. destruct (standard_ok _ _ _ HS) as (M & HB & _). destruct (t2l_setup B w N M c0 HS HB Hw Hsm Hre) as (F & HF).
    assert (EM := size_ok _ _ _ _ HB). exists F, M. split; auto. intros fuel jd ji jp Hfu. destruct (HF fuel jd ji jp Hfu) as (m & c' & E & Hr & V & En & Ei & _ & _ & E0 & X).
    exists m, c'. repeat (split; [assumption|]). assert (Et : forall k, 1 <= k <= M -> tree_of k = tr (fun k => bat (lb_data B) (2 * k)) (fun k => bat (lb_data B) (2 * k + 1)) k).
    { intros k Hk. exact (proj2 (key_tree _ _ _ _ HB _ _ (Htr M k EM Hk))). }
    intros u Hu Hne Hl. destruct (X u Hu Hne Hl) as [X1 X2]. split.
    - intros k Hk. rewrite Et by auto. apply X1. auto.
    - intros v. rewrite <- X2. unfold lie_expand. apply sum_ext. intros k Hk. apply zseq_In in Hk. rewrite Et by lia. reflexivity.
  Qed.

  Lemma basis_lt B w N M : standard B w N -> basis_ok B w N M -> 1 <= w -> M < words_below w (S (Z.to_nat N)).
  Proof.
    intros HS HB Hw. assert (HN := HN1 B w N M HB). assert (Hb : forall d, 0 <= d -> d <= N -> bat (lb_db B) (d + 1) <= words_below w (Z.to_nat (d + 1))).
    { apply (natlike_ind (fun d => d <= N -> bat (lb_db B) (d + 1) <= words_below w (Z.to_nat (d + 1)))).
      - intros _. change (0 + 1) with 1. rewrite (hd_1 _ _ _ _ _ _ (bo_hall _ _ _ _ HB)). change (words_below w (Z.to_nat 1)) with (0 + w ^ 0). rewrite Z.pow_0_r. lia.
      - intros x Hx IH Hd. replace (Z.succ x + 1) with (x + 1 + 1) in * by lia. destruct (level_dim _ _ _ _ _ _ (bo_hall _ _ _ _ HB) (proj1 HS) (x + 1) ltac:(lia)) as [_ Y].
        replace (Z.to_nat (x + 1 + 1)) with (S (Z.to_nat (x + 1))) by lia. cbn [words_below]. rewrite Z2Nat.id by lia. specialize (IH ltac:(lia)). lia. }
    specialize (Hb N ltac:(lia) ltac:(lia)). rewrite (hd_top _ _ _ _ _ _ (bo_hall _ _ _ _ HB)) in Hb. replace (Z.to_nat (N + 1)) with (S (Z.to_nat N)) in Hb by lia. lia.
  Qed.
  Lemma sum_words w N (F : list Z -> R) : 0 <= N -> sum (seq 0 (S (Z.to_nat N))) (fun n => sum (all_words w n) F) = radd (F []) (sum (words_upto w N) F).
  Proof.
    intros HN. cbn [seq sum all_words]. unfold words_upto. rewrite sum_flat_map. ring.
  Qed.

  Theorem t2l_apply B w N M c0 tree_of : standard B w N -> 1 <= w -> small_brackets B w -> reachable w c0 -> lb_size B = Ok M -> (forall k, 1 <= k <= M -> decodes B k (tree_of k)) ->
    exists F, forall fuel jd ji jp arg D scale, (F <= fuel)%nat -> blen arg = words_below w (S (Z.to_nat N)) ->
    exists y c', py_tensor_to_lie isz fuel inv jd ji jp B c0 arg (tensor_basis w D) scale = Ok (y, c') /\ reachable w c' /\ blen y = M /\
      forall v, lie_expand (bat y) tree_of M v = scaled scale (dynkin_map inv w N (bat arg) v).
  Proof.
    intros HS Hw Hsm Hre EM Htr. destruct (standard_ok _ _ _ HS) as (M' & HB & _). assert (M' = M) as -> by (rewrite (size_ok _ _ _ _ HB) in EM; congruence).
    destruct (t2l_setup B w N M c0 HS HB Hw Hsm Hre) as (F & HF). assert (HN := HN1 B w N M HB). assert (Hlt := basis_lt B w N M HS HB Hw). assert (HM := M_nonneg _ _ _ _ HB).
    exists F. intros fuel jd ji jp arg D scale Hfu Hba. destruct (HF fuel jd ji jp Hfu) as (m & c' & E & Hr & V & En & Ei & Ed & Eo & E0 & X).
    unfold py_tensor_to_lie. rewrite E. cbn [bind fst snd]. rewrite EM. cbn [bind b_width tensor_basis]. rewrite (bo_w _ _ _ _ HB), Z.eqb_refl. cbn [negb].
    unfold dense_apply. rewrite Ei, En, Ed, Eo, Hba, !Z.eqb_refl. cbn [negb].
    replace (M =? words_below w (S (Z.to_nat N))) with false by lia. replace (words_below w (S (Z.to_nat N)) + 1 =? M + 1) with false by lia.
    assert (Ecs : mkCS (cs_data m) (cs_idx m) (cs_off m) (words_below w (S (Z.to_nat N))) M = m) by (destruct m; cbn in *; subst; auto). rewrite Ecs.
    destruct (apply_csc_ok R (Ptr 0) (Ptr 0) 0 0 M (words_below w (S (Z.to_nat N))) m (zeros M) arg (scaled scale) V) as (y & Ey & Hy1 & Hy2 & _); auto; try (cbn [zeros blen]; lia).
    { destruct scale; cbn; ring. } { destruct scale; cbn; intros; ring. }
    rewrite Ey. cbn [bind]. exists y, c'. split; auto. split; auto. split; [exact Hy1|]. intros v.
    assert (Es : forall x, scaled scale x = rmul x (scaled scale r1)) by (intros x; destruct scale; cbn; ring).
    assert (Et : forall k, 1 <= k <= M -> tree_of k = tr (fun k => bat (lb_data B) (2 * k)) (fun k => bat (lb_data B) (2 * k + 1)) k).
    { intros k Hk. exact (proj2 (key_tree _ _ _ _ HB _ _ (Htr k Hk))). }
    unfold lie_expand. rewrite (sum_ext _ _ _ (fun k => rmul (sum (zrange (cs_n m)) (fun j => rmul (rmul (entry m j (k - 1)) (texpand R (tree_of k) v)) (bat arg j))) (scaled scale r1))).
    2:{ intros k Hk. apply zseq_In in Hk. specialize (Hy2 (k - 1) ltac:(lia)). rewrite !Z.add_0_l in Hy2. rewrite Hy2. cbn [zeros bat]. rewrite Es.
        transitivity (rmul (rmul (sum (zrange (cs_n m)) (fun j => rmul (entry m j (k - 1)) (bat arg (0 + j)))) (texpand R (tree_of k) v)) (scaled scale r1)); [ring|]. f_equal.
        rewrite <- sum_mul_r. apply sum_ext. intros j _. rewrite Z.add_0_l. ring. }
    rewrite sum_mul_r, <- Es. f_equal. rewrite sum_swap. rewrite En, (sum_positions R w (Z.to_nat N)) by lia. rewrite sum_words by lia. unfold dynkin_map.
    change (pos w []) with 0. rewrite (sum_zero R (zseq 1 (Z.to_nat M))) by (intros k _; rewrite E0; ring).
    assert (Hws : forall u, In u (words_upto w N) -> letters_ok w u /\ u <> [] /\ (length u <= Z.to_nat N)%nat).
    { intros u Hu. unfold words_upto in Hu. apply in_flat_map in Hu. destruct Hu as (n & Hn & Hu). apply in_seq in Hn. apply all_words_ok in Hu. destruct Hu as [Hu Hl]. split; auto. split; [|lia]. intros ->. cbn in Hl. lia. }
    transitivity (sum (words_upto w N) (fun u => rmul (bat arg (pos w u)) (sum (zseq 1 (Z.to_nat M)) (fun k => rmul (entry m (pos w u) (k - 1)) (texpand R (tree_of k) v))))).
    - transitivity (sum (words_upto w N) (fun u => sum (zseq 1 (Z.to_nat M)) (fun k => rmul (rmul (entry m (pos w u) (k - 1)) (texpand R (tree_of k) v)) (bat arg (pos w u))))); [ring|].
      apply sum_ext. intros u _. rewrite sum_mul_r. ring.
    - apply sum_ext. intros u Hu. destruct (Hws u Hu) as (H1 & H2 & H3). f_equal. rewrite <- (proj2 (X u H1 H2 H3)). apply sum_ext. intros k Hk. apply zseq_In in Hk. rewrite Et by lia. reflexivity.
  Qed.

  (** Dynkin, Specht, Wever: the map fixes tensors that vanish on shuffles. *)
  Lemma dynkin_fix w N a v : 0 < w -> 0 <= N -> a 0 = r0 -> vanishes R w (Z.to_nat N) (fun u => a (pos w u)) -> letters_ok w v -> (length v <= Z.to_nat N)%nat ->
    dynkin_map inv w N a v = a (pos w v).
  Proof.
    intros Hw HN Ha Hva Hv Hl. unfold dynkin_map, words_upto. rewrite sum_flat_map.
    assert (Hz : forall n, n <> length v -> (1 <= n)%nat -> sum (all_words w n) (fun u => rmul (a (pos w u)) (rmul (inv (Z.of_nat (length u))) (rnorm R u v))) = r0).
    { intros n Hn H1. apply sum_zero. intros u Hu. apply all_words_ok in Hu. destruct Hu as [_ Hu]. rewrite (rnorm_homog R u); [ring|intros ->; cbn in Hu; lia|lia]. }
    destruct v as [|x v].
    - change (pos w []) with 0. rewrite Ha. apply sum_zero. intros n Hn. apply in_seq in Hn. apply Hz; cbn; lia.
    - rewrite (sum_single _ _ _ (length (x :: v))); [|apply seq_NoDup|apply in_seq; cbn [length] in *; lia|intros n Hn Hne; apply in_seq in Hn; apply Hz; auto; lia].
      rewrite (sum_ext _ _ _ (fun u => rmul (inv (Z.of_nat (length (x :: v)))) (rmul (a (pos w u)) (rnorm R u (x :: v))))).
      2:{ intros u Hu. apply all_words_ok in Hu. destruct Hu as [_ ->]. ring. }
      rewrite sum_mul_l, (dynkin R w (Z.to_nat N) (fun u => a (pos w u)) (x :: v) Hva Hv ltac:(discriminate) Hl), <- zr_rnat.
      transitivity (rmul (rmul (zr R (Z.of_nat (length (x :: v)))) (inv (Z.of_nat (length (x :: v))))) (a (pos w (x :: v)))); [ring|]. rewrite inv_ok by (cbn [length]; lia). ring.
  Qed.

  Theorem t2l_retract B w N M c0 : standard B w N -> l2t_fits w N -> small_brackets B w -> reachable w c0 -> lb_size B = Ok M ->
    exists F, forall fuel jd ji jp jd' ji' jp' arg, (F <= fuel)%nat -> blen arg = words_below w (S (Z.to_nat N)) -> bat arg 0 = r0 ->
    (forall u v, letters_ok w u -> letters_ok w v -> u <> [] -> v <> [] -> (length u + length v <= Z.to_nat N)%nat -> sum (shuffles u v) (fun s => bat arg (pos w s)) = r0) ->
    exists x c' y, py_tensor_to_lie isz fuel inv jd ji jp B c0 arg (tensor_basis w N) None = Ok (x, c') /\ reachable w c' /\ blen x = M /\
      py_lie_to_tensor isz jd' ji' jp' B x (tensor_basis w N) None = Ok y /\ blen y = blen arg /\ forall i, 0 <= i < blen arg -> bat y i = bat arg i.
  Proof.
    intros HS HF Hsm Hre EM. destruct (standard_ok _ _ _ HS) as (M' & HB & _). assert (M' = M) as -> by (rewrite (size_ok _ _ _ _ HB) in EM; congruence).
    assert (HN := HN1 B w N M HB). destruct HF as [Hw Hf2]. set (T := tr (fun k => bat (lb_data B) (2 * k)) (fun k => bat (lb_data B) (2 * k + 1))).
    assert (HT : forall k, 1 <= k <= M -> decodes B k (T k)) by (intros k Hk; apply (tr_decodes _ _ _ _ HB); auto).
    destruct (t2l_apply B w N M c0 T HS Hw Hsm Hre EM HT) as (F & HA). exists F. intros fuel jd ji jp jd' ji' jp' arg Hfu Hba H0 Hsh.
    destruct (HA fuel jd ji jp arg N None Hfu Hba) as (x & c' & E & Hr & Hx & Hxe). exists x, c'.
    destruct (l2t_apply R isz isz_ok R1 B w N M x None jd' ji' jp' T HS (conj Hw Hf2) EM Hx HT) as (y & Ey & Hy & Hye). exists y.
    repeat (split; [first [assumption|congruence]|]). intros i Hi. destruct (pos_surj w ltac:(lia) (Z.to_nat N) i ltac:(lia)) as (u & Hu & Hl & <-).
    rewrite Hye by auto. cbn [scaled]. rewrite Hxe. cbn [scaled]. apply dynkin_fix; auto; lia.
  Qed.
  Theorem t2l_l2t B w N M c0 : standard B w N -> l2t_fits w N -> small_brackets B w -> reachable w c0 -> lb_size B = Ok M ->
    exists F, forall fuel jd ji jp jd' ji' jp' arg, (F <= fuel)%nat -> blen arg = M ->
    exists a x c' y, py_lie_to_tensor isz jd' ji' jp' B arg (tensor_basis w N) None = Ok a /\ py_tensor_to_lie isz fuel inv jd ji jp B c0 a (tensor_basis w N) None = Ok (x, c') /\
      reachable w c' /\ py_lie_to_tensor isz jd' ji' jp' B x (tensor_basis w N) None = Ok y /\ blen y = blen a /\ forall i, 0 <= i < blen a -> bat y i = bat a i.
  Proof.
    intros HS HF Hsm Hre EM. destruct (t2l_retract B w N M c0 HS HF Hsm Hre EM) as (F & HR). exists F. intros fuel jd ji jp jd' ji' jp' arg Hfu Hba.
    destruct (standard_ok _ _ _ HS) as (M' & HB & _). assert (M' = M) as -> by (rewrite (size_ok _ _ _ _ HB) in EM; congruence).
    destruct (l2t_apply R isz isz_ok R1 B w N M arg None jd' ji' jp' (tr (fun k => bat (lb_data B) (2 * k)) (fun k => bat (lb_data B) (2 * k + 1))) HS HF EM Hba) as (a & Ea & Hla & _).
    { intros k Hk. apply (tr_decodes _ _ _ _ HB); auto. }
    destruct (l2t_primitive R isz isz_ok R1 B w N M arg jd' ji' jp' a HS HF EM Hba Ea) as [P0 P1].
    destruct (HR fuel jd ji jp jd' ji' jp' a Hfu Hla P0 P1) as (x & c' & y & E1 & E2 & _ & E3 & E4 & E5). exists a, x, c', y. auto 10.
  Qed.

  Theorem t2l_mismatch B w N M c0 : standard B w N -> 1 <= w -> small_brackets B w -> reachable w c0 -> lb_size B = Ok M ->
    exists F, forall fuel jd ji jp arg w' D scale, (F <= fuel)%nat -> w' <> w \/ blen arg <> words_below w (S (Z.to_nat N)) ->
    py_tensor_to_lie isz fuel inv jd ji jp B c0 arg (tensor_basis w' D) scale = Throw.
  Proof.
    intros HS Hw Hsm Hre EM. destruct (standard_ok _ _ _ HS) as (M' & HB & _). assert (M' = M) as -> by (rewrite (size_ok _ _ _ _ HB) in EM; congruence).
    destruct (t2l_setup B w N M c0 HS HB Hw Hsm Hre) as (F & HF). exists F. intros fuel jd ji jp arg w' D scale Hfu Hor.
    destruct (HF fuel jd ji jp Hfu) as (m & c' & E & Hr & V & En & Ei & _). unfold py_tensor_to_lie. rewrite E. cbn [bind fst snd]. rewrite EM. cbn [bind b_width tensor_basis].
    rewrite (bo_w _ _ _ _ HB). destruct (w' =? w) eqn:Ew; cbn [negb]; auto. unfold dense_apply. rewrite Ei, En, Z.eqb_refl. cbn [negb].
    replace (words_below w (S (Z.to_nat N)) =? blen arg) with false by lia. reflexivity.
  Qed.
End Stmt.

(** *** Witnesses *)
Lemma small_check B w N M fuel : standard B w N -> lb_size B = Ok M ->
  forallb (fun x => forallb (fun k => match ans_of (lmc_get fuel B lc_empty (x, k)) with Some e => forallb (fun p => (- 2 ^ 31 <=? snd p) && (snd p <? 2 ^ 31)) e | None => false end) (zseq 1 (Z.to_nat M))) (zseq 1 (Z.to_nat w)) = true ->
  small_brackets B w.
Proof.
  intros HS EM Hc x k e c' Hx Hk HR. destruct (standard_ok _ _ _ HS) as (M' & HB & _). assert (M' = M) as -> by (rewrite (size_ok _ _ _ _ HB) in EM; congruence).
  destruct (Z_le_gt_dec k M) as [Hle|Hgt].
  - rewrite forallb_forall in Hc. specialize (Hc x ltac:(apply zseq_In; lia)). rewrite forallb_forall in Hc. specialize (Hc k ltac:(apply zseq_In; lia)).
    destruct (ans_of (lmc_get fuel B lc_empty (x, k))) as [e'|] eqn:E; [|discriminate]. destruct (ans_returns _ _ _ _ _ E) as (c2 & R2).
    destruct (returns_fun _ _ _ _ _ _ _ HR R2) as [X _]. injection X as ->. rewrite Forall_forall. intros p Hp. rewrite forallb_forall in Hc. specialize (Hc p Hp). lia.
  - destruct (call_ok B w N M N lc_empty x k HB ltac:(lia) (inv_empty w N) ltac:(lia) ltac:(lia)) as (r & c2 & R2 & _ & _ & _ & H4).
    destruct (returns_fun _ _ _ _ _ _ _ HR R2) as [X _]. rewrite H4 in X by (auto; lia). injection X as ->. constructor.
Qed.
Definition qisz (x : Qccr) : bool := if Qc_eq_dec x 0%Qc then true else false.
Definition qinvz (d : Z) : Qccr := @qinv Qcqa (Z.to_nat d).
Definition fstout {A B} (o : outcome (A * B)) : outcome A := let! p := o in Ok (fst p).
Lemma qisz_ok x : qisz x = true <-> x = @r0 Qccr.
Proof. unfold qisz. destruct (Qc_eq_dec x 0%Qc); split; intros; auto; try discriminate. Qed.
Lemma qinvz_ok d : 1 <= d -> rmul (zr Qccr d) (qinvz d) = r1.
Proof. intros Hd. unfold qinvz. rewrite <- (Z2Nat.id d) at 1 by lia. rewrite zr_rnat. apply (qinv_ok Qcqa). lia. Qed.
Lemma ex_t2l : exists B, construct_lie_basis junk0 junk0 2 3 = Ok B /\ standard B 2 3 /\ l2t_fits 2 3 /\ small_brackets B 2 /\
  option_map (map this) (buf_list (fstout (py_tensor_to_lie qisz 50 qinvz (fun _ => 0%Qc : Qccr) (fun _ => 88) (fun _ => 99) B lc_empty
     (buf_of (0%Qc : Qccr) (map Q2Qc [7; 3; -1; 0; 5; -5; 0; 0; 0; 0; -2; 0; 4; -2; 0]%Q)) (tensor_basis 2 3) None))) = Some [3; -1; 5; 0; 2]%Q.
Proof.
  assert (X : match construct_lie_basis junk0 junk0 2 3 with Ok B =>
     forallb (fun x => forallb (fun k => match ans_of (lmc_get 50 B lc_empty (x, k)) with Some e => forallb (fun p => (- 2 ^ 31 <=? snd p) && (snd p <? 2 ^ 31)) e | None => false end) (zseq 1 (Z.to_nat 5))) (zseq 1 (Z.to_nat 2)) = true /\
     lb_size B = Ok 5 /\ option_map (map this) (buf_list (fstout (py_tensor_to_lie qisz 50 qinvz (fun _ => 0%Qc : Qccr) (fun _ => 88) (fun _ => 99) B lc_empty
     (buf_of (0%Qc : Qccr) (map Q2Qc [7; 3; -1; 0; 5; -5; 0; 0; 0; 0; -2; 0; 4; -2; 0]%Q)) (tensor_basis 2 3) None))) = Some [3; -1; 5; 0; 2]%Q
     | _ => False end) by (vm_compute; repeat split).
  destruct (construct_lie_basis junk0 junk0 2 3) as [B| | |] eqn:E; [|destruct X..]. destruct X as (X1 & X2 & X3). exists B. split; auto.
  assert (HS : standard B 2 3) by (split; [unfold fits, I64_MAX; lia|exists junk0, junk0; exact E]). split; auto. split; [unfold l2t_fits, I64_MAX; lia|].
  split; [apply (small_check B 2 3 5 50 HS X2 X1)|exact X3].
Qed.
