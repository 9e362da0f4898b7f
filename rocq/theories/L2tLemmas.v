(** Forms of the Lie-to-tensor results used in the property file, and witnesses. *)
From Coq Require Import ZifyBool Sorted.
From Verif Require Import Outcome Alg Words Mem Series Shuffle TensorModel TensorTop3 SparseModel SparseProofs Mobius HallModel HallSpec LieSpec HallTab HallCount HallDim HallProofs HallTrees HallLookup HallLemmas SmhModel SmhProofs SmhBuild SmhLemmas L2tModel L2tProofs L2tBuild.
Local Open Scope Z_scope.

Lemma shuffles_letters w (u : list Z) : forall v s, letters_ok w u -> letters_ok w v -> In s (shuffles u v) -> letters_ok w s.
Proof.
  induction u as [|x u IH]; intros v s Hu Hv Hs.
  - destruct Hs as [<-|[]]. auto.
  - induction v as [|y v IHv] in s, Hv, Hs |- *; [destruct Hs as [<-|[]]; auto|].
    inversion Hu as [|? ? Hx Hu']; inversion Hv as [|? ? Hy Hv']; subst. rewrite shuffles_cons in Hs. apply in_app_iff in Hs.
    destruct Hs as [Hs|Hs]; apply in_map_iff in Hs; destruct Hs as (s' & <- & Hs); constructor; auto; [apply (IH (y :: v)); auto|apply IHv; auto].
Qed.

Section Final.
  Variable R : cring.
  Add Ring Rring_l2l : (rth R).
  Variable isz : R -> bool.
  Hypothesis isz_ok : forall x, isz x = true <-> x = r0.
  Hypothesis R1 : (r1 : R) <> r0.
  Variables (B : lie_basis) (w N M : Z).
  Hypothesis HB : basis_ok B w N M.
  Hypothesis Hw : 1 <= w.
  Hypothesis Hf : fits w N.
  Hypothesis Hfit2 : N * (2 * w) ^ N < I64_MAX.
  Notation db := (bat (lb_db B)).
  Notation L := (fun k => bat (lb_data B) (2 * k)). Notation Rt := (fun k => bat (lb_data B) (2 * k + 1)).
  Notation T := (tr L Rt).
  Notation H := (bo_hall _ _ _ _ HB).
  Notation rows := (words_below w (S (Z.to_nat N))).

  Lemma Hfit1 : N * w ^ N < I64_MAX. Proof. destruct Hf; tauto. Qed.
  Lemma N63 : N < 63.
  Proof.
    destruct (Z_lt_le_dec N 63) as [|Hge]; auto. exfalso.
    assert (X : 2 ^ 63 <= 2 ^ N) by (apply Z.pow_le_mono_r; lia). assert (Y : 2 ^ N <= (2 * w) ^ N) by (apply Z.pow_le_mono_l; lia).
    change (2 ^ 63) with 9223372036854775808 in X. unfold I64_MAX in Hfit2. nia.
  Qed.
  Lemma nnz_ok : exists e, get_l2t_nnz_max B = Ok e /\ 1 <= e.
  Proof.
    assert (HN := HN1 B w N M HB). assert (H63 := N63). unfold get_l2t_nnz_max, zrange. rewrite (bo_N _ _ _ _ HB).
    assert (Hpow : forall i, 0 <= i < N -> 2 ^ i * (db (i + 1 + 1) - db (i + 1)) <= (2 * w) ^ N /\ 0 <= 2 ^ i * (db (i + 1 + 1) - db (i + 1))).
    { intros i Hi. destruct (level_dim _ _ _ _ _ _ H Hf (i + 1) ltac:(lia)) as [_ Y]. cbn beta in Y.
      assert (Y0 : db (i + 1) <= db (i + 1 + 1)) by (apply (hd_mono _ _ _ _ _ _ H); lia).
      assert (X : (2 * w) ^ (i + 1) <= (2 * w) ^ N) by (apply Z.pow_le_mono_r; lia). rewrite Z.pow_mul_l in X.
      assert (Z1 : 2 ^ i <= 2 ^ (i + 1)) by (apply Z.pow_le_mono_r; lia). assert (0 < 2 ^ i) by (apply Z.pow_pos_nonneg; lia).
      assert (0 < w ^ (i + 1)) by (apply Z.pow_pos_nonneg; lia). split; nia. }
    destruct (for_zseq (fun i e => 0 <= e <= i * (2 * w) ^ N /\ (1 <= i -> 1 <= e))
      (fun degree e => if degree >=? 63 then UB else let! count := size_of_degree B (degree + 1) in i64 (e + 2 ^ degree * count)) (Z.to_nat N) 0 0) as (e & E & He); [lia| |].
    - intros i e Hi [He1 He2]. replace (i >=? 63) with false by lia. unfold size_of_degree. rewrite (bo_N _ _ _ _ HB).
      replace (i + 1 <? 1) with false by lia. replace (i + 1 >? N) with false by lia. rewrite !bget_ok by (rewrite (bo_db _ _ _ _ HB); lia). cbn [bind].
      destruct (Hpow i ltac:(lia)) as [P1 P2]. exists (e + 2 ^ i * (db (i + 1 + 1) - db (i + 1))). split; [apply i64_pos; nia|]. split; [nia|]. intros _.
      destruct (Z.eq_dec i 0) as [->|]; [|lia]. change (0 + 1) with 1 in *. change (1 + 1) with 2 in *. rewrite (hd_2 _ _ _ _ _ _ H), (hd_1 _ _ _ _ _ _ H), Z.pow_0_r in *. lia.
    - exists e. split; [exact E|]. apply He. lia.
  Qed.

  Theorem l2t_ok jd ji jp : exists m, construct_new_l2t isz jd ji jp B = Ok m /\ cs_valid m /\ cs_n m = M /\ cs_inner m = rows /\
    blen (cs_data m) = blen (cs_idx m) /\ blen (cs_off m) = M + 1 /\
    forall k u, 1 <= k <= M -> letters_ok w u -> (length u <= Z.to_nat N)%nat -> entry m (k - 1) (pos w u) = texpand R (T k) u.
  Proof.
    assert (HN := HN1 B w N M HB). assert (HM := M_nonneg _ _ _ _ HB). assert (Hfit := Hfit1). destruct nnz_ok as (est & Eest & Hest).
    unfold construct_new_l2t, size_to_degree. rewrite (bo_N _ _ _ _ HB), (bo_w _ _ _ _ HB). replace (N <=? 0) with false by lia. replace (N >=? N + 1) with false by lia.
    rewrite bget_ok by (rewrite (bo_db _ _ _ _ HB); lia). cbn [bind]. rewrite (hd_top _ _ _ _ _ _ H). rewrite (tensor_size_ok B w N M HB Hw Hfit). cbn [bind].
    rewrite Eest. cbn [bind]. replace (M + 1 - 1) with M by lia.
    destruct (hinv_init R isz jd ji jp rows M est ltac:(lia) ltac:(lia)) as (h0 & E0 & H0). rewrite E0. cbn [bind].
    assert (I0 : linv R isz B w N M 0 h0).
    { exists []. split; [destruct H0; constructor; auto|]. split; [reflexivity|intros; lia]. }
    unfold l2t_insert_letters, zrange.
    destruct (for_zseq (fun i h => linv R isz B w N M i h) (fun i h => let! h := insert_frame isz h in insert_value isz h (i + 1) r1) (Z.to_nat w) 0 h0 I0) as (h1 & E1 & H1).
    { intros i h Hi Hinv. apply (letter_step R isz isz_ok R1 B w N M HB Hw); auto. lia. }
    rewrite E1. cbn [bind]. replace (0 + Z.of_nat (Z.to_nat w)) with w in H1 by lia.
    assert (Edb2 : db 2 = w + 1) by (assert (X := hd_2 _ _ _ _ _ _ H); cbn beta in X; lia).
    match goal with |- context [for_ (zseq 2 (Z.to_nat (N - 1))) h1 ?f] => destruct (for_zseq (fun d h => linv R isz B w N M (db d - 1) h) f (Z.to_nat (N - 1)) 2 h1) as (h2 & E2 & H2) end.
    { replace (db 2 - 1) with w by lia. exact H1. }
    { intros d h Hd Hinv. rewrite !bget_ok by (rewrite (bo_db _ _ _ _ HB); lia). cbn [bind]. assert (Hm := hd_mono _ _ _ _ _ _ H d ltac:(lia)).
      destruct (for_zseq (fun k h => linv R isz B w N M (k - 1) h) (insert_l2t_commutator R isz B) (Z.to_nat (db (d + 1) - db d)) (db d) h Hinv) as (h' & E' & H').
      - intros k t Hk Ht. destruct (comm_step R isz isz_ok R1 B w N M HB Hw Hfit d k t ltac:(lia) ltac:(lia) Ht) as (t' & Et & It). exists t'. split; auto.
        replace (k + 1 - 1) with k by lia. exact It.
      - exists h'. split; auto. replace (db d + Z.of_nat (Z.to_nat (db (d + 1) - db d))) with (db (d + 1)) in H' by lia. exact H'. }
    rewrite E2. cbn [bind]. replace (2 + Z.of_nat (Z.to_nat (N - 1))) with (N + 1) in H2 by lia.
    rewrite (hd_top _ _ _ _ _ _ H) in H2. replace (M + 1 - 1) with M in H2 by lia. destruct H2 as (rc & Hr & Hc).
    assert (Hsafe := cols_safe R isz isz_ok R1 B w N M HB Hw M rc Hc ltac:(lia)). destruct Hc as [Hl Hc].
    destruct rc as [|c r]; [unfold zlen in Hl; cbn in Hl; lia|].
    destruct (build_ok R isz h2 c r (rd_rep _ _ _ _ _ _ Hr) Hsafe) as (m & Em & Hm & Hi).
    { rewrite (rd_alloc _ _ _ _ _ _ Hr). auto. } { rewrite (rd_alloc _ _ _ _ _ _ Hr), (rd_cols _ _ _ _ _ _ Hr). auto. }
    exists m. split; [exact Em|]. set (rc := filter (nz R isz) c :: r) in *. assert (Zrc : zlen rc = M) by (unfold rc; rewrite zlen_cons in *; lia).
    assert (Hcol : forall k, 1 <= k <= M -> repr R w (colk R rc (k - 1)) (Z.to_nat (tdeg (T k))) (texpand R (T k))).
    { intros k Hk. assert (Ef : rc = finish R isz (c :: r)) by reflexivity. rewrite Ef. destruct (colk_finish R isz (c :: r) (k - 1) ltac:(lia)) as [->| ->]; [apply Hc; auto|].
      apply repr_filter; auto. }
    assert (Hdeg : forall k, 1 <= k <= M -> 1 <= tdeg (T k) <= N).
    { intros k Hk. destruct (level_ex _ _ _ _ _ _ H k Hk) as (d & Hd & Hkd). rewrite (tr_deg _ _ _ _ _ _ H d k Hd Hkd). lia. }
    rewrite (rd_rows _ _ _ _ _ _ Hr) in Hi.
    split; [|split; [|split; [|split; [|split]]]].
    - apply (mc_valid R m rc Hm). intros p Hp. apply flat_colk in Hp. destruct Hp as (k & Hk & Hp). replace k with (k + 1 - 1) in Hp by lia.
      destruct (proj1 (Hcol (k + 1) ltac:(lia)) p Hp) as (u & Hu & Lu & ->). rewrite Hi. apply pos_bound; auto; [lia|]. assert (X := Hdeg (k + 1) ltac:(lia)). lia.
    - rewrite (mc_n _ _ _ Hm). auto.
    - exact Hi.
    - rewrite (mc_dlen _ _ _ Hm), (mc_ilen _ _ _ Hm). auto.
    - rewrite (mc_plen _ _ _ Hm). lia.
    - intros k u Hk Hu Hlu. destruct (split_rev rc (Z.to_nat (k - 1))) as (r2 & d & r1' & E3 & El); [unfold zlen in Zrc; lia|].
      assert (Ed : colk R rc (k - 1) = d) by (unfold colk; rewrite E3, <- El; apply nth_rev_split).
      assert (Hm2 := Hm). rewrite E3 in Hm2. replace (k - 1) with (zlen r1') by (unfold zlen; lia). rewrite (mc_entry R m r2 d r1' _ Hm2). rewrite <- Ed.
      destruct (Nat.eq_dec (length u) (Z.to_nat (tdeg (T k)))) as [Hlen|Hlen].
      + apply (proj2 (Hcol k Hk)); auto.
      + rewrite (repr_other R w Hw _ _ _ u (Hcol k Hk) Hu Hlen). symmetry. apply homog_texpand. auto.
  Qed.
End Final.

(** *** Statements *)
(** A Lie element given by coordinates [x] (entry k-1 belongs to key k), as a tensor. *)
Definition lie_expand {R : cring} (x : Z -> R) (tree_of : Z -> tree) (M : Z) : tens R Z :=
  fun u => sum (zseq 1 (Z.to_nat M)) (fun k => rmul (x (k - 1)) (texpand R (tree_of k) u)).
Definition l2t_fits (w N : Z) : Prop := 1 <= w /\ N * (2 * w) ^ N < I64_MAX.

Section Stmt.
  Variable R : cring.
  Add Ring Rring_l2s : (rth R).
  Variable isz : R -> bool.
  Hypothesis isz_ok : forall x, isz x = true <-> x = r0.
  Hypothesis R1 : (r1 : R) <> r0.

  Theorem l2t_columns B w N jd ji jp : standard B w N -> l2t_fits w N ->
    exists m M, construct_new_l2t isz jd ji jp B = Ok m /\ lb_size B = Ok M /\ cs_valid m /\ cs_n m = M /\ cs_inner m = words_below w (S (Z.to_nat N)) /\
      forall k t u, decodes B k t -> letters_ok w u -> (length u <= Z.to_nat N)%nat -> entry m (k - 1) (pos w u) = texpand R t u.
  Proof.
    intros HS [Hw Hf2]. destruct (standard_ok _ _ _ HS) as (M & HB & _).
    destruct (l2t_ok R isz isz_ok R1 B w N M HB Hw (proj1 HS) Hf2 jd ji jp) as (m & E & V & Em & Ei & _ & _ & X).
    exists m, M. split; auto. split; [apply (size_ok _ _ _ _ HB)|]. split; auto. split; auto. split; auto.
    intros k t u Dk Hu Hl. destruct (key_tree _ _ _ _ HB _ _ Dk) as [Hk ->]. apply X; auto.
  Qed.
  (** The column of a letter is that letter, the column of a bracket the commutator of
      its parents' columns. *)
  Definition column (m : csmat R) (w : Z) (k : Z) : tens R Z := fun u => entry m (k - 1) (pos w u).

  Lemma zrange_shift n (f : Z -> R) : sum (zrange n) f = sum (zseq 1 (Z.to_nat n)) (fun k => f (k - 1)).
  Proof.
    unfold zrange. generalize (Z.to_nat n) as m. assert (X : forall m a, sum (zseq a m) f = sum (zseq (a + 1) m) (fun k => f (k - 1))).
    { induction m as [|m IH]; intros a; cbn [zseq sum]; auto. rewrite IH. replace (a + 1 - 1) with a by lia. reflexivity. }
    intros m. apply X.
  Qed.
  Theorem l2t_apply B w N M arg scale jd ji jp tree_of : standard B w N -> l2t_fits w N -> lb_size B = Ok M -> blen arg = M ->
    (forall k, 1 <= k <= M -> decodes B k (tree_of k)) ->
    exists y, py_lie_to_tensor isz jd ji jp B arg (tensor_basis w N) scale = Ok y /\ blen y = words_below w (S (Z.to_nat N)) /\
      forall u, letters_ok w u -> (length u <= Z.to_nat N)%nat -> bat y (pos w u) = scaled scale (lie_expand (bat arg) tree_of M u).
  Proof.
    intros HS [Hw Hf2] EM Hba Htr. destruct (standard_ok _ _ _ HS) as (M' & HB & _).
    assert (M' = M) as -> by (rewrite (size_ok _ _ _ _ HB) in EM; congruence).
    assert (HN := HN1 B w N M HB).
    destruct (l2t_ok R isz isz_ok R1 B w N M HB Hw (proj1 HS) Hf2 jd ji jp) as (m & E & V & Em & Ei & Ed & Eo & X).
    unfold py_lie_to_tensor. rewrite E. cbn [bind]. assert (Hs := basis_size_ok w ltac:(lia) (Z.to_nat N)). rewrite Z2Nat.id in Hs by lia. rewrite Hs. cbn [bind].
    cbn [b_width tensor_basis]. rewrite (bo_w _ _ _ _ HB), Z.eqb_refl. cbn [negb].
    unfold dense_apply. rewrite Ei, Em, Ed, Eo, Hba, !Z.eqb_refl. cbn [negb].
    assert (Hlt : M < words_below w (S (Z.to_nat N))).
    { assert (Hb : forall d, 0 <= d -> d <= N -> bat (lb_db B) (d + 1) <= words_below w (Z.to_nat (d + 1))).
      { apply (natlike_ind (fun d => d <= N -> bat (lb_db B) (d + 1) <= words_below w (Z.to_nat (d + 1)))).
        - intros _. change (0 + 1) with 1. rewrite (hd_1 _ _ _ _ _ _ (bo_hall _ _ _ _ HB)). change (words_below w (Z.to_nat 1)) with (0 + w ^ 0). rewrite Z.pow_0_r. lia.
        - intros x Hx IH Hd. replace (Z.succ x + 1) with (x + 1 + 1) in * by lia. destruct (level_dim _ _ _ _ _ _ (bo_hall _ _ _ _ HB) (proj1 HS) (x + 1) ltac:(lia)) as [_ Y].
          replace (Z.to_nat (x + 1 + 1)) with (S (Z.to_nat (x + 1))) by lia. cbn [words_below]. rewrite Z2Nat.id by lia. specialize (IH ltac:(lia)). lia. }
      specialize (Hb N ltac:(lia) ltac:(lia)). rewrite (hd_top _ _ _ _ _ _ (bo_hall _ _ _ _ HB)) in Hb. replace (Z.to_nat (N + 1)) with (S (Z.to_nat N)) in Hb by lia. lia. }
    replace (words_below w (S (Z.to_nat N)) =? M) with false by lia.
    replace (M + 1 =? words_below w (S (Z.to_nat N)) + 1) with false by lia.
    assert (Ecs : mkCS (cs_data m) (cs_idx m) (cs_off m) M (words_below w (S (Z.to_nat N))) = m) by (destruct m; cbn in *; subst; auto). rewrite Ecs.
    destruct (apply_csc_ok R (Ptr 0) (Ptr 0) 0 0 (words_below w (S (Z.to_nat N))) M m (zeros (words_below w (S (Z.to_nat N)))) arg (scaled scale) V) as (y & Ey & Hy1 & Hy2 & _); auto; try (cbn [zeros blen]; lia).
    { destruct scale; cbn; ring. } { destruct scale; cbn; intros; ring. }
    exists y. split; [exact Ey|]. split; [exact Hy1|]. intros u Hu Hl. assert (Pb := pos_bound w ltac:(lia) u (Z.to_nat N) Hu Hl).
    specialize (Hy2 (pos w u) ltac:(lia)). rewrite !Z.add_0_l in Hy2. rewrite Hy2. cbn [zeros bat].
    assert (Es : sum (zrange (cs_n m)) (fun j => rmul (entry m j (pos w u)) (bat arg (0 + j))) = lie_expand (bat arg) tree_of M u).
    { rewrite Em, zrange_shift. unfold lie_expand. apply sum_ext. intros k Hk. apply zseq_In in Hk. rewrite Z.add_0_l.
      rewrite X by (auto; lia). destruct (key_tree _ _ _ _ HB _ _ (Htr k ltac:(lia))) as [_ ->]. ring. }
    rewrite Es. ring.
  Qed.

  Lemma texpand_primitive n t : primitive n (texpand R t).
  Proof.
    induction t as [l|a IHa b IHb]; cbn [texpand]; [|apply primitive_comm; auto].
    apply primitive_letters. intros u Hl. destruct u as [|x [|y u]]; auto. cbn in Hl. lia.
  Qed.
  Lemma lie_expand_primitive n x tree_of M : primitive n (@lie_expand R x tree_of M).
  Proof.
    split.
    - unfold lie_expand. apply sum_zero. intros k _. rewrite (proj1 (texpand_primitive n (tree_of k))). ring.
    - intros u v Hu Hv Hl. unfold lie_expand. rewrite sum_swap. apply sum_zero. intros k _. rewrite sum_mul_l, (proj2 (texpand_primitive n (tree_of k))) by auto. ring.
  Qed.

  Theorem l2t_primitive B w N M arg jd ji jp y : standard B w N -> l2t_fits w N -> lb_size B = Ok M -> blen arg = M ->
    py_lie_to_tensor isz jd ji jp B arg (tensor_basis w N) None = Ok y ->
    bat y 0 = r0 /\ forall u v, letters_ok w u -> letters_ok w v -> u <> [] -> v <> [] -> (length u + length v <= Z.to_nat N)%nat ->
      sum (shuffles u v) (fun s => bat y (pos w s)) = r0.
  Proof.
    intros HS HF EM Hba E. destruct (standard_ok _ _ _ HS) as (M' & HB & _).
    assert (M' = M) as -> by (rewrite (size_ok _ _ _ _ HB) in EM; congruence).
    destruct (l2t_apply B w N M arg None jd ji jp (tr (fun k => bat (lb_data B) (2 * k)) (fun k => bat (lb_data B) (2 * k + 1))) HS HF EM Hba) as (y' & E' & Hl & Hy).
    { intros k Hk. apply (tr_decodes _ _ _ _ HB); auto. }
    assert (y' = y) as -> by congruence. cbn [scaled] in Hy.
    assert (Hp := lie_expand_primitive (Z.to_nat N) (bat arg) (tr (fun k => bat (lb_data B) (2 * k)) (fun k => bat (lb_data B) (2 * k + 1))) M). split.
    - specialize (Hy [] ltac:(constructor) ltac:(cbn; lia)). change (pos w []) with 0 in Hy. rewrite Hy. apply (proj1 Hp).
    - intros u v Hu Hv Hu0 Hv0 Hlen. rewrite <- (proj2 Hp u v Hu0 Hv0 Hlen). apply sum_ext. intros s Hs. apply Hy.
      + apply (shuffles_letters w u v s); auto.
      + apply shuffles_length in Hs. lia.
  Qed.

  (** Wrong depth, wrong number of coordinates, wrong width: an error, no output. *)
  Theorem l2t_mismatch B w N M arg scale jd ji jp D w' : standard B w N -> l2t_fits w N -> lb_size B = Ok M -> 0 <= D -> 1 <= w' -> D <> N \/ blen arg <> M \/ w' <> w ->
    py_lie_to_tensor isz jd ji jp B arg (tensor_basis w' D) scale = Throw.
  Proof.
    intros HS [Hw Hf2] EM HD Hw' Hor. destruct (standard_ok _ _ _ HS) as (M' & HB & _).
    assert (M' = M) as -> by (rewrite (size_ok _ _ _ _ HB) in EM; congruence).
    assert (HN := HN1 B w N M HB).
    destruct (l2t_ok R isz isz_ok R1 B w N M HB Hw (proj1 HS) Hf2 jd ji jp) as (m & E & V & Em & Ei & Ed & Eo & X).
    unfold py_lie_to_tensor. rewrite E. cbn [bind]. assert (Hs := basis_size_ok w' ltac:(lia) (Z.to_nat D)). rewrite Z2Nat.id in Hs by lia. rewrite Hs. cbn [bind].
    cbn [b_width tensor_basis]. rewrite (bo_w _ _ _ _ HB). destruct (w' =? w) eqn:Eww; cbn [negb]; auto. apply Z.eqb_eq in Eww. subst w'.
    unfold dense_apply. rewrite Ei, Em. destruct (words_below w (S (Z.to_nat N)) =? words_below w (S (Z.to_nat D))) eqn:Es; cbn [negb]; auto.
    destruct (M =? blen arg) eqn:Ea; cbn [negb]; auto. exfalso. destruct Hor as [Hor|[Hor|Hor]]; try lia.
    assert (P : forall a b, (a < b)%nat -> words_below w (S a) < words_below w (S b)).
    { intros a b Hab. assert (Y := words_below_lt w ltac:(lia) (S a) (S b) ltac:(lia)). assert (Z1 := pow_pos w ltac:(lia) (S a)). lia. }
    destruct (Z.lt_trichotomy D N) as [Hlt|[Heq|Hgt]]; [|lia|].
    - specialize (P (Z.to_nat D) (Z.to_nat N) ltac:(lia)). lia.
    - specialize (P (Z.to_nat N) (Z.to_nat D) ltac:(lia)). lia.
  Qed.
End Stmt.

(** *** Witnesses *)
Definition buf_list {A} (b : outcome (buf A)) : option (list A) := match b with Ok b => Some (map (bat b) (zrange (blen b))) | _ => None end.
Definition buf_of {A} (d : A) (l : list A) : buf A := mkbuf (zlen l) (fun i => nth (Z.to_nat i) l d).
Lemma ex_l2t : standard (match construct_lie_basis junk0 junk0 2 3 with Ok B => B | _ => mkLB 0 0 (mkbuf 0 (fun _ => 0)) (mkbuf 0 (fun _ => 0)) end) 2 3 /\ l2t_fits 2 3 /\
  csmat_lists (let! B := construct_lie_basis junk0 junk0 2 3 in construct_new_l2t zisz (fun _ => 77 : Zcr) (fun _ => 88) (fun _ => 99) B) =
    Some ([0; 1; 2; 4; 7; 10], [1; 2; 4; 5; 8; 9; 11; 10; 12; 13], [1 : Zcr; 1 : Zcr; 1 : Zcr; -1 : Zcr; 1 : Zcr; -2 : Zcr; 1 : Zcr; -1 : Zcr; 2 : Zcr; -1 : Zcr]) /\
  buf_list (let! B := construct_lie_basis junk0 junk0 2 3 in
            py_lie_to_tensor zisz (fun _ => 77 : Zcr) (fun _ => 88) (fun _ => 99) B (buf_of 0 [3; -1; 5; 0; 2]) (tensor_basis 2 3) (Some (10 : Zcr))) =
    Some ([0; 30; -10; 0; 50; -50; 0; 0; 0; 0; -20; 0; 40; -20; 0] : list Zcr).
Proof.
  split; [|split; [|split; vm_compute; reflexivity]].
  - split; [unfold I64_MAX; lia|]. exists junk0, junk0. vm_compute. reflexivity.
  - unfold l2t_fits, I64_MAX. lia.
Qed.
(** Width 0: the helper has no frame and its last one is read; depth 64: a shift by 63. *)
Lemma l2t_width0 : (let! B := construct_lie_basis junk0 junk0 0 2 in construct_new_l2t zisz (fun _ => 77 : Zcr) (fun _ => 88) (fun _ => 99) B) = UB.
Proof. vm_compute. reflexivity. Qed.
Lemma l2t_depth64 : (let! B := construct_lie_basis junk0 junk0 1 64 in construct_new_l2t zisz (fun _ => 77 : Zcr) (fun _ => 88) (fun _ => 99) B) = UB.
Proof. vm_compute. reflexivity. Qed.
