(** The Hall basis of a context as a basis of vectors. *)
From Coq Require Import ZifyBool.
From Verif Require Import LieObjModel Alg Words KeyProofs KeyProofs2 LalBasis HallModel HallTab HallDim HallTrees HsProofs HsLemmas BracketProofs BracketSem LieSpec LieTab.
Open Scope Z_scope.

(** A context as RoughPy makes it: the bases of one width and depth, whose keys fit in 64 bits. *)
Definition ctx_ok (w N : Z) (L : lctx) : Prop :=
  packs w N /\ sized w N /\ 1 <= N /\ KeyModel.tensor_basis w N = Ok (lc_t L) /\ new_hall_set w N = Ok (lc_h L).

Section Ctx.
  Variables (w N : Z) (L : lctx).
  Hypothesis HC : ctx_ok w N L.
  Notation H := (lc_h L). Notation M := (nM w N). Notation UK := (UK w). Notation ug := (ug w).
  Lemma c_packs : packs w N. Proof. apply HC. Qed.
  Lemma c_w : 1 <= w. Proof. destruct c_packs. lia. Qed.
  Lemma c_N : 1 <= N <= 254. Proof. destruct HC as ((_ & X & _) & _ & Y & _). lia. Qed.
  Lemma c_lev : forall d, 1 <= d <= N -> dbat (snd (tab w (Z.to_nat (N - 1)))) (d + 1) - dbat (snd (tab w (Z.to_nat (N - 1)))) d <= 2 ^ 56.
  Proof. apply (packs_lev w c_w N c_packs). destruct c_N. lia. Qed.
  Lemma c_tb : tb_ok w N (lc_t L). Proof. apply basis_unique; apply HC. Qed.
  Lemma c_hs : hs_ok w N N H.
  Proof.
    assert (X := c_N). assert (Y := c_w). destruct (new_ok w N ltac:(lia) ltac:(lia) c_lev N ltac:(lia)) as (H' & E & O). replace (Z.max 1 N) with N in O by lia.
    destruct HC as (_ & _ & _ & _ & E'). rewrite E in E'. injection E' as <-. exact O.
  Qed.
  Lemma c_width : lc_width L = w. Proof. apply c_tb. Qed.
  Lemma c_depth : lc_depth L = N. Proof. apply c_tb. Qed.
  Lemma c_M64 : M < 2 ^ 64.
  Proof.
    assert (X := nM_lt w c_w N c_packs ltac:(destruct c_N; lia)). destruct HC as (_ & S & _). unfold sized in S. apply Z.lt_trans with (1 := X).
    apply Z.le_lt_trans with (2 := S). apply words_below_mono; [assert (Y := c_w); lia|lia].
  Qed.
  Lemma c_Mpos : 1 <= M. Proof. assert (X := UM_pos w c_w N c_N). assert (Y := c_w). lia. Qed.
  Lemma uk_read k : 1 <= k <= M -> k_degree (UK k) = ug k /\ k_index (UK k) = k - Udb w (ug k).
  Proof.
    intros Hk. assert (X := c_N). assert (Y := c_w). destruct (K_read w N ltac:(lia) ltac:(lia) c_lev k ltac:(unfold nM in Hk; lia)) as [A C].
    rewrite (nK w c_w N X) in A, C by auto. change (lv w N k) with (dg N (ndb w N) k) in A, C. rewrite (ng_eq w c_w N X) in A, C by auto.
    rewrite A. split; [auto|]. rewrite C. change (dbat _ (ug k)) with (ndb w N (ug k)). rewrite (ndb_eq w c_w N X); [auto|]. assert (G := ug_in w c_w N X k Hk). lia.
  Qed.
  Lemma uk_le k k' : 1 <= k <= M -> 1 <= k' <= M -> (UK k <=? UK k') = (k <=? k').
  Proof.
    intros Hk Hk'. assert (X := c_N). assert (Y := c_w). rewrite <- !(nK w c_w N X) by auto. apply (K_le w N); auto; try (unfold nM in *; lia). apply c_lev.
  Qed.
  Lemma uk_eq k k' : 1 <= k <= M -> 1 <= k' <= M -> (UK k =? UK k') = (k =? k').
  Proof. intros A C. assert (P := uk_le k k' A C). assert (Q := uk_le k' k C A). lia. Qed.
  Lemma uk_lt k k' : 1 <= k <= M -> 1 <= k' <= M -> (UK k <? UK k') = (k <? k').
  Proof. intros A C. assert (P := uk_le k k' A C). assert (Q := uk_le k' k C A). lia. Qed.
  Lemma uk_inj k k' : 1 <= k <= M -> 1 <= k' <= M -> UK k = UK k' -> k = k'.
  Proof. intros A C E. assert (P := uk_eq k k' A C). lia. Qed.
  Lemma uk_parents k : 1 <= k <= M -> w < k -> hs_parents H (UK k) = Ok (UK (nL w N k), UK (nR w N k)).
  Proof.
    intros Hk Hkw. assert (X := c_N). assert (Y := c_w). rewrite <- (nK w c_w N X) by auto.
    rewrite (parents_at w N ltac:(lia) ltac:(lia) c_lev H c_hs) by (unfold nM in Hk; lia). unfold kp, HsProofs.row. cbn [fst snd].
    destruct (node_dg _ _ _ _ _ _ (nH w c_w N X) k Hk ltac:(lia)) as (A1 & A2 & _). unfold nL, nR in A1, A2. rewrite !(nK w c_w N X) by auto. reflexivity.
  Qed.
  Lemma uk_find a b : 1 <= a <= M -> 1 <= b <= M ->
    hs_find H (UK a, UK b) = match find_key M (nL w N) (nR w N) a b with Some k => Some (UK k) | None => None end.
  Proof.
    intros Ha Hb. assert (X := c_N). assert (Y := c_w). assert (F := find_at w N ltac:(lia) ltac:(lia) c_lev H c_hs (UK a, UK b)).
    destruct (find_key M (nL w N) (nR w N) a b) as [k|] eqn:E.
    - destruct (find_key_some _ _ _ _ _ _ (nH w c_w N X) a b k ltac:(lia) E) as (E1 & E2 & E3 & _).
      apply F. exists k. split; [unfold nM in E1; lia|]. split; [|symmetry; apply nK; auto; lia].
      unfold kp, HsProofs.row. cbn [fst snd]. unfold nL in E2. unfold nR in E3. rewrite E2, E3, !(nK w c_w N X) by auto. reflexivity.
    - destruct (hs_find H (UK a, UK b)) as [v|] eqn:E'; [|auto]. exfalso. destruct (proj1 (F v) eq_refl) as (k & Hk & EP & _).
      change (1 <= k <= M) in Hk. unfold kp, HsProofs.row in EP. cbn [fst snd] in EP. fold (nL w N) in EP. fold (nR w N) in EP. injection EP as EA EB.
      assert (R0 := row_range w N ltac:(lia) ltac:(lia) k Hk). fold (nL w N) in R0. fold (nR w N) in R0. change (zlen _ - 1) with M in R0.
      assert (PZ : forall x y, 1 <= x <= M -> 0 <= y <= M -> UK x = K w N y -> x = y).
      { intros x y Hx Hy Q. rewrite <- (nK w c_w N X) in Q by auto. apply (K_inj w N) in Q; auto; try (unfold nM in *; lia). apply c_lev. }
      apply PZ in EA; [|auto|lia]. apply PZ in EB; [|auto|lia].
      rewrite (find_key_unique _ _ _ _ _ _ (nH w c_w N X) a b k) in E by (auto; lia). discriminate.
  Qed.
  Definition lkey (i : Z) : Z := UK (i + 1).
  Definition lcnt (n : Z) : Z := Udb w (n + 1) - 1.
  Lemma lkey_deg i : 0 <= i < M -> k_degree (lkey i) = ug (i + 1). Proof. intros. apply uk_read. lia. Qed.
  Theorem hall_basis_ok : basis_ok (hall_vb L) M lkey lcnt.
  Proof.
    assert (X := c_N). assert (Y := c_w). assert (O := c_hs). destruct O as (O1 & O2 & O3 & O4 & O5). assert (EV : vlen (hs_sizes H) = N + 1).
    { unfold vlen. rewrite O5, map_length, zseq_length. lia. }
    assert (EAT : forall n, 0 <= n <= N -> nth (Z.to_nat n) (hs_sizes H) 0 = lcnt n).
    { intros n Hn. rewrite O5. set (f := fun e => dbat (snd (tab w (Z.to_nat (N - 1)))) (e + 1) - 1). rewrite nth_indep with (d' := f 0) by (rewrite map_length, zseq_length; lia).
      rewrite map_nth, zseq_nth by lia. replace (0 + Z.of_nat (Z.to_nat n)) with n by lia. unfold lcnt. rewrite <- (ndb_eq w c_w N X) by lia. reflexivity. }
    assert (UMM := nM_le w c_w N X).
    constructor; cbn [hall_vb vb_depth vb_sizes vb_size vb_index vb_key vb_advance blen bat]; rewrite ?c_depth.
    - lia.
    - rewrite EV. lia.
    - intros n Hn. apply EAT. auto.
    - intros j j' Hj Hj'. rewrite EV in Hj'. rewrite !EAT by lia. unfold lcnt. assert (Q := db_mono _ _ _ _ _ _ (UH w c_w) (j + 1) (j' + 1) ltac:(lia) ltac:(lia) ltac:(assert (Z1 := UN_eq); lia)). lia.
    - intros i Hi. unfold lkey. rewrite <- (nK w c_w N X) by lia. rewrite (index_at w N ltac:(lia) ltac:(lia) c_lev H c_hs).
      + f_equal. lia. + unfold nM in Hi. lia. + apply c_M64.
    - exists (lkey 0). split; [|auto]. rewrite (key_at w N ltac:(lia) ltac:(lia) c_lev H c_hs) by lia. change (zlen _ - 1) with M. assert (Q := c_Mpos). replace (0 <? M) with true by lia.
      rewrite (nK w c_w N X) by lia. reflexivity.
    - intros i Hi. unfold lkey. rewrite <- (nK w c_w N X) by lia. rewrite (HsProofs.advance_at w N ltac:(lia) ltac:(lia) c_lev H c_hs) by (unfold nM in Hi; lia).
      eexists. split; [reflexivity|]. intros Hi1. change (lv w N (i + 1)) with (dg N (ndb w N) (i + 1)). rewrite (ng_eq w c_w N X) by lia. assert (G := ug_in w c_w N X (i + 1) ltac:(lia)).
      fold (ndb w N). destruct (Z.ltb_spec (i + 1 + 1) (ndb w N (ug (i + 1) + 1))); [apply nK; auto; lia|].
      destruct (dg_level _ _ _ _ _ _ (UH w c_w) (i + 1) ltac:(lia)) as [D1 D2]. fold (ug (i + 1)) in D1, D2. rewrite (ndb_eq w c_w N X) in * by lia.
      assert (ug (i + 1) <> N). { intros Q. rewrite Q in *. rewrite <- (nM_top w c_w N X) in *. lia. }
      assert (HW : 2 <= w). { apply (two_letters _ _ _ _ _ _ (nH w c_w N X) (i + 1) (i + 1 + 1)); lia. }
      assert (NE := level_ne w N HW ltac:(lia) (ug (i + 1) + 1) ltac:(lia)). fold (ndb w N) in NE. rewrite !(ndb_eq w c_w N X) in NE by lia.
      assert (EG : ug (i + 1 + 1) = ug (i + 1) + 1). { apply (dg_eq _ _ _ _ _ _ (UH w c_w)); [assert (Z1 := UN_eq); lia|lia]. }
      unfold LieTab.UK. rewrite EG. f_equal. lia.
    - intros i j Hij Hj. assert (Q := uk_lt (i + 1) (j + 1) ltac:(lia) ltac:(lia)). unfold lkey. lia.
    - intros i Hi. rewrite lkey_deg by auto. assert (Q := ug_in w c_w N X (i + 1) ltac:(lia)). lia.
    - intros i n Hi Hn. rewrite lkey_deg by auto. unfold lcnt. assert (Q := ug_in w c_w N X (i + 1) ltac:(lia)).
      destruct (Z.eq_dec n 0) as [->|]; [change (0 + 1) with 1; rewrite (hd_1 _ _ _ _ _ _ (UH w c_w)); lia|].
      assert (Q2 := ug_le w c_w n ltac:(lia) (i + 1) ltac:(lia)). rewrite Q2. assert (Q3 := nM_top w c_w n ltac:(lia)). lia.
    - intros n Hn. unfold lcnt. assert (Q := db_mono _ _ _ _ _ _ (UH w c_w) 1 (n + 1) ltac:(lia) ltac:(lia) ltac:(assert (Z1 := UN_eq); lia)). rewrite (hd_1 _ _ _ _ _ _ (UH w c_w)) in Q. lia.
    - unfold lcnt. rewrite <- (nM_top w c_w N X). lia.
  Qed.
  Lemma c_size : vb_size (hall_vb L) (-1) = Ok M.
  Proof.
    assert (X := c_N). assert (Y := c_w). cbn [hall_vb vb_size]. change (-1 <? 0) with true. cbv iota. rewrite c_depth, (HsProofs.size_at w N ltac:(lia) ltac:(lia) H c_hs).
    replace ((0 <=? N) && (N <=? N)) with true by lia. f_equal. fold (ndb w N). rewrite (hd_top _ _ _ _ _ _ (nH w c_w N X)). lia.
  Qed.
  Lemma c_key i : 0 <= i < M -> vb_key (hall_vb L) i = Ok (lkey i).
  Proof.
    intros Hi. assert (X := c_N). assert (Y := c_w). cbn [hall_vb vb_key]. rewrite (key_at w N ltac:(lia) ltac:(lia) c_lev H c_hs) by lia. change (zlen _ - 1) with M.
    replace (i <? M) with true by lia. rewrite (nK w c_w N X) by lia. reflexivity.
  Qed.
End Ctx.
