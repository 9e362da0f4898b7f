(** The Lie-to-tensor matrix: its columns are the expanded brackets. *)
From Coq Require Import ZifyBool Sorted.
From Verif Require Import Outcome Alg Words Mem Series Shuffle SparseModel SparseProofs Mobius HallModel HallSpec LieSpec HallTab HallCount HallDim HallProofs HallTrees HallLookup HallLemmas SmhModel SmhProofs SmhBuild SmhLemmas L2tModel.
Local Open Scope Z_scope.

Lemma for_zseq {S} (P : Z -> S -> Prop) f : forall n a s, P a s ->
  (forall i t, a <= i < a + Z.of_nat n -> P i t -> exists t', f i t = Ok t' /\ P (i + 1) t') ->
  exists s', for_ (zseq a n) s f = Ok s' /\ P (a + Z.of_nat n) s'.
Proof.
  induction n as [|n IH]; intros a s H0 Hs; cbn [zseq for_].
  - exists s. split; auto. replace (a + Z.of_nat 0) with a by lia. auto.
  - destruct (Hs a s ltac:(lia) H0) as (t & E & Ht). rewrite E. cbn [bind]. destruct (IH (a + 1) t Ht) as (s' & E' & Hs').
    { intros i u Hi. apply Hs. lia. }
    exists s'. split; auto. replace (a + Z.of_nat (Datatypes.S n)) with (a + 1 + Z.of_nat n) by lia. auto.
Qed.

Lemma pos_app w u v : 0 < w -> pos w (u ++ v) = pos w u * w ^ Z.of_nat (length v) + pos w v.
Proof.
  intros Hw. unfold pos. rewrite app_length, (idx_app w Hw).
  assert (X : words_below w (length u + length v) = words_below w (length u) * w ^ Z.of_nat (length v) + words_below w (length v)).
  { induction (length v) as [|n IH]; [cbn [words_below]; rewrite Nat.add_0_r; change (Z.of_nat 0) with 0; rewrite Z.pow_0_r; lia|].
    assert (E := words_below_rec w Hw (length u)). cbn [words_below] in E.
    rewrite Nat.add_succ_r. cbn [words_below]. rewrite IH, (pow_plus w Hw), (pow_S w Hw).
    replace (words_below w (length u) * (w * w ^ Z.of_nat n)) with ((words_below w (length u) * w) * w ^ Z.of_nat n) by ring.
    replace (words_below w (length u) * w) with (words_below w (length u) + w ^ Z.of_nat (length u) - 1) by lia. ring. }
  rewrite X. lia.
Qed.
Lemma words_below_fits w N : 1 <= w -> 1 <= N -> N * w ^ N < I64_MAX -> words_below w (S (Z.to_nat N)) <= I64_MAX.
Proof.
  intros Hw HN Hb. destruct (Z.eq_dec w 1) as [->|Hw1].
  - assert (X : forall n, words_below 1 n = Z.of_nat n) by (induction n as [|n IH]; cbn [words_below]; [lia|rewrite IH, Z.pow_1_l; lia]).
    rewrite X. rewrite Z.pow_1_l in Hb by lia. lia.
  - assert (X : forall n, words_below w (S n) <= 2 * w ^ Z.of_nat n - 1).
    { induction n as [|n IH]; [cbn [words_below]; change (Z.of_nat 0) with 0; rewrite Z.pow_0_r; lia|].
      rewrite words_below_rec by lia. rewrite pow_S by lia. nia. }
    specialize (X (Z.to_nat N)). rewrite Z2Nat.id in X by lia. destruct (Z.eq_dec N 1) as [->|HN1].
    + change (Z.to_nat 1) with 1%nat. rewrite Z.pow_1_r in *. cbn [words_below]. change (Z.of_nat 0) with 0. change (Z.of_nat 1) with 1. rewrite Z.pow_0_r, Z.pow_1_r. lia.
    + assert (0 < w ^ N) by (apply Z.pow_pos_nonneg; lia). nia.
Qed.

Section Cols.
  Variable R : cring.
  Add Ring Rring_l2c : (rth R).
  Variable isz : R -> bool.
  Hypothesis isz_ok : forall x, isz x = true <-> x = r0.
  Variable w : Z.
  Hypothesis Hw : 1 <= w.
  Notation col := (list (Z * R)).
  Notation nz := (nz R isz). Notation rep := (rep R isz). Notation safe := (safe R isz). Notation finish := (finish R isz).
  Notation cval := (cval R). Notation cins := (cins R). Notation flat := (flat R). Notation tot := (tot R). Notation frs := (frs R).
  Notation cinsall := (cinsall R isz). Notation colk := (colk R).

  (** *** Reading a frame *)
  Lemma frs_split r2 c r1 : exists f, frs (r2 ++ c :: r1) = f ++ (tot r1, zlen c) :: frs r1.
  Proof. induction r2 as [|d r2 (f & IH)]; cbn [app SmhProofs.frs]; [exists []; auto|]. rewrite IH. eexists (_ :: f). reflexivity. Qed.
  Lemma frame_read h rc k : rep h rc -> 0 <= k < zlen rc -> exists o, frame_at h k = Ok (o, zlen (colk rc k)) /\
    forall n p, nth_error (colk rc k) n = Some p -> bget (s_idx h) (o + Z.of_nat n) = Ok (fst p) /\ bget (s_data h) (o + Z.of_nat n) = Ok (snd p).
  Proof.
    intros H Hk. destruct (split_rev rc (Z.to_nat k)) as (r2 & c & r1 & E & El); [unfold zlen in Hk; lia|].
    assert (Ec : colk rc k = c) by (unfold SmhLemmas.colk; rewrite E, <- El; apply nth_rev_split). rewrite Ec.
    exists (tot r1). split.
    - unfold frame_at. replace (k <? 0) with false by lia. rewrite (rp_fr _ _ _ _ H), E. destruct (frs_split r2 c r1) as (f & ->).
      rewrite rev_app_distr. cbn [rev]. rewrite <- app_assoc, nth_error_app2; rewrite rev_length, frs_length, El; [|lia]. rewrite Nat.sub_diag. reflexivity.
    - intros n p Hn. destruct (nth_error_split _ _ Hn) as (a & b & Ec2 & Ea). destruct (flat_split R r2 c r1) as (l & Ef).
      destruct (rp_arr _ _ _ _ H) as (A1 & A2 & _). rewrite E, Ef, Ec2 in A1, A2.
      replace (flat r1 ++ (a ++ p :: b) ++ l) with ((flat r1 ++ a) ++ p :: (b ++ l)) in A1, A2 by (rewrite <- !app_assoc; reflexivity).
      rewrite map_app in A1. rewrite map_app in A2. cbn [map] in A1, A2. apply has_get in A1, A2.
      rewrite zlen_map, zlen_app, zlen_flat in A1. rewrite zlen_map, zlen_app, zlen_flat in A2.
      replace (zlen a) with (Z.of_nat n) in A1, A2 by (unfold zlen; lia). auto.
  Qed.

  (** *** Loops over the entries of a column *)
  Lemma for_col {S} (P : col -> S -> Prop) (g : Z * R -> list (Z * R)) f c0 : forall c cur s, P cur s ->
    (forall n p cur s, nth_error (c0 ++ c) n = Some p -> P cur s -> exists s', f (Z.of_nat n) s = Ok s' /\ P (cinsall cur (g p)) s') ->
    exists s', for_ (zseq (zlen c0) (length c)) s f = Ok s' /\ P (cinsall cur (flat_map g c)) s'.
  Proof.
    intros c. revert c0. induction c as [|p c IH]; intros c0 cur s H0 Hs; cbn [length zseq for_ flat_map].
    - exists s. auto.
    - destruct (Hs (length c0) p cur s) as (s1 & E1 & H1); [rewrite nth_error_app2, Nat.sub_diag by lia; reflexivity|auto|].
      change (Z.of_nat (length c0)) with (zlen c0) in E1. rewrite E1. cbn [bind].
      destruct (IH (c0 ++ [p]) (cinsall cur (g p)) s1 H1) as (s' & E' & H').
      { rewrite <- app_assoc. exact Hs. }
      exists s'. split; [|rewrite cinsall_app; auto]. replace (zlen (c0 ++ [p])) with (zlen c0 + 1) in E' by (rewrite zlen_app; reflexivity). auto.
  Qed.
  Lemma for_col0 {S} (P : col -> S -> Prop) (g : Z * R -> list (Z * R)) f c cur s : P cur s ->
    (forall n p cur s, nth_error c n = Some p -> P cur s -> exists s', f (Z.of_nat n) s = Ok s' /\ P (cinsall cur (g p)) s') ->
    exists s', for_ (zrange (zlen c)) s f = Ok s' /\ P (cinsall cur (flat_map g c)) s'.
  Proof. intros H0 Hs. unfold zrange. replace (Z.to_nat (zlen c)) with (length c) by (unfold zlen; lia). apply (for_col P g f [] c cur s H0 Hs). Qed.

  (** *** A column standing for a homogeneous tensor of degree [d] *)
  Definition repr (c : col) (d : nat) (f : tens R Z) : Prop :=
    (forall p, In p c -> exists u, letters_ok w u /\ length u = d /\ fst p = pos w u) /\
    (forall u, letters_ok w u -> length u = d -> cval c (pos w u) = f u).
  Lemma repr_filter c d f : repr c d f -> repr (filter nz c) d f.
  Proof.
    intros [H1 H2]. split.
    - intros p Hp. apply filter_In in Hp. apply H1. tauto.
    - intros u Hu Hl. rewrite cval_filter; auto.
  Qed.
  Lemma repr_other c d f u : repr c d f -> letters_ok w u -> length u <> d -> cval c (pos w u) = r0.
  Proof.
    intros [H1 _] Hu Hl. apply cval_absent. intros Hin. apply in_map_iff in Hin. destruct Hin as (p & Ep & Hp).
    destruct (H1 p Hp) as (v & Hv & Hlv & E). rewrite Ep in E. apply pos_inj in E; auto; [|lia]. subst v. auto.
  Qed.

  Definition homog (d : nat) (f : tens R Z) : Prop := forall u, length u <> d -> f u = r0.
  Lemma conv_homog d1 d2 f g u : homog d1 f -> homog d2 g -> length u = (d1 + d2)%nat -> conv f g u = rmul (f (firstn d1 u)) (g (skipn d1 u)).
  Proof.
    intros Hf Hg Hl. unfold conv. rewrite (sum_single _ _ _ d1); [reflexivity|apply seq_NoDup|apply in_seq; lia|].
    intros k Hk Hne. apply in_seq in Hk. rewrite (Hf (firstn k u)) by (rewrite firstn_length; lia). ring.
  Qed.
  Lemma homog_conv d1 d2 f g : homog d1 f -> homog d2 g -> homog (d1 + d2) (conv f g).
  Proof.
    intros Hf Hg u Hl. unfold conv. apply sum_zero. intros k Hk. apply in_seq in Hk.
    destruct (Nat.eq_dec k d1) as [->|Hne].
    - rewrite (Hg (skipn d1 u)) by (rewrite skipn_length; lia). ring.
    - rewrite (Hf (firstn k u)) by (rewrite firstn_length; lia). ring.
  Qed.
  Lemma homog_comm d1 d2 f g : homog d1 f -> homog d2 g -> homog (d1 + d2) (comm f g).
  Proof. intros Hf Hg u Hl. unfold comm, tsub. rewrite (homog_conv d1 d2 f g Hf Hg u Hl), (homog_conv d2 d1 g f Hg Hf u) by lia. ring. Qed.
  Lemma homog_texpand t : homog (Z.to_nat (tdeg t)) (texpand R t).
  Proof.
    induction t as [l|a IHa b IHb].
    - intros u Hl. cbn [texpand tdeg] in *. destruct u as [|x [|y u]]; auto. cbn in Hl. lia.
    - cbn [texpand tdeg]. assert (X := tdeg_pos a). assert (Y := tdeg_pos b). rewrite Z2Nat.inj_add by lia. apply homog_comm; auto.
  Qed.

  (** the pairs inserted for a bracket *)
  Definition cpair (lo ro : Z) (p q : Z * R) : list (Z * R) :=
    [(fst p * ro + fst q, product R 1 (snd p) (snd q)); (fst q * lo + fst p, product R (-1) (snd q) (snd p))].
  Definition cpairs (lo ro : Z) (lc rc : col) : col := flat_map (fun p => flat_map (cpair lo ro p) rc) lc.

  Lemma cval_flat_map {A} (g : A -> col) l j : cval (flat_map g l) j = sum l (fun x => cval (g x) j).
  Proof. unfold SmhProofs.cval. apply sum_flat_map. Qed.
  Lemma repr_comm lc rc d1 d2 f g : repr lc d1 f -> repr rc d2 g -> homog d1 f -> homog d2 g ->
    repr (cinsall [] (cpairs (w ^ Z.of_nat d1) (w ^ Z.of_nat d2) lc rc)) (d1 + d2) (comm f g).
  Proof.
    intros [L1 L2] [R1 R2] Hf Hg.
    assert (Idx : forall p q, In p lc -> In q rc -> forall u, letters_ok w u -> length u = (d1 + d2)%nat ->
       (fst p * w ^ Z.of_nat d2 + fst q =? pos w u) = (fst p =? pos w (firstn d1 u)) && (fst q =? pos w (skipn d1 u)) /\
       (fst q * w ^ Z.of_nat d1 + fst p =? pos w u) = (fst q =? pos w (firstn d2 u)) && (fst p =? pos w (skipn d2 u))).
    { intros p q Hp Hq u Hu Hl. destruct (L1 p Hp) as (a & Ha & La & ->). destruct (R1 q Hq) as (b & Hb & Lb & ->).
      assert (W0 : 0 < w) by lia.
      assert (G : forall (x y : list Z) n, letters_ok w x -> letters_ok w y -> length x = n -> (length x + length y)%nat = length u ->
        (pos w x * w ^ Z.of_nat (length y) + pos w y =? pos w u) = (pos w x =? pos w (firstn n u)) && (pos w y =? pos w (skipn n u))).
      { intros x y n Hx Hy Hn Hxy. rewrite <- (pos_app w x y W0). apply Bool.eq_true_iff_eq. rewrite andb_true_iff, !Z.eqb_eq. split.
        - intros E. apply pos_inj in E; auto; [|apply letters_ok_app; auto]. subst u n. rewrite firstn_app, skipn_app, Nat.sub_diag, firstn_all, skipn_all.
          cbn. rewrite app_nil_r. auto.
        - intros [E1 E2]. apply pos_inj in E1; auto; [|apply letters_ok_firstn; auto]. apply pos_inj in E2; auto; [|apply letters_ok_skipn; auto].
          f_equal. rewrite E1, E2. apply firstn_skipn. }
      split; [rewrite <- Lb; apply G; auto; lia|rewrite <- La; apply G; auto; lia]. }
    split.
    - intros p Hp. assert (Hin : In (fst p) (map fst (cpairs (w ^ Z.of_nat d1) (w ^ Z.of_nat d2) lc rc))).
      { destruct (cinsall_fst R isz _ [] (fst p) (in_map fst _ _ Hp)) as [[]|X]; exact X. }
      apply in_map_iff in Hin. destruct Hin as (q & <- & Hq). unfold cpairs in Hq. apply in_flat_map in Hq. destruct Hq as (lp & Hlp & Hq).
      apply in_flat_map in Hq. destruct Hq as (rp & Hrp & Hq). destruct (L1 _ Hlp) as (a & Ha & La & Ea). destruct (R1 _ Hrp) as (b & Hb & Lb & Eb).
      destruct Hq as [<-|[<-|[]]]; cbn [fst]; rewrite Ea, Eb.
      + exists (a ++ b). rewrite letters_ok_app, app_length, pos_app, Lb by lia. repeat split; auto; lia.
      + exists (b ++ a). rewrite letters_ok_app, app_length, pos_app, La by lia. repeat split; auto; lia.
    - intros u Hu Hl. rewrite (cval_cinsall R isz isz_ok). unfold SmhProofs.cval at 1. cbn [sum]. unfold cpairs. rewrite cval_flat_map.
      unfold comm, tsub. rewrite (conv_homog d1 d2 f g u Hf Hg Hl), (conv_homog d2 d1 g f u Hg Hf) by lia.
      rewrite <- (L2 (firstn d1 u)), <- (R2 (skipn d1 u)), <- (R2 (firstn d2 u)), <- (L2 (skipn d2 u));
        try (apply letters_ok_firstn; auto); try (apply letters_ok_skipn; auto); try (rewrite firstn_length; lia); try (rewrite skipn_length; lia).
      rewrite (sum_ext _ _ _ (fun p => rsub (rmul (if fst p =? pos w (firstn d1 u) then snd p else r0) (cval rc (pos w (skipn d1 u))))
                                          (rmul (cval rc (pos w (firstn d2 u))) (if fst p =? pos w (skipn d2 u) then snd p else r0)))).
      + rewrite sum_sub, sum_mul_r, sum_mul_l. unfold SmhProofs.cval. ring.
      + intros p Hp. rewrite cval_flat_map. unfold SmhProofs.cval. rewrite <- sum_mul_l, <- sum_mul_r, <- sum_sub. apply sum_ext. intros q Hq.
        cbn [cpair sum fst snd]. destruct (Idx p q Hp Hq u Hu Hl) as [-> ->]. unfold product. change (zr R (-1)) with (ropp (zr R 1)). rewrite zr_1.
        destruct (fst p =? pos w (firstn d1 u)), (fst q =? pos w (skipn d1 u)), (fst q =? pos w (firstn d2 u)), (fst p =? pos w (skipn d2 u)); cbn [andb]; ring.
  Qed.

  (** the state of the helper, with its fixed dimensions *)
  Record ready (rows cols : Z) (h : smh R) (rc : list col) : Prop := mkReady {
    rd_rep : rep h rc; rd_cap : 1 <= blen (s_data h); rd_alloc : s_alloc h = cols; rd_rows : s_rows h = rows; rd_cols : s_cols h = cols }.
  Lemma ready_frame rows cols h rc : ready rows cols h rc -> safe rc -> zlen rc < cols ->
    exists h', insert_frame isz h = Ok h' /\ ready rows cols h' ([] :: finish rc).
  Proof.
    intros [H1 H2 H3 H4 H5] Hs Hc. destruct (insert_frame_ok R isz h rc H1 Hs ltac:(lia)) as (h' & E & A & B & C & D & F).
    exists h'. split; auto. constructor; auto; congruence || lia.
  Qed.
  Lemma ready_insert rows cols h c r k v : ready rows cols h (c :: r) -> exists h', insert_value isz h k v = Ok h' /\ ready rows cols h' (cinsall c [(k, v)] :: r).
  Proof.
    intros [H1 H2 H3 H4 H5]. destruct (insert_value_ok R isz h c r k v H1 H2) as (h' & E & A & B & C & D & F).
    exists h'. split; auto. constructor; auto; congruence || lia.
  Qed.
  Lemma zlen_finish rc : zlen (finish rc) = zlen rc. Proof. destruct rc; reflexivity. Qed.
  Lemma colk_finish rc k : 0 <= k < zlen rc -> colk (finish rc) k = colk rc k \/ colk (finish rc) k = filter nz (colk rc k).
  Proof.
    intros Hk. destruct rc as [|c r]; [auto|]. cbn [SmhProofs.finish]. rewrite zlen_cons in Hk.
    destruct (Z.eq_dec k (zlen r)) as [->|Hk2]; [rewrite !(colk_cur R); auto|rewrite !(colk_old R) by lia; auto].
  Qed.
  (** the first column keeps a non-zero entry *)
  Definition anchored (i : Z) (rc : list col) : Prop := i < zlen rc -> exists p, In p (colk rc i) /\ nz p = true.
  Lemma anchored_finish i rc : 0 <= i -> anchored i rc -> anchored i ([] :: finish rc) \/ zlen rc <= i.
  Proof.
    intros Hi Ha. destruct (Z_lt_le_dec i (zlen rc)) as [Hlt|Hge]; [left|right; auto]. intros _.
    destruct (Ha Hlt) as (p & Hp & Hn). exists p. rewrite (colk_old R) by (rewrite zlen_finish; lia). split; auto.
    destruct (colk_finish rc i ltac:(lia)) as [->| ->]; auto. apply filter_In. auto.
  Qed.
  Lemma anchored_safe i rc : 0 <= i -> (forall k, 0 <= k < i -> colk rc k = []) -> anchored i rc -> safe rc.
  Proof.
    intros Hi Hz Ha. destruct rc as [|c r]; cbn; auto. intros Hc Hf Habs. assert (Zr := zlen_pos r).
    destruct (Z_lt_le_dec (zlen r) i) as [Hlt|Hge].
    - apply Hc. rewrite <- (colk_cur R c r). apply Hz. lia.
    - destruct (Ha ltac:(rewrite zlen_cons; lia)) as (p & Hp & Hn). destruct (Z.eq_dec i (zlen r)) as [->|Hne].
      + rewrite (colk_cur R) in Hp. assert (X : In p (filter nz c)) by (apply filter_In; auto). rewrite Habs in X. destruct X.
      + rewrite (colk_old R) in Hp by lia. apply (colk_flat R) in Hp; [|lia]. rewrite Hf in Hp. destruct Hp.
  Qed.
End Cols.
