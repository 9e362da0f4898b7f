(** Proofs about the in-place multiplication kernel. *)
From Verif Require Export TensorProofs.

Lemma zdown_split hi lo done x rest : zdown hi lo = done ++ x :: rest ->
  lo <= x <= hi /\ (forall y, In y done <-> x < y <= hi).
Proof.
  assert (G : forall n hi done, Z.to_nat (hi - lo + 1) = n -> zdown hi lo = done ++ x :: rest -> lo <= x <= hi /\ (forall y, In y done <-> x < y <= hi)).
  { induction n as [|n IH]; intros h d Hn E.
    - rewrite zdown_nil in E by lia. destruct d; discriminate.
    - rewrite zdown_cons in E by lia. destruct d as [|y d]; cbn [app] in E.
      + injection E as E1 E2. subst. split; [lia|]. intros y. cbn [In]. lia.
      + injection E as E1 E2. subst y. destruct (IH (h - 1) d) as [H1 H2]; [lia|auto|]. split; [lia|].
        intros y. cbn [In]. rewrite H2. lia. }
  intros E. apply (G _ hi done eq_refl E).
Qed.

Section Inplace.
  Variable R : cring.
  Add Ring Rring3 : (rth R).
  Notation buf := (buf R).
  Local Open Scope cr_scope.
  Variable w : Z.
  Hypothesis Hw : (0 < w)%Z.
  Notation lcoef := (lcoef R w).

  Lemma pos_len_inj u v : letters_ok w u -> letters_ok w v -> pos w u = pos w v -> length u = length v.
  Proof. intros Hu Hv E. apply (pos_inj w Hw) in E; auto. subst; auto. Qed.
  Lemma level_word (off k n : Z) : (0 <= n)%Z -> (off + words_below w (Z.to_nat n) <= k < off + words_below w (Z.to_nat n) + w ^ n)%Z ->
    exists u, letters_ok w u /\ Z.of_nat (length u) = n /\ k = (off + pos w u)%Z.
  Proof.
    intros Hn Hk. exists (unidx w (Z.to_nat n) (k - (off + words_below w (Z.to_nat n)))).
    assert (Hi : (0 <= k - (off + words_below w (Z.to_nat n)) < w ^ Z.of_nat (Z.to_nat n))%Z) by (rewrite Z2Nat.id; lia).
    split; [apply unidx_ok; auto|]. rewrite unidx_length. split; [lia|]. unfold pos. rewrite unidx_length, idx_unidx by auto. lia.
  Qed.
  Lemma word_level u off : letters_ok w u ->
    (off + words_below w (length u) <= off + pos w u < off + words_below w (length u) + w ^ Z.of_nat (length u))%Z.
  Proof. intros Hu. assert (B := idx_bound w Hw u Hu). unfold pos. lia. Qed.


  Lemma pconv_split op lhs rhs l r u : (1 <= length u)%nat -> in_rng lhs (Z.of_nat (length u)) = true -> (0 <= v_min rhs /\ 0 <= v_max rhs)%Z -> (0 <= v_min lhs)%Z ->
    pconv op lhs rhs l r u =
      (if (v_min rhs =? 0)%Z then op (l u * r [] : R) else 0) +
      sum (seq O (S (length u))) (fun k =>
        if ((Z.max (v_min lhs) (Z.of_nat (length u) - v_max rhs) <=? Z.of_nat k) && (Z.of_nat k <=? Z.of_nat (length u) - Z.max 1 (v_min rhs)))%Z
        then op (l (firstn k u) * r (skipn k u)) else 0).
  Proof.
    intros H1 Hin Hr Hl. apply in_rng_true in Hin. unfold pconv. rewrite !sum_seq_last.
    replace (O + length u)%nat with (length u) by lia.
    rewrite firstn_all, skipn_all, Nat.sub_diag. change (Z.of_nat 0) with 0%Z.
    replace (Z.of_nat (length u) <=? Z.of_nat (length u) - Z.max 1 (v_min rhs))%Z with false by (symmetry; apply Z.leb_gt; lia).
    rewrite andb_false_r.
    replace (in_rng lhs (Z.of_nat (length u)) && in_rng rhs 0) with (v_min rhs =? 0)%Z.
    2:{ apply eq_true_iff_eq. rewrite andb_true_iff, !in_rng_true, Z.eqb_eq. lia. }
    rewrite (sum_ext R (seq O (length u)) _ (fun k =>
        if ((Z.max (v_min lhs) (Z.of_nat (length u) - v_max rhs) <=? Z.of_nat k) && (Z.of_nat k <=? Z.of_nat (length u) - Z.max 1 (v_min rhs)))%Z
        then op (l (firstn k u) * r (skipn k u)) else 0)); [ring|].
    intros k Hk. apply in_seq in Hk.
    replace (in_rng lhs (Z.of_nat k) && in_rng rhs (Z.of_nat (length u - k)))
      with ((Z.max (v_min lhs) (Z.of_nat (length u) - v_max rhs) <=? Z.of_nat k) && (Z.of_nat k <=? Z.of_nat (length u) - Z.max 1 (v_min rhs)))%Z; [reflexivity|].
    apply eq_true_iff_eq. rewrite !andb_true_iff, !in_rng_true, !Z.leb_le. lia.
  Qed.

  Theorem ft_inplace_mul_ok lhs rhs lo ro (b rb : buf) (op : R -> R) :
    vwf w lhs lo -> vwf w rhs ro -> fits w lhs lo b -> fits w rhs ro rb ->
    exists b', ft_inplace_mul lhs rhs b rb op = Ok b' /\ blen b' = blen b /\
      (forall u, letters_ok w u -> in_rng lhs (Z.of_nat (length u)) = true ->
         bat b' (lo + pos w u)%Z = pconv op lhs rhs (lcoef lo b) (lcoef ro rb) u) /\
      (forall k, (forall u, letters_ok w u -> in_rng lhs (Z.of_nat (length u)) = true -> k <> (lo + pos w u)%Z) ->
         bat b' k = bat b k).
  Proof.
    intros Hl Hr Fl Fr. unfold ft_inplace_mul.
    assert (Hlmin : (0 <= v_min lhs /\ 0 <= v_max lhs)%Z) by (destruct Hl; lia).
    assert (Hrmin : (0 <= v_min rhs /\ 0 <= v_max rhs)%Z) by (destruct Hr; lia).
    assert (Pw : forall n, (0 < w ^ Z.of_nat n)%Z) by (apply pow_pos; auto).
    assert (P0 : pos w [] = 0%Z) by reflexivity.
    assert (Br := pos_in w Hw rhs ro rb [] Hr Fr ltac:(constructor) ltac:(cbn; lia)). rewrite P0 in Br.
    assert (R0 : vget rb rhs 0%Z = Ok (lcoef ro rb [])).
    { unfold vget. destruct (vw_it _ _ _ Hr) as [Ir _]. rewrite Ir, bget_ok by auto. unfold TensorProofs.lcoef. rewrite P0. reflexivity. }
    match goal with |- context [for_ ?l b ?f] => destruct (for_inv (fun done t => blen t = blen b /\
        (forall u, letters_ok w u -> In (Z.of_nat (length u)) done -> bat t (lo + pos w u)%Z = pconv op lhs rhs (lcoef lo b) (lcoef ro rb) u) /\
        (forall k, (forall u, letters_ok w u -> In (Z.of_nat (length u)) done -> k <> (lo + pos w u)%Z) -> bat t k = bat b k)) l b f) as (b1 & E1 & L1 & V1 & K1) end.
    { split; [reflexivity|]. split; [intros u _ []|reflexivity]. }
    { intros done n rest t Esp (Lt & Vt & Kt). apply zdown_split in Esp. destruct Esp as [Hn Hdone].
      rewrite (at_level_ok w Hw lhs lo) by (auto; lia). cbn [bind snd].
      assert (Hco : (0 <= lo + words_below w (Z.to_nat n))%Z).
      { assert (X := words_below_nonneg w Hw (Z.to_nat n)). destruct Hl; lia. }
      assert (Hcb : (lo + words_below w (Z.to_nat n) + w ^ n <= blen b)%Z).
      { assert (X := level_in w Hw lhs lo b n (w ^ n - 1) Hl Fl). assert (Y := Pw (Z.to_nat n)). rewrite Z2Nat.id in Y by lia. lia. }
      assert (Hcn : (0 < w ^ n)%Z). { assert (Y := Pw (Z.to_nat n)). rewrite Z2Nat.id in Y by lia. auto. }
      set (c := (lo + words_below w (Z.to_nat n))%Z) in *.
      (* the level is first scaled or cleared *)
      set (G := fun x : R => if (v_min rhs =? 0)%Z then op (x * lcoef ro rb []) else 0).
      destruct (for_map R t c (Z.to_nat (w ^ n)) (fun _ x => G x)
         (fun i b0 => if (v_min rhs =? 0)%Z then
             let! x := fget b0 (it_add (v_it lhs) (words_below w (Z.to_nat n)), (w ^ n)%Z) i in
             let! y := vget rb rhs 0%Z in fset b0 (it_add (v_it lhs) (words_below w (Z.to_nat n)), (w ^ n)%Z) i (op (x * y))
           else fset b0 (it_add (v_it lhs) (words_below w (Z.to_nat n)), (w ^ n)%Z) i 0)) as (t1 & Et1 & Lt1 & At1); [lia|lia| |].
      { intros i t0 Hi Lt0. unfold fget, fset. cbn [fst]. destruct (vw_it _ _ _ Hl) as [_ Il]. rewrite Il. fold c. unfold G.
        destruct (v_min rhs =? 0)%Z.
        - rewrite bget_ok by lia. cbn [bind]. rewrite R0. cbn [bind]. reflexivity.
        - rewrite bget_ok by lia. cbn [bind]. reflexivity. }
      assert (Et1' : (if (v_min rhs =? 0)%Z
              then for_ (zrange (w ^ n)) t (fun i b0 =>
                     let! x := fget b0 (it_add (v_it lhs) (words_below w (Z.to_nat n)), (w ^ n)%Z) i in
                     let! y := vget rb rhs 0%Z in fset b0 (it_add (v_it lhs) (words_below w (Z.to_nat n)), (w ^ n)%Z) i (op (x * y)))
              else for_ (zrange (w ^ n)) t (fun i b0 => fset b0 (it_add (v_it lhs) (words_below w (Z.to_nat n)), (w ^ n)%Z) i 0)) = Ok t1).
      { unfold zrange. destruct (v_min rhs =? 0)%Z; exact Et1. }
      rewrite Et1'. cbn [bind]. clear Et1 Et1'.
      rewrite Z2Nat.id in At1 by lia.
      assert (Below : forall k, (k < c)%Z -> bat t1 k = bat b k).
      { intros k Hk. rewrite At1. replace (c <=? k)%Z with false by (symmetry; apply Z.leb_gt; lia). cbn [andb].
        apply Kt. intros u Hu Hud E. apply Hdone in Hud. assert (X := word_level u lo Hu).
        assert (Y := words_below_mono w Hw (Z.to_nat n) (length u)). unfold c in Hk. lia. }
      set (lv := fun p => bat b (lo + p)%Z). set (rv := fun p => bat rb (ro + p)%Z).
      set (hi := (n - Z.max 1 (v_min rhs))%Z). set (low := Z.max (v_min lhs) (n - v_max rhs)).
      destruct (for_adds R (fun k => k < c)%Z (zdown hi low) t1 (fun lhs_degree b0 =>
          let! lhs_frag := at_level lhs lhs_degree in
          let! rhs_frag := at_level rhs (n - lhs_degree) in
          for_ (zrange (snd lhs_frag)) b0 (fun i b1 =>
          for_ (zrange (snd rhs_frag)) b1 (fun j b2 =>
            let! x := fget b2 lhs_frag i in
            let! y := fget rb rhs_frag j in
            fadd b2 (it_add (v_it lhs) (words_below w (Z.to_nat n)), (w ^ n)%Z) (i * snd rhs_frag + j)%Z (op (x * y)))))
          (fun a k => sum (zrange (w ^ Z.of_nat (Z.to_nat a))) (fun i => sum (zrange (w ^ Z.of_nat (Z.to_nat (n - a)))) (fun j =>
              at_ (c + (i * w ^ Z.of_nat (Z.to_nat (n - a)) + j))%Z k
                (op (lv (words_below w (Z.to_nat a) + i)%Z * rv (words_below w (Z.to_nat (n - a)) + j)%Z)))))) as (t2 & Et2 & Lt2 & At2).
      { intros a t' Ha Hlen' Hfr. apply zdown_In in Ha.
        assert (0 <= a)%Z by (unfold low in Ha; lia). assert (a < n)%Z by (unfold hi in Ha; lia). assert (n - a <= v_max rhs)%Z by (unfold low in Ha; lia).
        rewrite (at_level_ok w Hw lhs lo) by (auto; lia). cbn [bind].
        rewrite (at_level_ok w Hw rhs ro) by (auto; lia). cbn [bind].
        destruct (block_ok R w Hw (fun k => k < c)%Z op (it_add (v_it lhs) (words_below w (Z.to_nat a)), (w ^ a)%Z)
           (it_add (v_it rhs) (words_below w (Z.to_nat (n - a))), (w ^ (n - a))%Z)
           (it_add (v_it lhs) (words_below w (Z.to_nat n)), (w ^ n)%Z) t' rb
           (fun t i => fget t (it_add (v_it lhs) (words_below w (Z.to_nat a)), (w ^ a)%Z) i)
           (Z.to_nat a) (Z.to_nat (n - a)) c (ro + words_below w (Z.to_nat (n - a)))%Z
           (fun i => lv (words_below w (Z.to_nat a) + i)%Z)) as (t3 & E3 & A3).
        - cbn [snd]. f_equal. lia.
        - cbn [snd]. f_equal. lia.
        - intros m. cbn [fst]. destruct (vw_it _ _ _ Hl) as [_ Il]. rewrite Il. unfold c. lia.
        - intros m. cbn [fst]. destruct (vw_it _ _ _ Hr) as [_ Ir]. apply Ir.
        - auto.
        - replace (Z.of_nat (Z.to_nat a + Z.to_nat (n - a))) with n by lia. lia.
        - assert (X := words_below_nonneg w Hw (Z.to_nat (n - a))). destruct Hr; lia.
        - rewrite Z2Nat.id by lia.
          assert (X := level_in w Hw rhs ro rb (n - a) (w ^ (n - a) - 1) Hr Fr).
          assert (Y := Pw (Z.to_nat (n - a))). rewrite Z2Nat.id in Y by lia. lia.
        - intros k Hk. lia.
        - intros t4 i Hl4 Hfr4 Hi. rewrite Z2Nat.id in Hi by lia. unfold fget. cbn [fst].
          destruct (vw_it _ _ _ Hl) as [_ Il]. rewrite Il. rewrite bget_ok.
          2:{ rewrite Hl4, Hlen', Lt1, Lt. apply (level_in w Hw lhs lo b a i); auto. lia. }
          assert (Hlt : (lo + words_below w (Z.to_nat a) + i < c)%Z).
          { assert (X := words_below_lt w Hw (Z.to_nat a) (Z.to_nat n)). rewrite Z2Nat.id in X by lia. unfold c. lia. }
          rewrite Hfr4, Hfr, Below by auto. unfold lv. do 2 f_equal. lia.
        - exists t3. split; [exact E3|]. eapply adds_ext; [exact A3|]. intros k. cbn beta. unfold rv.
          apply sum_ext. intros i _. apply sum_ext. intros j _. do 4 f_equal. lia. }
      { intros a k Ha Hk. apply zdown_In in Ha. apply (ij_miss R w Hw). lia. }
      exists t2. split; [exact Et2|]. split; [congruence|].
      assert (Hc1 : (0 <= low)%Z) by (unfold low; lia). assert (Hc2 : (hi <= n)%Z) by (unfold hi; lia).
      fold (level_contrib R w op lv rv c hi low n) in At2.
      assert (At2' : forall k, bat t2 k = bat t1 k + level_contrib R w op lv rv c hi low n k) by exact At2.
      split.
      - intros u Hu Hin. apply in_app_or in Hin. destruct Hin as [Hin|[Hin|[]]].
        + apply Hdone in Hin. assert (X := word_level u lo Hu).
          assert (Y := words_below_lt w Hw (Z.to_nat n) (length u)). rewrite Z2Nat.id in Y by lia.
          rewrite At2', level_contrib_miss; auto; [|unfold c; lia].
          rewrite At1. replace (lo + pos w u <? c + w ^ n)%Z with false by (symmetry; apply Z.ltb_ge; unfold c; lia).
          rewrite andb_false_r, Vt; [ring|auto|]. apply Hdone. lia.
        + subst n. rewrite At2'. unfold c. rewrite Nat2Z.id. unfold pos at 2. rewrite Z.add_assoc.
          rewrite level_contrib_hit by auto.
          rewrite At1. unfold c. rewrite Nat2Z.id. assert (X := word_level u lo Hu).
          replace (lo + words_below w (length u) <=? lo + pos w u)%Z with true by (symmetry; apply Z.leb_le; lia).
          replace (lo + pos w u <? lo + words_below w (length u) + w ^ Z.of_nat (length u))%Z with true by (symmetry; apply Z.ltb_lt; lia).
          cbn [andb]. rewrite Kt.
          2:{ intros v Hv Hvd E. apply Hdone in Hvd. assert (pos w u = pos w v) by lia. apply pos_len_inj in H; auto. lia. }
          rewrite (pconv_split op lhs rhs (lcoef lo b) (lcoef ro rb) u); [|lia|apply in_rng_true; lia|auto|lia].
          reflexivity.
      - intros k Hk. rewrite At2', level_contrib_miss; auto.
        + rewrite At1. destruct (c <=? k)%Z eqn:Ec1; [destruct (k <? c + w ^ n)%Z eqn:Ec2|]; cbn [andb].
          * apply Z.leb_le in Ec1. apply Z.ltb_lt in Ec2. destruct (level_word lo k n) as (u & Hu & Hun & Ek); [lia|unfold c in *; lia|].
            exfalso. apply (Hk u); auto. apply in_or_app. right. left. auto.
          * rewrite Kt; [ring|]. intros u Hu Hud. apply Hk; auto. apply in_or_app; auto.
          * rewrite Kt; [ring|]. intros u Hu Hud. apply Hk; auto. apply in_or_app; auto.
        + intros Hkc. destruct (level_word lo k n) as (u & Hu & Hun & Ek); [lia|unfold c in *; lia|].
          apply (Hk u); auto. apply in_or_app. right. left. auto. }
    rewrite E1. cbn [bind].
    assert (Bl := pos_in w Hw lhs lo b [] Hl Fl ltac:(constructor) ltac:(cbn; lia)). rewrite P0 in Bl.
    assert (Zero : v_min lhs = 0%Z -> pconv op lhs rhs (lcoef lo b) (lcoef ro rb) [] =
         if (v_min rhs =? 0)%Z then op (lcoef lo b [] * lcoef ro rb []) else 0).
    { intros Em. unfold pconv. cbn [length seq sum firstn skipn Nat.sub]. unfold in_rng. change (Z.of_nat 0) with 0%Z. rewrite Em.
      replace (0 <=? v_max lhs)%Z with true by (symmetry; apply Z.leb_le; lia).
      replace (0 <=? v_max rhs)%Z with true by (symmetry; apply Z.leb_le; lia). rewrite !andb_true_r.
      change (0 <=? 0)%Z with true. cbn [andb].
      replace (v_min rhs <=? 0)%Z with (v_min rhs =? 0)%Z by (apply eq_true_iff_eq; rewrite Z.leb_le, Z.eqb_eq; lia).
      destruct (v_min rhs =? 0)%Z; ring. }
    assert (Cov : forall u : list Z, in_rng lhs (Z.of_nat (length u)) = true -> (1 <= length u)%nat -> In (Z.of_nat (length u)) (zdown (v_max lhs) (Z.max 1 (v_min lhs)))).
    { intros u Hin H1. apply in_rng_true in Hin. apply zdown_In. lia. }
    assert (Cov' : forall u : list Z, In (Z.of_nat (length u)) (zdown (v_max lhs) (Z.max 1 (v_min lhs))) -> in_rng lhs (Z.of_nat (length u)) = true /\ (1 <= length u)%nat).
    { intros u Hin. apply zdown_In in Hin. split; [apply in_rng_true; lia|lia]. }
    assert (Pne : forall u, letters_ok w u -> (1 <= length u)%nat -> pos w u <> 0%Z).
    { intros u Hu Hl1 E. rewrite <- P0 in E. apply (pos_inj w Hw) in E; auto; [subst; cbn in Hl1; lia|constructor]. }
    assert (Old0 : bat b1 (lo + 0)%Z = lcoef lo b []).
    { rewrite K1; [unfold TensorProofs.lcoef; rewrite P0; reflexivity|]. intros u Hu Hud E. apply Cov' in Hud. apply (Pne u); [auto|tauto|lia]. }
    destruct (vw_it _ _ _ Hl) as [Il _].
    assert (Fin : forall z : R, v_min lhs = 0%Z -> z = pconv op lhs rhs (lcoef lo b) (lcoef ro rb) [] ->
      exists b', vset b1 lhs 0%Z z = Ok b' /\ blen b' = blen b /\
      (forall u, letters_ok w u -> in_rng lhs (Z.of_nat (length u)) = true ->
         bat b' (lo + pos w u)%Z = pconv op lhs rhs (lcoef lo b) (lcoef ro rb) u) /\
      (forall k, (forall u, letters_ok w u -> in_rng lhs (Z.of_nat (length u)) = true -> k <> (lo + pos w u)%Z) ->
         bat b' k = bat b k)).
    { intros z Em Ez. unfold vset. rewrite Il, bset_ok by (rewrite L1; auto). eexists. split; [reflexivity|]. cbn [blen bat].
      split; [auto|]. split.
      - intros u Hu Hin. destruct u as [|x u].
        + rewrite P0, Z.eqb_refl. auto.
        + assert (X := Pne (x :: u) Hu ltac:(cbn; lia)).
          replace (lo + pos w (x :: u) =? lo + 0)%Z with false by (symmetry; apply Z.eqb_neq; lia).
          apply V1; auto. apply Cov; auto. cbn; lia.
      - intros k Hk. replace (k =? lo + 0)%Z with false.
        2:{ symmetry. apply Z.eqb_neq. rewrite <- P0. apply Hk; [constructor|]. apply in_rng_true. cbn. lia. }
        apply K1. intros u Hu Hud. apply Hk; auto. apply Cov'; auto. }
    destruct (v_min lhs =? 0)%Z eqn:Em; cbn [andb].
    - apply Z.eqb_eq in Em. destruct (v_min rhs =? 0)%Z eqn:Er.
      + unfold vget at 1. rewrite Il, bget_ok by (rewrite L1; auto). cbn [bind]. rewrite R0. cbn [bind].
        apply Fin; auto. rewrite Zero by auto. rewrite Old0. reflexivity.
      + apply Fin; auto. rewrite Zero by auto. reflexivity.
    - apply Z.eqb_neq in Em. exists b1. split; [reflexivity|]. split; [auto|]. split.
      + intros u Hu Hin. apply V1; auto. apply Cov; auto. apply in_rng_true in Hin. lia.
      + intros k Hk. apply K1. intros u Hu Hud. apply Hk; auto. apply Cov'; auto.
  Qed.
End Inplace.
