(** Proofs about the shuffle product kernels. *)
From Verif Require Export TensorProofs6 Shuffle.

Section Letters.
  Variable w : Z.
  Hypothesis Hw : 0 < w.
  Lemma unpack_ok u : letters_ok w u -> unpack_index_to_letters (length u) (idx w u) w = rev u.
  Proof.
    induction u as [|x u IH] using rev_ind; intros Hu; [reflexivity|].
    apply letters_ok_app in Hu. destruct Hu as [Hu Hx]. inversion Hx as [|? ? Hx1 _]; subst.
    rewrite app_length. cbn [length]. rewrite Nat.add_1_r. cbn [unpack_index_to_letters].
    rewrite idx_snoc by auto. assert (B := idx_bound w Hw u Hu).
    assert (Eq : Z.quot (idx w u * w + x) w = idx w u).
    { rewrite Z.quot_div_nonneg by lia. rewrite Z.div_add_l by lia. rewrite Z.div_small; lia. }
    assert (Er : Z.rem (idx w u * w + x) w = x).
    { rewrite Z.rem_mod_nonneg by lia. rewrite Z.add_comm, Z.mod_add by lia. apply Z.mod_small; lia. }
    rewrite Eq, Er, IH by auto. rewrite rev_app_distr. reflexivity.
  Qed.
  Lemma to_i16_id x : -32768 <= x < 32768 -> to_i16 x = x.
  Proof. intros H. unfold to_i16. rewrite Z.mod_small by lia. lia. Qed.
  Lemma unpack16_ok cap u : letters_ok w u -> w <= 32768 -> Z.of_nat (length u) <= cap ->
    unpack16 cap (Z.of_nat (length u)) (idx w u) w = Ok (rev u).
  Proof.
    intros Hu H16 Hc. unfold unpack16. replace (Z.of_nat (length u) <=? cap) with true by (symmetry; apply Z.leb_le; auto).
    rewrite Nat2Z.id, unpack_ok by auto. f_equal.
    assert (H : letters_ok w (rev u)) by (apply letters_ok_rev; auto).
    induction H as [|x l Hx Hl IH]; cbn [map]; [reflexivity|]. rewrite IH, to_i16_id by lia. reflexivity.
  Qed.
  (** Splitting a word by a bit mask: position i counts from the right. *)
  Fixpoint msplit (mask : Z) (u : list Z) : list Z * list Z :=
    match u with
    | [] => ([], [])
    | x :: u' => let p := msplit mask u' in
        if mask_bit mask (Z.of_nat (length u')) then (x :: fst p, snd p) else (fst p, x :: snd p)
    end.
  Lemma quad (a b c d a' b' c' d' : Z) : a = a' -> b = b' -> c = c' -> d = d' -> (a, b, c, d) = (a', b', c', d').
  Proof. congruence. Qed.
  Lemma pack_ok mask u : forall p ld li rd ri,
    pack_masked_index (rev (p ++ u)) w mask (length u) (ld, li, rd, ri) =
    let (a, b) := msplit mask u in
    (ld + Z.of_nat (length a), li * w ^ Z.of_nat (length a) + idx w a,
     rd + Z.of_nat (length b), ri * w ^ Z.of_nat (length b) + idx w b).
  Proof.
    induction u as [|x u IH]; intros p ld li rd ri.
    - cbn [length pack_masked_index msplit idx]. change (Z.of_nat 0) with 0. rewrite Z.pow_0_r. apply quad; lia.
    - cbn [length pack_masked_index msplit].
      assert (En : nth (length u) (rev (p ++ x :: u)) 0 = x).
      { rewrite rev_app_distr. cbn [rev]. rewrite <- app_assoc. rewrite app_nth2 by (rewrite rev_length; lia).
        rewrite rev_length, Nat.sub_diag. reflexivity. }
      assert (Ea : p ++ x :: u = (p ++ [x]) ++ u) by (rewrite <- app_assoc; reflexivity).
      destruct (mask_bit mask (Z.of_nat (length u))).
      + rewrite En, Ea, IH. destruct (msplit mask u) as [a b]. cbn [fst snd length idx]. rewrite pow_S by auto. apply quad; first [lia | ring].
      + rewrite En, Ea, IH. destruct (msplit mask u) as [a b]. cbn [fst snd length idx]. rewrite pow_S by auto. apply quad; first [lia | ring].
  Qed.
  Lemma pack0 mask u a b : msplit mask u = (a, b) -> pack_masked_index (rev u) w mask (length u) (0, 0, 0, 0) =
    (Z.of_nat (length a), idx w a, Z.of_nat (length b), idx w b).
  Proof. intros E. assert (H := pack_ok mask u [] 0 0 0 0). rewrite E in H. cbn [app] in H. rewrite H. apply quad; lia. Qed.
  Lemma msplit_length mask u : (length (fst (msplit mask u)) + length (snd (msplit mask u)))%nat = length u.
  Proof. induction u as [|x u IH]; [reflexivity|]. cbn [msplit]. destruct (mask_bit _ _); cbn [fst snd length]; lia. Qed.
  Lemma msplit_ok mask u : letters_ok w u -> letters_ok w (fst (msplit mask u)) /\ letters_ok w (snd (msplit mask u)).
  Proof.
    induction u as [|x u IH]; intros H; [split; constructor|]. inversion H as [|? ? Hx Hu]; subst. destruct (IH Hu). cbn [msplit].
    destruct (mask_bit _ _); cbn [fst snd]; split; auto; constructor; auto.
  Qed.
  Lemma msplit_high mask n u : (length u <= n)%nat -> 0 <= mask < 2 ^ Z.of_nat n -> msplit (2 ^ Z.of_nat n + mask) u = msplit mask u.
  Proof.
    intros Hl Hm. induction u as [|x u IH]; [reflexivity|]. cbn [length] in Hl. cbn [msplit]. rewrite IH by lia.
    replace (mask_bit (2 ^ Z.of_nat n + mask) (Z.of_nat (length u))) with (mask_bit mask (Z.of_nat (length u))); [reflexivity|].
    unfold mask_bit. replace (2 ^ Z.of_nat n) with (2 ^ (Z.of_nat n - Z.of_nat (length u)) * 2 ^ Z.of_nat (length u)).
    2:{ rewrite <- Z.pow_add_r by lia. f_equal. lia. }
    rewrite !Z.testbit_odd, !Z.shiftr_div_pow2 by lia.
    rewrite Z.add_comm, Z.div_add by (apply Z.pow_nonzero; lia). rewrite Z.odd_add, Z.odd_pow by lia. cbn. symmetry. apply xorb_false_r.
  Qed.
End Letters.

Section SumMask.
  Variable R : cring.
  Add Ring Rring11 : (rth R).
  Local Open Scope cr_scope.
  (** Running over all masks runs over all ways to split the word. *)
  Lemma sum_masks u (F : list Z * list Z -> R) :
    sum (zrange (2 ^ Z.of_nat (length u))%Z) (fun m => F (msplit m u)) = sum (splits u) F.
  Proof.
    revert F. induction u as [|x u IH]; intros F.
    - change (zrange (2 ^ Z.of_nat (length (@nil Z))))%Z with [0%Z]. cbn [sum msplit splits]. ring.
    - cbn [length splits]. set (n := length u).
      assert (P : (0 < 2 ^ Z.of_nat n)%Z) by (apply Z.pow_pos_nonneg; lia).
      unfold zrange. replace (Z.to_nat (2 ^ Z.of_nat (S n))) with (Z.to_nat (2 ^ Z.of_nat n) + Z.to_nat (2 ^ Z.of_nat n))%nat.
      2:{ rewrite Nat2Z.inj_succ, Z.pow_succ_r by lia. lia. }
      rewrite zseq_app, !sum_app, !sum_map. rewrite <- !IH. fold n.
      rewrite (sum_ext R (zseq 0 (Z.to_nat (2 ^ Z.of_nat n))) (fun m => F (msplit m (x :: u))) (fun m => F (fst (msplit m u), x :: snd (msplit m u)))).
      2:{ intros m Hm. apply zseq_In in Hm. cbn [msplit]. fold n.
          replace (mask_bit m (Z.of_nat n)) with false; [reflexivity|]. unfold mask_bit. symmetry.
          rewrite Z.testbit_odd, Z.shiftr_div_pow2 by lia. rewrite Z.div_small by lia. reflexivity. }
      replace (sum (zseq (0 + Z.of_nat (Z.to_nat (2 ^ Z.of_nat n))) (Z.to_nat (2 ^ Z.of_nat n))) (fun m => F (msplit m (x :: u))))
        with (sum (zseq 0 (Z.to_nat (2 ^ Z.of_nat n))) (fun m => F (x :: fst (msplit m u), snd (msplit m u)))).
      { unfold zrange. ring. }
      assert (Sh : forall a k (f : Z -> R), sum (zseq a k) f = sum (zseq 0 k) (fun m => f (a + m)%Z)).
      { intros a k f. revert a f. induction k as [|k IHk]; intros a f; cbn [zseq sum]; [reflexivity|].
        rewrite (IHk (a + 1)%Z), (IHk (0 + 1)%Z). f_equal; [f_equal; lia|]. apply sum_ext. intros; f_equal; lia. }
      rewrite (Sh (0 + _)%Z). apply sum_ext. intros m Hm. apply zseq_In in Hm.
      replace (0 + Z.of_nat (Z.to_nat (2 ^ Z.of_nat n)) + m)%Z with (2 ^ Z.of_nat n + m)%Z by lia.
      cbn [msplit]. fold n. replace (mask_bit (2 ^ Z.of_nat n + m) (Z.of_nat n)) with true.
      + rewrite msplit_high by (auto; lia). reflexivity.
      + unfold mask_bit. symmetry. rewrite Z.testbit_odd, Z.shiftr_div_pow2 by lia.
        replace (2 ^ Z.of_nat n + m)%Z with (1 * 2 ^ Z.of_nat n + m)%Z by lia. rewrite Z.div_add_l, Z.div_small by lia. reflexivity.
  Qed.
  Lemma for_acc {A} (l : list A) (s : R) (f : A -> R -> outcome R) g :
    (forall x t, In x l -> f x t = Ok (t + g x)) -> for_ l s f = Ok (s + sum l g).
  Proof.
    revert s. induction l as [|x l IH]; intros s H; cbn [for_ sum].
    - f_equal. ring.
    - rewrite H by (left; auto). cbn [bind]. rewrite IH by (intros; apply H; right; auto). f_equal. ring.
  Qed.
End SumMask.

Section St.
  Variable R : cring.
  Add Ring Rring12 : (rth R).
  Notation buf := (buf R).
  Local Open Scope cr_scope.
  Variable w : Z.
  Hypothesis Hw : (0 < w)%Z.
  Hypothesis H16 : (w <= 32768)%Z.

  Lemma letters_cap_ge m n : (n <= m)%Z -> (n <= letters_cap m)%Z.
  Proof. intros H. unfold letters_cap. destruct (m <=? 32)%Z eqn:E; [apply Z.leb_le in E; lia|auto]. Qed.
  Lemma mask_all_ok n : (0 <= n < 64)%Z -> mask_all n = Ok (2 ^ n - 1)%Z.
  Proof. intros H. unfold mask_all. destruct (Z.leb_spec 0 n); [|lia]. destruct (Z.ltb_spec n 64); [|lia]. reflexivity. Qed.

  Lemma level_words n i : (0 <= n)%Z -> (0 <= i < w ^ n)%Z -> exists u, letters_ok w u /\ Z.of_nat (length u) = n /\ i = idx w u.
  Proof.
    intros Hn Hi. exists (unidx w (Z.to_nat n) i). assert (0 <= i < w ^ Z.of_nat (Z.to_nat n))%Z by (rewrite Z2Nat.id; lia).
    split; [apply unidx_ok; auto|]. rewrite unidx_length. split; [lia|]. rewrite idx_unidx; auto.
  Qed.
  Lemma lev_get v off (b : buf) u : vwf w v off -> fits w v off b -> letters_ok w u -> (Z.of_nat (length u) <= v_max v)%Z ->
    exists fr, at_level v (Z.of_nat (length u)) = Ok fr /\ fget b fr (idx w u) = Ok (bat b (off + pos w u)%Z) /\
      (forall t : buf, forall x, fadd t fr (idx w u) x = badd t (off + pos w u)%Z x).
  Proof.
    intros Hv Hf Hu Hl. eexists. split; [apply (at_level_ok w Hw v off); auto; lia|]. unfold fget. cbn [fst].
    destruct (vw_it _ _ _ Hv) as [_ I]. rewrite I, Nat2Z.id. unfold pos. split.
    - rewrite bget_ok; [do 2 f_equal; lia|]. assert (X := pos_in w Hw v off b u Hv Hf Hu Hl). unfold pos in X. lia.
    - intros t x. unfold fadd, fget, fset, badd. cbn [fst]. rewrite I, Z.add_assoc. reflexivity.
  Qed.

  Lemma pos0_in v off (b : buf) : vwf w v off -> fits w v off b -> (0 <= off + 0 < blen b)%Z.
  Proof. intros Hv Hf. apply (pos_in w Hw v off b [] Hv Hf); [constructor|]. cbn [length]. assert (0 <= v_max v)%Z by apply Hv. lia. Qed.
  Theorem st_fma_ok out lhs rhs oo lo ro (ob lb rb : buf) (op : R -> R) :
    vwf w out oo -> vwf w lhs lo -> vwf w rhs ro -> fits w out oo ob -> fits w lhs lo lb -> fits w rhs ro rb ->
    (v_max lhs <= v_max out)%Z -> (v_max lhs <= v_max rhs)%Z -> (v_max lhs < 64)%Z ->
    exists ob', st_fma out lhs rhs ob lb rb op = Ok ob' /\ blen ob' = blen ob /\
      (forall u, letters_ok w u -> (Z.of_nat (length u) <= v_max lhs)%Z ->
         bat ob' (oo + pos w u)%Z = bat ob (oo + pos w u)%Z + op (shuf (lcoef R w lo lb) (lcoef R w ro rb) u)) /\
      (forall k, (forall u, letters_ok w u -> (Z.of_nat (length u) <= v_max lhs)%Z -> k <> (oo + pos w u)%Z) -> bat ob' k = bat ob k).
  Proof.
    intros Ho Hl Hr Fo Fl Fr M1 M2 M3. unfold st_fma.
    assert (EW : b_width (v_basis out) = w) by (destruct (vw_basis _ _ _ Ho) as (D & -> & _); reflexivity). rewrite EW.
    set (l := lcoef R w lo lb). set (r := lcoef R w ro rb).
    assert (Hml : (0 <= v_max lhs)%Z) by apply Hl.
    unfold vget at 1 2, vadd. unfold vget, vset.
    destruct (vw_it _ _ _ Ho) as [Io _], (vw_it _ _ _ Hl) as [Il _], (vw_it _ _ _ Hr) as [Ir _]. rewrite Io, Il, Ir.
    rewrite bget_ok by (apply (pos0_in lhs lo lb); auto). cbn [bind].
    rewrite bget_ok by (apply (pos0_in rhs ro rb); auto). cbn [bind].
    destruct (badd_ok R ob (oo + 0)%Z (op (bat lb (lo + 0)%Z * bat rb (ro + 0)%Z))) as (b0 & E0 & L0 & A0).
    { apply (pos0_in out oo ob); auto. }
    unfold badd in E0. rewrite E0. cbn [bind].
    set (val := fun n i => op (shuf l r (unidx w (Z.to_nat n) i))).
    match goal with |- context [for_ ?ll b0 ?f] => destruct (for_adds R (fun _ => False) ll b0 f
      (fun n k => sum (zrange (w ^ n)%Z) (fun i => at_ (oo + words_below w (Z.to_nat n) + i)%Z k (val n i)))) as (b1 & E1 & L1 & A1) end.
    - intros n t Hn Hlen _. apply zseq_In in Hn.
      rewrite (at_level_ok w Hw out oo) by (auto; lia). cbn [bind].
      apply (for_adds R (fun _ => False)).
      + intros i t1 Hi Hlen1 _. apply zrange_In in Hi. destruct (level_words n i) as (u & Hu & Hun & ->); [lia|auto|].
        rewrite <- Hun. rewrite unpack16_ok by (auto; apply letters_cap_ge; lia). cbn [bind].
        rewrite mask_all_ok by lia. cbn [bind]. rewrite Z.sub_add. rewrite Nat2Z.id.
        rewrite (for_acc R (zrange (2 ^ Z.of_nat (length u))) 0 _ (fun m => l (fst (msplit m u)) * r (snd (msplit m u)))).
        2:{ intros m acc _. destruct (msplit_ok w m u Hu) as [Oa Ob]. assert (Hml' := msplit_length m u).
            rewrite (pack0 w Hw m u (fst (msplit m u)) (snd (msplit m u))) by apply surjective_pairing.
            destruct (lev_get lhs lo lb (fst (msplit m u))) as (f1 & Ef1 & G1 & _); auto; [lia|].
            destruct (lev_get rhs ro rb (snd (msplit m u))) as (f2 & Ef2 & G2 & _); auto; [lia|].
            rewrite Ef1. cbn [bind]. rewrite Ef2. cbn [bind]. rewrite G1. cbn [bind]. rewrite G2. cbn [bind]. reflexivity. }
        cbn [bind]. unfold fadd, fget, fset. cbn [fst]. destruct (vw_it _ _ _ Ho) as [_ Io2]. rewrite Io2.
        destruct (badd_ok R t1 (oo + words_below w (length u) + idx w u)%Z (val (Z.of_nat (length u)) (idx w u))) as (t2 & E2 & A2).
        { rewrite Hlen1, Hlen, L0. assert (X := pos_in w Hw out oo ob u Ho Fo Hu ltac:(lia)). unfold pos in X. lia. }
        exists t2. split; [|exact A2]. unfold badd in E2. rewrite <- E2. unfold val. rewrite Nat2Z.id, unidx_idx by auto.
        rewrite (sum_masks R u (fun p => l (fst p) * r (snd p))). unfold shuf.
        replace (0 + sum (splits u) (fun p => l (fst p) * r (snd p))) with (sum (splits u) (fun p => l (fst p) * r (snd p))) by ring. reflexivity.
      + intros ? ? ? [].
    - intros ? ? ? [].
    - exists b1. split; [exact E1|]. split; [congruence|]. split.
      + intros u Hu Hlu. rewrite A1, A0. destruct u as [|x u].
        * change (pos w []) with 0%Z. rewrite at_same, shuf_nil. unfold l, r, lcoef. change (pos w []) with 0%Z.
          rewrite (sum_zero R (zseq 1 _)); [ring|]. intros n Hn. apply zseq_In in Hn. apply sum_zero. intros i Hi. apply zrange_In in Hi.
          apply at_diff. assert (X := words_below_lt w Hw 0 (Z.to_nat n) ltac:(lia)). change (words_below w 0) with 0%Z in X. change (Z.of_nat 0) with 0%Z in X. rewrite Z.pow_0_r in X. lia.
        * set (v := x :: u) in *. rewrite at_diff.
          2:{ assert (X := words_below_lt w Hw 0 (length v) ltac:(cbn; lia)). change (words_below w 0) with 0%Z in X. change (Z.of_nat 0) with 0%Z in X. rewrite Z.pow_0_r in X.
              assert (Y := idx_bound w Hw v Hu). unfold pos. lia. }
          rewrite (sum_single R (zseq 1 _) _ (Z.of_nat (length v))).
          -- rewrite (sum_single R (zrange _) _ (idx w v)).
             ++ rewrite Nat2Z.id. unfold pos. rewrite Z.add_assoc, at_same. unfold val. rewrite Nat2Z.id, unidx_idx by auto. ring.
             ++ apply zrange_NoDup.
             ++ apply zrange_In. apply idx_bound; auto.
             ++ intros i Hi Hne. apply at_diff. rewrite Nat2Z.id. unfold pos. lia.
          -- apply zseq_NoDup.
          -- apply zseq_In. cbn [v length] in *. lia.
          -- intros n Hn Hne. apply zseq_In in Hn. apply sum_zero. intros i Hi. apply zrange_In in Hi. apply at_diff. unfold pos. intros Ep.
             destruct (level_unique w Hw (Z.to_nat n) (length v) i (idx w v)); [rewrite Z2Nat.id; lia|apply idx_bound; auto|lia|]. lia.
      + intros k Hk. rewrite A1, A0. rewrite at_diff by (apply (Hk []); [constructor|cbn; lia]).
        rewrite (sum_zero R (zseq 1 _)); [ring|]. intros n Hn. apply zseq_In in Hn. apply sum_zero. intros i Hi. apply zrange_In in Hi. apply at_diff.
        destruct (level_words n i) as (u & Hu & Hun & ->); [lia|auto|]. rewrite <- Hun, Nat2Z.id, <- Z.add_assoc. apply Hk; auto. lia.
  Qed.
End St.
