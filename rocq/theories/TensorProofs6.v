(** Proofs about the adjoint of left multiplication. *)
From Verif Require Export TensorProofs5 WordSums.

Section Reindex.
  Variable R : cring.
  Add Ring Rring9 : (rth R).
  Local Open Scope cr_scope.
  Lemma sum_reindex {B} (l1 : list Z) (l2 : list B) (h : B -> Z) (f : Z -> R) (g : B -> R) :
    NoDup l1 -> NoDup l2 -> (forall y y', In y l2 -> In y' l2 -> h y = h y' -> y = y') ->
    (forall y, In y l2 -> In (h y) l1 -> f (h y) = g y) ->
    (forall x, In x l1 -> (exists y, In y l2 /\ x = h y) \/ f x = 0) ->
    (forall y, In y l2 -> In (h y) l1 \/ g y = 0) ->
    sum l1 f = sum l2 g.
  Proof.
    intros N1 N2 Hinj Hfg H1 H2.
    transitivity (sum l1 (fun x => sum l2 (fun y => if (x =? h y)%Z then g y else 0))).
    - apply sum_ext. intros x Hx. destruct (H1 x Hx) as [(y & Hy & ->)|H0].
      + rewrite (sum_single R l2 _ y); auto.
        * rewrite Z.eqb_refl. apply Hfg; auto.
        * intros z Hz Hne. destruct (h y =? h z)%Z eqn:E; [|reflexivity]. apply Z.eqb_eq in E. exfalso. apply Hne. symmetry. apply Hinj; auto.
      + rewrite H0. symmetry. apply sum_zero. intros y Hy. destruct (x =? h y)%Z eqn:E; [|reflexivity]. apply Z.eqb_eq in E. subst x.
        rewrite <- Hfg by auto. auto.
    - rewrite sum_swap. apply sum_ext. intros y Hy. destruct (H2 y Hy) as [Hin|H0].
      + rewrite (sum_single R l1 _ (h y)); auto.
        * rewrite Z.eqb_refl. reflexivity.
        * intros x Hx Hne. destruct (x =? h y)%Z eqn:E; [apply Z.eqb_eq in E; congruence|reflexivity].
      + rewrite H0. apply sum_zero. intros x _. destruct (x =? h y)%Z; reflexivity.
  Qed.
End Reindex.

Section Adjoint.
  Variable R : cring.
  Add Ring Rring10 : (rth R).
  Notation buf := (buf R).
  Local Open Scope cr_scope.
  Variable w : Z.
  Hypothesis Hw : (0 < w)%Z.

  (** Degrees of the argument the kernel visits. *)
  Definition adj_amax (out op arg : view) : Z := Z.min (v_max arg - v_min op) (v_max out).
  Definition adj_amin (out op arg : view) : Z := Z.max (v_min arg - v_max op) (v_min out).
  Definition adj_term (out op arg : view) (p a : list Z -> R) (v : list Z) : R :=
    sum (seq O (S (Z.to_nat (v_max op)))) (fun m =>
      if in_rng op (Z.of_nat m) && ((adj_amin out op arg <=? Z.of_nat (length v + m)) && (Z.of_nat (length v + m) <=? adj_amax out op arg))%Z
      then sum (words w m) (fun u => p u * a (u ++ v)) else 0).

  Theorem ft_adj_lmul_ok out op arg oo po ao (ob pb ab : buf) :
    vwf w out oo -> vwf w op po -> vwf w arg ao -> fits w out oo ob -> fits w op po pb -> fits w arg ao ab ->
    exists ob', ft_adj_lmul out op arg ob pb ab = Ok ob' /\ blen ob' = blen ob /\
      (forall v, letters_ok w v -> in_rng out (Z.of_nat (length v)) = true ->
         bat ob' (oo + pos w v)%Z = bat ob (oo + pos w v)%Z +
           adj_term out op arg (fun u => bat pb (po + pos w u)%Z) (fun u => bat ab (ao + pos w u)%Z) v) /\
      (forall k, (forall v, letters_ok w v -> in_rng out (Z.of_nat (length v)) = true -> k <> (oo + pos w v)%Z) ->
         bat ob' k = bat ob k).
  Proof.
    intros Ho Hp Ha Fo Fp Fa. unfold ft_adj_lmul.
    change (Z.min (v_max arg - v_min op) (v_max out)) with (adj_amax out op arg).
    change (Z.max (v_min arg - v_max op) (v_min out)) with (adj_amin out op arg).
    set (amax := adj_amax out op arg). set (amin := adj_amin out op arg).
    set (omin := fun ad => Z.max (ad - v_max op) (v_min out)). set (omax := fun ad => Z.min (ad - v_min op) (v_max out)).
    assert (Hm0 : (0 <= v_min out)%Z) by apply Ho. assert (Hm1 : (0 <= v_min op)%Z) by apply Hp.
    set (T := fun ad od k => sum (zrange (w ^ (ad - od))%Z) (fun oi => sum (zrange (w ^ od)%Z) (fun i =>
      at_ (oo + words_below w (Z.to_nat od) + i)%Z k
        (bat pb (po + words_below w (Z.to_nat (ad - od)) + oi)%Z * bat ab (ao + words_below w (Z.to_nat ad) + (i + oi * w ^ od))%Z)))).
    match goal with |- context [for_ ?l ob ?f] => destruct (for_adds R (fun _ => False) l ob f
      (fun ad k => sum (zdown (omax ad) (omin ad)) (fun od => T ad od k))) as (b1 & E1 & L1 & A1) end.
    - intros ad t Hd Hlen _. apply zdown_In in Hd.
      assert (0 <= ad <= v_max arg)%Z by (unfold amin, amax, adj_amin, adj_amax in Hd; lia).
      rewrite (at_level_ok w Hw arg ao) by auto. cbn [bind].
      apply (for_adds R (fun _ => False)).
      + intros od t1 Hod Hlen1 _. apply zdown_In in Hod. unfold omin, omax in Hod.
        rewrite (at_level_ok w Hw op po) by (auto; lia). cbn [bind].
        rewrite (at_level_ok w Hw out oo) by (auto; lia). cbn [bind snd].
        apply (for_adds R (fun _ => False)).
        * intros oi t2 Hoi Hlen2 _. apply zrange_In in Hoi. unfold fget at 1. cbn [fst].
          destruct (vw_it _ _ _ Hp) as [_ Ip]. rewrite Ip, bget_ok by (apply (level_in w Hw op po pb (ad - od) oi); auto; lia). cbn [bind].
          apply (for_adds R (fun _ => False)).
          -- intros i t3 Hi Hlen3 _. apply zrange_In in Hi. unfold fget at 1. cbn [fst].
             destruct (vw_it _ _ _ Ha) as [_ Ia]. rewrite Ia, bget_ok.
             2:{ apply (level_in w Hw arg ao ab ad (i + oi * w ^ od)); auto.
                 assert (Ew : (w ^ ad = w ^ (ad - od) * w ^ od)%Z) by (rewrite <- Z.pow_add_r by lia; f_equal; lia).
                 rewrite Ew. nia. }
             cbn [bind]. unfold fadd, fget, fset. cbn [fst]. destruct (vw_it _ _ _ Ho) as [_ Io]. rewrite Io.
             apply (badd_ok R t3). rewrite Hlen3, Hlen2, Hlen1, Hlen. apply (level_in w Hw out oo ob od i); auto. lia.
          -- intros ? ? ? [].
        * intros ? ? ? [].
      + intros ? ? ? [].
    - intros ? ? ? [].
    - exists b1. split; [exact E1|]. split; [auto|].
      assert (Hit : forall v ad od, letters_ok w v -> (0 <= od)%Z -> T ad od (oo + pos w v)%Z =
         if (od =? Z.of_nat (length v))%Z then sum (zrange (w ^ (ad - od))%Z) (fun oi =>
            bat pb (po + words_below w (Z.to_nat (ad - od)) + oi)%Z * bat ab (ao + words_below w (Z.to_nat ad) + (idx w v + oi * w ^ od))%Z) else 0).
      { intros v ad od Hv Hod. assert (B := idx_bound w Hw v Hv). unfold T. destruct (od =? Z.of_nat (length v))%Z eqn:E.
        - apply Z.eqb_eq in E. apply sum_ext. intros oi _. rewrite (sum_single R (zrange (w ^ od)%Z) _ (idx w v)).
          + unfold pos. rewrite E, Nat2Z.id, Z.add_assoc, at_same. reflexivity.
          + apply zrange_NoDup.
          + apply zrange_In. rewrite E. auto.
          + intros i Hi Hne. apply at_diff. unfold pos. rewrite E, Nat2Z.id. lia.
        - apply Z.eqb_neq in E. apply sum_zero. intros oi _. apply sum_zero. intros i Hi. apply at_diff. apply zrange_In in Hi.
          unfold pos. intros Ep.
          destruct (level_unique w Hw (Z.to_nat od) (length v) i (idx w v)); [rewrite Z2Nat.id; lia|auto|lia|]. lia. }
      split.
      + intros v Hv Hin. rewrite A1. f_equal. apply in_rng_true in Hin. unfold adj_term. fold amin amax.
        apply (sum_reindex R _ _ (fun m => Z.of_nat (length v + m))).
        * apply zdown_NoDup.
        * apply seq_NoDup.
        * intros; lia.
        * intros m Hm Hin1. apply in_seq in Hm. apply zdown_In in Hin1.
          replace ((amin <=? Z.of_nat (length v + m)) && (Z.of_nat (length v + m) <=? amax))%Z with true.
          2:{ symmetry. apply andb_true_iff. rewrite !Z.leb_le. lia. }
          rewrite andb_true_r.
          destruct (in_rng op (Z.of_nat m)) eqn:Er.
          -- apply in_rng_true in Er.
             rewrite (sum_single R (zdown _ _) _ (Z.of_nat (length v))).
             ++ rewrite Hit by (auto; lia). rewrite Z.eqb_refl.
                replace (Z.of_nat (length v + m) - Z.of_nat (length v))%Z with (Z.of_nat m) by lia. rewrite !Nat2Z.id.
                rewrite (sum_words_idx R w m) by auto. apply sum_ext. intros u Hu. apply words_In in Hu. destruct Hu as [Hu Hl].
                unfold pos. rewrite app_length, idx_app, Hl by auto. rewrite (Nat.add_comm m). f_equal; f_equal; lia.
             ++ apply zdown_NoDup.
             ++ apply zdown_In. unfold omin, omax. lia.
             ++ intros od Hod Hne. apply zdown_In in Hod. unfold omin in Hod. rewrite Hit by (auto; lia).
                destruct (od =? Z.of_nat (length v))%Z eqn:E; [apply Z.eqb_eq in E; congruence|reflexivity].
          -- apply in_rng_false in Er. apply sum_zero. intros od Hod. apply zdown_In in Hod. unfold omin, omax in Hod. rewrite Hit by (auto; lia).
             destruct (od =? Z.of_nat (length v))%Z eqn:E; [apply Z.eqb_eq in E; lia|reflexivity].
        * intros ad Had. destruct (Z_le_gt_dec (Z.of_nat (length v)) ad) as [Hle|Hgt];
            [destruct (Z_le_gt_dec (ad - Z.of_nat (length v)) (v_max op)) as [Hle2|Hgt2]|].
          -- left. exists (Z.to_nat (ad - Z.of_nat (length v))). split; [apply in_seq; lia|lia].
          -- right. apply sum_zero. intros od Hod. apply zdown_In in Hod. unfold omin, omax in Hod. rewrite Hit by (auto; lia).
             destruct (od =? Z.of_nat (length v))%Z eqn:E; [apply Z.eqb_eq in E; lia|reflexivity].
          -- right. apply sum_zero. intros od Hod. apply zdown_In in Hod. unfold omin, omax in Hod. rewrite Hit by (auto; lia).
             destruct (od =? Z.of_nat (length v))%Z eqn:E; [apply Z.eqb_eq in E; lia|reflexivity].
        * intros m Hm. destruct ((amin <=? Z.of_nat (length v + m)) && (Z.of_nat (length v + m) <=? amax))%Z eqn:E.
          -- left. apply andb_true_iff in E. rewrite !Z.leb_le in E. apply zdown_In. lia.
          -- right. rewrite andb_false_r. reflexivity.
      + intros k Hk. rewrite A1. rewrite (sum_zero R (zdown amax amin)); [ring|].
        intros ad Had. apply sum_zero. intros od Hod. apply zdown_In in Hod. unfold omin, omax in Hod.
        unfold T. apply sum_zero. intros oi _. apply sum_zero. intros i Hi. apply zrange_In in Hi. apply at_diff.
        assert (Hi' : (0 <= i < w ^ Z.of_nat (Z.to_nat od))%Z) by (rewrite Z2Nat.id; lia).
        intros Ek. apply (Hk (unidx w (Z.to_nat od) i)).
        * apply unidx_ok; auto.
        * rewrite unidx_length. apply in_rng_true. lia.
        * unfold pos. rewrite unidx_length, idx_unidx by auto. lia.
  Qed.

  (** With all minimum degrees zero, and the argument no deeper than the output, the kernel
      adds the adjoint of left multiplication. *)
  Lemma adj_term_adjl out op arg po ao (pb ab : buf) v :
    v_min out = 0%Z -> v_min op = 0%Z -> v_min arg = 0%Z -> (0 <= v_max op)%Z -> (0 <= v_max arg <= v_max out)%Z -> (Z.of_nat (length v) <= v_max arg)%Z ->
    adj_term out op arg (fun u => bat pb (po + pos w u)%Z) (fun u => bat ab (ao + pos w u)%Z) v
    = adjl w (Z.to_nat (v_max arg)) (den w op po pb) (den w arg ao ab) v.
  Proof.
    intros H1 H2 H3 Hop Harg Hv. unfold adj_term, adjl, adj_amin, adj_amax. rewrite H1, H2, H3.
    set (N := Z.to_nat (v_max arg)). set (P := Z.to_nat (v_max op)).
    set (f := fun m => if in_rng op (Z.of_nat m) && (Z.of_nat (length v + m) <=? v_max arg)%Z
      then sum (words w m) (fun u => bat pb (po + pos w u)%Z * bat ab (ao + pos w (u ++ v))%Z) else 0).
    transitivity (sum (seq O (S (Nat.max P N))) f).
    - rewrite (sum_seq_extend R (S P) (S (Nat.max P N))); [|lia|].
      2:{ intros m Hm. unfold f. replace (in_rng op (Z.of_nat m)) with false; [reflexivity|]. symmetry. apply in_rng_false. lia. }
      apply sum_ext. intros m Hm. unfold f.
      replace ((Z.max (0 - v_max op) 0 <=? Z.of_nat (length v + m)) && (Z.of_nat (length v + m) <=? Z.min (v_max arg - 0) (v_max out)))%Z
        with (Z.of_nat (length v + m) <=? v_max arg)%Z; [reflexivity|].
      apply eq_true_iff_eq. rewrite andb_true_iff, !Z.leb_le. lia.
    - rewrite (sum_seq_extend R (S (N - length v)) (S (Nat.max P N))).
      + apply sum_ext. intros m Hm. apply in_seq in Hm. unfold f.
        replace (Z.of_nat (length v + m) <=? v_max arg)%Z with true by (symmetry; apply Z.leb_le; lia). rewrite andb_true_r.
        destruct (in_rng op (Z.of_nat m)) eqn:Er.
        * apply sum_ext. intros u Hu. apply words_In in Hu. destruct Hu as [Hu Hl]. unfold den. rewrite app_length, Hl, Er.
          replace (in_rng arg (Z.of_nat (m + length v))) with true; [reflexivity|]. symmetry. apply in_rng_true. lia.
        * symmetry. apply sum_zero. intros u Hu. apply words_In in Hu. destruct Hu as [Hu Hl]. unfold den. rewrite Hl, Er. ring.
      + lia.
      + intros m Hm. unfold f. replace (Z.of_nat (length v + m) <=? v_max arg)%Z with false by (symmetry; apply Z.leb_gt; lia).
        rewrite andb_false_r. reflexivity.
  Qed.
End Adjoint.
