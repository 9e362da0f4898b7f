(** Proofs about fused multiply-exponential and the antipode. *)
From Verif Require Export TensorProofs4.

Section Fmexp.
  Variable R : qalg.
  Add Ring Rring7 : (rth (qr R)).
  Notation buf := (buf (qr R)).
  Local Open Scope cr_scope.
  Variable w : Z.
  Hypothesis Hw : (0 < w)%Z.

  Lemma in_size (v : view) u : letters_ok w u -> v_min v = 0%Z -> (0 <= v_max v)%Z ->
    (pos w u <? vsize w v)%Z = (Z.of_nat (length u) <=? v_max v)%Z.
  Proof.
    intros Hu Hm Hx. rewrite vsize_min0 by auto. apply eq_true_iff_eq. rewrite Z.ltb_lt, Z.leb_le. split; intros H.
    - destruct (Z_le_gt_dec (Z.of_nat (length u)) (v_max v)); [auto|]. exfalso.
      assert (X := words_below_mono w Hw (Z.to_nat (v_max v + 1)) (length u) ltac:(lia)). assert (Y := idx_bound w Hw u Hu). unfold pos in H. lia.
    - assert (X := pos_bound w Hw u (Z.to_nat (v_max v)) Hu ltac:(lia)).
      replace (S (Z.to_nat (v_max v))) with (Z.to_nat (v_max v + 1)) in X by lia. lia.
  Qed.
  Lemma pos_nonneg u : letters_ok w u -> (0 <= pos w u)%Z.
  Proof. intros Hu. assert (X := words_below_nonneg w Hw (length u)). assert (Y := idx_bound w Hw u Hu). unfold pos. lia. Qed.
  Lemma in_size_exists (v : view) k off : v_min v = 0%Z -> (0 <= v_max v)%Z -> (off <= k < off + vsize w v)%Z ->
    exists u, letters_ok w u /\ (Z.of_nat (length u) <= v_max v)%Z /\ k = (off + pos w u)%Z.
  Proof.
    intros Hm Hx Hk. rewrite vsize_min0 in Hk by auto.
    destruct (pos_surj w Hw (Z.to_nat (v_max v)) (k - off)) as (u & Hu & Hl & E).
    - replace (S (Z.to_nat (v_max v))) with (Z.to_nat (v_max v + 1)) by lia. lia.
    - exists u. repeat split; auto; lia.
  Qed.

  Theorem ft_fmexp_ok out mul ex oo mo eo (ob mb eb : buf) :
    vwf w out oo -> v_min out = 0%Z -> fits w out oo ob -> vwf w mul mo -> v_min mul = 0%Z -> fits w mul mo mb ->
    vwf w ex eo -> fits w ex eo eb ->
    exists ob', ft_fmexp out mul ex ob mb eb = Ok ob' /\ untouched R w out oo ob ob' /\
      holds R w oo ob' (v_max out) (conv (den w mul mo mb) (texp (Z.to_nat (v_max out)) (noconst R (den w ex eo eb)))).
  Proof.
    intros Ho Hom Fo Hm Hmm Fm Hx Fx. unfold ft_fmexp.
    assert (HN : (0 <= v_max out)%Z) by apply Ho. assert (HM : (0 <= v_max mul)%Z) by apply Hm.
    assert (Oo : okv (qr R) w out oo ob) by (repeat split; auto; try lia; apply Ho).
    assert (Om : okv (qr R) w mul mo mb) by (repeat split; auto; try lia; apply Hm).
    rewrite (v_size_ok w Hw out oo) by (auto; lia). cbn [bind]. rewrite (v_size_ok w Hw mul mo) by (auto; lia). cbn [bind].
    assert (Y0 := vsize_nonneg w Hw out oo Ho ltac:(lia)). assert (Y1 := vsize_nonneg w Hw mul mo Hm ltac:(lia)).
    assert (Xo := vsize_le (qr R) w Hw out oo ob Ho Fo). assert (0 <= oo)%Z by apply Ho.
    destruct (vw_it _ _ _ Ho) as [I _].
    unfold zrange.
    destruct (for_map_from (qr R) ob oo 0 (Z.to_nat (Z.min (vsize w out) (vsize w mul))) (fun i _ => bat mb (mo + i)%Z)
      (fun i ob => let! x := vget mb mul i in vset ob out i x)) as (b1 & E1 & L1 & K1); [lia|lia|lia| |].
    { intros i t Hi Lt. rewrite (okv_get (qr R) w Hw mul mo) by (auto; lia). cbn [bind]. unfold vset. rewrite I, bget_ok by lia. reflexivity. }
    rewrite E1. cbn [bind].
    set (N := Z.to_nat (v_max out)). set (x := noconst R (den w ex eo eb)). set (A := den w mul mo mb).
    (* every word up to out's depth receives the multiplier's coefficient when the vectors are added *)
    assert (U1 : untouched R w out oo ob b1).
    { split; [auto|]. intros k Hk. rewrite K1.
      destruct ((oo + 0 <=? k) && (k <? oo + 0 + Z.of_nat (Z.to_nat (Z.min (vsize w out) (vsize w mul)))))%Z eqn:Eb; [|reflexivity].
      apply andb_true_iff in Eb. rewrite Z.leb_le, Z.ltb_lt in Eb. exfalso.
      destruct (in_size_exists out k oo) as (u & Hu & Hl & Ek); [auto|auto|lia|]. apply (Hk u); auto. }
    destruct (for_down (fun d b => untouched R w out oo ob b /\ holds R w oo b (v_max out - d) (hexp N A x (Z.to_nat (v_max out - d))))
       (v_max out) 1 b1
       (fun deg ob => let! ob := ft_inplace_mul (v_trunc out (v_max out - deg + 1) 0) (v_trunc ex (v_max out - deg + 1) 1) ob eb (divide_by deg) in
          vector_inplace_addition out mul ob mb (fun x => x)))
      as (b' & E & U & HH).
    - lia.
    - split; [auto|]. rewrite Z.sub_diag. intros u Hu Hl. destruct u; [|cbn in Hl; lia].
      rewrite K1. change (pos w []) with 0%Z.
      assert (Z0 := in_size out [] ltac:(constructor) Hom HN). assert (Z1 := in_size mul [] ltac:(constructor) Hmm HM).
      change (pos w []) with 0%Z in Z0, Z1. change (Z.of_nat (length (@nil Z))) with 0%Z in Z0, Z1.
      replace (0 <=? v_max out)%Z with true in Z0 by (symmetry; apply Z.leb_le; lia).
      replace (0 <=? v_max mul)%Z with true in Z1 by (symmetry; apply Z.leb_le; lia). apply Z.ltb_lt in Z0, Z1.
      replace ((oo + 0 <=? oo + 0) && (oo + 0 <? oo + 0 + Z.of_nat (Z.to_nat (Z.min (vsize w out) (vsize w mul)))))%Z with true.
      2:{ symmetry. apply andb_true_iff. rewrite Z.leb_le, Z.ltb_lt. lia. }
      change (hexp N A x (Z.to_nat 0)) with A. unfold A, den.
      replace (in_rng mul (Z.of_nat (length (@nil Z)))) with true by (symmetry; apply in_rng_true; cbn [length]; lia).
      f_equal. change (pos w []) with 0%Z. lia.
    - intros d t Hd [U HH]. assert (Ft := untouched_fits R w _ _ _ _ U Fo).
      destruct (inplace_step R w Hw out ex oo eo t eb (divide_by d) (@qinv R (Z.to_nat d)) (hexp N A x (Z.to_nat (v_max out - d))) (v_max out - d)) as (t1 & Et1 & Lt1 & Ht1 & Kt1); auto; try lia.
      { intros y. unfold divide_by. ring. }
      rewrite Et1. cbn [bind].
      assert (Ut1 : untouched R w out oo t t1).
      { split; auto. intros k Hk. apply Kt1. intros u Hu Hl. apply Hk; auto. lia. }
      assert (Ft1 := untouched_fits R w _ _ _ _ Ut1 Ft).
      destruct (vector_inplace_addition_ok (qr R) w Hw out mul oo mo t1 mb (fun x => x)) as (t2 & Et2 & Lt2 & Kt2).
      { repeat split; auto; try lia; apply Ho. } { auto. }
      rewrite Et2. eexists. split; [reflexivity|]. split.
      + eapply untouched_trans; [exact U|]. eapply untouched_trans; [exact Ut1|]. split; [auto|]. intros k Hk. rewrite Kt2.
        destruct ((oo <=? k) && (k <? oo + Z.min (vsize w out) (vsize w mul)))%Z eqn:Eb; [|reflexivity].
        apply andb_true_iff in Eb. rewrite Z.leb_le, Z.ltb_lt in Eb. exfalso.
        destruct (in_size_exists out k oo) as (u & Hu & Hl & Ek); [auto|auto|lia|]. apply (Hk u); auto.
      + replace (v_max out - (d - 1))%Z with (v_max out - d + 1)%Z by lia.
        intros u Hu Hl. rewrite Kt2.
        replace (Z.to_nat (v_max out - d + 1)) with (S (Z.to_nat (v_max out - d))) by lia. cbn [hexp].
        replace (N - Z.to_nat (v_max out - d))%nat with (Z.to_nat d) by (unfold N; lia). unfold tadd.
        assert (Hv := Ht1 u Hu ltac:(lia)). fold x in Hv.
        assert (Z0 := in_size out u Hu Hom HN). assert (Z1 := in_size mul u Hu Hmm HM).
        replace (Z.of_nat (length u) <=? v_max out)%Z with true in Z0 by (symmetry; apply Z.leb_le; lia). apply Z.ltb_lt in Z0.
        assert (P := pos_nonneg u Hu).
        replace ((oo <=? oo + pos w u) && (oo + pos w u <? oo + Z.min (vsize w out) (vsize w mul)))%Z with (pos w u <? vsize w mul)%Z.
        2:{ apply eq_true_iff_eq. rewrite andb_true_iff, Z.leb_le, !Z.ltb_lt. lia. }
        assert (EA : A u = if in_rng mul (Z.of_nat (length u)) then bat mb (mo + pos w u)%Z else 0) by reflexivity.
        rewrite Z1, EA.
        replace (in_rng mul (Z.of_nat (length u))) with (Z.of_nat (length u) <=? v_max mul)%Z.
        2:{ apply eq_true_iff_eq. rewrite in_rng_true, Z.leb_le. lia. }
        replace (mo + (oo + pos w u - oo))%Z with (mo + pos w u)%Z by lia.
        destruct (Z.of_nat (length u) <=? v_max mul)%Z.
        * transitivity (bat mb (mo + pos w u)%Z + bat t1 (oo + pos w u)%Z); [ring|]. rewrite Hv. reflexivity.
        * transitivity (0 + bat t1 (oo + pos w u)%Z); [ring|]. rewrite Hv. reflexivity.
    - exists b'. split; [exact E|]. split; [auto|].
      replace (v_max out - (1 - 1))%Z with (v_max out) in HH by lia. fold N in HH.
      eapply holds_ext; [exact HH|]. intros u. apply (hexp_texp R Z N A x u).
  Qed.
End Fmexp.

Section Antipode.
  Variable R : cring.
  Add Ring Rring8 : (rth R).
  Notation buf := (buf R).
  Local Open Scope cr_scope.
  Variable w : Z.
  Hypothesis Hw : (0 < w)%Z.

  Lemma reverse_loop u : letters_ok w u -> forall acc,
    reverse_index_loop (length u) (idx w u) w acc = (acc * w ^ Z.of_nat (length u) + idx w (rev u))%Z.
  Proof.
    induction u as [|x u IH] using rev_ind; intros Hu acc.
    - cbn [length reverse_index_loop rev idx]. change (Z.of_nat 0) with 0%Z. rewrite Z.pow_0_r. lia.
    - apply letters_ok_app in Hu. destruct Hu as [Hu Hx]. inversion Hx as [|? ? Hx1 _]; subst.
      rewrite app_length. cbn [length]. rewrite Nat.add_1_r. cbn [reverse_index_loop].
      rewrite idx_snoc by auto. assert (B := idx_bound w Hw u Hu).
      assert (Eq : Z.quot (idx w u * w + x) w = idx w u).
      { rewrite Z.quot_div_nonneg by lia. rewrite Z.div_add_l by lia. rewrite Z.div_small; lia. }
      assert (Er : Z.rem (idx w u * w + x) w = x).
      { rewrite Z.rem_mod_nonneg by lia. rewrite Z.add_comm, Z.mod_add by lia. apply Z.mod_small; lia. }
      rewrite Eq, Er, IH by auto. rewrite rev_app_distr. cbn [rev app idx]. rewrite rev_length, pow_S by auto. ring.
  Qed.
  Lemma reverse_index_ok u : letters_ok w u -> reverse_index (idx w u) w (Z.of_nat (length u)) = idx w (rev u).
  Proof. intros Hu. unfold reverse_index. rewrite Nat2Z.id, reverse_loop by auto. lia. Qed.

  (** One level: every word of length n receives the signed coefficient of its reversal. *)
  Lemma level_store out arg oo ao (t ab : buf) n (rho : Z -> Z) (sg : R -> R) :
    vwf w out oo -> vwf w arg ao -> fits w out oo t -> fits w arg ao ab ->
    (0 <= n <= v_max out)%Z -> (n <= v_max arg)%Z ->
    (forall u, letters_ok w u -> Z.of_nat (length u) = n -> rho (idx w u) = idx w (rev u)) ->
    exists t', (let! al := at_level arg n in let! ol := at_level out n in
        for_ (zrange (snd al)) t (fun i t => let! x := fget ab al i in fset t ol (rho i) (sg x))) = Ok t' /\ blen t' = blen t /\
      (forall u, letters_ok w u -> Z.of_nat (length u) = n -> bat t' (oo + pos w u)%Z = sg (bat ab (ao + pos w (rev u))%Z)) /\
      (forall k, (forall u, letters_ok w u -> Z.of_nat (length u) = n -> k <> (oo + pos w u)%Z) -> bat t' k = bat t k).
  Proof.
    intros Ho Ha Fo Fa Hn1 Hn2 Hrho.
    rewrite (at_level_ok w Hw arg ao) by (auto; lia). cbn [bind]. rewrite (at_level_ok w Hw out oo) by (auto; lia). cbn [bind snd].
    set (p := fun i => (oo + words_below w (Z.to_nat n) + rho i)%Z). set (v := fun i => sg (bat ab (ao + words_below w (Z.to_nat n) + i)%Z)).
    assert (Hw' : forall i, In i (zrange (w ^ n)) -> exists u, letters_ok w u /\ Z.of_nat (length u) = n /\ i = idx w u).
    { intros i Hi. apply zrange_In in Hi. exists (unidx w (Z.to_nat n) i). rewrite unidx_length.
      assert (0 <= i < w ^ Z.of_nat (Z.to_nat n))%Z by (rewrite Z2Nat.id; lia).
      split; [apply unidx_ok; auto|]. split; [lia|]. rewrite idx_unidx; auto. }
    assert (Hin : forall u, letters_ok w u -> Z.of_nat (length u) = n -> In (idx w u) (zrange (w ^ n))).
    { intros u Hu Hl. apply zrange_In. rewrite <- Hl. apply idx_bound; auto. }
    assert (Hp : forall u, letters_ok w u -> Z.of_nat (length u) = n -> p (idx w u) = (oo + pos w (rev u))%Z).
    { intros u Hu Hl. unfold p, pos. rewrite Hrho, rev_length by auto. rewrite <- Hl, Nat2Z.id. lia. }
    destruct (for_store R (zrange (w ^ n)) t p v) as (t' & E & L & V & K).
    - intros i Hi. destruct (Hw' i Hi) as (u & Hu & Hl & ->). rewrite Hp by auto.
      apply (pos_in w Hw out oo t); auto; [apply letters_ok_rev; auto|rewrite rev_length; lia].
    - apply zrange_NoDup.
    - intros i j Hi Hj Eij. destruct (Hw' i Hi) as (u & Hu & Hl & ->). destruct (Hw' j Hj) as (u' & Hu' & Hl' & ->).
      rewrite !Hp in Eij by auto. assert (E' : pos w (rev u) = pos w (rev u')) by lia.
      apply (pos_inj w Hw) in E'; [|apply letters_ok_rev; auto|apply letters_ok_rev; auto].
      apply (f_equal (@rev Z)) in E'. rewrite !rev_involutive in E'. congruence.
    - exists t'. split.
      + rewrite <- E. apply for_ext. intros i t0 Hi. unfold fget, fset. cbn [fst].
        destruct (vw_it _ _ _ Ha) as [_ Ia]. rewrite Ia, bget_ok.
        2:{ apply zrange_In in Hi. apply (level_in w Hw arg ao ab n i); auto. lia. }
        cbn [bind]. destruct (vw_it _ _ _ Ho) as [_ Io]. rewrite Io. reflexivity.
      + split; [auto|]. split.
        * intros u Hu Hl. assert (Hr : letters_ok w (rev u)) by (apply letters_ok_rev; auto).
          assert (Hrl : Z.of_nat (length (rev u)) = n) by (rewrite rev_length; auto).
          assert (Ep := Hp (rev u) Hr Hrl). rewrite rev_involutive in Ep. rewrite <- Ep, V by (apply Hin; auto).
          unfold v, pos. rewrite <- Hrl, Nat2Z.id, Z.add_assoc. reflexivity.
        * intros k Hk. apply K. intros i Hi. destruct (Hw' i Hi) as (u & Hu & Hl & ->). rewrite Hp by auto.
          apply Hk; [apply letters_ok_rev; auto|rewrite rev_length; auto].
  Qed.

  Lemma signer_ok n (x : R) : (0 <= n)%Z -> signer n x = rpow (- (1)) (Z.to_nat n) * x.
  Proof.
    intros Hn. unfold signer. rewrite Z.rem_mod_nonneg by lia.
    assert (G : forall m, rpow (- (1)) m = if Nat.even m then 1 else - (1 : R)).
    { induction m as [|m IH]; [reflexivity|]. cbn [rpow]. rewrite IH, Nat.even_succ, <- Nat.negb_even. destruct (Nat.even m); cbn [negb]; ring. }
    rewrite G. replace (n mod 2 =? 0)%Z with (Nat.even (Z.to_nat n)).
    2:{ apply eq_true_iff_eq. rewrite Z.eqb_eq, Nat.even_spec. split.
        - intros [q Hq]. replace n with (0 + Z.of_nat q * 2)%Z by lia. rewrite Z.mod_add by lia. reflexivity.
        - intros Hm. apply Z.mod_divide in Hm; [|lia]. destruct Hm as [q Hq]. exists (Z.to_nat q). lia. }
    destruct (Nat.even (Z.to_nat n)); cbn [negb]; ring.
  Qed.

  Theorem ft_antipode_ok out arg oo ao (ob ab : buf) :
    vwf w out oo -> vwf w arg ao -> fits w out oo ob -> fits w arg ao ab -> (1 <= v_max out)%Z -> (1 <= v_max arg)%Z ->
    exists ob', ft_antipode out arg ob ab = Ok ob' /\ blen ob' = blen ob /\
      (forall u, letters_ok w u -> in_rng out (Z.of_nat (length u)) = true -> in_rng arg (Z.of_nat (length u)) = true ->
         bat ob' (oo + pos w u)%Z = rpow (- (1)) (length u) * bat ab (ao + pos w (rev u))%Z) /\
      (forall k, (forall u, letters_ok w u -> in_rng out (Z.of_nat (length u)) = true -> in_rng arg (Z.of_nat (length u)) = true -> k <> (oo + pos w u)%Z) ->
         bat ob' k = bat ob k).
  Proof.
    intros Ho Ha Fo Fa Hm1 Hm2. unfold ft_antipode.
    set (mn := Z.max (v_min arg) (v_min out)). set (mx := Z.min (v_max arg) (v_max out)).
    assert (Hmn : (0 <= mn)%Z) by (unfold mn; destruct Ho, Ha; lia). assert (Hmx : (1 <= mx)%Z) by (unfold mx; lia).
    assert (HB : exists D, v_basis arg = tensor_basis w D) by (destruct (vw_basis _ _ _ Ha) as (D & HD & _); eauto).
    destruct HB as (D & HB).
    (* state after handling the degrees in [done] *)
    set (P := fun (dn : Z -> Prop) (t : buf) => blen t = blen ob /\
       (forall u, letters_ok w u -> dn (Z.of_nat (length u)) -> bat t (oo + pos w u)%Z = rpow (- (1)) (length u) * bat ab (ao + pos w (rev u))%Z) /\
       (forall k, (forall u, letters_ok w u -> dn (Z.of_nat (length u)) -> k <> (oo + pos w u)%Z) -> bat t k = bat ob k)).
    assert (Step : forall (dn : Z -> Prop) t n rho, P dn t -> (0 <= n <= mx)%Z -> ~ dn n ->
       (forall u, letters_ok w u -> Z.of_nat (length u) = n -> rho (idx w u) = idx w (rev u)) ->
       exists t', (let! al := at_level arg n in let! ol := at_level out n in
        for_ (zrange (snd al)) t (fun i t => let! x := fget ab al i in fset t ol (rho i) (signer n x))) = Ok t' /\ P (fun d => dn d \/ d = n) t').
    { intros dn t n rho (L & V & K) Hn Hnd Hrho.
      destruct (level_store out arg oo ao t ab n rho (signer n)) as (t' & E & L' & V' & K'); auto; try (unfold mx in *; lia).
      { unfold fits in *. rewrite L. auto. }
      exists t'. split; [exact E|]. split; [congruence|]. split.
      - intros u Hu [Hd|Hd].
        + rewrite K'; [apply V; auto|]. intros v Hv Hvl Ep. assert (Epos : pos w u = pos w v) by lia. apply (pos_inj w Hw) in Epos; auto. subst v. congruence.
        + rewrite V' by auto. rewrite signer_ok by lia. rewrite <- Hd, Nat2Z.id. reflexivity.
      - intros k Hk. rewrite K'; [apply K|]; intros u Hu Hd; apply Hk; auto. }
    assert (S0 : exists t0, (if (mn =? 0)%Z then let! x := vget ab arg 0%Z in vset ob out 0%Z (signer 0 x) else Ok ob) = Ok t0 /\ P (fun d => mn = 0%Z /\ d = 0%Z) t0).
    { destruct (mn =? 0)%Z eqn:E0.
      - apply Z.eqb_eq in E0. unfold vget, vset. destruct (vw_it _ _ _ Ha) as [Ia _], (vw_it _ _ _ Ho) as [Io _]. rewrite Ia, Io.
        rewrite bget_ok by (apply (pos_in w Hw arg ao ab []); auto; [constructor|cbn; lia]). cbn [bind].
        rewrite bset_ok by (apply (pos_in w Hw out oo ob []); auto; [constructor|cbn; lia]).
        eexists. split; [reflexivity|]. split; [reflexivity|]. cbn [bat]. split.
        + intros u Hu [_ Hl]. destruct u; [|cbn in Hl; lia]. change (pos w []) with 0%Z. rewrite Z.eqb_refl. cbn [length rpow rev].
          change (pos w []) with 0%Z. unfold signer. change (Z.rem 0 2) with 0%Z. cbn. ring.
        + intros k Hk. replace (k =? oo + 0)%Z with false; [reflexivity|]. symmetry. apply Z.eqb_neq.
          apply (Hk []); [constructor|]. split; [auto|reflexivity].
      - apply Z.eqb_neq in E0. exists ob. split; [reflexivity|]. split; [reflexivity|]. split; [intros u _ [Hz _]; lia|reflexivity]. }
    destruct S0 as (t0 & -> & P0). cbn [bind].
    assert (S1 : exists t1, (if (mn <=? 1)%Z then let! al := at_level arg 1 in let! ol := at_level out 1 in
        for_ (zrange (snd al)) t0 (fun i ob => let! x := fget ab al i in fset ob ol i (signer 1 x)) else Ok t0) = Ok t1 /\
        P (fun d => (mn <= d <= 1)%Z) t1).
    { destruct (mn <=? 1)%Z eqn:E1.
      - apply Z.leb_le in E1. destruct (Step _ t0 1%Z (fun i => i) P0) as (t1 & Et & Pt); [lia|lia| |].
        { intros u Hu Hl. destruct u as [|x [|y u]]; cbn in Hl; try lia. reflexivity. }
        exists t1. split; [exact Et|]. destruct Pt as (L & V & K). split; [auto|]. split.
        + intros u Hu Hd. apply V; auto. lia.
        + intros k Hk. apply K. intros u Hu Hd. apply Hk; auto. lia.
      - apply Z.leb_gt in E1. exists t0. split; [reflexivity|]. destruct P0 as (L & V & K). split; [auto|]. split.
        + intros u Hu Hd. lia.
        + intros k Hk. apply K. intros u Hu Hd. lia. }
    destruct S1 as (t1 & -> & P1). cbn [bind].
    assert (Loop : forall n d t, (2 <= d)%Z -> (mn <= d)%Z -> (n = O \/ d + Z.of_nat n - 1 <= mx)%Z -> P (fun e => mn <= e < d)%Z t ->
       exists t', for_ (zseq d n) t (fun degree ob => let! al := at_level arg degree in let! ol := at_level out degree in
         for_ (zrange (snd al)) ob (fun i ob => let! x := fget ab al i in fset ob ol (reverse_index i (b_width (v_basis arg)) degree) (signer degree x))) = Ok t' /\
         P (fun e => mn <= e < d + Z.of_nat n)%Z t').
    { induction n as [|n IH]; intros d t Hd1 Hd2 Hd3 Pt.
      - exists t. split; [reflexivity|]. replace (d + Z.of_nat 0)%Z with d by lia. auto.
      - cbn [zseq for_].
        destruct (Step _ t d (fun i => reverse_index i (b_width (v_basis arg)) d) Pt) as (t' & Et & Pt'); [lia|lia| |].
        { intros u Hu Hl. rewrite HB. cbn [tensor_basis b_width]. rewrite <- Hl. apply reverse_index_ok; auto. }
        rewrite Et. cbn [bind]. replace (d + Z.of_nat (S n))%Z with (d + 1 + Z.of_nat n)%Z by lia. apply IH; try lia.
        destruct Pt' as (L & V & K). split; [auto|]. split.
        + intros u Hu He. apply V; auto. lia.
        + intros k Hk. apply K. intros u Hu He. apply Hk; auto. lia. }
    destruct (Loop (Z.to_nat (mx - Z.max 2 mn + 1)) (Z.max 2 mn) t1) as (t2 & E2 & L & V & K).
    - lia.
    - lia.
    - lia.
    - destruct P1 as (L & V & K). split; [auto|]. split.
      + intros u Hu He. apply V; auto. lia.
      + intros k Hk. apply K. intros u Hu He. apply Hk; auto. lia.
    - assert (G : forall n, (in_rng out n = true /\ in_rng arg n = true) <-> (mn <= n < Z.max 2 mn + Z.of_nat (Z.to_nat (mx - Z.max 2 mn + 1)))%Z).
      { intros n. rewrite !in_rng_true. unfold mn, mx in *. lia. }
      exists t2. split; [|split; [auto|split]].
      + rewrite <- E2. reflexivity.
      + intros u Hu H1 H2. apply V; auto. apply G. auto.
      + intros k Hk. apply K. intros u Hu He. apply G in He. apply Hk; tauto.
  Qed.
End Antipode.
