(** Proofs about exponential, logarithm and fused multiply-exponential. *)
From Verif Require Export TensorProofs2 PowerSeries.
From Coq Require Import Setoid Morphisms.

(** Counting-down loop. *)
Lemma for_down {S} (P : Z -> S -> Prop) hi lo (s : S) f :
  lo <= hi + 1 -> P hi s ->
  (forall d t, lo <= d <= hi -> P d t -> exists t', f d t = Ok t' /\ P (d - 1) t') ->
  exists s', for_ (zdown hi lo) s f = Ok s' /\ P (lo - 1) s'.
Proof.
  intros Hle H0 Hs. remember (Z.to_nat (hi - lo + 1)) as n eqn:En. revert hi s Hle H0 Hs En.
  induction n as [|n IH]; intros hi s Hle H0 Hs En.
  - rewrite zdown_nil by lia. exists s. replace (lo - 1) with hi by lia. auto.
  - rewrite zdown_cons by lia. cbn [for_]. destruct (Hs hi s) as (t & E & Ht); [lia|auto|]. rewrite E. cbn [bind].
    apply IH; auto; try lia. intros; apply Hs; auto; lia.
Qed.

(** ** Horner schemes for formal series *)
Section Horner.
  Variable R : qalg.
  Variable A : Type.
  Add Ring Rring4 : (rth (qr R)).
  Local Open Scope cr_scope.
  Infix "==" := teq (at level 70).
  Notation tens := (tens (qr R) A).
  Variable N : nat.

  Fixpoint hexp (a x : tens) (m : nat) : tens :=
    match m with O => a | S m => tadd a (tscal (@qinv R (N - m)) (conv (hexp a x m) x)) end.
  Fixpoint cf (j i : nat) : qr R := match i with O => 1 | S i => @qinv R (S j) * cf (S j) i end.
  Lemma cf_invfact i : forall j, cf j i * invfact R j = invfact R (j + i).
  Proof.
    induction i as [|i IH]; intros j; cbn [cf].
    - rewrite Nat.add_0_r. ring.
    - transitivity (cf (S j) i * (@qinv R (S j) * invfact R j)); [ring|].
      change (@qinv R (S j) * invfact R j) with (invfact R (S j)). rewrite IH. f_equal. lia.
  Qed.
  Lemma tpoly_shift m (f g : nat -> qr R) (x : tens) c : g O = 1 -> (forall i, g (S i) = c * f i) ->
    tpoly (S m) g x == tadd tone (tscal c (conv (tpoly m f x) x)).
  Proof.
    intros H0 HS w. unfold tadd, tscal. unfold tpoly at 1.
    rewrite sum_seq_S, H0, sum_seq_shift. cbn [tpow]. 
    assert (E : conv (tpoly m f x) x w = sum (seq O (S m)) (fun k => f k * conv (tpow x k) x w)).
    { unfold conv at 1. unfold tpoly.
      rewrite (sum_ext _ (seq O (S (length w))) _ (fun j => sum (seq O (S m)) (fun k => f k * (tpow x k (firstn j w) * x (skipn j w))))).
      - rewrite sum_swap. apply sum_ext. intros k _. rewrite sum_mul_l. reflexivity.
      - intros j _. rewrite <- sum_mul_r. apply sum_ext. intros; ring. }
    rewrite E, <- sum_mul_l.
    rewrite (sum_ext _ (seq O (S m)) (fun k => g (S k) * conv x (tpow x k) w) (fun k => c * (f k * conv (tpow x k) x w))); [ring|].
    intros k _. rewrite HS, (tpow_comm _ _ x k w). ring.
  Qed.
  Lemma hexp_poly a x m : (m <= N)%nat -> hexp a x m == conv a (tpoly m (cf (N - m)) x).
  Proof.
    induction m as [|m IH]; intros Hm.
    - intros w. cbn [hexp]. assert (E : tpoly O (cf (N - 0)) x == tone).
      { intros u. unfold tpoly. cbn [seq sum cf tpow]. ring. }
      rewrite (conv_proper _ _ a a ltac:(reflexivity) _ _ E w). rewrite (conv_one_r _ _ a w). reflexivity.
    - specialize (IH ltac:(lia)). intros w. cbn [hexp].
      assert (E : tpoly (S m) (cf (N - S m)) x == tadd tone (tscal (@qinv R (N - m)) (conv (tpoly m (cf (N - m)) x) x))).
      { apply tpoly_shift; [reflexivity|]. intros i. cbn [cf]. replace (S (N - S m)) with (N - m)%nat by lia. reflexivity. }
      rewrite (conv_proper _ _ a a ltac:(reflexivity) _ _ E w).
      rewrite (conv_add_r _ _ a _ _ w). unfold tadd. rewrite (conv_one_r _ _ a w). f_equal.
      rewrite (conv_scal_r _ _ _ a _ w). unfold tscal. f_equal.
      rewrite <- (conv_assoc _ _ a _ x w). apply (conv_proper _ _ _ _ IH x x ltac:(reflexivity)).
  Qed.
  Theorem hexp_texp a x : hexp a x N == conv a (texp N x).
  Proof.
    intros w. rewrite (hexp_poly a x N (le_n N) w). rewrite Nat.sub_diag.
    apply (conv_proper _ _ a a ltac:(reflexivity)). intros u. unfold texp, tpoly. apply sum_ext. intros k _. f_equal.
    assert (E := cf_invfact k 0). cbn [invfact Nat.add] in E. rewrite <- E. ring.
  Qed.

  (** Logarithm: the accumulated scalar [z] in the unit coordinate is carried along. *)
  Fixpoint hlog (z : qr R) (x : tens) (m : nat) : tens :=
    match m with O => tscal z tone | S m => conv (tadd (hlog z x m) (tscal (plog R (N - m)%nat) tone)) x end.
  Definition lcf (z : qr R) (m i : nat) : qr R :=
    (match i with O => 0 | S _ => plog R (N - m + i)%nat end) + (if Nat.eqb i m then z else 0).
  Lemma tpoly_conv m (f : nat -> qr R) (x : tens) : conv (tpoly m f x) x == tpoly (S m) (fun i => match i with O => 0 | S i => f i end) x.
  Proof.
    intros w. unfold tpoly at 2. rewrite sum_seq_S, sum_seq_shift. cbn [tpow].
    unfold conv at 1. unfold tpoly.
    rewrite (sum_ext _ (seq O (S (length w))) _ (fun j => sum (seq O (S m)) (fun k => f k * (tpow x k (firstn j w) * x (skipn j w))))).
    - rewrite sum_swap. rewrite (sum_ext _ (seq O (S m)) _ (fun k => f k * conv (tpow x k) x w)).
      + rewrite (sum_ext _ (seq O (S m)) (fun k => f k * conv x (tpow x k) w) (fun k => f k * conv (tpow x k) x w)); [ring|].
        intros k _. rewrite (tpow_comm _ _ x k w). reflexivity.
      + intros k _. rewrite sum_mul_l. reflexivity.
    - intros j _. rewrite <- sum_mul_r. apply sum_ext. intros; ring.
  Qed.
  Lemma hlog_poly z x m : (m <= N)%nat -> hlog z x m == tpoly m (lcf z m) x.
  Proof.
    induction m as [|m IH]; intros Hm.
    - intros w. cbn [hlog]. unfold tpoly, lcf, tscal. cbn [seq sum tpow Nat.eqb]. ring.
    - specialize (IH ltac:(lia)). intros w. cbn [hlog].
      assert (E : tadd (hlog z x m) (tscal (plog R (N - m)%nat) tone) == tpoly m (fun i => lcf z m i + match i with O => plog R (N - m)%nat | _ => 0 end) x).
      { intros u. unfold tadd. rewrite (IH u). unfold tpoly.
        rewrite (sum_ext _ (seq O (S m)) (fun k => (lcf z m k + match k with O => plog R (N - m)%nat | _ => 0 end) * tpow x k u)
           (fun k => lcf z m k * tpow x k u + match k with O => plog R (N - m)%nat * tone u | _ => 0 end)).
        - rewrite sum_add. f_equal. rewrite sum_seq_S, (sum_zero _ (seq 1 m)); [unfold tscal; ring|].
          intros k Hk. apply in_seq in Hk. destruct k; [lia|reflexivity].
        - intros k _. destruct k; cbn [tpow]; ring. }
      rewrite (conv_proper _ _ _ _ E x x ltac:(reflexivity) w). rewrite (tpoly_conv m _ x w).
      unfold tpoly. apply sum_ext. intros i Hi. apply in_seq in Hi. f_equal. unfold lcf.
      destruct i as [|i]; [cbn [Nat.eqb]; ring|]. cbn [Nat.eqb].
      destruct i as [|i].
      + replace (N - S m + 1)%nat with (N - m)%nat by lia. ring.
      + replace (N - S m + S (S i))%nat with (N - m + S i)%nat by lia. ring.
  Qed.
  Theorem hlog_tlog z x : (0 < N)%nat -> hlog z x N == tadd (tlog1p N x) (tscal z (tpow x N)).
  Proof.
    intros HN w. rewrite (hlog_poly z x N (le_n N) w). unfold tadd, tlog1p, tpoly, tscal.
    rewrite (sum_ext _ (seq O (S N)) _ (fun k => plog R k * tpow x k w + (if Nat.eqb k N then z * tpow x N w else 0))).
    - rewrite sum_add. f_equal. rewrite (sum_single _ (seq O (S N)) _ N).
      + rewrite Nat.eqb_refl. reflexivity.
      + apply seq_NoDup.
      + apply in_seq. lia.
      + intros k _ Hk. apply Nat.eqb_neq in Hk. rewrite Hk. reflexivity.
    - intros k _. unfold lcf. rewrite Nat.sub_diag. cbn [Nat.add].
      replace (match k with O => 0 | S _ => plog R k end) with (plog R k) by (destruct k; reflexivity).
      destruct (Nat.eqb k N) eqn:E; [apply Nat.eqb_eq in E; subst; ring|ring].
  Qed.
End Horner.
Arguments hexp {R A}. Arguments hlog {R A}.

Section ExpLog.
  Variable R : qalg.
  Add Ring Rring5 : (rth (qr R)).
  Notation buf := (buf (qr R)).
  Local Open Scope cr_scope.
  Variable w : Z.
  Hypothesis Hw : (0 < w)%Z.

  (** The tensor a view denotes, with its constant term dropped. *)
  Definition noconst (x : tens (qr R) Z) : tens (qr R) Z := fun u => match u with [] => 0 | _ => x u end.

  Lemma vwf_trunc (v : view) off mx mn : vwf w v off -> (0 <= mx)%Z -> (0 <= mn)%Z -> vwf w (v_trunc v mx mn) off.
  Proof.
    intros [(D & HB & HD) Hit Ho Hmn Hmx] H1 H2. unfold v_trunc, make_view.
    destruct (Z.min (v_max v) mx =? -1)%Z eqn:E; [apply Z.eqb_eq in E; lia|].
    constructor; cbn [v_basis v_it v_min v_max]; auto; try lia. exists D. split; auto. lia.
  Qed.
  Lemma trunc_max v mx mn : (0 <= v_max v)%Z -> (0 <= mx)%Z -> v_max (v_trunc v mx mn) = Z.min (v_max v) mx.
  Proof. intros. unfold v_trunc, make_view. cbn [v_max]. destruct (Z.min (v_max v) mx =? -1)%Z eqn:E; [apply Z.eqb_eq in E; lia|reflexivity]. Qed.
  Lemma trunc_min v mx mn : v_min (v_trunc v mx mn) = Z.max (v_min v) mn.
  Proof. reflexivity. Qed.
  Lemma fits_trunc v off (b : buf) mx mn : vwf w v off -> (0 <= mx)%Z -> fits w v off b -> fits w (v_trunc v mx mn) off b.
  Proof.
    intros Hv H1 Hf. unfold fits in *. rewrite trunc_max by (auto; destruct Hv; auto).
    assert (X := words_below_mono w Hw (Z.to_nat (Z.min (v_max v) mx + 1)) (Z.to_nat (v_max v + 1))). lia.
  Qed.

  (** Words of degree up to [m] are stored with the coefficients of [h]. *)
  Definition holds (oo : Z) (b : buf) (m : Z) (h : tens (qr R) Z) : Prop :=
    forall u, letters_ok w u -> (Z.of_nat (length u) <= m)%Z -> bat b (oo + pos w u)%Z = h u.

  Lemma inplace_step out arg oo ao (ob ab : buf) (op : qr R -> qr R) c h m :
    vwf w out oo -> v_min out = 0%Z -> fits w out oo ob -> vwf w arg ao -> fits w arg ao ab ->
    (forall x, op x = c * x) -> (0 <= m < v_max out)%Z -> holds oo ob m h ->
    exists ob', ft_inplace_mul (v_trunc out (m + 1) 0) (v_trunc arg (m + 1) 1) ob ab op = Ok ob' /\ blen ob' = blen ob /\
      holds oo ob' (m + 1) (tscal c (conv h (noconst (den w arg ao ab)))) /\
      (forall k, (forall u, letters_ok w u -> (Z.of_nat (length u) <= m + 1)%Z -> k <> (oo + pos w u)%Z) -> bat ob' k = bat ob k).
  Proof.
    intros Ho Hom Fo Ha Fa Hop Hm Hh.
    destruct (ft_inplace_mul_ok (qr R) w Hw (v_trunc out (m + 1) 0) (v_trunc arg (m + 1) 1) oo ao ob ab op) as (b' & E & L & V & K).
    { apply vwf_trunc; auto; lia. } { apply vwf_trunc; auto; lia. }
    { apply fits_trunc; auto; lia. } { apply fits_trunc; auto; lia. }
    assert (Hrng : forall n : nat, in_rng (v_trunc out (m + 1) 0) (Z.of_nat n) = true <-> (Z.of_nat n <= m + 1)%Z).
    { intros n. rewrite in_rng_true, trunc_max, trunc_min by (destruct Ho; lia). lia. }
    exists b'. split; [auto|]. split; [auto|]. split.
    - intros u Hu Hlen. rewrite V by (auto; apply Hrng; lia). unfold pconv, tscal, conv.
      rewrite <- sum_mul_l. apply sum_ext. intros k Hk. apply in_seq in Hk.
      replace (in_rng (v_trunc out (m + 1) 0) (Z.of_nat k)) with true by (symmetry; apply Hrng; lia). cbn [andb].
      destruct (Nat.eq_dec k (length u)) as [->|Hne].
      + rewrite Nat.sub_diag, skipn_all. cbn [noconst].
        destruct (in_rng (v_trunc arg (m + 1) 1) (Z.of_nat 0)) eqn:Er; [|ring].
        apply in_rng_true in Er. rewrite trunc_min in Er. lia.
      + assert (Hsk : length (skipn k u) = (length u - k)%nat) by apply skipn_length.
        replace (noconst (den w arg ao ab) (skipn k u)) with (den w arg ao ab (skipn k u)).
        2:{ destruct (skipn k u); [cbn in Hsk; lia|reflexivity]. }
        unfold den. rewrite Hsk.
        replace (in_rng (v_trunc arg (m + 1) 1) (Z.of_nat (length u - k))) with (in_rng arg (Z.of_nat (length u - k))).
        2:{ apply eq_true_iff_eq. rewrite !in_rng_true, trunc_max, trunc_min by (destruct Ha; lia). lia. }
        destruct (in_rng arg (Z.of_nat (length u - k))); [|ring]. rewrite Hop. unfold lcoef.
        rewrite Hh; [ring|apply letters_ok_firstn; auto|]. rewrite firstn_length_le by lia. lia.
    - intros k Hk. apply K. intros u Hu Hin. apply Hk; auto. apply Hrng; auto.
  Qed.

  Lemma holds_ext oo b m h h' : holds oo b m h -> (forall u, h u = h' u) -> holds oo b m h'.
  Proof. intros H E u Hu Hl. rewrite <- E. auto. Qed.
  Lemma pos_nil_only u : letters_ok w u -> pos w u = 0%Z -> u = [].
  Proof. intros Hu E. apply (pos_inj w Hw); auto. constructor. Qed.
  Lemma holds_set0 oo b m h (z : qr R) : holds oo b m h -> (0 <= m)%Z ->
    holds oo (mkbuf (blen b) (fun k => if (k =? oo + 0)%Z then z else bat b k)) m (fun u => match u with [] => z | _ => h u end).
  Proof.
    intros H Hm u Hu Hl. cbn [bat]. destruct u as [|x u].
    - change (pos w []) with 0%Z. rewrite Z.eqb_refl. reflexivity.
    - replace (oo + pos w (x :: u) =? oo + 0)%Z with false; [apply H; auto|]. symmetry. apply Z.eqb_neq. intros E.
      assert (E' : pos w (x :: u) = 0%Z) by lia. apply pos_nil_only in E'; auto. discriminate.
  Qed.
  Definition untouched (out : view) (oo : Z) (b b' : buf) : Prop :=
    blen b' = blen b /\
    forall k, (forall u, letters_ok w u -> (Z.of_nat (length u) <= v_max out)%Z -> k <> (oo + pos w u)%Z) -> bat b' k = bat b k.

  Lemma vset0 out oo (b : buf) z : vwf w out oo -> fits w out oo b ->
    vset b out 0%Z z = Ok (mkbuf (blen b) (fun k => if (k =? oo + 0)%Z then z else bat b k)).
  Proof.
    intros Ho Fo. unfold vset. destruct (vw_it _ _ _ Ho) as [I _]. rewrite I. apply bset_ok.
    apply (pos_in w Hw out oo b []); auto; [constructor|]. cbn. destruct Ho; lia.
  Qed.
  Lemma vget0 out oo (b : buf) : vwf w out oo -> fits w out oo b -> vget b out 0%Z = Ok (bat b (oo + 0)%Z).
  Proof.
    intros Ho Fo. unfold vget. destruct (vw_it _ _ _ Ho) as [I _]. rewrite I. apply bget_ok.
    apply (pos_in w Hw out oo b []); auto; [constructor|]. cbn. destruct Ho; lia.
  Qed.
  Lemma untouched_set0 out oo b z : vwf w out oo -> untouched out oo b (mkbuf (blen b) (fun k => if (k =? oo + 0)%Z then z else bat b k)).
  Proof.
    intros Ho. split; [reflexivity|]. intros k Hk. cbn [bat].
    replace (k =? oo + 0)%Z with false; [reflexivity|]. symmetry. apply Z.eqb_neq. apply (Hk []); [constructor|cbn; destruct Ho; lia].
  Qed.
  Lemma untouched_trans out oo a b c : untouched out oo a b -> untouched out oo b c -> untouched out oo a c.
  Proof. intros [L1 K1] [L2 K2]. split; [congruence|]. intros k Hk. rewrite K2, K1 by auto. reflexivity. Qed.
  Lemma untouched_fits out oo a b : untouched out oo a b -> fits w out oo a -> fits w out oo b.
  Proof. intros [L1 _] H. unfold fits in *. rewrite L1. auto. Qed.

  Theorem ft_exp_ok out arg oo ao (ob ab : buf) :
    vwf w out oo -> v_min out = 0%Z -> fits w out oo ob -> vwf w arg ao -> fits w arg ao ab ->
    exists ob', ft_exp out arg ob ab = Ok ob' /\ untouched out oo ob ob' /\
      holds oo ob' (v_max out) (texp (Z.to_nat (v_max out)) (noconst (den w arg ao ab))).
  Proof.
    intros Ho Hom Fo Ha Fa. unfold ft_exp. rewrite (vset0 out oo) by auto. cbn [bind].
    set (N := Z.to_nat (v_max out)). set (x := noconst (den w arg ao ab)).
    assert (HN : (0 <= v_max out)%Z) by (destruct Ho; auto).
    destruct (for_down (fun d b => untouched out oo ob b /\ holds oo b (v_max out - d) (hexp N tone x (Z.to_nat (v_max out - d))))
       (v_max out) 1 (mkbuf (blen ob) (fun k => if (k =? oo + 0)%Z then 1 else bat ob k))
       (fun deg ob => let! ob := ft_inplace_mul (v_trunc out (v_max out - deg + 1) 0) (v_trunc arg (v_max out - deg + 1) 1) ob ab (divide_by deg) in vadd ob out 0%Z 1))
      as (b' & E & U & H).
    - lia.
    - split; [apply untouched_set0; auto|]. rewrite Z.sub_diag. intros u Hu Hl. destruct u; [|cbn in Hl; lia].
      cbn [bat]. change (pos w []) with 0%Z. rewrite Z.eqb_refl. reflexivity.
    - intros d t Hd [U H]. assert (Ft := untouched_fits _ _ _ _ U Fo).
      destruct (inplace_step out arg oo ao t ab (divide_by d) (@qinv R (Z.to_nat d)) (hexp N tone x (Z.to_nat (v_max out - d))) (v_max out - d)) as (t1 & E1 & L1 & H1 & K1); auto; try lia.
      { intros y. unfold divide_by. ring. }
      rewrite E1. cbn [bind].
      assert (U1 : untouched out oo t t1).
      { split; auto. intros k Hk. apply K1. intros u Hu Hl. apply Hk; auto. lia. }
      assert (Ft1 := untouched_fits _ _ _ _ U1 Ft).
      unfold vadd. rewrite (vget0 out oo) by auto. cbn [bind]. rewrite (vset0 out oo) by auto.
      eexists. split; [reflexivity|]. split.
      + eapply untouched_trans; [exact U|]. eapply untouched_trans; [exact U1|]. apply untouched_set0; auto.
      + replace (v_max out - (d - 1))%Z with (v_max out - d + 1)%Z by lia.
        eapply holds_ext; [apply holds_set0; [exact H1|lia]|].
        intros u. replace (Z.to_nat (v_max out - d + 1)) with (S (Z.to_nat (v_max out - d))) by lia. cbn [hexp].
        replace (N - Z.to_nat (v_max out - d))%nat with (Z.to_nat d) by (unfold N; lia). unfold tadd. fold x.
        destruct u as [|y u]; [|cbn [tone]; ring].
        specialize (H1 [] ltac:(constructor) ltac:(cbn; lia)). change (pos w []) with 0%Z in H1. fold x in H1. rewrite H1. cbn [tone]. ring.
    - exists b'. split; [exact E|]. split; [auto|].
      replace (v_max out - (1 - 1))%Z with (v_max out) in H by lia. fold N in H.
      eapply holds_ext; [exact H|]. intros u. rewrite (hexp_texp R Z N tone x u). apply conv_one_l.
  Qed.

  Theorem ft_log_ok out arg oo ao (ob ab : buf) :
    vwf w out oo -> v_min out = 0%Z -> fits w out oo ob -> vwf w arg ao -> fits w arg ao ab -> (1 <= v_max out)%Z ->
    exists ob', ft_log out arg ob ab = Ok ob' /\ untouched out oo ob ob' /\
      holds oo ob' (v_max out) (tadd (tlog1p (Z.to_nat (v_max out)) (noconst (den w arg ao ab)))
         (tscal (bat ob oo) (tpow (noconst (den w arg ao ab)) (Z.to_nat (v_max out))))).
  Proof.
    intros Ho Hom Fo Ha Fa HN. unfold ft_log.
    set (N := Z.to_nat (v_max out)). set (x := noconst (den w arg ao ab)). set (z := bat ob oo).
    destruct (for_down (fun d b => untouched out oo ob b /\ holds oo b (v_max out - d) (hlog N z x (Z.to_nat (v_max out - d))))
       (v_max out) 1 ob
       (fun deg ob => let! ob := (if (Z.rem deg 2 =? 0)%Z then let! y := vget ob out 0%Z in vset ob out 0%Z (y - 1 * qinv (Z.to_nat deg))
                                  else vadd ob out 0%Z (1 * qinv (Z.to_nat deg))) in
          ft_inplace_mul (v_trunc out (v_max out - deg + 1) 0) (v_trunc arg (v_max out - deg + 1) 1) ob ab (fun x => x)))
      as (b' & E & U & H).
    - lia.
    - split; [split; auto|]. rewrite Z.sub_diag. intros u Hu Hl. destruct u; [|cbn in Hl; lia].
      change (pos w []) with 0%Z. change (hlog N z x (Z.to_nat 0)) with (tscal z (@tone (qr R) Z)). unfold tscal. cbn [tone]. rewrite Z.add_0_r. fold z. ring.
    - intros d t Hd [U H]. assert (Ft := untouched_fits _ _ _ _ U Fo).
      assert (Es : (if (Z.rem d 2 =? 0)%Z then let! y := vget t out 0%Z in vset t out 0%Z (y - 1 * @qinv R (Z.to_nat d))
                                  else vadd t out 0%Z (1 * @qinv R (Z.to_nat d)))
              = vset t out 0%Z (bat t (oo + 0)%Z + plog R (Z.to_nat d))).
      { unfold vadd. rewrite (vget0 out oo) by auto. cbn [bind].
        destruct (Z.to_nat d) as [|n] eqn:En; [lia|]. unfold plog.
        assert (Hpar : rpow (- (1)) n = if (Z.rem d 2 =? 0)%Z then - (1 : qr R) else 1).
        { replace d with (Z.of_nat n + 1)%Z by lia. rewrite Z.rem_mod_nonneg by lia.
          assert (G : rpow (- (1)) n = if Nat.even n then 1 else - (1 : qr R)).
          { clear. induction n as [|n IH]; [reflexivity|]. cbn [rpow]. rewrite IH, Nat.even_succ, <- Nat.negb_even. destruct (Nat.even n); cbn [negb]; ring. }
          rewrite G. destruct (Nat.even n) eqn:Ev.
          - apply Nat.even_spec in Ev. destruct Ev as [q ->]. replace (Z.of_nat (2 * q) + 1)%Z with (1 + Z.of_nat q * 2)%Z by lia.
            rewrite Z.mod_add by lia. reflexivity.
          - assert (Od : Nat.odd n = true) by (rewrite <- Nat.negb_even, Ev; auto).
            apply Nat.odd_spec in Od. destruct Od as [q ->]. replace (Z.of_nat (2 * q + 1) + 1)%Z with (0 + (Z.of_nat q + 1) * 2)%Z by lia.
            rewrite Z.mod_add by lia. reflexivity. }
        rewrite Hpar. destruct (Z.rem d 2 =? 0)%Z; f_equal; ring. }
      rewrite Es, (vset0 out oo) by auto. cbn [bind].
      set (t0 := mkbuf (blen t) (fun k => if (k =? oo + 0)%Z then bat t (oo + 0)%Z + plog R (Z.to_nat d) else bat t k)).
      assert (U0 : untouched out oo t t0) by (apply untouched_set0; auto).
      assert (Ft0 := untouched_fits _ _ _ _ U0 Ft).
      destruct (inplace_step out arg oo ao t0 ab (fun y => y) 1 (tadd (hlog N z x (Z.to_nat (v_max out - d))) (tscal (plog R (Z.to_nat d)) tone)) (v_max out - d)) as (t1 & E1 & L1 & H1 & K1); auto; try lia.
      { intros y. ring. }
      { eapply holds_ext; [apply holds_set0; [exact H|lia]|]. intros u. unfold tadd, tscal. destruct u as [|y u]; [|cbn [tone]; ring].
        specialize (H [] ltac:(constructor) ltac:(cbn; lia)). change (pos w []) with 0%Z in H. rewrite H. cbn [tone]. ring. }
      exists t1. split; [exact E1|].
      assert (U1 : untouched out oo t0 t1).
      { split; auto. intros k Hk. apply K1. intros u Hu Hl. apply Hk; auto. lia. }
      split.
      + eapply untouched_trans; [exact U|]. eapply untouched_trans; [exact U0|exact U1].
      + replace (v_max out - (d - 1))%Z with (v_max out - d + 1)%Z by lia.
        eapply holds_ext; [exact H1|].
        intros u. replace (Z.to_nat (v_max out - d + 1)) with (S (Z.to_nat (v_max out - d))) by lia. cbn [hlog].
        replace (N - Z.to_nat (v_max out - d))%nat with (Z.to_nat d) by (unfold N; lia). unfold tscal at 1. fold x. ring.
    - exists b'. split; [exact E|]. split; [auto|].
      replace (v_max out - (1 - 1))%Z with (v_max out) in H by lia. fold N in H.
      eapply holds_ext; [exact H|]. intros u. apply hlog_tlog. unfold N. lia.
  Qed.
End ExpLog.
