(** The tensor operations seen from Python: what each call does to the coefficients of
    the tensors it is given. *)
From Verif Require Export TensorProofs8 SparseProofs.

(** Letters in range, as a boolean. *)
Definition okw (w : Z) (u : list Z) : bool := forallb (fun x => (0 <=? x) && (x <? w)) u.
Lemma okw_true w u : okw w u = true <-> letters_ok w u.
Proof.
  unfold okw, letters_ok. rewrite forallb_forall, Forall_forall. split; intros H x Hx; specialize (H x Hx).
  - apply andb_true_iff in H. rewrite Z.leb_le, Z.ltb_lt in H. auto.
  - apply andb_true_iff. rewrite Z.leb_le, Z.ltb_lt. auto.
Qed.
Lemma okw_false w u : okw w u = false <-> ~ letters_ok w u.
Proof. rewrite <- okw_true. destruct (okw w u); split; congruence. Qed.

(** A dense tensor of width [w] and depth [D]: an array with one entry per word. *)
Definition tensor_ok {R : Type} (w : Z) (D : nat) (a : dtensor R) : Prop :=
  t_basis a = tensor_basis w (Z.of_nat D) /\ blen (t_data a) = words_below w (S D).
(** Its coefficients as a function of the word; zero on anything that is not a word of
    length at most D. *)
Definition tv {R : cring} (w : Z) (D : nat) (a : dtensor R) : tens R Z :=
  fun u => if (length u <=? D)%nat && okw w u then bat (t_data a) (pos w u) else r0.
(** Equality of coefficients up to a length. *)
Definition agree {R : cring} (D : nat) (a b : tens R Z) : Prop := forall u, (length u <= D)%nat -> a u = b u.
(** Forget everything longer than D. *)
Definition trunc {R : cring} (D : nat) (a : tens R Z) : tens R Z := fun u => if (length u <=? D)%nat then a u else r0.

(** Series supported on words over 0..w-1. *)
Section Supp.
  Variable R : cring.
  Add Ring Rring16 : (rth R).
  Local Open Scope cr_scope.
  Variable w : Z.
  Definition supp (a : tens R Z) : Prop := forall u, okw w u = false -> a u = 0.
  Lemma okw_app u v : okw w (u ++ v) = okw w u && okw w v.
  Proof. apply forallb_app. Qed.
  Lemma okw_cut k u : okw w u = false -> okw w (firstn k u) = false \/ okw w (skipn k u) = false.
  Proof. intros H. rewrite <- (firstn_skipn k u), okw_app in H. apply andb_false_iff in H. auto. Qed.
  Lemma okw_rev u : okw w (rev u) = okw w u.
  Proof. apply eq_true_iff_eq. rewrite !okw_true. split; intros H; [rewrite <- (rev_involutive u)|]; apply letters_ok_rev; auto. Qed.
  Lemma supp_tv D (a : dtensor R) : supp (tv w D a).
  Proof. intros u Hu. unfold tv. rewrite Hu, andb_false_r. reflexivity. Qed.
  Lemma supp_conv a b : supp a -> supp b -> supp (conv a b).
  Proof.
    intros Ha Hb u Hu. unfold conv. apply sum_zero. intros k _. destruct (okw_cut k u Hu) as [H|H].
    - rewrite Ha by auto. ring.
    - rewrite Hb by auto. ring.
  Qed.
  Lemma supp_one : supp tone.
  Proof. intros u Hu. destruct u; [discriminate|reflexivity]. Qed.
  Lemma supp_tpow x n : supp x -> supp (tpow x n).
  Proof. intros Hx. induction n as [|n IH]; cbn [tpow]; [apply supp_one|apply supp_conv; auto]. Qed.
  Lemma supp_tpoly N f x : supp x -> supp (tpoly N f x).
  Proof. intros Hx u Hu. unfold tpoly. apply sum_zero. intros k _. rewrite (supp_tpow x k Hx u Hu). ring. Qed.
  Lemma splits_bad u p : okw w u = false -> In p (splits u) -> okw w (fst p) = false \/ okw w (snd p) = false.
  Proof.
    revert p. induction u as [|x u IH]; intros p Hu Hp; [discriminate|]. cbn [okw forallb] in Hu. change (forallb (fun x => ((0 <=? x) && (x <? w))%Z) u) with (okw w u) in Hu. cbn [splits] in Hp.
    apply in_app_or in Hp. destruct Hp as [Hp|Hp]; apply in_map_iff in Hp; destruct Hp as (q & <- & Hq); cbn [fst snd okw forallb];
      apply andb_false_iff in Hu; destruct Hu as [Hx|Hu]; rewrite ?Hx; auto; destruct (IH q Hu Hq) as [H|H]; unfold okw in H |- *; rewrite ?H, ?andb_false_r; auto.
  Qed.
  Lemma supp_shuf a b : supp a -> supp b -> supp (shuf a b).
  Proof.
    intros Ha Hb u Hu. unfold shuf. apply sum_zero. intros p Hp. destruct (splits_bad u p Hu Hp) as [H|H].
    - rewrite Ha by auto. ring.
    - rewrite Hb by auto. ring.
  Qed.
  Lemma supp_anti a : supp a -> supp (anti a).
  Proof. intros Ha u Hu. unfold anti. rewrite Ha by (rewrite okw_rev; auto). ring. Qed.
  Lemma supp_add a b : supp a -> supp b -> supp (tadd a b).
  Proof. intros Ha Hb u Hu. unfold tadd. rewrite Ha, Hb by auto. ring. Qed.
  Lemma supp_scal c a : supp a -> supp (tscal c a).
  Proof. intros Ha u Hu. unfold tscal. rewrite Ha by auto. ring. Qed.
  Lemma agree_supp D a b : supp a -> supp b -> (forall u, letters_ok w u -> (length u <= D)%nat -> a u = b u) -> agree D a b.
  Proof.
    intros Ha Hb H u Hl. destruct (okw w u) eqn:E; [apply H; auto; apply okw_true; auto|]. rewrite Ha, Hb by auto. reflexivity.
  Qed.
  Lemma tv_ok D (a : dtensor R) u : letters_ok w u -> (length u <= D)%nat -> tv w D a u = bat (t_data a) (pos w u).
  Proof.
    intros Hu Hl. unfold tv. apply okw_true in Hu. rewrite Hu. replace (length u <=? D)%nat with true by (symmetry; apply Nat.leb_le; auto). reflexivity.
  Qed.
  Lemma tv_deep D (a : dtensor R) u : (D < length u)%nat -> tv w D a u = 0.
  Proof. intros Hl. unfold tv. replace (length u <=? D)%nat with false by (symmetry; apply Nat.leb_gt; auto). reflexivity. Qed.
End Supp.
Arguments supp {R}.

(** Views built from a contiguous array and effective degree bounds. *)
Section Views.
  Variable R : cring.
  Add Ring Rring17 : (rth R).
  Local Open Scope cr_scope.
  Variable w : Z.
  Hypothesis Hw : (0 < w)%Z.
  Lemma mv_vwf (D : nat) m mn : (0 <= m <= Z.of_nat D)%Z -> (0 <= mn)%Z -> vwf w (make_view (Ptr 0) (tensor_basis w (Z.of_nat D)) mn m) 0.
  Proof.
    intros Hm Hn. unfold make_view. destruct (Z.eqb_spec m (-1)); [lia|]. constructor; cbn [v_basis v_it v_min v_max]; try lia.
    - eexists. split; [reflexivity|lia].
    - apply contig_ptr.
  Qed.
  Lemma mv_max b mn m : (0 <= m)%Z -> v_max (make_view (Ptr 0) b mn m) = m.
  Proof. intros H. unfold make_view. destruct (Z.eqb_spec m (-1)); [lia|reflexivity]. Qed.
  Lemma mv_min b mn m : v_min (make_view (Ptr 0) b mn m) = mn.
  Proof. reflexivity. Qed.
  Lemma mv_fits (D D' : nat) m mn (b : buf R) : (0 <= m <= Z.of_nat D)%Z -> blen b = words_below w (S D) ->
    fits w (make_view (Ptr 0) (tensor_basis w (Z.of_nat D')) mn m) 0 b.
  Proof.
    intros Hm Hb. unfold fits. rewrite mv_max by lia. rewrite Hb. assert (X := words_below_mono w Hw (Z.to_nat (m + 1)) (S D) ltac:(lia)). lia.
  Qed.
  Lemma den_agree (D : nat) (a : dtensor R) bs m u : (0 <= m <= Z.of_nat D)%Z -> letters_ok w u -> (Z.of_nat (length u) <= m)%Z ->
    den w (make_view (Ptr 0) bs 0 m) 0 (t_data a) u = tv w D a u.
  Proof.
    intros Hm Hu Hl. rewrite tv_ok by (auto; lia). unfold den.
    replace (in_rng (make_view (Ptr 0) bs 0 m) (Z.of_nat (length u))) with true; [reflexivity|].
    symmetry. apply in_rng_true. rewrite mv_max, mv_min by lia. lia.
  Qed.

  (** call_config bounds. *)
  Definition eff (D x : Z) : Z := if (x =? -1)%Z || (D <? x)%Z then D else x.
  Lemma update_bounds_spec D x : (0 <= D)%Z ->
    update_bounds (tensor_basis w D) x 0 = if (x <? -1)%Z then Throw else Ok (0%Z, eff D x).
  Proof.
    intros HD. unfold update_bounds, eff. cbn [tensor_basis b_depth]. rewrite !Z.gtb_ltb.
    destruct (Z.eqb_spec x (-1)) as [->|H1]; cbn [orb].
    - destruct (Z.ltb_spec D 0); [lia|]. reflexivity.
    - destruct (Z.ltb_spec D x) as [H2|H2].
      + destruct (Z.ltb_spec D 0); [lia|]. destruct (Z.ltb_spec x (-1)); [lia|]. reflexivity.
      + destruct (Z.ltb_spec x (-1)); destruct (Z.ltb_spec x 0); try lia; reflexivity.
  Qed.
  Lemma eff_bound D x : (0 <= D)%Z -> (-1 <= x)%Z -> (0 <= eff D x <= D)%Z.
  Proof.
    intros HD Hx. unfold eff. destruct (Z.eqb_spec x (-1)); cbn [orb]; [lia|]. destruct (Z.ltb_spec D x); lia.
  Qed.
  Lemma eff_m1 D : eff D (-1) = D. Proof. reflexivity. Qed.
  Lemma eff_le D x : (0 <= x <= D)%Z -> eff D x = x.
  Proof. intros H. unfold eff. destruct (Z.eqb_spec x (-1)); [lia|]. destruct (Z.ltb_spec D x); [lia|reflexivity]. Qed.
  Lemma eff_min D x : (0 <= x)%Z -> eff D x = Z.min D x.
  Proof. intros H. unfold eff. destruct (Z.eqb_spec x (-1)); [lia|]. destruct (Z.ltb_spec D x); cbn [orb]; lia. Qed.

  (** The dense multiply-add call. *)
  Definition tvb (D : nat) (b : buf R) : tens R Z := fun u => if (length u <=? D)%nat && okw w u then bat b (pos w u) else 0.
  Lemma tvb_ok D b u : letters_ok w u -> (length u <= D)%nat -> tvb D b u = bat b (pos w u).
  Proof.
    intros Hu Hl. unfold tvb. apply okw_true in Hu. rewrite Hu. replace (length u <=? D)%nat with true by (symmetry; apply Nat.leb_le; auto). reflexivity.
  Qed.
  Lemma supp_tvb D b : supp w (tvb D b).
  Proof. intros u Hu. unfold tvb. rewrite Hu, andb_false_r. reflexivity. Qed.
  Lemma tvb_deep D b u : (D < length u)%nat -> tvb D b u = 0.
  Proof. intros Hl. unfold tvb. replace (length u <=? D)%nat with false by (symmetry; apply Nat.leb_gt; auto). reflexivity. Qed.
  Lemma den_tvb bs (m : nat) (b : buf R) u : letters_ok w u -> den w (make_view (Ptr 0) bs 0 (Z.of_nat m)) 0 b u = tvb m b u.
  Proof.
    intros Hu. unfold den, tvb. apply okw_true in Hu. rewrite Hu, andb_true_r.
    replace (in_rng (make_view (Ptr 0) bs 0 (Z.of_nat m)) (Z.of_nat (length u))) with (length u <=? m)%nat; [destruct (length u <=? m)%nat; reflexivity|].
    apply eq_true_iff_eq. rewrite in_rng_true, mv_max, mv_min, Nat.leb_le by lia. lia.
  Qed.
  Lemma conv_ok (a a' b b' : tens R Z) u : letters_ok w u -> (forall v, letters_ok w v -> a v = a' v) -> (forall v, letters_ok w v -> b v = b' v) ->
    conv a b u = conv a' b' u.
  Proof.
    intros Hu Ha Hb. unfold conv. apply sum_ext. intros k _. rewrite Ha, Hb by (auto using letters_ok_firstn, letters_ok_skipn). reflexivity.
  Qed.

  Lemma dense_ft_fma_spec (D : nat) od ld rd (ob lb rb : buf R) :
    (-1 <= od)%Z -> (-1 <= ld)%Z -> (-1 <= rd)%Z ->
    (words_below w (S (Z.to_nat (eff (Z.of_nat D) od))) <= blen ob)%Z ->
    (words_below w (S (Z.to_nat (eff (Z.of_nat D) ld))) <= blen lb)%Z ->
    (words_below w (S (Z.to_nat (eff (Z.of_nat D) rd))) <= blen rb)%Z ->
    exists ob', dense_ft_fma ob lb rb (tensor_basis w (Z.of_nat D)) od ld rd = Ok ob' /\ blen ob' = blen ob /\
      (forall u, letters_ok w u -> (Z.of_nat (length u) <= eff (Z.of_nat D) od)%Z ->
         bat ob' (pos w u) = bat ob (pos w u) +
           conv (tvb (Z.to_nat (eff (Z.of_nat D) ld)) lb) (tvb (Z.to_nat (eff (Z.of_nat D) rd)) rb) u) /\
      (forall k, ~ (0 <= k < words_below w (S (Z.to_nat (eff (Z.of_nat D) od))))%Z -> bat ob' k = bat ob k).
  Proof.
    intros H1 H2 H3 F1 F2 F3. unfold dense_ft_fma. rewrite !update_bounds_spec by lia.
    destruct (Z.ltb_spec od (-1)); [lia|]. destruct (Z.ltb_spec ld (-1)); [lia|]. destruct (Z.ltb_spec rd (-1)); [lia|]. cbn [bind].
    assert (B1 := eff_bound (Z.of_nat D) od ltac:(lia) H1). assert (B2 := eff_bound (Z.of_nat D) ld ltac:(lia) H2). assert (B3 := eff_bound (Z.of_nat D) rd ltac:(lia) H3).
    set (eo := eff (Z.of_nat D) od) in *. set (el := eff (Z.of_nat D) ld) in *. set (er := eff (Z.of_nat D) rd) in *.
    assert (Fit : forall m (b : buf R), (0 <= m)%Z -> (words_below w (S (Z.to_nat m)) <= blen b)%Z -> fits w (make_view (Ptr 0) (tensor_basis w (Z.of_nat D)) 0 m) 0 b).
    { intros m b Hm Hb. unfold fits. rewrite mv_max by lia. replace (Z.to_nat (m + 1)) with (S (Z.to_nat m)) by lia. lia. }
    destruct (ft_fma_ok R w Hw (make_view (Ptr 0) (tensor_basis w (Z.of_nat D)) 0 eo) (make_view (Ptr 0) (tensor_basis w (Z.of_nat D)) 0 el)
       (make_view (Ptr 0) (tensor_basis w (Z.of_nat D)) 0 er) 0 0 0 ob lb rb (fun x => x)) as (ob' & E & L & V & K).
    1-3: apply mv_vwf; lia. 1-3: apply Fit; lia.
    exists ob'. split; [exact E|]. split; [exact L|]. split.
    - intros u Hu Hl. rewrite <- (Z.add_0_l (pos w u)), V; auto.
      + f_equal. unfold lcoef. rewrite (pconv_id R w). apply conv_ok; auto; intros v Hv.
        * replace el with (Z.of_nat (Z.to_nat el)) at 1 by lia. apply den_tvb; auto.
        * replace er with (Z.of_nat (Z.to_nat er)) at 1 by lia. apply den_tvb; auto.
      + apply in_rng_true. rewrite mv_max, mv_min by lia. lia.
    - intros k Hk. apply K. intros u Hu Hr E'. apply Hk. apply in_rng_true in Hr. rewrite mv_max, mv_min in Hr by lia.
      rewrite E', Z.add_0_l. apply pos_bound; auto. lia.
  Qed.
End Views.
Arguments tvb {R}.
