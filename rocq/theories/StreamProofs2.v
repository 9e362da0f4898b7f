(** Interval queries of streams, query histories. *)
From Coq Require Import ZifyBool Lqa Qround.
From Verif Require Export StreamProofs.
From Verif Require Import DyadicProofs DyadicProofs2 DyadicProofs3.
Open Scope Z_scope.

Lemma end_to_end_in x y l k n : end_to_end x y l -> In (k, n) l -> (x <= dy k n)%Q /\ (dy (k + 1) n <= y)%Q.
Proof.
  revert x. induction l as [|[k' n'] l IH]; intros x H Hin; [destruct Hin|]. cbn in H. destruct H as [Hx H].
  assert (Hmono : forall l u, end_to_end u y l -> (u <= y)%Q).
  { clear. induction l as [|[k' n'] l IHl]; cbn; intros u H; [rewrite H; apply Qle_refl|]. destruct H as [H1 H2]. eapply Qle_trans; [|apply IHl, H2]. rewrite H1. apply dy_same_le. lia. }
  destruct Hin as [[= -> ->]|Hin].
  - split; [rewrite Hx; apply Qle_refl|]. apply (Hmono l). exact H.
  - destruct (IH _ H Hin) as [H1 H2]. split; auto. rewrite Hx. eapply Qle_trans; [|exact H1]. apply dy_same_le. lia.
Qed.
Lemma floor_grid x tol mx : tol <= mx -> Qfloor (grid_floor x tol * Qpower 2 mx) = Qfloor (x * Qpower 2 tol) * 2 ^ (mx - tol).
Proof.
  intros H. unfold grid_floor. set (F := Qfloor (x * Qpower 2 tol)). assert (E : (dy F tol * Qpower 2 mx == inject_Z (F * 2 ^ (mx - tol)))%Q).
  { unfold dy. rewrite <- Qmult_assoc, <- Qpow2_plus. replace (- tol + mx) with (mx - tol) by lia. rewrite Qpow2_Z by lia. rewrite inject_Z_mult. reflexivity. }
  rewrite E. apply Qfloor_Z.
Qed.
Lemma piece_bounds F G tol k n : n <= tol -> (dy F tol <= dy k n)%Q -> (dy (k + 1) n <= dy G tol)%Q -> F <= k * 2 ^ (tol - n) /\ (k + 1) * 2 ^ (tol - n) <= G.
Proof.
  intros Hn H1 H2. rewrite (dy_scale k n (tol - n)) in H1 by lia. rewrite (dy_scale (k + 1) n (tol - n)) in H2 by lia. replace (n + (tol - n)) with tol in * by lia.
  rewrite dy_same_le in H1, H2. auto.
Qed.
Lemma fits_piece inf sup tol res k n : fits_query inf sup tol res -> n <= tol ->
  (grid_floor inf tol <= dy k n)%Q -> (dy (k + 1) n <= grid_floor sup tol)%Q ->
  (n <= res -> - 2 ^ 28 <= k * 2 ^ (res - n) /\ (k + 1) * 2 ^ (res - n) <= 2 ^ 28 /\ res - n <= 28) /\
  (res < n -> n - res <= 30 /\ n <= 2 ^ 28 /\ - 2 ^ 28 <= k < 2 ^ 28).
Proof.
  intros (Ht & Hr & Hd & Hw) Hn H1 H2. assert (W1 := Hw inf (or_introl eq_refl)). assert (W2 := Hw sup (or_intror eq_refl)).
  rewrite floor_grid in W1, W2 by lia. unfold grid_floor in H1, H2. set (F := Qfloor (inf * Qpower 2 tol)) in *. set (G := Qfloor (sup * Qpower 2 tol)) in *.
  destruct (piece_bounds F G tol k n Hn H1 H2) as [B1 B2]. assert (P1 := pow2_pos (tol - n) ltac:(lia)). split.
  - intros Hle. assert (P2 := pow2_pos (res - n) ltac:(lia)).
    assert (Main : - 2 ^ 28 <= k * 2 ^ (res - n) /\ (k + 1) * 2 ^ (res - n) <= 2 ^ 28).
    { destruct (Z_le_gt_dec tol res) as [Htr|Htr].
      - rewrite Z.max_r in W1, W2 by lia. assert (P3 := pow2_pos (res - tol) ltac:(lia)).
        assert (E : 2 ^ (res - n) = 2 ^ (tol - n) * 2 ^ (res - tol)) by (rewrite <- Z.pow_add_r by lia; f_equal; lia). rewrite E. nia.
      - rewrite Z.max_l in W1, W2 by lia. rewrite Z.sub_diag, Z.pow_0_r in *. assert (P3 := pow2_pos (tol - res) ltac:(lia)).
        assert (E : 2 ^ (tol - n) = 2 ^ (res - n) * 2 ^ (tol - res)) by (rewrite <- Z.pow_add_r by lia; f_equal; lia). rewrite E in *.
        assert (A1 : k * 2 ^ (res - n) >= 0 \/ k * 2 ^ (res - n) >= k * (2 ^ (res - n) * 2 ^ (tol - res))) by (destruct (Z_le_gt_dec 0 k); [left|right]; nia).
        assert (A2 : (k + 1) * 2 ^ (res - n) <= 0 \/ (k + 1) * 2 ^ (res - n) <= (k + 1) * (2 ^ (res - n) * 2 ^ (tol - res))) by (destruct (Z_le_gt_dec (k + 1) 0); [left|right]; nia).
        lia. }
    repeat split; try tauto. apply (Z.pow_le_mono_r_iff 2); [lia|lia|]. destruct (Z_le_gt_dec 0 k); nia.
  - intros Hlt. rewrite Z.max_l in W1, W2 by lia. rewrite Z.sub_diag, Z.pow_0_r in *. repeat split; try lia; nia.
Qed.
Lemma fits_window inf sup tol res : fits_query inf sup tol res -> - 2 ^ 28 <= tol <= 2 ^ 28 /\ window inf tol /\ window sup tol.
Proof.
  intros (Ht & Hr & Hd & Hw). assert (W1 := Hw inf (or_introl eq_refl)). assert (W2 := Hw sup (or_intror eq_refl)). rewrite floor_grid in W1, W2 by lia.
  assert (P := pow2_pos (Z.max tol res - tol) ltac:(lia)). unfold window. split; [lia|]. split; nia.
Qed.

Lemma loop1_more f : forall g b e acc r, tdi_loop1 f b e acc = Ok r -> (f <= g)%nat -> tdi_loop1 g b e acc = Ok r.
Proof.
  induction f as [|f IH]; intros g b e acc r H Hg; [discriminate|]. destruct g as [|g]; [lia|]. cbn [tdi_loop1] in *.
  destruct (contains_dyadic b e) as [[]| | |]; cbn [bind] in *; try discriminate; auto.
  destruct (expand_interval b 1) as [nx| | |]; cbn [bind] in *; try discriminate. destruct (aligned b) as [[]| | |]; cbn [bind] in *; try discriminate.
  - apply IH; auto. lia.
  - destruct (shrink_to_omitted_end nx) as [pc| | |]; cbn [bind] in *; try discriminate. destruct (advance nx) as [nx'| | |]; cbn [bind] in *; try discriminate. apply IH; auto. lia.
Qed.
Lemma loop2_more f : forall g b e n acc r, tdi_loop2 f b e n acc = Ok r -> (f <= g)%nat -> tdi_loop2 g b e n acc = Ok r.
Proof.
  induction f as [|f IH]; intros g b e n acc r H Hg; [discriminate|]. destruct g as [|g]; [lia|]. cbn [tdi_loop2] in *.
  destruct (expand_interval n 1) as [nx| | |]; cbn [bind] in *; try discriminate.
  destruct (contains_dyadic b nx) as [[]| | |]; cbn [bind] in *; try discriminate; auto.
  destruct (aligned e) as [[]| | |]; cbn [bind] in *; try discriminate.
  - apply IH; auto. lia.
  - destruct (shrink_to_contained_end nx 1) as [pc| | |]; cbn [bind] in *; try discriminate. apply IH; auto. lia.
Qed.
Lemma tdi_more f g inf sup tol t l : to_dyadic_intervals f inf sup tol t = Ok l -> (f <= g)%nat -> to_dyadic_intervals g inf sup tol t = Ok l.
Proof.
  intros H Hg. unfold to_dyadic_intervals in *.
  destruct (di_of_param (match t with Clopen => inf | Opencl => sup end) tol t) as [b| | |]; cbn [bind] in *; try discriminate.
  destruct (di_of_param (match t with Clopen => sup | Opencl => inf end) tol t) as [e| | |]; cbn [bind] in *; try discriminate.
  destruct (tdi_loop1 f b e []) as [[b' l1]| | |] eqn:E1; cbn [bind] in *; try discriminate. rewrite (loop1_more f g _ _ _ _ E1 Hg). cbn [bind].
  destruct (tdi_loop2 f b' e e []) as [l2| | |] eqn:E2; cbn [bind] in *; try discriminate. rewrite (loop2_more f g _ _ _ _ _ E2 Hg). cbn [bind]. exact H.
Qed.

Section Queries.
  Variable lie : Type.
  Variable is_zero : lie -> bool.
  Variable lie_none : lie.
  Hypothesis none_zero : is_zero lie_none = true.
  Variable S : sigs lie.
  Variable ok : lie -> Prop.
  Variable ctx : actx lie.
  Hypothesis HS : sound is_zero S ok ctx.
  Variable s : stream lie.
  Notation d := (st_data s).
  Notation res := (st_res s).
  Hypothesis Hasc : ascending d.
  Hypothesis Hok : Forall (fun e => ok (snd e)) d.
  Infix "===" := (sg_eq S) (at level 70).
  Notation cinv := (cinv lie ctx d res).
  Notation contrib := (contrib lie d res).

  Lemma pieces_ok inf sup tol l : fits_query inf sup tol res -> Forall (fun i => di_t i = Clopen /\ di_n i <= tol) l ->
    (forall i, In i l -> (grid_floor inf tol <= dy (di_k i) (di_n i))%Q /\ (dy (di_k i + 1) (di_n i) <= grid_floor sup tol)%Q) ->
    exists xs, Forall ok xs /\ sg_prod S xs === sg_prod S (map snd (flat_map (fun i => contrib (di_k i) (di_n i)) l)) /\
      forall fuel c, (31 <= fuel)%nat -> cinv c -> exists c', layer_pieces is_zero lie_none fuel d res ctx c l = Ok (xs, c') /\ cinv c'.
  Proof.
    intros Hfit Hl Hin. induction l as [|i l IH].
    - exists []. split; [constructor|]. split; [apply (sd_refl _ _ _ _ HS)|]. intros fuel c _ Hc. exists c. auto.
    - destruct (IH (Forall_inv_tail Hl)) as (xs & Oxs & Pxs & Fxs); [intros; apply Hin; right; auto|].
      destruct (Forall_inv Hl) as [Ti Ni]. destruct (Hin i (or_introl eq_refl)) as [B1 B2].
      destruct (fits_piece inf sup tol res (di_k i) (di_n i) Hfit Ni B1 B2) as [HC HFi]. assert (Hr := proj1 (proj2 Hfit)).
      assert (Ex : exists x, good lie is_zero S ok x (psig lie S (contrib (di_k i) (di_n i))) /\ forall fuel c, (31 <= fuel)%nat -> cinv c ->
         exists c', layer_dyadic is_zero lie_none fuel d res ctx c i = Ok (x, c') /\ cinv c').
      { destruct (Z_le_gt_dec (di_n i) res) as [Hc|Hc].
        - destruct (HC Hc) as (C1 & C2 & C3).
          destruct (layer_coarse lie is_zero lie_none none_zero S ok ctx HS d Hasc Hok res Hr (Z.to_nat (res - di_n i)) i Ti) as (x & Gx & Fx); try (rewrite Z2Nat.id by lia; auto; lia).
          exists x. unfold contrib at 1. rewrite (proj2 (Z.leb_le _ _)) by lia. split; auto. intros fuel c Hf Hcc. apply Fx; auto. lia.
        - destruct (HFi ltac:(lia)) as (C1 & C2 & C3).
          destruct (layer_fine lie is_zero lie_none none_zero S ok ctx HS d Hasc Hok res Hr i Ti ltac:(lia) C1 C2 C3) as (x & Gx & Fx). exists x. split; auto. intros fuel c Hf Hcc. apply Fx; auto. lia. }
      destruct Ex as (x & [Gx Ox] & Fx). exists (if is_zero x then xs else x :: xs). split; [destruct (is_zero x) eqn:E; auto|]. split.
      + cbn [flat_map]. rewrite map_app. apply (sd_sym _ _ _ _ HS). eapply (sd_trans _ _ _ _ HS); [apply (prod_app lie is_zero S ok ctx HS)|]. unfold psig in Gx. destruct (is_zero x) eqn:E.
        * eapply (sd_trans _ _ _ _ HS); [|exact (sd_sym _ _ _ _ HS _ _ Pxs)]. eapply (sd_trans _ _ _ _ HS); [|apply (sd_one_l _ _ _ _ HS)]. apply (sd_mul _ _ _ _ HS); [|apply (sd_refl _ _ _ _ HS)].
          eapply (sd_trans _ _ _ _ HS); [apply (sd_sym _ _ _ _ HS); exact Gx|]. apply (sd_is_zero _ _ _ _ HS); auto.
        * cbn [sg_prod fold_right]. apply (sd_mul _ _ _ _ HS); apply (sd_sym _ _ _ _ HS); auto.
      + intros fuel c Hf Hc. cbn [layer_pieces]. destruct (Fx fuel c Hf Hc) as (c1 & E1 & Hc1). rewrite E1. cbn [bind]. destruct (Fxs fuel c1 Hf Hc1) as (c2 & E2 & Hc2). rewrite E2. cbn [bind].
        exists c2. auto.
  Qed.

  (** Query of an interval at a resolution: general form. *)
  Theorem stream_impl_ok q tol : (ri_inf q <= ri_sup q)%Q -> fits_query (ri_inf q) (ri_sup q) tol res ->
    exists l x, to_dyadic_intervals 31 (ri_inf q) (ri_sup q) tol Clopen = Ok l /\
      Forall (fun i => di_t i = Clopen /\ di_n i <= tol) l /\ end_to_end (grid_floor (ri_inf q) tol) (grid_floor (ri_sup q) tol) (map cell l) /\
      ok x /\ sg_of S x === sg_prod S (map snd (flat_map (fun i => contrib (di_k i) (di_n i)) l)) /\
      forall fuel c, (31 <= fuel)%nat -> cinv c -> exists c', stream_impl is_zero lie_none fuel s c q tol ctx = Ok (x, c') /\ cinv c'.
  Proof.
    intros Hle Hfit. destruct (fits_window _ _ _ _ Hfit) as (Ht & W1 & W2).
    destruct (dissection_correct _ _ tol Hle Ht W1 W2 31 (le_n _)) as (l & El & Hl & HE).
    destruct (pieces_ok _ _ tol l Hfit Hl) as (xs & Oxs & Pxs & Fxs).
    { intros i Hi. apply (end_to_end_in _ _ _ (di_k i) (di_n i) HE). apply (in_map cell) in Hi. exact Hi. }
    exists l, (cx_cbh ctx xs). repeat (split; auto); [apply (sd_cbh_ok _ _ _ _ HS); auto|eapply (sd_trans _ _ _ _ HS); [apply (sd_cbh _ _ _ _ HS); auto|exact Pxs]|].
    intros fuel c Hf Hc. unfold stream_impl. rewrite (tdi_more 31 fuel _ _ _ _ _ El Hf). cbn [bind].
    destruct (Fxs fuel c Hf Hc) as (c1 & E1 & Hc1). rewrite E1. cbn [bind]. exists c1. auto.
  Qed.

  Lemma e2e_le (l : list (Z * Z)) : forall u y, end_to_end u y l -> (u <= y)%Q.
  Proof. induction l as [|[k' n'] l IHl]; cbn; intros u y H; [rewrite H; apply Qle_refl|]. destruct H as [H1 H2]. eapply Qle_trans; [|apply IHl, H2]. rewrite H1. apply dy_same_le. lia. Qed.
  Lemma flat_coarse l : forall x y, end_to_end x y (map cell l) -> Forall (fun i => di_n i <= res) l ->
    flat_map (fun i => contrib (di_k i) (di_n i)) l = filter (inb lie x y) d.
  Proof.
    induction l as [|i l IH]; intros x y HE HF; cbn [map flat_map] in *.
    - symmetry. apply filter_none. intros e _. destruct (inb lie x y e) eqn:E; auto. apply inb_iff in E. cbn in HE. rewrite HE in E. exfalso. lra.
    - cbn [cell end_to_end] in HE. destruct HE as [Hx HE]. rewrite (IH _ _ HE (Forall_inv_tail HF)). unfold contrib at 1. unfold StreamProofs.contrib. rewrite (proj2 (Z.leb_le _ _) (Forall_inv HF)).
      unfold part. symmetry. erewrite (filter_ext' lie x (dy (di_k i) (di_n i)) y y); [|exact Hx|reflexivity]. apply filter_split; auto; [apply dy_same_le; lia|]. apply (e2e_le _ _ _ HE).
  Qed.

  (** Query at a resolution not finer than the stream's. *)
  Theorem stream_impl_coarse q tol : (ri_inf q <= ri_sup q)%Q -> fits_query (ri_inf q) (ri_sup q) tol res -> tol <= res ->
    exists x, ok x /\ sg_of S x === sg_prod S (within (grid_floor (ri_inf q) tol) (grid_floor (ri_sup q) tol) d) /\
      forall fuel c, (31 <= fuel)%nat -> cinv c -> exists c', stream_impl is_zero lie_none fuel s c q tol ctx = Ok (x, c') /\ cinv c'.
  Proof.
    intros Hle Hfit Htr. destruct (stream_impl_ok q tol Hle Hfit) as (l & x & El & Hl & HE & Ox & Px & Fx). exists x. repeat (split; auto).
    rewrite (flat_coarse l _ _ HE) in Px; [exact Px|]. eapply Forall_impl; [|exact Hl]. cbn. intros i [_ ?]. lia.
  Qed.
End Queries.
