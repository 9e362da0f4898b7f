(** Exponential, logarithm, signatures; strided views; word numbering. *)
From Verif Require Export TensorLemmas.

(** Lie elements: generated from degree one by sums, multiples and brackets. *)
Inductive lie_elt {R : cring} : tens R Z -> Prop :=
| le_one x : (forall u, length u <> 1%nat -> x u = r0) -> lie_elt x
| le_add x y : lie_elt x -> lie_elt y -> lie_elt (tadd x y)
| le_scal c x : lie_elt x -> lie_elt (tscal c x)
| le_bracket x y : lie_elt x -> lie_elt y -> lie_elt (comm x y).
Lemma lie_primitive (R : cring) N (x : tens R Z) : lie_elt x -> primitive N x.
Proof.
  induction 1; [apply primitive_letters; auto|apply primitive_add; auto|apply primitive_scal; auto|apply primitive_comm; auto].
Qed.
(** A tensor whose coefficients up to depth D are those of a Lie element. *)
Definition lie_tensor {R : cring} (w : Z) (D Dx : nat) (x : dtensor R) : Prop :=
  exists y, lie_elt y /\ agree D (tv w Dx x) y.

Section ExpLog.
  Variable R : qalg.
  Add Ring Rring22 : (rth (qr R)).
  Notation buf := (buf (qr R)).
  Notation dtensor := (dtensor (qr R)).
  Local Open Scope cr_scope.
  Variable w : Z.
  Hypothesis Hw : (0 < w)%Z.
  Implicit Types (a b c p q r s l g h x : dtensor).

  Lemma agree_tpoly D N f (x y : tens (qr R) Z) : agree D x y -> agree D (tpoly N f x) (tpoly N f y).
  Proof. intros H u Hl. apply tpoly_local. intros v Hv. apply H. lia. Qed.
  Lemma noconst_id D (x : tens (qr R) Z) : x [] = 0 -> agree D (noconst R x) x.
  Proof. intros H u _. destruct u; [symmetry; auto|reflexivity]. Qed.
  Lemma noconst_sub D (g : tens (qr R) Z) : g [] = 1 -> agree D (noconst R g) (tsub g tone).
  Proof. intros H u _. destruct u; unfold tsub, tone, noconst; [rewrite H; ring|ring]. Qed.
  Lemma tv_nil D x : tv w D x [] = bat (t_data x) 0%Z.
  Proof. unfold tv. cbn [length okw forallb]. reflexivity. Qed.

  (** ** C20 *)
  Theorem log_exp D x : tensor_ok w D x -> bat (t_data x) 0%Z = 0 ->
    exists g y, py_ft_exp x (tensor_basis w (Z.of_nat D)) = Ok g /\ py_ft_log g (tensor_basis w (Z.of_nat D)) = Ok y /\ agree D (tv w D y) (tv w D x).
  Proof.
    intros Hx H0. destruct (py_ft_exp_spec R w Hw D D x Hx (le_n D)) as (g & E1 & K1 & V1).
    destruct (py_ft_log_spec R w Hw D D g K1 (le_n D)) as (y & E2 & K2 & V2).
    exists g, y. repeat (split; auto).
    assert (X0 : noconst R (tv w D x) [] = 0) by reflexivity.
    assert (G0 : tv w D g [] = 1) by (rewrite V1 by (cbn; lia); apply texp_nil; auto).
    intros u Hl. rewrite V2 by auto. unfold tlog1p.
    rewrite (agree_tpoly D D (plog R) _ (tsub (tv w D g) tone) (noconst_sub D _ G0) u Hl).
    rewrite (agree_tpoly D D (plog R) _ (tsub (texp D (noconst R (tv w D x))) tone)); auto.
    2:{ intros v Hv. unfold tsub. rewrite V1 by auto. reflexivity. }
    change (tlog D (texp D (noconst R (tv w D x))) u = tv w D x u).
    rewrite tlog_texp by auto. apply (noconst_id D); auto. 
  Qed.
  Theorem exp_log D g : tensor_ok w D g -> bat (t_data g) 0%Z = 1 ->
    exists x h, py_ft_log g (tensor_basis w (Z.of_nat D)) = Ok x /\ py_ft_exp x (tensor_basis w (Z.of_nat D)) = Ok h /\ agree D (tv w D h) (tv w D g).
  Proof.
    intros Hg H1. destruct (py_ft_log_spec R w Hw D D g Hg (le_n D)) as (x & E1 & K1 & V1).
    destruct (py_ft_exp_spec R w Hw D D x K1 (le_n D)) as (h & E2 & K2 & V2).
    exists x, h. repeat (split; auto).
    assert (G0 : tv w D g [] = 1) by (rewrite tv_nil; auto).
    assert (V1' : agree D (tv w D x) (tlog D (tv w D g))).
    { intros u Hl. rewrite V1 by auto. apply (agree_tpoly D); auto. apply noconst_sub; auto. }
    assert (X0 : tv w D x [] = 0) by (rewrite V1' by (cbn; lia); apply tlog_nil; auto).
    intros u Hl. rewrite V2 by auto. unfold texp. rewrite (agree_tpoly D D (invfact R) _ _ (noconst_id D _ X0) u Hl).
    rewrite (agree_tpoly D D (invfact R) _ _ V1' u Hl). apply (texp_tlog R Z D (tv w D g) u); auto.
  Qed.
  (** fmexp against exp and mul. *)
  Theorem fmexp_is_mul_exp D a x : tensor_ok w D a -> tensor_ok w D x ->
    exists r e p, py_ft_fmexp a x (tensor_basis w (Z.of_nat D)) = Ok r /\ py_ft_exp x (tensor_basis w (Z.of_nat D)) = Ok e /\ py_ft_mul a e = Ok p /\
      agree D (tv w D r) (tv w D p).
  Proof.
    intros Ha Hx. destruct (py_ft_fmexp_spec R w Hw D D D a x Ha Hx (le_n D) (le_n D)) as (r & E1 & K1 & V1).
    destruct (py_ft_exp_spec R w Hw D D x Hx (le_n D)) as (e & E2 & K2 & V2).
    destruct (py_ft_mul_spec (qr R) w Hw D D a e Ha K2) as (p & E3 & K3 & V3).
    exists r, e, p. repeat (split; auto). apply agree_trans with (1 := V1). apply agree_sym. apply agree_trans with (1 := V3).
    apply agree_conv; auto. apply agree_refl.
  Qed.

  (** ** C23 *)
  Inductive signature (D : nat) : dtensor -> Prop :=
  | sig_exp Dx x g : tensor_ok w Dx x -> (D <= Dx)%nat -> lie_tensor w D Dx x ->
      py_ft_exp x (tensor_basis w (Z.of_nat D)) = Ok g -> signature D g
  | sig_mul g h r : signature D g -> signature D h -> py_ft_mul g h = Ok r -> signature D r
  | sig_fmexp g Dx x r : signature D g -> tensor_ok w Dx x -> (D <= Dx)%nat -> lie_tensor w D Dx x ->
      py_ft_fmexp g x (tensor_basis w (Z.of_nat D)) = Ok r -> signature D r.
  Lemma lie_noconst D Dx x : lie_tensor w D Dx x -> primitive D (noconst R (tv w Dx x)).
  Proof.
    intros (y & Hy & Hag). apply (lie_primitive (qr R) D) in Hy. apply primitive_local with (2 := Hy). intros u Hl. unfold noconst.
    destruct u as [|z u]; [apply Hy|]. symmetry. apply Hag; auto.
  Qed.
  Theorem signature_grouplike D g : signature D g -> tensor_ok w D g /\ grouplike D (tv w D g).
  Proof.
    induction 1 as [Dx x g Hx HD HL E|g h r Hg [Kg Gg] Hh [Kh Gh] E|g Dx x r Hg [Kg Gg] Hx HD HL E].
    - destruct (py_ft_exp_spec R w Hw Dx D x Hx HD) as (g' & E' & K & V). rewrite E in E'. injection E' as <-. split; auto.
      apply grouplike_local with (g := texp D (noconst R (tv w Dx x))); [intros u Hl; symmetry; auto|]. apply grouplike_exp, lie_noconst; auto.
    - destruct (py_ft_mul_spec (qr R) w Hw D D g h Kg Kh) as (r' & E' & K & V). rewrite E in E'. injection E' as <-. split; auto.
      apply grouplike_local with (g := conv (tv w D g) (tv w D h)); [intros u Hl; symmetry; auto|]. apply grouplike_conv; auto.
    - destruct (py_ft_fmexp_spec R w Hw D Dx D g x Kg Hx (le_n D) HD) as (r' & E' & K & V). rewrite E in E'. injection E' as <-. split; auto.
      apply grouplike_local with (g := conv (tv w D g) (texp D (noconst R (tv w Dx x)))); [intros u Hl; symmetry; auto|].
      apply grouplike_conv; auto. apply grouplike_exp, lie_noconst; auto.
  Qed.
  Theorem signature_shuffle D g u v : signature D g -> (length u + length v <= D)%nat ->
    sum (shuffles u v) (tv w D g) = tv w D g u * tv w D g v.
  Proof. intros H Hl. apply signature_grouplike in H. destruct H as [_ [_ H]]. symmetry. auto. Qed.
  Theorem signature_constant D g : signature D g -> bat (t_data g) 0%Z = 1.
  Proof. intros H. apply signature_grouplike in H. destruct H as [_ [H _]]. rewrite tv_nil in H. auto. Qed.

  (** ** C16: inverse *)
  Theorem antipode_inverse D g : signature D g -> (1 <= D)%nat ->
    exists h p q, py_antipode g = Ok h /\ py_ft_mul h g = Ok p /\ py_ft_mul g h = Ok q /\ agree D (tv w D p) tone /\ agree D (tv w D q) tone.
  Proof.
    intros Hs HD. apply signature_grouplike in Hs. destruct Hs as [K G].
    destruct (py_antipode_spec (qr R) w Hw D g K HD) as (h & E1 & K1 & V1).
    destruct (py_ft_mul_spec (qr R) w Hw D D h g K1 K) as (p & E2 & K2 & V2).
    destruct (py_ft_mul_spec (qr R) w Hw D D g h K K1) as (q & E3 & K3 & V3).
    exists h, p, q. repeat (split; auto).
    - apply agree_trans with (1 := V2). apply agree_trans with (conv (anti (tv w D g)) (tv w D g)); [apply agree_conv; auto; apply agree_refl|].
      intros u Hl. apply grouplike_inverse_l with (N := D); auto.
    - apply agree_trans with (1 := V3). apply agree_trans with (conv (tv w D g) (anti (tv w D g))); [apply agree_conv; auto; apply agree_refl|].
      intros u Hl. apply grouplike_inverse_r with (N := D); auto.
  Qed.
End ExpLog.

(** ** C25 *)
(** Two views of the same cells, whatever kind of iterator. *)
Definition alike (o : Z) (v v' : view) : Prop :=
  contig (v_it v) o /\ contig (v_it v') o /\ v_basis v' = v_basis v /\ v_min v' = v_min v /\ v_max v' = v_max v.
Lemma alike_ptr_stride1 o b mn mx : alike o (mkView (Ptr o) b mn mx) (mkView (Strided o 1) b mn mx).
Proof. repeat split; cbn; intros; lia. Qed.
Lemma alike_refl o v : contig (v_it v) o -> alike o v v. Proof. intros H. repeat split; auto; apply H. Qed.

Section Strided.
  Variable R : cring.
  Add Ring Rring23 : (rth R).
  Notation buf := (buf R).
  Local Open Scope cr_scope.
  Variable w : Z.
  Hypothesis Hw : (0 < w)%Z.

  Definition same (o1 o2 : outcome buf) : Prop := exists b1 b2, o1 = Ok b1 /\ o2 = Ok b2 /\ blen b1 = blen b2 /\ forall k, bat b1 k = bat b2 k.

  Lemma alike_vwf o v v' : alike o v v' -> vwf w v o -> vwf w v' o.
  Proof. intros (A1 & A2 & A3 & A4 & A5) [X1 X2 X3 X4 X5]. constructor; rewrite ?A3, ?A4, ?A5; auto. Qed.
  Lemma alike_fits o v v' (b : buf) : alike o v v' -> fits w v o b -> fits w v' o b.
  Proof. intros (A1 & A2 & A3 & A4 & A5) F. unfold fits in *. rewrite A5. auto. Qed.
  Lemma alike_rng o v v' n : alike o v v' -> in_rng v' n = in_rng v n.
  Proof. intros (A1 & A2 & A3 & A4 & A5). unfold in_rng. rewrite A4, A5. reflexivity. Qed.

  Lemma wb_ge n : (Z.of_nat n <= words_below w n)%Z.
  Proof. induction n as [|n IH]; [cbn; lia|]. cbn [words_below]. assert (P := pow_pos w Hw n). lia. Qed.
  Lemma range_dec (Q : nat -> bool) o k :
    (exists u, letters_ok w u /\ Q (length u) = true /\ k = (o + pos w u)%Z) \/ (forall u, letters_ok w u -> Q (length u) = true -> k <> (o + pos w u)%Z).
  Proof.
    destruct (Z_lt_ge_dec (k - o) 0) as [L|G].
    - right. intros u Hu _ E. assert (X := pos_bound w Hw u (length u) Hu (le_n _)). lia.
    - destruct (pos_surj w Hw (Z.to_nat (k - o)) (k - o)) as (u & Hu & Hl & E).
      { assert (X := wb_ge (S (Z.to_nat (k - o)))). lia. }
      destruct (Q (length u)) eqn:EQ.
      + left. exists u. repeat split; auto. lia.
      + right. intros v Hv HQ E'. assert (v = u) by (apply (pos_inj w Hw); auto; lia). subst. congruence.
  Qed.

  Theorem fma_alike out lhs rhs out' lhs' rhs' oo lo ro (ob lb rb : buf) op :
    alike oo out out' -> alike lo lhs lhs' -> alike ro rhs rhs' ->
    vwf w out oo -> vwf w lhs lo -> vwf w rhs ro -> fits w out oo ob -> fits w lhs lo lb -> fits w rhs ro rb ->
    same (ft_fma out lhs rhs ob lb rb op) (ft_fma out' lhs' rhs' ob lb rb op).
  Proof.
    intros Ao Al Ar Ho Hl Hr Fo Fl Fr.
    destruct (ft_fma_ok R w Hw out lhs rhs oo lo ro ob lb rb op Ho Hl Hr Fo Fl Fr) as (b1 & E1 & L1 & V1 & K1).
    destruct (ft_fma_ok R w Hw out' lhs' rhs' oo lo ro ob lb rb op) as (b2 & E2 & L2 & V2 & K2); eauto using alike_vwf, alike_fits.
    exists b1, b2. split; [exact E1|split; [exact E2|split; [congruence|]]]. intros k.
    destruct (range_dec (fun n => in_rng out (Z.of_nat n)) oo k) as [(u & Hu & Hq & ->)|H].
    - rewrite V1, V2 by (auto; rewrite (alike_rng oo out) by auto; auto). f_equal. unfold pconv. apply sum_ext. intros i _.
      rewrite (alike_rng lo lhs lhs') by auto. rewrite (alike_rng ro rhs rhs') by auto. reflexivity.
    - rewrite K1 by auto. rewrite K2; auto. intros u Hu Hq. apply H; auto. rewrite <- (alike_rng oo out out') by auto. auto.
  Qed.
  Theorem inplace_alike lhs rhs lhs' rhs' lo ro (b rb : buf) op :
    alike lo lhs lhs' -> alike ro rhs rhs' -> vwf w lhs lo -> vwf w rhs ro -> fits w lhs lo b -> fits w rhs ro rb ->
    same (ft_inplace_mul lhs rhs b rb op) (ft_inplace_mul lhs' rhs' b rb op).
  Proof.
    intros Al Ar Hl Hr Fl Fr.
    destruct (ft_inplace_mul_ok R w Hw lhs rhs lo ro b rb op Hl Hr Fl Fr) as (b1 & E1 & L1 & V1 & K1).
    destruct (ft_inplace_mul_ok R w Hw lhs' rhs' lo ro b rb op) as (b2 & E2 & L2 & V2 & K2); eauto using alike_vwf, alike_fits.
    exists b1, b2. split; [exact E1|split; [exact E2|split; [congruence|]]]. intros k.
    destruct (range_dec (fun n => in_rng lhs (Z.of_nat n)) lo k) as [(u & Hu & Hq & ->)|H].
    - rewrite V1, V2 by (auto; rewrite (alike_rng lo lhs) by auto; auto). unfold pconv. apply sum_ext. intros i _.
      rewrite (alike_rng lo lhs lhs') by auto. rewrite (alike_rng ro rhs rhs') by auto. reflexivity.
    - rewrite K1 by auto. rewrite K2; auto. intros u Hu Hq. apply H; auto. rewrite <- (alike_rng lo lhs lhs') by auto. auto.
  Qed.
  Theorem antipode_alike out arg out' arg' oo ao (ob ab : buf) :
    alike oo out out' -> alike ao arg arg' -> vwf w out oo -> vwf w arg ao -> fits w out oo ob -> fits w arg ao ab ->
    (1 <= v_max out)%Z -> (1 <= v_max arg)%Z ->
    same (ft_antipode out arg ob ab) (ft_antipode out' arg' ob ab).
  Proof.
    intros Ao Aa Ho Ha Fo Fa M1 M2.
    destruct (ft_antipode_ok R w Hw out arg oo ao ob ab Ho Ha Fo Fa M1 M2) as (b1 & E1 & L1 & V1 & K1).
    destruct (ft_antipode_ok R w Hw out' arg' oo ao ob ab) as (b2 & E2 & L2 & V2 & K2); eauto using alike_vwf, alike_fits.
    { destruct Ao as (? & ? & ? & ? & ->). auto. } { destruct Aa as (? & ? & ? & ? & ->). auto. }
    exists b1, b2. split; [exact E1|split; [exact E2|split; [congruence|]]]. intros k.
    destruct (range_dec (fun n => in_rng out (Z.of_nat n) && in_rng arg (Z.of_nat n)) oo k) as [(u & Hu & Hq & ->)|H].
    - apply andb_true_iff in Hq. destruct Hq as [Q1 Q2]. rewrite V1, V2; auto.
      + rewrite (alike_rng oo out) by auto. auto. + rewrite (alike_rng ao arg) by auto. auto.
    - rewrite K1, K2; auto.
      + intros u Hu Q1 Q2. apply H; auto. rewrite (alike_rng oo out out') in Q1 by auto. rewrite (alike_rng ao arg arg') in Q2 by auto. rewrite Q1, Q2. reflexivity.
      + intros u Hu Q1 Q2. apply H; auto. rewrite Q1, Q2. reflexivity.
  Qed.
  Theorem adjoint_alike out op arg out' op' arg' oo po ao (ob pb ab : buf) :
    alike oo out out' -> alike po op op' -> alike ao arg arg' ->
    vwf w out oo -> vwf w op po -> vwf w arg ao -> fits w out oo ob -> fits w op po pb -> fits w arg ao ab ->
    same (ft_adj_lmul out op arg ob pb ab) (ft_adj_lmul out' op' arg' ob pb ab).
  Proof.
    intros Ao Ap Aa Ho Hp Ha Fo Fp Fa.
    destruct (ft_adj_lmul_ok R w Hw out op arg oo po ao ob pb ab Ho Hp Ha Fo Fp Fa) as (b1 & E1 & L1 & V1 & K1).
    destruct (ft_adj_lmul_ok R w Hw out' op' arg' oo po ao ob pb ab) as (b2 & E2 & L2 & V2 & K2); eauto using alike_vwf, alike_fits.
    exists b1, b2. split; [exact E1|split; [exact E2|split; [congruence|]]]. intros k.
    destruct (range_dec (fun n => in_rng out (Z.of_nat n)) oo k) as [(u & Hu & Hq & ->)|H].
    - rewrite V1, V2 by (auto; rewrite (alike_rng oo out) by auto; auto). f_equal. unfold adj_term, adj_amin, adj_amax.
      destruct Ao as (_ & _ & _ & -> & ->), Ap as (_ & _ & _ & M1 & M2), Aa as (_ & _ & _ & -> & ->). rewrite M1, M2.
      apply sum_ext. intros i _. unfold in_rng. rewrite ?M1, ?M2. reflexivity.
    - rewrite K1 by auto. rewrite K2; auto. intros u Hu Hq. apply H; auto. rewrite <- (alike_rng oo out out') by auto. auto.
  Qed.
  Theorem stfma_alike out lhs rhs out' lhs' rhs' oo lo ro (ob lb rb : buf) op :
    alike oo out out' -> alike lo lhs lhs' -> alike ro rhs rhs' ->
    vwf w out oo -> vwf w lhs lo -> vwf w rhs ro -> fits w out oo ob -> fits w lhs lo lb -> fits w rhs ro rb ->
    (v_max lhs <= v_max out)%Z -> (v_max lhs <= v_max rhs)%Z -> (v_max lhs < 64)%Z -> (w <= 32768)%Z ->
    same (st_fma out lhs rhs ob lb rb op) (st_fma out' lhs' rhs' ob lb rb op).
  Proof.
    intros Ao Al Ar Ho Hl Hr Fo Fl Fr M1 M2 M3 H16.
    destruct (st_fma_ok R w Hw H16 out lhs rhs oo lo ro ob lb rb op Ho Hl Hr Fo Fl Fr M1 M2 M3) as (b1 & E1 & L1 & V1 & K1).
    assert (ML : v_max lhs' = v_max lhs) by apply Al. assert (MO : v_max out' = v_max out) by apply Ao. assert (MR : v_max rhs' = v_max rhs) by apply Ar.
    destruct (st_fma_ok R w Hw H16 out' lhs' rhs' oo lo ro ob lb rb op) as (b2 & E2 & L2 & V2 & K2); eauto using alike_vwf, alike_fits; try (rewrite ?ML, ?MO, ?MR; auto; fail).
    exists b1, b2. split; [exact E1|split; [exact E2|split; [congruence|]]]. intros k.
    destruct (range_dec (fun n => (Z.of_nat n <=? v_max lhs)%Z) oo k) as [(u & Hu & Hq & ->)|H].
    - apply Z.leb_le in Hq. rewrite V1, V2 by (auto; rewrite ML; auto). reflexivity.
    - rewrite K1, K2; auto; intros u Hu Hq; apply H; auto; apply Z.leb_le; rewrite ?ML in Hq; auto.
  Qed.
End Strided.

Section Strided2.
  Variable R : qalg.
  Notation buf := (buf (qr R)).
  Variable w : Z.
  Hypothesis Hw : (0 < w)%Z.
  Lemma den_alike o v v' (b : buf) u : alike o v v' -> den w v' o b u = den w v o b u.
  Proof. intros A. unfold den. rewrite (alike_rng o v v') by auto. reflexivity. Qed.
  Lemma noconst_alike o v v' (b : buf) u : alike o v v' -> noconst R (den w v' o b) u = noconst R (den w v o b) u.
  Proof. intros A. unfold noconst. destruct u; [reflexivity|]. apply den_alike; auto. Qed.

  Lemma untouched_same out out' oo (ob b1 b2 : buf) h1 h2 : alike oo out out' -> untouched R w out oo ob b1 -> untouched R w out' oo ob b2 ->
    holds R w oo b1 (v_max out) h1 -> holds R w oo b2 (v_max out') h2 -> (forall u, h2 u = h1 u) ->
    blen b1 = blen b2 /\ forall k, bat b1 k = bat b2 k.
  Proof.
    intros A (L1 & K1) (L2 & K2) V1 V2 H. split; [congruence|]. intros k. assert (M : v_max out' = v_max out) by apply A.
    destruct (range_dec w Hw (fun n => (Z.of_nat n <=? v_max out)%Z) oo k) as [(u & Hu & Hq & ->)|N].
    - apply Z.leb_le in Hq. rewrite V1, V2 by (auto; rewrite M; auto). symmetry. apply H.
    - rewrite K1, K2; auto; intros u Hu Hq; apply N; auto; apply Z.leb_le; rewrite ?M in Hq; auto.
  Qed.
  Theorem exp_alike out arg out' arg' oo ao (ob ab : buf) :
    alike oo out out' -> alike ao arg arg' -> vwf w out oo -> v_min out = 0 -> vwf w arg ao -> fits w out oo ob -> fits w arg ao ab ->
    same (qr R) (ft_exp out arg ob ab) (ft_exp out' arg' ob ab).
  Proof.
    intros Ao Aa Ho Hm Ha Fo Fa.
    destruct (ft_exp_ok R w Hw out arg oo ao ob ab Ho Hm Fo Ha Fa) as (b1 & E1 & U1 & V1).
    assert (Hm' : v_min out' = 0) by (destruct Ao as (_ & _ & _ & -> & _); auto).
    destruct (ft_exp_ok R w Hw out' arg' oo ao ob ab) as (b2 & E2 & U2 & V2); eauto using alike_vwf, alike_fits.
    exists b1, b2. split; [exact E1|split; [exact E2|]]. apply (untouched_same out out' oo ob b1 b2 _ _ Ao U1 U2 V1 V2).
    intros u. assert (M : v_max out' = v_max out) by apply Ao. rewrite M. apply tpoly_local. intros v _. apply noconst_alike; auto.
  Qed.
  Theorem log_alike out arg out' arg' oo ao (ob ab : buf) :
    alike oo out out' -> alike ao arg arg' -> vwf w out oo -> v_min out = 0 -> vwf w arg ao -> fits w out oo ob -> fits w arg ao ab -> 1 <= v_max out ->
    same (qr R) (ft_log out arg ob ab) (ft_log out' arg' ob ab).
  Proof.
    intros Ao Aa Ho Hm Ha Fo Fa H1.
    destruct (ft_log_ok R w Hw out arg oo ao ob ab Ho Hm Fo Ha Fa H1) as (b1 & E1 & U1 & V1).
    assert (Hm' : v_min out' = 0) by (destruct Ao as (_ & _ & _ & -> & _); auto).
    assert (M : v_max out' = v_max out) by apply Ao.
    destruct (ft_log_ok R w Hw out' arg' oo ao ob ab) as (b2 & E2 & U2 & V2); eauto using alike_vwf, alike_fits; [rewrite M; auto|].
    exists b1, b2. split; [exact E1|split; [exact E2|]]. apply (untouched_same out out' oo ob b1 b2 _ _ Ao U1 U2 V1 V2).
    intros u. rewrite M. unfold tadd, tscal. f_equal; [apply tpoly_local|f_equal; apply tpow_local]; intros v _; apply noconst_alike; auto.
  Qed.
  Theorem fmexp_alike out mul ex out' mul' ex' oo mo eo (ob mb eb : buf) :
    alike oo out out' -> alike mo mul mul' -> alike eo ex ex' -> vwf w out oo -> v_min out = 0 -> vwf w mul mo -> v_min mul = 0 -> vwf w ex eo ->
    fits w out oo ob -> fits w mul mo mb -> fits w ex eo eb ->
    same (qr R) (ft_fmexp out mul ex ob mb eb) (ft_fmexp out' mul' ex' ob mb eb).
  Proof.
    intros Ao Am Ae Ho Hm Hmu Hmm He Fo Fm Fe.
    destruct (ft_fmexp_ok R w Hw out mul ex oo mo eo ob mb eb Ho Hm Fo Hmu Hmm Fm He Fe) as (b1 & E1 & U1 & V1).
    assert (Hm' : v_min out' = 0) by (destruct Ao as (_ & _ & _ & -> & _); auto).
    assert (Hmm' : v_min mul' = 0) by (destruct Am as (_ & _ & _ & -> & _); auto).
    destruct (ft_fmexp_ok R w Hw out' mul' ex' oo mo eo ob mb eb) as (b2 & E2 & U2 & V2); eauto using alike_vwf, alike_fits.
    exists b1, b2. split; [exact E1|split; [exact E2|]]. apply (untouched_same out out' oo ob b1 b2 _ _ Ao U1 U2 V1 V2).
    intros u. assert (M : v_max out' = v_max out) by apply Ao. rewrite M. apply conv_local; intros v _; [apply den_alike; auto|].
    apply tpoly_local. intros z _. apply noconst_alike; auto.
  Qed.
End Strided2.

(** Cell addressed by position i of the level starting at db, against the cell that
    holds element db + i of a strided array. *)
Lemma strided_address base s db i : it_addr (it_add (Strided base s) db) i = base + (db + i) * s <-> s = 1 \/ db = 0.
Proof. cbn. split; intros H; [|nia]. assert (E : db * (s - 1) = 0) by lia. apply Z.mul_eq_0 in E. lia. Qed.

(** ** C12 *)
Lemma db_counts_words w D d : 0 < w -> 0 <= D -> 0 <= d <= D + 1 ->
  dbget (tensor_basis w D) d = Ok (Z.of_nat (length (flat_map (words w) (seq O (Z.to_nat d))))).
Proof.
  intros Hw HD Hd. rewrite dbget_ok by auto. f_equal.
  assert (L : forall n, Z.of_nat (length (words w n)) = w ^ Z.of_nat n).
  { intros n. assert (P := Permutation_length (words_idx w Hw n)). rewrite map_length in P. rewrite <- P.
    unfold zrange. rewrite zseq_length. assert (Q := pow_pos w Hw n). lia. }
  induction (Z.to_nat d) as [|n IH]; [reflexivity|]. rewrite seq_S, flat_map_app, app_length, Nat2Z.inj_add, <- IH. cbn [flat_map words_below Nat.add].
  rewrite app_nil_r, L. reflexivity.
Qed.
