(** Consequences of the kernel specifications: algebra laws of the Python calls. *)
From Verif Require Export TensorTop3 SparseProofs.
From Coq Require Import QArith Qcanon.
Open Scope Z_scope.

(** Rationals, for concrete cases. *)
Definition Qccr : cring := mkCR Qc 0%Qc 1%Qc Qcplus Qcmult Qcminus Qcopp Qcrt.
Lemma rnat_Qc n : @rnat Qccr n = Q2Qc (inject_Z (Z.of_nat n)).
Proof.
  induction n as [|n IH]; [reflexivity|]. cbn [rnat]. rewrite IH. change (@radd Qccr) with Qcplus. change (@r1 Qccr) with 1%Qc.
  apply Qc_is_canon. cbn [Qcplus this Q2Qc]. rewrite !Qred_correct.
  rewrite Nat2Z.inj_succ, <- Z.add_1_l, inject_Z_plus. reflexivity.
Qed.
Lemma qinv_Qc n : (0 < n)%nat -> @rmul Qccr (@rnat Qccr n) (/ Q2Qc (inject_Z (Z.of_nat n)))%Qc = @r1 Qccr.
Proof.
  intros H. rewrite rnat_Qc. apply Qcmult_inv_r. intros E.
  apply (f_equal this) in E. cbn [this Q2Qc] in E.
  assert (E' : (inject_Z (Z.of_nat n) == 0)%Q) by (rewrite <- (Qred_correct (inject_Z (Z.of_nat n))), E; reflexivity).
  unfold Qeq in E'. cbn in E'. lia.
Qed.
Definition Qcqa : qalg := mkQA Qccr (fun n => / Q2Qc (inject_Z (Z.of_nat n)))%Qc qinv_Qc.

(** Coefficients of a tensor as a list, for displaying concrete results. *)
Definition show {R} (a : dtensor R) : list R := map (bat (t_data a)) (zrange (blen (t_data a))).
Definition of_list {R : cring} (l : list R) : buf R := mkbuf (Z.of_nat (length l)) (fun k => nth (Z.to_nat k) l r0).
Definition tz (w D : Z) (l : list Z) : dtensor Zcr := mkT (@of_list Zcr l) (tensor_basis w D).
Definition shown {R} (o : outcome (dtensor R)) : outcome (list R) := let! t := o in Ok (show t).

Section Laws.
  Variable R : cring.
  Add Ring Rring21 : (rth R).
  Notation buf := (buf R).
  Notation dtensor := (dtensor R).
  Local Open Scope cr_scope.
  Variable w : Z.
  Hypothesis Hw : (0 < w)%Z.

  (** Coordinatewise operations a user performs on the data arrays. *)
  Definition t_add (a b : dtensor) : dtensor := mkT (mkbuf (blen (t_data a)) (fun k => bat (t_data a) k + bat (t_data b) k)) (t_basis a).
  Definition t_scale (c : R) (a : dtensor) : dtensor := mkT (mkbuf (blen (t_data a)) (fun k => c * bat (t_data a) k)) (t_basis a).
  (** The unit: coefficient one at the empty word. *)
  Definition t_one (D : nat) : dtensor := mkT (mkbuf (words_below w (S D)) (fun k => if (k =? 0)%Z then 1 else 0)) (tensor_basis w (Z.of_nat D)).
  (** The same data cut to a smaller depth. *)
  Definition t_cut (D : nat) (a : dtensor) : dtensor := mkT (mkbuf (words_below w (S D)) (bat (t_data a))) (tensor_basis w (Z.of_nat D)).

  Lemma t_add_ok D a b : tensor_ok w D a -> tensor_ok w D (t_add a b).
  Proof. intros [X Y]. split; auto. Qed.
  Lemma t_scale_ok D c a : tensor_ok w D a -> tensor_ok w D (t_scale c a).
  Proof. intros [X Y]. split; auto. Qed.
  Lemma t_one_ok D : tensor_ok w D (t_one D). Proof. split; reflexivity. Qed.
  Lemma t_cut_ok D a : tensor_ok w D (t_cut D a). Proof. split; reflexivity. Qed.
  Lemma tv_add D a b u : tv w D (t_add a b) u = tv w D a u + tv w D b u.
  Proof. unfold tv. cbn [t_add t_data bat]. destruct ((length u <=? D)%nat && okw w u); [reflexivity|ring]. Qed.
  Lemma tv_scale D c a u : tv w D (t_scale c a) u = c * tv w D a u.
  Proof. unfold tv. cbn [t_scale t_data bat]. destruct ((length u <=? D)%nat && okw w u); [reflexivity|ring]. Qed.
  Lemma pos_zero u : letters_ok w u -> pos w u = 0%Z -> u = [].
  Proof. intros Hu E. apply (pos_inj w Hw); auto. constructor. Qed.
  Lemma tv_one D : agree D (tv w D (t_one D)) tone.
  Proof.
    apply (agree_supp R w); [apply supp_tv|apply supp_one|]. intros u Hu Hl. rewrite tv_ok by auto. cbn [t_one t_data bat].
    destruct (Z.eqb_spec (pos w u) 0) as [E|E].
    - apply pos_zero in E; auto. subst. reflexivity.
    - destruct u; [exfalso; apply E; reflexivity|reflexivity].
  Qed.
  Lemma tv_cut D D' a : (D <= D')%nat -> agree D (tv w D (t_cut D a)) (tv w D' a).
  Proof.
    intros HD. apply (agree_supp R w); [apply supp_tv|apply supp_tv|]. intros u Hu Hl. rewrite !tv_ok by (auto; lia). reflexivity.
  Qed.
  Lemma agree_conv D a a' b b' : agree D a a' -> agree D b b' -> @agree R D (conv a b) (conv a' b').
  Proof. intros Ha Hb u Hl. apply conv_local; intros v Hv; [apply Ha|apply Hb]; lia. Qed.
  Lemma agree_trans D a b c : agree D a b -> agree D b c -> @agree R D a c.
  Proof. intros H1 H2 u Hu. rewrite H1, H2; auto. Qed.
  Lemma agree_sym D a b : agree D a b -> @agree R D b a.
  Proof. intros H u Hu. rewrite H; auto. Qed.
  Lemma agree_le D D' a b : (D <= D')%nat -> agree D' a b -> @agree R D a b.
  Proof. intros HD H u Hu. apply H. lia. Qed.
  Lemma agree_refl D a : @agree R D a a. Proof. intros u _. reflexivity. Qed.
  Lemma agree_anti D a b : agree D a b -> @agree R D (anti a) (anti b).
  Proof. intros H u Hl. unfold anti. rewrite H; [reflexivity|]. rewrite rev_length. auto. Qed.
  Lemma agree_shuf D a a' b b' : agree D a a' -> agree D b b' -> @agree R D (shuf a b) (shuf a' b').
  Proof. intros Ha Hb u Hl. apply shuf_local; intros v Hv; [apply Ha|apply Hb]; lia. Qed.
  Lemma teq_agree D a b : teq a b -> @agree R D a b. Proof. intros H u _. apply H. Qed.

  Implicit Types (a b c ab abc bc p q r s l A x : dtensor).
  (** ** C15 *)
  Theorem mul_assoc Da Db Dc a b c : tensor_ok w Da a -> tensor_ok w Db b -> tensor_ok w Dc c -> (Da <= Db)%nat ->
    exists ab abc bc abc', py_ft_mul a b = Ok ab /\ py_ft_mul ab c = Ok abc /\ py_ft_mul b c = Ok bc /\ py_ft_mul a bc = Ok abc' /\
      agree Da (tv w Da abc) (tv w Da abc').
  Proof.
    intros Ha Hb Hc Hle.
    destruct (py_ft_mul_spec R w Hw Da Db a b Ha Hb) as (ab & E1 & K1 & V1).
    destruct (py_ft_mul_spec R w Hw Da Dc ab c K1 Hc) as (abc & E2 & K2 & V2).
    destruct (py_ft_mul_spec R w Hw Db Dc b c Hb Hc) as (bc & E3 & K3 & V3).
    destruct (py_ft_mul_spec R w Hw Da Db a bc Ha K3) as (abc' & E4 & K4 & V4).
    exists ab, abc, bc, abc'. repeat (split; auto).
    apply agree_trans with (1 := V2). apply agree_sym. apply agree_trans with (1 := V4).
    apply agree_trans with (conv (tv w Da a) (conv (tv w Db b) (tv w Dc c))).
    - apply agree_conv; [apply agree_refl|]. apply agree_le with Db; auto.
    - apply agree_trans with (conv (conv (tv w Da a) (tv w Db b)) (tv w Dc c)).
      + apply agree_sym, teq_agree, conv_assoc.
      + apply agree_conv; [apply agree_sym; auto|apply agree_refl].
  Qed.
  Theorem mul_unit D a : tensor_ok w D a ->
    exists l r, py_ft_mul (t_one D) a = Ok l /\ py_ft_mul a (t_one D) = Ok r /\ agree D (tv w D l) (tv w D a) /\ agree D (tv w D r) (tv w D a).
  Proof.
    intros Ha.
    destruct (py_ft_mul_spec R w Hw D D (t_one D) a (t_one_ok D) Ha) as (l & E1 & K1 & V1).
    destruct (py_ft_mul_spec R w Hw D D a (t_one D) Ha (t_one_ok D)) as (r & E2 & K2 & V2).
    exists l, r. repeat (split; auto).
    - apply agree_trans with (1 := V1). apply agree_trans with (conv tone (tv w D a)); [apply agree_conv; [apply tv_one|apply agree_refl]|apply teq_agree, conv_one_l].
    - apply agree_trans with (1 := V2). apply agree_trans with (conv (tv w D a) tone); [apply agree_conv; [apply agree_refl|apply tv_one]|apply teq_agree, conv_one_r].
  Qed.
  Theorem mul_linear_l Da Db a a' b (c : R) : tensor_ok w Da a -> tensor_ok w Da a' -> tensor_ok w Db b ->
    exists s p p', py_ft_mul (t_add (t_scale c a) a') b = Ok s /\ py_ft_mul a b = Ok p /\ py_ft_mul a' b = Ok p' /\
      agree Da (tv w Da s) (tv w Da (t_add (t_scale c p) p')).
  Proof.
    intros Ha Ha' Hb.
    destruct (py_ft_mul_spec R w Hw Da Db (t_add (t_scale c a) a') b) as (s & E1 & K1 & V1); [apply t_add_ok, t_scale_ok; auto|auto|].
    destruct (py_ft_mul_spec R w Hw Da Db a b Ha Hb) as (p & E2 & K2 & V2).
    destruct (py_ft_mul_spec R w Hw Da Db a' b Ha' Hb) as (p' & E3 & K3 & V3).
    exists s, p, p'. repeat (split; auto). intros u Hl. rewrite V1 by auto. rewrite tv_add, tv_scale, V2, V3 by auto.
    transitivity (conv (tadd (tscal c (tv w Da a)) (tv w Da a')) (tv w Db b) u).
    - apply conv_local; [|reflexivity]. intros v _. rewrite tv_add, tv_scale. reflexivity.
    - rewrite (conv_add_l _ _ _ _ _ u). unfold tadd. rewrite (conv_scal_l _ _ _ _ _ u). reflexivity.
  Qed.
  Theorem mul_linear_r Da Db a b b' (c : R) : tensor_ok w Da a -> tensor_ok w Db b -> tensor_ok w Db b' ->
    exists s p p', py_ft_mul a (t_add (t_scale c b) b') = Ok s /\ py_ft_mul a b = Ok p /\ py_ft_mul a b' = Ok p' /\
      agree Da (tv w Da s) (tv w Da (t_add (t_scale c p) p')).
  Proof.
    intros Ha Hb Hb'.
    destruct (py_ft_mul_spec R w Hw Da Db a (t_add (t_scale c b) b')) as (s & E1 & K1 & V1); [auto|apply t_add_ok, t_scale_ok; auto|].
    destruct (py_ft_mul_spec R w Hw Da Db a b Ha Hb) as (p & E2 & K2 & V2).
    destruct (py_ft_mul_spec R w Hw Da Db a b' Ha Hb') as (p' & E3 & K3 & V3).
    exists s, p, p'. repeat (split; auto). intros u Hl. rewrite V1 by auto. rewrite tv_add, tv_scale, V2, V3 by auto.
    transitivity (conv (tv w Da a) (tadd (tscal c (tv w Db b)) (tv w Db b')) u).
    - apply conv_local; [reflexivity|]. intros v _. rewrite tv_add, tv_scale. reflexivity.
    - rewrite (conv_add_r _ _ _ _ _ u). unfold tadd. rewrite (conv_scal_r _ _ _ _ _ u). reflexivity.
  Qed.
  Theorem mul_truncation (D Da Db : nat) a b : tensor_ok w Da a -> tensor_ok w Db b -> (D <= Da)%nat -> (D <= Db)%nat ->
    exists p q, py_ft_mul a b = Ok p /\ py_ft_mul (t_cut D a) (t_cut D b) = Ok q /\ agree D (tv w D q) (tv w Da p).
  Proof.
    intros Ha Hb H1 H2.
    destruct (py_ft_mul_spec R w Hw Da Db a b Ha Hb) as (p & E1 & K1 & V1).
    destruct (py_ft_mul_spec R w Hw D D (t_cut D a) (t_cut D b) (t_cut_ok D a) (t_cut_ok D b)) as (q & E2 & K2 & V2).
    exists p, q. repeat (split; auto).
    apply agree_trans with (1 := V2). apply agree_sym. apply agree_trans with (conv (tv w Da a) (tv w Db b)); [apply agree_le with Da; auto|].
    apply agree_conv; apply agree_sym, tv_cut; auto.
  Qed.

  (** ** C14: in place against out of place *)
  Theorem inplace_is_mul D a b : tensor_ok w D a -> tensor_ok w D b ->
    exists r p, py_ft_inplace_mul a b = Ok r /\ py_ft_mul a b = Ok p /\ agree D (tv w D r) (tv w D p).
  Proof.
    intros Ha Hb. destruct (py_ft_inplace_mul_spec R w Hw D D a b Ha Hb) as (r & E1 & K1 & V1 & _).
    destruct (py_ft_mul_spec R w Hw D D a b Ha Hb) as (p & E2 & K2 & V2). exists r, p. repeat (split; auto).
    rewrite Nat.min_id in V1. apply agree_trans with (1 := V1), agree_sym; auto.
  Qed.
  (** For any views: same result as multiplying into a zeroed array. *)
  Theorem inplace_is_fma lhs rhs lo ro (b rb zb : buf) op :
    vwf w lhs lo -> vwf w rhs ro -> fits w lhs lo b -> fits w rhs ro rb -> blen zb = blen b -> (forall k, bat zb k = 0) ->
    exists (r p : buf), ft_inplace_mul lhs rhs b rb op = Ok r /\ ft_fma lhs lhs rhs zb b rb op = Ok p /\
      forall u, letters_ok w u -> in_rng lhs (Z.of_nat (length u)) = true -> bat r (lo + pos w u)%Z = bat p (lo + pos w u)%Z.
  Proof.
    intros Hl Hr Fl Fr Lz Z0.
    destruct (ft_inplace_mul_ok R w Hw lhs rhs lo ro b rb op Hl Hr Fl Fr) as (r & E1 & _ & V1 & _).
    destruct (ft_fma_ok R w Hw lhs lhs rhs lo lo ro zb b rb op) as (p & E2 & _ & V2 & _); auto.
    { unfold fits in *. rewrite Lz. auto. }
    exists r, p. repeat (split; auto). intros u Hu Hr'. rewrite V1, V2, Z0 by auto. ring.
  Qed.

  (** ** C16 *)
  Theorem antipode_involution D a : tensor_ok w D a -> (1 <= D)%nat ->
    exists r s, py_antipode a = Ok r /\ py_antipode r = Ok s /\ agree D (tv w D s) (tv w D a).
  Proof.
    intros Ha HD. destruct (py_antipode_spec R w Hw D a Ha HD) as (r & E1 & K1 & V1).
    destruct (py_antipode_spec R w Hw D r K1 HD) as (s & E2 & K2 & V2). exists r, s. repeat (split; auto).
    apply agree_trans with (1 := V2). apply agree_trans with (anti (anti (tv w D a))); [apply agree_anti; auto|apply teq_agree, anti_anti].
  Qed.
  Theorem antipode_antihom D a b : tensor_ok w D a -> tensor_ok w D b -> (1 <= D)%nat ->
    exists ab l a' b' r, py_ft_mul a b = Ok ab /\ py_antipode ab = Ok l /\ py_antipode a = Ok a' /\ py_antipode b = Ok b' /\ py_ft_mul b' a' = Ok r /\
      agree D (tv w D l) (tv w D r).
  Proof.
    intros Ha Hb HD.
    destruct (py_ft_mul_spec R w Hw D D a b Ha Hb) as (ab & E1 & K1 & V1).
    destruct (py_antipode_spec R w Hw D ab K1 HD) as (l & E2 & K2 & V2).
    destruct (py_antipode_spec R w Hw D a Ha HD) as (a' & E3 & K3 & V3).
    destruct (py_antipode_spec R w Hw D b Hb HD) as (b' & E4 & K4 & V4).
    destruct (py_ft_mul_spec R w Hw D D b' a' K4 K3) as (r & E5 & K5 & V5).
    exists ab, l, a', b', r. repeat (split; auto).
    apply agree_trans with (1 := V2). apply agree_sym. apply agree_trans with (1 := V5).
    apply agree_trans with (conv (anti (tv w D b)) (anti (tv w D a))); [apply agree_conv; auto|].
    apply agree_trans with (anti (conv (tv w D a) (tv w D b))); [apply agree_sym, teq_agree, anti_conv|apply agree_anti, agree_sym; auto].
  Qed.

  (** ** C21 *)
  Theorem adjoint_duality (D : nat) A x s : tensor_ok w D A -> tensor_ok w D x -> tensor_ok w D s ->
    exists p q, py_ft_mul A x = Ok p /\ py_ft_adjoint_left_mul A s = Ok q /\
      pairing w D (tv w D p) (tv w D s) = pairing w D (tv w D x) (tv w D q).
  Proof.
    intros HA Hx Hs. destruct (py_ft_mul_spec R w Hw D D A x HA Hx) as (p & E1 & K1 & V1).
    destruct (py_ft_adj_spec R w Hw D D A s HA Hs) as (q & E2 & K2 & V2 & _). rewrite Nat.min_id in V2.
    exists p, q. repeat (split; auto).
    rewrite (pairing_local R w D (tv w D p) (conv (tv w D A) (tv w D x)) (tv w D s) (tv w D s)) by (auto; intros; apply V1; auto).
    rewrite (pairing_local R w D (tv w D x) (tv w D x) (tv w D q) (adjl w D (tv w D A) (tv w D s))) by (auto; intros; apply V2; auto).
    apply adjl_adjoint; auto.
  Qed.

  (** ** C22 *)
  Theorem stmul_comm D a b : tensor_ok w D a -> tensor_ok w D b -> (w <= 32768)%Z -> (D < 64)%nat ->
    exists p q, py_st_mul a b = Ok p /\ py_st_mul b a = Ok q /\ agree D (tv w D p) (tv w D q).
  Proof.
    intros Ha Hb H16 H64. destruct (py_st_mul_spec R w Hw D D a b Ha Hb (le_n D) H16 H64) as (p & E1 & K1 & V1).
    destruct (py_st_mul_spec R w Hw D D b a Hb Ha (le_n D) H16 H64) as (q & E2 & K2 & V2).
    exists p, q. repeat (split; auto). intros u Hl. rewrite V1, V2 by auto. apply shuf_comm.
  Qed.
  Theorem stmul_assoc D a b c : tensor_ok w D a -> tensor_ok w D b -> tensor_ok w D c -> (w <= 32768)%Z -> (D < 64)%nat ->
    exists ab l bc r, py_st_mul a b = Ok ab /\ py_st_mul ab c = Ok l /\ py_st_mul b c = Ok bc /\ py_st_mul a bc = Ok r /\ agree D (tv w D l) (tv w D r).
  Proof.
    intros Ha Hb Hc H16 H64.
    destruct (py_st_mul_spec R w Hw D D a b Ha Hb (le_n D) H16 H64) as (ab & E1 & K1 & V1).
    destruct (py_st_mul_spec R w Hw D D ab c K1 Hc (le_n D) H16 H64) as (l & E2 & K2 & V2).
    destruct (py_st_mul_spec R w Hw D D b c Hb Hc (le_n D) H16 H64) as (bc & E3 & K3 & V3).
    destruct (py_st_mul_spec R w Hw D D a bc Ha K3 (le_n D) H16 H64) as (r & E4 & K4 & V4).
    exists ab, l, bc, r. repeat (split; auto).
    apply agree_trans with (1 := V2). apply agree_trans with (shuf (shuf (tv w D a) (tv w D b)) (tv w D c)); [apply agree_shuf; auto; apply agree_refl|].
    apply agree_trans with (shuf (tv w D a) (shuf (tv w D b) (tv w D c))); [apply teq_agree, shuf_assoc|].
    apply agree_sym. apply agree_trans with (1 := V4). apply agree_shuf; auto. apply agree_refl.
  Qed.
  Theorem stmul_unit D a : tensor_ok w D a -> (w <= 32768)%Z -> (D < 64)%nat ->
    exists l, py_st_mul (t_one D) a = Ok l /\ agree D (tv w D l) (tv w D a).
  Proof.
    intros Ha H16 H64. destruct (py_st_mul_spec R w Hw D D (t_one D) a (t_one_ok D) Ha (le_n D) H16 H64) as (l & E1 & K1 & V1).
    exists l. split; auto. apply agree_trans with (1 := V1). apply agree_trans with (shuf tone (tv w D a)); [apply agree_shuf; [apply tv_one|apply agree_refl]|].
    apply teq_agree, shuf_one_l.
  Qed.
  Theorem stmul_linear D a a' b (c : R) : tensor_ok w D a -> tensor_ok w D a' -> tensor_ok w D b -> (w <= 32768)%Z -> (D < 64)%nat ->
    exists s p p', py_st_mul (t_add (t_scale c a) a') b = Ok s /\ py_st_mul a b = Ok p /\ py_st_mul a' b = Ok p' /\
      agree D (tv w D s) (tv w D (t_add (t_scale c p) p')).
  Proof.
    intros Ha Ha' Hb H16 H64.
    destruct (py_st_mul_spec R w Hw D D (t_add (t_scale c a) a') b (t_add_ok D _ a' (t_scale_ok D c a Ha)) Hb (le_n D) H16 H64) as (s & E1 & K1 & V1).
    destruct (py_st_mul_spec R w Hw D D a b Ha Hb (le_n D) H16 H64) as (p & E2 & K2 & V2).
    destruct (py_st_mul_spec R w Hw D D a' b Ha' Hb (le_n D) H16 H64) as (p' & E3 & K3 & V3).
    exists s, p, p'. repeat (split; auto). intros u Hl. rewrite V1 by auto. rewrite tv_add, tv_scale, V2, V3 by auto.
    transitivity (shuf (tadd (tscal c (tv w D a)) (tv w D a')) (tv w D b) u).
    - apply shuf_local; [|reflexivity]. intros v _. rewrite tv_add, tv_scale. reflexivity.
    - rewrite (shuf_add_l _ _ _ _ _ u). unfold tadd. rewrite (shuf_scal_l _ _ _ _ _ u). reflexivity.
  Qed.
End Laws.
Arguments t_add {R}. Arguments t_scale {R}. Arguments t_cut {R}.
