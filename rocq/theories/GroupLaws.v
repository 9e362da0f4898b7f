(** The maps between Lie elements and tensors are mutually inverse on coordinates, and the
    Campbell-Baker-Hausdorff product is a group law. *)
From Coq Require Import ZifyBool Sorted QArith Qcanon.
From Verif Require Export LieLaws.
From Verif Require Import Outcome Alg Words Mem PowerSeries Series Shuffle TensorModel TensorTop TensorTop3 TensorLemmas TensorLemmas2 HallModel HallSpec LieSpec HallTab HallCount HallDim HallProofs HallTrees HallLookup HallLemmas
  BracketModel BracketLemmas SmhModel SmhLemmas L2tModel L2tProofs L2tLemmas T2lLemmas ExpComm.
Local Open Scope Z_scope.

(** ** More fuel never changes an answer. *)
Lemma bind_mono {A C} (e : outcome A) (e' : outcome A) (k k' : A -> outcome C) x : (forall a, e = Ok a -> e' = Ok a) -> (forall a, e = Ok a -> k a = Ok x -> k' a = Ok x) ->
  bind e k = Ok x -> @bind A C e' k' = Ok x.
Proof. intros H1 H2 E. destruct e as [a| | |]; try discriminate. rewrite (H1 a eq_refl). cbn [bind] in *. auto. Qed.
Lemma for_mono {A S'} (l : list A) (f g : A -> S' -> outcome S') : (forall a t y, f a t = Ok y -> g a t = Ok y) -> forall s x, for_ l s f = Ok x -> for_ l s g = Ok x.
Proof.
  intros H. induction l as [|a l IH]; intros s x; cbn [for_]; auto. destruct (f a s) as [t| | |] eqn:E; try discriminate. rewrite (H _ _ _ E). cbn [bind]. apply IH.
Qed.
Section Mono.
  Variable R : cring.
  Variable isz : R -> bool.
  Variables (f f' : nat) (Hf : (f <= f')%nat).
  Lemma rbracket_mono B l r s x : t2l_rbracket R isz f B l r s = Ok x -> t2l_rbracket R isz f' B l r s = Ok x.
  Proof.
    unfold t2l_rbracket. apply bind_mono; [intros ? X; exact X|]. intros rf _. apply for_mono. intros i [h c] y.
    apply bind_mono; [intros ? X; exact X|]. intros rf' _. apply bind_mono; [intros ? X; exact X|]. intros ri _.
    apply bind_mono; [|intros ? _ X; exact X]. intros a E. apply (lmc_get_mono f); auto.
  Qed.
  Lemma degree_mono B d p s x : t2l_degree R isz f B d p s = Ok x -> t2l_degree R isz f' B d p s = Ok x.
  Proof.
    unfold t2l_degree. apply for_mono. intros i [h c] y. apply bind_mono; [intros ? X; exact X|]. intros h' _.
    destruct (_ =? _); auto. apply rbracket_mono.
  Qed.
  Lemma t2l_mono inv jd ji jp B c x : construct_new_t2l isz f inv jd ji jp B c = Ok x -> construct_new_t2l isz f' inv jd ji jp B c = Ok x.
  Proof.
    unfold construct_new_t2l. apply bind_mono; [intros ? X; exact X|]. intros ? _. apply bind_mono; [intros ? X; exact X|]. intros ? _. apply bind_mono; [intros ? X; exact X|]. intros ? _.
    apply bind_mono; [intros ? X; exact X|]. intros ? _. apply bind_mono; [intros ? X; exact X|]. intros ? _. apply bind_mono; [intros ? X; exact X|]. intros ? _.
    apply bind_mono; [|intros ? _ X; exact X]. intros s. apply for_mono. intros d [[[h c1] b] p] y.
    apply bind_mono; [|intros ? _ X; exact X]. intros ? . apply degree_mono.
  Qed.
  Lemma tensor_to_lie_mono inv jd ji jp B c arg tb sc x : py_tensor_to_lie isz f inv jd ji jp B c arg tb sc = Ok x -> py_tensor_to_lie isz f' inv jd ji jp B c arg tb sc = Ok x.
  Proof. unfold py_tensor_to_lie. apply bind_mono; [|intros ? _ X; exact X]. intros ? . apply t2l_mono. Qed.
End Mono.
Section MonoQ.
  Variable R : qalg.
  Variable isz : R -> bool.
  Variables (f f' : nat) (Hf : (f <= f')%nat).
  Lemma cbh_mono inv jd ji jp B tb c xs x : cbh isz f inv jd ji jp B tb c xs = Ok x -> cbh isz f' inv jd ji jp B tb c xs = Ok x.
  Proof.
    unfold cbh. assert (K : forall xs, (let! size := basis_size tb in let! one := bset (zeros (R:=qr R) size) 0 r1 in let! collector := cbh_fallback isz jd ji jp B tb (mkT one tb) xs in
      let! l := py_ft_log collector tb in py_tensor_to_lie isz f inv jd ji jp B c (t_data l) tb None) = Ok x -> (let! size := basis_size tb in let! one := bset (zeros (R:=qr R) size) 0 r1 in let! collector := cbh_fallback isz jd ji jp B tb (mkT one tb) xs in
      let! l := py_ft_log collector tb in py_tensor_to_lie isz f' inv jd ji jp B c (t_data l) tb None) = Ok x).
    { intros ys. apply bind_mono; [intros ? X; exact X|]. intros ? _. apply bind_mono; [intros ? X; exact X|]. intros ? _. apply bind_mono; [intros ? X; exact X|]. intros ? _.
      apply bind_mono; [intros ? X; exact X|]. intros ? _. apply tensor_to_lie_mono, Hf. }
    destruct xs as [|a [|b xs]]; [exact (K _)|intros X; exact X|exact (K _)].
  Qed.
  Lemma cbh2_mono inv jd ji jp B tb c a b x : cbh2 isz f inv jd ji jp B tb c a b = Ok x -> cbh2 isz f' inv jd ji jp B tb c a b = Ok x.
  Proof.
    unfold cbh2. apply bind_mono; [intros ? X; exact X|]. intros ? _. apply bind_mono; [intros ? X; exact X|]. intros ? _.
    apply bind_mono; [intros ? X; exact X|]. intros ? _. apply bind_mono; [intros ? X; exact X|]. intros ? _.
    apply bind_mono; [intros ? X; exact X|]. intros ? _. apply tensor_to_lie_mono, Hf.
  Qed.
End MonoQ.

(** ** lie_to_tensor is injective *)
Section Inj.
  Variable R : cring.
  Add Ring Rring_gi : (rth R).
  Variable isz : R -> bool.
  Hypothesis isz_ok : forall x, isz x = true <-> x = r0.
  Hypothesis R1 : (r1 : R) <> r0.
  Variables (B : lie_basis) (w N M : Z).
  Hypothesis HS : standard B w N.
  Hypothesis HF : l2t_fits w N.
  Hypothesis EM : lb_size B = Ok M.
  Notation tb := (tensor_basis w N).
  Notation D := (Z.to_nat N).
  Notation LX x := (@lie_expand R x (T B) M).
  Lemma LX_nil f : LX f [] = r0.
  Proof.
    unfold lie_expand. apply sum_zero. intros k Hk. apply zseq_In in Hk.
    rewrite (homog_texpand R (T B k) []); [ring|]. assert (X := T_deg B w N M HS EM k ltac:(lia)). cbn. lia.
  Qed.
  Lemma LX_off f u : ~ letters_ok w u -> LX f u = r0.
  Proof.
    intros Hu. unfold lie_expand. apply sum_zero. intros k Hk. apply zseq_In in Hk.
    destruct (standard_ok _ _ _ HS) as (M' & HB & _). assert (M' = M) as -> by (rewrite (size_ok _ _ _ _ HB) in EM; congruence).
    assert (H := bo_hall _ _ _ _ HB). destruct (level_ex _ _ _ _ _ _ H k ltac:(lia)) as (d & Hd & Hkd).
    destruct (texpand_off R w (T B k)) with (u := u) as [X|X]; [unfold T; eapply tr_hall; eauto; lia|contradiction|rewrite X; ring].
  Qed.
  Lemma l2t_agree x jd ji jp t : blen x = M -> py_lie_to_tensor isz jd ji jp B x tb None = Ok t -> blen t = words_below w (S D) /\ agree D (tv w D (mkT t tb)) (LX (bat x)).
  Proof.
    intros Hx Et. destruct (l2t_apply R isz isz_ok R1 B w N M x None jd ji jp (T B) HS HF EM Hx) as (t0 & E0 & L0 & V0). { intros k Hk. apply (T_dec B w N M HS EM), Hk. }
    assert (t0 = t) as -> by congruence. split; auto. apply (agree_supp R w); [apply supp_tv|intros u Hu; apply LX_off, okw_false, Hu|].
    intros u Hu Hl. rewrite tv_ok by auto. cbn [t_data]. rewrite (V0 u Hu Hl). reflexivity.
  Qed.
  Theorem l2t_injective jd ji jp jd' ji' jp' x y t t' : blen x = M -> blen y = M ->
    py_lie_to_tensor isz jd ji jp B x tb None = Ok t -> py_lie_to_tensor isz jd' ji' jp' B y tb None = Ok t' ->
    (forall i, 0 <= i < blen t -> bat t i = bat t' i) -> forall i, 0 <= i < M -> bat x i = bat y i.
  Proof.
    intros Hx Hy Et Et' HE. 
    destruct (l2t_apply R isz isz_ok R1 B w N M x None jd ji jp (T B) HS HF EM Hx) as (t0 & E0 & L0 & V0). { intros k Hk. apply (T_dec B w N M HS EM), Hk. }
    destruct (l2t_apply R isz isz_ok R1 B w N M y None jd' ji' jp' (T B) HS HF EM Hy) as (t1 & E1 & L1 & V1). { intros k Hk. apply (T_dec B w N M HS EM), Hk. }
    assert (t0 = t) as -> by congruence. assert (t1 = t') as -> by congruence.
    apply (keys_determined R B w N M (T B)); auto. { intros k Hk. apply (T_dec B w N M HS EM), Hk. }
    intros u Hu Hl. cbn [scaled] in V0, V1. rewrite <- (V0 u Hu Hl), <- (V1 u Hu Hl). apply HE. rewrite L0. destruct HF. apply pos_bound; auto; lia.
  Qed.
  Variable inv : Z -> R.
  Hypothesis inv_ok : forall d, 1 <= d -> rmul (zr R d) (inv d) = r1.
  Hypothesis Hsm : small_brackets B w.
  (** The exact round trip. *)
  Theorem t2l_l2t_exact c0 fuel jd ji jp jd' ji' jp' x a y c' : reachable w c0 -> blen x = M ->
    py_lie_to_tensor isz jd' ji' jp' B x tb None = Ok a -> py_tensor_to_lie isz fuel inv jd ji jp B c0 a tb None = Ok (y, c') ->
    blen y = M /\ forall i, 0 <= i < M -> bat y i = bat x i.
  Proof.
    intros Hre Hx Ea Ey.
    destruct (t2l_retract R isz isz_ok R1 inv inv_ok B w N M c0 HS HF Hsm Hre EM) as (F & HR).
    destruct (l2t_primitive R isz isz_ok R1 B w N M x jd' ji' jp' a HS HF EM Hx Ea) as [P0 P1].
    destruct (l2t_apply R isz isz_ok R1 B w N M x None jd' ji' jp' (T B) HS HF EM Hx) as (t0 & E0 & L0 & _). { intros k Hk. apply (T_dec B w N M HS EM), Hk. }
    assert (t0 = a) as -> by congruence.
    destruct (HR (Nat.max F fuel) jd ji jp jd' ji' jp' a (Nat.le_max_l _ _) L0 P0 P1) as (y' & c1 & z & A1 & A2 & A3 & A4 & A5 & A6).
    apply (tensor_to_lie_mono R isz fuel (Nat.max F fuel)) in Ey; [|lia]. rewrite A1 in Ey. injection Ey as -> ->. split; auto.
    apply (l2t_injective jd' ji' jp' jd' ji' jp' y x z a); auto. rewrite A5. exact A6.
  Qed.
End Inj.

(** ** The group law *)
Section Group.
  Variable R : qalg.
  Add Ring Rring_gl : (rth (qr R)).
  Variable isz : R -> bool.
  Hypothesis isz_ok : forall x, isz x = true <-> x = r0.
  Hypothesis R1 : (r1 : R) <> r0.
  Variable inv : Z -> R.
  Hypothesis inv_ok : forall d, 1 <= d -> rmul (zr R d) (inv d) = r1.
  Variables (B : lie_basis) (w N M : Z).
  Hypothesis HS : standard B w N.
  Hypothesis HF : l2t_fits w N.
  Hypothesis EM : lb_size B = Ok M.
  Hypothesis Hsm : small_brackets B w.
  Notation D := (Z.to_nat N).
  Notation tb := (tensor_basis w N).
  Notation LX x := (@lie_expand (qr R) x (T B) M).
  Notation EX x := (texp (R:=R) D (LX x)).
  Implicit Types x y z : buf R.

  Lemma gLX_nil f : LX f [] = r0.
  Proof. exact (LX_nil (qr R) B w N M HS EM f). Qed.
  Lemma sig_agree x jd ji jp g : blen x = M -> to_signature isz jd ji jp B tb x = Ok g -> tensor_ok w D g /\ grouplike D (tv w D g) /\ agree D (tv w D g) (EX (bat x)).
  Proof.
    intros Hx Eg. destruct (sig_ok R isz isz_ok R1 B w N M HS HF EM x jd ji jp Hx) as (g' & E' & K & G & V). assert (g' = g) as -> by congruence.
    split; auto. split; auto. destruct (emb R isz isz_ok R1 B w N M HS HF EM x jd ji jp Hx) as (t & Et & Kt & Pt).
    apply agree_trans with (1 := V t Et). apply (agree_tpoly R D D (invfact R)). destruct (l2t_agree (qr R) isz isz_ok R1 B w N M HS HF EM x jd ji jp t Hx Et) as [_ A].
    apply agree_trans with (2 := A). apply noconst_id. rewrite A by (cbn; lia). apply gLX_nil.
  Qed.
  Lemma EX_inj (f g : Z -> R) : agree D (EX f) (EX g) -> forall i, 0 <= i < M -> f i = g i.
  Proof.
    intros H. apply (keys_determined (qr R) B w N M (T B)); auto. { intros k Hk. apply (T_dec B w N M HS EM), Hk. }
    intros u Hu Hl. rewrite <- (tlog_texp R Z D (LX f) u (gLX_nil f) Hl), <- (tlog_texp R Z D (LX g) u (gLX_nil g) Hl).
    unfold tlog. apply (agree_tpoly R D D (plog R)); auto. intros v Hv. unfold tsub. rewrite (H v Hv). reflexivity.
  Qed.
  Lemma EX_same (f g : Z -> R) : (forall i, 0 <= i < M -> f i = g i) -> agree D (EX f) (EX g).
  Proof.
    intros H. apply (agree_tpoly R D D (invfact R)). intros u _. unfold lie_expand. apply sum_ext. intros k Hk. apply zseq_In in Hk. rewrite H by lia. reflexivity.
  Qed.
  Lemma cbh2_spec fuel jd ji jp c x y z c' : reachable w c -> blen x = M -> blen y = M -> cbh2 isz fuel inv jd ji jp B tb c x y = Ok (z, c') ->
    reachable w c' /\ blen z = M /\ agree D (EX (bat z)) (conv (EX (bat x)) (EX (bat y))).
  Proof.
    intros Hc Hx Hy E. destruct (cbh2_product R isz isz_ok R1 inv inv_ok B w N M HS HF EM Hsm c Hc) as (F & HP).
    destruct (HP (Nat.max F fuel) jd ji jp x y (Nat.le_max_l _ _) Hx Hy) as (z0 & c1 & s & gx & gy & E0 & Hr & Hz & Es & Ex & Ey & A).
    apply (cbh2_mono R isz fuel (Nat.max F fuel)) in E; [|lia]. rewrite E0 in E. injection E as -> ->. split; auto. split; auto.
    destruct (sig_agree z jd ji jp s Hz Es) as (_ & _ & As). destruct (sig_agree x jd ji jp gx Hx Ex) as (_ & _ & Ax). destruct (sig_agree y jd ji jp gy Hy Ey) as (_ & _ & Ay).
    apply agree_trans with (1 := agree_sym _ _ _ _ As). apply agree_trans with (1 := A). apply agree_conv; auto.
  Qed.
  Definition EXs (xs : list (buf R)) : tens (qr R) Z := fold_right (fun x a => conv (EX (bat x)) a) tone xs.
  Lemma cbh_spec fuel jd ji jp c xs z c' : reachable w c -> Forall (fun x => blen x = M) xs -> cbh isz fuel inv jd ji jp B tb c xs = Ok (z, c') ->
    reachable w c' /\ blen z = M /\ agree D (EX (bat z)) (EXs xs).
  Proof.
    intros Hc Hx E. destruct (cbh_product R isz isz_ok R1 inv inv_ok B w N M HS HF EM Hsm c Hc) as (F & HP).
    destruct (HP (Nat.max F fuel) jd ji jp xs (Nat.le_max_l _ _) Hx) as (z0 & c1 & s & gs & E0 & Hr & Hz & Es & F2 & A).
    apply (cbh_mono R isz fuel (Nat.max F fuel)) in E; [|lia]. rewrite E0 in E. injection E as -> ->. split; auto. split; auto.
    destruct (sig_agree z jd ji jp s Hz Es) as (_ & _ & As).
    apply agree_trans with (1 := agree_sym _ _ _ _ As). apply agree_trans with (1 := A). clear -isz_ok R1 HS HF EM F2 Hx.
    induction F2 as [|x g xs gs Eg F2 IH]; [apply agree_refl|]. cbn [tprod EXs fold_right].
    apply agree_conv; [apply (sig_agree x jd ji jp g (Forall_inv Hx) Eg)|]. apply IH, (Forall_inv_tail Hx).
  Qed.
  Lemma EXs_app xs ys : agree D (EXs (xs ++ ys)) (conv (EXs xs) (EXs ys)).
  Proof.
    induction xs as [|x xs IH]; cbn [EXs fold_right app].
    - intros u _. symmetry. apply (conv_one_l (qr R) Z).
    - intros u Hu. rewrite (conv_assoc (qr R) Z _ _ _ u). revert u Hu. apply agree_conv; [apply agree_refl|exact IH].
  Qed.

  (** The result is the only element whose signature is the product. *)
  Theorem cbh2_unique fuel jd ji jp c x y z c' j1 j2 j3 z' s gx gy : reachable w c -> blen x = M -> blen y = M -> blen z' = M ->
    cbh2 isz fuel inv jd ji jp B tb c x y = Ok (z, c') ->
    to_signature isz j1 j2 j3 B tb x = Ok gx -> to_signature isz j1 j2 j3 B tb y = Ok gy -> to_signature isz j1 j2 j3 B tb z' = Ok s ->
    agree D (tv w D s) (conv (tv w D gx) (tv w D gy)) -> same_coords M z' z.
  Proof.
    intros Hc Hx Hy Hz' E Ex Ey Es A. destruct (cbh2_spec _ _ _ _ _ _ _ _ _ Hc Hx Hy E) as (_ & Hz & Az). refine (EX_inj (bat _) (bat _) _).
    destruct (sig_agree _ _ _ _ _ Hx Ex) as (_ & _ & Ax). destruct (sig_agree _ _ _ _ _ Hy Ey) as (_ & _ & Ay). destruct (sig_agree _ _ _ _ _ Hz' Es) as (_ & _ & As).
    apply agree_trans with (1 := agree_sym _ _ _ _ As). apply agree_trans with (1 := A). apply agree_sym. apply agree_trans with (1 := Az). apply agree_conv; apply agree_sym; auto.
  Qed.
  (** Signatures determine Lie elements. *)
  Theorem signature_injective j1 j2 j3 k1 k2 k3 x y g h : blen x = M -> blen y = M ->
    to_signature isz j1 j2 j3 B tb x = Ok g -> to_signature isz k1 k2 k3 B tb y = Ok h -> agree D (tv w D g) (tv w D h) -> same_coords M x y.
  Proof.
    intros Hx Hy Eg Eh A. refine (EX_inj (bat _) (bat _) _). destruct (sig_agree _ _ _ _ _ Hx Eg) as (_ & _ & Ag). destruct (sig_agree _ _ _ _ _ Hy Eh) as (_ & _ & Ah).
    apply agree_trans with (1 := agree_sym _ _ _ _ Ag). apply agree_trans with (1 := A). exact Ah.
  Qed.
  (** Equal arguments, equal results: whatever the caches, whatever was in memory. *)
  Theorem cbh2_deterministic f1 f2 j1 j2 j3 k1 k2 k3 c1 c2 x y x' y' z z' d1 d2 : reachable w c1 -> reachable w c2 -> blen x = M -> blen y = M -> blen x' = M -> blen y' = M ->
    same_coords M x x' -> same_coords M y y' -> cbh2 isz f1 inv j1 j2 j3 B tb c1 x y = Ok (z, d1) -> cbh2 isz f2 inv k1 k2 k3 B tb c2 x' y' = Ok (z', d2) -> same_coords M z z'.
  Proof.
    intros H1 H2 Hx Hy Hx' Hy' Sx Sy E1 E2. destruct (cbh2_spec _ _ _ _ _ _ _ _ _ H1 Hx Hy E1) as (_ & _ & A1). destruct (cbh2_spec _ _ _ _ _ _ _ _ _ H2 Hx' Hy' E2) as (_ & _ & A2).
    refine (EX_inj (bat _) (bat _) _). apply agree_trans with (1 := A1). apply agree_sym. apply agree_trans with (1 := A2). apply agree_conv; apply agree_sym, EX_same; auto.
  Qed.
  Theorem cbh2_assoc f1 f2 f3 f4 j1 j2 j3 c1 c2 c3 c4 d1 d2 d3 d4 x y z xy yz l r :
    reachable w c1 -> reachable w c2 -> reachable w c3 -> reachable w c4 -> blen x = M -> blen y = M -> blen z = M ->
    cbh2 isz f1 inv j1 j2 j3 B tb c1 x y = Ok (xy, d1) -> cbh2 isz f2 inv j1 j2 j3 B tb c2 xy z = Ok (l, d2) ->
    cbh2 isz f3 inv j1 j2 j3 B tb c3 y z = Ok (yz, d3) -> cbh2 isz f4 inv j1 j2 j3 B tb c4 x yz = Ok (r, d4) -> same_coords M l r.
  Proof.
    intros H1 H2 H3 H4 Hx Hy Hz E1 E2 E3 E4.
    destruct (cbh2_spec _ _ _ _ _ _ _ _ _ H1 Hx Hy E1) as (_ & Lxy & A1). destruct (cbh2_spec _ _ _ _ _ _ _ _ _ H2 Lxy Hz E2) as (_ & _ & A2).
    destruct (cbh2_spec _ _ _ _ _ _ _ _ _ H3 Hy Hz E3) as (_ & Lyz & A3). destruct (cbh2_spec _ _ _ _ _ _ _ _ _ H4 Hx Lyz E4) as (_ & _ & A4).
    refine (EX_inj (bat _) (bat _) _). apply agree_trans with (1 := A2). apply agree_trans with (conv (conv (EX (bat x)) (EX (bat y))) (EX (bat z))); [apply agree_conv; [exact A1|apply agree_refl]|].
    apply agree_sym. apply agree_trans with (1 := A4). apply agree_trans with (conv (EX (bat x)) (conv (EX (bat y)) (EX (bat z)))); [apply agree_conv; [apply agree_refl|exact A3]|].
    intros u _. symmetry. apply (conv_assoc (qr R) Z).
  Qed.
  (** The list form agrees with the binary form, splitting anywhere. *)
  Theorem cbh_app f1 f2 f3 f4 j1 j2 j3 c1 c2 c3 c4 d1 d2 d3 d4 xs ys a b l r :
    reachable w c1 -> reachable w c2 -> reachable w c3 -> reachable w c4 -> Forall (fun x => blen x = M) xs -> Forall (fun x => blen x = M) ys ->
    cbh isz f1 inv j1 j2 j3 B tb c1 xs = Ok (a, d1) -> cbh isz f2 inv j1 j2 j3 B tb c2 ys = Ok (b, d2) ->
    cbh isz f3 inv j1 j2 j3 B tb c3 (xs ++ ys) = Ok (l, d3) -> cbh2 isz f4 inv j1 j2 j3 B tb c4 a b = Ok (r, d4) -> same_coords M l r.
  Proof.
    intros H1 H2 H3 H4 Hx Hy E1 E2 E3 E4.
    destruct (cbh_spec _ _ _ _ _ _ _ _ H1 Hx E1) as (_ & La & A1). destruct (cbh_spec _ _ _ _ _ _ _ _ H2 Hy E2) as (_ & Lb & A2).
    destruct (cbh_spec _ _ _ _ _ _ _ _ H3 (proj2 (Forall_app _ _ _) (conj Hx Hy)) E3) as (_ & _ & A3). destruct (cbh2_spec _ _ _ _ _ _ _ _ _ H4 La Lb E4) as (_ & _ & A4).
    refine (EX_inj (bat _) (bat _) _). apply agree_trans with (1 := A3). apply agree_trans with (1 := EXs_app xs ys). apply agree_sym. apply agree_trans with (1 := A4). apply agree_conv; auto.
  Qed.
  Lemma texp_zero n (u : list Z) : texp (R:=R) n tzero u = tone u.
  Proof.
    unfold texp, tpoly. rewrite (sum_seq_S _ 0), (sum_zero _ (seq 1 n)).
    - cbn [tpow]. change (invfact R 0) with (@r1 (qr R)). ring.
    - intros k Hk. apply in_seq in Hk. destruct k as [|k]; [lia|]. cbn [tpow]. rewrite (conv_zero_l (qr R) Z _ u). unfold tzero. ring.
  Qed.
  Lemma cbh2_commute f j1 j2 j3 c d x y z : reachable w c -> blen x = M -> blen y = M ->
    (forall u, (length u <= D)%nat -> conv (LX (bat x)) (LX (bat y)) u = conv (LX (bat y)) (LX (bat x)) u) -> cbh2 isz f inv j1 j2 j3 B tb c x y = Ok (z, d) ->
    forall i, 0 <= i < M -> bat z i = radd (bat x i) (bat y i).
  Proof.
    intros Hc Hx Hy HC E. destruct (cbh2_spec _ _ _ _ _ _ _ _ _ Hc Hx Hy E) as (_ & _ & A).
    apply (EX_inj (bat z) (fun i => radd (bat x i) (bat y i))). apply agree_trans with (1 := A). apply agree_sym.
    assert (Y : agree D (texp (R:=R) D (tadd (LX (bat x)) (LX (bat y)))) (conv (EX (bat x)) (EX (bat y)))).
    { exact (texp_add_comm R Z D (LX (bat x)) (LX (bat y)) HC (gLX_nil _) (gLX_nil _)). }
    apply agree_trans with (2 := Y). apply (agree_tpoly R D D (invfact R)). intros u _. apply (LX_add (qr R) B M (bat x) (bat y) u).
  Qed.
  (** Elements whose bracket vanishes are added. *)
  Theorem cbh2_commuting br f j1 j2 j3 c d x y z : bracket_table B w M br -> reachable w c -> blen x = M -> blen y = M ->
    (forall i, 0 <= i < M -> lprod M br (bat x) (bat y) i = r0) -> cbh2 isz f inv j1 j2 j3 B tb c x y = Ok (z, d) ->
    forall i, 0 <= i < M -> bat z i = radd (bat x i) (bat y i).
  Proof.
    intros Hb Hc Hx Hy HZ E. apply (cbh2_commute f j1 j2 j3 c d); auto. intros u Hu.
    assert (C := lprod_expand (qr R) B w N M HS EM br Hb (bat x) (bat y) u Hu).
    assert (C0 : LX (lprod M br (bat x) (bat y)) u = r0). { unfold lie_expand. apply sum_zero. intros k Hk. apply zseq_In in Hk. rewrite HZ by lia. ring. }
    rewrite C0 in C. unfold comm, tsub in C. transitivity (radd (rsub (conv (LX (bat x)) (LX (bat y)) u) (conv (LX (bat y)) (LX (bat x)) u)) (conv (LX (bat y)) (LX (bat x)) u)); [ring|]. rewrite <- C. ring.
  Qed.
  (** Multiples of one element are added; so zero is the unit and negatives are inverses. *)
  Theorem cbh2_multiples f j1 j2 j3 c d a b e x y z : reachable w c -> blen x = M -> blen y = M ->
    (forall i, 0 <= i < M -> bat x i = rmul a (bat e i)) -> (forall i, 0 <= i < M -> bat y i = rmul b (bat e i)) ->
    cbh2 isz f inv j1 j2 j3 B tb c x y = Ok (z, d) -> forall i, 0 <= i < M -> bat z i = rmul (radd a b) (bat e i).
  Proof.
    intros Hc Hx Hy Xa Yb E i Hi. transitivity (radd (bat x i) (bat y i)); [|rewrite Xa, Yb by auto; ring].
    apply (cbh2_commute f j1 j2 j3 c d); auto. intros u _.
    assert (P : forall a0 (f0 g0 : Z -> R), (forall i, 0 <= i < M -> f0 i = rmul a0 (g0 i)) -> forall v, LX f0 v = tscal a0 (LX g0) v).
    { intros a0 f0 g0 H v. unfold tscal, lie_expand. rewrite <- sum_mul_l. apply sum_ext. intros k Hk. apply zseq_In in Hk. rewrite H by lia. ring. }
    assert (Px := P a _ _ Xa). assert (Py := P b _ _ Yb).
    rewrite (conv_local (qr R) Z (LX (bat x)) (tscal a (LX (bat e))) (LX (bat y)) (tscal b (LX (bat e))) u) by auto.
    rewrite (conv_local (qr R) Z (LX (bat y)) (tscal b (LX (bat e))) (LX (bat x)) (tscal a (LX (bat e))) u) by auto.
    rewrite !(conv_scal_l _ _ _ _ _ u). unfold tscal at 1 3. rewrite !(conv_scal_r _ _ _ _ _ u). unfold tscal. ring.
  Qed.
  Theorem cbh2_unit f j1 j2 j3 c d x y z : reachable w c -> blen x = M -> blen y = M -> cbh2 isz f inv j1 j2 j3 B tb c x y = Ok (z, d) ->
    ((forall i, 0 <= i < M -> bat y i = r0) -> same_coords M z x) /\ ((forall i, 0 <= i < M -> bat x i = r0) -> same_coords M z y).
  Proof.
    intros Hc Hx Hy E. split; intros H0 i Hi.
    - rewrite (cbh2_multiples f j1 j2 j3 c d r1 r0 x x y z); auto; [ring|intros; ring|intros j Hj; rewrite H0 by auto; ring].
    - rewrite (cbh2_multiples f j1 j2 j3 c d r0 r1 y x y z); auto; [ring|intros j Hj; rewrite H0 by auto; ring|intros; ring].
  Qed.
  Theorem cbh2_inverse f j1 j2 j3 c d x y z : reachable w c -> blen x = M -> blen y = M -> cbh2 isz f inv j1 j2 j3 B tb c x y = Ok (z, d) ->
    ((forall i, 0 <= i < M -> bat z i = r0) <-> forall i, 0 <= i < M -> bat y i = ropp (bat x i)).
  Proof.
    intros Hc Hx Hy E. split; intros H0.
    - destruct (cbh2_product R isz isz_ok R1 inv inv_ok B w N M HS HF EM Hsm c Hc) as (F & HP).
      set (y' := mkbuf M (fun i => ropp (bat x i)) : buf R). assert (Hy' : blen y' = M) by reflexivity.
      destruct (HP F j1 j2 j3 x y' (le_n _) Hx Hy') as (z' & d' & _ & _ & _ & E' & _).
      assert (Z' : forall i, 0 <= i < M -> bat z' i = r0).
      { intros i Hi. rewrite (cbh2_multiples F j1 j2 j3 c d' r1 (ropp r1) x x y' z'); auto; [ring|intros; ring|intros j Hj; cbn [y' bat]; ring]. }
      destruct (cbh2_spec _ _ _ _ _ _ _ _ _ Hc Hx Hy E) as (_ & _ & A). destruct (cbh2_spec _ _ _ _ _ _ _ _ _ Hc Hx Hy' E') as (_ & _ & A').
      change (forall i, 0 <= i < M -> bat y i = bat y' i). apply (EX_inj (bat y) (bat y')).
      assert (AA : agree D (conv (EX (bat x)) (EX (bat y))) (conv (EX (bat x)) (EX (bat y')))).
      { apply agree_trans with (1 := agree_sym _ _ _ _ A). apply agree_trans with (2 := A'). apply EX_same. intros i Hi. rewrite H0, Z' by auto. reflexivity. }
      destruct (HP F j1 j2 j3 y' x (le_n _) Hy' Hx) as (z2 & d2 & _ & _ & _ & E2 & _).
      destruct (cbh2_spec _ _ _ _ _ _ _ _ _ Hc Hy' Hx E2) as (_ & _ & A2).
      assert (I2 : agree D (conv (EX (bat y')) (EX (bat x))) tone).
      { apply agree_trans with (1 := agree_sym _ _ _ _ A2). apply agree_trans with (EX (fun _ => r0)).
        - apply EX_same. intros i Hi. rewrite (cbh2_multiples F j1 j2 j3 c d2 (ropp r1) r1 x y' x z2); auto; [ring|intros j Hj; cbn [y' bat]; ring|intros; ring].
        - apply agree_trans with (texp (R:=R) D tzero); [apply (agree_tpoly R D D (invfact R)); intros u _; apply (LX_zero (qr R) B M u)|].
          intros u _. apply texp_zero. }
      assert (Q : forall t : tens (qr R) Z, agree D (conv (EX (bat y')) (conv (EX (bat x)) t)) t).
      { intros t. apply agree_trans with (conv (conv (EX (bat y')) (EX (bat x))) t); [intros u _; symmetry; apply (conv_assoc (qr R) Z)|].
        apply agree_trans with (conv tone t); [apply agree_conv; [exact I2|apply agree_refl]|intros u _; apply (conv_one_l (qr R) Z)]. }
      apply agree_trans with (1 := agree_sym _ _ _ _ (Q _)). apply agree_trans with (2 := Q _). apply agree_conv; [apply agree_refl|exact AA].
    - intros i Hi. rewrite (cbh2_multiples f j1 j2 j3 c d r1 (ropp r1) x x y z); auto; [ring|intros; ring|intros j Hj; rewrite H0 by auto; ring].
  Qed.
  (** Logarithm and projection undo the signature. *)
  Theorem log_signature_roundtrip f j1 j2 j3 k1 k2 k3 c d x g l y : reachable w c -> blen x = M ->
    to_signature isz j1 j2 j3 B tb x = Ok g -> py_ft_log g tb = Ok l -> py_tensor_to_lie isz f inv k1 k2 k3 B c (t_data l) tb None = Ok (y, d) -> same_coords M y x.
  Proof.
    intros Hc Hx Eg El Ey. destruct (sig_agree _ _ _ _ _ Hx Eg) as (Kg & Gg & Ag).
    destruct (proj_ok R isz isz_ok R1 inv inv_ok B w N M HS HF EM Hsm c Hc) as (F & HP).
    destruct (HP (Nat.max F f) k1 k2 k3 g (Nat.le_max_l _ _) Kg Gg) as (l' & y' & d' & El' & Ey' & _ & Ly & _ & s & Es & As).
    assert (l' = l) as -> by congruence. apply (tensor_to_lie_mono R isz f (Nat.max F f)) in Ey; [|lia]. rewrite Ey' in Ey. injection Ey as -> ->.
    refine (EX_inj (bat _) (bat _) _). destruct (sig_agree _ _ _ _ _ Ly Es) as (_ & _ & A). apply agree_trans with (1 := agree_sym _ _ _ _ A). apply agree_trans with (1 := As). exact Ag.
  Qed.
End Group.

(** Brackets become commutators of tensors. *)
Lemma lprod_tensor (R : cring) B w N M : standard B w N -> lb_size B = Ok M -> forall br, bracket_table B w M br ->
  forall jd ji jp (isz : R -> bool), (forall x, isz x = true <-> x = r0) -> (r1 : R) <> r0 -> l2t_fits w N ->
  forall x y z tx ty tz, blen x = M -> blen y = M -> blen z = M -> (forall i, 0 <= i < M -> bat z i = lprod M br (bat x) (bat y) i) ->
  py_lie_to_tensor isz jd ji jp B x (tensor_basis w N) None = Ok tx -> py_lie_to_tensor isz jd ji jp B y (tensor_basis w N) None = Ok ty ->
  py_lie_to_tensor isz jd ji jp B z (tensor_basis w N) None = Ok tz ->
  agree (Z.to_nat N) (tv w (Z.to_nat N) (mkT tz (tensor_basis w N))) (comm (tv w (Z.to_nat N) (mkT tx (tensor_basis w N))) (tv w (Z.to_nat N) (mkT ty (tensor_basis w N)))).
Proof.
  intros HS EM br Hb jd ji jp isz Hz H1 HF x y z tx ty tz Hx Hy Hzl E Ex Ey Ez.
  destruct (l2t_agree R isz Hz H1 B w N M HS HF EM x jd ji jp tx Hx Ex) as [_ Ax]. destruct (l2t_agree R isz Hz H1 B w N M HS HF EM y jd ji jp ty Hy Ey) as [_ Ay].
  destruct (l2t_agree R isz Hz H1 B w N M HS HF EM z jd ji jp tz Hzl Ez) as [_ Az].
  intros u Hu. rewrite (Az u Hu). rewrite (comm_local R _ (lie_expand (bat x) (T B) M) _ (lie_expand (bat y) (T B) M) u) by (intros v Hv; first [apply Ax|apply Ay]; lia).
  rewrite <- (lprod_expand R B w N M HS EM br Hb (bat x) (bat y) u Hu). unfold lie_expand. apply sum_ext. intros k Hk. apply zseq_In in Hk. rewrite E by lia. reflexivity.
Qed.

(** ** Tables of brackets exist. *)
Lemma finite_choice {X} (P : Z -> X -> Prop) (x0 : X) n : (forall a, 1 <= a <= Z.of_nat n -> exists x, P a x) -> exists f, forall a, 1 <= a <= Z.of_nat n -> P a (f a).
Proof.
  induction n as [|n IH]; intros H; [exists (fun _ => x0); intros; lia|].
  destruct IH as [f Hf]; [intros; apply H; lia|]. destruct (H (Z.of_nat (S n)) ltac:(lia)) as [x Hx].
  exists (fun a => if a =? Z.of_nat (S n) then x else f a). intros a Ha. destruct (a =? Z.of_nat (S n)) eqn:E; [replace a with (Z.of_nat (S n)) by lia; auto|apply Hf; lia].
Qed.
Theorem bracket_table_ex B w N M : standard B w N -> lb_size B = Ok M -> exists br, bracket_table B w M br.
Proof.
  intros HS EM. assert (HM : 0 <= M \/ M < 0) by lia. destruct HM as [HM|HM]; [|exists (fun _ _ => []); intros a b Ha; lia].
  assert (Hc : reachable w lc_empty) by constructor.
  assert (X : forall a, 1 <= a <= Z.of_nat (Z.to_nat M) -> exists row : Z -> list (Z * Z), forall b, 1 <= b <= Z.of_nat (Z.to_nat M) -> exists c c', reachable w c /\ returns B c (a, b) (Some (row b)) c').
  { intros a Ha. apply (finite_choice (fun b e => exists c c', reachable w c /\ returns B c (a, b) (Some e) c') []). intros b Hb.
    destruct (bracket_total w lc_empty B N (a, b) Hc HS ltac:(cbn; lia) ltac:(cbn; lia)) as (r & c' & HR).
    assert (Da := T_dec B w N M HS EM a ltac:(lia)). assert (Db := T_dec B w N M HS EM b ltac:(lia)).
    destruct (Z.le_gt_cases (tdeg (T B a) + tdeg (T B b)) N) as [Hd|Hd].
    - destruct (bracket_correct w lc_empty B N a b _ _ r c' Hc HS Da Db Hd HR) as (e & l & -> & _). exists e, lc_empty, c'. auto.
    - assert (r = Some []) as ->.
      { apply (bracket_outside w lc_empty B N a b r c' Hc HS ltac:(lia) ltac:(lia) HR). intros s t Ds Dt.
        destruct (dec_T B w N M HS EM _ _ Ds) as [_ ->]. destruct (dec_T B w N M HS EM _ _ Dt) as [_ ->]. lia. }
      exists [], lc_empty, c'. auto. }
  destruct (finite_choice _ (fun _ => []) _ X) as [f Hf]. exists f. intros a b Ha Hb. apply Hf; lia.
Qed.
Definition qb (l : list Q) : buf Qccr := buf_of (0%Qc : Qccr) (map Q2Qc l).
Definition qcbh2 (B : lie_basis) (x y : outcome (buf Qccr)) : outcome (buf Qccr) :=
  let! x := x in let! y := y in let! r := cbh2 (R:=Qcqa) qisz 50 qinvz (fun _ => 0%Qc : Qccr) (fun _ => 88) (fun _ => 99) B (tensor_basis 2 3) lc_empty x y in Ok (fst r).
Definition qlist (x : outcome (buf Qccr)) : option (list Q) := match x with Ok b => option_map (map this) (buf_list (Ok b)) | _ => None end.
Lemma ex_group : exists B, standard B 2 3 /\ l2t_fits 2 3 /\ small_brackets B 2 /\ lb_size B = Ok 5 /\
  let x := Ok (qb [1; 0; 0; 0; 0]%Q) in let y := Ok (qb [0; 1; 0; 0; 0]%Q) in let z := Ok (qb [1; -1; 2; 0; 0]%Q) in
  qlist (qcbh2 B (qcbh2 B x y) z) = Some [2; 0; 3#2; 5#6; 5#6]%Q /\ qlist (qcbh2 B x (qcbh2 B y z)) = Some [2; 0; 3#2; 5#6; 5#6]%Q /\
  qlist (qcbh2 B (Ok (qb [1; 2; 3; 4; 5]%Q)) (Ok (qb [-1; -2; -3; -4; -5]%Q))) = Some [0; 0; 0; 0; 0]%Q.
Proof.
  assert (X : match construct_lie_basis junk0 junk0 2 3 with Ok B =>
     forallb (fun x => forallb (fun k => match ans_of (lmc_get 50 B lc_empty (x, k)) with Some e => forallb (fun p => (- 2 ^ 31 <=? snd p) && (snd p <? 2 ^ 31)) e | None => false end) (zseq 1 (Z.to_nat 5))) (zseq 1 (Z.to_nat 2)) = true /\
     lb_size B = Ok 5 /\ let x := Ok (qb [1; 0; 0; 0; 0]%Q) in let y := Ok (qb [0; 1; 0; 0; 0]%Q) in let z := Ok (qb [1; -1; 2; 0; 0]%Q) in
  qlist (qcbh2 B (qcbh2 B x y) z) = Some [2; 0; 3#2; 5#6; 5#6]%Q /\ qlist (qcbh2 B x (qcbh2 B y z)) = Some [2; 0; 3#2; 5#6; 5#6]%Q /\
  qlist (qcbh2 B (Ok (qb [1; 2; 3; 4; 5]%Q)) (Ok (qb [-1; -2; -3; -4; -5]%Q))) = Some [0; 0; 0; 0; 0]%Q
     | _ => False end) by (vm_compute; repeat split).
  destruct (construct_lie_basis junk0 junk0 2 3) as [B| | |] eqn:E; [|destruct X..]. destruct X as (X1 & X2 & X3). exists B.
  assert (HS : standard B 2 3) by (split; [unfold fits, I64_MAX; lia|exists junk0, junk0; exact E]). split; auto. split; [unfold l2t_fits, I64_MAX; lia|].
  split; [apply (small_check B 2 3 5 50 HS X2 X1)|split; auto].
Qed.
