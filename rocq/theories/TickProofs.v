(** Proofs about tick streams. *)
From Coq Require Import ZifyBool Lqa Qround.
From Verif Require Export TickSpec StreamProofs StreamProofs2.
From Verif Require Import DyadicProofs DyadicProofs2 DyadicProofs3.
Open Scope Z_scope.

(** *** Nodes: cell number c lies below node k of level m if c / 2^m = k *)
Lemma div_up c m m' : 0 <= m <= m' -> c / 2 ^ m' = (c / 2 ^ m) / 2 ^ (m' - m).
Proof.
  intros H. assert (P1 := pow2_pos m ltac:(lia)). assert (P2 := pow2_pos (m' - m) ltac:(lia)). rewrite Z.div_div by lia. rewrite <- Z.pow_add_r by lia. do 2 f_equal. lia.
Qed.
Lemma div_up_eq a b m m' : 0 <= m <= m' -> a / 2 ^ m = b / 2 ^ m -> a / 2 ^ m' = b / 2 ^ m'.
Proof. intros H E. rewrite !(div_up _ m m') by auto. rewrite E. reflexivity. Qed.
Lemma div_between a c b m : 0 <= m -> a <= c <= b -> a / 2 ^ m = b / 2 ^ m -> c / 2 ^ m = a / 2 ^ m.
Proof.
  intros Hm H E. assert (P := pow2_pos m Hm). assert (a / 2 ^ m <= c / 2 ^ m) by (apply Z.div_le_mono; lia). assert (c / 2 ^ m <= b / 2 ^ m) by (apply Z.div_le_mono; lia). lia.
Qed.
Lemma div_range c m k : 0 <= m -> (c / 2 ^ m = k <-> k * 2 ^ m <= c < (k + 1) * 2 ^ m).
Proof.
  intros Hm. assert (P := pow2_pos m Hm). split.
  - intros <-. assert (D := Z.div_mod c (2 ^ m) ltac:(lia)). assert (B := Z.mod_pos_bound c (2 ^ m) ltac:(lia)). nia.
  - intros H. symmetry. apply (Z.div_unique c (2 ^ m) k (c - 2 ^ m * k)); lia.
Qed.
(** The least level at which a and b lie below the same node. *)
Definition meet (a b m : Z) : Prop := 0 <= m /\ a / 2 ^ m = b / 2 ^ m /\ forall m', 0 <= m' < m -> a / 2 ^ m' <> b / 2 ^ m'.
Lemma meet_fun a b m m' : meet a b m -> meet a b m' -> m = m'.
Proof.
  intros (H1 & H2 & H3) (H1' & H2' & H3'). destruct (Z.lt_trichotomy m m') as [L|[L|L]]; auto; exfalso.
  - apply (H3' m); auto.
  - apply (H3 m'); auto.
Qed.
Lemma meet_le a b m m' : meet a b m -> 0 <= m' -> a / 2 ^ m' = b / 2 ^ m' -> m <= m'.
Proof. intros (H1 & H2 & H3) H E. destruct (Z_le_gt_dec m m'); auto. exfalso. apply (H3 m'); auto. lia. Qed.
Lemma top_meets a b : - 2 ^ 28 <= a -> a <= b -> b < 2 ^ 28 -> 0 <= a \/ b < 0 -> a / 2 ^ 28 = b / 2 ^ 28.
Proof.
  intros H1 H2 H3 [H|H].
  - rewrite !Z.div_small by lia. reflexivity.
  - transitivity (-1); [|symmetry]; apply div_range; lia.
Qed.

(** *** Growing to the common node *)
Section Grow.
  Variable res : Z.
  Hypothesis Hres : - 2 ^ 27 <= res <= 2 ^ 27.
  Definition nd (k m : Z) : dint := mkDI k (res - m) Clopen.
  Definition nfit (k m : Z) : Prop := 0 <= m <= 28 /\ - 2 ^ 28 <= k * 2 ^ m /\ (k + 1) * 2 ^ m <= 2 ^ 28.
  Lemma nfit_div c m : 0 <= m <= 28 -> - 2 ^ 28 <= c < 2 ^ 28 -> nfit (c / 2 ^ m) m.
  Proof.
    intros Hm Hc. split; auto. assert (P := pow2_pos m ltac:(lia)). assert (D := Z.div_mod c (2 ^ m) ltac:(lia)). assert (B := Z.mod_pos_bound c (2 ^ m) ltac:(lia)).
    assert (E : 2 ^ 28 = 2 ^ (28 - m) * 2 ^ m) by (rewrite <- Z.pow_add_r by lia; f_equal; lia). assert (P2 := pow2_pos (28 - m) ltac:(lia)).
    assert (- 2 ^ (28 - m) <= c / 2 ^ m) by (apply Z.div_le_lower_bound; nia). assert (c / 2 ^ m < 2 ^ (28 - m)) by (apply Z.div_lt_upper_bound; nia). nia.
  Qed.
  Lemma nfit_k k m : nfit k m -> - 2 ^ 28 <= k < 2 ^ 28.
  Proof. intros (H1 & H2 & H3). assert (P := pow2_pos m ltac:(lia)). nia. Qed.
  Lemma grow_ok a b : - 2 ^ 28 <= a -> a <= b -> b < 2 ^ 28 -> 0 <= a \/ b < 0 ->
    forall (j : nat) m fuel, m = 28 - Z.of_nat j -> 0 <= m -> (forall m', 0 <= m' < m -> a / 2 ^ m' <> b / 2 ^ m') -> (j < fuel)%nat ->
    exists u, meet a b u /\ u <= 28 /\ tk_grow fuel (nd (a / 2 ^ m) m) (nd b 0) = Ok (nd (a / 2 ^ u) u).
  Proof.
    intros Ha Hab Hb Hs. induction j as [|j IH]; intros m fuel Em Hm Hlow Hf; destruct fuel as [|fuel]; try lia; cbn [tk_grow].
    all: assert (F := nfit_div a m ltac:(lia) ltac:(lia)); destruct F as (_ & F1 & F2); assert (Pm := pow2_pos m ltac:(lia)).
    all: rewrite contains_dyadic_eval; [|reflexivity|cbn; lia|cbn; unfold small; lia|cbn [di_n di_k nd]; replace (res - 0 - (res - m)) with m by lia; unfold INT_MIN, INT_MAX; lia].
    all: cbn [di_n di_k nd unit di_t bind]; unfold unit; cbn [di_t unit_t]; rewrite !Z.mul_1_l; replace (res - 0 - (res - m)) with m by lia; destruct (a / 2 ^ m =? b / 2 ^ m) eqn:E.
    - exists m. split; [|split; [lia|reflexivity]]. split; auto. split; auto. lia.
    - exfalso. assert (m = 28) as -> by lia. assert (X := top_meets a b Ha Hab Hb Hs). lia.
    - exists m. split; [|split; [lia|reflexivity]]. split; auto. split; auto. lia.
    - assert (Fk := nfit_k _ _ (nfit_div a m ltac:(lia) ltac:(lia))).
      rewrite expand_eval by (cbn; unfold small; lia). cbn [bind di_k di_n nd].
      destruct (IH (m + 1) fuel ltac:(lia) ltac:(lia)) as (u & M & U & G); [|lia|].
      + intros m' Hm'. destruct (Z.eq_dec m' m) as [->|N]; [lia|]. apply Hlow. lia.
      + exists u. split; auto. split; auto. rewrite <- G. f_equal. unfold nd. f_equal; [|lia]. rewrite (div_up a m (m + 1)) by lia. do 2 f_equal. lia.
  Qed.
End Grow.

(** *** The times *)
Section Times.
  Variable res : Z.
  Hypothesis Hres : - 2 ^ 27 <= res <= 2 ^ 27.
  Variable times : incs Datatypes.unit.
  Variable C : Z -> Prop.
  Hypothesis Tasc : ascending times.
  Hypothesis Tin : forall t, In t times <-> exists c, t = (dy c res, tt) /\ C c.
  Hypothesis Cb : forall c, C c -> - 2 ^ 28 <= c < 2 ^ 28.

  Lemma lower_skip x y : (x <= y)%Q -> (lower_bound times x + lower_bound (skipn (lower_bound times x) times) y = lower_bound times y)%nat.
  Proof.
    intros Hxy. clear -Hxy. induction times as [|[k u] l IH]; auto. cbn [lower_bound]. destruct (qlt k x) eqn:E; [|reflexivity].
    apply qlt_iff in E. replace (qlt k y) with true by (symmetry; apply qlt_iff; lra). cbn [skipn plus]. f_equal. exact IH.
  Qed.
  Lemma of_cell c : - 2 ^ 28 <= c < 2 ^ 28 -> di_of_param (dy c res) res Clopen = Ok (nd res c 0).
  Proof.
    intros Hc. unfold di_of_param, qscale. assert (E : (dy c res * Qpower 2 res == inject_Z c)%Q).
    { unfold dy. rewrite <- Qmult_assoc, <- Qpow2_plus. replace (- res + res) with 0 by lia. cbn. ring. }
    rewrite E, Qfloor_Z. rewrite i32_ok by (unfold INT_MIN, INT_MAX; lia). cbn [bind]. unfold nd. rewrite Z.sub_0_r. reflexivity.
  Qed.

  (** First and last cell among those satisfying P. *)
  Definition ends (P : Z -> Prop) (a b : Z) : Prop := C a /\ P a /\ C b /\ P b /\ forall c, C c -> P c -> a <= c <= b.
  Lemma ends_fun P a b a' b' : ends P a b -> ends P a' b' -> a = a' /\ b = b'.
  Proof.
    intros (H1 & H2 & H3 & H4 & H5) (H1' & H2' & H3' & H4' & H5'). assert (X1 := H5 _ H1' H2'). assert (X2 := H5 _ H3' H4'). assert (X3 := H5' _ H1 H2). assert (X4 := H5' _ H3 H4). lia.
  Qed.
  Lemma ends_ext (P P' : Z -> Prop) a b : (forall c, C c -> (P c <-> P' c)) -> ends P a b -> ends P' a b.
  Proof.
    intros H (H1 & H2 & H3 & H4 & H5). split; auto. split; [apply H; auto|]. split; auto. split; [apply H; auto|]. intros c Hc HP. apply H5; auto. apply H; auto.
  Qed.
  (** A nonempty stretch of the times between two positions. *)
  Lemma stretch be en (P : Z -> Prop) : (be < en <= length times)%nat ->
    (forall p, (p < length times)%nat -> forall c, nth_error times p = Some (dy c res, tt) -> (P c <-> (be <= p < en)%nat)) ->
    exists a b, ends P a b /\ time_at times be = Ok (dy a res) /\ time_at times (en - 1) = Ok (dy b res).
  Proof.
    intros Hbe HP.
    assert (Nth : forall p, (p < length times)%nat -> exists c, nth_error times p = Some (dy c res, tt) /\ C c).
    { intros p Hp. destruct (nth_error times p) as [t|] eqn:E; [|apply nth_error_None in E; lia]. destruct (proj1 (Tin t) (nth_error_In _ _ E)) as (c & -> & Hc). eauto. }
    destruct (Nth be ltac:(lia)) as (a & Ea & Ca). destruct (Nth (en - 1)%nat ltac:(lia)) as (b & Eb & Cbb).
    assert (Mono : forall p q c c', nth_error times p = Some (dy c res, tt) -> nth_error times q = Some (dy c' res, tt) -> (p <= q)%nat -> c <= c').
    { clear -Tasc. intros p q. revert p q. induction times as [|e l IH]; intros p q c c' Hp Hq Hpq; [destruct p; discriminate|]. inversion Tasc as [|? ? A1 A2]; subst.
      destruct p as [|p], q as [|q]; try lia; cbn [nth_error] in *.
      - assert (dy c res = dy c' res) by congruence. apply Z.eq_le_incl. apply (dy_same_eq c c' res). rewrite H. reflexivity.
      - injection Hp as ->. rewrite Forall_forall in A2. specialize (A2 _ (nth_error_In _ _ Hq)). cbn in A2. apply dy_same_lt in A2. lia.
      - apply (IH A1 p q c c'); auto. lia. }
    exists a, b. split; [|unfold time_at; rewrite Ea, Eb; auto]. split; auto. split; [apply (HP be ltac:(lia) a Ea); lia|]. split; auto. split; [apply (HP (en - 1)%nat ltac:(lia) b Eb); lia|].
    intros c Hc HPc. assert (Hin : In (dy c res, tt) times) by (apply Tin; eauto). apply In_nth_error in Hin. destruct Hin as (p & Ep).
    assert (Hp : (p < length times)%nat) by (apply nth_error_Some; congruence). assert (R := proj1 (HP p Hp c Ep) HPc). split; [apply (Mono be p)|apply (Mono p (en - 1)%nat)]; auto; lia.
  Qed.
  Lemma lower_pos x p c : nth_error times p = Some (dy c res, tt) -> ((dy c res < x)%Q <-> (p < lower_bound times x)%nat).
  Proof.
    clear Tin. revert p. induction times as [|[k u] l IH]; intros p Hp; [destruct p; discriminate|]. inversion Tasc as [|? ? A1 A2]; subst. specialize (IH A1). cbn [lower_bound].
    rewrite Forall_forall in A2. destruct p as [|p]; cbn [nth_error] in Hp.
    - injection Hp as -> ->. destruct (qlt (dy c res) x) eqn:E; [apply qlt_iff in E|apply qlt_niff in E]; split; intros; auto; try lia. lra.
    - specialize (A2 _ (nth_error_In _ _ Hp)). cbn in A2. destruct (qlt k x) eqn:E; [apply qlt_iff in E|apply qlt_niff in E].
      + rewrite (IH p Hp). lia.
      + split; [intros; lra|lia].
  Qed.
  Lemma upper_pos x p c : nth_error times p = Some (dy c res, tt) -> ((dy c res <= x)%Q <-> (p < upper_bound times x)%nat).
  Proof.
    clear Tin. revert p. induction times as [|[k u] l IH]; intros p Hp; [destruct p; discriminate|]. inversion Tasc as [|? ? A1 A2]; subst. specialize (IH A1). cbn [upper_bound].
    rewrite Forall_forall in A2. destruct p as [|p]; cbn [nth_error] in Hp.
    - injection Hp as -> ->. destruct (qle (dy c res) x) eqn:E; [apply qle_iff in E|apply qle_niff in E]; split; intros; auto; try lia. lra.
    - specialize (A2 _ (nth_error_In _ _ Hp)). cbn in A2. destruct (qle k x) eqn:E; [apply qle_iff in E|apply qle_niff in E].
      + rewrite (IH p Hp). lia.
      + split; [intros; lra|lia].
  Qed.
  Lemma lower_len x : (lower_bound times x <= length times)%nat.
  Proof. clear. induction times as [|[k u] l IH]; cbn; auto. destruct (qlt k x); lia. Qed.
  Lemma upper_len x : (upper_bound times x <= length times)%nat.
  Proof. clear. induction times as [|[k u] l IH]; cbn; auto. destruct (qle k x); lia. Qed.
  Lemma C_nth c : C c -> exists p, nth_error times p = Some (dy c res, tt) /\ (p < length times)%nat.
  Proof. intros Hc. assert (Hin : In (dy c res, tt) times) by (apply Tin; eauto). apply In_nth_error in Hin. destruct Hin as (p & Ep). exists p. split; auto. apply nth_error_Some. congruence. Qed.

  (** The cells in a dyadic interval. *)
  Definition inside (k n c : Z) : Prop := (dy k n <= dy c res)%Q /\ (dy c res < dy (k + 1) n)%Q.
  Lemma smallest_eval k n fuel : - 2 ^ 28 <= k < 2 ^ 28 -> (29 <= fuel)%nat ->
    (tk_smallest fuel times res (mkDI k n Clopen) = Ok None /\ forall c, C c -> ~ inside k n c) \/
    (exists a b, ends (inside k n) a b /\ (0 <= a \/ b < 0 -> exists u, meet a b u /\ u <= 28 /\
      tk_smallest fuel times res (mkDI k n Clopen) = Ok (Some (nd res (a / 2 ^ u) u)))).
  Proof.
    intros Hk Hf. unfold tk_smallest. unfold dinf, dsup, dexcluded, unit. cbn [di_t unit_t di_k di_n dincluded di_d]. rewrite i32_ok by (unfold INT_MIN, INT_MAX; lia). cbn [bind]. rewrite !to_param_dy. cbn [mult power].
    assert (Hle : (dy k n <= dy (k + 1) n)%Q) by (apply dy_same_le; lia). change (dincluded (mkDI k n Clopen)) with (mkD k n). cbn [mult power]. rewrite (lower_skip _ _ Hle).
    set (be := lower_bound times (dy k n)). set (en := lower_bound times (dy (k + 1) n)).
    assert (Hin : forall p, (p < length times)%nat -> forall c, nth_error times p = Some (dy c res, tt) -> (inside k n c <-> (be <= p < en)%nat)).
    { intros p Hp c Ep. assert (L1 := lower_pos (dy k n) p c Ep). assert (L2 := lower_pos (dy (k + 1) n) p c Ep). fold be in L1. fold en in L2. unfold inside. rewrite L2. 
      assert ((dy k n <= dy c res)%Q <-> ~ (dy c res < dy k n)%Q) as -> by (split; [intros H1 H2; lra|apply Qnot_lt_le]). rewrite L1. lia. }
    assert (Hbe : (be <= en)%nat). { unfold be, en. rewrite <- (lower_skip _ _ Hle). lia. }
    destruct (Nat.eqb_spec en be) as [Eq|Ne].
    - left. split; auto. intros c Hc HI. destruct (C_nth c Hc) as (p & Ep & Hp). apply (Hin p Hp c Ep) in HI. lia.
    - right. assert (Hen : (en <= length times)%nat) by apply lower_len. destruct (stretch be en (inside k n) ltac:(lia) Hin) as (a & b & Hab & Ta & Tb). exists a, b. split; auto. intros Hs.
      destruct Hab as (Ca & Pa & Cbb & Pb & Hab). assert (Ba := Cb a Ca). assert (Bb := Cb b Cbb). rewrite Tb. cbn [bind]. rewrite of_cell by auto. cbn [bind]. rewrite Ta. cbn [bind]. rewrite of_cell by auto. cbn [bind].
      assert (Le : a <= b) by (apply Hab; auto).
      destruct (grow_ok res Hres a b ltac:(lia) Le ltac:(lia) Hs 28 0 fuel ltac:(lia) ltac:(lia) ltac:(lia) ltac:(lia)) as (u & M & U & G). rewrite Z.pow_0_r, Z.div_1_r in G.
      exists u. split; auto. split; auto. change (of_d (dincluded (nd res b 0)) Clopen) with (nd res b 0). rewrite G. reflexivity.
  Qed.
End Times.

(** *** The map *)
Section Map.
  Variable lie : Type.
  Variable res : Z.
  Hypothesis Hres : - 2 ^ 27 <= res <= 2 ^ 27.
  Notation nd := (nd res).
  Notation map_ := (cache lie).
  Definition kfit (i : dint) : Prop := exists k m, i = nd k m /\ nfit k m.
  Definition mfit (M : map_) : Prop := Forall (fun e => kfit (fst e)) M.
  Lemma di_lt_total a b : kfit a -> kfit b -> exists x, di_lt a b = Ok x.
  Proof.
    intros (k & m & -> & (F1 & F2 & F3)) (k' & m' & -> & (G1 & G2 & G3)). assert (A := nfit_k _ _ (conj F1 (conj F2 F3))). assert (B := nfit_k _ _ (conj G1 (conj G2 G3))).
    unfold di_lt, nd. cbn [di_t di_n di_k itype_eqb negb unit unit_t]. unfold unit. cbn [di_t unit_t].
    assert (Pm := pow2_pos m ltac:(lia)). assert (Pm' := pow2_pos m' ltac:(lia)).
    destruct (res - m =? res - m') eqn:E; [|destruct (res - m >? res - m') eqn:E2].
    - rewrite !i32_ok by (unfold INT_MIN, INT_MAX; rewrite ?i32_ok; lia). cbn [bind]. rewrite i32_ok by (unfold INT_MIN, INT_MAX; lia). cbn [bind]. eauto.
    - rewrite (i32_ok (res - m - (res - m'))) by (unfold INT_MIN, INT_MAX; lia). cbn [bind]. replace (res - m - (res - m')) with (m' - m) by lia.
      assert (Hs : - 2 ^ 28 <= k' * 2 ^ (m' - m) <= 2 ^ 28).
      { assert (X : 2 ^ m' = 2 ^ (m' - m) * 2 ^ m) by (rewrite <- Z.pow_add_r by lia; f_equal; lia). assert (P := pow2_pos (m' - m) ltac:(lia)). destruct (Z_le_gt_dec 0 k'); nia. }
      rewrite shift_ok by (unfold INT_MIN, INT_MAX; lia). cbn [bind]. rewrite !i32_ok by (unfold INT_MIN, INT_MAX; lia). cbn [bind]. rewrite i32_ok by (unfold INT_MIN, INT_MAX; lia). cbn [bind]. eauto.
    - rewrite (i32_ok (res - m' - (res - m))) by (unfold INT_MIN, INT_MAX; lia). cbn [bind]. replace (res - m' - (res - m)) with (m - m') by lia.
      assert (Hs : - 2 ^ 28 <= k * 2 ^ (m - m') <= 2 ^ 28).
      { assert (X : 2 ^ m = 2 ^ (m - m') * 2 ^ m') by (rewrite <- Z.pow_add_r by lia; f_equal; lia). assert (P := pow2_pos (m - m') ltac:(lia)). destruct (Z_le_gt_dec 0 k); nia. }
      rewrite shift_ok by (unfold INT_MIN, INT_MAX; lia). cbn [bind]. rewrite !i32_ok by (unfold INT_MIN, INT_MAX; lia). cbn [bind]. rewrite i32_ok by (unfold INT_MIN, INT_MAX; lia). cbn [bind]. eauto.
  Qed.
  Definition di_eqb (a b : dint) : bool := (di_k a =? di_k b) && (di_n a =? di_n b).
  Lemma di_eqb_iff a b : kfit a -> kfit b -> (di_eqb a b = true <-> a = b).
  Proof.
    intros (k & m & -> & _) (k' & m' & -> & _). unfold di_eqb, nd. cbn [di_k di_n]. split; [intros H; f_equal; lia|]. intros [= -> H]. lia.
  Qed.
  Lemma same_key_fit a b : kfit a -> kfit b -> same_key a b = Ok (di_eqb a b).
  Proof.
    intros Ha Hb. assert (T : di_t a = di_t b) by (destruct Ha as (? & ? & -> & _), Hb as (? & ? & -> & _); reflexivity).
    unfold same_key. destruct (di_lt_total a b Ha Hb) as (x & Ex). destruct (di_lt_total b a Hb Ha) as (y & Ey). rewrite Ex, Ey. cbn [bind]. f_equal.
    apply eq_true_iff_eq. rewrite (di_eqb_iff a b Ha Hb), andb_true_iff, !negb_true_iff. split.
    - intros [-> ->]. destruct (key_order a b a T (eq_sym T)) as (_ & _ & K). auto.
    - intros ->. destruct (key_order b b b eq_refl eq_refl) as (K & _). split; [destruct x|destruct y]; auto; congruence.
  Qed.
  Fixpoint look (M : map_) (i : dint) : option lie :=
    match M with [] => None | (j, v) :: M => if di_eqb j i then Some v else look M i end.
  Lemma find_look M i : mfit M -> kfit i -> cache_find M i = Ok (look M i).
  Proof.
    intros HM Hi. induction HM as [|[j v] M Hj HM IH]; auto. cbn [cache_find look]. cbn [fst] in Hj. rewrite same_key_fit by auto. cbn [bind]. destruct (di_eqb j i); auto.
  Qed.
  Lemma put_look M i v : mfit M -> kfit i -> exists M', tk_put M i v = Ok M' /\ mfit M' /\ look M' i = Some v /\ forall j, kfit j -> j <> i -> look M' j = look M j.
  Proof.
    intros HM Hi. assert (Refl : di_eqb i i = true) by (apply di_eqb_iff; auto).
    induction HM as [|[j w] M Hj HM IH]; cbn [tk_put].
    - exists [(i, v)]. split; auto. split; [repeat constructor; auto|]. cbn [look]. rewrite Refl. split; auto. intros j Hj Nj. destruct (di_eqb i j) eqn:E; auto. apply di_eqb_iff in E; auto. congruence.
    - cbn [fst] in Hj. rewrite same_key_fit by auto. cbn [bind]. destruct (di_eqb j i) eqn:E.
      + apply di_eqb_iff in E; auto. subst j. exists ((i, v) :: M). split; auto. split; [constructor; auto|]. cbn [look]. rewrite Refl. split; auto. intros j Hj2 Nj. destruct (di_eqb i j) eqn:E; auto. apply di_eqb_iff in E; auto. congruence.
      + destruct IH as (M' & E1 & F1 & L1 & L2). rewrite E1. cbn [bind]. exists ((j, w) :: M'). split; auto. split; [constructor; auto|]. cbn [look]. rewrite E. split; auto. intros j' Hj' Nj'. rewrite L2 by auto. reflexivity.
  Qed.
  Variable none : lie.
  Lemma entry_look M i : mfit M -> kfit i -> exists v M', tk_entry none M i = Ok (v, M') /\ mfit M' /\ look M' i = Some v /\
    (forall j, kfit j -> j <> i -> look M' j = look M j) /\ match look M i with Some w => v = w | None => v = none end.
  Proof.
    intros HM Hi. unfold tk_entry. rewrite (find_look M i HM Hi). cbn [bind]. destruct (look M i) as [w|] eqn:E.
    - exists w, M. auto.
    - destruct (put_look M i none HM Hi) as (M' & E1 & F1 & L1 & L2). rewrite E1. cbn [bind]. exists none, M'. auto.
  Qed.
End Map.
