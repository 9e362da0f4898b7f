(** Dynamically constructed streams: the operations on the tree. *)
From Coq Require Import ZifyBool Lqa.
From Verif Require Export DynProofs2.
From Verif Require Import DyadicLemmas DyadicProofs DyadicProofs2.
Open Scope Z_scope.

Lemma under_start k m k' m' : 0 <= m -> under k m k' m' -> k' * 2 ^ m' <= k * 2 ^ m /\ (k + 1) * 2 ^ m <= (k' + 1) * 2 ^ m'.
Proof.
  intros Hm [H1 H2]. apply div_range in H2; [|lia]. assert (P := pow2_pos m Hm). assert (E : 2 ^ m' = 2 ^ (m' - m) * 2 ^ m) by (rewrite <- Z.pow_add_r by lia; f_equal; lia). rewrite E. nia.
Qed.
Lemma begin_keys {lie} (t t' : tree lie) : keys lie t' = keys lie t -> dn_begin t' = dn_begin t.
Proof. destruct t as [|[i v] t], t' as [|[j w] t']; cbn; congruence. Qed.

Lemma left_iter k n (a : nat) : - 2 ^ 28 <= n -> n + Z.of_nat a <= 2 ^ 28 -> - 2 ^ 28 <= k * 2 ^ Z.of_nat a <= 2 ^ 28 ->
  shrink_interval_left (mkDI k n Clopen) a = Ok (mkDI (k * 2 ^ Z.of_nat a) (n + Z.of_nat a) Clopen).
Proof.
  revert k n. induction a as [|a IH]; intros k n Hn Hn2 Hk.
  - cbn [shrink_interval_left]. f_equal. f_equal; lia.
  - rewrite Nat2Z.inj_succ, Z.pow_succ_r in * by lia. assert (P := pow2_pos (Z.of_nat a) ltac:(lia)).
    assert (HH : half_ok (mkDI k n Clopen)). { split; cbn [di_k di_n]; [|lia]. change (2 ^ 28) with 268435456 in *. destruct (Z_le_gt_dec 0 k); nia. }
    destruct (left_right_eval _ HH) as [El _]. cbn [shrink_interval_left] in El |- *. cbn [di_t] in *.
    destruct (shrink_to_contained_end (mkDI k n Clopen) 1) as [i'| | |]; cbn [bind] in *; try discriminate. injection El as ->. rewrite IH; cbn [di_k di_n]; try lia. f_equal. f_equal; [ring|lia].
Qed.
Lemma lt_level res a b m : - 2 ^ 29 <= a <= 2 ^ 29 -> - 2 ^ 29 <= b <= 2 ^ 29 -> di_lt (nd res a m) (nd res b m) = Ok (a <? b).
Proof.
  intros Ha Hb. unfold di_lt, nd. cbn [di_t di_n di_k itype_eqb negb]. unfold unit. cbn [di_t unit_t]. rewrite Z.eqb_refl. rewrite i32_ok by (unfold INT_MIN, INT_MAX; lia). cbn [bind]. rewrite i32_ok by (unfold INT_MIN, INT_MAX; lia). cbn [bind]. f_equal. lia.
Qed.
Lemma contains_level res a b m : - 2 ^ 29 <= a <= 2 ^ 29 -> - 2 ^ 29 <= b <= 2 ^ 29 -> contains_dyadic (nd res a m) (nd res b m) = Ok (a =? b).
Proof.
  intros Ha Hb. rewrite contains_dyadic_eval; cbn [di_t di_n di_k nd]; rewrite ?Z.sub_diag, ?Z.pow_0_r, ?Z.div_1_r; auto; [|lia|unfold small; lia|unfold INT_MIN, INT_MAX; lia].
  unfold unit. cbn [di_t unit_t]. rewrite !Z.mul_1_l. reflexivity.
Qed.
Section Ops.
  Variable lie st : Type.
  Variable is_zero : lie -> bool.
  Variable cbh2 : lie -> lie -> lie.
  Variable R : rule lie st.
  Variable S : sigs lie.
  Variable ok : lie -> Prop.
  Variable ctx : actx lie.
  Hypothesis HS : sound is_zero S ok ctx.
  Hypothesis Hok2 : forall a b, ok a -> ok b -> ok (cbh2 a b).
  Hypothesis Hcbh2 : forall a b, ok a -> ok b -> sg_eq S (sg_of S (cbh2 a b)) (sg_mul S (sg_of S a) (sg_of S b)).
  Variable res h : Z.
  Hypothesis Hres : - 2 ^ 27 <= res <= 2 ^ 27.
  Hypothesis Hh : h = 0 \/ h = -1.
  Variable Qv : Z -> Z -> lie -> Prop.
  Hypothesis Hq : forall k m x y, Qv k m x -> ok y -> sg_eq S (sg_of S y) (sg_of S x) -> Qv k m y.
  Infix "===" := (sg_eq S) (at level 70).
  Notation nd := (nd res).
  Notation kfit := (kfit res).
  Notation mfit := (mfit (dnode lie) res).
  Notation tree := (tree lie).
  Notation look := (look (dnode lie)).
  Notation sorted := (sorted lie).
  Notation keys := (keys lie).
  Notation fitn := (fitn h).
  Notation has := (has lie res).
  Notation tinv := (tinv lie S ok res h Qv).
  Notation ext := (ext lie S res).
  Notation sg x := (sg_of S (dn_lie x)).
  Implicit Types (t : tree) (g : st).
  Hypothesis Hroot : forall g k m, fitn k m -> ok (fst (ru_root R g (nd k m))) /\ Qv k m (fst (ru_root R g (nd k m))).
  Hypothesis Hneigh : forall g k m, fitn k m -> ok (fst (ru_neighbour R g (nd k m))) /\ Qv k m (fst (ru_neighbour R g (nd k m))).
  Hypothesis Hchild : forall g k m v, fitn k m -> 1 <= m -> ok v -> Qv k m v ->
    let '(x, y, _) := ru_children R g (nd (2 * k) (m - 1)) (nd (2 * k + 1) (m - 1)) v in
    ok x /\ ok y /\ Qv (2 * k) (m - 1) x /\ Qv (2 * k + 1) (m - 1) y /\ sg_mul S (sg_of S x) (sg_of S y) === sg_of S v.
  Variable grows : Prop.
  Hypothesis Hgrow : grows -> forall k m x y z, fitn k m -> 1 <= m -> ok x -> ok y -> ok z -> Qv k m x -> Qv (2 * k) (m - 1) y -> Qv (2 * k + 1) (m - 1) z -> sg_of S x === sg_mul S (sg_of S y) (sg_of S z).

  Lemma halves_nd k m : nfit k m -> shrink_interval_left (nd k m) 1 = Ok (nd (2 * k) (m - 1)) /\ shrink_interval_right (nd k m) = Ok (nd (2 * k + 1) (m - 1)).
  Proof.
    intros F. assert (A := nfit_k _ _ F). destruct F as (F & _). destruct (left_right_eval (nd k m)) as [E1 E2]; [split; cbn; lia|]. rewrite E1, E2. cbn [di_t di_k di_n TickProofs.nd]. unfold TickProofs.nd. split; do 2 f_equal; lia.
  Qed.
  Lemma equals_nd k m k' m' : dyadic_equals (di_d (nd k m)) (di_d (nd k' m')) = (k =? k') && (m =? m').
  Proof. unfold dyadic_equals, di_d, TickProofs.nd. cbn [power mult di_k di_n]. lia. Qed.

  Lemma split_ok t rk rm k m v k0 m0 g fuel : tinv t rk rm -> has t k m v -> dn_acc v = res - m -> nfit k0 m0 -> m0 < m -> under k0 m0 k m -> (30 <= fuel)%nat ->
    exists c t' g' w, dn_split cbh2 R fuel g t (nd k m) (nd k0 m0) = Ok (nd c (m - 1), t', g') /\ tinv t' rk rm /\ ext t t' /\ c = k0 / 2 ^ (m - 1 - m0) /\ c / 2 = k /\ has t' c (m - 1) w /\ dn_acc w = res - (m - 1).
  Proof.
    intros I H Av F0 Hm0 U Hf. assert (F := proj1 H). assert (Hm : 1 <= m) by (destruct F0; lia). assert (Fn := has_fitn _ _ _ _ _ _ _ _ _ _ _ _ I H).
    assert (Fl : nfit (2 * k) (m - 1)) by (apply (fitn_nfit h Hh), (fitn_child h k); auto using div_2k). assert (Fr : nfit (2 * k + 1) (m - 1)) by (apply (fitn_nfit h Hh), (fitn_child h k); auto using div_2k1).
    assert (Kl := nd_kfit res _ _ Fl). assert (Kr := nd_kfit res _ _ Fr). assert (K0 := nd_kfit res _ _ F).
    destruct (ti_val _ _ _ _ _ _ _ _ _ I k m v H) as [Ov Qw]. destruct (ti_node _ _ _ _ _ _ _ _ _ I k m v H) as [(_ & Hleaf)|(X & _)]; [|lia]. destruct (Hleaf Hm) as [Nl Nr].
    unfold dn_split. destruct (halves_nd k m F) as [El Er]. rewrite El, Er. cbn [bind]. rewrite (has_at _ _ _ _ _ _ _ _ _ _ _ _ I H). cbn [bind].
    specialize (Hchild g k m (dn_lie v) Fn Hm Ov Qw). destruct (ru_children R g (nd (2 * k) (m - 1)) (nd (2 * k + 1) (m - 1)) (dn_lie v)) as [[x y] g1]. destruct Hchild as (Ox & Oy & Qx & Qy & Exy).
    unfold dn_insert_node. change (di_n (nd (2 * k) (m - 1))) with (res - (m - 1)). change (di_n (nd (2 * k + 1) (m - 1))) with (res - (m - 1)).
    set (il := nd (2 * k) (m - 1)) in *. set (ir := nd (2 * k + 1) (m - 1)) in *. set (i0 := nd k m) in *. set (rt := nd rk rm) in *.
    assert (Nlr : il <> ir) by (intros X; apply nd_inj in X; lia). assert (Nl0 : il <> i0) by (intros X; apply nd_inj in X; lia). assert (Nr0 : ir <> i0) by (intros X; apply nd_inj in X; lia).
    assert (Ur := ti_under _ _ _ _ _ _ _ _ _ I k m v H). assert (Frn := fitn_nfit h Hh _ _ (ti_rfit _ _ _ _ _ _ _ _ _ I)). assert (P1 := pow2_pos (m - 1) ltac:(lia)). assert (P2 : 2 ^ m = 2 * 2 ^ (m - 1)) by (rewrite <- Z.pow_succ_r by lia; f_equal; lia).
    assert (Us := under_start k m rk rm ltac:(lia) Ur). assert (Ul := proj1 Ur).
    assert (Orl : ord rt il). { apply ord_nd; auto. nia. }
    assert (Orr : ord rt ir). { apply ord_nd; auto. nia. }
    destruct (insert_look lie res Hres t il (mkNode (res - (m - 1)) x None None) (ti_fit _ _ _ _ _ _ _ _ _ I) (ti_sort _ _ _ _ _ _ _ _ _ I) Kl Nl) as (t1 & E1 & F1 & S1 & L1 & L1' & _ & B1 & _). rewrite E1. cbn [bind]. specialize (B1 rt (ti_begin _ _ _ _ _ _ _ _ _ I) Orl).
    destruct (insert_look lie res Hres t1 ir (mkNode (res - (m - 1)) y None None) F1 S1 Kr) as (t2 & E2 & F2 & S2 & L2 & L2' & _ & B2 & _); [rewrite L1'; auto|]. rewrite E2. cbn [bind]. specialize (B2 rt B1 Orr).
    unfold dn_link at 1. rewrite (at_look lie res) by auto. rewrite (L2' il Kl Nlr), L1. cbn [bind dn_acc dn_lie].
    destruct (set_look lie res t2 il (mkNode (res - (m - 1)) x None None) (mkNode (res - (m - 1)) x (Some ir) (Some i0)) F2 Kl) as (t3 & E3 & F3 & K3 & L3 & L3'); [rewrite L2', L1; auto|]. rewrite E3. cbn [bind].
    unfold dn_link. rewrite (at_look lie res) by auto. rewrite (L3' ir Kr ltac:(auto)), L2. cbn [bind dn_acc dn_lie].
    destruct (set_look lie res t3 ir (mkNode (res - (m - 1)) y None None) (mkNode (res - (m - 1)) y (Some il) (Some i0)) F3 Kr) as (t4 & E4 & F4 & K4 & L4 & L4'); [rewrite L3', L2; auto|]. rewrite E4. cbn [bind].
    assert (L4l : look t4 il = Some (mkNode (res - (m - 1)) x (Some ir) (Some i0))) by (rewrite L4'; auto).
    assert (L40 : look t4 i0 = Some v). { rewrite L4', L3', L2', L1' by auto. apply H. }
    destruct fuel as [|fuel]; [lia|]. cbn [dn_update_parents].
    assert (B4 : dn_begin t4 = Some rt) by (rewrite (begin_keys t3 t4 K4), (begin_keys t2 t3 K3); auto). rewrite B4. cbn [dn_deref bind].
    unfold il at 1, rt at 1. rewrite (key_eqb_nd res (2 * k) (m - 1) rk rm Fl Frn). replace ((2 * k =? rk) && (m - 1 =? rm)) with false by lia.
    rewrite (at_look lie res t4 il F4 Kl), L4l. cbn [bind dn_par dn_sib dn_deref]. rewrite (at_look lie res t4 i0 F4 K0), L40. cbn [bind]. rewrite (at_look lie res t4 ir F4 Kr), L4. cbn [bind dn_acc dn_lie].
    rewrite Z.min_id. replace (res - (m - 1) <=? dn_acc v) with false by lia. unfold il at 1. rewrite (aligned_nd res Hres (2 * k) (m - 1) Fl). cbn [bind]. replace (Z.even (2 * k)) with true by (symmetry; rewrite Z.even_mul; reflexivity).
    destruct (set_look lie res t4 i0 v (mkNode (res - (m - 1)) (cbh2 x y) (dn_sib v) (dn_par v)) F4 K0 L40) as (t5 & E5 & F5 & K5 & L5 & L5'). rewrite E5. cbn [bind].
    destruct (tinv_split lie is_zero S ok ctx HS res h Hh Qv Hq t rk rm k m v x y (cbh2 x y) (res - (m - 1)) t5) as [I5 X5]; auto; [lia|..].
    { eapply (sd_trans _ _ _ _ HS); [apply Hcbh2; auto|exact Exy]. }
    { unfold DynProofs.sorted. rewrite K5, K4, K3. exact S2. }
    { rewrite (begin_keys t4 t5 K5), B4. symmetry. apply (ti_begin _ _ _ _ _ _ _ _ _ I). }
    { rewrite L5'; auto. }
    { rewrite L5'; auto. }
    { intros j Kj N1 N2 N3. rewrite L5', L4', L3', L2', L1' by auto. reflexivity. }
    destruct (X5 _ _ _ H) as (v5 & H5 & _).
    destruct (update_ok lie is_zero cbh2 S ok ctx HS Hok2 Hcbh2 res h Hres Hh Qv Hq 29 t5 rk rm k m v5 fuel I5 H5) as (t6 & E6 & I6 & X6 & K6); [assert (Y := proj1 (ti_rfit _ _ _ _ _ _ _ _ _ I)); lia|lia|].
    fold i0 in E6. rewrite E6. cbn [bind]. unfold il at 1. rewrite (contains_nd res k0 m0 (2 * k) (m - 1) F0 Fl). replace (m0 <=? m - 1) with true by lia. cbn [andb bind].
    set (c := k0 / 2 ^ (m - 1 - m0)).
    assert (Hc : c / 2 = k). { unfold c. destruct U as [_ <-]. rewrite Z.div_div by (try apply pow2_pos; lia). f_equal. rewrite <- (Z.pow_1_r 2) at 2. rewrite <- Z.pow_add_r by lia. f_equal. lia. }
    assert (Cc : c = 2 * k \/ c = 2 * k + 1) by (assert (D := Z.div_mod c 2 ltac:(lia)); assert (B := Z.mod_pos_bound c 2 ltac:(lia)); lia).
    assert (Hl5 : has t5 (2 * k) (m - 1) (mkNode (res - (m - 1)) x (Some ir) (Some i0))) by (split; auto; fold il; rewrite L5'; auto).
    assert (Hr5 : has t5 (2 * k + 1) (m - 1) (mkNode (res - (m - 1)) y (Some il) (Some i0))) by (split; auto; fold ir; rewrite L5'; auto).
    assert (Leaf6 : exists w, has t6 c (m - 1) w /\ dn_acc w = res - (m - 1)).
    { assert (Hw5 : exists w, has t5 c (m - 1) w /\ dn_acc w = res - (m - 1)) by (destruct Cc as [-> | ->]; eexists; (split; [eassumption|reflexivity])). destruct Hw5 as (w5 & Hw5 & Aw5). destruct (X6 _ _ _ Hw5) as (w6 & Hw6 & _). exists w6. split; auto.
      destruct (ti_node _ _ _ _ _ _ _ _ _ I6 c (m - 1) w6 Hw6) as [(A & _)|(_ & M & a & b & Ha & _)]; auto. exfalso. assert (Kin := has_key _ _ _ _ _ _ _ _ _ _ _ _ I6 Ha). rewrite K6 in Kin.
      destruct (key_look lie res t5 _ F5 Kin) as (z & Lz). destruct (ti_node _ _ _ _ _ _ _ _ _ I5 c (m - 1) w5 Hw5) as [(_ & A)|(A & _)]; [|lia]. destruct (A M). congruence. }
    destruct Leaf6 as (w & Hw & Aw). exists c, t6, g1, w. split; [|split; [exact I6|split; [apply (ext_trans lie is_zero S ok ctx HS res _ _ _ X5 X6)|auto]]].
    do 2 f_equal. f_equal. destruct (c =? 2 * k) eqn:Ec; [unfold il; f_equal; lia|unfold ir; f_equal; lia].
  Qed.

  Lemma leaf_keys t t' rk rm rk' rm' k m v v' : tinv t rk rm -> tinv t' rk' rm' -> keys t' = keys t -> has t k m v -> dn_acc v = res - m -> has t' k m v' -> dn_acc v' = res - m.
  Proof.
    intros I I' K H A H'. destruct (ti_node _ _ _ _ _ _ _ _ _ I' k m v' H') as [(X & _)|(_ & M & a & b & Ha & _)]; auto. exfalso. assert (Kin := has_key _ _ _ _ _ _ _ _ _ _ _ _ I' Ha). rewrite K in Kin.
    destruct (key_look lie res t _ (ti_fit _ _ _ _ _ _ _ _ _ I) Kin) as (z & Lz). destruct (ti_node _ _ _ _ _ _ _ _ _ I k m v H) as [(_ & X)|(X & _)]; [|lia]. destruct (X M). congruence.
  Qed.
  Lemma down_ok (N : nat) : forall t rk rm k m v k0 m0 g fuel, tinv t rk rm -> has t k m v -> dn_acc v = res - m -> nfit k0 m0 -> under k0 m0 k m -> m - m0 < Z.of_nat N -> (N + 30 <= fuel)%nat ->
    exists t' g' w, dn_down cbh2 R fuel g t (nd k m) (nd k0 m0) = Ok (nd k0 m0, t', g') /\ tinv t' rk rm /\ ext t t' /\ has t' k0 m0 w /\ dn_acc w = res - m0.
  Proof.
    induction N as [|N IH]; intros t rk rm k m v k0 m0 g fuel I H A F0 U HN Hf; [destruct U; lia|]. destruct fuel as [|fuel]; [lia|]. cbn [dn_down]. assert (F := proj1 H).
    rewrite (contains_nd res k0 m0 k m F0 F), equals_nd. cbn [bind]. destruct U as [U1 U2]. replace (m0 <=? m) with true by lia. replace (k0 / 2 ^ (m - m0) =? k) with true by lia. cbn [andb].
    destruct ((k =? k0) && (m =? m0)) eqn:E; cbn [negb].
    - assert (k = k0 /\ m = m0) as [-> ->] by lia. exists t, g, v. split; auto. split; auto. split; auto. apply (ext_refl lie is_zero S ok ctx HS res).
    - assert (M : m0 < m). { destruct (Z.eq_dec m m0) as [->|]; [|lia]. exfalso. rewrite Z.sub_diag, Z.pow_0_r, Z.div_1_r in U2. lia. }
      destruct (split_ok t rk rm k m v k0 m0 g (Datatypes.S fuel) I H A F0 M (conj U1 U2) ltac:(lia)) as (c & t1 & g1 & w & E1 & I1 & X1 & Ec & Hc & Hw & Aw). rewrite E1. cbn [bind].
      destruct (IH t1 rk rm c (m - 1) w k0 m0 g1 fuel I1 Hw Aw F0) as (t2 & g2 & w2 & E2 & I2 & X2 & Hw2 & Aw2); [split; [lia|auto]|lia|lia|].
      exists t2, g2, w2. split; auto. split; auto. split; auto. apply (ext_trans lie is_zero S ok ctx HS res _ _ _ X1 X2).
  Qed.
  Lemma grow_ok (N : nat) : forall t rk rm k m v k0 m0 g fuel, tinv t rk rm -> has t k m v -> (k = k0 /\ m = m0) \/ dn_acc v = res - m -> nfit k0 m0 -> under k0 m0 k m -> m - m0 < Z.of_nat N -> (N + 30 <= fuel)%nat ->
    exists t' g' w, dn_grow cbh2 R fuel g t (nd k m) (nd k0 m0) = Ok (nd k0 m0, t', g') /\ tinv t' rk rm /\ ext t t' /\ has t' k0 m0 w.
  Proof.
    induction N as [|N IH]; intros t rk rm k m v k0 m0 g fuel I H A F0 U HN Hf; [destruct U; lia|]. destruct fuel as [|fuel]; [lia|]. cbn [dn_grow]. assert (F := proj1 H).
    rewrite equals_nd. cbn [bind]. destruct U as [U1 U2].
    destruct ((k =? k0) && (m =? m0)) eqn:E; cbn [negb].
    - assert (k = k0 /\ m = m0) as [-> ->] by lia. exists t, g, v. split; auto. split; auto. split; auto. apply (ext_refl lie is_zero S ok ctx HS res).
    - assert (M : m0 < m). { destruct (Z.eq_dec m m0) as [->|]; [|lia]. exfalso. rewrite Z.sub_diag, Z.pow_0_r, Z.div_1_r in U2. lia. }
      destruct A as [[-> ->]|A]; [lia|].
      destruct (split_ok t rk rm k m v k0 m0 g (Datatypes.S fuel) I H A F0 M (conj U1 U2) ltac:(lia)) as (c & t1 & g1 & w & E1 & I1 & X1 & Ec & Hc & Hw & Aw). rewrite E1. cbn [bind].
      destruct (IH t1 rk rm c (m - 1) w k0 m0 g1 fuel I1 Hw (or_intror Aw) F0) as (t2 & g2 & w2 & E2 & I2 & X2 & Hw2); [split; [lia|auto]|lia|lia|].
      exists t2, g2, w2. split; auto. split; auto. split; auto. apply (ext_trans lie is_zero S ok ctx HS res _ _ _ X1 X2).
  Qed.
  Lemma next_child t rk rm k m a : tinv t rk rm -> nfit k m -> 1 <= m -> In (nd k m) (keys t) -> has t (2 * k) (m - 1) a -> dn_next t (nd k m) = Ok (Some (nd (2 * k) (m - 1))).
  Proof.
    intros I F Hm K Ha. assert (P2 : 2 ^ m = 2 * 2 ^ (m - 1)) by (rewrite <- Z.pow_succ_r by lia; f_equal; lia). apply (next_is lie res); auto.
    - apply (ti_fit _ _ _ _ _ _ _ _ _ I).
    - apply (ti_sort _ _ _ _ _ _ _ _ _ I).
    - apply (has_key _ _ _ _ _ _ _ _ _ _ _ _ I Ha).
    - apply ord_nd; auto; [apply Ha|]. right. lia.
    - intros x Kx O1 O2. destruct (key_has _ _ _ _ _ _ _ _ _ _ I Kx) as (kx & mx & vx & -> & Hx). apply ord_nd in O1; [|auto|apply Hx]. apply ord_nd in O2; [|apply Hx|apply Ha]. lia.
  Qed.
  Lemma walk_ok (N : nat) : forall t rk rm k m v k0 m0 fuel, tinv t rk rm -> has t k m v -> nfit k0 m0 -> under k0 m0 k m -> m < Z.of_nat N -> (N <= fuel)%nat ->
    exists k1 m1 v1, dn_walk fuel t (nd k m) (nd k0 m0) = Ok (nd k1 m1) /\ has t k1 m1 v1 /\ under k0 m0 k1 m1 /\ ((k1 = k0 /\ m1 = m0) \/ dn_acc v1 = res - m1).
  Proof.
    induction N as [|N IH]; intros t rk rm k m v k0 m0 fuel I H F0 U HN Hf; [destruct H as [(X & _) _]; lia|]. destruct fuel as [|fuel]; [lia|]. cbn [dn_walk]. assert (F := proj1 H).
    rewrite (has_at _ _ _ _ _ _ _ _ _ _ _ _ I H). cbn [bind]. rewrite equals_nd. unfold dn_is_leaf. change (di_n (nd k m)) with (res - m).
    destruct ((k =? k0) && (m =? m0)) eqn:E; cbn [negb andb].
    - exists k, m, v. split; auto. split; auto. split; auto. left. lia.
    - destruct (res - m =? dn_acc v) eqn:Ea; cbn [negb].
      + exists k, m, v. split; auto. split; auto. split; auto. right. lia.
      + assert (U0 := U). destruct U as [U1 U2]. assert (M : m0 < m). { destruct (Z.eq_dec m m0) as [->|]; [|lia]. exfalso. rewrite Z.sub_diag, Z.pow_0_r, Z.div_1_r in U2. lia. }
        destruct (ti_node _ _ _ _ _ _ _ _ _ I k m v H) as [(X & _)|(_ & Hm & a & b & Ha & Hb & _)]; [lia|].
        rewrite (next_child t rk rm k m a I F Hm (has_key _ _ _ _ _ _ _ _ _ _ _ _ I H) Ha). cbn [bind dn_deref]. rewrite (has_at _ _ _ _ _ _ _ _ _ _ _ _ I Ha). cbn [bind]. rewrite (contains_nd res k0 m0 (2 * k) (m - 1) F0 (proj1 Ha)). cbn [bind].
        replace (m0 <=? m - 1) with true by lia. cbn [andb]. set (c := k0 / 2 ^ (m - 1 - m0)).
        assert (Hc : c / 2 = k). { unfold c. rewrite <- U2. rewrite Z.div_div by (try apply pow2_pos; lia). f_equal. rewrite <- (Z.pow_1_r 2) at 2. rewrite <- Z.pow_add_r by lia. f_equal. lia. }
        destruct (c =? 2 * k) eqn:Ec.
        * apply (IH t rk rm (2 * k) (m - 1) a); auto; [|lia|lia]. split; [lia|]. fold c. lia.
        * assert (Ur := proj1 (ti_under _ _ _ _ _ _ _ _ _ I k m v H)). destruct (ti_link _ _ _ _ _ _ _ _ _ I _ _ _ Ha ltac:(lia)) as (_ & Es & _). rewrite Es. cbn [dn_deref bind]. rewrite flip_2k.
          apply (IH t rk rm (2 * k + 1) (m - 1) b); auto; [|lia|lia]. split; [lia|]. fold c. assert (D := Z.div_mod c 2 ltac:(lia)). assert (B := Z.mod_pos_bound c 2 ltac:(lia)). lia.
  Qed.
  Lemma sweep_rest (n : nat) : forall t rk rm k1 d w k' ke g fuel, tinv t rk rm -> has t k1 d w -> k1 < k' -> k' + 2 * Z.of_nat n = ke -> ke <= 2 ^ 28 -> (n + 31 <= fuel)%nat ->
    exists t', dn_sweep cbh2 R fuel g t (nd k1 d) (nd k' d) (nd ke d) = Ok (nd k1 d, t', g) /\ tinv t' rk rm /\ ext t t' /\ keys t' = keys t.
  Proof.
    induction n as [|n IH]; intros t rk rm k1 d w k' ke g fuel I H Hk He Hb Hf; assert (B := nfit_k _ _ (proj1 H)); destruct fuel as [|fuel]; try lia; cbn [dn_sweep]; rewrite lt_level by lia; cbn [bind].
    - replace (k' <? ke) with false by lia. exists t. split; auto. split; auto. split; auto. apply (ext_refl lie is_zero S ok ctx HS res).
    - replace (k' <? ke) with true by lia. cbn [dn_down]. rewrite contains_level by lia. cbn [bind]. replace (k1 =? k') with false by lia. cbn [andb bind].
      destruct (update_ok lie is_zero cbh2 S ok ctx HS Hok2 Hcbh2 res h Hres Hh Qv Hq 29 t rk rm k1 d w (Datatypes.S fuel) I H) as (t1 & E1 & I1 & X1 & K1); [assert (Y := proj1 (ti_rfit _ _ _ _ _ _ _ _ _ I)); assert (Y2 := proj1 (proj1 H)); lia|lia|].
      rewrite E1. cbn [bind di_k di_n di_t TickProofs.nd]. rewrite i32_ok by (unfold INT_MIN, INT_MAX; lia). cbn [bind]. rewrite i32_ok by (unfold INT_MIN, INT_MAX; lia). cbn [bind].
      destruct (X1 _ _ _ H) as (w1 & Hw1 & _). change (mkDI (k' + 1 + 1) (res - d) Clopen) with (nd (k' + 1 + 1) d).
      destruct (IH t1 rk rm k1 d w1 (k' + 1 + 1) ke g fuel I1 Hw1 ltac:(lia) ltac:(lia) Hb ltac:(lia)) as (t2 & E2 & I2 & X2 & K2). exists t2. split; auto. split; auto. split; [apply (ext_trans lie is_zero S ok ctx HS res _ _ _ X1 X2)|congruence].
  Qed.
  Lemma sweep_ok t rk rm k m v d g fuel : tinv t rk rm -> has t k m v -> dn_acc v = res - m -> 0 <= d < m -> 2 ^ 28 + 100 <= Z.of_nat fuel ->
    exists t' g' w, dn_sweep cbh2 R fuel g t (nd k m) (nd (k * 2 ^ (m - d)) d) (nd ((k + 1) * 2 ^ (m - d)) d) = Ok (nd (k * 2 ^ (m - d)) d, t', g') /\ tinv t' rk rm /\ ext t t' /\ has t' (k * 2 ^ (m - d)) d w /\ dn_acc w = res - d.
  Proof.
    intros I H A Hd Hf. assert (F := proj1 H). assert (B := nfit_k _ _ F). destruct F as (F1 & F2 & F3). assert (Pd := pow2_pos d ltac:(lia)). assert (Pe := pow2_pos (m - d) ltac:(lia)). assert (E : 2 ^ m = 2 ^ (m - d) * 2 ^ d) by (rewrite <- Z.pow_add_r by lia; f_equal; lia).
    set (k1 := k * 2 ^ (m - d)) in *. set (ke := (k + 1) * 2 ^ (m - d)) in *. assert (He : ke = k1 + 2 ^ (m - d)) by (unfold ke, k1; ring).
    assert (B1 : - 2 ^ 28 <= k1) by (unfold k1; destruct (Z_le_gt_dec 0 k); nia). assert (B2 : ke <= 2 ^ 28) by (unfold ke; destruct (Z_le_gt_dec 0 (k + 1)); nia).
    assert (U : under k1 d k m) by (split; [lia|]; unfold k1; rewrite Z.div_mul by lia; reflexivity).
    assert (N1 : nfit k1 d) by (apply (fitn_nfit h Hh), (fitn_under h k1 d k m); [apply (has_fitn _ _ _ _ _ _ _ _ _ _ _ _ I H)|lia|auto]).
    destruct fuel as [|fuel]; [lia|]. cbn [dn_sweep]. rewrite lt_level by lia. cbn [bind]. replace (k1 <? ke) with true by lia.
    destruct (down_ok 29 t rk rm k m v k1 d g (Datatypes.S fuel) I H A N1 U ltac:(lia) ltac:(lia)) as (t1 & g1 & w1 & E1 & I1 & X1 & Hw1 & Aw1). rewrite E1. cbn [bind].
    destruct (update_ok lie is_zero cbh2 S ok ctx HS Hok2 Hcbh2 res h Hres Hh Qv Hq 29 t1 rk rm k1 d w1 (Datatypes.S fuel) I1 Hw1) as (t2 & E2 & I2 & X2 & K2); [assert (Y := proj1 (ti_rfit _ _ _ _ _ _ _ _ _ I)); lia|lia|]. rewrite E2. cbn [bind di_k di_n di_t TickProofs.nd].
    rewrite i32_ok by (unfold INT_MIN, INT_MAX; lia). cbn [bind]. rewrite i32_ok by (unfold INT_MIN, INT_MAX; lia). cbn [bind]. destruct (X2 _ _ _ Hw1) as (w2 & Hw2 & _).
    change (mkDI (k1 + 1 + 1) (res - d) Clopen) with (nd (k1 + 1 + 1) d). assert (P2 : 2 ^ (m - d) = 2 * 2 ^ (m - d - 1)) by (rewrite <- Z.pow_succ_r by lia; f_equal; lia). assert (P3 := pow2_pos (m - d - 1) ltac:(lia)). assert (P4 : 2 ^ (m - d - 1) <= 2 ^ 27) by (apply Z.pow_le_mono_r; lia).
    destruct (sweep_rest (Z.to_nat (2 ^ (m - d - 1) - 1)) t2 rk rm k1 d w2 (k1 + 1 + 1) ke g1 fuel I2 Hw2 ltac:(lia) ltac:(lia) B2 ltac:(lia)) as (t3 & E3 & I3 & X3 & K3).
    assert (X13 := ext_trans lie is_zero S ok ctx HS res _ _ _ X1 (ext_trans lie is_zero S ok ctx HS res _ _ _ X2 X3)).
    destruct (X3 _ _ _ Hw2) as (w3 & Hw3 & _). exists t3, g1, w3. split; auto. split; auto. split; auto. split; auto. apply (leaf_keys t1 t3 rk rm rk rm k1 d w1 w3 I1 I3); auto. congruence.
  Qed.
  Lemma next_leaf t rk rm k d w : tinv t rk rm -> has t k d w -> dn_acc w = res - d -> d < rm -> Z.even k = true -> dn_next t (nd k d) = Ok (Some (nd (k + 1) d)).
  Proof.
    intros I H A L E. assert (F := proj1 H). destruct (ti_link _ _ _ _ _ _ _ _ _ I _ _ _ H L) as (_ & _ & _ & (s & Hs)). rewrite (proj1 (flip_even k E)) in Hs. assert (Pd := pow2_pos d ltac:(destruct F; lia)). apply (next_is lie res).
    - apply (ti_fit _ _ _ _ _ _ _ _ _ I).
    - apply (ti_sort _ _ _ _ _ _ _ _ _ I).
    - apply (has_key _ _ _ _ _ _ _ _ _ _ _ _ I H).
    - apply (has_key _ _ _ _ _ _ _ _ _ _ _ _ I Hs).
    - apply ord_nd; auto; [apply Hs|]. left. nia.
    - intros x Kx O1 O2. destruct (key_has _ _ _ _ _ _ _ _ _ _ I Kx) as (kx & mx & vx & -> & Hx). apply ord_nd in O1; [|auto|apply Hx]. apply ord_nd in O2; [|apply Hx|apply Hs].
      destruct F as (F1 & _). destruct (proj1 Hx) as (G1 & _). assert (Px := pow2_pos mx ltac:(lia)). destruct (Z_lt_le_dec mx d) as [M|M].
      + assert (Ux : under kx mx k d). { split; [lia|]. apply div_range; [lia|]. assert (E2 : 2 ^ d = 2 ^ (d - mx) * 2 ^ mx) by (rewrite <- Z.pow_add_r by lia; f_equal; lia). rewrite E2 in O1, O2. nia. }
        destruct (leaf_bottom _ _ _ _ _ _ _ _ _ _ _ _ _ _ _ I H A Hx Ux). lia.
      + assert (E2 : 2 ^ mx = 2 ^ (mx - d) * 2 ^ d) by (rewrite <- Z.pow_add_r by lia; f_equal; lia). rewrite E2 in O1, O2. set (q := kx * 2 ^ (mx - d)). assert (Eq : kx * (2 ^ (mx - d) * 2 ^ d) = q * 2 ^ d) by (unfold q; ring). rewrite Eq in O1, O2.
        
        assert (k < q) by (destruct O1 as [O1|O1]; [apply (Z.mul_lt_mono_pos_r (2 ^ d)); lia|lia]).
        assert (q = k + 1 /\ d < mx) as [Q1 Q2]. { destruct O2 as [O2|[O2 O3]]; [exfalso; apply (Z.mul_lt_mono_pos_r (2 ^ d)) in O2; lia|split; [apply (Z.mul_reg_r _ _ (2 ^ d)); lia|lia]]. }
        assert (Z.even q = true) as Hev. { unfold q. rewrite Z.even_mul. replace (mx - d) with (mx - d - 1 + 1) by lia. rewrite Z.pow_add_r, Z.even_mul by lia. cbn [Z.even Z.pow Z.pow_pos Pos.iter Z.mul]. rewrite !orb_true_r. reflexivity. }
        rewrite Q1 in Hev. replace (k + 1) with (Z.succ k) in Hev by lia. rewrite Z.even_succ, <- Z.negb_even, E in Hev. discriminate.
  Qed.
  Lemma refine_ok t rk rm k m v d g fuel : tinv t rk rm -> has t k m v -> 0 <= d < m -> 2 ^ 28 + 101 <= Z.of_nat fuel ->
    exists t' g', dn_refine cbh2 R fuel g t (nd k m) (res - d) = Ok (t', g') /\ tinv t' rk rm /\ ext t t'.
  Proof.
    intros I H Hd Hf. assert (F := proj1 H). assert (B := nfit_k _ _ F). unfold dn_refine. assert (Kin := has_key _ _ _ _ _ _ _ _ _ _ _ _ I H).
    destruct (next_look lie res t (nd k m) (ti_fit _ _ _ _ _ _ _ _ _ I) (ti_sort _ _ _ _ _ _ _ _ _ I) (nd_kfit res _ _ F) Kin) as (o & Eo & Ho & _). rewrite Eo. cbn [bind].
    destruct fuel as [|fuel]; [lia|]. cbn [dn_refine_loop].
    assert (Es : match o with Some e => key_eqb (nd k m) e | None => false end = false).
    { destruct o as [e|]; auto. destruct (Ho e eq_refl) as [Ke Oe]. assert (Ef := key_fit lie res t e (ti_fit _ _ _ _ _ _ _ _ _ I) Ke). rewrite (key_eqb_fit res) by auto using nd_kfit. apply (eqb_neq res); auto using nd_kfit. apply ord_neq; auto. }
    rewrite Es. change (di_n (nd k m)) with (res - m). replace (res - m <? res - d) with true by lia. cbn [negb]. rewrite (has_at _ _ _ _ _ _ _ _ _ _ _ _ I H). cbn [bind]. unfold dn_is_leaf. change (di_n (nd k m)) with (res - m).
    destruct (res - m =? dn_acc v) eqn:Ea; cbn [negb].
    - rewrite i32_ok by (unfold INT_MIN, INT_MAX; destruct F; lia). cbn [bind]. replace (res - d - (res - m)) with (m - d) by lia. change (di_k (nd k m)) with k. change (di_t (nd k m)) with Clopen.
      rewrite (i32_ok (k + 1)) by (unfold INT_MIN, INT_MAX; lia). cbn [bind]. destruct F as (F1 & F2 & F3). assert (Pd := pow2_pos d ltac:(lia)). assert (Pe := pow2_pos (m - d) ltac:(lia)). assert (E : 2 ^ m = 2 ^ (m - d) * 2 ^ d) by (rewrite <- Z.pow_add_r by lia; f_equal; lia).
      assert (B1 : - 2 ^ 28 <= k * 2 ^ (m - d)) by (destruct (Z_le_gt_dec 0 k); nia). assert (B2 : (k + 1) * 2 ^ (m - d) <= 2 ^ 28) by (destruct (Z_le_gt_dec 0 (k + 1)); nia).
      unfold TickProofs.nd at 1. rewrite (left_iter k (res - m)) by (rewrite ?Z2Nat.id by lia; nia). rewrite Z2Nat.id by lia. replace (res - m + (m - d)) with (res - d) by lia. change (mkDI (k * 2 ^ (m - d)) (res - d) Clopen) with (nd (k * 2 ^ (m - d)) d). cbn [bind].
      rewrite (left_iter (k + 1) (res - m)) by (rewrite ?Z2Nat.id by lia; nia). rewrite Z2Nat.id by lia. replace (res - m + (m - d)) with (res - d) by lia. change (mkDI ((k + 1) * 2 ^ (m - d)) (res - d) Clopen) with (nd ((k + 1) * 2 ^ (m - d)) d). cbn [bind].
      destruct (sweep_ok t rk rm k m v d g (Datatypes.S fuel) I H ltac:(lia) Hd ltac:(lia)) as (t1 & g1 & w & E1 & I1 & X1 & Hw & Aw). rewrite E1. cbn [bind].
      assert (Lr := proj1 (ti_under _ _ _ _ _ _ _ _ _ I k m v H)).
      assert (Ev : Z.even (k * 2 ^ (m - d)) = true). { rewrite Z.even_mul. replace (m - d) with (m - d - 1 + 1) by lia. rewrite Z.pow_add_r, Z.even_mul by lia. cbn [Z.even Z.pow Z.pow_pos Pos.iter Z.mul]. rewrite !orb_true_r. reflexivity. }
      rewrite (next_leaf t1 rk rm _ d w I1 Hw Aw ltac:(lia) Ev). cbn [bind]. destruct fuel as [|fuel]; [lia|]. cbn [dn_refine_loop]. exists t1, g1.
      destruct (match o with Some e => key_eqb (nd (k * 2 ^ (m - d) + 1) d) e | None => false end); [auto|]. change (di_n (nd (k * 2 ^ (m - d) + 1) d)) with (res - d). rewrite Z.ltb_irrefl. cbn [negb]. auto.
    - rewrite Eo. cbn [bind]. exists t, g. assert (Xr := ext_refl lie is_zero S ok ctx HS res t). destruct fuel as [|fuel]; [lia|]. cbn [dn_refine_loop]. destruct o as [e|]; auto. destruct (Ho e eq_refl) as [Ke _]. assert (Ef := key_fit lie res t e (ti_fit _ _ _ _ _ _ _ _ _ I) Ke). rewrite (key_eqb_fit res), (eqb_refl res) by auto. auto.
  Qed.
End Ops.
