(** Dynamically constructed streams: the tree and its invariant. *)
From Coq Require Import ZifyBool Lqa.
From Verif Require Export DynProofs.
From Verif Require Import DyadicLemmas DyadicProofs DyadicProofs2.
Open Scope Z_scope.

Section Nodes.
  Variable h : Z.
  Hypothesis Hh : h = 0 \/ h = -1.
  (** Nodes below node h of level 28. *)
  Definition fitn (k m : Z) : Prop := 0 <= m <= 28 /\ k / 2 ^ (28 - m) = h.
  Lemma fitn_nfit k m : fitn k m -> nfit k m.
  Proof.
    intros [H1 H2]. apply div_range in H2; [|lia]. split; auto. assert (P := pow2_pos m ltac:(lia)). assert (E : 2 ^ 28 = 2 ^ (28 - m) * 2 ^ m) by (rewrite <- Z.pow_add_r by lia; f_equal; lia). rewrite E. assert (P2 := pow2_pos (28 - m) ltac:(lia)). nia.
  Qed.
  Lemma div2_up k e : 0 <= e -> (k / 2) / 2 ^ e = k / 2 ^ (e + 1).
  Proof. intros He. assert (P := pow2_pos e He). rewrite Z.div_div by lia. f_equal. rewrite Z.pow_add_r by lia. lia. Qed.
  Lemma fitn_parent k m : fitn k m -> m < 28 -> fitn (k / 2) (m + 1).
  Proof. intros [H1 H2] H. split; [lia|]. rewrite div2_up by lia. rewrite <- H2. do 2 f_equal. lia. Qed.
  Lemma fitn_child k m c : fitn k m -> 1 <= m -> c / 2 = k -> fitn c (m - 1).
  Proof. intros [H1 H2] H E. split; [lia|]. rewrite <- H2, <- E, div2_up by lia. do 2 f_equal. lia. Qed.
  Lemma flip_div k : flip k / 2 = k / 2.
  Proof. unfold flip. assert (D := Z.div_mod k 2 ltac:(lia)). assert (B := Z.mod_pos_bound k 2 ltac:(lia)). symmetry. apply (Z.div_unique (4 * (k / 2) + 1 - k) 2 (k / 2) (1 - k mod 2)); lia. Qed.
  Lemma flip_flip k : flip (flip k) = k.
  Proof. unfold flip at 1. rewrite flip_div. unfold flip. lia. Qed.
  Lemma flip_neq k : flip k <> k.
  Proof. unfold flip. assert (D := Z.div_mod k 2 ltac:(lia)). lia. Qed.
  Lemma flip_even k : Z.even k = true -> flip k = k + 1 /\ k = 2 * (k / 2).
  Proof. intros E. apply Z.even_spec in E. destruct E as [j ->]. unfold flip. rewrite (Z.mul_comm 2 j), Z.div_mul by lia. lia. Qed.
  Lemma flip_odd k : Z.even k = false -> flip k = k - 1 /\ k = 2 * (k / 2) + 1.
  Proof.
    intros E. rewrite <- Z.negb_odd in E. apply negb_false_iff in E. apply Z.odd_spec in E. destruct E as [j ->]. unfold flip. replace ((2 * j + 1) / 2) with j by (apply (Z.div_unique (2 * j + 1) 2 j 1); lia). lia.
  Qed.
  Lemma fitn_flip k m : fitn k m -> m < 28 -> fitn (flip k) m.
  Proof. intros F H. replace m with (m + 1 - 1) by lia. apply (fitn_child (k / 2)); [apply fitn_parent; auto|destruct F; lia|apply flip_div]. Qed.
  Lemma div_2k k : 2 * k / 2 = k. Proof. rewrite Z.mul_comm, Z.div_mul; lia. Qed.
  Lemma div_2k1 k : (2 * k + 1) / 2 = k. Proof. symmetry. apply (Z.div_unique (2 * k + 1) 2 k 1); lia. Qed.
  Lemma flip_2k k : flip (2 * k) = 2 * k + 1. Proof. unfold flip. rewrite div_2k. lia. Qed.
  Lemma flip_2k1 k : flip (2 * k + 1) = 2 * k. Proof. unfold flip. rewrite div_2k1. lia. Qed.
  Lemma under_refl k m : under k m k m.
  Proof. split; [lia|]. rewrite Z.sub_diag, Z.pow_0_r, Z.div_1_r. reflexivity. Qed.
  Lemma under_trans k m k1 m1 k2 m2 : under k m k1 m1 -> under k1 m1 k2 m2 -> under k m k2 m2.
  Proof. intros [H1 <-] [H2 <-]. split; [lia|]. rewrite Z.div_div by (try apply pow2_pos; lia). rewrite <- Z.pow_add_r by lia. do 2 f_equal. lia. Qed.
  Lemma under_parent k m : under k m (k / 2) (m + 1).
  Proof. split; [lia|]. replace (m + 1 - m) with 1 by lia. reflexivity. Qed.
  Lemma under_up k m k' m' : under k m k' m' -> m < m' -> under (k / 2) (m + 1) k' m'.
  Proof. intros [H1 H2] H. split; [lia|]. rewrite div2_up by lia. rewrite <- H2. do 2 f_equal. lia. Qed.
  Lemma under_same k k' m : under k m k' m -> k = k'.
  Proof. intros [_ <-]. rewrite Z.sub_diag, Z.pow_0_r, Z.div_1_r. reflexivity. Qed.
  Lemma fitn_under k m k' m' : fitn k' m' -> 0 <= m -> under k m k' m' -> fitn k m.
  Proof.
    intros [F1 F2] Hm [H1 H2]. split; [lia|]. rewrite <- F2, <- H2. rewrite Z.div_div by (try apply pow2_pos; lia). rewrite <- Z.pow_add_r by lia. do 2 f_equal. lia.
  Qed.
  Lemma under_top k m : fitn k m -> under k m h 28.
  Proof. intros [H1 H2]. split; [lia|]. exact H2. Qed.
  Lemma nd_inj res k m k' m' : nd res k m = nd res k' m' -> k = k' /\ m = m'.
  Proof. unfold nd. intros [= -> H]. split; auto. lia. Qed.
End Nodes.

Section Tree.
  Variable lie : Type.
  Variable is_zero : lie -> bool.
  Variable cbh2 : lie -> lie -> lie.
  Variable S : sigs lie.
  Variable ok : lie -> Prop.
  Variable ctx : actx lie.
  Hypothesis HS : sound is_zero S ok ctx.
  Hypothesis Hok2 : forall a b, ok a -> ok b -> ok (cbh2 a b).
  Hypothesis Hcbh2 : forall a b, ok a -> ok b -> sg_eq S (sg_of S (cbh2 a b)) (sg_mul S (sg_of S a) (sg_of S b)).
  Variable res h : Z.
  Hypothesis Hres : - 2 ^ 27 <= res <= 2 ^ 27.
  Hypothesis Hh : h = 0 \/ h = -1.
  Variable Qv : Z -> Z -> lie -> Prop.
  Hypothesis Hq : forall k m x y, Qv k m x -> ok y -> sg_eq S (sg_of S y) (sg_of S x) -> Qv k m y.
  Infix "===" := (sg_eq S) (at level 70).
  Notation nd := (nd res).
  Notation kfit := (kfit res).
  Notation mfit := (mfit (dnode lie) res).
  Notation tree := (tree lie).
  Notation look := (look (dnode lie)).
  Notation sorted := (sorted lie).
  Notation keys := (keys lie).
  Notation fitn := (fitn h).
  Notation sg x := (sg_of S (dn_lie x)).
  Implicit Types t : tree.

  Definition has t (k m : Z) (v : dnode lie) : Prop := nfit k m /\ look t (nd k m) = Some v.
  Definition linked t (k m : Z) (v : dnode lie) : Prop :=
    dn_par v = Some (nd (k / 2) (m + 1)) /\ dn_sib v = Some (nd (flip k) m) /\ (exists p, has t (k / 2) (m + 1) p) /\ exists s, has t (flip k) m s.
  Definition leafy t (k m : Z) (v : dnode lie) : Prop := dn_acc v = res - m /\ (1 <= m -> look t (nd (2 * k) (m - 1)) = None /\ look t (nd (2 * k + 1) (m - 1)) = None).
  Definition branch t (k m : Z) (v : dnode lie) : Prop := res - m < dn_acc v /\ 1 <= m /\ exists a b, has t (2 * k) (m - 1) a /\ has t (2 * k + 1) (m - 1) b /\ sg v === sg_mul S (sg a) (sg b).
  Record tinv t (rk rm : Z) : Prop := mkTinv {
    ti_fit : mfit t;
    ti_sort : sorted t;
    ti_begin : dn_begin t = Some (nd rk rm);
    ti_rfit : fitn rk rm;
    ti_root : exists v, has t rk rm v /\ dn_par v = None /\ dn_sib v = None;
    ti_under : forall k m v, has t k m v -> under k m rk rm;
    ti_link : forall k m v, has t k m v -> m < rm -> linked t k m v;
    ti_node : forall k m v, has t k m v -> leafy t k m v \/ branch t k m v;
    ti_val : forall k m v, has t k m v -> ok (dn_lie v) /\ Qv k m (dn_lie v) }.
  (** Later trees have all the nodes of earlier ones, with the same signatures. *)
  Definition ext t t' : Prop := forall k m v, has t k m v -> exists v', has t' k m v' /\ sg v' === sg v.
  Lemma ext_refl t : ext t t.
  Proof. intros k m v H. exists v. split; auto. apply (sd_refl _ _ _ _ HS). Qed.
  Lemma ext_trans a b c : ext a b -> ext b c -> ext a c.
  Proof. intros H1 H2 k m v H. destruct (H1 k m v H) as (v1 & A & E1). destruct (H2 k m v1 A) as (v2 & B & E2). exists v2. split; auto. eapply (sd_trans _ _ _ _ HS); eauto. Qed.

  Lemma nd_kfit k m : nfit k m -> kfit (nd k m). Proof. intros H. exists k, m. auto. Qed.
  Lemma has_fun t k m v w : has t k m v -> has t k m w -> v = w. Proof. intros [_ H1] [_ H2]. congruence. Qed.
  Lemma has_fitn t rk rm k m v : tinv t rk rm -> has t k m v -> fitn k m.
  Proof. intros I H. apply (fitn_under h k m rk rm); [apply (ti_rfit _ _ _ I)|apply H|apply (ti_under _ _ _ I k m v H)]. Qed.
  Lemma has_key t rk rm k m v : tinv t rk rm -> has t k m v -> In (nd k m) (keys t).
  Proof. intros I [F L]. apply (look_key lie res t (nd k m) v (ti_fit _ _ _ I) (nd_kfit _ _ F) L). Qed.
  Lemma key_has t rk rm i : tinv t rk rm -> In i (keys t) -> exists k m v, i = nd k m /\ has t k m v.
  Proof. intros I Hi. destruct (key_fit lie res t i (ti_fit _ _ _ I) Hi) as (k & m & -> & F). destruct (key_look lie res t (nd k m) (ti_fit _ _ _ I) Hi) as (v & L). exists k, m, v. split; auto. split; auto. Qed.
  Lemma has_at t rk rm k m v : tinv t rk rm -> has t k m v -> dn_at t (nd k m) = Ok v.
  Proof. intros I [F L]. rewrite (at_look lie res) by (auto using nd_kfit, (ti_fit _ _ _ I)). rewrite L. reflexivity. Qed.
  Lemma key_eqb_nd k m k' m' : nfit k m -> nfit k' m' -> key_eqb (nd k m) (nd k' m') = (k =? k') && (m =? m').
  Proof. intros F G. rewrite (key_eqb_fit res) by (apply nd_kfit; auto). unfold di_eqb, TickProofs.nd. cbn [di_k di_n]. lia. Qed.
  Lemma root_top t rk rm k m v : tinv t rk rm -> has t k m v -> rm <= m -> k = rk /\ m = rm.
  Proof. intros I H L. destruct (ti_under _ _ _ I k m v H) as [U1 U2]. assert (m = rm) as -> by lia. split; auto. apply (under_same k rk rm). split; auto. Qed.

  (** Above a node, up to the root, there are nodes. *)
  Lemma ancestor t rk rm (j : nat) : tinv t rk rm -> forall k m v, has t k m v -> m + Z.of_nat j <= rm -> exists w, has t (k / 2 ^ Z.of_nat j) (m + Z.of_nat j) w.
  Proof.
    intros I. induction j as [|j IH]; intros k m v H L.
    - exists v. rewrite Z.pow_0_r, Z.div_1_r, Z.add_0_r. exact H.
    - destruct (ti_link _ _ _ I k m v H ltac:(lia)) as (_ & _ & (p & Hp) & _). destruct (IH _ _ _ Hp ltac:(lia)) as (w & Hw). exists w. rewrite div2_up in Hw by lia. replace (Z.of_nat (Datatypes.S j)) with (Z.of_nat j + 1) by lia. replace (m + (Z.of_nat j + 1)) with (m + 1 + Z.of_nat j) by lia. exact Hw.
  Qed.
  Lemma leaf_bottom t rk rm k m v k' m' v' : tinv t rk rm -> has t k m v -> dn_acc v = res - m -> has t k' m' v' -> under k' m' k m -> k' = k /\ m' = m.
  Proof.
    intros I H A H' U. destruct (Z.eq_dec m' m) as [->|N]; [split; auto; apply (under_same k' k m U)|]. exfalso.
    assert (Lr := proj1 (ti_under _ _ _ I k m v H)). assert (L := proj1 U).
    destruct (ancestor t rk rm (Z.to_nat (m - 1 - m')) I k' m' v' H' ltac:(lia)) as (w & Hw). rewrite Z2Nat.id in Hw by lia. replace (m' + (m - 1 - m')) with (m - 1) in Hw by lia.
    set (c := k' / 2 ^ (m - 1 - m')) in *. assert (c / 2 = k). { unfold c. destruct U as [_ <-]. rewrite Z.div_div by (try apply pow2_pos; lia). f_equal. rewrite <- (Z.pow_1_r 2) at 2. rewrite <- Z.pow_add_r by lia. f_equal. lia. }
    assert (c = 2 * k \/ c = 2 * k + 1) as C by (assert (D := Z.div_mod c 2 ltac:(lia)); assert (B := Z.mod_pos_bound c 2 ltac:(lia)); lia).
    destruct (ti_node _ _ _ I k m v H) as [(_ & LL)|(X & _)]; [|lia]. destruct (LL ltac:(destruct H' as [(Y & _) _]; lia)) as [L1 L2]. destruct Hw as [_ Lw]. destruct C as [-> | ->]; congruence.
  Qed.

  (** Changing the value kept at a node that has children. *)
  Lemma tinv_set t rk rm k m p a x t' : tinv t rk rm -> has t k m p -> res - m < dn_acc p -> res - m < a -> ok x -> sg_of S x === sg p ->
    mfit t' -> keys t' = keys t -> look t' (nd k m) = Some (mkNode a x (dn_sib p) (dn_par p)) -> (forall j, kfit j -> j <> nd k m -> look t' j = look t j) ->
    tinv t' rk rm /\ ext t t'.
  Proof.
    intros I Hp Ha Ha' Ox Ex Ft' Kt' L1 L2. set (p' := mkNode a x (dn_sib p) (dn_par p)) in *. assert (Fk : nfit k m) by apply Hp.
    assert (Hp' : has t' k m p') by (split; auto).
    assert (Old : forall k' m' v, has t' k' m' v -> (k' = k /\ m' = m /\ v = p') \/ (has t k' m' v /\ ~ (k' = k /\ m' = m))).
    { intros k' m' v [F L]. destruct (Z.eq_dec k' k) as [->|N]; [destruct (Z.eq_dec m' m) as [->|N]|].
      - left. split; auto. split; auto. congruence.
      - right. rewrite L2 in L; [split; [split; auto|lia]|apply nd_kfit; auto|]. intros X. apply nd_inj in X. lia.
      - right. rewrite L2 in L; [split; [split; auto|lia]|apply nd_kfit; auto|]. intros X. apply nd_inj in X. lia. }
    assert (New : forall k' m' v, has t k' m' v -> exists v', has t' k' m' v' /\ sg v' === sg v /\ dn_par v' = dn_par v /\ dn_sib v' = dn_sib v).
    { intros k' m' v H. assert (F := proj1 H). destruct (Z.eq_dec k' k) as [->|N]; [destruct (Z.eq_dec m' m) as [->|N]|].
      - exists p'. rewrite (has_fun t k m v p H Hp). split; auto.
      - exists v. split; [split; auto; rewrite L2; [apply H|apply nd_kfit; auto|]; intros X; apply nd_inj in X; lia|]. split; auto. apply (sd_refl _ _ _ _ HS).
      - exists v. split; [split; auto; rewrite L2; [apply H|apply nd_kfit; auto|]; intros X; apply nd_inj in X; lia|]. split; auto. apply (sd_refl _ _ _ _ HS). }
    assert (NoneL : forall k' m', nfit k' m' -> look t (nd k' m') = None -> look t' (nd k' m') = None).
    { intros k' m' F L. destruct (look t' (nd k' m')) as [v|] eqn:E; auto. destruct (Old k' m' v (conj F E)) as [(-> & -> & ->)|[[_ H] _]]; [|congruence]. destruct Hp as [_ Hp]. congruence. }
    assert (Ln : forall k' m' v v', linked t k' m' v -> dn_sib v' = dn_sib v -> dn_par v' = dn_par v -> linked t' k' m' v').
    { intros k' m' v v' (A1 & A2 & (q & A3) & (s & A4)) B1 B2. split; [congruence|]. split; [congruence|]. destruct (New _ _ _ A3) as (q' & A3' & _). destruct (New _ _ _ A4) as (s' & A4' & _). eauto. }
    assert (Bn : forall k' m' v v', branch t k' m' v -> res - m' < dn_acc v' -> sg v' === sg v -> branch t' k' m' v').
    { intros k' m' v v' (A1 & A2 & b & c & A3 & A4 & A5) B1 B2. split; auto. split; auto. destruct (New _ _ _ A3) as (b' & A3' & Eb & _). destruct (New _ _ _ A4) as (c' & A4' & Ec & _). exists b', c'. split; auto. split; auto.
      eapply (sd_trans _ _ _ _ HS); [exact B2|]. eapply (sd_trans _ _ _ _ HS); [exact A5|]. apply (sd_mul _ _ _ _ HS); apply (sd_sym _ _ _ _ HS); auto. }
    split.
    - constructor; auto.
      + unfold DynProofs.sorted. rewrite Kt'. apply (ti_sort _ _ _ I).
      + rewrite <- (ti_begin _ _ _ I). clear -Kt'. destruct t as [|[i v] t], t' as [|[j w] t']; cbn in *; congruence.
      + apply (ti_rfit _ _ _ I).
      + destruct (ti_root _ _ _ I) as (v & Hv & Pv & Qv'). destruct (New _ _ _ Hv) as (v' & Hv' & _ & Pv' & Qv2). exists v'. split; auto. split; congruence.
      + intros k' m' v H. destruct (Old _ _ _ H) as [(-> & -> & ->)|[H' _]]; [apply (ti_under _ _ _ I k m p Hp)|apply (ti_under _ _ _ I _ _ _ H')].
      + intros k' m' v H L. destruct (Old _ _ _ H) as [(-> & -> & ->)|[H' _]].
        * apply (Ln k m p); auto. apply (ti_link _ _ _ I k m p Hp L).
        * apply (Ln k' m' v); auto. apply (ti_link _ _ _ I _ _ _ H' L).
      + intros k' m' v H. destruct (Old _ _ _ H) as [(-> & -> & ->)|[H' _]].
        * right. destruct (ti_node _ _ _ I k m p Hp) as [(X & _)|B]; [lia|]. apply (Bn k m p); auto.
        * destruct (ti_node _ _ _ I _ _ _ H') as [(A1 & A2)|B].
          { left. assert (F := has_fitn _ _ _ _ _ _ I H'). split; auto. intros M. destruct (A2 M). split; apply NoneL; auto; apply (fitn_nfit h Hh); apply (fitn_child h k'); auto using div_2k, div_2k1. }
          { right. apply (Bn k' m' v); auto; [apply B|apply (sd_refl _ _ _ _ HS)]. }
      + intros k' m' v H. destruct (Old _ _ _ H) as [(-> & -> & ->)|[H' _]]; [|apply (ti_val _ _ _ I _ _ _ H')]. destruct (ti_val _ _ _ I k m p Hp) as [_ Qp]. cbn [dn_lie p']. split; auto. apply (Hq k m (dn_lie p)); auto.
    - intros k' m' v H. destruct (New _ _ _ H) as (v' & Hv' & E & _). eauto.
  Qed.
  Lemma parent_branch t rk rm k m v p : tinv t rk rm -> has t k m v -> m < rm -> has t (k / 2) (m + 1) p ->
    res - (m + 1) < dn_acc p /\ exists s, has t (flip k) m s /\ sg p === (if Z.even k then sg_mul S (sg v) (sg s) else sg_mul S (sg s) (sg v)).
  Proof.
    intros I H L Hp. assert (F := proj1 H). destruct (ti_link _ _ _ I k m v H L) as (_ & _ & _ & (s & Hs)). destruct (ti_node _ _ _ I _ _ _ Hp) as [(A1 & A2)|(A1 & A2 & a & b & A3 & A4 & A5)].
    - exfalso. destruct (A2 ltac:(destruct F; lia)) as [B1 B2]. replace (m + 1 - 1) with m in * by lia. destruct H as [_ H]. destruct (Z.even k) eqn:E; [apply flip_even in E|apply flip_odd in E]; destruct E as [_ E]; rewrite E in H; congruence.
    - split; auto. exists s. split; auto. replace (m + 1 - 1) with m in * by lia. destruct (Z.even k) eqn:E; [apply flip_even in E|apply flip_odd in E]; destruct E as [E1 E2].
      + rewrite <- E2 in A3, A4. rewrite (has_fun _ _ _ _ _ H A3). rewrite E1 in Hs. rewrite (has_fun _ _ _ _ _ Hs A4). exact A5.
      + rewrite <- E2 in A4. rewrite (has_fun _ _ _ _ _ H A4). rewrite E1 in Hs. replace (k - 1) with (2 * (k / 2)) in Hs by lia. rewrite (has_fun _ _ _ _ _ Hs A3). exact A5.
  Qed.
  Lemma aligned_nd k m : nfit k m -> aligned (nd k m) = Ok (Z.even k).
  Proof. intros F. assert (A := nfit_k _ _ F). destruct F as (F & _). rewrite aligned_clopen_eval; cbn [di_t di_k di_n TickProofs.nd]; auto; lia. Qed.
  Lemma update_ok (j : nat) : forall t rk rm k m v fuel, tinv t rk rm -> has t k m v -> rm - m < Z.of_nat j -> (j <= fuel)%nat ->
    exists t', dn_update_parents cbh2 fuel t (nd k m) = Ok t' /\ tinv t' rk rm /\ ext t t' /\ keys t' = keys t.
  Proof.
    induction j as [|j IH]; intros t rk rm k m v fuel I H Hj Hf; [assert (U := proj1 (ti_under _ _ _ I k m v H)); lia|]. destruct fuel as [|fuel]; [lia|]. cbn [dn_update_parents]. assert (F := proj1 H).
    rewrite (ti_begin _ _ _ I). cbn [dn_deref bind]. rewrite key_eqb_nd by (auto; apply (fitn_nfit h Hh), (ti_rfit _ _ _ I)).
    destruct ((k =? rk) && (m =? rm)) eqn:E; [exists t; split; auto; split; auto; split; auto using ext_refl|].
    assert (L : m < rm). { destruct (Z_lt_le_dec m rm); auto. destruct (root_top _ _ _ _ _ _ I H l). lia. }
    rewrite (has_at _ _ _ _ _ _ I H). cbn [bind]. destruct (ti_link _ _ _ I k m v H L) as (P1 & P2 & (p & Hp) & (s & Hs)). rewrite P1, P2. cbn [dn_deref bind]. rewrite (has_at _ _ _ _ _ _ I Hp). cbn [bind]. rewrite (has_at _ _ _ _ _ _ I Hs). cbn [bind].
    destruct (Z.min (dn_acc v) (dn_acc s) <=? dn_acc p) eqn:Ea; [exists t; split; auto; split; auto; split; auto using ext_refl|].
    rewrite aligned_nd by auto. cbn [bind]. destruct (parent_branch t rk rm k m v p I H L Hp) as (Ap & s' & Hs' & Ep). rewrite (has_fun _ _ _ _ _ Hs' Hs) in Ep.
    set (x := if Z.even k then cbh2 (dn_lie v) (dn_lie s) else cbh2 (dn_lie s) (dn_lie v)).
    assert (Ov := proj1 (ti_val _ _ _ I _ _ _ H)). assert (Os := proj1 (ti_val _ _ _ I _ _ _ Hs)).
    assert (Ox : ok x) by (unfold x; destruct (Z.even k); auto).
    assert (Ex : sg_of S x === sg p). { eapply (sd_trans _ _ _ _ HS); [|apply (sd_sym _ _ _ _ HS); exact Ep]. unfold x. destruct (Z.even k); auto. }
    destruct (set_look lie res t (nd (k / 2) (m + 1)) p (mkNode (Z.min (dn_acc v) (dn_acc s)) x (dn_sib p) (dn_par p)) (ti_fit _ _ _ I) (nd_kfit _ _ (proj1 Hp)) (proj2 Hp)) as (t1 & E1 & F1 & K1 & L1 & L2).
    rewrite E1. cbn [bind]. destruct (tinv_set t rk rm (k / 2) (m + 1) p (Z.min (dn_acc v) (dn_acc s)) x t1 I Hp Ap ltac:(lia) Ox Ex F1 K1 L1 L2) as [I1 X1].
    destruct (X1 _ _ _ Hp) as (p1 & Hp1 & _).
    destruct (IH t1 rk rm (k / 2) (m + 1) p1 fuel I1 Hp1 ltac:(lia) ltac:(lia)) as (t2 & E2 & I2 & X2 & K2). exists t2. split; auto. split; auto. split; [eapply ext_trans; eauto|congruence].
  Qed.

  (** *** Splitting a leaf *)
  Lemma tinv_split t rk rm k m v x y z a t' : tinv t rk rm -> has t k m v -> dn_acc v = res - m -> 1 <= m -> res - m < a ->
    ok x -> ok y -> ok z -> Qv (2 * k) (m - 1) x -> Qv (2 * k + 1) (m - 1) y -> sg_mul S (sg_of S x) (sg_of S y) === sg v -> sg_of S z === sg v ->
    mfit t' -> sorted t' -> dn_begin t' = dn_begin t ->
    look t' (nd k m) = Some (mkNode a z (dn_sib v) (dn_par v)) ->
    look t' (nd (2 * k) (m - 1)) = Some (mkNode (res - (m - 1)) x (Some (nd (2 * k + 1) (m - 1))) (Some (nd k m))) ->
    look t' (nd (2 * k + 1) (m - 1)) = Some (mkNode (res - (m - 1)) y (Some (nd (2 * k) (m - 1))) (Some (nd k m))) ->
    (forall j, kfit j -> j <> nd k m -> j <> nd (2 * k) (m - 1) -> j <> nd (2 * k + 1) (m - 1) -> look t' j = look t j) ->
    tinv t' rk rm /\ ext t t'.
  Proof.
    intros I H Av Hm Ha Ox Oy Oz Qx Qy Exy Ez Ft' St' Bt' L0 Ll Lr Lo. assert (Fn := has_fitn _ _ _ _ _ _ I H).
    assert (Fl : fitn (2 * k) (m - 1)) by (apply (fitn_child h k); auto using div_2k). assert (Fr : fitn (2 * k + 1) (m - 1)) by (apply (fitn_child h k); auto using div_2k1).
    set (vl := mkNode (res - (m - 1)) x (Some (nd (2 * k + 1) (m - 1))) (Some (nd k m))) in *. set (vr := mkNode (res - (m - 1)) y (Some (nd (2 * k) (m - 1))) (Some (nd k m))) in *. set (v' := mkNode a z (dn_sib v) (dn_par v)) in *.
    assert (Hl : has t' (2 * k) (m - 1) vl) by (split; auto; apply (fitn_nfit h Hh); auto). assert (Hr : has t' (2 * k + 1) (m - 1) vr) by (split; auto; apply (fitn_nfit h Hh); auto). assert (H0 : has t' k m v') by (split; auto; apply H).
    destruct (ti_node _ _ _ I k m v H) as [(_ & Hleaf)|(X & _)]; [|lia]. destruct (Hleaf Hm) as [Nl Nr].
    assert (Old : forall k' m' w, has t' k' m' w -> (k' = k /\ m' = m /\ w = v') \/ (k' = 2 * k /\ m' = m - 1 /\ w = vl) \/ (k' = 2 * k + 1 /\ m' = m - 1 /\ w = vr) \/ (has t k' m' w /\ ~ (k' = k /\ m' = m))).
    { intros k' m' w [F L]. destruct (Z.eq_dec m' m) as [->|N1].
      - destruct (Z.eq_dec k' k) as [->|N2]; [left; split; auto; split; auto; congruence|]. right; right; right. rewrite Lo in L; [split; [split; auto|lia]|apply nd_kfit; auto|intros X; apply nd_inj in X; lia..].
      - destruct (Z.eq_dec m' (m - 1)) as [->|N2].
        + destruct (Z.eq_dec k' (2 * k)) as [->|N3]; [right; left; split; auto; split; auto; congruence|]. destruct (Z.eq_dec k' (2 * k + 1)) as [->|N4]; [right; right; left; split; auto; split; auto; congruence|].
          right; right; right. rewrite Lo in L; [split; [split; auto|lia]|apply nd_kfit; auto|intros X; apply nd_inj in X; lia..].
        + right; right; right. rewrite Lo in L; [split; [split; auto|lia]|apply nd_kfit; auto|intros X; apply nd_inj in X; lia..]. }
    assert (New : forall k' m' w, has t k' m' w -> exists w', has t' k' m' w' /\ sg w' === sg w /\ dn_par w' = dn_par w /\ dn_sib w' = dn_sib w).
    { intros k' m' w Hw. assert (F := proj1 Hw). destruct (Z.eq_dec m' m) as [->|N1]; [destruct (Z.eq_dec k' k) as [->|N2]|].
      - exists v'. rewrite (has_fun _ _ _ _ _ Hw H). split; auto.
      - exists w. split; [split; auto; rewrite Lo; [apply Hw|apply nd_kfit; auto|intros X; apply nd_inj in X; lia..]|]. split; auto. apply (sd_refl _ _ _ _ HS).
      - exists w. split; [split; auto; rewrite Lo; [apply Hw|apply nd_kfit; auto|intros X; apply nd_inj in X; lia|..]|]. 3: split; auto; apply (sd_refl _ _ _ _ HS).
        + intros X. destruct Hw as [_ Hw]. rewrite X in Hw. congruence.
        + intros X. destruct Hw as [_ Hw]. rewrite X in Hw. congruence. }
    assert (NoneL : forall k' m', nfit k' m' -> look t (nd k' m') = None -> ~ (m' = m - 1 /\ k' / 2 = k) -> look t' (nd k' m') = None).
    { intros k' m' F L N. destruct (look t' (nd k' m')) as [w|] eqn:E; auto. destruct (Old k' m' w (conj F E)) as [(-> & -> & ->)|[(-> & -> & ->)|[(-> & -> & ->)|[[_ X] _]]]]; [destruct H as [_ H]; congruence| | |congruence]; exfalso; apply N; split; auto using div_2k, div_2k1. }
    assert (Ln : forall k' m' w w', linked t k' m' w -> dn_sib w' = dn_sib w -> dn_par w' = dn_par w -> linked t' k' m' w').
    { intros k' m' w w' (A1 & A2 & (q & A3) & (s & A4)) B1 B2. split; [congruence|]. split; [congruence|]. destruct (New _ _ _ A3) as (q' & A3' & _). destruct (New _ _ _ A4) as (s' & A4' & _). eauto. }
    assert (Bn : forall k' m' w, branch t k' m' w -> branch t' k' m' w).
    { intros k' m' w (A1 & A2 & b & c & A3 & A4 & A5). split; auto. split; auto. destruct (New _ _ _ A3) as (b' & A3' & Eb & _). destruct (New _ _ _ A4) as (c' & A4' & Ec & _). exists b', c'. split; auto. split; auto.
      eapply (sd_trans _ _ _ _ HS); [exact A5|]. apply (sd_mul _ _ _ _ HS); apply (sd_sym _ _ _ _ HS); auto. }
    assert (NoBelow : forall k' m', 0 <= m' -> m' < m -> under k' m' k m -> look t (nd k' m') = None).
    { intros k' m' P M U. destruct (look t (nd k' m')) as [w|] eqn:E; auto. exfalso. assert (F := fitn_nfit h Hh _ _ (fitn_under h k' m' k m Fn P U)). destruct (leaf_bottom t rk rm k m v k' m' w I H Av (conj F E) U). lia. }
    assert (LeafNew : forall c, c / 2 = k -> 1 <= m - 1 -> look t' (nd (2 * c) (m - 1 - 1)) = None /\ look t' (nd (2 * c + 1) (m - 1 - 1)) = None).
    { intros c Hc M. assert (Fc : fitn c (m - 1)) by (apply (fitn_child h k); auto). split; (apply NoneL; [apply (fitn_nfit h Hh), (fitn_child h c); auto using div_2k, div_2k1| |lia]); apply NoBelow; try lia; (split; [lia|]; replace (m - (m - 1 - 1)) with (1 + 1) by lia; rewrite <- div2_up by lia; rewrite Z.pow_1_r, ?div_2k, ?div_2k1; exact Hc). }
    split.
    - constructor; auto.
      + rewrite Bt'. apply (ti_begin _ _ _ I).
      + apply (ti_rfit _ _ _ I).
      + destruct (ti_root _ _ _ I) as (r & Hv & Pv & Qv'). destruct (New _ _ _ Hv) as (r' & Hv' & _ & Pv' & Qv2). exists r'. split; auto. split; congruence.
      + assert (U := ti_under _ _ _ I k m v H). intros k' m' w Hw. destruct (Old _ _ _ Hw) as [(-> & -> & ->)|[(-> & -> & ->)|[(-> & -> & ->)|[H' _]]]]; auto.
        * eapply under_trans; [|exact U]. rewrite <- (div_2k k) at 2. replace m with (m - 1 + 1) at 2 by lia. apply under_parent.
        * eapply under_trans; [|exact U]. rewrite <- (div_2k1 k) at 2. replace m with (m - 1 + 1) at 2 by lia. apply under_parent.
        * apply (ti_under _ _ _ I _ _ _ H').
      + intros k' m' w Hw L. destruct (Old _ _ _ Hw) as [(-> & -> & ->)|[(-> & -> & ->)|[(-> & -> & ->)|[H' _]]]].
        * apply (Ln k m v); auto. apply (ti_link _ _ _ I k m v H L).
        * unfold linked. rewrite div_2k, flip_2k. replace (m - 1 + 1) with m by lia. cbn [vl dn_par dn_sib]. eauto 8.
        * unfold linked. rewrite div_2k1, flip_2k1. replace (m - 1 + 1) with m by lia. cbn [vr dn_par dn_sib]. eauto 8.
        * apply (Ln k' m' w); auto. apply (ti_link _ _ _ I _ _ _ H' L).
      + intros k' m' w Hw. destruct (Old _ _ _ Hw) as [(-> & -> & ->)|[(-> & -> & ->)|[(-> & -> & ->)|[H' N]]]].
        * right. split; [exact Ha|]. split; auto. exists vl, vr. split; auto. split; auto. cbn [v' vl vr dn_lie]. eapply (sd_trans _ _ _ _ HS); [exact Ez|]. apply (sd_sym _ _ _ _ HS). exact Exy.
        * left. split; [reflexivity|]. intros M. apply LeafNew; auto using div_2k.
        * left. split; [reflexivity|]. intros M. apply LeafNew; auto using div_2k1.
        * destruct (ti_node _ _ _ I _ _ _ H') as [(A1 & A2)|B]; [left|right; auto]. assert (F := has_fitn _ _ _ _ _ _ I H'). split; auto. intros M. destruct (A2 M).
          split; (apply NoneL; [apply (fitn_nfit h Hh), (fitn_child h k'); auto using div_2k, div_2k1|auto|rewrite ?div_2k, ?div_2k1; lia]).
      + intros k' m' w Hw. destruct (Old _ _ _ Hw) as [(-> & -> & ->)|[(-> & -> & ->)|[(-> & -> & ->)|[H' N]]]]; [|split; auto..|apply (ti_val _ _ _ I _ _ _ H')]. destruct (ti_val _ _ _ I k m v H) as [_ Qp]. cbn [dn_lie v']. split; auto. apply (Hq k m (dn_lie v)); auto.
    - intros k' m' w Hw. destruct (New _ _ _ Hw) as (w' & Hw' & E & _). eauto.
  Qed.
End Tree.
