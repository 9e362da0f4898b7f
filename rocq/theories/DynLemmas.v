(** Dynamically constructed streams: the statements of the property file. *)
From Coq Require Import ZifyBool Lqa Qround.
From Verif Require Export DynProofs6.
From Verif Require Import DyadicLemmas DyadicProofs DyadicProofs2 DyadicProofs3 StreamProofs2 StreamProofs3 StreamLemmas TickLemmas.
Open Scope Z_scope.

Section Top.
  Variable lie st : Type.
  Variable is_zero : lie -> bool.
  Variable cbh2 : lie -> lie -> lie.
  Variable R : rule lie st.
  Variable S : sigs lie.
  Variable ok : lie -> Prop.
  Variable ctx : actx lie.
  Hypothesis HS : sound is_zero S ok ctx.
  Hypothesis H2 : pair_sound cbh2 S ok.
  Variable support : ri.
  Hypothesis Hsup : (ri_inf support <= ri_sup support)%Q.
  Variable res : Z.
  Variable g0 : st.
  Infix "===" := (sg_eq S) (at level 70).
  Notation nd := (TickProofs.nd res).
  Let Hok2 : forall a b, ok a -> ok b -> ok (cbh2 a b) := fun a b x y => proj1 (H2 a b x y).
  Let Hcbh2 : forall a b, ok a -> ok b -> sg_of S (cbh2 a b) === sg_mul S (sg_of S a) (sg_of S b) := fun a b x y => proj2 (H2 a b x y).

  Lemma nd_up k m : nd k m = mkDI k (res - m) Clopen. Proof. reflexivity. Qed.
  Lemma nd_down k m : nd k (m - 1) = mkDI k (res - m + 1) Clopen. Proof. unfold TickProofs.nd. f_equal. lia. Qed.
  Definition big : nat := Z.to_nat (2 ^ 28 + 101).
  Lemma big_ok fuel : (big <= fuel)%nat -> 2 ^ 28 + 101 <= Z.of_nat fuel. Proof. unfold big. lia. Qed.
  Lemma big_self : 2 ^ 28 + 101 <= Z.of_nat big. Proof. unfold big. lia. Qed.
  Opaque big.
  Lemma sided qs : one_sided support qs -> exists h, (h = 0 \/ h = -1) /\ forall i r, In (i, r) qs -> meets support i -> side h (grid_floor (cut_from support i) r) (grid_floor (cut_upto support i) r).
  Proof. intros [H|H]; [exists 0|exists (-1)]; (split; [auto|]); intros i r Hi M; [left|right]; split; auto; apply (H i r Hi M). Qed.

  (** *** Streams whose every increment is right *)
  Section Right.
    Variable G : Q -> Q -> sg_t S.
    Hypothesis HG : path S G.
    Hypothesis HR : source_of S ok G R.
    Variable h : Z.
    Hypothesis Hh : h = 0 \/ h = -1.
    Hypothesis Hres : - 2 ^ 27 <= res <= 2 ^ 27.
    Definition Rv (k m : Z) (x : lie) : Prop := sg_of S x === G (dy k (res - m)) (dy (k + 1) (res - m)).
    Definition RP (t : tree lie) : Prop := t = [] \/ exists rk rm, DynProofs2.tinv lie S ok res h Rv t rk rm.
    Lemma half_dy k m : (dy (2 * k) (res - m + 1) == dy k (res - m))%Q /\ (dy (2 * k + 1 + 1) (res - m + 1) == dy (k + 1) (res - m))%Q.
    Proof. split; [rewrite (dy_scale k (res - m) 1) by lia|rewrite (dy_scale (k + 1) (res - m) 1) by lia]; rewrite Z.pow_1_r; apply dy_same_eq; lia. Qed.
    Lemma right_step t g k0 m0 r fuel : RP t -> DynProofs2.fitn h k0 m0 -> True -> res - m0 <= r <= res -> 2 ^ 28 + 101 <= Z.of_nat fuel ->
      exists t' g' w, dn_dyadic cbh2 R fuel g t (nd k0 m0) r = Ok (dn_lie w, t', g') /\ RP t' /\ DynProofs2.ext lie S res t t' /\ DynProofs2.has lie res t' k0 m0 w /\ ok (dn_lie w).
    Proof.
      intros Pt Fn _ Hr Hf.
      assert (Hq : forall k m x y, Rv k m x -> ok y -> sg_of S y === sg_of S x -> Rv k m y) by (intros k m x y A _ B; eapply (sd_trans _ _ _ _ HS); [exact B|exact A]).
      assert (Hroot : forall g k m, DynProofs2.fitn h k m -> ok (fst (ru_root R g (nd k m))) /\ Rv k m (fst (ru_root R g (nd k m)))) by (intros g' k m _; apply (so_root _ _ _ _ HR g' (nd k m) eq_refl)).
      assert (Hneigh : forall g k m, DynProofs2.fitn h k m -> ok (fst (ru_neighbour R g (nd k m))) /\ Rv k m (fst (ru_neighbour R g (nd k m)))) by (intros g' k m _; apply (so_neighbour _ _ _ _ HR g' (nd k m) eq_refl)).
      assert (Hchild : forall g k m v, DynProofs2.fitn h k m -> 1 <= m -> ok v -> Rv k m v ->
        let '(x, y, _) := ru_children R g (nd (2 * k) (m - 1)) (nd (2 * k + 1) (m - 1)) v in
        ok x /\ ok y /\ Rv (2 * k) (m - 1) x /\ Rv (2 * k + 1) (m - 1) y /\ sg_mul S (sg_of S x) (sg_of S y) === sg_of S v).
      { intros g' k m v _ Hm Ov Qv. rewrite !nd_down. assert (X := so_children _ _ _ _ HR g' k (res - m) v (conj Ov Qv)). destruct (ru_children R g' _ _ v) as [[x y] g1]. destruct X as [[Ox Ex] [Oy Ey]]. cbn [di_k di_n] in Ex, Ey. unfold Rv. replace (res - (m - 1)) with (res - m + 1) by lia. split; auto. split; auto. split; auto. split; auto.
        destruct (half_dy k m) as [D1 D2]. apply (sd_sym _ _ _ _ HS). eapply (sd_trans _ _ _ _ HS); [exact Qv|]. apply (sd_sym _ _ _ _ HS). eapply (sd_trans _ _ _ _ HS); [apply (sd_mul _ _ _ _ HS); [exact Ex|exact Ey]|]. eapply (sd_trans _ _ _ _ HS); [apply (pt_mul _ _ HG); apply dy_same_le; lia|]. apply (pt_eq _ _ HG); auto. }
      assert (Hgrow : True -> forall k m x y z, DynProofs2.fitn h k m -> 1 <= m -> ok x -> ok y -> ok z -> Rv k m x -> Rv (2 * k) (m - 1) y -> Rv (2 * k + 1) (m - 1) z -> sg_of S x === sg_mul S (sg_of S y) (sg_of S z)).
      { intros _ k m x y z _ _ _ _ _ Qx Qy Qz. unfold Rv in *. replace (res - (m - 1)) with (res - m + 1) in * by lia. destruct (half_dy k m) as [D1 D2]. eapply (sd_trans _ _ _ _ HS); [exact Qx|]. apply (sd_sym _ _ _ _ HS). eapply (sd_trans _ _ _ _ HS); [apply (sd_mul _ _ _ _ HS); [exact Qy|exact Qz]|]. eapply (sd_trans _ _ _ _ HS); [apply (pt_mul _ _ HG); apply dy_same_le; lia|]. apply (pt_eq _ _ HG); auto. }
      destruct Pt as [-> | (rk & rm & I)].
      - destruct (dyadic_first lie st is_zero cbh2 R S ok ctx HS Hok2 Hcbh2 res h Hres Hh Rv Hq Hroot Hchild k0 m0 g r fuel Fn Hr Hf) as (t' & g' & w & E & I & H). exists t', g', w. split; auto. split; [right; eauto|]. split; [intros k m v [_ X]; discriminate|]. split; auto. apply (ti_val _ _ _ _ _ _ _ _ _ I _ _ _ H).
      - destruct (dyadic_ok lie st is_zero cbh2 R S ok ctx HS Hok2 Hcbh2 res h Hres Hh Rv Hq Hroot Hneigh Hchild True Hgrow t rk rm k0 m0 g r fuel I (or_introl Logic.I) Fn Hr Hf) as (rk' & rm' & t' & g' & w & E & I' & X & H & _). exists t', g', w. split; auto. split; [right; eauto|]. split; auto. split; auto. apply (ti_val _ _ _ _ _ _ _ _ _ I' _ _ _ H).
    Qed.
    Lemma right_product t rk rm l : DynProofs2.tinv lie S ok res h Rv t rk rm -> forall vs a b, end_to_end a b (map DyadicProofs3.cell l) -> Forall2 (fun i v => DynProofs2.has lie res t (di_k i) (res - di_n i) v) l vs -> sg_prod S (map dn_lie vs) === G a b.
    Proof.
      intros I. induction l as [|i l IH]; intros vs a b E F; inversion F as [|i' v' l' vs' Hv Hvs]; subst; cbn [map] in E.
      - cbn in E |- *. apply (sd_sym _ _ _ _ HS). eapply (sd_trans _ _ _ _ HS); [|apply (pt_one _ _ HG a)]. apply (pt_eq _ _ HG); [reflexivity|symmetry; exact E].
      - cbn [DyadicProofs3.cell end_to_end] in E. unfold DyadicProofs3.cell in E. destruct E as [E1 E2]. cbn [map sg_prod fold_right]. destruct (ti_val _ _ _ _ _ _ _ _ _ I _ _ _ Hv) as [_ V]. unfold Rv in V. replace (res - (res - di_n i)) with (di_n i) in V by lia.
        eapply (sd_trans _ _ _ _ HS); [apply (sd_mul _ _ _ _ HS); [exact V|apply (IH _ _ _ E2 Hvs)]|]. eapply (sd_trans _ _ _ _ HS); [apply (pt_mul _ _ HG); [apply dy_same_le; lia|exact (e2e_le Datatypes.unit (fun _ => true) tt eq_refl _ _ _ E2)]|]. apply (pt_eq _ _ HG); [symmetry; exact E1|reflexivity].
    Qed.
  End Right.
  Theorem dyn_exact : forall G, path S G -> source_of S ok G R -> forall qs, fits_history support res qs -> one_sided support qs ->
    exists xs, dyn_answers is_zero cbh2 R g0 support ctx qs xs /\
      Forall2 (fun q x => ok x /\ (meets support (fst q) -> sg_of S x === G (grid_floor (cut_from support (fst q)) (snd q)) (grid_floor (cut_upto support (fst q)) (snd q))) /\ (~ meets support (fst q) -> sg_of S x === sg_one S)) qs xs.
  Proof.
    intros G HG HR qs [Hres Hf] Hs. destruct (sided qs Hs) as (h & Hh & Hside).
    destruct (history_ok lie st is_zero cbh2 R S ok ctx HS res h Hh (RP G h) (fun _ _ => True) (right_step G HG HR h Hh Hres) support Hsup big big_self qs [] g0) as (xs & t & g & E & P & X & A); [left; auto|..].
    { apply Forall_forall. intros [i r] Hi. destruct (Hf i r Hi) as [F1 F2]. split; auto. intros M. destruct (F2 M). split; auto. }
    exists xs. split; [exists big, t, g; intros fuel Hfu; eapply all_more; [exact Hfu|exact E]|].
    assert (Pr : forall l vs a b, end_to_end a b (map DyadicProofs3.cell l) -> Forall2 (fun i v => DynProofs2.has lie res t (di_k i) (res - di_n i) v) l vs -> sg_prod S (map dn_lie vs) === G a b).
    { destruct P as [-> | (rk & rm & I)]; [|apply (fun l => right_product G HG h t rk rm l I)]. intros l vs a b E1 F. destruct F as [|i v l vs [_ H] F]; [|discriminate]. cbn in E1 |- *. apply (sd_sym _ _ _ _ HS). eapply (sd_trans _ _ _ _ HS); [|apply (pt_one _ _ HG a)]. apply (pt_eq _ _ HG); [reflexivity|symmetry; exact E1]. }
    clear E. induction A as [|[i r] x qs xs H A IH]; constructor; [|apply IH; intros; [apply Hf; right; auto|destruct Hs as [Hs|Hs]; [left|right]; intros; apply Hs; auto; right; auto|apply Hside; auto; right; auto]].
    destruct H as (Ox & [(N & Z)|(M & l & E1 & _ & vs & V1 & V2)]); cbn [fst snd]; split; auto; split; try tauto. intros _. eapply (sd_trans _ _ _ _ HS); [exact V2|]. apply (Pr l vs); auto.
  Qed.

  (** *** Streams that only split their first increment *)
  Section Split.
    Hypothesis HR : DynSpec.splits S ok R.
    Variable h : Z.
    Hypothesis Hh : h = 0 \/ h = -1.
    Hypothesis Hres : - 2 ^ 27 <= res <= 2 ^ 27.
    Variable rk rm : Z.
    Hypothesis Frm : DynProofs2.fitn h rk rm.
    Definition Av (k m : Z) (x : lie) : Prop := True.
    Notation tinv t := (DynProofs2.tinv lie S ok res h Av t rk rm).
    Notation has := (DynProofs2.has lie res).
    Notation sg x := (sg_of S (dn_lie x)).
    Lemma sHq : forall k m x y, Av k m x -> ok y -> sg_of S y === sg_of S x -> Av k m y. Proof. intros; exact Logic.I. Qed.
    Lemma sHroot : forall g k m, DynProofs2.fitn h k m -> ok (fst (ru_root R g (nd k m))) /\ Av k m (fst (ru_root R g (nd k m))). Proof. intros g' k m _. split; [apply (sl_root _ _ _ HR)|exact Logic.I]. Qed.
    Lemma sHneigh : forall g k m, DynProofs2.fitn h k m -> ok (fst (ru_neighbour R g (nd k m))) /\ Av k m (fst (ru_neighbour R g (nd k m))). Proof. intros g' k m _. split; [apply (sl_neighbour _ _ _ HR)|exact Logic.I]. Qed.
    Lemma sHchild : forall g k m v, DynProofs2.fitn h k m -> 1 <= m -> ok v -> Av k m v ->
        let '(x, y, _) := ru_children R g (nd (2 * k) (m - 1)) (nd (2 * k + 1) (m - 1)) v in
        ok x /\ ok y /\ Av (2 * k) (m - 1) x /\ Av (2 * k + 1) (m - 1) y /\ sg_mul S (sg_of S x) (sg_of S y) === sg_of S v.
    Proof. intros g' k m v _ _ Ov _. rewrite !nd_down. assert (X := sl_children _ _ _ HR g' k (res - m) v Ov). destruct (ru_children R g' _ _ v) as [[x y] g1]. destruct X as (A & B & C). repeat (split; auto). Qed.
    Lemma split_first k0 m0 g r fuel : k0 = rk -> m0 = rm -> res - m0 <= r <= res -> 2 ^ 28 + 101 <= Z.of_nat fuel ->
      exists t' g' w, dn_dyadic cbh2 R fuel g [] (nd k0 m0) r = Ok (dn_lie w, t', g') /\ tinv t' /\ has t' k0 m0 w.
    Proof. intros -> ->. apply (dyadic_first lie st is_zero cbh2 R S ok ctx HS Hok2 Hcbh2 res h Hres Hh Av sHq sHroot sHchild); auto. Qed.
    Lemma split_step t g k0 m0 r fuel : tinv t -> DynProofs2.fitn h k0 m0 -> under k0 m0 rk rm -> res - m0 <= r <= res -> 2 ^ 28 + 101 <= Z.of_nat fuel ->
      exists t' g' w, dn_dyadic cbh2 R fuel g t (nd k0 m0) r = Ok (dn_lie w, t', g') /\ tinv t' /\ DynProofs2.ext lie S res t t' /\ has t' k0 m0 w /\ ok (dn_lie w).
    Proof.
      intros I Fn U Hr Hf. destruct (dyadic_ok lie st is_zero cbh2 R S ok ctx HS Hok2 Hcbh2 res h Hres Hh Av sHq sHroot sHneigh sHchild False (fun f => match f with end) t rk rm k0 m0 g r fuel I (or_intror U) Fn Hr Hf) as (rk' & rm' & t' & g' & w & E & I' & X & H & _ & Y).
      destruct (Y U) as [-> ->]. exists t', g', w. split; auto. split; auto. split; auto. split; auto. apply (ti_val _ _ _ _ _ _ _ _ _ I' _ _ _ H).
    Qed.
    (** Every cell of the root can be given a node without changing any signature. *)
    Lemma all_cells t (g : st) : tinv t -> forall l, (forall j, In j l -> under j 0 rk rm) -> exists t', tinv t' /\ DynProofs2.ext lie S res t t' /\ forall j, In j l -> exists w, has t' j 0 w.
    Proof.
      intros I l. revert t g I. induction l as [|j l IH]; intros t g I Hl.
      - exists t. split; auto. split; [apply (DynProofs2.ext_refl lie is_zero S ok ctx HS res)|intros j []].
      - assert (Fj : DynProofs2.fitn h j 0) by (apply (fitn_under h j 0 rk rm); [auto|lia|apply Hl; left; auto]).
        destruct (split_step t g j 0 res big I Fj (Hl j (or_introl eq_refl)) ltac:(lia) big_self) as (t1 & g1 & w & _ & I1 & X1 & H1 & _).
        destruct (IH t1 g1 I1 (fun j H => Hl j (or_intror H))) as (t2 & I2 & X2 & A). exists t2. split; auto. split; [apply (DynProofs2.ext_trans lie is_zero S ok ctx HS res _ _ _ X1 X2)|].
        intros j' [<-|Hj]; auto. destruct (X2 _ _ _ H1) as (w' & Hw & _). eauto.
    Qed.
    Definition wt (t : tree lie) (j : Z) : sg_t S := match TickProofs.look (dnode lie) t (nd j 0) with Some v => sg v | None => sg_one S end.
    Lemma product_split w a b c : a <= b <= c -> product_over S w a c === sg_mul S (product_over S w a b) (product_over S w b c).
    Proof.
      intros H. unfold product_over. replace (Z.to_nat (c - a)) with (Z.to_nat (b - a) + Z.to_nat (c - b))%nat by lia. rewrite seq_app, fold_right_app. cbn [Nat.add].
      assert (E : fold_right (fun j acc => sg_mul S (w (a + Z.of_nat j)) acc) (sg_one S) (seq (Z.to_nat (b - a)) (Z.to_nat (c - b))) = fold_right (fun j acc => sg_mul S (w (b + Z.of_nat j)) acc) (sg_one S) (seq 0 (Z.to_nat (c - b)))).
      { replace (Z.to_nat (b - a)) with (0 + Z.to_nat (b - a))%nat by lia. generalize 0%nat as s. generalize (Z.to_nat (c - b)) as n. induction n as [|n IH]; intros s; [reflexivity|]. cbn [seq fold_right]. f_equal; [f_equal; lia|]. apply (IH (Datatypes.S s)). }
      rewrite E. generalize (fold_right (fun j acc => sg_mul S (w (b + Z.of_nat j)) acc) (sg_one S) (seq 0 (Z.to_nat (c - b)))) as y. intros y. generalize (seq 0 (Z.to_nat (b - a))) as l. induction l as [|j l IH]; cbn [fold_right]; [apply (sd_sym _ _ _ _ HS), (sd_one_l _ _ _ _ HS)|].
      eapply (sd_trans _ _ _ _ HS); [|apply (sd_sym _ _ _ _ HS), (sd_assoc _ _ _ _ HS)]. apply (sd_mul _ _ _ _ HS); [apply (sd_refl _ _ _ _ HS)|exact IH].
    Qed.
    Lemma node_cells t : tinv t -> (forall j, under j 0 rk rm -> exists w, has t j 0 w) -> forall m : nat, forall k v, has t k (Z.of_nat m) v -> sg v === product_over S (wt t) (k * 2 ^ Z.of_nat m) ((k + 1) * 2 ^ Z.of_nat m).
    Proof.
      intros I A. induction m as [|m IH]; intros k v H.
      - change (Z.of_nat 0) with 0 in *. rewrite Z.pow_0_r, !Z.mul_1_r. unfold product_over. replace (Z.to_nat (k + 1 - k)) with 1%nat by lia. cbn [seq fold_right]. replace (k + Z.of_nat 0) with k by lia. unfold wt. destruct H as [_ ->]. apply (sd_sym _ _ _ _ HS), (sd_one_r _ _ _ _ HS).
      - rewrite Nat2Z.inj_succ in *. rewrite Z.pow_succ_r by lia. assert (P := pow2_pos (Z.of_nat m) ltac:(lia)).
        destruct (ti_node _ _ _ _ _ _ _ _ _ I _ _ _ H) as [(Ac & _)|(_ & _ & a & b & Ha & Hb & E)].
        + exfalso. assert (U := ti_under _ _ _ _ _ _ _ _ _ I _ _ _ H). set (j := k * 2 ^ Z.succ (Z.of_nat m)). assert (Uj : under j 0 k (Z.succ (Z.of_nat m))) by (split; [lia|]; unfold j; rewrite Z.sub_0_r, Z.div_mul; [reflexivity|rewrite Z.pow_succ_r; lia]).
          destruct (A j (under_trans _ _ _ _ _ _ Uj U)) as (w & Hw). destruct (leaf_bottom _ _ _ _ _ _ _ _ _ _ _ _ _ _ _ I H Ac Hw Uj). lia.
        + replace (Z.succ (Z.of_nat m) - 1) with (Z.of_nat m) in * by lia. eapply (sd_trans _ _ _ _ HS); [exact E|]. apply (sd_sym _ _ _ _ HS). eapply (sd_trans _ _ _ _ HS); [apply (product_split _ _ ((2 * k + 1) * 2 ^ Z.of_nat m)); nia|].
          apply (sd_sym _ _ _ _ HS). apply (sd_mul _ _ _ _ HS).
          * replace (k * (2 * 2 ^ Z.of_nat m)) with (2 * k * 2 ^ Z.of_nat m) by ring. apply IH; auto.
          * replace ((k + 1) * (2 * 2 ^ Z.of_nat m)) with ((2 * k + 1 + 1) * 2 ^ Z.of_nat m) by ring. apply IH; auto.
    Qed.
    Lemma cells_product t : tinv t -> (forall j, under j 0 rk rm -> exists w, has t j 0 w) -> forall l vs a b, Forall (fun i => di_n i <= res) l -> end_to_end (dy a res) (dy b res) (map DyadicProofs3.cell l) ->
      Forall2 (fun i v => has t (di_k i) (res - di_n i) v) l vs -> sg_prod S (map dn_lie vs) === product_over S (wt t) a b.
    Proof.
      intros I A. induction l as [|i l IH]; intros vs a b Hl E F; inversion F as [|i' v' l' vs' Hv Hvs]; subst; cbn [map] in E.
      - cbn in E. apply dy_same_eq in E. subst b. unfold product_over. rewrite Z.sub_diag. cbn. apply (sd_refl _ _ _ _ HS).
      - cbn [DyadicProofs3.cell end_to_end] in E. unfold DyadicProofs3.cell in E. destruct E as [E1 E2]. assert (Ni := Forall_inv Hl). cbn beta in Ni. cbn [map sg_prod fold_right]. set (m := res - di_n i) in *.
        assert (D : forall j, (dy j (di_n i) == dy (j * 2 ^ m) res)%Q) by (intros j; rewrite (dy_scale j (di_n i) m) by (unfold m; lia); unfold m; replace (di_n i + (res - di_n i)) with res by lia; reflexivity).
        rewrite D in E1. apply dy_same_eq in E1. subst a. assert (E2' : end_to_end (dy ((di_k i + 1) * 2 ^ m) res) (dy b res) (map DyadicProofs3.cell l)) by (eapply end_to_end_eq; [apply D|reflexivity|exact E2]).
        assert (P := pow2_pos m ltac:(unfold m; lia)). assert (Le := proj1 (dy_same_le _ _ res) (e2e_le Datatypes.unit (fun _ => true) tt eq_refl _ _ _ E2')).
        apply (sd_sym _ _ _ _ HS). eapply (sd_trans _ _ _ _ HS); [apply (product_split _ _ ((di_k i + 1) * 2 ^ m)); nia|]. apply (sd_sym _ _ _ _ HS). apply (sd_mul _ _ _ _ HS); [|apply IH; auto; apply (Forall_inv_tail Hl)].
        assert (X := node_cells t I A (Z.to_nat m) (di_k i) v'). rewrite Z2Nat.id in X by (unfold m; lia). apply X; auto.
    Qed.
  End Split.
  Lemma grid_cell x r : r <= res -> (grid_floor x r == dy (cell_at res (grid_floor x r)) res)%Q.
  Proof.
    intros H. unfold cell_at. rewrite floor_grid by auto. unfold grid_floor. rewrite (dy_scale _ r (res - r)) by lia. replace (r + (res - r)) with res by lia. reflexivity.
  Qed.
  Lemma no_meet_product w i r : ~ meets support i -> product_over S w (cell_at res (grid_floor (cut_from support i) r)) (cell_at res (grid_floor (cut_upto support i) r)) = sg_one S.
  Proof.
    intros N. unfold product_over. replace (Z.to_nat _) with 0%nat; [reflexivity|]. unfold meets in N. assert (L : (cut_upto support i <= cut_from support i)%Q) by lra.
    assert (cell_at res (grid_floor (cut_upto support i) r) <= cell_at res (grid_floor (cut_from support i) r)); [|lia]. unfold cell_at. apply Qfloor_resp_le. apply Qmult_le_compat_r; [apply grid_mono; auto|apply Qlt_le_weak, Qpow2_pos].
  Qed.
  Lemma grid_self x k n r : n <= r -> (x == dy k n)%Q -> (grid_floor x r == dy k n)%Q.
  Proof.
    intros L E. unfold grid_floor. assert (E2 : (x * Qpower 2 r == inject_Z (k * 2 ^ (r - n)))%Q).
    { rewrite E. unfold dy. rewrite <- Qmult_assoc, <- Qpow2_plus. replace (- n + r) with (r - n) by lia. rewrite Qpow2_Z by lia. rewrite inject_Z_mult. reflexivity. }
    rewrite E2, Qfloor_Z. rewrite (dy_scale k n (r - n)) by lia. replace (n + (r - n)) with r by lia. reflexivity.
  Qed.
  Theorem dyn_one_path : DynSpec.splits S ok R -> forall k n qs, fits_history support res qs -> first_whole support k n qs ->
    exists xs w, dyn_answers is_zero cbh2 R g0 support ctx qs xs /\
      Forall2 (fun q x => ok x /\ sg_of S x === product_over S w (cell_at res (grid_floor (cut_from support (fst q)) (snd q))) (cell_at res (grid_floor (cut_upto support (fst q)) (snd q)))) qs xs.
  Proof.
    intros HR k n [|[i r] qs] [Hres Hf] HW; [destruct HW|]. destruct HW as (Hr & Ef & Eu & Hin).
    destruct (Hf i r (or_introl eq_refl)) as [Hi Hm]. assert (M : meets support i) by (unfold meets; rewrite Ef, Eu; apply dy_same_lt; lia). destruct (Hm M) as [Hr2 Hfit].
    assert (Gf := grid_self _ k n r Hr Ef). assert (Gu := grid_self _ (k + 1) n r Hr Eu).
    destruct (fits_piece _ _ r res k n Hfit Hr) as [HC _]; [rewrite Gf; apply Qle_refl|rewrite Gu; apply Qle_refl|]. destruct (HC ltac:(lia)) as (C1 & C2 & C3).
    set (h := if 0 <=? k then 0 else -1). assert (Hh : h = 0 \/ h = -1) by (unfold h; destruct (0 <=? k); auto).
    set (m := res - n) in *. assert (Nn : nfit k m) by (split; auto; unfold m; lia).
    assert (Side : forall a b, (dy k n <= a)%Q -> (b <= dy (k + 1) n)%Q -> side h a b).
    { intros a b Ha Hb. unfold side, h. assert (Z0 : (0 == dy 0 n)%Q) by (unfold dy; ring). destruct (0 <=? k) eqn:E; [left|right]; split; auto.
      - eapply Qle_trans; [|exact Ha]. rewrite Z0. apply dy_same_le. lia.
      - eapply Qle_trans; [exact Hb|]. rewrite Z0. apply dy_same_le. lia. }
    assert (Fn : DynProofs2.fitn h k m).
    { apply (piece_fitn lie st cbh2 R S ok res h Hh (fun _ => False) (fun _ _ => False) (fun _ _ _ _ _ _ f => match f with end) (cut_from support i) (cut_upto support i) r (mkDI k n Clopen)); auto; cbn [di_k di_n]; rewrite ?Gf, ?Gu; try apply Qle_refl. apply Side; rewrite ?Gf, ?Gu; apply Qle_refl. }
    (* the first query *)
    unfold m in Nn. assert (E0 : exists x t1 g1, dn_log_signature_at is_zero cbh2 R big g0 [] support i r ctx = Ok (x, t1, g1) /\ DynProofs2.tinv lie S ok res h Av t1 k m /\ answered lie S ok res support t1 (i, r) x).
    { unfold dn_log_signature_at. set (s0 := mkStream [] 0 ctx support). destruct (refine_spec s0 i Hi Hsup) as [(Er & Le)|(q & R0 & Er & Eq1 & Eq2 & Lt & _)]; [exfalso; unfold meets in M; change (from s0 i) with (cut_from support i) in Le; change (upto s0 i) with (cut_upto support i) in Le; lra|]. rewrite Er. change (from s0 i) with (cut_from support i) in *. change (upto s0 i) with (cut_upto support i) in *. rewrite Eq1, Eq2.
      unfold dn_stream_impl. assert (ED : to_dyadic_intervals big (cut_from support i) (cut_upto support i) r Clopen = Ok [mkDI k n Clopen]).
      { replace r with (n + (r - n)) by lia. destruct Hfit as (T1 & _ & _ & W). assert (Pr := pow2_pos (r - n) ltac:(lia)). assert (Prs := pow2_pos (res - r) ltac:(lia)). assert (Em : 2 ^ m = 2 ^ (r - n) * 2 ^ (res - r)) by (unfold m; rewrite <- Z.pow_add_r by lia; f_equal; lia). rewrite Em in C1, C2.
        apply dissect_one; auto; [lia|lia|destruct (Z_le_gt_dec 0 k); nia|destruct (Z_le_gt_dec 0 (k + 1)); nia|assert (X := big_self); lia]. }
      rewrite ED. cbn [bind dn_pieces]. destruct (split_first HR h Hh Hres k m Fn k m g0 r big eq_refl eq_refl ltac:(unfold m; lia) big_self) as (t1 & g1 & w & E & I & H). unfold TickProofs.nd in E. replace (res - m) with n in E by (unfold m; lia). rewrite E. cbn [bind].
      eexists _, t1, g1. split; [reflexivity|]. split; auto. assert (Ow := proj1 (ti_val _ _ _ _ _ _ _ _ _ I _ _ _ H)). split; [apply (sd_cbh_ok _ _ _ _ HS); destruct (is_zero _); auto|]. right. split; auto. exists [mkDI k n Clopen]. split; [cbn; split; auto; symmetry; auto|]. split; [constructor; auto; cbn; auto|].
      exists [w]. split; [constructor; auto; constructor|]. destruct (is_zero (dn_lie w)) eqn:Z; (eapply (sd_trans _ _ _ _ HS); [apply (sd_cbh _ _ _ _ HS); auto|]); [|apply (sd_refl _ _ _ _ HS)]. cbn [map sg_prod fold_right]. apply (sd_sym _ _ _ _ HS). eapply (sd_trans _ _ _ _ HS); [apply (sd_one_r _ _ _ _ HS)|]. apply (sd_is_zero _ _ _ _ HS); auto. }
    destruct E0 as (x & t1 & g1 & E1 & I1 & A1).
    destruct (history_ok lie st is_zero cbh2 R S ok ctx HS res h Hh (fun t => DynProofs2.tinv lie S ok res h Av t k m) (fun k' m' => under k' m' k m) (split_step HR h Hh Hres k m) support Hsup big big_self qs t1 g1 I1) as (xs & t2 & g2 & E2 & I2 & X2 & A2).
    { apply Forall_forall. intros [j s] Hj. destruct (Hf j s (or_intror Hj)) as [F1 F2]. split; auto. intros Mj. destruct (F2 Mj) as [F3 F4]. destruct (Hin j s Hj Mj) as [B1 B2]. split; auto. split; auto. split; [apply Side; auto|].
      intros k' n' Hn' D1 D2. assert (L1 : (dy k n <= dy k' n')%Q) by (eapply Qle_trans; eauto). assert (L2 : (dy (k' + 1) n' <= dy (k + 1) n)%Q) by (eapply Qle_trans; eauto).
      assert (Ln : n <= n'). { destruct (Z_le_gt_dec n n'); auto. exfalso. rewrite (dy_scale k' n' (n - n')) in L1 by lia. rewrite (dy_scale (k' + 1) n' (n - n')) in L2 by lia. replace (n' + (n - n')) with n in * by lia. rewrite dy_same_le in L1, L2. assert (Pp : 2 ^ 1 <= 2 ^ (n - n')) by (apply Z.pow_le_mono_r; lia). nia. }
      rewrite (dy_scale k n (n' - n)) in L1 by lia. rewrite (dy_scale (k + 1) n (n' - n)) in L2 by lia. replace (n + (n' - n)) with n' in * by lia. rewrite dy_same_le in L1, L2. split; [unfold m; lia|]. unfold m. replace (res - n - (res - n')) with (n' - n) by lia. apply div_range; lia. }
    assert (AC : exists t3, DynProofs2.tinv lie S ok res h Av t3 k m /\ DynProofs2.ext lie S res t2 t3 /\ forall j, under j 0 k m -> exists w, DynProofs2.has lie res t3 j 0 w).
    { destruct (all_cells HR h Hh Hres k m Fn t2 g2 I2 (map (fun j => k * 2 ^ m + Z.of_nat j) (seq 0 (Z.to_nat (2 ^ m))))) as (t3 & I3 & X3 & A3).
      - intros j Hj. apply in_map_iff in Hj. destruct Hj as (p & <- & Hp). apply in_seq in Hp. split; [destruct Fn; lia|]. rewrite Z.sub_0_r. apply div_range; [destruct Fn; lia|]. lia.
      - exists t3. split; auto. split; auto. intros j [_ Hj]. rewrite Z.sub_0_r in Hj. apply div_range in Hj; [|destruct Fn; lia]. apply A3. apply in_map_iff. exists (Z.to_nat (j - k * 2 ^ m)). split; [lia|]. apply in_seq. lia. }
    destruct AC as (t3 & I3 & X3 & A3). exists (x :: xs), (wt t3). split.
    - exists big, t2, g2. intros fuel Hfu. eapply all_more; [exact Hfu|]. cbn [dyn_all]. rewrite E1. cbn [bind]. rewrite E2. reflexivity.
    - assert (A : Forall2 (answered lie S ok res support t3) ((i, r) :: qs) (x :: xs)).
      { constructor; [apply (answered_ext lie is_zero S ok ctx HS res support t1); auto; apply (DynProofs2.ext_trans lie is_zero S ok ctx HS res _ _ _ X2 X3)|]. clear -A2 X3 HS. induction A2 as [|q y qs xs H A IH]; constructor; auto. apply (answered_ext lie is_zero S ok ctx HS res support t2); auto. }
      clear -A Hf I3 A3 HS. set (qs' := (i, r) :: qs) in *. clearbody qs'. induction A as [|[j s] y qs1 xs1 H A IH]; constructor; [|apply IH; intros; apply Hf; right; auto]. destruct (Hf j s (or_introl eq_refl)) as [_ Fm].
      destruct H as (Oy & [(N & Z)|(Mj & l & L1 & L2 & vs & V1 & V2)]); cbn [fst snd]; split; auto; [rewrite no_meet_product; auto|]. destruct (Fm Mj) as [Hs _]. eapply (sd_trans _ _ _ _ HS); [exact V2|].
      apply (cells_product h k m t3 I3 A3 l); auto; [rewrite Forall_forall in L2 |- *; intros z Hz; destruct (L2 z Hz); lia|]. eapply end_to_end_eq; [apply grid_cell; auto|apply grid_cell; auto|exact L1].
  Qed.
End Top.
