(** Dynamically constructed streams: growth of the root, and queries of one interval. *)
From Coq Require Import ZifyBool Lqa.
From Verif Require Export DynProofs3.
From Verif Require Import DyadicLemmas DyadicProofs DyadicProofs2.
Open Scope Z_scope.

Lemma dint_dec (a b : dint) : {a = b} + {a <> b}.
Proof. decide equality; [decide equality|apply Z.eq_dec|apply Z.eq_dec]. Qed.
Section Expand.
  Variable lie st : Type.
  Variable is_zero : lie -> bool.
  Variable cbh2 : lie -> lie -> lie.
  Variable R : rule lie st.
  Variable S : sigs lie.
  Variable ok : lie -> Prop.
  Variable ctx : actx lie.
  Hypothesis HS : sound is_zero S ok ctx.
  Hypothesis Hok2 : forall a b, ok a -> ok b -> ok (cbh2 a b).
  Hypothesis Hcbh2 : forall a b, ok a -> ok b -> sg_eq S (sg_of S (cbh2 a b)) (sg_mul S (sg_of S a) (sg_of S b)).
  Variable res h : Z.
  Hypothesis Hres : - 2 ^ 27 <= res <= 2 ^ 27.
  Hypothesis Hh : h = 0 \/ h = -1.
  Variable Qv : Z -> Z -> lie -> Prop.
  Hypothesis Hq : forall k m x y, Qv k m x -> ok y -> sg_eq S (sg_of S y) (sg_of S x) -> Qv k m y.
  Infix "===" := (sg_eq S) (at level 70).
  Notation nd := (nd res).
  Notation kfit := (kfit res).
  Notation mfit := (mfit (dnode lie) res).
  Notation tree := (tree lie).
  Notation look := (look (dnode lie)).
  Notation sorted := (sorted lie).
  Notation keys := (keys lie).
  Notation fitn := (fitn h).
  Notation has := (has lie res).
  Notation tinv := (tinv lie S ok res h Qv).
  Notation ext := (ext lie S res).
  Notation sg x := (sg_of S (dn_lie x)).
  Implicit Types (t : tree) (g : st).

  Lemma tinv_expand t rk rm r x y t' : tinv t rk rm -> has t rk rm r -> fitn (rk / 2) (rm + 1) ->
    ok x -> ok y -> Qv (flip rk) rm x -> Qv (rk / 2) (rm + 1) y -> sg_of S y === (if Z.even rk then sg_mul S (sg r) (sg_of S x) else sg_mul S (sg_of S x) (sg r)) ->
    mfit t' -> sorted t' -> dn_begin t' = Some (nd (rk / 2) (rm + 1)) ->
    look t' (nd (rk / 2) (rm + 1)) = Some (mkNode (res - rm) y None None) ->
    look t' (nd rk rm) = Some (mkNode (dn_acc r) (dn_lie r) (Some (nd (flip rk) rm)) (Some (nd (rk / 2) (rm + 1)))) ->
    look t' (nd (flip rk) rm) = Some (mkNode (res - rm) x (Some (nd rk rm)) (Some (nd (rk / 2) (rm + 1)))) ->
    (forall j, kfit j -> j <> nd (rk / 2) (rm + 1) -> j <> nd rk rm -> j <> nd (flip rk) rm -> look t' j = look t j) ->
    tinv t' (rk / 2) (rm + 1) /\ ext t t'.
  Proof.
    intros I H Fp Ox Oy Qx Qy Ey Ft' St' Bt' Lp Lr Ln Lo.
    assert (Fr := ti_rfit _ _ _ _ _ _ _ _ _ I). assert (Fn : fitn (flip rk) rm) by (apply fitn_flip; auto; destruct Fp; lia).
    set (vp := mkNode (res - rm) y None None) in *. set (vr := mkNode (dn_acc r) (dn_lie r) (Some (nd (flip rk) rm)) (Some (nd (rk / 2) (rm + 1)))) in *. set (vn := mkNode (res - rm) x (Some (nd rk rm)) (Some (nd (rk / 2) (rm + 1)))) in *.
    assert (Hp : has t' (rk / 2) (rm + 1) vp) by (split; auto; apply (fitn_nfit h Hh); auto). assert (Hr : has t' rk rm vr) by (split; auto; apply (fitn_nfit h Hh); auto). assert (Hn : has t' (flip rk) rm vn) by (split; auto; apply (fitn_nfit h Hh); auto).
    assert (NF := flip_neq rk).
    assert (Old : forall k m w, has t' k m w -> (k = rk / 2 /\ m = rm + 1 /\ w = vp) \/ (k = rk /\ m = rm /\ w = vr) \/ (k = flip rk /\ m = rm /\ w = vn) \/ (has t k m w /\ m < rm)).
    { intros k m w [F L]. assert (D : nd k m = nd (rk / 2) (rm + 1) \/ nd k m = nd rk rm \/ nd k m = nd (flip rk) rm \/ (nd k m <> nd (rk / 2) (rm + 1) /\ nd k m <> nd rk rm /\ nd k m <> nd (flip rk) rm)).
      { destruct (dint_dec (nd k m) (nd (rk / 2) (rm + 1))); auto. destruct (dint_dec (nd k m) (nd rk rm)); auto. destruct (dint_dec (nd k m) (nd (flip rk) rm)); auto 6. }
      destruct D as [D|[D|[D|(D1 & D2 & D3)]]].
      - rewrite D in L. apply nd_inj in D. destruct D as [-> ->]. left. split; auto. split; auto. congruence.
      - rewrite D in L. apply nd_inj in D. destruct D as [-> ->]. right; left. split; auto. split; auto. congruence.
      - rewrite D in L. apply nd_inj in D. destruct D as [-> ->]. right; right; left. split; auto. split; auto. congruence.
      - rewrite Lo in L by auto using nd_kfit. right; right; right. split; [split; auto|]. destruct (Z_lt_le_dec m rm); auto. exfalso. destruct (root_top lie S ok res h Qv t rk rm k m w I (conj F L) ltac:(lia)) as [-> ->]. auto. }
    assert (New : forall k m w, has t k m w -> exists w', has t' k m w' /\ dn_lie w' = dn_lie w /\ dn_acc w' = dn_acc w /\ (m < rm -> w' = w)).
    { intros k m w Hw. assert (F := proj1 Hw). destruct (Z_lt_le_dec m rm) as [M|M].
      - exists w. split; auto. split; auto. rewrite Lo; [apply Hw|apply nd_kfit; auto|intros X; apply nd_inj in X; lia..].
      - destruct (root_top lie S ok res h Qv t rk rm k m w I Hw M) as [-> ->]. rewrite (has_fun _ _ _ _ _ _ _ Hw H). exists vr. split; auto. split; auto. split; auto. lia. }
    assert (NoneL : forall k m, nfit k m -> look t (nd k m) = None -> m < rm -> look t' (nd k m) = None).
    { intros k m F L M. rewrite Lo; auto using nd_kfit; intros X; apply nd_inj in X; lia. }
    assert (Bn : forall k m w w', branch lie S res t k m w -> dn_acc w' = dn_acc w -> dn_lie w' = dn_lie w -> branch lie S res t' k m w').
    { intros k m w w' (A1 & A2 & b & c & A3 & A4 & A5) B1 B2. split; [lia|]. split; auto. destruct (New _ _ _ A3) as (b' & A3' & Eb & _). destruct (New _ _ _ A4) as (c' & A4' & Ec & _). exists b', c'. split; auto. split; auto. rewrite B2, Eb, Ec. exact A5. }
    assert (Ur : under rk rm (rk / 2) (rm + 1)) by apply under_parent.
    assert (NoN : forall k m w, has t k m w -> under k m (flip rk) rm -> False).
    { intros k m w Hw U. assert (U2 := ti_under _ _ _ _ _ _ _ _ _ I _ _ _ Hw). destruct U as [U0 U1], U2 as [_ U2]. congruence. }
    split.
    - constructor; auto.
      + exists vp. auto.
      + intros k m w Hw. destruct (Old _ _ _ Hw) as [(-> & -> & ->)|[(-> & -> & ->)|[(-> & -> & ->)|[H' _]]]]; auto using under_refl.
        * rewrite <- (flip_div rk). apply under_parent.
        * eapply under_trans; [apply (ti_under _ _ _ _ _ _ _ _ _ I _ _ _ H')|exact Ur].
      + intros k m w Hw L. destruct (Old _ _ _ Hw) as [(-> & -> & ->)|[(-> & -> & ->)|[(-> & -> & ->)|[H' M]]]]; [lia|..].
        * unfold linked. cbn [vr dn_par dn_sib]. eauto 8.
        * unfold linked. rewrite flip_div, flip_flip. cbn [vn dn_par dn_sib]. eauto 8.
        * destruct (ti_link _ _ _ _ _ _ _ _ _ I _ _ _ H' M) as (A1 & A2 & (q & A3) & (s & A4)). split; auto. split; auto. destruct (New _ _ _ A3) as (q' & A3' & _). destruct (New _ _ _ A4) as (s' & A4' & _). eauto.
      + intros k m w Hw. destruct (Old _ _ _ Hw) as [(-> & -> & ->)|[(-> & -> & ->)|[(-> & -> & ->)|[H' N]]]].
        * right. split; [cbn; lia|]. split; [destruct Fr; lia|]. replace (rm + 1 - 1) with rm by lia. destruct (Z.even rk) eqn:E.
          -- destruct (flip_even rk E) as [E1 E2]. rewrite <- E2. replace (rk + 1) with (flip rk). eauto.
          -- destruct (flip_odd rk E) as [E1 E2]. rewrite <- E2. replace (2 * (rk / 2)) with (flip rk) by lia. eauto.
        * destruct (ti_node _ _ _ _ _ _ _ _ _ I _ _ _ H) as [(A1 & A2)|B]; [left|right; apply (Bn _ _ r); auto]. split; auto. intros M. destruct (A2 M).
          split; (apply NoneL; [apply (fitn_nfit h Hh), (fitn_child h rk); auto using div_2k, div_2k1|auto|lia]).
        * left. split; auto. intros M. split; (apply NoneL; [apply (fitn_nfit h Hh), (fitn_child h (flip rk)); auto using div_2k, div_2k1| |lia]);
            match goal with |- look t ?i = None => destruct (look t i) as [w|] eqn:E; auto; exfalso end.
          -- assert (F : nfit (2 * flip rk) (rm - 1)) by (apply (fitn_nfit h Hh), (fitn_child h (flip rk)); auto using div_2k). apply (NoN _ _ w (conj F E)). rewrite <- (div_2k (flip rk)) at 2. replace rm with (rm - 1 + 1) at 2 by lia. apply under_parent.
          -- assert (F : nfit (2 * flip rk + 1) (rm - 1)) by (apply (fitn_nfit h Hh), (fitn_child h (flip rk)); auto using div_2k1). apply (NoN _ _ w (conj F E)). rewrite <- (div_2k1 (flip rk)) at 2. replace rm with (rm - 1 + 1) at 2 by lia. apply under_parent.
        * destruct (ti_node _ _ _ _ _ _ _ _ _ I _ _ _ H') as [(A1 & A2)|B]; [left|right; apply (Bn _ _ w); auto]. assert (F := has_fitn _ _ _ _ _ _ _ _ _ _ _ _ I H'). split; auto. intros M. destruct (A2 M).
          split; (apply NoneL; [apply (fitn_nfit h Hh), (fitn_child h k); auto using div_2k, div_2k1|auto|lia]).
      + intros k m w Hw. destruct (Old _ _ _ Hw) as [(-> & -> & ->)|[(-> & -> & ->)|[(-> & -> & ->)|[H' N]]]]; auto; [apply (ti_val _ _ _ _ _ _ _ _ _ I _ _ r H)|apply (ti_val _ _ _ _ _ _ _ _ _ I _ _ _ H')].
    - intros k m w Hw. destruct (New _ _ _ Hw) as (w' & Hw' & E & _). exists w'. split; auto. rewrite E. apply (sd_refl _ _ _ _ HS).
  Qed.

  Hypothesis Hroot : forall g k m, fitn k m -> ok (fst (ru_root R g (nd k m))) /\ Qv k m (fst (ru_root R g (nd k m))).
  Hypothesis Hneigh : forall g k m, fitn k m -> ok (fst (ru_neighbour R g (nd k m))) /\ Qv k m (fst (ru_neighbour R g (nd k m))).
  Hypothesis Hchild : forall g k m v, fitn k m -> 1 <= m -> ok v -> Qv k m v ->
    let '(x, y, _) := ru_children R g (nd (2 * k) (m - 1)) (nd (2 * k + 1) (m - 1)) v in
    ok x /\ ok y /\ Qv (2 * k) (m - 1) x /\ Qv (2 * k + 1) (m - 1) y /\ sg_mul S (sg_of S x) (sg_of S y) === sg_of S v.
  Variable grows : Prop.
  Hypothesis Hgrow : grows -> forall k m x y z, fitn k m -> 1 <= m -> ok x -> ok y -> ok z -> Qv k m x -> Qv (2 * k) (m - 1) y -> Qv (2 * k + 1) (m - 1) z -> sg_of S x === sg_mul S (sg_of S y) (sg_of S z).

  Lemma root_start k m : 0 <= m -> ((k / 2) * 2 ^ (m + 1) = k * 2 ^ m \/ (k / 2) * 2 ^ (m + 1) = (k - 1) * 2 ^ m) /\ (k / 2) * 2 ^ (m + 1) <= flip k * 2 ^ m.
  Proof.
    intros Hm. assert (P := pow2_pos m Hm). rewrite (Z.pow_add_r 2 m 1) by lia. rewrite Z.pow_1_r. destruct (Z.even k) eqn:E.
    - destruct (flip_even k E) as [-> E2]. replace (k / 2 * (2 ^ m * 2)) with (2 * (k / 2) * 2 ^ m) by ring. rewrite <- E2. split; [auto|nia].
    - destruct (flip_odd k E) as [-> E2]. replace (k / 2 * (2 ^ m * 2)) with ((2 * (k / 2)) * 2 ^ m) by ring. replace (2 * (k / 2)) with (k - 1) by lia. split; [auto|lia].
  Qed.
  Lemma expand_step t rk rm g f k0 m0 : grows -> tinv t rk rm -> fitn k0 m0 -> ~ under k0 m0 rk rm ->
    exists t' g', dn_expand cbh2 R (Datatypes.S f) g t (nd rk rm) (nd k0 m0) = dn_expand cbh2 R f g' t' (nd (rk / 2) (rm + 1)) (nd k0 m0) /\ tinv t' (rk / 2) (rm + 1) /\ ext t t' /\ rm < 28.
  Proof.
    intros Gr I F0 NU. assert (Fr := ti_rfit _ _ _ _ _ _ _ _ _ I). destruct (ti_root _ _ _ _ _ _ _ _ _ I) as (r & Hr & Pr & _).
    assert (L : rm < 28). { destruct (Z_lt_le_dec rm 28); auto. exfalso. apply NU. assert (rm = 28) as -> by (destruct Fr; lia). destruct Fr as [_ Fr]. rewrite Z.sub_diag, Z.pow_0_r, Z.div_1_r in Fr. subst rk. apply under_top; auto. }
    assert (Fp := fitn_parent h rk rm Fr L). assert (Fn := fitn_flip h rk rm Fr L). assert (Nr := fitn_nfit h Hh _ _ Fr). assert (Np := fitn_nfit h Hh _ _ Fp). assert (Nn := fitn_nfit h Hh _ _ Fn). assert (B := nfit_k _ _ Nr). assert (Bp := nfit_k _ _ Np). assert (N0 := fitn_nfit h Hh _ _ F0).
    assert (Kr := nd_kfit res _ _ Nr). assert (Kp := nd_kfit res _ _ Np). assert (Kn := nd_kfit res _ _ Nn). assert (NF := flip_neq rk).
    cbn [dn_expand]. rewrite (contains_nd res k0 m0 rk rm N0 Nr). cbn [bind]. destruct ((m0 <=? rm) && (k0 / 2 ^ (rm - m0) =? rk)) eqn:E; [exfalso; apply NU; split; lia|]. clear E.
    rewrite (expand_eval (nd rk rm) 1); cbn [di_k di_n TickProofs.nd]; [|unfold small; lia|destruct Nr; lia|lia]. rewrite Z.pow_1_r. cbn [bind]. replace (mkDI (rk / 2) (res - rm - 1) Clopen) with (nd (rk / 2) (rm + 1)) by (unfold TickProofs.nd; f_equal; lia).
    rewrite (aligned_nd res Hres rk rm Nr). cbn [bind].
    assert (En : (if Z.even rk then shrink_to_omitted_end (nd (rk / 2) (rm + 1)) else shrink_to_contained_end (nd (rk / 2) (rm + 1)) 1) = Ok (nd (flip rk) rm)).
    { destruct (Z.even rk) eqn:E.
      - destruct (flip_even rk E) as [E1 E2]. rewrite omitted_end_eval; [|split; cbn [di_k di_n TickProofs.nd]; destruct Nr; lia]. cbn [di_k di_n di_t TickProofs.nd]. unfold TickProofs.nd, unit. cbn [di_t unit_t]. do 2 f_equal; lia.
      - destruct (flip_odd rk E) as [E1 E2]. rewrite contained_end_eval; cbn [di_k di_n di_t TickProofs.nd]; [|lia|destruct Nr; lia|unfold INT_MIN, INT_MAX; lia]. rewrite Z.pow_1_r. unfold TickProofs.nd. do 2 f_equal; lia. }
    rewrite En. cbn [bind]. destruct (ru_neighbour R g (nd (flip rk) rm)) as [x g1] eqn:Ex. destruct (Hneigh g _ _ Fn) as [Ox Qx]. rewrite Ex in Ox, Qx. cbn [fst] in Ox, Qx.
    unfold dn_insert_node. cbn [di_n TickProofs.nd]. set (ip := nd (rk / 2) (rm + 1)) in *. set (ir := nd rk rm) in *. set (inn := nd (flip rk) rm) in *.
    assert (Nnr : inn <> ir) by (intros X; apply nd_inj in X; lia). assert (Npr : ip <> ir) by (intros X; apply nd_inj in X; lia). assert (Npn : ip <> inn) by (intros X; apply nd_inj in X; lia).
    assert (Lf : forall i, kfit i -> (forall k m v, i = nd k m -> has t k m v -> False) -> look t i = None). { intros i (k & m & -> & F) X. destruct (look t (nd k m)) eqn:E; auto. exfalso. apply (X k m _ eq_refl (conj F E)). }
    assert (Ln0 : look t inn = None). { apply Lf; auto. intros k m v Ei Hv. apply nd_inj in Ei. destruct Ei as [<- <-]. destruct (root_top lie S ok res h Qv t rk rm _ _ v I Hv ltac:(lia)). lia. }
    assert (Lp0 : look t ip = None). { apply Lf; auto. intros k m v Ei Hv. apply nd_inj in Ei. destruct Ei as [<- <-]. destruct (root_top lie S ok res h Qv t rk rm _ _ v I Hv ltac:(lia)). lia. }
    destruct (insert_look lie res Hres t inn (mkNode (res - rm) x None None) (ti_fit _ _ _ _ _ _ _ _ _ I) (ti_sort _ _ _ _ _ _ _ _ _ I) Kn Ln0) as (t1 & E1 & F1 & S1 & L1 & L1' & _ & B1 & B1'). rewrite E1. cbn [bind].
    destruct (ru_root R g1 ip) as [y g2] eqn:Ey. destruct (Hroot g1 _ _ Fp) as [Oy Qy]. fold ip in Oy, Qy. rewrite Ey in Oy, Qy. cbn [fst] in Oy, Qy.
    destruct (insert_look lie res Hres t1 ip (mkNode (res - rm) y None None) F1 S1 Kp) as (t2 & E2 & F2 & S2 & L2 & L2' & _ & _ & B2); [rewrite L1'; auto|]. rewrite E2. cbn [bind].
    assert (Rs := root_start rk rm ltac:(destruct Nr; lia)). assert (P := pow2_pos rm ltac:(destruct Nr; lia)).
    assert (Bt2 : dn_begin t2 = Some ip).
    { destruct (Z.even rk) eqn:E.
      - destruct (flip_even rk E) as [Ef _]. apply (B2 ir); [apply (B1 ir); [apply (ti_begin _ _ _ _ _ _ _ _ _ I)|apply ord_nd; auto; rewrite Ef; nia]|apply ord_nd; auto; lia].
      - destruct (flip_odd rk E) as [Ef _]. apply (B2 inn); [apply (B1' ir); [apply (ti_begin _ _ _ _ _ _ _ _ _ I)|apply ord_nd; auto; rewrite Ef; nia]|apply ord_nd; auto; lia]. }
    assert (L2r : look t2 ir = Some r) by (rewrite L2', L1'; auto; apply Hr).
    unfold dn_update_parent. rewrite (at_look lie res t2 ir F2 Kr), L2r. cbn [bind]. rewrite Pr. cbn [bind].
    unfold dn_link at 1. rewrite (at_look lie res t2 ir F2 Kr), L2r. cbn [bind].
    destruct (set_look lie res t2 ir r (mkNode (dn_acc r) (dn_lie r) (Some inn) (Some ip)) F2 Kr L2r) as (t3 & E3 & F3 & K3 & L3 & L3'). rewrite E3. cbn [bind].
    unfold dn_link. assert (L3n : look t3 inn = Some (mkNode (res - rm) x None None)) by (rewrite L3', L2', L1; auto). rewrite (at_look lie res t3 inn F3 Kn), L3n. cbn [bind dn_acc dn_lie].
    destruct (set_look lie res t3 inn _ (mkNode (res - rm) x (Some ir) (Some ip)) F3 Kn L3n) as (t4 & E4 & F4 & K4 & L4 & L4'). rewrite E4. cbn [bind].
    exists t4, g2. split; auto. assert (X := tinv_expand t rk rm r x y t4 I Hr Fp Ox Oy Qx Qy). destruct X as [I4 X4]; auto.
    - destruct (ti_val _ _ _ _ _ _ _ _ _ I _ _ _ Hr) as [Or Qr]. destruct (Z.even rk) eqn:E.
      + destruct (flip_even rk E) as [Ef E2']. apply (Hgrow Gr (rk / 2) (rm + 1)); auto; replace (rm + 1 - 1) with rm by lia; [destruct Nr; lia|rewrite <- E2'; auto|rewrite <- E2', <- Ef; auto].
      + destruct (flip_odd rk E) as [Ef E2']. apply (Hgrow Gr (rk / 2) (rm + 1)); auto; replace (rm + 1 - 1) with rm by lia; [destruct Nr; lia|replace (2 * (rk / 2)) with (flip rk) by lia; auto|rewrite <- E2'; auto].
    - unfold DynProofs.sorted. rewrite K4, K3. exact S2.
    - rewrite (begin_keys t3 t4 K4), (begin_keys t2 t3 K3). exact Bt2.
    - fold ip. rewrite L4', L3', L2; auto.
    - fold ir inn ip. rewrite L4', L3; auto.
    - intros j Kj J1 J2 J3. fold ip in J1. fold ir in J2. fold inn in J3. rewrite L4', L3', L2', L1'; auto.
  Qed.
  Lemma expand_ok (N : nat) : forall t rk rm g fuel k0 m0, grows \/ under k0 m0 rk rm -> tinv t rk rm -> fitn k0 m0 -> 28 - rm < Z.of_nat N -> (N <= fuel)%nat ->
    exists rk' rm' t' g', dn_expand cbh2 R fuel g t (nd rk rm) (nd k0 m0) = Ok (nd rk' rm', t', g') /\ tinv t' rk' rm' /\ ext t t' /\ under k0 m0 rk' rm' /\ under rk rm rk' rm' /\ (under k0 m0 rk rm -> rk' = rk /\ rm' = rm).
  Proof.
    induction N as [|N IH]; intros t rk rm g fuel k0 m0 G I F0 HN Hf; [assert (X := proj1 (ti_rfit _ _ _ _ _ _ _ _ _ I)); lia|]. destruct fuel as [|fuel]; [lia|].
    assert (D : under k0 m0 rk rm \/ ~ under k0 m0 rk rm). { unfold under. destruct (Z_le_gt_dec m0 rm); [|right; lia]. destruct (Z.eq_dec (k0 / 2 ^ (rm - m0)) rk); [left|right]; lia. }
    destruct D as [U|NU].
    - exists rk, rm, t, g. split; [|split; auto; split; [apply (ext_refl lie is_zero S ok ctx HS res)|auto using under_refl]]. cbn [dn_expand]. rewrite (contains_nd res k0 m0 rk rm (fitn_nfit h Hh _ _ F0) (fitn_nfit h Hh _ _ (ti_rfit _ _ _ _ _ _ _ _ _ I))). cbn [bind]. destruct U as [U1 U2]. replace ((m0 <=? rm) && (k0 / 2 ^ (rm - m0) =? rk)) with true by lia. reflexivity.
    - destruct G as [G|G]; [|tauto]. destruct (expand_step t rk rm g fuel k0 m0 G I F0 NU) as (t1 & g1 & E1 & I1 & X1 & L). rewrite E1.
      destruct (IH t1 (rk / 2) (rm + 1) g1 fuel k0 m0 (or_introl G) I1 F0 ltac:(lia) ltac:(lia)) as (rk' & rm' & t2 & g2 & E2 & I2 & X2 & U1 & U2 & _). exists rk', rm', t2, g2. split; auto. split; auto. split; [apply (ext_trans lie is_zero S ok ctx HS res _ _ _ X1 X2)|]. split; auto. split; [|tauto]. eapply under_trans; [apply under_parent|exact U2].
  Qed.
  Notation dyadic := (dn_dyadic cbh2 R).
  Lemma refine_end t rk rm k m v r g fuel : tinv t rk rm -> has t k m v -> res - m <= r <= res -> 2 ^ 28 + 101 <= Z.of_nat fuel -> dn_acc v < r ->
    exists t' g', dn_refine cbh2 R fuel g t (nd k m) r = Ok (t', g') /\ tinv t' rk rm /\ ext t t'.
  Proof.
    intros I H Hr Hf A. assert (Nl : res - m <= dn_acc v) by (destruct (ti_node _ _ _ _ _ _ _ _ _ I _ _ _ H) as [(X & _)|(X & _)]; lia).
    replace r with (res - (res - r)) by lia. apply (refine_ok lie st is_zero cbh2 R S ok ctx HS Hok2 Hcbh2 res h Hres Hh Qv Hq Hchild t rk rm k m v (res - r)); auto. lia.
  Qed.
  (** A query of one dyadic interval on a tree with nodes. *)
  Lemma dyadic_ok t rk rm k0 m0 g r fuel : tinv t rk rm -> grows \/ under k0 m0 rk rm -> fitn k0 m0 -> res - m0 <= r <= res -> 2 ^ 28 + 101 <= Z.of_nat fuel ->
    exists rk' rm' t' g' w, dyadic fuel g t (nd k0 m0) r = Ok (dn_lie w, t', g') /\ tinv t' rk' rm' /\ ext t t' /\ has t' k0 m0 w /\ under rk rm rk' rm' /\ (under k0 m0 rk rm -> rk' = rk /\ rm' = rm).
  Proof.
    intros I G F0 Hr Hf. assert (N0 := fitn_nfit h Hh _ _ F0). unfold dn_dyadic. rewrite (find_look (dnode lie) res t (nd k0 m0) (ti_fit _ _ _ _ _ _ _ _ _ I) (nd_kfit res _ _ N0)). cbn [bind].
    destruct (look t (nd k0 m0)) as [v|] eqn:L.
    - assert (H : has t k0 m0 v) by (split; auto). destruct (dn_acc v <? r) eqn:E.
      + destruct (refine_end t rk rm k0 m0 v r g fuel I H Hr Hf ltac:(lia)) as (t1 & g1 & E1 & I1 & X1). rewrite E1. cbn [bind]. destruct (X1 _ _ _ H) as (w & Hw & _). rewrite (has_at _ _ _ _ _ _ _ _ _ _ _ _ I1 Hw). cbn [bind]. exists rk, rm, t1, g1, w. auto 7 using under_refl.
      + exists rk, rm, t, g, v. split; auto. split; auto. split; [apply (ext_refl lie is_zero S ok ctx HS res)|auto using under_refl].
    - rewrite (ti_begin _ _ _ _ _ _ _ _ _ I). cbn [bind].
      destruct (expand_ok 30 t rk rm g fuel k0 m0 G I F0) as (rk' & rm' & t1 & g1 & E1 & I1 & X1 & U1 & U2 & U3); [assert (Y := proj1 (ti_rfit _ _ _ _ _ _ _ _ _ I)); lia|lia|]. rewrite E1. cbn [bind].
      destruct (ti_root _ _ _ _ _ _ _ _ _ I1) as (rt & Hrt & _).
      destruct (walk_ok lie S ok res h Qv 29 t1 rk' rm' rk' rm' rt k0 m0 fuel I1 Hrt N0 U1) as (k1 & m1 & v1 & E2 & H1 & U4 & C); [assert (Y := proj1 (proj1 Hrt)); lia|lia|]. rewrite E2. cbn [bind].
      destruct (grow_ok lie st is_zero cbh2 R S ok ctx HS Hok2 Hcbh2 res h Hres Hh Qv Hq Hchild 29 t1 rk' rm' k1 m1 v1 k0 m0 g1 fuel I1 H1 C N0 U4) as (t2 & g2 & w & E3 & I2 & X2 & Hw); [assert (Y := proj1 (proj1 H1)); destruct N0; lia|lia|]. rewrite E3. cbn [bind].
      rewrite (has_at _ _ _ _ _ _ _ _ _ _ _ _ I2 Hw). cbn [bind]. rewrite equals_nd, !Z.eqb_refl. cbn [andb].
      assert (X12 := ext_trans lie is_zero S ok ctx HS res _ _ _ X1 X2). destruct (dn_acc w >=? r) eqn:E.
      + exists rk', rm', t2, g2, w. auto 7.
      + destruct (refine_end t2 rk' rm' k0 m0 w r g2 fuel I2 Hw Hr Hf ltac:(lia)) as (t3 & g3 & E4 & I3 & X3). rewrite E4. cbn [bind]. destruct (X3 _ _ _ Hw) as (w3 & Hw3 & _). rewrite (has_at _ _ _ _ _ _ _ _ _ _ _ _ I3 Hw3). cbn [bind].
        exists rk', rm', t3, g3, w3. split; auto. split; auto. split; [apply (ext_trans lie is_zero S ok ctx HS res _ _ _ X12 X3)|auto].
  Qed.
  (** The first query. *)
  Lemma dyadic_first k0 m0 g r fuel : fitn k0 m0 -> res - m0 <= r <= res -> 2 ^ 28 + 101 <= Z.of_nat fuel ->
    exists t' g' w, dyadic fuel g [] (nd k0 m0) r = Ok (dn_lie w, t', g') /\ tinv t' k0 m0 /\ has t' k0 m0 w.
  Proof.
    intros F0 Hr Hf. assert (N0 := fitn_nfit h Hh _ _ F0). unfold dn_dyadic. cbn [cache_find bind dn_begin]. destruct (ru_root R g (nd k0 m0)) as [x g1] eqn:Ex. destruct (Hroot g _ _ F0) as [Ox Qx]. rewrite Ex in Ox, Qx. cbn [fst] in Ox, Qx.
    unfold dn_insert_node. cbn [dn_insert bind di_n TickProofs.nd]. set (t0 := [(nd k0 m0, mkNode (res - m0) x None None)] : tree). set (v0 := mkNode (res - m0) x None None) in t0.
    assert (F : mfit t0). { constructor; [|constructor]. apply nd_kfit; auto. }
    assert (K0 := nd_kfit res _ _ N0). assert (L0 : look t0 (nd k0 m0) = Some v0). { unfold t0. cbn [look]. unfold di_eqb. cbn. rewrite !Z.eqb_refl. reflexivity. }
    assert (Only : forall k m v, has t0 k m v -> k = k0 /\ m = m0 /\ v = v0).
    { intros k m v [Fk L]. unfold t0 in L. cbn [TickProofs.look] in L. destruct (di_eqb (nd k0 m0) (nd k m)) eqn:E; [|discriminate]. apply (di_eqb_iff res) in E; auto using nd_kfit. apply nd_inj in E. destruct E as [-> ->]. injection L as <-. auto. }
    assert (I : tinv t0 k0 m0).
    { constructor; auto.
      - constructor; constructor.
      - exists v0. split; [split; auto|split; reflexivity].
      - intros k m v H. destruct (Only _ _ _ H) as (-> & -> & _). apply under_refl.
      - intros k m v H. destruct (Only _ _ _ H) as (-> & -> & _). lia.
      - intros k m v H. destruct (Only _ _ _ H) as (-> & -> & ->). left. split; [reflexivity|]. intros M. split; (match goal with |- look _ ?i = None => destruct (look t0 i) as [w|] eqn:E; auto; exfalso end).
        + assert (Fc : nfit (2 * k0) (m0 - 1)) by (apply (fitn_nfit h Hh), (fitn_child h k0); auto using div_2k). destruct (Only _ _ _ (conj Fc E)). lia.
        + assert (Fc : nfit (2 * k0 + 1) (m0 - 1)) by (apply (fitn_nfit h Hh), (fitn_child h k0); auto using div_2k1). destruct (Only _ _ _ (conj Fc E)). lia.
      - intros k m v H. destruct (Only _ _ _ H) as (-> & -> & ->). auto. }
    assert (H0 : has t0 k0 m0 v0) by (split; auto). change [(mkDI k0 (res - m0) Clopen, mkNode (res - m0) x None None)] with t0. change (mkDI k0 (res - m0) Clopen) with (nd k0 m0).
    rewrite (has_at _ _ _ _ _ _ _ _ _ _ _ _ I H0). cbn [bind]. destruct (dn_acc v0 >=? r) eqn:E.
    - rewrite (has_at _ _ _ _ _ _ _ _ _ _ _ _ I H0). exists t0, g1, v0. split; auto.
    - destruct fuel as [|fuel]; [lia|]. cbn [dn_expand]. rewrite (contains_nd res k0 m0 k0 m0 N0 N0). rewrite Z.sub_diag, Z.pow_0_r, Z.div_1_r, Z.leb_refl, Z.eqb_refl. cbn [andb bind dn_walk]. rewrite (has_at _ _ _ _ _ _ _ _ _ _ _ _ I H0). cbn [bind]. rewrite equals_nd, !Z.eqb_refl. cbn [andb negb bind dn_grow]. rewrite equals_nd, !Z.eqb_refl. cbn [andb bind]. rewrite (has_at _ _ _ _ _ _ _ _ _ _ _ _ I H0). cbn [bind]. rewrite E.
      destruct (refine_end t0 k0 m0 k0 m0 v0 r g1 (Datatypes.S fuel) I H0 Hr Hf ltac:(lia)) as (t1 & g2 & E1 & I1 & X1). rewrite E1. cbn [bind]. destruct (X1 _ _ _ H0) as (w & Hw & _). rewrite (has_at _ _ _ _ _ _ _ _ _ _ _ _ I1 Hw). cbn [bind]. exists t1, g2, w. split; [rewrite andb_false_r; reflexivity|]. split; [exact I1|exact Hw].
  Qed.
End Expand.
