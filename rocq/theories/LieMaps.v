(** The expansion of Hall basis elements into words and the bracketing of words, with the caches of the maps. *)
From Coq Require Import ZifyBool Sorted.
From Verif Require Import LieObjModel Alg Words Series Shuffle LalTensor KeyProofs KeyProofs2 HallModel HallSpec HallTab HallDim HallTrees HsProofs HsLemmas BracketModel BracketProofs BracketSem LieSpec Dynkin T2lLemmas LieTab LieBasis LieProd LieMult.
Open Scope Z_scope.

Definition weqb (u v : list Z) : bool := if list_eq_dec Z.eq_dec u v then true else false.
Lemma weqbP u v : reflect (u = v) (weqb u v). Proof. unfold weqb. destruct (list_eq_dec Z.eq_dec u v); constructor; auto. Qed.
Lemma weqb_cons x u y v : weqb (x :: u) (y :: v) = (x =? y) && weqb u v.
Proof. destruct (weqbP (x :: u) (y :: v)) as [E|E]; destruct (Z.eqb_spec x y); destruct (weqbP u v); cbn; try congruence. Qed.

(** *** Integer tensors *)
Section Base.
  Variable K : cring.
  Lemma zr_conv (a b : tens Zcr Z) u : zr K (conv a b u) = conv (fun v => zr K (a v)) (fun v => zr K (b v)) u.
  Proof. unfold conv. rewrite (zr_sum K). apply sum_ext. intros k _. apply (zr_mul K). Qed.
  Lemma zr_sub a b : zr K (a - b) = rsub (zr K a) (zr K b).
  Proof. Add Ring Kr2 : (rth K). unfold Z.sub. rewrite zr_add, zr_opp. ring. Qed.
  Lemma zr_texpand t u : zr K (texpand Zcr t u) = texpand K t u.
  Proof.
    revert u. induction t as [l|a IHa b IHb]; intros u; cbn [texpand].
    - destruct u as [|x [|y u]]; try reflexivity. destruct (x =? l - 1); reflexivity.
    - unfold comm, tsub. change (@rsub Zcr) with Z.sub. rewrite zr_sub, !zr_conv. f_equal; apply conv_ext; intros v; auto.
  Qed.
End Base.
Definition dlt (u : list Z) : tens Zcr Z := fun x => if weqb u x then 1 else 0.
Notation zsum := (@sum Zcr _).
Lemma conv_dlt u v x : conv (dlt u) (dlt v) x = dlt (u ++ v) x.
Proof.
  revert x. induction u as [|y u IH]; intros x.
  - transitivity (conv tone (dlt v) x); [|apply conv_one_l]. apply conv_ext; intros z; [|reflexivity]. unfold dlt, tone. destruct z as [|z0 z]; [destruct (weqbP [] []); [reflexivity|congruence]|]. destruct (weqbP [] (z0 :: z)); [discriminate|reflexivity].
  - destruct x as [|z x].
    + rewrite conv_nil. unfold dlt. cbn [app]. destruct (weqbP (y :: u) []); [discriminate|]. destruct (weqbP (y :: u ++ v) []); [discriminate|]. reflexivity.
    + rewrite conv_cons. change ((y :: u) ++ v) with (y :: (u ++ v)). unfold dlt at 1. destruct (weqbP (y :: u) []); [discriminate|].
      change (0 * dlt v (z :: x) + conv (dl z (dlt (y :: u))) (dlt v) x = dlt (y :: u ++ v) (z :: x)).
      destruct (Z.eqb_spec y z) as [->|N].
      * rewrite (conv_ext _ _ (dl z (dlt (z :: u))) (dlt u) (dlt v) (dlt v)); [rewrite IH| |reflexivity].
        -- unfold dlt. rewrite weqb_cons, Z.eqb_refl. cbn [andb]. lia.
        -- intros t. unfold dl, dlt. rewrite weqb_cons, Z.eqb_refl. reflexivity.
      * rewrite (conv_ext _ _ (dl z (dlt (y :: u))) tzero (dlt v) (dlt v)); [rewrite (conv_zero_l _ _ (dlt v) x)| |reflexivity].
        -- unfold dlt, tzero. rewrite weqb_cons. destruct (Z.eqb_spec y z); [congruence|]. reflexivity.
        -- intros t. unfold dl, dlt. rewrite weqb_cons. destruct (Z.eqb_spec y z); [congruence|]. reflexivity.
Qed.
Notation wco := (co (list Z) weqb).
Lemma wco_cons u v q : @teq Zcr Z (wco ((u, v) :: q)) (@tadd Zcr Z (@tscal Zcr Z v (dlt u)) (wco q)).
Proof. intros x. rewrite co_cons. unfold tadd, tscal, dlt. cbn. destruct (weqb u x); lia. Qed.
Lemma conv_co q q2 x : @conv Zcr Z (wco q) (wco q2) x = zsum q (fun e => snd e * zsum q2 (fun e2 => snd e2 * dlt (fst e ++ fst e2) x)).
Proof.
  assert (D : forall u, @conv Zcr Z (dlt u) (wco q2) x = zsum q2 (fun e2 => snd e2 * dlt (u ++ fst e2) x)).
  { intros u. induction q2 as [|[u2 v2] q2 IH2].
    - transitivity (@conv Zcr Z (dlt u) tzero x); [apply (conv_ext Zcr Z); intros z; reflexivity|apply (conv_zero_r Zcr Z (dlt u) x)].
    - rewrite (conv_ext Zcr Z _ _ _ _ (fun _ => eq_refl) (wco_cons u2 v2 q2) x), (conv_add_r Zcr Z _ _ _ x). unfold tadd. rewrite (conv_scal_r Zcr Z _ _ _ x), IH2. unfold tscal. rewrite conv_dlt. reflexivity. }
  induction q as [|[u v] q IH].
  - transitivity (@conv Zcr Z tzero (wco q2) x); [apply (conv_ext Zcr Z); intros z; reflexivity|apply (conv_zero_l Zcr Z (wco q2) x)].
  - rewrite (conv_ext Zcr Z _ _ _ _ (wco_cons u v q) (fun _ => eq_refl) x), (conv_add_l Zcr Z _ _ _ x). unfold tadd. rewrite (conv_scal_l Zcr Z _ _ _ x), IH. unfold tscal. rewrite D. reflexivity.
Qed.

Section Ctx.
  Variables (w N : Z) (L : lctx).
  Hypothesis HC : ctx_ok w N L.
  Notation M := (nM w N). Notation H := (lc_h L). Notation B := (lc_t L).
  Notation UK := (UK w). Notation ug := (ug w). Notation UL := (UL w). Notation UR := (UR w). Notation UM := (UM w). Notation Udb := (Udb w).
  Let Hw : 1 <= w := c_w w N L HC.
  Let HN : 1 <= N <= 254 := c_N w N L HC.
  Let HP : packs w N := c_packs w N L HC.
  Let HT : tb_ok w N B := c_tb w N L HC.
  Definition inW (d : Z) (u : list Z) : Prop := letters_ok w u /\ Z.of_nat (length u) = d.
  Lemma inW_inj d u v : d <= N -> inW d u -> inW d v -> wkey w u = wkey w v -> u = v.
  Proof. intros Hd [A1 A2] [B1 B2]. apply (wkey_inj w N); auto; lia. Qed.
  Notation wrep := (rep (list Z) weqb (wkey w)).
  Lemma ft_word u v c : letters_ok w u -> letters_ok w v -> Z.of_nat (length u) + Z.of_nat (length v) <= N ->
    ft_mult B (wkey w u) (wkey w v) c = Ok ([(wkey w (u ++ v), 1)], c).
  Proof.
    intros Hu Hv Hl. unfold ft_mult. rewrite !(wkey_deg w N) by (auto; lia). assert (TD : tb_depth B = N) by apply HT. rewrite TD. replace (_ <=? N) with true by lia.
    unfold concat_product. rewrite !(wkey_deg w N), !(wkey_idx w N) by (auto; lia). rewrite (power_at w N) by (auto; lia). cbn [bind].
    assert (Huv : letters_ok w (u ++ v)) by (apply letters_ok_app; auto). do 4 f_equal. unfold wkey. rewrite app_length. f_equal; [lia|].
    assert (W : 0 < w) by lia. rewrite idx_app by auto. assert (Q := idx_packs w N (u ++ v) HP Huv). rewrite app_length, idx_app in Q by auto. specialize (Q ltac:(lia)). destruct Q as [Q _].
    assert (Q2 := idx_bound w W v Hv). assert (Q3 := idx_bound w W u Hu). assert (Q4 := pow_pos w W (length v)).
    rewrite (u64_small (idx w u * w ^ Z.of_nat (length v))) by nia. rewrite u64_small by lia. reflexivity.
  Qed.
  Lemma gen_commutator_ok p p2 g g2 d d2 : wrep (inW d) p g -> wrep (inW d2) p2 g2 -> d + d2 <= N ->
    exists r, gen_commutator Ok L p p2 = Ok r /\ wrep (inW (d + d2)) r (@comm Zcr Z g g2).
  Proof.
    intros (q & -> & Hq & C) (q2 & -> & Hq2 & C2) Hd.
    assert (IJ : forall x y, inW (d + d2) x -> inW (d + d2) y -> wkey w x = wkey w y -> x = y) by (intros x y; apply inW_inj; auto).
    assert (D0 : forall e, In e q -> d = Z.of_nat (length (fst e))) by (intros e He; destruct (Hq e He); auto).
    assert (D2 : forall e, In e q2 -> d2 = Z.of_nat (length (fst e))) by (intros e He; destruct (Hq2 e He); auto).
    unfold gen_commutator. set (kk := fun e : list Z * Z => (wkey w (fst e), snd e)).
    set (body := fun (l r : Z * Z) tmp =>
        let! (p, _) := ft_mult B (fst l) (fst r) tt in
        let! tmp := for_ p tmp (fun inner tmp =>
          let! v := Ok (snd inner * snd l) in let! v := Ok (v * snd r) in m_upd Ok (fst inner) (fun y => y + v) tmp) in
        let! (p, _) := ft_mult B (fst r) (fst l) tt in
        for_ p tmp (fun inner tmp =>
          let! v := Ok (snd inner * snd r) in let! v := Ok (v * snd l) in m_upd Ok (fst inner) (fun y => y - v) tmp)).
    assert (X0 : forall e e2 m h, In e q -> In e2 q2 -> wrep (inW (d + d2)) m h -> srt m ->
      exists m', body (kk e) (kk e2) m = Ok m' /\ srt m' /\ wrep (inW (d + d2)) m' (fun x => h x + snd e * (snd e2 * (dlt (fst e ++ fst e2) x - dlt (fst e2 ++ fst e) x)))).
    { intros e e2 m h He He2 Rm Sm. destruct (Hq e He) as [Le Len]. destruct (Hq2 e2 He2) as [Le2 Len2]. unfold body, kk. cbn [fst snd]. rewrite ft_word by (auto; lia). cbn [bind for_ fst snd].
      assert (I1 : inW (d + d2) (fst e ++ fst e2)) by (split; [apply letters_ok_app; auto|rewrite app_length; lia]).
      assert (I2 : inW (d + d2) (fst e2 ++ fst e)) by (split; [apply letters_ok_app; auto|rewrite app_length; lia]).
      destruct (upd_ok _ weqb (wkey w) _ IJ m h (fst e ++ fst e2) (fun y => y + 1 * snd e * snd e2) (snd e * snd e2) Rm Sm I1 ltac:(intros; cbv beta; lia)) as (m1 & -> & S1 & R1). cbn [bind].
      rewrite ft_word by (auto; lia). cbn [bind for_ fst snd].
      destruct (upd_ok _ weqb (wkey w) _ IJ m1 _ (fst e2 ++ fst e) (fun y => y - 1 * snd e2 * snd e) (- (snd e * snd e2)) R1 S1 I2 ltac:(intros; cbv beta; lia)) as (m2 & -> & S2 & R2). cbn [bind].
      exists m2. split; [reflexivity|]. split; [auto|]. eapply rep_ext; [|exact R2]. intros x. cbv beta. unfold dlt. destruct (weqb (fst e ++ fst e2) x), (weqb (fst e2 ++ fst e) x); lia. }
    assert (X1 : forall e, In e q -> forall m h, wrep (inW (d + d2)) m h -> srt m ->
      exists m', for_ (map kk q2) m (body (kk e)) = Ok m' /\ srt m' /\ wrep (inW (d + d2)) m' (fun x => h x + snd e * zsum q2 (fun e2 => snd e2 * (dlt (fst e ++ fst e2) x - dlt (fst e2 ++ fst e) x)))).
    { intros e He. specialize (fun e2 m h => X0 e e2 m h He). clear Hq2 C2 D2. induction q2 as [|e2 q2' IH]; intros m h Rm Sm; cbn [map for_].
      - exists m. split; [reflexivity|]. split; [auto|]. eapply rep_ext; [|exact Rm]. intros x. cbn. lia.
      - destruct (X0 e2 m h (or_introl eq_refl) Rm Sm) as (m1 & -> & S1 & R1). cbn [bind].
        destruct (IH (fun x m h Hx => X0 x m h (or_intror Hx)) m1 _ R1 S1) as (m2 & -> & S2 & R2). exists m2. split; [auto|]. split; [auto|].
        eapply rep_ext; [|exact R2]. intros x. cbn. lia. }
    assert (X : forall m h, wrep (inW (d + d2)) m h -> srt m ->
      exists m', for_ (map kk q) m (fun l tmp => for_ (map kk q2) tmp (body l)) = Ok m' /\ srt m' /\
        wrep (inW (d + d2)) m' (fun x => h x + zsum q (fun e => snd e * zsum q2 (fun e2 => snd e2 * (dlt (fst e ++ fst e2) x - dlt (fst e2 ++ fst e) x))))).
    { clear X0 Hq C D0. induction q as [|e q' IH]; intros m h Rm Sm; cbn [map for_].
      - exists m. split; [reflexivity|]. split; [auto|]. eapply rep_ext; [|exact Rm]. intros x. cbn. lia.
      - destruct (X1 e (or_introl eq_refl) m h Rm Sm) as (m1 & -> & S1 & R1). cbn [bind].
        destruct (IH (fun x Hx => X1 x (or_intror Hx)) m1 _ R1 S1) as (m2 & -> & S2 & R2). exists m2. split; [auto|]. split; [auto|].
        eapply rep_ext; [|exact R2]. intros x. cbn. lia. }
    destruct (X [] _ (rep_nil _ weqb (wkey w) _) srt_nil) as (m' & E & _ & Rm). exists m'. split; [exact E|]. eapply rep_ext; [|exact Rm].
    intros x. cbv beta. unfold comm, tsub. rewrite (conv_ext Zcr Z g (wco q) g2 (wco q2)), (conv_ext Zcr Z g2 (wco q2) g (wco q)) by (intros z; auto). rewrite !conv_co.
    change (@rsub Zcr) with Z.sub. rewrite Z.add_0_l.
    transitivity (zsum q (fun e => snd e * zsum q2 (fun e2 => snd e2 * dlt (fst e ++ fst e2) x)) - zsum q (fun e => snd e * zsum q2 (fun e2 => snd e2 * dlt (fst e2 ++ fst e) x))).
    - rewrite <- (sum_sub Zcr). apply (sum_ext Zcr). intros e _. change (@rsub Zcr) with Z.sub. rewrite <- Z.mul_sub_distr_l. f_equal. rewrite <- (sum_sub Zcr). apply (sum_ext Zcr). intros e2 _. change (@rsub Zcr) with Z.sub. lia.
    - f_equal. transitivity (zsum q (fun e => zsum q2 (fun e2 => snd e * (snd e2 * dlt (fst e2 ++ fst e) x)))).
      + apply (sum_ext Zcr). intros e _. rewrite <- (sum_mul_l Zcr). reflexivity.
      + rewrite (sum_swap Zcr). apply (sum_ext Zcr). intros e2 _. rewrite <- (sum_mul_l Zcr). apply (sum_ext Zcr). intros e _. change (@rmul Zcr) with Z.mul. lia.
  Qed.

  (** *** Expansion *)
  Definition EZ (k : Z) : tens Zcr Z := texpand Zcr (tr UL UR k).
  Definition xinv (c : pcache) : Prop := forall k v, 1 <= k <= M -> HsModel.c_find c (UK k) = Some v -> wrep (inW (ug k)) v (EZ k).
  Lemma xinv_nil : xinv []. Proof. intros k v _ E. discriminate. Qed.
  Lemma xinv_add k v c : 1 <= k <= M -> xinv c -> wrep (inW (ug k)) v (EZ k) -> xinv ((UK k, v) :: c).
  Proof.
    intros Hk Hc Hv k' v' Hk' E. cbn [HsModel.c_find] in E. unfold k_eqb in E. rewrite (uk_eq w N L HC) in E by auto.
    destruct (Z.eqb_spec k k') as [<-|]; [injection E as <-; auto|auto].
  Qed.
  Lemma ug_letter k : 1 <= k <= w -> ug k = 1.
  Proof.
    intros Hk. apply (dg_eq _ _ _ _ _ _ (UH w Hw)); [assert (Z1 := UN_eq); lia|]. rewrite (hd_1 _ _ _ _ _ _ (UH w Hw)). change (1 + 1) with 2. rewrite (hd_2 _ _ _ _ _ _ (UH w Hw)). lia.
  Qed.
  Lemma UK_letter k : 1 <= k <= w -> UK k = mk_key 1 (k - 1).
  Proof. intros Hk. unfold LieTab.UK. rewrite ug_letter by auto. rewrite (hd_1 _ _ _ _ _ _ (UH w Hw)). reflexivity. Qed.
  Lemma ug_one k : 1 <= k <= M -> (ug k =? 1) = (k <=? w).
  Proof.
    intros Hk. destruct (Z.leb_spec k w); [rewrite ug_letter by lia; reflexivity|]. destruct (Z.eqb_spec (ug k) 1) as [E|]; [|reflexivity].
    destruct (dg_level _ _ _ _ _ _ (UH w Hw) k (M_UM w Hw N L HC k Hk)) as [_ D]. fold (ug k) in D. rewrite E in D. change (1 + 1) with 2 in D. rewrite (hd_2 _ _ _ _ _ _ (UH w Hw)) in D. lia.
  Qed.
  Lemma w_UM : w <= UM. Proof. assert (X := UM_pos w Hw N HN). assert (Y := nM_le w Hw N HN). lia. Qed.
  Lemma w_256 : w < 2 ^ 56. Proof. destruct HP as ((_ & A) & _). assert (2 ^ 31 < 2 ^ 56) by reflexivity. lia. Qed.
  Lemma EZ_letter x u : 0 <= x < w -> EZ (x + 1) u = dlt [x] u.
  Proof.
    intros Hx. unfold EZ. rewrite (tr_letter _ _ _ _ _ _ (UH w Hw)) by lia. cbn [texpand]. unfold dlt. destruct u as [|y [|z u]].
    - destruct (weqbP [x] []); [discriminate|reflexivity].
    - rewrite weqb_cons. destruct (weqbP [] []); [|congruence]. replace (x + 1 - 1) with x by lia. rewrite Z.eqb_sym, andb_true_r. reflexivity.
    - destruct (weqbP [x] (y :: z :: u)); [discriminate|reflexivity].
  Qed.
  Lemma EZ_node k : 1 <= k <= M -> w < k -> EZ k = comm (EZ (nL w N k)) (EZ (nR w N k)).
  Proof.
    intros Hk Hkw. unfold EZ. assert (U := M_UM w Hw N L HC k Hk). destruct (nLR w Hw N HN k ltac:(lia)) as [-> ->].
    destruct (dg_level _ _ _ _ _ _ (UH w Hw) k U) as [D1 D2]. fold (ug k) in D1, D2. assert (ug k <> 1) by (assert (X := ug_one k Hk); lia).
    rewrite (tr_node _ _ _ _ _ _ (UH w Hw) (ug k) k) by (auto; lia). reflexivity.
  Qed.
  Theorem expand_op_ok : forall fuel k c, 1 <= k <= M -> xinv c -> ug k <= Z.of_nat fuel ->
    exists v c', expand_op Ok L fuel (UK k) c = Ok (v, c') /\ xinv c' /\ wrep (inW (ug k)) v (EZ k).
  Proof.
    induction fuel as [|fuel IH]; intros k c Hk Hc Hf; [assert (X := ug_in w Hw N HN k Hk); lia|].
    cbn [expand_op]. destruct (HsModel.c_find c (UK k)) as [v|] eqn:Ec; [exists v, c; auto|].
    destruct (uk_read w N L HC k Hk) as [R1 R2]. rewrite R1, ug_one by auto. destruct (Z.leb_spec k w).
    - assert (W := w_256). rewrite R2, ug_letter by lia. rewrite (hd_1 _ _ _ _ _ _ (UH w Hw)). unfold expand_letter. rewrite (u64_small (k - 1 + 1)) by lia. replace (k - 1 + 1 - 1) with (k - 1) by lia.
      rewrite (u64_small (k - 1)) by lia. assert (Rv : wrep (inW (ug k)) [(mk_key 1 (k - 1), 1)] (EZ k)).
      { exists [([k - 1], 1)]. split; [|split].
        - cbn [map fst snd]. unfold wkey. cbn [length idx]. change (Z.of_nat 0) with 0. rewrite Z.pow_0_r. do 3 f_equal. lia.
        - intros e [<-|[]]. split; [constructor; [lia|constructor]|]. cbn. symmetry. apply ug_letter. lia.
        - intros u. rewrite co_cons. assert (EL := EZ_letter (k - 1) u ltac:(lia)). replace (k - 1 + 1) with k in EL by lia. rewrite EL. unfold dlt, co. cbn. lia. }
      assert (Rv1 := Rv). rewrite ug_letter in Rv1 by lia. eexists. eexists. split; [reflexivity|]. split; [|exact Rv1]. apply xinv_add; auto.
    - rewrite (uk_parents w N L HC k Hk) by lia. cbn [bind fst snd]. destruct (node_dg _ _ _ _ _ _ (nH w Hw N HN) k Hk ltac:(lia)) as (A1 & A2 & A3 & _).
      rewrite !(ng_eq w Hw N HN) in A3 by auto. assert (G1 := ug_in w Hw N HN _ A1). assert (G2 := ug_in w Hw N HN _ A2). assert (G := ug_in w Hw N HN k Hk).
      destruct (IH (nL w N k) c A1 Hc ltac:(lia)) as (a & c1 & -> & Hc1 & Ra). cbn [bind]. destruct (IH (nR w N k) c1 A2 Hc1 ltac:(lia)) as (b & c2 & -> & Hc2 & Rb). cbn [bind].
      destruct (gen_commutator_ok a b _ _ _ _ Ra Rb ltac:(lia)) as (v & -> & Rv). cbn [bind]. rewrite A3, <- EZ_node in Rv by (auto; lia).
      eexists. eexists. split; [reflexivity|]. split; [|exact Rv]. apply xinv_add; auto.
  Qed.
  Theorem expand_ok k c : 1 <= k <= M -> xinv c -> exists v c', expand Ok L (UK k) c = Ok (v, c') /\ xinv c' /\ wrep (inW (ug k)) v (EZ k).
  Proof.
    intros Hk Hc. unfold expand. apply expand_op_ok; auto. destruct (uk_read w N L HC k Hk) as [-> _]. assert (X := ug_in w Hw N HN k Hk). lia.
  Qed.

  (** *** Bracketing *)
  Fixpoint RB (u : list Z) : list (Z * Z) :=
    match u with
    | [] => []
    | x :: v => match v with [] => [(x + 1, 1)] | _ => flat_map (fun e => map (fun f => (fst f, snd e * snd f)) (UBR w (x + 1) (fst e))) (RB v) end
    end.
  Notation kco := (co Z Z.eqb).
  Notation krep := (rep Z Z.eqb UK).
  Lemma co_flat x q a : kco (flat_map (fun e : Z * Z => map (fun f => (fst f, snd e * snd f)) (UBR w x (fst e))) q) a = lz Z (fun k => ubr w x k a) q.
  Proof.
    unfold co, lz. rewrite (sum_flat_map Zcr). apply (sum_ext Zcr). intros e _. rewrite (sum_map Zcr). cbn [fst snd]. unfold ubr, co.
    change Z.mul with (@rmul Zcr). rewrite <- (sum_mul_l Zcr). apply (sum_ext Zcr). intros f _. change (@rmul Zcr) with Z.mul. destruct (fst f =? a); lia.
  Qed.
  Lemma RB_in u : letters_ok w u -> u <> [] -> Z.of_nat (length u) <= N -> forall e, In e (RB u) -> 1 <= fst e <= M /\ ug (fst e) = Z.of_nat (length u).
  Proof.
    assert (UM0 := UM_pos w Hw N HN).
    induction u as [|x u IH]; intros Hu Hne Hl; [congruence|]. inversion Hu as [|? ? Hx Hu']; subst. destruct u as [|y u].
    - intros e [<-|[]]. cbn [fst length]. rewrite ug_letter by lia. lia.
    - change (RB (x :: y :: u)) with (flat_map (fun e : Z * Z => map (fun f => (fst f, snd e * snd f)) (UBR w (x + 1) (fst e))) (RB (y :: u))).
      intros e He. apply in_flat_map in He. destruct He as (e1 & He1 & He). apply in_map_iff in He. destruct He as (f & <- & Hf). cbn [fst].
      rewrite zlen_cons in Hl |- *. destruct (IH Hu' ltac:(discriminate) ltac:(lia) e1 He1) as [K1 K2].
      assert (V : valid UN UM Udb (x + 1) (fst e1)). { apply (nv_uv w Hw N L HC). apply (nv_iff w Hw N L HC). rewrite ug_letter by lia. lia. }
      destruct (BR_keys _ _ _ _ _ _ (UH w Hw) _ _ V f Hf) as [X1 X2]. fold (ug (fst f)) in X2. fold (ug (x + 1)) in X2. fold (ug (fst e1)) in X2. rewrite (ug_letter (x + 1)) in X2 by lia.
      assert (U := ug_le w Hw N HN (fst f) X1). lia.
  Qed.
  Notation nonpending X u := (~ X u) (only parsing).
  Definition rinv (X : list Z -> Prop) (c : pcache) : Prop :=
    forall u v, letters_ok w u -> u <> [] -> Z.of_nat (length u) <= N -> ~ X u -> HsModel.c_find c (wkey w u) = Some v -> krep (inD w (Z.of_nat (length u))) v (kco (RB u)).
  Lemma rinv_nil X : rinv X []. Proof. intros u v _ _ _ _ E. discriminate. Qed.
  Lemma rinv_mark X u v c : letters_ok w u -> Z.of_nat (length u) <= N -> rinv X c -> rinv (fun x => X x \/ x = u) ((wkey w u, v) :: c).
  Proof.
    intros Hu Hl Hc u' v' Hu' Hne' Hl' HX E. cbn [HsModel.c_find] in E. unfold k_eqb in E. destruct (Z.eqb_spec (wkey w u) (wkey w u')) as [E'|].
    - apply (wkey_inj w N) in E'; auto. exfalso. apply HX. auto.
    - apply Hc; auto.
  Qed.
  Lemma rinv_set X u v c : letters_ok w u -> u <> [] -> Z.of_nat (length u) <= N -> rinv (fun x => X x \/ x = u) c -> krep (inD w (Z.of_nat (length u))) v (kco (RB u)) -> rinv X ((wkey w u, v) :: c).
  Proof.
    intros Hu Hne Hl Hc Hv u' v' Hu' Hne' Hl' HX E. cbn [HsModel.c_find] in E. unfold k_eqb in E. destruct (Z.eqb_spec (wkey w u) (wkey w u')) as [E'|Nk].
    - apply (wkey_inj w N) in E'; auto. subst u'. injection E as <-. auto.
    - apply Hc; auto. intros [A| ->]; auto.
  Qed.
  Theorem rbr_op_ok : forall fuel u (X : list Z -> Prop) (s : hcache * pcache), letters_ok w u -> u <> [] -> Z.of_nat (length u) <= N -> (length u <= fuel)%nat -> (forall x, X x -> (length u < length x)%nat) ->
    cinv w (fst s) -> rinv X (snd s) ->
    exists v s', rbr_op Ok L fuel (wkey w u) s = Ok (v, s') /\ cinv w (fst s') /\ rinv X (snd s') /\ krep (inD w (Z.of_nat (length u))) v (kco (RB u)).
  Proof.
    assert (UM0 := UM_pos w Hw N HN). assert (UM1 := w_UM).
    induction fuel as [|fuel IH]; intros u X [c rc] Hu Hne Hl Hf HX Hc Hr; [destruct u; [congruence|cbn in Hf; lia]|]. cbn [fst snd] in *.
    cbn [rbr_op]. rewrite (wkey_deg w N) by auto. replace (Z.of_nat (length u) =? 0) with false by (destruct u; [congruence|cbn; lia]). cbn [fst snd].
    destruct (HsModel.c_find rc (wkey w u)) as [v|] eqn:Ec.
    { exists v, (c, rc). split; [reflexivity|]. split; [auto|]. split; [auto|]. apply Hr; auto. intros XX. specialize (HX u XX). lia. }
    assert (Hm := rinv_mark X u [] rc Hu Hl Hr). unfold is_letter. rewrite (wkey_deg w N) by auto.
    destruct u as [|x u]; [congruence|]. inversion Hu as [|? ? Hx Hu']; subst. destruct u as [|y u].
    - change (Z.of_nat (length [x]) =? 1) with true. cbv iota. rewrite (wkey_idx w N) by auto.
      assert (Ei : idx w [x] = x) by (cbn [idx length]; change (Z.of_nat 0) with 0; rewrite Z.pow_0_r; lia). rewrite Ei.
      assert (Rv : krep (inD w (Z.of_nat (length [x]))) [(mk_key 1 x, 1)] (kco (RB [x]))).
      { exists [(x + 1, 1)]. split; [cbn [map fst snd]; rewrite UK_letter by lia; do 3 f_equal; lia|]. split; [|reflexivity]. intros e [<-|[]]. cbn [fst]. split; [lia|]. rewrite ug_letter by lia. reflexivity. }
      eexists. eexists. split; [reflexivity|]. split; [auto|]. split; [|exact Rv]. cbn [snd fst]. apply rinv_set; auto.
    - replace (Z.of_nat (length (x :: y :: u)) =? 1) with false by (cbn [length]; lia). destruct (lparent_ok w N B x (y :: u) HP HT Hu Hl) as [-> ->]. cbn [bind].
      rewrite zlen_cons in Hl. assert (Hl1 : Z.of_nat (length [x]) <= N) by (cbn [length]; lia).
      assert (LT : forall x0, (X x0 \/ x0 = x :: y :: u) -> (length (y :: u) < length x0)%nat). { intros x0 [A| ->]; [specialize (HX x0 A); cbn [length] in *; lia|cbn; lia]. }
      assert (LT1 : forall x0, (X x0 \/ x0 = x :: y :: u) -> (length [x] < length x0)%nat). { intros x0 A. specialize (LT x0 A). cbn [length] in *. lia. }
      destruct (IH [x] _ (c, (wkey w (x :: y :: u), []) :: rc) ltac:(constructor; auto; constructor) ltac:(discriminate) Hl1 ltac:(cbn [length] in *; lia) LT1 Hc Hm) as (a & [c1 rc1] & -> & Hc1 & Hr1 & Ra). cbn [bind fst snd] in *.
      destruct (IH (y :: u) _ (c1, rc1) Hu' ltac:(discriminate) ltac:(lia) ltac:(cbn [length] in *; lia) LT Hc1 Hr1) as (b & [c2 rc2] & -> & Hc2 & Hr2 & Rb). cbn [bind fst snd] in *.
      destruct (repD w Hw N L HC _ _ _ Ra Hl1) as (qa & -> & Hqa & Ca). destruct (repD w Hw N L HC _ _ _ Rb ltac:(lia)) as (qb & -> & Hqb & Cb).
      assert (IJ : forall p q, inD w (Z.of_nat (length (x :: y :: u))) p -> inD w (Z.of_nat (length (x :: y :: u))) q -> UK p = UK q -> p = q) by (intros p q; apply (inD_inj w Hw N L HC); rewrite zlen_cons; auto).
      destruct (p_mul_ok Z Z.eqb UK _ IJ (cinv w) (lie_mult Ok L) Z UK qa qb (fun i j => ubr w i j)) with (c := c2) as (v & c3 & E & Hc3 & _ & Rv).
      + intros e e2 He He2 c4 Hc4. destruct (Hqa e He) as [A1 A2]. destruct (Hqb e2 He2) as [B1 B2]. change (Z.of_nat (length [x])) with 1 in A2.
        destruct (lie_mult_ok w Hw N L HC (fst e) (fst e2) c4 A1 B1 ltac:(lia) Hc4) as (p & c5 & E5 & Hc5 & Rp). exists p, c5. split; [auto|]. split; [auto|].
        rewrite zlen_cons. replace (Z.of_nat (length (y :: u)) + 1) with (ug (fst e) + ug (fst e2)) by lia. auto.
      + auto.
      + rewrite E. cbn [bind]. assert (Rv' : krep (inD w (Z.of_nat (length (x :: y :: u)))) v (kco (RB (x :: y :: u)))).
        { eapply rep_ext; [|exact Rv]. intros k. cbv beta.
          change (RB (x :: y :: u)) with (flat_map (fun e : Z * Z => map (fun f => (fst f, snd e * snd f)) (UBR w (x + 1) (fst e))) (RB (y :: u))). rewrite co_flat.
          change (lz Z (fun i => zsum qb (fun e2 => snd e2 * ubr w i (fst e2) k)) qa = lz Z (fun j => ubr w (x + 1) j k) (RB (y :: u))).
          rewrite (lz_co Z Z.eqb Z.eqb_spec _ qa (RB [x]) Ca). cbn [RB]. rewrite lz_cons. change (lz Z _ []) with 0.
          change (1 * lz Z (fun j => ubr w (x + 1) j k) qb + 0 = lz Z (fun j => ubr w (x + 1) j k) (RB (y :: u))). rewrite (lz_co Z Z.eqb Z.eqb_spec _ qb (RB (y :: u)) Cb). lia. }
        eexists. eexists. split; [reflexivity|]. cbn [fst snd]. split; [auto|]. split; [|exact Rv']. apply rinv_set; auto. rewrite zlen_cons. auto.
  Qed.
  Notation noX := (fun _ : list Z => False).
  Theorem rbracketing_ok u s : letters_ok w u -> u <> [] -> Z.of_nat (length u) <= N -> cinv w (fst s) -> rinv noX (snd s) ->
    exists v s', rbracketing Ok L (wkey w u) s = Ok (v, s') /\ cinv w (fst s') /\ rinv noX (snd s') /\ krep (inD w (Z.of_nat (length u))) v (kco (RB u)).
  Proof.
    intros Hu Hne Hl Hc Hr. unfold rbracketing. apply rbr_op_ok; auto; [rewrite (wkey_deg w N) by auto; lia|intros x []].
  Qed.
  (** *** Over any ring *)
  Section Ring.
    Variable K : cring.
    Add Ring Kr3 : (rth K).
    Notation E k := (texpand K (tr UL UR k)).
    Lemma ubr_comm a b : valid UN UM Udb a b -> forall u, lf Z K (fun k => E k u) (UBR w a b) = comm (E a) (E b) u.
    Proof. intros V u. exact (BR_comm _ _ _ _ _ _ (UH w Hw) K a b V u). Qed.
    Lemma RB_rnorm u : letters_ok w u -> u <> [] -> Z.of_nat (length u) <= N -> forall x, lf Z K (fun k => E k x) (RB u) = rnorm K u x.
    Proof.
      assert (UM0 := UM_pos w Hw N HN).
      induction u as [|x u IH]; intros Hu Hne Hl z; [congruence|]. inversion Hu as [|? ? Hx Hu']; subst. destruct u as [|y u].
      - cbn [RB rnorm]. rewrite lf_cons. rewrite (tr_letter _ _ _ _ _ _ (UH w Hw)) by lia. change (zr K 1) with (@r1 K). unfold lf. cbn [sum]. ring.
      - change (rnorm K (x :: y :: u)) with (comm (texpand K (Leaf (x + 1))) (rnorm K (y :: u))).
        change (RB (x :: y :: u)) with (flat_map (fun e : Z * Z => map (fun f => (fst f, snd e * snd f)) (UBR w (x + 1) (fst e))) (RB (y :: u))).
        rewrite zlen_cons in Hl. rewrite <- (tr_letter _ _ _ _ _ _ (UH w Hw) (x + 1)) by lia.
        transitivity (comm (E (x + 1)) (fun v => lf Z K (fun k => E k v) (RB (y :: u))) z); [|apply comm_ext; intros v; [reflexivity|apply IH; auto; [discriminate|lia]]].
        unfold lf at 1. rewrite sum_flat_map. assert (Kin := RB_in (y :: u) Hu' ltac:(discriminate) ltac:(lia)).
        transitivity (sum (RB (y :: u)) (fun e => rmul (zr K (snd e)) (comm (E (x + 1)) (E (fst e)) z))).
        + apply sum_ext. intros e He. destruct (Kin e He) as [K1 K2]. rewrite sum_map. cbn [fst snd]. rewrite <- ubr_comm.
          * unfold lf. rewrite <- sum_mul_l. apply sum_ext. intros f _. rewrite zr_mul. ring.
          * apply (nv_uv w Hw N L HC). apply (nv_iff w Hw N L HC). rewrite ug_letter by lia. lia.
        + clear. induction (RB (y :: u)) as [|[k v] q IH]; cbn [sum].
          * rewrite (comm_anti _ _ (E (x + 1)) _ z). unfold tscal. rewrite (comm_ext (fun v => lf Z K (fun k => E k v) []) tzero (E (x + 1)) (E (x + 1))) by (intros v; reflexivity). rewrite (comm_zero_l _ _ (E (x + 1)) z). unfold tzero. ring.
          * rewrite IH. rewrite (comm_ext (E (x + 1)) (E (x + 1)) (fun v0 => lf Z K (fun k0 => E k0 v0) ((k, v) :: q)) (tadd (tscal (zr K v) (E k)) (fun v0 => lf Z K (fun k0 => E k0 v0) q))) by (intros v0; reflexivity).
            rewrite (comm_add_r _ _ _ _ (E (x + 1)) z). unfold tadd. rewrite (comm_scal_r _ _ _ _ (E (x + 1)) z). reflexivity.
    Qed.
  End Ring.
End Ctx.
