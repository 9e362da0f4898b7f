(** Vectors over the Hall basis: their brackets, and the maps to tensors and back. *)
From Coq Require Import ZArith List Bool Lia.
From Verif Require Import LieObjModel Alg Words Series Shuffle LalBasis LalFma LalTensor LhSpec ShufFma KeyProofs KeyProofs2 LhProofs HallModel HallSpec HallTab HallDim HallTrees HsProofs HsLemmas BracketModel BracketProofs BracketSem LieSpec L2tProofs Dynkin T2lLemmas L2tLemmas HallIndep LieTab LieBasis LieProd LieMult LieMaps.
Import ListNotations.
Open Scope Z_scope.

Section Vec.
  Variable R : qalg.
  Add Ring Rr : (rth R).
  Variables (w N : Z) (L : lctx).
  Hypothesis HC : ctx_ok w N L.
  Notation M := (nM w N). Notation H := (lc_h L). Notation B := (lc_t L). Notation n := (Z.to_nat N).
  Notation UK := (UK w). Notation ug := (ug w). Notation UL := (UL w). Notation UR := (UR w). Notation UM := (UM w). Notation Udb := (Udb w).
  Let Hw : 1 <= w := c_w w N L HC.
  Let HN : 1 <= N <= 254 := c_N w N L HC.
  Let HP : packs w N := c_packs w N L HC.
  Let HT : tb_ok w N B := c_tb w N L HC.
  Notation tensor := (tens R Z).
  Notation E k := (texpand R (tr UL UR k)).
  Notation tr_ := (trunc R w n).

  (** The element with given coordinates *)
  Definition lval (c : Z -> R) : tensor := fun u => sum (zrange M) (fun i => rmul (c i) (E (i + 1) u)).
  Lemma lval_ext c c' : (forall i, 0 <= i < M -> c i = c' i) -> forall u, lval c u = lval c' u.
  Proof. intros Ec u. apply sum_ext. intros i Hi. apply zrange_In in Hi. rewrite Ec by auto. reflexivity. Qed.
  Lemma tdeg_ug k : 1 <= k <= M -> tdeg (tr UL UR k) = ug k.
  Proof. intros Hk. assert (U := M_UM w Hw N L HC k Hk). destruct (dg_level _ _ _ _ _ _ (UH w Hw) k U) as [D1 D2]. apply (tr_deg _ _ _ _ _ _ (UH w Hw)); auto. Qed.
  Lemma E_len k u : 1 <= k <= M -> Z.of_nat (length u) <> ug k -> E k u = r0.
  Proof. intros Hk Hl. apply (homog_texpand R (tr UL UR k)). rewrite (tdeg_ug k) by auto. assert (X := ug_in w Hw N HN k Hk). lia. Qed.
  Lemma E_off k u : 1 <= k <= M -> inside w n u = false -> E k u = r0.
  Proof.
    intros Hk Hi. destruct (texpand_off R w (tr UL UR k)) with (u := u) as [X|X]; auto; [apply (tr_hall _ _ _ _ _ _ (UH w Hw)); apply (M_UM w Hw N L HC); auto|].
    apply E_len; auto. intros Hl. assert (G := ug_in w Hw N HN k Hk). assert (inside w n u = true) by (apply inside_iff; split; [exact X|lia]). congruence.
  Qed.
  Lemma lval_out c u : inside w n u = false -> lval c u = r0.
  Proof. intros Hu. apply sum_zero. intros i Hi. apply zrange_In in Hi. rewrite (E_off (i + 1)) by (auto; lia). ring. Qed.
  Lemma lval_tr c u : tr_ (lval c) u = lval c u.
  Proof. unfold trunc. destruct (inside w n u) eqn:Hu; [reflexivity|]. symmetry. apply lval_out; auto. Qed.
  Lemma lval_nil c : lval c [] = r0.
  Proof. apply sum_zero. intros i Hi. apply zrange_In in Hi. assert (G := ug_in w Hw N HN (i + 1) ltac:(lia)). rewrite (E_len (i + 1) []) by (cbn [length]; lia). ring. Qed.
  Lemma zrange_shift m : zseq 1 (Z.to_nat m) = map (fun i => i + 1) (zrange m).
  Proof. unfold zrange. generalize (Z.to_nat m). intros k. change 1 with (0 + 1) at 1. generalize 0. induction k as [|k IH]; intros s; [reflexivity|]. cbn [zseq map]. f_equal. apply IH. Qed.
  Lemma lval_zero c : (forall u, lval c u = r0) -> forall i, 0 <= i < M -> c i = r0.
  Proof.
    intros Hz i Hi. assert (MP := c_Mpos w N L HC).
    assert (X := data_independent R w N M (ndb w N) (nL w N) (nR w N) (nH w Hw N HN) (fun h => c (h - 1)) ltac:(lia)).
    replace i with (i + 1 - 1) by lia. apply X. 2:lia.
    intros u Hu Hl. rewrite zrange_shift, sum_map. rewrite <- (Hz u). apply sum_ext. intros j Hj. apply zrange_In in Hj. rewrite (ntr w Hw N HN) by lia. replace (j + 1 - 1) with j by lia. reflexivity.
  Qed.
  Lemma lval_add a b u : lval (fun i => radd (a i) (b i)) u = radd (lval a u) (lval b u).
  Proof. unfold lval. rewrite <- sum_add. apply sum_ext. intros; ring. Qed.
  Lemma lval_scal a s u : lval (fun i => rmul (a i) s) u = rmul (lval a u) s.
  Proof. unfold lval. rewrite <- sum_mul_r. apply sum_ext. intros; ring. Qed.
  Lemma lval_opp a u : lval (fun i => ropp (a i)) u = ropp (lval a u).
  Proof. transitivity (rmul (lval a u) (ropp r1)); [|ring]. rewrite <- lval_scal. apply lval_ext. intros; ring. Qed.
  Lemma lval_sub a b u : lval (fun i => rsub (a i) (b i)) u = rsub (lval a u) (lval b u).
  Proof. transitivity (radd (lval a u) (lval (fun i => ropp (b i)) u)); [rewrite <- lval_add; apply lval_ext; intros; ring|]. rewrite lval_opp. ring. Qed.
  Lemma lval_inj a b : (forall u, lval a u = lval b u) -> forall i, 0 <= i < M -> a i = b i.
  Proof.
    intros Hab i Hi. assert (X := lval_zero (fun i => rsub (a i) (b i))). cbv beta in X. assert (Y : rsub (a i) (b i) = r0) by (apply X; auto; intros u; rewrite lval_sub, Hab; ring).
    transitivity (radd (rsub (a i) (b i)) (b i)); [ring|]. rewrite Y. ring.
  Qed.
  Lemma lval_prim c : primitive n (lval c).
  Proof.
    unfold lval. induction (zrange M) as [|i l IH]; cbn [sum]; [apply primitive_zero|]. apply (primitive_add R Z n (tscal (c i) (E (i + 1))) (fun u => sum l (fun i => rmul (c i) (E (i + 1) u)))); [|exact IH].
    apply primitive_scal, texpand_primitive.
  Qed.
  (** coefficients given by a list of rows *)
  Lemma lf_lval q (u : list Z) : (forall e, In e q -> 1 <= fst e <= M) -> lf Z R (fun k => E k u) q = lval (fun i => zr R (co Z Z.eqb q (i + 1))) u.
  Proof.
    intros Hq. rewrite (lf_sum Z Z.eqb Z.eqb_spec R (fun k => E k u) q (zseq 1 (Z.to_nat M))); [|apply zseq_NoDup|].
    - rewrite zrange_shift, sum_map. reflexivity.
    - intros k Hk. apply in_map_iff in Hk. destruct Hk as (e & <- & He). apply zseq_In. specialize (Hq e He). lia.
  Qed.

  (** *** Storage of Lie elements *)
  Section Lie.
    Variables (X : Type) (OL : vops R X) (lok : X -> Prop) (lcf : X -> Z -> R) (lbnd : X -> Z -> Prop).
    Hypothesis GL : vgood R X OL (vb_depth (hall_vb L)) M (lkey w) lok lcf lbnd.
    Notation HB := (hall_basis_ok w N L HC).
    Lemma vd : vb_depth (hall_vb L) = N. Proof. exact (c_depth w N L HC). Qed.

    (** the bracket *)
    Definition St (i j m : Z) : R := if ug (i + 1) + ug (j + 1) <=? N then zr R (ubr w (i + 1) (j + 1) (m + 1)) else r0.
    Lemma St_comm i j u : 0 <= i < M -> 0 <= j < M -> inside w n u = true -> sum (zrange M) (fun m => rmul (St i j m) (E (m + 1) u)) = comm (E (i + 1)) (E (j + 1)) u.
    Proof.
      intros Hi Hj Hu. unfold St. destruct (Z.leb_spec (ug (i + 1) + ug (j + 1)) N) as [Hd|Hd].
      - rewrite <- (ubr_comm w N L HC R (i + 1) (j + 1)).
        + symmetry. apply lf_lval. intros e He. assert (V : valid UN UM Udb (i + 1) (j + 1)) by (apply (nv_uv w Hw N L HC), (nv_iff w Hw N L HC); lia).
          destruct (BR_keys _ _ _ _ _ _ (UH w Hw) _ _ V e He) as [X1 X2]. assert (X3 := ug_le w Hw N HN (fst e) X1). fold (ug (fst e)) (ug (i + 1)) (ug (j + 1)) in X2. lia.
        + apply (nv_uv w Hw N L HC), (nv_iff w Hw N L HC). lia.
      - rewrite sum_zero by (intros; ring). symmetry. apply inside_iff in Hu. destruct Hu as [_ Hl].
        apply (homog_comm R (Z.to_nat (ug (i + 1))) (Z.to_nat (ug (j + 1)))).
        + rewrite <- (tdeg_ug (i + 1)) by lia. apply homog_texpand.
        + rewrite <- (tdeg_ug (j + 1)) by lia. apply homog_texpand.
        + assert (G1 := ug_in w Hw N HN (i + 1) ltac:(lia)). assert (G2 := ug_in w Hw N HN (j + 1) ltac:(lia)). lia.
    Qed.
    Lemma comm_lval a b u : comm (lval a) (lval b) u = sum (zrange M) (fun i => sum (zrange M) (fun j => rmul (rmul (a i) (b j)) (comm (E (i + 1)) (E (j + 1)) u))).
    Proof.
      assert (C1 : forall l (c : Z -> R) (x : tensor), comm (fun v => sum l (fun i => rmul (c i) (E (i + 1) v))) x u = sum l (fun i => rmul (c i) (comm (E (i + 1)) x u))).
      { intros l c x. induction l as [|i l IH]; cbn [sum].
        - rewrite (comm_ext (fun v => r0) tzero x x) by (intros v; reflexivity). apply comm_zero_l.
        - rewrite <- IH. rewrite (comm_ext _ (tadd (tscal (c i) (E (i + 1))) (fun v => sum l (fun i => rmul (c i) (E (i + 1) v)))) x x) by (intros v; reflexivity).
          rewrite (comm_add_l R _ _ _ _ u). unfold tadd. rewrite (comm_scal_l R _ _ _ _ u). reflexivity. }
      unfold lval at 1. rewrite C1. apply sum_ext. intros i _. rewrite (comm_anti R _ (E (i + 1)) (lval b) u). unfold tscal. unfold lval. rewrite C1. rewrite <- !sum_mul_l. apply sum_ext. intros j _.
      rewrite (comm_anti R _ (E (j + 1)) (E (i + 1)) u). unfold tscal. ring.
    Qed.
    Lemma lmul_ok x y c : lok x -> lok y -> cinv w c -> exists z c', op_mul R X OL (lc_depth L) hcache (base_fma R X OL (lc_depth L) hcache (lie_mult Ok L)) x y c = Ok (z, c') /\ lok z /\ cinv w c' /\
      forall u, lval (lcf z) u = tr_ (comm (lval (lcf x)) (lval (lcf y))) u.
    Proof.
      intros Hx Hy Hc. unfold op_mul. destruct (g_new _ _ _ _ _ _ _ _ _ GL) as (N1 & N2 & N3 & N4).
      assert (Z0 : forall z, (forall i, 0 <= i < M -> lcf z i = r0) -> forall u, lval (lcf z) u = r0).
      { intros z Hz u. apply sum_zero. intros i Hi. apply zrange_In in Hi. rewrite Hz by auto. ring. }
      destruct (negb (vo_empty OL x) && negb (vo_empty OL y)) eqn:Em.
      - assert (G := mixed_fma_ok R X X OL OL (hall_vb L) (hall_vb L) M M (lkey w) (lkey w) (lcnt w) (lcnt w) HB HB lok lcf lbnd lok lcf lbnd GL GL (Z.le_refl _) hcache (lie_mult Ok L) (cinv w) St).
        destruct G with (P := fun _ : X => True) (Q := fun _ : X => True) (out := vo_new OL) (lhs := x) (rhs := y) (fn := fun x : R => x) (c := c) as (z & c' & Ez & Oz & Ic & _ & _ & Cz); auto.
        + intros i j c0 Hi Hj Hd Hc0. rewrite !(lkey_deg w N L HC), vd in Hd by auto.
          destruct (lie_mult_ok w Hw N L HC (i + 1) (j + 1) c0 ltac:(lia) ltac:(lia) Hd Hc0) as (p & c' & Em' & Hc' & (q & -> & Hq & Cq)).
          exists (map (fun e : Z * Z => (fst e - 1, snd e)) q), c'. unfold lkey. rewrite Em'. split; [|split; [auto|split]].
          * rewrite map_map. cbn [fst snd]. do 2 f_equal. apply map_ext. intros e. replace (fst e - 1 + 1) with (fst e) by lia. reflexivity.
          * intros e He. apply in_map_iff in He. destruct He as (f & <- & Hf). cbn [fst snd]. specialize (Hq f Hf). assert (Mf := inD_M w Hw N L HC _ _ Hq Hd). split; [lia|].
            fold (lkey w (fst f - 1)) (lkey w i) (lkey w j). rewrite !(lkey_deg w N L HC) by lia. replace (fst f - 1 + 1) with (fst f) by lia. apply Hq.
          * intros m Hm. rewrite sum_map. cbn [fst snd]. unfold St. replace (ug (i + 1) + ug (j + 1) <=? N) with true by lia. rewrite <- Cq. unfold co. rewrite zr_sum. apply sum_ext. intros e _.
            replace (fst e - 1 =? m) with (fst e =? m + 1) by lia. destruct (fst e =? m + 1); [apply rz_zr|reflexivity].
        + intros i j m Hi Hj Hm Hd. rewrite !(lkey_deg w N L HC), vd in Hd by auto. unfold St. replace (ug (i + 1) + ug (j + 1) <=? N) with false by lia. reflexivity.
        + apply N3. destruct (g_degree _ _ _ _ _ _ _ _ _ GL x Hx) as [D1 _]. destruct (g_degree _ _ _ _ _ _ _ _ _ GL y Hy) as [D2 _]. assert (XD := vd). lia.
        + exists z, c'. split; [exact Ez|]. split; [auto|]. split; [auto|]. intros u. unfold trunc. destruct (inside w n u) eqn:Hu; [|apply lval_out; auto].
          rewrite comm_lval. unfold lval.
          transitivity (sum (zrange M) (fun m => sum (zrange M) (fun i => sum (zrange M) (fun j => rmul (rmul (lcf x i) (lcf y j)) (rmul (St i j m) (E (m + 1) u)))))).
          * apply sum_ext. intros m Hm. apply zrange_In in Hm. rewrite Cz, N2 by auto. transitivity (rmul (sum (zrange M) (fun i => sum (zrange M) (fun j => rmul (St i j m) (rmul (lcf x i) (lcf y j))))) (E (m + 1) u)); [ring|].
            rewrite <- sum_mul_r. apply sum_ext. intros i _. rewrite <- sum_mul_r. apply sum_ext. intros; ring.
          * rewrite sum_swap. apply sum_ext. intros i Hi. apply zrange_In in Hi. rewrite sum_swap. apply sum_ext. intros j Hj. apply zrange_In in Hj. rewrite sum_mul_l, St_comm by auto. reflexivity.
      - exists (vo_new OL), c. split; [reflexivity|]. split; [auto|]. split; [auto|]. intros u. rewrite (Z0 _ N2). unfold trunc. destruct (inside w n u); [|reflexivity]. symmetry.
        rewrite comm_lval. apply sum_zero. intros i Hi. apply zrange_In in Hi. apply sum_zero. intros j Hj. apply zrange_In in Hj.
        destruct (vo_empty OL x) eqn:Ex; [rewrite (g_empty _ _ _ _ _ _ _ _ _ GL x Hx Ex i Hi); ring|]. destruct (vo_empty OL y) eqn:Ey; [rewrite (g_empty _ _ _ _ _ _ _ _ _ GL y Hy Ey j Hj); ring|discriminate].
    Qed.

    (** the given data *)
    Lemma lconstruct_ok keys data :
      match keys with None => True | Some ks => length ks = length data /\ Forall (fun i => 0 <= i < M) ks end ->
      exists v, lie_construct R L OL keys data = Ok v /\ lok v /\ forall i, 0 <= i < M -> lcf v i = match keys with
        | None => nth (Z.to_nat i) data r0
        | Some ks => fold_left (fun acc e => if fst e =? i then snd e else acc) (firstn (Z.to_nat M) (combine ks data)) r0 end.
    Proof.
      intros Hk. unfold lie_construct. rewrite (c_size w N L HC). cbn [bind]. assert (MP := c_Mpos w N L HC).
      set (size := Z.min (Z.of_nat (length data)) M).
      set (put := fun (i : Z) (acc : R) (e : Z * R) => if fst e =? i then snd e else acc).
      set (part := fun (m : nat) (i : Z) => match keys with
          | None => if i <? Z.of_nat m then nth (Z.to_nat i) data r0 else r0
          | Some ks => fold_left (put i) (firstn m (combine ks data)) r0 end).
      destruct (for_inv (fun done v => lok v /\ forall i, 0 <= i < M -> lcf v i = part (length done) i) (zrange size) (vo_new OL)
        (fun i r => let! k := match keys with Some ks => vb_key (hall_vb L) (nth (Z.to_nat i) ks 0) | None => vb_key (hall_vb L) i end in
                    vo_upd OL r k (fun _ => nth (Z.to_nat i) data r0))) as (v & Ev & Fv & Cv).
      - destruct (g_new _ _ _ _ _ _ _ _ _ GL) as (A & C & _). split; [auto|]. intros i Hi. rewrite C by auto. subst part. cbv beta. destruct keys as [ks|]; [reflexivity|]. cbn [length]. change (Z.of_nat 0) with 0.
        destruct (Z.ltb_spec i 0); [lia|reflexivity].
      - intros done i rest r Ei [Fr Cr]. apply zrange_split in Ei. destruct Ei as [Ei Hi].
        set (p := match keys with Some ks => nth (Z.to_nat i) ks 0 | None => i end).
        assert (Hp : 0 <= p < M).
        { subst p. destruct keys as [ks|]; [|lia]. destruct Hk as [Hl Hf]. rewrite Forall_forall in Hf. apply Hf, nth_In. lia. }
        assert (Ek : match keys with Some ks => vb_key (hall_vb L) (nth (Z.to_nat i) ks 0) | None => vb_key (hall_vb L) i end = Ok (lkey w p)).
        { transitivity (vb_key (hall_vb L) p); [subst p; destruct keys; reflexivity|]. apply (c_key w N L HC); auto. }
        rewrite Ek. cbn [bind].
        destruct (g_upd _ _ _ _ _ _ _ _ _ GL r p (fun _ => nth (Z.to_nat i) data r0) Fr Hp) as (r' & E' & Fr' & Cr' & _).
        exists r'. split; [exact E'|]. split; [auto|]. intros j Hj. rewrite Cr', Cr by auto.
        rewrite app_length. cbn [length]. rewrite Nat.add_1_r. subst part. cbv beta. subst p. destruct keys as [ks|].
        + destruct Hk as [Hl _]. assert (Hn : (length done < length (combine ks data))%nat) by (rewrite combine_length; lia).
          rewrite (LhProofs.firstn_S_nth _ _ (0, r0)) by exact Hn. rewrite fold_left_app. cbn [fold_left]. unfold put at 2.
          rewrite combine_nth by auto. cbn [fst snd]. replace (length done) with (Z.to_nat i) by lia. rewrite Z.eqb_sym. destruct (nth (Z.to_nat i) ks 0 =? j); reflexivity.
        + destruct (Z.eqb_spec j i) as [->|].
          * destruct (Z.ltb_spec i (Z.of_nat (S (length done)))); [reflexivity|lia].
          * destruct (Z.ltb_spec j (Z.of_nat (length done))), (Z.ltb_spec j (Z.of_nat (S (length done)))); try lia; reflexivity.
      - exists v. split; [exact Ev|]. split; [auto|]. intros i Hi. rewrite Cv by auto. subst part. cbv beta.
        assert (Lz : length (zrange size) = Z.to_nat size) by (unfold zrange; generalize 0; induction (Z.to_nat size); intros; cbn [zseq length]; auto).
        rewrite Lz. destruct keys as [ks|].
        + destruct Hk as [Hl _]. f_equal. destruct (Z_le_gt_dec (Z.of_nat (length data)) M).
          * rewrite !firstn_all2; [reflexivity| |]; rewrite combine_length; lia.
          * f_equal. lia.
        + destruct (Z.ltb_spec i (Z.of_nat (Z.to_nat size))); [reflexivity|]. rewrite nth_overflow; [reflexivity|]. lia.
    Qed.

    (** *** The maps *)
    Variables (OT : vops R X) (fma : X -> X -> X -> (R -> R) -> Z -> unit -> outcome (X * unit)) (rtd : X -> Z -> outcome X) (fr st : X -> Prop) (tcf : X -> list Z -> R).
    Hypothesis T : tgood R X OT fma rtd w n fr st tcf.
    Definition minv (m : mcache) : Prop := cinv w (mc_lie m) /\ xinv w N (mc_exp m) /\ rinv w N (fun _ => False) (mc_rbr m).
    Lemma tasp q s : (forall e, In e q -> inside w n (fst e) = true) -> forall out, fr out ->
      exists out', asp_helper R X OT out (map (fun e : list Z * Z => (wkey w (fst e), snd e)) q) s = Ok out' /\ fr out' /\
        forall u, tcf out' u = radd (tcf out u) (rmul (zr R (co (list Z) weqb q u)) s).
    Proof.
      unfold asp_helper. induction q as [|e q IH]; intros Hq out Ho; cbn [map for_].
      - exists out. split; [reflexivity|]. split; [auto|]. intros u. change (zr R (co (list Z) weqb [] u)) with (@r0 R). ring.
      - cbn [fst snd]. destruct (t_word _ _ _ _ _ _ _ _ _ _ T out (fst e) (fun x => radd x (rmul (rz R (snd e)) s)) (t_sub _ _ _ _ _ _ _ _ _ _ T _ Ho) (Hq e (or_introl eq_refl))) as (o1 & E1 & F1 & C1).
        rewrite E1. cbn [bind]. destruct (IH (fun x Hx => Hq x (or_intror Hx)) o1 F1) as (o2 & E2 & F2 & C2). exists o2. split; [exact E2|]. split; [auto|]. intros u. rewrite C2, C1.
        destruct e as [v z]. rewrite co_cons, zr_add. cbn [fst snd] in *. unfold weqb. destruct (list_eq_dec Z.eq_dec u v) as [->|Hne].
        + destruct (list_eq_dec Z.eq_dec v v); [|congruence]. rewrite rz_zr. ring.
        + destruct (list_eq_dec Z.eq_dec v u); [congruence|]. change (zr R 0) with (@r0 R). ring.
    Qed.
    Theorem l2t_ok a m : lok a -> minv m -> exists t m', l2t R Ok L OL OT a m = Ok (t, m') /\ minv m' /\ fr t /\ forall u, tcf t u = lval (lcf a) u.
    Proof.
      intros Ha Hm. unfold l2t. destruct (g_items _ _ _ _ _ _ _ _ _ GL a Ha) as (l & -> & Il & Sl & _ & Cl). cbn [bind].
      destruct (t_new _ _ _ _ _ _ _ _ _ _ T) as (F0 & C0 & _).
      set (body := fun (outer : Z * R) (s : X * mcache) => let '(result, m) := s in
        let! (p, e) := expand Ok L (fst outer) (mc_exp m) in let! result := asp_helper R X OT result p (snd outer) in Ok (result, mkMC (mc_lie m) e (mc_rbr m))).
      assert (G : forall l0 r0' m0, (forall e, In e l0 -> 0 <= fst e < M) -> fr r0' -> minv m0 -> exists r1' m1, for_ (map (fun e : Z * R => (lkey w (fst e), snd e)) l0) (r0', m0) body = Ok (r1', m1) /\ fr r1' /\ minv m1 /\
         forall u, tcf r1' u = radd (tcf r0' u) (sum l0 (fun e => rmul (snd e) (E (fst e + 1) u)))).
      { clear l Il Sl Cl. induction l0 as [|e l IH]; intros r0' m0 Hl Fr Im; cbn [map for_ sum].
        - exists r0', m0. split; [reflexivity|]. split; [auto|]. split; [auto|]. intros u. ring.
        - unfold body at 1. cbn [fst snd]. destruct Im as (I1 & I2 & I3). specialize (Hl e (or_introl eq_refl)) as He. unfold lkey at 1.
          destruct (expand_ok w N L HC (fst e + 1) (mc_exp m0) ltac:(lia) I2) as (v & c' & -> & Ic & (q & -> & Hq & Cq)). cbn [bind].
          destruct (tasp q (snd e)) with (out := r0') as (r1' & E1 & F1 & C1); auto.
          { intros f Hf. specialize (Hq f Hf). destruct Hq as [Q1 Q2]. apply inside_iff. split; [auto|]. assert (Gu := ug_in w Hw N HN (fst e + 1) ltac:(lia)). lia. }
          rewrite E1. cbn [bind]. destruct (IH r1' (mkMC (mc_lie m0) c' (mc_rbr m0)) (fun x Hx => Hl x (or_intror Hx)) F1) as (r2 & m2 & E2 & F2 & I2' & C2); [repeat split; auto|].
          exists r2, m2. split; [exact E2|]. split; [auto|]. split; [auto|]. intros u. rewrite C2, C1, Cq. unfold EZ. rewrite zr_texpand. ring. }
      destruct (G l (vo_new OT) m Il F0 Hm) as (t & m' & Et & Ft & It & Ct). exists t, m'. split; [exact Et|]. split; [auto|]. split; [auto|].
      intros u. rewrite Ct, C0. unfold lval. transitivity (sum l (fun e => rmul (snd e) (E (fst e + 1) u))); [ring|].
      apply (items_sum R l M (lcf a) (fun i x => rmul x (E (i + 1) u))); auto. intros; ring.
    Qed.

    (** The Dynkin map *)
    Definition dyn (x : tensor) : tensor := fun v => sum (words_upto w N) (fun u => rmul (x u) (rmul (qinv (length u)) (rnorm R u v))).
    Lemma lasp q s d : d <= N -> (forall e, In e q -> inD w d (fst e)) -> forall out, lok out -> lbnd out N ->
      exists out', asp_helper R X OL out (map (fun e : Z * Z => (UK (fst e), snd e)) q) s = Ok out' /\ lok out' /\ lbnd out' N /\
        forall i, 0 <= i < M -> lcf out' i = radd (lcf out i) (rmul (zr R (co Z Z.eqb q (i + 1))) s).
    Proof.
      intros Hd Hq out Ho Hb.
      destruct (asp2_ok R X OL (hall_vb L) M (lkey w) (lcnt w) HB lok lcf lbnd GL (fun _ => True) (fun _ => True) (fun _ _ _ _ _ _ _ _ => I) (fun _ _ => I) (map (fun e : Z * Z => (fst e - 1, snd e)) q) s N) with (out := out) as (o & Eo & Oo & Bo & _ & _ & Co); auto.
      - intros e He. apply in_map_iff in He. destruct He as (f & <- & Hf). cbn [fst]. specialize (Hq f Hf). assert (X1 := inD_M w Hw N L HC _ _ Hq Hd). split; [lia|].
        rewrite (lkey_deg w N L HC) by lia. replace (fst f - 1 + 1) with (fst f) by lia. destruct Hq as [_ ->]. auto.
      - rewrite vd. lia.
      - exists o. split; [|split; [auto|split; [auto|]]].
        + rewrite <- Eo. f_equal. rewrite map_map. apply map_ext. intros e. cbn [fst snd]. unfold lkey. replace (fst e - 1 + 1) with (fst e) by lia. reflexivity.
        + intros i Hi. rewrite Co by auto. f_equal. f_equal. rewrite sum_map. unfold co. rewrite zr_sum. apply sum_ext. intros e _. cbn [fst snd]. replace (fst e - 1 =? i) with (fst e =? i + 1) by lia.
          destruct (fst e =? i + 1); [apply rz_zr|reflexivity].
    Qed.
    Lemma words_upto_In u : In u (words_upto w N) <-> letters_ok w u /\ u <> [] /\ (length u <= n)%nat.
    Proof.
      unfold words_upto. rewrite in_flat_map. split.
      - intros (k & Hk & Hu). apply in_seq in Hk. apply all_words_ok in Hu. destruct Hu as [A Bu]. split; [auto|]. split; [intros ->; cbn in Bu; lia|lia].
      - intros (A & Bu & C). exists (length u). split; [apply in_seq; destruct u; [congruence|cbn [length] in *; lia]|].
        assert (D : In (idx w u) (map (idx w) (all_words w (length u)))). { rewrite all_words_idx by lia. apply zrange_In. apply idx_bound; auto. lia. }
        apply in_map_iff in D. destruct D as (v & Ev & Hv). destruct (all_words_ok _ _ _ Hv) as [V1 V2]. assert (v = u); [|subst; auto]. eapply idx_inj; eauto. lia.
    Qed.
    Lemma sum_upto (F : list Z -> R) u : letters_ok w u -> u <> [] -> (length u <= n)%nat -> sum (words_upto w N) (fun v => if list_eq_dec Z.eq_dec u v then F v else r0) = F u.
    Proof.
      intros Hu Hne Hl. unfold words_upto. rewrite sum_flat_map. rewrite (sum_single R _ _ (length u)); [|apply seq_NoDup|apply in_seq; destruct u; [congruence|cbn [length] in *; lia]|].
      - rewrite (sum_words_single R w (length u) u); auto.
        + destruct (list_eq_dec Z.eq_dec u u); [reflexivity|congruence].
        + intros v _ Hv. destruct (list_eq_dec Z.eq_dec u v); [congruence|reflexivity].
      - intros k Hk Hne'. apply sum_zero. intros v Hv. apply all_words_ok in Hv. destruct (list_eq_dec Z.eq_dec u v) as [->|]; [lia|reflexivity].
    Qed.
    Theorem t2l_ok t m : st t -> minv m -> exists a m', t2l R Ok L OL OT t m = Ok (a, m') /\ minv m' /\ lok a /\ forall v, lval (lcf a) v = dyn (tcf t) v.
    Proof.
      intros Ht Hm. unfold t2l. destruct (t_items _ _ _ _ _ _ _ _ _ _ T t Ht) as (l & -> & Il & _ & Cl). cbn [bind].
      destruct (g_new _ _ _ _ _ _ _ _ _ GL) as (N1 & N2 & N3 & _).
      set (body := fun (outer : Z * R) (s : X * mcache) => let '(result, m) := s in let deg := k_degree (fst outer) in
        if deg >? 0 then let! (p, lr) := rbracketing Ok L (fst outer) (mc_lie m, mc_rbr m) in
          let! result := asp_helper R X OL result p (rmul (snd outer) (qinv (Z.to_nat deg))) in Ok (result, mkMC (fst lr) (mc_exp m) (snd lr)) else Ok (result, m)).
      set (tm := fun (e : list Z * R) (v : list Z) => match fst e with [] => r0 | _ => rmul (snd e) (rmul (qinv (length (fst e))) (rnorm R (fst e) v)) end).
      assert (G : forall l0 x0 m0, (forall e, In e l0 -> inside w n (fst e) = true) -> lok x0 -> lbnd x0 N -> minv m0 -> exists x1 m1, for_ (map (fun e : list Z * R => (wkey w (fst e), snd e)) l0) (x0, m0) body = Ok (x1, m1) /\ lok x1 /\ minv m1 /\
         forall v, lval (lcf x1) v = radd (lval (lcf x0) v) (sum l0 (fun e => tm e v))).
      { clear l Il Cl. induction l0 as [|e l IH]; intros x0 m0 Hl Ox Bx Im; cbn [map for_ sum].
        - exists x0, m0. split; [reflexivity|]. split; [auto|]. split; [auto|]. intros u. ring.
        - unfold body at 1. cbn [fst snd]. destruct Im as (I1 & I2 & I3). assert (He := Hl e (or_introl eq_refl)). apply inside_iff in He. destruct He as [He1 He2].
          rewrite (wkey_deg w N) by (auto; lia). unfold tm at 1. destruct (list_eq_dec Z.eq_dec (fst e) []) as [E0|Hne].
          + rewrite E0. change (Z.of_nat (length (@nil Z)) >? 0) with false. cbv iota. cbn [bind]. destruct (IH x0 m0 (fun x Hx => Hl x (or_intror Hx)) Ox Bx) as (x1 & m1 & E1 & O1 & M1 & C1); [repeat split; auto|].
            exists x1, m1. split; [exact E1|]. split; [auto|]. split; [auto|]. intros v. rewrite C1. ring.
          + replace (Z.of_nat (length (fst e)) >? 0) with true by (destruct (fst e); [congruence|cbn [length]; lia]).
            destruct (rbracketing_ok w N L HC (fst e) (mc_lie m0, mc_rbr m0) He1 Hne ltac:(lia) I1 I3) as (p & s' & -> & S1 & S2 & (q & -> & Hq & Cq)). cbn [bind]. rewrite Nat2Z.id.
            destruct (lasp q (rmul (snd e) (qinv (length (fst e)))) (Z.of_nat (length (fst e))) ltac:(lia) Hq x0 Ox Bx) as (x1 & -> & O1 & B1 & C1). cbn [bind].
            destruct (IH x1 (mkMC (fst s') (mc_exp m0) (snd s')) (fun x Hx => Hl x (or_intror Hx)) O1 B1) as (x2 & m2 & E2 & O2 & M2 & C2); [repeat split; auto|].
            exists x2, m2. split; [exact E2|]. split; [auto|]. split; [auto|]. intros v. rewrite C2.
            rewrite (lval_ext (lcf x1) (fun i => radd (lcf x0 i) (rmul (zr R (co Z Z.eqb (RB w (fst e)) (i + 1))) (rmul (snd e) (qinv (length (fst e))))))) by (intros i Hi; rewrite C1, Cq by auto; reflexivity).
            rewrite lval_add, lval_scal, <- lf_lval by (intros f Hf; apply (RB_in w N L HC (fst e) He1 Hne ltac:(lia) f Hf)). rewrite (RB_rnorm w N L HC R (fst e)) by (auto; lia).
            destruct (fst e) as [|z u]; [congruence|]. ring. }
      destruct (G l (vo_new OL) m Il N1) as (a & m' & Ea & Oa & Ma & Ca); [apply N3; rewrite vd; lia|auto|]. exists a, m'. split; [exact Ea|]. split; [auto|]. split; [auto|].
      intros v. rewrite Ca. rewrite (lval_ext _ (fun _ => r0)) by auto. transitivity (sum l (fun e => tm e v)).
      { unfold lval. rewrite sum_zero by (intros; ring). ring. }
      unfold dyn. transitivity (sum (words_upto w N) (fun u => sum l (fun e => if list_eq_dec Z.eq_dec (fst e) u then rmul (snd e) (rmul (qinv (length u)) (rnorm R u v)) else r0))).
      - rewrite sum_swap. apply sum_ext. intros e He. unfold tm. specialize (Il e He). apply inside_iff in Il. destruct Il as [I1 I2]. destruct (fst e) as [|z u] eqn:Ee.
        + symmetry. apply sum_zero. intros u Hu. apply words_upto_In in Hu. destruct (list_eq_dec Z.eq_dec [] u) as [<-|]; [|reflexivity]. tauto.
        + symmetry. apply (sum_upto (fun u0 => rmul (snd e) (rmul (qinv (length u0)) (rnorm R u0 v)))); auto. discriminate.
      - apply sum_ext. intros u _. rewrite Cl, <- sum_mul_r. apply sum_ext. intros e _. destruct (list_eq_dec Z.eq_dec (fst e) u); ring.
    Qed.
  End Lie.
End Vec.
