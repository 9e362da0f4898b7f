(** Commutators of stored tensors, the series of the derivative, signatures and their logarithms. *)
From Coq Require Import ZArith List Bool Lia ZifyBool.
From Verif Require Import LieObjModel Alg PowerSeries Words Series Shuffle Dual Dexp LalBasis LalFma LalTensor LalDense LalFun LhSpec ShufFma KeyProofs KeyProofs2 LhProofs HallModel HallSpec HallTab HallDim HallTrees HsProofs HsLemmas BracketModel BracketProofs BracketSem LieSpec L2tProofs Dynkin T2lLemmas L2tLemmas HallIndep LieTab LieBasis LieProd LieMult LieMaps LieVec LieOne LieTwo.
From Verif Require Import Cbh LieObjSpec.
Import ListNotations.
Open Scope Z_scope.

(** ** Commutators *)
Section Comm.
  Variable R : cring.
  Add Ring Rcm : (rth R).
  Variable req : R -> R -> bool.
  Hypothesis Hreq : forall x y, req x y = true <-> x = y.
  Variables (w N : Z) (B : tbasis).
  Hypothesis HP : packs w N.
  Hypothesis HS : sized w N.
  Hypothesis HT : tb_ok w N B.
  Hypothesis HN1 : 1 <= N.
  Notation n := (Z.to_nat N).
  Notation V := (tensor_vb B).
  Notation TD := (dense_tgood R req Hreq w N B HP HS HT).
  Notation TS := (sparse_tgood R req Hreq w N B HP HS HT).
  Definition comm_good {X} (O : vops R X) fma (fr st : X -> Prop) (cf : X -> list Z -> R) : Prop :=
    forall l r, st l -> st r -> exists x, LalModel.commutator R X O N unit fma l r tt = Ok (x, tt) /\ fr x /\ forall u, inside w n u = true -> cf x u = comm (cf l) (cf r) u.
  Lemma comm_of {X} (O : vops R X) fma rtd fr st cf : tgood R X O fma rtd w n fr st cf ->
    (forall l r x, st l -> st r -> vo_empty O l = false -> vo_empty O r = false -> fma (vo_new O) l r (fun x => x) N tt = Ok (x, tt) ->
      exists y, fma x r l (fun x => ropp x) N tt = Ok (y, tt) /\ fr y /\ forall u, inside w n u = true -> cf y u = radd (cf x u) (ropp (conv (cf r) (cf l) u))) ->
    comm_good O fma fr st cf.
  Proof.
    intros T H l r Hl Hr. unfold LalModel.commutator. destruct (vo_empty O l) eqn:El, (vo_empty O r) eqn:Er; cbn [negb andb].
    4: { destruct (t_fma _ _ _ _ _ _ _ _ _ _ T l r (fun x => x) 0 N) as (x & E & Fx & _ & Cx); auto; try lia. rewrite <- (t_fma0 _ _ _ _ _ _ _ _ _ _ T) in E. rewrite E. cbn [bind].
      destruct (H l r x Hl Hr El Er E) as (y & -> & Fy & Cy). exists y. split; [reflexivity|]. split; [auto|]. intros u Hu. rewrite Cy by auto. rewrite Cx; [|auto|apply inside_iff in Hu; lia]. unfold comm, tsub. ring. }
    all: destruct (t_new _ _ _ _ _ _ _ _ _ _ T) as (A & C & _); exists (vo_new O); (split; [reflexivity|]); (split; [auto|]); intros u _; rewrite C; unfold comm, tsub.
    all: rewrite (conv_empty R X O fma rtd w n fr st cf T l r), (conv_empty R X O fma rtd w n fr st cf T r l); auto; ring.
  Qed.
  Lemma dense_comm : comm_good (dense_ops R req V) (ft_fma_dense R req B) (d_fr R w N) (d_st R w N) (wcf R w N (dv_at R)).
  Proof.
    apply (comm_of _ _ _ _ _ _ TD). intros l r x Hl Hr El Er E.
    assert (Hem : forall v : dvec R, vo_empty (dense_ops R req V) v = false -> blen (dv_data v) <> 0) by (intros v; cbn; unfold dv_empty; lia).
    apply Hem in El. apply Hem in Er.
    destruct (ft_fma_dense_ok R req w N B HP HS HT (vo_new (dense_ops R req V)) l r (fun x => x) N) as (x' & E' & Dx & Lx & Vx); auto; try lia.
    rewrite E in E'. injection E' as <-.
    destruct (ft_fma_dense_ok R req w N B HP HS HT x r l (fun x => ropp x) N) as (y & Ey & Dy & Ly & Vy); auto; try lia; [ring|right; destruct Hl, Hr; split; [exact Lx|]; lia|].
    exists y. split; [exact Ey|]. split; [destruct Hl as [Hl _], Hr as [Hr _]; split; [lia|left; exact Ly]|].
    intros u Hu. unfold wcf at 1 2. rewrite Hu, Vy by (auto; apply inside_iff in Hu; lia). f_equal. rewrite (conv_wcf R w N (dv_at R) r l (fun x => ropp x) u); auto; intros; ring.
  Qed.
  Lemma sparse_comm : comm_good (sparse_ops R req) (ft_fma_sparse R req B) (s_ok R (tdim w N) (tkey B)) (s_ok R (tdim w N) (tkey B)) (wcf R w N (s_cf R (tkey B))).
  Proof.
    apply (comm_of _ _ _ _ _ _ TS). intros l r x Hl Hr El Er E.
    pose proof (sparse_good R req Hreq V (tdim w N) (tkey B) (tcnt w) (tensor_basis_ok' w N B HP HS HT)) as G.
    assert (Main : forall out l r fn, s_ok R (tdim w N) (tkey B) out -> s_ok R (tdim w N) (tkey B) l -> s_ok R (tdim w N) (tkey B) r -> fn r0 = r0 -> s_bnd R out (Z.min N (sv_degree R l + sv_degree R r)) ->
      exists x, ft_fma_sparse R req B out l r fn N tt = Ok (x, tt) /\ s_ok R (tdim w N) (tkey B) x /\ s_bnd R x (Z.min N (sv_degree R l + sv_degree R r)) /\
        ((forall x y, fn (radd x y) = radd (fn x) (fn y)) -> forall u, inside w n u = true -> wcf R w N (s_cf R (tkey B)) x u = radd (wcf R w N (s_cf R (tkey B)) out u) (fn (conv (wcf R w N (s_cf R (tkey B)) l) (wcf R w N (s_cf R (tkey B)) r) u)))).
    { clear - HP HS HT HN1 Hreq G. intros out l r fn Ho Hl Hr F0 Hb. assert (Hd := depth_N w N B HT).
      destruct (base_fma_ok R (svec R) (sparse_ops R req) V (tdim w N) (tkey B) (tcnt w) (tensor_basis_ok' w N B HP HS HT) (s_ok R (tdim w N) (tkey B)) (s_cf R (tkey B)) (s_bnd R) G unit (ft_mult B) (fun _ => True) (LalTensor.tprod w B)) with
        (out := out) (lhs := l) (rhs := r) (fn := fn) (md := N) (c := tt) as (x & [] & E & Ox & _ & Bx & Cx); auto.
      + intros i j c Hi Hj Hd' _. exists c. split; [|auto]. apply (ft_mult_ok w N B HP HS HT); auto. cbn [tensor_vb vb_depth] in Hd'. rewrite Hd in Hd'. auto.
      + intros i j e Hi Hj Hd' He. apply (ft_prod_deg w N B HP HS HT); auto. cbn [tensor_vb vb_depth] in Hd'. rewrite Hd in Hd'. auto.
      + cbn [tensor_vb vb_depth]. rewrite Hd. exact Hb.
      + exists x. split; [exact E|]. split; [auto|]. split; [cbn [tensor_vb vb_depth] in Bx; rewrite Hd in Bx; exact Bx|]. intros Fa u Hu. unfold wcf at 1 2. rewrite Hu. rewrite Cx by (apply (pos_dim w N HP); auto).
        rewrite (bilinear_cuts R w N B HP HS HT) by auto. rewrite (conv_wcf R w N) by auto. reflexivity. }
    destruct (Main (vo_new (sparse_ops R req)) l r (fun x => x)) as (x' & E' & Ox & Bx & _); auto; [apply (g_new _ _ _ _ _ _ _ _ _ G)|intros e []|].
    rewrite E in E'. injection E' as <-.
    destruct (Main x r l (fun x => ropp x)) as (y & Ey & Oy & _ & Cy); auto; [ring|rewrite Z.add_comm; exact Bx|].
    exists y. split; [exact Ey|]. split; [auto|]. intros u Hu. apply Cy; auto. intros; ring.
  Qed.
End Comm.

(** ** The derivative of a product of exponentials *)
Section Deriv.
  Variable R : qalg.
  Add Ring Rdv : (rth R).
  Hypothesis R10 : @r1 R <> r0.
  Variables (X : Type) (O : vops R X) (fma : X -> X -> X -> (R -> R) -> Z -> unit -> outcome (X * unit)) (rtd : X -> Z -> outcome X).
  Variables (w N : Z) (L : lctx) (fr st : X -> Prop) (cf : X -> list Z -> R).
  Hypothesis HN1 : 1 <= N.
  Hypothesis EL : lc_depth L = N.
  Notation n := (Z.to_nat N).
  Hypothesis T : tgood R X O fma rtd w n fr st cf.
  Hypothesis G : comm_good R w N O fma fr st cf.
  Notation e := (invfact R).
  Lemma invfact_zero (z : R) k : rmul z (e k) = r0 -> z = r0.
  Proof.
    revert z. induction k as [|k IH]; intros z H; cbn [invfact] in H.
    - rewrite <- H. ring.
    - apply (qinv_zero R z (S k)); [lia|]. apply IH. rewrite <- H. ring.
  Qed.
  Lemma comm_in (x y y' : list Z -> R) u : inside w n u = true -> (forall v, inside w n v = true -> y v = y' v) -> comm x y u = comm x y' u.
  Proof. intros Hu Hy. unfold comm, tsub. f_equal; apply (conv_in R w n); auto. Qed.
  Lemma comm__ok l r : st l -> st r -> exists x, comm_ R L X O fma l r = Ok x /\ fr x /\ forall u, inside w n u = true -> cf x u = comm (cf l) (cf r) u.
  Proof. intros Hl Hr. unfold comm_. rewrite EL. destruct (G l r Hl Hr) as (x & -> & Fx & Cx). exists x. auto. Qed.
  Lemma sg_even d : 0 <= d -> Dexp.sg R (Z.to_nat d) = if Z.even d then r1 else ropp r1.
  Proof.
    intros Hd. remember (Z.to_nat d) as m eqn:Em. assert (Ed : d = Z.of_nat m) by lia. subst d. clear Hd Em. unfold Dexp.sg.
    induction m as [|m IH]; [reflexivity|]. cbn [rpow]. rewrite IH. replace (Z.of_nat (S m)) with (Z.succ (Z.of_nat m)) by lia. rewrite Z.even_succ, <- Z.negb_even. destruct (Z.even (Z.of_nat m)); cbn [negb]; ring.
  Qed.
  Lemma derive_series_ok x y : st x -> fr y -> exists z, derive_series R L X O fma x y = Ok z /\ fr z /\ forall u, inside w n u = true -> cf z u = dser R Z (cf x) (cf y) n u.
  Proof.
    intros Hx Hy. assert (Sy := t_sub _ _ _ _ _ _ _ _ _ _ T y Hy). unfold derive_series. destruct (comm__ok x y Hx Sy) as (a & -> & Fa & Ca). cbn [bind]. rewrite EL.
    match goal with |- context [for_ _ _ ?b] => set (body := b) end.
    destruct (for_zseq (fun d (s : X * (R * X)) => fr (fst s) /\ fst (snd s) = e (Z.to_nat d) /\ st (snd (snd s)) /\
       (forall u, inside w n u = true -> cf (snd (snd s)) u = adp R Z (cf x) (cf y) (Z.to_nat d) u) /\
       (forall u, inside w n u = true -> cf (fst s) u = sum (seq 0 (Z.to_nat d)) (fun i => rmul (rmul (Dexp.sg R i) (e (S i))) (adp R Z (cf x) (cf y) i u))))
      body n 1 (y, (r1 : R, a))) as ((z & f & a') & -> & Fz & _ & _ & _ & Cz).
    - cbn [fst snd]. assert (E1 : e 1 = r1) by (assert (Q := e_S R 0); cbn [rnat] in Q; transitivity (rmul (radd r1 r0) (e 1)); [ring|exact Q]). split; [auto|]. split; [symmetry; exact E1|]. split; [apply (t_sub _ _ _ _ _ _ _ _ _ _ T); auto|]. split; [exact Ca|].
      intros u Hu. change (Z.to_nat 1) with 1%nat. cbn [seq sum adp]. rewrite ?E1.  unfold Dexp.sg. cbn [rpow]. ring.
    - intros d (res & f & ad) Hd (Fr & Ef & Sa & Cad & Cr). cbn [fst snd] in *. unfold body.
      destruct (comm__ok x ad Hx Sa) as (ad' & -> & Fad & Cad'). cbn [bind].
      assert (Ef' : rmul f (qinv (Z.to_nat (d + 1))) = e (S (Z.to_nat d))) by (rewrite Ef; replace (Z.to_nat (d + 1)) with (S (Z.to_nat d)) by lia; cbn [invfact]; ring).
      rewrite Ef'. replace (Z.to_nat (d + 1)) with (S (Z.to_nat d)) by lia.
      assert (O1 : forall a, radd a (rmul r0 (e (S (Z.to_nat d)))) = a) by (intros; ring). assert (O2 : forall b, radd r0 (rmul b (e (S (Z.to_nat d)))) = r0 -> b = r0) by (intros b Hb; apply (invfact_zero b (S (Z.to_nat d))); rewrite <- Hb; ring).
      assert (O3 : forall a, rsub a (rmul r0 (e (S (Z.to_nat d)))) = a) by (intros; ring).
      assert (O4 : forall b, rsub r0 (rmul b (e (S (Z.to_nat d)))) = r0 -> b = r0).
      { intros b Hb. apply (invfact_zero b (S (Z.to_nat d))). transitivity (ropp (rsub r0 (rmul b (e (S (Z.to_nat d)))))); [ring|]. rewrite Hb. ring. }
      destruct (t_ibinary _ _ _ _ _ _ _ _ _ _ T res ad (fun a b => radd a (rmul b (e (S (Z.to_nat d))))) (t_sub _ _ _ _ _ _ _ _ _ _ T _ Fr) Sa O1 O2) as (_ & C1 & F1 & _).
      destruct (t_ibinary _ _ _ _ _ _ _ _ _ _ T res ad (fun a b => rsub a (rmul b (e (S (Z.to_nat d))))) (t_sub _ _ _ _ _ _ _ _ _ _ T _ Fr) Sa O3 O4) as (_ & C2 & F2 & _).
      eexists. split; [reflexivity|]. cbn [fst snd]. split; [destruct (Z.even d); auto|]. split; [reflexivity|]. split; [apply (t_sub _ _ _ _ _ _ _ _ _ _ T); auto|]. split.
      + intros u Hu. rewrite Cad' by auto. cbn [adp]. apply comm_in; auto.
      + intros u Hu. rewrite sum_seq_last. cbn [Nat.add]. rewrite <- Cr, <- Cad by auto. rewrite sg_even by lia. destruct (Z.even d); [rewrite C1|rewrite C2]; ring.
    - cbn [bind fst snd] in *. exists z. split; [reflexivity|]. split; [auto|]. intros u Hu. rewrite Cz by auto. unfold dser. replace (Z.to_nat (1 + Z.of_nat n)) with (S n) by lia. reflexivity.
  Qed.
  Lemma deriv_step_ok r x y : fr r -> st x -> fr y -> cf x [] = r0 -> exists z, deriv_step R L X O fma rtd r x y = Ok z /\ fr z /\
    forall u, inside w n u = true -> cf z u = radd (conv (cf r) (texp n (cf x)) u) (conv (texp n (cf x)) (dser R Z (cf x) (cf y) n) u).
  Proof.
    intros Fr Hx Hy X0. unfold deriv_step. rewrite EL. destruct (exp_ok R X O fma rtd w n fr st cf T R10 x Hx) as (s & Es & Fs & Cs). rewrite Z2Nat.id in Es by lia. rewrite Es. cbn [bind].
    assert (Ss := t_sub _ _ _ _ _ _ _ _ _ _ T _ Fs). assert (Sr := t_sub _ _ _ _ _ _ _ _ _ _ T _ Fr).
    assert (Ne : vo_empty O s = false).
    { destruct (vo_empty O s) eqn:Em; [|reflexivity]. exfalso. apply R10. assert (Q := t_empty _ _ _ _ _ _ _ _ _ _ T s Ss Em []). rewrite Cs in Q by reflexivity. rewrite <- Q. symmetry. apply (texp_nil R Z); auto. }
    destruct (op_imul_ok R X O fma rtd w n fr st cf T N r s) as (r' & E1 & _ & _ & Fr' & C1); auto; try lia. rewrite E1. cbn [bind].
    unfold deriv_single. destruct (derive_series_ok x y Hx Hy) as (z & -> & Fz & Cz). cbn [bind]. rewrite EL.
    destruct (op_mul_ok R X O fma rtd w n fr st cf T N s z) as (p & E2 & Fp & C2); auto; try lia; [apply (t_sub _ _ _ _ _ _ _ _ _ _ T); auto|]. rewrite E2. cbn [bind].
    eexists. split; [reflexivity|].
    destruct (t_ibinary _ _ _ _ _ _ _ _ _ _ T r' p (fun x y => radd x y)) as (_ & C3 & F3 & _); try (intros; ring).
    - apply (t_sub _ _ _ _ _ _ _ _ _ _ T). apply Fr'; auto.
    - apply (t_sub _ _ _ _ _ _ _ _ _ _ T); auto.
    - intros q Hq. rewrite <- Hq. ring.
    - split; [apply F3, Fr'; auto|]. intros u Hu. rewrite C3, C1, C2 by auto. f_equal.
      + apply (conv_in R w n); auto.
      + apply (conv_in R w n); auto.
  Qed.
End Deriv.

(** ** Signatures and their logarithms *)
Section Local.
  Variables (R : qalg) (w : Z) (n : nat).
  Lemma tpow_in (a b : tens R Z) k : forall u, inside w n u = true -> (forall v, inside w n v = true -> a v = b v) -> tpow a k u = tpow b k u.
  Proof. induction k as [|k IH]; intros u Hu Hab; cbn [tpow]; [reflexivity|]. apply (conv_in R w n); auto. Qed.
  Lemma tpoly_in (f : nat -> R) (a b : tens R Z) u : inside w n u = true -> (forall v, inside w n v = true -> a v = b v) -> tpoly n f a u = tpoly n f b u.
  Proof. intros Hu Hab. unfold tpoly. apply sum_ext. intros k _. f_equal. apply tpow_in; auto. Qed.
  Lemma exps_grouplike (xs : list (tens R Z)) : Forall (primitive n) xs -> forall g, grouplike n g -> grouplike n (fold_left (fun g x => conv g (texp n x)) xs g).
  Proof.
    induction 1 as [|x xs Hx _ IH]; intros g Hg; cbn [fold_left]; [exact Hg|]. apply IH. apply grouplike_conv; [exact Hg|]. apply grouplike_exp. exact Hx.
  Qed.
End Local.
Section Three.
  Variable R : qalg.
  Add Ring Rth3 : (rth R).
  Variable req : R -> R -> bool.
  Hypothesis Hreq : forall x y, req x y = true <-> x = y.
  Hypothesis R10 : @r1 R <> r0.
  Variables (w N : Z) (L : lctx).
  Hypothesis HC : ctx_ok w N L.
  Notation M := (nM w N). Notation H := (lc_h L). Notation B := (lc_t L). Notation n := (Z.to_nat N).
  Let Hw : 1 <= w := c_w w N L HC.
  Let HN : 1 <= N <= 254 := c_N w N L HC.
  Let HP : packs w N := c_packs w N L HC.
  Let HT : tb_ok w N B := c_tb w N L HC.
  Let HS : sized w N := proj1 (proj2 HC).
  Let HN1 : 1 <= N := proj1 HN.
  Notation tensor := (tens R Z).
  Notation tr := (LhSpec.trunc R w n).
  Notation TD := (dense_tgood R req Hreq w N B HP HS HT).
  Notation TS := (sparse_tgood R req Hreq w N B HP HS HT).
  Notation lval := (lval R w N).
  Notation minv := (LieVec.minv w N).
  Notation lrep := (lrep R w N L).
  Notation trep := (trep R w N L).
  Notation dyn := (dyn R w N).
  Definition rcoords (row : option (list Z) * list R) (i : Z) : R :=
    match fst row with
    | None => nth (Z.to_nat i) (snd row) r0
    | Some ks => fold_left (fun acc e => if fst e =? i then snd e else acc) (firstn (Z.to_nat M) (combine ks (snd row))) r0
    end.
  Definition rok (row : option (list Z) * list R) : Prop := match fst row with None => True | Some ks => length ks = length (snd row) /\ Forall (fun i => 0 <= i < M) ks end.
  Lemma signature_ok dense rows m : Forall rok rows -> minv m -> exists d m', compute_signature R req Ok L dense rows m = Ok (d, m') /\ minv m' /\ is_dense R d = dense /\
    trep d (tr (exps n (map (fun row => lval (rcoords row)) rows))).
  Proof.
    intros Hr Hm. unfold compute_signature. destruct (unit_ok R req Hreq w N L HC dense) as (d & -> & Ed & Td). cbn [bind].
    match goal with |- context [for_ _ _ ?b] => set (body := b) end. unfold exps.
    assert (Main : forall rows, Forall rok rows -> forall d m g, minv m -> is_dense R d = dense -> trep d (tr g) -> exists d' m', for_ rows (d, m) body = Ok (d', m') /\ minv m' /\ is_dense R d' = dense /\
      trep d' (tr (fold_left (fun g x => conv g (texp n x)) (map (fun row => lval (rcoords row)) rows) g))).
    { clear d m rows Hr Hm Ed Td. induction 1 as [|row rows Hrow _ IH]; intros d m g Hm Ed Td; cbn [for_ map fold_left].
      - exists d, m. auto.
      - unfold body at 1. destruct (lconstruct_td_ok R req Hreq w N L HC dense (fst row) (snd row) Hrow) as (lr & -> & El & Tl). cbn [bind].
        destruct (l2t_td_ok R req Hreq w N L HC lr _ m Tl Hm) as (t & m' & -> & Im & Et & Tt). cbn [bind].
        assert (T0 : lval (rcoords row) [] = r0) by apply (lval_nil R w N L HC).
        destruct (fmexp_step R req Hreq w N L HC d g t _ Td Tt T0) as (d' & -> & Ed' & Td'). cbn [bind]. apply (IH d' m' _ Im); [congruence|exact Td']. }
    apply Main; auto. eapply trep_ext; [|exact Td]. intros u. unfold LhSpec.trunc. destruct (inside w n u) eqn:Iu; [reflexivity|]. destruct u; [discriminate|reflexivity].
  Qed.
  (** the logarithm of a group-like element, as a Lie element *)
  Lemma log_ok_ d g m : grouplike n g -> trep d (tr g) -> minv m -> exists l, td_log R req B d = Ok l /\ is_dense R l = is_dense R d /\ trep l (tr (tlog n g)) /\
    exists d' m', t2l_td R req Ok L l m = Ok (d', m') /\ minv m' /\ is_dense R d' = is_dense R d /\ lrep d' (tr (tlog n g)).
  Proof.
    intros Gg Td Hm. destruct (td_log_ok R req Hreq w N B HP HS HT HN1 _ _ _ Td) as (l & -> & Tl). rewrite kd_fresh in Tl. assert (El := kd_dense _ _ _ _ _ _ _ Tl).
    assert (Tl' : trep l (tr (tlog n g))).
    { unfold LieOne.trep. rewrite El. eapply drep_ext; [|exact Tl]. intros u. unfold LhSpec.trunc at 1 3. destruct (inside w n u) eqn:Iu; [|reflexivity]. unfold tlog, tlog1p. apply (tpoly_in R w n); auto.
      intros v Hv. unfold nocst, LhSpec.trunc, tsub, tone. destruct v as [|z v]; [rewrite (proj1 Gg); ring|]. rewrite Hv. ring. }
    exists l. split; [reflexivity|]. split; [exact El|]. split; [exact Tl'|].
    destruct (t2l_td_ok R req Hreq w N L HC l _ m Tl' Hm) as (d' & m' & -> & Im & Ed & Ld). exists d', m'. split; [reflexivity|]. split; [auto|]. split; [congruence|].
    eapply lrep_ext; [|exact Ld]. intros u. rewrite dyn_tr. apply dyn_fix. apply primitive_log; auto.
  Qed.
  Lemma deriv_td_ok r x y gr tx ty : is_dense R x = is_dense R r -> is_dense R y = is_dense R r -> trep r (tr gr) -> trep x tx -> trep y ty -> tx [] = r0 ->
    exists z, deriv_step_td R req L r x y = Ok z /\ is_dense R z = is_dense R r /\ trep z (tr (fun u => radd (conv gr (texp n tx) u) (conv (texp n tx) (dser R Z tx ty n) u))).
  Proof.
    intros Ex Ey Tr Tx Ty X0. assert (EL : lc_depth L = N) by apply (c_depth w N L HC).
    assert (Fin : forall a b c u, (forall v, a v = tr gr v) -> (forall v, b v = tx v) -> (forall v, c v = ty v) -> inside w n u = true ->
       radd (conv a (texp n b) u) (conv (texp n b) (dser R Z b c n) u) = radd (conv gr (texp n tx) u) (conv (texp n tx) (dser R Z tx ty n) u)).
    { intros a b c u Ha Hb Hc Hu. assert (Eb : forall v, texp n b v = texp n tx v) by (intros v; apply (tpoly_local R Z); auto). f_equal.
      - apply (conv_in R w n); auto. intros v Hv _. rewrite Ha. unfold LhSpec.trunc. rewrite Hv. reflexivity.
      - apply LieSpec.conv_ext; [exact Eb|]. intros v. unfold dser. apply sum_ext. intros d _. f_equal. clear - Hb Hc. revert v. induction d as [|d IH]; intros v; cbn [adp]; [auto|]. apply LieSpec.comm_ext; [exact Hb|exact IH]. }
    destruct r as [r|r], x as [x|x]; try discriminate; destruct y as [y|y]; try discriminate; cbn [deriv_step_td is_dense].
    - destruct Tr as (r' & E & Fr & Cr). injection E as <-. destruct Tx as (x' & E & Fx & Cx). injection E as <-. destruct Ty as (y' & E & Fy & Cy). injection E as <-.
      destruct (deriv_step_ok R R10 _ _ _ _ w N L _ _ _ HN1 EL TD (dense_comm R req Hreq w N B HP HS HT HN1) r x y Fr (t_sub _ _ _ _ _ _ _ _ _ _ TD _ Fx) Fy ltac:(rewrite Cx; exact X0)) as (z & -> & Fz & Cz). cbn [bind].
      exists (LhModel.Dn z). split; [reflexivity|]. split; [reflexivity|]. exists z. split; [reflexivity|]. split; [auto|]. intros u. unfold LhSpec.trunc. destruct (inside w n u) eqn:Iu; [rewrite Cz by auto; apply Fin; auto|apply (t_out _ _ _ _ _ _ _ _ _ _ TD); auto].
    - destruct Tr as (r' & E & Fr & Cr). injection E as <-. destruct Tx as (x' & E & Fx & Cx). injection E as <-. destruct Ty as (y' & E & Fy & Cy). injection E as <-.
      destruct (deriv_step_ok R R10 _ _ _ _ w N L _ _ _ HN1 EL TS (sparse_comm R req Hreq w N B HP HS HT HN1) r x y Fr (t_sub _ _ _ _ _ _ _ _ _ _ TS _ Fx) Fy ltac:(rewrite Cx; exact X0)) as (z & -> & Fz & Cz). cbn [bind].
      exists (LhModel.Sp z). split; [reflexivity|]. split; [reflexivity|]. exists z. split; [reflexivity|]. split; [auto|]. intros u. unfold LhSpec.trunc. destruct (inside w n u) eqn:Iu; [rewrite Cz by auto; apply Fin; auto|apply (t_out _ _ _ _ _ _ _ _ _ _ TS); auto].
  Qed.
End Three.
