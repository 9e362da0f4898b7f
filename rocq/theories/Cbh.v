(** Logarithms of group-like series are primitive, and the Campbell-Baker-Hausdorff
    product computed through tensors. *)
From Coq Require Import QArith Qcanon.
From Coq Require Import ZifyBool.
From Verif Require Export CbhModel T2lLemmas TensorLemmas2.
From Verif Require Import Outcome Alg Words Mem Series Shuffle TensorModel TensorTop TensorTop3 TensorLemmas SparseModel SparseProofs Mobius HallModel HallSpec LieSpec HallTab HallCount HallDim HallProofs HallTrees HallLookup HallLemmas BracketModel BracketProofs BracketCache BracketSem BracketLemmas SmhModel SmhProofs SmhBuild SmhLemmas L2tModel L2tProofs L2tBuild L2tLemmas Dynkin T2lBuild T2lNorm.
Open Scope Z_scope.

Section Friedrichs.
  Variable R : qalg.
  Variable A : Type.
  Add Ring RringF : (rth (qr R)).
  Local Open Scope cr_scope.
  Notation tens := (tens (qr R) A).
  Definition cut (n : nat) (x : tens) : tens := fun u => if (length u <=? n)%nat then x u else 0.
  Lemma primitive_cut n N x : primitive n x -> primitive N (cut n x).
  Proof.
    intros [H0 H]. split; [exact H0|]. intros u v Hu Hv _. destruct (Nat.le_gt_cases (length u + length v) n) as [Hl|Hl].
    - rewrite <- (H u v Hu Hv Hl). apply sum_ext. intros s Hs. apply shuffles_length in Hs. unfold cut. rewrite (proj2 (Nat.leb_le _ _)) by lia. reflexivity.
    - apply sum_zero. intros s Hs. apply shuffles_length in Hs. unfold cut. rewrite (proj2 (Nat.leb_gt _ _)) by lia. reflexivity.
  Qed.
  (** In the top degree, powers from the second on do not see the top coefficient. *)
  Lemma tpow_cut n x k w : x [] = 0 -> length w = S n -> (2 <= k)%nat -> tpow x k w = tpow (cut n x) k w.
  Proof.
    intros H0 Hw Hk. destruct k as [|[|k]]; try lia. cbn [tpow]. unfold conv. apply sum_ext. intros i Hi. apply in_seq in Hi.
    assert (C0 : cut n x [] = 0) by exact H0.
    destruct (Nat.eq_dec i 0) as [->|Hi0]; [cbn [firstn]; rewrite H0, C0; ring|].
    destruct (Nat.eq_dec i (S n)) as [->|Hin].
    - rewrite skipn_all2 by lia. assert (E : forall y : tens, y [] = 0 -> conv y (tpow y k) [] = 0).
      { intros y Hy. unfold conv. cbn. rewrite Hy. ring. }
      change (sum (seq 0 (S (length (@nil A)))) (fun k0 => x (firstn k0 []) * tpow x k (skipn k0 []))) with (conv x (tpow x k) []).
      change (sum (seq 0 (S (length (@nil A)))) (fun k0 => cut n x (firstn k0 []) * tpow (cut n x) k (skipn k0 []))) with (conv (cut n x) (tpow (cut n x) k) []).
      rewrite !E by auto. ring.
    - assert (L1 : (length (firstn i w) <= n)%nat) by (rewrite firstn_length; lia).
      assert (L2 : (length (skipn i w) <= n)%nat) by (rewrite skipn_length; lia).
      f_equal; [unfold cut; rewrite (proj2 (Nat.leb_le _ _)) by lia; reflexivity|].
      apply conv_local.
      + intros u Hu. unfold cut. rewrite (proj2 (Nat.leb_le _ _)) by lia. reflexivity.
      + intros u Hu. apply tpow_local. intros v Hv. unfold cut. rewrite (proj2 (Nat.leb_le _ _)) by lia. reflexivity.
  Qed.
  Lemma texp_cut n N (x : tens) w : x [] = 0 -> length w = S n -> (S n <= N)%nat -> texp (R:=R) N x w = texp (R:=R) N (cut n x) w + x w.
  Proof.
    intros H0 Hw HN. destruct N as [|N]; [lia|]. unfold texp, tpoly. rewrite !(sum_seq_S _ 0), !(sum_seq_S _ 1).
    assert (E1 : forall y : tens, tpow y 1 w = y w) by (intros y; cbn [tpow]; apply (conv_one_r _ _ y w)).
    rewrite !E1. rewrite (sum_ext _ (seq 2 N) (fun k => invfact R k * tpow x k w) (fun k => invfact R k * tpow (cut n x) k w)).
    2:{ intros k Hk. apply in_seq in Hk. rewrite (tpow_cut n) by (auto; lia). reflexivity. }
    replace (cut n x w) with (@r0 R). 2:{ unfold cut. rewrite (proj2 (Nat.leb_gt _ _)) by lia. reflexivity. }
    replace (invfact R 1) with (@r1 R). 2:{ cbn [invfact]. transitivity (@rnat R 1 * @qinv R 1); [symmetry; apply (qinv_ok R); lia|]. cbn [rnat]. ring. }
    cbn [tpow]. ring.
  Qed.
  (** Friedrichs: if exp x is group-like then x is primitive. *)
  Theorem primitive_of_exp N (x : tens) : x [] = 0 -> grouplike N (texp (R:=R) N x) -> primitive N x.
  Proof.
    intros H0 [G1 G]. assert (Main : forall n, (n <= N)%nat -> primitive n x).
    { induction n as [|n IH]; intros Hn.
      - split; auto. intros u v Hu Hv Hl. destruct u; [congruence|]. cbn [length] in Hl. lia.
      - specialize (IH ltac:(lia)). split; auto. intros u v Hu Hv Hl.
        destruct (Nat.eq_dec (length u + length v) (S n)) as [E|E]; [|apply IH; auto; lia].
        destruct (grouplike_exp R A N (cut n x) (primitive_cut n N x IH)) as [_ GC].
        assert (Lu : (1 <= length u)%nat) by (destruct u; [congruence|cbn; lia]).
        assert (Lv : (1 <= length v)%nat) by (destruct v; [congruence|cbn; lia]).
        assert (Low : forall s, (length s <= n)%nat -> texp N (cut n x) s = texp N x s).
        { intros s Hs. apply tpoly_local. intros s' Hs'. unfold cut. rewrite (proj2 (Nat.leb_le _ _)) by lia. reflexivity. }
        specialize (GC u v ltac:(lia)). rewrite !Low in GC by lia. rewrite (G u v) in GC by lia.
        rewrite (sum_ext _ (shuffles u v) (texp N x) (fun s => texp N (cut n x) s + x s)) in GC.
        2:{ intros s Hs. apply shuffles_length in Hs. apply texp_cut; auto; lia. }
        rewrite sum_add in GC. 
        transitivity (sum (shuffles u v) (texp N (cut n x)) + sum (shuffles u v) x - sum (shuffles u v) (texp N (cut n x))); [ring|].
        rewrite GC. ring. }
    auto.
  Qed.
  Theorem primitive_log N (g : tens) : grouplike N g -> primitive N (tlog (R:=R) N g).
  Proof.
    intros HG. apply primitive_of_exp; [apply tlog_nil, HG|].
    apply grouplike_local with (2 := HG). intros w Hw. symmetry. apply texp_tlog; auto. apply HG.
  Qed.
End Friedrichs.

Lemma shuffles_letters_inv w (u : list Z) : forall v s, In s (shuffles u v) -> letters_ok w s -> letters_ok w u /\ letters_ok w v.
Proof.
  unfold letters_ok. induction u as [|x u IHu]; intros v; [cbn; intros s [<-|[]] H; auto|].
  induction v as [|y v IHv]; intros s Hs H; [rewrite shuffles_nil_r in Hs; destruct Hs as [<-|[]]; auto|].
  rewrite shuffles_cons in Hs. apply in_app_iff in Hs. destruct Hs as [Hs|Hs]; apply in_map_iff in Hs; destruct Hs as (t & <- & Ht); inversion H; subst.
  - destruct (IHu _ _ Ht) as [P Q]; auto.
  - destruct (IHv _ Ht) as [P Q]; auto.
Qed.

Section CbhProofs.
  Variable R : qalg.
  Add Ring RringC : (rth (qr R)).
  Variable isz : R -> bool.
  Hypothesis isz_ok : forall x, isz x = true <-> x = r0.
  Hypothesis R1 : (r1 : R) <> r0.
  Variable inv : Z -> R.
  Hypothesis inv_ok : forall d, 1 <= d -> rmul (zr R d) (inv d) = r1.
  Variables (B : lie_basis) (w N M : Z).
  Hypothesis HS : standard B w N.
  Hypothesis HF : l2t_fits w N.
  Hypothesis EM : lb_size B = Ok M.
  Notation D := (Z.to_nat N).
  Notation tb := (tensor_basis w N).

  Lemma cbh_N : 1 <= N /\ 0 < w /\ Z.of_nat D = N.
  Proof.
    destruct (standard_ok _ _ _ HS) as (M' & HB & _). assert (H := HN1 B w N M' HB). destruct HF. lia.
  Qed.
  Lemma cbh_M : 1 <= M.
  Proof.
    destruct (standard_ok _ _ _ HS) as (M' & HB & _). assert (M' = M) as -> by (rewrite (size_ok _ _ _ _ HB) in EM; congruence).
    destruct cbh_N as (H1 & H2 & _). assert (X := bo_hall _ _ _ _ HB).
    assert (Y := db_mono _ _ _ _ _ _ X 2 (N + 1) ltac:(lia) ltac:(lia) ltac:(lia)). rewrite (hd_2 _ _ _ _ _ _ X), (hd_top _ _ _ _ _ _ X) in Y. lia.
  Qed.

  (** The embedded element as a tensor. *)
  Lemma emb x jd ji jp : blen x = M -> exists t, py_lie_to_tensor isz jd ji jp B x tb None = Ok t /\
    tensor_ok w D (mkT t tb) /\ primitive D (tv w D (mkT t tb)).
  Proof.
    intros Hx. destruct cbh_N as (H1 & H2 & H3). destruct (standard_ok _ _ _ HS) as (M' & HB & _).
    assert (M' = M) as -> by (rewrite (size_ok _ _ _ _ HB) in EM; congruence).
    destruct (l2t_apply R isz isz_ok R1 B w N M x None jd ji jp (tr (fun k => bat (lb_data B) (2 * k)) (fun k => bat (lb_data B) (2 * k + 1))) HS HF EM Hx) as (t & Et & Hl & _).
    { intros k Hk. apply (tr_decodes _ _ _ _ HB); auto. }
    destruct (l2t_primitive R isz isz_ok R1 B w N M x jd ji jp t HS HF EM Hx Et) as [P0 P1].
    exists t. split; auto. split; [split; [cbn; rewrite H3; auto|exact Hl]|]. split; [rewrite tv_nil; exact P0|].
    intros u v Hu Hv Hlen. destruct (okw w u && okw w v) eqn:E.
    - apply andb_true_iff in E. destruct E as [E1 E2]. apply okw_true in E1. apply okw_true in E2.
      rewrite <- (P1 u v E1 E2 Hu Hv Hlen). apply sum_ext. intros s Hs. apply tv_ok; auto; [apply (shuffles_letters w u v s); auto|]. apply shuffles_length in Hs. lia.
    - apply sum_zero. intros s Hs. unfold tv. replace (okw w s) with false; [rewrite andb_false_r; auto|]. symmetry. apply okw_false. intros Hok.
      destruct (shuffles_letters_inv w u v s Hs Hok) as [X1 X2]. apply okw_true in X1. apply okw_true in X2. rewrite X1, X2 in E. discriminate.
  Qed.
  Lemma sig_ok x jd ji jp : blen x = M -> exists g, to_signature isz jd ji jp B tb x = Ok g /\ tensor_ok w D g /\ grouplike D (tv w D g) /\
    forall t, py_lie_to_tensor isz jd ji jp B x tb None = Ok t -> agree D (tv w D g) (texp D (noconst R (tv w D (mkT t tb)))).
  Proof.
    intros Hx. destruct cbh_N as (H1 & H2 & H3). destruct (emb x jd ji jp Hx) as (t & Et & Kt & Pt). unfold to_signature. rewrite Et. cbn [bind].
    destruct (py_ft_exp_spec R w H2 D D (mkT t tb) Kt (le_n D)) as (g & Eg & Kg & Vg). rewrite H3 in Eg. exists g. rewrite Eg. repeat (split; auto).
    - rewrite Vg by (cbn; lia). apply texp_nil. reflexivity.
    - intros u v Huv. revert u v Huv. apply (grouplike_local (qr R) Z D (texp D (noconst R (tv w D (mkT t tb))))).
      + intros u Hu. symmetry. apply Vg; auto.
      + apply grouplike_exp. apply primitive_local with (2 := Pt). intros u _. destruct u; [apply Pt|reflexivity].
    - intros t' Et'. assert (t' = t) as -> by congruence. exact Vg.
  Qed.
  Definition tprod (l : list (dtensor R)) : tens (qr R) Z := fold_right (fun g a => conv (tv w D g) a) tone l.

  Lemma fallback_ok jd ji jp xs : Forall (fun x => blen x = M) xs -> M <> 0 -> forall col, tensor_ok w D col -> grouplike D (tv w D col) ->
    exists g gs, cbh_fallback isz jd ji jp B tb col xs = Ok g /\ tensor_ok w D g /\ grouplike D (tv w D g) /\
      Forall2 (fun x s => to_signature isz jd ji jp B tb x = Ok s) xs gs /\ agree D (tv w D g) (conv (tv w D col) (tprod gs)).
  Proof.
    intros Hxs HM. destruct cbh_N as (H1 & H2 & H3). induction xs as [|x xs IH]; intros col Kc Gc.
    - exists col, []. cbn [cbh_fallback tprod fold_right]. repeat (split; auto). intros u Hu. symmetry. apply (conv_one_r (qr R) Z (tv w D col) u).
    - assert (Hx := Forall_inv Hxs). assert (Hxs' := Forall_inv_tail Hxs). cbn beta in Hx. cbn [cbh_fallback]. replace (blen x =? 0) with false by lia. cbn [negb].
      destruct (emb x jd ji jp Hx) as (t & Et & Kt & Pt). destruct (sig_ok x jd ji jp Hx) as (s & Es & Ks & Gs & Vs). rewrite Et. cbn [bind].
      destruct (py_ft_fmexp_spec R w H2 D D D col (mkT t tb) Kc Kt (le_n D) (le_n D)) as (c2 & Ec & Kc2 & Vc). rewrite H3 in Ec. rewrite Ec. cbn [bind].
      assert (A : agree D (tv w D c2) (conv (tv w D col) (tv w D s))).
      { apply agree_trans with (1 := Vc). apply agree_conv; [apply agree_refl|]. apply agree_sym. apply (Vs t Et). }
      destruct (IH Hxs' c2 Kc2) as (g & gs & Eg & Kg & Gg & F2 & Ag).
      { apply grouplike_local with (g := conv (tv w D col) (tv w D s)); [intros u Hu; symmetry; auto|]. apply grouplike_conv; auto. }
      exists g, (s :: gs). repeat (split; auto). apply agree_trans with (1 := Ag). cbn [tprod fold_right].
      intros u Hu. rewrite <- (conv_assoc (qr R) Z _ _ _ u). revert u Hu. apply agree_conv; [exact A|apply agree_refl].
  Qed.

  Hypothesis Hsm : small_brackets B w.
  Variable c0 : lcache.
  Hypothesis Hre : reachable w c0.
  Lemma proj_ok : exists F, forall fuel jd ji jp g, (F <= fuel)%nat -> tensor_ok w D g -> grouplike D (tv w D g) ->
    exists l x c', py_ft_log g tb = Ok l /\ py_tensor_to_lie isz fuel inv jd ji jp B c0 (t_data l) tb None = Ok (x, c') /\ reachable w c' /\ blen x = M /\
      (exists y, py_lie_to_tensor isz jd ji jp B x tb None = Ok y /\ agree D (tv w D (mkT y tb)) (tv w D l)) /\
      exists s, to_signature isz jd ji jp B tb x = Ok s /\ agree D (tv w D s) (tv w D g).
  Proof.
    destruct (t2l_retract R isz isz_ok R1 inv inv_ok B w N M c0 HS HF Hsm Hre EM) as (F & HR). exists F. intros fuel jd ji jp g Hfu Kg Gg.
    destruct cbh_N as (H1 & H2 & H3). destruct (py_ft_log_spec R w H2 D D g Kg (le_n D)) as (l & El & Kl & Vl). rewrite H3 in El.
    assert (G0 : tv w D g [] = r1) by apply Gg.
    assert (Vl' : agree D (tv w D l) (tlog D (tv w D g))).
    { intros u Hu. rewrite Vl by auto. apply (agree_tpoly R D); auto. apply noconst_sub; auto. }
    assert (Pl : primitive D (tv w D l)).
    { apply primitive_local with (g := tlog D (tv w D g)); [intros u Hu; symmetry; auto|]. apply primitive_log; auto. }
    destruct (HR fuel jd ji jp jd ji jp (t_data l) Hfu (proj2 Kl)) as (x & c' & y & E1 & E2 & E3 & E4 & E5 & E6).
    { rewrite <- (tv_nil R w D l). apply Pl. }
    { intros u v Hu Hv Hu0 Hv0 Hlen. rewrite <- (proj2 Pl u v Hu0 Hv0 Hlen). apply sum_ext. intros s Hs. symmetry. apply tv_ok; auto; [apply (shuffles_letters w u v s); auto|]. apply shuffles_length in Hs. lia. }
    assert (AY : agree D (tv w D (mkT y tb)) (tv w D l)).
    { apply (agree_supp (qr R) w); [apply supp_tv|apply supp_tv|]. intros u Hu Hl. rewrite !tv_ok by auto. cbn [t_data]. apply E6.
      rewrite (proj2 Kl). apply pos_bound; auto. }
    exists l, x, c'. repeat (split; auto); [exists y; auto|].
    destruct (sig_ok x jd ji jp E3) as (s & Es & Ks & Gs & Vs). exists s. split; auto. apply agree_trans with (1 := Vs y E4).
    intros u Hu. transitivity (texp D (tlog D (tv w D g)) u); [|apply texp_tlog; auto].
    apply (agree_tpoly R D D (invfact R)); auto. apply agree_trans with (tv w D l); auto.
    apply agree_trans with (2 := AY). apply noconst_id. rewrite AY by (cbn; lia). apply Pl.
  Qed.

  (** The product of any list of Lie elements. *)
  Theorem cbh_product : exists F, forall fuel jd ji jp xs, (F <= fuel)%nat -> Forall (fun x => blen x = M) xs ->
    exists z c' s gs, cbh isz fuel inv jd ji jp B tb c0 xs = Ok (z, c') /\ reachable w c' /\ blen z = M /\
      to_signature isz jd ji jp B tb z = Ok s /\ Forall2 (fun x g => to_signature isz jd ji jp B tb x = Ok g) xs gs /\
      agree D (tv w D s) (tprod gs).
  Proof.
    destruct proj_ok as (F & HP). exists F. intros fuel jd ji jp xs Hfu Hxs. destruct cbh_N as (H1 & H2 & H3). assert (HM := cbh_M).
    assert (Hbs := basis_size_ok w H2 D). rewrite H3 in Hbs.
    assert (Gen : exists z c' s gs, (let! size := basis_size tb in let! one := bset (zeros (R:=qr R) size) 0 r1 in
        let! collector := cbh_fallback isz jd ji jp B tb (mkT one tb) xs in let! l := py_ft_log collector tb in
        py_tensor_to_lie isz fuel inv jd ji jp B c0 (t_data l) tb None) = Ok (z, c') /\ reachable w c' /\ blen z = M /\
      to_signature isz jd ji jp B tb z = Ok s /\ Forall2 (fun x g => to_signature isz jd ji jp B tb x = Ok g) xs gs /\ agree D (tv w D s) (tprod gs)).
    { rewrite Hbs. cbn [bind]. unfold bset. cbn [zeros blen]. assert (P := words_below_lt w H2 0 (S D) ltac:(lia)). assert (P0 := words_below_nonneg w H2 0).
      replace ((0 <=? 0) && (0 <? words_below w (S D))) with true by lia. cbn [bind].
      match goal with |- context [mkT ?b tb] => set (one := b) end.
      assert (Ko : tensor_ok w D (mkT one tb)) by (split; [cbn; rewrite H3; auto|reflexivity]).
      assert (Ao : agree D (tv w D (mkT one tb)) tone).
      { intros u Hu. rewrite <- (tv_one (qr R) w H2 D u Hu). unfold tv. cbn [t_data t_one bat one zeros]. reflexivity. }
      destruct (fallback_ok jd ji jp xs Hxs ltac:(lia) (mkT one tb) Ko) as (g & gs & Eg & Kg & Gg & F2 & Ag).
      { apply grouplike_local with (g := tone); [intros u Hu; symmetry; auto|apply grouplike_one]. }
      rewrite Eg. cbn [bind]. destruct (HP fuel jd ji jp g Hfu Kg Gg) as (l & x & c' & El & Ex & Hr & Lx & _ & s & Es & As). rewrite El. cbn [bind].
      exists x, c', s, gs. repeat (split; auto). apply agree_trans with (1 := As). apply agree_trans with (1 := Ag).
      intros u Hu. transitivity (conv tone (tprod gs) u); [|apply (conv_one_l (qr R) Z)]. revert u Hu. apply agree_conv; [auto|apply agree_refl]. }
    destruct xs as [|x [|y xs]]; try exact Gen. clear Gen. assert (Hx := Forall_inv Hxs). cbn beta in Hx.
    destruct (sig_ok x jd ji jp Hx) as (s & Es & Ks & Gs & Vs). exists x, c0, s, [s]. repeat (split; auto).
    intros u Hu. cbn [tprod fold_right]. symmetry. apply (conv_one_r (qr R) Z (tv w D s) u).
  Qed.
  Theorem cbh2_product : exists F, forall fuel jd ji jp x y, (F <= fuel)%nat -> blen x = M -> blen y = M ->
    exists z c' s gx gy, cbh2 isz fuel inv jd ji jp B tb c0 x y = Ok (z, c') /\ reachable w c' /\ blen z = M /\
      to_signature isz jd ji jp B tb z = Ok s /\ to_signature isz jd ji jp B tb x = Ok gx /\ to_signature isz jd ji jp B tb y = Ok gy /\
      agree D (tv w D s) (conv (tv w D gx) (tv w D gy)).
  Proof.
    destruct proj_ok as (F & HP). exists F. intros fuel jd ji jp x y Hfu Hx Hy. destruct cbh_N as (H1 & H2 & H3).
    destruct (sig_ok x jd ji jp Hx) as (gx & Ex & Kx & Gx & Vx). destruct (sig_ok y jd ji jp Hy) as (gy & Ey & Ky & Gy & Vy).
    destruct (emb x jd ji jp Hx) as (tx & Tx & KTx & PTx). destruct (emb y jd ji jp Hy) as (ty & Ty & KTy & PTy).
    unfold cbh2. rewrite Tx. cbn [bind]. assert (E1 := Ex). unfold to_signature in E1. rewrite Tx in E1. cbn [bind] in E1. rewrite E1. cbn [bind]. rewrite Ty. cbn [bind].
    destruct (py_ft_fmexp_spec R w H2 D D D gx (mkT ty tb) Kx KTy (le_n D) (le_n D)) as (g & Eg & Kg & Vg). rewrite H3 in Eg. rewrite Eg. cbn [bind].
    assert (Ag : agree D (tv w D g) (conv (tv w D gx) (tv w D gy))).
    { apply agree_trans with (1 := Vg). apply agree_conv; [apply agree_refl|]. apply agree_sym. apply (Vy ty Ty). }
    destruct (HP fuel jd ji jp g Hfu Kg) as (l & z & c' & El & Ez & Hr & Lz & _ & s & Es & As).
    { apply grouplike_local with (g := conv (tv w D gx) (tv w D gy)); [intros u Hu; symmetry; auto|]. apply grouplike_conv; auto. }
    rewrite El. cbn [bind]. exists z, c', s, gx, gy. repeat (split; auto). apply agree_trans with (1 := As). exact Ag.
  Qed.
End CbhProofs.

(** Logarithms of signatures are Lie elements. *)
Theorem log_signature_is_lie : forall (R : qalg) (isz : R -> bool), (forall x, isz x = true <-> x = r0) -> (r1 : R) <> r0 ->
  forall inv : Z -> R, (forall d, 1 <= d -> rmul (zr R d) (inv d) = r1) ->
  forall B w N M c0, standard B w N -> l2t_fits w N -> small_brackets B w -> reachable w c0 -> lb_size B = Ok M ->
  exists F, forall fuel jd ji jp g, (F <= fuel)%nat -> signature R w (Z.to_nat N) g ->
  exists l x c' y, py_ft_log g (tensor_basis w N) = Ok l /\ py_tensor_to_lie isz fuel inv jd ji jp B c0 (t_data l) (tensor_basis w N) None = Ok (x, c') /\
    reachable w c' /\ blen x = M /\ py_lie_to_tensor isz jd ji jp B x (tensor_basis w N) None = Ok y /\
    agree (Z.to_nat N) (tv w (Z.to_nat N) (mkT y (tensor_basis w N))) (tv w (Z.to_nat N) l).
Proof.
  intros R isz Hz H1 inv Hinv B w N M c0 HS HF Hsm Hre EM.
  destruct (proj_ok R isz Hz H1 inv Hinv B w N M HS HF EM Hsm c0 Hre) as (F & HP). exists F. intros fuel jd ji jp g Hfu Hg.
  apply signature_grouplike in Hg; [|destruct HF; lia]. destruct Hg as [Kg Gg].
  destruct (HP fuel jd ji jp g Hfu Kg Gg) as (l & x & c' & El & Ex & Hr & Lx & (y & Ey & Ay) & _). exists l, x, c', y. auto 10.
Qed.
Lemma ex_cbh : exists B, construct_lie_basis junk0 junk0 2 3 = Ok B /\ standard B 2 3 /\ l2t_fits 2 3 /\ small_brackets B 2 /\
  option_map (map this) (buf_list (fstout (cbh (R:=Qcqa) qisz 50 qinvz (fun _ => 0%Qc : Qccr) (fun _ => 88) (fun _ => 99) B (tensor_basis 2 3) lc_empty
     [buf_of (0%Qc : Qccr) (map Q2Qc [1; 0; 0; 0; 0]%Q); buf_of (0%Qc : Qccr) (map Q2Qc [0; 1; 0; 0; 0]%Q)]))) = Some [1; 1; 1#2; 1#12; -1#12]%Q.
Proof.
  assert (X : match construct_lie_basis junk0 junk0 2 3 with Ok B =>
     forallb (fun x => forallb (fun k => match ans_of (lmc_get 50 B lc_empty (x, k)) with Some e => forallb (fun p => (- 2 ^ 31 <=? snd p) && (snd p <? 2 ^ 31)) e | None => false end) (zseq 1 (Z.to_nat 5))) (zseq 1 (Z.to_nat 2)) = true /\
     lb_size B = Ok 5 /\ option_map (map this) (buf_list (fstout (cbh (R:=Qcqa) qisz 50 qinvz (fun _ => 0%Qc : Qccr) (fun _ => 88) (fun _ => 99) B (tensor_basis 2 3) lc_empty
     [buf_of (0%Qc : Qccr) (map Q2Qc [1; 0; 0; 0; 0]%Q); buf_of (0%Qc : Qccr) (map Q2Qc [0; 1; 0; 0; 0]%Q)]))) = Some [1; 1; 1#2; 1#12; -1#12]%Q
     | _ => False end) by (vm_compute; repeat split).
  destruct (construct_lie_basis junk0 junk0 2 3) as [B| | |] eqn:E; [|destruct X..]. destruct X as (X1 & X2 & X3). exists B. split; auto.
  assert (HS : standard B 2 3) by (split; [unfold fits, I64_MAX; lia|exists junk0, junk0; exact E]). split; auto. split; [unfold l2t_fits, I64_MAX; lia|].
  split; [apply (small_check B 2 3 5 50 HS X2 X1)|exact X3].
Qed.
