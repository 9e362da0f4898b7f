(** Queries with support and default resolution; histories. *)
From Coq Require Import ZifyBool Lqa Qround Qabs.
From Verif Require Export StreamProofs2.
From Verif Require Import DyadicProofs DyadicProofs2 DyadicProofs3.
Open Scope Z_scope.

(** *** The default resolution *)
Lemma qlog2_spec x : (0 < x)%Q -> (Qpower 2 (qlog2 x) <= x)%Q /\ (x < Qpower 2 (qlog2 x + 1))%Q.
Proof.
  intros Hx. unfold qlog2. destruct x as [p q]. cbn [Qnum Qden]. assert (Hp : 0 < p) by (unfold Qlt in Hx; cbn in Hx; lia).
  destruct (Z.log2_spec p Hp) as [A1 A2]. destruct (Z.log2_spec (Zpos q) ltac:(lia)) as [B1 B2]. assert (Na := Z.log2_nonneg p). assert (Nb := Z.log2_nonneg (Zpos q)).
  set (a := Z.log2 p) in *. set (b := Z.log2 (Zpos q)) in *.
  assert (Hlow : (Qpower 2 (a - b - 1) <= p # q)%Q).
  { assert (E : (Qpower 2 (a - b - 1) == inject_Z (2 ^ a) / inject_Z (2 ^ (b + 1)))%Q).
    { rewrite <- !Qpow2_Z by lia. assert (N := Qpow2_pos (b + 1)). apply (Qmult_inj_r _ _ (Qpower 2 (b + 1))); [lra|]. rewrite <- Qpow2_plus. field_simplify; [|lra]. replace (a - b - 1 + (b + 1)) with a by lia. reflexivity. }
    rewrite E. apply Qle_shift_div_r; [change 0%Q with (inject_Z 0); rewrite <- Zlt_Qlt; apply Z.pow_pos_nonneg; lia|]. unfold Z.succ in *. unfold Qle, Qmult, inject_Z; cbn [Qnum Qden]. nia. }
  assert (Hhigh : (p # q < Qpower 2 (a - b + 1))%Q).
  { assert (E : (Qpower 2 (a - b + 1) == inject_Z (2 ^ (a + 1)) / inject_Z (2 ^ b))%Q).
    { rewrite <- !Qpow2_Z by lia. assert (N := Qpow2_pos b). apply (Qmult_inj_r _ _ (Qpower 2 b)); [lra|]. rewrite <- Qpow2_plus. field_simplify; [|lra]. replace (a - b + 1 + b) with (a + 1) by lia. reflexivity. }
    rewrite E. apply Qlt_shift_div_l; [change 0%Q with (inject_Z 0); rewrite <- Zlt_Qlt; apply Z.pow_pos_nonneg; lia|]. unfold Z.succ in *. unfold Qlt, Qmult, inject_Z; cbn [Qnum Qden]. nia. }
  destruct (qle (Qpower 2 (a - b)) (p # q)) eqn:E.
  - apply qle_iff in E. auto.
  - apply qle_niff in E. split; auto. replace (a - b - 1 + 1) with (a - b) by lia. exact E.
Qed.
Lemma p2r_spec x : (0 < x)%Q -> let r := param_to_resolution x in 0 <= r /\ (Qpower 2 (- r) <= x)%Q /\ (r = 0 \/ (x < Qpower 2 (1 - r))%Q).
Proof.
  intros Hx. destruct (qlog2_spec x Hx) as [H1 H2]. unfold param_to_resolution. set (e := qlog2 x) in *. cbn zeta. destruct (Z_le_gt_dec 0 e) as [He|He].
  - rewrite Z.min_l by lia. cbn [Z.opp]. split; [lia|]. split; [|left; reflexivity]. eapply Qle_trans; [|exact H1]. cbn [Z.opp]. rewrite !Qpow2_Z by lia. rewrite <- Zle_Qle. assert (P := pow2_pos e He). change (2 ^ 0) with 1. lia.
  - rewrite Z.min_r by lia. rewrite Z.opp_involutive. split; [lia|]. split; auto. right. replace (1 - - e) with (e + 1) by lia. exact H2.
Qed.
Lemma refine_spec {lie} (s : stream lie) i : (ri_inf i <= ri_sup i)%Q -> (ri_inf (st_support s) <= ri_sup (st_support s))%Q ->
  (refine_interval s i = None /\ (upto s i <= from s i)%Q) \/
  (exists q R, refine_interval s i = Some (q, R) /\ ri_inf q = from s i /\ ri_sup q = upto s i /\ (from s i < upto s i)%Q /\ default_resolution s i R).
Proof.
  intros Hi Hs. unfold refine_interval, check_support_and_trim. 
  assert (Ef : qmax (ri_inf i) (ri_inf (st_support s)) = from s i) by (unfold qmax, from, later, qlt; destruct (Qle_bool (ri_inf (st_support s)) (ri_inf i)); reflexivity).
  assert (Eu : qmin (ri_sup i) (ri_sup (st_support s)) = upto s i) by (unfold qmin, upto, earlier, qlt; destruct (Qle_bool (ri_sup i) (ri_sup (st_support s))); reflexivity).
  assert (Lf : (ri_inf i <= from s i)%Q /\ (ri_inf (st_support s) <= from s i)%Q).
  { unfold from, later. destruct (Qle_bool (ri_inf (st_support s)) (ri_inf i)) eqn:E; [apply Qle_bool_iff in E; lra|]. assert (X := proj1 (qle_niff _ _) E). lra. }
  assert (Lu : (upto s i <= ri_sup i)%Q /\ (upto s i <= ri_sup (st_support s))%Q).
  { unfold upto, earlier. destruct (Qle_bool (ri_sup i) (ri_sup (st_support s))) eqn:E; [apply Qle_bool_iff in E; lra|]. assert (X := proj1 (qle_niff _ _) E). lra. }
  rewrite Ef, Eu.
  destruct (qlt (ri_sup i) (ri_inf (st_support s)) || qlt (ri_sup (st_support s)) (ri_inf i)) eqn:D.
  - left. split; auto. apply orb_true_iff in D. destruct D as [D|D]; apply qlt_iff in D; lra.
  - apply orb_false_iff in D. destruct D as [D1 D2]. apply qlt_niff in D1. apply qlt_niff in D2.
    assert (Hle : (from s i <= upto s i)%Q).
    { unfold from, upto, later, earlier. destruct (Qle_bool (ri_inf (st_support s)) (ri_inf i)), (Qle_bool (ri_sup i) (ri_sup (st_support s))); auto. }
    unfold ri_make. rewrite (proj2 (qlt_niff _ _) Hle). cbn [ri_sup ri_inf]. destruct (qeq (upto s i - from s i) 0) eqn:Z.
    + left. split; auto. apply Qeq_bool_iff in Z. lra.
    + right. eexists _, _. split; [reflexivity|]. cbn [ri_sup ri_inf]. split; auto. split; auto.
      assert (Hlt : (from s i < upto s i)%Q). { assert (N : ~ (upto s i - from s i == 0)%Q) by (intros X; apply Qeq_bool_iff in X; unfold qeq in Z; congruence). lra. }
      split; auto. destruct (p2r_spec (upto s i - from s i)%Q ltac:(lra)) as (R1 & R2 & R3). eexists. split; [exact R1|]. split; [exact R2|]. split; [exact R3|]. reflexivity.
Qed.

Section History.
  Variable lie : Type.
  Variable is_zero : lie -> bool.
  Variable lie_none : lie.
  Hypothesis none_zero : is_zero lie_none = true.
  Variable S : sigs lie.
  Variable ok : lie -> Prop.
  Variable ctx : actx lie.
  Hypothesis HS : sound is_zero S ok ctx.
  Variable s : stream lie.
  Hypothesis Hst : stream_ok ok s.
  Notation d := (st_data s).
  Notation res := (st_res s).
  Infix "===" := (sg_eq S) (at level 70).
  Notation cinv := (cinv lie ctx d res).
  Notation contrib := (contrib lie d res).

  Lemma contrib_gives k n : piece_gives res d (k, n) (map snd (contrib k n)).
  Proof using lie s.
    clear none_zero HS Hst.
    unfold piece_gives, StreamProofs.contrib. destruct (n <=? res) eqn:E; [left; split; [lia|reflexivity]|].
    assert (En : n = res + (n - res)) by lia. assert (P := pow2_pos (n - res) ltac:(lia)). assert (DM := Z.div_mod k (2 ^ (n - res)) ltac:(lia)).
    assert (EQ : forall q, (dy k n == dy q res)%Q <-> k = q * 2 ^ (n - res)).
    { intros q. rewrite (dy_scale q res (n - res)) by lia. rewrite <- En. apply dy_same_eq. }
    destruct (k mod 2 ^ (n - res) =? 0) eqn:Em; cbn [andb].
    - unfold part. unfold within. fold (inb lie). change (fun e : Q * lie => Qle_bool (dy k n) (fst e) && negb (Qle_bool (dy (k + 1) n) (fst e))) with (inb lie (dy k n) (dy (k + 1) n)).
      destruct (filter (inb lie (dy k n) (dy (k + 1) n)) d) eqn:Ef.
      + right. right. left. split; [lia|]. auto.
      + right. left. split; [lia|]. split; [discriminate|]. exists (k / 2 ^ (n - res)). split; [apply EQ; lia|reflexivity].
    - right. right. right. split; [lia|]. split; auto. intros q. rewrite EQ. intros ->. rewrite Z_mod_mult in Em. discriminate.
  Qed.

  (** What a query of [lo, hi) at resolution [tol] of the cached stream amounts to. *)
  Definition made_of (lo hi : Q) (tol : Z) (p : sg_t S) : Prop :=
    (hi <= lo)%Q /\ p === sg_one S \/
    exists pieces outs, end_to_end (grid_floor lo tol) (grid_floor hi tol) pieces /\ Forall (fun c => snd c <= tol) pieces /\
      Forall2 (piece_gives res d) pieces outs /\ p === sg_prod S (concat outs).

  Lemma impl_made q tol : (ri_inf q <= ri_sup q)%Q -> fits_query (ri_inf q) (ri_sup q) tol res ->
    exists x, ok x /\ made_of (ri_inf q) (ri_sup q) tol (sg_of S x) /\ (tol <= res -> sg_of S x === sg_prod S (within (grid_floor (ri_inf q) tol) (grid_floor (ri_sup q) tol) d)) /\
      forall fuel c, (31 <= fuel)%nat -> cinv c -> exists c', stream_impl is_zero lie_none fuel s c q tol ctx = Ok (x, c') /\ cinv c'.
  Proof.
    intros Hle Hfit. destruct Hst as (Hasc & Hok & Hsup).
    destruct (stream_impl_ok lie is_zero lie_none none_zero S ok ctx HS s Hasc Hok q tol Hle Hfit) as (l & x & El & Hl & HE & Ox & Px & Fx).
    exists x. split; auto. split; [|split; auto].
    - right. exists (map cell l), (map (fun i => map snd (contrib (di_k i) (di_n i))) l). split; auto. split; [|split].
      + rewrite Forall_map. eapply Forall_impl; [|exact Hl]. cbn. tauto.
      + clear. induction l as [|i l IH]; cbn [map]; constructor; auto. apply contrib_gives.
      + replace (concat _) with (map snd (flat_map (fun i => contrib (di_k i) (di_n i)) l)); auto. clear. induction l as [|i l IH]; auto. cbn. rewrite map_app, IH. reflexivity.
    - intros Htr. rewrite (flat_coarse lie is_zero lie_none none_zero s Hasc l _ _ HE) in Px; [exact Px|]. eapply Forall_impl; [|exact Hl]. cbn. intros i [_ ?]. lia.
  Qed.

  Lemma between_none lo hi (e : list (Q * lie)) : (hi <= lo)%Q -> within lo hi e = [].
  Proof. intros H. unfold within. change (fun e0 : Q * lie => _) with (inb lie lo hi). rewrite filter_none; auto. intros e0 _. destruct (inb lie lo hi e0) eqn:E; auto. apply inb_iff in E. exfalso. lra. Qed.
  Lemma grid_mono x y n : (x <= y)%Q -> (grid_floor x n <= grid_floor y n)%Q.
  Proof. intros H. unfold grid_floor. apply dy_same_le. apply Qfloor_resp_le. apply Qmult_le_compat_r; auto. apply Qlt_le_weak, Qpow2_pos. Qed.

  (** The query at resolution [tol], with support. *)
  Definition at_ok (i : ri) (tol : Z) (x : lie) : Prop :=
    ok x /\ made_of (from s i) (upto s i) tol (sg_of S x) /\
    (tol <= res -> sg_of S x === sg_prod S (within (grid_floor (from s i) tol) (grid_floor (upto s i) tol) d)).
  Lemma log_at_ok i tol : (ri_inf i <= ri_sup i)%Q -> fits_query (from s i) (upto s i) tol res ->
    exists x, at_ok i tol x /\
      forall fuel c, (31 <= fuel)%nat -> cinv c -> exists c', log_signature_at is_zero lie_none fuel s c i tol ctx = Ok (x, c') /\ cinv c'.
  Proof.
    intros Hi Hfit. unfold log_signature_at. destruct (refine_spec s i Hi (proj2 (proj2 Hst))) as [[-> Hd]|(q & R & -> & E1 & E2 & Hlt & _)].
    - exists (cx_zero ctx). split; [|intros; eauto]. split; [apply (sd_zero_ok _ _ _ _ HS)|]. split; [left; split; auto; apply (sd_zero _ _ _ _ HS)|]. intros _. rewrite between_none by (apply grid_mono; auto). apply (sd_zero _ _ _ _ HS).
    - unfold at_ok. rewrite <- E1, <- E2 in *. destruct (impl_made q tol) as (x & O & M & P & F); auto; [lra|]. exists x. auto.
  Qed.
  Lemma log_default_ok i : (ri_inf i <= ri_sup i)%Q -> (forall tol, default_resolution s i tol -> fits_query (from s i) (upto s i) tol res) ->
    exists x, (((upto s i <= from s i)%Q /\ ok x /\ sg_of S x === sg_one S) \/ exists tol, (from s i < upto s i)%Q /\ default_resolution s i tol /\ at_ok i tol x) /\
      forall fuel c, (31 <= fuel)%nat -> cinv c -> exists c', log_signature is_zero lie_none fuel s c i ctx = Ok (x, c') /\ cinv c'.
  Proof.
    intros Hi Hfit. unfold log_signature. destruct (refine_spec s i Hi (proj2 (proj2 Hst))) as [[-> Hd]|(q & R & -> & E1 & E2 & Hlt & HR)].
    - exists (cx_zero ctx). split; [|intros; eauto]. left. split; auto. split; [apply (sd_zero_ok _ _ _ _ HS)|apply (sd_zero _ _ _ _ HS)].
    - assert (Hf := Hfit R HR). unfold at_ok. rewrite <- E1, <- E2 in *. destruct (impl_made q R) as (x & O & M & P & F); auto; [lra|]. exists x. split; auto. right. exists R. auto.
  Qed.
  (** The layer's query: through the cache for a context of the stream's depth, directly
      otherwise. *)
  Lemma fits_k inf sup tol r k n : fits_query inf sup tol r -> n <= tol ->
    (grid_floor inf tol <= dy k n)%Q -> (dy (k + 1) n <= grid_floor sup tol)%Q -> - 2 ^ 28 <= k <= 2 ^ 28.
  Proof.
    intros Hf Hn H1 H2. destruct (fits_piece _ _ _ _ _ _ Hf Hn H1 H2) as [A B]. destruct (Z_le_gt_dec n r) as [C|C]; [|lia]. destruct (A C) as (A1 & A2 & A3). assert (P := pow2_pos (r - n) ltac:(lia)). nia.
  Qed.
  Lemma impl_pieces_ok inf sup tol l : fits_query inf sup tol res -> Forall (fun i => di_t i = Clopen /\ di_n i <= tol) l ->
    (forall i, In i l -> (grid_floor inf tol <= dy (di_k i) (di_n i))%Q /\ (dy (di_k i + 1) (di_n i) <= grid_floor sup tol)%Q) ->
    exists xs, impl_pieces d ctx l = Ok xs /\ Forall ok xs /\ sg_prod S xs === sg_prod S (map snd (flat_map (fun i => part lie d (di_k i) (di_n i)) l)).
  Proof.
    destruct Hst as (Hasc & Hok & Hsup). intros Hfit Hl Hin. induction l as [|i l IH]; [exists []; split; [reflexivity|]; split; [constructor|]; apply (sd_refl _ _ _ _ HS)|].
    destruct (IH (Forall_inv_tail Hl)) as (xs & E & O & P); [intros; apply Hin; right; auto|]. destruct (Forall_inv Hl) as [Ti Ni]. destruct (Hin i (or_introl eq_refl)) as [B1 B2].
    assert (K := fits_k _ _ _ _ _ _ Hfit Ni B1 B2). assert (K9 : - 2 ^ 29 <= di_k i <= 2 ^ 29) by lia. destruct (impl_eval lie is_zero lie_none none_zero ctx d Hasc i Ti K9) as [EI _]. cbn [impl_pieces]. rewrite EI. cbn [bind]. rewrite E. cbn [bind].
    destruct (impl_good lie is_zero lie_none none_zero S ok ctx HS d Hasc Hok i _ Ti K9 EI) as [G _]. eexists. split; [reflexivity|]. split.
    - constructor; auto. assert (PO := part_ok lie ok d Hok (inb lie (dy (di_k i) (di_n i)) (dy (di_k i + 1) (di_n i)))). fold (part lie d (di_k i) (di_n i)) in PO.
      destruct (part lie d (di_k i) (di_n i)); [apply (sd_zero_ok _ _ _ _ HS)|apply (sd_cbh_ok _ _ _ _ HS); auto].
    - cbn [flat_map sg_prod fold_right]. rewrite map_app. apply (sd_sym _ _ _ _ HS). eapply (sd_trans _ _ _ _ HS); [apply (prod_app lie is_zero S ok ctx HS)|]. apply (sd_mul _ _ _ _ HS); apply (sd_sym _ _ _ _ HS); auto.
  Qed.
  Lemma flat_part l : forall x y, end_to_end x y (map cell l) -> flat_map (fun i => part lie d (di_k i) (di_n i)) l = filter (inb lie x y) d.
  Proof.
    destruct Hst as (Hasc & _). induction l as [|i l IH]; intros x y HE; cbn [map flat_map] in *.
    - symmetry. apply filter_none. intros e _. destruct (inb lie x y e) eqn:E; auto. apply inb_iff in E. cbn in HE. rewrite HE in E. exfalso. lra.
    - cbn [cell end_to_end] in HE. destruct HE as [Hx HE]. rewrite (IH _ _ HE).
      unfold part. symmetry. erewrite (filter_ext' lie x (dy (di_k i) (di_n i)) y y); [|exact Hx|reflexivity]. apply filter_split; auto; [apply dy_same_le; lia|]. apply (e2e_le lie is_zero lie_none none_zero _ _ _ HE).
  Qed.
  Lemma layer_ok i tol : (ri_inf i <= ri_sup i)%Q -> fits_query (ri_inf i) (ri_sup i) tol res -> cx_width ctx = cx_width (st_ctx s) ->
    exists x, ok x /\ (cx_depth ctx = cx_depth (st_ctx s) -> made_of (ri_inf i) (ri_sup i) tol (sg_of S x)) /\
      (cx_depth ctx <> cx_depth (st_ctx s) \/ tol <= res -> sg_of S x === sg_prod S (within (grid_floor (ri_inf i) tol) (grid_floor (ri_sup i) tol) d)) /\
      forall fuel c, (31 <= fuel)%nat -> cinv c -> exists c', layer_interval is_zero lie_none fuel s c i tol ctx = Ok (x, c') /\ cinv c'.
  Proof.
    intros Hle Hfit Hw. unfold layer_interval. rewrite Hw, Z.eqb_refl. cbn [negb]. destruct (cx_depth ctx =? cx_depth (st_ctx s)) eqn:E; cbn [negb].
    - destruct (impl_made i tol Hle Hfit) as (x & O & M & P & F). exists x. split; auto. split; auto. split; [intros [?|?]; auto; lia|]. exact F.
    - destruct (fits_window _ _ _ _ Hfit) as (Ht & W1 & W2). destruct (dissection_correct _ _ tol Hle Ht W1 W2 31 (le_n _)) as (l & El & Hl & HE).
      destruct (impl_pieces_ok _ _ tol l Hfit Hl) as (xs & Ex & Ox & Px).
      { intros j Hj. apply (end_to_end_in _ _ _ (di_k j) (di_n j) HE). apply (in_map cell) in Hj. exact Hj. }
      rewrite (flat_part l _ _ HE) in Px. exists (cx_cbh ctx xs). split; [apply (sd_cbh_ok _ _ _ _ HS); auto|]. split; [lia|]. split.
      + intros _. eapply (sd_trans _ _ _ _ HS); [apply (sd_cbh _ _ _ _ HS); auto|exact Px].
      + intros fuel c Hf Hc. rewrite (tdi_more 31 fuel _ _ _ _ _ El Hf). cbn [bind]. rewrite Ex. cbn [bind]. exists c. auto.
  Qed.

  Lemma ask_ok q : fits_call s ctx q -> exists x, ok x /\ forall fuel c, (31 <= fuel)%nat -> cinv c -> exists c', ask is_zero lie_none fuel s ctx c q = Ok (x, c') /\ cinv c'.
  Proof.
    destruct q as [i r|i|i r]; cbn [fits_call ask].
    - intros [H1 H2]. destruct (log_at_ok i r H1 H2) as (x & [O _] & F). eauto.
    - intros [H1 H2]. destruct (log_default_ok i H1 H2) as (x & [(_ & O & _)|(tol & _ & _ & O & _)] & F); eauto.
    - intros (H1 & H2 & H3). destruct (layer_ok i r H1 H2 H3) as (x & O & _ & _ & F). eauto.
  Qed.
  Lemma ask_all_ok qs : Forall (fits_call s ctx) qs -> exists xs, Forall ok xs /\ forall fuel c, (31 <= fuel)%nat -> cinv c -> exists c', ask_all is_zero lie_none fuel s ctx c qs = Ok (xs, c') /\ cinv c'.
  Proof.
    induction qs as [|q qs IH]; intros H.
    - exists []. split; auto. intros fuel c _ Hc. exists c. auto.
    - destruct (ask_ok q (Forall_inv H)) as (x & O & F). destruct (IH (Forall_inv_tail H)) as (xs & Os & Fs). exists (x :: xs). split; auto. intros fuel c Hf Hc. cbn [ask_all].
      destruct (F fuel c Hf Hc) as (c1 & -> & H1). cbn [bind]. destruct (Fs fuel c1 Hf H1) as (c2 & -> & H2). cbn [bind]. eauto.
  Qed.
  Lemma cinv_nil : cinv [].
  Proof. intros i v []. Qed.
End History.
