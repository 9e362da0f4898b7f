(** Dynamically constructed streams: the remaining statements of the property file. *)
From Coq Require Import ZifyBool Lqa Qround.
From Verif Require Export DynLemmas DynProofs7.
From Verif Require Import DyadicLemmas DyadicProofs DyadicProofs2 DyadicProofs3 StreamProofs2 StreamProofs3 StreamLemmas TickLemmas.
Open Scope Z_scope.

Definition triv lie : sigs lie := mkSigs lie Datatypes.unit (fun _ _ => True) (fun _ _ => tt) tt (fun _ => tt).
Lemma triv_sound lie is_zero ctx : sound is_zero (triv lie) (fun _ => True) ctx.
Proof. constructor; intros; exact I. Qed.
Lemma triv_pair lie cbh2 : pair_sound cbh2 (triv lie) (fun _ => True).
Proof. split; exact I. Qed.
Lemma triv_path lie : path (triv lie) (fun _ _ => tt).
Proof. constructor; intros; exact I. Qed.
Lemma triv_source lie st (R : rule lie st) : source_of (triv lie) (fun _ => True) (fun _ _ => tt) R.
Proof. constructor; intros; [split; exact I..|]. destruct (ru_children R g _ _ v) as [[x y] g1]. repeat split. Qed.

Section Rest.
  Variable lie st : Type.
  Variable is_zero : lie -> bool.
  Variable cbh2 : lie -> lie -> lie.
  Variable R : rule lie st.
  Variable ctx : actx lie.
  Variable support : ri.
  Hypothesis Hsup : (ri_inf support <= ri_sup support)%Q.
  Variable res : Z.
  Variable g0 : st.

  Theorem dyn_total : forall qs, fits_history support res qs -> one_sided support qs -> exists xs, dyn_answers is_zero cbh2 R g0 support ctx qs xs.
  Proof.
    intros qs Hf Hs. destruct (dyn_exact lie st is_zero cbh2 R (triv lie) (fun _ => True) ctx (triv_sound _ _ _) (triv_pair _ _) support Hsup res g0 _ (triv_path lie) (triv_source lie st R) qs Hf Hs) as (xs & A & _). exists xs. exact A.
  Qed.
  (** The state after a history. *)
  Notation RPt h := (RP lie (triv lie) (fun _ => True) res (fun _ _ => tt) h).
  Lemma history_state qs h : (h = 0 \/ h = -1) -> fits_history support res qs -> (forall i r, In (i, r) qs -> meets support i -> side h (grid_floor (cut_from support i) r) (grid_floor (cut_upto support i) r)) ->
    forall fuel, (big <= fuel)%nat -> exists xs t g, dyn_all is_zero cbh2 R fuel g0 [] support ctx qs = Ok (xs, t, g) /\ RPt h t /\ Forall2 (answered lie (triv lie) (fun _ => True) res support t) qs xs.
  Proof.
    intros Hh [Hres Hf] Hside fuel Hfu.
    destruct (history_ok lie st is_zero cbh2 R (triv lie) (fun _ => True) ctx (triv_sound _ _ _) res h Hh (RPt h) (fun _ _ => True)
      (right_step lie st is_zero cbh2 R (triv lie) (fun _ => True) ctx (triv_sound _ _ _) (triv_pair _ _) res (fun _ _ => tt) (triv_path lie) (triv_source lie st R) h Hh Hres) support Hsup fuel (big_ok _ Hfu) qs [] g0) as (xs & t & g & E & P & _ & A); [left; auto|..].
    { apply Forall_forall. intros [i r] Hi. destruct (Hf i r Hi) as [F1 F2]. split; auto. intros M. destruct (F2 M). split; auto. }
    eauto 8.
  Qed.
  Theorem dyn_saved : forall qs, fits_history support res qs -> one_sided support qs -> forall fuel xs t g, dyn_all is_zero cbh2 R fuel g0 [] support ctx qs = Ok (xs, t, g) ->
    exists l, dn_store t = Ok l /\ dn_load l = Ok t.
  Proof.
    intros qs Hf Hs fuel xs t g E. destruct (sided support qs Hs) as (h & Hh & Hside).
    destruct (history_state qs h Hh Hf Hside (Nat.max fuel big) (Nat.le_max_r _ _)) as (xs' & t' & g' & E' & P & _). rewrite (all_more _ _ _ _ _ _ _ _ _ (Nat.le_max_l fuel big) _ _ _ _ E) in E'. injection E' as <- <- <-.
    destruct P as [-> | (rk & rm & I)]; [exists []; split; reflexivity|]. apply (tinv_saved lie res (proj1 Hf) _ _ _ _ _ _ _ I).
  Qed.

  (** *** Both sides of 0 *)
  Lemma contains_sign i j : di_t i = Clopen -> contains_dyadic i j = Ok true -> (0 <= di_k i <-> 0 <= di_k j).
  Proof.
    intros Ti. unfold contains_dyadic, unit. rewrite Ti. destruct (negb _); [discriminate|]. destruct (_ >=? _); [|discriminate]. cbn [unit_t]. intros H.
    apply bind_ok in H. destruct H as (e & _ & H). apply bind_ok in H. destruct H as (p & Ep & H). unfold two_pow in Ep. destruct (_ && _) eqn:Ee; [|discriminate]. injection Ep as <-. assert (Pe := pow2_pos e ltac:(lia)).
    cbn beta in H. unfold DyadicModel.shift, two_pow in H. rewrite Ee in H. cbn [bind] in H. apply bind_ok in H. destruct H as (s & Es & H). apply bind_ok in H. destruct H as (a & Ea & H). apply bind_ok in H. destruct H as (m & Em & H). apply bind_ok in H. destruct H as (b & Eb & H). apply bind_ok in H. destruct H as (c & Ec & H). injection H as H.
    assert (Q : forall x y, i32 x = Ok y -> y = x) by (intros x y X; apply i32_inv in X; apply X). apply Q in Es, Ea, Eb, Ec. rewrite Z.mul_1_r in Ea. subst s a b c.
    unfold cmod in Em. replace (2 ^ e =? 0) with false in Em by lia. assert (Rm := Z.rem_bound_abs (di_k j) (2 ^ e) ltac:(lia)). assert (M : m = di_k j mod 2 ^ e).
    { assert (D := Z.quot_rem (di_k j) (2 ^ e) ltac:(lia)). destruct (Z.rem (di_k j) (2 ^ e) <? 0) eqn:Er.
      - apply Q in Em. subst m. apply (Z.mod_unique _ _ (Z.quot (di_k j) (2 ^ e) - 1)); [lia|]. rewrite (Z.abs_eq (2 ^ e)) by lia. lia.
      - injection Em as <-. apply (Z.mod_unique _ _ (Z.quot (di_k j) (2 ^ e))); lia. }
    assert (D := Z.div_mod (di_k j) (2 ^ e) ltac:(lia)). assert (Mb := Z.mod_pos_bound (di_k j) (2 ^ e) Pe). assert (X : di_k i = di_k j / 2 ^ e) by nia. rewrite X. split; intros Y; [|apply Z.div_pos; lia]. nia.
  Qed.
  Lemma contains_far i j : di_t i = Clopen -> di_n i < di_n j - 30 -> contains_dyadic i j <> Ok true /\ contains_dyadic i j <> Ok false \/ di_t j <> Clopen.
  Proof.
    intros Ti L. destruct (di_t j) eqn:Tj; [left|right; discriminate]. unfold contains_dyadic. rewrite Ti, Tj. cbn [itype_eqb negb]. replace (di_n j >=? di_n i) with true by lia. cbn zeta.
    assert (X : forall b, (let! e := i32 (di_n j - di_n i) in let! pow := two_pow e in let! shifted := DyadicModel.shift (di_k i) e in let! a := i32 (di_k j * unit i) in let! m := cmod a pow in let! b := i32 (a - m) in let! al := i32 (unit i * b) in Ok (shifted =? al)) <> Ok b); [|split; apply X].
    intros b H. apply bind_ok in H. destruct H as (e & Ee & H). apply i32_inv in Ee. destruct Ee as [-> _]. apply bind_ok in H. destruct H as (p & Ep & _). unfold two_pow in Ep. destruct (_ && _) eqn:X; [lia|discriminate].
  Qed.
  Lemma expand_never fuel : forall g t root di r, di_t root = Clopen -> di_t di = Clopen -> small (di_k root) -> - 2 ^ 28 <= di_n di <= 2 ^ 28 -> di_n di - 31 <= di_n root <= 2 ^ 28 -> ~ (0 <= di_k root <-> 0 <= di_k di) ->
    dn_expand cbh2 R fuel g t root di <> Ok r.
  Proof.
    induction fuel as [|fuel IH]; intros g t root di r Tr Td Sk Hd Hr Hs H; [discriminate|]. cbn [dn_expand] in H. apply bind_ok in H. destruct H as (b & Eb & H). destruct b; [exact (Hs (contains_sign _ _ Tr Eb))|].
    destruct (Z_lt_le_dec (di_n root) (di_n di - 30)) as [L|L]; [destruct (contains_far root di Tr L) as [[_ X]|X]; auto|].
    rewrite (expand_eval root 1) in H by (auto; lia). rewrite Z.pow_1_r in H. cbn [bind] in H. apply bind_ok in H. destruct H as (al & _ & H). apply bind_ok in H. destruct H as (nb & _ & H). destruct (ru_neighbour R g nb) as [x g1]. apply bind_ok in H. destruct H as (t1 & _ & H). destruct (ru_root R g1 _) as [y g2].
    do 4 (apply bind_ok in H; destruct H as (? & _ & H)). assert (Dk := Z.div_mod (di_k root) 2 ltac:(lia)). assert (Dm := Z.mod_pos_bound (di_k root) 2 ltac:(lia)). revert H. apply IH; cbn [di_t di_k di_n]; auto; [unfold small in *; lia|lia|]. intros X. apply Hs. rewrite <- X. lia.
  Qed.
  Lemma all_app fuel qs qs' : forall g t r, dyn_all is_zero cbh2 R fuel g t support ctx (qs ++ qs') = Ok r -> forall xs t1 g1, dyn_all is_zero cbh2 R fuel g t support ctx qs = Ok (xs, t1, g1) -> exists r', dyn_all is_zero cbh2 R fuel g1 t1 support ctx qs' = Ok r'.
  Proof.
    induction qs as [|[i r] qs IH]; intros g t r0 H xs t1 g1 H1; cbn [app dyn_all] in *; [injection H1 as <- <- <-; eauto|].
    apply bind_ok in H. destruct H as ([[x t2] g2] & E & H). rewrite E in H1. cbn [bind] in H1. apply bind_ok in H1. destruct H1 as ([[xs1 t3] g3] & E1 & H1). injection H1 as <- <- <-. apply bind_ok in H. destruct H as (r1 & E2 & _). eapply IH; eauto.
  Qed.
  Theorem dyn_two_sides : forall qs q, fits_history support res (qs ++ [q]) -> (exists p, In p qs /\ not_empty support p) -> not_empty support q -> other_side support qs q ->
    forall fuel r, dyn_all is_zero cbh2 R fuel g0 [] support ctx (qs ++ [q]) <> Ok r.
  Proof.
    intros qs [i r0] [Hres Hf] (p & Hp & Np) [Mq Nq] Ho fuel r H. cbn [fst snd] in *. apply (all_more _ _ _ _ _ _ _ _ _ (Nat.le_max_l fuel big)) in H. set (F := Nat.max fuel big) in *.
    assert (X : exists h, (h = 0 \/ h = -1) /\ (forall i r, In (i, r) qs -> meets support i -> side h (grid_floor (cut_from support i) r) (grid_floor (cut_upto support i) r)) /\ (h = 0 <-> (grid_floor (cut_from support i) r0 < 0)%Q)).
    { destruct Ho as [[H1 H2]|[H1 H2]]; [exists 0|exists (-1)]; (split; [auto|]; split; [intros j s Hj M; unfold side; auto|]); cbn [fst snd] in *; split; intros; try lia; auto. lra. }
    destruct X as (h & Hh & Hside & Hsign).
    assert (Hf1 : fits_history support res qs) by (split; auto; intros j s Hj; apply Hf; apply in_app_iff; auto).
    destruct (history_state qs h Hh Hf1 Hside F (Nat.le_max_r _ _)) as (xs & t & g & E & P & A). destruct (all_app F qs _ _ _ _ H _ _ _ E) as (r' & E'). clear H.
    assert (I : exists rk rm, DynProofs2.tinv lie (triv lie) (fun _ => True) res h (Rv lie (triv lie) res (fun _ _ => tt)) t rk rm).
    { destruct P as [-> | I]; auto. exfalso. destruct p as [j s]. destruct Np as [Mp Np]. cbn [fst snd] in *. assert (Y : exists x, answered lie (triv lie) (fun _ => True) res support [] (j, s) x) by (clear -A Hp; induction A as [|q x qs xs H A IH]; [destruct Hp|]; destruct Hp as [-> | Hp]; eauto).
      destruct Y as (x & _ & [[N _]|(_ & l & L1 & _ & vs & V & _)]); [auto|]. destruct V as [|d v l vs [_ V] _]; [|discriminate]. cbn in L1. rewrite L1 in Np. exact (Qlt_irrefl _ Np). }
    destruct I as (rk & rm & I). destruct (Hf i r0 ltac:(apply in_app_iff; right; left; auto)) as [Hi Hm]. destruct (Hm Mq) as [Hr Hfit].
    cbn [dyn_all] in E'. apply bind_ok in E'. destruct E' as ([[x t2] g2] & E' & _). unfold dn_log_signature_at in E'. set (s0 := mkStream [] 0 ctx support) in *.
    destruct (refine_spec s0 i Hi Hsup) as [(Er & Le)|(q & R0 & Er & Eq1 & Eq2 & Lt & _)]; rewrite Er in E'; [unfold meets in Mq; change (from s0 i) with (cut_from support i) in Le; change (upto s0 i) with (cut_upto support i) in Le; lra|].
    change (from s0 i) with (cut_from support i) in *. change (upto s0 i) with (cut_upto support i) in *. rewrite Eq1, Eq2 in E'.
    destruct (fits_window _ _ _ _ Hfit) as (Ht & W1 & W2). destruct (dissection_correct _ _ r0 (Qlt_le_weak _ _ Lt) Ht W1 W2 31 (le_n _)) as (l & El & Hl & HE).
    assert (Bf := big_ok F (Nat.le_max_r _ _)). unfold dn_stream_impl in E'. rewrite (tdi_more 31 F _ _ _ _ _ El) in E' by lia. cbn [bind] in E'.
    destruct l as [|d l]; [cbn in HE; rewrite HE in Nq; exact (Qlt_irrefl _ Nq)|]. destruct (end_to_end_in _ _ _ (di_k d) (di_n d) HE (or_introl eq_refl)) as [B1 B2]. destruct HE as [HE _]. destruct (Forall_inv Hl) as [Td Nd].
    apply bind_ok in E'. destruct E' as (r2 & E' & _). cbn [dn_pieces] in E'. apply bind_ok in E'. destruct E' as ([[x1 t3] g3] & E' & _).
    destruct (fits_piece _ _ r0 res (di_k d) (di_n d) Hfit Nd B1 B2) as [HC _]. destruct (HC ltac:(lia)) as (C1 & C2 & C3). set (m := res - di_n d) in *.
    assert (Nn : nfit (di_k d) m) by (split; auto; unfold m; lia). assert (Ed : d = TickProofs.nd res (di_k d) m) by (rewrite nd_self; auto).
    assert (Sign : 0 <= di_k d <-> h = -1).
    { assert (Z0 : (0 == dy 0 (di_n d))%Q) by (unfold dy; ring). cbn in HE. assert (Y : (dy (di_k d) (di_n d) < 0)%Q <-> di_k d < 0) by (rewrite Z0; apply dy_same_lt). destruct Hh as [-> | ->]; split; intros Y1; try lia.
      - exfalso. assert (Y2 := proj1 Hsign eq_refl). rewrite HE in Y2. apply Y in Y2. lia.
      - destruct (Z_lt_le_dec (di_k d) 0) as [Y2|Y2]; auto. apply Y in Y2. rewrite <- HE in Y2. apply Hsign in Y2. lia. }
    assert (Fit : forall k m, DynProofs2.fitn h k m -> (0 <= k <-> h = 0)). { intros k m' [F1 F2]. assert (P2 := pow2_pos (28 - m') ltac:(lia)). destruct Hh as [-> | ->]; split; intros; try lia; [|assert (Y := Z.div_pos k (2 ^ (28 - m')) H P2); lia]. destruct (Z_lt_le_dec k 0) as [Y|Y]; auto. assert (Y2 := Z.div_lt_upper_bound k (2 ^ (28 - m')) 0 P2 ltac:(lia)). lia. }
    unfold dn_dyadic in E'. rewrite Ed in E'. rewrite (find_look (dnode lie) res t _ (ti_fit _ _ _ _ _ _ _ _ _ I) (nd_kfit res _ _ Nn)) in E'. cbn [bind] in E'.
    destruct (TickProofs.look (dnode lie) t (TickProofs.nd res (di_k d) m)) as [v|] eqn:Lk.
    - assert (Fv := has_fitn _ _ _ _ _ _ _ _ _ _ _ _ I (conj Nn Lk)). apply Fit in Fv. lia.
    - rewrite (ti_begin _ _ _ _ _ _ _ _ _ I) in E'. cbn [bind] in E'. apply bind_ok in E'. destruct E' as (r3 & E' & _). revert E'. assert (Fr := ti_rfit _ _ _ _ _ _ _ _ _ I). assert (Sr := Fit _ _ Fr). assert (Nr := fitn_nfit h Hh _ _ Fr). assert (Br := nfit_k _ _ Nr).
      apply expand_never; cbn [di_t di_k di_n TickProofs.nd]; auto; [unfold small; lia|unfold m; lia|destruct Fr; unfold m; lia|lia].
  Qed.
End Rest.
