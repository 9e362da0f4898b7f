(** Tick streams: queries. *)
From Coq Require Import ZifyBool Lqa Qround.
From Verif Require Export TickProofs3 StreamLemmas.
From Verif Require Import DyadicProofs DyadicProofs2 DyadicProofs3.
Open Scope Z_scope.

Lemma cell_ge A n res t : n <= res -> ((dy A n <= t)%Q <-> A * 2 ^ (res - n) <= tick_cell res t).
Proof.
  intros Hn. rewrite (dy_scale A n (res - n)) by lia. replace (n + (res - n)) with res by lia. set (A' := A * 2 ^ (res - n)). unfold tick_cell.
  assert (P := Qpow2_pos res). assert (E : (dy A' res * Qpower 2 res == inject_Z A')%Q).
  { unfold dy. rewrite <- Qmult_assoc, <- Qpow2_plus. replace (- res + res) with 0 by lia. cbn. ring. }
  split; intros H.
  - assert (X : (inject_Z A' <= t * Qpower 2 res)%Q) by (rewrite <- E; apply Qmult_le_compat_r; auto; apply Qlt_le_weak; auto). apply Qfloor_resp_le in X. rewrite Qfloor_Z in X. exact X.
  - assert (X : (inject_Z A' <= t * Qpower 2 res)%Q) by (eapply Qle_trans; [rewrite <- Zle_Qle; exact H|apply Qfloor_le]). rewrite <- E in X. apply (Qmult_le_r _ _ (Qpower 2 res)); auto.
Qed.
Lemma within_cells {A} res x y n (ts : list (Q * A)) : n <= res ->
  within (dy x n) (dy y n) ts = map snd (filter (fun e => (x * 2 ^ (res - n) <=? tick_cell res (fst e)) && (tick_cell res (fst e) <? y * 2 ^ (res - n))) ts).
Proof.
  intros Hn. unfold within. f_equal. apply filter_ext. intros e. assert (X := cell_ge x n res (fst e) Hn). assert (Y := cell_ge y n res (fst e) Hn). rewrite <- Qle_bool_iff in X, Y. lia.
Qed.
Lemma within_join {A} res n x y z (ts : list (Q * A)) : n <= res -> StronglySorted (fun a b => tick_cell res (fst a) <= tick_cell res (fst b)) ts -> x <= y -> y <= z ->
  within (dy x n) (dy z n) ts = within (dy x n) (dy y n) ts ++ within (dy y n) (dy z n) ts.
Proof.
  intros Hn Hs H1 H2. rewrite !(within_cells res) by auto. rewrite <- map_app. f_equal. assert (P := pow2_pos (res - n) ltac:(lia)).
  rewrite (filter_two (fun e => tick_cell res (fst e)) _ (y * 2 ^ (res - n)) ts Hs). f_equal; apply filter_ext; intros e; nia.
Qed.
Lemma within_eq {A} a a' b b' (ts : list (Q * A)) : (a == a')%Q -> (b == b')%Q -> within a b ts = within a' b' ts.
Proof. intros H1 H2. unfold within. f_equal. apply filter_ext. intros e. rewrite H1, H2. reflexivity. Qed.

Section Ask.
  Variable lie : Type.
  Variable is_zero is_null : lie -> bool.
  Variable none : lie.
  Variable cbh2 : lie -> lie -> lie.
  Variable S : sigs lie.
  Variable ok : lie -> Prop.
  Variable ctx : actx lie.
  Hypothesis HS : sound is_zero S ok ctx.
  Variable res : Z.
  Variable rows ts : list (Q * lie).
  Hypothesis Hfits : fits_ticks res rows.
  Hypothesis Hfiled : filed res rows ts.
  Notation cell e := (tick_cell res (fst e)).
  Infix "===" := (sg_eq S) (at level 70).
  Notation nd := (TickProofs.nd res).
  Notation C := (TickProofs2.C lie res ts).
  Notation ends := (TickProofs.ends C).
  Notation tkp := (TickProofs2.tkp lie res ts).
  Notation has := (TickProofs2.has lie S ok res ts).
  Notation times := (TickProofs3.times lie res rows).
  Variable M : cache lie.
  Hypothesis HM : complete lie is_zero S ok res ts M.
  Notation s := (mkTicks times M res).
  Let Hr := Hres lie res rows Hfits.
  Let Hso := Hsort lie res rows ts Hfiled.
  Let Hcb := Cb lie res rows ts Hfits Hfiled.
  Let Hta := Tasc lie res rows.
  Let Hti := Tin lie res rows ts Hfiled.

  Lemma find_has k m fuel di : has M k m -> tk_smallest fuel times res di = Ok (Some (nd k m)) -> exists v, tk_impl fuel s ctx di = Ok v /\ TickProofs2.good lie S ok v (tkp k m) /\ TickProofs.look lie M (nd k m) = Some v.
  Proof.
    intros (Hn & v & L & G) E. exists v. unfold tk_impl. cbn [tk_times tk_data tk_res]. rewrite E. cbn [bind]. rewrite (find_look lie res M (nd k m)); [|apply (i_fit _ _ _ _ _ _ _ (proj1 HM))|apply nd_fit; auto]. rewrite L. cbn [bind]. auto.
  Qed.
  (** One query, from the ends of what it contains. *)
  Lemma impl_some k n a b u : - 2 ^ 28 <= k < 2 ^ 28 -> ends (inside res k n) a b -> 0 <= a \/ b < 0 -> meet a b u -> has M (a / 2 ^ u) u ->
    exists v, TickProofs2.good lie S ok v (tkp (a / 2 ^ u) u) /\ forall fuel, (29 <= fuel)%nat -> tk_smallest fuel times res (mkDI k n Clopen) = Ok (Some (nd (a / 2 ^ u) u)) /\ tk_impl fuel s ctx (mkDI k n Clopen) = Ok v.
  Proof.
    intros Hk He Hs Hm Hh. assert (Sm : forall fuel, (29 <= fuel)%nat -> tk_smallest fuel times res (mkDI k n Clopen) = Ok (Some (nd (a / 2 ^ u) u))).
    { intros fuel Hf. destruct (smallest_eval res Hr times C Hta Hti Hcb k n fuel Hk Hf) as [[_ N]|(a' & b' & He' & F)].
      - exfalso. destruct He as (Ca & Ia & _). apply (N a Ca Ia).
      - destruct (ends_fun _ _ _ _ _ _ He He') as [<- <-]. destruct (F Hs) as (u' & Hm' & _ & E). rewrite (meet_fun a b u u' Hm Hm'). exact E. }
    destruct (find_has _ u 29 _ Hh (Sm 29%nat (le_n _))) as (v & E & G & L). exists v. split; auto. intros fuel Hf. split; auto. destruct (find_has _ u fuel _ Hh (Sm fuel Hf)) as (v' & E' & _ & L'). congruence.
  Qed.
  Lemma impl_none k n : - 2 ^ 28 <= k < 2 ^ 28 -> (forall c, C c -> ~ inside res k n c) ->
    forall fuel, (29 <= fuel)%nat -> tk_smallest fuel times res (mkDI k n Clopen) = Ok None /\ tk_impl fuel s ctx (mkDI k n Clopen) = Ok (cx_zero ctx).
  Proof.
    intros Hk N fuel Hf. destruct (smallest_eval res Hr times C Hta Hti Hcb k n fuel Hk Hf) as [[E _]|(a & b & (Ca & Ia & _) & _)]; [|exfalso; apply (N a Ca Ia)].
    split; auto. unfold tk_impl. cbn [tk_times tk_res]. rewrite E. reflexivity.
  Qed.
  Lemma inside_dec k n : - 2 ^ 28 <= k < 2 ^ 28 -> (forall c, C c -> ~ inside res k n c) \/ exists a b, ends (inside res k n) a b.
  Proof.
    intros Hk. destruct (smallest_eval res Hr times C Hta Hti Hcb k n 29 Hk (le_n _)) as [[_ N]|(a & b & He & _)]; eauto.
  Qed.
  Definition seen (k n : Z) : bool := existsb (fun e => Qle_bool (dy k n) (dy (cell e) res) && negb (Qle_bool (dy (k + 1) n) (dy (cell e) res))) ts.
  Lemma seen_iff k n : seen k n = true <-> exists c, C c /\ inside res k n c.
  Proof.
    unfold seen. rewrite existsb_exists. unfold inside. split.
    - intros (e & He & H). apply andb_prop in H. destruct H as [H1 H2]. exists (cell e). split; [exists e; auto|]. apply negb_true_iff, qle_niff in H2. apply Qle_bool_iff in H1. auto.
    - intros (c & (e & He & <-) & H1 & H2). exists e. split; auto. apply andb_true_intro. split; [apply Qle_bool_iff; auto|]. apply negb_true_iff, qle_niff. auto.
  Qed.
  Lemma piece_ok k n : (n <= res -> nfit k (res - n)) -> (res < n -> - 2 ^ 28 <= k < 2 ^ 28) ->
    exists x out, tick_gives res ts (k, n) out /\ ok x /\ sg_of S x === sg_prod S out /\
      forall fuel, (29 <= fuel)%nat -> tk_impl fuel s ctx (mkDI k n Clopen) = Ok x /\ exists p, tk_smallest fuel times res (mkDI k n Clopen) = Ok p /\ (p = None <-> seen k n = false).
  Proof.
    intros Hc Hf. destruct (Z_le_gt_dec n res) as [L|L].
    - specialize (Hc L). clear Hf. set (m := res - n) in *. assert (Hm : 0 <= m) by (unfold m; lia). assert (Hk : - 2 ^ 28 <= k < 2 ^ 28) by (apply (nfit_k k m Hc)).
      assert (En : n = res - m) by (unfold m; lia). assert (P := pow2_pos m Hm).
      assert (IB : forall c, inside res k n c <-> below k m c) by (intros c; rewrite En; apply inside_below; auto).
      assert (Own : within (dy k n) (dy (k + 1) n) ts = map snd (tkp k m)).
      { rewrite (within_cells res) by auto. f_equal. unfold TickProofs2.tkp. apply filter_ext. intros e. fold m. assert (X := div_range (cell e) m k Hm). lia. }
      destruct (inside_dec k n Hk) as [N|(a & b & He)].
      + exists (cx_zero ctx), []. split; [left; split; auto; rewrite Own|]. 
        * unfold TickProofs2.tkp. rewrite filter_none; auto. intros e He. apply not_true_iff_false. rewrite Z.eqb_eq. intros X. apply (N (cell e)); [exists e; auto|]. apply IB. exact X.
        * split; [apply (sd_zero_ok _ _ _ _ HS)|]. split; [apply (sd_zero _ _ _ _ HS)|]. intros fuel Hfu. destruct (impl_none k n Hk N fuel Hfu) as [E1 E2]. split; auto. exists None. split; auto. split; auto. intros _. apply not_true_iff_false. rewrite seen_iff. intros (c & Cc & Ic). apply (N c Cc Ic).
      + assert (He' : ends (below k m) a b) by (eapply ends_ext; [|exact He]; intros; apply IB). assert (X := He'). destruct X as (Ca & Ba & Cbb & Bb & Hall).
        assert (Hab : a <= b) by (apply Hall; auto). apply (div_range _ _ _ Hm) in Ba, Bb.
        assert (Hs : 0 <= a \/ b < 0) by (destruct (Z_le_gt_dec 0 k); [left|right]; nia).
        assert (Ex : exists u, meet a b u).
        { destruct (smallest_eval res Hr times C Hta Hti Hcb k n 29 Hk (le_n _)) as [[_ N]|(a' & b' & He2 & F)]; [exfalso; apply (N a Ca); apply IB; apply div_range; auto|]. destruct (ends_fun _ _ _ _ _ _ He He2) as [<- <-]. destruct (F Hs) as (u & Hu & _). eauto. }
        destruct Ex as (u & Hu). assert (Hh := proj2 HM k m a b u Hc He' Hu). destruct (impl_some k n a b u Hk He Hs Hu Hh) as (v & [G Ov] & F).
        assert (Same : tkp (a / 2 ^ u) u = tkp k m).
        { apply tkp_same. intros c Cc. split; unfold below.
          - intros Ec. assert (Um : u <= m) by (apply (meet_le a b u m Hu Hm); transitivity k; [|symmetry]; apply div_range; auto). assert (Pu : 0 <= u) by apply Hu.
            replace m with (u + (m - u)) by lia. rewrite Z.pow_add_r by lia. rewrite <- Z.div_div by (try apply pow2_pos; lia). rewrite Ec. rewrite Z.div_div by (try apply pow2_pos; lia). rewrite <- Z.pow_add_r by lia. replace (u + (m - u)) with m by lia. apply div_range; auto.
          - intros Ec. apply (div_between a c b u); [apply Hu|apply Hall; auto|apply Hu]. }
        exists v, (map snd (tkp k m)). split; [left; auto|]. rewrite <- Same. split; auto. split; [exact G|]. intros fuel Hfu. destruct (F fuel Hfu) as [E1 E2]. split; auto. eexists. split; [exact E1|]. split; [discriminate|]. intros X. exfalso. apply (not_true_iff_false (seen k n)) in X. apply X. apply seen_iff. exists a. split; auto. apply He.
    - specialize (Hf ltac:(lia)). clear Hc. set (e := n - res). assert (P := pow2_pos e ltac:(unfold e; lia)).
      assert (IF : forall c, inside res k n c <-> c * 2 ^ e = k).
      { intros c. unfold inside. rewrite (dy_scale c res e) by (unfold e; lia). replace (res + e) with n by (unfold e; lia). rewrite dy_same_le, dy_same_lt. lia. }
      assert (DQ : forall q, (dy k n == dy q res)%Q <-> q * 2 ^ e = k).
      { intros q. rewrite (dy_scale q res e) by (unfold e; lia). replace (res + e) with n by (unfold e; lia). rewrite dy_same_eq. lia. }
      destruct (inside_dec k n Hf) as [N|(a & b & He)].
      + assert (Out : exists out, tick_gives res ts (k, n) out /\ out = []).
        { exists []. split; auto. destruct (Z.eq_dec (k mod 2 ^ e) 0) as [D|D].
          - right; left. split; [lia|]. exists (k / 2 ^ e). assert (Eq : k / 2 ^ e * 2 ^ e = k) by (assert (X := Z.div_mod k (2 ^ e) ltac:(lia)); lia). split; [apply DQ; auto|].
            rewrite (within_cells res) by lia. rewrite Z.sub_diag, Z.pow_0_r, !Z.mul_1_r. rewrite filter_none; auto. intros t Ht. apply not_true_iff_false. intros X. apply (N (cell t)); [exists t; auto|]. apply IF. replace (cell t) with (k / 2 ^ e) by lia. exact Eq.
          - right; right. split; [lia|]. split; auto. intros q Hq. apply DQ in Hq. apply D. rewrite <- Hq. apply Z.mod_mul. lia. }
        destruct Out as (out & HO & ->). exists (cx_zero ctx), []. split; auto. split; [apply (sd_zero_ok _ _ _ _ HS)|]. split; [apply (sd_zero _ _ _ _ HS)|]. intros fuel Hfu. destruct (impl_none k n Hf N fuel Hfu) as [E1 E2]. split; auto. exists None. split; auto. split; auto. intros _. apply not_true_iff_false. rewrite seen_iff. intros (c & Cc & Ic). apply (N c Cc Ic).
      + assert (X := He). destruct X as (Ca & Ia & Cbb & Ib & Hall). apply IF in Ia, Ib. assert (b = a) as -> by nia. assert (Hu : meet a a 0) by (split; [lia|]; split; auto; lia).
        assert (Hh : has M (a / 2 ^ 0) 0) by (rewrite Z.pow_0_r, Z.div_1_r; apply (inv_cell lie is_zero S ok res ts Hcb M a (proj1 HM) Ca)).
        destruct (impl_some k n a a 0 Hf He ltac:(lia) Hu Hh) as (v & [G Ov] & F). rewrite Z.pow_0_r, Z.div_1_r in *.
        exists v, (map snd (tkp a 0)). split.
        * right; left. split; [lia|]. exists a. split; [apply DQ; auto|]. rewrite (within_cells res) by lia. rewrite Z.sub_diag, Z.pow_0_r, !Z.mul_1_r. f_equal. unfold TickProofs2.tkp. apply filter_ext. intros t. rewrite Z.pow_0_r, Z.div_1_r. lia.
        * split; auto. split; [exact G|]. intros fuel Hfu. destruct (F fuel Hfu) as [E1 E2]. split; auto. eexists. split; [exact E1|]. split; [discriminate|]. intros X. exfalso. apply (not_true_iff_false (seen k n)) in X. apply X. apply seen_iff. exists a. split; auto. apply He.
  Qed.

  Lemma pieces_ok inf sup tol l : fits_query inf sup tol res -> Forall (fun i => di_t i = Clopen /\ di_n i <= tol) l ->
    (forall i, In i l -> (grid_floor inf tol <= dy (di_k i) (di_n i))%Q /\ (dy (di_k i + 1) (di_n i) <= grid_floor sup tol)%Q) ->
    exists xs outs, Forall ok xs /\ Forall2 (tick_gives res ts) (map DyadicProofs3.cell l) outs /\ sg_prod S xs === sg_prod S (concat outs) /\
      forall fuel, (31 <= fuel)%nat -> tk_pieces is_zero fuel s ctx l = Ok xs.
  Proof.
    intros Hfit Hl Hin. induction l as [|i l IH].
    - exists [], []. split; [constructor|]. split; [constructor|]. split; [apply (sd_refl _ _ _ _ HS)|]. reflexivity.
    - destruct (IH (Forall_inv_tail Hl)) as (xs & outs & Oxs & Gx & Pxs & Fxs); [intros; apply Hin; right; auto|].
      destruct (Forall_inv Hl) as [Ti Ni]. destruct (Hin i (or_introl eq_refl)) as [B1 B2].
      destruct (fits_piece inf sup tol res (di_k i) (di_n i) Hfit Ni B1 B2) as [HC HFi].
      destruct (piece_ok (di_k i) (di_n i)) as (x & out & G & Ox & Px & F).
      { intros L. destruct (HC L) as (C1 & C2 & C3). split; auto. lia. }
      { intros L. apply HFi; auto. }
      assert (Ei : mkDI (di_k i) (di_n i) Clopen = i) by (destruct i; cbn in *; congruence). rewrite Ei in F.
      exists (if is_zero x then xs else x :: xs), (out :: outs). split; [destruct (is_zero x); auto|]. split; [constructor; auto|]. split.
      + cbn [concat]. apply (sd_sym _ _ _ _ HS). eapply (sd_trans _ _ _ _ HS); [apply (prod_app lie is_zero S ok ctx HS)|]. destruct (is_zero x) eqn:E.
        * eapply (sd_trans _ _ _ _ HS); [|exact (sd_sym _ _ _ _ HS _ _ Pxs)]. eapply (sd_trans _ _ _ _ HS); [|apply (sd_one_l _ _ _ _ HS)]. apply (sd_mul _ _ _ _ HS); [|apply (sd_refl _ _ _ _ HS)].
          eapply (sd_trans _ _ _ _ HS); [apply (sd_sym _ _ _ _ HS); exact Px|]. apply (sd_is_zero _ _ _ _ HS); auto.
        * cbn [sg_prod fold_right]. apply (sd_mul _ _ _ _ HS); apply (sd_sym _ _ _ _ HS); auto.
      + intros fuel Hf. cbn [tk_pieces]. rewrite (proj1 (F fuel ltac:(lia))). cbn [bind]. rewrite (Fxs fuel Hf). reflexivity.
  Qed.
  Lemma join_outs tol : tol <= res -> forall l outs x y, Forall (fun i : dint => di_n i <= tol) l -> end_to_end (dy x tol) (dy y tol) (map DyadicProofs3.cell l) -> Forall2 (tick_gives res ts) (map DyadicProofs3.cell l) outs ->
    concat outs = within (dy x tol) (dy y tol) ts.
  Proof.
    intros Ht. induction l as [|i l IH]; intros outs x y Hl HE HG; cbn [map] in *; inversion HG; subst; cbn [concat].
    - cbn in HE. symmetry. apply between_none. rewrite HE. apply Qle_refl.
    - inversion Hl; subst. cbn [DyadicProofs3.cell end_to_end] in HE. destruct HE as [Hx HE]. unfold DyadicProofs3.cell in *. destruct H1 as [[L ->]|[[L _]|[L _]]]; try lia.
      assert (E1 : (dy (di_k i) (di_n i) == dy (di_k i * 2 ^ (tol - di_n i)) tol)%Q) by (rewrite (dy_scale _ (di_n i) (tol - di_n i)) by lia; replace (di_n i + (tol - di_n i)) with tol by lia; reflexivity).
      assert (E2 : (dy (di_k i + 1) (di_n i) == dy ((di_k i + 1) * 2 ^ (tol - di_n i)) tol)%Q) by (rewrite (dy_scale _ (di_n i) (tol - di_n i)) by lia; replace (di_n i + (tol - di_n i)) with tol by lia; reflexivity).
      rewrite E1, dy_same_eq in Hx. 
      assert (HE' : end_to_end (dy ((di_k i + 1) * 2 ^ (tol - di_n i)) tol) (dy y tol) (map (fun i0 => (di_k i0, di_n i0)) l)).
      { clear -HE E2. destruct l as [|j l]; cbn in *; [rewrite <- E2; auto|]. destruct HE as [A B]. split; auto. rewrite <- E2. auto. }
      rewrite (IH _ _ _ H4 HE' H3). rewrite (within_eq _ _ _ _ ts E1 E2), <- Hx. symmetry. assert (P := pow2_pos (tol - di_n i) ltac:(lia)). apply (within_join res); auto; [nia|].
      apply (proj1 (dy_same_le _ _ tol)). exact (e2e_le Datatypes.unit (fun _ => true) tt eq_refl _ _ _ HE').
  Qed.

  (** A query of an interval. *)
  Lemma stream_ok_at inf sup tol : (inf <= sup)%Q -> fits_query inf sup tol res ->
    exists x pieces outs, end_to_end (grid_floor inf tol) (grid_floor sup tol) pieces /\ Forall (fun c => snd c <= tol) pieces /\ Forall2 (tick_gives res ts) pieces outs /\
      ok x /\ sg_of S x === sg_prod S (concat outs) /\ (tol <= res -> concat outs = within (grid_floor inf tol) (grid_floor sup tol) ts) /\
      forall fuel, (31 <= fuel)%nat -> tk_stream_impl is_zero fuel s inf sup tol ctx = Ok x.
  Proof.
    intros Hle Hfit. destruct (fits_window _ _ _ _ Hfit) as (Ht & W1 & W2).
    destruct (dissection_correct _ _ tol Hle Ht W1 W2 31 (le_n _)) as (l & El & Hl & HE).
    destruct (pieces_ok _ _ tol l Hfit Hl) as (xs & outs & Oxs & Gx & Pxs & Fxs).
    { intros i Hi. apply (end_to_end_in _ _ _ (di_k i) (di_n i) HE). apply (in_map DyadicProofs3.cell) in Hi. exact Hi. }
    exists (cx_cbh ctx xs), (map DyadicProofs3.cell l), outs. split; [exact HE|]. split.
    { rewrite Forall_forall in *. intros c Hc. apply in_map_iff in Hc. destruct Hc as (i & <- & Hi). apply (Hl i Hi). }
    split; auto. split; [apply (sd_cbh_ok _ _ _ _ HS); auto|]. split; [eapply (sd_trans _ _ _ _ HS); [apply (sd_cbh _ _ _ _ HS); auto|exact Pxs]|]. split.
    - intros Htr. unfold grid_floor. apply (join_outs tol Htr l); auto. rewrite Forall_forall in *. intros i Hi. apply (Hl i Hi).
    - intros fuel Hf. unfold tk_stream_impl. rewrite (tdi_more 31 fuel _ _ _ _ _ El Hf). cbn [bind]. rewrite (Fxs fuel Hf). reflexivity.
  Qed.
  Lemma empty_ok inf sup : (inf <= sup)%Q -> fits_query inf sup res res -> forall fuel, (31 <= fuel)%nat ->
    tk_empty fuel s inf sup = Ok (match within (grid_floor inf res) (grid_floor sup res) ts with [] => true | _ => false end).
  Proof.
    intros Hle Hfit fuel Hf. destruct (fits_window _ _ _ _ Hfit) as (Ht & W1 & W2).
    destruct (dissection_correct _ _ res Hle Ht W1 W2 31 (le_n _)) as (l & El & Hl & HE). unfold tk_empty. cbn [tk_res tk_times]. rewrite (tdi_more 31 fuel _ _ _ _ _ El Hf). cbn [bind]. clear El.
    assert (Hin : forall i, In i l -> (grid_floor inf res <= dy (di_k i) (di_n i))%Q /\ (dy (di_k i + 1) (di_n i) <= grid_floor sup res)%Q).
    { intros i Hi. apply (end_to_end_in _ _ _ (di_k i) (di_n i) HE). apply (in_map DyadicProofs3.cell) in Hi. exact Hi. }
    destruct (pieces_ok _ _ res l Hfit Hl Hin) as (_ & outs & _ & Gx & _). unfold grid_floor in HE. unfold grid_floor at 1 2. rewrite <- (join_outs res (Z.le_refl _) l outs _ _ (Forall_impl _ (fun i H => proj2 H) Hl) HE Gx). clear HE.
    revert outs Gx. induction l as [|i l IH]; intros outs Gx; inversion Gx; subst; [reflexivity|]. cbn [concat].
    destruct (Forall_inv Hl) as [Ti Ni]. destruct (Hin i (or_introl eq_refl)) as [B1 B2]. destruct (fits_piece inf sup res res (di_k i) (di_n i) Hfit Ni B1 B2) as [HC HFi].
    destruct (piece_ok (di_k i) (di_n i)) as (x & out & G & Ox & Px & F).
    { intros L. destruct (HC L) as (C1 & C2 & C3). split; auto. lia. }
    { lia. }
    assert (Ei : mkDI (di_k i) (di_n i) Clopen = i) by (destruct i; cbn in *; congruence). rewrite Ei in F. destruct (F fuel ltac:(lia)) as (_ & p & Ep & Hp). rewrite Ep. cbn [bind].
    destruct H1 as [[_ ->]|[[L _]|[L _]]]; try lia.
    assert (Sn : seen (di_k i) (di_n i) = false <-> within (dy (di_k i) (di_n i)) (dy (di_k i + 1) (di_n i)) ts = []).
    { rewrite (within_cells res) by auto. rewrite <- not_true_iff_false, seen_iff. set (m := res - di_n i) in *. assert (En : di_n i = res - m) by (unfold m; lia). split.
      - intros N. rewrite filter_none; auto. intros e He. apply not_true_iff_false. intros X. apply N. exists (cell e). split; [exists e; auto|]. rewrite En. apply inside_below; [unfold m; lia|]. apply div_range; unfold m in *; lia.
      - intros N (c & (e & He & <-) & Ic). apply map_eq_nil in N. assert (X : In e (filter (fun e0 => (di_k i * 2 ^ m <=? cell e0) && (cell e0 <? (di_k i + 1) * 2 ^ m)) ts)); [|rewrite N in X; destruct X]. apply filter_In. split; auto. rewrite En in Ic. apply inside_below in Ic; [|unfold m; lia]. apply div_range in Ic; [|unfold m; lia]. lia. }
    destruct p as [p|].
    - destruct (within (dy (di_k i) (di_n i)) (dy (di_k i + 1) (di_n i)) ts) eqn:W; [|reflexivity]. exfalso. assert (X := proj2 Hp (proj2 Sn eq_refl)). discriminate.
    - rewrite (proj1 Sn (proj1 Hp eq_refl)). cbn [app]. apply IH; auto; [apply (Forall_inv_tail Hl)|intros; apply Hin; right; auto].
  Qed.
End Ask.

(** *** A tick in the cell at 0 and one before it *)
Lemma grow_never res c : c < 0 -> - 2 ^ 28 <= c -> - 2 ^ 27 <= res <= 2 ^ 27 -> forall fuel m, 0 <= m <= 31 -> forall r, tk_grow fuel (mkDI (c / 2 ^ m) (res - m) Clopen) (mkDI 0 res Clopen) <> Ok r.
Proof.
  intros Hc Hb Hr. induction fuel as [|f IH]; intros m Hm r; cbn [tk_grow]; [discriminate|]. assert (P := pow2_pos m ltac:(lia)).
  assert (Kn : - 2 ^ 28 <= c / 2 ^ m < 0) by (split; [apply Z.div_le_lower_bound; nia|apply Z.div_lt_upper_bound; lia]).
  destruct (Z.eq_dec m 31) as [->|N].
  - unfold contains_dyadic. cbn [di_t di_n itype_eqb negb]. replace (res >=? res - 31) with true by lia. cbn [negb]. destruct (i32 (res - (res - 31))) as [e| | |] eqn:E; cbn [bind]; try discriminate. apply i32_inv in E. destruct E as [-> _]. unfold two_pow. replace ((0 <=? res - (res - 31)) && (res - (res - 31) <=? 30)) with false by lia. discriminate.
  - destruct (contains_dyadic _ _) as [b| | |] eqn:E; cbn [bind]; try discriminate. destruct b.
    + exfalso. assert (X := proj1 (contains_dyadic_correct (mkDI (c / 2 ^ m) (res - m) Clopen) (mkDI 0 res Clopen) true eq_refl E ltac:(unfold small; cbn; lia)) eq_refl 0%Q). cbn [di_pts di_t di_k di_n] in X. unfold clopen_pts in X.
      assert (Y : (dy (c / 2 ^ m) (res - m) <= 0)%Q /\ (0 < dy (c / 2 ^ m + 1) (res - m))%Q). { apply X. split; [unfold dy; rewrite Qmult_0_l; apply Qle_refl|]. unfold dy. cbn. rewrite Qmult_1_l. apply Qpow2_pos. }
      destruct Y as [_ Y]. assert (Z0 : (0 == dy 0 (res - m))%Q) by (unfold dy; ring). rewrite Z0, dy_same_lt in Y. lia.
    + rewrite expand_eval by (cbn [di_k di_n]; unfold small; lia). cbn [bind di_k di_n]. rewrite Z.div_div by lia. rewrite <- Z.pow_add_r by lia. replace (res - m - 1) with (res - (m + 1)) by lia. apply IH. lia.
Qed.
Lemma zero_cell_never {lie} (is_zero is_null : lie -> bool) none cbh2 ctx res rows : - 2 ^ 27 <= res <= 2 ^ 27 -> (forall e, In e rows -> - 2 ^ 28 <= tick_cell res (fst e)) ->
  (exists e, In e rows /\ tick_cell res (fst e) = 0) -> (exists e, In e rows /\ tick_cell res (fst e) < 0) ->
  forall fuel s, tk_make is_zero is_null none cbh2 fuel ctx res rows <> Ok s.
Proof.
  intros Hr Hb (e0 & I0 & C0) (e1 & I1 & C1) fuel s H. unfold tk_make in H. apply bind_ok in H. destruct H as ([t m] & E & H). apply file_all_times in E.
  change (t = lis_data (row_times res rows)) in E. destruct (row_times_spec res rows) as [Ha Hi]. rewrite <- E in Ha, Hi. clear E.
  unfold tk_build in H. apply bind_ok in H. destruct H as (neg & E & _). revert E. unfold tk_negative. set (z := upper_bound t 0).
  set (C := fun c => exists e, In e rows /\ tick_cell res (fst e) = c).
  assert (Sg : forall c, (dy c res <= 0)%Q <-> c <= 0) by (intros c; assert (E : (0 == dy 0 res)%Q) by (unfold dy; ring); rewrite E; apply dy_same_le).
  assert (Pz : forall p c, nth_error t p = Some (dy c res, tt) -> (c <= 0 <-> (p < z)%nat)) by (intros p c Ep; assert (X := upper_pos res t Ha 0%Q p c Ep); fold z in X; rewrite Sg in X; exact X).
  destruct (C_nth res t C Hi 0 (ex_intro _ e0 (conj I0 C0))) as (p0 & E0 & _). assert (X0 := proj1 (Pz p0 0 E0) ltac:(lia)).
  destruct (Nat.eqb_spec z 0) as [Z|Z]; [lia|].
  destruct (stretch res t C Ha Hi 0 z (fun c => c <= 0)) as (a & b & (Ca & Pa & Cb & Pb & Hall) & Ta & Tb).
  - assert (L := upper_len t 0%Q). fold z in L. lia.
  - intros p Hp c Ep. rewrite (Pz p c Ep). lia.
  - rewrite Tb. cbn [bind]. assert (b = 0) as -> by (assert (0 <= b) by (apply Hall; [exists e0; auto|lia]); lia).
    rewrite of_cell by lia. cbn [bind]. rewrite Ta. cbn [bind]. assert (A1 : a < 0) by (assert (a <= tick_cell res (fst e1)) by (apply Hall; [exists e1; auto|lia]); lia).
    assert (A2 : - 2 ^ 28 <= a) by (destruct Ca as (e & He & <-); auto).
    rewrite of_cell by lia. cbn [bind]. unfold nd. rewrite !Z.sub_0_r. destruct (tk_grow fuel _ _) as [i| | |] eqn:G; cbn [bind]; try discriminate. intros _.
    apply (grow_never res a A1 A2 Hr fuel 0 ltac:(lia) i). rewrite Z.pow_0_r, Z.div_1_r, Z.sub_0_r. exact G.
Qed.
