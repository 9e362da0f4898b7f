(** Tick streams: construction and queries. *)
From Coq Require Import ZifyBool Lqa Qround.
From Verif Require Export TickProofs2 StreamProofs3.
From Verif Require Import DyadicProofs DyadicProofs2 DyadicProofs3.
Open Scope Z_scope.

(** *** The times of the rows *)
Definition row_times {A} (res : Z) (rows : list (Q * A)) : list (Q * Datatypes.unit) := map (fun e => (dy (tick_cell res (fst e)) res, tt)) rows.
Lemma file_all_times {lie} (is_null : lie -> bool) none cbh2 res rows : forall t0 m0 t m,
  tk_file_all is_null none cbh2 res (t0, m0) rows = Ok (t, m) -> t = fold_left (fun d r => try_emplace (fst r) (snd r) d) (row_times res rows) t0.
Proof.
  induction rows as [|e rows IH]; intros t0 m0 t m; cbn [tk_file_all row_times map fold_left]; [congruence|]. intros H.
  apply bind_ok in H. destruct H as ([t1 m1] & E & H). apply IH in H. rewrite H. unfold row_times. f_equal. unfold tk_file in E.
  apply bind_ok in E. destruct E as (di & Ed & E). apply bind_ok in E. destruct E as ([ex m2] & _ & E). apply bind_ok in E. destruct E as (m3 & _ & E). injection E as <- _.
  unfold di_of_param in Ed. apply i32_bind in Ed. destruct Ed as [Ed _]. injection Ed as <-. cbn [fst snd]. rewrite to_param_dy. reflexivity.
Qed.
Lemma row_times_spec {A} res (rows : list (Q * A)) : ascending (lis_data (row_times res rows)) /\
  forall t, In t (lis_data (row_times res rows)) <-> exists c, t = (dy c res, tt) /\ exists e, In e rows /\ tick_cell res (fst e) = c.
Proof.
  destruct (lis_data_spec Datatypes.unit (row_times res rows)) as [Ha Hi]. split; auto. intros t. rewrite Hi. split.
  - intros (l1 & l2 & E & _). assert (Hin : In t (row_times res rows)) by (rewrite E; apply in_or_app; right; left; auto). unfold row_times in Hin. apply in_map_iff in Hin. destruct Hin as (e & <- & He). exists (tick_cell res (fst e)). split; auto. exists e. auto.
  - intros (c & -> & e & He & Hc). assert (Hin : In (dy c res, tt) (row_times res rows)) by (unfold row_times; apply in_map_iff; exists e; split; auto; congruence). clear -Hin.
    assert (Hall : forall t, In t (row_times res rows) -> exists c, t = (dy c res, tt)) by (intros t Ht; unfold row_times in Ht; apply in_map_iff in Ht; destruct Ht as (e & <- & _); eauto).
    induction (row_times res rows) as [|[k u] l IH]; [destruct Hin|]. destruct (Hall (k, u) (or_introl eq_refl)) as (c' & [= -> ->]). destruct (Z.eq_dec c' c) as [->|N].
    + exists [], l. split; [auto|intros r []].
    + destruct Hin as [X|Hin]; [exfalso; apply N; apply (dy_same_eq c' c res); apply (f_equal fst) in X; cbn [fst] in X; rewrite X; reflexivity|]. destruct (IH Hin) as (l1 & l2 & E & Hf); [intros; apply Hall; right; auto|]. exists ((dy c' res, tt) :: l1), l2. rewrite E. split; auto.
      intros r [<-|Hr]; cbn [fst]; [rewrite dy_same_eq; auto|]. apply (Hf r Hr).
Qed.

(** *** Ticks in the order of their cells *)
Lemma filed_in {A} res (rows ts : list (Q * A)) : filed res rows ts -> forall e, In e ts <-> In e rows.
Proof.
  intros [_ H] e. assert (X : forall l : list (Q * A), In e l <-> In e (filter (fun e0 => tick_cell res (fst e0) =? tick_cell res (fst e)) l)).
  { intros l. rewrite filter_In. split; [intros; split; auto; lia|tauto]. }
  rewrite (X ts), (X rows), H. reflexivity.
Qed.
Lemma filed_self {A} res (rows : list (Q * A)) : in_time_order rows -> filed res rows rows.
Proof.
  intros H. split; auto. induction H as [|e l Hl IH He]; constructor; auto. rewrite Forall_forall in *. intros x Hx. apply Qfloor_resp_le. apply Qmult_le_compat_r; [apply He; auto|]. apply Qlt_le_weak, Qpow2_pos.
Qed.
Fixpoint cell_insert {A} (res : Z) (e : Q * A) (l : list (Q * A)) : list (Q * A) :=
  match l with [] => [e] | x :: l' => if tick_cell res (fst e) <=? tick_cell res (fst x) then e :: l else x :: cell_insert res e l' end.
Lemma filed_exists {A} res (rows : list (Q * A)) : exists ts, filed res rows ts.
Proof.
  exists (fold_right (cell_insert res) [] rows). induction rows as [|e rows [IH1 IH2]]; [split; [constructor|auto]|]. cbn [fold_right]. set (ts := fold_right (cell_insert res) [] rows) in *. clearbody ts.
  assert (Hin : forall x l, In x (cell_insert res e l) -> x = e \/ In x l).
  { intros x l. induction l as [|y l IHl]; cbn [cell_insert]; [intros [<-|[]]; auto|]. destruct (_ <=? _); [intros [<-|Hx]; auto|]. intros [<-|Hx]; [right; left; auto|]. destruct (IHl Hx); auto. right; right; auto. }
  split.
  - clear IH2. induction IH1 as [|x l Hl IH He]; cbn [cell_insert]; [repeat constructor|]. destruct (tick_cell res (fst e) <=? tick_cell res (fst x)) eqn:E.
    + constructor; [constructor; auto|]. rewrite Forall_forall in *. intros y [<-|Hy]; [lia|]. specialize (He y Hy). lia.
    + constructor; auto. rewrite Forall_forall in *. intros y Hy. destruct (Hin y l Hy) as [->|Hy2]; [lia|auto].
  - intros q. cbn [filter]. rewrite <- IH2. clear IH2. induction IH1 as [|x l Hl IH He]; cbn [cell_insert]; [reflexivity|]. destruct (tick_cell res (fst e) <=? tick_cell res (fst x)) eqn:E; [reflexivity|].
    cbn [filter]. rewrite IH. destruct (tick_cell res (fst x) =? q) eqn:E1, (tick_cell res (fst e) =? q) eqn:E2; auto. lia.
Qed.

Section Build.
  Variable lie : Type.
  Variable is_zero is_null : lie -> bool.
  Variable none : lie.
  Variable cbh2 : lie -> lie -> lie.
  Variable S : sigs lie.
  Variable ok : lie -> Prop.
  Variable ctx0 : actx lie.
  Hypothesis HS : sound is_zero S ok ctx0.
  Hypothesis H2 : sound2 is_zero is_null none cbh2 S ok.
  Variable res : Z.
  Variable rows ts : list (Q * lie).
  Hypothesis Hok : Forall (fun e => ok (snd e)) rows.
  Hypothesis Hfits : fits_ticks res rows.
  Hypothesis Hfiled : filed res rows ts.
  Notation cell e := (tick_cell res (fst e)).
  Infix "===" := (sg_eq S) (at level 70).
  Notation nd := (TickProofs.nd res).
  Notation look := (TickProofs.look lie).
  Notation C := (TickProofs2.C lie res ts).
  Notation ends := (TickProofs.ends C).
  Notation mfit := (TickProofs.mfit lie res).
  Notation good := (TickProofs2.good lie S ok).
  Notation tkp := (TickProofs2.tkp lie res ts).
  Notation has := (TickProofs2.has lie S ok res ts).
  Notation inv := (TickProofs2.inv lie is_zero S ok res ts).
  Notation covered := (TickProofs2.covered lie S ok res ts).
  Definition times := lis_data (row_times res rows).

  Lemma Hres : - 2 ^ 27 <= res <= 2 ^ 27. Proof. apply Hfits. Qed.
  Lemma Hsort : StronglySorted (fun a b : Q * lie => cell a <= cell b) ts. Proof. apply Hfiled. Qed.
  Lemma C_rows c : C c <-> exists e, In e rows /\ cell e = c.
  Proof. unfold TickProofs2.C. split; intros (e & He & Hc); exists e; split; auto; apply (filed_in res rows ts Hfiled); auto. Qed.
  Lemma Cb c : C c -> - 2 ^ 28 <= c < 2 ^ 28.
  Proof. intros Hc. apply C_rows in Hc. destruct Hc as (e & He & <-). apply Hfits; auto. Qed.
  Lemma Tasc : ascending times. Proof. apply row_times_spec. Qed.
  Lemma Tin t : In t times <-> exists c, t = (dy c res, tt) /\ C c.
  Proof. unfold times. rewrite (proj2 (row_times_spec res rows) t). split; intros (c & E & H); exists c; split; auto; apply C_rows; auto. Qed.
  Definition at_cell (c : Z) (l : list (Q * lie)) := filter (fun e => cell e =? c) l.

  (** Filing the ticks under their cells. *)
  Definition filed_as (pre : list (Q * lie)) (M : cache lie) : Prop :=
    mfit M /\ (forall c, - 2 ^ 28 <= c < 2 ^ 28 -> match look M (nd c 0) with Some v => good v (at_cell c pre) | None => at_cell c pre = [] end) /\
    (forall k m, nfit k m -> m <> 0 -> look M (nd k m) = None).
  Lemma file_ok l : forall pre t0 M0, incl l rows -> filed_as pre M0 ->
    exists M, tk_file_all is_null none cbh2 res (t0, M0) l = Ok (fold_left (fun d r => try_emplace (fst r) (snd r) d) (row_times res l) t0, M) /\ filed_as (pre ++ l) M.
  Proof.
    induction l as [|e l IH]; intros pre t0 M0 Hl (F1 & F2 & F3); cbn [tk_file_all row_times map fold_left].
    - exists M0. rewrite app_nil_r. split; auto. split; auto.
    - assert (He : In e rows) by (apply Hl; left; auto). set (c := cell e). assert (Bc : - 2 ^ 28 <= c < 2 ^ 28) by (apply Hfits; auto).
      assert (Nc : nfit c 0) by (split; [lia|rewrite Z.pow_0_r; lia]). assert (Kc := nd_fit res c 0 Nc).
      unfold tk_file. assert (Ed : di_of_param (fst e) res Clopen = Ok (nd c 0)).
      { unfold di_of_param, qscale. fold (cell e). fold c. rewrite i32_ok by (unfold INT_MIN, INT_MAX; lia). cbn [bind]. unfold TickProofs.nd. rewrite Z.sub_0_r. reflexivity. }
      rewrite Ed. cbn [bind].
      destruct (entry_look lie res none M0 (nd c 0) F1 Kc) as (v0 & M1 & E1 & G1 & L1 & L2 & L3). rewrite E1. cbn [bind]. set (v := if is_null v0 then snd e else cbh2 v0 (snd e)).
      destruct (put_look lie res M1 (nd c 0) v G1 Kc) as (M2 & E2 & G2 & P1 & P2). rewrite E2. cbn [bind].
      assert (Oe : ok (snd e)) by (rewrite Forall_forall in Hok; apply Hok; auto).
      assert (Gv : good v (at_cell c (pre ++ [e]))).
      { unfold at_cell. rewrite filter_app. cbn [filter]. fold (cell e). fold c. rewrite Z.eqb_refl. fold (at_cell c pre). specialize (F2 c Bc).
        assert (X : match look M0 (nd c 0) with Some w => good w (at_cell c pre) | None => at_cell c pre = [] end) by exact F2. clear F2. unfold TickProofs2.good.
        rewrite map_app. cbn [map]. destruct (look M0 (nd c 0)) as [w|] eqn:Lw; [subst v0|subst v0; rewrite X; cbn [app map]; unfold v; rewrite (s2_none _ _ _ _ _ _ H2); cbn [sg_prod fold_right]].
        - destruct X as [X1 X2]. destruct (is_null w) eqn:Nw; unfold v; rewrite ?Nw.
          + split; auto. apply (sd_sym _ _ _ _ HS). eapply (sd_trans _ _ _ _ HS); [apply (prod_app lie is_zero S ok ctx0 HS)|]. eapply (sd_trans _ _ _ _ HS); [apply (sd_mul _ _ _ _ HS); [apply (sd_sym _ _ _ _ HS); exact X1|apply (sd_refl _ _ _ _ HS)]|].
            eapply (sd_trans _ _ _ _ HS); [apply (sd_mul _ _ _ _ HS); [apply (sd_is_zero _ _ _ _ HS); apply (s2_null _ _ _ _ _ _ H2); exact Nw|apply (sd_refl _ _ _ _ HS)]|]. eapply (sd_trans _ _ _ _ HS); [apply (sd_one_l _ _ _ _ HS)|]. cbn [sg_prod fold_right]. apply (sd_one_r _ _ _ _ HS).
          + split; [|apply (s2_ok _ _ _ _ _ _ H2); auto]. eapply (sd_trans _ _ _ _ HS); [apply (s2_cbh _ _ _ _ _ _ H2); auto|]. apply (sd_sym _ _ _ _ HS). eapply (sd_trans _ _ _ _ HS); [apply (prod_app lie is_zero S ok ctx0 HS)|].
            apply (sd_mul _ _ _ _ HS); [apply (sd_sym _ _ _ _ HS); exact X1|]. cbn [sg_prod fold_right]. apply (sd_one_r _ _ _ _ HS).
        - split; auto. apply (sd_sym _ _ _ _ HS). apply (sd_one_r _ _ _ _ HS). }
      destruct (IH (pre ++ [e]) (try_emplace (dy c res) tt t0) M2) as (M & EM & HM).
      + intros x Hx. apply Hl. right; auto.
      + split; auto. split.
        * intros c' Bc'. destruct (Z.eq_dec c' c) as [->|N]; [rewrite P1; exact Gv|]. assert (Nc' : nfit c' 0) by (split; [lia|rewrite Z.pow_0_r; lia]).
          assert (D : nd c' 0 <> nd c 0) by (intros X; apply nd_inj in X; lia). rewrite P2, L2 by (auto; apply nd_fit; auto). unfold at_cell. rewrite filter_app. cbn [filter]. fold (cell e). fold c. replace (c =? c') with false by lia. rewrite app_nil_r. apply (F2 c' Bc').
        * intros k m Hkm Hm. assert (D : nd k m <> nd c 0) by (intros X; apply nd_inj in X; lia). rewrite P2, L2 by (auto; apply nd_fit; auto). apply F3; auto.
      + exists M. rewrite <- app_assoc in HM. split; auto. rewrite to_param_dy. cbn [dincluded di_d TickProofs.nd di_k di_n mult power fst snd]. rewrite Z.sub_0_r. exact EM.
  Qed.
  Lemma filed_inv M : filed_as rows M -> inv M.
  Proof.
    intros (F1 & F2 & F3). assert (T0 : forall c, tkp c 0 = at_cell c rows).
    { intros c. unfold TickProofs2.tkp, at_cell. rewrite <- (proj2 Hfiled c). apply filter_ext. intros e. rewrite Z.pow_0_r, Z.div_1_r. reflexivity. }
    assert (V : forall k m v, nfit k m -> look M (nd k m) = Some v -> m = 0 /\ good v (tkp k m)).
    { intros k m v Hn Hl. destruct (Z.eq_dec m 0) as [->|N]; [|rewrite F3 in Hl by auto; discriminate]. split; auto. rewrite T0. assert (B := nfit_k _ _ Hn). specialize (F2 k B). rewrite Hl in F2. exact F2. }
    constructor; auto.
    - intros k m v Hn Hl _. apply (V k m v); auto.
    - intros c Cc. assert (B := Cb c Cc). specialize (F2 c B). destruct (look M (nd c 0)) as [v|]; [eauto|]. exfalso. apply C_rows in Cc. destruct Cc as (e & He & <-). assert (X : In e (at_cell (cell e) rows)) by (unfold at_cell; apply filter_In; split; auto; lia). rewrite F2 in X. destruct X.
    - intros k m v Hn Hl _. destruct (V k m v Hn Hl) as [-> G]. intros k' m' a b u Hm' Hk' (Ca & Ba & Cbb & Bb & _) Hu. assert (m' = 0) as -> by lia. rewrite Z.sub_diag, Z.pow_0_r, Z.div_1_r in Hk'. subst k'. unfold below in Ba, Bb. rewrite Z.pow_0_r, Z.div_1_r in Ba, Bb. subst a b.
      assert (u = 0) as -> by (apply (meet_fun k k u 0 Hu); split; [lia|]; split; auto; lia). rewrite Z.pow_0_r, Z.div_1_r. split; auto. exists v. auto.
  Qed.

  (** The tree is complete for every dyadic query. *)
  Definition complete (M : cache lie) : Prop := inv M /\ forall k m a b u, nfit k m -> ends (below k m) a b -> meet a b u -> has M (a / 2 ^ u) u.
  Lemma dy_sign c : ((dy c res <= 0)%Q <-> c <= 0) /\ ((dy c res < 0)%Q <-> c < 0).
  Proof. assert (E : (0 == dy 0 res)%Q) by (unfold dy; ring). split; rewrite E; [apply dy_same_le|apply dy_same_lt]. Qed.
  Lemma root_ok M a b (P : Z -> Prop) fuel : inv M -> ends P a b -> 0 <= a \/ b < 0 -> (58 <= fuel)%nat ->
    exists i v M', tk_grow fuel (nd a 0) (nd b 0) = Ok i /\ tk_recursive is_zero none fuel times res ctx0 M i = Ok (v, M') /\ inv M' /\ (forall k m, has M k m -> has M' k m) /\
      forall k m a' b' u, 0 <= m -> ends (below k m) a' b' -> (forall c, C c -> below k m c -> P c) -> meet a' b' u -> has M' (a' / 2 ^ u) u.
  Proof.
    intros HM (Ca & Pa & Cbb & Pb & Hall) Hs Hf. assert (Ba := Cb a Ca). assert (Bb := Cb b Cbb). assert (Le : a <= b) by (apply Hall; auto).
    destruct (grow_ok res Hres a b ltac:(lia) Le ltac:(lia) Hs 28 0 fuel ltac:(lia) ltac:(lia) ltac:(lia) ltac:(lia)) as (u & Mu & U & G). rewrite Z.pow_0_r, Z.div_1_r in G.
    assert (Fn : nfit (a / 2 ^ u) u) by (apply nfit_div; [split; [apply Mu|auto]|auto]).
    destruct (rec_ok lie is_zero is_null none cbh2 S ok ctx0 HS H2 res Hres ts Hsort Cb times Tasc Tin 29 (a / 2 ^ u) u M fuel Fn ltac:(lia) HM ltac:(lia)) as (v & M' & R & I & Mo & _ & Cv).
    exists (nd (a / 2 ^ u) u), v, M'. split; [exact G|]. split; [exact R|]. split; [exact I|]. split; [exact Mo|]. intros k m a' b' u' Hm He HP Hu'. apply (cov_any lie S ok res ts M' _ u Cv (proj1 Mu) k m a' b' u'); auto.
    intros c Cc Bc. unfold below. apply (div_between a c b u); [apply Mu|apply Hall; auto|apply Mu].
  Qed.
  Lemma build_ok M0 : inv M0 -> forall fuel, (58 <= fuel)%nat -> exists M, tk_build is_zero none fuel ctx0 res times M0 = Ok (mkTicks times M res) /\ complete M.
  Proof.
    intros HM0 fuel Hf. unfold tk_build.
    assert (Neg : exists o M1, tk_negative fuel times res = Ok o /\ match o with Some i => let! (_, m) := tk_recursive is_zero none fuel times res ctx0 M0 i in Ok m | None => Ok M0 end = Ok M1 /\
      inv M1 /\ (forall k m, has M0 k m -> has M1 k m) /\
      forall k m a b u, 0 <= m -> ends (below k m) a b -> (forall c, C c -> below k m c -> c <= 0) -> meet a b u -> has M1 (a / 2 ^ u) u).
    { unfold tk_negative. set (z := upper_bound times 0). destruct (Nat.eqb_spec z 0) as [Z|Z].
      - exists None, M0. split; [reflexivity|]. split; [reflexivity|]. split; [assumption|]. split; [intros ? ? X; exact X|]. intros k m a b u Hm (Ca & Ba & _) Hneg _. exfalso. specialize (Hneg a Ca Ba). destruct (C_nth res times C Tin a Ca) as (p & Ep & Hp).
        assert (X := proj1 (upper_pos res times Tasc 0%Q p a Ep) ltac:(apply dy_sign; auto)). fold z in X. lia.
      - destruct (stretch res times C Tasc Tin 0 z (fun c => c <= 0)) as (a & b & Hab & Ta & Tb).
        + assert (L := upper_len times 0%Q). fold z in L. lia.
        + intros p Hp c Ep. rewrite <- (proj1 (dy_sign c)), (upper_pos res times Tasc 0%Q p c Ep). fold z. lia.
        + assert (A := Hab). destruct A as (Ca & Pa & Cbb & Pb & Hall). rewrite Tb. cbn [bind]. rewrite (of_cell res) by (apply Cb; auto). cbn [bind]. rewrite Ta. cbn [bind]. rewrite (of_cell res) by (apply Cb; auto). cbn [bind].
          assert (Hs : 0 <= a \/ b < 0).
          { destruct Hfits as (_ & _ & [H|H]).
            - right. destruct (Z.eq_dec b 0) as [->|N]; [|lia]. exfalso. apply C_rows in Cbb. destruct Cbb as (e & He & E). apply (H e He E).
            - left. apply C_rows in Ca. destruct Ca as (e & He & <-). apply H; auto. }
          destruct (root_ok M0 a b _ fuel HM0 Hab Hs Hf) as (i & v & M1 & G & R & I & Mo & Cov). rewrite G. cbn [bind]. exists (Some i), M1. rewrite R. cbn [bind]. split; [reflexivity|]. split; [reflexivity|]. split; [exact I|]. split; [exact Mo|exact Cov]. }
    destruct Neg as (o & M1 & E1 & E2 & I1 & Mo1 & Cov1). rewrite E1. cbn [bind]. rewrite E2. cbn [bind].
    assert (Pos : exists o M2, tk_positive fuel times res = Ok o /\ match o with Some i => let! (_, m) := tk_recursive is_zero none fuel times res ctx0 M1 i in Ok m | None => Ok M1 end = Ok M2 /\
      inv M2 /\ (forall k m, has M1 k m -> has M2 k m) /\
      forall k m a b u, 0 <= m -> ends (below k m) a b -> (forall c, C c -> below k m c -> 0 <= c) -> meet a b u -> has M2 (a / 2 ^ u) u).
    { unfold tk_positive. assert (Ez : di_of_param 0 res Clopen = Ok (nd 0 0)).
      { unfold di_of_param, qscale. assert (X : (0 * Qpower 2 res == inject_Z 0)%Q) by (cbn; ring). rewrite X, Qfloor_Z. rewrite i32_ok by (unfold INT_MIN, INT_MAX; lia). unfold TickProofs.nd. rewrite Z.sub_0_r. reflexivity. }
      rewrite Ez. cbn [bind]. unfold dexcluded, unit. cbn [di_k di_n di_t TickProofs.nd unit_t]. rewrite i32_ok by (unfold INT_MIN, INT_MAX; lia). cbn [bind]. rewrite to_param_dy. cbn [mult power]. rewrite Z.sub_0_r.
      replace (qlt (dy (0 + 1) res) 0) with false by (symmetry; apply not_true_iff_false; rewrite qlt_iff, (proj2 (dy_sign (0 + 1))); lia).
      set (z := lower_bound times 0). assert (Lz : (z <= length times)%nat) by (apply lower_len). destruct (Nat.eqb_spec z (length times)) as [Z|Z].
      - exists None, M1. split; [reflexivity|]. split; [reflexivity|]. split; [assumption|]. split; [intros ? ? X; exact X|]. intros k m a b u Hm (Ca & Ba & _) Hpos _. exfalso. specialize (Hpos a Ca Ba). destruct (C_nth res times C Tin a Ca) as (p & Ep & Hp).
        assert (X := lower_pos res times Tasc 0%Q p a Ep). fold z in X. rewrite (proj2 (dy_sign a)) in X. lia.
      - destruct (stretch res times C Tasc Tin z (length times) (fun c => 0 <= c)) as (a & b & Hab & Ta & Tb).
        + lia.
        + intros p Hp c Ep. assert (X := lower_pos res times Tasc 0%Q p c Ep). rewrite (proj2 (dy_sign c)) in X. fold z in X. lia.
        + assert (A := Hab). destruct A as (Ca & Pa & Cbb & Pb & Hall). rewrite Tb. cbn [bind]. rewrite (of_cell res) by (apply Cb; auto). cbn [bind]. rewrite Ta. cbn [bind]. rewrite (of_cell res) by (apply Cb; auto). cbn [bind].
          destruct (root_ok M1 a b _ fuel I1 Hab (or_introl Pa) Hf) as (i & v & M2 & G & R & I & Mo & Cov). rewrite G. cbn [bind]. exists (Some i), M2. rewrite R. cbn [bind]. split; [reflexivity|]. split; [reflexivity|]. split; [exact I|]. split; [exact Mo|exact Cov]. }
    destruct Pos as (o2 & M2 & E3 & E4 & I2 & Mo2 & Cov2). rewrite E3. cbn [bind]. rewrite E4. cbn [bind]. exists M2. split; auto. split; auto.
    intros k m a b u Hn He Hu. assert (Hm : 0 <= m) by apply Hn. assert (P := pow2_pos m Hm). assert (A := He). destruct A as (Ca & Ba & _).
    assert (Rg : forall c, below k m c -> k * 2 ^ m <= c < (k + 1) * 2 ^ m) by (intros c; apply div_range; auto).
    destruct (Z_le_gt_dec 0 k) as [L|L].
    - apply (Cov2 k m a b u); auto. intros c _ Bc. apply Rg in Bc. nia.
    - apply Mo2. apply (Cov1 k m a b u); auto. intros c _ Bc. apply Rg in Bc. nia.
  Qed.
  Lemma make_ok fuel : (58 <= fuel)%nat -> exists M, tk_make is_zero is_null none cbh2 fuel ctx0 res rows = Ok (mkTicks times M res) /\ complete M.
  Proof.
    intros Hf. unfold tk_make. destruct (file_ok rows [] [] []) as (M0 & E & F).
    - apply incl_refl.
    - split; [constructor|]. split; [intros c _; reflexivity|reflexivity].
    - destruct (build_ok M0 (filed_inv M0 F) fuel Hf) as (M & EM & HM). exists M. split; [|exact HM]. rewrite <- EM. exact (f_equal (fun o => let! (t, m) := o in tk_build is_zero none fuel ctx0 res t m) E).
  Qed.
End Build.
