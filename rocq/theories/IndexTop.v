(** Statements about LieIncrementStream.from_increments. *)
From Coq Require Import ZifyBool Lqa.
From Verif Require Export IndexProofs.
From Verif Require Import Outcome DyadicProofs DyadicProofs2 DyadicProofs3.
Open Scope Z_scope.

Lemma within_all {A} (d : list (Q * A)) a b : (forall e, In e d -> (a <= fst e)%Q /\ (fst e < b)%Q) -> within a b d = map snd d.
Proof.
  intros H. unfold within. f_equal. induction d as [|e d IH]; cbn [filter]; auto. destruct (H e (or_introl eq_refl)) as [H1 H2].
  change (Qle_bool a (fst e) && negb (Qle_bool b (fst e))) with (inb A a b e). rewrite (proj2 (inb_iff A a b e)) by auto. rewrite IH; auto. intros x Hx. apply H. right. auto.
Qed.
Lemma grid_twice x res tol : res <= tol -> (grid_floor x res <= grid_floor (grid_floor x tol) res)%Q.
Proof.
  intros H. assert (E : (grid_floor x res == dy (Qfloor (x * Qpower 2 res)) res)%Q) by reflexivity.
  rewrite <- (grid_id _ _ _ E). apply grid_mono. rewrite <- (grid_finer _ _ _ _ H E). apply grid_mono. apply grid_le.
Qed.

Lemma emplace_last {A} (d : list (Q * A)) k v : (forall e, In e d -> (fst e < k)%Q) -> try_emplace k v d = d ++ [(k, v)].
Proof.
  induction d as [|[k' v'] d IH]; intros H; cbn [try_emplace app]; auto. assert (X := H (k', v') (or_introl eq_refl)). cbn [fst] in X.
  rewrite (proj2 (qlt_niff k k')) by lra. rewrite (proj2 (qlt_iff k' k)) by lra. rewrite IH; auto. intros e He. apply H. right. auto.
Qed.
Lemma data_ascending {A} (rows : list (Q * A)) : ascending rows -> lis_data rows = rows.
Proof.
  unfold lis_data. assert (G : forall rows d : list (Q * A), ascending (d ++ rows) -> fold_left (fun d r => try_emplace (fst r) (snd r) d) rows d = d ++ rows); [|intros H; apply (G rows [] H)].
  clear. induction rows as [|[k v] rows IH]; intros d H; cbn [fold_left fst snd]; [rewrite app_nil_r; auto|].
  assert (L : forall e, In e d -> (fst e < k)%Q). { clear IH. induction d as [|x d IHd]; intros e; [intros []|]. cbn [app] in H. apply StronglySorted_inv in H as [H1 H2]. intros [<-|He]; [|apply IHd; auto]. rewrite Forall_forall in H2. apply (H2 (k, v)). apply in_app_iff. right. left. auto. }
  rewrite emplace_last by auto. rewrite IH; rewrite <- app_assoc; auto.
Qed.

Section Whole.
  Variable lie : Type.
  Variable is_zero : lie -> bool.
  Variable none : lie.
  Hypothesis none_zero : is_zero none = true.
  Variable S : sigs lie.
  Variable ok : lie -> Prop.
  Variable ctx : actx lie.
  Hypothesis HS : sound is_zero S ok ctx.
  Variable s : stream lie.
  Hypothesis Hs : stream_ok ok s.
  (** Every increment lies in the support with a cell after it. *)
  Definition covered : Prop := forall e, In e (st_data s) -> (ri_inf (st_support s) <= fst e)%Q /\ (fst e + Qpower 2 (- st_res s) <= ri_sup (st_support s))%Q.
  Hypothesis Hc : covered.
  Notation i := (st_support s).
  Lemma from_self : from s i = ri_inf i.
  Proof. unfold from, later. destruct (Qle_bool _ _); reflexivity. Qed.
  Lemma upto_self : upto s i = ri_sup i.
  Proof. unfold upto, earlier. destruct (Qle_bool _ _); reflexivity. Qed.
  Lemma before_end tol e : st_res s <= tol -> In e (st_data s) -> (fst e < grid_floor (ri_sup i) tol)%Q.
  Proof.
    intros Ht He. destruct (Hc e He) as [_ X]. assert (G := grid_gt (ri_sup i) (st_res s)).
    assert (T := grid_twice (ri_sup i) (st_res s) tol Ht). assert (L := grid_le (grid_floor (ri_sup i) tol) (st_res s)). lra.
  Qed.
  Lemma before_last tol e : st_res s <= tol -> In e (st_data s) -> (fst e < grid_floor (grid_floor (ri_sup i) tol) (st_res s))%Q.
  Proof.
    intros Ht He. destruct (Hc e He) as [_ X]. assert (G := grid_gt (ri_sup i) (st_res s)). assert (T := grid_twice (ri_sup i) (st_res s) tol Ht). lra.
  Qed.
  Lemma all_in tol : st_res s <= tol -> within (grid_floor (ri_inf i) tol) (grid_floor (ri_sup i) tol) (st_data s) = map snd (st_data s).
  Proof. intros Ht. apply within_all. intros e He. destruct (Hc e He) as [X _]. split; [assert (L := grid_le (ri_inf i) tol); lra|apply before_end; auto]. Qed.

  Lemma whole_at : fits_call s ctx (QAt i (st_res s)) ->
    exists x, ok x /\ sg_eq S (sg_of S x) (sg_prod S (map snd (st_data s))) /\ forall h, Forall (fits_call s ctx) h -> replies is_zero none s ctx h (QAt i (st_res s)) x.
  Proof.
    intros Hf. destruct (query_product lie is_zero none none_zero S ok ctx HS s i (st_res s) Hs Hf (Z.le_refl _)) as (x & O & P & F).
    exists x. split; auto. split; auto. rewrite from_self, upto_self, all_in in P by lia. exact P.
  Qed.
  Lemma whole_finer tol a : st_res s <= tol -> (ri_inf i == dy a (st_res s))%Q -> fits_call s ctx (QAt i tol) ->
    exists x, ok x /\ sg_eq S (sg_of S x) (sg_prod S (map snd (st_data s))) /\ forall h, Forall (fits_call s ctx) h -> replies is_zero none s ctx h (QAt i tol) x.
  Proof.
    intros Ht Ha [Hi Hf]. destruct (at_aligned lie is_zero none none_zero S ok ctx HS s Hs i tol Hi Hf) as (x & O & P & F).
    { right. rewrite from_self, upto_self. split; [exists a; rewrite (grid_finer _ _ _ _ Ht Ha); exact Ha|].
      destruct (within _ _ _) as [|v l] eqn:E; auto. exfalso. assert (Hin : In v (v :: l)) by (left; auto). rewrite <- E in Hin. unfold within in Hin. apply in_map_iff in Hin as (e & _ & He).
      apply filter_In in He as [He Hb]. change (Qle_bool ?a (fst e) && negb (Qle_bool ?b (fst e))) with (inb lie a b e) in Hb. apply inb_iff in Hb. assert (B := before_last tol e Ht He). lra. }
    exists x. split; auto. split; [|intros h Hh; apply (replies_intro is_zero none none_zero S ok ctx HS s Hs h _ x Hh); exact F]. rewrite from_self, upto_self, all_in in P by auto. exact P.
  Qed.
  Lemma whole_default a : (ri_inf i < ri_sup i)%Q -> (ri_inf i == dy a (st_res s))%Q -> fits_call s ctx (QDefault i) ->
    exists x, ok x /\ sg_eq S (sg_of S x) (sg_prod S (map snd (st_data s))) /\ forall h, Forall (fits_call s ctx) h -> replies is_zero none s ctx h (QDefault i) x.
  Proof.
    intros Hlt Ha [Hi Hf]. assert (HR : forall tol, default_resolution s i tol -> st_res s <= tol) by (intros tol (r & _ & _ & _ & ->); lia).
    destruct (default_aligned lie is_zero none none_zero S ok ctx HS s Hs i Hi) as (x & O & P & F).
    { intros tol Hd. assert (Ht := HR tol Hd). split; [auto|]. right. rewrite from_self, upto_self. split; [exists a; rewrite (grid_finer _ _ _ _ Ht Ha); exact Ha|].
      destruct (within _ _ _) as [|v l] eqn:E; auto. exfalso. assert (Hin : In v (v :: l)) by (left; auto). rewrite <- E in Hin. unfold within in Hin. apply in_map_iff in Hin as (e & _ & He).
      apply filter_In in He as [He Hb]. change (Qle_bool ?a (fst e) && negb (Qle_bool ?b (fst e))) with (inb lie a b e) in Hb. apply inb_iff in Hb. assert (B := before_last tol e Ht He). lra. }
    exists x. split; auto. split; [|intros h Hh; apply (replies_intro is_zero none none_zero S ok ctx HS s Hs h _ x Hh); exact F].
    destruct P as [[Hd _]|(tol & Ht & P)]; [rewrite from_self, upto_self in Hd; lra|]. rewrite from_self, upto_self, all_in in P by auto. exact P.
  Qed.
  Lemma whole_fine : (Qpower 2 (2 - st_res s) <= ri_sup i - ri_inf i)%Q -> 2 <= st_res s -> fits_call s ctx (QDefault i) ->
    exists x, ok x /\ sg_eq S (sg_of S x) (sg_prod S (map snd (st_data s))) /\ forall h, Forall (fits_call s ctx) h -> replies is_zero none s ctx h (QDefault i) x.
  Proof.
    intros Hl H2 Hf. destruct (query_default lie is_zero none none_zero S ok ctx HS s i Hs Hf H2) as (x & O & P & F); [rewrite from_self, upto_self; auto|].
    exists x. split; auto. split; auto. rewrite from_self, upto_self, all_in in P by lia. exact P.
  Qed.
End Whole.

Lemma index_unique (V : Type) (to_float : V -> Q) a rows j x y : index_of to_float a rows j x -> index_of to_float a rows j y -> (x == y)%Q.
Proof.
  intros Hx Hy. destruct a as [[b|c|l|]|]; inversion Hx; subst; inversion Hy; subst; cbn [no_indices] in *; subst; try congruence; try reflexivity; try lia; try tauto;
    repeat match goal with H : Some _ = Some _ |- _ => injection H as <- end; try (destruct j; discriminate).
  - exfalso; lia.
  - exfalso; lia.
  - rewrite H1, H4. match goal with F : Forall2 _ _ ?es, F' : Forall2 _ _ ?es' |- (qsum (map _ ?es) == qsum (map _ ?es'))%Q => replace es' with es; [reflexivity|]; revert F F' end.
    clear. revert entries entries0. generalize (firstn (Datatypes.S j) rows). intros l es es' F. revert es'. induction F as [|r v l es Hv F IH]; intros es' F'; inversion F'; subst; auto. f_equal; [congruence|auto].
Qed.

Section Top.
  Variable V lie : Type.
  Variable to_float : V -> Q.
  Variable construct : actx lie -> list V -> lie.
  Variable assign : lie -> Z -> Q -> lie.
  Variable get_context : Z -> Z -> actx lie.
  Hypothesis Hget : forall w d, cx_width (get_context w d) = w.
  Notation from_increments := (from_increments to_float construct assign get_context).

  (** The resolution and support. *)
  Theorem increments_frame se a rows s : from_increments se a rows = Ok s ->
    (no_indices a \/ rows = [] -> st_res s = 0) /\
    (~ no_indices a -> rows <> [] -> match se_res se with
       | Some r => st_res s = r
       | None => plain_buffer a -> exists m i, index_of to_float a rows i m /\ (i < length rows)%nat /\ (forall j x, (j < length rows)%nat -> index_of to_float a rows j x -> (m <= x)%Q) /\ resolution_for m (st_res s)
       end) /\
    match se_support se with
    | Some i => st_support s = i
    | None => (rows = [] -> st_support s = mkRI 0 1 Clopen) /\
        (rows <> [] -> plain_buffer a -> exists m M i i', index_of to_float a rows i m /\ index_of to_float a rows i' M /\ (i < length rows)%nat /\ (i' < length rows)%nat /\
           (forall j x, (j < length rows)%nat -> index_of to_float a rows j x -> (m <= x)%Q /\ (x <= M)%Q) /\
           st_support s = mkRI m (M + Qpower 2 (- st_res s)) Clopen)
    end.
  Proof.
    intros H. destruct (from_inv V lie to_float construct assign get_context se a rows s H) as (idx & r & slot & E1 & E2 & E3 & E4 & E5 & E6 & E7).
    assert (HI : plain_buffer a -> forall i x, nth_error idx i = Some x -> index_of to_float a rows i x).
    { intros Hc i x Hx. destruct E3 as [(N & -> & _)|(_ & R & _)]; [|eapply read_spec; eauto]. apply counting_nth in Hx as [-> _]. apply ix_count; auto. }
    (* every index of a row is the one read, up to equality of rationals *)
    assert (HU : plain_buffer a -> forall j x, (j < length rows)%nat -> index_of to_float a rows j x -> exists y, nth_error idx j = Some y /\ (x == y)%Q).
    { intros Hc j x Hj Hx. destruct (nth_error idx j) as [y|] eqn:Ey; [|apply nth_error_None in Ey; lia]. exists y. split; auto. assert (Hy := HI Hc j y Ey).
      apply (index_unique V to_float a rows j); auto. }
    split; [|split].
    - intros [N|R].
      + destruct E3 as [(_ & -> & ->)|([N'|R] & _ & ->)]; [cbn in E4; congruence|contradiction|]. subst rows. destruct idx; [cbn in E4; congruence|discriminate].
      + subst rows. destruct idx; [|discriminate]. destruct E3 as [(_ & _ & ->)|(_ & _ & ->)]; cbn in E4; congruence.
    - intros N Hr. destruct E3 as [(N' & _)|(_ & R & Er)]; [contradiction|]. destruct idx as [|x0 l0] eqn:Ei; [destruct rows; [congruence|discriminate]|]. rewrite <- Ei in *. subst r.
      destruct (se_res se) as [r|]; [cbn in E4; congruence|]. intros Hc. destruct (settle_spec idx (st_res s) E4) as (m & [Hm Hl] & Hres).
      apply In_nth_error in Hm as (i & Hm). exists m, i. split; [auto|]. split; [rewrite <- E2; apply nth_error_Some; rewrite Hm; discriminate|]. split; auto.
      intros j x Hj Hx. destruct (HU Hc j x Hj Hx) as (y & Hy & ->). apply Hl. eapply nth_error_In; eauto.
    - destruct (se_support se) as [i|]; [exact E7|]. split.
      + intros ->. destruct idx; [|discriminate]. rewrite E7. reflexivity.
      + intros Hr Hc. assert (SP := support_spec idx (st_res s)). destruct idx as [|x0 l0] eqn:Ei; [destruct rows; [congruence|discriminate]|]. rewrite <- Ei in *.
        destruct SP as (m & M & [Hm Lm] & [HM GM] & Es & _). apply In_nth_error in Hm as (i & Hm). apply In_nth_error in HM as (i' & HM).
        exists m, M, i, i'. split; [auto|]. split; [auto|]. split; [rewrite <- E2; apply nth_error_Some; rewrite Hm; discriminate|]. split; [rewrite <- E2; apply nth_error_Some; rewrite HM; discriminate|].
        split; [|rewrite E7; exact Es]. intros j x Hj Hx. destruct (HU Hc j x Hj Hx) as (y & Hy & ->). apply nth_error_In in Hy. split; [apply Lm|apply GM]; auto.
  Qed.

  Lemma from_covered se a rows s : se_support se = None -> from_increments se a rows = Ok s -> covered lie s /\ (ri_inf (st_support s) < ri_sup (st_support s))%Q /\ ascending (st_data s).
  Proof.
    intros Hsup H. destruct (from_inv V lie to_float construct assign get_context se a rows s H) as (idx & r & slot & E1 & E2 & E3 & E4 & E5 & E6 & E7). rewrite Hsup in E7.
    destruct (increments_spec lie (values V lie construct assign (st_ctx s) slot 0 idx rows)) as [A B]. split; [|split; [|rewrite E6; exact A]].
    - intros [k v] He. rewrite E6 in He. apply B in He as (l1 & l2 & El & _). assert (N : nth_error (values V lie construct assign (st_ctx s) slot 0 idx rows) (length l1) = Some (k, v)) by (rewrite El, nth_error_app2, Nat.sub_diag by lia; reflexivity).
      apply values_nth in N as (N & _). apply nth_error_In in N. cbn [fst]. rewrite E7. assert (SP := support_spec idx (st_res s)). destruct idx as [|x0 l0] eqn:Ei; [destruct N|]. rewrite <- Ei in *.
      destruct SP as (m & M & [Hm Lm] & [HM GM] & -> & _). cbn [ri_inf ri_sup]. assert (X := Lm k N). assert (Y := GM k N). split; lra.
    - rewrite E7. assert (SP := support_spec idx (st_res s)). destruct idx as [|x0 l0] eqn:Ei; [rewrite SP; reflexivity|]. destruct SP as (m & M & _ & _ & -> & L). exact L.
  Qed.
  Lemma from_stream_ok (ok : lie -> Prop) se a rows s : (se_support se = None \/ exists i, se_support se = Some i /\ (ri_inf i <= ri_sup i)%Q) -> (forall c r, ok (construct c r)) -> (forall v k x, ok v -> ok (assign v k x)) ->
    from_increments se a rows = Ok s -> stream_ok ok s.
  Proof.
    intros Hsup Hc Ha H. destruct (from_inv V lie to_float construct assign get_context se a rows s H) as (idx & r & slot & E1 & E2 & E3 & E4 & E5 & E6 & E7).
    destruct (increments_spec lie (values V lie construct assign (st_ctx s) slot 0 idx rows)) as [A B]. split; [rewrite E6; exact A|]. split.
    - apply Forall_forall. intros [k v] He. rewrite E6 in He. apply B in He as (l1 & l2 & El & _). assert (N : nth_error (values V lie construct assign (st_ctx s) slot 0 idx rows) (length l1) = Some (k, v)) by (rewrite El, nth_error_app2, Nat.sub_diag by lia; reflexivity).
      apply values_nth in N as (_ & r0 & _ & ->). cbn [snd]. destruct (0 <? slot); auto.
    - destruct Hsup as [Hsup|(i & Hsup & Hi)]; [|rewrite E7, Hsup; exact Hi]. destruct (from_covered se a rows s Hsup H) as (_ & L & _). lra.
  Qed.

  (** Rows given in order are kept in order. *)
  Lemma counting_asc n : StronglySorted Qlt (counting n).
  Proof.
    unfold counting. generalize 0%nat. induction n as [|n IH]; intros k; cbn [seq map]; constructor; auto. apply Forall_forall. intros x Hx. apply in_map_iff in Hx as (j & <- & Hj). apply in_seq in Hj. rewrite <- Zlt_Qlt. lia.
  Qed.
  Lemma values_asc c slot rows : forall idx previous, StronglySorted Qlt idx -> ascending (values V lie construct assign c slot previous idx rows).
  Proof.
    induction rows as [|r rows IH]; intros [|x idx] previous H; cbn [values]; try constructor. apply StronglySorted_inv in H as [H1 H2]; apply IH; auto.
    apply StronglySorted_inv in H as [H1 H2]. apply Forall_forall. intros [k v] He. apply In_nth_error in He as (j & Hj). apply values_nth in Hj as (N & _). cbn [fst]. rewrite Forall_forall in H2. apply H2. eapply nth_error_In; eauto.
  Qed.
  Lemma values_plain c slot rows : slot <= 0 -> forall idx previous, length idx = length rows -> map snd (values V lie construct assign c slot previous idx rows) = map (construct c) rows.
  Proof. intros Hs. induction rows as [|r rows IH]; intros [|x idx] previous H; try discriminate; auto. cbn [values map snd]. rewrite (proj2 (Z.ltb_ge _ _)) by lia. f_equal. apply IH. cbn in H. lia. Qed.
  Theorem increments_in_order se a rows s : context_widths lie se -> se_time se = false -> from_increments se a rows = Ok s ->
    no_indices a \/ (exists l, a = Some (ISeq (map Some l)) /\ StronglySorted Qlt l) -> map snd (st_data s) = map (construct (st_ctx s)) rows.
  Proof.
    intros Hw Ht H Ha. destruct (from_inv V lie to_float construct assign get_context se a rows s H) as (idx & r & slot & E1 & E2 & E3 & E4 & E5 & E6 & E7).
    assert (W := width_pos V lie get_context Hget _ _ _ Hw E1). assert (SL := slot_of lie se (st_ctx s) slot E5 ltac:(lia)). rewrite Ht in SL.
    assert (SA : StronglySorted Qlt idx). { destruct E3 as [(_ & -> & _)|(N & R & _)]; [apply counting_asc|]. destruct Ha as [Ha|(l & -> & Hl)]; [destruct N as [N|N]; [contradiction|]; subst rows; destruct idx; [constructor|discriminate]|].
      cbn [read_indices] in R. apply floats_spec in R. assert (l = idx); [|subst; auto]. clear - R. revert idx R. induction l as [|x l IH]; intros [|y idx] R; try discriminate; auto. cbn in R. injection R as -> R. f_equal. auto. }
    rewrite E6, (data_ascending _ (values_asc _ _ _ _ _ SA)). apply values_plain; lia.
  Qed.

  Theorem increments_context se a rows s : from_increments se a rows = Ok s ->
    letters se rows (cx_width (st_ctx s)) /\ match se_ctx se with Some c => st_ctx s = c | None => st_ctx s = get_context (cx_width (st_ctx s)) (se_depth se) end.
  Proof.
    intros H. destruct (from_inv V lie to_float construct assign get_context se a rows s H) as (idx & r & slot & E1 & _). destruct (ctx_spec V lie get_context Hget se rows _ E1) as [L D].
    split; auto. destruct (se_ctx se); [congruence|apply D].
  Qed.
  (** Exactly which calls succeed. *)
  Theorem increments_accepted se a rows : context_widths lie se -> inside a -> plain_buffer a ->
    (exists w, letters se rows w /\ 0 < w /\ (se_time se = true -> 2 <= w)) /\ (se_ctx se = None -> se_depth se <> 0) /\ fitting a rows ->
    exists s, from_increments se a rows = Ok s.
  Proof.
    intros Hw Hin Hpl ((w & Lw & W0 & Wt) & Hd & Hf). apply letters_iff in Lw. unfold IndexModel.from_increments.
    assert (C : exists c, choose_ctx get_context se rows = Ok c /\ cx_width c = w).
    { unfold choose_ctx. destruct (se_ctx se) as [c|]; [exists c; auto|]. rewrite <- Lw. exists (get_context w (se_depth se)). rewrite (proj2 (Z.eqb_neq w 0)) by lia. rewrite (proj2 (Z.eqb_neq (se_depth se) 0)) by auto. split; [reflexivity|apply Hget]. }
    destruct C as (c & -> & Wc). cbn [bind].
    assert (SL : exists slot, finalize_schema se c = Ok slot).
    { unfold finalize_schema. rewrite Wc. destruct (se_time se); cbn [andb]; [specialize (Wt eq_refl)|]; [|rewrite (proj2 (Z.eqb_neq w 0)) by lia; eauto].
      rewrite (proj2 (Z.eqb_neq (Z.max 0 (w - 1) + 1) 0)), (proj2 (Z.eqb_neq (Z.max 0 (w - 1) + 1) 1)) by lia. eauto. }
    destruct SL as (slot & SL).
    assert (R : exists idx, read_indices to_float a rows = Ok idx /\ (idx = [] \/ length idx = length rows)).
    { destruct a as [[b|c0|l|]|]; cbn [read_indices fitting inside] in *.
      - rewrite (buffer_plain b Hpl). destruct (Z_le_gt_dec (ib_count b) 0) as [L|G]; [replace (Z.to_nat (ib_count b)) with 0%nat by lia; cbn; eauto|].
        destruct (consecutive_ok (ib_cells b) (Z.to_nat (ib_count b)) (ib_off b)) as (l & El); [lia|lia|]. exists l. split; auto. right. apply consecutive_nth in El as [L _]. lia.
      - destruct Hf as [H0 Hf]. rewrite (proj2 (Z.ltb_ge _ _)) by lia. destruct (column_ok V to_float c0 rows Hf H0 None) as (l & El). exists l. split; auto. right. apply (column_spec V to_float _ _ _ _ El).
      - destruct Hf as [Hf1 Hf2]. destruct (floats_inv l) as [[(r & E) _]|[_ N]]; [|contradiction]. exists r. split; auto. apply floats_spec in E. subst l. rewrite map_length in Hf2. destruct Hf2 as [Hf2|Hf2]; [left; destruct r; [auto|discriminate]|right; auto].
      - destruct Hf.
      - exists []. auto. }
    destruct R as (idx & -> & RI). cbn [bind]. unfold default_indices. destruct idx as [|x l] eqn:Ei.
    - cbn [bind settle_resolution]. rewrite SL. cbn [bind]. rewrite counting_len, Nat.eqb_refl. cbn [negb]. eauto.
    - rewrite <- Ei in *. destruct RI as [RI|RI]; [congruence|]. rewrite RI, Nat.eqb_refl. cbn [bind].
      assert (T : exists res, settle_resolution (se_res se) idx = Some res) by (destruct (se_res se); [cbn; eauto|apply settle_total; congruence]). destruct T as (res & ->). rewrite SL. cbn [bind]. rewrite RI, Nat.eqb_refl. cbn [negb]. eauto.
  Qed.
  Theorem increments_refused se a rows : context_widths lie se -> inside a -> plain_buffer a ->
    ~ ((exists w, letters se rows w /\ 0 < w /\ (se_time se = true -> 2 <= w)) /\ (se_ctx se = None -> se_depth se <> 0) /\ fitting a rows) ->
    from_increments se a rows = Throw.
  Proof.
    intros Hw Hin Hpl H. unfold IndexModel.from_increments.
    destruct (choose_ctx get_context se rows) as [c| | |] eqn:Ec; cbn [bind]; auto; try (unfold choose_ctx in Ec; destruct (se_ctx se); [discriminate|]; destruct (_ || _); discriminate).
    assert (P := width_pos V lie get_context Hget _ _ _ Hw Ec). destruct (ctx_spec V lie get_context Hget se rows c Ec) as [L D].
    assert (HD : se_ctx se = None -> se_depth se <> 0) by (intros E; rewrite E in D; tauto).
    assert (R : (exists idx, read_indices to_float a rows = Ok idx /\ (idx = [] -> fitting a rows) /\ (length idx = length rows -> fitting a rows)) \/ read_indices to_float a rows = Throw).
    { destruct a as [[b|c0|l|]|]; cbn [read_indices fitting inside] in *.
      - rewrite (buffer_plain b Hpl). left. destruct (Z_le_gt_dec (ib_count b) 0) as [L0|G]; [replace (Z.to_nat (ib_count b)) with 0%nat by lia; exists []; cbn [consecutive]; auto|].
        destruct (consecutive_ok (ib_cells b) (Z.to_nat (ib_count b)) (ib_off b)) as (l & El); [lia|lia|]. exists l. split; auto. apply consecutive_nth in El as [L1 _]. split; [intros ->; cbn in L1; lia|intros; lia].
      - destruct (c0 <? 0) eqn:E0; auto. destruct (column_inv V to_float c0 rows ltac:(lia) None) as [(l & El)|[El _]].
        + left. exists l. split; auto. assert (F : 0 <= c0 /\ Forall (fun r => c0 < Z.of_nat (length r)) rows); [|tauto]. split; [lia|]. clear - El E0. revert El. generalize (@None Q). revert l. induction rows as [|r rows IH]; intros l o El; constructor.
          * cbn [column] in El. destruct (nth_error r (Z.to_nat c0)) eqn:E; [|discriminate]. assert ((Z.to_nat c0 < length r)%nat) by (apply nth_error_Some; rewrite E; discriminate). lia.
          * cbn [column] in El. destruct (nth_error r (Z.to_nat c0)) eqn:E; [|discriminate]. destruct (column to_float c0 _ rows) as [l'| | |] eqn:E2; try discriminate. eapply IH; eauto.
        + rewrite El. right. reflexivity.
      - destruct (floats_inv l) as [[(r & E) F]|[E _]]; [|auto]. left. exists r. split; auto. apply floats_spec in E. subst l. rewrite map_length. split; [intros ->; split; auto|auto].
      - auto.
      - left. exists []. auto. }
    destruct R as [(idx & -> & R1 & R2)| ->]; [|reflexivity]. cbn [bind].
    assert (FS : fitting a rows -> finalize_schema se c = Throw).
    { intros Hf. unfold finalize_schema. destruct (se_time se) eqn:Et; cbn [andb].
      - destruct (Z.max 0 (cx_width c - 1) + 1 =? 0) eqn:E0; auto. destruct (Z.max 0 (cx_width c - 1) + 1 =? 1) eqn:E1; auto. exfalso. apply H. split; [exists (cx_width c); split; auto; split; auto; intros _; lia|]. auto.
      - exfalso. apply H. split; [exists (cx_width c); split; auto; split; auto; discriminate|]. auto. }
    unfold default_indices. destruct idx as [|x l] eqn:Ei.
    - cbn [bind settle_resolution]. rewrite FS by auto. reflexivity.
    - rewrite <- Ei in *. destruct (length idx =? length rows)%nat eqn:El; [|reflexivity]. apply Nat.eqb_eq in El. cbn [bind].
      assert (T : exists res, settle_resolution (se_res se) idx = Some res) by (destruct (se_res se); [cbn; eauto|apply settle_total; congruence]). destruct T as (res & ->). rewrite FS by auto. reflexivity.
  Qed.

  (** Queries over the whole support. *)
  Section Query.
    Variable is_zero : lie -> bool.
    Variable none : lie.
    Hypothesis none_zero : is_zero none = true.
    Variable S : sigs lie.
    Variable ok : lie -> Prop.
    Variable ctx : actx lie.
    Hypothesis HS : sound is_zero S ok ctx.
    Hypothesis Hok : forall c r, ok (construct c r).
    Hypothesis Hassign : forall v k x, ok v -> ok (assign v k x).

    Theorem whole_stream_at se a rows s : se_support se = None -> from_increments se a rows = Ok s -> fits_call s ctx (QAt (st_support s) (st_res s)) ->
      exists x, ok x /\ sg_eq S (sg_of S x) (sg_prod S (map snd (st_data s))) /\ forall h, Forall (fits_call s ctx) h -> replies is_zero none s ctx h (QAt (st_support s) (st_res s)) x.
    Proof.
      intros Hsup H Hf. destruct (from_covered se a rows s Hsup H) as (Hc & L & _). assert (Hs := from_stream_ok ok se a rows s (or_introl Hsup) Hok Hassign H).
      apply (whole_at lie is_zero none none_zero S ok ctx HS s Hs Hc Hf).
    Qed.
    Theorem whole_stream_default se a rows s : se_support se = None -> from_increments se a rows = Ok s -> fits_call s ctx (QDefault (st_support s)) ->
      (exists k, (ri_inf (st_support s) == dy k (st_res s))%Q) \/ (2 <= st_res s /\ (Qpower 2 (2 - st_res s) <= ri_sup (st_support s) - ri_inf (st_support s))%Q) ->
      exists x, ok x /\ sg_eq S (sg_of S x) (sg_prod S (map snd (st_data s))) /\ forall h, Forall (fits_call s ctx) h -> replies is_zero none s ctx h (QDefault (st_support s)) x.
    Proof.
      intros Hsup H Hf HA. destruct (from_covered se a rows s Hsup H) as (Hc & L & _). assert (Hs := from_stream_ok ok se a rows s (or_introl Hsup) Hok Hassign H).
      destruct HA as [(k & Hk)|[H2 Hl]]; [apply (whole_default lie is_zero none none_zero S ok ctx HS s Hs Hc k L Hk Hf)|apply (whole_fine lie is_zero none none_zero S ok ctx HS s Hs Hc Hl H2 Hf)].
    Qed.
    Theorem whole_stream_plain se a rows s : context_widths lie se -> se_support se = None -> se_time se = false -> no_indices a -> Z.of_nat (length rows) <= 2 ^ 26 -> from_increments se a rows = Ok s ->
      exists x, ok x /\ sg_eq S (sg_of S x) (sg_prod S (map (construct (st_ctx s)) rows)) /\ forall h, Forall (fits_call s ctx) h -> replies is_zero none s ctx h (QDefault (st_support s)) x.
    Proof.
      intros Hw Hsup Htime Hn Hlen H. rewrite <- (increments_in_order se a rows s Hw Htime H (or_introl Hn)). destruct (from_inv V lie to_float construct assign get_context se a rows s H) as (idx & r & slot & E1 & E2 & E3 & E4 & E5 & E6 & E7). rewrite Hsup in E7.
      assert (Er : st_res s = 0) by (apply (increments_frame se a rows s H); auto).
      assert (SE : exists n, 1 <= n <= 2 ^ 26 /\ (ri_inf (st_support s) == 0)%Q /\ (ri_sup (st_support s) == inject_Z n)%Q).
      { assert (SP := support_spec idx (st_res s)). rewrite Er in *. destruct idx as [|x0 l0] eqn:Ei.
        - rewrite E7, SP. exists 1. cbn. split; [lia|]. split; reflexivity.
        - rewrite <- Ei in *. assert (Ec : idx = counting (length rows)) by (destruct E3 as [(_ & X & _)|([N|R] & _)]; [exact X|contradiction|subst rows idx; discriminate]).
          assert (Hl : (0 < length rows)%nat) by (rewrite <- E2, Ei; cbn; lia).
          destruct SP as (m & M & [Hm Lm] & [HM GM] & Es & _). exists (Z.of_nat (length rows)). rewrite E7, Es. cbn [ri_inf ri_sup].
          assert (Hin : forall j, (j < length rows)%nat -> In (inject_Z (Z.of_nat j)) idx) by (intros j Hj; rewrite Ec; unfold counting; apply in_map_iff; exists j; split; auto; apply in_seq; lia).
          rewrite Ec in Hm, HM. unfold counting in Hm, HM. apply in_map_iff in Hm as (j & <- & Hj). apply in_map_iff in HM as (j' & <- & Hj'). apply in_seq in Hj. apply in_seq in Hj'.
          assert (X := Lm _ (Hin 0%nat Hl)). assert (Y := GM _ (Hin (length rows - 1)%nat ltac:(lia))). rewrite <- Zle_Qle in X, Y. split; [lia|].
          assert (j = 0%nat) by lia. assert (j' = (length rows - 1)%nat) by lia. subst j j'. split; [reflexivity|]. change (Qpower 2 (- 0)) with (inject_Z 1). rewrite <- inject_Z_plus. replace (Z.of_nat (length rows - 1) + 1) with (Z.of_nat (length rows)) by lia. reflexivity. }
      destruct SE as (n & Hnn & S1 & S2).
      apply (whole_stream_default se a rows s Hsup H).
      - split; [rewrite S1, S2; change 0%Q with (inject_Z 0); rewrite <- Zle_Qle; lia|]. rewrite from_self, upto_self, Er. intros tol (r0 & R1 & R2 & R3 & ->). rewrite from_self, upto_self, Er in *.
        assert (X : (1 <= inject_Z n)%Q) by (change 1%Q with (inject_Z 1); rewrite <- Zle_Qle; lia).
        assert (r0 = 0). { destruct R3 as [R3|R3]; auto. rewrite S1, S2 in R3. destruct (Z.eq_dec r0 0) as [|N0]; auto. exfalso.
          assert (P : (Qpower 2 (1 - r0) <= 1)%Q); [|lra]. assert (Y := Qpow2_plus (1 - r0) (r0 - 1)). replace (1 - r0 + (r0 - 1)) with 0 in Y by lia. cbn [Qpower] in Y.
          assert (W : (1 <= Qpower 2 (r0 - 1))%Q) by (rewrite Qpow2_Z by lia; change 1%Q with (inject_Z 1); rewrite <- Zle_Qle; assert (Z0 := pow2_pos (r0 - 1) ltac:(lia)); lia).
          assert (P0 := Qpow2_pos (1 - r0)). nra. }
        subst r0. change (Z.max 0 (0 + 2)) with 2. split; [lia|]. split; [lia|]. split; [lia|].
        assert (G : forall x k, (x == inject_Z k)%Q -> 0 <= k <= 2 ^ 26 -> - 2 ^ 28 <= Qfloor (grid_floor x 2 * Qpower 2 (Z.max 2 0)) <= 2 ^ 28).
        { intros x k Ex Hk. change (Z.max 2 0) with 2. assert (Ek : (x == dy (k * 4) 2)%Q) by (transitivity (dy k 0); [rewrite Ex; unfold dy; change (Qpower 2 (- 0)) with 1%Q; ring|exact (dy_scale k 0 2 ltac:(lia))]).
          rewrite (Qfloor_comp _ (inject_Z (k * 4))), Qfloor_Z; [lia|]. rewrite (grid_id _ _ _ Ek), Ek. unfold dy. rewrite <- Qmult_assoc, <- Qpow2_plus. change (- 2 + 2) with 0. cbn [Qpower]. apply Qmult_1_r. }
        intros x [-> | ->]; [apply (G _ 0); [exact S1|lia]|apply (G _ n); [exact S2|lia]].
      - left. exists 0. rewrite S1. reflexivity.
    Qed.
  End Query.
End Top.
