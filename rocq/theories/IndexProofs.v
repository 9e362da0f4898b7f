(** Indices, resolution and support of LieIncrementStream.from_increments. *)
From Coq Require Import ZifyBool Lqa.
From Verif Require Export IndexSpec StreamAlign.
From Verif Require Import Outcome DyadicProofs.
Open Scope Z_scope.

Lemma consecutive_nth cells n : forall at_ l, consecutive cells at_ n = Ok l -> length l = n /\
  forall i, (i < n)%nat -> exists x, nth_error l i = Some x /\ 0 <= at_ + Z.of_nat i /\ nth_error cells (Z.to_nat (at_ + Z.of_nat i)) = Some x.
Proof.
  induction n as [|n IH]; intros at_ l; cbn [consecutive]; [intros [= <-]; split; auto; lia|].
  destruct (if at_ <? 0 then None else nth_error cells (Z.to_nat at_)) as [x|] eqn:E; [|discriminate].
  destruct (consecutive cells (at_ + 1) n) as [l'| | |] eqn:El; cbn [bind]; try discriminate. intros [= <-]. destruct (IH _ _ El) as [L H]. split; [cbn; auto|].
  destruct (at_ <? 0) eqn:Ea; [discriminate|].
  intros [|i] Hi; cbn [nth_error].
  - exists x. rewrite Z.add_0_r. split; auto. split; [lia|auto].
  - destruct (H i ltac:(lia)) as (y & Y1 & Y2 & Y3). exists y. split; auto. replace (at_ + Z.of_nat (S i)) with (at_ + 1 + Z.of_nat i) by lia. auto.
Qed.
Lemma buffer_len b l : buffer_to_indices b = Ok l -> length l = Z.to_nat (ib_count b).
Proof.
  unfold buffer_to_indices. destruct (ib_type b) as [|bits|].
  - intros H. apply consecutive_nth in H. tauto.
  - destruct (consecutive _ _ _) as [l'| | |] eqn:E; try discriminate. cbn [bind]. intros [= <-]. apply consecutive_nth in E. rewrite map_length. tauto.
  - destruct (0 <? ib_count b) eqn:E; [discriminate|]. intros [= <-]. cbn. lia.
Qed.
Lemma buffer_plain b : plain_buffer (Some (IBuffer b)) -> buffer_to_indices b = consecutive (ib_cells b) (ib_off b) (Z.to_nat (ib_count b)).
Proof.
  cbn [plain_buffer]. unfold buffer_to_indices. intros [_ H]. destruct (ib_type b) as [|bits|]; [reflexivity| |].
  - destruct (consecutive _ _ _) as [l| | |] eqn:E; try reflexivity. cbn [bind]. f_equal. apply consecutive_nth in E as [L N]. rewrite <- (map_id l) at 2. apply map_ext_in. intros x Hx.
    apply In_nth_error in Hx as (i & Hi). assert (Hl : (i < length l)%nat) by (apply nth_error_Some; rewrite Hi; discriminate).
    destruct (N i ltac:(lia)) as (y & Y1 & Y2 & Y3). rewrite Hi in Y1. injection Y1 as <-. apply nth_error_In in Y3. rewrite Forall_forall in H. specialize (H x Y3).
    unfold as_signed. destruct (Qle_bool _ x) eqn:E; [|reflexivity]. apply Qle_bool_iff in E. exfalso. apply (Qlt_not_le _ _ H). exact E.
  - replace (Z.to_nat (ib_count b)) with 0%nat by lia. rewrite (proj2 (Z.ltb_ge 0 (ib_count b))) by lia. reflexivity.
Qed.
Lemma consecutive_ok cells n : forall at_, 0 <= at_ -> at_ + Z.of_nat n <= Z.of_nat (length cells) -> exists l, consecutive cells at_ n = Ok l.
Proof.
  induction n as [|n IH]; intros at_ H0 H1; cbn [consecutive]; [eauto|]. rewrite (proj2 (Z.ltb_ge _ _)) by lia.
  destruct (nth_error cells (Z.to_nat at_)) eqn:E; [|apply nth_error_None in E; lia]. destruct (IH (at_ + 1)) as (l & ->); [lia|lia|]. cbn [bind]. eauto.
Qed.
Lemma minmax_spec l : forall lo hi a b, minmax lo hi l = (a, b) ->
  (a = lo \/ In a l) /\ (b = hi \/ In b l) /\ (a <= lo)%Q /\ (hi <= b)%Q /\ forall x, In x l -> (a <= x)%Q /\ (x <= b)%Q.
Proof.
  induction l as [|x l IH]; intros lo hi a b; cbn [minmax]; [intros [= <- <-]; repeat split; auto; try apply Qle_refl; destruct H|].
  intros H. destruct (IH _ _ _ _ H) as (A & B & C & D & E). clear H IH.
  assert (X1 : (a <= lo)%Q /\ (a <= x)%Q). { destruct (qlt x lo) eqn:Q; [apply qlt_iff in Q|apply qlt_niff in Q]; lra. }
  assert (X2 : (hi <= b)%Q /\ (x <= b)%Q). { destruct (qlt x hi) eqn:Q; [apply qlt_iff in Q|apply qlt_niff in Q]; lra. }
  split; [destruct A as [->|A]; [destruct (qlt x lo); cbn; auto|cbn; auto]|]. split; [destruct B as [->|B]; [destruct (qlt x hi); cbn; auto|cbn; auto]|].
  split; [lra|]. split; [lra|]. intros y [<-|Hy]; [lra|auto].
Qed.
Lemma counting_nth n i x : nth_error (counting n) i = Some x -> x = inject_Z (Z.of_nat i) /\ (i < n)%nat.
Proof.
  unfold counting. intros H. rewrite nth_error_map in H. destruct (nth_error (seq 0 n) i) as [j|] eqn:E; [|discriminate]. cbn in H. injection H as <-.
  assert (Hi : (i < n)%nat). { assert (N := nth_error_Some (seq 0 n) i). rewrite seq_length in N. apply N. rewrite E. discriminate. }
  rewrite (nth_error_nth' _ 0%nat) in E by (rewrite seq_length; auto). rewrite seq_nth in E by auto. injection E as <-. auto.
Qed.
Lemma counting_len n : length (counting n) = n.
Proof. unfold counting. rewrite map_length, seq_length. reflexivity. Qed.

Lemma frexp_spec x : (qeq x 0 = true /\ (x == 0)%Q) \/ (qeq x 0 = false /\ (0 < Qabs x)%Q).
Proof.
  destruct (qeq x 0) eqn:E; [left; split; auto; apply Qeq_bool_iff; exact E|]. right. split; auto.
  assert (N : ~ (x == 0)%Q) by (intros X; apply Qeq_bool_iff in X; unfold qeq in E; congruence).
  destruct (Q_dec x 0) as [[L|G]|Z]; [|rewrite Qabs_pos; lra|contradiction]. rewrite Qabs_neg; lra.
Qed.
Lemma qlog2_unique x e e' : (Qpower 2 e <= x)%Q -> (x < Qpower 2 (e + 1))%Q -> (Qpower 2 e' <= x)%Q -> (x < Qpower 2 (e' + 1))%Q -> e = e'.
Proof.
  assert (M : forall a b, a <= b -> (Qpower 2 a <= Qpower 2 b)%Q).
  { intros a b H. replace b with (a + (b - a)) by lia. rewrite Qpow2_plus. assert (P := Qpow2_pos a). assert (1 <= Qpower 2 (b - a))%Q; [|nra].
    rewrite Qpow2_Z by lia. change 1%Q with (inject_Z 1). rewrite <- Zle_Qle. assert (X := pow2_pos (b - a) ltac:(lia)). lia. }
  intros A B C D. destruct (Z_lt_ge_dec e e') as [L|L]; [assert (X := M (e + 1) e' ltac:(lia)); lra|]. destruct (Z_lt_ge_dec e' e) as [L'|L']; [assert (X := M (e' + 1) e ltac:(lia)); lra|]. lia.
Qed.
Lemma py_resolution m m' : (m == m')%Q -> resolution_for m' (py_param_to_resolution m + 1).
Proof.
  intros Em. unfold py_param_to_resolution, frexp_exp, resolution_for. destruct (frexp_spec m) as [[-> E]|[-> E]].
  - split; [intros _; reflexivity|]. intros e He _. exfalso. assert (P := Qpow2_pos e). rewrite <- Em, E in He. cbn in He. lra.
  - split; [intros Z; rewrite <- Em in Z; rewrite Z in E; cbn in E; lra|]. intros e He1 He2. rewrite <- Em in He1, He2. destruct (qlog2_spec (Qabs m) E) as [A B].
    assert (e = qlog2 (Qabs m)) by (eapply qlog2_unique; eauto). subst e. lia.
Qed.
Lemma loop_spec l : forall m r, exists m' r', resolution_loop 0 (Some m) (Some r) l = Some r' /\
  (l = [] -> r' = r) /\ (l <> [] -> r' = py_param_to_resolution m' + 1) /\ (m' <= m)%Q /\ ((m' == m)%Q \/ exists x, In x l /\ (m' == x)%Q) /\ forall x, In x l -> (m' <= x)%Q.
Proof.
  induction l as [|x l IH]; intros m r; cbn [resolution_loop].
  - exists m, r. repeat split; auto; try congruence; try (left; reflexivity); try apply Qle_refl; intros x [].
  - set (m1 := if qlt (x - 0) m then (x - 0)%Q else m). assert (M : (m1 <= m)%Q /\ (m1 <= x)%Q /\ ((m1 == m)%Q \/ (m1 == x)%Q)).
    { unfold m1. destruct (qlt (x - 0) m) eqn:Q; [apply qlt_iff in Q|apply qlt_niff in Q]; (split; [lra|split; [lra|]]); [right; lra|left; lra]. }
    destruct (IH m1 (py_param_to_resolution m1 + 1)) as (m' & r' & E & H1 & H2 & H3 & H4 & H5). exists m', r'. split; auto. split; [discriminate|]. split; [|split; [|split]].
    + intros _. destruct l as [|y l]; [|apply H2; discriminate]. rewrite (H1 eq_refl).
      assert (X : (m' == m1)%Q) by (destruct H4 as [H4|(y & [] & _)]; auto). 
      clear - X. unfold py_param_to_resolution, frexp_exp. destruct (frexp_spec m1) as [[-> Z]|[-> Z]], (frexp_spec m') as [[-> Z']|[-> Z']]; auto.
      * exfalso. rewrite X, Z in Z'. cbn in Z'. lra.
      * exfalso. rewrite <- X, Z' in Z. cbn in Z. lra.
      * destruct (qlog2_spec _ Z) as [A B], (qlog2_spec _ Z') as [C D]. assert (AX : (Qabs m' == Qabs m1)%Q) by (rewrite X; reflexivity).
        assert (U : qlog2 (Qabs m1) = qlog2 (Qabs m')) by (apply (qlog2_unique (Qabs m1)); lra). rewrite U. reflexivity.
    + lra.
    + destruct H4 as [H4|(y & Hy & H4)]; [|right; exists y; split; [right; auto|auto]]. destruct M as (_ & _ & [M|M]); [left; lra|right; exists x; split; [left; auto|lra]].
    + intros y [<-|Hy]; [lra|auto].
Qed.
Lemma settle_spec idx r : settle_resolution None idx = Some r -> exists m, least m idx /\ resolution_for m r.
Proof.
  unfold settle_resolution. destruct idx as [|x l]; [discriminate|]. cbn [resolution_loop]. intros H.
  destruct (loop_spec l (x - 0)%Q (py_param_to_resolution (x - 0) + 1)) as (m' & r' & E & H1 & H2 & H3 & H4 & H5). rewrite E in H. injection H as ->.
  assert (X : exists m, In m (x :: l) /\ (m' == m)%Q). { destruct H4 as [H4|(y & Hy & H4)]; [exists x; split; [left; auto|lra]|exists y; split; [right; auto|auto]]. }
  destruct X as (m & Hm & Em). exists m. split; [split; auto; intros y [<-|Hy]; [lra|assert (Z := H5 y Hy); lra]|].
  destruct l as [|y l]; [rewrite (H1 eq_refl); apply py_resolution; destruct H4 as [H4|(y & [] & _)]; lra|]. rewrite H2 by discriminate. apply py_resolution. exact Em.
Qed.
Lemma settle_total idx : idx <> [] -> exists r, settle_resolution None idx = Some r.
Proof. destruct idx as [|x l]; [congruence|]. intros _. unfold settle_resolution. cbn [resolution_loop]. destruct (loop_spec l (x - 0)%Q (py_param_to_resolution (x - 0) + 1)) as (m' & r' & E & _). eauto. Qed.

Section From.
  Variable V lie : Type.
  Variable to_float : V -> Q.
  Variable construct : actx lie -> list V -> lie.
  Variable assign : lie -> Z -> Q -> lie.
  Variable get_context : Z -> Z -> actx lie.
  Hypothesis Hget : forall w d, cx_width (get_context w d) = w.
  Notation from_increments := (from_increments to_float construct assign get_context).

  Lemma column_spec c rows : forall last l, column to_float c last rows = Ok l -> length l = length rows /\
    forall i x, nth_error l i = Some x -> exists es, Forall2 (fun r v => nth_error r (Z.to_nat c) = Some v) (firstn (S i) rows) es /\
      (x == match last with None => 0 | Some y => y end + qsum (map to_float es))%Q.
  Proof.
    induction rows as [|r rows IH]; intros last l; cbn [column]; [intros [= <-]; split; auto; intros [|i] x; discriminate|].
    destruct (nth_error r (Z.to_nat c)) as [v|] eqn:E; [|discriminate]. set (x0 := match last with None => to_float v | Some y => (y + to_float v)%Q end).
    destruct (column to_float c (Some x0) rows) as [l'| | |] eqn:El; cbn [bind]; try discriminate. intros [= <-]. destruct (IH _ _ El) as [L H]. split; [cbn; auto|].
    assert (X0 : (x0 == match last with None => 0 | Some y => y end + to_float v)%Q) by (unfold x0; destruct last; lra).
    intros [|i] x; cbn [nth_error].
    - intros [= <-]. exists [v]. split; [constructor; [auto|constructor]|]. cbn [map qsum fold_right]. rewrite X0. lra.
    - intros Hx. destruct (H i x Hx) as (es & F & Ex). exists (v :: es). split; [constructor; auto|]. cbn [map qsum fold_right]. fold (qsum (map to_float es)). rewrite Ex, X0. lra.
  Qed.
  Lemma column_ok c rows : Forall (fun r => c < Z.of_nat (length r)) rows -> 0 <= c -> forall last, exists l, column to_float c last rows = Ok l.
  Proof.
    intros H H0. induction H as [|r rows Hr H IH]; intros last; cbn [column]; [eauto|]. destruct (nth_error r (Z.to_nat c)) eqn:E; [|apply nth_error_None in E; lia].
    destruct (IH (Some (match last with None => to_float v | Some y => (y + to_float v)%Q end))) as (l & ->). cbn [bind]. eauto.
  Qed.
  Lemma column_inv c rows : 0 <= c -> forall last, (exists l, column to_float c last rows = Ok l) \/ (column to_float c last rows = Throw /\ ~ Forall (fun r => c < Z.of_nat (length r)) rows).
  Proof.
    intros H0. induction rows as [|r rows IH]; intros last; cbn [column]; [left; eauto|]. destruct (nth_error r (Z.to_nat c)) eqn:E.
    - destruct (IH (Some (match last with None => to_float v | Some y => (y + to_float v)%Q end))) as [(l & ->)|[-> N]]; cbn [bind]; [left; eauto|]. right. split; auto. intros F. apply N. inversion F; auto.
    - right. split; auto. intros F. inversion F. apply nth_error_None in E. lia.
  Qed.
  Lemma floats_spec l r : all_floats l = Ok r -> l = map Some r.
  Proof. revert r. induction l as [|[x|] l IH]; intros r; cbn [all_floats]; [intros [= <-]; auto| |discriminate]. destruct (all_floats l) as [r'| | |]; cbn [bind]; try discriminate. intros [= <-]. cbn. rewrite (IH r' eq_refl). reflexivity. Qed.
  Lemma floats_inv l : (exists r, all_floats l = Ok r) /\ Forall (fun o => o <> None) l \/ all_floats l = Throw /\ ~ Forall (fun o => o <> None) l.
  Proof.
    induction l as [|[x|] l IH]; cbn [all_floats]; [left; split; eauto| |right; split; auto; intros F; inversion F; congruence].
    destruct IH as [[(r & ->) F]|[-> F]]; cbn [bind]; [left; split; eauto; constructor; [discriminate|auto]|right; split; auto; intros G; apply F; inversion G; auto].
  Qed.

  (** The data of a stream: the first row at each index. *)
  Definition stored (time : bool) (c : actx lie) (idx : list Q) (i : nat) (k : Q) (r : list V) : lie :=
    if time then assign (construct c r) (cx_width c) (k - match i with O => 0 | S j => nth j idx 0 end)%Q else construct c r.
  Fixpoint values (c : actx lie) (slot : Z) (previous : Q) (idx : list Q) (rows : list (list V)) : list (Q * lie) :=
    match idx, rows with
    | x :: idx, r :: rows => (x, if 0 <? slot then assign (construct c r) slot (x - previous)%Q else construct c r) :: values c slot x idx rows
    | _, _ => []
    end.
  Lemma insert_values c slot rows : forall idx previous d, insert_rows construct assign c slot previous idx rows d = fold_left (fun d r => try_emplace (fst r) (snd r) d) (values c slot previous idx rows) d.
  Proof. induction rows as [|r rows IH]; intros [|x idx] previous d; cbn [insert_rows values fold_left fst snd]; auto. Qed.
  Lemma values_nth c slot rows : forall idx previous i k v, nth_error (values c slot previous idx rows) i = Some (k, v) <->
    nth_error idx i = Some k /\ exists r, nth_error rows i = Some r /\
      v = if 0 <? slot then assign (construct c r) slot (k - match i with O => previous | S j => nth j idx 0%Q end)%Q else construct c r.
  Proof.
    induction rows as [|r rows IH]; intros [|x idx] previous i k v; cbn [values].
    - split; [destruct i; discriminate|]. intros [H _]. destruct i; discriminate.
    - split; [destruct i; discriminate|]. intros [_ (r & H & _)]. destruct i; discriminate.
    - split; [destruct i; discriminate|]. intros [H _]. destruct i; discriminate.
    - destruct i as [|i]; cbn [nth_error].
      + split; [intros [= <- <-]; split; auto; exists r; auto|]. intros [[= <-] (r' & [= <-] & ->)]. reflexivity.
      + rewrite IH. destruct i as [|i]; cbn [nth]; reflexivity.
  Qed.
  Lemma values_len c slot rows : forall idx previous, length idx = length rows -> length (values c slot previous idx rows) = length rows.
  Proof. induction rows as [|r rows IH]; intros [|x idx] previous H; cbn in *; auto; try discriminate. Qed.

  (** Reading the call. *)
  Lemma from_inv se a rows s : from_increments se a rows = Ok s ->
    exists idx r slot, choose_ctx get_context se rows = Ok (st_ctx s) /\ length idx = length rows /\
      (no_indices a /\ idx = counting (length rows) /\ r = Some 0 \/ (~ no_indices a \/ rows = []) /\ read_indices to_float a rows = Ok idx /\ r = (match idx with [] => Some 0 | _ => se_res se end)) /\
      settle_resolution r idx = Some (st_res s) /\ finalize_schema se (st_ctx s) = Ok slot /\
      st_data s = lis_data (values (st_ctx s) slot 0 idx rows) /\ st_support s = match se_support se with Some i => i | None => effective_support idx (st_res s) end.
  Proof.
    unfold IndexModel.from_increments. destruct (choose_ctx get_context se rows) as [c| | |] eqn:Ec; cbn [bind]; try discriminate.
    destruct (read_indices to_float a rows) as [idx0| | |] eqn:Ei; cbn [bind]; try discriminate.
    destruct (default_indices se rows idx0) as [[idx r]| | |] eqn:Ed; cbn [bind]; try discriminate.
    destruct (settle_resolution r idx) as [res|] eqn:Er; [|discriminate]. destruct (finalize_schema se c) as [slot| | |] eqn:Es; cbn [bind]; try discriminate.
    destruct (length idx =? length rows)%nat eqn:El; cbn [negb]; [|discriminate]. apply Nat.eqb_eq in El. intros [= <-]. cbn [st_ctx st_res st_data st_support].
    exists idx, r, slot. split; auto. split; auto. split; [|split; auto; split; auto; split; auto; rewrite insert_values; reflexivity].
    unfold default_indices in Ed. destruct idx0 as [|x idx0].
    - injection Ed as <- <-. destruct a as [[b|c0|l|]|]; cbn [no_indices read_indices] in *.
      + left. split; auto. apply buffer_len in Ei as L. cbn in L. lia.
      + right. destruct (c0 <? 0); [discriminate|]. destruct (column_spec c0 rows None [] Ei) as [L _]. cbn in L. destruct rows; [|discriminate]. auto.
      + left. split; auto. apply floats_spec in Ei. auto.
      + discriminate.
      + left. auto.
    - destruct (length (x :: idx0) =? length rows)%nat; [|discriminate]. injection Ed as <- <-. right. split; [|auto]. left.
      destruct a as [[b|c0|l|]|]; cbn [no_indices read_indices] in *; auto.
      + apply buffer_len in Ei as L. cbn in L. lia.
      + apply floats_spec in Ei. subst l. discriminate.
      + discriminate.
  Qed.
  Lemma read_spec a rows idx : plain_buffer a -> read_indices to_float a rows = Ok idx -> forall i x, nth_error idx i = Some x -> index_of to_float a rows i x.
  Proof.
    intros Hc H i x Hx. destruct a as [[b|c|l|]|]; cbn [read_indices plain_buffer] in *.
    - rewrite (buffer_plain b Hc) in H. destruct Hc as [Hc _]. destruct (consecutive_nth _ _ _ _ H) as [L N]. assert (Hi : (i < length idx)%nat) by (apply nth_error_Some; rewrite Hx; discriminate).
      destruct (N i ltac:(lia)) as (y & Y1 & Y2 & Y3). rewrite Hx in Y1. injection Y1 as <-.
      assert (E : ib_off b + Z.of_nat i * ib_stride b = ib_off b + Z.of_nat i) by (destruct Hc as [-> |Hc]; [lia|]; assert (i = 0%nat) by lia; subst i; lia).
      apply (ix_buffer to_float (Some (IBuffer b)) rows i b x); auto; rewrite ?E; auto. lia.
    - destruct (c <? 0); [discriminate|]. destruct (column_spec c rows None idx H) as [_ N]. destruct (N i x Hx) as (es & F & Ex). apply (ix_column to_float (Some (IColumn c)) rows i c es x); auto. rewrite Ex. lra.
    - apply floats_spec in H. subst l. apply (ix_seq to_float (Some (ISeq (map Some idx))) rows i (map Some idx) x); auto. rewrite nth_error_map, Hx. reflexivity.
    - discriminate.
    - injection H as <-. destruct i; discriminate.
  Qed.
  Lemma slot_of (se : settings lie) c slot : finalize_schema se c = Ok slot -> (0 <= cx_width c -> if se_time se then slot = cx_width c /\ 2 <= cx_width c else slot = 0 /\ cx_width c <> 0).
  Proof. unfold finalize_schema. destruct (se_time se); cbn [andb]; intros H Hw; [|destruct (cx_width c =? 0) eqn:E; [discriminate|injection H as <-; split; lia]]. destruct (Z.max 0 (cx_width c - 1) + 1 =? 0) eqn:E; [discriminate|]. destruct (Z.max 0 (cx_width c - 1) + 1 =? 1) eqn:E1; [discriminate|]. injection H as <-. lia. Qed.

  Definition context_widths (se : settings lie) : Prop := (forall c, se_ctx se = Some c -> 0 < cx_width c) /\ 0 <= se_width se.
  Lemma max_rows (rows : list (list V)) : forall m, m <= fold_left (fun m r => Z.max m (Z.of_nat (length r))) rows m /\ (forall r, In r rows -> Z.of_nat (length r) <= fold_left (fun m r => Z.max m (Z.of_nat (length r))) rows m) /\
    (fold_left (fun m r => Z.max m (Z.of_nat (length r))) rows m = m \/ exists r, In r rows /\ Z.of_nat (length r) = fold_left (fun m r => Z.max m (Z.of_nat (length r))) rows m).
  Proof.
    induction rows as [|r rows IH]; intros m; cbn [fold_left]; [split; [lia|]; split; [intros r []|auto]|]. destruct (IH (Z.max m (Z.of_nat (length r)))) as (A & B & C).
    split; [lia|]. split; [intros r' [<-|Hr]; [lia|auto]|]. destruct C as [C|(r' & Hr & C)]; [|right; exists r'; split; [right; auto|auto]].
    destruct (Z.max_spec m (Z.of_nat (length r))) as [[_ E]|[_ E]]; rewrite E in *; [right; exists r; split; [left; auto|lia]|left; lia].
  Qed.
  Lemma letters_iff (se : settings lie) (rows : list (list V)) w : letters se rows w <-> w = match se_ctx se with Some c => cx_width c | None => if se_width se =? 0 then max_row_size rows else se_width se end.
  Proof.
    unfold letters. destruct (se_ctx se); [reflexivity|]. destruct (se_width se =? 0); [|reflexivity]. unfold max_row_size. destruct (max_rows rows 0) as (A & B & C). split.
    - intros [[-> ->]|[(r & Hr & L) M]]; auto. assert (X := B r Hr). destruct C as [C|(r' & Hr' & C)]; [lia|]. assert (Y := M r' Hr'). lia.
    - intros ->. destruct rows as [|r rows]; [left; auto|]. right. split; [|auto]. destruct C as [C|C]; [|exact C]. exists r. split; [left; auto|]. assert (X := B r (or_introl eq_refl)). lia.
  Qed.
  Lemma ctx_spec (se : settings lie) (rows : list (list V)) c : choose_ctx get_context se rows = Ok c -> letters se rows (cx_width c) /\ (match se_ctx se with Some c' => c' = c | None => c = get_context (cx_width c) (se_depth se) /\ se_depth se <> 0 /\ cx_width c <> 0 end).
  Proof.
    rewrite letters_iff. unfold choose_ctx. destruct (se_ctx se) as [c'|]; [intros [= <-]; auto|]. set (w := if se_width se =? 0 then max_row_size rows else se_width se).
    destruct ((w =? 0) || (se_depth se =? 0)) eqn:E; [discriminate|]. apply orb_false_iff in E as [E1 E2]. intros [= <-]. rewrite Hget. split; auto. split; auto. lia.
  Qed.
  Lemma width_pos (se : settings lie) (rows : list (list V)) c : context_widths se -> choose_ctx get_context se rows = Ok c -> 0 < cx_width c.
  Proof.
    intros [H1 H2] H. destruct (ctx_spec se rows c H) as [L X]. rewrite letters_iff in L. destruct (se_ctx se) as [c'|] eqn:E; [subst; auto|]. destruct X as (_ & _ & X).
    destruct (se_width se =? 0) eqn:W; [|lia]. destruct (max_rows rows 0) as (A & _). unfold max_row_size in L. lia.
  Qed.

  Theorem increments_placed se a rows s : context_widths se -> plain_buffer a -> from_increments se a rows = Ok s ->
    exists idx, length idx = length rows /\ (forall i x, nth_error idx i = Some x -> index_of to_float a rows i x) /\ ascending (st_data s) /\
      forall k v, In (k, v) (st_data s) <-> exists i r, nth_error idx i = Some k /\ nth_error rows i = Some r /\ v = stored (se_time se) (st_ctx s) idx i k r /\
        forall j y, (j < i)%nat -> nth_error idx j = Some y -> ~ (y == k)%Q.
  Proof.
    intros Hw Hc H. destruct (from_inv se a rows s H) as (idx & r & slot & E1 & E2 & E3 & E4 & E5 & E6 & E7). exists idx. split; auto.
    split. { intros i x Hx. destruct E3 as [(N & -> & _)|(_ & R & _)]; [|eapply read_spec; eauto]. apply counting_nth in Hx as [-> _]. apply ix_count; auto. }
    rewrite E6. destruct (increments_spec lie (values (st_ctx s) slot 0 idx rows)) as [A B]. split; auto. intros k v. rewrite B.
    assert (W := width_pos _ _ _ Hw E1). assert (SL := slot_of _ _ _ E5 ltac:(lia)).
    assert (ST : forall i r, (if 0 <? slot then assign (construct (st_ctx s) r) slot (k - match i with O => 0 | S j => nth j idx 0 end)%Q else construct (st_ctx s) r) = stored (se_time se) (st_ctx s) idx i k r).
    { intros i r0. unfold stored. destruct (se_time se); [destruct SL as [-> SL]; rewrite (proj2 (Z.ltb_lt _ _)) by lia; reflexivity|destruct SL as [-> SL]; reflexivity]. }
    split.
    - intros (l1 & l2 & El & Hf). assert (N : nth_error (values (st_ctx s) slot 0 idx rows) (length l1) = Some (k, v)) by (rewrite El, nth_error_app2, Nat.sub_diag by lia; reflexivity).
      apply values_nth in N as (N1 & r0 & N2 & N3). exists (length l1), r0. split; auto. split; auto. split; [rewrite <- ST; exact N3|].
      intros j y Hj Hy. assert (Hrows : (j < length rows)%nat) by (assert ((length l1 < length rows)%nat) by (apply nth_error_Some; rewrite N2; discriminate); lia).
      destruct (nth_error (values (st_ctx s) slot 0 idx rows) j) as [[k' v']|] eqn:Ej; [|apply nth_error_None in Ej; rewrite values_len in Ej by auto; lia].
      assert (Ej' := Ej). apply values_nth in Ej' as (Y1 & _). rewrite Hy in Y1. injection Y1 as <-. apply (Hf (y, v')). rewrite El, nth_error_app1 in Ej by auto. eapply nth_error_In; eauto.
    - intros (i & r0 & N1 & N2 & -> & Hf). assert (N : nth_error (values (st_ctx s) slot 0 idx rows) i = Some (k, stored (se_time se) (st_ctx s) idx i k r0)).
      { apply values_nth. split; auto. exists r0. split; [auto|symmetry; apply ST]. }
      destruct (nth_error_split _ _ N) as (l1 & l2 & El & Ll). exists l1, l2. split; auto. intros e He. apply In_nth_error in He as (j & Hj).
      assert (Lj : (j < i)%nat) by (rewrite <- Ll; apply nth_error_Some; rewrite Hj; discriminate).
      assert (Hj' : nth_error (values (st_ctx s) slot 0 idx rows) j = Some e) by (rewrite El, nth_error_app1 by lia; auto). destruct e as [k' v']. apply values_nth in Hj' as (Y1 & _). cbn. apply (Hf j k'); auto.
  Qed.

  Lemma support_spec idx res : match idx with
    | [] => effective_support idx res = mkRI 0 1 Clopen
    | _ => exists m M, least m idx /\ greatest M idx /\ effective_support idx res = mkRI m (M + Qpower 2 (- res)) Clopen /\ (m < M + Qpower 2 (- res))%Q
    end.
  Proof.
    destruct idx as [|x l]; [reflexivity|]. cbn [effective_support]. destruct (minmax x x l) as [lo hi] eqn:E. destruct (minmax_spec _ _ _ _ _ E) as (A & B & C & D & F).
    exists lo, hi. assert (P := Qpow2_pos (- res)). split; [split; [destruct A as [->|A]; [left; auto|right; auto]|intros y [<-|Hy]; [auto|apply F; auto]]|].
    split; [split; [destruct B as [->|B]; [left; auto|right; auto]|intros y [<-|Hy]; [auto|apply F; auto]]|]. assert (L : (lo < hi + Qpower 2 (- res))%Q) by lra. split; auto.
    unfold ri_make. rewrite (proj2 (qlt_niff _ _)) by lra. reflexivity.
  Qed.
End From.
