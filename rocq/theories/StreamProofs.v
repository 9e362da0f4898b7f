(** Proofs about the stream queries. *)
From Coq Require Import ZifyBool Lqa Qround.
From Verif Require Export StreamSpec DyadicLemmas.
From Verif Require Import DyadicProofs DyadicProofs2 DyadicProofs3.
Open Scope Z_scope.

Lemma qlt_iff x y : qlt x y = true <-> (x < y)%Q.
Proof. unfold qlt. rewrite negb_true_iff, <- not_true_iff_false, Qle_bool_iff. split; [apply Qnot_le_lt|intros H1 H2; apply (Qlt_not_le _ _ H1 H2)]. Qed.
Lemma qlt_niff x y : qlt x y = false <-> (y <= x)%Q.
Proof. unfold qlt. rewrite negb_false_iff, Qle_bool_iff. reflexivity. Qed.
Lemma qle_iff x y : qle x y = true <-> (x <= y)%Q.
Proof. apply Qle_bool_iff. Qed.
Lemma qle_niff x y : qle x y = false <-> (y < x)%Q.
Proof. unfold qle. rewrite <- not_true_iff_false, Qle_bool_iff. split; [apply Qnot_le_lt|intros H1 H2; apply (Qlt_not_le _ _ H1 H2)]. Qed.

Section Ranges.
  Variable lie : Type.
  Notation incs := (list (Q * lie)).
  Definition inb (a b : Q) (e : Q * lie) : bool := Qle_bool a (fst e) && negb (Qle_bool b (fst e)).
  Lemma inb_iff a b e : inb a b e = true <-> (a <= fst e < b)%Q.
  Proof. unfold inb. rewrite andb_true_iff, Qle_bool_iff. change (negb (Qle_bool b (fst e))) with (qlt (fst e) b). rewrite qlt_iff. reflexivity. Qed.

  Lemma filter_none (f : Q * lie -> bool) d : (forall e, In e d -> f e = false) -> filter f d = [].
  Proof. induction d as [|e d IH]; intros H; cbn; auto. rewrite (H e) by (left; auto). apply IH. intros; apply H; right; auto. Qed.
  Lemma asc_tail e (d : incs) : ascending (e :: d) -> ascending d /\ forall e', In e' d -> (fst e < fst e')%Q.
  Proof. intros H. inversion H as [|? ? H1 H2]; subst. split; auto. rewrite Forall_forall in H2. auto. Qed.

  Lemma range_filter (d : incs) a b : ascending d -> (a <= b)%Q ->
    (lower_bound d a <= lower_bound d b)%nat /\ skipn (lower_bound d a) (firstn (lower_bound d b) d) = filter (inb a b) d /\
    ((lower_bound d a = lower_bound d b)%nat <-> filter (inb a b) d = []).
  Proof.
    intros Hd Hab. induction d as [|[k v] d IH]; [cbn; split; [lia|tauto]|].
    apply asc_tail in Hd. destruct Hd as [Hd Hk]. specialize (IH Hd). destruct IH as (I1 & I2 & I3). cbn [lower_bound filter fst] in *.
    destruct (qlt k a) eqn:Ea; [apply qlt_iff in Ea|apply qlt_niff in Ea].
    - replace (qlt k b) with true by (symmetry; apply qlt_iff; lra). cbn [firstn skipn].
      replace (inb a b (k, v)) with false. 2:{ symmetry. apply not_true_iff_false. rewrite inb_iff. cbn. lra. }
      split; [lia|]. split; auto. rewrite <- I3. lia.
    - destruct (qlt k b) eqn:Eb; [apply qlt_iff in Eb|apply qlt_niff in Eb].
      + replace (inb a b (k, v)) with true by (symmetry; apply inb_iff; cbn; lra). cbn [firstn skipn].
        assert (L0 : lower_bound d a = O).
        { destruct d as [|[k' v'] d']; auto. cbn [lower_bound]. replace (qlt k' a) with false; auto. symmetry. apply qlt_niff. specialize (Hk (k', v') ltac:(left; auto)). cbn in Hk. lra. }
        rewrite L0 in I2. cbn [skipn] in I2. rewrite I2. split; [lia|]. split; auto. split; discriminate.
      + cbn [firstn skipn]. assert (F : filter (inb a b) d = []).
        { apply filter_none. intros e He. apply not_true_iff_false. rewrite inb_iff. specialize (Hk e He). lra. }
        replace (inb a b (k, v)) with false by (symmetry; apply not_true_iff_false; rewrite inb_iff; cbn; lra). rewrite F. split; [lia|]. tauto.
  Qed.
  Lemma filter_split (d : incs) a b c : ascending d -> (a <= b)%Q -> (b <= c)%Q ->
    filter (inb a c) d = filter (inb a b) d ++ filter (inb b c) d.
  Proof.
    intros Hd H1 H2. induction d as [|e d IH]; auto. apply asc_tail in Hd. destruct Hd as [Hd He]. specialize (IH Hd). cbn [filter].
    destruct (Qlt_le_dec (fst e) b) as [Hb|Hb].
    - replace (inb b c e) with false by (symmetry; apply not_true_iff_false; rewrite inb_iff; lra).
      replace (inb a c e) with (inb a b e). { rewrite IH. destruct (inb a b e); reflexivity. }
      apply eq_true_iff_eq. rewrite !inb_iff. split; intros [X Y]; split; auto. lra.
    - assert (F : filter (inb a b) d = []). { apply filter_none. intros e' He'. apply not_true_iff_false. rewrite inb_iff. specialize (He e' He'). lra. }
      replace (inb a b e) with false by (symmetry; apply not_true_iff_false; rewrite inb_iff; lra). rewrite F, IH, F.
      replace (inb b c e) with (inb a c e). { reflexivity. } apply eq_true_iff_eq. rewrite !inb_iff. split; intros [X Y]; split; auto; lra.
  Qed.
  Lemma inb_ext a a' b b' e : (a == a')%Q -> (b == b')%Q -> inb a b e = inb a' b' e.
  Proof. intros H1 H2. apply eq_true_iff_eq. rewrite !inb_iff, H1, H2. reflexivity. Qed.
  Lemma filter_ext' a a' b b' (d : incs) : (a == a')%Q -> (b == b')%Q -> filter (inb a b) d = filter (inb a' b') d.
  Proof. intros H1 H2. apply filter_ext. intros. apply inb_ext; auto. Qed.

  (** Building the map from rows. *)
  Lemma emplace_in k v (d : incs) e : In e (try_emplace k v d) -> e = (k, v) \/ In e d.
  Proof.
    induction d as [|[k' v'] d IH]; cbn [try_emplace]; [intros [<-|[]]; auto|]. destruct (qlt k k'); [intros [<-|H]; auto|].
    destruct (qlt k' k); [|auto]. intros [<-|H]; [right; left; auto|]. destruct (IH H); auto. right; right; auto.
  Qed.
  Lemma emplace_asc k v (d : incs) : ascending d -> ascending (try_emplace k v d).
  Proof.
    induction d as [|[k' v'] d IH]; intros Hd; cbn [try_emplace]; [repeat constructor|]. assert (H := asc_tail _ _ Hd). destruct H as [Hd' Hk].
    destruct (qlt k k') eqn:E1; [apply qlt_iff in E1|].
    - constructor; auto. rewrite Forall_forall. intros e [<-|He]; cbn; auto. specialize (Hk e He). cbn in *. lra.
    - destruct (qlt k' k) eqn:E2; auto. apply qlt_iff in E2. constructor; [apply IH; auto|]. rewrite Forall_forall. intros e He. apply emplace_in in He.
      destruct He as [->|He]; cbn; auto.
  Qed.
  Lemma emplace_keeps k v (d : incs) e : In e d -> In e (try_emplace k v d).
  Proof.
    induction d as [|[k' v'] d IH]; cbn [try_emplace]; [intros []|]. intros H. destruct (qlt k k'); [right; auto|]. destruct (qlt k' k); auto.
    destruct H as [<-|H]; [left; auto|right; auto].
  Qed.
  Lemma emplace_new k v (d : incs) : ascending d -> (In (k, v) (try_emplace k v d) /\ forall e, In e d -> ~ (fst e == k)%Q) \/ (try_emplace k v d = d /\ exists e, In e d /\ (fst e == k)%Q).
  Proof.
    induction d as [|[k' v'] d IH]; intros Hd; cbn [try_emplace]; [left; split; [left; auto|intros ? []]|]. assert (H := asc_tail _ _ Hd). destruct H as [Hd' Hk].
    destruct (qlt k k') eqn:E1; [apply qlt_iff in E1; left; split; [left; auto|]|apply qlt_niff in E1; destruct (qlt k' k) eqn:E2; [apply qlt_iff in E2|apply qlt_niff in E2]].
    - intros e [<-|He] HE; cbn in HE; [lra|]. specialize (Hk e He). cbn in Hk. lra.
    - destruct (IH Hd') as [[X Y]|[X (e & Y & W)]].
      + left. split; [right; auto|]. intros e [<-|He]; cbn; [lra|apply Y; auto].
      + right. rewrite X. split; auto. exists e. split; auto. right; auto.
    - right. split; auto. exists (k', v'). split; [left; auto|cbn; lra].
  Qed.
  (** The rows that count: the first of each parameter. *)
  Definition first_row (rows : list (Q * lie)) (e : Q * lie) : Prop :=
    exists l1 l2, rows = l1 ++ e :: l2 /\ forall r, In r l1 -> ~ (fst r == fst e)%Q.
  Theorem lis_data_spec rows : ascending (lis_data rows) /\ forall e, In e (lis_data rows) <-> first_row rows e.
  Proof.
    induction rows as [|r rows IH] using rev_ind.
    - split; [constructor|]. intros e. split; [intros []|]. intros (l1 & l2 & E & _). destruct l1; discriminate.
    - unfold lis_data in |- *. rewrite fold_left_app. cbn [fold_left]. change (fold_left (fun d r => try_emplace (fst r) (snd r) d) rows []) with (lis_data rows) in *. set (d := lis_data rows) in *. destruct IH as [Ha IH]. destruct r as [k v]. cbn [fst snd].
      split; [apply emplace_asc; auto|]. intros e. split.
      + intros He. assert (Old : In e d -> first_row (rows ++ [(k, v)]) e).
        { intros Hin. apply IH in Hin. destruct Hin as (l1 & l2 & E & Hf). exists l1, (l2 ++ [(k, v)]). split; auto. rewrite E, <- app_assoc. reflexivity. }
        destruct (emplace_in _ _ _ _ He) as [->|Hin]; auto. destruct (emplace_new k v d Ha) as [[_ Hn]|[E _]]; [|apply Old; rewrite <- E; auto].
        exists rows, []. split; auto. intros r Hr Heq. cbn in Heq.
        assert (Ex : exists e', first_row rows e' /\ (fst e' == fst r)%Q).
        { clear -Hr. induction rows as [|q rows IH]; [destruct Hr|]. destruct (Qeq_dec (fst q) (fst r)) as [E|E].
          - exists q. split; auto. exists [], rows. split; auto.
          - destruct Hr as [->|Hr]; [exfalso; apply E; reflexivity|]. destruct (IH Hr) as (e' & (l1 & l2 & El & Hf) & E'). exists e'. split; auto.
            exists (q :: l1), l2. split; [rewrite El; auto|]. intros r' [<-|H]; [|auto]. intros X. apply E. rewrite X. exact E'. }
        destruct Ex as (e' & Hf & E'). apply IH in Hf. apply (Hn e' Hf). rewrite E'. exact Heq.
      + intros (l1 & l2 & E & Hf). destruct l2 as [|x l2] using rev_ind.
        * apply app_inj_tail in E. destruct E as [<- <-]. destruct (emplace_new k v d Ha) as [[X _]|[_ (e' & Hin & Heq)]]; auto.
          exfalso. apply IH in Hin. destruct Hin as (m1 & m2 & Em & _). apply (Hf e'); [rewrite Em; apply in_or_app; right; left; auto|exact Heq].
        * clear IHl2. assert (E2 : rows = l1 ++ e :: l2). { rewrite app_comm_cons, app_assoc in E. apply app_inj_tail in E. apply E. }
          apply emplace_keeps. apply IH. exists l1, l2. auto.
  Qed.
End Ranges.

Section Layer.
  Variable lie : Type.
  Variable is_zero : lie -> bool.
  Variable lie_none : lie.
  Hypothesis none_zero : is_zero lie_none = true.
  Variable S : sigs lie.
  Variable ok : lie -> Prop.
  Variable ctx : actx lie.
  Hypothesis HS : sound is_zero S ok ctx.
  Variable d : list (Q * lie).
  Hypothesis Hasc : ascending d.
  Hypothesis Hok : Forall (fun e => ok (snd e)) d.
  Variable res : Z.
  Hypothesis Hres : - 2 ^ 27 <= res <= 2 ^ 27.
  Infix "===" := (sg_eq S) (at level 70).

  Notation prod l := (sg_prod S l).
  Lemma prod_app l1 l2 : prod (l1 ++ l2) === sg_mul S (prod l1) (prod l2).
  Proof.
    induction l1 as [|x l1 IH]; cbn [app sg_prod fold_right].
    - apply (sd_sym _ _ _ _ HS), (sd_one_l _ _ _ _ HS).
    - eapply (sd_trans _ _ _ _ HS); [apply (sd_mul _ _ _ _ HS); [apply (sd_refl _ _ _ _ HS)|exact IH]|]. apply (sd_sym _ _ _ _ HS), (sd_assoc _ _ _ _ HS).
  Qed.
  Definition part (k n : Z) : list (Q * lie) := filter (inb lie (dy k n) (dy (k + 1) n)) d.
  Definition psig (l : list (Q * lie)) := prod (map snd l).
  Lemma part_ok f : Forall ok (map snd (filter f d)).
  Proof. rewrite Forall_forall in *. intros x Hx. apply in_map_iff in Hx. destruct Hx as (e & <- & He). apply filter_In in He. apply Hok. apply He. Qed.
  Definition good (x : lie) (p : sg_t S) : Prop := sg_of S x === p /\ (is_zero x = false -> ok x).

  Lemma ends_clopen i : di_t i = Clopen -> - 2 ^ 29 <= di_k i <= 2 ^ 29 ->
    dinf i = Ok (mkD (di_k i) (di_n i)) /\ dsup i = Ok (mkD (di_k i + 1) (di_n i)).
  Proof.
    intros Ht Hk. unfold dinf, dsup, dexcluded, unit. rewrite Ht. cbn [unit_t]. split; [reflexivity|]. rewrite i32_ok by (unfold INT_MIN, INT_MAX; lia). reflexivity.
  Qed.
  Lemma impl_eval i : di_t i = Clopen -> - 2 ^ 29 <= di_k i <= 2 ^ 29 ->
    impl_di d ctx i = Ok (match part (di_k i) (di_n i) with [] => cx_zero ctx | l => cx_cbh ctx (map snd l) end) /\
    empty_di d i = Ok (match part (di_k i) (di_n i) with [] => true | _ => false end).
  Proof.
    intros Ht Hk. destruct (ends_clopen i Ht Hk) as [E1 E2]. unfold impl_di, empty_di. rewrite E1, E2. cbn [bind]. unfold lis_impl, lis_empty, bounds. rewrite Ht, !to_param_dy. cbn [mult power].
    assert (Hle : (dy (di_k i) (di_n i) <= dy (di_k i + 1) (di_n i))%Q) by (apply dy_same_le; lia).
    destruct (range_filter lie d _ _ Hasc Hle) as (L & F & Z). fold (part (di_k i) (di_n i)) in *. unfold part in *.
    destruct (filter (inb lie (dy (di_k i) (di_n i)) (dy (di_k i + 1) (di_n i))) d) as [|e l] eqn:E.
    - rewrite (proj2 Z eq_refl), Nat.eqb_refl. auto.
    - assert (Ne : (lower_bound d (dy (di_k i) (di_n i)) =? lower_bound d (dy (di_k i + 1) (di_n i)))%nat = false).
      { apply Nat.eqb_neq. intros X. apply Z in X. discriminate. }
      rewrite Ne. replace (lower_bound d (dy (di_k i + 1) (di_n i)) <? lower_bound d (dy (di_k i) (di_n i)))%nat with false by lia. rewrite F. auto.
  Qed.
  Lemma impl_good i v : di_t i = Clopen -> - 2 ^ 29 <= di_k i <= 2 ^ 29 -> impl_di d ctx i = Ok v -> good v (psig (part (di_k i) (di_n i))).
  Proof.
    intros Ht Hk E. rewrite (proj1 (impl_eval i Ht Hk)) in E. injection E as <-. assert (P := part_ok (inb lie (dy (di_k i) (di_n i)) (dy (di_k i + 1) (di_n i)))). fold (part (di_k i) (di_n i)) in P.
    destruct (part (di_k i) (di_n i)) as [|e l] eqn:El.
    - split; [apply (sd_zero _ _ _ _ HS)|]. intros _. apply (sd_zero_ok _ _ _ _ HS).
    - split; [apply (sd_cbh _ _ _ _ HS); auto|]. intros _. apply (sd_cbh_ok _ _ _ _ HS); auto.
  Qed.

  (** Entries of the cache: cells of the stream's resolution with their log-signature. *)
  Definition cinv (c : list (dint * lie)) : Prop :=
    forall i v, In (i, v) c -> di_t i = Clopen /\ di_n i = res /\ - 2 ^ 28 <= di_k i <= 2 ^ 28 /\ impl_di d ctx i = Ok v.
  Lemma same_key_eval a b : di_t a = Clopen -> di_t b = Clopen -> di_n a = di_n b -> - 2 ^ 28 <= di_k a <= 2 ^ 28 -> - 2 ^ 28 <= di_k b <= 2 ^ 28 ->
    same_key a b = Ok (di_k a =? di_k b).
  Proof.
    intros Ta Tb En Ha Hb. unfold same_key, di_lt, unit. rewrite Ta, Tb, En, Z.eqb_refl. cbn [itype_eqb negb unit_t]. 
    rewrite !(i32_ok (di_k b - di_k a)), !(i32_ok (di_k a - di_k b)) by (unfold INT_MIN, INT_MAX; lia). cbn [bind].
    rewrite !i32_ok by (unfold INT_MIN, INT_MAX; lia). cbn [bind]. f_equal. lia.
  Qed.
  Lemma cache_find_ok c i : cinv c -> di_t i = Clopen -> di_n i = res -> - 2 ^ 28 <= di_k i <= 2 ^ 28 ->
    exists r, cache_find c i = Ok r /\ match r with Some v => impl_di d ctx i = Ok v | None => True end.
  Proof.
    intros Hc Ti Ni Ki. induction c as [|[j v] c IH]; cbn [cache_find]; [exists None; auto|].
    destruct (Hc j v ltac:(left; auto)) as (Tj & Nj & Kj & Vj). rewrite same_key_eval by (auto; congruence). cbn [bind].
    destruct (di_k j =? di_k i) eqn:E.
    - exists (Some v). split; auto. rewrite <- Vj. f_equal. destruct i, j; cbn in *. f_equal; try congruence. lia.
    - apply IH. intros i' v' H'. apply Hc. right; auto.
  Qed.

  (** Dyadic queries no finer than the stream's resolution. *)
  Lemma layer_coarse (m : nat) : forall i, di_t i = Clopen -> Z.of_nat m = res - di_n i ->
    - 2 ^ 28 <= di_k i * 2 ^ Z.of_nat m -> (di_k i + 1) * 2 ^ Z.of_nat m <= 2 ^ 28 ->
    exists x, good x (psig (part (di_k i) (di_n i))) /\ forall fuel c, (m < fuel)%nat -> cinv c ->
      exists c', layer_dyadic is_zero lie_none fuel d res ctx c i = Ok (x, c') /\ cinv c'.
  Proof.
    induction m as [|m IH]; intros i Ti Hm Hlo Hhi.
    - cbn [Z.of_nat] in *. rewrite Z.pow_0_r in *. destruct (impl_eval i Ti ltac:(lia)) as [EI EE].
      destruct (part (di_k i) (di_n i)) as [|e l] eqn:Ep.
      + exists (cx_zero ctx). split; [split; [apply (sd_zero _ _ _ _ HS)|intros _; apply (sd_zero_ok _ _ _ _ HS)]|]. intros fuel c Hf Hc.
        destruct fuel as [|fuel]; [lia|]. cbn [layer_dyadic]. rewrite EE. cbn [bind]. exists c. auto.
      + set (v := cx_cbh ctx (map snd (e :: l))) in *. exists v. split; [rewrite <- Ep; apply impl_good; auto; lia|]. intros fuel c Hf Hc.
        destruct fuel as [|fuel]; [lia|]. cbn [layer_dyadic]. rewrite EE. cbn [bind]. replace (di_n i =? res) with true by lia.
        destruct (cache_find_ok c i Hc Ti ltac:(lia) ltac:(lia)) as (r & Er & Hr). rewrite Er. cbn [bind]. destruct r as [v'|].
        * assert (v' = v) as -> by congruence. exists c. auto.
        * rewrite EI. cbn [bind]. exists ((i, v) :: c). split; auto. intros j v' [[= <- <-]|Hin]; [|apply Hc; auto]. repeat (split; auto; try lia).
    - assert (Hp : 2 ^ Z.of_nat (Datatypes.S m) = 2 * 2 ^ Z.of_nat m) by (rewrite Nat2Z.inj_succ, Z.pow_succ_r by lia; reflexivity). rewrite Hp in *.
      assert (P1 : 1 <= 2 ^ Z.of_nat m) by (pose proof (pow2_pos (Z.of_nat m)); lia).
      assert (Kb : - 2 ^ 28 <= di_k i <= 2 ^ 28) by nia.
      assert (Mb : 2 ^ Z.of_nat m <= 2 ^ 28) by nia.
      assert (Mn : Z.of_nat m <= 28) by (apply (Z.pow_le_mono_r_iff 2); lia).
      assert (Hh : half_ok i) by (split; lia).
      destruct (left_right_eval i Hh) as [El Er]. rewrite Ti in El, Er. set (l := mkDI (2 * di_k i) (di_n i + 1) Clopen) in *. set (r := mkDI (2 * di_k i + 1) (di_n i + 1) Clopen) in *.
      destruct (IH l eq_refl) as (xl & Gl & Fl); [cbn; lia|cbn; nia|cbn; nia|].
      destruct (IH r eq_refl) as (xr & Gr & Fr); [cbn; lia|cbn; nia|cbn; nia|].
      assert (Spl : part (di_k i) (di_n i) = part (di_k l) (di_n l) ++ part (di_k r) (di_n r)).
      { unfold part. cbn [l r di_k di_n].
        assert (A1 : (dy (di_k i) (di_n i) == dy (2 * di_k i) (di_n i + 1))%Q) by (rewrite (dy_scale (di_k i) (di_n i) 1) by lia; change (2 ^ 1) with 2; rewrite Z.mul_comm; reflexivity).
        assert (A2 : (dy (di_k i + 1) (di_n i) == dy (2 * di_k i + 1 + 1) (di_n i + 1))%Q) by (rewrite (dy_scale (di_k i + 1) (di_n i) 1) by lia; change (2 ^ 1) with 2; replace (2 * di_k i + 1 + 1) with ((di_k i + 1) * 2) by lia; reflexivity).
        rewrite (filter_ext' lie _ _ _ _ d A1 A2). apply filter_split; auto; apply dy_same_le; lia. }
      destruct (impl_eval i Ti ltac:(lia)) as [EI EE].
      destruct (part (di_k i) (di_n i)) as [|e0 p0] eqn:Ep.
      + exists (cx_zero ctx). split; [split; [apply (sd_zero _ _ _ _ HS)|intros _; apply (sd_zero_ok _ _ _ _ HS)]|]. intros fuel c Hf Hc.
        destruct fuel as [|fuel]; [lia|]. cbn [layer_dyadic]. rewrite EE. cbn [bind]. exists c. auto.
      + exists (if is_zero xl then xr else if is_zero xr then xl else cx_cbh ctx [xl; xr]). split.
        * rewrite Spl. unfold psig. rewrite map_app. fold (psig (part (di_k l) (di_n l))). destruct Gl as [Gl Ol]. destruct Gr as [Gr Or].
          assert (PA := prod_app (map snd (part (di_k l) (di_n l))) (map snd (part (di_k r) (di_n r)))).
          unfold psig in *. destruct (is_zero xl) eqn:Zl.
          { split; auto. apply (sd_sym _ _ _ _ HS). eapply (sd_trans _ _ _ _ HS); [exact PA|]. eapply (sd_trans _ _ _ _ HS); [|apply (sd_one_l _ _ _ _ HS)].
            apply (sd_mul _ _ _ _ HS); [|apply (sd_sym _ _ _ _ HS); exact Gr]. eapply (sd_trans _ _ _ _ HS); [apply (sd_sym _ _ _ _ HS); exact Gl|]. apply (sd_is_zero _ _ _ _ HS); auto. }
          destruct (is_zero xr) eqn:Zr.
          { split; auto. apply (sd_sym _ _ _ _ HS). eapply (sd_trans _ _ _ _ HS); [exact PA|]. eapply (sd_trans _ _ _ _ HS); [|apply (sd_one_r _ _ _ _ HS)].
            apply (sd_mul _ _ _ _ HS); [apply (sd_sym _ _ _ _ HS); exact Gl|]. eapply (sd_trans _ _ _ _ HS); [apply (sd_sym _ _ _ _ HS); exact Gr|]. apply (sd_is_zero _ _ _ _ HS); auto. }
          assert (FO : Forall ok [xl; xr]) by (repeat constructor; auto).
          split; [|intros _; apply (sd_cbh_ok _ _ _ _ HS); auto]. eapply (sd_trans _ _ _ _ HS); [apply (sd_cbh _ _ _ _ HS); auto|]. apply (sd_sym _ _ _ _ HS).
          eapply (sd_trans _ _ _ _ HS); [exact PA|]. cbn [sg_prod fold_right]. apply (sd_mul _ _ _ _ HS); [apply (sd_sym _ _ _ _ HS); auto|].
          eapply (sd_trans _ _ _ _ HS); [apply (sd_sym _ _ _ _ HS); exact Gr|]. apply (sd_sym _ _ _ _ HS), (sd_one_r _ _ _ _ HS).
        * intros fuel c Hf Hc. destruct fuel as [|fuel]; [lia|]. cbn [layer_dyadic]. rewrite EE. cbn [bind]. replace (di_n i =? res) with false by lia. replace (di_n i >? res) with false by lia.
          rewrite El, Er. cbn [bind]. destruct (Fl fuel c ltac:(lia) Hc) as (c1 & E1 & Hc1). rewrite E1. cbn [bind]. destruct (Fr fuel c1 ltac:(lia) Hc1) as (c2 & E2 & Hc2). rewrite E2. cbn [bind].
          exists c2. destruct (is_zero xl), (is_zero xr); auto.
  Qed.

  (** What a dyadic query [k/2^n, (k+1)/2^n) contributes. *)
  Definition contrib (k n : Z) : list (Q * lie) :=
    if n <=? res then part k n
    else if (k mod 2 ^ (n - res) =? 0) && (match part k n with [] => false | _ => true end) then part (k / 2 ^ (n - res)) res else [].
  Lemma layer_fine i : di_t i = Clopen -> res < di_n i -> di_n i - res <= 30 -> di_n i <= 2 ^ 28 -> - 2 ^ 28 <= di_k i < 2 ^ 28 ->
    exists x, good x (psig (contrib (di_k i) (di_n i))) /\ forall fuel c, (2 <= fuel)%nat -> cinv c ->
      exists c', layer_dyadic is_zero lie_none fuel d res ctx c i = Ok (x, c') /\ cinv c'.
  Proof.
    intros Ti Hn He Hn2 Hk. destruct (impl_eval i Ti ltac:(lia)) as [EI EE]. unfold contrib. replace (di_n i <=? res) with false by lia.
    destruct (part (di_k i) (di_n i)) as [|e0 p0] eqn:Ep.
    - exists (cx_zero ctx). rewrite andb_false_r. split; [split; [apply (sd_zero _ _ _ _ HS)|intros _; apply (sd_zero_ok _ _ _ _ HS)]|]. intros fuel c Hf Hc.
      destruct fuel as [|fuel]; [lia|]. cbn [layer_dyadic]. rewrite EE. cbn [bind]. exists c. auto.
    - rewrite andb_true_r. set (e := di_n i - res) in *. set (tmp := mkDI (di_k i / 2 ^ e) res Clopen).
      assert (Ex : expand_interval i e = Ok tmp).
      { rewrite expand_eval by (unfold small; lia). unfold tmp. do 2 f_equal. lia. }
      assert (Pe : 1 <= 2 ^ e) by (pose proof (pow2_pos e); lia).
      assert (Kt : - 2 ^ 28 <= di_k i / 2 ^ e < 2 ^ 28).
      { split; [apply Z.div_le_lower_bound; nia|apply Z.div_lt_upper_bound; nia]. }
      destruct (rational_equals_total (di_d tmp) (di_d i)) as (b & Eb); [cbn; unfold INT_MIN, INT_MAX; lia|cbn; unfold INT_MIN, INT_MAX; lia|cbn; lia|].
      assert (Hb := rational_equals_correct _ _ _ Eb). cbn [di_d mult power tmp di_k di_n] in Hb.
      rewrite (dy_scale _ res e) in Hb by lia. replace (res + e) with (di_n i) in Hb by lia. rewrite dy_same_eq in Hb.
      assert (Hmod : b = (di_k i mod 2 ^ e =? 0)).
      { assert (DM := Z.div_mod (di_k i) (2 ^ e) ltac:(lia)). apply eq_true_iff_eq. rewrite Hb, Z.eqb_eq. nia. }
      destruct (layer_coarse 0 tmp eq_refl ltac:(cbn; lia) ltac:(cbn [Z.of_nat]; rewrite Z.pow_0_r; cbn [tmp di_k]; lia) ltac:(cbn [Z.of_nat]; rewrite Z.pow_0_r; cbn [tmp di_k]; lia)) as (x & Gx & Fx).
      rewrite <- Hmod. destruct b.
      + exists x. split; [exact Gx|]. intros fuel c Hf Hc. destruct fuel as [|fuel]; [lia|]. cbn [layer_dyadic]. rewrite EE. cbn [bind].
        replace (di_n i =? res) with false by lia. replace (di_n i >? res) with true by lia. fold e. rewrite Ex. cbn [bind]. rewrite Eb. cbn [bind]. apply Fx; auto. lia.
      + exists lie_none. split; [split; [apply (sd_is_zero _ _ _ _ HS); auto|congruence]|]. intros fuel c Hf Hc. destruct fuel as [|fuel]; [lia|]. cbn [layer_dyadic]. rewrite EE. cbn [bind].
        replace (di_n i =? res) with false by lia. replace (di_n i >? res) with true by lia. fold e. rewrite Ex. cbn [bind]. rewrite Eb. cbn [bind]. exists c. auto.
  Qed.
End Layer.
