(** Proofs: construction and iteration. *)
From Coq Require Import ZifyBool.
From Verif Require Import TkSpec TkProofs.
Open Scope Z_scope.

Lemma power_spec a : 0 <= a < 2 ^ 64 -> forall fuel e, 0 <= e < 2 ^ (Z.of_nat fuel + 1) -> power fuel a e mod 2 ^ 64 = a ^ e mod 2 ^ 64.
Proof.
  intros Ha. induction fuel as [|fuel IH]; intros e He.
  - cbn [power]. destruct (Z.eqb_spec e 0) as [->|N]; [reflexivity|]. destruct (Z.eqb_spec e 1) as [->|N']; [now rewrite Z.pow_1_r|]. change (2 ^ (Z.of_nat 0 + 1)) with 2 in He. lia.
  - cbn [power]. destruct (Z.eqb_spec e 0) as [->|N]; [reflexivity|]. destruct (Z.eqb_spec e 1) as [->|N']; [now rewrite Z.pow_1_r|]. cbv zeta.
    assert (He2 : 0 <= e / 2 < 2 ^ (Z.of_nat fuel + 1)).
    { split; [apply Z.div_pos; lia|]. apply Z.div_lt_upper_bound; [lia|]. rewrite <- Z.pow_succ_r by lia. replace (Z.succ (Z.of_nat fuel + 1)) with (Z.of_nat (S fuel) + 1) by lia. lia. }
    specialize (IH _ He2). unfold word64. rewrite Z.mod_mod by lia. rewrite Z.mul_mod_idemp_l by lia.
    assert (E : a ^ e = a ^ (e / 2) * a ^ (e / 2) * (if e mod 2 =? 1 then a else 1)).
    { rewrite (Z.div_mod e 2) at 1 by lia. rewrite Z.pow_add_r by (try apply Z.mod_pos_bound; lia). replace (2 * (e / 2)) with (e / 2 + e / 2) by lia. rewrite Z.pow_add_r by lia.
      pose proof (Z.mod_pos_bound e 2 ltac:(lia)) as B. destruct (Z.eqb_spec (e mod 2) 1) as [->|N1]; [now rewrite Z.pow_1_r|]. replace (e mod 2) with 0 by lia. now rewrite Z.pow_0_r. }
    rewrite E. rewrite (Z.mul_mod (power fuel a (e / 2) * power fuel a (e / 2))) by lia. rewrite (Z.mul_mod (power fuel a (e / 2))) by lia. rewrite IH.
    rewrite <- (Z.mul_mod (a ^ (e / 2))) by lia. rewrite <- Z.mul_mod by lia. reflexivity.
Qed.
Lemma max_idx w d : fits w d -> w <> 1 -> word64 (power 32 w (d + 1) - 1) / word64 (w - 1) = number w (Z.to_nat d).
Proof.
  intros (Hs & Hd & Hp) N1. assert (E : word64 (power 32 w (d + 1) - 1) = (w ^ (d + 1) - 1) mod 2 ^ 64).
  { unfold word64. rewrite Zminus_mod. rewrite power_spec; [|lia|]. 2:{ split; [lia|]. apply Z.le_lt_trans with (2 ^ 31); [lia|]. apply Z.pow_lt_mono_r; lia. } now rewrite <- Zminus_mod. }
  rewrite E, number_below. destruct (Z.eq_dec w 0) as [->|N0].
  - rewrite Z.pow_0_l by lia. reflexivity.
  - assert (0 < w ^ (d + 1)) by (apply Z.pow_pos_nonneg; lia). rewrite Z.mod_small by lia. unfold word64. rewrite Z.mod_small by lia.
    pose proof (below_geom w (S (Z.to_nat d))) as G. replace (Z.of_nat (S (Z.to_nat d))) with (d + 1) in G by lia. rewrite <- G. apply Z.div_mul. lia.
Qed.
Lemma max_letter_le l m : (forall a, In a l -> a <= m) -> 0 <= m -> max_letter l <= m.
Proof. induction l as [|a l IH]; intros H Hm; cbn [max_letter fold_right]; [lia|]. pose proof (H a (or_introl eq_refl)). fold (max_letter l). specialize (IH (fun b Hb => H b (or_intror Hb)) Hm). lia. Qed.
Lemma max_letter_ge l a : In a l -> a <= max_letter l.
Proof. induction l as [|b l IH]; intros []; cbn [max_letter fold_right]; fold (max_letter l); [lia|]. specialize (IH H). lia. Qed.
Lemma max_letter_in l : l <> [] -> (forall a, In a l -> 0 < a) -> In (max_letter l) l.
Proof.
  induction l as [|a l IH]; intros N P; [congruence|]. cbn [max_letter fold_right]. fold (max_letter l). destruct l as [|b l].
  - left. pose proof (P a (or_introl eq_refl)). cbn. lia.
  - destruct (Z.max_spec a (max_letter (b :: l))) as [[_ ->]|[_ ->]]; [right; apply IH; [discriminate|intros c Hc; apply P; now right]|now left].
Qed.
Lemma word_zero l : a_word 0 l -> l = [].
Proof. intros H. destruct H; [reflexivity|lia]. Qed.

Lemma construct_spec (context : Z -> Z -> bool) none a : (forall w d, context w d = true -> fits w d) -> (none = true -> index a <> None -> width a <> Some 1) ->
  (none = false \/ index a = None -> ~ In 0 (given a)) -> forall k, (construct context none a = Ok k <->
  exists w d l, stands_for none a w d l /\ context w d = true /\ tk_width k = w /\ tk_depth k = d /\ word_of k l /\ 0 <= tk_key k < number w (Z.to_nat d)).
Proof.
  intros CF N1 N0 k. destruct (none && match index a with Some _ => true | None => false end) eqn:Ei.
  - apply andb_true_iff in Ei. destruct Ei as [-> Ei]. destruct (index a) as [i|] eqn:Ea; [|discriminate]. specialize (N1 eq_refl ltac:(discriminate)).
    unfold construct. rewrite Ea. split.
    + destruct (width a) as [w|] eqn:Ew; [|discriminate]. destruct (depth a) as [d|] eqn:Ed; [|discriminate].
      destruct (is_deg w && is_deg d && (0 <=? i) && (i <? 2 ^ 64)) eqn:E; [|discriminate]. destruct (Z.eqb_spec w 1) as [->|Nw]; [congruence|].
      unfold get_basis. intros H. destruct (context w d) eqn:Ec; [|destruct (i <? word64 (power 32 w (d + 1) - 1) / word64 (w - 1)) in H; discriminate H]. pose proof (CF _ _ Ec) as F. rewrite max_idx in H by assumption.
      destruct (Z.ltb_spec i (number w (Z.to_nat d))) as [L|L]; [|discriminate]. injection H as <-. cbn [tk_width tk_depth tk_key].
      destruct (Z.eq_dec w 0) as [->|Nz].
      * assert (i = 0) as ->. { rewrite number_below, below_zero in L. lia. } exists 0, d, []. repeat split; auto; try constructor; try lia. eapply Sf_index; eauto; [cbn; lia|constructor].
      * destruct (usual_word (mkTK w d i)) as (l & W & Ll & _). { unfold usual. cbn. repeat split; try apply F; try lia. destruct F; lia. }
        exists w, d, l. split; [eapply Sf_index; eauto; apply W|]. repeat split; auto; try lia; apply W.
    + intros (w & d & l & S & Ec & Ew & Ed & W & Hk). inversion S; subst; [|destruct H as [H|H]; congruence]. assert (i0 = i) by congruence. subst i0. rewrite H0, H1. pose proof (CF _ _ Ec) as F.
      assert (tk_key k = i /\ 0 <= i) as [Ek Hi].
      { destruct W as [W1 W2]. unfold to_letters in W2. destruct (Z.eq_dec (tk_width k) 0) as [Ez|Nz].
        - rewrite Ez in *. apply word_zero in W1. subst l. rewrite number_below, below_zero in Hk. assert (tk_key k = 0) as -> by lia.
          unfold letters_of in H4. destruct (Z.to_nat i) eqn:Ei'; cbn [letters_loop] in H4; destruct (Z.eqb_spec i 0); try discriminate; [lia|lia].
        - destruct F as (F1 & F2 & F3). assert (Hw : 1 <= tk_width k) by lia.
          assert (Hi : 0 <= i). { destruct (Z.le_gt_cases 0 i); [assumption|]. unfold letters_of in H4. replace (Z.to_nat i) with O in H4 by lia. cbn [letters_loop] in H4. destruct (Z.eqb_spec i 0); [lia|discriminate]. }
          destruct (place_onto _ Hw (tk_key k) ltac:(lia)) as (l1 & Hl1 & E1). destruct (place_onto _ Hw i Hi) as (l2 & Hl2 & E2).
          rewrite <- E1, letters_place in W2 by (auto; lia). rewrite <- E2, letters_place in H4 by (auto; lia). split; [congruence|lia]. }
      assert (Nw : tk_width k <> 1) by congruence. assert (B : i < 2 ^ 64).
      { destruct (Z.eq_dec (tk_width k) 0) as [Ez|Nz]; [rewrite Ez, number_below, below_zero in Hk; lia|]. pose proof (fits_number (tk_width k) (tk_depth k) ltac:(destruct F; lia) F). lia. }
      destruct F as (F1 & F2 & F3). assert (is_deg (tk_width k) && is_deg (tk_depth k) && (0 <=? i) && (i <? 2 ^ 64) = true) as -> by (unfold is_deg; lia).
      destruct (Z.eqb_spec (tk_width k) 1); [lia|]. rewrite max_idx by (repeat split; auto; lia). destruct (Z.ltb_spec i (number (tk_width k) (Z.to_nat (tk_depth k)))); [|lia].
      unfold get_basis. rewrite Ec. destruct k as [kw kd kk]. cbn in *. congruence.
  - assert (Hn : none = false \/ index a = None) by (destruct none; [right; destruct (index a); [discriminate|reflexivity]|now left]). specialize (N0 Hn).
    assert (EC : construct context none a =
      (if negb (forallb is_let (given a)) then Throw
        else
          let! w := match width a with Some w => if is_deg w then Ok w else Throw | None => Ok (max_letter (given a)) end in
          let! d := match depth a with Some d => if is_deg d then Ok d else Throw | None => Ok (Z.of_nat (length (given a))) end in
          if d <? Z.of_nat (length (given a)) then Throw
          else if negb (match given a with [] => true | _ => false end) && (w <? max_letter (given a)) then Throw
          else get_basis context w d (key_of w (given a)))). { unfold construct. destruct Hn as [->|Hn]; [reflexivity|]. rewrite Hn. destruct none; reflexivity. }
    rewrite EC. split.
    + destruct (forallb is_let (given a)) eqn:El; [|discriminate]. cbn [negb]. rewrite forallb_forall in El.
      assert (P : forall b, In b (given a) -> 0 < b). { intros b Hb. pose proof (El _ Hb) as G. unfold is_let in G. assert (b <> 0) by (intros ->; contradiction). lia. }
      intros H. apply bind_ok in H. destruct H as (w & Ew & H). apply bind_ok in H. destruct H as (d & Ed & H).
      destruct (Z.ltb_spec d (Z.of_nat (length (given a)))) as [L|L]; [discriminate|].
      destruct (negb (match given a with [] => true | _ => false end) && (w <? max_letter (given a))) eqn:Em; [discriminate|].
      unfold get_basis in H. destruct (context w d) eqn:Ec; [|discriminate]. injection H as <-. pose proof (CF _ _ Ec) as F.
      assert (Hw : a_word w (given a)). { apply Forall_forall. intros b Hb. pose proof (P _ Hb). pose proof (max_letter_ge _ _ Hb). destruct (given a) as [|c l]; [destruct Hb|]. cbn [negb andb] in Em. lia. }
      assert (Sf : stands_for none a w d (given a)).
      { apply Sf_letters; auto.
        - destruct (width a) as [w'|]; [left; destruct (is_deg w'); congruence|right; split; [reflexivity|]]. injection Ew as <-. destruct (given a) as [|c l] eqn:Eg; [left; auto|right; apply max_letter_in; [discriminate|exact P]].
        - destruct (depth a) as [d'|]; [left; destruct (is_deg d'); congruence|right; split; [reflexivity|]]. congruence. }
      exists w, d, (given a). split; [assumption|]. cbn [tk_width tk_depth tk_key]. destruct (Z.eq_dec w 0) as [->|Nz].
      * pose proof (word_zero _ Hw) as Eg. rewrite Eg. unfold key_of. cbn [fold_left]. repeat split; auto; try constructor; try lia. rewrite number_below, below_zero. lia.
      * destruct (key_word w d (given a) ltac:(destruct F; lia) F Hw ltac:(lia)) as (U & W & _). repeat split; auto; try apply W; apply U.
    + intros (w & d & l & Sf & Ec & <- & <- & W & Hk). inversion Sf; subst; [destruct Hn; congruence|]. pose proof (CF _ _ Ec) as F. destruct W as [Hw W].
      assert (forallb is_let (given a) = true) as ->. { apply forallb_forall. intros b Hb. unfold a_word in Hw. rewrite Forall_forall in Hw. specialize (Hw _ Hb). destruct F. unfold is_let. lia. }
      cbn [negb]. assert (match width a with Some w => if is_deg w then Ok w else Throw | None => Ok (max_letter (given a)) end = Ok (tk_width k)) as ->.
      { destruct H0 as [->|[-> H0]]; [assert (is_deg (tk_width k) = true) as -> by (unfold is_deg; destruct F; lia); reflexivity|]. destruct H0 as [[Eg ->]|H0]; [rewrite Eg; reflexivity|].
        f_equal. apply Z.le_antisymm; [|now apply max_letter_ge]. apply max_letter_le; [|destruct F; lia]. intros b Hb. unfold a_word in Hw. rewrite Forall_forall in Hw. apply Hw in Hb. lia. }
      cbn [bind]. assert (match depth a with Some d => if is_deg d then Ok d else Throw | None => Ok (Z.of_nat (length (given a))) end = Ok (tk_depth k)) as ->.
      { destruct H1 as [->|[-> ->]]; [assert (is_deg (tk_depth k) = true) as -> by (unfold is_deg; destruct F as (_ & ? & _); lia)|]; reflexivity. }
      cbn [bind]. destruct (Z.ltb_spec (tk_depth k) (Z.of_nat (length (given a)))); [lia|].
      assert (negb (match given a with [] => true | _ => false end) && (tk_width k <? max_letter (given a)) = false) as ->.
      { destruct (given a) as [|c l] eqn:Eg; [reflexivity|]. cbn [negb andb]. apply Z.ltb_ge. apply max_letter_le; [|destruct F; lia]. intros b Hb. unfold a_word in Hw. rewrite Forall_forall in Hw. apply Hw in Hb. lia. }
      unfold get_basis. rewrite Ec. assert (key_of (tk_width k) (given a) = tk_key k) as E; [|rewrite E; destruct k; reflexivity].
      destruct (Z.eq_dec (tk_width k) 0) as [Ez|Nz].
      * rewrite Ez in *. rewrite (word_zero _ Hw). rewrite number_below, below_zero in Hk. cbn. lia.
      * assert (U : usual k) by (split; [destruct F; lia|split; assumption]). destruct (word_key k (given a) U (conj Hw W)) as [-> _].
        apply (key_word (tk_width k) (tk_depth k)); auto; try lia. destruct F; lia.
Qed.

(** *** Iteration *)
Lemma keys_spec : forall n fuel i, Z.of_nat n = Z.max 0 (it_end i - it_cur i) -> (n < fuel)%nat ->
  keys fuel i = (map (fun j => mkTK (it_width i) (it_depth i) (it_cur i + Z.of_nat j)) (seq 0 n), true).
Proof.
  induction n as [|n IH]; intros [|fuel] i E L; try lia; cbn [keys]; unfold next.
  - destruct (Z.leb_spec (it_end i) (it_cur i)); [reflexivity|lia].
  - destruct (Z.leb_spec (it_end i) (it_cur i)); [lia|]. rewrite IH by (cbn [it_end it_cur]; lia). cbn [it_width it_depth it_cur seq map]. rewrite <- seq_shift, map_map. do 2 f_equal.
    + f_equal. lia.
    + apply map_ext. intros j. f_equal. lia.
Qed.
Lemma iterate_range w d dim a e fuel : 0 <= a -> (Z.to_nat (Z.min e dim - a) < fuel)%nat ->
  exists ks, keys fuel (make_iter w d dim a (Some e)) = (ks, true) /\ forall j k, nth_error ks j = Some k <-> k = mkTK w d (a + Z.of_nat j) /\ a + Z.of_nat j < Z.min e dim.
Proof.
  intros Ha L. eexists. split.
  - apply (keys_spec (Z.to_nat (Z.min e dim - a))); [|assumption]. unfold make_iter. cbn [it_end it_cur]. destruct (Z.leb_spec dim e); lia.
  - intros j k. unfold make_iter. cbn [it_width it_depth it_cur]. rewrite nth_error_map. destruct (nth_error (seq 0 (Z.to_nat (Z.min e dim - a))) j) as [x|] eqn:Ex.
    + assert (j < Z.to_nat (Z.min e dim - a))%nat as Lj. { pose proof (nth_error_Some (seq 0 (Z.to_nat (Z.min e dim - a))) j) as [G _]. rewrite seq_length in G. apply G. congruence. }
      pose proof (nth_error_nth _ _ 0%nat Ex) as G. rewrite seq_nth in G by assumption. cbn in G. subst x. cbn. split; [intros H; injection H as <-; split; [reflexivity|lia]|intros [-> _]; reflexivity].
    + apply nth_error_None in Ex. rewrite seq_length in Ex. cbn. split; [discriminate|]. intros [_ H]. lia.
Qed.
Lemma iterate_all w d : 1 <= w -> fits w d -> exists ks, keys (S (Z.to_nat (number w (Z.to_nat d)))) (make_iter w d (number w (Z.to_nat d)) 0 None) = (ks, true) /\
  (forall k, In k ks -> usual k /\ tk_width k = w /\ tk_depth k = d) /\
  (forall l, a_word w l -> (length l <= Z.to_nat d)%nat -> exists k, In k ks /\ word_of k l) /\
  (forall i j a b la lb, (i < j)%nat -> nth_error ks i = Some a -> nth_error ks j = Some b -> word_of a la -> word_of b lb -> before la lb).
Proof.
  intros Hw F. pose proof (fits_number w d Hw F) as N. set (D := number w (Z.to_nat d)) in *. assert (D0 : 0 <= D) by (unfold D; rewrite number_below; apply below_nonneg; lia).
  destruct (iterate_range w d D 0 (2 ^ 64 - 1) (S (Z.to_nat D)) ltac:(lia) ltac:(lia)) as (ks & E & H).
  replace (Z.min (2 ^ 64 - 1) D) with D in H by lia. exists ks. split; [exact E|]. split; [|split].
  - intros k Hk. apply In_nth_error in Hk. destruct Hk as [j Hj]. apply H in Hj. destruct Hj as [-> Hj]. cbn [tk_width tk_depth]. split; [|auto]. unfold usual. cbn [tk_width tk_depth tk_key]. fold D. repeat split; try apply F; lia.
  - intros l Hl L. destruct (place_key w d l Hw F Hl L) as [U W]. exists (mkTK w d (place w l)). split; [|assumption]. apply nth_error_In with (Z.to_nat (place w l)). apply H.
    pose proof (place_nonneg w Hw l Hl). destruct U as (_ & _ & U). cbn [tk_width tk_depth tk_key] in U. fold D in U. rewrite Z2Nat.id by assumption. split; [f_equal; lia|lia].
  - intros i j a b la lb Hij Hi Hj Wa Wb. apply H in Hi. apply H in Hj. destruct Hi as [-> Hi], Hj as [-> Hj].
    assert (Ua : usual (mkTK w d (0 + Z.of_nat i))) by (unfold usual; cbn [tk_width tk_depth tk_key]; fold D; repeat split; try apply F; lia).
    assert (Ub : usual (mkTK w d (0 + Z.of_nat j))) by (unfold usual; cbn [tk_width tk_depth tk_key]; fold D; repeat split; try apply F; lia).
    apply (order_spec _ _ la lb Ua Ub); auto. cbn [tk_key]. lia.
Qed.
