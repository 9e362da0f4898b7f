(** The bases there are: Hall sets. *)
From Coq Require Import ZifyBool.
From Verif Require Import Outcome Mem Mobius HallModel HallSpec HallTab HallProofs HallLookup HallLemmas.
From Verif Require LkModel LkSpec LkProofs.
Open Scope Z_scope.
Notation LL := LkSpec.L. Notation LB := LkSpec.B.

(** the same brackets *)
Fixpoint as_bracket (t : tree) : LkSpec.tree := match t with Leaf l => LL l | Node a b => LB (as_bracket a) (as_bracket b) end.
Lemma as_bracket_inj : forall t t', as_bracket t = as_bracket t' -> t = t'.
Proof. induction t as [l|a IHa b IHb]; intros [l'|a' b'] H; cbn in H; try discriminate; injection H; intros; f_equal; auto. Qed.

Section Of.
  Context (G : lie_basis) (w N M : Z) (HS : standard G w N) (HB : basis_ok G w N M).
  Let lf k := bat (lb_data G) (2 * k).
  Let rt k := bat (lb_data G) (2 * k + 1).
  Definition pairs_of : list (Z * Z) := map (fun n => (lf (w + 1 + Z.of_nat n), rt (w + 1 + Z.of_nat n))) (seq 0 (Z.to_nat (M - w))).
  Definition basis_of : LkModel.basis := LkModel.mkBasis w pairs_of.
  Lemma w_M : 0 <= w <= M.
  Proof using HB. pose proof (bo_hall _ _ _ _ HB) as H. split; [apply (hd_w _ _ _ _ _ _ H)|]. assert (bat (lb_db G) 2 <= bat (lb_db G) (N + 1)) by (apply (db_mono _ _ _ _ _ _ H); pose proof (hd_N _ _ _ _ _ _ H); lia). rewrite (hd_2 _ _ _ _ _ _ H), (hd_top _ _ _ _ _ _ H) in *. lia. Qed.
  Lemma par k : 1 <= k <= M -> get_parents G k = Ok (lf k, rt k).
  Proof using HB. intros Hk. rewrite (parents_ok _ _ _ _ HB). replace ((k <=? 0) || (k >=? M + 1)) with false by lia. reflexivity. Qed.
  Lemma par_in k p : get_parents G k = Ok p -> 1 <= k <= M.
  Proof using HB. rewrite (parents_ok _ _ _ _ HB). destruct ((k <=? 0) || (k >=? M + 1)) eqn:E; [discriminate|lia]. Qed.
  Lemma node_range k : w < k <= M -> 1 <= lf k < k /\ 1 <= rt k < k.
  Proof using HB.
    intros Hk. pose proof w_M as HM. pose proof (bo_hall _ _ _ _ HB) as H. destruct (level_ex _ _ _ _ _ _ H k ltac:(lia)) as (d & Hd & Hk'). destruct (Z.eq_dec d 1) as [->|Nd].
    - apply (level_letter _ _ _ _ _ _ H) in Hk'. lia.
    - destruct (hd_node _ _ _ _ _ _ H d k ltac:(lia) Hk') as (a & A1 & A2 & A3 & A4 & _). fold (lf k) (rt k) in A3, A4.
      pose proof (level_pos _ _ _ _ _ _ H a _ ltac:(lia) A3). pose proof (level_pos _ _ _ _ _ _ H (d - a) _ ltac:(lia) A4).
      assert (bat (lb_db G) (a + 1) <= bat (lb_db G) d) by (apply (db_mono _ _ _ _ _ _ H); lia). assert (bat (lb_db G) (d - a + 1) <= bat (lb_db G) d) by (apply (db_mono _ _ _ _ _ _ H); lia). lia.
  Qed.
  Lemma nth_pairs n p : nth_error pairs_of n = Some p <-> Z.of_nat n < M - w /\ p = (lf (w + 1 + Z.of_nat n), rt (w + 1 + Z.of_nat n)).
  Proof using HB.
    pose proof w_M as HM. unfold pairs_of. rewrite nth_error_map. destruct (Nat.lt_ge_cases n (Z.to_nat (M - w))) as [H|H].
    - assert (nth_error (seq 0 (Z.to_nat (M - w))) n = Some n) as ->. { rewrite (nth_error_nth' _ O) by (rewrite seq_length; lia). rewrite seq_nth by lia. reflexivity. } cbn [option_map]. split; [intros E; split; [lia|congruence]|intros [_ ->]; reflexivity].
    - assert (nth_error (seq 0 (Z.to_nat (M - w))) n = None) as -> by (apply nth_error_None; rewrite seq_length; lia). cbn [option_map]. split; [discriminate|lia].
  Qed.
  Lemma right_of : LkSpec.right_basis basis_of.
  Proof using HB HS.
    pose proof w_M as HM. split; [cbn; lia|]. split.
    - cbn [basis_of LkModel.b_pairs]. apply NoDup_nth_error. intros i j Hi E. assert (exists p, nth_error pairs_of i = Some p) as [p Ep] by (destruct (nth_error pairs_of i) eqn:Q; [eauto|apply nth_error_None in Q; lia]).
      rewrite Ep in E. symmetry in E. pose proof (proj1 (nth_pairs _ _) Ep) as [Hi' Pi]. pose proof (proj1 (nth_pairs _ _) E) as [Hj' Pj].
      pose proof (node_range (w + 1 + Z.of_nat i) ltac:(lia)) as [Hl _].
      pose proof (find_present _ _ _ HS _ _ _ ltac:(exact (proj1 Hl)) (par (w + 1 + Z.of_nat i) ltac:(lia))) as F1. pose proof (node_range (w + 1 + Z.of_nat j) ltac:(lia)) as [Hl2 _].
      pose proof (find_present _ _ _ HS _ _ _ ltac:(exact (proj1 Hl2)) (par (w + 1 + Z.of_nat j) ltac:(lia))) as F2. rewrite <- Pi in F1. rewrite <- Pj in F2. rewrite F1 in F2. injection F2 as F2. lia.
    - cbn [basis_of LkModel.b_pairs LkModel.b_width]. intros n x y E. apply nth_pairs in E as [Hn E]. pose proof (node_range (w + 1 + Z.of_nat n) ltac:(lia)). injection E as -> ->. assumption.
  Qed.
  Lemma bracket_decodes : forall t k, LkSpec.bracket basis_of k (as_bracket t) <-> decodes G k t.
  Proof using HB HS.
    pose proof w_M as HM. pose proof (bo_hall _ _ _ _ HB) as H. induction t as [l|a IHa b IHb]; intros k; cbn [as_bracket]; split; intros D.
    - inversion D as [k' Hk E|]; subst. cbn in Hk. constructor. rewrite par by lia. destruct (hd_let _ _ _ _ _ _ H l Hk) as [E1 E2]. unfold lf, rt. rewrite E1, E2. reflexivity.
    - inversion D as [k' l' E|]; subst. pose proof (par_in _ _ E) as Hk. rewrite par in E by assumption. destruct (Z.le_gt_cases k w) as [Hw|Hw].
      + destruct (hd_let _ _ _ _ _ _ H k ltac:(lia)) as [E1 E2]. injection E as E3 E4. assert (l = k) as -> by (unfold rt in E4; congruence). constructor. cbn. lia.
      + pose proof (node_range k ltac:(lia)) as [Hl _]. injection E as E3 E4. lia.
    - inversion D as [|n x y l r E Dx Dy]; subst. cbn [basis_of LkModel.b_pairs LkModel.b_width] in *. apply nth_pairs in E as [Hn E]. injection E as -> ->. apply (dec_node G _ (lf (w + 1 + Z.of_nat n)) (rt (w + 1 + Z.of_nat n))); [apply par; lia|now apply IHa|now apply IHb].
    - inversion D as [|k' x y s t E Dx Dy]; subst. pose proof (par_in _ _ E) as Hk. assert (Hx : 1 <= x) by (inversion Dx as [? ? Q|? ? ? ? ? Q]; exact (proj1 (par_in _ _ Q))). rewrite par in E by assumption. injection E as E1 E2.
      assert (Hw : w < k). { destruct (Z.le_gt_cases k w) as [Hw|Hw]; [|assumption]. destruct (hd_let _ _ _ _ _ _ H k ltac:(lia)) as [Q _]. unfold lf in E1. lia. }
      replace k with (w + 1 + Z.of_nat (Z.to_nat (k - w - 1))) by lia. apply (LkSpec.B_pair basis_of _ x y); [|now apply IHa|now apply IHb].
      cbn [basis_of LkModel.b_pairs]. apply nth_pairs. replace (w + 1 + Z.of_nat (Z.to_nat (k - w - 1))) with k by lia. split; [lia|congruence].
  Qed.
End Of.

Lemma hall_bases w N : 0 <= w -> 1 <= N < 46339 * 46339 -> N * w ^ N < I64_MAX -> exists K, LkSpec.right_basis K /\ LkModel.b_width K = w /\
  (forall t, (exists k, LkSpec.bracket K k (as_bracket t)) <-> Hall w t /\ tdeg t <= N) /\
  (forall k k' t t', LkSpec.bracket K k (as_bracket t) -> LkSpec.bracket K k' (as_bracket t') -> (k < k' <-> tlt t t')).
Proof.
  intros Hw HN Hb. destruct (hall_set junk0 junk0 w N Hw HN Hb) as (G & M & tree_of & E & EM & HD & HO & HA & _).
  assert (HS : standard G w N) by (split; [lia|]; eauto). destruct (standard_ok _ _ _ HS) as (M' & HB & _). assert (M' = M) as -> by (rewrite (size_ok _ _ _ _ HB) in EM; congruence).
  assert (DF : forall k t t', decodes G k t -> decodes G k t' -> t = t') by (intros k t t'; apply decodes_fun; intros l Q; apply (par_in G w N M HB) in Q; lia).
  assert (DR : forall k t, decodes G k t -> 1 <= k <= M) by (intros k t [? ? Q|? ? ? ? ? Q]; exact (par_in G w N M HB _ _ Q)).
  exists (basis_of G w M). split; [exact (right_of G w N M HS HB)|]. split; [reflexivity|]. split.
  - intros t. rewrite HA. split.
    + intros [k D]. apply (bracket_decodes G w N M HS HB) in D. exists k. pose proof (DR _ _ D). split; [assumption|]. apply (DF k); auto.
    + intros (k & Hk & <-). exists k. apply (bracket_decodes G w N M HS HB). auto.
  - intros k k' t t' D D'. apply (bracket_decodes G w N M HS HB) in D. apply (bracket_decodes G w N M HS HB) in D'. pose proof (DR _ _ D). pose proof (DR _ _ D').
    rewrite (DF k t (tree_of k)) by auto. rewrite (DF k' t' (tree_of k')) by auto. auto.
Qed.
