(** The tensor-to-Lie matrix: its columns are right-normed brackets. *)
From Coq Require Import ZifyBool Sorted.
From Verif Require Import Outcome Alg Words Mem Series Shuffle SparseModel SparseProofs Mobius HallModel HallSpec LieSpec HallTab HallCount HallDim HallProofs HallTrees HallLookup HallLemmas BracketModel BracketProofs BracketCache BracketSem BracketLemmas SmhModel SmhProofs SmhBuild SmhLemmas L2tModel L2tProofs L2tBuild Dynkin.
Local Open Scope Z_scope.

Section Sums.
  Variable R : cring.
  Add Ring Rring_t2s : (rth R).
  Variable isz : R -> bool.
  Hypothesis isz_ok : forall x, isz x = true <-> x = r0.
  Notation col := (list (Z * R)).
  (** Value of a column under an assignment of values to row indices. *)
  Definition csum (G : Z -> R) (c : col) : R := sum c (fun p => rmul (snd p) (G (fst p))).
  Lemma csum_cins G c k v : csum G (cins R c k v) = radd (csum G c) (rmul v (G k)).
  Proof.
    induction c as [|[j x] c IH]; cbn [cins]; [unfold csum; cbn; ring|].
    destruct (k =? j) eqn:E1; [replace k with j by lia; unfold csum; cbn; ring|]. destruct (k <? j); [unfold csum; cbn; ring|].
    unfold csum in *. cbn [sum]. rewrite IH. cbn [fst snd]. ring.
  Qed.
  Lemma csum_cinsall G l : forall c, csum G (cinsall R isz c l) = radd (csum G c) (csum G l).
  Proof.
    unfold cinsall. induction l as [|p l IH]; intros c; cbn [fold_left]; [unfold csum; cbn; ring|].
    rewrite IH. destruct (isz (snd p)) eqn:E.
    - apply isz_ok in E. unfold csum. cbn [sum]. rewrite E. ring.
    - rewrite csum_cins. unfold csum. cbn [sum]. ring.
  Qed.
  Lemma csum_filter G c : csum G (filter (nz R isz) c) = csum G c.
  Proof.
    unfold csum. rewrite sum_filter. apply sum_ext. intros p _. unfold nz. destruct (isz (snd p)) eqn:E; cbn [negb]; auto. apply isz_ok in E. rewrite E. ring.
  Qed.
  Lemma csum_flat_map {A} G (g : A -> col) l : csum G (flat_map g l) = sum l (fun a => csum G (g a)).
  Proof. unfold csum. apply sum_flat_map. Qed.
  Lemma for_insert {S A} (P : col -> S -> Prop) (g : A -> list (Z * R)) f l : forall cur s, P cur s ->
    (forall a cur s, In a l -> P cur s -> exists s', f a s = Ok s' /\ P (cinsall R isz cur (g a)) s') ->
    exists s', for_ l s f = Ok s' /\ P (cinsall R isz cur (flat_map g l)) s'.
  Proof.
    induction l as [|a l IH]; intros cur s H0 Hs; cbn [for_ flat_map]; [exists s; auto|].
    destruct (Hs a cur s (or_introl eq_refl) H0) as (s1 & E1 & H1). rewrite E1. cbn [bind].
    destruct (IH _ s1 H1) as (s' & E' & H'); [intros; apply Hs; auto; right; auto|]. exists s'. rewrite cinsall_app. auto.
  Qed.
End Sums.

Lemma get_uniform B w N M n : basis_ok B w N M -> N <= n -> exists F, forall fuel c a b, (F <= fuel)%nat -> inv_at w n c -> 1 <= a <= M -> 1 <= b <= M ->
  dg n (dbat (tD w n)) a + dg n (dbat (tD w n)) b <= N ->
  exists c', lmc_get fuel B c (a, b) = Ok (Some (ans w n a b), c') /\ inv_at w n c' /\ returns B c (a, b) (Some (ans w n a b)) c'.
Proof.
  intros HB Hn. assert (HH := bo_hall _ _ _ _ HB). assert (HN := hd_N _ _ _ _ _ _ HH). assert (Hw := hd_w _ _ _ _ _ _ HH).
  assert (H := tab_hall w n Hw ltac:(lia)). assert (SB := sub_tab B w N M n HB Hn). assert (HM := sub_M _ _ _ _ _ _ H _ _ _ SB).
  exists (S (Z.to_nat (n * (zlen (tT w n))))). intros fuel c a b Hf Hc Ha Hb Hd.
  assert (V : valid n (zlen (tT w n) - 1) (dbat (tD w n)) a b) by (unfold valid; lia).
  destruct (get_ok _ _ _ _ _ _ H _ _ _ SB fuel [] a b c) as (c' & E & Hc'); auto.
  - assert (X := min_dg _ _ _ _ _ _ H a b V). unfold mu in *. replace (zlen (tT w n) - 1 + 1) with (zlen (tT w n)) in * by lia. assert (0 <= zlen (tT w n)) by (unfold zlen; lia). nia.
  - intros s [].
  - exists c'. split; [exact E|]. split; [exact Hc'|]. exists fuel. intros f' Hf'. apply (lmc_get_mono fuel); auto.
Qed.

Section Build.
  Variable R : cring.
  Add Ring Rring_t2b : (rth R).
  Variable isz : R -> bool.
  Hypothesis isz_ok : forall x, isz x = true <-> x = r0.
  Hypothesis R1 : (r1 : R) <> r0.
  Variables (B : lie_basis) (w N M n : Z).
  Hypothesis HS : standard B w N.
  Hypothesis HB : basis_ok B w N M.
  Hypothesis Hw : 1 <= w.
  Hypothesis Hfit : N * w ^ N < I64_MAX.
  Hypothesis Hn : N <= n.
  Variable fuel : nat.
  Notation col := (list (Z * R)).
  Notation db := (bat (lb_db B)).
  Notation L := (fun k => bat (lb_data B) (2 * k)). Notation Rt := (fun k => bat (lb_data B) (2 * k + 1)).
  Notation T := (tr L Rt).
  Notation H := (bo_hall _ _ _ _ HB).
  Notation colk := (colk R). Notation ready := (ready R isz). Notation cinsall := (cinsall R isz). Notation csum := (csum R).
  Notation rows := (words_below w (S (Z.to_nat N))).
  Notation tdg := (dg n (dbat (tD w n))).
  Hypothesis Hget : forall c a b, inv_at w n c -> 1 <= a <= M -> 1 <= b <= M -> tdg a + tdg b <= N ->
    exists c', lmc_get fuel B c (a, b) = Ok (Some (ans w n a b), c') /\ inv_at w n c' /\ returns B c (a, b) (Some (ans w n a b)) c'.
  Hypothesis Hcast : forall x k p, 1 <= x <= w -> 1 <= k <= M -> tdg x + tdg k <= N -> In p (ans w n x k) -> - 2 ^ 31 <= snd p < 2 ^ 31.

  Lemma tdg_level d k : 1 <= d <= N -> db d <= k < db (d + 1) -> tdg k = d.
  Proof.
    intros Hd Hk. assert (HN := HN1 B w N M HB). assert (HT := tab_hall w n ltac:(lia) ltac:(lia)). assert (SB := sub_tab B w N M n HB Hn).
    apply (dg_eq _ _ _ _ _ _ HT); [lia|]. rewrite <- !(sb_db _ _ _ _ _ _ _ _ SB) by lia. auto.
  Qed.
  Lemma tdg_letter x : 1 <= x <= w -> tdg x = 1.
  Proof. intros Hx. apply tdg_level; [assert (X := HN1 B w N M HB); lia|]. rewrite (hd_1 _ _ _ _ _ _ H). change (1 + 1) with 2. rewrite (hd_2 _ _ _ _ _ _ H). lia. Qed.
  Lemma cast_id v : - 2 ^ 31 <= v < 2 ^ 31 -> cast_int v = v.
  Proof.
    intros Hv. change (2 ^ 31) with 2147483648 in Hv. unfold cast_int. change (2 ^ 32) with 4294967296. change (2 ^ 31) with 2147483648.
    destruct (v mod 4294967296 >=? 2147483648) eqn:E.
    - rewrite <- (Z.mod_add v 1 4294967296) in * by lia. destruct (Z_lt_le_dec v 0).
      + rewrite Z.mod_small by lia. lia.
      + rewrite Z.mod_add, Z.mod_small in E by lia. lia.
    - destruct (Z_lt_le_dec v 0).
      + exfalso. rewrite <- (Z.mod_add v 1 4294967296), Z.mod_small in E by lia. lia.
      + apply Z.mod_small. lia.
  Qed.
  (** the answers of the cache, in degree and value *)
  Lemma ans_sem x d k : 1 <= x <= w -> 1 <= d -> d + 1 <= N -> db d <= k < db (d + 1) ->
    (forall p, In p (ans w n x k) -> db (d + 1) <= fst p < db (d + 1 + 1)) /\ (forall v, sum (ans w n x k) (fun p => rmul (zr R (snd p)) (texpand R (T (fst p)) v)) = comm (texpand R (T x)) (texpand R (T k)) v).
  Proof.
    intros Hx Hd HdN Hk. assert (HN := HN1 B w N M HB). assert (HT := tab_hall w n ltac:(lia) ltac:(lia)). assert (SB := sub_tab B w N M n HB Hn).
    assert (HM := sub_M _ _ _ _ _ _ HT _ _ _ SB). assert (HM0 := M_nonneg _ _ _ _ HB). assert (Pk := lpos _ _ _ _ _ _ H d k Hk ltac:(lia)).
    assert (Dx := tdg_letter x Hx). assert (Dk := tdg_level d k ltac:(lia) Hk).
    assert (V : valid n (zlen (tT w n) - 1) (dbat (tD w n)) x k) by (unfold valid; lia).
    assert (Hkeys : forall p, In p (ans w n x k) -> 1 <= fst p <= M /\ db (d + 1) <= fst p < db (d + 1 + 1)).
    { intros p Hp. destruct (BR_keys _ _ _ _ _ _ HT x k V p Hp) as [K1 K2]. destruct (dg_level _ _ _ _ _ _ HT (fst p) K1) as [K3 K4].
      rewrite K2, Dx, Dk in K4. split; [|rewrite !(sb_db _ _ _ _ _ _ _ _ SB) by lia; replace (d + 1) with (1 + d) by lia; exact K4].
      split; [lia|]. apply (sub_key _ _ _ _ _ _ HT _ _ _ SB); auto. lia. }
    split; [intros p Hp; apply Hkeys; auto|]. intros v. rewrite <- (tr_agree _ _ _ _ _ _ _ _ _ HT SB x), <- (tr_agree _ _ _ _ _ _ _ _ _ HT SB k) by lia.
    assert (X := BR_comm _ _ _ _ _ _ HT R x k V v). unfold BracketSem.E in X. rewrite <- X. unfold lin, BracketSem.E. apply sum_ext. intros p Hp.
    rewrite (tr_agree _ _ _ _ _ _ _ _ _ HT SB (fst p)) by (apply Hkeys; auto). reflexivity.
  Qed.

  (** a column standing for the right-normed bracket of [u] *)
  Definition crepr (c : col) (u : list Z) : Prop :=
    (forall p, In p c -> db (Z.of_nat (length u)) <= fst p + 1 < db (Z.of_nat (length u) + 1)) /\ (forall v, csum (fun j => texpand R (T (j + 1)) v) c = rnorm R u v).
  Lemma crepr_filter c u : crepr c u -> crepr (filter (nz R isz) c) u.
  Proof.
    intros [H1 H2]. split; [intros p Hp; apply filter_In in Hp; apply H1; tauto|]. intros v. rewrite csum_filter by auto. apply H2.
  Qed.

  (** the columns before index [k] *)
  Definition tcols (k : Z) (rc : list col) : Prop :=
    zlen rc = k /\ (0 < k -> colk rc 0 = []) /\ (forall x, 0 <= x < w -> x + 1 < k -> colk rc (x + 1) = [(x, r1)]) /\ (forall u, letters_ok w u -> u <> [] -> (length u <= Z.to_nat N)%nat -> pos w u < k -> crepr (colk rc (pos w u)) u).
  Definition tinv (k : Z) (h : smh R) (c : lcache) : Prop := (exists rc, ready M rows h rc /\ tcols k rc) /\ inv_at w n c /\ reachable w c.

  Lemma isz1 : isz r1 = false. Proof. destruct (isz r1) eqn:E; auto. apply isz_ok in E. contradiction. Qed.
  Lemma tcols_finish k rc : tcols k rc -> tcols k (finish R isz rc).
  Proof.
    intros (Hl & H0 & Hx & Hc). assert (Zp := zlen_pos rc). split; [rewrite zlen_finish; auto|]. split; [|split].
    - intros Hk. destruct (colk_finish R isz rc 0 ltac:(lia)) as [->| ->]; auto. rewrite H0; auto.
    - intros x Hx1 Hx2. destruct (colk_finish R isz rc (x + 1) ltac:(lia)) as [->| ->]; auto. rewrite Hx by auto. cbn [filter nz snd]. unfold nz. cbn [snd]. rewrite isz1. reflexivity.
    - intros u Hu Hne Hlen Hp. assert (P := pos_bound w ltac:(lia) u _ Hu Hlen). destruct (colk_finish R isz rc (pos w u) ltac:(lia)) as [->| ->]; auto. apply crepr_filter; auto.
  Qed.
  Lemma pos1 x : pos w [x] = x + 1.
  Proof. unfold pos. cbn [length words_below idx]. change (Z.of_nat 0) with 0. rewrite Z.pow_0_r. lia. Qed.
  Lemma tcols_safe k rc : tcols k rc -> safe R isz rc.
  Proof.
    intros (Hl & H0 & Hx & _). apply (anchored_safe R isz 1); [lia| |].
    - intros j Hj. replace j with 0 by lia. destruct (Z_lt_le_dec 0 k); auto. destruct rc; [reflexivity|]. rewrite zlen_cons in Hl. assert (X := zlen_pos rc). lia.
    - intros H1. exists (0, r1). change 1 with (0 + 1). rewrite (Hx 0) by lia. split; [left; auto|]. unfold nz. cbn [snd]. rewrite isz1. reflexivity.
  Qed.
  Lemma tcols_push k rc c : tcols k rc -> (k = 0 -> c = []) -> (forall x, 0 <= x < w -> k = x + 1 -> c = [(x, r1)]) ->
    (forall u, letters_ok w u -> u <> [] -> (length u <= Z.to_nat N)%nat -> pos w u = k -> crepr c u) -> tcols (k + 1) (c :: rc).
  Proof.
    intros (Hl & H0 & Hx & Hc) G0 Gx Gc. assert (Zp := zlen_pos rc). split; [rewrite zlen_cons; lia|]. split; [|split].
    - intros _. destruct (Z.eq_dec k 0) as [E|E].
      + replace 0 with (zlen rc) at 1 by lia. rewrite colk_cur. auto.
      + rewrite colk_old by lia. apply H0. lia.
    - intros x Hx1 Hx2. destruct (Z.eq_dec k (x + 1)) as [E|E].
      + replace (x + 1) with (zlen rc) by lia. rewrite colk_cur. auto.
      + rewrite colk_old by lia. apply Hx; lia.
    - intros u Hu Hne Hlen Hp. assert (P := pos_bound w ltac:(lia) u _ Hu Hlen). destruct (Z.eq_dec (pos w u) k) as [E|E].
      + replace (pos w u) with (zlen rc) by lia. rewrite colk_cur. auto.
      + rewrite colk_old by lia. apply Hc; auto. lia.
  Qed.

  (** a letter *)
  Lemma crepr_letter x : 0 <= x < w -> crepr [(x, r1)] [x].
  Proof.
    intros Hx. split.
    - intros p [<-|[]]. cbn [fst length]. change (Z.of_nat 1) with 1. rewrite (hd_1 _ _ _ _ _ _ H). change (1 + 1) with 2. rewrite (hd_2 _ _ _ _ _ _ H). lia.
    - intros v. unfold T2lBuild.csum. cbn [sum fst snd rnorm]. rewrite (tr_letter _ _ _ _ _ _ H) by lia. ring.
  Qed.
  Lemma word_at u k : letters_ok w u -> u <> [] -> pos w u = k -> k <= w -> 0 < k -> u = [k - 1].
  Proof.
    intros Hu Hne E Hk Hk0. assert (Ev : pos w [k - 1] = k) by (rewrite pos1; lia). apply (pos_inj w); auto; [lia| |congruence]. constructor; [lia|constructor].
  Qed.
  Lemma t2l_letter_step i h c : 0 <= i < w -> tinv (i + 1) h c -> exists h', (let! h := insert_frame isz h in insert_value isz h i r1) = Ok h' /\ tinv (i + 1 + 1) h' c.
  Proof.
    intros Hi ((rc & Hr & Hc) & Hinv). assert (HN := HN1 B w N M HB). assert (Hs := tcols_safe _ _ Hc).
    assert (Hwr : w < rows) by (assert (X := pos_bound w ltac:(lia) [w - 1] (Z.to_nat N) ltac:(constructor; [lia|constructor]) ltac:(cbn; lia)); rewrite pos1 in X; lia).
    destruct (ready_frame R isz M rows h rc Hr Hs) as (h1 & E1 & H1); [destruct Hc; lia|]. rewrite E1. cbn [bind].
    destruct (ready_insert R isz M rows h1 [] (finish R isz rc) i r1 H1) as (h2 & E2 & H2). exists h2. split; auto. split; [|exact Hinv].
    eexists. split; [exact H2|]. unfold SmhBuild.cinsall. cbn [fold_left snd fst]. rewrite isz1. cbn [cins].
    apply tcols_push; [apply tcols_finish; auto|lia| |].
    - intros x Hx E. do 2 f_equal. lia.
    - intros u Hu Hne Hlen E. rewrite (word_at u (i + 1)) by (auto; lia). replace (i + 1 - 1) with i by lia. apply crepr_letter. auto.
  Qed.

  (** the pairs inserted for a bracket with a letter *)
  Definition bpairs (x : Z) (p : Z * R) : list (Z * R) := flat_map (fun q => [(fst q - 1, product R (cast_int (snd q)) r1 (snd p))]) (ans w n (1 + x) (1 + fst p)).
  Lemma crepr_bracket x v cv : 0 <= x < w -> letters_ok w v -> v <> [] -> (S (length v) <= Z.to_nat N)%nat -> crepr cv v -> crepr (cinsall [] (flat_map (bpairs x) cv)) (x :: v).
  Proof.
    intros Hx Hv Hne Hlen [C1 C2]. set (d := Z.of_nat (length v)) in *. assert (Hd : 1 <= d) by (destruct v; [contradiction|unfold d; cbn; lia]).
    assert (Ed : Z.of_nat (length (x :: v)) = d + 1) by (unfold d; cbn [length]; lia). split.
    - intros p Hp. rewrite Ed. apply (in_map fst) in Hp. apply cinsall_fst in Hp. destruct Hp as [[]|Hp]. apply in_map_iff in Hp. destruct Hp as (q & Eq & Hq). rewrite <- Eq.
      apply in_flat_map in Hq. destruct Hq as (r & Hr & Hq). apply in_flat_map in Hq. destruct Hq as (s & Hs & [<-|[]]). cbn [fst].
      destruct (ans_sem (1 + x) d (1 + fst r) ltac:(lia) Hd ltac:(lia) ltac:(specialize (C1 r Hr); lia)) as [A1 _]. specialize (A1 s Hs). lia.
    - intros u. rewrite csum_cinsall by auto. unfold T2lBuild.csum at 1. cbn [sum]. rewrite csum_flat_map.
      assert (En : rnorm R (x :: v) = comm (texpand R (Leaf (x + 1))) (rnorm R v)) by (destruct v; [contradiction|reflexivity]). rewrite En.
      assert (Hlin : forall (l : col) u, comm (texpand R (Leaf (x + 1))) (fun v => csum (fun j => texpand R (T (j + 1)) v) l) u = sum l (fun p => rmul (snd p) (comm (texpand R (Leaf (x + 1))) (texpand R (T (fst p + 1))) u))).
      { clear. induction l as [|p l IH]; intros u.
        - change (comm (texpand R (Leaf (x + 1))) tzero u = r0). unfold comm, tsub. rewrite (conv_zero_r _ _ _ u), (conv_zero_l _ _ _ u). unfold tzero. ring.
        - cbn [sum]. rewrite <- IH.
          transitivity (comm (texpand R (Leaf (x + 1))) (tadd (tscal (snd p) (texpand R (T (fst p + 1)))) (fun v => csum (fun j => texpand R (T (j + 1)) v) l)) u).
          + apply comm_ext; intros z; reflexivity.
          + rewrite (comm_add_r _ _ _ _ _ u). unfold tadd. rewrite (comm_scal_r _ _ _ _ _ u). reflexivity. }
      rewrite <- (comm_ext _ _ _ _ (fun _ => eq_refl) C2 u), Hlin.
      transitivity (sum cv (fun p => rmul (snd p) (comm (texpand R (Leaf (x + 1))) (texpand R (T (fst p + 1))) u))); [|reflexivity].
      match goal with |- radd r0 ?a = ?b => replace (radd r0 a) with a by ring end.
      apply sum_ext. intros p Hp. destruct (ans_sem (1 + x) d (1 + fst p) ltac:(lia) Hd ltac:(lia) ltac:(specialize (C1 p Hp); lia)) as [A1 A2].
      replace (fst p + 1) with (1 + fst p) by lia. replace (x + 1) with (1 + x) by lia. rewrite <- (tr_letter _ _ _ _ _ _ H (1 + x)) by lia. rewrite <- A2, <- sum_mul_l.
      unfold bpairs. rewrite csum_flat_map. apply sum_ext. intros q Hq. unfold T2lBuild.csum, product. cbn [sum fst snd]. replace (fst q - 1 + 1) with (fst q) by lia.
      rewrite cast_id; [ring|]. assert (HM0 := M_nonneg _ _ _ _ HB). assert (Pk := lpos _ _ _ _ _ _ H d (1 + fst p) ltac:(specialize (C1 p Hp); lia) ltac:(lia)).
      apply (Hcast (1 + x) (1 + fst p) q); auto; [lia|]. rewrite tdg_letter, (tdg_level d) by (try (specialize (C1 p Hp)); lia). lia.
  Qed.

  Lemma rbracket_ok x v rc h c : 0 <= x < w -> letters_ok w v -> v <> [] -> (S (length v) <= Z.to_nat N)%nat -> pos w v < zlen rc -> x + 1 < zlen rc ->
    tcols (zlen rc) rc -> ready M rows h ([] :: rc) -> inv_at w n c -> reachable w c ->
    exists s', t2l_rbracket R isz fuel B (1 + x) (pos w v) (h, c) = Ok s' /\ (exists c2, ready M rows (fst s') (c2 :: rc) /\ crepr c2 (x :: v)) /\ inv_at w n (snd s') /\ reachable w (snd s').
  Proof.
    intros Hx Hv Hne Hlen Hp Hx1 (_ & _ & Tx & Tc) Hr Hi Hc. assert (Pb := pos_bound w ltac:(lia) v (Z.to_nat N) Hv ltac:(lia)).
    assert (Cv := Tc v Hv Hne ltac:(lia) Hp). set (cv := colk rc (pos w v)) in *.
    assert (FR : forall cur h, ready M rows h (cur :: rc) -> exists o, frame_at h (pos w v) = Ok (o, zlen cv) /\
       forall n p, nth_error cv n = Some p -> bget (s_idx h) (o + Z.of_nat n) = Ok (fst p) /\ bget (s_data h) (o + Z.of_nat n) = Ok (snd p)).
    { intros cur h' Hh'. destruct (frame_read R isz h' (cur :: rc) (pos w v) (rd_rep _ _ _ _ _ _ Hh')) as (o & X); [rewrite zlen_cons; lia|].
      exists o. rewrite colk_old in X by lia. exact X. }
    assert (FL : forall cur h, ready M rows h (cur :: rc) -> exists o s, frame_at h (1 + x) = Ok (o, s) /\ bget (s_data h) o = Ok r1).
    { intros cur h' Hh'. destruct (frame_read R isz h' (cur :: rc) (1 + x) (rd_rep _ _ _ _ _ _ Hh')) as (o & X1 & X2); [rewrite zlen_cons; lia|].
      exists o. rewrite colk_old in X1, X2 by lia. replace (1 + x) with (x + 1) in X1, X2 |- * by lia. rewrite Tx in X1, X2 by lia. eexists. split; [exact X1|].
      destruct (X2 0%nat (x, r1) eq_refl) as [_ Y]. change (Z.of_nat 0) with 0 in Y. rewrite Z.add_0_r in Y. exact Y. }
    unfold t2l_rbracket. cbn [fst]. destruct (FR [] h Hr) as (o0 & E0 & _). rewrite E0. cbn [bind snd].
    match goal with |- context [for_ (zrange (zlen cv)) (h, c) ?f] =>
      destruct (for_col0 R isz (fun cur s => ready M rows (fst s) (cur :: rc) /\ inv_at w n (snd s) /\ reachable w (snd s)) (bpairs x) f cv [] (h, c)) as (s' & E & H') end.
    - auto.
    - intros k p cur [h1 c1] Hk (Hr1 & Hi1 & Hc1). cbn [fst snd] in *. destruct (FR cur h1 Hr1) as (o1 & E1 & G1). rewrite E1. cbn [bind fst]. destruct (G1 k p Hk) as [G1i _]. rewrite G1i. cbn [bind].
      assert (Hd : 1 <= Z.of_nat (length v)) by (destruct v; [contradiction|cbn; lia]).
      assert (Kp := proj1 Cv p (nth_error_In _ _ Hk)). assert (Pk := lpos _ _ _ _ _ _ H _ (1 + fst p) ltac:(rewrite Z.add_comm; exact Kp) ltac:(lia)).
      assert (HM0 := M_nonneg _ _ _ _ HB). assert (Hsum : tdg (1 + x) + tdg (1 + fst p) <= N) by (rewrite tdg_letter, (tdg_level (Z.of_nat (length v))) by lia; lia).
      destruct (Hget c1 (1 + x) (1 + fst p) Hi1 ltac:(lia) Pk Hsum) as (c2 & E2 & Hi2 & Hret).
      rewrite E2. cbn [bind].
      match goal with |- context [for_ (ans w n (1 + x) (1 + fst p)) h1 ?f] =>
        destruct (for_insert R isz (fun cur h => ready M rows h (cur :: rc)) (fun q => [(fst q - 1, product R (cast_int (snd q)) r1 (snd p))]) f (ans w n (1 + x) (1 + fst p)) cur h1 Hr1) as (h2 & E3 & H3) end.
      + intros q cur2 h2 Hq Hr2. destruct (FL cur2 h2 Hr2) as (ol & sl & El & Gl). rewrite El. cbn [bind]. destruct (FR cur2 h2 Hr2) as (o2 & E4 & G4). rewrite E4. cbn [bind fst].
        rewrite Gl. cbn [bind]. destruct (G4 k p Hk) as [_ ->]. cbn [bind]. apply ready_insert. exact Hr2.
      + rewrite E3. cbn [bind]. exists (h2, c2). split; [reflexivity|]. cbn [fst snd]. split; [exact H3|]. split; [exact Hi2|].
        apply (reach_call w B N c1 (1 + x, 1 + fst p) _ c2 Hc1 HS ltac:(cbn; lia) ltac:(cbn; lia) Hret).
    - destruct H' as (K1 & K2 & K3). exists s'. split; [exact E|]. split; [|split; auto]. eexists. split; [exact K1|]. apply crepr_bracket; auto.
  Qed.

  Lemma crepr_same x : 0 <= x < w -> crepr [] [x; x].
  Proof.
    intros Hx. split; [intros p []|]. intros v. unfold T2lBuild.csum. cbn [sum rnorm]. rewrite (comm_same _ _ _ v). reflexivity.
  Qed.
  Lemma t2l_col_step d i h c : (2 <= d)%nat -> Z.of_nat d <= N -> 0 <= i < w ^ Z.of_nat d -> tinv (words_below w d + i) h c ->
    exists s', (let! h := insert_frame isz h in
       if 1 + Z.quot i (w ^ Z.of_nat (d - 1)) =? words_below w (d - 1) + Z.rem i (w ^ Z.of_nat (d - 1)) then Ok (h, c)
       else t2l_rbracket R isz fuel B (1 + Z.quot i (w ^ Z.of_nat (d - 1))) (words_below w (d - 1) + Z.rem i (w ^ Z.of_nat (d - 1))) (h, c)) = Ok s' /\
      tinv (words_below w d + (i + 1)) (fst s') (snd s').
  Proof.
    intros Hd HdN Hi ((rc & Hr & Hc) & Hinv & Hreach). assert (W0 : 0 < w) by lia. assert (HN := HN1 B w N M HB).
    set (u := unidx w d i). assert (Hu : letters_ok w u) by (apply unidx_ok; auto). assert (Lu : length u = d) by apply unidx_length. assert (Iu : idx w u = i) by (apply idx_unidx; auto).
    destruct u as [|x v] eqn:Eu; [cbn in Lu; lia|]. assert (Hx : 0 <= x < w) by (inversion Hu; auto). assert (Hv : letters_ok w v) by (inversion Hu; auto). cbn [length] in Lu. assert (Lv : length v = (d - 1)%nat) by lia.
    assert (Iv := idx_bound w W0 v Hv). rewrite Lv in Iv. cbn [idx] in Iu. rewrite Lv in Iu.
    assert (Eq : Z.quot i (w ^ Z.of_nat (d - 1)) = x /\ Z.rem i (w ^ Z.of_nat (d - 1)) = idx w v).
    { rewrite Z.quot_div_nonneg, Z.rem_mod_nonneg by lia. split; symmetry; [apply (Z.div_unique _ _ x (idx w v))|apply (Z.mod_unique _ _ x (idx w v))]; lia. }
    destruct Eq as [-> ->]. replace (words_below w (d - 1) + idx w v) with (pos w v) by (unfold pos; rewrite Lv; reflexivity).
    assert (Pu : pos w (x :: v) = words_below w d + i) by (unfold pos; cbn [idx length]; rewrite Lv; replace (S (d - 1)) with d by lia; lia).
    assert (Pb := pos_bound w W0 (x :: v) (Z.to_nat N) Hu ltac:(cbn; lia)).
    assert (Hs := tcols_safe _ _ Hc). assert (Hl := proj1 Hc). destruct (ready_frame R isz M rows h rc Hr Hs) as (h1 & E1 & H1); [lia|]. rewrite E1. cbn [bind].
    assert (Hf := tcols_finish _ _ Hc).
    assert (Pv : pos w v < words_below w d) by (unfold pos; rewrite Lv; assert (X := words_below_lt w W0 (d - 1) d ltac:(lia)); lia).
    assert (Px : x + 1 < words_below w d).
    { assert (X := words_below_mono w W0 2 d Hd). cbn [words_below] in X. change (Z.of_nat 0) with 0 in X. change (Z.of_nat 1) with 1 in X. rewrite Z.pow_0_r, Z.pow_1_r in X. lia. }
    assert (Hne : v <> []) by (intros ->; cbn in Lv; lia). assert (B0 := words_below_nonneg w W0 d).
    assert (Push : forall c2, crepr c2 (x :: v) -> tcols (words_below w d + (i + 1)) (c2 :: finish R isz rc)).
    { intros c2 C2. rewrite Z.add_assoc. apply tcols_push; auto; [lia| |].
      - intros y Hy E. assert (X := words_below_mono w W0 2 d Hd). cbn [words_below] in X. change (Z.of_nat 0) with 0 in X. change (Z.of_nat 1) with 1 in X. rewrite Z.pow_0_r, Z.pow_1_r in X. lia.
      - intros u' Hu' Hne' Hlen' E. rewrite <- Pu in E. apply pos_inj in E; auto. subst u'. exact C2. }
    destruct (1 + x =? pos w v) eqn:El.
    - exists (h1, c). split; [reflexivity|]. cbn [fst snd]. split; [|auto]. eexists. split; [exact H1|]. apply Push.
      assert (v = [x]) as ->; [|apply crepr_same; auto]. apply (pos_inj w W0); auto; [constructor; auto; constructor|]. rewrite pos1. lia.
    - destruct (rbracket_ok x v (finish R isz rc) h1 c) as (s' & E' & (c2 & R2 & C2) & I2 & Re2); auto; try (rewrite zlen_finish; lia); [cbn; lia| |].
      + rewrite zlen_finish, Hl. exact Hf.
      + exists s'. split; [exact E'|]. split; [|auto]. eexists. split; [exact R2|]. apply Push. exact C2.
  Qed.
End Build.
