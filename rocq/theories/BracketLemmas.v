(** Forms of the bracket cache results used in the property file, and witnesses. *)
From Coq Require Import ZifyBool Sorted.
From Verif Require Import Outcome Alg Words Mem Series Shuffle Mobius HallModel HallSpec LieSpec HallTab HallCount HallDim HallProofs HallTrees HallLookup HallLemmas BracketModel BracketProofs BracketCache BracketSem.
Local Open Scope Z_scope.

Definition tT (w n : Z) := fst (tab w (Z.to_nat (n - 1))).
Definition tD (w n : Z) := snd (tab w (Z.to_nat (n - 1))).
Lemma tab_le w a b : (a <= b)%nat -> exists T2 D2, fst (tab w b) = fst (tab w a) ++ T2 /\ snd (tab w b) = snd (tab w a) ++ D2.
Proof.
  induction 1 as [|b Hab (T2 & D2 & E1 & E2)]; [exists [], []; rewrite !app_nil_r; auto|].
  destruct (tab_prefix w b) as (T3 & D3 & E3 & E4). exists (T2 ++ T3), (D2 ++ D3). rewrite E3, E4, E1, E2, !app_assoc. auto.
Qed.
Lemma tab_hall w n : 0 <= w -> 1 <= n -> hall_data w n (zlen (tT w n) - 1) (dbat (tD w n)) (tabL (tT w n)) (tabR (tT w n)).
Proof. intros Hw Hn. destruct (tab_ok w (Z.to_nat (n - 1)) Hw) as (_ & _ & X). replace (Z.of_nat (Z.to_nat (n - 1)) + 1) with n in X by lia. exact X. Qed.
Lemma sub_tab B w N M n : basis_ok B w N M -> N <= n ->
  subbasis w n (dbat (tD w n)) (tabL (tT w n)) (tabR (tT w n)) B N M.
Proof.
  intros HB Hn. assert (H := bo_hall _ _ _ _ HB). assert (HN := hd_N _ _ _ _ _ _ H). assert (Hw := hd_w _ _ _ _ _ _ H).
  destruct (tab_le w (Z.to_nat (N - 1)) (Z.to_nat (n - 1)) ltac:(lia)) as (T2 & D2 & E1 & E2).
  destruct (tab_ok w (Z.to_nat (N - 1)) Hw) as (Z1 & Z2 & _). assert (HM := bo_M _ _ _ _ HB).
  constructor; auto.
  - intros k Hk. unfold row. destruct (bo_rows _ _ _ _ HB k Hk) as [-> ->]. unfold tT. rewrite E1, tabL_app, tabR_app by lia. reflexivity.
  - intros d Hd. rewrite (bo_dbs _ _ _ _ HB) by lia. unfold tD, dbat. rewrite E2, znth_app1 by lia. reflexivity.
Qed.

(** More fuel does not change a result. *)
Definition refines (g g' : getter) : Prop := forall c q x, g c q = Ok x -> g' c q = Ok x.
Lemma half_loop_mono g g' : refines g g' -> forall o r s m c x, half_loop g o r s m c = Ok x -> half_loop g' o r s m c = Ok x.
Proof.
  intros HR. induction o as [|[k v] o IH]; intros r s m c x; cbn [half_loop]; auto.
  destruct (g c (k, r)) as [[[e|] c1]| | |] eqn:E; cbn [bind]; try discriminate; rewrite (HR _ _ _ E); cbn [bind]; auto.
Qed.
Lemma bracket_half_mono g g' : refines g g' -> forall o r s m c x, bracket_half g o r s m c = Ok x -> bracket_half g' o r s m c = Ok x.
Proof.
  intros HR o r s m c x. unfold bracket_half.
  destruct (g c o) as [[[e|] c1]| | |] eqn:E; cbn [bind]; try discriminate; rewrite (HR _ _ _ E); cbn [bind]; auto. apply half_loop_mono; auto.
Qed.
Lemma bracket_slow_mono g g' : refines g g' -> forall B c q s x, bracket_slow g B c q s = Ok x -> bracket_slow g' B c q s = Ok x.
Proof.
  intros HR B c q s x. unfold bracket_slow. destruct (get_parents B (snd q)) as [[p0 p1]| | |]; auto.
  destruct ((p0 >? 0) && negb (fst q =? p0)); cbn [bind].
  - destruct (bracket_half g (fst q, p0) p1 s [] c) as [[[e|] c1]| | |] eqn:E; cbn [bind]; try discriminate; rewrite (bracket_half_mono _ _ HR _ _ _ _ _ _ E); cbn [bind]; auto.
    destruct (negb (fst q =? p1)); auto. apply bracket_half_mono; auto.
  - destruct (negb (fst q =? p1)); auto. apply bracket_half_mono; auto.
Qed.
Lemma compute_bracket_mono g g' : refines g g' -> forall B c q d x, compute_bracket g B c q d = Ok x -> compute_bracket g' B c q d = Ok x.
Proof.
  intros HR B c q d x. unfold compute_bracket. destruct (fst q >? snd q).
  - destruct (find_word B (snd q, fst q) d) as [k| | |]; cbn [bind]; try discriminate. destruct (k >? 0); auto. apply bracket_slow_mono; auto.
  - destruct (find_word B q d) as [k| | |]; cbn [bind]; try discriminate. destruct (k >? 0); auto. apply bracket_slow_mono; auto.
Qed.
Lemma lmc_get_step f B : refines (lmc_get f B) (lmc_get (S f) B).
Proof.
  induction f as [|f IH]; intros c [a b] x; [discriminate|].
  cbn [lmc_get] in IH |- *. destruct ((a =? 0) || (b =? 0)); auto. destruct (a =? b); auto.
  destruct (lb_degree B a) as [da| | |]; cbn [bind]; try discriminate. destruct (lb_degree B b) as [db| | |]; cbn [bind]; try discriminate.
  destruct (da + db >? lb_depth B); auto. destruct (lb_true_size B) as [ts| | |]; cbn [bind]; try discriminate.
  destruct ((a >=? ts) || (b >=? ts)); auto. destruct (c a b) as [| |e]; auto.
  - destruct (cset c a b Null b a) as [| |e]; auto.
    match goal with |- bind (compute_bracket ?g _ ?c1 ?q ?d) _ = _ -> bind (compute_bracket ?g' _ _ _ _) _ = _ =>
      destruct (compute_bracket g B c1 q d) as [[[e|] c2]| | |] eqn:E; cbn [bind]; try discriminate; rewrite (compute_bracket_mono g g' IH _ _ _ _ _ E) end; auto.
  - destruct (c b a) as [| |e]; auto.
    match goal with |- bind (compute_bracket ?g _ ?c1 ?q ?d) _ = _ -> bind (compute_bracket ?g' _ _ _ _) _ = _ =>
      destruct (compute_bracket g B c1 q d) as [[[e|] c2]| | |] eqn:E; cbn [bind]; try discriminate; rewrite (compute_bracket_mono g g' IH _ _ _ _ _ E) end; auto.
Qed.
Lemma lmc_get_mono f f' B c q x : lmc_get f B c q = Ok x -> (f <= f')%nat -> lmc_get f' B c q = Ok x.
Proof. intros E Hf. induction Hf; auto. apply lmc_get_step; auto. Qed.

(** A call that returns [r] and leaves the cache in state [c']. *)
Definition returns (B : lie_basis) (c : lcache) (q : Z * Z) (r : option (list (Z * Z))) (c' : lcache) : Prop :=
  exists F, forall fuel, (F <= fuel)%nat -> lmc_get fuel B c q = Ok (r, c').
(** Cache states that arise from any history of calls with bases of one width. *)
Inductive reachable (w : Z) : lcache -> Prop :=
| reach_empty : reachable w lc_empty
| reach_call B N c q r c' : reachable w c -> standard B w N -> 0 <= fst q -> 0 <= snd q -> returns B c q r c' -> reachable w c'.

Lemma returns_fun B c q r r' c1 c2 : returns B c q r c1 -> returns B c q r' c2 -> r = r' /\ c1 = c2.
Proof. intros [F HF] [F' HF']. assert (X := HF (max F F') ltac:(lia)). rewrite HF' in X by lia. injection X; auto. Qed.

Definition inv_at (w n : Z) (c : lcache) : Prop :=
  Inv n (zlen (tT w n) - 1) (dbat (tD w n)) (tabL (tT w n)) (tabR (tT w n)) c [].
Definition ans (w n : Z) (a b : Z) := BR n (zlen (tT w n) - 1) (dbat (tD w n)) (tabL (tT w n)) (tabR (tT w n)) a b.

(** The outcome of any call from a state satisfying the invariant of a table at least as
    deep as the basis. *)
Lemma call_ok B w N M n c a b : basis_ok B w N M -> N <= n -> inv_at w n c -> 0 <= a -> 0 <= b ->
  exists r c', returns B c (a, b) r c' /\ inv_at w n c' /\
    (a = 0 \/ b = 0 -> r = None) /\
    (1 <= a <= M -> 1 <= b <= M -> dg n (dbat (tD w n)) a + dg n (dbat (tD w n)) b <= N -> r = Some (ans w n a b)) /\
    (1 <= a -> 1 <= b -> M < a \/ M < b \/ N < dg n (dbat (tD w n)) a + dg n (dbat (tD w n)) b -> r = Some []).
Proof.
  intros HB Hn Hc Ha Hb. assert (HH := bo_hall _ _ _ _ HB). assert (HN := hd_N _ _ _ _ _ _ HH). assert (Hw := hd_w _ _ _ _ _ _ HH).
  assert (H := tab_hall w n Hw ltac:(lia)). assert (SB := sub_tab B w N M n HB Hn).
  destruct (Z.eq_dec a 0) as [->|Ha0].
  { exists None, c. split; [|repeat split; auto; lia]. exists 1%nat. intros [|f] Hf; [lia|]. reflexivity. }
  destruct (Z.eq_dec b 0) as [->|Hb0].
  { exists None, c. split; [|repeat split; auto; lia]. exists 1%nat. intros [|f] Hf; [lia|]. cbn [lmc_get]. replace ((a =? 0) || (0 =? 0)) with true by lia. reflexivity. }
  assert (HM := sub_M _ _ _ _ _ _ H _ _ _ SB).
  destruct (Z_le_gt_dec a M) as [HaM|HaM], (Z_le_gt_dec b M) as [HbM|HbM], (Z_le_gt_dec (dg n (dbat (tD w n)) a + dg n (dbat (tD w n)) b) N) as [Hd|Hd];
    try (exists (Some []), c; split; [|repeat split; auto; try lia]; exists 1%nat; intros [|f] Hf; [lia|]; apply (get_out _ _ _ _ _ _ H _ _ _ SB); lia).
  assert (V : valid n (zlen (tT w n) - 1) (dbat (tD w n)) a b) by (unfold valid; lia).
  set (F := S (Z.to_nat (mu n (zlen (tT w n) - 1) (dbat (tD w n)) a b))).
  assert (Hall' : forall fuel, (F <= fuel)%nat -> exists c', lmc_get fuel B c (a, b) = Ok (Some (ans w n a b), c') /\ inv_at w n c').
  { intros fuel Hf. apply (get_ok _ _ _ _ _ _ H _ _ _ SB fuel [] a b c); auto; [unfold F in Hf; assert (X := min_dg _ _ _ _ _ _ H a b V); lia|]. intros s []. }
  destruct (Hall' F ltac:(lia)) as (c' & E & Hc').
  exists (Some (ans w n a b)), c'. split; [|repeat split; auto; lia].
  exists F. intros fuel Hf. apply (lmc_get_mono F); auto.
Qed.

Lemma inv_empty w n : inv_at w n lc_empty.
Proof. intros a b. exact I. Qed.
Lemma reachable_inv w c : reachable w c -> exists n0, forall n, n0 <= n -> inv_at w n c.
Proof.
  induction 1 as [|B N c q r c' Hc IH HS H1 H2 HR].
  - exists 1. intros. apply inv_empty.
  - destruct IH as (n0 & IH). exists (Z.max n0 N). intros n Hn. destruct (standard_ok _ _ _ HS) as (M & HB & _).
    destruct q as [a b]. destruct (call_ok B w N M n c a b HB ltac:(lia) (IH n ltac:(lia)) H1 H2) as (r2 & c2 & R2 & I2 & _).
    destruct (returns_fun _ _ _ _ _ _ _ HR R2) as [_ ->]. auto.
Qed.

(** *** The statements *)
Theorem bracket_total w c B N q : reachable w c -> standard B w N -> 0 <= fst q -> 0 <= snd q -> exists r c', returns B c q r c'.
Proof.
  intros Hc HS H1 H2. destruct (reachable_inv w c Hc) as (n0 & Hn). destruct (standard_ok _ _ _ HS) as (M & HB & _). destruct q as [a b].
  destruct (call_ok B w N M (Z.max n0 N) c a b HB ltac:(lia) (Hn (Z.max n0 N) ltac:(lia)) H1 H2) as (r & c' & HR & _). eauto.
Qed.

Lemma answers w c B N M n a b r c' : (forall m, n <= m -> inv_at w m c) -> basis_ok B w N M -> 0 <= a -> 0 <= b -> returns B c (a, b) r c' ->
  forall m, n <= m -> N <= m -> (a = 0 \/ b = 0 -> r = None) /\
    (1 <= a <= M -> 1 <= b <= M -> dg m (dbat (tD w m)) a + dg m (dbat (tD w m)) b <= N -> r = Some (ans w m a b)) /\
    (1 <= a -> 1 <= b -> M < a \/ M < b \/ N < dg m (dbat (tD w m)) a + dg m (dbat (tD w m)) b -> r = Some []).
Proof.
  intros Hc HB Ha Hb HR m Hm HN. destruct (call_ok B w N M m c a b HB HN (Hc m Hm) Ha Hb) as (r2 & c2 & R2 & _ & X).
  destruct (returns_fun _ _ _ _ _ _ _ HR R2) as [-> _]. auto.
Qed.

(** The answer does not depend on the calls made before. *)
Theorem bracket_transparent w c1 c2 B N q r1 r2 c1' c2' : reachable w c1 -> reachable w c2 -> standard B w N -> 0 <= fst q -> 0 <= snd q ->
  returns B c1 q r1 c1' -> returns B c2 q r2 c2' -> r1 = r2.
Proof.
  intros Hc1 Hc2 HS H1 H2 R1 R2. destruct (reachable_inv w c1 Hc1) as (n1 & N1). destruct (reachable_inv w c2 Hc2) as (n2 & N2).
  destruct (standard_ok _ _ _ HS) as (M & HB & _). destruct q as [a b]. cbn [fst snd] in *. set (m := Z.max (Z.max n1 n2) N).
  destruct (answers _ _ _ _ _ _ _ _ _ _ N1 HB H1 H2 R1 m ltac:(lia) ltac:(lia)) as (A1 & A2 & A3).
  destruct (answers _ _ _ _ _ _ _ _ _ _ N2 HB H1 H2 R2 m ltac:(lia) ltac:(lia)) as (B1 & B2 & B3).
  destruct (Z.eq_dec a 0) as [Ha|Ha]; [rewrite A1, B1; auto|]. destruct (Z.eq_dec b 0) as [Hb|Hb]; [rewrite A1, B1; auto|].
  destruct (Z_le_gt_dec a M) as [HaM|HaM]; [|rewrite A3, B3; auto; lia].
  destruct (Z_le_gt_dec b M) as [HbM|HbM]; [|rewrite A3, B3; auto; lia].
  destruct (Z_le_gt_dec (dg m (dbat (tD w m)) a + dg m (dbat (tD w m)) b) N) as [Hd|Hd]; [rewrite A2, B2; auto; lia|rewrite A3, B3; auto; lia].
Qed.

Lemma tr_agree w n M0 db L R B N M : hall_data w n M0 db L R -> subbasis w n db L R B N M -> forall k, 1 <= k <= M ->
  tr L R k = tr (fun k => bat (lb_data B) (2 * k)) (fun k => bat (lb_data B) (2 * k + 1)) k.
Proof.
  intros H SB k Hk. assert (HB := sb_ok _ _ _ _ _ _ _ _ SB). assert (H' := bo_hall _ _ _ _ HB). assert (HN := sub_N _ _ _ _ _ _ _ _ SB).
  destruct (level_ex _ _ _ _ _ _ H' k Hk) as (d & Hd & Hkd).
  assert (Hp : 0 <= d) by lia. revert Hd k Hk Hkd. pattern d. apply Z_lt_induction; [|exact Hp]. clear d Hp.
  intros d IH Hd k Hk Hkd. assert (Hr := sb_rows _ _ _ _ _ _ _ _ SB k ltac:(lia)). unfold row in Hr. injection Hr as Hr1 Hr2.
  assert (Hkd' := Hkd). rewrite !(sb_db _ _ _ _ _ _ _ _ SB) in Hkd' by lia.
  destruct (Z.eq_dec d 1) as [->|Hd1].
  - apply (level_letter _ _ _ _ _ _ H) in Hkd'. rewrite (tr_letter _ _ _ _ _ _ H), (tr_letter _ _ _ _ _ _ H'); auto.
  - rewrite (tr_node _ _ _ _ _ _ H d), (tr_node _ _ _ _ _ _ H' d) by (auto; lia). rewrite <- Hr1, <- Hr2.
    destruct (lvl_node _ _ _ _ _ _ H' d k ltac:(lia) Hkd) as (a & A1 & A2 & A3 & A4 & _).
    f_equal; [apply (IH a)|apply (IH (d - a))]; auto; try lia; [apply (lpos _ _ _ _ _ _ H' a); auto; lia|apply (lpos _ _ _ _ _ _ H' (d - a)); auto; lia].
Qed.

Lemma dg_tree B w N M n k t : basis_ok B w N M -> N <= n -> decodes B k t ->
  1 <= k <= M /\ dg n (dbat (tD w n)) k = tdeg t /\ t = tr (tabL (tT w n)) (tabR (tT w n)) k.
Proof.
  intros HB Hn D. destruct (key_tree _ _ _ _ HB _ _ D) as [Hk Et]. assert (HH := bo_hall _ _ _ _ HB). assert (HN := hd_N _ _ _ _ _ _ HH). assert (Hw := hd_w _ _ _ _ _ _ HH).
  assert (H := tab_hall w n Hw ltac:(lia)). assert (SB := sub_tab B w N M n HB Hn). assert (HM := sub_M _ _ _ _ _ _ H _ _ _ SB).
  rewrite (tr_agree _ _ _ _ _ _ _ _ _ H SB k Hk). rewrite <- Et. repeat split; auto; try lia.
  destruct (dg_level _ _ _ _ _ _ H k ltac:(lia)) as [D1 D2]. rewrite Et, <- (tr_agree _ _ _ _ _ _ _ _ _ H SB k Hk).
  symmetry. apply (tr_deg _ _ _ _ _ _ H); auto.
Qed.

(** The bracket of two keys whose degrees fit: a combination of keys of the degree sum,
    without repeated keys or zero coefficients, equal to the commutator. *)
Theorem bracket_correct w c B N a b s t r c' : reachable w c -> standard B w N -> decodes B a s -> decodes B b t ->
  tdeg s + tdeg t <= N -> returns B c (a, b) r c' ->
  exists e l, r = Some e /\ StronglySorted Z.lt (map fst e) /\
    Forall2 (fun p q => decodes B (fst p) (fst q) /\ snd p = snd q /\ snd p <> 0 /\ tdeg (fst q) = tdeg s + tdeg t) e l /\
    forall K : cring, teq (tlin K l) (comm (texpand K s) (texpand K t)).
Proof.
  intros Hc HS Da Db Hdeg HR. destruct (reachable_inv w c Hc) as (n0 & Hn). destruct (standard_ok _ _ _ HS) as (M & HB & _).
  set (n := Z.max n0 N). assert (HH := bo_hall _ _ _ _ HB). assert (HN := hd_N _ _ _ _ _ _ HH). assert (Hw := hd_w _ _ _ _ _ _ HH).
  assert (H := tab_hall w n Hw ltac:(lia)). assert (SB := sub_tab B w N M n HB ltac:(lia)). assert (HM := sub_M _ _ _ _ _ _ H _ _ _ SB).
  destruct (dg_tree _ _ _ _ n _ _ HB ltac:(lia) Da) as (Ha & Ga & Ta). destruct (dg_tree _ _ _ _ n _ _ HB ltac:(lia) Db) as (Hb & Gb & Tb).
  destruct (answers w c B N M n0 a b r c' Hn HB ltac:(lia) ltac:(lia) HR n ltac:(lia) ltac:(lia)) as (_ & A2 & _).
  assert (V : valid n (zlen (tT w n) - 1) (dbat (tD w n)) a b) by (unfold valid; rewrite Ga, Gb; lia).
  exists (ans w n a b), (map (fun p => (tr (tabL (tT w n)) (tabR (tT w n)) (fst p), snd p)) (ans w n a b)).
  split; [apply A2; auto; lia|]. destruct (brk_vok (zlen (tT w n) - 1) (tabL (tT w n)) (tabR (tT w n)) (S (Z.to_nat (mu n (zlen (tT w n) - 1) (dbat (tD w n)) a b))) a b) as [Q1 Q2].
  split; [exact Q1|]. split.
  - assert (Hkeys := BR_keys _ _ _ _ _ _ H a b V). fold (ans w n a b) in Hkeys.
    assert (Q3 : forall p, In p (ans w n a b) -> snd p <> 0) by exact Q2.
    clear A2 HR Q1 Q2. induction (ans w n a b) as [|p e IH]; constructor; [|apply IH; intros; [apply Hkeys|apply Q3]; right; auto].
    cbn [fst snd]. destruct (Hkeys p (or_introl eq_refl)) as [K1 K2].
    assert (HpM : fst p <= M) by (apply (sub_key _ _ _ _ _ _ H _ _ _ SB); auto; lia).
    assert (Dp : decodes B (fst p) (tr (tabL (tT w n)) (tabR (tT w n)) (fst p))).
    { rewrite (tr_agree _ _ _ _ _ _ _ _ _ H SB) by lia. apply (tr_decodes _ _ _ _ HB). lia. }
    repeat split; auto; [apply Q3; left; auto|]. destruct (dg_tree _ _ _ _ n _ _ HB ltac:(lia) Dp) as (_ & G & _). lia.
  - intros K u. rewrite Ta, Tb. transitivity (lin (tabL (tT w n)) (tabR (tT w n)) K (ans w n a b) u).
    + unfold tlin, lin. rewrite sum_map. reflexivity.
    + apply (BR_comm _ _ _ _ _ _ H K a b V u).
Qed.

(** Too deep for the basis, or not a key of it: zero.  A zero key: an error. *)
Theorem bracket_outside w c B N a b r c' : reachable w c -> standard B w N -> 1 <= a -> 1 <= b -> returns B c (a, b) r c' ->
  (forall s t, decodes B a s -> decodes B b t -> N < tdeg s + tdeg t) -> r = Some [].
Proof.
  intros Hc HS Ha Hb HR Hout. destruct (reachable_inv w c Hc) as (n0 & Hn). destruct (standard_ok _ _ _ HS) as (M & HB & _).
  set (n := Z.max n0 N).
  destruct (answers w c B N M n0 a b r c' Hn HB ltac:(lia) ltac:(lia) HR n ltac:(lia) ltac:(lia)) as (_ & _ & A3). apply A3; auto.
  destruct (Z_le_gt_dec a M) as [HaM|HaM]; [|lia]. destruct (Z_le_gt_dec b M) as [HbM|HbM]; [|lia]. right. right.
  assert (Da := tr_decodes _ _ _ _ HB a ltac:(lia)). assert (Db := tr_decodes _ _ _ _ HB b ltac:(lia)). assert (X := Hout _ _ Da Db).
  destruct (dg_tree _ _ _ _ n _ _ HB ltac:(lia) Da) as (_ & G & _). destruct (dg_tree _ _ _ _ n _ _ HB ltac:(lia) Db) as (_ & G' & _). lia.
Qed.
Theorem bracket_zero w c B N a b r c' : reachable w c -> standard B w N -> 0 <= a -> 0 <= b -> a = 0 \/ b = 0 -> returns B c (a, b) r c' -> r = None /\ c' = c.
Proof.
  intros _ _ Ha Hb H0 HR. destruct HR as [F HF]. assert (X := HF (S F) ltac:(lia)). cbn [lmc_get] in X.
  replace ((a =? 0) || (b =? 0)) with true in X by lia. injection X; auto.
Qed.
(** Swapping the arguments negates the coefficients, whatever was asked before. *)
Theorem bracket_antisym w c1 c2 B N a b e r c1' c2' : reachable w c1 -> reachable w c2 -> standard B w N -> 0 <= a -> 0 <= b ->
  returns B c1 (a, b) (Some e) c1' -> returns B c2 (b, a) r c2' -> r = Some (map (fun p => (fst p, - snd p)) e).
Proof.
  intros Hc1 Hc2 HS H1 H2 R1 R2. destruct (reachable_inv w c1 Hc1) as (n1 & N1). destruct (reachable_inv w c2 Hc2) as (n2 & N2).
  destruct (standard_ok _ _ _ HS) as (M & HB & _). cbn [fst snd] in *. set (m := Z.max (Z.max n1 n2) N).
  destruct (answers _ _ _ _ _ _ _ _ _ _ N1 HB H1 H2 R1 m ltac:(lia) ltac:(lia)) as (A1 & A2 & A3).
  destruct (answers _ _ _ _ _ _ _ _ _ _ N2 HB H2 H1 R2 m ltac:(lia) ltac:(lia)) as (B1 & B2 & B3).
  destruct (Z.eq_dec a 0) as [Ha|Ha]; [discriminate A1; auto|]. destruct (Z.eq_dec b 0) as [Hb|Hb]; [discriminate A1; auto|].
  assert (Out : M < a \/ M < b \/ N < dg m (dbat (tD w m)) a + dg m (dbat (tD w m)) b -> r = Some (map (fun p => (fst p, - snd p)) e)).
  { intros Hout. assert (X := A3 ltac:(lia) ltac:(lia) Hout). injection X as ->. apply B3; lia. }
  destruct (Z_le_gt_dec a M) as [HaM|HaM]; [|apply Out; lia].
  destruct (Z_le_gt_dec b M) as [HbM|HbM]; [|apply Out; lia].
  destruct (Z_le_gt_dec (dg m (dbat (tD w m)) a + dg m (dbat (tD w m)) b) N) as [Hd|Hd]; [|apply Out; lia].
  rewrite B2 by lia. assert (X := A2 ltac:(lia) ltac:(lia) Hd). injection X as ->. unfold ans. rewrite (BR_swap _ _ _ _ _ a b). reflexivity.
Qed.
(** Bases of different depths give the same answer when both are deep enough. *)
Theorem bracket_depth_indep w c1 c2 B1 B2 N1 N2 a b s t r1 r2 c1' c2' : reachable w c1 -> reachable w c2 ->
  standard B1 w N1 -> standard B2 w N2 -> decodes B1 a s -> decodes B1 b t -> tdeg s + tdeg t <= N1 -> tdeg s + tdeg t <= N2 ->
  returns B1 c1 (a, b) r1 c1' -> returns B2 c2 (a, b) r2 c2' -> r1 = r2.
Proof.
  intros Hc1 Hc2 HS1 HS2 Da Db Hd1 Hd2 R1 R2. destruct (reachable_inv w c1 Hc1) as (n1 & I1). destruct (reachable_inv w c2 Hc2) as (n2 & I2).
  destruct (standard_ok _ _ _ HS1) as (M1 & HB1 & _). destruct (standard_ok _ _ _ HS2) as (M2 & HB2 & _).
  set (n := Z.max (Z.max n1 n2) (Z.max N1 N2)).
  assert (HH := bo_hall _ _ _ _ HB1). assert (HN := hd_N _ _ _ _ _ _ HH). assert (Hw := hd_w _ _ _ _ _ _ HH).
  assert (H := tab_hall w n Hw ltac:(lia)). assert (SB1 := sub_tab B1 w N1 M1 n HB1 ltac:(lia)). assert (SB2 := sub_tab B2 w N2 M2 n HB2 ltac:(lia)).
  assert (HM := sub_M _ _ _ _ _ _ H _ _ _ SB1).
  destruct (dg_tree _ _ _ _ n _ _ HB1 ltac:(lia) Da) as (Ha & Ga & Ta). destruct (dg_tree _ _ _ _ n _ _ HB1 ltac:(lia) Db) as (Hb & Gb & Tb).
  assert (P1 := proj1 (dg_level _ _ _ _ _ _ H a ltac:(lia))). assert (P2 := proj1 (dg_level _ _ _ _ _ _ H b ltac:(lia))).
  assert (Ha2 : a <= M2) by (apply (sub_key _ _ _ _ _ _ H _ _ _ SB2); lia).
  assert (Hb2 : b <= M2) by (apply (sub_key _ _ _ _ _ _ H _ _ _ SB2); lia).
  destruct (answers w c1 B1 N1 M1 n1 a b r1 c1' I1 HB1 ltac:(lia) ltac:(lia) R1 n ltac:(lia) ltac:(lia)) as (_ & A2 & _).
  destruct (answers w c2 B2 N2 M2 n2 a b r2 c2' I2 HB2 ltac:(lia) ltac:(lia) R2 n ltac:(lia) ltac:(lia)) as (_ & B2' & _).
  rewrite A2, B2' by lia. reflexivity.
Qed.

(** *** Witnesses *)
Definition zbuf (l : list Z) : buf Z := mkbuf (Z.of_nat (length l)) (fun i => nth (Z.to_nat i) l 0).
(** Width 3, depth 3, with [1,[2,3]] in the basis instead of [2,[1,3]]. *)
Definition custom_db : buf Z := zbuf [0; 1; 4; 7; 15].
Definition custom_data : buf Z := zbuf [0;0; 0;1; 0;2; 0;3; 1;2; 1;3; 2;3; 1;4; 1;5; 1;6; 2;4; 2;6; 3;4; 3;5; 3;6].
Definition ans_of (r : outcome (option (list (Z * Z)) * lcache)) : option (list (Z * Z)) := match r with Ok (r, _) => r | _ => None end.
Definition then_get (r : outcome (option (list (Z * Z)) * lcache)) (fuel : nat) (B : lie_basis) (q : Z * Z) : option (list (Z * Z)) :=
  match r with Ok (_, c) => ans_of (lmc_get fuel B c q) | _ => None end.

Lemma returns_computed fuel B c q r c' : lmc_get fuel B c q = Ok (r, c') -> returns B c q r c'.
Proof. intros E. exists fuel. intros f Hf. apply (lmc_get_mono fuel); auto. Qed.
Lemma ans_returns fuel B c q e : ans_of (lmc_get fuel B c q) = Some e -> exists c', returns B c q (Some e) c'.
Proof.
  destruct (lmc_get fuel B c q) as [[r c']| | |] eqn:E; cbn [ans_of]; try discriminate. intros ->. exists c'. apply (returns_computed fuel); auto.
Qed.

Lemma ex_brackets : exists B, standard B 2 5 /\
  (exists c', returns B lc_empty (3, 4) (Some [(13, 1)]) c') /\ (exists c', returns B lc_empty (1, 5) (Some [(7, 1)]) c') /\
  (exists c', returns B lc_empty (1, 8) (Some [(11, 1); (14, 1)]) c') /\ (exists c', returns B lc_empty (8, 1) (Some [(11, -1); (14, -1)]) c').
Proof.
  assert (X : match construct_lie_basis junk0 junk0 2 5 with Ok B =>
      ans_of (lmc_get 100 B lc_empty (3, 4)) = Some [(13, 1)] /\ ans_of (lmc_get 100 B lc_empty (1, 5)) = Some [(7, 1)] /\
      ans_of (lmc_get 100 B lc_empty (1, 8)) = Some [(11, 1); (14, 1)] /\ ans_of (lmc_get 100 B lc_empty (8, 1)) = Some [(11, -1); (14, -1)]
    | _ => False end) by (vm_compute; repeat split).
  destruct (construct_lie_basis junk0 junk0 2 5) as [B| | |] eqn:E; [|destruct X..]. destruct X as (X1 & X2 & X3 & X4). exists B.
  split; [split; [change I64_MAX with 9223372036854775807; lia|exists junk0, junk0; exact E]|].
  split; [exact (ans_returns _ _ _ _ _ X1)|]. split; [exact (ans_returns _ _ _ _ _ X2)|]. split; [exact (ans_returns _ _ _ _ _ X3)|exact (ans_returns _ _ _ _ _ X4)].
Qed.

(** Two accepted bases of width 3; the second one asked about [2,[1,2]] after the first. *)
Lemma conflict_run : match construct_lie_basis junk0 junk0 3 3 with
  | Ok B => match lie_basis_of_data 3 3 15 custom_db custom_data with
    | Ok C =>
      match lmc_get 100 B lc_empty (2, 4) with
      | Ok (r, c) => r = Some [(9, 1)] /\ ans_of (lmc_get 100 C lc_empty (2, 4)) = Some [(10, 1)] /\
          ans_of (lmc_get 100 C c (2, 4)) = Some [(9, 1)] /\
          get_parents C 10 = Ok (2, 4) /\ get_parents C 9 = Ok (1, 6) /\ get_parents C 6 = Ok (2, 3)
      | _ => False end
    | _ => False end
  | _ => False end.
Proof. vm_compute. repeat split. Qed.
Lemma custom_conflict : exists B1 B2 q c1 c2 c3,
  standard B1 3 3 /\ lie_basis_of_data 3 3 15 custom_db custom_data = Ok B2 /\
  returns B1 lc_empty q (Some [(9, 1)]) c1 /\
  returns B2 lc_empty q (Some [(10, 1)]) c2 /\ returns B2 c1 q (Some [(9, 1)]) c3 /\
  get_parents B2 10 = Ok q /\ get_parents B2 9 = Ok (1, 6) /\ get_parents B2 6 = Ok (2, 3).
Proof.
  assert (X := conflict_run).
  assert (Y : forall o1 o2, match o1 with
  | Ok B => match o2 with
    | Ok C =>
      match lmc_get 100 B lc_empty (2, 4) with
      | Ok (r, c) => r = Some [(9, 1)] /\ ans_of (lmc_get 100 C lc_empty (2, 4)) = Some [(10, 1)] /\
          ans_of (lmc_get 100 C c (2, 4)) = Some [(9, 1)] /\
          get_parents C 10 = Ok (2, 4) /\ get_parents C 9 = Ok (1, 6) /\ get_parents C 6 = Ok (2, 3)
      | _ => False end
    | _ => False end
  | _ => False end -> exists B C c, o1 = Ok B /\ o2 = Ok C /\ lmc_get 100 B lc_empty (2, 4) = Ok (Some [(9, 1)], c) /\
     ans_of (lmc_get 100 C lc_empty (2, 4)) = Some [(10, 1)] /\ ans_of (lmc_get 100 C c (2, 4)) = Some [(9, 1)] /\
          get_parents C 10 = Ok (2, 4) /\ get_parents C 9 = Ok (1, 6) /\ get_parents C 6 = Ok (2, 3)).
  { intros [B| | |] [C| | |]; try (intros []; fail). destruct (lmc_get 100 B lc_empty (2, 4)) as [[r c]| | |] eqn:E1; [|intros []..].
    intros (-> & Hr). exists B, C, c. split; [reflexivity|]. split; [reflexivity|]. split; [exact E1|exact Hr]. }
  destruct (Y (construct_lie_basis junk0 junk0 3 3) (lie_basis_of_data 3 3 15 custom_db custom_data) X) as (B & C & c1 & E & EC & E1 & X2 & X3 & X4 & X5 & X6). clear X Y.
  destruct (ans_returns _ _ _ _ _ X2) as (c2 & R2). destruct (ans_returns _ _ _ _ _ X3) as (c3 & R3).
  exists B, C, (2, 4), c1, c2, c3. split; [split; [change I64_MAX with 9223372036854775807; lia|exists junk0, junk0; exact E]|].
  split; [exact EC|]. split; [exact (returns_computed _ _ _ _ _ _ E1)|]. repeat (split; [eassumption|]). eassumption.
Qed.
