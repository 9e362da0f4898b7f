(** Forms of the Hall set results used in the property file. *)
From Coq Require Import ZArith List Bool Lia ZifyBool Arith.
Import ListNotations.
From Verif Require Import Outcome Mem Mobius HssModel HssProofs HallModel HallSpec HallTab HallDim HallProofs HallLookup HallLemmas KeyModel KeyProofs KeyProofs2 HsModel HsProofs.
Open Scope Z_scope.

(** The key the Hall set uses for element [k] of the Lie basis: its degree, and its position in that degree. *)
Definition keyed (B : lie_basis) (k kk : Z) : Prop :=
  exists d lo, lb_degree B k = Ok d /\ bget (lb_db B) d = Ok lo /\ kk = mk_key d (k - lo).
(** Both constructed for the same width and depth, with every position and degree fitting its part of the key. *)
Definition both (w N : Z) (B : lie_basis) (H : hall_set) : Prop :=
  standard B w N /\ new_hall_set w N = Ok H /\ N <= 254 /\ w ^ N <= 2 ^ 56.

Lemma levs w N : 0 <= w /\ 1 <= N < 46339 * 46339 /\ N * w ^ N < I64_MAX -> N <= 254 /\ w ^ N <= 2 ^ 56 -> forall d, 1 <= d <= N ->
  dbat (snd (tab w (Z.to_nat (N - 1)))) (d + 1) - dbat (snd (tab w (Z.to_nat (N - 1)))) d <= 2 ^ 56.
Proof.
  intros Hf Hs d Hd. assert (HDD := HD w N ltac:(lia) ltac:(lia)). destruct (level_dim _ _ _ _ _ _ HDD Hf d Hd) as [_ X].
  destruct (Z.eq_dec w 0) as [->|]; [rewrite Z.pow_0_l in X by lia; lia|]. assert (w ^ d <= w ^ N) by (apply Z.pow_le_mono_r; lia). lia.
Qed.
Section B.
  Variables (w N M : Z) (B : lie_basis).
  Hypothesis Hf : 0 <= w /\ 1 <= N < 46339 * 46339 /\ N * w ^ N < I64_MAX.
  Hypothesis HB : basis_ok B w N M.
  Hypothesis Hs : N <= 254 /\ w ^ N <= 2 ^ 56.
  Notation dbt := (dbat (snd (tab w (Z.to_nat (N - 1))))).
  Lemma HMt : zlen (fst (tab w (Z.to_nat (N - 1)))) - 1 = M. Proof. rewrite <- (bo_M _ _ _ _ HB). lia. Qed.
  Lemma keyed_K k kk : 0 <= k <= M -> keyed B k kk <-> kk = K w N k.
  Proof.
    intros Hk. destruct (lv_ex w N ltac:(lia) ltac:(lia) k) as [A C]; [rewrite HMt; auto|].
    assert (E1 : lb_degree B k = Ok (lv w N k)). { apply (degree_ok _ _ _ _ HB); [auto|]. rewrite !(bo_dbs _ _ _ _ HB) by lia. auto. }
    assert (E2 : bget (lb_db B) (lv w N k) = Ok (dbt (lv w N k))). { rewrite bget_ok by (rewrite (bo_db _ _ _ _ HB); lia). rewrite (bo_dbs _ _ _ _ HB) by lia. auto. }
    unfold keyed, K. split.
    - intros (d & lo & D1 & D2 & ->). rewrite E1 in D1. injection D1 as <-. rewrite E2 in D2. injection D2 as <-. reflexivity.
    - intros ->. exists (lv w N k), (dbt (lv w N k)). auto.
  Qed.
  Lemma row_at k : 1 <= k <= M -> get_parents B k = Ok (HsProofs.row w N k).
  Proof.
    intros Hk. rewrite (HallLookup.parents_ok _ _ _ _ HB). replace ((k <=? 0) || (k >=? M + 1)) with false by lia. f_equal. unfold HallLookup.row, HsProofs.row.
    destruct (bo_rows _ _ _ _ HB k) as [-> ->]; [lia|]. reflexivity.
  Qed.
  Lemma parents_inv k p : get_parents B k = Ok p -> 1 <= k <= M /\ p = HsProofs.row w N k.
  Proof.
    intros E. assert (Hk : 1 <= k <= M). { rewrite (HallLookup.parents_ok _ _ _ _ HB) in E. destruct ((k <=? 0) || (k >=? M + 1)) eqn:Q; [discriminate|lia]. }
    split; [auto|]. rewrite row_at in E by auto. injection E as <-. reflexivity.
  Qed.
End B.

Lemma both_ok w N B H : both w N B H -> exists M, lb_size B = Ok M /\ (0 <= w /\ 1 <= N < 46339 * 46339 /\ N * w ^ N < I64_MAX) /\ basis_ok B w N M /\ hs_ok w N N H /\ (N <= 254 /\ w ^ N <= 2 ^ 56) /\ M < I64_MAX.
Proof.
  intros (HS & E & Hs). destruct (standard_ok _ _ _ HS) as (M & HB & HM). destruct HS as [Hf _]. exists M. split; [apply (size_ok _ _ _ _ HB)|].
  split; [auto|]. split; [auto|]. split; [|split; [auto|lia]].
  destruct (new_ok w N ltac:(lia) ltac:(lia) (levs w N Hf Hs) N ltac:(lia)) as (H' & E' & O). rewrite E in E'. injection E' as <-. replace (Z.max 1 N) with N in O by lia. exact O.
Qed.
Lemma both_ex w N : 0 <= w -> 1 <= N <= 254 -> N * w ^ N < I64_MAX -> w ^ N <= 2 ^ 56 -> exists B H, both w N B H.
Proof.
  intros Hw HN Hb Hp. destruct (construct_ok junk0 junk0 w N) as (B & M & E & HB & HM); [unfold fits; lia|].
  destruct (new_ok w N ltac:(lia) ltac:(lia) (levs w N ltac:(lia) ltac:(lia)) N ltac:(lia)) as (H' & E' & O).
  exists B, H'. split; [|split; [auto|lia]]. split; [lia|]. eauto.
Qed.

Ltac open_both HH := destruct (both_ok _ _ _ _ HH) as (M & ES & Hf & HB & HO & Hs & HM64); assert (EMt := HMt _ _ _ _ HB); assert (Hl := levs _ _ Hf Hs).

Lemma hs_keys w N B H : both w N B H -> exists M, lb_size B = Ok M /\
  (forall k, 0 <= k <= M -> exists kk, keyed B k kk) /\
  (forall k k' kk kk', 0 <= k <= M -> 0 <= k' <= M -> keyed B k kk -> keyed B k' kk' -> (kk = kk' <-> k = k') /\ (k_leb kk kk' = true <-> k <= k')).
Proof.
  intros HH. open_both HH. exists M. split; [auto|]. split.
  - intros k Hk. exists (K w N k). apply (keyed_K _ _ _ _ Hf HB Hs); auto.
  - intros k k' kk kk' Hk Hk' E E'. apply (keyed_K _ _ _ _ Hf HB Hs) in E, E'; auto. subst. split.
    + split; [|intros ->; auto]. apply K_inj; auto; lia.
    + rewrite K_le by (auto; lia). lia.
Qed.
Lemma hs_rows w N B H : both w N B H -> forall k a b kk ka kb, get_parents B k = Ok (a, b) -> keyed B k kk -> keyed B a ka -> keyed B b kb ->
  hs_parents H kk = Ok (ka, kb) /\ hs_find H (ka, kb) = Some kk /\ hs_key_at H (ka, kb) = kk /\ index_of_key H kk = Ok (k - 1) /\ key_of_index H (k - 1) = Ok kk.
Proof.
  intros HH k a b kk ka kb EP E1 E2 E3. open_both HH. destruct (parents_inv _ _ _ _ HB _ _ EP) as [Hk ER].
  destruct (row_range w N ltac:(lia) ltac:(lia) k) as [RL RR]; [lia|]. rewrite EMt in RL, RR. unfold HsProofs.row in ER. injection ER as EA EB.
  apply (keyed_K _ _ _ _ Hf HB Hs) in E1; [|lia]. apply (keyed_K _ _ _ _ Hf HB Hs) in E2; [|lia]. apply (keyed_K _ _ _ _ Hf HB Hs) in E3; [|lia].
  assert (EKP : (ka, kb) = kp w N (HsProofs.row w N k)). { unfold kp, HsProofs.row. cbn [fst snd]. congruence. }
  rewrite EKP, E1.
  assert (F : hs_find H (kp w N (HsProofs.row w N k)) = Some (K w N k)). { apply (find_at w N ltac:(lia) ltac:(lia) Hl H HO). exists k. split; [lia|auto]. }
  split; [apply (parents_at w N ltac:(lia) ltac:(lia) Hl H HO); lia|]. split; [auto|]. split; [unfold hs_key_at; rewrite F; auto|]. split.
  - apply (index_at w N ltac:(lia) ltac:(lia) Hl H HO); unfold I64_MAX in *; lia.
  - rewrite (key_at w N ltac:(lia) ltac:(lia) Hl H HO) by lia. rewrite EMt. replace (k - 1 <? M) with true by lia. do 2 f_equal. lia.
Qed.
Lemma hs_found w N B H : both w N B H -> forall p, 
  (forall kk, hs_find H p = Some kk -> exists k a b, get_parents B k = Ok (a, b) /\ keyed B k kk /\ keyed B a (fst p) /\ keyed B b (snd p)) /\
  (hs_find H p = None -> hs_key_at H p = mk_key 0 0).
Proof.
  intros HH p. open_both HH. split.
  - intros kk E. apply (find_at w N ltac:(lia) ltac:(lia) Hl H HO) in E. destruct E as (k & Hk & -> & ->). rewrite EMt in Hk.
    destruct (row_range w N ltac:(lia) ltac:(lia) k) as [RL RR]; [lia|]. rewrite EMt in RL, RR.
    eexists k, _, _. split; [apply (row_at _ _ _ _ HB); auto|]. split; [|split]; apply (keyed_K _ _ _ _ Hf HB Hs); auto. lia.
  - unfold hs_key_at. intros ->. reflexivity.
Qed.
Lemma hs_past w N B H : both w N B H -> exists M, lb_size B = Ok M /\ forall i, M <= i -> key_of_index H i = Ok (mk_key 0 0).
Proof.
  intros HH. open_both HH. exists M. split; [auto|]. intros i Hi. assert (X := Mp w N ltac:(lia) ltac:(lia)). rewrite (key_at w N ltac:(lia) ltac:(lia) Hl H HO) by lia. rewrite EMt. replace (i <? M) with false by lia. reflexivity.
Qed.
Lemma hs_sizes_ok w N B H : both w N B H -> exists M, lb_size B = Ok M /\
  (forall d lo hi, 0 <= d <= N -> bget (lb_db B) d = Ok lo -> bget (lb_db B) (d + 1) = Ok hi -> hs_size_of_degree H d = Ok (hi - lo) /\ hs_size H d = Ok (hi - 1)) /\
  hs_size H N = Ok M /\ hs_size H (-1) = Ok M /\ (forall d, N < d -> hs_size H d = Ok M) /\
  (forall d, - (N + 1) <= d < 0 -> hs_size H d = hs_size H (N + 1 + d)) /\ (forall d, d < - (N + 1) -> hs_size H d = Ok M).
Proof.
  intros HH. open_both HH. exists M. split; [auto|].
  assert (ET : dbat (snd (tab w (Z.to_nat (N - 1)))) (N + 1) = M + 1). { rewrite (dbtop w N ltac:(lia) ltac:(lia)). lia. }
  assert (HZ := size_at w N ltac:(lia) ltac:(lia) H HO). rewrite EMt in HZ.
  split; [|split; [|split; [|split; [|split]]]].
  - intros d lo hi Hd E1 E2. rewrite bget_ok in E1 by (rewrite (bo_db _ _ _ _ HB); lia). rewrite bget_ok in E2 by (rewrite (bo_db _ _ _ _ HB); lia).
    rewrite (bo_dbs _ _ _ _ HB) in E1 by lia. rewrite (bo_dbs _ _ _ _ HB) in E2 by lia. injection E1 as <-. injection E2 as <-.
    split; [apply (degree_size w N ltac:(lia) H HO); auto|]. rewrite HZ. replace ((0 <=? d) && (d <=? N)) with true by lia. reflexivity.
  - rewrite HZ. replace ((0 <=? N) && (N <=? N)) with true by lia. rewrite ET. f_equal. lia.
  - rewrite HZ. cbn [Z.leb andb Z.compare]. change (-1 <? 0) with true. replace (- (N + 1) <=? -1) with true by lia. cbn [andb]. replace (N + 2 + -1) with (N + 1) by lia. rewrite ET. f_equal. lia.
  - intros d Hd. rewrite HZ. replace ((0 <=? d) && (d <=? N)) with false by lia. replace ((d <? 0) && (- (N + 1) <=? d)) with false by lia. reflexivity.
  - intros d Hd. rewrite !HZ. replace ((0 <=? d) && (d <=? N)) with false by lia. replace ((d <? 0) && (- (N + 1) <=? d)) with true by lia. replace ((0 <=? N + 1 + d) && (N + 1 + d <=? N)) with true by lia. do 3 f_equal. lia.
  - intros d Hd. rewrite HZ. replace ((0 <=? d) && (d <=? N)) with false by lia. replace ((d <? 0) && (- (N + 1) <=? d)) with false by lia. reflexivity.
Qed.

(** With two letters or more every degree has an element: brackets [1,[1,...[1,2]]]. *)
Lemma level_ne w N : 2 <= w -> 1 <= N < 2 ^ 8 -> forall d, 1 <= d <= N -> dbat (snd (tab w (Z.to_nat (N - 1)))) d < dbat (snd (tab w (Z.to_nat (N - 1)))) (d + 1).
Proof.
  intros Hw HN. assert (HDD := HD w N ltac:(lia) HN). set (db := dbat (snd (tab w (Z.to_nat (N - 1))))) in *.
  assert (B1 := hd_1 _ _ _ _ _ _ HDD). assert (B2 := hd_2 _ _ _ _ _ _ HDD).
  assert (G : forall n, Z.of_nat n + 1 <= N -> exists j, db (Z.of_nat n + 1) <= j < db (Z.of_nat n + 1 + 1) /\ tabL (fst (tab w (Z.to_nat (N - 1)))) j <= 1 /\ 1 < j).
  { induction n as [|n IH]; intros Hn.
    - exists 2. change (Z.of_nat 0 + 1) with 1. change (1 + 1) with 2. destruct (hd_let _ _ _ _ _ _ HDD 2 ltac:(lia)) as [X _]. change (tabL (fst (tab w (Z.to_nat (N - 1)))) 2 = 0) in X. lia.
    - destruct (IH ltac:(lia)) as (j & Hj & HL & Hj1). destruct (hd_all _ _ _ _ _ _ HDD 1 (Z.of_nat n + 1) 1 j) as (k & Hk & EL & ER); try lia. { change (1 + 1) with 2. lia. }
      exists k. replace (Z.of_nat (S n) + 1) with (1 + (Z.of_nat n + 1)) by lia. split; [auto|]. split; [change (tabL (fst (tab w (Z.to_nat (N - 1)))) k = 1) in EL; lia|].
      assert (X := db_mono _ _ _ _ _ _ HDD 2 (1 + (Z.of_nat n + 1)) ltac:(lia) ltac:(lia) ltac:(lia)). lia. }
  intros d Hd. destruct (G (Z.to_nat (d - 1))) as (j & Hj & _); [lia|]. replace (Z.of_nat (Z.to_nat (d - 1)) + 1) with d in Hj by lia. lia.
Qed.
Lemma hs_next w N B H : both w N B H -> 2 <= w -> exists M, lb_size B = Ok M /\
  (forall k kk kk', 1 <= k < M -> keyed B k kk -> keyed B (k + 1) kk' -> hs_advance H kk = Ok kk') /\
  (forall kk, keyed B M kk -> hs_advance H kk = Ok (mk_key (N + 1) 0)).
Proof.
  intros HH Hw. open_both HH. exists M. split; [auto|]. set (db := dbat (snd (tab w (Z.to_nat (N - 1))))) in *.
  assert (HMw : w <= M) by (rewrite <- EMt; apply w_M; lia).
  assert (ET : db (N + 1) = M + 1). { unfold db. rewrite (dbtop w N ltac:(lia) ltac:(lia)). lia. }
  split.
  - intros k kk kk' Hk E E'. apply (keyed_K _ _ _ _ Hf HB Hs) in E, E'; try lia. subst kk kk'.
    rewrite (advance_at w N ltac:(lia) ltac:(lia) Hl H HO) by lia. destruct (lv_ex w N ltac:(lia) ltac:(lia) k) as [A C]; [lia|]. fold db in C |- *.
    destruct (Z.ltb_spec (k + 1) (db (lv w N k + 1))); [auto|]. assert (lv w N k <> N) by (intros Q; rewrite Q in *; lia).
    rewrite (K_level w N ltac:(lia) ltac:(lia) (lv w N k + 1) (k + 1)); [fold db; do 2 f_equal; lia|lia|]. fold db. assert (X := level_ne w N ltac:(lia) ltac:(lia) (lv w N k + 1) ltac:(lia)). fold db in X. lia.
  - intros kk E. apply (keyed_K _ _ _ _ Hf HB Hs) in E; try lia. subst kk. rewrite (advance_at w N ltac:(lia) ltac:(lia) Hl H HO) by lia. fold db.
    assert (X := level_ne w N ltac:(lia) ltac:(lia) N ltac:(lia)). fold db in X. rewrite (lv_level w N ltac:(lia) ltac:(lia) N M) by (fold db; lia). rewrite ET. replace (M + 1 <? M + 1) with false by lia. reflexivity.
Qed.
(** Growing in steps gives the set built in one go. *)
Lemma grow_steps w N : 0 <= w -> 1 <= N <= 254 -> N * w ^ N < I64_MAX -> w ^ N <= 2 ^ 56 -> forall d0 ds, d0 <= N -> (forall d, In d ds -> d <= N) ->
  (let! H := new_hall_set w d0 in for_ ds H (fun d H => grow_up H d)) = new_hall_set w (fold_left Z.max ds d0).
Proof.
  intros Hw HN Hb Hp d0 ds H0 Hds. assert (Hl := levs w N ltac:(lia) ltac:(lia)).
  destruct (new_ok w N ltac:(lia) ltac:(lia) Hl d0 H0) as (H & -> & O). cbn [bind].
  assert (G : forall ds d0 H, d0 <= N -> (forall d, In d ds -> d <= N) -> hs_ok w N (Z.max 1 d0) H -> for_ ds H (fun d H => grow_up H d) = new_hall_set w (fold_left Z.max ds d0)).
  { clear H0 Hds O H ds d0. induction ds as [|d ds IH]; intros d0 H H0 Hds O; cbn [for_ fold_left].
    - destruct (new_ok w N ltac:(lia) ltac:(lia) Hl d0 H0) as (H' & -> & O'). f_equal. apply (hs_ok_unique w N (Z.max 1 d0)); auto.
    - destruct (grow_up_ok w N ltac:(lia) ltac:(lia) Hl (Z.max 1 d0) d H) as (H' & -> & O'); auto; [lia|apply Hds; left; auto|]. cbn [bind]. apply IH.
      + assert (X := Hds d (or_introl eq_refl)). lia. + intros; apply Hds; right; auto. + replace (Z.max 1 (Z.max d0 d)) with (Z.max (Z.max 1 d0) d) by lia. auto. }
  apply G; auto.
Qed.
Lemma copy_broken H junk deg : forall d, hs_size (hs_copy junk H deg) d = UB /\ hs_size_of_degree (hs_copy junk H deg) d = UB /\ (forall k, hs_parents (hs_copy junk H deg) k = UB).
Proof.
  intros d. assert (V : forall i A, vget (@nil A) i = UB) by (intros; apply vget_out; unfold vlen; cbn [length]; lia).
  unfold hs_size, hs_size_of_degree, hs_parents, hs_copy. cbn [hs_sizes hs_ranges]. unfold vlen. cbn [length Z.of_nat]. rewrite !V. cbn [bind].
  split; [repeat match goal with |- context [if ?b then _ else _] => destruct b end; auto|]. split; [auto|]. intros k. rewrite ?V. reflexivity.
Qed.

(** ** The extension of a map on letters *)
Fixpoint tfold {A} (func : Z -> A) (binop : A -> A -> A) (t : tree) : A :=
  match t with Leaf l => func l | Node s t => binop (tfold func binop s) (tfold func binop t) end.
(** Caches that can arise: empty, or left by an earlier call on an element. *)
Inductive cache_of {A} (B : lie_basis) (H : hall_set) (func : Z -> A) (binop : A -> A -> A) : list (Z * A) -> Prop :=
| co_empty : cache_of B H func binop []
| co_call c fuel k t kk v c' : cache_of B H func binop c -> decodes B k t -> keyed B k kk -> extend fuel H func binop kk c = Ok (v, c') -> cache_of B H func binop c'.
Section Ext.
  Context {A : Type}.
  Variables (w N : Z) (B : lie_basis) (H : hall_set) (func : Z -> A) (binop : A -> A -> A).
  Hypothesis HH : both w N B H.
  Definition cgood (c : list (Z * A)) : Prop := forall kk v, c_find c kk = Some v -> exists k t, decodes B k t /\ keyed B k kk /\ v = tfold func binop t.
  Lemma dec_range k t M : basis_ok B w N M -> decodes B k t -> 1 <= k <= M.
  Proof. intros HB D. inversion D as [? ? E|? ? ? ? ? E]; destruct (parents_inv _ _ _ _ HB _ _ E); auto. Qed.
  Lemma dec_fun k t t' : decodes B k t -> decodes B k t' -> t = t'.
  Proof.
    open_both HH. apply decodes_fun. intros l. rewrite (HallLookup.parents_ok _ _ _ _ HB). discriminate.
  Qed.
  Lemma cgood_cons c k t kk : decodes B k t -> keyed B k kk -> cgood c -> cgood ((kk, tfold func binop t) :: c).
  Proof.
    intros D E G q v. cbn [c_find]. unfold k_eqb. destruct (Z.eqb_spec kk q) as [->|]; [|apply G]. intros Q. injection Q as <-. eauto.
  Qed.
  Lemma extend_ok t : forall k kk c, decodes B k t -> keyed B k kk -> cgood c ->
    exists f0, forall fuel, (f0 <= fuel)%nat -> exists c', extend fuel H func binop kk c = Ok (tfold func binop t, c') /\ cgood c'.
  Proof.
    open_both HH.
    assert (HIT : forall t k kk c v, decodes B k t -> keyed B k kk -> cgood c -> c_find c kk = Some v -> v = tfold func binop t).
    { intros t' k kk c v D E G F. destruct (G _ _ F) as (k' & t'' & D' & E' & ->). assert (k = k').
      { assert (X := dec_range _ _ _ HB D). assert (X' := dec_range _ _ _ HB D'). apply (keyed_K _ _ _ _ Hf HB Hs) in E, E'; try lia. rewrite E in E'. apply (K_inj w N) in E'; auto; lia. }
      subst k'. f_equal. eapply dec_fun; eauto. }
    induction t as [l|s IHs t IHt]; intros k kk c D E G.
    - exists 1%nat. intros [|fuel] Hfu; [lia|]. cbn [extend]. destruct (c_find c kk) as [v|] eqn:F; [exists c; split; [|auto]; do 2 f_equal; eapply HIT; eauto|].
      assert (Hk := dec_range _ _ _ HB D). inversion D as [? ? EP|]; subst. destruct (parents_inv _ _ _ _ HB _ _ EP) as [_ ER]. unfold HsProofs.row in ER. injection ER as EL0 ER.
      assert (HDD := HD w N ltac:(lia) ltac:(lia)).
      assert (Hk1 : 1 <= k <= w). { destruct (level_ex _ _ _ _ _ _ HDD k) as (d & Hd & Hkd); [lia|]. destruct (Z.eq_dec d 1) as [->|]; [apply (level_letter _ _ _ _ _ _ HDD); auto|].
        destruct (hd_node _ _ _ _ _ _ HDD d k ltac:(lia) Hkd) as (a & A1 & A2 & A3 & _). assert (Q := level_pos _ _ _ _ _ _ HDD a _ ltac:(lia) A3). lia. }
      assert (El : l = k). { destruct (hd_let _ _ _ _ _ _ HDD k Hk1) as [_ X]. rewrite ER. exact X. } subst l.
      assert (Elv : lv w N k = 1). { apply lv_level; try lia. change (1 + 1) with 2. rewrite (db1 w N ltac:(lia) ltac:(lia)). assert (X := hd_2 _ _ _ _ _ _ HDD). cbv zeta beta in *. lia. }
      assert (Ekk := E). apply (keyed_K _ _ _ _ Hf HB Hs) in Ekk; [|lia]. destruct (K_read w N ltac:(lia) ltac:(lia) Hl k ltac:(lia)) as [Q1 Q2]. rewrite Elv in Q1, Q2. rewrite (db1 w N ltac:(lia) ltac:(lia)) in Q2.
      rewrite Ekk, Q1, Q2. cbn [Z.eqb Pos.eqb]. replace (k - 1 + 1) with k by lia. rewrite u64_small by (unfold I64_MAX in *; lia). rewrite <- Ekk. try rewrite El in D |- *.
      eexists. split; [reflexivity|]. apply (cgood_cons c k (Leaf k)); auto.
    - assert (Hk := dec_range _ _ _ HB D). inversion D as [|? a b ? ? EP Da Db]; subst.
      destruct (hs_keys _ _ _ _ HH) as (M' & ES' & KE & _). rewrite ES in ES'. injection ES' as <-.
      assert (Ha := dec_range _ _ _ HB Da). assert (Hb := dec_range _ _ _ HB Db).
      destruct (KE a ltac:(lia)) as (ka & Ka). destruct (KE b ltac:(lia)) as (kb & Kb).
      destruct (hs_rows _ _ _ _ HH k a b kk ka kb EP E Ka Kb) as (EHP & _).
      destruct (IHs a ka c Da Ka G) as (f1 & IH1).
      destruct (c_find c kk) as [v|] eqn:F.
      { exists 1%nat. intros [|fuel] Hfu; [lia|]. cbn [extend]. rewrite F. exists c. split; [|auto]. do 2 f_equal. eapply HIT; eauto. }
      assert (Hdeg : k_degree kk <> 1).
      { apply (keyed_K _ _ _ _ Hf HB Hs) in E; [|lia]. destruct (K_read w N ltac:(lia) ltac:(lia) Hl k ltac:(lia)) as [Q1 _]. rewrite E, Q1. intros Q.
        destruct (parents_inv _ _ _ _ HB _ _ EP) as [_ ER]. unfold HsProofs.row in ER. injection ER as EA EB. assert (HDD := HD w N ltac:(lia) ltac:(lia)).
        destruct (lv_ex w N ltac:(lia) ltac:(lia) k ltac:(lia)) as [_ X]. rewrite Q in X. apply (level_letter _ _ _ _ _ _ HDD) in X. destruct (hd_let _ _ _ _ _ _ HDD k X) as [Y _]. cbv zeta beta in Y. lia. }
      destruct (IH1 f1 ltac:(lia)) as (c1 & X1 & G1).
      assert (MONO : forall fuel fuel' q c0 r, (fuel <= fuel')%nat -> extend fuel H func binop q c0 = Ok r -> extend fuel' H func binop q c0 = Ok r).
      { clear. induction fuel as [|fuel IH]; intros fuel' q c0 r Hle; [discriminate|]. destruct fuel' as [|fuel']; [lia|]. cbn [extend]. destruct (c_find c0 q); [auto|].
        destruct (k_degree q =? 1); [auto|]. destruct (hs_parents H q) as [p| | |]; cbn [bind]; try discriminate.
        destruct (extend fuel H func binop (fst p) c0) as [(a, c1)| | |] eqn:E1; cbn [bind]; try discriminate. rewrite (IH fuel' _ _ _ ltac:(lia) E1). cbn [bind].
        destruct (extend fuel H func binop (snd p) c1) as [(b, c2)| | |] eqn:E2; cbn [bind]; try discriminate. rewrite (IH fuel' _ _ _ ltac:(lia) E2). auto. }
      destruct (IHt b kb c1 Db Kb G1) as (f2 & IH2). destruct (IH2 f2 ltac:(lia)) as (c2 & X2 & G2).
      exists (S (f1 + f2)). intros [|fuel] Hfu; [lia|]. cbn [extend]. rewrite F. destruct (Z.eqb_spec (k_degree kk) 1); [contradiction|]. rewrite EHP. cbn [bind fst snd].
      rewrite (MONO f1 fuel _ _ _ ltac:(lia) X1). cbn [bind]. rewrite (MONO f2 fuel _ _ _ ltac:(lia) X2). cbn [bind].
      eexists. split; [reflexivity|]. apply (cgood_cons c2 k (Node s t)); auto.
  Qed.
  Lemma extend_fun fuel q c r : forall fuel' r', extend fuel H func binop q c = Ok r -> extend fuel' H func binop q c = Ok r' -> r = r'.
  Proof.
    assert (MONO : forall fuel fuel' q c0 r, (fuel <= fuel')%nat -> extend fuel H func binop q c0 = Ok r -> extend fuel' H func binop q c0 = Ok r).
    { clear. induction fuel as [|fuel IH]; intros fuel' q c0 r Hle; [discriminate|]. destruct fuel' as [|fuel']; [lia|]. cbn [extend]. destruct (c_find c0 q); [auto|].
      destruct (k_degree q =? 1); [auto|]. destruct (hs_parents H q) as [p| | |]; cbn [bind]; try discriminate.
      destruct (extend fuel H func binop (fst p) c0) as [(a, c1)| | |] eqn:E1; cbn [bind]; try discriminate. rewrite (IH fuel' _ _ _ ltac:(lia) E1). cbn [bind].
      destruct (extend fuel H func binop (snd p) c1) as [(b, c2)| | |] eqn:E2; cbn [bind]; try discriminate. rewrite (IH fuel' _ _ _ ltac:(lia) E2). auto. }
    intros fuel' r' E E'. apply (MONO _ (fuel + fuel')%nat) in E; [|lia]. apply (MONO _ (fuel + fuel')%nat) in E'; [|lia]. congruence.
  Qed.
  Lemma cache_good c : cache_of B H func binop c -> cgood c.
  Proof.
    induction 1 as [|c fuel k t kk v c' HC IH D E X]; [intros q v; discriminate|].
    destruct (extend_ok t k kk c D E IH) as (f0 & F). destruct (F f0 ltac:(lia)) as (c2 & X2 & G). assert (Q := extend_fun _ _ _ _ _ _ X X2). injection Q as _ ->. auto.
  Qed.
End Ext.
Lemma extension w N B H {A} (func : Z -> A) binop : both w N B H -> forall c k t kk, cache_of B H func binop c -> decodes B k t -> keyed B k kk ->
  exists fuel0, forall fuel, (fuel0 <= fuel)%nat -> exists c', extend fuel H func binop kk c = Ok (tfold func binop t, c').
Proof.
  intros HH c k t kk HC D E. destruct (extend_ok w N B H func binop HH t k kk c D E (cache_good _ _ _ _ _ _ HH _ HC)) as (f0 & F). exists f0. intros fuel Hf. destruct (F fuel Hf) as (c' & X & _). eauto.
Qed.
