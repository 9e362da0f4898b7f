(** Forms of the Lie basis results used in the property file, and witnesses. *)
From Coq Require Import ZifyBool Sorted.
From Verif Require Import Outcome Alg Words Mem Mobius HallModel HallSpec HallTab HallCount HallDim HallProofs HallTrees HallLookup.
Local Open Scope Z_scope.

(** The bracketing a key stands for, read through the parents of keys. *)
Inductive decodes (B : lie_basis) : Z -> tree -> Prop :=
| dec_letter k l : get_parents B k = Ok (0, l) -> decodes B k (Leaf l)
| dec_node k a b s t : get_parents B k = Ok (a, b) -> decodes B a s -> decodes B b t -> decodes B k (Node s t).

Lemma tr_decodes B w N M (HB : basis_ok B w N M) k : 1 <= k <= M ->
  decodes B k (tr (fun k => bat (lb_data B) (2 * k)) (fun k => bat (lb_data B) (2 * k + 1)) k).
Proof.
  intros Hk. assert (H := bo_hall _ _ _ _ HB).
  destruct (level_ex _ _ _ _ _ _ H k Hk) as (d & Hd & Hkd).
  assert (Hp : 0 <= d) by lia. revert Hd k Hk Hkd. pattern d. apply Z_lt_induction; [|exact Hp]. clear d Hp.
  intros d IH Hd k Hk Hkd.
  assert (EP : get_parents B k = Ok (row B k)) by (rewrite (parents_ok _ _ _ _ HB); replace ((k <=? 0) || (k >=? M + 1)) with false by lia; reflexivity).
  destruct (Z.eq_dec d 1) as [->|Hd1].
  - apply (level_letter _ _ _ _ _ _ H) in Hkd. rewrite (tr_letter _ _ _ _ _ _ H) by auto. apply dec_letter. rewrite EP. unfold row.
    destruct (hd_let _ _ _ _ _ _ H k Hkd) as [E1 E2]. cbn beta in *. rewrite E1, E2. reflexivity.
  - destruct (lvl_node _ _ _ _ _ _ H d k ltac:(lia) Hkd) as (a & A1 & A2 & A3 & A4 & A5 & A6 & A7 & A8 & A9).
    rewrite (tr_node _ _ _ _ _ _ H d) by (auto; lia).
    apply (dec_node B k (bat (lb_data B) (2 * k)) (bat (lb_data B) (2 * k + 1))); [exact EP| |].
    + apply (IH a); auto; [lia|lia|]. apply (lpos _ _ _ _ _ _ H a); auto. lia.
    + apply (IH (d - a)); auto; [lia|lia|]. apply (lpos _ _ _ _ _ _ H (d - a)); auto. lia.
Qed.

Theorem hall_set junk1 junk2 w N : 0 <= w -> 1 <= N < 46339 * 46339 -> N * w ^ N < I64_MAX ->
  exists B M (tree_of : Z -> tree),
    construct_lie_basis junk1 junk2 w N = Ok B /\ lb_size B = Ok M /\
    (forall k, 1 <= k <= M -> decodes B k (tree_of k)) /\
    (forall k k', 1 <= k <= M -> 1 <= k' <= M -> (k < k' <-> tlt (tree_of k) (tree_of k'))) /\
    (forall t, Hall w t /\ tdeg t <= N <-> exists k, 1 <= k <= M /\ tree_of k = t) /\
    (forall d, 1 <= d <= N -> exists lo hi, bget (lb_db B) d = Ok lo /\ bget (lb_db B) (d + 1) = Ok hi /\
        forall k, 1 <= k <= M -> (tdeg (tree_of k) = d <-> lo <= k < hi)).
Proof.
  intros Hw HN Hb. destruct (construct_ok junk1 junk2 w N) as (B & M & E & HB & HM); [unfold fits; auto|].
  assert (H := bo_hall _ _ _ _ HB).
  exists B, M, (tr (fun k => bat (lb_data B) (2 * k)) (fun k => bat (lb_data B) (2 * k + 1))).
  split; [auto|]. split; [apply (size_ok _ _ _ _ HB)|]. split; [apply (tr_decodes _ _ _ _ HB)|].
  split; [intros k k' Hk Hk'; symmetry; apply (tr_lt _ _ _ _ _ _ H); auto|]. split.
  - intros t. split.
    + intros [Ht Hd]. apply (hall_tr _ _ _ _ _ _ H); auto.
    + intros (k & Hk & <-). split; [apply (tr_hall _ _ _ _ _ _ H); auto|].
      destruct (level_ex _ _ _ _ _ _ H k Hk) as (d & Hd & Hkd). rewrite (tr_deg _ _ _ _ _ _ H d) by auto. lia.
  - intros d Hd. assert (Hl := bo_db _ _ _ _ HB). rewrite !bget_ok by lia. eexists; eexists. split; [reflexivity|]. split; [reflexivity|].
    intros k Hk. split.
    + intros Ed. destruct (level_ex _ _ _ _ _ _ H k Hk) as (d' & Hd' & Hkd'). rewrite (tr_deg _ _ _ _ _ _ H d') in Ed by auto. subst; auto.
    + intros Hkd. apply (tr_deg _ _ _ _ _ _ H); auto.
Qed.

(** Depth 0: the size is read from memory that was never written. *)
Lemma construct_depth0 junk2 w : 0 <= w -> forall s, exists B, construct_lie_basis (fun _ => s + 1) junk2 w 0 = Ok B /\ lb_size B = Ok s.
Proof. intros Hw s. eexists. split; [reflexivity|]. change (Ok (s + 1 - 1) = Ok s). f_equal. lia. Qed.
Lemma construct_negative junk1 junk2 : construct_lie_basis junk1 junk2 2 (-2) = UB /\ construct_lie_basis junk1 junk2 (-1) 1 = UB.
Proof. split; reflexivity. Qed.

(** ** Lookups *)
Definition standard (B : lie_basis) (w N : Z) : Prop :=
  (0 <= w /\ 1 <= N < 46339 * 46339 /\ N * w ^ N < I64_MAX) /\ exists junk1 junk2, construct_lie_basis junk1 junk2 w N = Ok B.
Lemma standard_ok B w N : standard B w N -> exists M, basis_ok B w N M /\ M <= N * w ^ N.
Proof.
  intros [Hf (j1 & j2 & E)]. destruct (construct_ok j1 j2 w N) as (B' & M & E' & HB & HM); [exact Hf|]. rewrite E in E'. injection E' as <-. eauto.
Qed.
(** [decodes] determines the tree. *)
Lemma decodes_fun B k t t' : (forall l, get_parents B 0 = Ok l -> False) -> decodes B k t -> decodes B k t' -> t = t'.
Proof.
  intros H0 D. revert t'. induction D as [k l E|k a b s t E D1 IH1 D2 IH2]; intros t' D'.
  - inversion D' as [? ? E'|? ? ? ? ? E' D1' D2']; subst; [congruence|]. exfalso. rewrite E in E'. injection E' as <- <-.
    inversion D1' as [? ? E''|? ? ? ? ? E'']; subst; eapply H0; eauto.
  - inversion D' as [? ? E'|? ? ? ? ? E' D1' D2']; subst.
    + exfalso. rewrite E in E'. injection E' as -> ->. inversion D1 as [? ? E''|? ? ? ? ? E'']; subst; eapply H0; eauto.
    + rewrite E in E'. injection E' as <- <-. f_equal; auto.
Qed.

Lemma key_tree B w N M (HB : basis_ok B w N M) k t : decodes B k t ->
  1 <= k <= M /\ t = tr (fun k => bat (lb_data B) (2 * k)) (fun k => bat (lb_data B) (2 * k + 1)) k.
Proof.
  intros D. assert (Hk : 1 <= k <= M).
  { assert (X : exists p, get_parents B k = Ok p) by (inversion D; eauto). destruct X as (p & X). rewrite (parents_ok _ _ _ _ HB) in X.
    destruct ((k <=? 0) || (k >=? M + 1)) eqn:E; [discriminate|lia]. }
  split; auto. apply (decodes_fun B k); auto; [|apply (tr_decodes _ _ _ _ HB); auto].
  intros l. rewrite (parents_ok _ _ _ _ HB). discriminate.
Qed.

Theorem degree_key B w N : standard B w N -> forall k t, decodes B k t -> lb_degree B k = Ok (tdeg t).
Proof.
  intros HS k t D. destruct (standard_ok _ _ _ HS) as (M & HB & _). destruct (key_tree _ _ _ _ HB _ _ D) as [Hk ->].
  assert (H := bo_hall _ _ _ _ HB). destruct (level_ex _ _ _ _ _ _ H k Hk) as (d & Hd & Hkd).
  rewrite (tr_deg _ _ _ _ _ _ H d) by auto. apply (degree_ok _ _ _ _ HB); auto. lia.
Qed.
Theorem find_present B w N : standard B w N -> forall k a b, 1 <= a -> get_parents B k = Ok (a, b) -> find_word B (a, b) (-1) = Ok k.
Proof.
  intros HS k a b Ha EP. destruct (standard_ok _ _ _ HS) as (M & HB & _). assert (H := bo_hall _ _ _ _ HB).
  rewrite (parents_ok _ _ _ _ HB) in EP. destruct ((k <=? 0) || (k >=? M + 1)) eqn:E; [discriminate|]. injection EP as E1 E2.
  destruct (level_ex _ _ _ _ _ _ H k ltac:(lia)) as (d & Hd & Hkd).
  destruct (Z.eq_dec d 1) as [->|Hd1].
  { apply (level_letter _ _ _ _ _ _ H) in Hkd. destruct (hd_let _ _ _ _ _ _ H k Hkd) as [X _]. cbn beta in X. lia. }
  destruct (hd_node _ _ _ _ _ _ H d k ltac:(lia) Hkd) as (x & A1 & A2 & A3 & A4 & _). cbn beta in A3, A4. rewrite E1, E2 in *.
  rewrite (find_word_nohint B a b x (d - x)); [|apply (degree_ok _ _ _ _ HB); auto; lia|apply (degree_ok _ _ _ _ HB); auto; lia|lia|lia].
  replace (x + (d - x)) with d by lia.
  assert (Erow : row B k = (a, b)) by (unfold row; rewrite E1, E2; reflexivity).
  destruct (find_word_hint_ok _ _ _ _ HB d (a, b) Hd) as [(k' & -> & K1 & K2)|[(_ & N1 & _)|(_ & N1 & _)]].
  - f_equal. destruct (Z.lt_trichotomy k k') as [X|[X|X]]; auto; exfalso; apply (lex_irrefl (a, b)).
    + rewrite <- Erow at 1. rewrite <- K2. apply (block_sorted _ _ _ _ HB d); auto; lia.
    + rewrite <- K2 at 1. rewrite <- Erow. apply (block_sorted _ _ _ _ HB d); auto; lia.
  - exfalso. apply (N1 k Hkd Erow).
  - exfalso. apply (lex_irrefl (a, b)). rewrite <- Erow at 1. apply N1; auto.
Qed.
(** Pairs that are not the parents of any key. *)
Theorem find_absent B w N : standard B w N -> forall a b s t, decodes B a s -> decodes B b t -> (forall k, get_parents B k <> Ok (a, b)) ->
  (find_word B (a, b) (-1) = Ok (-1) /\
     (N < tdeg s + tdeg t \/ exists k u, decodes B k u /\ (tdeg s + tdeg t < tdeg u \/ tdeg u = tdeg s + tdeg t /\
         exists a' b', get_parents B k = Ok (a', b') /\ (a < a' \/ a = a' /\ b < b')))) \/
  (find_word B (a, b) (-1) = UB /\ tdeg s + tdeg t <= N /\
     forall k u, decodes B k u -> tdeg u <= tdeg s + tdeg t /\
        (tdeg u = tdeg s + tdeg t -> exists a' b', get_parents B k = Ok (a', b') /\ (a' < a \/ a' = a /\ b' < b))).
Proof.
  intros HS a b s t Da Db Hno. destruct (standard_ok _ _ _ HS) as (M & HB & _). assert (H := bo_hall _ _ _ _ HB).
  assert (Ga := degree_key B w N HS a s Da). assert (Gb := degree_key B w N HS b t Db).
  assert (Ps := tdeg_pos s). assert (Pt := tdeg_pos t).
  rewrite (find_word_nohint B a b _ _ Ga Gb) by lia. set (d := tdeg s + tdeg t) in *.
  destruct (Z_le_gt_dec d N) as [Hd|Hd].
  2:{ left. rewrite (find_word_deep _ _ _ _ HB) by lia. split; [reflexivity|left; lia]. }
  assert (Edb : forall k, 1 <= k <= M -> get_parents B k = Ok (row B k)).
  { intros k Hk. rewrite (parents_ok _ _ _ _ HB). replace ((k <=? 0) || (k >=? M + 1)) with false by lia. reflexivity. }
  destruct (find_word_hint_ok _ _ _ _ HB d (a, b) ltac:(lia)) as [(k' & -> & K1 & K2)|[(-> & N1 & N2)|(-> & N1 & N2)]].
  - exfalso. apply (Hno k'). rewrite Edb by (apply (lpos _ _ _ _ _ _ H d); auto; lia). rewrite K2. reflexivity.
  - left. split; [reflexivity|]. right. destruct N2 as [N2|(k & K1 & K2)].
    + assert (HM : 1 <= M <= M) by (assert (X := db_mono _ _ _ _ _ _ H 1 (d + 1) ltac:(lia) ltac:(lia) ltac:(lia)); rewrite (hd_1 _ _ _ _ _ _ H) in X; lia).
      exists M. eexists. split; [apply (tr_decodes _ _ _ _ HB); auto|]. left.
      destruct (level_ex _ _ _ _ _ _ H M HM) as (d' & Hd' & Hkd'). rewrite (tr_deg _ _ _ _ _ _ H d') by auto.
      destruct (Z_lt_ge_dec d d'); auto. assert (X := db_mono _ _ _ _ _ _ H (d' + 1) (d + 1) ltac:(lia) ltac:(lia) ltac:(lia)). lia.
    + assert (Hk := lpos _ _ _ _ _ _ H d k K1 ltac:(lia)). exists k. eexists. split; [apply (tr_decodes _ _ _ _ HB); auto|]. right.
      split; [apply (tr_deg _ _ _ _ _ _ H); auto; lia|]. rewrite (Edb k Hk). unfold row. eexists; eexists. split; [reflexivity|].
      unfold lex, row in K2. cbn [fst snd] in K2. exact K2.
  - right. split; [reflexivity|]. split; [lia|]. intros k u Dk. destruct (key_tree _ _ _ _ HB _ _ Dk) as [Hk ->].
    destruct (level_ex _ _ _ _ _ _ H k Hk) as (d' & Hd' & Hkd'). rewrite (tr_deg _ _ _ _ _ _ H d') by auto. split.
    + destruct (Z_le_gt_dec d' d); auto. assert (X := db_mono _ _ _ _ _ _ H (d + 1) d' ltac:(lia) ltac:(lia) ltac:(lia)). lia.
    + intros ->. rewrite (Edb k Hk). unfold row. eexists; eexists. split; [reflexivity|]. assert (X := N1 k Hkd'). unfold lex, row in X. exact X.
Qed.
Theorem parents_range B w N : standard B w N -> exists M, lb_size B = Ok M /\
  forall k, (1 <= k <= M -> exists t, decodes B k t) /\ (~ 1 <= k <= M -> get_parents B k = Throw).
Proof.
  intros HS. destruct (standard_ok _ _ _ HS) as (M & HB & _). exists M. split; [apply (size_ok _ _ _ _ HB)|]. intros k. split.
  - intros Hk. eexists. apply (tr_decodes _ _ _ _ HB); auto.
  - intros Hk. rewrite (parents_ok _ _ _ _ HB). replace ((k <=? 0) || (k >=? M + 1)) with true by lia. reflexivity.
Qed.

(** ** Dimension *)
Definition divisor_sum (n : Z) (f : Z -> Z) : Z := fold_right Z.add 0 (map f (filter (fun e => n mod e =? 0) (zrng 1 (n + 1)))).
(** [v] is Witt's number: n * v = sum over the divisors e of n of mu(e) w^(n/e). *)
Definition witt_number (w n v : Z) : Prop := exists mu, (forall e, 1 <= e <= n -> is_mobius e (mu e)) /\ n * v = divisor_sum n (fun e => mu e * w ^ (n / e)).

Lemma dsum_divisor_sum n f : 1 <= n -> dsum (Z.to_nat n) (fun e => f (Z.of_nat e)) = divisor_sum n f.
Proof.
  intros Hn. unfold dsum, divisor_sum, zrng. replace (n + 1 - 1) with n by lia.
  assert (G : forall k a, (1 <= a)%nat -> @Alg.sum Zcr nat (filter (fun d : nat => divides d (Z.to_nat n)) (seq a k)) (fun e => f (Z.of_nat e)) =
     fold_right Z.add 0 (map f (filter (fun e => n mod e =? 0) (zseq (Z.of_nat a) k))) :> Z).
  { induction k as [|k IH]; intros a Ha; [reflexivity|]. cbn [seq zseq filter].
    assert (E : divides a (Z.to_nat n) = (n mod Z.of_nat a =? 0)).
    { destruct (divides a (Z.to_nat n)) eqn:E.
      - apply divides_spec in E; [|lia]. rewrite Z2Nat.id in E by lia. symmetry. apply Z.eqb_eq. apply Z.mod_divide; [lia|auto].
      - symmetry. apply Z.eqb_neq. intros E2. apply Z.mod_divide in E2; [|lia]. rewrite <- (Z2Nat.id n) in E2 by lia. apply divides_spec in E2; [congruence|lia]. }
    rewrite E. specialize (IH (S a) ltac:(lia)). replace (Z.of_nat (S a)) with (Z.of_nat a + 1) in IH by lia.
    destruct (n mod Z.of_nat a =? 0); [|exact IH]. cbn [Alg.sum map fold_right]. rewrite <- IH. reflexivity. }
  apply (G (Z.to_nat n) 1%nat (le_n _)).
Qed.

Theorem dim_witt w n : 0 <= w -> 1 <= n < 46339 * 46339 -> n * w ^ n < I64_MAX ->
  exists v, compute_lie_degree_dim w n = Ok v /\ witt_number w n v.
Proof.
  intros Hw Hn Hb. destruct (tab_ok w (Z.to_nat (n - 1)) Hw) as (_ & _ & F). replace (Z.of_nat (Z.to_nat (n - 1)) + 1) with n in F by lia.
  destruct (level_dim w n _ _ _ _ F ltac:(unfold fits; auto) n ltac:(lia)) as [E _]. eexists. split; [exact E|].
  exists (fun e => cmu (Z.to_nat e)). split.
  - intros e He. destruct (cmu_ok (Z.to_nat e)) as [_ X]; [lia|]. rewrite Z2Nat.id in X by lia. auto.
  - rewrite <- (level_witt w n _ _ _ _ F cmu n); [|intros e He; apply cmu_ok; lia|lia].
    rewrite <- dsum_divisor_sum by lia. unfold dsum. apply (sum_ext Zcr). intros e He. rewrite Nat2Z.id. rewrite Nat2Z.inj_div, Z2Nat.id by lia. reflexivity.
Qed.
Theorem alloc_exact junk1 junk2 w N : 0 <= w -> 1 <= N < 46339 * 46339 -> N * w ^ N < I64_MAX ->
  exists M B, compute_lie_dim w N = Ok M /\ construct_lie_basis junk1 junk2 w N = Ok B /\ lb_size B = Ok M /\ blen (lb_data B) = 2 * (M + 1).
Proof.
  intros Hw HN Hb. destruct (construct_ok junk1 junk2 w N) as (B & M & E & HB & _); [unfold fits; auto|]. exists M, B.
  split; [apply (lie_dim_ok w N M _ _ _ (bo_hall _ _ _ _ HB)); unfold fits; auto|]. split; [auto|]. split; [apply (size_ok _ _ _ _ HB)|apply (bo_data _ _ _ _ HB)].
Qed.

(** LieBasis(2,4) and LieBasis(2,2). *)
Definition junk0 : Z -> Z := fun _ => 7.
Definition basis_rows (B : outcome lie_basis) : option (list (Z * Z) * list Z) :=
  match B with
  | Ok B => match lb_size B with
            | Ok M => Some (map (row B) (zrng 1 (M + 1)), map (bat (lb_db B)) (zrng 0 (lb_depth B + 2)))
            | _ => None end
  | _ => None end.
Lemma ex_basis24 : basis_rows (construct_lie_basis junk0 junk0 2 4) =
  Some ([(0, 1); (0, 2); (1, 2); (1, 3); (2, 3); (1, 4); (2, 4); (2, 5)], [0; 1; 3; 4; 6; 9]).
Proof. vm_compute. reflexivity. Qed.
Lemma ex_find24 : exists B, construct_lie_basis junk0 junk0 2 4 = Ok B /\
  find_word B (2, 4) (-1) = Ok 7 /\ find_word B (1, 5) (-1) = Ok (-1) /\ find_word B (4, 1) (-1) = UB /\ lb_degree B 5 = Ok 3.
Proof. destruct (construct_lie_basis junk0 junk0 2 4) as [B| | |] eqn:E; try (vm_compute in E; discriminate). exists B. split; [reflexivity|].
  assert (X : (let! B := construct_lie_basis junk0 junk0 2 4 in Ok (find_word B (2, 4) (-1), find_word B (1, 5) (-1), find_word B (4, 1) (-1), lb_degree B 5)) = Ok (Ok 7, Ok (-1), UB, Ok 3)) by (vm_compute; reflexivity).
  rewrite E in X. cbn [bind] in X. injection X as -> -> -> ->. auto.
Qed.
