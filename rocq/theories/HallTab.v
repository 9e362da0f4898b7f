(** The Hall table as a list, and its characterisation. *)
From Coq Require Import ZifyBool Sorted.
From Verif Require Import Outcome Alg Words Mem.
Local Open Scope Z_scope.

(** Integers lo, lo+1, ..., hi-1. *)
Definition zrng (lo hi : Z) : list Z := zseq lo (Z.to_nat (hi - lo)).
Lemma zrng_In lo hi x : In x (zrng lo hi) <-> lo <= x < hi.
Proof. unfold zrng. rewrite zseq_In. lia. Qed.

Definition znth {A} (l : list A) (k : Z) (d : A) : A := nth (Z.to_nat k) l d.
Definition zlen {A} (l : list A) : Z := Z.of_nat (length l).

Definition tabL (T : list (Z * Z)) (k : Z) : Z := fst (znth T k (0, 0)).
Definition tabR (T : list (Z * Z)) (k : Z) : Z := snd (znth T k (0, 0)).
Definition dbat (D : list Z) (d : Z) : Z := znth D d 0.

(** The pairs accepted for fixed [i]. *)
Definition lev_i (T : list (Z * Z)) (jlo jhi i : Z) : list (Z * Z) :=
  map (fun j => (i, j)) (filter (fun j => tabL T j <=? i) (zrng (Z.max (i + 1) jlo) jhi)).
Definition lev_ld (T : list (Z * Z)) (D : list Z) (d ld : Z) : list (Z * Z) :=
  flat_map (lev_i T (dbat D (d - ld)) (dbat D (d - ld + 1))) (zrng (dbat D ld) (dbat D (ld + 1))).
(** One level of the table. *)
Definition lev (T : list (Z * Z)) (D : list Z) (d : Z) : list (Z * Z) :=
  flat_map (lev_ld T D d) (zseq 1 (Z.to_nat (d / 2))).

(** The table of depth [n+1] and its degree offsets. *)
Fixpoint tab (w : Z) (n : nat) : list (Z * Z) * list Z :=
  match n with
  | O => ((0, 0) :: map (fun l => (0, l)) (zseq 1 (Z.to_nat w)), [0; 1; 1 + w])
  | S n => let '(T, D) := tab w n in
           let T' := T ++ lev T D (Z.of_nat n + 2) in (T', D ++ [zlen T'])
  end.

(** ** Sorted lists of pairs *)
Definition lex (p q : Z * Z) : Prop := fst p < fst q \/ (fst p = fst q /\ snd p < snd q).

Lemma SS_app {A} (R : A -> A -> Prop) l1 l2 : StronglySorted R l1 -> StronglySorted R l2 ->
  (forall x y, In x l1 -> In y l2 -> R x y) -> StronglySorted R (l1 ++ l2).
Proof.
  induction 1 as [|x l Hs IH Hf]; intros H2 H; cbn [app]; auto. constructor.
  - apply IH; auto. intros; apply H; auto. right; auto.
  - apply Forall_app. split; auto. rewrite Forall_forall. intros y Hy. apply H; auto. left; auto.
Qed.
Lemma SS_flat_map {A B} (Q : A -> A -> Prop) (R : B -> B -> Prop) (f : A -> list B) l :
  StronglySorted Q l -> (forall x, In x l -> StronglySorted R (f x)) ->
  (forall x y a b, In x l -> In y l -> Q x y -> In a (f x) -> In b (f y) -> R a b) ->
  StronglySorted R (flat_map f l).
Proof.
  induction 1 as [|x l Hs IH Hf]; intros H1 H2; cbn [flat_map]; [constructor|].
  apply SS_app.
  - apply H1. left; auto.
  - apply IH; intros; [apply H1; right; auto|apply (H2 x0 y); auto; right; auto].
  - intros a b Ha Hb. apply in_flat_map in Hb. destruct Hb as (y & Hy & Hb). rewrite Forall_forall in Hf.
    apply (H2 x y); auto; [left; auto|right; auto].
Qed.
Lemma SS_zseq a n : StronglySorted Z.lt (zseq a n).
Proof.
  revert a. induction n as [|n IH]; intros a; cbn [zseq]; constructor; auto.
  rewrite Forall_forall. intros x Hx. apply zseq_In in Hx. lia.
Qed.
Lemma SS_map {A B} (Q : A -> A -> Prop) (R : B -> B -> Prop) (f : A -> B) l :
  (forall x y, Q x y -> R (f x) (f y)) -> StronglySorted Q l -> StronglySorted R (map f l).
Proof.
  intros H. induction 1 as [|x l Hs IH Hf]; cbn [map]; constructor; auto.
  rewrite Forall_forall in *. intros y Hy. apply in_map_iff in Hy. destruct Hy as (z & <- & Hz). auto.
Qed.
Lemma SS_filter {A} (R : A -> A -> Prop) p l : StronglySorted R l -> StronglySorted R (filter p l).
Proof.
  induction 1 as [|x l Hs IH Hf]; cbn [filter]; [constructor|]. destruct (p x); auto. constructor; auto.
  rewrite Forall_forall in *. intros y Hy. apply filter_In in Hy. apply Hf. tauto.
Qed.
Lemma SS_nth {A} (R : A -> A -> Prop) l d i j : StronglySorted R l -> (i < j < length l)%nat -> R (nth i l d) (nth j l d).
Proof.
  intros H. revert i j. induction H as [|x l Hs IH Hf]; intros i j Hij; [cbn in Hij; lia|].
  destruct j as [|j]; [lia|]. destruct i as [|i]; cbn [nth].
  - rewrite Forall_forall in Hf. apply Hf, nth_In. cbn in Hij. lia.
  - apply IH. cbn in Hij. lia.
Qed.

(** ** What a Hall table of depth [N] is *)
Record hall_data (w N M : Z) (db L R : Z -> Z) : Prop := mkHD {
  hd_w : 0 <= w;
  hd_N : 1 <= N;
  hd_0 : db 0 = 0; hd_1 : db 1 = 1; hd_2 : db 2 = 1 + w; hd_top : db (N + 1) = M + 1;
  hd_mono : forall d, 0 <= d <= N -> db d <= db (d + 1);
  hd_let : forall k, 1 <= k <= w -> L k = 0 /\ R k = k;
  hd_node : forall d k, 2 <= d <= N -> db d <= k < db (d + 1) ->
     exists a, 1 <= a /\ 1 <= d - a /\ db a <= L k < db (a + 1) /\ db (d - a) <= R k < db (d - a + 1) /\
               L k < R k /\ L (R k) <= L k;
  hd_all : forall a b i j, 1 <= a -> 1 <= b -> a + b <= N -> db a <= i < db (a + 1) -> db b <= j < db (b + 1) ->
     i < j -> L j <= i -> exists k, db (a + b) <= k < db (a + b + 1) /\ L k = i /\ R k = j;
  hd_sorted : forall d k k', 2 <= d <= N -> db d <= k -> k < k' -> k' < db (d + 1) -> lex (L k, R k) (L k', R k') }.

Section Facts.
  Variables (w N M : Z) (db L R : Z -> Z).
  Hypothesis H : hall_data w N M db L R.

  Lemma db_mono a b : 0 <= a -> a <= b -> b <= N + 1 -> db a <= db b.
  Proof.
    intros Ha Hab Hb. replace b with (a + Z.of_nat (Z.to_nat (b - a))) in * by lia.
    generalize dependent (Z.to_nat (b - a)). intros n. induction n as [|n IH]; intros H1 H2; [replace (a + Z.of_nat 0) with a by lia; lia|].
    assert (H3 := hd_mono _ _ _ _ _ _ H (a + Z.of_nat n) ltac:(lia)). replace (a + Z.of_nat (S n)) with (a + Z.of_nat n + 1) by lia.
    assert (db a <= db (a + Z.of_nat n)) by (apply IH; lia). lia.
  Qed.
  Lemma level_lt a b i j : 0 <= a -> b <= N -> 0 <= b -> a <= N -> db a <= i < db (a + 1) -> db b <= j < db (b + 1) -> i < j -> a <= b.
  Proof.
    intros Ha Hb Hb0 HaN Hi Hj Hij. destruct (Z_le_gt_dec a b); auto. exfalso.
    assert (db (b + 1) <= db a) by (apply db_mono; lia). lia.
  Qed.
  Lemma level_unique a b i : 0 <= a <= N -> 0 <= b <= N -> db a <= i < db (a + 1) -> db b <= i < db (b + 1) -> a = b.
  Proof.
    intros Ha Hb H1 H2. destruct (Z.lt_trichotomy a b) as [Hlt|[->|Hlt]]; auto; exfalso.
    - assert (db (a + 1) <= db b) by (apply db_mono; lia). lia.
    - assert (db (b + 1) <= db a) by (apply db_mono; lia). lia.
  Qed.
  Lemma level_ex k : 1 <= k <= M -> exists d, 1 <= d <= N /\ db d <= k < db (d + 1).
  Proof.
    intros Hk. assert (HN := hd_N _ _ _ _ _ _ H).
    assert (G : forall n, (Z.of_nat n <= N - 1) -> k < db (Z.of_nat n + 2) -> exists d, 1 <= d <= Z.of_nat n + 1 /\ db d <= k < db (d + 1)).
    { induction n as [|n IH]; intros Hn Hlt.
      - exists 1. split; [lia|]. rewrite (hd_1 _ _ _ _ _ _ H). change (Z.of_nat 0 + 2) with 2 in Hlt. change (1 + 1) with 2. lia.
      - destruct (Z_lt_ge_dec k (db (Z.of_nat n + 2))) as [Hlt'|Hge].
        + destruct (IH ltac:(lia) Hlt') as (d & Hd & Hd'). exists d. split; auto. lia.
        + exists (Z.of_nat n + 2). split; [lia|]. replace (Z.of_nat n + 2 + 1) with (Z.of_nat (S n) + 2) by lia. lia. }
    destruct (G (Z.to_nat (N - 1))) as (d & Hd & Hd').
    - lia.
    - replace (Z.of_nat (Z.to_nat (N - 1)) + 2) with (N + 1) by lia. rewrite (hd_top _ _ _ _ _ _ H). lia.
    - exists d. split; auto. lia.
  Qed.
  Lemma level_pos d k : 1 <= d <= N -> db d <= k < db (d + 1) -> 1 <= k <= M.
  Proof.
    intros Hd Hk. assert (db 1 <= db d) by (apply db_mono; lia). rewrite (hd_1 _ _ _ _ _ _ H) in *.
    assert (db (d + 1) <= db (N + 1)) by (apply db_mono; lia). rewrite (hd_top _ _ _ _ _ _ H) in *. lia.
  Qed.
  Lemma level_letter k : db 1 <= k < db (1 + 1) <-> 1 <= k <= w.
  Proof. rewrite (hd_1 _ _ _ _ _ _ H). replace (1 + 1) with 2 by lia. rewrite (hd_2 _ _ _ _ _ _ H). lia. Qed.
  Lemma key_lt d k : 1 <= d <= N -> db d <= k < db (d + 1) -> 0 <= L k < k.
  Proof.
    intros Hd Hk. assert (Hp := level_pos d k Hd Hk). destruct (Z.eq_dec d 1) as [->|Hne].
    - apply level_letter in Hk. destruct (hd_let _ _ _ _ _ _ H k Hk). lia.
    - destruct (hd_node _ _ _ _ _ _ H d k ltac:(lia) Hk) as (a & Ha & Hb & HL & HR & Hlt & _).
      assert (Hp1 := level_pos a (L k) ltac:(lia) HL). assert (Hp2 := level_pos (d - a) (R k) ltac:(lia) HR).
      assert (db (d - a + 1) <= db d) by (apply db_mono; lia). lia.
  Qed.
End Facts.

(** ** The table is one *)
Lemma nth_app_lt {A} (l1 l2 : list A) k d : (k < length l1)%nat -> nth k (l1 ++ l2) d = nth k l1 d.
Proof. apply app_nth1. Qed.
Lemma znth_app1 {A} (l1 l2 : list A) k d : 0 <= k < zlen l1 -> znth (l1 ++ l2) k d = znth l1 k d.
Proof. intros H. unfold znth, zlen in *. apply app_nth1. lia. Qed.
Lemma znth_app2 {A} (l1 l2 : list A) k d : zlen l1 <= k -> znth (l1 ++ l2) k d = znth l2 (k - zlen l1) d.
Proof. intros H. unfold znth, zlen in *. rewrite app_nth2 by lia. f_equal. lia. Qed.

Lemma lev_In T D d i j : 0 <= d ->
  In (i, j) (lev T D d) <->
  exists ld, 1 <= ld /\ 2 * ld <= d /\ dbat D ld <= i < dbat D (ld + 1) /\
             dbat D (d - ld) <= j < dbat D (d - ld + 1) /\ i < j /\ tabL T j <= i.
Proof.
  intros Hd. unfold lev. rewrite in_flat_map. split.
  - intros (ld & Hld & Hin). apply zseq_In in Hld. unfold lev_ld in Hin. apply in_flat_map in Hin.
    destruct Hin as (i' & Hi & Hin). apply zrng_In in Hi. unfold lev_i in Hin. apply in_map_iff in Hin.
    destruct Hin as (j' & [= -> ->] & Hj). apply filter_In in Hj. destruct Hj as [Hj Hl]. apply zrng_In in Hj.
    exists ld. assert (d / 2 * 2 <= d) by (rewrite Z.mul_comm; apply Z.mul_div_le; lia). repeat split; try lia.
  - intros (ld & H1 & H2 & H3 & H4 & H5 & H6). exists ld. split.
    + apply zseq_In. assert (ld <= d / 2) by (apply Z.div_le_lower_bound; lia). lia.
    + apply in_flat_map. exists i. split; [apply zrng_In; lia|]. apply in_map_iff. exists j. split; auto.
      apply filter_In. split; [apply zrng_In; lia|lia].
Qed.

Lemma lev_sorted T D d : (forall a, 0 <= a -> a < d -> dbat D a <= dbat D (a + 1)) -> StronglySorted lex (lev T D d).
Proof.
  intros Hm. 
  assert (Hmono : forall a b, 0 <= a -> a <= b -> b <= d -> dbat D a <= dbat D b).
  { intros a b Ha Hab Hb. replace b with (a + Z.of_nat (Z.to_nat (b - a))) in * by lia.
    generalize dependent (Z.to_nat (b - a)). intros n. induction n as [|n IH]; intros H1 H2; [replace (a + Z.of_nat 0) with a by lia; lia|].
    assert (H3 := Hm (a + Z.of_nat n) ltac:(lia) ltac:(lia)). replace (a + Z.of_nat (S n)) with (a + Z.of_nat n + 1) by lia.
    assert (dbat D a <= dbat D (a + Z.of_nat n)) by (apply IH; lia). lia. }
  unfold lev. apply (SS_flat_map Z.lt); [apply SS_zseq| |].
  - intros ld Hld. unfold lev_ld. apply (SS_flat_map Z.lt); [apply SS_zseq| |].
    + intros i Hi. unfold lev_i. apply (SS_map Z.lt); [|apply SS_filter, SS_zseq]. intros x y Hxy. right. cbn. lia.
    + intros x y a b _ _ Hxy Ha Hb. unfold lev_i in *. apply in_map_iff in Ha, Hb. destruct Ha as (? & <- & _), Hb as (? & <- & _).
      left. cbn. lia.
  - intros x y a b Hx Hy Hxy Ha Hb. apply zseq_In in Hx, Hy.
    assert (Hd2 : d / 2 * 2 <= d) by (rewrite Z.mul_comm; apply Z.mul_div_le; lia).
    unfold lev_ld in *. apply in_flat_map in Ha, Hb.
    destruct Ha as (i & Hi & Ha), Hb as (i' & Hi' & Hb). apply zrng_In in Hi, Hi'.
    unfold lev_i in *. apply in_map_iff in Ha, Hb. destruct Ha as (? & <- & _), Hb as (? & <- & _).
    left. cbn. assert (dbat D (x + 1) <= dbat D y) by (apply Hmono; lia). lia.
Qed.

(** Extending a Hall table by one level. *)
Lemma hall_data_ext w N M T D : zlen T = M + 1 -> zlen D = N + 2 -> 0 <= M ->
  hall_data w N M (dbat D) (tabL T) (tabR T) ->
  let T' := T ++ lev T D (N + 1) in let D' := D ++ [zlen T'] in
  hall_data w (N + 1) (zlen T' - 1) (dbat D') (tabL T') (tabR T').
Proof.
  intros HT HD HM H T' D'. set (Lv := lev T D (N + 1)) in *.
  assert (HN := hd_N _ _ _ _ _ _ H).
  assert (ED : forall d, 0 <= d <= N + 1 -> dbat D' d = dbat D d).
  { intros d Hd. unfold dbat, D'. apply znth_app1. lia. }
  assert (ED2 : dbat D' (N + 2) = zlen T').
  { unfold dbat, D'. rewrite znth_app2 by lia. replace (N + 2 - zlen D) with 0 by lia. reflexivity. }
  assert (ET' : zlen T' = M + 1 + zlen Lv) by (unfold T', zlen in *; rewrite app_length; lia).
  assert (Etop := hd_top _ _ _ _ _ _ H).
  assert (EL : forall k, 0 <= k <= M -> tabL T' k = tabL T k /\ tabR T' k = tabR T k).
  { intros k Hk. unfold tabL, tabR, T'. rewrite znth_app1 by lia. auto. }
  assert (Hlow : forall d k, 1 <= d <= N -> dbat D d <= k < dbat D (d + 1) -> 0 <= k <= M).
  { intros d k Hd Hk. assert (Hp := level_pos w N M _ _ _ H d k Hd Hk). lia. }
  assert (Hmono' : forall a, 0 <= a -> a < N + 1 -> dbat D a <= dbat D (a + 1)).
  { intros a Ha Hb. apply (hd_mono _ _ _ _ _ _ H). lia. }
  assert (Hs := lev_sorted T D (N + 1) Hmono'). fold Lv in Hs.
  assert (Enth : forall k, M + 1 <= k < zlen T' -> In (tabL T' k, tabR T' k) Lv /\ (tabL T' k, tabR T' k) = nth (Z.to_nat (k - (M + 1))) Lv (0, 0)).
  { intros k Hk. unfold tabL, tabR, T'. rewrite znth_app2 by lia. rewrite HT. unfold znth.
    destruct (nth (Z.to_nat (k - (M + 1))) Lv (0, 0)) as [x y] eqn:E. cbn. split; auto. rewrite <- E. apply nth_In. unfold zlen in *. lia. }
  constructor.
  - apply (hd_w _ _ _ _ _ _ H).
  - lia.
  - rewrite ED by lia. apply (hd_0 _ _ _ _ _ _ H).
  - rewrite ED by lia. apply (hd_1 _ _ _ _ _ _ H).
  - rewrite ED by lia. apply (hd_2 _ _ _ _ _ _ H).
  - replace (N + 1 + 1) with (N + 2) by lia. rewrite ED2. lia.
  - intros d Hd. destruct (Z.eq_dec d (N + 1)) as [->|Hne].
    + rewrite ED by lia. replace (N + 1 + 1) with (N + 2) by lia. rewrite ED2. unfold zlen in *. lia.
    + rewrite !ED by lia. apply Hmono'; lia.
  - intros k Hk. assert (Hk' := proj2 (level_letter w N M _ _ _ H k) Hk).
    assert (Hb := Hlow 1 k ltac:(lia) Hk').
    destruct (EL k Hb) as [-> ->]. apply (hd_let _ _ _ _ _ _ H k Hk).
  - intros d k Hd Hk. destruct (Z.eq_dec d (N + 1)) as [->|Hne].
    + rewrite ED in Hk by lia. rewrite Etop in Hk. replace (N + 1 + 1) with (N + 2) in Hk by lia. rewrite ED2 in Hk.
      destruct (Enth k Hk) as [Hin _]. apply lev_In in Hin; [|lia].
      destruct Hin as (ld & H1 & H2 & H3 & H4 & H5 & H6). exists ld. rewrite !ED by lia.
      assert (Hb := Hlow (N + 1 - ld) (tabR T' k) ltac:(lia) H4). repeat split; try lia.
      destruct (EL (tabR T' k) Hb) as [-> _]. lia.
    + rewrite !ED in Hk by lia. destruct (hd_node _ _ _ _ _ _ H d k ltac:(lia) Hk) as (a & H1 & H2 & H3 & H4 & H5 & H6).
      assert (Hb := Hlow d k ltac:(lia) Hk). destruct (EL k Hb) as [-> ->].
      exists a. rewrite !ED by lia. assert (Hb2 := Hlow (d - a) (tabR T k) ltac:(lia) H4). destruct (EL (tabR T k) Hb2) as [-> _].
      repeat split; lia.
  - intros a b i j Ha Hb Hab Hi Hj Hij Hl. rewrite !ED in Hi, Hj by lia.
    assert (Hjb := Hlow b j ltac:(lia) Hj). rewrite (proj1 (EL j Hjb)) in Hl.
    destruct (Z.eq_dec (a + b) (N + 1)) as [E|Hne].
    + assert (Hin : In (i, j) Lv).
      { apply lev_In; [lia|]. exists a. assert (a <= b) by (apply (level_lt w N M _ _ _ H a b i j); lia).
        replace (N + 1 - a) with b by lia. repeat split; lia. }
      destruct (In_nth _ _ (0, 0) Hin) as (m & Hm & Em).
      exists (M + 1 + Z.of_nat m). rewrite E. rewrite ED, Etop by lia. replace (N + 1 + 1) with (N + 2) by lia. rewrite ED2.
      unfold zlen in *. split; [lia|]. destruct (Enth (M + 1 + Z.of_nat m)) as [_ En]; [lia|].
      replace (Z.to_nat (M + 1 + Z.of_nat m - (M + 1))) with m in En by lia. rewrite Em in En. injection En as -> ->. auto.
    + destruct (hd_all _ _ _ _ _ _ H a b i j) as (k & Hk & E1 & E2); auto; try lia. exists k. rewrite !ED by lia. split; auto.
      assert (Hb2 := Hlow (a + b) k ltac:(lia) Hk). destruct (EL k Hb2) as [-> ->]. auto.
  - intros d k k' Hd H1 H2 H3. destruct (Z.eq_dec d (N + 1)) as [->|Hne].
    + rewrite ED in H1 by lia. rewrite Etop in H1. replace (N + 1 + 1) with (N + 2) in H3 by lia. rewrite ED2 in H3.
      destruct (Enth k) as [_ ->]; [lia|]. destruct (Enth k') as [_ ->]; [lia|]. apply SS_nth; auto. unfold zlen in *. lia.
    + rewrite !ED in * by lia. assert (Hb := Hlow d k ltac:(lia) ltac:(lia)). assert (Hb' := Hlow d k' ltac:(lia) ltac:(lia)).
      destruct (EL k Hb) as [-> ->]. destruct (EL k' Hb') as [-> ->]. apply (hd_sorted _ _ _ _ _ _ H d); auto; lia.
Qed.

Lemma zseq_nth a n k d : (k < n)%nat -> nth k (zseq a n) d = a + Z.of_nat k.
Proof.
  revert a k. induction n as [|n IH]; intros a k Hk; [lia|]. cbn [zseq]. destruct k as [|k]; cbn [nth]; [lia|].
  rewrite IH by lia. lia.
Qed.

Lemma tab_ok w n : 0 <= w ->
  zlen (snd (tab w n)) = Z.of_nat n + 3 /\ 1 <= zlen (fst (tab w n)) /\
  hall_data w (Z.of_nat n + 1) (zlen (fst (tab w n)) - 1) (dbat (snd (tab w n))) (tabL (fst (tab w n))) (tabR (fst (tab w n))).
Proof.
  intros Hw. induction n as [|n IH].
  - cbn [tab fst snd]. split; [reflexivity|].
    assert (El : zlen ((0, 0) :: map (fun l : Z => (0, l)) (zseq 1 (Z.to_nat w))) = 1 + w).
    { unfold zlen. cbn [length]. rewrite map_length, zseq_length. lia. }
    rewrite El. split; [lia|]. constructor; try reflexivity; try lia.
    + change (1 + w = 1 + w - 1 + 1). lia.
    + intros d Hd. assert (d = 0 \/ d = 1) as [->| ->] by lia; [change (0 <= 1)|change (1 <= 1 + w)]; lia.
    + intros k Hk. unfold tabL, tabR, znth. destruct (Z.to_nat k) as [|m] eqn:Em; [lia|]. cbn [nth].
      assert (E : nth m (map (fun l : Z => (0, l)) (zseq 1 (Z.to_nat w))) (0, 0) = (0, nth m (zseq 1 (Z.to_nat w)) 0))
        by apply (map_nth (fun l : Z => (0, l))).
      rewrite E, zseq_nth by lia. cbn [fst snd]. lia.
  - cbn [tab]. destruct (tab w n) as [T D] eqn:E. cbn [fst snd] in *. destruct IH as (I1 & I2 & I3).
    assert (X := hall_data_ext w (Z.of_nat n + 1) (zlen T - 1) T D ltac:(lia) ltac:(lia) ltac:(lia) I3). cbn zeta in X.
    replace (Z.of_nat n + 1 + 1) with (Z.of_nat n + 2) in X by lia.
    split; [unfold zlen in *; rewrite app_length; cbn [length]; lia|].
    split; [unfold zlen in *; rewrite app_length; lia|].
    replace (Z.of_nat (S n) + 1) with (Z.of_nat n + 2) by lia. exact X.
Qed.
