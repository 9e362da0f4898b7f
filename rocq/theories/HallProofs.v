(** [construct_lie_basis] builds the Hall table. *)
From Coq Require Import ZifyBool Sorted.
From Verif Require Import Outcome Alg Words Mem Mobius HallModel HallTab HallCount HallDim.
Local Open Scope Z_scope.

Lemma hall_data_agree w N M db L R db' L' R' : hall_data w N M db L R ->
  (forall d, 0 <= d <= N + 1 -> db' d = db d) -> (forall k, 0 <= k <= M -> L' k = L k /\ R' k = R k) ->
  hall_data w N M db' L' R'.
Proof.
  intros H Hd HL. assert (HN := hd_N _ _ _ _ _ _ H).
  assert (Hin : forall d k, 1 <= d <= N -> db d <= k < db (d + 1) -> 0 <= k <= M).
  { intros d k Hdd Hk. assert (X := level_pos _ _ _ _ _ _ H d k Hdd Hk). lia. }
  assert (HwM : w <= M).
  { assert (X := db_mono _ _ _ _ _ _ H 2 (N + 1) ltac:(lia) ltac:(lia) ltac:(lia)).
    rewrite (hd_2 _ _ _ _ _ _ H), (hd_top _ _ _ _ _ _ H) in X. lia. }
  constructor.
  - apply (hd_w _ _ _ _ _ _ H).
  - auto.
  - rewrite Hd by lia. apply (hd_0 _ _ _ _ _ _ H).
  - rewrite Hd by lia. apply (hd_1 _ _ _ _ _ _ H).
  - rewrite Hd by lia. apply (hd_2 _ _ _ _ _ _ H).
  - rewrite Hd by lia. apply (hd_top _ _ _ _ _ _ H).
  - intros d Hdd. rewrite !Hd by lia. apply (hd_mono _ _ _ _ _ _ H). auto.
  - intros k Hk. destruct (HL k) as [-> ->]; [lia|]. apply (hd_let _ _ _ _ _ _ H). auto.
  - intros d k Hdd Hk. rewrite !Hd in Hk by lia. assert (Hk' := Hin d k ltac:(lia) Hk).
    destruct (hd_node _ _ _ _ _ _ H d k Hdd Hk) as (a & A1 & A2 & A3 & A4 & A5 & A6).
    destruct (HL k Hk') as [-> ->]. exists a. rewrite !Hd by lia.
    assert (HR := Hin (d - a) (R k) ltac:(lia) A4). destruct (HL (R k) HR) as [-> _]. auto 6.
  - intros a b i j Ha Hb Hab Hi Hj Hij Hl. rewrite !Hd in Hi, Hj by lia. assert (Hj' := Hin b j ltac:(lia) Hj).
    destruct (HL j Hj') as [E _]. rewrite E in Hl.
    destruct (hd_all _ _ _ _ _ _ H a b i j Ha Hb Hab Hi Hj Hij Hl) as (k & K1 & K2 & K3).
    exists k. rewrite !Hd by lia. assert (Hk := Hin (a + b) k ltac:(lia) K1). destruct (HL k Hk) as [-> ->]. auto.
  - intros d k k' Hdd H1 H2 H3. rewrite !Hd in H1, H3 by lia.
    assert (Hk := Hin d k ltac:(lia) ltac:(lia)). assert (Hk' := Hin d k' ltac:(lia) ltac:(lia)).
    destruct (HL k Hk) as [-> ->]. destruct (HL k' Hk') as [-> ->]. apply (hd_sorted _ _ _ _ _ _ H d); auto.
Qed.

Lemma zlen_app {A} (l1 l2 : list A) : zlen (l1 ++ l2) = zlen l1 + zlen l2.
Proof. unfold zlen. rewrite app_length. lia. Qed.
Lemma zlen_nonneg {A} (l : list A) : 0 <= zlen l.
Proof. unfold zlen. lia. Qed.
Lemma tabL_app T U k : 0 <= k < zlen T -> tabL (T ++ U) k = tabL T k.
Proof. intros H. unfold tabL. rewrite znth_app1; auto. Qed.
Lemma tabR_app T U k : 0 <= k < zlen T -> tabR (T ++ U) k = tabR T k.
Proof. intros H. unfold tabR. rewrite znth_app1; auto. Qed.
Lemma znth_last {A} (T : list A) x d : znth (T ++ [x]) (zlen T) d = x.
Proof. rewrite znth_app2 by lia. replace (zlen T - zlen T) with 0 by lia. reflexivity. Qed.

(** Loops that append to a table. *)
Lemma for_append {X S : Type} (P : list (Z * Z) -> S -> Prop) (A : Z) (T0 : list (Z * Z)) (l : list X) body (g : X -> list (Z * Z)) :
  (forall x T s, In x l -> P (T0 ++ T) s -> zlen (T0 ++ T ++ g x) <= A -> exists s', body x s = Ok s' /\ P (T0 ++ T ++ g x) s') ->
  forall T s, P (T0 ++ T) s -> zlen (T0 ++ T ++ flat_map g l) <= A ->
  exists s', for_ l s body = Ok s' /\ P (T0 ++ T ++ flat_map g l) s'.
Proof.
  intros H. induction l as [|x l IH]; intros T s Hs Hc; cbn [for_ flat_map].
  - rewrite app_nil_r. exists s. auto.
  - cbn [flat_map] in Hc. destruct (H x T s) as (s1 & E1 & P1); [left; auto|auto|rewrite !zlen_app in *; assert (X0 := zlen_nonneg (flat_map g l)); lia|].
    rewrite E1. cbn [bind]. destruct (IH ltac:(intros; apply H; auto; right; auto) (T ++ g x) s1) as (s2 & E2 & P2).
    + auto.
    + rewrite <- app_assoc. auto.
    + exists s2. rewrite <- app_assoc in P2. auto.
Qed.

(** The buffer [data] with [size] rows written holds the table [T]; room for [A] rows. *)
Definition holds (A : Z) (T : list (Z * Z)) (s : buf Z * Z) : Prop :=
  blen (fst s) = 2 * A /\ snd s = zlen T /\ zlen T <= A /\
  forall k, 0 <= k < zlen T -> bat (fst s) (2 * k) = tabL T k /\ bat (fst s) (2 * k + 1) = tabR T k.

Lemma holds_push A T data size i j : holds A T (data, size) -> zlen T < A ->
  exists data', (let! data := bset data (2 * size) i in let! data := bset data (2 * size + 1) j in Ok (data, size + 1)) = Ok (data', size + 1) /\
     holds A (T ++ [(i, j)]) (data', size + 1).
Proof.
  intros (H1 & H2 & H3 & H4) Hlt. cbn [fst snd] in *. assert (Hp := zlen_nonneg T).
  rewrite bset_ok by lia. cbn [bind]. rewrite bset_ok by (cbn [blen]; lia). cbn [bind]. eexists. split; [reflexivity|].
  split; [cbn [fst blen]; auto|]. split; [cbn [snd]; rewrite zlen_app; change (zlen [(i, j)]) with 1; lia|].
  split; [rewrite zlen_app; change (zlen [(i, j)]) with 1; lia|].
  intros k Hk. rewrite zlen_app in Hk. change (zlen [(i, j)]) with 1 in Hk. cbn [fst bat].
  destruct (Z.eq_dec k (zlen T)) as [->|Hne].
  - rewrite H2. unfold tabL, tabR. rewrite znth_last. cbn [fst snd].
    replace (2 * zlen T =? 2 * zlen T + 1) with false by lia. rewrite !Z.eqb_refl. auto.
  - replace (2 * k =? 2 * size + 1) with false by lia. replace (2 * k =? 2 * size) with false by lia.
    replace (2 * k + 1 =? 2 * size + 1) with false by lia. replace (2 * k + 1 =? 2 * size) with false by lia.
    rewrite tabL_app, tabR_app by lia. apply H4. lia.
Qed.

Lemma filter_flat_map {A B} (p : A -> bool) (f : A -> B) l : map f (filter p l) = flat_map (fun x => if p x then [f x] else []) l.
Proof. induction l as [|x l IH]; [reflexivity|]. cbn. destruct (p x); cbn; rewrite IH; reflexivity. Qed.

Lemma construct_j_ok A T0 i jlo jhi T s : 0 <= jlo -> jhi <= zlen T0 -> holds A (T0 ++ T) s -> 0 <= i ->
  zlen (T0 ++ T ++ lev_i T0 jlo jhi i) <= A ->
  exists s', construct_j i (Z.max (i + 1) jlo) jhi s = Ok s' /\ holds A (T0 ++ T ++ lev_i T0 jlo jhi i) s'.
Proof.
  intros H1 H2 Hs Hi. unfold construct_j, lev_i. rewrite filter_flat_map. fold (zrng (Z.max (i + 1) jlo) jhi). intros Hc.
  apply (for_append (holds A) A T0 (zrng (Z.max (i + 1) jlo) jhi)); auto.
  intros j U [data size] Hj HP HA. apply zrng_In in Hj. assert (HP' := HP). destruct HP' as (P1 & P2 & P3 & P4). cbn [fst snd] in *.
  assert (Hz := zlen_app T0 U). assert (Hu := zlen_nonneg U).
  rewrite bget_ok by lia. cbn [bind]. destruct (P4 j ltac:(lia)) as [-> _]. rewrite tabL_app by lia.
  destruct (tabL T0 j <=? i) eqn:E.
  - destruct (holds_push A (T0 ++ U) data size i j HP) as (d' & -> & Hd').
    + rewrite app_assoc, zlen_app in HA. change (zlen [(i, j)]) with 1 in HA. lia.
    + eexists. split; [reflexivity|]. rewrite app_assoc. auto.
  - rewrite app_nil_r. eauto.
Qed.

(** State of the outer loops: data and size as above, degree offsets known up to [n]. *)
Definition holds3 (A N n : Z) (D : list Z) (T : list (Z * Z)) (s : buf Z * buf Z * Z) : Prop :=
  holds A T (fst (fst s), snd s) /\ blen (snd (fst s)) = N + 2 /\ forall e, 0 <= e <= n -> bat (snd (fst s)) e = dbat D e.

Section Level.
  Variables (w A N d : Z) (T0 : list (Z * Z)) (D : list Z).
  Hypothesis Hd : 2 <= d <= N.
  Hypothesis HD : hall_data w (d - 1) (zlen T0 - 1) (dbat D) (tabL T0) (tabR T0).

  Hypothesis HlD : zlen D = d + 1.

  Lemma construct_left_ok T s ld : 1 <= ld <= d / 2 -> holds3 A N d D (T0 ++ T) s -> zlen (T0 ++ T ++ lev_ld T0 D d ld) <= A ->
    exists s', construct_left d ld s = Ok s' /\ holds3 A N d D (T0 ++ T ++ lev_ld T0 D d ld) s' /\
       bat (snd (fst s')) (d + 1) = zlen (T0 ++ T ++ lev_ld T0 D d ld).
  Proof.
    intros Hld Hs Hc. destruct s as [[data db] size]. destruct Hs as (S1 & S2 & S3). cbn [fst snd] in *.
    assert (Hld2 : 2 * ld <= d) by (assert (X := Z.mul_div_le d 2 ltac:(lia)); lia).
    assert (Htop := hd_top _ _ _ _ _ _ HD). replace (d - 1 + 1) with d in Htop by lia.
    assert (Hm : forall e, 0 <= e <= d -> 0 <= dbat D e <= zlen T0).
    { intros e He. assert (X := db_mono _ _ _ _ _ _ HD 0 e ltac:(lia) ltac:(lia) ltac:(lia)). rewrite (hd_0 _ _ _ _ _ _ HD) in X.
      assert (Y := db_mono _ _ _ _ _ _ HD e d ltac:(lia) ltac:(lia) ltac:(lia)). lia. }
    unfold construct_left. rewrite !bget_ok by lia. cbn [bind]. rewrite !S3 by lia.
    fold (zrng (dbat D ld) (dbat D (ld + 1))).
    destruct (for_append (holds A) A T0 (zrng (dbat D ld) (dbat D (ld + 1)))
       (fun i s => construct_j i (if i + 1 >? dbat D (d - ld) then i + 1 else dbat D (d - ld)) (dbat D (d - ld + 1)) s)
       (lev_i T0 (dbat D (d - ld)) (dbat D (d - ld + 1)))) with (T := T) (s := (data, size)) as ([data' size'] & E & HP); auto.
    { intros i U s Hi HP HA. apply zrng_In in Hi.
      replace (if i + 1 >? dbat D (d - ld) then i + 1 else dbat D (d - ld)) with (Z.max (i + 1) (dbat D (d - ld))) by (destruct (i + 1 >? dbat D (d - ld)) eqn:E; lia).
      assert (B1 := Hm ld ltac:(lia)).
      apply construct_j_ok; auto; [apply Hm; lia|apply Hm; lia|lia]. }
    change (holds A (T0 ++ T ++ lev_ld T0 D d ld) (data', size')) in HP.
    rewrite E. cbn [bind]. rewrite bset_ok by lia. cbn [bind]. eexists. split; [reflexivity|]. cbn [fst snd bat blen].
    assert (HPs := HP). destruct HPs as (_ & Hsz & _). cbn [snd] in Hsz.
    rewrite Z.eqb_refl. repeat split; auto; try apply HP; auto.
    intros e He. cbn [fst snd bat]. replace (e =? d + 1) with false by lia. apply S3. lia.
  Qed.

  Lemma level_loop_ok s : holds3 A N d D T0 s -> zlen (T0 ++ lev T0 D d) <= A ->
    exists s', for_ (zseq 1 (Z.to_nat (d / 2))) s (fun ld s => construct_left d ld s) = Ok s' /\
      holds3 A N (d + 1) (D ++ [zlen (T0 ++ lev T0 D d)]) (T0 ++ lev T0 D d) s'.
  Proof.
    intros Hs Hc. assert (Hh : 1 <= d / 2) by (apply Z.div_le_lower_bound; lia).
    unfold lev in *. destruct (Z.to_nat (d / 2)) as [|k] eqn:Ek; [lia|].
    replace (S k) with (k + 1)%nat in * by lia. rewrite zseq_app in *. cbn [zseq] in *. rewrite flat_map_app in *. cbn [flat_map] in *. rewrite app_nil_r in *.
    set (U := flat_map (lev_ld T0 D d) (zseq 1 k)) in *. set (V := lev_ld T0 D d (1 + Z.of_nat k)) in *.
    rewrite for_app.
    destruct (for_append (holds3 A N d D) A T0 (zseq 1 k) (fun ld s => construct_left d ld s) (lev_ld T0 D d)) with (T := @nil (Z * Z)) (s := s) as (s1 & E1 & P1).
    { intros ld T t Hld HP HA. apply zseq_In in Hld.
      destruct (construct_left_ok T t ld ltac:(lia) HP HA) as (s' & E & P' & _). eauto. }
    { rewrite app_nil_r. auto. }
    { cbn [app]. fold U. rewrite !zlen_app in *. assert (X := zlen_nonneg V). lia. }
    cbn [app] in P1. fold U in P1. rewrite E1. cbn [bind for_].
    destruct (construct_left_ok U s1 (1 + Z.of_nat k) ltac:(lia) P1) as (s2 & E2 & P2 & P3); [exact Hc|].
    rewrite E2. cbn [bind]. exists s2. split; [reflexivity|]. fold V in P2, P3. destruct P2 as (Q1 & Q2 & Q3).
    split; [auto|]. split; [auto|].
    intros e He. destruct (Z.eq_dec e (d + 1)) as [->|].
    - rewrite P3. unfold dbat. rewrite <- HlD, znth_last. reflexivity.
    - rewrite Q3 by lia. unfold dbat. rewrite znth_app1; auto. lia.
  Qed.
End Level.

Lemma tab_prefix w n : exists T2 D2, fst (tab w (S n)) = fst (tab w n) ++ T2 /\ snd (tab w (S n)) = snd (tab w n) ++ D2.
Proof. cbn [tab]. destruct (tab w n) as [T D]. cbn [fst snd]. eauto. Qed.
Lemma tab_len_mono w n m : (n <= m)%nat -> zlen (fst (tab w n)) <= zlen (fst (tab w m)).
Proof.
  induction 1 as [|m Hm IH]; [lia|]. destruct (tab_prefix w m) as (T2 & D2 & E & _). rewrite E, zlen_app. assert (X := zlen_nonneg T2). lia.
Qed.

(** What the code needs to know about a basis object. *)
Record basis_ok (B : lie_basis) (w N M : Z) : Prop := mkBO {
  bo_w : lb_width B = w;
  bo_N : lb_depth B = N;
  bo_data : blen (lb_data B) = 2 * (M + 1);
  bo_db : blen (lb_db B) = N + 2;
  bo_00 : bat (lb_data B) 0 = 0;
  bo_01 : bat (lb_data B) 1 = 0;
  bo_hall : hall_data w N M (bat (lb_db B)) (fun k => bat (lb_data B) (2 * k)) (fun k => bat (lb_data B) (2 * k + 1));
  bo_M : M + 1 = zlen (fst (tab w (Z.to_nat (N - 1))));
  bo_rows : forall k, 0 <= k <= M -> bat (lb_data B) (2 * k) = tabL (fst (tab w (Z.to_nat (N - 1)))) k /\
                                    bat (lb_data B) (2 * k + 1) = tabR (fst (tab w (Z.to_nat (N - 1)))) k;
  bo_dbs : forall d, 0 <= d <= N + 1 -> bat (lb_db B) d = dbat (snd (tab w (Z.to_nat (N - 1)))) d }.

Lemma letters_loop A w data0 : 0 <= w -> blen data0 = 2 * A -> 1 + w <= A -> bat data0 0 = 0 -> bat data0 1 = 0 ->
  exists data, for_ (zseq 1 (Z.to_nat w)) data0 (fun letter data =>
       let! data := bset data (2 * letter) 0 in bset data (2 * letter + 1) letter) = Ok data /\
    holds A (fst (tab w 0)) (data, 1 + w).
Proof.
  intros Hw Hl HA H0 H1.
  destruct (for_inv (fun done (data : buf Z) => blen data = 2 * A /\ bat data 0 = 0 /\ bat data 1 = 0 /\
      forall k, In k done -> bat data (2 * k) = 0 /\ bat data (2 * k + 1) = k)
     (zseq 1 (Z.to_nat w)) data0 (fun letter data => let! data := bset data (2 * letter) 0 in bset data (2 * letter + 1) letter)) as (data & E & P1 & P2 & P3 & P4).
  - split; [|split; [|split]]; auto. intros k [].
  - intros done x rest t El (Q1 & Q2 & Q3 & Q4).
    assert (Hx : 1 <= x < 1 + w) by (assert (X : In x (zseq 1 (Z.to_nat w))) by (rewrite El; apply in_app_iff; right; left; auto); apply zseq_In in X; lia).
    rewrite bset_ok by lia. cbn [bind]. rewrite bset_ok by (cbn [blen]; lia). eexists. split; [reflexivity|]. cbn [blen bat].
    repeat split; auto.
    + replace (0 =? 2 * x + 1) with false by lia. replace (0 =? 2 * x) with false by lia. auto.
    + replace (1 =? 2 * x + 1) with false by lia. replace (1 =? 2 * x) with false by lia. auto.
    + apply in_app_iff in H. destruct (Z.eq_dec k x) as [->|Hne].
      * replace (2 * x =? 2 * x + 1) with false by lia. rewrite Z.eqb_refl. auto.
      * replace (2 * k =? 2 * x + 1) with false by lia. replace (2 * k =? 2 * x) with false by lia. apply Q4. destruct H as [|[|[]]]; auto; congruence.
    + apply in_app_iff in H. destruct (Z.eq_dec k x) as [->|Hne].
      * rewrite Z.eqb_refl. auto.
      * replace (2 * k + 1 =? 2 * x + 1) with false by lia. replace (2 * k + 1 =? 2 * x) with false by lia. apply Q4. destruct H as [|[|[]]]; auto; congruence.
  - exists data. split; [exact E|]. destruct (tab_ok w 0 Hw) as (T1 & T2 & T3).
    assert (El : zlen (fst (tab w 0)) = 1 + w) by (cbn [tab fst]; unfold zlen; cbn [length]; rewrite map_length, zseq_length; lia).
    split; [auto|]. split; [cbn [snd]; lia|]. split; [lia|]. cbn [fst snd] in *. intros k Hk.
    destruct (Z.eq_dec k 0) as [->|]; [auto|].
    destruct (hd_let _ _ _ _ _ _ T3 k ltac:(lia)) as [X Y]. rewrite X, Y. apply P4. apply zseq_In. lia.
Qed.

Theorem construct_ok junk1 junk2 w N : fits w N ->
  exists B M, construct_lie_basis junk1 junk2 w N = Ok B /\ basis_ok B w N M /\ M <= N * w ^ N.
Proof.
  intros Hfit. assert (Hf := Hfit). destruct Hf as (Hw & HN & Hb).
  set (n := Z.to_nat (N - 1)). assert (En : Z.of_nat n + 1 = N) by lia.
  destruct (tab_ok w n Hw) as (F1 & F2 & F3). rewrite En in F3.
  set (T := fst (tab w n)) in *. set (D := snd (tab w n)) in *. set (M := zlen T - 1) in *.
  destruct (lie_dim_ok w N M _ _ _ F3 Hfit) as [Edim HM].
  unfold construct_lie_basis. rewrite Edim. cbn [bind].
  rewrite i64_ok by (unfold I64_MIN; lia). cbn [bind]. rewrite i32_ok by (unfold INT_MIN, INT_MAX; lia). cbn [bind].
  replace (N + 2 <? 0) with false by lia. replace (1 + M <? 0) with false by lia.
  rewrite bset_ok by (cbn [blen]; lia). cbn [bind]. rewrite bset_ok by (cbn [blen]; lia). cbn [bind]. rewrite bset_ok by (cbn [blen]; lia). cbn [bind].
  replace (N >? 0) with true by lia. rewrite bset_ok by (cbn [blen]; lia). cbn [bind blen bat].
  assert (HwM : w <= M).
  { assert (X := db_mono _ _ _ _ _ _ F3 2 (N + 1) ltac:(lia) ltac:(lia) ltac:(lia)).
    rewrite (hd_2 _ _ _ _ _ _ F3), (hd_top _ _ _ _ _ _ F3) in X. lia. }
  match goal with |- context [for_ (zseq 1 (Z.to_nat w)) ?d0 ?f] => destruct (letters_loop (1 + M) w d0) as (data & -> & Hdata); auto; try lia end.
  cbn [bind]. rewrite bset_ok by (cbn [blen]; lia). cbn [bind blen bat].
  match goal with |- context [for_ (zseq 2 _) ?s0 ?f] => set (st := s0); set (bd := f) end.
  assert (G : forall k, (k <= n)%nat -> exists s, for_ (zseq 2 k) st bd = Ok s /\
      holds3 (1 + M) N (Z.of_nat k + 2) (snd (tab w k)) (fst (tab w k)) s).
  { induction k as [|k IH]; intros Hk.
    - cbn [zseq for_]. exists st. split; [reflexivity|]. split; [exact Hdata|]. split; [reflexivity|].
      intros e He. unfold st. cbn [fst snd bat]. change (snd (tab w 0)) with [0; 1; 1 + w].
      assert (e = 0 \/ e = 1 \/ e = 2) as [->|[->| ->]] by lia; reflexivity.
    - destruct (IH ltac:(lia)) as (s & E & Hs). 
      assert (Ez : zseq 2 (S k) = zseq 2 k ++ [2 + Z.of_nat k]) by (replace (S k) with (k + 1)%nat by lia; rewrite zseq_app; reflexivity).
      rewrite Ez, for_app, E. cbn [bind for_].
      destruct (tab_ok w k Hw) as (K1 & K2 & K3).
      assert (Hmono := tab_len_mono w (S k) n Hk). fold T in Hmono.
      cbn [tab] in Hmono |- *. destruct (tab w k) as [Tk Dk] eqn:Etab. cbn [fst snd] in *.
      destruct (level_loop_ok w (1 + M) N (Z.of_nat k + 2) Tk Dk) with (s := s) as (s' & E' & Hs').
      + lia.
      + replace (Z.of_nat k + 2 - 1) with (Z.of_nat k + 1) by lia. auto.
      + lia.
      + auto.
      + lia.
      + unfold bd at 1. replace (2 + Z.of_nat k) with (Z.of_nat k + 2) by lia. rewrite E'. cbn [bind]. exists s'. split; [reflexivity|].
        replace (Z.of_nat (S k) + 2) with (Z.of_nat k + 2 + 1) by lia. auto. }
  destruct (G n (le_n _)) as ([[data' db'] size'] & E & Hs). fold T D in Hs. fold n. rewrite E. cbn [bind].
  destruct Hs as ((S1 & S2 & S3 & S4) & S5 & S6). cbn [fst snd] in *.
  eexists; exists M. split; [reflexivity|]. split; [|exact HM].
  assert (S0 := S4 0 ltac:(lia)). change (2 * 0) with 0 in S0. change (0 + 1) with 1 in S0.
  assert (ET : exists T', T = (0, 0) :: T').
  { unfold T. generalize n. clear. induction n as [|n IH]; [cbn; eauto|]. cbn [tab]. destruct (tab w n) as [T D]. cbn [fst] in *.
    destruct IH as (T' & ->). cbn. eauto. }
  destruct ET as (T' & ET).
  constructor; cbn [lb_width lb_depth lb_data lb_db]; auto.
  - lia.
  - destruct S0 as [-> _]. rewrite ET. reflexivity.
  - destruct S0 as [_ ->]. rewrite ET. reflexivity.
  - apply (hall_data_agree _ _ _ _ _ _ _ _ _ F3).
    + intros d Hd. apply S6. lia.
    + intros k Hk. apply S4. lia.
  - fold n T. lia.
  - intros k Hk. apply S4. lia.
  - intros d Hd. apply S6. lia.
Qed.
