(** The vendored Hall set has the rows of the Hall table. *)
From Coq Require Import ZArith List Bool Lia ZifyBool Arith Sorted.
Import ListNotations.
From Verif Require Import Outcome Mem Words HssModel HssProofs HallTab HallProofs HallDim KeyModel KeyProofs KeyProofs2 HsModel.
Open Scope Z_scope.

Lemma vget_map {A B} (f : A -> B) l i : vget (map f l) i = let! x := vget l i in Ok (f x).
Proof. unfold vget. destruct (i <? 0); [reflexivity|]. rewrite nth_error_map. destruct (nth_error l (Z.to_nat i)); reflexivity. Qed.
Lemma vget_zseq a n i : 0 <= i < Z.of_nat n -> vget (zseq a n) i = Ok (a + i).
Proof.
  intros H. unfold vget. destruct (Z.ltb_spec i 0); [lia|]. rewrite (nth_error_nth' _ 0) by (rewrite zseq_length; lia).
  rewrite zseq_nth by lia. f_equal. lia.
Qed.
Lemma vget_out {A} (l : list A) i : i < 0 \/ vlen l <= i -> vget l i = UB.
Proof. intros H. unfold vget. destruct (Z.ltb_spec i 0); [reflexivity|]. rewrite (proj2 (nth_error_None l (Z.to_nat i))); [reflexivity|]. unfold vlen in H. lia. Qed.
Lemma vget_app {A} (l m : list A) i : 0 <= i < vlen l -> vget (l ++ m) i = vget l i.
Proof. intros H. unfold vget. destruct (Z.ltb_spec i 0); [reflexivity|]. rewrite nth_error_app1; [reflexivity|]. unfold vlen in H. lia. Qed.
Lemma vlen_app {A} (l m : list A) : vlen (l ++ m) = vlen l + vlen m. Proof. unfold vlen. rewrite app_length. lia. Qed.
Lemma vlen_map {A B} (f : A -> B) l : vlen (map f l) = vlen l. Proof. unfold vlen. rewrite map_length. reflexivity. Qed.
Lemma vlen_zseq a n : vlen (zseq a n) = Z.of_nat n. Proof. unfold vlen. rewrite zseq_length. reflexivity. Qed.
Lemma zrng_app a b c : a <= b -> b <= c -> zrng a c = zrng a b ++ zrng b c.
Proof. intros H1 H2. unfold zrng. replace (Z.to_nat (c - a)) with (Z.to_nat (b - a) + Z.to_nat (c - b))%nat by lia. rewrite zseq_app. do 2 f_equal. lia. Qed.
Lemma vlen_zrng a b : a <= b -> vlen (zrng a b) = b - a. Proof. intros. unfold zrng. rewrite vlen_zseq. lia. Qed.
Lemma list_znth (T : list (Z * Z)) : T = map (fun k => (tabL T k, tabR T k)) (zrng 0 (zlen T)).
Proof.
  apply (nth_ext _ _ (0, 0) (0, 0)).
  - rewrite map_length. unfold zrng, zlen. rewrite zseq_length. lia.
  - intros n Hn. rewrite (nth_indep (map _ _) (0, 0) (tabL T 0, tabR T 0)) by (rewrite map_length; unfold zrng, zlen; rewrite zseq_length; lia).
    rewrite (map_nth (fun k => (tabL T k, tabR T k)) _ 0 n). unfold zrng, zlen. rewrite zseq_nth by lia. unfold tabL, tabR, znth. replace (Z.to_nat (0 + Z.of_nat n)) with n by lia. apply surjective_pairing.
Qed.

Lemma pair_eqb_iff p q : pair_eqb p q = true <-> p = q.
Proof. unfold pair_eqb, k_eqb. rewrite andb_true_iff, !Z.eqb_eq. destruct p, q; cbn. split; [intros [-> ->]; auto|intros Q; injection Q; auto]. Qed.
Lemma rm_find_map {X} (kp : X -> Z * Z) (kv : X -> Z) l p : (forall x y, In x l -> In y l -> kp x = kp y -> x = y) ->
  (forall v, rm_find (map (fun x => (kp x, kv x)) l) p = Some v <-> exists x, In x l /\ kp x = p /\ v = kv x).
Proof.
  intros Inj v. induction l as [|x l IH]; cbn [map rm_find].
  - split; [discriminate|intros (x & [] & _)].
  - destruct (pair_eqb (kp x) p) eqn:E.
    + apply pair_eqb_iff in E. split.
      * intros Q. injection Q as <-. exists x. split; [left; auto|auto].
      * intros (y & Hy & Ey & ->). f_equal. f_equal. apply Inj; [left; auto|auto|congruence].
    + rewrite IH by (intros; apply Inj; auto; right; auto). split.
      * intros (y & Hy & Ey & ->). exists y. split; [right; auto|auto].
      * intros (y & [<-|Hy] & Ey & ->); [rewrite <- Ey in E; rewrite (proj2 (pair_eqb_iff _ _) eq_refl) in E; discriminate|]. exists y. auto.
Qed.

Lemma tab_head w n : exists T', fst (tab w n) = (0, 0) :: T'.
Proof. induction n as [|n IH]; [cbn; eauto|]. cbn [tab]. destruct (tab w n) as [T D]. cbn [fst] in *. destruct IH as (T' & ->). cbn. eauto. Qed.

Section T.
  Variables w N : Z.
  Hypothesis Hw : 0 <= w.
  Hypothesis HN : 1 <= N < 2 ^ 8.
  Let nf := Z.to_nat (N - 1).
  Let TT := fst (tab w nf).
  Let db := dbat (snd (tab w nf)).
  Let L := tabL TT.
  Let R := tabR TT.
  Let M := zlen TT - 1.
  Hypothesis Hlev : forall d, 1 <= d <= N -> db (d + 1) - db d <= 2 ^ 56.

  Lemma HD : hall_data w N M db L R.
  Proof. destruct (tab_ok w nf Hw) as (_ & _ & F). replace (Z.of_nat nf + 1) with N in F by (unfold nf; lia). exact F. Qed.
  Lemma tab_pre n : (n <= nf)%nat -> exists T2 D2, TT = fst (tab w n) ++ T2 /\ snd (tab w nf) = snd (tab w n) ++ D2.
  Proof.
    unfold TT. generalize nf as m. induction 1 as [|m Hm IH]; [exists [], []; rewrite !app_nil_r; auto|].
    destruct IH as (T2 & D2 & E1 & E2). destruct (tab_prefix w m) as (T3 & D3 & F1 & F2). exists (T2 ++ T3), (D2 ++ D3). rewrite !app_assoc, F1, F2, <- E1, <- E2. auto.
  Qed.
  Lemma tab_db n e : (n <= nf)%nat -> 0 <= e <= Z.of_nat n + 2 -> dbat (snd (tab w n)) e = db e.
  Proof.
    intros Hn He. destruct (tab_pre n Hn) as (T2 & D2 & _ & E). unfold db, dbat. rewrite E. symmetry. apply znth_app1. destruct (tab_ok w n Hw) as (F & _). lia.
  Qed.
  Lemma tab_len n : (n <= nf)%nat -> zlen (fst (tab w n)) = db (Z.of_nat n + 2).
  Proof. intros Hn. rewrite <- (tab_db n) by lia. destruct (tab_ok w n Hw) as (F1 & F2 & F). assert (Q := hd_top _ _ _ _ _ _ F). replace (Z.of_nat n + 2) with (Z.of_nat n + 1 + 1) by lia. lia. Qed.
  Lemma tab_row n k : (n <= nf)%nat -> 0 <= k < db (Z.of_nat n + 2) -> tabL (fst (tab w n)) k = L k /\ tabR (fst (tab w n)) k = R k.
  Proof.
    intros Hn Hk. destruct (tab_pre n Hn) as (T2 & D2 & E & _). unfold L, R. rewrite E. rewrite tabL_app, tabR_app by (rewrite tab_len; auto). auto.
  Qed.
  Definition row (k : Z) : Z * Z := (L k, R k).
  Lemma tab_rows n : (n <= nf)%nat -> fst (tab w n) = map row (zrng 0 (db (Z.of_nat n + 2))).
  Proof.
    intros Hn. rewrite (list_znth (fst (tab w n))). rewrite tab_len by auto. apply map_ext_in. intros k Hk. apply zrng_In in Hk. destruct (tab_row n k Hn Hk) as [-> ->]. reflexivity.
  Qed.
  Lemma db_le a b : 0 <= a -> a <= b -> b <= N + 1 -> db a <= db b. Proof. apply (db_mono _ _ _ _ _ _ HD). Qed.
  Lemma db0 : db 0 = 0. Proof. apply (hd_0 _ _ _ _ _ _ HD). Qed.
  Lemma db1 : db 1 = 1. Proof. apply (hd_1 _ _ _ _ _ _ HD). Qed.
  Lemma dbtop : db (N + 1) = M + 1. Proof. apply (hd_top _ _ _ _ _ _ HD). Qed.
  Lemma lev_rows d : 2 <= d <= N -> lev (fst (tab w (Z.to_nat (d - 2)))) (snd (tab w (Z.to_nat (d - 2)))) d = map row (zrng (db d) (db (d + 1))).
  Proof.
    intros Hd. set (n := Z.to_nat (d - 2)). assert (E : fst (tab w (S n)) = fst (tab w n) ++ lev (fst (tab w n)) (snd (tab w n)) d).
    { cbn [tab]. destruct (tab w n) as [T D]. cbn [fst snd]. do 2 f_equal. unfold n. lia. }
    rewrite (tab_rows (S n)), (tab_rows n) in E at 1 by (unfold n, nf; lia).
    replace (Z.of_nat (S n) + 2) with (d + 1) in E by (unfold n; lia). replace (Z.of_nat n + 2) with d in E by (unfold n; lia).
    assert (X1 := db_le 0 d). assert (X2 := db_le d (d + 1)). rewrite db0 in X1. rewrite (zrng_app 0 (db d) (db (d + 1))) in E by lia. rewrite map_app in E. apply app_inv_head in E. auto.
  Qed.

  (** Keys of rows *)
  Definition lv (k : Z) : Z := Z.of_nat (dgof N db k).
  Definition K (k : Z) : Z := mk_key (lv k) (k - db (lv k)).
  Lemma lv_level d k : 0 <= d <= N -> db d <= k < db (d + 1) -> lv k = d.
  Proof.
    intros Hd Hk. unfold lv. destruct (Z.eq_dec d 0) as [->|].
    - change (0 + 1) with 1 in Hk. rewrite db0, db1 in Hk. unfold dgof. rewrite (filter_prefix _ 1 _ 0); [reflexivity|lia|lia|].
      intros e He. assert (Q := db_le 1 e). rewrite db1 in Q. lia.
    - rewrite (dgof_level _ _ _ _ _ _ HD d); auto; lia.
  Qed.
  Lemma lv_ex k : 0 <= k <= M -> 0 <= lv k <= N /\ db (lv k) <= k < db (lv k + 1).
  Proof.
    intros Hk. destruct (Z.eq_dec k 0) as [->|].
    - rewrite (lv_level 0 0); rewrite ?db0; change (0 + 1) with 1; rewrite ?db1; lia.
    - destruct (level_ex _ _ _ _ _ _ HD k) as (d & Hd & Hk'); [lia|]. rewrite (lv_level d k); auto; lia.
  Qed.
  Lemma idx_small d k : 0 <= d <= N -> db d <= k < db (d + 1) -> 0 <= k - db d < 2 ^ 56.
  Proof.
    intros Hd Hk. destruct (Z.eq_dec d 0) as [->|]; [change (0 + 1) with 1 in Hk; rewrite db0, db1 in Hk; rewrite db0; lia|]. assert (Q := Hlev d). lia.
  Qed.
  Lemma K_level d k : 0 <= d <= N -> db d <= k < db (d + 1) -> K k = mk_key d (k - db d).
  Proof. intros Hd Hk. unfold K. rewrite (lv_level d k); auto. Qed.
  Lemma K_read k : 0 <= k <= M -> k_degree (K k) = lv k /\ k_index (K k) = k - db (lv k).
  Proof. intros Hk. destruct (lv_ex k Hk) as [A B]. assert (C := idx_small _ _ A B). apply key_round; lia. Qed.
  Lemma lv_le k k' : 0 <= k -> k <= k' -> k' <= M -> lv k <= lv k'.
  Proof.
    intros. destruct (lv_ex k) as [A B]; [lia|]. destruct (lv_ex k') as [A' B']; [lia|]. destruct (Z_le_gt_dec (lv k) (lv k')); [auto|].
    assert (Q := db_le (lv k' + 1) (lv k)). lia.
  Qed.
  Lemma K_le k k' : 0 <= k <= M -> 0 <= k' <= M -> (k_leb (K k) (K k') = (k <=? k')).
  Proof.
    intros Hk Hk'. destruct (lv_ex k Hk) as [A B]. destruct (lv_ex k' Hk') as [A' B']. assert (C := idx_small _ _ A B). assert (C' := idx_small _ _ A' B').
    destruct (KeyProofs.key_lt (lv k) (k - db (lv k)) (lv k') (k' - db (lv k'))) as (_ & _ & E); try lia. fold (K k) (K k') in E.
    apply eq_true_iff_eq. rewrite E, Z.leb_le. split.
    - intros [Q|[Q1 Q2]]; [|rewrite Q1 in *; lia]. assert (X := db_le (lv k + 1) (lv k')). lia.
    - intros Q. assert (X := lv_le k k'). destruct (Z.eq_dec (lv k) (lv k')) as [Y|]; [rewrite Y in *; lia|lia].
  Qed.
  Lemma K_inj k k' : 0 <= k <= M -> 0 <= k' <= M -> K k = K k' -> k = k'.
  Proof.
    intros Hk Hk' E. assert (A := K_le k k' Hk Hk'). assert (B := K_le k' k Hk' Hk). rewrite E in A, B. unfold k_leb in *. rewrite Z.leb_refl in *. lia.
  Qed.
  Lemma K_0 : K 0 = root_element. Proof. unfold K. rewrite (lv_level 0 0), db0; [reflexivity| |]; rewrite ?db0; change (0 + 1) with 1; rewrite ?db1; lia. Qed.
  Lemma w_M : w <= M. Proof. assert (Q := db_le 2 (N + 1)). rewrite (hd_2 _ _ _ _ _ _ HD), dbtop in Q. lia. Qed.
  Lemma row_range k : 1 <= k <= M -> 0 <= L k <= M /\ 0 <= R k <= M.
  Proof.
    intros Hk. destruct (level_ex _ _ _ _ _ _ HD k Hk) as (d & Hd & Hk'). destruct (Z.eq_dec d 1) as [->|].
    - apply (level_letter _ _ _ _ _ _ HD) in Hk'. destruct (hd_let _ _ _ _ _ _ HD k Hk') as [-> ->]. assert (Q := w_M). lia.
    - destruct (hd_node _ _ _ _ _ _ HD d k ltac:(lia) Hk') as (a & A1 & A2 & A3 & A4 & _).
      assert (Q := level_pos _ _ _ _ _ _ HD a _ ltac:(lia) A3). assert (Q2 := level_pos _ _ _ _ _ _ HD (d - a) _ ltac:(lia) A4). lia.
  Qed.
  Lemma row_0 : row 0 = (0, 0).
  Proof. unfold row, L, R, TT. destruct (tab_head w nf) as (T' & ->). reflexivity. Qed.
  Lemma row_inj k k' : 1 <= k <= M -> 1 <= k' <= M -> row k = row k' -> k = k'.
  Proof.
    intros Hk Hk' E. unfold row in E. injection E as EL ER. destruct (level_ex _ _ _ _ _ _ HD k Hk) as (d & Hd & A). destruct (level_ex _ _ _ _ _ _ HD k' Hk') as (d' & Hd' & A').
    destruct (Z.eq_dec d 1) as [->|N1], (Z.eq_dec d' 1) as [->|N2].
    - apply (level_letter _ _ _ _ _ _ HD) in A. apply (level_letter _ _ _ _ _ _ HD) in A'. destruct (hd_let _ _ _ _ _ _ HD k A) as [_ X]. destruct (hd_let _ _ _ _ _ _ HD k' A') as [_ X']. lia.
    - apply (level_letter _ _ _ _ _ _ HD) in A. destruct (hd_let _ _ _ _ _ _ HD k A) as [X _]. destruct (hd_node _ _ _ _ _ _ HD d' k' ltac:(lia) A') as (a & A1 & A2 & A3 & _). assert (Q := level_pos _ _ _ _ _ _ HD a _ ltac:(lia) A3). lia.
    - apply (level_letter _ _ _ _ _ _ HD) in A'. destruct (hd_let _ _ _ _ _ _ HD k' A') as [X _]. destruct (hd_node _ _ _ _ _ _ HD d k ltac:(lia) A) as (a & A1 & A2 & A3 & _). assert (Q := level_pos _ _ _ _ _ _ HD a _ ltac:(lia) A3). lia.
    - destruct (hd_node _ _ _ _ _ _ HD d k ltac:(lia) A) as (a & A1 & A2 & A3 & A4 & _). destruct (hd_node _ _ _ _ _ _ HD d' k' ltac:(lia) A') as (a' & B1 & B2 & B3 & B4 & _).
      rewrite <- EL in B3. rewrite <- ER in B4. assert (a = a') by (apply (HallTab.level_unique _ _ _ _ _ _ HD a a' (L k)); auto; lia). assert (d - a = d' - a') by (apply (HallTab.level_unique _ _ _ _ _ _ HD _ _ (R k)); auto; lia).
      assert (d = d') by lia. subst d'. destruct (Z.lt_trichotomy k k') as [Q|[Q|Q]]; [|auto|].
      + assert (X := hd_sorted _ _ _ _ _ _ HD d k k' ltac:(lia) ltac:(lia) Q ltac:(lia)). unfold lex in X. cbn in X. lia.
      + assert (X := hd_sorted _ _ _ _ _ _ HD d k' k ltac:(lia) ltac:(lia) Q ltac:(lia)). unfold lex in X. cbn in X. lia.
  Qed.
  Definition kp (r : Z * Z) : Z * Z := (K (fst r), K (snd r)).
  Lemma kp_inj k k' : 1 <= k <= M -> 1 <= k' <= M -> kp (row k) = kp (row k') -> k = k'.
  Proof.
    intros Hk Hk' E. unfold kp in E. injection E as EL ER. destruct (row_range k Hk), (row_range k' Hk'). apply row_inj; auto. unfold row in *. cbn [fst snd] in *.
    apply K_inj in EL; auto. apply K_inj in ER; auto. congruence.
  Qed.

  (** ** The construction *)
  Definition entry (k : Z) : (Z * Z) * Z := (kp (row k), K k).
  Definition hs_ok (d : Z) (H : hall_set) : Prop :=
    hs_degree H = d /\ hs_data H = map (fun k => kp (row k)) (zrng 0 (db (d + 1))) /\ hs_rev H = map entry (zrng 1 (db (d + 1))) /\
    hs_ranges H = map (fun e => (db e, db (e + 1))) (zseq 0 (Z.to_nat (d + 1))) /\ hs_sizes H = map (fun e => db (e + 1) - 1) (zseq 0 (Z.to_nat (d + 1))).

  Fixpoint insall (rev : rmap) (d k : Z) (l : list (Z * Z)) : rmap :=
    match l with [] => rev | r :: l => insall (rm_insert rev (kp r) (mk_key d k)) d (k + 1) l end.
  Lemma insall_app d : forall a b rev k, insall rev d k (a ++ b) = insall (insall rev d k a) d (k + zlen a) b.
  Proof.
    induction a as [|r a IH]; intros b rev k; cbn [app insall]; [unfold zlen; cbn; rewrite Z.add_0_r; auto|].
    rewrite IH. f_equal. unfold zlen. cbn [length]. lia.
  Qed.
  Definition app3 (d : Z) (s : list (Z * Z) * rmap * Z) (l : list (Z * Z)) : list (Z * Z) * rmap * Z :=
    let '(data, rev, k) := s in (data ++ map kp l, insall rev d k l, k + zlen l).
  Lemma app3_app d s a b : app3 d (app3 d s a) b = app3 d s (a ++ b).
  Proof. destruct s as ((data, rev), k). unfold app3. rewrite map_app, app_assoc, insall_app. unfold zlen. rewrite app_length. f_equal. lia. Qed.
  Lemma app3_nil d s : app3 d s [] = s.
  Proof. destruct s as ((data, rev), k). unfold app3. cbn. rewrite app_nil_r, Z.add_0_r. reflexivity. Qed.
  Definition starts (data0 : list (Z * Z)) (s : list (Z * Z) * rmap * Z) : Prop := exists X, fst (fst s) = data0 ++ X.
  Lemma starts_app3 d data0 s l : starts data0 s -> starts data0 (app3 d s l).
  Proof. destruct s as ((data, rev), k). intros (X & E). cbn in *. subst. exists (X ++ map kp l). cbn. rewrite app_assoc. auto. Qed.
  Lemma for_app3 {X} d data0 (l : list X) body g : (forall x s, In x l -> starts data0 s -> body x s = Ok (app3 d s (g x))) ->
    forall s, starts data0 s -> for_ l s body = Ok (app3 d s (flat_map g l)).
  Proof.
    intros Hb. induction l as [|x l IH]; intros s Hs; cbn [for_ flat_map]; [rewrite app3_nil; auto|].
    rewrite Hb by (auto; left; auto). cbn [bind]. rewrite IH; [rewrite app3_app; auto| |apply starts_app3; auto]. intros. apply Hb; auto. right; auto.
  Qed.

  Section Level.
    Variable d : Z.
    Hypothesis Hd : 2 <= d <= N.
    Let data0 := map (fun k => kp (row k)) (zrng 0 (db d)).
    Let T := fst (tab w (Z.to_nat (d - 2))).
    Let D := snd (tab w (Z.to_nat (d - 2))).
    Lemma D_at e : 0 <= e <= d -> dbat D e = db e. Proof. intros. apply tab_db; unfold nf; lia. Qed.
    Lemma T_at j : 0 <= j < db d -> tabL T j = L j. Proof. intros. apply tab_row; [unfold nf; lia|]. replace (Z.of_nat (Z.to_nat (d - 2)) + 2) with d by lia. auto. Qed.
    Lemma db_d : 0 <= db d. Proof. assert (X1 := db_le 0 d). rewrite db0 in X1. lia. Qed.
    Lemma data_at s j : starts data0 s -> 0 <= j < db d -> vget (fst (fst s)) j = Ok (kp (row j)).
    Proof.
      intros (X & E) Hj. rewrite E, vget_app; [|unfold data0; rewrite vlen_map, vlen_zrng; assert (Q := db_d); lia].
      unfold data0. rewrite vget_map. unfold zrng. rewrite vget_zseq by lia. reflexivity.
    Qed.
    Lemma grow_j_ok e i s : 1 <= e -> 2 * e <= d -> db e <= i < db (e + 1) -> starts data0 s ->
      grow_j d e (mk_key e (i - db e)) (db (d - e)) (db (d - e + 1)) i s = Ok (app3 d s (lev_i T (dbat D (d - e)) (dbat D (d - e + 1)) i)).
    Proof.
      intros He He2 Hi Hs. unfold grow_j, lev_i. rewrite !D_at by lia. rewrite filter_flat_map. rewrite (Z.max_comm (i + 1)).
      change (zseq (Z.max (db (d - e)) (i + 1)) (Z.to_nat (db (d - e + 1) - Z.max (db (d - e)) (i + 1)))) with (zrng (Z.max (db (d - e)) (i + 1)) (db (d - e + 1))).
      apply (for_app3 d data0); auto. intros j s' Hj Hs'. apply zrng_In in Hj.
      assert (Q1 := db_le (d - e + 1) d). assert (Q2 := db_le (e + 1) d). assert (Q0 := db_le 0 (d - e)). rewrite db0 in Q0. assert (Q3 := db_le d (N + 1)). rewrite dbtop in Q3. assert (Q4 := db_le 1 e). rewrite db1 in Q4.
      assert (DA := data_at s' j Hs' ltac:(lia)). destruct s' as ((data, rev), k). cbn [fst] in DA. rewrite DA. cbn [bind]. unfold kp at 1. cbn [fst row].
      rewrite <- (K_level e i) by lia. rewrite K_le by (try (apply row_range); lia). rewrite T_at by lia.
      destruct (L j <=? i); [|rewrite app3_nil; reflexivity].
      unfold app3. cbn [map insall]. rewrite <- (K_level (d - e) j) by lia. reflexivity.
    Qed.
    Lemma grow_e_ok e s ranges : 1 <= e -> 2 * e <= d -> ranges = map (fun e => (db e, db (e + 1))) (zseq 0 (Z.to_nat d)) -> starts data0 s ->
      grow_e d ranges e s = Ok (app3 d s (lev_ld T D d e)).
    Proof.
      intros He He2 -> Hs. unfold grow_e. rewrite !vget_map, !vget_zseq by lia. cbn [bind]. replace (0 + e) with e by lia. replace (0 + (d - e)) with (d - e) by lia. cbn [fst snd].
      unfold lev_ld. rewrite !D_at by lia. change (zseq (db e) (Z.to_nat (db (e + 1) - db e))) with (zrng (db e) (db (e + 1))).
      rewrite <- !D_at by lia. rewrite (D_at e) by lia. apply (for_app3 d data0); auto. intros i s' Hi Hs'. apply zrng_In in Hi. rewrite (D_at (e + 1)) in Hi by lia.
      rewrite <- (grow_j_ok e i) by (auto; lia). rewrite !D_at by lia. reflexivity.
    Qed.
    Lemma insall_fresh : forall l k rev, (forall i, In i rev -> exists m, 1 <= m < k /\ i = entry m) -> 1 <= k -> k + Z.of_nat l <= db (d + 1) -> db d <= k ->
      insall rev d (k - db d) (map row (zseq k l)) = rev ++ map entry (zseq k l).
    Proof.
      assert (QM := db_le (d + 1) (N + 1)). rewrite dbtop in QM.
      induction l as [|l IH]; intros k rev Hr Hk Hl Hk2; cbn [zseq map insall]; [rewrite app_nil_r; auto|].
      assert (E : rm_find rev (kp (row k)) = None).
      { assert (Gn : forall rv, (forall i, In i rv -> exists m, 1 <= m < k /\ i = entry m) -> rm_find rv (kp (row k)) = None).
        { induction rv as [|(q, v) rv IHr]; intros Hr2; cbn [rm_find]; [auto|]. destruct (pair_eqb q (kp (row k))) eqn:E.
          - apply pair_eqb_iff in E. destruct (Hr2 (q, v)) as (m & Hm & Em); [left; auto|]. unfold entry in Em. injection Em as E1 _. rewrite E in E1. apply kp_inj in E1; lia.
          - apply IHr. intros. apply Hr2. right; auto. }
        apply Gn; auto. }
      unfold rm_insert. rewrite E. rewrite <- (K_level d k) by lia. replace (k - db d + 1) with (k + 1 - db d) by lia. rewrite IH.
      - rewrite <- app_assoc. reflexivity.
      - intros i Hi. apply in_app_iff in Hi. destruct Hi as [Hi|[<-|[]]].
        + destruct (Hr i Hi) as (m & Hm & Em). exists m. split; [lia|auto].
        + exists k. split; [lia|reflexivity].
      - lia. - lia. - lia.
    Qed.
    Lemma grow_degree_ok H : hs_ok (d - 1) H -> exists H', grow_degree d H = Ok H' /\ hs_ok d H'.
    Proof.
      intros (O1 & O2 & O3 & O4 & O5). replace (d - 1 + 1) with d in * by lia. unfold grow_degree.
      assert (Q1 := db_le 1 d). rewrite db1 in Q1. assert (Q2 := db_le d (d + 1)).
      rewrite (for_app3 d data0 _ _ (lev_ld T D d)).
      - fold (lev T D d). unfold T, D. rewrite lev_rows by auto. unfold app3. rewrite O2, O3.
        replace (insall (map entry (zrng 1 (db d))) d 0 (map row (zrng (db d) (db (d + 1))))) with (insall (map entry (zrng 1 (db d))) d (db d - db d) (map row (zrng (db d) (db (d + 1))))) by (f_equal; lia).
        unfold zrng at 4. rewrite insall_fresh; try lia.
        + cbn [bind]. rewrite O4, O1, vget_map, vget_zseq by lia. cbn [bind snd]. replace (0 + (d - 1) + 1) with d by lia.
          eexists. split; [reflexivity|]. unfold hs_ok. cbn [hs_degree hs_data hs_rev hs_ranges hs_sizes].
          assert (ED : map (fun k => kp (row k)) (zrng 0 (db d)) ++ map kp (map row (zrng (db d) (db (d + 1)))) = map (fun k => kp (row k)) (zrng 0 (db (d + 1)))).
          { rewrite (zrng_app 0 (db d) (db (d + 1))) by lia. rewrite map_app, map_map. reflexivity. }
          rewrite ED, vlen_map, vlen_zrng by lia. rewrite O5.
          replace (Z.to_nat (d + 1)) with (Z.to_nat d + 1)%nat by lia. rewrite zseq_app, !map_app. cbn [zseq map]. replace (0 + Z.of_nat (Z.to_nat d)) with d by lia.
          split; [lia|]. split; [reflexivity|]. split; [|split].
          * change (zseq (db d) (Z.to_nat (db (d + 1) - db d))) with (zrng (db d) (db (d + 1))). rewrite <- map_app, <- zrng_app by lia. reflexivity.
          * do 3 f_equal. lia.
          * do 2 f_equal. lia.
        + intros i Hi. apply in_map_iff in Hi. destruct Hi as (m & <- & Hm). apply zrng_In in Hm. exists m. split; [lia|auto].
      - intros e s He Hs. apply zseq_In in He. assert (X : d / 2 * 2 <= d) by (rewrite Z.mul_comm; apply Z.mul_div_le; lia). apply grow_e_ok; auto; lia.
      - exists []. cbn [fst]. rewrite O2, app_nil_r. reflexivity.
    Qed.
  End Level.

  Lemma base_ok : hs_ok 1 (hs_base w).
  Proof.
    assert (E2 : db (1 + 1) = 1 + w) by (apply (hd_2 _ _ _ _ _ _ HD)). assert (QM := w_M).
    assert (RL : forall k, 1 <= k <= w -> row k = (0, k)). { intros k Hk. unfold row. destruct (hd_let _ _ _ _ _ _ HD k Hk) as [-> ->]. auto. }
    assert (KL : forall k, 1 <= k <= w -> K k = mk_key 1 (k - 1)). { intros k Hk. rewrite (K_level 1 k); rewrite ?db1; try lia. }
    assert (EV : forall k, 1 <= k <= w -> entry k = ((root_element, mk_key 1 (k - 1)), mk_key 1 (k - 1))).
    { intros k Hk. unfold entry, kp. rewrite RL by auto. cbn [fst snd]. rewrite K_0, KL by auto. reflexivity. }
    unfold hs_ok, hs_base. cbn [hs_degree hs_data hs_rev hs_ranges hs_sizes]. rewrite E2.
    split; [auto|]. split; [|split; [|split]].
    - rewrite (zrng_app 0 1 (1 + w)) by lia. rewrite map_app. change (zrng 0 1) with [0]. cbn [map app]. rewrite row_0. unfold kp at 1. cbn [fst snd]. rewrite K_0. f_equal.
      unfold zrng. replace (1 + w - 1) with w by lia. apply map_ext_in. intros l Hl. apply zseq_In in Hl. rewrite RL by lia. unfold kp. cbn [fst snd]. rewrite K_0, KL by lia. reflexivity.
    - unfold zrng. replace (1 + w - 1) with w by lia.
      assert (G : forall n k rev, 1 <= k -> k + Z.of_nat n <= 1 + w -> (forall i, In i rev -> exists m, 1 <= m < k /\ i = entry m) ->
        fold_left (fun m l => rm_insert m (root_element, mk_key 1 (l - 1)) (mk_key 1 (l - 1))) (zseq k n) rev = rev ++ map entry (zseq k n)).
      { induction n as [|n IH]; intros k rev Hk Hn Hr; cbn [zseq fold_left map]; [rewrite app_nil_r; auto|].
        assert (E : rm_find rev (root_element, mk_key 1 (k - 1)) = None).
        { clear IH. revert Hr. induction rev as [|(q, v) rv IHr]; intros Hr; cbn [rm_find]; [auto|]. destruct (pair_eqb q (root_element, mk_key 1 (k - 1))) eqn:E.
          - apply pair_eqb_iff in E. destruct (Hr (q, v)) as (m & Hm & Em); [left; auto|].
            assert (X : entry m = entry m) by auto. unfold entry in Em. injection Em as E1 _. rewrite E in E1. assert (Y1 := f_equal fst (EV k ltac:(lia))). cbn [fst entry] in Y1. rewrite <- Y1 in E1. apply kp_inj in E1; lia.
          - apply IHr. intros. apply Hr. right; auto. }
        unfold rm_insert at 2. rewrite E. rewrite IH; try lia.
        - rewrite <- app_assoc. cbn [app]. rewrite EV by lia. reflexivity.
        - intros i Hi. apply in_app_iff in Hi. destruct Hi as [Hi|[<-|[]]].
          + destruct (Hr i Hi) as (m & Hm & Em). exists m. split; [lia|auto].
          + exists k. split; [lia|rewrite EV by lia; reflexivity]. }
      rewrite G; try lia. + reflexivity. + intros i [].
    - unfold vlen. cbn [length]. rewrite map_length, zseq_length. change (Z.to_nat (1 + 1)) with 2%nat. cbn [zseq map]. change (0 + 1 + 1) with (1 + 1). change (0 + 1) with 1. rewrite db0, db1, E2. do 3 f_equal. f_equal. lia.
    - change (Z.to_nat (1 + 1)) with 2%nat. cbn [zseq map]. change (0 + 1 + 1) with (1 + 1). change (0 + 1) with 1. rewrite db1, E2. repeat f_equal; lia.
  Qed.
  Lemma grow_up_ok d0 d H : 1 <= d0 <= N -> d <= N -> hs_ok d0 H -> exists H', grow_up H d = Ok H' /\ hs_ok (Z.max d0 d) H'.
  Proof.
    intros H0 Hd HH. unfold grow_up. assert (E0 : hs_degree H = d0) by apply HH. rewrite E0.
    assert (G : forall n, d0 + Z.of_nat n <= N -> exists H', for_ (zseq (d0 + 1) n) H (fun d H => grow_degree d H) = Ok H' /\ hs_ok (d0 + Z.of_nat n) H').
    { induction n as [|n IH]; intros Hn.
      - exists H. split; [reflexivity|]. replace (d0 + Z.of_nat 0) with d0 by lia. auto.
      - destruct (IH ltac:(lia)) as (H1 & E1 & O1). replace (S n) with (n + 1)%nat by lia. rewrite zseq_app, for_app, E1. cbn [bind zseq for_].
        destruct (grow_degree_ok (d0 + 1 + Z.of_nat n) ltac:(lia) H1) as (H2 & E2 & O2). { replace (d0 + 1 + Z.of_nat n - 1) with (d0 + Z.of_nat n) by lia. auto. }
        rewrite E2. cbn [bind]. exists H2. split; [reflexivity|]. replace (d0 + Z.of_nat (n + 1)) with (d0 + 1 + Z.of_nat n) by lia. auto. }
    destruct (G (Z.to_nat (d - d0))) as (H' & E & O); [lia|]. exists H'. split; [auto|]. replace (Z.max d0 d) with (d0 + Z.of_nat (Z.to_nat (d - d0))) by lia. auto.
  Qed.
  Lemma hs_ok_unique d H H' : hs_ok d H -> hs_ok d H' -> H = H'.
  Proof. intros (A1 & A2 & A3 & A4 & A5) (B1 & B2 & B3 & B4 & B5). destruct H, H'; cbn in *. congruence. Qed.
  Lemma new_ok d : d <= N -> exists H, new_hall_set w d = Ok H /\ hs_ok (Z.max 1 d) H.
  Proof.
    intros Hd. unfold new_hall_set. destruct (Z.ltb_spec w 0); [lia|]. destruct (Z.gtb_spec d 1).
    - apply grow_up_ok; try lia. apply base_ok.
    - eexists. split; [reflexivity|]. replace (Z.max 1 d) with 1 by lia. apply base_ok.
  Qed.

  (** ** Queries *)
  Variable H : hall_set.
  Hypothesis HH : hs_ok N H.
  Lemma Mp : 0 <= M. Proof. assert (Q := w_M). lia. Qed.
  Lemma parents_at k : 1 <= k <= M -> hs_parents H (K k) = Ok (kp (row k)).
  Proof.
    intros Hk. destruct HH as (O1 & O2 & O3 & O4 & O5). destruct (K_read k) as [Ed Ei]; [lia|]. destruct (lv_ex k) as [A B]; [lia|]. unfold hs_parents. rewrite Ed, Ei, O4.
    rewrite vget_map, vget_zseq by lia. cbn [bind]. replace (0 + lv k) with (lv k) by lia. cbn [fst]. replace (k - db (lv k) + db (lv k)) with k by lia.
    rewrite O2, vget_map. unfold zrng. rewrite dbtop. rewrite vget_zseq by lia. reflexivity.
  Qed.
  Lemma find_at p v : hs_find H p = Some v <-> exists k, 1 <= k <= M /\ p = kp (row k) /\ v = K k.
  Proof.
    destruct HH as (O1 & O2 & O3 & O4 & O5). unfold hs_find. rewrite O3. unfold entry. rewrite dbtop.
    rewrite (rm_find_map (fun k => kp (row k)) K).
    - split; intros (k & A & B & C); exists k; [apply zrng_In in A|rewrite zrng_In]; (split; [lia|auto]).
    - intros x y Hx Hy. apply zrng_In in Hx, Hy. apply kp_inj; lia.
  Qed.
  Lemma size_at d : hs_size H d = Ok (if (0 <=? d) && (d <=? N) then db (d + 1) - 1 else if (d <? 0) && (- (N + 1) <=? d) then db (N + 2 + d) - 1 else M).
  Proof.
    destruct HH as (O1 & O2 & O3 & O4 & O5). unfold hs_size. rewrite O5, vlen_map, vlen_zseq, !vget_map. rewrite Z2Nat.id by lia.
    destruct (Z.geb_spec d 0), (Z.ltb_spec d (N + 1)), (Z.leb_spec 0 d), (Z.leb_spec d N), (Z.ltb_spec d 0), (Z.geb_spec d (- (N + 1))), (Z.leb_spec (- (N + 1)) d); try lia; cbn [andb]; rewrite vget_zseq by lia; cbn [bind]; f_equal;
    try (f_equal; f_equal; lia). all: replace (0 + (N + 1 - 1) + 1) with (N + 1) by lia; rewrite dbtop; lia.
  Qed.
  Lemma degree_size d : 0 <= d <= N -> hs_size_of_degree H d = Ok (db (d + 1) - db d).
  Proof. intros Hd. destruct HH as (O1 & O2 & O3 & O4 & O5). unfold hs_size_of_degree. rewrite O4, vget_map, vget_zseq by lia. cbn [bind]. replace (0 + d) with d by lia. reflexivity. Qed.
  Lemma index_at k : 1 <= k <= M -> M < 2 ^ 64 -> index_of_key H (K k) = Ok (k - 1).
  Proof.
    intros Hk HM. destruct (K_read k) as [Ed Ei]; [lia|]. destruct (lv_ex k) as [A B]; [lia|]. assert (1 <= lv k). { destruct (Z.eq_dec (lv k) 0) as [E|]; [|lia]. rewrite E in B. change (0 + 1) with 1 in B. rewrite db1 in B. lia. }
    unfold index_of_key. rewrite Ed, Ei, size_at. destruct (Z.leb_spec 0 (lv k - 1)), (Z.leb_spec (lv k - 1) N); try lia. cbn [andb bind]. f_equal. replace (lv k - 1 + 1) with (lv k) by lia. rewrite u64_small; lia.
  Qed.
  Lemma key_at i : 0 <= i -> key_of_index H i = Ok (if i <? M then K (i + 1) else root_element).
  Proof.
    intros Hi. destruct HH as (O1 & O2 & O3 & O4 & O5). unfold key_of_index. rewrite O5. rewrite vlen_map, vlen_zseq. rewrite Z2Nat.id by lia. destruct (Z.eqb_spec (N + 1) 0); [lia|].
    assert (PV : forall j, 0 <= j < N + 1 -> (let! s := vget (map (fun e => db (e + 1) - 1) (zseq 0 (Z.to_nat (N + 1)))) j in Ok (s <=? i)) = Ok (db (j + 1) - 1 <=? i)).
    { intros j Hj. rewrite vget_map, vget_zseq by lia. cbn [bind]. replace (0 + j + 1) with (j + 1) by lia. reflexivity. }
    destruct (Z.ltb_spec i M).
    - destruct (lv_ex (i + 1)) as [A B]; [lia|]. set (d := lv (i + 1)) in *. assert (1 <= d). { destruct (Z.eq_dec d 0) as [E|]; [|lia]. rewrite E in B. change (0 + 1) with 1 in B. rewrite db1 in B. lia. }
      rewrite (bisect_ok _ (fun j => db (j + 1) - 1 <=? i) (N + 1) d PV); try lia.
      + cbn [bind]. destruct (Z.eqb_spec d (N + 1)); [lia|]. rewrite vget_map, vget_zseq by lia. cbn [bind]. replace (0 + (d - 1) + 1) with d by lia.
        f_equal. rewrite (K_level d) by auto. assert (Q := idx_small d (i + 1) A B). f_equal. rewrite u64_small; lia.
      + intros j Hj. assert (Q := db_le (j + 1) d). lia.
      + intros j Hj. assert (Q := db_le (d + 1) (j + 1)). lia.
    - rewrite (bisect_ok _ (fun j => db (j + 1) - 1 <=? i) (N + 1) (N + 1) PV); try lia.
      + cbn [bind]. rewrite Z.eqb_refl. reflexivity.
      + intros j Hj. assert (Q := db_le (j + 1) (N + 1)). rewrite dbtop in Q. lia.
  Qed.
  Lemma advance_at k : 1 <= k <= M -> N < 255 -> hs_advance H (K k) = Ok (if k + 1 <? db (lv k + 1) then K (k + 1) else mk_key (lv k + 1) 0).
  Proof.
    intros Hk HN2. destruct (K_read k) as [Ed Ei]; [lia|]. destruct (lv_ex k) as [A B]; [lia|]. assert (C := idx_small _ _ A B). unfold hs_advance. rewrite Ed, degree_size by lia. cbn [bind]. f_equal.
    assert (Hs : db (lv k + 1) - db (lv k) <= 2 ^ 56). { destruct (Z.eq_dec (lv k) 0) as [E|]; [rewrite E; change (0 + 1) with 1; rewrite db0, db1; lia|apply Hlev; lia]. }
    unfold k_succ, K. rewrite mk_key_val by lia. rewrite u64_small by lia. rewrite k_index_val. set (d := lv k) in *.
    destruct (Z.ltb_spec (k + 1) (db (d + 1))).
    - assert (E : lv (k + 1) = d) by (apply lv_level; lia). rewrite E.
      replace (d * 2 ^ 56 + (k - db d) + 1) with (k + 1 - db d + d * 2 ^ 56) by lia. rewrite Z.mod_add, Z.mod_small by lia. destruct (Z.geb_spec (k + 1 - db d) (db (d + 1) - db d)); [lia|]. rewrite mk_key_val by lia. lia.
    - destruct (Z.eq_dec (k + 1 - db d) (2 ^ 56)).
      + replace (d * 2 ^ 56 + (k - db d) + 1) with ((d + 1) * 2 ^ 56) by lia. rewrite Z.mod_mul by lia. destruct (Z.geb_spec 0 (db (d + 1) - db d)); [lia|]. rewrite mk_key_val by lia. lia.
      + replace (d * 2 ^ 56 + (k - db d) + 1) with (k + 1 - db d + d * 2 ^ 56) by lia. rewrite Z.mod_add, Z.mod_small by lia. destruct (Z.geb_spec (k + 1 - db d) (db (d + 1) - db d)); [reflexivity|lia].
  Qed.
End T.
