(** The dyadic search, evaluated over unbounded integers. *)
From Verif Require Export SegModel IntervalProofs.
From Verif Require Import DyadicSpec DyadicProofs DyadicProofs2.
From Coq Require Import ZArith ZifyBool Sorted.
Open Scope Z_scope.

Section Pure.
  Variable N : Z.
  Hypothesis HN : 0 <= N <= 28.
  Variable G : Z -> Z -> bool.
  Variable pred : dint -> outcome bool.
  Definition bnd (k n : Z) : Prop := 1 <= n <= N /\ - 2 ^ n <= k < 2 ^ (n + 1).
  Hypothesis Hpred : forall k n, bnd k n -> pred (mkDI k n Clopen) = Ok (G k n).

  Definition c2d (c : Z * Z) : dint := mkDI (fst c) (snd c) Clopen.
  Lemma pow_S n : 0 <= n -> 2 ^ (n + 1) = 2 * 2 ^ n.
  Proof. intros. rewrite Z.pow_add_r by lia. change (2 ^ 1) with 2. lia. Qed.
  Lemma pow_28 n : 0 <= n <= 28 -> 1 <= 2 ^ n <= 268435456.
  Proof. intros. split; [assert (X := pow2_pos n ltac:(lia)); lia|]. change 268435456 with (2 ^ 28). apply Z.pow_le_mono_r; lia. Qed.
  Lemma bnd_half k n : bnd k n -> n < N -> half_ok (mkDI k n Clopen).
  Proof. intros [H1 H2] H. unfold half_ok. cbn [di_k di_n]. rewrite pow_S in H2 by lia. assert (B := pow_28 n ltac:(lia)).
    assert (C : 2 * 2 ^ n <= 2 ^ 28). { rewrite <- pow_S by lia. apply Z.pow_le_mono_r; lia. }
    change (2 ^ 28) with 268435456 in *. change (2 ^ 29) with 536870912. lia. Qed.
  Lemma bnd_kids k n : bnd k n -> n < N -> bnd (2 * k) (n + 1) /\ bnd (2 * k + 1) (n + 1).
  Proof. intros [H1 H2] H. unfold bnd. rewrite !pow_S in * by lia. lia. Qed.

  Fixpoint pL (f : nat) (k n : Z) (cur : list (Z * Z)) : list (Z * Z) :=
    match f with
    | O => cur
    | S f' => if G (2 * k + 1) (n + 1) then pL f' (2 * k) (n + 1) ((2 * k + 1, n + 1) :: cur) else pL f' (2 * k + 1) (n + 1) cur
    end.
  Fixpoint pR (f : nat) (k n : Z) (cur : list (Z * Z)) : list (Z * Z) :=
    match f with
    | O => cur
    | S f' => if G (2 * k) (n + 1) then pR f' (2 * k + 1) (n + 1) (cur ++ [(2 * k, n + 1)]) else pR f' (2 * k) (n + 1) cur
    end.
  Lemma left_loop_eval f : forall k n cur fuel, bnd k n -> N - n = Z.of_nat f -> (f < fuel)%nat ->
    left_loop pred N fuel (mkDI k n Clopen) (map c2d cur) = Ok (map c2d (pL f k n cur)).
  Proof.
    induction f as [|f IH]; intros k n cur fuel B E F; (destruct fuel as [|fuel]; [lia|]); cbn [left_loop pL di_n].
    - replace (n <? N) with false by lia. reflexivity.
    - replace (n <? N) with true by lia. destruct (left_right_eval _ (bnd_half k n B ltac:(lia))) as [E1 E2].
      rewrite E1, E2. cbn [bind di_t di_k di_n]. destruct (bnd_kids k n B ltac:(lia)) as [B1 B2]. rewrite Hpred by auto. cbn [bind].
      destruct (G (2 * k + 1) (n + 1)); [|apply IH; auto; lia].
      change (mkDI (2 * k + 1) (n + 1) Clopen :: map c2d cur) with (map c2d ((2 * k + 1, n + 1) :: cur)). apply IH; auto; lia.
  Qed.
  Lemma right_loop_eval f : forall k n cur fuel, bnd k n -> N - n = Z.of_nat f -> (f < fuel)%nat ->
    right_loop pred N fuel (mkDI k n Clopen) (map c2d cur) = Ok (map c2d (pR f k n cur)).
  Proof.
    induction f as [|f IH]; intros k n cur fuel B E F; (destruct fuel as [|fuel]; [lia|]); cbn [right_loop pR di_n].
    - replace (n <? N) with false by lia. reflexivity.
    - replace (n <? N) with true by lia. destruct (left_right_eval _ (bnd_half k n B ltac:(lia))) as [E1 E2].
      rewrite E1, E2. cbn [bind di_t di_k di_n]. destruct (bnd_kids k n B ltac:(lia)) as [B1 B2]. rewrite Hpred by auto. cbn [bind].
      destruct (G (2 * k) (n + 1)); [|apply IH; auto; lia].
      change (map c2d cur ++ [mkDI (2 * k) (n + 1) Clopen]) with (map c2d cur ++ map c2d [(2 * k, n + 1)]). rewrite <- map_app. apply IH; auto; lia.
  Qed.
  Definition lev (n : Z) : nat := Z.to_nat (N - n).
  Definition pEL (k n : Z) : list (Z * Z) :=
    if Z.even k then if G (k - 1) n then pL (lev n) (k - 2) n [(k - 1, n); (k, n)] else pL (lev n) (k - 1) n [(k, n)]
    else pL (lev n) (k - 1) n [(k, n)].
  Definition pE (k n : Z) : list (Z * Z) := pR (lev n) (k + 1) n (pEL k n).
  Lemma i32r k n : -2 * 2 ^ n <= k <= 2 * 2 ^ n -> 1 <= n <= N -> i32 k = Ok k.
  Proof. intros. assert (B := pow_28 n ltac:(lia)). apply i32_ok. unfold INT_MIN, INT_MAX. lia. Qed.
  Definition inu (k n : Z) : Prop := 1 <= n <= N /\ 0 <= k < 2 ^ n.
  Lemma pow_1 n : 1 <= n -> 2 <= 2 ^ n.
  Proof. intros. change 2 with (2 ^ 1) at 1. apply Z.pow_le_mono_r; lia. Qed.
  Lemma expand_left_eval k n : inu k n -> expand_left pred N [mkDI k n Clopen] = Ok (map c2d (pEL k n)).
  Proof.
    intros [H1 H2]. assert (B := pow_28 n ltac:(lia)). assert (B1 := pow_1 n ltac:(lia)). unfold expand_left. cbn [di_n].
    rewrite aligned_clopen_eval by (cbn [di_t di_k di_n]; auto; change (2 ^ 29) with 536870912; lia). cbn [bind di_k].
    unfold di_decr. cbn [di_k di_n di_t]. rewrite (i32r (k - 1) n) by lia. cbn [bind di_k di_n di_t].
    assert (P1 : bnd (k - 1) n) by (unfold bnd; rewrite pow_S by lia; lia).
    assert (P2 : bnd (k - 2) n) by (unfold bnd; rewrite pow_S by lia; lia).
    change ([mkDI k n Clopen]) with (map c2d [(k, n)]). unfold pEL.
    destruct (Z.even k).
    - rewrite Hpred by auto. cbn [bind]. destruct (G (k - 1) n).
      + replace (k - 1 - 1) with (k - 2) by lia. rewrite (i32r (k - 2) n) by lia. cbn [bind].
        change (mkDI (k - 1) n Clopen :: map c2d [(k, n)]) with (map c2d [(k - 1, n); (k, n)]). apply left_loop_eval; auto; unfold lev; lia.
      + apply left_loop_eval; auto; unfold lev; lia.
    - apply left_loop_eval; auto; unfold lev; lia.
  Qed.
  Lemma pL_app f : forall k n cur, exists l, pL f k n cur = l ++ cur.
  Proof.
    induction f as [|f IH]; intros k n cur; cbn [pL]; [exists []; auto|]. destruct (G _ _); [|apply IH].
    destruct (IH (2 * k) (n + 1) ((2 * k + 1, n + 1) :: cur)) as (l & ->). exists (l ++ [(2 * k + 1, n + 1)]). rewrite <- app_assoc. reflexivity.
  Qed.
  Lemma pR_app f : forall k n cur, exists l, pR f k n cur = cur ++ l.
  Proof.
    induction f as [|f IH]; intros k n cur; cbn [pR]; [exists []; rewrite app_nil_r; auto|]. destruct (G _ _); [|apply IH].
    destruct (IH (2 * k + 1) (n + 1) (cur ++ [(2 * k, n + 1)])) as (l & ->). exists ((2 * k, n + 1) :: l). rewrite <- app_assoc. reflexivity.
  Qed.
  Lemma pEL_app k n : exists l, pEL k n = l ++ [(k, n)].
  Proof.
    unfold pEL. destruct (Z.even k); [destruct (G (k - 1) n)|]; [|apply pL_app..].
    destruct (pL_app (lev n) (k - 2) n [(k - 1, n); (k, n)]) as (l & ->). exists (l ++ [(k - 1, n)]). rewrite <- app_assoc. reflexivity.
  Qed.
  Lemma pEL_cells k n : inu k n -> Forall (fun c => bnd (fst c) (snd c)) (pEL k n).
  Proof.
    intros [H1 H2]. assert (B1 := pow_1 n ltac:(lia)).
    assert (L : forall f k n cur, bnd k n -> N - n = Z.of_nat f -> Forall (fun c => bnd (fst c) (snd c)) cur -> Forall (fun c => bnd (fst c) (snd c)) (pL f k n cur)).
    { clear. induction f as [|f IH]; intros k n cur B E F; cbn [pL]; [auto|]. destruct (bnd_kids k n B ltac:(lia)) as [K1 K2].
      destruct (G _ _); apply IH; auto; lia. }
    assert (P0 : bnd k n) by (unfold bnd; rewrite pow_S by lia; lia).
    assert (P1 : bnd (k - 1) n) by (unfold bnd; rewrite pow_S by lia; lia).
    assert (P2 : bnd (k - 2) n) by (unfold bnd; rewrite pow_S by lia; lia).
    unfold pEL. destruct (Z.even k); [destruct (G (k - 1) n)|]; apply L; auto; unfold lev; lia.
  Qed.
  Lemma pE_cells k n : inu k n -> Forall (fun c => bnd (fst c) (snd c)) (pE k n).
  Proof.
    intros H. assert (L : forall f k n cur, bnd k n -> N - n = Z.of_nat f -> Forall (fun c => bnd (fst c) (snd c)) cur -> Forall (fun c => bnd (fst c) (snd c)) (pR f k n cur)).
    { clear. induction f as [|f IH]; intros k n cur B E F; cbn [pR]; [auto|]. destruct (bnd_kids k n B ltac:(lia)) as [K1 K2].
      destruct (G _ _); apply IH; auto; try lia. apply Forall_app. auto. }
    unfold pE. destruct H as [H1 H2]. apply L; [unfold bnd; rewrite pow_S by lia; lia|unfold lev; lia|apply pEL_cells; split; auto].
  Qed.
  Lemma map_last (l : list (Z * Z)) c : last (map c2d (l ++ [c])) (c2d c) = c2d c.
  Proof. rewrite map_app. cbn [map]. apply last_last. Qed.
  Lemma expand_right_eval k n : inu k n -> expand_right pred N (map c2d (pEL k n)) = Ok (map c2d (pE k n)).
  Proof.
    intros [H1 H2]. unfold expand_right, pE. destruct (pEL_app k n) as (l & E). rewrite E.
    assert (X : forall d, last (map c2d (l ++ [(k, n)])) d = mkDI k n Clopen) by (intros d; rewrite map_app; apply last_last).
    destruct (map c2d (l ++ [(k, n)])) as [|d0 r] eqn:E2; [destruct l; discriminate|]. rewrite X. unfold di_incr. cbn [di_k di_n di_t].
    rewrite (i32r (k + 1) n) by lia. cbn [bind di_n]. rewrite <- E2. apply right_loop_eval; unfold lev; try lia.
    unfold bnd. rewrite pow_S by lia. lia.
  Qed.

  (** Dyadics as multiples of 2^-N. *)
  Definition uv (d : dyadic) : Z := mult d * 2 ^ (N - power d).
  Definition dok (d : dyadic) : Prop := 1 <= power d <= N /\ - 2 ^ power d <= mult d <= 2 * 2 ^ power d.
  Lemma i32s m d : 0 <= d <= 28 -> -2 * 268435456 <= m <= 2 * 268435456 -> i32 m = Ok m.
  Proof. intros. apply i32_ok. unfold INT_MIN, INT_MAX. lia. Qed.
  Lemma lsh_ok k p q : 1 <= p <= q -> q <= N -> - 2 ^ p <= k <= 2 * 2 ^ p -> lsh k (q - p) = Ok (k * 2 ^ (q - p)).
  Proof.
    intros H1 H2 H3. unfold lsh. replace ((0 <=? q - p) && (q - p <=? 31)) with true by lia.
    assert (E : 2 ^ q = 2 ^ p * 2 ^ (q - p)) by (rewrite <- Z.pow_add_r by lia; f_equal; lia).
    assert (B := pow_28 q ltac:(lia)). assert (C := pow2_pos (q - p) ltac:(lia)).
    apply i32s with (d := 0); [lia|]. nia.
  Qed.
  Lemma ds_cmp_eval cmp l r : (forall a b e, 0 < e -> cmp (a * e) (b * e) = cmp a b) -> dok l -> dok r -> ds_cmp cmp l r = Ok (cmp (uv l) (uv r)).
  Proof.
    intros HC [L1 L2] [R1 R2]. unfold ds_cmp. set (m := Z.max (power l) (power r)).
    rewrite !i32_ok by (unfold INT_MIN, INT_MAX; lia). cbn [bind].
    rewrite !lsh_ok by lia. cbn [bind]. f_equal. unfold uv.
    rewrite <- (HC _ _ (2 ^ (N - m))) by (apply pow2_pos; lia). rewrite <- !Z.mul_assoc, <- !Z.pow_add_r by lia.
    f_equal; f_equal; f_equal; lia.
  Qed.
  Lemma ds_less_eval l r : dok l -> dok r -> ds_less l r = Ok (uv l <? uv r).
  Proof. apply ds_cmp_eval. intros a b e H. destruct (a <? b) eqn:E; nia. Qed.
  Lemma ds_greater_eval l r : dok l -> dok r -> ds_greater l r = Ok (uv l >? uv r).
  Proof. apply ds_cmp_eval. intros a b e H. destruct (a >? b) eqn:E; nia. Qed.

  Definition uvp (p : dyadic * dyadic) : Z * Z := (uv (fst p), uv (snd p)).
  Definition pok (p : dyadic * dyadic) : Prop := dok (fst p) /\ dok (snd p).
  Fixpoint pput (s i : Z) (l : list (Z * Z)) : list (Z * Z) :=
    match l with
    | [] => [(s, i)]
    | (s', i') :: r => if s >? s' then (s, i) :: l else if s' >? s then (s', i') :: pput s i r else (s', i) :: r
    end.
  Lemma seen_put_eval s i (l : seen) : dok s -> dok i -> Forall pok l ->
    exists l', seen_put s i l = Ok l' /\ map uvp l' = pput (uv s) (uv i) (map uvp l) /\ Forall pok l'.
  Proof.
    intros Hs Hi. induction l as [|[s' i'] r IH]; intros F; cbn [seen_put map pput uvp fst snd].
    - eexists. split; [reflexivity|]. split; [reflexivity|]. constructor; [split; auto|constructor].
    - inversion F as [|? ? [P1 P2] F']; subst. cbn [fst snd] in *. unfold uvp at 2. cbn [fst snd].
      rewrite !ds_greater_eval by auto. cbn [bind]. destruct (uv s >? uv s') eqn:E1.
      + eexists. split; [reflexivity|]. split; [reflexivity|]. constructor; [split; auto|auto].
      + destruct (uv s' >? uv s) eqn:E2.
        * destruct (IH F') as (l' & -> & M & F2). cbn [bind]. eexists. split; [reflexivity|]. split; [cbn [map]; rewrite M; reflexivity|]. constructor; [split; auto|auto].
        * eexists. split; [reflexivity|]. split; [reflexivity|]. constructor; [split; auto|auto].
  Qed.

  Fixpoint pskip (k n : Z) (l : list (Z * Z)) : Z :=
    match l with
    | [] => k
    | (s, i) :: r =>
        if k * 2 ^ (N - n) <? i then pskip k n r
        else if k * 2 ^ (N - n) >? s then k
        else pskip (i / 2 ^ (N - n)) n r
    end.
  Lemma pskip_le n l : 1 <= n <= N -> forall k, pskip k n l <= k.
  Proof.
    intros Hn. induction l as [|[s i] r IH]; intros k; cbn [pskip]; [lia|]. destruct (_ <? _) eqn:E1; [auto|]. destruct (_ >? _) eqn:E2; [lia|].
    etransitivity; [apply IH|]. apply Z.div_le_upper_bound; [apply pow2_pos; lia|]. lia.
  Qed.
  Lemma skip_loop_eval n l : 1 <= n <= N -> Forall pok l -> forall k, - 2 ^ n <= k <= 2 * 2 ^ n ->
    skip_loop k n l = Ok (pskip k n (map uvp l)) /\ - 2 ^ n <= pskip k n (map uvp l) <= 2 * 2 ^ n.
  Proof.
    intros Hn. induction l as [|[s i] r IH]; intros F k Hk; cbn [skip_loop map pskip uvp fst snd]; [auto|].
    inversion F as [|? ? [P1 P2] F']; subst. cbn [fst snd] in *.
    assert (D : dok (mkD k n)) by (split; cbn [mult power]; lia).
    assert (UK : uv (mkD k n) = k * 2 ^ (N - n)) by reflexivity.
    rewrite ds_less_eval, UK by auto. change (uvp (s, i)) with (uv s, uv i). cbn [bind fst snd pskip].
    assert (C := pow2_pos (N - n) ltac:(lia)).
    destruct (k * 2 ^ (N - n) <? uv i) eqn:E1; [auto|].
    rewrite ds_greater_eval, UK by auto. cbn [bind].
    destruct (k * 2 ^ (N - n) >? uv s) eqn:E2; [auto|].
    destruct P2 as [Q1 Q2].
    assert (V : (if n <? power i then Ok (mult i / 2 ^ (power i - n)) else if n >? power i then lsh (mult i) (n - power i) else Ok (mult i)) = Ok (uv i / 2 ^ (N - n))
      /\ - 2 ^ n <= uv i / 2 ^ (N - n) <= 2 * 2 ^ n).
    { assert (K : uv i / 2 ^ (N - n) <= k) by (apply Z.div_le_upper_bound; lia).
      assert (K2 : - 2 ^ n <= uv i / 2 ^ (N - n)).
      { apply Z.div_le_lower_bound; [lia|]. unfold uv. 
        assert (E : 2 ^ (N - n) * 2 ^ n = 2 ^ N) by (rewrite <- Z.pow_add_r by lia; f_equal; lia).
        assert (E' : 2 ^ power i * 2 ^ (N - power i) = 2 ^ N) by (rewrite <- Z.pow_add_r by lia; f_equal; lia).
        assert (C' := pow2_pos (N - power i) ltac:(lia)). nia. }
      split; [|lia]. destruct (n <? power i) eqn:E3; [|destruct (n >? power i) eqn:E4].
      - f_equal. unfold uv. replace (N - n) with ((power i - n) + (N - power i)) by lia. rewrite Z.pow_add_r by lia.
        symmetry. apply Z.div_mul_cancel_r; [assert (X := pow2_pos (power i - n) ltac:(lia)); lia|assert (X := pow2_pos (N - power i) ltac:(lia)); lia].
      - rewrite lsh_ok by lia. f_equal. unfold uv. replace (N - power i) with ((n - power i) + (N - n)) by lia. rewrite Z.pow_add_r by lia.
        rewrite Z.mul_assoc, Z.div_mul by lia. reflexivity.
      - f_equal. unfold uv. replace (power i) with n by lia. rewrite Z.div_mul by lia. reflexivity. }
    destruct V as [V1 V2]. destruct (IH F' _ V2) as [I1 I2].
    destruct (n <? power i); [injection V1 as ->; auto|]. destruct (n >? power i); [rewrite V1; cbn [bind]; auto|injection V1 as ->; auto].
  Qed.
  Lemma get_next_eval k n l : 1 <= n <= N -> Forall pok l -> - 2 ^ n <= k <= 2 * 2 ^ n ->
    get_next (mkDI k n Clopen) l = Ok (mkDI (pskip k n (map uvp l) - 1) n Clopen).
  Proof.
    intros Hn F Hk. unfold get_next. cbn [di_k di_n di_t]. destruct (skip_loop_eval n l Hn F k Hk) as [-> B]. cbn [bind].
    assert (C := pow_28 n ltac:(lia)). rewrite i32_ok by (unfold INT_MIN, INT_MAX; lia). reflexivity.
  Qed.

  (** Unit values of the ends of an expanded interval. *)
  Definition cinf (c : Z * Z) : Z := fst c * 2 ^ (N - snd c).
  Definition csup (c : Z * Z) : Z := (fst c + 1) * 2 ^ (N - snd c).
  Definition fv (l : list (Z * Z)) : Z := match l with [] => 0 | c :: _ => cinf c end.
  Definition bv (l : list (Z * Z)) : Z := csup (last l (0, 0)).
  Lemma expand_eval k n (sn : seen) : inu k n -> Forall pok sn ->
    exists sn', expand pred N (mkDI k n Clopen) sn = Ok sn' /\ map uvp sn' = pput (bv (pE k n)) (fv (pE k n)) (map uvp sn) /\ Forall pok sn'.
  Proof.
    intros H F. unfold expand. rewrite expand_left_eval by auto. cbn [bind]. rewrite expand_right_eval by auto. cbn [bind].
    assert (CE := pE_cells k n H). unfold pE in *. destruct (pEL_app k n) as (l & E). destruct (pR_app (lev n) (k + 1) n (pEL k n)) as (r & E2).
    set (L := pR _ _ _ _) in *.
    destruct L as [|c L'] eqn:EL; [rewrite E in E2; destruct l; discriminate|].
    cbn [map]. assert (EX : last (c2d c :: map c2d L') (c2d c) = c2d (last (c :: L') (0, 0))).
    { assert (NE : c :: L' <> []) by discriminate. destruct (exists_last NE) as (l0 & a & El). rewrite El. 
      change (c2d c :: map c2d L') with (map c2d (c :: L')). rewrite El, map_app. cbn [map]. rewrite !last_last. reflexivity. }
    rewrite EX. set (c1 := last (c :: L') (0, 0)) in *.
    assert (I1 : In c1 (c :: L')). { assert (NE : c :: L' <> []) by discriminate. destruct (exists_last NE) as (l0 & a & El). unfold c1. rewrite El, last_last. apply in_or_app. right. left. auto. }
    rewrite Forall_forall in CE. assert (B1 := CE _ I1). assert (B0 := CE c (or_introl eq_refl)).
    destruct B1 as [B1 B1']. destruct B0 as [B0 B0']. rewrite pow_S in * by lia.
    unfold dsup, dinf, c2d, dexcluded. cbn [di_t unit unit_t di_k di_n bind]. unfold unit; cbn [di_t unit_t].
    rewrite (i32r (fst c1 + 1) (snd c1)) by lia. cbn [bind].
    destruct (seen_put_eval (mkD (fst c1 + 1) (snd c1)) (dincluded (mkDI (fst c) (snd c) Clopen)) sn) as (sn' & -> & M & F'); auto.
    - split; cbn [mult power]; lia.
    - unfold dincluded, di_d. split; cbn [mult power di_k di_n]; lia.
    - exists sn'. split; [reflexivity|]. split; [|auto]. rewrite M. unfold uv, dincluded, di_d. cbn [mult power di_k di_n]. reflexivity.
  Qed.

  Fixpoint plevel (fuel : nat) (k n : Z) (sn : list (Z * Z)) : list (Z * Z) :=
    match fuel with
    | O => sn
    | S f =>
        if k >=? 0 then
          let sn' := if G k n then pput (bv (pE k n)) (fv (pE k n)) sn else sn in
          plevel f (pskip k n sn' - 1) n sn'
        else sn
    end.
  Fixpoint pdepth (todo : nat) (d : Z) (sn : list (Z * Z)) : list (Z * Z) :=
    match todo with
    | O => sn
    | S t => pdepth t (d + 1) (plevel (S (Z.to_nat (2 ^ d))) (pskip (2 ^ d) d sn - 1) d sn)
    end.
  Lemma level_loop_eval n : 1 <= n <= N -> forall fuel k (sn : seen), -1 - 2 ^ n <= k < 2 ^ n -> (Z.to_nat (k + 1) < fuel)%nat -> Forall pok sn ->
    exists sn', level_loop pred N fuel (mkDI k n Clopen) sn = Ok sn' /\ map uvp sn' = plevel fuel k n (map uvp sn) /\ Forall pok sn'.
  Proof.
    intros Hn. induction fuel as [|fuel IH]; intros k sn Hk Hf F; [lia|]. cbn [level_loop plevel di_k].
    destruct (k >=? 0) eqn:E; [|eauto]. 
    rewrite Hpred by (unfold bnd; rewrite pow_S by lia; lia). cbn [bind].
    assert (S1 : exists sn1 : seen, (if G k n then expand pred N (mkDI k n Clopen) sn else @Ok seen sn) = @Ok seen sn1 /\
       map uvp sn1 = (if G k n then pput (bv (pE k n)) (fv (pE k n)) (map uvp sn) else map uvp sn) /\ Forall pok sn1).
    { destruct (G k n); [apply expand_eval; [split; lia|auto]|eauto]. }
    destruct S1 as (sn1 & -> & M & F1). cbn [bind]. rewrite get_next_eval by (auto; lia). cbn [bind]. rewrite <- M.
    assert (L := pskip_le n (map uvp sn1) Hn k). destruct (skip_loop_eval n sn1 Hn F1 k ltac:(lia)) as [_ B].
    apply IH; auto; lia.
  Qed.
  Lemma depth_loop_eval todo : forall d (sn : seen), 1 <= d -> d + Z.of_nat todo = N + 1 -> Forall pok sn ->
    exists sn', depth_loop pred N todo d sn = Ok sn' /\ map uvp sn' = pdepth todo d (map uvp sn) /\ Forall pok sn'.
  Proof.
    induction todo as [|t IH]; intros d sn Hd E F; cbn [depth_loop pdepth]; [eauto|].
    assert (P := pow_28 d ltac:(lia)).
    assert (L1 : lsh 1 d = Ok (2 ^ d)). { unfold lsh. replace ((0 <=? d) && (d <=? 31)) with true by lia. rewrite Z.mul_1_l. apply i32_ok. unfold INT_MIN, INT_MAX. lia. }
    rewrite L1. cbn [bind]. rewrite get_next_eval by (auto; lia). cbn [bind].
    assert (L := pskip_le d (map uvp sn) ltac:(lia) (2 ^ d)). destruct (skip_loop_eval d sn ltac:(lia) F (2 ^ d) ltac:(lia)) as [_ B].
    destruct (level_loop_eval d ltac:(lia) (S (Z.to_nat (2 ^ d))) (pskip (2 ^ d) d (map uvp sn) - 1) sn) as (sn1 & -> & M & F1); [lia|lia|auto|].
    cbn [bind]. rewrite <- M. apply IH; auto; lia.
  Qed.
  Theorem find_eval : exists sn, find_in_unit pred N = Ok (rev (map (fun p => ri_make (to_param (snd p)) (to_param (fst p)) Clopen) sn)) /\
    map uvp sn = pdepth (Z.to_nat N) 1 [] /\ Forall pok sn.
  Proof.
    unfold find_in_unit. destruct (depth_loop_eval (Z.to_nat N) 1 []) as (sn & -> & M & F); [lia|lia|constructor|].
    exists sn. cbn [bind]. auto.
  Qed.
End Pure.
