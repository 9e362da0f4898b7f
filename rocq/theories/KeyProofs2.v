From Coq Require Import ZArith List Bool Lia ZifyBool Arith.
Import ListNotations.
From Verif Require Import Outcome Mem Words HssModel HssProofs KeyModel KeyProofs.
Open Scope Z_scope.

(** ** Bisection *)
Lemma bisect_ok pred (P : Z -> bool) n q : (forall j, 0 <= j < n -> pred j = Ok (P j)) -> 0 <= q <= n ->
  (forall j, 0 <= j < q -> P j = true) -> (forall j, q <= j < n -> P j = false) ->
  forall fuel first len, Z.of_nat fuel >= len -> 0 <= first -> first <= q <= first + len -> first + len <= n -> bisect fuel pred first len = Ok q.
Proof.
  intros HP Hq T F. induction fuel as [|fuel IH]; intros first len Hf H0 Hr Hn; cbn [bisect].
  - destruct (Z.leb_spec len 0); [f_equal; lia|lia].
  - destruct (Z.leb_spec len 0); [f_equal; lia|].
    assert (H2 : 0 <= len / 2 < len) by (split; [apply Z.div_pos; lia|apply Z.div_lt_upper_bound; lia]).
    rewrite HP by lia. cbn [bind]. destruct (P (first + len / 2)) eqn:E.
    + assert (first + len / 2 < q). { destruct (Z_lt_le_dec (first + len / 2) q); [auto|]. rewrite F in E by lia. discriminate. }
      apply IH; lia.
    + assert (q <= first + len / 2). { destruct (Z_le_gt_dec q (first + len / 2)); [auto|]. rewrite T in E by lia. discriminate. }
      apply IH; lia.
Qed.

(** ** Coordinates *)
Definition sized (w N : Z) : Prop := words_below w (Z.to_nat N + 2) < 2 ^ 64.
Lemma wb_small w N n : 0 < w -> sized w N -> (n <= Z.to_nat N + 2)%nat -> u64 (words_below w n) = words_below w n.
Proof. intros Hw Hs Hn. apply u64_small. split; [apply words_below_nonneg; auto|]. apply Z.le_lt_trans with (2 := Hs). apply words_below_mono; auto. Qed.
Lemma size_at w N B d : 0 < w -> sized w N -> tb_ok w N B -> 0 <= d <= N + 1 -> bget (tb_sizes B) d = Ok (words_below w (S (Z.to_nat d))).
Proof.
  intros Hw Hs (_ & _ & _ & Lz & _ & Vz) Hd. rewrite bget_ok by lia. rewrite <- (Z2Nat.id d) at 1 by lia. rewrite Vz by lia. f_equal. apply (wb_small w N); auto. lia.
Qed.
Lemma start_ok w N B d : 0 < w -> sized w N -> tb_ok w N B -> 0 <= d <= N + 2 -> start_of_degree B d = Ok (words_below w (Z.to_nat d)).
Proof.
  intros Hw Hs T Hd. unfold start_of_degree. destruct (Z.eqb_spec d 0) as [->|]; [reflexivity|]. rewrite (size_at w N) by (auto; lia). do 2 f_equal. lia.
Qed.
Lemma key_to_index_ok w N B u : packs w N -> sized w N -> tb_ok w N B -> letters_ok w u -> Z.of_nat (length u) <= N -> key_to_index B (wkey w u) = Ok (pos w u).
Proof.
  intros P Hs T L Hl. assert (Hw : 0 < w) by (destruct P; lia). unfold key_to_index. rewrite (wkey_deg w N), (wkey_idx w N) by auto.
  rewrite (start_ok w N) by (auto; lia). cbn [bind]. f_equal. rewrite Nat2Z.id. unfold pos. apply u64_small.
  assert (Q := pos_bound w Hw u (S (Z.to_nat N)) L). unfold pos in Q. unfold sized in Hs. replace (Z.to_nat N + 2)%nat with (S (S (Z.to_nat N))) in Hs by lia. lia.
Qed.
Lemma index_to_key_at w N B n i : packs w N -> sized w N -> tb_ok w N B -> Z.of_nat n <= N + 1 -> words_below w n <= i < words_below w (S n) ->
  index_to_key B i = Ok (mk_key (Z.of_nat n) (i - words_below w n)).
Proof.
  intros P Hs T Hn Hi. assert (Hw : 0 < w) by (destruct P; lia). assert (HN : 0 <= N) by (destruct P as (_ & ? & _); lia). unfold index_to_key.
  assert (Lz : blen (tb_sizes B) = N + 2) by (apply T).
  destruct (Z.eqb_spec i 0) as [->|].
  - destruct n as [|n]; [reflexivity|]. exfalso. assert (Q := words_below_mono w Hw 1 (S n) ltac:(lia)). change (words_below w 1) with (0 + w ^ 0) in Q. rewrite Z.pow_0_r in Q. lia.
  - assert (n <> O). { intros ->. cbn in Hi. lia. }
    rewrite (bisect_ok _ (fun j => words_below w (S (Z.to_nat j)) <=? i) (blen (tb_sizes B)) (Z.of_nat n)); try (rewrite Lz; lia).
    + cbn [bind]. rewrite Lz. destruct (Z.eqb_spec (Z.of_nat n) (N + 2)); [lia|]. rewrite (size_at w N) by (auto; lia). cbn [bind].
      replace (S (Z.to_nat (Z.of_nat n - 1))) with n by lia. do 2 f_equal. apply u64_small.
      assert (Q := wb_small w N (S n) Hw Hs). assert (Q2 := u64_range (words_below w (S n))). assert (Q3 := words_below_nonneg w Hw n). lia.
    + intros j Hj. rewrite (size_at w N) by (auto; lia). reflexivity.
    + intros j Hj. apply Z.leb_le. apply Z.le_trans with (words_below w n); [apply words_below_mono; auto; lia|lia].
    + intros j Hj. apply Z.leb_gt. apply Z.lt_le_trans with (words_below w (S n)); [lia|]. apply words_below_mono; auto; lia.
    + lia.
Qed.
Lemma index_to_key_ok w N B u : packs w N -> sized w N -> tb_ok w N B -> letters_ok w u -> Z.of_nat (length u) <= N -> index_to_key B (pos w u) = Ok (wkey w u).
Proof.
  intros P Hs T L Hl. assert (Hw : 0 < w) by (destruct P; lia). assert (Bu := idx_bound w Hw u L).
  rewrite (index_to_key_at w N B (length u)); auto; [|lia|cbn [words_below]; unfold pos; lia]. unfold wkey, pos. do 2 f_equal. lia.
Qed.
Lemma index_to_key_end w N B i : packs w N -> sized w N -> tb_ok w N B -> words_below w (Z.to_nat N + 2) <= i -> index_to_key B i = Ok (mk_key 0 0).
Proof.
  intros P Hs T Hi. assert (Hw : 0 < w) by (destruct P; lia). assert (HN : 0 <= N) by (destruct P as (_ & ? & _); lia). unfold index_to_key.
  assert (Lz : blen (tb_sizes B) = N + 2) by (apply T).
  destruct (Z.eqb_spec i 0) as [->|]; [reflexivity|].
  rewrite (bisect_ok _ (fun j => words_below w (S (Z.to_nat j)) <=? i) (blen (tb_sizes B)) (N + 2)); try (rewrite Lz; lia).
  - cbn [bind]. rewrite Lz, Z.eqb_refl. reflexivity.
  - intros j Hj. rewrite (size_at w N) by (auto; lia). reflexivity.
  - intros j Hj. apply Z.leb_le. apply Z.le_trans with (words_below w (Z.to_nat N + 2)); [apply words_below_mono; auto; lia|lia].
  - lia.
Qed.
Lemma sizes_ok w N B d : packs w N -> sized w N -> tb_ok w N B ->
  (0 <= d <= N -> size_of_degree B d = Ok (w ^ d)) /\ (0 <= d <= N + 1 -> tb_size B d = Ok (words_below w (S (Z.to_nat d)))) /\ (d < 0 -> tb_size B d = Ok (words_below w (S (Z.to_nat N)))).
Proof.
  intros P Hs T. assert (Hw : 0 < w) by (destruct P; lia). split; [|split]; intros Hd.
  - apply (power_at w N); auto.
  - unfold tb_size. destruct (Z.geb_spec d 0); [|lia]. apply (size_at w N); auto.
  - unfold tb_size. destruct (Z.geb_spec d 0); [lia|]. assert (E : tb_depth B = N) by apply T. rewrite E. apply (size_at w N); auto. destruct P as (_ & ? & _); lia.
Qed.

(** ** Successor *)
Lemma advance_at w N B d i : packs w N -> tb_ok w N B -> 0 <= d <= N -> 0 <= i < w ^ d ->
  advance_key B (mk_key d i) = Ok (if i + 1 =? w ^ d then mk_key (d + 1) 0 else mk_key d (i + 1)).
Proof.
  intros P T Hd Hi. assert (Q := packs_pow w N d P Hd). assert (HN : N < 255) by (destruct P as (_ & ? & _); lia). unfold advance_key.
  rewrite key_deg by lia. rewrite (power_at w N) by auto. cbn [bind]. f_equal. unfold k_succ. rewrite mk_key_val by lia.
  rewrite u64_small by lia. rewrite k_index_val.
  destruct (Z.eqb_spec (i + 1) (w ^ d)) as [E|NE].
  - destruct (Z.eq_dec (w ^ d) (2 ^ 56)) as [E2|NE2].
    + replace (d * 2 ^ 56 + i + 1) with ((d + 1) * 2 ^ 56) by lia. rewrite Z.mod_mul by lia. destruct (Z.geb_spec 0 (w ^ d)); [lia|]. rewrite mk_key_val by lia. lia.
    + rewrite <- Z.add_assoc, Z.add_comm, Z.mod_add, Z.mod_small by lia. destruct (Z.geb_spec (i + 1) (w ^ d)); [reflexivity|lia].
  - rewrite <- Z.add_assoc. rewrite (Z.add_comm (d * 2 ^ 56)), Z.mod_add, Z.mod_small by lia. destruct (Z.geb_spec (i + 1) (w ^ d)); [lia|].
    rewrite mk_key_val by lia. lia.
Qed.
Lemma advance_ok w N B u v : packs w N -> tb_ok w N B -> letters_ok w u -> letters_ok w v -> Z.of_nat (length u) <= N -> pos w v = pos w u + 1 -> advance_key B (wkey w u) = Ok (wkey w v).
Proof.
  intros P T Lu Lv Hu E. assert (Hw : 0 < w) by (destruct P; lia). assert (Bu := idx_bound w Hw u Lu). assert (Bv := idx_bound w Hw v Lv).
  unfold wkey at 1. rewrite (advance_at w N) by (auto; lia). f_equal. unfold pos in E.
  destruct (Z.eqb_spec (idx w u + 1) (w ^ Z.of_nat (length u))) as [E2|NE].
  - assert (E3 : words_below w (length v) + idx w v = words_below w (S (length u)) + 0) by (cbn [words_below]; lia).
    assert (PP : 0 < w ^ Z.of_nat (S (length u))) by (apply Z.pow_pos_nonneg; lia).
    destruct (level_unique w Hw _ _ _ _ Bv (conj (Z.le_refl 0) PP) E3) as [El Ei]. unfold wkey. rewrite El, Ei. f_equal. lia.
  - assert (E3 : words_below w (length v) + idx w v = words_below w (length u) + (idx w u + 1)) by lia.
    assert (B2 : 0 <= idx w u + 1 < w ^ Z.of_nat (length u)) by lia.
    destruct (level_unique w Hw _ _ _ _ Bv B2 E3) as [El Ei]. unfold wkey. rewrite El, Ei. reflexivity.
Qed.
Lemma advance_last w N B u : packs w N -> tb_ok w N B -> letters_ok w u -> Z.of_nat (length u) = N -> pos w u = words_below w (S (Z.to_nat N)) - 1 -> advance_key B (wkey w u) = Ok (mk_key (N + 1) 0).
Proof.
  intros P T Lu Hu E. assert (Hw : 0 < w) by (destruct P; lia). assert (Bu := idx_bound w Hw u Lu). unfold wkey at 1. rewrite (advance_at w N) by (auto; lia).
  unfold pos in E. replace (S (Z.to_nat N)) with (S (length u)) in E by lia. cbn [words_below] in E.
  destruct (Z.eqb_spec (idx w u + 1) (w ^ Z.of_nat (length u))); [|lia]. rewrite Hu. reflexivity.
Qed.

(** ** Digit loops *)
Lemma snoc_div w u x : 0 < w -> 0 <= x < w -> idx w (u ++ [x]) / w = idx w u /\ idx w (u ++ [x]) mod w = x.
Proof. intros Hw Hx. rewrite (idx_snoc w Hw). split; [rewrite Z.div_add_l by lia; rewrite Z.div_small; lia|]. rewrite Z.add_comm, Z.mod_add by lia. apply Z.mod_small; auto. Qed.
Lemma snoc_sub w u x : 0 < w < 2 ^ 31 -> 0 <= x < w -> 0 <= idx w (u ++ [x]) < 2 ^ 64 -> u64 (idx w (u ++ [x]) - u64 (idx w u * u64 w)) = x.
Proof.
  intros Hw Hx Hi. rewrite mod_mul_r. unfold u64. rewrite Zminus_mod_idemp_r. rewrite (idx_snoc w) by lia. replace (idx w u * w + x - idx w u * w) with x by lia. apply Z.mod_small. lia.
Qed.
Lemma idx_le_snoc w u x : 0 < w -> letters_ok w u -> 0 <= x -> 0 <= idx w u <= idx w (u ++ [x]).
Proof. intros Hw Lu Hx. rewrite (idx_snoc w Hw). assert (Bu := idx_bound w Hw u Lu). nia. Qed.
Lemma reverse_loop w : 0 < w < 2 ^ 31 -> forall u, letters_ok w u -> idx w u < 2 ^ 64 -> forall r, reverse_idx_loop (length u) w (idx w u) (u64 r) = Ok (u64 (r * w ^ Z.of_nat (length u) + idx w (rev u))).
Proof.
  intros Hw. induction u as [|x u IH] using rev_ind; intros L Hi r.
  - cbn. rewrite Z.mul_1_r, Z.add_0_r. reflexivity.
  - apply Forall_app in L. destruct L as [Lu Lx]. inversion Lx; subst. rewrite app_length. cbn [length]. replace (length u + 1)%nat with (S (length u)) by lia.
    cbn [reverse_idx_loop]. rewrite (u64_small w) by lia. destruct (Z.eqb_spec w 0); [lia|]. destruct (snoc_div w u x) as [D _]; try lia. rewrite D.
    assert (Bs := idx_le_snoc w u x ltac:(lia) Lu ltac:(lia)).
    assert (SS := snoc_sub w u x Hw ltac:(lia) ltac:(lia)). rewrite (u64_small w) in SS by lia. rewrite SS.
    replace (u64 (u64 (u64 r * w) + x)) with (u64 (r * w + x)) by (rewrite mod_mul_l; unfold u64; rewrite Zplus_mod_idemp_l; reflexivity).
    rewrite IH by (auto; lia). do 2 f_equal. rewrite rev_app_distr. cbn [rev app idx]. rewrite rev_length. rewrite (pow_S w) by lia. ring.
Qed.
Lemma reverse_key_ok w N B u : packs w N -> tb_ok w N B -> letters_ok w u -> Z.of_nat (length u) <= N -> reverse_key B (wkey w u) = Ok (wkey w (rev u)).
Proof.
  intros P T L Hl. assert (Hw : 0 < w) by (destruct P; lia). destruct (idx_packs w N u P L Hl). destruct (idx_packs w N (rev u) P (letters_ok_rev w u L)) as [? ?]; [rewrite rev_length; auto|].
  unfold reverse_key. rewrite (wkey_deg w N), (wkey_idx w N) by auto. rewrite Nat2Z.id. assert (TW : tb_width B = w) by apply T. rewrite TW.
  change 0 with (u64 0). rewrite reverse_loop by (auto; destruct P; lia). cbn [bind]. f_equal. unfold wkey. rewrite rev_length. f_equal. apply u64_small. lia.
Qed.
Lemma letters_loop w : 0 < w < 2 ^ 31 -> forall u, letters_ok w u -> idx w u < 2 ^ 64 -> forall t, key_letters_loop (length u) w (idx w u) t = Ok (t ++ map (Z.add 1) (rev u)).
Proof.
  intros Hw. induction u as [|x u IH] using rev_ind; intros L Hi t.
  - cbn. rewrite app_nil_r. reflexivity.
  - apply Forall_app in L. destruct L as [Lu Lx]. inversion Lx; subst. rewrite app_length. cbn [length]. replace (length u + 1)%nat with (S (length u)) by lia.
    cbn [key_letters_loop]. rewrite (u64_small w) by lia. destruct (Z.eqb_spec w 0); [lia|]. destruct (snoc_div w u x) as [D M]; try lia. rewrite D, M.
    assert (Bs := idx_le_snoc w u x ltac:(lia) Lu ltac:(lia)). rewrite IH by (auto; lia). rewrite rev_app_distr. cbn [rev app map]. rewrite <- app_assoc. reflexivity.
Qed.
Lemma key_letters_ok w N B u : packs w N -> tb_ok w N B -> letters_ok w u -> Z.of_nat (length u) <= N -> key_letters B (wkey w u) = Ok (map (Z.add 1) u).
Proof.
  intros P T L Hl. destruct (idx_packs w N u P L Hl).
  unfold key_letters. rewrite (wkey_deg w N), (wkey_idx w N) by auto. rewrite Nat2Z.id. assert (TW : tb_width B = w) by apply T. rewrite TW.
  rewrite letters_loop by (auto; destruct P; lia). cbn [bind app]. rewrite <- map_rev, rev_involutive. reflexivity.
Qed.

(** ** Unpacked words *)
Lemma unpack_loop_ok w : 0 < w <= 2 ^ 16 -> forall u, letters_ok w u -> idx w u < 2 ^ 64 -> unpack_loop (length u) w (idx w u) = Ok (rev u).
Proof.
  intros Hw. induction u as [|x u IH] using rev_ind; intros L Hi; [reflexivity|].
  apply Forall_app in L. destruct L as [Lu Lx]. inversion Lx; subst. rewrite app_length. cbn [length]. replace (length u + 1)%nat with (S (length u)) by lia.
  assert (Bs := idx_le_snoc w u x ltac:(lia) Lu ltac:(lia)).
  cbn [unpack_loop]. assert (SS := snoc_sub w u x ltac:(lia) ltac:(lia) ltac:(lia)). rewrite (u64_small w) in * by lia. destruct (Z.eqb_spec w 0); [lia|].
  destruct (snoc_div w u x) as [D _]; try lia. rewrite D, SS. rewrite IH by (auto; lia). cbn [bind]. rewrite rev_app_distr. cbn [rev app]. do 2 f_equal. apply Z.mod_small. lia.
Qed.
Lemma unpack_ok w N u : packs w N -> w <= 2 ^ 16 -> letters_ok w u -> Z.of_nat (length u) <= N -> unpack w (wkey w u) = Ok (uw_of_list w u).
Proof.
  intros P H16 L Hl. destruct (idx_packs w N u P L Hl). unfold unpack. rewrite (wkey_deg w N), (wkey_idx w N) by auto. rewrite Nat2Z.id.
  rewrite unpack_loop_ok by (auto; destruct P; lia). reflexivity.
Qed.
Lemma pack_fold w : 0 < w < 2 ^ 31 -> forall u r, letters_ok w u -> fold_left (fun r x => u64 (u64 (r * u64 w) + (0 + x))) u (u64 r) = u64 (r * w ^ Z.of_nat (length u) + idx w u).
Proof.
  intros Hw. induction u as [|x u IH]; intros r L; cbn [fold_left].
  - cbn. rewrite Z.mul_1_r, Z.add_0_r. reflexivity.
  - inversion L; subst. rewrite u64_mul. replace (u64 (u64 (r * w) + (0 + x))) with (u64 (r * w + x)) by (unfold u64; rewrite Zplus_mod_idemp_l; reflexivity).
    rewrite IH by auto. f_equal. cbn [length idx]. rewrite (pow_S w) by lia. ring.
Qed.
Lemma to_index_ok w N u : packs w N -> letters_ok w u -> Z.of_nat (length u) <= N -> uw_to_index (uw_of_list w u) = idx w u.
Proof.
  intros P L Hl. destruct (idx_packs w N u P L Hl). unfold uw_to_index, pack_with_base, uw_of_list. cbn [uw_data uw_width]. rewrite rev_involutive.
  change 0 with (u64 0) at 2. rewrite pack_fold by (auto; destruct P; lia). apply u64_small. lia.
Qed.
Lemma pack_ok w N u : packs w N -> letters_ok w u -> Z.of_nat (length u) <= N -> pack (uw_of_list w u) = wkey w u.
Proof. intros P L Hl. unfold pack. rewrite (to_index_ok w N) by auto. cbn [uw_of_list uw_data]. rewrite rev_length. reflexivity. Qed.
Lemma to_reverse_index_ok w N u : packs w N -> letters_ok w u -> Z.of_nat (length u) <= N -> uw_to_reverse_index (uw_of_list w u) = idx w (rev u).
Proof.
  intros P L Hl. destruct (idx_packs w N (rev u) P (letters_ok_rev w u L)) as [? ?]; [rewrite rev_length; auto|].
  unfold uw_to_reverse_index. cbn [uw_of_list uw_data uw_width].
  replace (fold_left (fun r x => u64 (u64 (r * u64 w) + x)) (rev u) 0) with (fold_left (fun r x => u64 (u64 (r * u64 w) + (0 + x))) (rev u) (u64 0)) by reflexivity.
  rewrite pack_fold by (try (apply letters_ok_rev; auto); destruct P; lia). apply u64_small. lia.
Qed.
Lemma pack_base w base u o : uw_width u = w -> uw_width (uw_reverse u) = w /\ uw_data (uw_reverse u) = rev (uw_data u) /\ pack_with_base (uw_reverse u) base o = fold_left (fun r x => u64 (u64 (r * u64 base) + (o + x))) (uw_data u) 0.
Proof. intros. cbn. split; [auto|split; [auto|]]. unfold pack_with_base. cbn [uw_reverse uw_data]. rewrite rev_involutive. reflexivity. Qed.

(** advance: little-endian addition *)
Lemma advance_data_ok w : 1 <= w -> forall l n, letters_ok w l -> 1 <= n -> w - 1 + n < 2 ^ 16 ->
  letters_ok w (advance_data w l n) /\ length (advance_data w l n) = length l /\ idx w (rev (advance_data w l n)) = (idx w (rev l) + n) mod w ^ Z.of_nat (length l).
Proof.
  intros Hw. induction l as [|x l IH]; intros n L Hn Hb.
  - cbn. split; [auto|split; [auto|]]. rewrite Z.mod_1_r. reflexivity.
  - inversion L as [|? ? Hx Ll]; subst. cbn [advance_data].
    assert (Bl := idx_bound w ltac:(lia) (rev l) (letters_ok_rev w l Ll)). rewrite rev_length in Bl.
    assert (U : u16 (x + n) = x + n) by (apply Z.mod_small; lia). rewrite U.
    assert (PP : 0 < w ^ Z.of_nat (length l)) by (apply Z.pow_pos_nonneg; lia).
    assert (R : forall y l', idx w (rev (y :: l')) = idx w (rev l') * w + y) by (intros; cbn [rev]; apply idx_snoc; lia).
    cbn [length]. rewrite (pow_S w) by lia. rewrite (R x l).
    destruct (Z.geb_spec (x + n) w) as [G|G].
    + assert (C1 : 1 <= (x + n) / w) by (apply Z.div_le_lower_bound; lia).
      assert (C2 : (x + n) / w <= n) by (apply Z.lt_succ_r, Z.div_lt_upper_bound; nia).
      destruct (IH ((x + n) / w) Ll ltac:(lia) ltac:(lia)) as (I1 & I2 & I3).
      destruct (Z.gtb_spec ((x + n) / w) 0); [|lia].
      assert (M : x + n - (x + n) / w * w = (x + n) mod w) by (rewrite Z.mod_eq by lia; lia). rewrite M.
      assert (Bm := Z.mod_pos_bound (x + n) w ltac:(lia)). assert (U2 : u16 ((x + n) mod w) = (x + n) mod w) by (apply Z.mod_small; lia). rewrite U2.
      split; [constructor; [lia|auto]|split; [cbn [length]; lia|]].
      rewrite R, I3. replace (idx w (rev l) * w + x + n) with ((idx w (rev l) + (x + n) / w) * w + (x + n) mod w) by (assert (Q := Z.div_mod (x + n) w ltac:(lia)); lia).
      set (a := idx w (rev l) + (x + n) / w). set (b := (x + n) mod w) in *. set (p := w ^ Z.of_nat (length l)) in *.
      apply (Z.mod_unique _ _ (a / p)). { left. assert (Q := Z.mod_pos_bound a p PP). nia. } assert (Q := Z.div_mod a p ltac:(lia)). nia.
    + split; [constructor; [lia|auto]|split; [reflexivity|]]. rewrite R. symmetry. rewrite Z.mod_small; [lia|]. nia.
Qed.
Lemma uw_advance_ok w u n : 1 <= w -> letters_ok w u -> 1 <= n -> w - 1 + n < 2 ^ 16 ->
  exists v, letters_ok w v /\ length v = length u /\ uw_advance (uw_of_list w u) n = uw_of_list w v /\ idx w v = (idx w u + n) mod w ^ Z.of_nat (length u).
Proof.
  intros Hw L Hn Hb. destruct (advance_data_ok w Hw (rev u) n (letters_ok_rev w u L) Hn Hb) as (A1 & A2 & A3). exists (rev (advance_data w (rev u) n)).
  split; [apply letters_ok_rev; auto|]. rewrite !rev_length in *. rewrite rev_involutive in A3. split; [auto|split; [|auto]].
  unfold uw_advance, uw_of_list. cbn [uw_width uw_data]. rewrite rev_involutive. reflexivity.
Qed.
Lemma advance_wide l : advance_data (2 ^ 16) (65535 :: l) 1 = 0 :: l.
Proof. reflexivity. Qed.
Lemma uw_at_ok w u i : 0 <= i < Z.of_nat (length u) -> uw_at (uw_of_list w u) i = Ok (nth (Z.to_nat i) u 0).
Proof.
  intros Hi. unfold uw_at. cbn [uw_of_list uw_data]. rewrite rev_length. destruct (Z.leb_spec 0 i), (Z.ltb_spec i (Z.of_nat (length u))); try lia. cbn [andb]. f_equal.
  rewrite rev_nth by lia. f_equal. lia.
Qed.
Lemma uw_mul_ok w u v : uw_mul (uw_of_list w u) (uw_of_list w v) = uw_of_list w (u ++ v).
Proof. unfold uw_mul, uw_of_list. cbn [uw_width uw_data]. rewrite Z.max_id, rev_app_distr. reflexivity. Qed.
Lemma uw_split_ok w u v : uw_split (uw_of_list w (u ++ v)) (Z.of_nat (length u)) = Ok (uw_of_list w u, uw_of_list w v).
Proof.
  unfold uw_split, uw_of_list. cbn [uw_width uw_data]. rewrite rev_length, app_length. destruct (Z.geb_spec (Z.of_nat (length u)) (Z.of_nat (length u + length v))).
  - destruct v; [|cbn [length] in *; lia]. rewrite app_nil_r. reflexivity.
  - destruct (Z.ltb_spec (Z.of_nat (length u)) 0); [lia|]. replace (Z.to_nat (Z.of_nat (length u + length v) - Z.of_nat (length u))) with (length (rev v)) by (rewrite rev_length; lia).
    rewrite rev_app_distr, skipn_app, firstn_app, skipn_all, firstn_all, Nat.sub_diag. cbn [skipn firstn app]. rewrite app_nil_r. reflexivity.
Qed.
Lemma uw_split_all w u n : Z.of_nat (length u) <= n -> uw_split (uw_of_list w u) n = Ok (uw_of_list w u, uw_of_list w []).
Proof. intros H. unfold uw_split, uw_of_list. cbn [uw_width uw_data]. rewrite rev_length. destruct (Z.geb_spec n (Z.of_nat (length u))); [reflexivity|lia]. Qed.
Lemma uw_reverse_ok w u : uw_reverse (uw_of_list w u) = uw_of_list w (rev u). Proof. reflexivity. Qed.
Lemma combine_eqb a : forall b, length a = length b -> (forallb (fun p => fst p =? snd p) (combine a b) = true <-> a = b).
Proof.
  induction a as [|x a IH]; intros [|y b] E; try discriminate; [cbn; tauto|]. cbn [combine forallb fst snd]. rewrite andb_true_iff, IH by (cbn in E; lia). rewrite Z.eqb_eq. split; [intros [-> ->]; auto|intros Q; injection Q; auto].
Qed.
Lemma uw_eqb_ok w w' u v : uw_eqb (uw_of_list w u) (uw_of_list w' v) = true <-> u = v.
Proof.
  unfold uw_eqb, uw_of_list. cbn [uw_data]. rewrite andb_true_iff, Nat.eqb_eq, !rev_length. split.
  - intros [E Q]. apply combine_eqb in Q; [|rewrite !rev_length; auto]. rewrite <- (rev_involutive u), Q, rev_involutive. auto.
  - intros ->. split; [auto|]. apply combine_eqb; auto.
Qed.
Lemma zlex_idx w : 0 < w -> forall a b, letters_ok w a -> letters_ok w b -> length a = length b -> (zlex a b = true <-> idx w a < idx w b).
Proof.
  intros Hw. induction a as [|x a IH]; intros [|y b] La Lb E; try discriminate; [cbn; split; [discriminate|lia]|]. inversion La; inversion Lb; subst. cbn in E.
  assert (Ba := idx_bound w Hw a H2). assert (Bb := idx_bound w Hw b H6). cbn [zlex idx]. assert (El : length b = length a) by lia. rewrite El in *. set (p := w ^ Z.of_nat (length a)) in *.
  destruct (Z.ltb_spec x y); [split; [intros _; nia|auto]|]. destruct (Z.ltb_spec y x); [split; [discriminate|intros; nia]|].
  assert (y = x) by lia. subst y. rewrite IH by (auto; lia). lia.
Qed.
Lemma uw_ltb_ok w u v : 0 < w -> letters_ok w u -> letters_ok w v -> (uw_ltb (uw_of_list w u) (uw_of_list w v) = true <-> pos w (rev u) < pos w (rev v)).
Proof.
  intros Hw Lu Lv. apply letters_ok_rev in Lu. apply letters_ok_rev in Lv. assert (Bu := idx_bound w Hw _ Lu). assert (Bv := idx_bound w Hw _ Lv).
  unfold uw_ltb, uw_of_list, pos in *. cbn [uw_data]. rewrite !rev_length in *. destruct (Nat.ltb_spec (length v) (length u)).
  - apply (words_below_lt w Hw) in H. split; [discriminate|lia].
  - destruct (Nat.ltb_spec (length u) (length v)).
    + apply (words_below_lt w Hw) in H0. split; [lia|auto].
    + rewrite (zlex_idx w Hw) by (auto; rewrite !rev_length; lia). replace (length v) with (length u) by lia. lia.
Qed.

(** ** The property statements *)
Lemma basis_unique w N B : packs w N -> tensor_basis w N = Ok B -> tb_ok w N B.
Proof. intros P E. destruct (tensor_basis_ok w N) as (B' & E' & T); [destruct P as (_ & ? & _); lia|]. rewrite E in E'. injection E' as ->. auto. Qed.
Lemma index_all w N B : packs w N -> sized w N -> tensor_basis w N = Ok B ->
  (forall u, letters_ok w u -> Z.of_nat (length u) <= N -> key_to_index B (wkey w u) = Ok (pos w u) /\ index_to_key B (pos w u) = Ok (wkey w u)) /\
  (forall i, words_below w (Z.to_nat N + 2) <= i -> index_to_key B i = Ok (wkey w [])) /\
  (forall d, (0 <= d <= N -> size_of_degree B d = Ok (w ^ d)) /\ (0 <= d <= N + 1 -> tb_size B d = Ok (words_below w (S (Z.to_nat d)))) /\ (d < 0 -> tb_size B d = Ok (words_below w (S (Z.to_nat N))))) /\
  (forall d, 0 <= d <= N + 2 -> start_of_degree B d = Ok (words_below w (Z.to_nat d))).
Proof.
  intros P Hs T. apply (basis_unique w N B P) in T. assert (Hw : 0 < w) by (destruct P; lia). split; [|split; [|split]].
  - intros u L Hl. split; [apply (key_to_index_ok w N)|apply (index_to_key_ok w N)]; auto.
  - intros i Hi. apply (index_to_key_end w N); auto.
  - intros d. apply (sizes_ok w N); auto.
  - intros d Hd. apply (start_ok w N); auto.
Qed.
Definition strayB : tbasis := match tensor_basis 9410 4 with Ok B => B | _ => mkTB 0 0 (mkbuf 0 (fun _ => 0)) (mkbuf 0 (fun _ => 0)) end.
Lemma index_stray : exists w N B u, packs w N /\ tensor_basis w N = Ok B /\ letters_ok w u /\ Z.of_nat (length u) <= N /\
  key_to_index B (wkey w u) = Ok (pos w u) /\ index_to_key B (pos w u) = Ok (wkey w []) /\ u <> [].
Proof.
  exists 9410, 4, strayB, [9409; 9409; 9409; 9409].
  split; [unfold packs; repeat split; vm_compute; congruence|]. split; [reflexivity|]. split; [repeat constructor; lia|]. split; [cbn; lia|]. split; [vm_compute; reflexivity|]. split; [vm_compute; reflexivity|discriminate].
Qed.
Lemma advance_all w N B u : packs w N -> tensor_basis w N = Ok B -> letters_ok w u -> Z.of_nat (length u) <= N ->
  (forall v, letters_ok w v -> pos w v = pos w u + 1 -> advance_key B (wkey w u) = Ok (wkey w v)) /\
  (Z.of_nat (length u) = N -> pos w u = words_below w (S (Z.to_nat N)) - 1 -> advance_key B (wkey w u) = Ok (mk_key (N + 1) 0)).
Proof. intros P T L H. apply (basis_unique w N B P) in T. split; intros; [apply (advance_ok w N)|apply (advance_last w N)]; auto. Qed.
Lemma letters_all w N B x u : packs w N -> tensor_basis w N = Ok B -> letters_ok w (x :: u) -> Z.of_nat (length (x :: u)) <= N ->
  first_letter B (wkey w (x :: u)) = Ok (x + 1) /\ key_of_letter (x + 1) = wkey w [x] /\ to_letter (wkey w [x]) = x + 1 /\ (is_letter (wkey w (x :: u)) = true <-> u = []).
Proof.
  intros P T L H. apply (basis_unique w N B P) in T. assert (Hw : 0 < w < 2 ^ 31) by (destruct P; lia). inversion L as [|? ? Hx Lu]; subst. rewrite zlen_cons in H.
  assert (L1 : letters_ok w [x]) by (repeat constructor; lia). assert (I1 : idx w [x] = x) by (cbn [idx length]; change (Z.of_nat 0) with 0; rewrite Z.pow_0_r; lia).
  assert (KI : k_index (wkey w [x]) = x) by (rewrite (wkey_idx w N); auto; cbn [length]; lia).
  split; [|split; [|split]].
  - unfold first_letter. destruct (lparent_ok w N B x u P T L) as [-> _]; [rewrite zlen_cons; auto|]. cbn [bind]. rewrite KI. f_equal. apply u64_small. lia.
  - unfold key_of_letter, wkey. rewrite I1. f_equal. rewrite u64_small; lia.
  - unfold to_letter. rewrite KI. apply u64_small. lia.
  - unfold is_letter. rewrite (wkey_deg w N) by (auto; rewrite zlen_cons; auto). rewrite zlen_cons. destruct u; cbn [length]; split; try discriminate; auto; lia.
Qed.
Lemma unpacked_all w N u : packs w N -> letters_ok w u -> Z.of_nat (length u) <= N ->
  (w <= 2 ^ 16 -> unpack w (wkey w u) = Ok (uw_of_list w u)) /\ pack (uw_of_list w u) = wkey w u /\ uw_to_index (uw_of_list w u) = idx w u /\
  uw_to_reverse_index (uw_of_list w u) = idx w (rev u) /\ uw_reverse (uw_of_list w u) = uw_of_list w (rev u).
Proof.
  intros P L H. split; [|split; [|split; [|split]]].
  - intros. apply (unpack_ok w N); auto.
  - apply (pack_ok w N); auto.
  - apply (to_index_ok w N); auto.
  - apply (to_reverse_index_ok w N); auto.
  - reflexivity.
Qed.
Lemma wide_lost u : uw_advance (uw_of_list (2 ^ 16) (u ++ [65535])) 1 = uw_of_list (2 ^ 16) (u ++ [0]).
Proof. unfold uw_advance, uw_of_list. cbn [uw_width uw_data]. rewrite !rev_app_distr. cbn [rev app]. rewrite advance_wide. reflexivity. Qed.
Lemma order_differs w n : 2 <= w -> (2 <= n)%nat -> exists u v, letters_ok w u /\ letters_ok w v /\ length u = n /\ length v = n /\
  uw_ltb (uw_of_list w u) (uw_of_list w v) = true /\ pos w v < pos w u.
Proof.
  intros Hw Hn. destruct n as [|[|n]]; try lia.
  assert (Z0 : letters_ok w (repeat 0 n)) by (apply Forall_forall; intros x Hx; apply repeat_spec in Hx; lia).
  set (u := 1 :: repeat 0 n ++ [0]). set (v := 0 :: repeat 0 n ++ [1]).
  assert (Lu : letters_ok w u). { constructor; [lia|]. apply Forall_app. split; [auto|repeat constructor; lia]. }
  assert (Lv : letters_ok w v). { constructor; [lia|]. apply Forall_app. split; [auto|repeat constructor; lia]. }
  assert (El : forall x, length (repeat 0 n ++ [x]) = S n) by (intros; rewrite app_length, repeat_length; cbn; lia).
  exists u, v. split; [auto|split; [auto|split; [subst u; cbn [length]; rewrite El; auto|split; [subst v; cbn [length]; rewrite El; auto|]]]].
  assert (I0 : idx w (repeat 0 n) = 0). { clear. induction n as [|n IH]; cbn [repeat idx]; lia. }
  assert (PP : 0 < w ^ Z.of_nat n) by (apply Z.pow_pos_nonneg; lia).
  split.
  - apply uw_ltb_ok; auto; [lia|]. unfold pos. rewrite !rev_length. replace (length v) with (length u) by (subst u v; cbn [length]; rewrite !El; auto).
    subst u v. cbn [rev]. rewrite !rev_app_distr. cbn [rev app idx]. rewrite !app_length, !rev_length, !repeat_length.
    assert (I : forall x, idx w (rev (repeat 0 n) ++ [x]) = x).
    { intros. rewrite (idx_snoc w) by lia. replace (rev (repeat 0 n)) with (repeat 0 n); [rewrite I0; lia|]. clear. induction n as [|n IH]; [reflexivity|]. cbn [repeat rev]. rewrite <- IH. clear. induction n as [|n IH]; [reflexivity|]. cbn [repeat app]. rewrite <- IH. reflexivity. }
    rewrite !I. cbn [length]. rewrite Nat.add_1_r, (pow_S w) by lia. nia.
  - unfold pos. replace (length v) with (length u) by (subst u v; cbn [length]; rewrite !El; auto). subst u v. cbn [idx]. rewrite !El, !(idx_snoc w), !I0 by lia. rewrite (pow_S w) by lia. nia.
Qed.
Lemma vector_reversed w u : uw_of_vector w u = uw_of_list w (rev u) /\ (uw_eqb (uw_of_vector w u) (uw_of_list w u) = true <-> rev u = u).
Proof. assert (E : uw_of_vector w u = uw_of_list w (rev u)) by (unfold uw_of_list; rewrite rev_involutive; reflexivity). split; [auto|]. rewrite E. apply uw_eqb_ok. Qed.
