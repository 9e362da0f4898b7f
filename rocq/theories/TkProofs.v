(** Proofs about words and keys. *)
From Coq Require Import ZifyBool.
From Verif Require Import TkSpec.
Open Scope Z_scope.

Definition place (w : Z) (l : list Z) : Z := fold_left (fun k a => k * w + a) l 0.
Lemma place_snoc w l a : place w (l ++ [a]) = place w l * w + a.
Proof. unfold place. now rewrite fold_left_app. Qed.
(** how many words have fewer than [n] letters *)
Fixpoint below (w : Z) (n : nat) : Z := match n with O => 0 | S n => 1 + w * below w n end.
Lemma number_below w d : number w d = below w (S d).
Proof. induction d as [|d IH]; [cbn [number below]; lia|]. cbn [number]. rewrite IH. reflexivity. Qed.
Lemma below_pow w n : below w (S n) = below w n + w ^ Z.of_nat n.
Proof.
  induction n as [|n IH]; [cbn [below]; rewrite Z.pow_0_r; lia|]. change (below w (S (S n))) with (1 + w * below w (S n)). rewrite IH at 1.
  replace (Z.of_nat (S n)) with (Z.succ (Z.of_nat n)) by lia. rewrite Z.pow_succ_r by lia. change (below w (S n)) with (1 + w * below w n). lia.
Qed.
Lemma below_geom w n : below w n * (w - 1) = w ^ Z.of_nat n - 1.
Proof.
  induction n as [|n IH]; [reflexivity|]. rewrite below_pow. replace (Z.of_nat (S n)) with (Z.succ (Z.of_nat n)) by lia. rewrite Z.pow_succ_r by lia. lia.
Qed.
Lemma below_nonneg w n : 0 <= w -> 0 <= below w n.
Proof. intros H. induction n as [|n IH]; cbn [below]; [lia|]. assert (0 <= w * below w n) by (apply Z.mul_nonneg_nonneg; assumption). lia. Qed.
Lemma below_mono w n m : 0 <= w -> (n <= m)%nat -> below w n <= below w m.
Proof.
  intros H L. induction L as [|m L IH]; [lia|]. rewrite below_pow. pose proof (Z.pow_nonneg w (Z.of_nat m) H). lia.
Qed.
Lemma below_one n : below 1 n = Z.of_nat n.
Proof. induction n as [|n IH]; [reflexivity|]. cbn [below]. rewrite IH. lia. Qed.
Lemma below_1 w : below w 1 = 1.
Proof. cbn [below]. lia. Qed.
Lemma below_2 w : below w 2 = 1 + w.
Proof. cbn [below]. lia. Qed.
Lemma below_zero n : below 0 (S n) = 1.
Proof. reflexivity. Qed.

Section Width.
  Variable w : Z.
  Hypothesis Hw : 1 <= w.
  Lemma word_snoc l a : a_word w (l ++ [a]) <-> a_word w l /\ 1 <= a <= w.
  Proof.
    unfold a_word. rewrite Forall_app. split; intros [H1 H2]; (split; [assumption|]); [now inversion H2|]. constructor; [assumption|constructor].
  Qed.
  Lemma place_bounds l : a_word w l -> below w (length l) <= place w l < below w (S (length l)).
  Proof.
    induction l as [|a l IH] using rev_ind; [cbn [length]; rewrite below_1; cbn; lia|]. intros H. apply word_snoc in H. destruct H as [H Ha]. specialize (IH H).
    rewrite place_snoc, app_length. replace (length l + length [a])%nat with (S (length l)) by (cbn; lia).
    change (below w (S (S (length l)))) with (1 + w * below w (S (length l))). change (below w (S (length l))) with (1 + w * below w (length l)) at 1.
    assert (w * below w (length l) <= w * place w l) by (apply Z.mul_le_mono_nonneg_l; lia).
    assert (w * place w l <= w * (below w (S (length l)) - 1)) by (apply Z.mul_le_mono_nonneg_l; lia). lia.
  Qed.
  Lemma place_nonneg l : a_word w l -> 0 <= place w l.
  Proof. intros H. pose proof (place_bounds l H). pose proof (below_nonneg w (length l)). lia. Qed.
  Lemma key_of_snoc l a : key_of w (l ++ [a]) = word64 (word64 (key_of w l * w) + a).
  Proof. unfold key_of. now rewrite fold_left_app. Qed.
  Lemma key_place l : a_word w l -> place w l < 2 ^ 64 -> key_of w l = place w l.
  Proof.
    induction l as [|a l IH] using rev_ind; [reflexivity|]. intros H. apply word_snoc in H. destruct H as [H Ha]. rewrite place_snoc, key_of_snoc. intros L.
    pose proof (place_nonneg l H) as P. assert (place w l * 1 <= place w l * w) by (apply Z.mul_le_mono_nonneg_l; lia).
    rewrite IH by (assumption || lia). unfold word64. rewrite (Z.mod_small (place w l * w)) by lia. rewrite Z.mod_small by lia. reflexivity.
  Qed.
  Lemma loop_place : w < 2 ^ 16 -> forall l, a_word w l -> forall fuel, (Z.to_nat (place w l) <= fuel)%nat -> letters_loop fuel w (place w l) = Ok (rev l).
  Proof.
    intros Hs. induction l as [|a l IH] using rev_ind; [intros _ [|fuel] _; reflexivity|]. intros H fuel L. apply word_snoc in H. destruct H as [H Ha].
    rewrite place_snoc in *. pose proof (place_nonneg l H) as P. assert (place w l * 1 <= place w l * w) by (apply Z.mul_le_mono_nonneg_l; lia).
    destruct fuel as [|fuel]; [lia|]. cbn [letters_loop].
    destruct (Z.eqb_spec (place w l * w + a) 0); [lia|]. destruct (Z.eqb_spec w 0); [lia|].
    replace (place w l * w + a - 1) with ((a - 1) + place w l * w) by lia. rewrite Z.div_add, Z.mod_add by lia. rewrite Z.div_small, Z.mod_small by lia. rewrite Z.add_0_l.
    rewrite IH by (assumption || lia). cbn [bind]. unfold let16. rewrite Z.mod_small by lia. rewrite rev_app_distr. replace (1 + (a - 1)) with a by lia. reflexivity.
  Qed.
  Lemma letters_place l : w < 2 ^ 16 -> a_word w l -> letters_of w (place w l) = Ok l.
  Proof. intros Hs H. unfold letters_of. rewrite loop_place by (assumption || lia). cbn. now rewrite rev_involutive. Qed.
  Lemma place_onto k : 0 <= k -> exists l, a_word w l /\ place w l = k.
  Proof.
    revert k. apply (Zlt_0_ind (fun k => exists l, a_word w l /\ place w l = k)). intros k IH H. destruct (Z.eq_dec k 0) as [->|N]; [exists []; split; [constructor|reflexivity]|].
    destruct (IH ((k - 1) / w)) as (l & Hl & E).
    { split; [apply Z.div_pos; lia|]. apply Z.le_lt_trans with (k - 1); [|lia]. apply Z.div_le_upper_bound; [lia|]. assert (1 * (k - 1) <= w * (k - 1)) by (apply Z.mul_le_mono_nonneg_r; lia). lia. }
    exists (l ++ [1 + (k - 1) mod w]). split.
    - apply word_snoc. split; [assumption|]. pose proof (Z.mod_pos_bound (k - 1) w). lia.
    - rewrite place_snoc, E. pose proof (Z.div_mod (k - 1) w). lia.
  Qed.
  Lemma place_len l d : a_word w l -> ((length l <= d)%nat <-> place w l < below w (S d)).
  Proof.
    intros H. pose proof (place_bounds l H) as B. split; intros L.
    - pose proof (below_mono w (S (length l)) (S d)). lia.
    - destruct (Nat.le_gt_cases (length l) d) as [G|G]; [assumption|]. pose proof (below_mono w (S d) (length l)). lia.
  Qed.
  Lemma fold_place l : forall k, fold_left (fun k a => k * w + a) l k = k * w ^ Z.of_nat (length l) + place w l.
  Proof.
    induction l as [|a l IH] using rev_ind; intros k; [cbn [length fold_left]; change (Z.of_nat 0) with 0; rewrite Z.pow_0_r; cbn; lia|]. rewrite fold_left_app. cbn [fold_left]. rewrite IH, place_snoc, app_length.
    replace (Z.of_nat (length l + length [a])) with (Z.succ (Z.of_nat (length l))) by (cbn; lia). rewrite Z.pow_succ_r by lia. lia.
  Qed.
  Lemma place_app l l' : place w (l ++ l') = place w l * w ^ Z.of_nat (length l') + place w l'.
  Proof. unfold place at 1. rewrite fold_left_app. fold (place w l). apply fold_place. Qed.
  Lemma place_cons a l : place w (a :: l) = a * w ^ Z.of_nat (length l) + place w l.
  Proof. change (a :: l) with ([a] ++ l). rewrite place_app. cbn. reflexivity. Qed.
  Lemma lex_place : forall l l', a_word w l -> a_word w l' -> length l = length l' -> lex l l' -> place w l < place w l'.
  Proof.
    induction l as [|a l IH]; intros [|b l'] H H' L X; try contradiction. inversion H; inversion H'; subst. injection L as L. rewrite !place_cons, L. destruct X as [X|[-> X]].
    - pose proof (place_bounds l ltac:(assumption)) as B. pose proof (place_bounds l' ltac:(assumption)) as B'. rewrite L in B. rewrite below_pow in B.
      assert ((a + 1) * w ^ Z.of_nat (length l') <= b * w ^ Z.of_nat (length l')). { apply Z.mul_le_mono_nonneg_r; [apply Z.pow_nonneg; lia|lia]. } lia.
    - specialize (IH l' ltac:(assumption) ltac:(assumption) L X). lia.
  Qed.
  Lemma before_place l l' : a_word w l -> a_word w l' -> before l l' -> place w l < place w l'.
  Proof.
    intros H H' [L|[L X]]; [|now apply lex_place]. pose proof (place_bounds l H). pose proof (place_bounds l' H'). pose proof (below_mono w (S (length l)) (length l')). lia.
  Qed.
  Lemma lex_total : forall l l', length l = length l' -> lex l l' \/ l = l' \/ lex l' l.
  Proof.
    induction l as [|a l IH]; intros [|b l'] L; try discriminate; [auto|]. injection L as L. destruct (Z.lt_trichotomy a b) as [X|[->|X]]; [left; now left| |right; right; now left].
    destruct (IH _ L) as [X|[->|X]]; [left; right; auto|auto|right; right; right; auto].
  Qed.
  Lemma place_before l l' : a_word w l -> a_word w l' -> (place w l < place w l' <-> before l l').
  Proof.
    intros H H'. split; [|now apply before_place]. intros P. destruct (Nat.lt_trichotomy (length l) (length l')) as [L|[L|L]]; [now left| |].
    - destruct (lex_total l l' L) as [X|[->|X]]; [right; auto|lia|]. assert (before l' l) by (right; auto). pose proof (before_place l' l H' H H0). lia.
    - assert (before l' l) by now left. pose proof (before_place l' l H' H H0). lia.
  Qed.
  Lemma place_inj l l' : a_word w l -> a_word w l' -> place w l = place w l' -> l = l'.
  Proof.
    intros H H' E. destruct (Nat.lt_trichotomy (length l) (length l')) as [L|[L|L]].
    - pose proof (before_place l l' H H' (or_introl L)). lia.
    - destruct (lex_total l l' L) as [X|[->|X]]; [|reflexivity|]; [pose proof (lex_place l l' H H' L X)|pose proof (lex_place l' l H' H (eq_sym L) X)]; lia.
    - pose proof (before_place l' l H' H (or_introl L)). lia.
  Qed.
End Width.

(** *** Keys *)
Lemma fits_number w d : 1 <= w -> fits w d -> number w (Z.to_nat d) < 2 ^ 64.
Proof.
  intros Hw (Hs & Hd & Hp). rewrite number_below. destruct (Z.eq_dec w 1) as [->|N].
  - rewrite below_one. lia.
  - pose proof (below_geom w (S (Z.to_nat d))) as G. replace (Z.of_nat (S (Z.to_nat d))) with (d + 1) in G by lia.
    pose proof (below_nonneg w (S (Z.to_nat d)) ltac:(lia)) as B. assert (below w (S (Z.to_nat d)) * 1 <= below w (S (Z.to_nat d)) * (w - 1)) by (apply Z.mul_le_mono_nonneg_l; lia). lia.
Qed.
Lemma usual_word k : usual k -> exists l, word_of k l /\ (length l <= Z.to_nat (tk_depth k))%nat /\ tk_key k = place (tk_width k) l.
Proof.
  intros (Hw & F & Hk). destruct (place_onto _ Hw (tk_key k)) as (l & Hl & E); [lia|]. exists l. split.
  - split; [assumption|]. unfold to_letters. rewrite <- E. apply letters_place; auto. apply F.
  - split; [|congruence]. apply (place_len _ Hw); [assumption|]. rewrite <- number_below. lia.
Qed.
Lemma word_key k l : usual k -> word_of k l -> tk_key k = place (tk_width k) l /\ (length l <= Z.to_nat (tk_depth k))%nat.
Proof.
  intros U [Hl E]. destruct (usual_word k U) as (l' & [Hl' E'] & L & P). rewrite E in E'. injection E' as <-. auto.
Qed.
Lemma word_unique k l l' : word_of k l -> word_of k l' -> l = l'.
Proof. intros [_ E] [_ E']. congruence. Qed.
Lemma key_word w d l : 1 <= w -> fits w d -> a_word w l -> (length l <= Z.to_nat d)%nat -> usual (from_letters w d l) /\ word_of (from_letters w d l) l /\ key_of w l = place w l.
Proof.
  intros Hw F Hl L. pose proof (proj1 (place_len w Hw l _ Hl) L) as P. rewrite <- number_below in P. pose proof (fits_number w d Hw F) as N.
  pose proof (place_nonneg w Hw l Hl) as P0. assert (key_of w l = place w l) as E by (apply key_place; auto; lia).
  unfold usual, word_of, to_letters, from_letters. cbn [tk_width tk_depth tk_key]. rewrite E. repeat split; auto; try lia; try apply F.
  apply letters_place; auto. apply F.
Qed.
Lemma place_key w d l : 1 <= w -> fits w d -> a_word w l -> (length l <= Z.to_nat d)%nat -> usual (mkTK w d (place w l)) /\ word_of (mkTK w d (place w l)) l.
Proof. intros Hw F Hl L. destruct (key_word w d l Hw F Hl L) as (U & W & E). unfold from_letters in *. rewrite E in *. auto. Qed.

Lemma degree_spec k l : word_of k l -> degree k = Ok (Z.of_nat (length l)).
Proof. intros [_ E]. unfold degree. rewrite E. reflexivity. Qed.
Lemma reverse_spec k l : usual k -> word_of k l -> exists r, reverse k = Ok r /\ usual r /\ word_of r (rev l) /\ tk_width r = tk_width k /\ tk_depth r = tk_depth k.
Proof.
  intros U W. pose proof W as [Hl E]. destruct (word_key k l U W) as [_ L]. destruct U as (Hw & F & _). unfold reverse. rewrite E. cbn [bind]. eexists. split; [reflexivity|].
  destruct (key_word (tk_width k) (tk_depth k) (rev l) Hw F) as (U' & W' & _); [unfold a_word in *; apply Forall_forall; intros a Ha; apply in_rev in Ha; revert a Ha; now apply Forall_forall|now rewrite rev_length|].
  auto.
Qed.
Lemma equals_spec a b la lb : usual a -> usual b -> word_of a la -> word_of b lb -> (tk_equals a b = true <-> tk_width a = tk_width b /\ la = lb).
Proof.
  intros Ua Ub Wa Wb. destruct (word_key a la Ua Wa) as [Ea _]. destruct (word_key b lb Ub Wb) as [Eb _]. unfold tk_equals. rewrite andb_true_iff, !Z.eqb_eq. split; intros [H1 H2]; split; auto.
  - apply (place_inj (tk_width a)); [apply Ua|apply Wa|rewrite H1; apply Wb|rewrite <- Ea, H2, H1; congruence].
  - subst lb. congruence.
Qed.
Lemma order_spec a b la lb : usual a -> usual b -> tk_width a = tk_width b -> word_of a la -> word_of b lb -> (tk_key a < tk_key b <-> before la lb).
Proof.
  intros Ua Ub E Wa Wb. destruct (word_key a la Ua Wa) as [-> _]. destruct (word_key b lb Ub Wb) as [-> _]. rewrite <- E. apply place_before; [apply Ua|apply Wa|rewrite E; apply Wb].
Qed.
Lemma times_spec a b la lb : usual a -> usual b -> word_of a la -> word_of b lb -> tk_width a = tk_width b -> tk_depth a = tk_depth b -> Z.of_nat (length la + length lb) <= tk_depth a ->
  exists c, times a b = Ok c /\ usual c /\ word_of c (lb ++ la) /\ tk_width c = tk_width a /\ tk_depth c = tk_depth a.
Proof.
  intros Ua Ub Wa Wb Ew Ed L. unfold times. rewrite Ew, Ed, !Z.eqb_refl. cbn [andb]. destruct Wa as [Ha Ea], Wb as [Hb Eb]. rewrite Ea, Eb. cbn. rewrite !app_nil_r. eexists. split; [reflexivity|].
  destruct (key_word (tk_width b) (tk_depth b) (lb ++ la)) as (U & W & _); [apply Ub|apply Ub|unfold a_word in *; rewrite Ew in Ha; apply Forall_app; auto|rewrite app_length; lia|]. auto.
Qed.

(** *** Splitting *)
Lemma shift_pow w n : 0 <= w -> w ^ Z.of_nat n < 2 ^ 64 -> (1 <= w) -> shift w n = w ^ Z.of_nat n.
Proof.
  intros H L Hw. induction n as [|n IH]; [reflexivity|]. cbn [shift]. replace (Z.of_nat (S n)) with (Z.succ (Z.of_nat n)) in * by lia. rewrite Z.pow_succ_r in * by lia.
  assert (0 < w ^ Z.of_nat n) by (apply Z.pow_pos_nonneg; lia). assert (1 * w ^ Z.of_nat n <= w * w ^ Z.of_nat n) by (apply Z.mul_le_mono_nonneg_r; lia).
  rewrite IH by lia. unfold word64. rewrite Z.mod_small by lia. lia.
Qed.
Lemma splits_unique l n a b a' b' : splits l n a b -> splits l n a' b' -> a = a' /\ b = b'.
Proof.
  intros [-> Hb] [E Hb']. assert (L : length b = length b') by lia. assert (length a = length a').
  { pose proof (f_equal (@length Z) E) as G. rewrite !app_length in G. lia. }
  clear - E H. revert a' H E. induction a as [|x a IH]; intros [|y a'] H E; try discriminate; [auto|]. cbn in E. injection E as -> E. injection H as H. destruct (IH _ H E) as [-> ->]. auto.
Qed.
Lemma word_empty w d : word_of (mkTK w d 0) [].
Proof. split; [constructor|reflexivity]. Qed.
Lemma split_edge k n l a b : usual k -> word_of k l -> splits l n a b -> (n <= 0 \/ tk_depth k <= n) -> split_right k n a b.
Proof.
  intros U W [-> Hb] Hn. destruct (word_key _ _ U W) as [Ek L]. rewrite app_length in *. unfold split_right, split_n. destruct (Z.eqb_spec (tk_key k) 0) as [E|N].
  - assert (a = [] /\ b = []) as [-> ->]. { assert (a ++ b = []) as H; [|destruct a, b; discriminate || auto]. destruct W as [_ W]. unfold to_letters in W. rewrite E in W. cbn in W. congruence. }
    do 2 eexists. split; [reflexivity|]. split; apply word_empty.
  - destruct (Z.leb_spec n 0) as [H0|H0].
    + assert (b = []) as -> by (destruct b; [reflexivity|cbn in Hb; lia]). rewrite app_nil_r in W. do 2 eexists. split; [reflexivity|]. split; [exact W|apply word_empty].
    + destruct (Z.leb_spec (tk_depth k) n) as [H1|H1]; [|lia]. assert (a = []) as -> by (destruct a; [reflexivity|cbn in *; lia]). do 2 eexists. split; [reflexivity|]. split; [apply word_empty|exact W].
Qed.
Lemma pow_lt w d n : 1 <= w -> fits w d -> 0 <= n < d -> w ^ n < 2 ^ 64.
Proof.
  intros Hw (Hs & Hd & Hp) Hn. destruct (Z.eq_dec w 1) as [->|N]; [rewrite Z.pow_1_l by lia; lia|]. apply Z.lt_le_trans with (w ^ (d + 1)); [|assumption]. apply Z.pow_lt_mono_r; lia.
Qed.
Lemma split_inside k n l a b : usual k -> word_of k l -> splits l n a b -> 0 < n < tk_depth k -> l <> [] -> (split_right k n a b <-> key_of (tk_width k) b <= tk_width k ^ n).
Proof.
  intros U W S Hn Nl. pose proof S as [El Hb]. destruct (word_key _ _ U W) as [Ek L]. pose proof U as (Hw & F & _). pose proof W as [Hl _]. assert (Hab : a_word (tk_width k) a /\ a_word (tk_width k) b) by (rewrite El in Hl; now apply Forall_app in Hl). destruct Hab as [Ha Hbw].
  assert (Lb : (length b <= Z.to_nat (tk_depth k))%nat) by lia. assert (La : (length a <= Z.to_nat (tk_depth k))%nat) by (rewrite El, app_length in L; lia).
  destruct (place_key (tk_width k) (tk_depth k) a Hw F Ha La) as [Ua Wa]. destruct (place_key (tk_width k) (tk_depth k) b Hw F Hbw Lb) as [Ub Wb].
  destruct (key_word (tk_width k) (tk_depth k) b Hw F Hbw Lb) as (_ & _ & ->).
  pose proof (pow_lt _ _ n Hw F ltac:(lia)) as P. set (s := tk_width k ^ n) in *. assert (Ps : 0 < s) by (apply Z.pow_pos_nonneg; lia).
  assert (Es : shift (tk_width k) (Z.to_nat n) = s) by (rewrite shift_pow; rewrite ?Z2Nat.id by lia; auto; lia).
  assert (Kp : 0 < tk_key k). { rewrite Ek. pose proof (place_bounds _ Hw _ Hl) as B. pose proof (below_mono (tk_width k) 1 (length l) ltac:(lia)) as M. destruct l; [congruence|]. cbn [length] in M. specialize (M ltac:(lia)). rewrite below_1 in M. cbn [length] in B. lia. }
  assert (ES : split_n k n = Ok (mkTK (tk_width k) (tk_depth k) ((tk_key k - 1) / s), mkTK (tk_width k) (tk_depth k) (1 + (tk_key k - 1) mod s))).
  { unfold split_n. rewrite Es. destruct (Z.eqb_spec (tk_key k) 0); [lia|]. destruct (Z.leb_spec n 0); [lia|]. destruct (Z.leb_spec (tk_depth k) n); [lia|]. destruct (Z.eqb_spec s 0); [lia|]. reflexivity. }
  unfold split_right. rewrite ES. split.
  - intros (x & y & E & _ & Wy). assert (y = mkTK (tk_width k) (tk_depth k) (1 + (tk_key k - 1) mod s)) by congruence. subst y. pose proof (Z.mod_pos_bound (tk_key k - 1) s Ps) as B.
    assert (place (tk_width k) b = 1 + (tk_key k - 1) mod s); [|lia].
    destruct (place_onto (tk_width k) Hw (1 + (tk_key k - 1) mod s) ltac:(lia)) as (b' & Hb' & Eb').
    destruct Wy as [_ Wy]. unfold to_letters in Wy. cbn [tk_width tk_key] in Wy. rewrite <- Eb' in Wy. rewrite (letters_place _ Hw) in Wy; [|apply F|assumption]. injection Wy as ->. assumption.
  - intros Q. assert (tk_key k = place (tk_width k) a * s + place (tk_width k) b /\ 1 <= place (tk_width k) b) as [Ed Pb].
    { destruct (Z.le_gt_cases n (Z.of_nat (length l))) as [G|G].
      - split.
        + rewrite Ek, El, place_app by assumption. replace (Z.of_nat (length b)) with n by lia. reflexivity.
        + pose proof (place_bounds _ Hw _ Hbw) as B. pose proof (below_mono (tk_width k) 1 (length b) ltac:(lia) ltac:(lia)) as M. rewrite below_1 in M. lia.
      - assert (a = []) as Ea by (destruct a; [reflexivity|rewrite El, app_length in *; cbn in *; lia]). subst a. cbn [app] in El. subst b. split; [cbn; lia|lia]. }
    replace (tk_key k - 1) with ((place (tk_width k) b - 1) + place (tk_width k) a * s) by lia. rewrite Z.div_add, Z.mod_add by lia. rewrite Z.div_small, Z.mod_small by lia.
    do 2 eexists. split; [reflexivity|]. split; [exact Wa|]. replace (1 + (place (tk_width k) b - 1)) with (place (tk_width k) b) by lia. exact Wb.
Qed.
Lemma split_spec k n l a b : usual k -> word_of k l -> splits l n a b -> n <= 1 \/ tk_depth k <= n -> split_right k n a b.
Proof.
  intros U W S Hn. destruct (Z.le_gt_cases n 0) as [H0|H0]; [apply (split_edge k n l); auto|]. destruct (Z.le_gt_cases (tk_depth k) n) as [H1|H1]; [apply (split_edge k n l); auto|].
  assert (n = 1) as -> by lia. destruct l as [|c l].
  { assert (a = [] /\ b = []) as [-> ->]; [destruct S as [S _]; destruct a, b; discriminate || auto|]. unfold split_right, split_n.
    destruct (word_key _ _ U W) as [E _]. cbn in E. rewrite E. cbn. do 2 eexists. split; [reflexivity|]. split; apply word_empty. }
  apply (proj2 (split_inside k 1 (c :: l) a b U W S ltac:(lia) ltac:(discriminate))). pose proof S as [E Hb]. assert (length b = 1%nat) by (cbn [length] in Hb; lia). destruct b as [|x [|y b]]; try discriminate.
  assert (1 <= x <= tk_width k). { destruct W as [W _]. rewrite E in W. apply Forall_app in W. destruct W as [_ W]. now inversion W. }
  rewrite Z.pow_1_r. unfold key_of. cbn [fold_left]. unfold word64. rewrite Z.mul_0_l, Z.mod_0_l by lia. rewrite Z.add_0_l. destruct U as (_ & (F & _) & _). rewrite Z.mod_small by lia. lia.
Qed.
Lemma split_wrong w d n : 2 <= w -> fits w d -> 2 <= n < d -> let l := repeat w (Z.to_nat n) in
  usual (from_letters w d l) /\ word_of (from_letters w d l) l /\ splits l n [] l /\ ~ split_right (from_letters w d l) n [] l.
Proof.
  intros Hw F Hn l. assert (Hl : a_word w l) by (apply Forall_forall; intros x Hx; apply repeat_spec in Hx; lia). assert (Ll : length l = Z.to_nat n) by apply repeat_length.
  destruct (key_word w d l ltac:(lia) F Hl ltac:(lia)) as (U & W & E). split; [assumption|]. split; [assumption|]. assert (SP : splits l n [] l) by (split; [reflexivity|lia]). split; [assumption|].
  rewrite (split_inside _ n l) by (auto; try (intros E0; rewrite E0 in Ll; cbn in Ll; lia); cbn; lia). cbn [tk_width from_letters]. rewrite E.
  assert (place w l = below w (S (Z.to_nat n)) - 1). { unfold l. clear - Hw. induction (Z.to_nat n) as [|m IH]; [rewrite below_1; cbn; lia|]. replace (repeat w (S m)) with (repeat w m ++ [w]) by (symmetry; apply repeat_cons). rewrite place_snoc, IH. change (below w (S (S m))) with (1 + w * below w (S m)). lia. }
  rewrite below_pow in H. rewrite Z2Nat.id in H by lia. pose proof (below_mono w 2 (Z.to_nat n) ltac:(lia) ltac:(lia)) as M. rewrite below_2 in M. lia.
Qed.
