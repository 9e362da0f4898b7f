(** Words over an alphabet of [w] letters and their coordinates.  Specification
    side: no code is mentioned. *)
From Coq Require Import ZArith Lia List Bool Permutation.
From Verif Require Import Alg.
Import ListNotations.
Open Scope Z_scope.
Arguments Z.mul : simpl never.
Arguments Z.pow : simpl never.
Arguments Z.add : simpl never.

(** A word is a list of letters 0..w-1. *)
Definition letters_ok (w : Z) (u : list Z) : Prop := Forall (fun x => 0 <= x < w) u.

(** Number of words of length < n. *)
Fixpoint words_below (w : Z) (n : nat) : Z :=
  match n with O => 0 | S n => words_below w n + w ^ Z.of_nat n end.

(** Rank of a word among the words of its length, in lexicographic order. *)
Fixpoint idx (w : Z) (u : list Z) : Z :=
  match u with [] => 0 | x :: u' => x * w ^ Z.of_nat (length u') + idx w u' end.
(** Coordinate of a word: shorter words first, then lexicographic. *)
Definition pos (w : Z) (u : list Z) : Z := words_below w (length u) + idx w u.

(** The word of length n with rank i. *)
Fixpoint unidx (w : Z) (n : nat) (i : Z) : list Z :=
  match n with O => [] | S n' => (i / w ^ Z.of_nat n') :: unidx w n' (i mod w ^ Z.of_nat n') end.

Section W.
  Variable w : Z.
  Hypothesis Hw : 0 < w.

  Lemma pow_pos (n : nat) : 0 < w ^ Z.of_nat n.
  Proof. apply Z.pow_pos_nonneg; lia. Qed.
  Lemma pow_S (n : nat) : w ^ Z.of_nat (S n) = w * w ^ Z.of_nat n.
  Proof. rewrite Nat2Z.inj_succ, Z.pow_succ_r; lia. Qed.
  Lemma pow_plus (n m : nat) : w ^ Z.of_nat (n + m) = w ^ Z.of_nat n * w ^ Z.of_nat m.
  Proof. rewrite Nat2Z.inj_add, Z.pow_add_r; lia. Qed.

  Lemma words_below_rec n : words_below w (S n) = 1 + words_below w n * w.
  Proof.
    induction n as [|n IH]; [cbn; rewrite Z.pow_0_r; lia|].
    cbn [words_below] in *. rewrite IH at 1. rewrite pow_S. nia.
  Qed.
  Lemma words_below_mono n m : (n <= m)%nat -> words_below w n <= words_below w m.
  Proof.
    induction 1 as [|m Hle IH]; [lia|]. cbn [words_below]. assert (H := pow_pos m). lia.
  Qed.
  Lemma words_below_lt n m : (n < m)%nat -> words_below w n + w ^ Z.of_nat n <= words_below w m.
  Proof. intros H. apply (words_below_mono (S n) m) in H. cbn [words_below] in H. lia. Qed.
  Lemma words_below_nonneg n : 0 <= words_below w n.
  Proof. apply (words_below_mono 0 n). lia. Qed.

  Lemma idx_bound u : letters_ok w u -> 0 <= idx w u < w ^ Z.of_nat (length u).
  Proof.
    induction u as [|x u IH]; intros H.
    - cbn. rewrite Z.pow_0_r. lia.
    - inversion H; subst. specialize (IH H3). cbn [idx length]. rewrite pow_S. assert (P := pow_pos (length u)). nia.
  Qed.
  Lemma idx_app u v : idx w (u ++ v) = idx w u * w ^ Z.of_nat (length v) + idx w v.
  Proof.
    induction u as [|x u IH]; cbn [app idx]; [lia|].
    rewrite IH, app_length, pow_plus. lia.
  Qed.
  Lemma idx_snoc u x : idx w (u ++ [x]) = idx w u * w + x.
  Proof. rewrite idx_app. cbn [length idx]. change (Z.of_nat 1) with 1. change (Z.of_nat 0) with 0. rewrite Z.pow_1_r, Z.pow_0_r. lia. Qed.

  Lemma unidx_length n i : length (unidx w n i) = n.
  Proof. revert i; induction n; intros; cbn; auto. Qed.
  Lemma unidx_ok n i : 0 <= i < w ^ Z.of_nat n -> letters_ok w (unidx w n i).
  Proof.
    revert i. induction n as [|n IH]; intros i Hi; [constructor|]. cbn [unidx]. rewrite pow_S in Hi.
    assert (P := pow_pos n). constructor.
    - split; [apply Z.div_pos; lia|apply Z.div_lt_upper_bound; lia].
    - apply IH. apply Z.mod_pos_bound; lia.
  Qed.
  Lemma idx_unidx n i : 0 <= i < w ^ Z.of_nat n -> idx w (unidx w n i) = i.
  Proof.
    revert i. induction n as [|n IH]; intros i Hi.
    - cbn. rewrite Z.pow_0_r in Hi. lia.
    - cbn [unidx idx]. rewrite unidx_length, IH by (apply Z.mod_pos_bound; apply pow_pos).
      assert (P := pow_pos n). assert (D := Z.div_mod i (w ^ Z.of_nat n)). lia.
  Qed.
  Lemma unidx_idx u : letters_ok w u -> unidx w (length u) (idx w u) = u.
  Proof.
    induction u as [|x u IH]; intros H; [reflexivity|]. inversion H; subst.
    assert (B := idx_bound u H3). assert (P := pow_pos (length u)). cbn [length unidx idx].
    assert (E : (x * w ^ Z.of_nat (length u) + idx w u) / w ^ Z.of_nat (length u) = x).
    { rewrite Z.div_add_l by lia. rewrite Z.div_small; lia. }
    assert (E2 : (x * w ^ Z.of_nat (length u) + idx w u) mod w ^ Z.of_nat (length u) = idx w u).
    { rewrite Z.add_comm, Z.mod_add by lia. apply Z.mod_small; lia. }
    rewrite E, E2, IH by auto. reflexivity.
  Qed.
  Lemma idx_inj u v : letters_ok w u -> letters_ok w v -> length u = length v -> idx w u = idx w v -> u = v.
  Proof.
    intros Hu Hv Hl Hi. rewrite <- (unidx_idx u), <- (unidx_idx v) by auto. congruence.
  Qed.

  (** Level and rank are determined by the coordinate. *)
  Lemma level_unique n m i j : 0 <= i < w ^ Z.of_nat n -> 0 <= j < w ^ Z.of_nat m ->
    words_below w n + i = words_below w m + j -> n = m /\ i = j.
  Proof.
    intros Hi Hj E. destruct (Nat.lt_trichotomy n m) as [H|[H|H]].
    - apply words_below_lt in H. lia.
    - subst. lia.
    - apply words_below_lt in H. lia.
  Qed.
  Lemma pos_inj u v : letters_ok w u -> letters_ok w v -> pos w u = pos w v -> u = v.
  Proof.
    intros Hu Hv E. unfold pos in E.
    destruct (level_unique _ _ _ _ (idx_bound u Hu) (idx_bound v Hv) E). apply idx_inj; auto.
  Qed.
  Lemma pos_bound u N : letters_ok w u -> (length u <= N)%nat -> 0 <= pos w u < words_below w (S N).
  Proof.
    intros Hu Hl. assert (B := idx_bound u Hu). unfold pos. split.
    - assert (H := words_below_nonneg (length u)). lia.
    - assert (H := words_below_lt (length u) (S N)). lia.
  Qed.
  Lemma level_exists N k : 0 <= k < words_below w N ->
    exists n i, (n < N)%nat /\ 0 <= i < w ^ Z.of_nat n /\ k = words_below w n + i.
  Proof.
    induction N as [|N IH]; intros Hk; [cbn in Hk; lia|].
    destruct (Z_lt_ge_dec k (words_below w N)).
    - destruct IH as (n & i & H1 & H2 & H3); [lia|]. exists n, i. repeat split; auto; lia.
    - exists N, (k - words_below w N). cbn [words_below] in Hk. repeat split; lia.
  Qed.
  (** Every coordinate below the size is that of exactly one word. *)
  Lemma pos_surj N k : 0 <= k < words_below w (S N) ->
    exists u, letters_ok w u /\ (length u <= N)%nat /\ pos w u = k.
  Proof.
    intros Hk. destruct (level_exists _ _ Hk) as (n & i & Hn & Hi & E).
    exists (unidx w n i). split; [apply unidx_ok; auto|]. rewrite unidx_length. split; [lia|].
    unfold pos. rewrite unidx_length, idx_unidx by auto. auto.
  Qed.
  Lemma letters_ok_app u v : letters_ok w (u ++ v) <-> letters_ok w u /\ letters_ok w v.
  Proof. apply Forall_app. Qed.
  Lemma letters_ok_firstn u k : letters_ok w u -> letters_ok w (firstn k u).
  Proof. intros H. rewrite <- (firstn_skipn k u) in H. apply letters_ok_app in H. tauto. Qed.
  Lemma letters_ok_skipn u k : letters_ok w u -> letters_ok w (skipn k u).
  Proof. intros H. rewrite <- (firstn_skipn k u) in H. apply letters_ok_app in H. tauto. Qed.
  Lemma letters_ok_rev u : letters_ok w u -> letters_ok w (rev u).
  Proof. apply Forall_rev. Qed.
  (** Cutting a word is division with remainder of its rank. *)
  Lemma idx_cut u k : letters_ok w u -> (k <= length u)%nat ->
    idx w u = idx w (firstn k u) * w ^ Z.of_nat (length u - k) + idx w (skipn k u).
  Proof.
    intros Hu Hk. rewrite <- (firstn_skipn k u) at 1. rewrite idx_app, skipn_length. reflexivity.
  Qed.
End W.

(** All words of a given length, in order. *)
Fixpoint zseq (a : Z) (n : nat) : list Z := match n with O => [] | S n => a :: zseq (a + 1) n end.
Definition zrange (n : Z) : list Z := zseq 0 (Z.to_nat n).
Lemma zseq_In a n x : In x (zseq a n) <-> a <= x < a + Z.of_nat n.
Proof.
  revert a. induction n as [|n IH]; intros a; cbn [zseq In]; [lia|]. rewrite IH. lia.
Qed.
Lemma zseq_NoDup a n : NoDup (zseq a n).
Proof. revert a. induction n as [|n IH]; intros a; constructor; auto. rewrite zseq_In. lia. Qed.
Lemma zrange_In n x : In x (zrange n) <-> 0 <= x < n.
Proof. unfold zrange. rewrite zseq_In. lia. Qed.
Lemma zrange_NoDup n : NoDup (zrange n).
Proof. apply zseq_NoDup. Qed.
Lemma zseq_app a n m : zseq a (n + m) = zseq a n ++ zseq (a + Z.of_nat n) m.
Proof.
  revert a. induction n as [|n IH]; intros a; cbn [zseq Nat.add app].
  - f_equal. lia. - rewrite IH. do 3 f_equal. lia.
Qed.
Lemma zseq_length a n : length (zseq a n) = n.
Proof. revert a; induction n; intros; cbn; auto. Qed.
(** Descending range hi, hi-1, ..., lo (empty if hi < lo). *)
Definition zdown (hi lo : Z) : list Z := rev (zseq lo (Z.to_nat (hi - lo + 1))).
Lemma zdown_In hi lo x : In x (zdown hi lo) <-> lo <= x <= hi.
Proof. unfold zdown. rewrite <- in_rev, zseq_In. lia. Qed.
Lemma zdown_NoDup hi lo : NoDup (zdown hi lo).
Proof. unfold zdown. apply NoDup_rev, zseq_NoDup. Qed.
Lemma zdown_nil hi lo : hi < lo -> zdown hi lo = [].
Proof. intros H. unfold zdown. replace (Z.to_nat (hi - lo + 1)) with O by lia. reflexivity. Qed.
Lemma zdown_cons hi lo : lo <= hi -> zdown hi lo = hi :: zdown (hi - 1) lo.
Proof.
  intros H. unfold zdown. replace (Z.to_nat (hi - lo + 1)) with (Z.to_nat (hi - 1 - lo + 1) + 1)%nat by lia.
  rewrite zseq_app, rev_app_distr. cbn [zseq rev app]. f_equal. lia.
Qed.
