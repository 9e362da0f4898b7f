(** Right-normed brackets of words, and the identity of Dynkin, Specht and Wever for
    tensors that vanish on shuffles.  Pure mathematics; no code is mentioned. *)
From Coq Require Import ZifyBool.
From Verif Require Import Alg Words Series Shuffle HallSpec LieSpec.
Local Open Scope Z_scope.

(** All words of [n] letters 0..w-1, in the order of their positions. *)
Fixpoint all_words (w : Z) (n : nat) : list (list Z) :=
  match n with O => [[]] | S n => flat_map (fun x => map (cons x) (all_words w n)) (zrange w) end.
(** The right-normed bracket [x1, [x2, ... [x(n-1), xn]]] of a word. *)
Fixpoint rnorm (R : cring) (u : list Z) : tens R Z :=
  match u with
  | [] => tzero
  | x :: v => match v with [] => texpand R (Leaf (x + 1)) | _ :: _ => comm (texpand R (Leaf (x + 1))) (rnorm R v) end
  end.

Lemma all_words_ok w n u : In u (all_words w n) -> letters_ok w u /\ length u = n.
Proof.
  revert u. induction n as [|n IH]; intros u Hu; cbn [all_words] in Hu.
  - destruct Hu as [<-|[]]. split; [constructor|reflexivity].
  - apply in_flat_map in Hu. destruct Hu as (x & Hx & Hu). apply in_map_iff in Hu. destruct Hu as (v & <- & Hv). apply zrange_In in Hx.
    destruct (IH v Hv) as [H1 H2]. split; [constructor; auto|cbn; lia].
Qed.
Lemma flat_map_zseq n (f : Z -> list Z) m : 0 <= m -> (forall x, f x = zseq (x * m) (Z.to_nat m)) -> forall a,
  flat_map f (zseq a n) = zseq (a * m) (n * Z.to_nat m)%nat.
Proof.
  intros Hm Hf. induction n as [|n IH]; intros a; cbn [zseq flat_map]; [reflexivity|].
  rewrite Hf, IH. cbn [Nat.mul]. rewrite zseq_app. do 2 f_equal. rewrite Z2Nat.id by lia. ring.
Qed.
Lemma zseq_shift a n k : map (Z.add k) (zseq a n) = zseq (k + a) n.
Proof. revert a. induction n as [|n IH]; intros a; cbn [zseq map]; auto. rewrite IH. do 2 f_equal. lia. Qed.
Lemma all_words_idx w n : 0 < w -> map (idx w) (all_words w n) = zrange (w ^ Z.of_nat n).
Proof.
  intros Hw. induction n as [|n IH]; cbn [all_words].
  - change (Z.of_nat 0) with 0. rewrite Z.pow_0_r. reflexivity.
  - rewrite flat_map_concat_map, concat_map, map_map.
    rewrite (map_ext (fun x => map (idx w) (map (cons x) (all_words w n))) (fun x => zseq (x * w ^ Z.of_nat n) (Z.to_nat (w ^ Z.of_nat n)))).
    + rewrite <- flat_map_concat_map. unfold zrange. assert (P := pow_pos w Hw n).
      rewrite (flat_map_zseq (Z.to_nat w) _ (w ^ Z.of_nat n)) by (auto; lia). rewrite (pow_S w Hw). f_equal. rewrite Z2Nat.inj_mul by lia. reflexivity.
    + intros x. rewrite map_map. transitivity (map (Z.add (x * w ^ Z.of_nat n)) (map (idx w) (all_words w n))).
      * rewrite map_map. apply map_ext_in. intros u Hu. destruct (all_words_ok _ _ _ Hu) as [_ El]. cbn [idx]. rewrite El. reflexivity.
      * rewrite IH. unfold zrange. rewrite zseq_shift. f_equal. lia.
Qed.
Lemma all_words_pos w n : 0 < w -> map (pos w) (all_words w n) = zseq (words_below w n) (Z.to_nat (w ^ Z.of_nat n)).
Proof.
  intros Hw. transitivity (map (Z.add (words_below w n)) (map (idx w) (all_words w n))).
  - rewrite map_map. apply map_ext_in. intros u Hu. destruct (all_words_ok _ _ _ Hu) as [_ El]. unfold pos. rewrite El. reflexivity.
  - rewrite (all_words_idx w n Hw). unfold zrange. rewrite zseq_shift. f_equal. lia.
Qed.

Section Dynkin.
  Variable R : cring.
  Add Ring Rring_dyn : (rth R).
  Local Open Scope cr_scope.
  Infix "==" := teq (at level 70).
  Notation tens := (tens R Z).
  Notation lt_ x := (texpand R (Leaf (x + 1)%Z)).

  Lemma sum_positions w N (F : Z -> R) : (0 < w)%Z ->
    sum (zrange (words_below w (S N))) F = sum (seq 0 (S N)) (fun n => sum (all_words w n) (fun u => F (pos w u))).
  Proof.
    intros Hw. generalize (S N) as n. induction n as [|n IH]; [reflexivity|].
    rewrite sum_seq_last, <- IH, Nat.add_0_l, <- (sum_map R (pos w) (all_words w n) F), (all_words_pos w n Hw).
    cbn [words_below]. assert (A := words_below_nonneg w Hw n). assert (B := pow_pos w Hw n).
    unfold zrange. rewrite Z2Nat.inj_add, zseq_app, sum_app, Z2Nat.id by lia. reflexivity.
  Qed.
  Lemma sum_words_S w n (F : list Z -> R) : sum (all_words w (S n)) F = sum (zrange w) (fun x => sum (all_words w n) (fun v => F (x :: v))).
  Proof. cbn [all_words]. rewrite sum_flat_map. apply sum_ext. intros x _. apply sum_map. Qed.
  Lemma sum_words_single w n u (F : list Z -> R) : letters_ok w u -> length u = n ->
    (forall v, length v = n -> v <> u -> F v = 0) -> sum (all_words w n) F = F u.
  Proof.
    revert u F. induction n as [|n IH]; intros u F Hu Hl HF.
    - destruct u; [|discriminate]. cbn. ring.
    - destruct u as [|x u]; [discriminate|]. inversion Hu as [|? ? Hx Hu']; subst. rewrite sum_words_S. injection Hl as Hl.
      rewrite (sum_single _ _ _ x); [|apply zrange_NoDup|apply zrange_In; auto|].
      + apply (IH u (fun v => F (x :: v))); auto. intros v Hv Hne. apply HF; [cbn; lia|]. intros E. injection E; auto.
      + intros y Hy Hne. apply sum_zero. intros v Hv. destruct (all_words_ok _ _ _ Hv) as [_ Hlv]. apply HF; [cbn; lia|]. intros E. injection E; auto.
  Qed.

  Lemma letter_conv_l x (g : tens) y v : conv (lt_ x) g (y :: v) = if (y =? x)%Z then g v else 0.
  Proof.
    unfold conv. cbn [length]. rewrite (sum_single _ _ _ 1%nat); [|apply seq_NoDup|apply in_seq; lia|].
    - cbn [firstn skipn texpand]. replace (y =? x + 1 - 1)%Z with (y =? x)%Z by lia. destruct (y =? x)%Z; ring.
    - intros k Hk Hne. apply in_seq in Hk. destruct k as [|[|k]]; [cbn [firstn texpand]; ring|lia|]. destruct v as [|z v]; [cbn in Hk; lia|]. cbn [firstn texpand]. ring.
  Qed.
  Lemma letter_conv_r x (g : tens) y v : conv g (lt_ x) (v ++ [y]) = if (y =? x)%Z then g v else 0.
  Proof.
    unfold conv. rewrite (sum_single _ _ _ (length v)); [|apply seq_NoDup|apply in_seq; rewrite app_length; cbn; lia|].
    - rewrite firstn_app, skipn_app, Nat.sub_diag, firstn_all, skipn_all. cbn [firstn skipn app texpand]. rewrite app_nil_r.
      replace (y =? x + 1 - 1)%Z with (y =? x)%Z by lia. destruct (y =? x)%Z; ring.
    - intros k Hk Hne. apply in_seq in Hk. rewrite app_length in Hk. cbn in Hk.
      destruct (skipn k (v ++ [y])) as [|a [|b l]] eqn:E; cbn [texpand]; try ring.
      apply (f_equal (@length Z)) in E. rewrite skipn_length, app_length in E. cbn in E. lia.
  Qed.

  (** Weighted sums over the ways to cut a word, the second part being reversed. *)
  Definition cuts (c : nat -> R) (P : tens) (v : list Z) : R :=
    sum (seq 0 (S (length v))) (fun k => c k * rpow (- (1)) (length v - k) * cop P (firstn k v) (rev (skipn k v))).
  Lemma cop_ends (P : tens) x v' v'' y k : x :: v' = v'' ++ [y] -> (k <= S (length v'))%nat ->
    cop P (firstn k (x :: v')) (rev (skipn k (x :: v'))) =
      (match k with O => 0 | S k => cop (dl x P) (firstn k v') (rev (skipn k v')) end) +
      (if Nat.eqb k (S (length v')) then 0 else cop (dl y P) (firstn k v'') (rev (skipn k v''))).
  Proof.
    intros E Hk. assert (El : length v'' = length v') by (apply (f_equal (@length Z)) in E; rewrite app_length in E; cbn in E; lia).
    destruct (Nat.eqb_spec k (S (length v'))) as [->|Hne].
    - rewrite skipn_all2, firstn_all2 by (cbn; lia). rewrite skipn_all2, firstn_all2 by lia. cbn [rev]. rewrite !cop_nil_r. unfold dl. ring.
    - assert (Es : rev (skipn k (x :: v')) = y :: rev (skipn k v'')).
      { rewrite E, skipn_app. replace (k - length v'')%nat with 0%nat by lia. cbn [skipn]. rewrite rev_app_distr. reflexivity. }
      rewrite Es. destruct k as [|k].
      + cbn [firstn skipn]. rewrite !cop_nil_l. unfold dl. ring.
      + change (firstn (S k) (x :: v')) with (x :: firstn k v'). rewrite cop_cons. rewrite <- Es. change (skipn (S k) (x :: v')) with (skipn k v').
        assert (Ef : x :: firstn k v' = firstn (S k) v'').
        { change (x :: firstn k v') with (firstn (S k) (x :: v')). rewrite E, firstn_app. replace (S k - length v'')%nat with 0%nat by lia. cbn [firstn]. apply app_nil_r. }
        rewrite Ef. ring.
  Qed.
  Lemma cuts_rec c (P : tens) x v' v'' y : x :: v' = v'' ++ [y] ->
    cuts c P (x :: v') = cuts (fun k => c (S k)) (dl x P) v' - cuts c (dl y P) v''.
  Proof.
    intros E. assert (El : length v'' = length v') by (apply (f_equal (@length Z)) in E; rewrite app_length in E; cbn in E; lia).
    unfold cuts. rewrite El. set (n := length v').
    rewrite (sum_ext _ _ _ (fun k => (c k * rpow (- (1)) (length (x :: v') - k) * match k with O => 0 | S k => cop (dl x P) (firstn k v') (rev (skipn k v')) end) +
        (c k * rpow (- (1)) (length (x :: v') - k) * (if Nat.eqb k (S n) then 0 else cop (dl y P) (firstn k v'') (rev (skipn k v''))))));
      [|intros k Hk; apply in_seq in Hk; cbn [length] in Hk; rewrite (cop_ends P x v' v'' y k E) by (cbn in *; lia); unfold n; ring].
    rewrite sum_add. cbn [length]. fold n. match goal with |- _ = ?a - ?b => replace (a - b) with (a + - b) by ring end. f_equal.
    - rewrite sum_seq_S, sum_seq_shift. replace (S n - 0)%nat with (S n) by lia.
      rewrite (sum_ext _ _ _ (fun k => c (S k) * rpow (- (1)) (n - k) * cop (dl x P) (firstn k v') (rev (skipn k v')))) by (intros; cbn [Nat.sub]; reflexivity). ring.
    - rewrite sum_seq_last, Nat.add_0_l, Nat.eqb_refl.
      rewrite (sum_ext _ _ _ (fun k => - (c k * rpow (- (1)) (n - k) * cop (dl y P) (firstn k v'') (rev (skipn k v''))))).
      + rewrite sum_opp. ring.
      + intros k Hk. apply in_seq in Hk. replace (Nat.eqb k (S n)) with false by (symmetry; apply Nat.eqb_neq; lia).
        replace (S n - k)%nat with (S (n - k)) by lia. cbn [rpow]. ring.
  Qed.
  Lemma ends (v : list Z) n : length v = S n -> exists x v' v'' y, v = x :: v' /\ v = v'' ++ [y] /\ length v' = n /\ length v'' = n.
  Proof.
    intros Hl. destruct v as [|x v']; [discriminate|]. destruct (exists_last (l := x :: v') ltac:(discriminate)) as (v'' & y & E).
    exists x, v', v'', y. split; [auto|]. split; [auto|]. split; [cbn in Hl; lia|]. rewrite E, app_length in Hl. cbn in Hl. lia.
  Qed.
  Lemma cuts_one n : forall (P : tens) v, length v = S n -> cuts (fun _ => 1) P v = 0.
  Proof.
    induction n as [|n IH]; intros P v Hl; destruct (ends v _ Hl) as (x & v' & v'' & y & E1 & E2 & L1 & L2); rewrite E1, (cuts_rec _ P x v' v'' y) by congruence.
    - destruct v'; [|discriminate]. destruct v''; [|discriminate]. rewrite E1 in E2. cbn in E2. injection E2 as ->. ring.
    - rewrite !IH by auto. ring.
  Qed.
  Lemma cuts_add c d (P : tens) v : cuts (fun k => c k + d k) P v = cuts c P v + cuts d P v.
  Proof. unfold cuts. rewrite <- sum_add. apply sum_ext. intros. ring. Qed.

  (** The adjoint of taking right-normed brackets. *)
  Theorem rnorm_cuts w n : forall (P : tens) v, letters_ok w v -> length v = S n ->
    sum (all_words w (S n)) (fun u => P u * rnorm R u v) = cuts rnat P v.
  Proof.
    induction n as [|n IH]; intros P v Hv Hl; destruct (ends v _ Hl) as (x & v' & v'' & y & E1 & E2 & L1 & L2).
    - destruct v'; [|discriminate]. subst v. inversion Hv as [|? ? Hx _]; subst. rewrite (sum_words_single w 1 [x]); auto.
      + unfold cuts. cbn. rewrite Z.add_simpl_r, Z.eqb_refl. unfold cop. cbn. ring.
      + intros u Hu Hne. destruct u as [|z [|]]; try discriminate. cbn [rnorm texpand]. destruct (x =? z + 1 - 1)%Z eqn:E; [|ring]. exfalso. apply Hne. f_equal. lia.
    - rewrite E1, (cuts_rec _ P x v' v'' y) by congruence. rewrite <- E1. cbn [rnat].
      rewrite (cuts_add (fun _ => 1) rnat), (cuts_one n) by auto.
      assert (Hv' : letters_ok w v' /\ (0 <= x < w)%Z) by (rewrite E1 in Hv; inversion Hv; subst; auto).
      assert (Hv'' : letters_ok w v'' /\ (0 <= y < w)%Z) by (rewrite E2 in Hv; apply letters_ok_app in Hv; destruct Hv as [A B]; inversion B; subst; auto).
      rewrite <- (IH (dl x P) v'), <- (IH (dl y P) v'') by tauto.
      rewrite sum_words_S.
      rewrite (sum_ext _ _ _ (fun z => (if (z =? x)%Z then sum (all_words w (S n)) (fun u => dl x P u * rnorm R u v') else 0) - (if (z =? y)%Z then sum (all_words w (S n)) (fun u => dl y P u * rnorm R u v'') else 0))).
      + rewrite sum_sub. rewrite (sum_single _ _ _ x), (sum_single _ _ _ y); try apply zrange_NoDup; try (apply zrange_In; tauto).
        * rewrite !Z.eqb_refl. ring.
        * intros z _ Hz. replace (z =? y)%Z with false by lia. auto.
        * intros z _ Hz. replace (z =? x)%Z with false by lia. auto.
      + intros z _.
        rewrite (sum_ext _ _ _ (fun u => (if (z =? x)%Z then dl x P u * rnorm R u v' else 0) - (if (z =? y)%Z then dl y P u * rnorm R u v'' else 0))).
        * rewrite sum_sub. f_equal; [destruct (z =? x)%Z|destruct (z =? y)%Z]; auto; apply sum_zero; auto.
        * intros u Hu. destruct (all_words_ok _ _ _ Hu) as [_ Hlu].
          assert (En : rnorm R (z :: u) = comm (lt_ z) (rnorm R u)) by (destruct u; [discriminate|reflexivity]).
          rewrite En. unfold comm, tsub. rewrite E1 at 1. rewrite letter_conv_l. rewrite E2, letter_conv_r.
          replace (z =? x)%Z with (x =? z)%Z by lia. replace (z =? y)%Z with (y =? z)%Z by lia.
          destruct (x =? z)%Z eqn:Ex, (y =? z)%Z eqn:Ey; unfold dl; try (replace x with z by lia); try (replace y with z by lia); ring.
  Qed.

  (** Vanishing on the shuffles of non-empty words over the given letters. *)
  Definition vanishes (w : Z) (N : nat) (P : tens) : Prop :=
    forall u v, letters_ok w u -> letters_ok w v -> u <> [] -> v <> [] -> (length u + length v <= N)%nat -> sum (shuffles u v) P = 0.
  Theorem dynkin w N P v : vanishes w N P -> letters_ok w v -> v <> [] -> (length v <= N)%nat ->
    sum (all_words w (length v)) (fun u => P u * rnorm R u v) = rnat (length v) * P v.
  Proof.
    intros HP Hv Hne Hl. destruct (length v) as [|n] eqn:El; [destruct v; [contradiction|discriminate]|].
    rewrite (rnorm_cuts w n P v Hv El). unfold cuts. rewrite El, sum_seq_last, Nat.add_0_l.
    rewrite (sum_zero R (seq 0 (S n))).
    - rewrite <- El, skipn_all, firstn_all, Nat.sub_diag. cbn [rev rpow]. rewrite cop_nil_r. ring.
    - intros k Hk. apply in_seq in Hk. destruct k as [|k]; [cbn [rnat]; ring|]. unfold cop. rewrite HP; [ring| | | | |].
      + apply letters_ok_firstn; auto.
      + apply letters_ok_rev, letters_ok_skipn; auto.
      + destruct v; discriminate.
      + intros E. apply (f_equal (@length Z)) in E. rewrite rev_length, skipn_length in E. cbn in E. lia.
      + rewrite rev_length, firstn_length, skipn_length. lia.
  Qed.
End Dynkin.
