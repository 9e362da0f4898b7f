(** What the dyadic search finds. *)
From Verif Require Export SegProofs.
From Verif Require Import DyadicSpec DyadicProofs DyadicProofs2.
From Coq Require Import ZArith ZifyBool Sorted.
Open Scope Z_scope.

Section Sound.
  Variable N : Z.
  Hypothesis HN : 0 <= N <= 28.
  Variable G : Z -> Z -> bool.
  Notation cinf := (cinf N). Notation csup := (csup N). Notation fv := (fv N). Notation bv := (bv N).
  Notation bnd := (bnd N). Notation inu := (inu N).

  (** ** Any predicate: the intervals found are chains of cells satisfying it *)
  Fixpoint chain (a b : Z) (l : list (Z * Z)) : Prop :=
    match l with [] => a = b | c :: r => a = cinf c /\ chain (csup c) b r end.
  Definition gcell (c : Z * Z) : Prop := bnd (fst c) (snd c) /\ G (fst c) (snd c) = true.
  Lemma chain_app a b c l r : chain a b l -> chain b c r -> chain a c (l ++ r).
  Proof. revert a. induction l as [|x l IH]; intros a; cbn [chain app]; [intros ->; auto|]. intros [-> H] K. split; auto. Qed.
  Lemma chain_ends a b l : l <> [] -> chain a b l -> a = fv l /\ b = bv l.
  Proof.
    intros NE H. split.
    - destruct l; [congruence|]. destruct H; auto.
    - revert a H. induction l as [|x l IH]; intros a H; [congruence|]. destruct l as [|y l].
      + destruct H as [_ H]. cbn in H. unfold SegProofs.bv. cbn [last]. auto.
      + destruct H as [_ H]. apply (IH ltac:(discriminate)) in H. exact H.
  Qed.
  Lemma kid_l k n : 1 <= n < N -> cinf (2 * k, n + 1) = cinf (k, n).
  Proof. intros. unfold SegProofs.cinf; cbn [fst snd]. replace (N - n) with ((N - (n + 1)) + 1) by lia. rewrite pow_S by lia. ring. Qed.
  Lemma kid_m k n : 1 <= n < N -> csup (2 * k, n + 1) = cinf (2 * k + 1, n + 1).
  Proof. reflexivity. Qed.
  Lemma kid_r k n : 1 <= n < N -> csup (2 * k + 1, n + 1) = csup (k, n).
  Proof. intros. unfold SegProofs.csup; cbn [fst snd]. replace (N - n) with ((N - (n + 1)) + 1) by lia. rewrite pow_S by lia. ring. Qed.
  Lemma pL_chain f : forall k n cur hi, bnd k n -> N - n = Z.of_nat f -> chain (csup (k, n)) hi cur -> Forall gcell cur ->
    exists lo, chain lo hi (pL G f k n cur) /\ Forall gcell (pL G f k n cur).
  Proof.
    induction f as [|f IH]; intros k n cur hi B E H F; cbn [pL]; [eauto|]. assert (Bn : 1 <= n < N) by (destruct B; lia).
    destruct (bnd_kids N k n B ltac:(lia)) as [B1 B2]. destruct (G (2 * k + 1) (n + 1)) eqn:EG; apply IH; auto; try lia.
    - cbn [chain]. rewrite kid_r by auto. split; auto.
    - constructor; auto. split; auto.
    - rewrite kid_r by auto. auto.
  Qed.
  Lemma pR_chain f : forall k n cur lo, bnd k n -> N - n = Z.of_nat f -> chain lo (cinf (k, n)) cur -> Forall gcell cur ->
    exists hi, chain lo hi (pR G f k n cur) /\ Forall gcell (pR G f k n cur).
  Proof.
    induction f as [|f IH]; intros k n cur lo B E H F; cbn [pR]; [eauto|]. assert (Bn : 1 <= n < N) by (destruct B; lia).
    destruct (bnd_kids N k n B ltac:(lia)) as [B1 B2]. destruct (G (2 * k) (n + 1)) eqn:EG; apply IH; auto; try lia.
    - apply (chain_app _ (cinf (k, n))); [auto|]. cbn [chain]. rewrite kid_l by auto. auto.
    - apply Forall_app. split; [auto|]. constructor; [split; auto|constructor].
    - rewrite kid_l by auto. auto.
  Qed.
  Lemma pL_last f k n cur d : cur <> [] -> last (pL G f k n cur) d = last cur d.
  Proof. intros H. destruct (pL_app G f k n cur) as (l & ->). destruct (exists_last H) as (c & x & ->). rewrite app_assoc, !last_last. reflexivity. Qed.
  Lemma inu_bnd k n : inu k n -> bnd k n /\ bnd (k - 1) n /\ bnd (k - 2) n /\ bnd (k + 1) n.
  Proof. intros [H1 H2]. assert (X := pow_1 n ltac:(lia)). unfold SegProofs.bnd. rewrite pow_S by lia. lia. Qed.
  Lemma pE_chain k n : inu k n -> G k n = true -> chain (fv (pE N G k n)) (bv (pE N G k n)) (pE N G k n) /\ Forall gcell (pE N G k n) /\ pE N G k n <> [].
  Proof.
    intros H HG. destruct (inu_bnd k n H) as (B0 & B1 & B2 & B3). assert (Hn : 1 <= n <= N) by (destruct H; lia).
    assert (EL : exists lo, chain lo (csup (k, n)) (pEL N G k n) /\ Forall gcell (pEL N G k n)).
    { unfold pEL. assert (C1 : chain (csup (k - 1, n)) (csup (k, n)) [(k, n)]).
      { cbn [chain]. unfold SegProofs.csup, SegProofs.cinf; cbn [fst snd]. split; f_equal; lia. }
      assert (F1 : Forall gcell [(k, n)]) by (constructor; [split; auto|constructor]).
      destruct (Z.even k); [destruct (G (k - 1) n) eqn:EG|]; apply pL_chain; auto; unfold lev; try lia.
      - cbn [chain]. cbn [chain] in C1. split; [unfold SegProofs.csup, SegProofs.cinf; cbn [fst snd]; f_equal; lia|auto].
      - constructor; auto. split; auto. }
    destruct EL as (lo & EL & FL).
    assert (ER : exists hi, chain lo hi (pE N G k n) /\ Forall gcell (pE N G k n)).
    { unfold pE. apply pR_chain; auto; unfold lev; lia. }
    destruct ER as (hi & C & F).
    assert (NE : pE N G k n <> []). { unfold pE. destruct (pR_app G (lev N n) (k + 1) n (pEL N G k n)) as (r & ->). destruct (pEL_app N G k n) as (l & ->). destruct l; discriminate. }
    destruct (chain_ends lo hi _ NE C) as [-> ->]. auto.
  Qed.
  Definition found_ok (p : Z * Z) : Prop := exists l, l <> [] /\ chain (snd p) (fst p) l /\ Forall gcell l.
  Definition gt1 (p q : Z * Z) : Prop := fst q < fst p.
  Lemma pput_in s i l p : In p (pput s i l) -> p = (s, i) \/ In p l.
  Proof.
    induction l as [|[s' i'] r IH]; cbn [pput]; [intros [->|[]]; auto|].
    destruct (s >? s') eqn:E1; [intros [->|H]; auto|]. destruct (s' >? s) eqn:E2.
    - intros [->|H]; [right; left; auto|]. destruct (IH H); [auto|right; right; auto].
    - intros [<-|H]; [left; f_equal; lia|right; right; auto].
  Qed.
  Lemma pput_new s i l : In (s, i) (pput s i l).
  Proof.
    induction l as [|[s' i'] r IH]; cbn [pput]; [left; auto|]. destruct (s >? s') eqn:E1; [left; auto|]. destruct (s' >? s) eqn:E2; [right; auto|].
    left. f_equal; lia.
  Qed.
  Lemma pput_old s i l p : In p l -> In p (pput s i l) \/ fst p = s.
  Proof.
    induction l as [|[s' i'] r IH]; [intros []|]. cbn [pput]. intros [<-|H].
    - cbn [fst]. destruct (s >? s') eqn:E1; [left; right; left; auto|]. destruct (s' >? s) eqn:E2; [left; left; auto|right; lia].
    - destruct (s >? s') eqn:E1; [left; right; right; auto|]. destruct (s' >? s) eqn:E2; [|left; right; auto].
      destruct (IH H); [left; right; auto|auto].
  Qed.
  Lemma pput_sorted s i l : StronglySorted gt1 l -> StronglySorted gt1 (pput s i l).
  Proof.
    induction 1 as [|[s' i'] r H IH F]; cbn [pput]; [repeat constructor|].
    destruct (s >? s') eqn:E1; [|destruct (s' >? s) eqn:E2].
    - constructor; [constructor; auto|]. constructor; [unfold gt1; cbn; lia|]. eapply Forall_impl; [|exact F]. unfold gt1; cbn. intros; lia.
    - constructor; [auto|]. apply Forall_forall. intros p Hp. apply pput_in in Hp. destruct Hp as [->|Hp]; [unfold gt1; cbn; lia|].
      rewrite Forall_forall in F. auto.
    - constructor; [auto|]. eapply Forall_impl; [|exact F]. unfold gt1; cbn. intros; lia.
  Qed.
  Lemma pskip_ge n l : 1 <= n <= N -> forall k lo, lo <= k -> Forall (fun p => lo * 2 ^ (N - n) <= snd p) l -> lo <= pskip N k n l.
  Proof.
    intros Hn. assert (P := pow2_pos (N - n) ltac:(lia)). induction l as [|[s i] r IH]; intros k lo Hk F; cbn [pskip]; [auto|].
    inversion F as [|? ? F1 F2]; subst. cbn [snd] in F1.
    destruct (_ <? _); [auto|]. destruct (_ >? _); [auto|]. apply IH; auto. apply Z.div_le_lower_bound; lia.
  Qed.
  Theorem plevel_sound n : 1 <= n <= N -> forall fuel k sn, k < 2 ^ n -> Forall found_ok sn -> StronglySorted gt1 sn ->
    Forall found_ok (plevel N G fuel k n sn) /\ StronglySorted gt1 (plevel N G fuel k n sn).
  Proof.
    intros Hn. induction fuel as [|fuel IH]; intros k sn Hk F S1; cbn [plevel]; [auto|]. destruct (k >=? 0) eqn:E; [|auto].
    assert (A : Forall found_ok (if G k n then pput (bv (pE N G k n)) (fv (pE N G k n)) sn else sn) /\ StronglySorted gt1 (if G k n then pput (bv (pE N G k n)) (fv (pE N G k n)) sn else sn)).
    { destruct (G k n) eqn:EG; [|auto]. split; [|apply pput_sorted; auto]. apply Forall_forall. intros p Hp. apply pput_in in Hp. destruct Hp as [->|Hp].
      - destruct (pE_chain k n ltac:(split; lia) EG) as (C & GC & NE). exists (pE N G k n). cbn [fst snd]. auto.
      - rewrite Forall_forall in F. auto. }
    destruct A as [A1 A2]. apply IH; auto. assert (X := pskip_le N n (if G k n then pput (bv (pE N G k n)) (fv (pE N G k n)) sn else sn) Hn k). lia.
  Qed.
  Theorem pdepth_sound todo : forall d sn, 1 <= d -> d + Z.of_nat todo = N + 1 -> Forall found_ok sn -> StronglySorted gt1 sn ->
    Forall found_ok (pdepth N G todo d sn) /\ StronglySorted gt1 (pdepth N G todo d sn).
  Proof.
    induction todo as [|t IH]; intros d sn Hd E F S1; cbn [pdepth]; [auto|].
    assert (A : Forall found_ok (plevel N G (S (Z.to_nat (2 ^ d))) (pskip N (2 ^ d) d sn - 1) d sn) /\ StronglySorted gt1 (plevel N G (S (Z.to_nat (2 ^ d))) (pskip N (2 ^ d) d sn - 1) d sn)).
    { apply plevel_sound; auto; [lia|]. assert (X := pskip_le N d sn ltac:(lia) (2 ^ d)). lia. }
    destruct A. apply IH; auto; lia.
  Qed.

  (** ** A predicate "contained in S": the maximal runs are found *)
  Definition gu (u : Z) : Prop := G u N = true.
  Hypothesis HG : forall k n, 1 <= n <= N -> (G k n = true <-> forall u, k * 2 ^ (N - n) <= u < (k + 1) * 2 ^ (N - n) -> gu u).
  Hypothesis Hin : forall u, gu u -> 0 <= u < 2 ^ N.

  Hypothesis Hnot : ~ (forall u, 0 <= u < 2 ^ N -> gu u).

  Lemma gu_dec u : gu u \/ ~ gu u.
  Proof. unfold gu. destruct (G u N); auto. Qed.
  Lemma G_split k n : 1 <= n < N -> G (2 * k) (n + 1) = true -> G (2 * k + 1) (n + 1) = true -> G k n = true.
  Proof.
    intros Hn H1 H2. rewrite HG in * by lia. intros u Hu. assert (E : 2 ^ (N - n) = 2 * 2 ^ (N - (n + 1))) by (rewrite <- pow_S by lia; f_equal; lia).
    rewrite E in Hu. destruct (Z_lt_ge_dec u ((2 * k + 1) * 2 ^ (N - (n + 1)))); [apply H1|apply H2]; nia.
  Qed.
  Lemma G_sub k n k' n' : 1 <= n <= N -> 1 <= n' <= N -> G k n = true -> k * 2 ^ (N - n) <= k' * 2 ^ (N - n') -> (k' + 1) * 2 ^ (N - n') <= (k + 1) * 2 ^ (N - n) -> G k' n' = true.
  Proof. intros H1 H2 H Ha Hb. rewrite HG in * by lia. intros u Hu. apply H. lia. Qed.
  Lemma pL_max f : forall k n cur, 1 <= n <= N -> N - n = Z.of_nat f -> cur <> [] -> G k n = false -> fv cur = csup (k, n) ->
    ~ gu (fv (pL G f k n cur) - 1).
  Proof.
    induction f as [|f IH]; intros k n cur Hn E NE Hk Hc; cbn [pL].
    - assert (n = N) by lia. subst n. rewrite Hc. unfold SegProofs.csup; cbn [fst snd]. rewrite Z.sub_diag, Z.pow_0_r.
      unfold gu. replace ((k + 1) * 1 - 1) with k by lia. congruence.
    - destruct (G (2 * k + 1) (n + 1)) eqn:EG.
      + apply IH; try lia; [discriminate| |reflexivity].
        destruct (G (2 * k) (n + 1)) eqn:EG2; [|auto]. assert (G k n = true) by (apply G_split; auto; lia). congruence.
      + apply IH; auto; try lia. rewrite kid_r by lia. auto.
  Qed.
  Lemma pR_max f : forall k n cur, 1 <= n <= N -> N - n = Z.of_nat f -> cur <> [] -> G k n = false -> bv cur = cinf (k, n) ->
    ~ gu (bv (pR G f k n cur)).
  Proof.
    induction f as [|f IH]; intros k n cur Hn E NE Hk Hc; cbn [pR].
    - assert (n = N) by lia. subst n. rewrite Hc. unfold SegProofs.cinf; cbn [fst snd]. rewrite Z.sub_diag, Z.pow_0_r.
      unfold gu. rewrite Z.mul_1_r. congruence.
    - destruct (G (2 * k) (n + 1)) eqn:EG.
      + apply IH; try lia; [destruct cur; discriminate| |].
        * destruct (G (2 * k + 1) (n + 1)) eqn:EG2; [|auto]. assert (G k n = true) by (apply G_split; auto; lia). congruence.
        * unfold SegProofs.bv. rewrite last_last. reflexivity.
      + apply IH; auto; try lia. rewrite kid_l by lia. auto.
  Qed.
  Definition run (p : Z * Z) : Prop := snd p < fst p /\ (forall u, snd p <= u < fst p -> gu u) /\ ~ gu (snd p - 1) /\ ~ gu (fst p).
  Lemma chain_good a b l : chain a b l -> Forall gcell l -> a <= b /\ forall u, a <= u < b -> gu u.
  Proof.
    revert a. induction l as [|[k n] l IH]; intros a H F; cbn [chain] in H; [subst; split; [lia|intros; lia]|].
    destruct H as [-> H]. inversion F as [|? ? [[B _] G1] F']; subst. destruct (IH _ H F') as [L A]. cbn [fst snd] in *.
    unfold SegProofs.cinf, SegProofs.csup in *; cbn [fst snd] in *. assert (P := pow2_pos (N - n) ltac:(lia)).
    rewrite HG in G1 by lia. split; [nia|]. intros u Hu. destruct (Z_lt_ge_dec u ((k + 1) * 2 ^ (N - n))); [apply G1; lia|apply A; lia].
  Qed.
  Lemma pE_run k n : inu k n -> G k n = true ->
    (Z.even k = true -> G (k - 1) n = true -> G (k - 2) n = false) -> (Z.even k = false -> G (k - 1) n = false) -> G (k + 1) n = false ->
    run (bv (pE N G k n), fv (pE N G k n)) /\ fv (pE N G k n) <= cinf (k, n) /\ csup (k, n) <= bv (pE N G k n).
  Proof.
    intros H HGk He Ho Hr. destruct (pE_chain k n H HGk) as (C & F & NE). assert (Hn : 1 <= n <= N) by (destruct H; lia).
    destruct (chain_good _ _ _ C F) as [L A].
    assert (P := pow2_pos (N - n) ltac:(lia)).
    (* the left end *)
    assert (EL : ~ gu (fv (pEL N G k n) - 1) /\ bv (pEL N G k n) = csup (k, n)).
    { split; [|destruct (pEL_app N G k n) as (l & ->); unfold SegProofs.bv; rewrite last_last; reflexivity].
      unfold pEL. destruct (Z.even k) eqn:EV; [destruct (G (k - 1) n) eqn:EG|]; apply pL_max; auto; unfold lev; try lia; try discriminate;
        unfold SegProofs.fv, SegProofs.cinf, SegProofs.csup; cbn [fst snd]; f_equal; lia. }
    destruct EL as [EL1 EL2].
    assert (NL : pEL N G k n <> []) by (destruct (pEL_app N G k n) as (l & ->); destruct l; discriminate).
    assert (ER : ~ gu (bv (pE N G k n))).
    { unfold pE. apply pR_max; auto; unfold lev; lia. }
    assert (FE : fv (pE N G k n) = fv (pEL N G k n)).
    { unfold pE. destruct (pR_app G (lev N n) (k + 1) n (pEL N G k n)) as (r & ->). destruct (pEL N G k n); [congruence|reflexivity]. }
    assert (IN : In (k, n) (pE N G k n)).
    { unfold pE. destruct (pR_app G (lev N n) (k + 1) n (pEL N G k n)) as (r & ->). destruct (pEL_app N G k n) as (l & ->). apply in_or_app. left. apply in_or_app. right. left. auto. }
    assert (K : forall a b l c, chain a b l -> Forall gcell l -> In c l -> a <= cinf c /\ csup c <= b).
    { clear - HG HN. intros a b l c. revert a. induction l as [|x l IH]; intros a H F I0; [destruct I0|]. destruct I0 as [->|I].
      - destruct H as [-> H]. inversion F as [|? ? X F']; subst. destruct (chain_good _ _ _ H F'). lia.
      - destruct H as [-> H]. inversion F as [|? ? [[B _] _] F']; subst. destruct (IH _ H F' I). unfold SegProofs.csup, SegProofs.cinf in *.
        assert (P := pow2_pos (N - snd x) ltac:(lia)). nia. }
    destruct (K _ _ _ _ C F IN) as [K1 K2]. split; [|auto]. unfold run. cbn [fst snd]. 
    split; [|split; [auto|split; [rewrite FE; auto|auto]]]. unfold SegProofs.csup, SegProofs.cinf in *. cbn [fst snd] in *. nia.
  Qed.
  Lemma absorb p a b : run p -> (forall u, a <= u < b -> gu u) -> snd p < b -> a < fst p -> a < b -> snd p <= a /\ b <= fst p.
  Proof.
    intros (R1 & R2 & R3 & R4) H H1 H2 H3. split.
    - destruct (Z_le_gt_dec (snd p) a); [auto|]. exfalso. apply R3. apply H. lia.
    - destruct (Z_le_gt_dec b (fst p)); [auto|]. exfalso. apply R4. apply H. lia.
  Qed.
  Definition covered (k n : Z) (sn : list (Z * Z)) : Prop := exists p, In p sn /\ snd p <= cinf (k, n) /\ csup (k, n) <= fst p.
  Lemma pskip_cover n l : 1 <= n <= N -> Forall run l -> forall k j, pskip N k n l <= j < k -> G j n = true -> covered j n l.
  Proof.
    intros Hn. assert (P := pow2_pos (N - n) ltac:(lia)). induction l as [|[s i] r IH]; intros F k j Hj HGj; cbn [pskip] in Hj; [lia|].
    inversion F as [|? ? F1 F2]; subst.
    assert (UP : covered j n r -> covered j n ((s, i) :: r)) by (intros (p & I & Q); exists p; split; [right; auto|auto]).
    destruct (k * 2 ^ (N - n) <? i) eqn:E1; [apply UP, (IH F2 k j); auto|]. destruct (k * 2 ^ (N - n) >? s) eqn:E2; [lia|].
    destruct (Z_lt_ge_dec j (i / 2 ^ (N - n))) as [L|L]; [apply UP, (IH F2 (i / 2 ^ (N - n)) j); auto; lia|].
    exists (s, i). split; [left; auto|]. cbn [fst snd]. unfold SegProofs.cinf, SegProofs.csup; cbn [fst snd].
    rewrite HG in HGj by auto. apply (absorb (s, i)); auto; cbn [fst snd].
    - assert (X := Z.mod_pos_bound i (2 ^ (N - n)) P). assert (Y := Z.div_mod i (2 ^ (N - n)) ltac:(lia)). nia.
    - assert (j * 2 ^ (N - n) < k * 2 ^ (N - n)) by nia. lia.
    - nia.
  Qed.
  Lemma pskip_out n l : 1 <= n <= N -> StronglySorted gt1 l -> forall k p, In p l -> pskip N k n l * 2 ^ (N - n) <= snd p \/ fst p < pskip N k n l * 2 ^ (N - n).
  Proof.
    intros Hn. assert (P := pow2_pos (N - n) ltac:(lia)). induction 1 as [|[s i] r H IH F]; intros k p Hp; [destruct Hp|]. cbn [pskip].
    assert (LE := fun k => pskip_le N n r Hn k).
    destruct (k * 2 ^ (N - n) <? i) eqn:E1; [|destruct (k * 2 ^ (N - n) >? s) eqn:E2].
    - destruct Hp as [<-|Hp]; [|auto]. left. cbn [snd]. specialize (LE k). nia.
    - right. destruct Hp as [<-|Hp]; [cbn; lia|]. rewrite Forall_forall in F. apply F in Hp. unfold gt1 in Hp. cbn in Hp. lia.
    - destruct Hp as [<-|Hp]; [|auto]. left. cbn [snd]. specialize (LE (i / 2 ^ (N - n))).
      assert (X := Z.mod_pos_bound i (2 ^ (N - n)) P). assert (Y := Z.div_mod i (2 ^ (N - n)) ltac:(lia)). nia.
  Qed.
  Definition cover_to (d : Z) (sn : list (Z * Z)) : Prop := forall n k, 1 <= n <= d -> G k n = true -> covered k n sn.
  Lemma run_unique p q : run p -> run q -> fst p = fst q -> p = q.
  Proof.
    intros (P1 & P2 & P3 & _) (Q1 & Q2 & Q3 & _) E. destruct p as [s i], q as [s' i']. cbn [fst snd] in *. subst s'. f_equal.
    destruct (Z.lt_trichotomy i i') as [L|[L|L]]; [|auto|]; exfalso; [apply Q3, P2|apply P3, Q2]; lia.
  Qed.
  Lemma inu_of k n : 1 <= n <= N -> G k n = true -> inu k n.
  Proof.
    intros Hn H. rewrite HG in H by auto. assert (P := pow2_pos (N - n) ltac:(lia)).
    assert (A := Hin _ (H (k * 2 ^ (N - n)) ltac:(nia))). assert (E : 2 ^ N = 2 ^ n * 2 ^ (N - n)) by (rewrite <- Z.pow_add_r by lia; f_equal; lia).
    split; [auto|]. nia.
  Qed.
  Lemma plevel_runs n : 1 <= n <= N -> forall fuel k sn, (Z.to_nat (k + 1) < fuel)%nat -> k < 2 ^ n ->
    Forall run sn -> StronglySorted gt1 sn -> cover_to (n - 1) sn ->
    (forall j, k < j -> G j n = true -> covered j n sn) -> ~ covered k n sn ->
    Forall run (plevel N G fuel k n sn) /\ StronglySorted gt1 (plevel N G fuel k n sn) /\ cover_to n (plevel N G fuel k n sn).
  Proof.
    intros Hn. assert (P := pow2_pos (N - n) ltac:(lia)). induction fuel as [|fuel IH]; intros k sn Hf Hk F S1 CT CJ NC; [lia|]. cbn [plevel].
    destruct (k >=? 0) eqn:E.
    - set (sn' := if G k n then _ else sn).
      assert (A : Forall run sn' /\ StronglySorted gt1 sn' /\ (forall p, In p sn -> In p sn') /\ (G k n = true -> covered k n sn')).
      { unfold sn'. destruct (G k n) eqn:EG; [|split; [auto|split; [auto|split; [auto|discriminate]]]].
        assert (PAR : G (k / 2) (n - 1) = true -> 2 <= n -> covered k n sn).
        { intros X Y. destruct (CT (n - 1) (k / 2) ltac:(lia) X) as (p & I & Q1 & Q2). exists p. split; [auto|].
          assert (D := Z.div_mod k 2 ltac:(lia)). assert (M := Z.mod_pos_bound k 2 ltac:(lia)).
          unfold SegProofs.cinf, SegProofs.csup in *; cbn [fst snd] in *.
          assert (E2 : 2 ^ (N - (n - 1)) = 2 * 2 ^ (N - n)) by (rewrite <- pow_S by lia; f_equal; lia). rewrite E2 in *. nia. }
        (* no sibling, and no right neighbour *)
        assert (SIB : forall j, G (2 * j) n = true -> G (2 * j + 1) n = true -> (k = 2 * j \/ k = 2 * j + 1 \/ k = 2 * j + 2) -> False).
        { intros j J1 J2 J3. destruct (Z_le_gt_dec 2 n) as [L|L].
          - assert (GP : G j (n - 1) = true). { apply G_split; [lia|replace (n - 1 + 1) with n by lia; auto..]. }
            destruct (CT (n - 1) j ltac:(lia) GP) as (p & I & Q1 & Q2). apply NC. exists p. split; [auto|].
            rewrite Forall_forall in F. assert (R := F p I). assert (EG' := EG). rewrite HG in EG' by auto. rewrite HG in J1, J2 by auto.
            assert (E2 : 2 ^ (N - (n - 1)) = 2 * 2 ^ (N - n)) by (rewrite <- pow_S by lia; f_equal; lia).
            unfold SegProofs.cinf, SegProofs.csup in *; cbn [fst snd] in *. rewrite E2 in *.
            destruct J3 as [-> | [-> | ->]]; [split; lia|split; lia|].
            assert (X := absorb p (2 * j * 2 ^ (N - n)) ((2 * j + 2 + 1) * 2 ^ (N - n)) R).
            assert (Y : forall u, 2 * j * 2 ^ (N - n) <= u < (2 * j + 2 + 1) * 2 ^ (N - n) -> gu u).
            { intros u Hu. destruct (Z_lt_ge_dec u ((2 * j + 1) * 2 ^ (N - n))); [apply J1; lia|]. destruct (Z_lt_ge_dec u ((2 * j + 1 + 1) * 2 ^ (N - n))); [apply J2; lia|]. apply EG'; lia. }
            destruct (X Y) as [X1 X2]; try lia. all: destruct R; nia.
          - assert (n = 1) by lia. subst n. destruct (inu_of _ _ Hn J1) as [_ U1]. destruct (inu_of _ _ Hn J2) as [_ U2].
            change (2 ^ 1) with 2 in *. assert (j = 0) by lia. subst j. apply Hnot. intros u Hu.
            rewrite HG in J1, J2 by auto. cbn [Z.mul Z.add] in J1, J2.
            assert (E2 : 2 ^ N = 2 * 2 ^ (N - 1)) by (rewrite <- pow_S by lia; f_equal; lia).
            destruct (Z_lt_ge_dec u (2 ^ (N - 1))); [apply J1|apply J2]; lia. }
        destruct (pE_run k n) as (R & R1 & R2); [split; lia|auto|..].
        - intros EV H1. destruct (G (k - 2) n) eqn:G2; [|auto]. apply Z.even_spec in EV. destruct EV as [m Em]. exfalso.
          apply (SIB (m - 1)); [replace (2 * (m - 1)) with (k - 2) by lia; auto|replace (2 * (m - 1) + 1) with (k - 1) by lia; auto|lia].
        - intros OD. destruct (G (k - 1) n) eqn:G1; [|auto]. assert (D := Z.div_mod k 2 ltac:(lia)). rewrite Zmod_even, OD in D. exfalso.
          apply (SIB (k / 2)); [replace (2 * (k / 2)) with (k - 1) by lia; auto|replace (2 * (k / 2) + 1) with k by lia; auto|lia].
        - destruct (G (k + 1) n) eqn:G1; [|auto]. exfalso. destruct (Z.even k) eqn:EV.
          + apply Z.even_spec in EV. destruct EV as [m Em]. apply (SIB m); [replace (2 * m) with k by lia; auto|replace (2 * m + 1) with (k + 1) by lia; auto|lia].
          + destruct (CJ (k + 1) ltac:(lia) G1) as (p & I & Q1 & Q2). apply NC. exists p. split; [auto|].
            rewrite Forall_forall in F. assert (R := F p I). assert (EG' := EG). rewrite HG in EG', G1 by auto.
            unfold SegProofs.cinf, SegProofs.csup in *; cbn [fst snd] in *.
            assert (X : snd p <= k * 2 ^ (N - n) /\ (k + 1 + 1) * 2 ^ (N - n) <= fst p).
            { apply absorb; auto; try nia. intros u Hu. destruct (Z_lt_ge_dec u ((k + 1) * 2 ^ (N - n))); [apply EG'; lia|apply G1; lia]. }
            destruct X as [X1 X2]. split; [exact X1|]. assert ((k + 1) * 2 ^ (N - n) <= (k + 1 + 1) * 2 ^ (N - n)) by (apply Z.mul_le_mono_nonneg_r; lia). lia.
        - split; [|split; [apply pput_sorted; auto|split]].
          + apply Forall_forall. intros p Hp. apply pput_in in Hp. destruct Hp as [->|Hp]; [auto|]. rewrite Forall_forall in F. auto.
          + intros p Hp. destruct (pput_old (bv (pE N G k n)) (fv (pE N G k n)) sn p Hp) as [Q|Q]; [auto|].
            rewrite Forall_forall in F. rewrite (run_unique p (bv (pE N G k n), fv (pE N G k n))) by auto. apply pput_new.
          + intros _. exists (bv (pE N G k n), fv (pE N G k n)). split; [apply pput_new|auto]. }
      destruct A as (A1 & A2 & A3 & A4). assert (LE := pskip_le N n sn' Hn k).
      assert (UP : forall j m, covered j m sn -> covered j m sn') by (intros j m (p & I & Q); exists p; auto).
      apply IH; auto; try lia.
      + intros m j Hm Hj. apply UP, CT; auto.
      + intros j Hj HGj. destruct (Z.lt_trichotomy j k) as [L|[L|L]].
        * apply (pskip_cover n sn' Hn A1 k); auto; lia.
        * subst j. auto.
        * apply UP, CJ; auto.
      + intros (p & I & Q1 & Q2). unfold SegProofs.cinf, SegProofs.csup in *; cbn [fst snd] in *.
        destruct (pskip_out n sn' Hn A2 k p I) as [Q|Q]; nia.
    - split; [auto|split; [auto|]]. intros m j Hm Hj. destruct (Z_le_gt_dec m (n - 1)); [apply CT; auto; lia|].
      assert (m = n) by lia. subst m. apply CJ; auto. destruct (inu_of _ _ Hn Hj). lia.
  Qed.
  Lemma pdepth_runs todo : forall d sn, 1 <= d -> d + Z.of_nat todo = N + 1 -> Forall run sn -> StronglySorted gt1 sn -> cover_to (d - 1) sn ->
    Forall run (pdepth N G todo d sn) /\ StronglySorted gt1 (pdepth N G todo d sn) /\ cover_to N (pdepth N G todo d sn).
  Proof.
    induction todo as [|t IH]; intros d sn Hd E F S1 CT; cbn [pdepth].
    { split; [auto|split; [auto|]]. intros n k Hn. apply CT. lia. }
    assert (LE := pskip_le N d sn ltac:(lia) (2 ^ d)). assert (P := pow2_pos d ltac:(lia)). assert (P' := pow2_pos (N - d) ltac:(lia)).
    destruct (plevel_runs d ltac:(lia) (S (Z.to_nat (2 ^ d))) (pskip N (2 ^ d) d sn - 1) sn) as (A1 & A2 & A3); auto; try lia.
    - intros j Hj HGj. destruct (inu_of j d ltac:(lia) HGj) as [_ B]. apply (pskip_cover d sn ltac:(lia) F (2 ^ d)); auto; lia.
    - intros (p & I & Q1 & Q2). unfold SegProofs.cinf, SegProofs.csup in *; cbn [fst snd] in *.
      destruct (pskip_out d sn ltac:(lia) S1 (2 ^ d) p I) as [Q|Q]; nia.
    - apply IH; auto; try lia. replace (d + 1 - 1) with d by lia. auto.
  Qed.
  Theorem pdepth_all : 
    Forall run (pdepth N G (Z.to_nat N) 1 []) /\ StronglySorted gt1 (pdepth N G (Z.to_nat N) 1 []) /\ cover_to N (pdepth N G (Z.to_nat N) 1 []).
  Proof. apply pdepth_runs; try lia; try constructor. intros n k Hn. lia. Qed.
End Sound.
