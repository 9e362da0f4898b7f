(** The elements of a Hall set are linearly independent: if a combination of their
    expansions into tensors is zero then all its coefficients are zero, over every
    commutative ring.  Proof by elimination: keys 1, 2, ... are removed from the alphabet
    one at a time; removing k replaces each remaining letter y by the letters
    y, [k,y], [k,[k,y]], ..., and the substitution is injective on tensors because its
    leading words are distinct.  Pure mathematics; no code here. *)
From Coq Require Import ZifyBool Setoid Morphisms.
From Verif Require Import Outcome Alg Words Series Shuffle LieSpec.
Local Open Scope Z_scope.

Section Free.
  Variable R : cring.
  Add Ring Rring_hf : (rth R).
  Local Open Scope cr_scope.
  Notation tens := (tens R Z).
  Infix "==" := teq (at level 70).

  Definition dirac (v : list Z) : tens := fun u => if list_eq_dec Z.eq_dec v u then 1 else 0.
  Definition ltr (h : Z) : tens := fun u => match u with [x] => if Z.eqb x h then 1 else 0 | _ => 0 end.
  Lemma ltr_dirac h : ltr h == dirac [h].
  Proof.
    intros u. unfold ltr, dirac. destruct (list_eq_dec Z.eq_dec [h] u) as [<-|Hne]; [rewrite Z.eqb_refl; reflexivity|].
    destruct u as [|x [|? ?]]; auto. destruct (x =? h)%Z eqn:E; auto. apply Z.eqb_eq in E. subst. congruence.
  Qed.
  Lemma dirac_app u v : dirac (u ++ v) == conv (dirac u) (dirac v).
  Proof.
    intros x. unfold conv. destruct (list_eq_dec Z.eq_dec (u ++ v) x) as [<-|Hne].
    - rewrite (sum_single R _ _ (length u)).
      + rewrite firstn_app, skipn_app, firstn_all, skipn_all, Nat.sub_diag. cbn. rewrite app_nil_r.
        unfold dirac. destruct (list_eq_dec _ (u ++ v) (u ++ v)), (list_eq_dec _ u u), (list_eq_dec _ v v); try congruence. ring.
      + apply seq_NoDup.
      + rewrite app_length. apply in_seq. lia.
      + intros k Hk Hne. apply in_seq in Hk. unfold dirac. destruct (list_eq_dec Z.eq_dec u _) as [E|]; [|ring].
        exfalso. apply Hne. rewrite E. rewrite firstn_length. lia.
    - rewrite sum_zero; [unfold dirac; destruct (list_eq_dec _ _ _); congruence|].
      intros k _. unfold dirac. destruct (list_eq_dec Z.eq_dec u _) as [E1|]; [|ring]. destruct (list_eq_dec Z.eq_dec v _) as [E2|]; [|ring].
      exfalso. apply Hne. rewrite E1, E2. apply firstn_skipn.
  Qed.

  (** ** Formal combinations of words *)
  Definition lin (l : list (R * list Z)) (G : list Z -> tens) : tens := fun u => sum l (fun p => fst p * G (snd p) u).
  Definition fscal (c : R) (l : list (R * list Z)) := map (fun p => (c * fst p, snd p)) l.
  Definition fmul (l m : list (R * list Z)) := flat_map (fun p => map (fun q => (fst p * fst q, snd p ++ snd q)) m) l.
  Definition fcomm l m := fmul l m ++ fscal (- (1)) (fmul m l).
  Lemma lin_app l m G : lin (l ++ m) G == tadd (lin l G) (lin m G).
  Proof. intros u. apply sum_app. Qed.
  Lemma lin_scal c l G : lin (fscal c l) G == tscal c (lin l G).
  Proof.
    intros u. unfold lin, fscal, tscal. induction l as [|p l IH]; cbn [map sum]; [ring|]. rewrite IH. cbn [fst snd]. ring.
  Qed.
  Lemma lin_mul G (HG : forall u v, G (u ++ v) == conv (G u) (G v)) l m : lin (fmul l m) G == conv (lin l G) (lin m G).
  Proof.
    intros u. induction l as [|p l IH].
    - cbn [fmul flat_map]. unfold lin at 1 2. cbn [sum]. symmetry. apply (conv_zero_l _ _ _ u).
    - cbn [fmul flat_map]. fold (fmul l m). rewrite (lin_app _ _ G u). unfold tadd. rewrite IH.
      transitivity (conv (tadd (tscal (fst p) (G (snd p))) (lin l G)) (lin m G) u); [|apply conv_local; intros; reflexivity].
      rewrite (conv_add_l _ _ _ _ _ u). unfold tadd. f_equal. rewrite (conv_scal_l _ _ _ _ _ u). clear IH. unfold tscal.
      induction m as [|q m IH]; cbn [map].
      + unfold lin. cbn [sum]. rewrite (conv_zero_r _ _ (G (snd p)) u : conv (G (snd p)) (fun _ => 0) u = _). unfold tzero. ring.
      + transitivity (fst p * fst q * G (snd p ++ snd q) u + fst p * conv (G (snd p)) (lin m G) u).
        { rewrite <- IH. reflexivity. }
        rewrite (HG _ _ u).
        transitivity (fst p * conv (G (snd p)) (tadd (tscal (fst q) (G (snd q))) (lin m G)) u); [|f_equal; apply conv_local; intros; reflexivity].
        rewrite (conv_add_r _ _ _ _ _ u). unfold tadd. rewrite (conv_scal_r _ _ _ _ _ u). unfold tscal. ring.
  Qed.
  Lemma lin_comm G (HG : forall u v, G (u ++ v) == conv (G u) (G v)) l m : lin (fcomm l m) G == comm (lin l G) (lin m G).
  Proof.
    intros u. unfold fcomm. rewrite (lin_app _ _ G u). unfold tadd. rewrite (lin_scal _ _ G u). unfold tscal, comm, tsub.
    rewrite (lin_mul G HG l m u), (lin_mul G HG m l u). ring.
  Qed.
  Lemma lin_concat {I} (is : list I) (c : I -> R) (f : I -> list (R * list Z)) G u :
    lin (flat_map (fun i => fscal (c i) (f i)) is) G u = sum is (fun i => c i * lin (f i) G u).
  Proof.
    induction is as [|i is IH]; cbn [flat_map sum]; [reflexivity|]. rewrite (lin_app _ _ G u). unfold tadd. rewrite IH, (lin_scal _ _ G u). reflexivity.
  Qed.
  (** Collecting equal words. *)
  Lemma lin_group l G W u : NoDup W -> (forall p, In p l -> In (snd p) W) ->
    lin l G u = sum W (fun v => lin l dirac v * G v u).
  Proof.
    intros HW Hin. unfold lin.
    transitivity (sum W (fun v => sum l (fun p => fst p * dirac (snd p) v * G v u))).
    2:{ apply sum_ext. intros v _. rewrite sum_mul_r. reflexivity. }
    rewrite sum_swap. apply sum_ext. intros p Hp. rewrite (sum_single R W _ (snd p)); auto.
    - unfold dirac. destruct (list_eq_dec _ _ _); [ring|congruence].
    - intros v _ Hne. unfold dirac. destruct (list_eq_dec _ _ _); [congruence|ring].
  Qed.

  (** ** Eliminating one letter *)
  Section Elim.
    Variable k : Z.
    Fixpoint nk (u : list Z) : nat := match u with [] => 0 | x :: u => (if Z.eqb x k then 1 else 0) + nk u end%nat.
    Fixpoint nn (u : list Z) : nat := match u with [] => 0 | x :: u => (if Z.eqb x k then 0 else 1) + nn u end%nat.
    Fixpoint mu (u : list Z) : nat := match u with [] => 0 | x :: u => (if Z.eqb x k then nn u else 0) + mu u end%nat.
    Lemma nk_app u v : nk (u ++ v) = (nk u + nk v)%nat.
    Proof. induction u as [|x u IH]; cbn [nk app]; lia. Qed.
    Lemma nn_app u v : nn (u ++ v) = (nn u + nn v)%nat.
    Proof. induction u as [|x u IH]; cbn [nn app]; lia. Qed.
    Lemma mu_app u v : mu (u ++ v) = (mu u + mu v + nk u * nn v)%nat.
    Proof. induction u as [|x u IH]; cbn [nk mu app]; [lia|]. rewrite nn_app. destruct (Z.eqb x k); lia. Qed.
    Lemma nkn u : (nk u + nn u = length u)%nat.
    Proof. induction u as [|x u IH]; cbn [nk nn length]; [lia|]. destruct (Z.eqb x k); lia. Qed.

    Definition below (m u : list Z) : Prop := nk u = nk m /\ nn u = nn m /\ (u = m \/ (mu u < mu m)%nat).
    Definition lead (m : list Z) (a : tens) : Prop := a m = 1 /\ forall u, below m u \/ a u = 0.
    Lemma lead_one : lead [] tone.
    Proof. split; [reflexivity|]. intros [|x u]; [left; repeat split; auto|right; reflexivity]. Qed.
    Lemma lead_ltr h : lead [h] (ltr h).
    Proof.
      split; [cbn; rewrite Z.eqb_refl; reflexivity|]. intros u. destruct (list_eq_dec Z.eq_dec u [h]) as [->|Hne]; [left; repeat split; auto|].
      right. destruct u as [|x [|? ?]]; auto. cbn. destruct (x =? h)%Z eqn:E; auto. apply Z.eqb_eq in E. subst. congruence.
    Qed.
    Lemma below_app m1 m2 u1 u2 : below m1 u1 -> below m2 u2 -> below (m1 ++ m2) (u1 ++ u2).
    Proof.
      intros (A1 & A2 & A3) (B1 & B2 & B3). unfold below. rewrite !nk_app, !nn_app, !mu_app. rewrite A1, A2, B1, B2.
      repeat split; auto. destruct A3 as [->|A3], B3 as [->|B3]; auto; right; lia.
    Qed.
    Lemma lead_conv m1 m2 a b : lead m1 a -> lead m2 b -> lead (m1 ++ m2) (conv a b).
    Proof.
      intros [A1 A2] [B1 B2]. split.
      - unfold conv. rewrite (sum_single R _ _ (length m1)).
        + rewrite firstn_app, skipn_app, firstn_all, skipn_all, Nat.sub_diag. cbn. rewrite app_nil_r, A1, B1. ring.
        + apply seq_NoDup.
        + rewrite app_length. apply in_seq. lia.
        + intros i Hi Hne. apply in_seq in Hi. set (u1 := firstn i _). set (u2 := skipn i _).
          assert (E : u1 ++ u2 = m1 ++ m2) by apply firstn_skipn.
          destruct (A2 u1) as [G1|G1]; [|rewrite G1; ring]. destruct (B2 u2) as [G2|G2]; [|rewrite G2; ring]. exfalso.
          assert (EM : mu (u1 ++ u2) = mu (m1 ++ m2)) by (rewrite E; reflexivity). rewrite !mu_app in EM.
          destruct G1 as (X1 & X2 & X3), G2 as (Y1 & Y2 & Y3). rewrite X1, Y2 in EM.
          assert (E1 : u1 = m1). { destruct X3 as [|X3]; auto. destruct Y3 as [->|Y3]; lia. }
          apply Hne. rewrite <- E1. unfold u1. rewrite firstn_length. lia.
      - intros u.
        destruct (Nat.eq_dec (nk u) (nk (m1 ++ m2))) as [E1|N1].
        2:{ right. unfold conv. apply sum_zero. intros i _. rewrite <- (firstn_skipn i u) in N1. destruct (A2 (firstn i u)) as [G1|G1]; [|rewrite G1; ring].
            destruct (B2 (skipn i u)) as [G2|G2]; [|rewrite G2; ring]. exfalso. apply N1, (below_app _ _ _ _ G1 G2). }
        destruct (Nat.eq_dec (nn u) (nn (m1 ++ m2))) as [E2|N1].
        2:{ right. unfold conv. apply sum_zero. intros i _. rewrite <- (firstn_skipn i u) in N1. destruct (A2 (firstn i u)) as [G1|G1]; [|rewrite G1; ring].
            destruct (B2 (skipn i u)) as [G2|G2]; [|rewrite G2; ring]. exfalso. apply N1, (below_app _ _ _ _ G1 G2). }
        destruct (list_eq_dec Z.eq_dec u (m1 ++ m2)) as [E3|N3]; [left; repeat split; auto|].
        destruct (lt_dec (mu u) (mu (m1 ++ m2))) as [E4|N4]; [left; repeat split; auto|].
        right. unfold conv. apply sum_zero. intros i _. rewrite <- (firstn_skipn i u) in N3, N4. destruct (A2 (firstn i u)) as [G1|G1]; [|rewrite G1; ring].
        destruct (B2 (skipn i u)) as [G2|G2]; [|rewrite G2; ring]. exfalso. destruct (below_app _ _ _ _ G1 G2) as (_ & _ & [X|X]); auto.
    Qed.
    Lemma lead_ext m a b : a == b -> lead m a -> lead m b.
    Proof. intros E [A1 A2]. split; [rewrite <- (E m); auto|]. intros u. rewrite <- (E u). auto. Qed.
    Lemma lead_comm m a : nn m = 1%nat -> lead m a -> lead (k :: m) (comm (ltr k) a).
    Proof.
      intros Hn HL. assert (L1 := lead_conv [k] m _ _ (lead_ltr k) HL). assert (L2 := lead_conv m [k] _ _ HL (lead_ltr k)).
      assert (K : forall u, below (m ++ [k]) u -> nk u = nk (k :: m) /\ nn u = nn (k :: m) /\ (mu u < mu (k :: m))%nat).
      { intros u (B1 & B2 & B3). rewrite B1, B2, nk_app, nn_app. cbn [nk nn mu]. rewrite Z.eqb_refl. repeat split; try lia.
        assert (mu (m ++ [k]) = mu m). { rewrite mu_app. cbn [nn mu]. rewrite Z.eqb_refl. lia. }
        destruct B3 as [->|B3]; lia. }
      split.
      - unfold comm, tsub. destruct L1 as [E1 _]. cbn [app] in E1. rewrite E1. destruct L2 as [_ L2]. destruct (L2 (k :: m)) as [G|G]; [|rewrite G; ring].
        apply K in G. lia.
      - intros u. destruct L1 as [_ L1], L2 as [_ L2]. cbn [app] in L1. destruct (L1 u) as [G1|G1]; auto. destruct (L2 u) as [G2|G2].
        + left. apply K in G2. repeat split; tauto.
        + right. unfold comm, tsub. rewrite G1, G2. ring.
    Qed.
  End Elim.

  (** ** Hall data *)
  Variables (M : Z) (lft rgt : Z -> Z).
  Hypothesis Hlt : forall h, (1 <= h <= M -> 0 <= lft h < h)%Z.
  Hypothesis Hnode : forall h, (1 <= h <= M -> lft h <> 0 -> 1 <= lft h < rgt h /\ rgt h < h /\ lft (rgt h) <= lft h)%Z.
  Hypothesis Hinj : forall h h', (1 <= h <= M -> 1 <= h' <= M -> lft h <> 0 -> lft h = lft h' -> rgt h = rgt h' -> h = h')%Z.

  (** The element [h] as a tensor over the alphabet left after eliminating 1..k. *)
  Fixpoint px_ (n : nat) (k h : Z) : tens :=
    match n with O => ltr h | S n => if (lft h <=? k)%Z then ltr h else comm (px_ n k (lft h)) (px_ n k (rgt h)) end.
  Definition px k h : tens := px_ (Z.to_nat h) k h.
  Fixpoint fx_ (n : nat) (k h : Z) : list (R * list Z) :=
    match n with O => [(1, [h])] | S n => if (lft h <=? k)%Z then [(1, [h])] else fcomm (fx_ n k (lft h)) (fx_ n k (rgt h)) end.
  Definition fx k h := fx_ (Z.to_nat h) k h.
  Lemma px_fuel k n m h : (0 <= k)%Z -> (1 <= h <= M)%Z -> (Z.to_nat h <= n)%nat -> (Z.to_nat h <= m)%nat -> px_ n k h = px_ m k h /\ fx_ n k h = fx_ m k h.
  Proof.
    intros Hk. revert m h. induction n as [|n IH]; intros m h Hh Hn Hm; [lia|]. destruct m as [|m]; [lia|]. cbn [px_ fx_].
    destruct (lft h <=? k)%Z eqn:E; [auto|]. assert (X := Hnode h Hh ltac:(lia)). assert (X2 := Hlt h Hh).
    destruct (IH m (lft h)) as [-> ->]; try lia. destruct (IH m (rgt h)) as [-> ->]; try lia. auto.
  Qed.
  Lemma px_eq k h : (0 <= k)%Z -> (1 <= h <= M)%Z -> px k h = if (lft h <=? k)%Z then ltr h else comm (px k (lft h)) (px k (rgt h)).
  Proof.
    intros Hk Hh. unfold px. destruct (Z.to_nat h) as [|n] eqn:E; [lia|]. cbn [px_]. destruct (lft h <=? k)%Z eqn:El; [auto|].
    assert (X := Hnode h Hh ltac:(lia)). assert (X2 := Hlt h Hh).
    destruct (px_fuel k n (Z.to_nat (lft h)) (lft h)) as [-> _]; try lia. destruct (px_fuel k n (Z.to_nat (rgt h)) (rgt h)) as [-> _]; try lia. auto.
  Qed.
  Lemma fx_eq k h : (0 <= k)%Z -> (1 <= h <= M)%Z -> fx k h = if (lft h <=? k)%Z then [(1, [h])] else fcomm (fx k (lft h)) (fx k (rgt h)).
  Proof.
    intros Hk Hh. unfold fx. destruct (Z.to_nat h) as [|n] eqn:E; [lia|]. cbn [fx_]. destruct (lft h <=? k)%Z eqn:El; [auto|].
    assert (X := Hnode h Hh ltac:(lia)). assert (X2 := Hlt h Hh).
    destruct (px_fuel k n (Z.to_nat (lft h)) (lft h)) as [_ ->]; try lia. destruct (px_fuel k n (Z.to_nat (rgt h)) (rgt h)) as [_ ->]; try lia. auto.
  Qed.
  (** Induction along the bracketing. *)
  Lemma key_ind (P : Z -> Prop) : (forall h, (1 <= h <= M)%Z -> (lft h <> 0%Z -> P (lft h) /\ P (rgt h)) -> P h) -> forall h, (1 <= h <= M)%Z -> P h.
  Proof.
    intros H h Hh. assert (X : forall n h, (1 <= h <= M)%Z -> (Z.to_nat h <= n)%nat -> P h).
    { clear h Hh. induction n as [|n IH]; intros h Hh Hn; [lia|]. apply H; auto. intros Hl. assert (X := Hnode h Hh Hl). assert (X2 := Hlt h Hh). split; apply IH; lia. }
    apply (X (Z.to_nat h)); auto.
  Qed.

  (** The substitution, on letters and on words, and its leading words. *)
  Fixpoint sb_ (n : nat) (k h : Z) : tens :=
    match n with O => ltr h | S n => if (lft h =? k)%Z then comm (ltr k) (sb_ n k (rgt h)) else ltr h end.
  Definition sb k h := sb_ (Z.to_nat h) k h.
  Fixpoint ld_ (n : nat) (k h : Z) : list Z :=
    match n with O => [h] | S n => if (lft h =? k)%Z then k :: ld_ n k (rgt h) else [h] end.
  Definition ld k h := ld_ (Z.to_nat h) k h.
  Lemma sb_fuel k n m h : (1 <= k)%Z -> (1 <= h <= M)%Z -> (Z.to_nat h <= n)%nat -> (Z.to_nat h <= m)%nat -> sb_ n k h = sb_ m k h /\ ld_ n k h = ld_ m k h.
  Proof.
    intros Hk. revert m h. induction n as [|n IH]; intros m h Hh Hn Hm; [lia|]. destruct m as [|m]; [lia|]. cbn [sb_ ld_].
    destruct (lft h =? k)%Z eqn:E; [|auto]. assert (X := Hnode h Hh ltac:(lia)). assert (X2 := Hlt h Hh).
    destruct (IH m (rgt h)) as [-> ->]; try lia. auto.
  Qed.
  Lemma sb_eq k h : (1 <= k)%Z -> (1 <= h <= M)%Z -> sb k h = if (lft h =? k)%Z then comm (ltr k) (sb k (rgt h)) else ltr h.
  Proof.
    intros Hk Hh. unfold sb. destruct (Z.to_nat h) as [|n] eqn:E; [lia|]. cbn [sb_]. destruct (lft h =? k)%Z eqn:El; [|auto].
    assert (X := Hnode h Hh ltac:(lia)). assert (X2 := Hlt h Hh).
    destruct (sb_fuel k n (Z.to_nat (rgt h)) (rgt h)) as [-> _]; try lia. auto.
  Qed.
  Lemma ld_eq k h : (1 <= k)%Z -> (1 <= h <= M)%Z -> ld k h = if (lft h =? k)%Z then k :: ld k (rgt h) else [h].
  Proof.
    intros Hk Hh. unfold ld. destruct (Z.to_nat h) as [|n] eqn:E; [lia|]. cbn [ld_]. destruct (lft h =? k)%Z eqn:El; [|auto].
    assert (X := Hnode h Hh ltac:(lia)). assert (X2 := Hlt h Hh).
    destruct (sb_fuel k n (Z.to_nat (rgt h)) (rgt h)) as [_ ->]; try lia. auto.
  Qed.
  Fixpoint sbw (k : Z) (v : list Z) : tens := match v with [] => tone | h :: v => conv (sb k h) (sbw k v) end.
  Definition ldw (k : Z) (v : list Z) : list Z := flat_map (ld k) v.
  Lemma sbw_app k u v : sbw k (u ++ v) == conv (sbw k u) (sbw k v).
  Proof.
    induction u as [|h u IH]; cbn [sbw app]; intros x.
    - symmetry. apply (conv_one_l _ _ _ x).
    - rewrite (conv_assoc _ _ _ _ _ x). apply conv_ext; auto. intros y; reflexivity.
  Qed.
  (** Letters of the alphabet left after eliminating 1..k. *)
  Definition left_in (k h : Z) : Prop := (k < h <= M /\ lft h <= k)%Z.
  Lemma left_in_r k h : (1 <= k)%Z -> left_in k h -> lft h = k -> left_in k (rgt h).
  Proof. intros Hk [H1 H2] E. assert (X := Hnode h ltac:(lia) ltac:(lia)). split; lia. Qed.
  Lemma ld_one k h : (1 <= k)%Z -> left_in k h -> nn k (ld k h) = 1%nat /\ lead k (ld k h) (sb k h).
  Proof.
    intros Hk HL. assert (Hh : (1 <= h <= M)%Z) by (destruct HL; lia). revert HL. pattern h. apply key_ind; [|exact Hh]. clear h Hh.
    intros h Hh IH HL. rewrite (ld_eq k h), (sb_eq k h) by lia. destruct (lft h =? k)%Z eqn:E.
    - destruct IH as [_ IH]; [lia|]. destruct (IH (left_in_r k h Hk HL ltac:(lia))) as [I1 I2]. split.
      + cbn [nn]. rewrite Z.eqb_refl, I1. reflexivity.
      + apply lead_comm; auto.
    - split; [|apply lead_ltr]. cbn [nn]. destruct HL. replace (h =? k)%Z with false by lia. reflexivity.
  Qed.
  Lemma ldw_lead k v : (1 <= k)%Z -> Forall (left_in k) v -> nn k (ldw k v) = length v /\ lead k (ldw k v) (sbw k v).
  Proof.
    intros Hk. induction 1 as [|h v Hh Hv IH]; cbn [ldw flat_map sbw length].
    - split; [reflexivity|]. apply lead_one.
    - destruct (ld_one k h Hk Hh) as [A1 A2]. destruct IH as [B1 B2]. rewrite nn_app, A1. fold (ldw k v). rewrite B1. split; [reflexivity|]. apply lead_conv; auto.
  Qed.
  Lemma ld_cancel k h h' s s' : (1 <= k)%Z -> left_in k h -> left_in k h' -> ld k h ++ s = ld k h' ++ s' -> h = h' /\ s = s'.
  Proof.
    intros Hk HL. assert (Hh : (1 <= h <= M)%Z) by (destruct HL; lia). revert h' HL. pattern h. apply key_ind; [|exact Hh]. clear h Hh.
    intros h Hh IH h' HL HL'. rewrite (ld_eq k h), (ld_eq k h') by (destruct HL'; lia). destruct (lft h =? k)%Z eqn:E, (lft h' =? k)%Z eqn:E'; cbn [app]; intros EQ.
    - injection EQ as EQ. destruct IH as [_ IH]; [lia|]. destruct (IH (rgt h') (left_in_r k h Hk HL ltac:(lia)) (left_in_r k h' Hk HL' ltac:(lia)) EQ) as [A B].
      split; auto. apply Hinj; auto; destruct HL, HL'; lia.
    - injection EQ as EQ _. destruct HL'; lia.
    - injection EQ as EQ _. destruct HL; lia.
    - injection EQ as -> ->. auto.
  Qed.
  Lemma ldw_inj k v v' : (1 <= k)%Z -> Forall (left_in k) v -> Forall (left_in k) v' -> ldw k v = ldw k v' -> v = v'.
  Proof.
    intros Hk Hv. revert v'. induction Hv as [|h v Hh Hv IH]; intros v' Hv' E; destruct Hv' as [|h' v' Hh' Hv']; auto.
    - cbn in E. assert (X := proj1 (ld_one k h' Hk Hh')). destruct (ld k h'); [discriminate X|discriminate].
    - cbn in E. assert (X := proj1 (ld_one k h Hk Hh)). destruct (ld k h); [discriminate X|discriminate].
    - cbn [ldw flat_map] in E. destruct (ld_cancel k h h' _ _ Hk Hh Hh' E) as [-> E2]. f_equal. apply IH; auto.
  Qed.
  (** The substitution is injective. *)
  Lemma subst_inj k l : (1 <= k)%Z -> (forall p, In p l -> Forall (left_in k) (snd p)) -> lin l (sbw k) == tzero -> lin l dirac == tzero.
  Proof.
    intros Hk Hl HZ. set (W := nodup (list_eq_dec Z.eq_dec) (map snd l)).
    assert (HWin : forall p, In p l -> In (snd p) W) by (intros p Hp; apply nodup_In, in_map, Hp).
    assert (HWL : forall v, In v W -> Forall (left_in k) v). { intros v Hv. apply nodup_In, in_map_iff in Hv. destruct Hv as (p & <- & Hp). auto. }
    assert (Hout : forall v, ~ In v W -> lin l dirac v = 0).
    { intros v Hv. unfold lin. apply sum_zero. intros p Hp. unfold dirac. destruct (list_eq_dec _ _ _) as [E|]; [|ring]. exfalso. apply Hv. rewrite <- E. auto. }
    assert (Hin : forall n v, In v W -> (forall v', In v' W -> (mu k (ldw k v') <= mu k (ldw k v) + n)%nat) -> lin l dirac v = 0).
    { induction n as [n IH] using lt_wf_ind; intros v Hv Hmax.
      assert (E := HZ (ldw k v)). rewrite (lin_group l _ W _ (NoDup_nodup _ _) HWin) in E.
      rewrite (sum_single R W _ v) in E; [|apply NoDup_nodup|auto|].
      - destruct (ldw_lead k v Hk (HWL v Hv)) as [_ [E1 _]]. rewrite E1 in E. unfold tzero in E. rewrite <- E. ring.
      - intros v' Hv' Hne. destruct (ldw_lead k v' Hk (HWL v' Hv')) as [_ [_ E2]]. destruct (E2 (ldw k v)) as [(_ & _ & [G|G])|G]; [| |rewrite G; ring].
        + exfalso. apply Hne. symmetry. eapply ldw_inj; eauto.
        + rewrite (IH (n - (mu k (ldw k v') - mu k (ldw k v)))%nat) with (v := v'); [ring| |auto|].
          * assert (X := Hmax v' Hv'). lia.
          * intros v2 Hv2. assert (X := Hmax v' Hv'). assert (Y := Hmax v2 Hv2). lia. }
    intros v. unfold tzero. destruct (in_dec (list_eq_dec Z.eq_dec) v W) as [Hv|Hv]; [|apply Hout, Hv].
    assert (Hb : exists n, forall v', In v' W -> (mu k (ldw k v') <= n)%nat).
    { clear. induction W as [|a W [n IH]]; [exists 0%nat; intros ? []|]. exists (Nat.max n (mu k (ldw k a))). intros v' [->|H]; [lia|]. specialize (IH v' H). lia. }
    destruct Hb as [n Hb]. apply (Hin n v Hv). intros v' Hv'. specialize (Hb v' Hv'). lia.
  Qed.

  (** Elements before and after eliminating [k]. *)
  Lemma fx_words k h : (0 <= k)%Z -> (k < h <= M)%Z -> forall p, In p (fx k h) -> Forall (left_in k) (snd p) /\ snd p <> [].
  Proof.
    intros Hk Hh. assert (Hh' : (1 <= h <= M)%Z) by lia. revert Hh. pattern h. apply key_ind; [|exact Hh']. clear h Hh'. intros h Hh IH Hkh p. rewrite fx_eq by lia.
    destruct (lft h <=? k)%Z eqn:E.
    - intros [<-|[]]. cbn. split; [|discriminate]. repeat constructor; lia.
    - assert (X := Hnode h Hh ltac:(lia)). assert (X2 := Hlt h Hh). destruct IH as [I1 I2]; [lia|]. specialize (I1 ltac:(lia)). specialize (I2 ltac:(lia)).
      assert (Hm : forall l m q, (forall p, In p l -> Forall (left_in k) (snd p) /\ snd p <> []) -> (forall p, In p m -> Forall (left_in k) (snd p) /\ snd p <> []) ->
        In q (fmul l m) -> Forall (left_in k) (snd q) /\ snd q <> []).
      { intros l m q Hl Hm Hq. unfold fmul in Hq. apply in_flat_map in Hq. destruct Hq as (p1 & P1 & Hq). apply in_map_iff in Hq. destruct Hq as (p2 & <- & P2).
        cbn [snd]. destruct (Hl _ P1) as [A1 A2]. split; [apply Forall_app; split; auto; apply Hm; auto|]. destruct (snd p1); [congruence|discriminate]. }
      unfold fcomm. intros Hp. apply in_app_or in Hp. destruct Hp as [Hp|Hp]; [exact (Hm _ _ _ I1 I2 Hp)|].
      unfold fscal in Hp. apply in_map_iff in Hp. destruct Hp as (q & <- & Hq). cbn [snd]. exact (Hm _ _ _ I2 I1 Hq).
  Qed.
  Lemma fx_px k h : (0 <= k)%Z -> (1 <= h <= M)%Z -> lin (fx k h) dirac == px k h.
  Proof.
    intros Hk Hh. pattern h. apply key_ind; [|exact Hh]. clear h Hh. intros h Hh IH u. rewrite fx_eq, px_eq by lia. destruct (lft h <=? k)%Z eqn:E.
    - unfold lin. cbn [sum fst snd]. rewrite <- (ltr_dirac h u). ring.
    - destruct IH as [I1 I2]; [lia|]. rewrite (lin_comm dirac dirac_app _ _ u). apply comm_ext; auto.
  Qed.
  Lemma fx_sb k h : (1 <= k)%Z -> (k < h <= M)%Z -> lin (fx k h) (sbw k) == px (k - 1) h.
  Proof.
    intros Hk Hh. assert (Hh' : (1 <= h <= M)%Z) by lia. revert Hh. pattern h. apply key_ind; [|exact Hh']. clear h Hh'. intros h Hh IH Hkh u. rewrite fx_eq by lia.
    assert (X2 := Hlt h Hh). destruct (lft h <=? k)%Z eqn:E.
    - transitivity (sb k h u).
      { unfold lin. cbn [sum fst snd sbw]. rewrite (conv_one_r _ _ (sb k h) u). ring. }
      rewrite sb_eq, px_eq by lia. destruct (lft h =? k)%Z eqn:E2.
      + replace (lft h <=? k - 1)%Z with false by lia. assert (X := Hnode h Hh ltac:(lia)). destruct IH as [_ I2]; [lia|]. specialize (I2 ltac:(lia)).
        apply comm_ext.
        * intros y. replace (lft h) with k by lia. rewrite px_eq by lia. assert (Y := Hlt k ltac:(lia)). replace (lft k <=? k - 1)%Z with true by lia. reflexivity.
        * intros y. rewrite <- (I2 y). rewrite fx_eq by lia. replace (lft (rgt h) <=? k)%Z with true by lia.
          unfold lin. cbn [sum fst snd sbw]. rewrite (conv_one_r _ _ (sb k (rgt h)) y). ring.
      + replace (lft h <=? k - 1)%Z with true by lia. reflexivity.
    - assert (X := Hnode h Hh ltac:(lia)). destruct IH as [I1 I2]; [lia|]. specialize (I1 ltac:(lia)). specialize (I2 ltac:(lia)).
      rewrite px_eq by lia. replace (lft h <=? k - 1)%Z with false by lia. rewrite (lin_comm _ (sbw_app k) _ _ u). apply comm_ext; auto.
  Qed.

  Lemma zrange_cons a n : zseq a (S n) = a :: zseq (a + 1) n.
  Proof. reflexivity. Qed.
  Theorem independent_above n : forall k c, (0 <= k)%Z -> (Z.of_nat n = M - k)%Z ->
    (forall u, sum (zseq (k + 1) n) (fun h => c h * px k h u) = 0) -> forall h, (k < h <= M)%Z -> c h = 0.
  Proof.
    induction n as [|n IH]; intros k c Hk Hn HZ h Hh; [lia|].
    rewrite zrange_cons in HZ. cbn [sum] in HZ.
    assert (Hsb : forall h u, In h (zseq (k + 1 + 1) n) -> px k h u = lin (fx (k + 1) h) (sbw (k + 1)) u).
    { intros h' u Hi. apply zseq_In in Hi. assert (X := fx_sb (k + 1) h' ltac:(lia) ltac:(lia) u). rewrite Z.add_simpl_r in X. symmetry. exact X. }
    assert (C0 : c (k + 1)%Z = 0).
    { assert (E := HZ [(k + 1)%Z]). rewrite px_eq in E by lia. assert (Y := Hlt (k + 1)%Z ltac:(lia)). replace (lft (k + 1) <=? k)%Z with true in E by lia.
      unfold ltr in E. rewrite Z.eqb_refl in E. rewrite sum_zero in E; [rewrite <- E; ring|].
      intros h' Hi. rewrite (Hsb h' _ Hi). apply zseq_In in Hi. unfold lin. rewrite sum_zero; [ring|]. intros p Hp.
      destruct (fx_words (k + 1) h' ltac:(lia) ltac:(lia) p Hp) as [F1 F2]. destruct (ldw_lead (k + 1) (snd p) ltac:(lia) F1) as [L1 [_ L2]].
      destruct (L2 [(k + 1)%Z]) as [(_ & G & _)|G]; [|rewrite G; ring]. exfalso. rewrite L1 in G. cbn [nn] in G. rewrite Z.eqb_refl in G. destruct (snd p); [congruence|discriminate]. }
    destruct (Z.eq_dec h (k + 1)) as [->|Hne]; [exact C0|].
    set (l := flat_map (fun h => fscal (c h) (fx (k + 1) h)) (zseq (k + 1 + 1) n)).
    assert (HL : lin l dirac == tzero).
    { apply (subst_inj (k + 1)); [lia| |].
      - intros p Hp. unfold l in Hp. apply in_flat_map in Hp. destruct Hp as (h' & Hi & Hp). apply zseq_In in Hi. unfold fscal in Hp. apply in_map_iff in Hp. destruct Hp as (q & <- & Hq).
        cbn [snd]. apply (fx_words (k + 1) h'); auto; lia.
      - intros u. unfold l. rewrite lin_concat. unfold tzero. rewrite <- (HZ u) at 1. rewrite C0.
        rewrite (sum_ext R _ (fun h => c h * lin (fx (k + 1) h) (sbw (k + 1)) u) (fun h => c h * px k h u)); [ring|].
        intros h' Hi. rewrite (Hsb h' u Hi). reflexivity. }
    apply (IH (k + 1)%Z c); [lia|lia| |lia]. intros u. rewrite <- (HL u : _ = 0). unfold l. rewrite lin_concat. apply sum_ext.
    intros h' Hi. apply zseq_In in Hi. rewrite (fx_px (k + 1) h' ltac:(lia) ltac:(lia) u). reflexivity.
  Qed.
  Theorem hall_independent c : (0 <= M)%Z -> (forall u, sum (zseq 1 (Z.to_nat M)) (fun h => c h * px 0 h u) = 0) -> forall h, (1 <= h <= M)%Z -> c h = 0.
  Proof. intros HM H h Hh. apply (independent_above (Z.to_nat M) 0 c); try lia. exact H. Qed.
End Free.
