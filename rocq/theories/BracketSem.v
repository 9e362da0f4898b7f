(** The bracket table computes commutators of Hall basis elements. *)
From Coq Require Import ZifyBool Sorted.
From Verif Require Import Outcome Alg Words Mem Series Shuffle Mobius HallModel HallSpec LieSpec HallTab HallCount HallDim HallProofs HallTrees HallLookup BracketModel BracketProofs.

Section Sem.
  Variables (w N M : Z) (db L R : Z -> Z).
  Hypothesis H : hall_data w N M db L R.
  Variable K : cring.
  Add Ring Rring_bs : (rth K).
  Local Open Scope Z_scope.
  Notation dg := (dg N db). Notation mu := (mu N M db). Notation valid := (valid N M db). Notation BR := (BR N M db L R).
  Notation find_key := (find_key M L R). Notation half := (half N M db L R).
  Infix "==" := teq (at level 70).
  Definition E (k : Z) : tens K Z := texpand K (tr L R k).
  Definition lin (e : list (Z * Z)) : tens K Z := fun u => sum e (fun p => rmul (zr K (snd p)) (E (fst p) u)).

  Lemma lin_nil : lin [] == tzero.
  Proof. intros u. reflexivity. Qed.
  Lemma lin_cons k v e : lin ((k, v) :: e) == tadd (tscal (zr K v) (E k)) (lin e).
  Proof. intros u. reflexivity. Qed.
  Lemma lin_vals_add m k v u : lin (vals_add m k v) u = radd (lin m u) (rmul (zr K v) (E k u)).
  Proof.
    induction m as [|[k' x] m IH]; cbn [vals_add].
    - destruct (v =? 0) eqn:Ev; [replace v with 0 by lia; rewrite zr_0|rewrite (lin_cons _ _ _ u)]; unfold tadd, tscal; rewrite ?(lin_nil u); unfold tzero; ring.
    - destruct (k <? k').
      + destruct (v =? 0) eqn:Ev; [replace v with 0 by lia; rewrite zr_0; ring|]. rewrite (lin_cons k v _ u). unfold tadd, tscal. ring.
      + destruct (k =? k') eqn:Ek.
        * replace k with k' by lia. destruct (x + v =? 0) eqn:Ev.
          -- rewrite (lin_cons k' x m u). unfold tadd, tscal. replace x with (- v) by lia. rewrite zr_opp. ring.
          -- rewrite !(lin_cons k' _ m u). unfold tadd, tscal. rewrite zr_add. ring.
        * rewrite !(lin_cons k' x _ u). unfold tadd. rewrite IH. ring.
  Qed.
  Lemma lin_vals_add_all f ip u : forall m, lin (vals_add_all f ip m) u = radd (lin m u) (rmul (zr K f) (lin ip u)).
  Proof.
    unfold vals_add_all. induction ip as [|[k v] ip IH]; intros m; cbn [fold_left].
    - rewrite (lin_nil u). unfold tzero. ring.
    - rewrite IH, lin_vals_add, (lin_cons k v ip u). cbn [fst snd]. unfold tadd, tscal. rewrite zr_mul. ring.
  Qed.
  Lemma comm_lin o X u : comm (lin o) X u = sum o (fun p => rmul (zr K (snd p)) (comm (E (fst p)) X u)).
  Proof.
    induction o as [|[k v] o IH].
    - rewrite (comm_ext (lin []) tzero X X lin_nil (fun _ => eq_refl) u), (comm_zero_l _ _ X u). reflexivity.
    - rewrite (comm_ext _ _ X X (lin_cons k v o) (fun _ => eq_refl) u), (comm_add_l _ _ _ _ X u). unfold tadd.
      rewrite (comm_scal_l _ _ _ _ X u), IH. reflexivity.
  Qed.
  Lemma lin_half o r s u : (forall p, In p o -> lin (BR (fst p) r) == comm (E (fst p)) (E r)) ->
    forall m, lin (half o r s m) u = radd (lin m u) (rmul (zr K s) (comm (lin o) (E r) u)).
  Proof.
    intros Ho m. rewrite comm_lin. unfold half. revert m. induction o as [|[k v] o IH]; intros m; cbn [fold_left].
    - cbn [sum]. ring.
    - rewrite IH by (intros; apply Ho; right; auto). rewrite lin_vals_add_all. cbn [fst snd].
      assert (X := Ho (k, v) (or_introl eq_refl) u). cbn [fst] in X. rewrite X. cbn [sum fst snd]. rewrite zr_mul. ring.
  Qed.
  Lemma lin_neg e u : lin (neg e) u = ropp (lin e u).
  Proof.
    induction e as [|[k v] e IH]; cbn [neg map fst snd].
    - rewrite (lin_nil u). unfold tzero. ring.
    - rewrite (lin_cons k v e u), (lin_cons k (- v) _ u). unfold tadd, tscal. fold (neg e). rewrite IH, zr_opp. ring.
  Qed.

  Theorem BR_comm a b : valid a b -> lin (BR a b) == comm (E a) (E b).
  Proof.
    intros V. assert (Hm := min_dg _ _ _ _ _ _ H a b V). assert (Hm' : 0 <= mu a b) by lia.
    remember (mu a b) as m eqn:Em. revert a b V Em Hm. pattern m. apply Z_lt_induction; [|exact Hm']. clear m Hm'.
    intros m IH a b V Em Hm. assert (IH' : forall x y, valid x y -> mu x y < m -> lin (BR x y) == comm (E x) (E y)).
    { intros x y Vx Ux. assert (X := min_dg _ _ _ _ _ _ H x y Vx). apply (IH (mu x y)); auto; lia. }
    assert (Sorted : forall i j, valid i j -> mu i j = m -> i < j -> lin (BR i j) == comm (E i) (E j)).
    { intros i j Vi Ui Hij. destruct (find_key i j) as [k|] eqn:Ef.
      - rewrite (BR_hall _ _ _ _ _ i j k) by auto. assert (X := find_key_some _ _ _ _ _ _ H i j k ltac:(destruct Vi; lia) Ef). destruct X as (X1 & X2 & X3 & X4).
        destruct (dg_level _ _ _ _ _ _ H k X1) as [D1 D2]. destruct Vi as (Vi & Vj & _).
        assert (P1 := proj1 (dg_level _ _ _ _ _ _ H i Vi)). assert (P2 := proj1 (dg_level _ _ _ _ _ _ H j Vj)).
        intros u. rewrite (lin_cons k 1 [] u). unfold tadd, tscal. rewrite (lin_nil u), zr_1. unfold tzero.
        unfold E at 1. rewrite (tr_node _ _ _ _ _ _ H (dg k) k) by (auto; lia). rewrite X2, X3. cbn [texpand]. fold (E i). fold (E j). ring.
      - destruct (slow_calls _ _ _ _ _ _ H i j Vi Hij Ef) as ((V1 & M1) & (V2 & M2) & C1 & C2 & (B1 & B2 & B3 & B4)).
        rewrite (BR_slow _ _ _ _ _ _ H i j Vi Hij Ef). intros u.
        rewrite lin_half; [rewrite lin_half|].
        + destruct (find_key_none _ _ _ _ _ _ H i j Vi Hij Ef) as [_ Hw]. destruct Vi as (Vi & Vj & Vd).
          destruct (dg_level _ _ _ _ _ _ H j Vj) as [D1 D2].
          assert (Hdj : dg j <> 1). { intros X. rewrite X in D2. apply (level_letter _ _ _ _ _ _ H) in D2. lia. }
          assert (Ej : E j = comm (E (L j)) (E (R j))) by (unfold E at 1; rewrite (tr_node _ _ _ _ _ _ H (dg j) j) by (auto; lia); reflexivity).
          rewrite Ej.
          rewrite (jacobi _ _ (E i) (E (L j)) (E (R j)) u). unfold tsub.
          rewrite (comm_ext _ _ (E (R j)) (E (R j)) (IH' i (L j) V1 ltac:(lia)) (fun _ => eq_refl) u).
          rewrite (comm_ext _ _ (E (L j)) (E (L j)) (IH' i (R j) V2 ltac:(lia)) (fun _ => eq_refl) u).
          rewrite (lin_nil u). unfold tzero. change (zr K (-1)) with (ropp (zr K 1)). rewrite zr_1. ring.
        + intros p Hp. destruct (BR_keys _ _ _ _ _ _ H i (L j) V1 p Hp) as [X1 X2]. destruct (C1 _ X1 X2) as (Y1 & Y2 & _). apply IH'; auto. lia.
        + intros p Hp. destruct (BR_keys _ _ _ _ _ _ H i (R j) V2 p Hp) as [X1 X2]. destruct (C2 _ X1 X2) as (Y1 & Y2 & _). apply IH'; auto. lia. }
    destruct (Z.lt_trichotomy a b) as [Hab|[<-|Hab]].
    - apply Sorted; auto.
    - rewrite BR_same. intros u. rewrite (lin_nil u), (comm_same _ _ (E a) u). reflexivity.
    - assert (V' : valid b a) by (destruct V as (?&?&?); unfold BracketProofs.valid; lia).
      intros u. rewrite (BR_swap _ _ _ _ _ b a). rewrite lin_neg.
      rewrite (Sorted b a V' ltac:(rewrite (mu_sym _ _ _ b a); auto) Hab u). rewrite (comm_anti _ _ (E a) (E b) u). unfold tscal. ring.
  Qed.
End Sem.
