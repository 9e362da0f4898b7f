(** Memory blocks holding scalars, checked accesses and loops. *)
From Verif Require Export Outcome Alg Words.

Section Mem.
  Variable R : Type.
  (** One array of scalars.  Reads and writes outside [0,blen) are undefined. *)
  Record buf := mkbuf { blen : Z; bat : Z -> R }.
  Definition bget (b : buf) (i : Z) : outcome R :=
    if (0 <=? i) && (i <? blen b) then Ok (bat b i) else UB.
  Definition bset (b : buf) (i : Z) (v : R) : outcome buf :=
    if (0 <=? i) && (i <? blen b) then Ok (mkbuf (blen b) (fun k => if k =? i then v else bat b k)) else UB.

  Lemma bget_ok b i : 0 <= i < blen b -> bget b i = Ok (bat b i).
  Proof.
    intros H. unfold bget. destruct (0 <=? i) eqn:E1; [|apply Z.leb_gt in E1; lia].
    destruct (i <? blen b) eqn:E2; [reflexivity|apply Z.ltb_ge in E2; lia].
  Qed.
  Lemma bset_ok b i v : 0 <= i < blen b -> bset b i v = Ok (mkbuf (blen b) (fun k => if k =? i then v else bat b k)).
  Proof.
    intros H. unfold bset. destruct (0 <=? i) eqn:E1; [|apply Z.leb_gt in E1; lia].
    destruct (i <? blen b) eqn:E2; [reflexivity|apply Z.ltb_ge in E2; lia].
  Qed.
  Lemma bget_ub b i : ~ (0 <= i < blen b) -> bget b i = UB.
  Proof.
    intros H. unfold bget. destruct (0 <=? i) eqn:E1; [|reflexivity]. apply Z.leb_le in E1.
    destruct (i <? blen b) eqn:E2; [apply Z.ltb_lt in E2; lia|reflexivity].
  Qed.
  Lemma bset_ub b i v : ~ (0 <= i < blen b) -> bset b i v = UB.
  Proof.
    intros H. unfold bset. destruct (0 <=? i) eqn:E1; [|reflexivity]. apply Z.leb_le in E1.
    destruct (i <? blen b) eqn:E2; [apply Z.ltb_lt in E2; lia|reflexivity].
  Qed.
End Mem.
Arguments mkbuf {R}. Arguments blen {R}. Arguments bat {R}. Arguments bget {R}. Arguments bset {R}.

(** for-loops over an explicit list of index values. *)
Fixpoint for_ {A S} (l : list A) (s : S) (f : A -> S -> outcome S) : outcome S :=
  match l with [] => Ok s | x :: l' => let! s' := f x s in for_ l' s' f end.

Lemma for_app {A S} (l1 l2 : list A) (s : S) f : for_ (l1 ++ l2) s f = let! s' := for_ l1 s f in for_ l2 s' f.
Proof. revert s. induction l1 as [|x l1 IH]; intros s; cbn [for_ app bind]; [reflexivity|]. destruct (f x s); cbn [bind]; auto. Qed.
Lemma for_ext {A S} (l : list A) (s : S) f g : (forall x t, In x l -> f x t = g x t) -> for_ l s f = for_ l s g.
Proof.
  revert s. induction l as [|x l IH]; intros s H; cbn [for_]; [reflexivity|].
  rewrite H by (left; auto). destruct (g x s); cbn [bind]; auto. apply IH. intros; apply H; right; auto.
Qed.
(** Loop rule with an invariant depending on the part already done. *)
Lemma for_inv {A S} (P : list A -> S -> Prop) (l : list A) (s : S) f :
  P [] s ->
  (forall done x rest t, l = done ++ x :: rest -> P done t -> exists t', f x t = Ok t' /\ P (done ++ [x]) t') ->
  exists s', for_ l s f = Ok s' /\ P l s'.
Proof.
  intros H0 Hs.
  assert (G : forall rest done t, l = done ++ rest -> P done t -> exists s', for_ rest t f = Ok s' /\ P l s').
  { induction rest as [|x rest IH]; intros done t E Hd.
    - rewrite app_nil_r in E. subst done. exists t. split; [reflexivity|auto].
    - destruct (Hs done x rest t E Hd) as (t' & Ef & Ht'). cbn [for_]. rewrite Ef. cbn [bind].
      apply (IH (done ++ [x]) t'); auto. rewrite <- app_assoc. auto. }
  apply (G l [] s); auto.
Qed.

Section Loops.
  Variable R : cring.
  Add Ring Rring : (rth R).
  Notation buf := (buf R).
  Local Open Scope cr_scope.

  (** [b'] is [b] with [g k] added at every position. *)
  Definition adds (b b' : buf) (g : Z -> R) : Prop :=
    blen b' = blen b /\ forall k, bat b' k = bat b k + g k.

  (** A loop whose bodies add something; positions in the frame [F] are never changed and
      bodies may rely on them. *)
  Lemma for_adds {A} (F : Z -> Prop) (l : list A) (b : buf) f (g : A -> Z -> R) :
    (forall x t, In x l -> blen t = blen b -> (forall k, F k -> bat t k = bat b k) ->
        exists t', f x t = Ok t' /\ adds t t' (g x)) ->
    (forall x k, In x l -> F k -> g x k = 0) ->
    exists b', for_ l b f = Ok b' /\ adds b b' (fun k => sum l (fun x => g x k)).
  Proof.
    revert b. induction l as [|x l IH]; intros b H HF; cbn [for_ sum].
    - exists b. split; [reflexivity|]. split; [reflexivity|]. intros; ring.
    - destruct (H x b) as (t & E & Hlen & Hadd); [left; auto|auto|auto|]. rewrite E. cbn [bind].
      destruct (IH t) as (b' & E' & Hlen' & Hadd').
      + intros y t' Hy Hl Hf. destruct (H y t') as (t'' & E2 & H2); [right; auto|congruence| |eauto].
        intros k Hk. rewrite Hf by auto. rewrite Hadd, HF by (auto; left; auto). ring.
      + intros; apply HF; auto; right; auto.
      + exists b'. split; [auto|]. split; [congruence|]. intros k. rewrite Hadd', Hadd. ring.
  Qed.
  Lemma adds_ext b b' g g' : adds b b' g -> (forall k, g k = g' k) -> adds b b' g'.
  Proof. intros [H1 H2] H. split; auto. intros; rewrite H2, H; auto. Qed.

  (** Kronecker. *)
  Definition at_ (p k : Z) (v : R) : R := if (k =? p)%Z then v else 0.
  Lemma at_same p v : at_ p p v = v.
  Proof. unfold at_. rewrite Z.eqb_refl. reflexivity. Qed.
  Lemma at_diff p k v : k <> p -> at_ p k v = 0.
  Proof. intros H. unfold at_. destruct (k =? p)%Z eqn:E; [apply Z.eqb_eq in E; congruence|reflexivity]. Qed.

  (** b[i] += v *)
  Definition badd (b : buf) (i : Z) (v : R) : outcome buf := let! x := bget b i in bset b i (x + v).
  Lemma badd_ok b i v : (0 <= i < blen b)%Z -> exists b', badd b i v = Ok b' /\ adds b b' (fun k => at_ i k v).
  Proof.
    intros H. unfold badd. rewrite bget_ok by auto. cbn [bind]. rewrite bset_ok by auto.
    eexists. split; [reflexivity|]. split; [reflexivity|]. intros k. cbn [bat]. unfold at_.
    destruct (k =? i)%Z eqn:E; [apply Z.eqb_eq in E; subst; ring|ring].
  Qed.

  (** Stores at pairwise distinct positions, from data independent of the target. *)
  Lemma for_store {A} (l : list A) (b : buf) (p : A -> Z) (v : A -> R) :
    (forall x, In x l -> 0 <= p x < blen b)%Z -> NoDup l ->
    (forall x y, In x l -> In y l -> p x = p y -> x = y) ->
    exists b', for_ l b (fun x t => bset t (p x) (v x)) = Ok b' /\ blen b' = blen b /\
      (forall x, In x l -> bat b' (p x) = v x) /\
      (forall k, (forall x, In x l -> k <> p x) -> bat b' k = bat b k).
  Proof.
    revert b. induction l as [|x l IH]; intros b Hb Hnd Hinj; cbn [for_].
    - exists b. repeat split; auto. intros ? [].
    - rewrite bset_ok by (apply Hb; left; auto). cbn [bind].
      inversion Hnd; subst.
      destruct (IH (mkbuf (blen b) (fun k => if (k =? p x)%Z then v x else bat b k))) as (b' & E & Hl & H1' & H2').
      + intros y Hy. cbn [blen]. apply Hb. right; auto.
      + auto.
      + intros y z Hy Hz. apply Hinj; right; auto.
      + exists b'. split; [exact E|]. split; [exact Hl|]. split.
        * intros y [<-|Hy]; [|auto]. rewrite H2'.
          -- cbn [bat]. rewrite Z.eqb_refl. reflexivity.
          -- intros z Hz Epz. assert (x = z) by (apply Hinj; auto; [left; auto|right; auto]). subst. auto.
        * intros k Hk. rewrite H2'.
          -- cbn [bat]. destruct (k =? p x)%Z eqn:Ek; [|reflexivity]. apply Z.eqb_eq in Ek. exfalso. apply (Hk x); [left; auto|auto].
          -- intros z Hz. apply Hk. right; auto.
  Qed.
  (** In-place map over a block of consecutive positions. *)
  Lemma for_map (b : buf) (s : Z) (n : nat) (F : Z -> R -> R) f :
    (0 <= s)%Z -> (s + Z.of_nat n <= blen b)%Z ->
    (forall i t, (0 <= i < Z.of_nat n)%Z -> blen t = blen b -> f i t = let! x := bget t (s + i)%Z in bset t (s + i)%Z (F i x)) ->
    exists b', for_ (zseq 0 n) b f = Ok b' /\ blen b' = blen b /\
      forall k, bat b' k = if ((s <=? k) && (k <? s + Z.of_nat n))%Z then F (k - s)%Z (bat b k) else bat b k.
  Proof.
    intros Hs Hn Hf.
    destruct (for_inv (fun done t => blen t = blen b /\
       forall k, bat t k = if ((s <=? k) && (k <? s + Z.of_nat (length done)))%Z then F (k - s)%Z (bat b k) else bat b k)
       (zseq 0 n) b f) as (b' & E & Hl & Hk).
    - split; [reflexivity|]. intros k. cbn [length].
      destruct ((s <=? k) && (k <? s + Z.of_nat 0))%Z eqn:E; [|reflexivity].
      apply andb_true_iff in E. destruct E as [E1 E2]. apply Z.leb_le in E1. apply Z.ltb_lt in E2. lia.
    - intros done x rest t E [Hl Ht].
      assert (Hlen : (length done + S (length rest) = n)%nat).
      { apply (f_equal (@length Z)) in E. rewrite zseq_length, app_length in E. cbn [length] in E. lia. }
      assert (Hx : x = Z.of_nat (length done)).
      { assert (E' := E). replace n with (length done + S (length rest))%nat in E' by lia. rewrite zseq_app in E'.
        assert (HH : skipn (length done) (zseq 0 (length done) ++ 0 + Z.of_nat (length done) :: zseq (0 + Z.of_nat (length done) + 1) (length rest))%Z
                    = skipn (length done) (done ++ x :: rest)) by (f_equal; exact E').
        rewrite !skipn_app, zseq_length, Nat.sub_diag, skipn_all in HH.
        replace (length done) with (length (zseq 0 (length done))) in HH at 1 by apply zseq_length.
        rewrite skipn_all in HH. cbn [app skipn] in HH. injection HH as HH _. lia. }
      subst x. exists (mkbuf (blen t) (fun k => if (k =? s + Z.of_nat (length done))%Z then F (Z.of_nat (length done)) (bat t (s + Z.of_nat (length done))%Z) else bat t k)).
      rewrite Hf by (auto; lia). rewrite bget_ok by lia. cbn [bind]. rewrite bset_ok by lia. split; [reflexivity|].
      split; [cbn [blen]; auto|]. intros k. cbn [bat]. rewrite app_length. cbn [length].
      destruct (k =? s + Z.of_nat (length done))%Z eqn:Ek.
      + apply Z.eqb_eq in Ek. subst k. rewrite Ht.
        replace ((s <=? s + Z.of_nat (length done)) && (s + Z.of_nat (length done) <? s + Z.of_nat (length done)))%Z with false.
        2:{ symmetry. apply andb_false_iff. right. apply Z.ltb_ge. lia. }
        replace ((s <=? s + Z.of_nat (length done)) && (s + Z.of_nat (length done) <? s + Z.of_nat (length done + 1)))%Z with true.
        2:{ symmetry. apply andb_true_iff. split; [apply Z.leb_le|apply Z.ltb_lt]; lia. }
        f_equal. lia.
      + apply Z.eqb_neq in Ek. rewrite Ht.
        destruct (s <=? k)%Z eqn:E1; [|reflexivity]. cbn [andb].
        destruct (k <? s + Z.of_nat (length done))%Z eqn:E2; destruct (k <? s + Z.of_nat (length done + 1))%Z eqn:E3; try reflexivity.
        * apply Z.ltb_lt in E2. apply Z.ltb_ge in E3. lia.
        * apply Z.ltb_ge in E2. apply Z.ltb_lt in E3. lia.
    - exists b'. split; [auto|]. split; [auto|]. intros k. rewrite Hk, zseq_length. reflexivity.
  Qed.
End Loops.
Arguments adds {R}. Arguments at_ {R}. Arguments badd {R}.
