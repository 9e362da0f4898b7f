(** Half-shuffles and counting of shuffles.  Pure mathematics; no code is mentioned. *)
From Verif Require Export Alg PowerSeries Series Shuffle.
From Coq Require Import Permutation ZArith Lia List.
Import ListNotations.

Section Half.
  Context {A : Type}.

  (** The shuffles of u and v that begin with the first letter of u. *)
  Definition halves (u v : list A) : list (list A) := match u with [] => [] | x :: u' => map (cons x) (shuffles u' v) end.
  (** The splittings of w whose first part takes the first letter of w. *)
  Definition half_splits (w : list A) : list (list A * list A) :=
    match w with [] => [] | x :: w' => map (fun p => (x :: fst p, snd p)) (splits w') end.
  Lemma shuffles_comm (u v : list A) : Permutation (shuffles u v) (shuffles v u).
  Proof.
    revert v. induction u as [|x u IHu]; intros v.
    - rewrite shuffles_nil_l, shuffles_nil_r. auto.
    - induction v as [|y v IHv].
      + rewrite shuffles_nil_l, shuffles_nil_r. auto.
      + rewrite !shuffles_cons. rewrite Permutation_app_comm. apply Permutation_app; apply Permutation_map; auto.
  Qed.
  Lemma shuffles_halves (x : A) u y v : Permutation (shuffles (x :: u) (y :: v)) (halves (x :: u) (y :: v) ++ halves (y :: v) (x :: u)).
  Proof. rewrite shuffles_cons. cbn [halves]. apply Permutation_app_head, Permutation_map, shuffles_comm. Qed.
  Lemma halves_length u v s : In s (halves u v) -> length s = (length u + length v)%nat.
  Proof.
    destruct u as [|x u]; cbn [halves]; [intros []|]. intros H. apply in_map_iff in H. destruct H as (s' & <- & H).
    apply shuffles_length in H. cbn [length]. lia.
  Qed.
  Lemma half_splits_length w p : In p (half_splits w) -> (length (fst p) + length (snd p))%nat = length w.
  Proof.
    destruct w as [|x w]; cbn [half_splits]; [intros []|]. intros H. apply in_map_iff in H. destruct H as (q & <- & H).
    apply splits_length in H. cbn [length fst snd]. lia.
  Qed.
  Lemma shuffles_Forall (P : A -> Prop) u v : Forall P u -> Forall P v -> forall s, In s (shuffles u v) -> Forall P s.
  Proof.
    revert v. induction u as [|x u IHu]; intros v Hu Hv.
    - rewrite shuffles_nil_l. intros s [<-|[]]. auto.
    - induction v as [|y v IHv].
      + rewrite shuffles_nil_r. intros s [<-|[]]. auto.
      + rewrite shuffles_cons. intros s Hs. apply in_app_or in Hs. inversion Hu; subst. inversion Hv; subst.
        destruct Hs as [Hs|Hs]; apply in_map_iff in Hs; destruct Hs as (q & <- & Hq); constructor; auto.
        apply (IHu (y :: v)); auto.
  Qed.
  Lemma halves_Forall (P : A -> Prop) u v : Forall P u -> Forall P v -> forall s, In s (halves u v) -> Forall P s.
  Proof.
    intros Hu Hv s. destruct u as [|x u]; cbn [halves]; [intros []|]. intros H. apply in_map_iff in H. destruct H as (q & <- & H).
    inversion Hu; subst. constructor; auto. apply (shuffles_Forall P u v); auto.
  Qed.
  Lemma splits_Forall (P : A -> Prop) w : Forall P w -> forall p, In p (splits w) -> Forall P (fst p) /\ Forall P (snd p).
  Proof.
    induction 1 as [|x w Hx Hw IH]; cbn [splits]; intros p Hp.
    - destruct Hp as [<-|[]]. split; constructor.
    - apply in_app_or in Hp. destruct Hp as [Hp|Hp]; apply in_map_iff in Hp; destruct Hp as (q & <- & Hq); destruct (IH q Hq); cbn [fst snd]; split; auto.
  Qed.
  Lemma half_splits_Forall (P : A -> Prop) w : Forall P w -> forall p, In p (half_splits w) -> Forall P (fst p) /\ Forall P (snd p).
  Proof.
    intros Hw p. destruct w as [|x w]; cbn [half_splits]; [intros []|]. intros H. apply in_map_iff in H. destruct H as (q & <- & H).
    inversion Hw; subst. destruct (splits_Forall P w ltac:(auto) q H). cbn [fst snd]. split; auto.
  Qed.

  (** ** Counting: a shuffle of u and v is a word with a splitting into u and v *)
  Variable dec : forall x y : A, {x = y} + {x <> y}.
  Notation wdec := (list_eq_dec dec).
  Definition pdec (p q : list A * list A) : {p = q} + {p <> q}.
  Proof. decide equality; apply list_eq_dec; exact dec. Defined.
  Notation cw := (count_occ wdec).
  Notation cp := (count_occ pdec).
  Lemma cw_map x l s : cw (map (cons x) l) s = match s with [] => 0%nat | y :: s' => if dec x y then cw l s' else 0%nat end.
  Proof.
    induction l as [|a l IH]; cbn [map count_occ].
    - destruct s as [|y s]; [|destruct (dec x y)]; reflexivity.
    - rewrite IH. destruct s as [|y s].
      + destruct (wdec (x :: a) []); [discriminate|reflexivity].
      + destruct (dec x y) as [->|E].
        * destruct (wdec (y :: a) (y :: s)) as [E'|E'], (wdec a s) as [F|F]; try congruence; try reflexivity; exfalso; apply F; congruence.
        * destruct (wdec (x :: a) (y :: s)); [congruence|reflexivity].
  Qed.
  Lemma cp_l x l u v : cp (map (fun p => (x :: fst p, snd p)) l) (u, v) = match u with [] => 0%nat | y :: u' => if dec x y then cp l (u', v) else 0%nat end.
  Proof.
    induction l as [|[a b] l IH]; cbn [map count_occ fst snd].
    - destruct u as [|y u]; [|destruct (dec x y)]; reflexivity.
    - rewrite IH. destruct u as [|y u].
      + destruct (pdec (x :: a, b) ([], v)); [discriminate|reflexivity].
      + destruct (dec x y) as [->|E].
        * destruct (pdec (y :: a, b) (y :: u, v)) as [E'|E'], (pdec (a, b) (u, v)) as [F|F]; try congruence; try reflexivity; exfalso; apply F; congruence.
        * destruct (pdec (x :: a, b) (y :: u, v)); [congruence|reflexivity].
  Qed.
  Lemma cp_r x l u v : cp (map (fun p => (fst p, x :: snd p)) l) (u, v) = match v with [] => 0%nat | y :: v' => if dec x y then cp l (u, v') else 0%nat end.
  Proof.
    induction l as [|[a b] l IH]; cbn [map count_occ fst snd].
    - destruct v as [|y v]; [|destruct (dec x y)]; reflexivity.
    - rewrite IH. destruct v as [|y v].
      + destruct (pdec (a, x :: b) (u, [])); [discriminate|reflexivity].
      + destruct (dec x y) as [->|E].
        * destruct (pdec (a, y :: b) (u, y :: v)) as [E'|E'], (pdec (a, b) (u, v)) as [F|F]; try congruence; try reflexivity; exfalso; apply F; congruence.
        * destruct (pdec (a, x :: b) (u, y :: v)); [congruence|reflexivity].
  Qed.
  Lemma shuffles_splits s : forall u v, cw (shuffles u v) s = cp (splits s) (u, v).
  Proof.
    induction s as [|z s IH]; intros u v.
    - destruct u as [|x u].
      + rewrite shuffles_nil_l. cbn [count_occ splits]. destruct (wdec v []) as [E|E], (pdec ([], []) ([], v)) as [F|F]; try congruence; reflexivity.
      + cbn [count_occ splits]. destruct (pdec ([], []) (x :: u, v)) as [|_]; [discriminate|].
        destruct v as [|y v]; [rewrite shuffles_nil_r|rewrite shuffles_cons, count_occ_app, !cw_map; reflexivity].
        cbn [count_occ]. destruct (wdec (x :: u) []); [discriminate|reflexivity].
    - cbn [splits]. rewrite count_occ_app, cp_l, cp_r. destruct u as [|x u].
      + rewrite shuffles_nil_l. destruct v as [|y v].
        * cbn [count_occ]. destruct (wdec [] (z :: s)); [discriminate|reflexivity].
        * cbn [count_occ]. destruct (dec z y) as [->|E].
          -- rewrite <- IH, shuffles_nil_l. cbn [count_occ]. destruct (wdec (y :: v) (y :: s)), (wdec v s); try congruence; reflexivity.
          -- destruct (wdec (y :: v) (z :: s)); [congruence|reflexivity].
      + destruct v as [|y v].
        * rewrite shuffles_nil_r. cbn [count_occ]. rewrite Nat.add_0_r. destruct (dec z x) as [->|E].
          -- rewrite <- IH, shuffles_nil_r. cbn [count_occ]. destruct (wdec (x :: u) (x :: s)), (wdec u s); try congruence; reflexivity.
          -- destruct (wdec (x :: u) (z :: s)); [congruence|reflexivity].
        * rewrite shuffles_cons, count_occ_app, !cw_map. rewrite !IH.
          f_equal; [destruct (dec x z), (dec z x)|destruct (dec y z), (dec z y)]; try congruence; reflexivity.
  Qed.
  Lemma halves_splits s u v : cw (halves u v) s = cp (half_splits s) (u, v).
  Proof.
    destruct u as [|x u].
    - destruct s as [|z s]; cbn [halves half_splits count_occ]; [reflexivity|]. rewrite cp_l. reflexivity.
    - cbn [halves]. rewrite cw_map. destruct s as [|z s]; [reflexivity|]. cbn [half_splits]. rewrite cp_l, shuffles_splits.
      destruct (dec x z), (dec z x); try congruence; reflexivity.
  Qed.

  (** ** How many shuffles *)
  Fixpoint binom (a b : nat) : Z :=
    match a with
    | O => 1%Z
    | S a' => (fix inner (b : nat) : Z := match b with O => 1%Z | S b' => (binom a' (S b') + inner b')%Z end) b
    end.
  Lemma binom_0r a : binom a 0 = 1%Z. Proof. destruct a; reflexivity. Qed.
  Lemma binom_S a b : binom (S a) (S b) = (binom a (S b) + binom (S a) b)%Z. Proof. reflexivity. Qed.
  Lemma shuffles_count (u v : list A) : Z.of_nat (length (shuffles u v)) = binom (length u) (length v).
  Proof.
    revert v. induction u as [|x u IHu]; intros v; [reflexivity|].
    induction v as [|y v IHv].
    - rewrite shuffles_nil_r. cbn [length]. rewrite binom_0r. reflexivity.
    - rewrite shuffles_cons, app_length, !map_length. assert (Q := IHu (y :: v)). cbn [length] in *. rewrite binom_S, <- IHv, <- Q. lia.
  Qed.
  Lemma binom_pos a b : (1 <= binom a b)%Z.
  Proof.
    revert b. induction a as [|a IHa]; intros b; [cbn; lia|]. induction b as [|b IHb]; [cbn; lia|]. rewrite binom_S. specialize (IHa (S b)). lia.
  Qed.
End Half.

(** Rows of Pascal's triangle, for the bound at 33 letters *)
Fixpoint pascal (prev : Z) (row : list Z) : list Z := match row with [] => [prev] | x :: row => (prev + x)%Z :: pascal x row end.
Definition next_row (row : list Z) : list Z := match row with [] => [] | x :: r => x :: pascal x r end.
Definition rows (n : nat) : list Z := Nat.iter n next_row [1%Z].
Lemma pascal_nth row : forall prev k, (k < length row)%nat -> nth k (pascal prev row) 0%Z = (nth k (prev :: row) 0 + nth k row 0)%Z.
Proof. induction row as [|x row IH]; intros prev k H; cbn [length] in H; [lia|]. destruct k as [|k]; [reflexivity|]. cbn [pascal nth]. rewrite IH by lia. reflexivity. Qed.
Lemma pascal_last row : forall prev, nth (length row) (pascal prev row) 0%Z = nth (length row) (prev :: row) 0%Z /\ length (pascal prev row) = S (length row).
Proof. induction row as [|x row IH]; intros prev; [split; reflexivity|]. destruct (IH x) as [A B]. cbn [pascal length nth]. split; [exact A|lia]. Qed.
Lemma rows_binom n : length (rows n) = S n /\ forall a b, (a + b = n)%nat -> nth a (rows n) 0%Z = binom a b.
Proof.
  induction n as [|n [IL IH]].
  - split; [reflexivity|]. intros [|a] b H; [reflexivity|lia].
  - change (rows (S n)) with (next_row (rows n)). destruct (rows n) as [|x r] eqn:E; [discriminate|]. cbn [length] in IL. injection IL as IL.
    cbn [next_row]. destruct (pascal_last r x) as [L1 L2]. split; [cbn [length]; lia|].
    intros a b H. destruct a as [|a].
    + cbn [nth]. specialize (IH 0%nat n eq_refl). cbn [nth] in IH. rewrite IH. reflexivity.
    + cbn [nth]. destruct b as [|b].
      * assert (a = length r) by lia. subst a. rewrite L1. rewrite (IH (length r) 0%nat) by lia. rewrite !binom_0r. reflexivity.
      * rewrite pascal_nth by lia. rewrite (IH a (S b)) by lia. change (nth a r 0%Z) with (nth (S a) (x :: r) 0%Z). rewrite (IH (S a) b) by lia. rewrite binom_S. reflexivity.
Qed.
Lemma rows_33 : forallb (fun n => forallb (fun x => (x <? 2 ^ 31)%Z) (rows n)) (seq 0 34) = true.
Proof. vm_compute. reflexivity. Qed.
Lemma binom_33 a b : (a + b <= 33)%nat -> (binom a b < 2 ^ 31)%Z.
Proof.
  intros H. destruct (rows_binom (a + b)) as [L R]. rewrite <- (R a b eq_refl).
  assert (T := rows_33). rewrite forallb_forall in T. specialize (T (a + b)%nat ltac:(apply in_seq; lia)). rewrite forallb_forall in T.
  apply Z.ltb_lt. apply T. apply nth_In. lia.
Qed.
