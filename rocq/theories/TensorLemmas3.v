(** Shuffle duality, explicit coefficient forms, and concrete witnesses. *)
From Verif Require Export TensorLemmas2.
From Coq Require Import QArith Qcanon ZifyBool.
Open Scope Z_scope.

Section Dual.
  Variable R : cring.
  Add Ring Rring31 : (rth R).
  Variable w : Z.
  Local Open Scope cr_scope.
  Lemma sum_words_S n (F : list Z -> R) : sum (words w (S n)) F = sum (zrange w) (fun x => sum (words w n) (fun u => F (x :: u))).
  Proof. cbn [words]. rewrite sum_flat_map. apply sum_ext. intros x _. apply sum_map. Qed.
  (** Letters taken from the left word, letters taken from the right word. *)
  Definition copl (g : tens R Z) (u v : list Z) : R := match u with [] => 0 | x :: u' => cop (dl x g) u' v end.
  Definition copr (g : tens R Z) (u v : list Z) : R := match v with [] => 0 | y :: v' => cop (dl y g) u v' end.
  Lemma cop_step g u v : (u <> [] \/ v <> []) -> cop g u v = copl g u v + copr g u v.
  Proof.
    intros H. destruct u as [|x u], v as [|y v]; unfold copl, copr.
    - destruct H; congruence.
    - unfold cop. cbn [shuffles sum]. unfold dl. ring.
    - unfold cop. rewrite !shuffles_nil_r. cbn [sum]. unfold dl. ring.
    - unfold cop. rewrite shuffles_cons, sum_app, !sum_map. reflexivity.
  Qed.
  Theorem shuf_dual n : forall a b g : tens R Z,
    sum (words w n) (fun u => shuf a b u * g u) =
    sum (seq O (S n)) (fun i => sum (words w i) (fun u => sum (words w (n - i)) (fun v => a u * b v * sum (shuffles u v) g))).
  Proof.
    induction n as [|n IH]; intros a b g.
    - cbn [words sum seq Nat.sub]. rewrite shuf_nil. cbn [shuffles sum]. ring.
    - rewrite sum_words_S.
      transitivity (sum (zrange w) (fun x => sum (words w n) (fun u => shuf (dl x a) b u * dl x g u) + sum (words w n) (fun u => shuf a (dl x b) u * dl x g u))).
      { apply sum_ext. intros x _. rewrite <- sum_add. apply sum_ext. intros u _. rewrite shuf_cons. unfold dl. ring. }
      rewrite sum_add.
      transitivity (
        sum (seq O (S (S n))) (fun i => sum (words w i) (fun u => sum (words w (S n - i)) (fun v => a u * b v * copl g u v))) +
        sum (seq O (S (S n))) (fun i => sum (words w i) (fun u => sum (words w (S n - i)) (fun v => a u * b v * copr g u v)))).
      + f_equal.
        * rewrite (sum_seq_S R 0 (S n)). cbn [words sum]. rewrite (sum_zero R (words w (S n - 0)) (fun v => a [] * b v * copl g [] v)) by (intros; cbn; ring).
          rewrite sum_seq_shift.
          transitivity (sum (zrange w) (fun x => sum (seq O (S n)) (fun i => sum (words w i) (fun u => sum (words w (n - i)) (fun v => a (x :: u) * b v * copl g (x :: u) v))))).
          { apply sum_ext. intros x _. rewrite IH. reflexivity. }
          rewrite sum_swap. transitivity (sum (seq 0 (S n)) (fun i => sum (words w (S i)) (fun u => sum (words w (n - i)) (fun v => a u * b v * copl g u v)))).
          { apply sum_ext. intros i _. rewrite sum_words_S. reflexivity. }
          cbn [Nat.sub]. ring.
        * rewrite (sum_seq_last R 0 (S n)). cbn [Nat.add].
          rewrite (sum_zero R (words w (S n)) (fun u => sum (words w (S n - S n)) (fun v => a u * b v * copr g u v))).
          2:{ intros u _. rewrite Nat.sub_diag. cbn [words sum]. unfold copr. ring. }
          transitivity (sum (zrange w) (fun x => sum (seq O (S n)) (fun i => sum (words w i) (fun u => sum (words w (n - i)) (fun v => a u * b (x :: v) * copr g u (x :: v)))))).
          { apply sum_ext. intros x _. rewrite IH. reflexivity. }
          rewrite sum_swap. match goal with |- ?l = ?r + 0 => transitivity r; [|ring] end.
          apply sum_ext. intros i Hi. apply in_seq in Hi. replace (S n - i)%nat with (S (n - i)) by lia.
          rewrite sum_swap. apply sum_ext. intros u _. rewrite sum_words_S. reflexivity.
      + rewrite <- sum_add. apply sum_ext. intros i Hi. apply in_seq in Hi. rewrite <- sum_add. apply sum_ext. intros u Hu. rewrite <- sum_add. apply sum_ext. intros v Hv.
        apply words_In in Hu. apply words_In in Hv. fold (cop g u v). rewrite cop_step; [ring|].
        destruct Hu as [_ Hu], Hv as [_ Hv]. destruct u, v; cbn [length] in *; try (left; congruence); try (right; congruence). lia.
  Qed.
  Lemma sum_rect p q N (F : nat -> nat -> R) : (p + q <= N)%nat ->
    (forall i j, (p < i)%nat -> F i j = 0) -> (forall i j, (q < j)%nat -> F i j = 0) ->
    sum (seq O (S N)) (fun n => sum (seq O (S n)) (fun i => F i (n - i)%nat)) = sum (seq O (S p)) (fun i => sum (seq O (S q)) (fun j => F i j)).
  Proof.
    intros H Hp Hq. rewrite sum_triangle. rewrite (sum_seq_extend R (S p) (S N)); [|lia|].
    - apply sum_ext. intros i Hi. apply in_seq in Hi. apply (sum_seq_extend R (S q)); [lia|]. intros j Hj. apply Hq. lia.
    - intros k Hk. apply sum_zero. intros j _. apply Hp. lia.
  Qed.
End Dual.

Section Dual2.
  Variable R : cring.
  Add Ring Rring32 : (rth R).
  Variable w : Z.
  Hypothesis Hw : 0 < w.
  Local Open Scope cr_scope.
  Notation dtensor := (dtensor R).
  Implicit Types (a b c : dtensor).
  Theorem stmul_shuffles (D : nat) a b (g : tens R Z) :
    tensor_ok w D a -> tensor_ok w D b -> (w <= 32768)%Z -> (D < 64)%nat ->
    exists r, py_st_mul a b = Ok r /\
      pairing w D (tv w D r) g =
      sum (seq O (S D)) (fun n => sum (seq O (S n)) (fun i => sum (words w i) (fun u => sum (words w (n - i)) (fun v =>
        tv w D a u * tv w D b v * sum (shuffles u v) g)))).
  Proof.
    intros Ka Kb H1 H2. destruct (py_st_mul_spec R w Hw D D a b Ka Kb (Nat.le_refl _) H1 H2) as (r & E & K & V).
    exists r. split; [exact E|]. unfold pairing. apply sum_ext. intros n Hn. apply in_seq in Hn. rewrite <- shuf_dual.
    apply sum_ext. intros u Hu. apply words_In in Hu. rewrite (V u) by lia. reflexivity.
  Qed.
  Theorem adjoint_deeper_operator (Dp Da : nat) (op arg : dtensor) :
    tensor_ok w Dp op -> tensor_ok w Da arg -> (Da <= Dp)%nat ->
    exists r, py_ft_adjoint_left_mul op arg = Ok r /\ tensor_ok w Da r /\ agree Da (tv w Da r) (adjl w Da (tv w Dp op) (tv w Da arg)).
  Proof.
    intros Kp Ka H. destruct (py_ft_adj_spec R w Hw Dp Da op arg Kp Ka) as (r & E & K & V & _).
    rewrite Nat.min_r in V by lia. eauto.
  Qed.
  Theorem coord_bijection (D : nat) :
    (forall u, letters_ok w u -> (length u <= D)%nat -> (0 <= pos w u < words_below w (S D))%Z) /\
    (forall u v, letters_ok w u -> letters_ok w v -> pos w u = pos w v -> u = v) /\
    (forall k, (0 <= k < words_below w (S D))%Z -> exists u, letters_ok w u /\ (length u <= D)%nat /\ pos w u = k) /\
    basis_size (tensor_basis w (Z.of_nat D)) = Ok (words_below w (S D)).
  Proof.
    split; [|split; [|split]].
    - intros u Hu Hl. apply (pos_bound w Hw); auto; lia.
    - intros u v Hu Hv. apply (pos_inj w Hw); auto.
    - intros k Hk. apply (pos_surj w Hw); auto.
    - apply basis_size_ok. auto.
  Qed.
  Lemma mask_ones n i : 0 <= i < Z.of_nat n -> mask_bit (2 ^ Z.of_nat n - 1) i = true.
  Proof.
    intros H. unfold mask_bit. replace (2 ^ Z.of_nat n - 1)%Z with (Z.ones (Z.of_nat n)) by (rewrite Z.ones_equiv; lia).
    apply Z.ones_spec_low. lia.
  Qed.
  Lemma msplit_ones n u : (length u <= n)%nat -> msplit (2 ^ Z.of_nat n - 1) u = (u, []).
  Proof. induction u as [|x u IH]; intros H; cbn [msplit length] in *; [reflexivity|]. rewrite IH by lia. rewrite mask_ones by lia. reflexivity. Qed.
  Theorem unpack_pack (u : list Z) : letters_ok w u ->
    unpack_index_to_letters (length u) (idx w u) w = rev u /\
    pack_masked_index (unpack_index_to_letters (length u) (idx w u) w) w (2 ^ Z.of_nat (length u) - 1) (length u) (0, 0, 0, 0)%Z
    = (Z.of_nat (length u), idx w u, 0, 0)%Z.
  Proof.
    intros Hu. assert (E := unpack_ok w Hw u Hu). split; [exact E|]. rewrite E.
    rewrite (pack0 w Hw _ u u []) by (apply msplit_ones; auto). reflexivity.
  Qed.
  (** Every index of a level is unpacked to letters and packed back to itself. *)
  Theorem pack_unpack (n : nat) i : (0 <= i < w ^ Z.of_nat n)%Z ->
    Forall (fun x => (0 <= x < w)%Z) (unpack_index_to_letters n i w) /\ length (unpack_index_to_letters n i w) = n /\
    pack_masked_index (unpack_index_to_letters n i w) w (2 ^ Z.of_nat n - 1) n (0, 0, 0, 0)%Z = (Z.of_nat n, i, 0, 0)%Z.
  Proof.
    intros H. assert (Hl : length (unidx w n i) = n) by apply unidx_length.
    assert (Ho : letters_ok w (unidx w n i)) by (apply (unidx_ok w Hw); auto).
    destruct (unpack_pack (unidx w n i) Ho) as [E1 E2]. rewrite Hl, (idx_unidx w Hw) in E1, E2 by auto.
    split; [|split; [|exact E2]]; rewrite E1; [apply letters_ok_rev; auto|rewrite rev_length; auto].
  Qed.
  Lemma antipode_coefficients (D : nat) a : tensor_ok w D a -> (1 <= D)%nat ->
    exists r, py_antipode a = Ok r /\ tensor_ok w D r /\
      forall u, (length u <= D)%nat -> tv w D r u = rpow (- (1)) (length u) * tv w D a (rev u).
  Proof. intros K H. destruct (py_antipode_spec R w Hw D a K H) as (r & E & K' & V). exists r. split; [auto|split; [auto|exact V]]. Qed.
  Lemma fma_depth_args (D : nat) od ld rd (ob lb rb : buf R) :
    (od < -1 \/ ld < -1 \/ rd < -1 -> dense_ft_fma ob lb rb (tensor_basis w (Z.of_nat D)) od ld rd = Throw)%Z /\
    (-1 <= od -> -1 <= ld -> -1 <= rd ->
     dense_ft_fma ob lb rb (tensor_basis w (Z.of_nat D)) od ld rd =
     dense_ft_fma ob lb rb (tensor_basis w (Z.of_nat D)) (eff (Z.of_nat D) od) (eff (Z.of_nat D) ld) (eff (Z.of_nat D) rd))%Z.
  Proof.
    assert (EE : forall x, eff (Z.of_nat D) (eff (Z.of_nat D) x) = eff (Z.of_nat D) x).
    { intros x. unfold eff. destruct ((x =? -1) || (Z.of_nat D <? x))%Z eqn:E1; [|rewrite E1; reflexivity].
      match goal with |- (if ?c then _ else _) = _ => destruct c; reflexivity end. }
    assert (E1 : forall x, (eff (Z.of_nat D) x <? -1)%Z = (x <? -1)%Z).
    { intros x. unfold eff. destruct (x =? -1)%Z eqn:E1, (Z.of_nat D <? x)%Z eqn:E2; cbn [orb]; lia. }
    unfold dense_ft_fma. rewrite !update_bounds_spec by lia. rewrite !E1, !EE.
    split; [intros H|reflexivity].
    destruct (od <? -1)%Z eqn:X1; cbn [bind]; [reflexivity|]. destruct (ld <? -1)%Z eqn:X2; cbn [bind]; [reflexivity|].
    destruct (rd <? -1)%Z eqn:X3; cbn [bind]; [reflexivity|]. lia.
  Qed.
End Dual2.

Lemma series_coefficients (R : qalg) (k : nat) :
  plog R O = r0 /\ rmul (rnat (S k)) (plog R (S k)) = rpow (ropp r1) k /\ invfact R O = r1 /\ rmul (rnat (S k)) (invfact R (S k)) = invfact R k.
Proof.
  split; [reflexivity|split; [exact (pder_log R k)|split; [reflexivity|]]]. cbn [invfact].
  assert (T := rth R). rewrite (Rmul_assoc T), (qinv_ok R (S k)) by lia. apply (Rmul_1_l T).
Qed.
Theorem bounds_thm w D mx mn : 0 <= D ->
  let m := if (mx =? -1) || (D <? mx) then D else mx in
  (mn <= m -> update_bounds (tensor_basis w D) mx mn = Ok (mn, m)) /\
  (m < mn -> update_bounds (tensor_basis w D) mx mn = Throw).
Proof.
  intros HD m. unfold update_bounds. cbn [b_depth tensor_basis].
  replace (if (mx =? -1) || (mx >? D) then D else mx) with m by (unfold m; rewrite Z.gtb_ltb; reflexivity).
  split; intros H; rewrite Z.gtb_ltb; destruct (m <? mn) eqn:E; auto; lia.
Qed.

Section Sig.
  Variable R : qalg.
  Add Ring Rring33 : (rth (qr R)).
  Variable w : Z.
  Hypothesis Hw : 0 < w.
  Local Open Scope cr_scope.
  Theorem signature_stmul (D p q : nat) (g f h : dtensor R) :
    signature R w D g -> tensor_ok w D f -> tensor_ok w D h -> (w <= 32768)%Z -> (D < 64)%nat -> (p + q <= D)%nat ->
    (forall u, (p < length u)%nat -> tv w D f u = 0) -> (forall u, (q < length u)%nat -> tv w D h u = 0) ->
    exists r, py_st_mul f h = Ok r /\
      pairing w D (tv w D r) (tv w D g) = pairing w D (tv w D f) (tv w D g) * pairing w D (tv w D h) (tv w D g).
  Proof.
    intros Hg Kf Kh H1 H2 Hpq Hf Hh. destruct (stmul_shuffles R w Hw D f h (tv w D g) Kf Kh H1 H2) as (r & E & V).
    exists r. split; [exact E|]. rewrite V.
    rewrite (sum_rect R p q D (fun i j => sum (words w i) (fun u => sum (words w j) (fun v => tv w D f u * tv w D h v * sum (shuffles u v) (tv w D g))))); auto.
    - transitivity (sum (seq O (S p)) (fun i => sum (words w i) (fun u => tv w D f u * tv w D g u)) *
                    sum (seq O (S q)) (fun j => sum (words w j) (fun v => tv w D h v * tv w D g v))).
      + rewrite <- sum_mul_r. apply sum_ext. intros i Hi. apply in_seq in Hi.
        transitivity (sum (seq 0 (S q)) (fun j => sum (words w i) (fun u => tv w D f u * tv w D g u) * sum (words w j) (fun v => tv w D h v * tv w D g v))); [|apply sum_mul_l].
        apply sum_ext. intros j Hj. apply in_seq in Hj. rewrite <- sum_mul_r. apply sum_ext. intros u Hu. rewrite <- sum_mul_l. apply sum_ext. intros v Hv.
        apply words_In in Hu. apply words_In in Hv. rewrite (signature_shuffle R w Hw D g u v Hg) by lia. ring.
      + unfold pairing. f_equal; symmetry.
        * apply (sum_seq_extend R (S p)); [lia|]. intros k Hk. apply sum_zero. intros u Hu. apply words_In in Hu. rewrite Hf by lia. ring.
        * apply (sum_seq_extend R (S q)); [lia|]. intros k Hk. apply sum_zero. intros u Hu. apply words_In in Hu. rewrite Hh by lia. ring.
    - intros i j Hi. apply sum_zero. intros u Hu. apply words_In in Hu. apply sum_zero. intros v _. rewrite Hf by lia. ring.
    - intros i j Hj. apply sum_zero. intros u _. apply sum_zero. intros v Hv. apply words_In in Hv. rewrite Hh by lia. ring.
  Qed.
End Sig.

(** ** Concrete data *)
Definition peek {A B} (f : A -> B) (o : outcome A) : option B := match o with Ok x => Some (f x) | _ => None end.
Lemma peek_ok {A B} (f : A -> B) (o : outcome A) b : peek f o = Some b -> exists a, o = Ok a /\ f a = b.
Proof. destruct o; cbn; intros H; try discriminate. injection H as <-. eauto. Qed.
Definition tq (w D : Z) (l : list Z) : dtensor Qccr :=
  mkT (@of_list Qccr (map (fun z => Q2Qc (inject_Z z)) l)) (tensor_basis w D).
Definition showq (o : outcome (dtensor Qccr)) := match o with Ok t => Some (map (fun x : Qc => this x) (show t)) | _ => None end.
Definition a22 := tz 2 2 [1;2;3;4;5;6;7].
Definition b22 := tz 2 2 [2;0;1;-1;3;0;2].
Definition b21 := tz 2 1 [2;0;1].
Definition c22 := tz 2 2 [0;1;0;2;0;0;5].
Lemma a22_ok : tensor_ok 2 2 a22. Proof. split; reflexivity. Qed.
Lemma b22_ok : tensor_ok 2 2 b22. Proof. split; reflexivity. Qed.
Lemma c22_ok : tensor_ok 2 2 c22. Proof. split; reflexivity. Qed.
Lemma b21_ok : tensor_ok 2 1 b21. Proof. split; reflexivity. Qed.
(** A depth-1 tensor regarded as a depth-2 tensor with zero second level (width 2). *)
Definition t_lift (a : dtensor Zcr) : dtensor Zcr := tz 2 2 (show a ++ [0;0;0;0]).

Lemma assoc_mixed_witness : exists a b c : dtensor Zcr,
  tensor_ok 2 2 a /\ tensor_ok 2 1 b /\ tensor_ok 2 2 c /\
  shown (let! ab := py_ft_mul a b in py_ft_mul ab c) <> shown (let! bc := py_ft_mul b c in py_ft_mul a bc) /\
  (exists l, shown (let! ab := py_ft_mul a b in py_ft_mul ab c) = Ok l) /\ (exists l, shown (let! bc := py_ft_mul b c in py_ft_mul a bc) = Ok l).
Proof.
  exists a22, b21, b22. split; [exact a22_ok|split; [exact b21_ok|split; [exact b22_ok|]]].
  split; [vm_compute; intros H; discriminate H|]. split; eexists; vm_compute; reflexivity.
Qed.
Lemma exp_deeper_witness : exists x : dtensor Qccr, tensor_ok 2 1 x /\ py_ft_exp (R:=Qcqa) x (tensor_basis 2 2) = UB.
Proof. exists (tq 2 1 [0;1;2]). split; [split; reflexivity|vm_compute; reflexivity]. Qed.
Lemma log_leak_witness : exists (ob ob' : buf Qccr) (x : buf Qccr) r r',
  blen ob = 7 /\ blen ob' = 7 /\ blen x = 7 /\
  let v := make_view (Ptr 0) (tensor_basis 2 2) 0 2 in
  ft_log (R:=Qcqa) v v ob x = Ok r /\ ft_log (R:=Qcqa) v v ob' x = Ok r' /\ bat r 3 <> bat r' 3.
Proof.
  exists (t_data (tq 2 2 [0;0;0;0;0;0;0])), (t_data (tq 2 2 [1;0;0;0;0;0;0])), (t_data (tq 2 2 [1;1;2;0;0;0;0])).
  set (v := make_view (Ptr 0) (tensor_basis 2 2) 0 2). set (x := t_data (tq 2 2 [1;1;2;0;0;0;0])).
  destruct (peek_ok (fun r : buf Qccr => this (bat r 3)) (ft_log (R:=Qcqa) v v (t_data (tq 2 2 [0;0;0;0;0;0;0])) x) (-1#2)%Q) as (r & E1 & V1); [vm_compute; reflexivity|].
  destruct (peek_ok (fun r : buf Qccr => this (bat r 3)) (ft_log (R:=Qcqa) v v (t_data (tq 2 2 [1;0;0;0;0;0;0])) x) (1#2)%Q) as (r' & E2 & V2); [vm_compute; reflexivity|].
  exists r, r'. split; [reflexivity|split; [reflexivity|split; [reflexivity|]]]. cbv zeta. split; [exact E1|split; [exact E2|]].
  intros H. cbv beta in V1, V2. assert (X : (-1#2)%Q = (1#2)%Q) by (rewrite <- V1, <- V2; f_equal; exact H). discriminate X.
Qed.
Lemma adjoint_shallow_witness : exists (A x s p q : dtensor Zcr),
  tensor_ok 2 1 A /\ tensor_ok 2 2 x /\ tensor_ok 2 2 s /\
  py_ft_mul (t_lift A) x = Ok p /\ py_ft_adjoint_left_mul A s = Ok q /\
  pairing 2 2 (tv 2 2 p) (tv 2 2 s) <> pairing 2 2 (tv 2 2 x) (tv 2 2 q).
Proof.
  destruct (peek_ok (fun p => pairing 2 2 (tv 2 2 p) (tv 2 2 a22)) (py_ft_mul (t_lift b21) b22) 73) as (p & E1 & V1); [vm_compute; reflexivity|].
  destruct (peek_ok (fun q => pairing 2 2 (tv 2 2 b22) (tv 2 2 q)) (py_ft_adjoint_left_mul b21 a22) 16) as (q & E2 & V2); [vm_compute; reflexivity|].
  exists b21, b22, a22, p, q. split; [exact b21_ok|split; [exact b22_ok|split; [exact a22_ok|]]]. split; [exact E1|split; [exact E2|]].
  rewrite V1, V2. discriminate.
Qed.
Lemma stmul_shallow_witness : exists a b : dtensor Zcr, tensor_ok 2 2 a /\ tensor_ok 2 1 b /\ py_st_mul a b = UB.
Proof. exists a22, b21. split; [exact a22_ok|split; [exact b21_ok|reflexivity]]. Qed.
Lemma inplace_shallow_witness : exists a b : dtensor Zcr, tensor_ok 2 2 a /\ tensor_ok 2 1 b /\
  exists l l', shown (py_ft_inplace_mul a b) = Ok l /\ shown (py_ft_mul a b) = Ok l' /\ l <> l'.
Proof.
  exists a22, b21. split; [exact a22_ok|split; [exact b21_ok|]]. eexists _, _. split; [vm_compute; reflexivity|split; [vm_compute; reflexivity|]]. discriminate.
Qed.
Lemma fma_shallow_witness : exists a b c p : dtensor Zcr, tensor_ok 2 2 a /\ tensor_ok 2 2 b /\ tensor_ok 2 1 c /\ py_ft_mul b c = Ok p /\
  exists l l', shown (py_ft_fma a b c) = Ok l /\ show (t_add a p) = l' /\ l <> l'.
Proof.
  destruct (peek_ok (fun p => show (t_add c22 p)) (py_ft_mul a22 b21) [2;5;7;10;12;12;22]) as (p & E1 & V1); [vm_compute; reflexivity|].
  exists c22, a22, b21, p. split; [exact c22_ok|split; [exact a22_ok|split; [exact b21_ok|split; [exact E1|]]]].
  eexists _, _. split; [vm_compute; reflexivity|split; [exact V1|]]. discriminate.
Qed.
Lemma stride_two_witness : exists (a2 : buf Zcr) (a1 : buf Zcr) (r r' : buf Zcr),
  (forall e, 0 <= e < 3 -> bat a2 (2 * e) = bat a1 e) /\ blen a2 = 5 /\ blen a1 = 3 /\
  let bs := tensor_basis 2 1 in let o := make_view (Ptr 0) bs 0 1 in
  ft_fma o (make_view (Ptr 0) bs 0 1) o (zeros 3) a1 a1 (fun x => x) = Ok r /\
  ft_fma o (make_view (Strided 0 2) bs 0 1) o (zeros 3) a2 a1 (fun x => x) = Ok r' /\ bat r 1 <> bat r' 1.
Proof.
  set (a2 := @of_list Zcr [1;9;2;9;3]). set (a1 := @of_list Zcr [1;2;3]).
  set (o := make_view (Ptr 0) (tensor_basis 2 1) 0 1).
  destruct (peek_ok (fun r : buf Zcr => bat r 1) (ft_fma o o o (@zeros Zcr 3) a1 a1 (fun x => x)) 4) as (r & E1 & V1); [vm_compute; reflexivity|].
  destruct (peek_ok (fun r : buf Zcr => bat r 1) (ft_fma o (make_view (Strided 0 2) (tensor_basis 2 1) 0 1) o (@zeros Zcr 3) a2 a1 (fun x => x)) 11) as (r' & E2 & V2); [vm_compute; reflexivity|].
  exists a2, a1, r, r'. split; [|split; [reflexivity|split; [reflexivity|]]].
  - intros e He. assert (e = 0 \/ e = 1 \/ e = 2) as [->|[->| ->]] by lia; reflexivity.
  - cbv zeta. split; [exact E1|split; [exact E2|]]. rewrite V1, V2. discriminate.
Qed.
Lemma signature_example : exists g, signature Qcqa 2 2 g.
Proof.
  destruct (peek_ok (fun _ => tt) (py_ft_exp (R:=Qcqa) (tq 2 2 [0;1;2;0;0;0;0]) (tensor_basis 2 2)) tt) as (g & E & _); [vm_compute; reflexivity|].
  exists g. apply (sig_exp Qcqa 2 2 2 (tq 2 2 [0;1;2;0;0;0;0])); [split; reflexivity|lia| |exact E].
  exists (fun u => if (length u =? 1)%nat then tv 2 2 (tq 2 2 [0;1;2;0;0;0;0]) u else r0). split.
  - apply le_one. intros u Hu. apply Nat.eqb_neq in Hu. rewrite Hu. reflexivity.
  - intros u Hu. destruct (length u =? 1)%nat eqn:El; [reflexivity|]. apply Nat.eqb_neq in El.
    unfold tv. destruct ((length u <=? 2)%nat && okw 2 u) eqn:Eo; [|reflexivity]. apply andb_prop in Eo. destruct Eo as [_ Eo].
    apply okw_true in Eo. destruct u as [|x [|y [|z u]]]; [reflexivity|cbn [length] in El; lia| |cbn [length] in Hu; lia].
    inversion Eo as [|? ? Hx Eo']; subst. inversion Eo' as [|? ? Hy _]; subst.
    assert (x = 0 \/ x = 1) as [->| ->] by lia; assert (y = 0 \/ y = 1) as [->| ->] by lia; reflexivity.
Qed.
Definition csr_example : csmat Zcr := mkCS (@of_list Zcr [5;7;9]) (@of_list Zcr [0;2;1]) (@of_list Zcr [0;2;2;3]) 3 3.
Lemma csr_example_valid : cs_valid csr_example.
Proof.
  split; cbn [csr_example cs_n cs_off cs_data cs_idx cs_inner blen of_list]; try (vm_compute; lia); try (vm_compute; congruence); try reflexivity.
  - intros d Hd. assert (d = 0 \/ d = 1 \/ d = 2) as [->|[->| ->]] by lia; vm_compute; congruence.
  - intros d t Hd Ht. assert (Z.le (bat (cs_off csr_example) d) t /\ Z.lt t (bat (cs_off csr_example) (d + 1))) as [T1 T2] by exact Ht.
    assert (d = 0 \/ d = 1 \/ d = 2) as [->|[->| ->]] by lia.
    + change (0 <= t) in T1. change (t < 2) in T2. assert (t = 0 \/ t = 1) as [->| ->] by lia; vm_compute; split; congruence.
    + change (2 <= t) in T1. change (t < 2) in T2. lia.
    + change (2 <= t) in T1. change (t < 3) in T2. assert (t = 2) as -> by lia; vm_compute; split; congruence.
Qed.
