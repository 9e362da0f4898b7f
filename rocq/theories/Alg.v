(** Commutative rings and finite sums. *)
From Coq Require Export Ring List ZArith Lia Bool Permutation.
Export ListNotations.

(** Scalars: an arbitrary commutative ring.  In the code these are
    double / float / rational types; arithmetic here is exact. *)
Record cring := mkCR {
  car :> Type;
  r0 : car; r1 : car;
  radd : car -> car -> car; rmul : car -> car -> car; rsub : car -> car -> car;
  ropp : car -> car;
  rth : ring_theory r0 r1 radd rmul rsub ropp eq }.
Arguments r0 {c}. Arguments r1 {c}.
Arguments radd {c}. Arguments rmul {c}. Arguments rsub {c}. Arguments ropp {c}.

Declare Scope cr_scope.
Delimit Scope cr_scope with cr.
Infix "+" := radd : cr_scope.
Infix "*" := rmul : cr_scope.
Infix "-" := rsub : cr_scope.
Notation "- x" := (ropp x) : cr_scope.
Notation "0" := r0 : cr_scope.
Notation "1" := r1 : cr_scope.

Definition Zcr : cring := mkCR Z 0%Z 1%Z Z.add Z.mul Z.sub Z.opp Zth.

Section Sums.
  Variable R : cring.
  Add Ring Rring : (rth R).
  Local Open Scope cr_scope.

  (** Sum of [f x] over a list. *)
  Fixpoint sum {A} (l : list A) (f : A -> R) : R :=
    match l with [] => 0 | x :: l' => f x + sum l' f end.

  Lemma sum_ext {A} (l : list A) f g : (forall x, In x l -> f x = g x) -> sum l f = sum l g.
  Proof.
    induction l as [|x l IH]; simpl; intros H; [reflexivity|].
    rewrite H by auto. f_equal. apply IH. auto.
  Qed.
  Lemma sum_app {A} (l1 l2 : list A) f : sum (l1 ++ l2) f = sum l1 f + sum l2 f.
  Proof. induction l1 as [|x l IH]; simpl; [ring|rewrite IH; ring]. Qed.
  Lemma sum_zero {A} (l : list A) f : (forall x, In x l -> f x = 0) -> sum l f = 0.
  Proof.
    induction l as [|x l IH]; simpl; intros H; [reflexivity|].
    rewrite H, IH by auto. ring.
  Qed.
  Lemma sum_add {A} (l : list A) f g : sum l (fun x => f x + g x) = sum l f + sum l g.
  Proof. induction l as [|x l IH]; simpl; [ring|rewrite IH; ring]. Qed.
  Lemma sum_sub {A} (l : list A) f g : sum l (fun x => f x - g x) = sum l f - sum l g.
  Proof. induction l as [|x l IH]; simpl; [ring|rewrite IH; ring]. Qed.
  Lemma sum_opp {A} (l : list A) f : sum l (fun x => - f x) = - sum l f.
  Proof. induction l as [|x l IH]; simpl; [ring|rewrite IH; ring]. Qed.
  Lemma sum_mul_l {A} (l : list A) c f : sum l (fun x => c * f x) = c * sum l f.
  Proof. induction l as [|x l IH]; simpl; [ring|rewrite IH; ring]. Qed.
  Lemma sum_mul_r {A} (l : list A) c f : sum l (fun x => f x * c) = sum l f * c.
  Proof. induction l as [|x l IH]; simpl; [ring|rewrite IH; ring]. Qed.
  Lemma sum_map {A B} (h : A -> B) l f : sum (map h l) f = sum l (fun x => f (h x)).
  Proof. induction l as [|x l IH]; simpl; [ring|rewrite IH; ring]. Qed.
  Lemma sum_flat_map {A B} (h : A -> list B) l f :
    sum (flat_map h l) f = sum l (fun x => sum (h x) f).
  Proof. induction l as [|x l IH]; simpl; [reflexivity|rewrite sum_app, IH; ring]. Qed.
  Lemma sum_swap {A B} (l1 : list A) (l2 : list B) f :
    sum l1 (fun x => sum l2 (fun y => f x y)) = sum l2 (fun y => sum l1 (fun x => f x y)).
  Proof.
    induction l1 as [|x l1 IH]; simpl.
    - symmetry. apply sum_zero. reflexivity.
    - rewrite IH, sum_add. reflexivity.
  Qed.
  Lemma sum_perm {A} (l1 l2 : list A) f : Permutation l1 l2 -> sum l1 f = sum l2 f.
  Proof.
    induction 1; simpl; try ring.
    - rewrite IHPermutation; ring. - rewrite IHPermutation1; auto.
  Qed.
  Lemma sum_rev {A} (l : list A) f : sum (rev l) f = sum l f.
  Proof. apply sum_perm, Permutation_sym, Permutation_rev. Qed.
  Lemma sum_single {A} (l : list A) f x0 :
    NoDup l -> In x0 l -> (forall x, In x l -> x <> x0 -> f x = 0) -> sum l f = f x0.
  Proof.
    induction l as [|x l IH]; intros Hnd Hin H; [inversion Hin|].
    inversion Hnd as [|? ? Hni Hnd']; subst. simpl. destruct Hin as [->|Hin].
    - rewrite (sum_zero l); [ring|]. intros y Hy. apply H; [right; auto|]. intros ->; auto.
    - rewrite IH; auto; [|intros; apply H; auto; right; auto].
      rewrite H; [ring|left; auto|]. intros ->; auto.
  Qed.
  Lemma sum_filter {A} (l : list A) p f :
    sum (filter p l) f = sum l (fun x => if p x then f x else 0).
  Proof. induction l as [|x l IH]; simpl; [reflexivity|]. destruct (p x); simpl; rewrite IH; ring. Qed.
  Lemma sum_list_prod {A B} (l1 : list A) (l2 : list B) f :
    sum (list_prod l1 l2) f = sum l1 (fun x => sum l2 (fun y => f (x, y))).
  Proof. induction l1 as [|x l IH]; simpl; [reflexivity|rewrite sum_app, sum_map, IH; ring]. Qed.

  (** Sums over initial segments of nat. *)
  Lemma sum_seq_S a n f : sum (seq a (S n)) f = f a + sum (seq (S a) n) f.
  Proof. reflexivity. Qed.
  Lemma sum_seq_last a n f : sum (seq a (S n)) f = sum (seq a n) f + f (a + n)%nat.
  Proof. rewrite seq_S, sum_app. simpl. ring. Qed.
  Lemma sum_seq_shift a n f : sum (seq (S a) n) f = sum (seq a n) (fun k => f (S k)).
  Proof. rewrite <- seq_shift, sum_map. reflexivity. Qed.
  Lemma sum_seq_rev n f : sum (seq 0 (S n)) f = sum (seq 0 (S n)) (fun k => f (n - k)%nat).
  Proof.
    induction n as [|n IH] in f |- *; [reflexivity|].
    rewrite sum_seq_last. simpl Nat.add.
    rewrite (sum_seq_S 0 (S n) (fun k => f (S n - k)%nat)), sum_seq_shift, IH.
    replace (S n - 0)%nat with (S n) by lia.
    rewrite (sum_ext (seq 0 (S n)) (fun k => f (S n - S k)%nat) (fun k => f (n - k)%nat)); [ring|].
    intros; f_equal; lia.
  Qed.
  (** Terms outside an index window vanish. *)
  Lemma sum_seq_extend n m f : (n <= m)%nat ->
    (forall k, (n <= k < m)%nat -> f k = 0) -> sum (seq 0 m) f = sum (seq 0 n) f.
  Proof.
    intros Hle H. replace m with (n + (m - n))%nat by lia.
    rewrite seq_app, sum_app. rewrite (sum_zero (seq _ (m - n))); [ring|].
    intros k Hk. apply in_seq in Hk. apply H. lia.
  Qed.

  (** Sums over triangles: sum_{k<=n} sum_{i<=k} f i (k-i) = sum_{i<=n} sum_{j<=n-i} f i j. *)
  Lemma sum_triangle n (f : nat -> nat -> R) :
    sum (seq 0 (S n)) (fun k => sum (seq 0 (S k)) (fun i => f i (k - i)%nat)) =
    sum (seq 0 (S n)) (fun i => sum (seq 0 (S (n - i))) (fun j => f i j)).
  Proof.
    induction n as [|n IH]; [reflexivity|].
    rewrite (sum_seq_last 0 (S n)), IH. simpl Nat.add.
    rewrite (sum_seq_last 0 (S n) (fun i => sum (seq 0 (S (S n - i))) (fun j => f i j))). simpl Nat.add.
    replace (S n - S n)%nat with 0%nat by lia.
    rewrite (sum_ext (seq 0 (S n)) (fun i => sum (seq 0 (S (S n - i))) (fun j => f i j))
      (fun i => sum (seq 0 (S (n - i))) (fun j => f i j) + f i (S n - i)%nat)).
    2:{ intros i Hi. apply in_seq in Hi. replace (S n - i)%nat with (S (n - i)) by lia.
        rewrite (sum_seq_last 0 (S (n - i))). simpl Nat.add. reflexivity. }
    rewrite sum_add.
    rewrite (sum_seq_last 0 (S n) (fun i => f i (S n - i)%nat)). simpl Nat.add.
    replace (S n - S n)%nat with 0%nat by lia. simpl. ring.
  Qed.

  (** Powers of scalars and sign. *)
  Fixpoint rpow (x : R) (n : nat) : R := match n with O => 1 | S n => x * rpow x n end.
  Lemma rpow_add x a b : rpow x (a + b) = rpow x a * rpow x b.
  Proof. induction a; simpl; [ring|rewrite IHa; ring]. Qed.
  Lemma rpow_m1_sq n : rpow (- (1)) n * rpow (- (1)) n = 1.
  Proof. induction n; simpl; [ring|]. transitivity (rpow (- (1)) n * rpow (- (1)) n); [ring|auto]. Qed.

  (** Natural numbers in the ring. *)
  Fixpoint rnat (n : nat) : R := match n with O => 0 | S n => 1 + rnat n end.
  Lemma rnat_add a b : rnat (a + b) = rnat a + rnat b.
  Proof. induction a; simpl; [ring|rewrite IHa; ring]. Qed.
  Lemma rnat_mul a b : rnat (a * b) = rnat a * rnat b.
  Proof. induction a; simpl; [ring|rewrite rnat_add, IHa; ring]. Qed.
End Sums.
Arguments sum {R A} l f.
Arguments rpow {R} x n.
Arguments rnat {R} n.

(** Commutative Q-algebras: every positive integer is invertible. *)
Record qalg := mkQA {
  qr :> cring;
  qinv : nat -> qr;                     (* qinv n = 1/n for n>0 *)
  qinv_ok : forall n, (0 < n)%nat -> rmul (@rnat qr n) (qinv n) = r1 }.
Arguments qinv {q}.
