(** Vocabulary for the properties of dynamically constructed streams. *)
From Verif Require Export DynModel TickSpec.
Open Scope Z_scope.

(** A sequence of queries (interval, resolution), starting with tree [t] and state [g] of
    the source of increments: the answers, the tree and the state left. *)
Fixpoint dyn_all {lie st} (is_zero : lie -> bool) cbh2 (R : rule lie st) (fuel : nat) (g : st) (t : tree lie) (support : ri) (ctx : actx lie) (qs : list (ri * Z)) : outcome (list lie * tree lie * st) :=
  match qs with
  | [] => Ok ([], t, g)
  | (i, r) :: qs =>
      let! (x, t, g) := dn_log_signature_at is_zero cbh2 R fuel g t support i r ctx in
      let! (xs, t, g) := dyn_all is_zero cbh2 R fuel g t support ctx qs in
      Ok (x :: xs, t, g)
  end.
(** A new stream answers these queries, asked one after the other, with [xs]. *)
Definition dyn_answers {lie st} (is_zero : lie -> bool) cbh2 (R : rule lie st) (g0 : st) support ctx qs xs : Prop :=
  exists F t g, forall fuel, (F <= fuel)%nat -> dyn_all is_zero cbh2 R fuel g0 [] support ctx qs = Ok (xs, t, g).
(** The query meets the support in more than a point. *)
Definition meets (support i : ri) : Prop := (cut_from support i < cut_upto support i)%Q.
(** Queries at resolutions not above [res], in the 32-bit range at resolution [res]. *)
Definition fits_history (support : ri) (res : Z) (qs : list (ri * Z)) : Prop :=
  - 2 ^ 27 <= res <= 2 ^ 27 /\
  forall i r, In (i, r) qs -> (ri_inf i <= ri_sup i)%Q /\ (meets support i -> r <= res /\ fits_query (cut_from support i) (cut_upto support i) r res).
(** Either no query goes below 0 or none goes above 0. *)
Definition one_sided (support : ri) (qs : list (ri * Z)) : Prop :=
  (forall i r, In (i, r) qs -> meets support i -> (0 <= grid_floor (cut_from support i) r)%Q) \/
  (forall i r, In (i, r) qs -> meets support i -> (grid_floor (cut_upto support i) r <= 0)%Q).

(** A path: [G a b] is its signature from a to b. *)
Record path {lie} (S : sigs lie) (G : Q -> Q -> sg_t S) : Prop := mkPath {
  pt_eq : forall a a' b b', (a == a')%Q -> (b == b')%Q -> sg_eq S (G a b) (G a' b');
  pt_one : forall a, sg_eq S (G a a) (sg_one S);
  pt_mul : forall a b c, (a <= b)%Q -> (b <= c)%Q -> sg_eq S (sg_mul S (G a b) (G b c)) (G a c) }.
(** Every increment the stream's source gives has the signature of the path: the first
    interval, those added beside it, and the halves of one whose value is right. *)
Definition right_for {lie} (S : sigs lie) (ok : lie -> Prop) (G : Q -> Q -> sg_t S) (i : dint) (x : lie) : Prop :=
  ok x /\ sg_eq S (sg_of S x) (G (dy (di_k i) (di_n i)) (dy (di_k i + 1) (di_n i))).
Record source_of {lie st} (S : sigs lie) (ok : lie -> Prop) (G : Q -> Q -> sg_t S) (R : rule lie st) : Prop := mkSource {
  so_root : forall g i, di_t i = Clopen -> right_for S ok G i (fst (ru_root R g i));
  so_neighbour : forall g i, di_t i = Clopen -> right_for S ok G i (fst (ru_neighbour R g i));
  so_children : forall g k n v, right_for S ok G (mkDI k n Clopen) v ->
    let '(x, y, _) := ru_children R g (mkDI (2 * k) (n + 1) Clopen) (mkDI (2 * k + 1) (n + 1) Clopen) v in
    right_for S ok G (mkDI (2 * k) (n + 1) Clopen) x /\ right_for S ok G (mkDI (2 * k + 1) (n + 1) Clopen) y }.
(** A source that splits increments without changing the signature of the whole. *)
Record splits {lie st} (S : sigs lie) (ok : lie -> Prop) (R : rule lie st) : Prop := mkSplits {
  sl_root : forall g i, ok (fst (ru_root R g i));
  sl_neighbour : forall g i, ok (fst (ru_neighbour R g i));
  sl_children : forall g k n v, ok v ->
    let '(x, y, _) := ru_children R g (mkDI (2 * k) (n + 1) Clopen) (mkDI (2 * k + 1) (n + 1) Clopen) v in
    ok x /\ ok y /\ sg_eq S (sg_mul S (sg_of S x) (sg_of S y)) (sg_of S v) }.
(** The product of [w j], j = a, a + 1, ..., b - 1. *)
Definition product_over {lie} (S : sigs lie) (w : Z -> sg_t S) (a b : Z) : sg_t S :=
  fold_right (fun j acc => sg_mul S (w (a + Z.of_nat j)) acc) (sg_one S) (seq 0 (Z.to_nat (b - a))).
(** The cell of length 2^-res that starts at the grid point x. *)
Definition cell_at (res : Z) (x : Q) : Z := Qfloor (x * Qpower 2 res).
(** The first query is one dyadic interval [k/2^n, (k+1)/2^n), and the others lie in it. *)
Definition first_whole (support : ri) (k n : Z) (qs : list (ri * Z)) : Prop :=
  match qs with
  | [] => False
  | (i, r) :: qs => n <= r /\ (cut_from support i == dy k n)%Q /\ (cut_upto support i == dy (k + 1) n)%Q /\
      forall j s, In (j, s) qs -> meets support j -> (dy k n <= grid_floor (cut_from support j) s)%Q /\ (grid_floor (cut_upto support j) s <= dy (k + 1) n)%Q
  end.
(** The binary cbh multiplies signatures. *)
Definition pair_sound {lie} (cbh2 : lie -> lie -> lie) (S : sigs lie) (ok : lie -> Prop) : Prop :=
  forall a b, ok a -> ok b -> ok (cbh2 a b) /\ sg_eq S (sg_of S (cbh2 a b)) (sg_mul S (sg_of S a) (sg_of S b)).
(** The query is not empty once its ends are rounded to its grid. *)
Definition not_empty (support : ri) (q : ri * Z) : Prop :=
  meets support (fst q) /\ (grid_floor (cut_from support (fst q)) (snd q) < grid_floor (cut_upto support (fst q)) (snd q))%Q.
(** All of [qs] are on one side of 0 and [q] starts on the other. *)
Definition other_side (support : ri) (qs : list (ri * Z)) (q : ri * Z) : Prop :=
  ((forall i r, In (i, r) qs -> meets support i -> (0 <= grid_floor (cut_from support i) r)%Q) /\ (grid_floor (cut_from support (fst q)) (snd q) < 0)%Q) \/
  ((forall i r, In (i, r) qs -> meets support i -> (grid_floor (cut_upto support i) r <= 0)%Q) /\ (0 <= grid_floor (cut_from support (fst q)) (snd q))%Q).
(** What is needed of sums and halves for streams that split an increment v at random into
    v/2 + p and v/2 - p: signatures commute and turn sums into products (depth 1). *)
Record linear {lie} (S : sigs lie) (ok : lie -> Prop) (half : lie -> lie) (add sub : lie -> lie -> lie) : Prop := mkLinear {
  ln_comm : forall a b, sg_eq S (sg_mul S a b) (sg_mul S b a);
  ln_half : forall v, ok v -> ok (half v) /\ sg_eq S (sg_mul S (sg_of S (half v)) (sg_of S (half v))) (sg_of S v);
  ln_add : forall a b, ok a -> ok b -> ok (add a b) /\ sg_eq S (sg_of S (add a b)) (sg_mul S (sg_of S a) (sg_of S b));
  ln_sub : forall a b, ok a -> ok b -> ok (sub a b) /\ sg_eq S (sg_mul S (sg_of S (sub a b)) (sg_of S b)) (sg_of S a) }.
