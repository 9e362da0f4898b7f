(** Vocabulary for the stream properties: increments between two parameters, their
    ordered product, and what is assumed of a context. *)
From Coq Require Export Sorted Qround Qpower.
From Verif Require Export StreamModel DyadicSpec.
Open Scope Z_scope.

(** Rows in strictly ascending order of their parameter. *)
Definition ascending {A} (d : list (Q * A)) : Prop := StronglySorted (fun a b => (fst a < fst b)%Q) d.
(** The entries of rows whose parameter p satisfies a <= p < b, in order. *)
Definition within {A} (a b : Q) (d : list (Q * A)) : list A :=
  map snd (filter (fun e => Qle_bool a (fst e) && negb (Qle_bool b (fst e))) d).

(** What a signature is for these theorems: a monoid [sg_t] (product [sg_mul], unit
    [sg_one], equality [sg_eq]) and a map from Lie elements to it (the exponential). *)
Record sigs (lie : Type) := mkSigs {
  sg_t : Type; sg_eq : sg_t -> sg_t -> Prop; sg_mul : sg_t -> sg_t -> sg_t; sg_one : sg_t; sg_of : lie -> sg_t }.
Arguments sg_t {lie}. Arguments sg_eq {lie}. Arguments sg_mul {lie}. Arguments sg_one {lie}. Arguments sg_of {lie}.

(** Ordered product of the signatures of a list of Lie elements. *)
Definition sg_prod {lie} (S : sigs lie) (l : list lie) : sg_t S := fold_right (fun x a => sg_mul S (sg_of S x) a) (sg_one S) l.

(** A context that computes signatures correctly on well-formed elements [ok]: the
    monoid laws, the zero element and everything reported as zero have signature one,
    and the signature of cbh is the product of the signatures. *)
Record sound {lie} (is_zero : lie -> bool) (S : sigs lie) (ok : lie -> Prop) (ctx : actx lie) : Prop := mkSound {
  sd_refl : forall a, sg_eq S a a;
  sd_sym : forall a b, sg_eq S a b -> sg_eq S b a;
  sd_trans : forall a b c, sg_eq S a b -> sg_eq S b c -> sg_eq S a c;
  sd_mul : forall a a' b b', sg_eq S a a' -> sg_eq S b b' -> sg_eq S (sg_mul S a b) (sg_mul S a' b');
  sd_assoc : forall a b c, sg_eq S (sg_mul S (sg_mul S a b) c) (sg_mul S a (sg_mul S b c));
  sd_one_l : forall a, sg_eq S (sg_mul S (sg_one S) a) a;
  sd_one_r : forall a, sg_eq S (sg_mul S a (sg_one S)) a;
  sd_zero_ok : ok (cx_zero ctx);
  sd_zero : sg_eq S (sg_of S (cx_zero ctx)) (sg_one S);
  sd_is_zero : forall x, is_zero x = true -> sg_eq S (sg_of S x) (sg_one S);
  sd_cbh_ok : forall l, Forall ok l -> ok (cx_cbh ctx l);
  sd_cbh : forall l, Forall ok l -> sg_eq S (sg_of S (cx_cbh ctx l)) (sg_prod S l) }.

(** Sizes for which the 32-bit dyadic arithmetic of a query from [inf] to [sup] at
    resolution [tol] of a stream of resolution [res] does not overflow: the ends, rounded
    to the query's grid, are at most 2^28 cells of the finer of the two grids away from 0,
    and the two resolutions differ by at most 30. *)
Definition fits_query (inf sup : Q) (tol res : Z) : Prop :=
  - 2 ^ 27 <= tol <= 2 ^ 27 /\ - 2 ^ 27 <= res <= 2 ^ 27 /\ tol - res <= 30 /\
  (forall x, x = inf \/ x = sup -> - 2 ^ 28 <= Qfloor (grid_floor x tol * Qpower 2 (Z.max tol res)) <= 2 ^ 28).

(** The later, the earlier of two parameters. *)
Definition later (a b : Q) : Q := if Qle_bool b a then a else b.
Definition earlier (a b : Q) : Q := if Qle_bool a b then a else b.
(** Where a query really starts and ends: it is cut down to the stream's support. *)
Definition from {lie} (s : stream lie) (i : ri) : Q := later (ri_inf i) (ri_inf (st_support s)).
Definition upto {lie} (s : stream lie) (i : ri) : Q := earlier (ri_sup i) (ri_sup (st_support s)).
(** The resolution of a query that names none: two more than the least r >= 0 for which a
    cell of length 2^-r is not longer than the query, and not less than the stream's. *)
Definition default_resolution {lie} (s : stream lie) (i : ri) (tol : Z) : Prop :=
  exists r, 0 <= r /\ (Qpower 2 (- r) <= upto s i - from s i)%Q /\ (r = 0 \/ (upto s i - from s i < Qpower 2 (1 - r))%Q) /\
    tol = Z.max (st_res s) (r + 2).

(** What one dyadic piece [k/2^n, (k+1)/2^n) contributes to a query of a stream whose
    increments are kept in cells of length 2^-res: its increments if it is no finer than a
    cell.  Otherwise the increments of the whole cell, if the piece starts where the cell
    does and contains at least one increment; else nothing. *)
Definition piece_gives {A} (res : Z) (d : list (Q * A)) (p : Z * Z) (out : list A) : Prop :=
  let (k, n) := p in
  let own := within (dy k n) (dy (k + 1) n) d in
  (n <= res /\ out = own) \/
  (res < n /\ own <> [] /\ exists q, (dy k n == dy q res)%Q /\ out = within (dy q res) (dy (q + 1) res) d) \/
  (res < n /\ own = [] /\ out = []) \/
  (res < n /\ (forall q, ~ (dy k n == dy q res)%Q) /\ out = []).

(** The calls: a query at a resolution, a query at the default resolution, and the query
    of the caching layer itself. *)
Inductive query := QAt (i : ri) (r : Z) | QDefault (i : ri) | QLayer (i : ri) (r : Z).
Definition ask {lie} (is_zero : lie -> bool) (none : lie) (fuel : nat) (s : stream lie) (ctx : actx lie) (c : cache lie) (q : query) : outcome (lie * cache lie) :=
  match q with
  | QAt i r => log_signature_at is_zero none fuel s c i r ctx
  | QDefault i => log_signature is_zero none fuel s c i ctx
  | QLayer i r => layer_interval is_zero none fuel s c i r ctx
  end.
(** A sequence of calls, starting with cache [c]: the answers and the cache left. *)
Fixpoint ask_all {lie} (is_zero : lie -> bool) (none : lie) (fuel : nat) (s : stream lie) (ctx : actx lie) (c : cache lie) (qs : list query) : outcome (list lie * cache lie) :=
  match qs with
  | [] => Ok ([], c)
  | q :: qs => let! (x, c1) := ask is_zero none fuel s ctx c q in let! (xs, c2) := ask_all is_zero none fuel s ctx c1 qs in Ok (x :: xs, c2)
  end.
(** Calls within the 32-bit range. *)
Definition fits_call {lie} (s : stream lie) (ctx : actx lie) (q : query) : Prop :=
  match q with
  | QAt i r => (ri_inf i <= ri_sup i)%Q /\ fits_query (from s i) (upto s i) r (st_res s)
  | QDefault i => (ri_inf i <= ri_sup i)%Q /\ forall tol, default_resolution s i tol -> fits_query (from s i) (upto s i) tol (st_res s)
  | QLayer i r => (ri_inf i <= ri_sup i)%Q /\ fits_query (ri_inf i) (ri_sup i) r (st_res s) /\ cx_width ctx = cx_width (st_ctx s)
  end.
(** A stream as the constructors leave it, with well-formed increments. *)
Definition stream_ok {lie} (ok : lie -> Prop) (s : stream lie) : Prop :=
  ascending (st_data s) /\ Forall (fun e => ok (snd e)) (st_data s) /\ (ri_inf (st_support s) <= ri_sup (st_support s))%Q.
