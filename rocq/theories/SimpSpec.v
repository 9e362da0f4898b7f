(** Vocabulary for simplified streams. *)
From Verif Require Export SimpModel PwSpec StreamLemmas DyadicProofs3.
Open Scope Z_scope.

(** Each piece of the partition is a dyadic interval [k/2^n, (k+1)/2^n) with n <= r. *)
Definition dyadic_pieces (p : IntervalModel.partition) (r : Z) : Prop :=
  forall i iv, piece p i = Ok iv -> exists k n, n <= r /\ (ri_inf iv == dy k n)%Q /\ (ri_sup iv == dy (k + 1) n)%Q.
(** The parameter lies strictly inside no piece. *)
Definition between_pieces (p : IntervalModel.partition) (x : Q) : Prop :=
  forall i iv, piece p i = Ok iv -> (x <= ri_inf iv)%Q \/ (ri_sup iv <= x)%Q.
(** After the calls [h] the stream [s], simplified along [p], is [w]. *)
Definition simplifies {lie} (is_zero : lie -> bool) (none : lie) (s : stream lie) (effective : ri) (ctx : actx lie) (p : IntervalModel.partition) (r : Z) (h : list query) (w : pwstream lie) : Prop :=
  forall fuel, (31 <= fuel)%nat -> exists xs c c', ask_all is_zero none fuel s ctx [] h = Ok (xs, c) /\ simplify is_zero none fuel s effective c p r ctx = Ok (w, c') /\
    (* and the stream answers as before *)
    forall q x, fits_call s ctx q -> replies is_zero none s ctx h q x -> exists c2, ask is_zero none fuel s ctx c' q = Ok (x, c2).
(** A call of a simplified stream within the 32-bit range. *)
Definition fits_at {lie} (w : pwstream lie) (i : ri) (tol : Z) : Prop :=
  (ri_inf i <= ri_sup i)%Q /\ - 2 ^ 28 <= tol <= 2 ^ 28 /\ window (from (pws_view w) i) tol /\ window (upto (pws_view w) i) tol.
