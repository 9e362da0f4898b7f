(** Vocabulary for the tick stream properties. *)
From Verif Require Export TickModel StreamSpec.
Open Scope Z_scope.

(** The cell of length 2^-res that holds the parameter t: its left end is [tick_cell res t]
    times 2^-res. *)
Definition tick_cell (res : Z) (t : Q) : Z := Qfloor (t * Qpower 2 res).
(** [ts] are the ticks [rows] put in the order of their cells; ticks of the same cell stay
    in the order in which they were given. *)
Definition filed {A} (res : Z) (rows ts : list (Q * A)) : Prop :=
  StronglySorted (fun a b => tick_cell res (fst a) <= tick_cell res (fst b)) ts /\
  forall q, filter (fun e => tick_cell res (fst e) =? q) ts = filter (fun e => tick_cell res (fst e) =? q) rows.
(** Rows in ascending order of time, equal times allowed. *)
Definition in_time_order {A} (rows : list (Q * A)) : Prop := StronglySorted (fun a b => (fst a <= fst b)%Q) rows.
(** Ticks whose cells have 29-bit numbers, and not both a tick in the cell that starts at 0
    and one before it. *)
Definition fits_ticks {A} (res : Z) (rows : list (Q * A)) : Prop :=
  - 2 ^ 27 <= res <= 2 ^ 27 /\ (forall e, In e rows -> - 2 ^ 28 <= tick_cell res (fst e) < 2 ^ 28) /\
  ((forall e, In e rows -> tick_cell res (fst e) <> 0) \/ (forall e, In e rows -> 0 <= tick_cell res (fst e))).
(** What a dyadic piece [k/2^n, (k+1)/2^n) contributes: its ticks if it is no finer than a
    cell.  Otherwise all ticks of the cell that starts where the piece does, if any. *)
Definition tick_gives {A} (res : Z) (ts : list (Q * A)) (p : Z * Z) (out : list A) : Prop :=
  let (k, n) := p in
  (n <= res /\ out = within (dy k n) (dy (k + 1) n) ts) \/
  (res < n /\ exists q, (dy k n == dy q res)%Q /\ out = within (dy q res) (dy (q + 1) res) ts) \/
  (res < n /\ (forall q, ~ (dy k n == dy q res)%Q) /\ out = []).
(** What is assumed of the remaining operations on Lie elements: an object that holds
    nothing is zero, and the binary cbh multiplies signatures. *)
Record sound2 {lie} (is_zero is_null : lie -> bool) (none : lie) (cbh2 : lie -> lie -> lie) (S : sigs lie) (ok : lie -> Prop) : Prop := mkSound2 {
  s2_none : is_null none = true;
  s2_null : forall x, is_null x = true -> is_zero x = true;
  s2_ok : forall a b, ok a -> ok b -> ok (cbh2 a b);
  s2_cbh : forall a b, ok a -> ok b -> sg_eq S (sg_of S (cbh2 a b)) (sg_mul S (sg_of S a) (sg_of S b)) }.
(** Where a query of a stream with this support really starts and ends. *)
Definition cut_from (support i : ri) : Q := later (ri_inf i) (ri_inf support).
Definition cut_upto (support i : ri) : Q := earlier (ri_sup i) (ri_sup support).
(** The construction from the ticks [rows] ends, with stream [s]. *)
Definition constructed {lie} (is_zero is_null : lie -> bool) none cbh2 (ctx : actx lie) (res : Z) rows s : Prop :=
  exists F, forall fuel, (F <= fuel)%nat -> tk_make is_zero is_null none cbh2 fuel ctx res rows = Ok s.
(** The query at resolution [tol], the query without a resolution, and [empty] end with
    the answer given. *)
Definition tick_answer {lie} (is_zero : lie -> bool) (s : ticks lie) (support i : ri) (tol : Z) ctx x : Prop :=
  exists F, forall fuel, (F <= fuel)%nat -> tk_log_signature_at is_zero fuel s support i tol ctx = Ok x.
Definition tick_answer_default {lie} (is_zero : lie -> bool) (s : ticks lie) (support i : ri) ctx x : Prop :=
  exists F, forall fuel, (F <= fuel)%nat -> tk_log_signature is_zero fuel s support i ctx = Ok x.
Definition tick_empty {lie} (s : ticks lie) (inf sup : Q) (b : bool) : Prop :=
  exists F, forall fuel, (F <= fuel)%nat -> tk_empty fuel s inf sup = Ok b.
