(** Vocabulary for tensor-valued streams. *)
From Verif Require Export PwModel StreamSpec.
Open Scope Q_scope.

(** Group-valued increments over the parameter range [lo, hi]: a product [mul] with unit
    [one] up to [eqv], and a signature for every interval in the range that depends only on
    the ends and satisfies Chen's identity. *)
Record increments {G} (eqv : G -> G -> Prop) (mul : G -> G -> G) (signature : ri -> outcome G) (lo hi : Q) : Prop := mkInc {
  in_refl : forall a, eqv a a;
  in_sym : forall a b, eqv a b -> eqv b a;
  in_trans : forall a b c, eqv a b -> eqv b c -> eqv a c;
  in_mul : forall a a' b b', eqv a a' -> eqv b b' -> eqv (mul a b) (mul a' b');
  in_assoc : forall a b c, eqv (mul (mul a b) c) (mul a (mul b c));
  in_some : forall a b t, lo <= a -> a <= b -> b <= hi -> exists g, signature (mkRI a b t) = Ok g;
  in_ends : forall i j g h, lo <= ri_inf i -> ri_inf i <= ri_sup i -> ri_sup i <= hi -> ri_inf i == ri_inf j -> ri_sup i == ri_sup j -> signature i = Ok g -> signature j = Ok h -> eqv g h;
  in_chen : forall a m b t t' t'' g g1 g2, lo <= a -> a <= m -> m <= b -> b <= hi ->
    signature (mkRI a b t) = Ok g -> signature (mkRI a m t') = Ok g1 -> signature (mkRI m b t'') = Ok g2 -> eqv g (mul g1 g2) }.

(** Successive queries. *)
Fixpoint queries {G} (mul : G -> G -> G) (signature : ri -> outcome G) (s : tvs G) (qs : list ri) : outcome (tvs G) :=
  match qs with
  | [] => Ok s
  | q :: qs => let! s' := tvs_query mul signature s q in queries mul signature s' qs
  end.
(** A parameter of the (closed) domain. *)
Definition in_domain {G} (s : tvs G) (t : Q) : Prop := ri_inf (tv_domain s) <= t /\ t <= ri_sup (tv_domain s).
(** A parameter between the ends of an interval. *)
Definition in_range (i : ri) (t : Q) : Prop := ri_inf i <= t /\ t <= ri_sup i.

(** The signature of an interval of a caching stream, asked after a history [h] of calls:
    the signature [sg_of] of the layer's answer at the stream's resolution. *)
Definition signature_after {lie} (is_zero : lie -> bool) (none : lie) (S : sigs lie) (s : stream lie) (ctx : actx lie) (h : list query) (i : ri) : outcome (sg_t S) :=
  let! (_, c) := ask_all is_zero none 31 s ctx [] h in
  let! (x, _) := ask is_zero none 31 s ctx c (QLayer i (st_res s)) in
  Ok (sg_of S x).
