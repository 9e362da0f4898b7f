(** Vocabulary for the piecewise abelian stream properties. *)
From Verif Require Export PwModel StreamSpec.
Open Scope Q_scope.

(** Pieces over non-empty intervals, in order, not overlapping. *)
Definition in_order {lie} (d : list (lie_piece lie)) : Prop :=
  Forall (fun p => ri_inf (fst p) < ri_sup (fst p)) d /\ StronglySorted (fun p q => ri_sup (fst p) <= ri_inf (fst q)) d.
(** The parameter lies strictly inside no piece. *)
Definition outside {lie} (d : list (lie_piece lie)) (x : Q) : Prop :=
  Forall (fun p => x <= ri_inf (fst p) \/ ri_sup (fst p) <= x) d.
(** The pieces meeting [a, b), in order, each with the fraction of it that lies in [a, b). *)
Definition covered {lie} (a b : Q) (d : list (lie_piece lie)) : list (Q * lie) :=
  map (fun p => ((earlier b (ri_sup (fst p)) - later a (ri_inf (fst p))) / (ri_sup (fst p) - ri_inf (fst p)), snd p))
    (filter (fun p => qlt (later a (ri_inf (fst p))) (earlier b (ri_sup (fst p)))) d).
(** Product of the signatures of the scaled pieces. *)
Definition covered_prod {lie} (S : sigs lie) (smul : Q -> lie -> lie) (l : list (Q * lie)) : sg_t S :=
  sg_prod S (map (fun e => smul (fst e) (snd e)) l).
(** Scaling of Lie elements, up to signature: it keeps elements well formed, depends only
    on the value of the rational, and by one it changes nothing. *)
Record scaling {lie} (S : sigs lie) (ok : lie -> Prop) (smul : Q -> lie -> lie) : Prop := mkScaling {
  sc_ok : forall c x, ok x -> ok (smul c x);
  sc_eq : forall c c' x, c == c' -> sg_eq S (sg_of S (smul c x)) (sg_of S (smul c' x));
  sc_one : forall x, sg_eq S (sg_of S (smul 1 x)) (sg_of S x) }.
