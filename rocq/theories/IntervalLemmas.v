(** Forms of the interval results used in the property file, and witnesses. *)
From Verif Require Export IntervalProofs2 SegProofs3.
From Verif Require Import DyadicSpec.
From Coq Require Import Sorted.
Open Scope Q_scope.

Lemma ends_in p x : inQ x (ends p) <-> p_inf p == x \/ inQ x (p_pts p) \/ p_sup p == x.
Proof. unfold ends. rewrite inQ_cons, inQ_app, inQ_cons, inQ_nil. tauto. Qed.
Theorem merge_ends p o q x : made p -> made o -> merge p o = Ok q -> ~ apart p o -> (inQ x (ends q) <-> inQ x (ends p) \/ inQ x (ends o)).
Proof.
  intros Hp Ho E N. apply made_wf in Hp. apply made_wf in Ho. destruct (merge_base p o q Hp Ho E) as (_ & Ei & Es).
  assert (A := between_le _ _ _ Hp). assert (B := between_le _ _ _ Ho).
  rewrite !ends_in, Ei, Es. rewrite (merge_points_set p o q x Hp Ho E N). clear Ei Es E N Hp Ho.
  set (U := inQ x (p_pts p)). set (V := inQ x (p_pts o)). clearbody U V. generalize dependent (p_inf p). generalize dependent (p_sup p). generalize dependent (p_inf o). generalize dependent (p_sup o).
  intros rs ri_ Hr ls li Hl. 
  assert (K : (qmin li ri_ == x \/ (x == qmax li ri_ /\ ~ li == ri_) \/ (x == qmin ls rs /\ ~ ls == rs /\ ~ qmin ls rs == qmax li ri_) \/ qmax ls rs == x) <->
    (li == x \/ ri_ == x \/ ls == x \/ rs == x)).
  { split.
    - destruct (qmin_spec li ri_) as (_ & _ & [-> | ->]), (qmax_spec li ri_) as (_ & _ & [-> | ->]), (qmin_spec ls rs) as (_ & _ & [-> | ->]), (qmax_spec ls rs) as (_ & _ & [-> | ->]);
        (intros [X|[[X _]|[[X _]|X]]]; [|symmetry in X|symmetry in X|]; auto).
    - assert (D : forall u v : Q, u == v \/ ~ u == v) by (intros u v; destruct (Qeq_dec u v); auto).
      assert (I : li == x \/ ri_ == x -> qmin li ri_ == x \/ (x == qmax li ri_ /\ ~ li == ri_)).
      { clear. intros H. destruct (Qeq_dec li ri_) as [E|E]; [left; unfold qmin; qd; qb; lra|].
        unfold qmin, qmax. destruct (qlt ri_ li) eqn:Q1, (qlt li ri_) eqn:Q2; qb; try lra; (destruct H as [H|H]; [first [left; lra|right; split; [lra|auto]]|first [left; lra|right; split; [lra|auto]]]). }
      assert (S1 : ls == x \/ rs == x -> qmax ls rs == x \/ (x == qmin ls rs /\ ~ ls == rs)).
      { clear. intros H. destruct (Qeq_dec ls rs) as [E|E]; [left; unfold qmax; qd; qb; lra|].
        unfold qmin, qmax. destruct (qlt rs ls) eqn:Q1, (qlt ls rs) eqn:Q2; qb; try lra; (destruct H as [H|H]; [first [left; lra|right; split; [lra|auto]]|first [left; lra|right; split; [lra|auto]]]). }
      intros H. assert (H' : (li == x \/ ri_ == x) \/ (ls == x \/ rs == x)) by (clear - H; tauto). destruct H' as [H'|H'].
      + apply I in H'. clear - H'. tauto.
      + apply S1 in H'. destruct H' as [H'|[X1 X2]]; [auto|]. destruct (D (qmin ls rs) (qmax li ri_)) as [E|E]; [|clear - X1 X2 E; tauto].
        assert (K : li == x \/ ri_ == x). { destruct (qmax_spec li ri_) as (_ & _ & [F|F]); rewrite F in E; [left|right]; rewrite X1, E; reflexivity. }
        apply I in K. clear - K. tauto. }
  set (A1 := qmin li ri_ == x) in *. set (A2 := x == qmax li ri_ /\ _) in *. set (A3 := x == qmin ls rs /\ _) in *. set (A4 := qmax ls rs == x) in *.
  transitivity (U \/ V \/ (A1 \/ A2 \/ A3 \/ A4)); [clear; tauto|]. rewrite K. clear; tauto.
Qed.

(** A path of edits ending in a merge. *)
Definition ex_p : partition := partition_new (mkRI 0 1 Clopen) [3 # 4; 1 # 4; 5].
Definition ex_o : partition := partition_new (mkRI (1 # 2) 2 Clopen) [3 # 2].
Lemma ex_made_p : made ex_p. Proof. apply made_new. discriminate. Qed.
Lemma ex_made_o : made ex_o. Proof. apply made_new. discriminate. Qed.
Lemma ex_merge : exists q, merge ex_p (refine_midpoints ex_o) = Ok q /\ made q /\ p_size q = 7%nat /\ ~ apart ex_p (refine_midpoints ex_o).
Proof.
  destruct (merge ex_p (refine_midpoints ex_o)) as [q| | |] eqn:E; try (vm_compute in E; discriminate). exists q. split; [auto|].
  split; [apply (made_merge ex_p (refine_midpoints ex_o)); auto; [apply ex_made_p|apply made_refine, ex_made_o]|].
  split; [vm_compute in E; injection E as <-; reflexivity|]. intros [H|H]; vm_compute in H; discriminate.
Qed.
(** Disjoint merge: the intermediate points of both are gone. *)
Lemma merge_apart_loses : exists p o q, made p /\ made o /\ merge p o = Ok q /\ inQ (1 # 2) (p_pts p) /\ ~ inQ (1 # 2) (ends q).
Proof.
  exists (partition_new (mkRI 0 1 Clopen) [1 # 2]), (mkP (mkRI 2 3 Clopen) []).
  eexists. split; [apply made_new; discriminate|]. split; [apply made_base; discriminate|]. split; [vm_compute; reflexivity|].
  split; [left; reflexivity|]. rewrite ends_in. intros [H|[H|H]]; [discriminate H| |discriminate H]. apply inQ_cons in H. destruct H as [H|H]; [discriminate H|].
  apply inQ_cons in H. destruct H as [H|H]; [discriminate H|]. apply inQ_nil in H. exact H.
Qed.

(** Segmentation: a set predicate, and the predicate "length at most 3/10". *)
Definition ex_pred (i : ri) : bool := (qle (3 # 16) (ri_inf i) && qle (ri_sup i) (13 # 16)) || (qle (15 # 16) (ri_inf i) && qle (ri_sup i) 1).
Definition ex_S (x : Q) : Prop := ((3 # 16) <= x /\ x < (13 # 16)) \/ ((15 # 16) <= x /\ x < 1).
Lemma ex_seg_hyps : (forall x y, x == y -> ex_S x -> ex_S y) /\ (forall x, ex_S x -> ri_inf ri_default <= x < ri_sup ri_default) /\
  (forall i, ri_t i = Clopen -> ri_inf i < ri_sup i -> (ex_pred i = true <-> ri_subset i ex_S)).
Proof.
  split; [intros x y E; unfold ex_S; rewrite E; auto|]. split; [intros x; unfold ex_S, ri_default; cbn [ri_inf ri_sup]; lra|].
  intros i Ht Hi. unfold ex_pred, ri_subset, in_set. rewrite Ht. rewrite orb_true_iff, !andb_true_iff, !qle_true. unfold ex_S. split.
  - intros H x Hx. lra.
  - intros H. assert (A := H (ri_inf i) ltac:(lra)). destruct A as [A|A]; [left|right]; (split; [lra|]).
    + destruct (Qlt_le_dec (13 # 16) (ri_sup i)) as [L|L]; [|lra]. exfalso. destruct (Qlt_le_dec (14 # 16) (ri_sup i)) as [L2|L2].
      * specialize (H (14 # 16) ltac:(lra)). lra.
      * specialize (H (13 # 16) ltac:(lra)). lra.
    + destruct (Qlt_le_dec 1 (ri_sup i)) as [L|L]; [|lra]. exfalso. specialize (H 1 ltac:(lra)). lra.
Qed.
Definition ri_approx (r r' : ri) : Prop := ri_t r = ri_t r' /\ ri_inf r == ri_inf r' /\ ri_sup r == ri_sup r'.
Lemma ex_seg : exists r1 r2, segment ri_default ex_pred 4 = Ok [r1; r2] /\
  ri_approx r1 (mkRI (3 # 16) (13 # 16) Clopen) /\ ri_approx r2 (mkRI (15 # 16) 1 Clopen).
Proof. eexists _, _. split; [vm_compute; reflexivity|]. repeat split. Qed.
Definition short_pred (i : ri) : bool := qle (ri_sup i - ri_inf i) (3 # 10).
(** The answers need not satisfy the predicate, may overlap and may stick out of the
    interval being segmented. *)
Lemma seg_short : exists r1 r2 r3, segment ri_default short_pred 4 = Ok [r1; r2; r3] /\
  short_pred r2 = false /\ ri_inf r1 < 0 /\ 1 < ri_sup r3 /\ intersects_with r2 r3 = true.
Proof. eexists _, _, _. split; [vm_compute; reflexivity|]. repeat split. Qed.
Lemma seg_degenerate o P N : P o = false -> ri_sup o <= ri_inf o -> segment o P N = Throw.
Proof. intros HP H. unfold segment. rewrite HP. replace (qlt (ri_inf o) (ri_sup o)) with false; [auto|]. symmetry. apply qlt_false. auto. Qed.
Lemma seg_whole o P N : P o = true -> segment o P N = Ok [o].
Proof. intros HP. unfold segment. rewrite HP. reflexivity. Qed.
