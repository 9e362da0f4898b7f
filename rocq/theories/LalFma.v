(** The graded multiplication template computes the bilinear product given by its multiplier. *)
From Verif Require Export LalSparse.
From Coq Require Import Sorted Permutation.

Section Ranges.
  Variable R : cring.
  Notation ent := (Z * R)%type.
  Notation edeg e := (k_degree (fst e)).
  Definition below (d : Z) (l : list ent) : list ent := filter (fun e => edeg e <=? d) l.
  Definition dsorted (l : list ent) : Prop := StronglySorted (fun a b => edeg a <= edeg b) l.
  Lemma below_prefix d l : dsorted l -> firstn (length (below d l)) l = below d l.
  Proof.
    induction l as [|e l IH]; intros S; [reflexivity|]. apply StronglySorted_inv in S. destruct S as [S F].
    unfold below in *. cbn [filter]. destruct (Z.leb_spec (edeg e) d) as [H|H].
    - cbn [length firstn]. f_equal. apply IH; auto.
    - replace (filter (fun e => edeg e <=? d) l) with (@nil ent); [reflexivity|].
      symmetry. rewrite Forall_forall in F. clear - F H. induction l as [|x l IH]; [reflexivity|]. cbn [filter].
      assert (X := F x (or_introl eq_refl)). destruct (Z.leb_spec (edeg x) d); [lia|]. apply IH. intros; apply F; right; auto.
  Qed.
  Lemma below_all d l : (forall e, In e l -> edeg e <= d) -> below d l = l.
  Proof.
    intros H. unfold below. induction l as [|e l IH]; [reflexivity|]. cbn [filter].
    assert (X := H e (or_introl eq_refl)). destruct (Z.leb_spec (edeg e) d); [|lia]. f_equal. apply IH. intros; apply H; right; auto.
  Qed.
  Lemma below_none d l : (forall e, In e l -> d < edeg e) -> below d l = [].
  Proof.
    intros H. unfold below. induction l as [|e l IH]; [reflexivity|]. cbn [filter].
    assert (X := H e (or_introl eq_refl)). destruct (Z.leb_spec (edeg e) d); [lia|]. apply IH. intros; apply H; right; auto.
  Qed.
  Lemma below_app d a b : below d (a ++ b) = below d a ++ below d b.
  Proof. apply filter_app. Qed.
  Lemma nth_repeat_in (x d : Z) n i : (i < n)%nat -> nth i (repeat x n) d = x.
  Proof. revert i. induction n; intros [|i] H; cbn; auto; try lia. apply IHn. lia. Qed.
  Definition ranges_inv (ranges : list Z) (degree : Z) (all : list ent) : Prop :=
    0 <= degree /\ Z.of_nat (length ranges) = degree + 1 /\
    (forall d, 0 <= d < degree -> nth (Z.to_nat (d + 1)) ranges 0 = Z.of_nat (length (below d all))).
  Lemma ranges_loop_ok rest : forall pre ranges degree, dsorted (pre ++ rest) ->
    (forall e, In e pre -> edeg e <= degree) -> (forall e, In e rest -> degree <= edeg e) ->
    ranges_inv ranges degree (pre ++ rest) ->
    exists r d, ranges_loop R rest (Z.of_nat (length pre)) degree ranges = (r, d) /\ ranges_inv r d (pre ++ rest) /\
      (forall e, In e (pre ++ rest) -> edeg e <= d) /\ (d = degree \/ exists e, In e rest /\ d = edeg e).
  Proof.
    induction rest as [|e rest IH]; intros pre ranges degree Hs Hp Hr HI; cbn [ranges_loop].
    - exists ranges, degree. split; [reflexivity|]. split; [auto|]. split; [|left; auto]. intros e He. rewrite app_nil_r in He. auto.
    - assert (He := Hr e (or_introl eq_refl)).
      replace (Z.max degree (edeg e)) with (edeg e) by lia.
      replace (Z.of_nat (length pre) + 1) with (Z.of_nat (length (pre ++ [e]))) by (rewrite app_length; cbn; lia).
      assert (Eq : pre ++ e :: rest = (pre ++ [e]) ++ rest) by (rewrite <- app_assoc; reflexivity).
      assert (Hrest : forall x, In x rest -> edeg e <= edeg x).
      { intros x Hx. clear - Hs Hx. induction pre as [|y pre IHp]; cbn [app] in Hs; apply StronglySorted_inv in Hs; destruct Hs as [S F].
        - rewrite Forall_forall in F. auto.
        - auto. }
      destruct (IH (pre ++ [e]) (ranges ++ repeat (Z.of_nat (length pre)) (Z.to_nat (edeg e - degree))) (edeg e)) as (r & d & E & I & A & B).
      + rewrite <- Eq. auto.
      + intros x Hx. apply in_app_or in Hx. destruct Hx as [Hx|[<-|[]]]; [specialize (Hp x Hx); lia|lia].
      + auto.
      + rewrite <- Eq. destruct HI as (H0 & HL & HN). split; [lia|]. split.
        * rewrite app_length, repeat_length. lia.
        * intros d Hd. destruct (Z_lt_le_dec d degree) as [H|H].
          -- rewrite app_nth1 by lia. apply HN. lia.
          -- rewrite app_nth2 by lia. rewrite nth_repeat_in by lia. f_equal.
             rewrite below_app, (below_all d pre), (below_none d (e :: rest)), app_nil_r; [reflexivity| |].
             ++ intros x [<-|Hx]; [lia|]. specialize (Hrest x Hx). lia.
             ++ intros x Hx. specialize (Hp x Hx). lia.
      + exists r, d. rewrite Eq. split; [exact E|]. split; [auto|]. split; [auto|]. right.
        destruct B as [B|(x & Hx & B)]; [exists e; split; [left; auto|auto]|exists x; split; [right; auto|auto]].
  Qed.
  Lemma degree_range_ok depth l d : dsorted l -> (forall e, In e l -> 0 <= edeg e <= depth) -> 0 <= depth -> d <= depth ->
    degree_range R depth l d = Ok (below d l).
  Proof.
    intros Hs Hd H0 Hdd. unfold degree_range.
    destruct (Z.ltb_spec d 0) as [H|H].
    - rewrite below_none; [reflexivity|]. intros e He. specialize (Hd e He). lia.
    - rewrite Z.gtb_ltb. destruct (Z.ltb_spec depth d); [lia|].
      destruct (ranges_loop_ok l [] [0] 0) as (r & g & E & (G0 & GL & GN) & A & B).
      + exact Hs.
      + intros e [].
      + intros e He. apply Hd; auto.
      + split; [lia|]. split; [reflexivity|]. intros; lia.
      + unfold degree_ranges. cbn [length] in E. change (Z.of_nat 0) with 0 in E. rewrite E.
        assert (g <= depth) by (destruct B as [->|(e & He & ->)]; [lia|apply Hd; auto]).
        rewrite app_length, repeat_length. destruct (Z.ltb_spec (d + 1) (Z.of_nat (length r + Z.to_nat (depth + 1 - g)))) as [Hl|Hl]; [|lia].
        f_equal. cbn [app] in *.
        destruct (Z_lt_le_dec d g) as [Hg|Hg].
        * rewrite app_nth1 by lia. rewrite GN by lia. rewrite Nat2Z.id. apply below_prefix; auto.
        * rewrite app_nth2 by lia. rewrite nth_repeat_in by lia. rewrite Nat2Z.id, firstn_all.
          rewrite below_all; [reflexivity|]. intros e He. specialize (A e He). lia.
  Qed.
  Lemma kv_sort_id l : StronglySorted (klt R) l -> kv_sort R l = l.
  Proof.
    induction l as [|e l IH]; intros S; [reflexivity|]. apply StronglySorted_inv in S. destruct S as [S F].
    unfold kv_sort in *. cbn [fold_right]. rewrite IH by auto. destruct l as [|x l]; [reflexivity|]. cbn [kv_insert].
    inversion F; subst. unfold klt in H1. destruct (Z.ltb_spec (fst x) (fst e)); [lia|reflexivity].
  Qed.
End Ranges.

(** Items with distinct positions: summing over them is summing over all positions. *)
Lemma items_sum (R : cring) (l : list (Z * R)) (dim : Z) (cf : Z -> R) (G : Z -> R -> R) :
  (forall e, In e l -> 0 <= fst e < dim) ->
  (forall a b l1 l2, l = l1 ++ a :: l2 -> In b l2 -> fst a < fst b) ->
  (forall i, 0 <= i < dim -> cf i = sum l (fun e => if fst e =? i then snd e else r0)) ->
  (forall i, 0 <= i < dim -> G i r0 = r0) ->
  sum l (fun e => G (fst e) (snd e)) = sum (zrange dim) (fun i => G i (cf i)).
Proof.
  intros Hr Hs Hc HG.
  rewrite (sum_ext R (zrange dim) _ (fun i => sum l (fun e => if fst e =? i then G i (snd e) else r0))).
  - rewrite sum_swap. apply sum_ext. intros e He.
    rewrite (sum_single R (zrange dim) _ (fst e)); [rewrite Z.eqb_refl; reflexivity|apply zrange_NoDup|apply zrange_In; auto|].
    intros x _ Hx. destruct (Z.eqb_spec (fst e) x); [congruence|reflexivity].
  - intros i Hi. apply zrange_In in Hi. rewrite Hc by auto. specialize (HG i Hi). clear Hc Hr.
    induction l as [|e l IH]; cbn [sum]; [auto|].
    destruct (Z.eqb_spec (fst e) i) as [E|E].
    + rewrite (sum_zero R l), (sum_zero R l).
      * rewrite (Radd_comm (rth R) (snd e)), (Radd_0_l (rth R)). symmetry. rewrite (Radd_comm (rth R)). apply (Radd_0_l (rth R)).
      * intros x Hx. assert (X := Hs e x [] l eq_refl Hx). destruct (Z.eqb_spec (fst x) i); [lia|reflexivity].
      * intros x Hx. assert (X := Hs e x [] l eq_refl Hx). destruct (Z.eqb_spec (fst x) i); [lia|reflexivity].
    + rewrite !(Radd_0_l (rth R)). apply IH. intros a b l1 l2 -> Hb. apply (Hs a b (e :: l1) l2); auto.
Qed.

Section BaseFma.
  Variable R : cring.
  Add Ring Rr : (rth R).
  Variables (X : Type) (O : vops R X) (V : vbasis) (dim : Z) (key cnt : Z -> Z).
  Hypothesis HB : basis_ok V dim key cnt.
  Variables (ok : X -> Prop) (cf : X -> Z -> R) (bnd : X -> Z -> Prop).
  Notation depth := (vb_depth V).
  Notation deg i := (k_degree (key i)).
  Hypothesis HV : vgood R X O depth dim key ok cf bnd.
  Variable C : Type.
  Variable mult : Z -> Z -> C -> outcome (list (Z * Z) * C).
  Variable Inv : C -> Prop.
  (** The multiplier's answer on positions, and the structure constants it stands for. *)
  Variable prod : Z -> Z -> list (Z * Z).
  Notation keyed := (map (fun e : Z * Z => (key (fst e), snd e))).
  Hypothesis Hmult : forall i j c, 0 <= i < dim -> 0 <= j < dim -> deg i + deg j <= depth -> Inv c ->
    exists c', mult (key i) (key j) c = Ok (keyed (prod i j), c') /\ Inv c'.
  Hypothesis Hprod : forall i j e, 0 <= i < dim -> 0 <= j < dim -> deg i + deg j <= depth -> In e (prod i j) ->
    0 <= fst e < dim /\ deg (fst e) = deg i + deg j.
  Definition sconst (i j m : Z) : R :=
    if deg i + deg j <=? depth then sum (prod i j) (fun e => if fst e =? m then rz R (snd e) else r0) else r0.

  Lemma asp_ok p s d : (forall e, In e p -> 0 <= fst e < dim /\ deg (fst e) <= d) -> 0 <= d <= depth -> forall out, ok out -> bnd out d ->
    exists out', asp_helper R X O out (keyed p) s = Ok out' /\ ok out' /\ bnd out' d /\
      forall m, 0 <= m < dim -> cf out' m = radd (cf out m) (sum p (fun e => if fst e =? m then rmul (rz R (snd e)) s else r0)).
  Proof.
    intros Hp Hd. unfold asp_helper. induction p as [|e p IH]; intros out Ho Hb; cbn [map for_ sum].
    - exists out. split; [reflexivity|]. split; [auto|]. split; [auto|]. intros; ring.
    - cbn [fst snd]. destruct (Hp e (or_introl eq_refl)) as [He1 He2].
      destruct (g_upd _ _ _ _ _ _ _ _ _ HV out (fst e) (fun x => radd x (rmul (rz R (snd e)) s)) Ho He1) as (o1 & -> & O1 & C1 & B1). cbn [bind].
      assert (De := bo_deg _ _ _ _ HB (fst e) He1).
      destruct (IH (fun x Hx => Hp x (or_intror Hx)) o1 O1 (B1 d Hb ltac:(lia))) as (o2 & E2 & O2 & B2 & C2).
      exists o2. split; [exact E2|]. split; [auto|]. split; [auto|]. intros m Hm. rewrite C2, C1 by auto.
      rewrite (Z.eqb_sym (fst e) m). destruct (Z.eqb_spec m (fst e)) as [->|]; ring.
  Qed.
  Theorem base_fma_ok out lhs rhs fn md c : ok out -> ok lhs -> ok rhs -> fn r0 = r0 -> Inv c ->
    bnd out (Z.min depth (vo_degree O lhs + vo_degree O rhs)) ->
    exists out' c', base_fma R X O depth C mult out lhs rhs fn md c = Ok (out', c') /\ ok out' /\ Inv c' /\
      bnd out' (Z.min depth (vo_degree O lhs + vo_degree O rhs)) /\
      forall m, 0 <= m < dim -> cf out' m = radd (cf out m)
        (sum (zrange dim) (fun i => sum (zrange dim) (fun j => rmul (sconst i j m) (fn (rmul (cf lhs i) (cf rhs j)))))).
  Proof.
    intros Ho Hl Hr Hfn Hc Hb. unfold base_fma.
    destruct (g_degree _ _ _ _ _ _ _ _ _ HV lhs Hl) as [Dl Bl]. destruct (g_degree _ _ _ _ _ _ _ _ _ HV rhs Hr) as [Dr Br].
    assert (D0 := bo_depth _ _ _ _ HB).
    destruct (g_items _ _ _ _ _ _ _ _ _ HV lhs Hl) as (li & El & Il & Sl & Gl & Cl).
    destruct (g_items _ _ _ _ _ _ _ _ _ HV rhs Hr) as (ri & Er & Ir & Sr & Gr & Cr).
    specialize (Gl _ Bl Dl). specialize (Gr _ Br Dr).
    rewrite Er. cbn [bind]. set (kr := map (fun e : Z * R => (key (fst e), snd e)) ri).
    assert (KS : StronglySorted (klt R) kr).
    { unfold kr. clear - Ir Sr HB. induction ri as [|e ri IH]; [constructor|]. cbn [map]. constructor.
      - apply IH; [intros; apply Ir; right; auto|]. intros a b l1 l2 E Hb. apply (Sr a b (e :: l1) l2); [cbn; congruence|auto].
      - apply Forall_forall. intros x Hx. apply in_map_iff in Hx. destruct Hx as (y & <- & Hy). unfold klt. cbn [fst].
        assert (Q := Sr e y [] ri eq_refl Hy). assert (Q1 := Ir e (or_introl eq_refl)). assert (Q2 := Ir y (or_intror Hy)).
        apply (bo_lt _ _ _ _ HB); lia. }
    rewrite kv_sort_id by auto.
    assert (DS : dsorted R kr).
    { unfold dsorted. revert KS. assert (Kin : forall e, In e kr -> exists i, 0 <= i < dim /\ fst e = key i).
      { intros e He. apply in_map_iff in He. destruct He as (x & <- & Hx). exists (fst x). split; auto. }
      clear - Kin HB. intros KS. induction kr as [|e kr IH]; [constructor|]. apply StronglySorted_inv in KS. destruct KS as [S F].
      constructor; [apply IH; auto; intros; apply Kin; right; auto|]. rewrite Forall_forall in *. intros x Hx. specialize (F x Hx). unfold klt in F.
      destruct (Kin e (or_introl eq_refl)) as (i & Hi & Ei). destruct (Kin x (or_intror Hx)) as (j & Hj & Ej). rewrite Ei, Ej in *.
      assert (Lij : i < j). { destruct (Z.lt_trichotomy i j) as [|[E|E]]; auto; [subst; lia|]. assert (Q := bo_lt _ _ _ _ HB j i). lia. }
      assert (Dj := bo_deg _ _ _ _ HB j Hj). apply (bo_cnt _ _ _ _ HB i (deg j)); auto. assert (Q := bo_cnt _ _ _ _ HB j (deg j) Hj Dj). lia. }
    assert (DR : forall e, In e kr -> 0 <= k_degree (fst e) <= depth).
    { intros e He. apply in_map_iff in He. destruct He as (x & <- & Hx). apply (bo_deg _ _ _ _ HB). auto. }
    set (od := Z.min depth (vo_degree O lhs + vo_degree O rhs)) in *.
    assert (Hod : 0 <= od <= depth) by (unfold od; lia).
    destruct (g_update _ _ _ _ _ _ _ _ _ HV out od Ho Hb Hod) as (Ho' & Co' & Bo'). specialize (Bo' od Hb).
    set (out0 := vo_update_degree O od out) in *. clearbody out0.
    rewrite El. cbn [bind].
    (* one row *)
    assert (Row : forall i x s0 c0, 0 <= i < dim -> deg i <= vo_degree O lhs -> ok s0 -> bnd s0 od -> Inv c0 ->
      exists s1 c1, for_ (map (fun e : Z * R => (key (fst e), snd e)) (filter (fun e => deg (fst e) <=? od - deg i) ri)) (s0, c0)
        (fun ritem s => let '(out, c) := s in let! (p, c) := mult (key i) (fst ritem) c in
           let! out := asp_helper R X O out p (fn (rmul x (snd ritem))) in Ok (out, c)) = Ok (s1, c1) /\
        ok s1 /\ bnd s1 od /\ Inv c1 /\ forall m, 0 <= m < dim -> cf s1 m = radd (cf s0 m)
          (sum ri (fun f => rmul (sconst i (fst f) m) (fn (rmul x (snd f)))))).
    { intros i x s0 c0 Hi Hdi. clear Sr Cr Er kr KS DS DR. revert s0 c0. induction ri as [|f ri IH]; intros s0 c0 Hs0 Hb0 Hc0.
      - exists s0, c0. split; [reflexivity|]. do 3 (split; [auto|]). intros. cbn [sum]. ring.
      - cbn [filter sum]. assert (Rf := Ir f (or_introl eq_refl)). assert (Df := bo_deg _ _ _ _ HB _ Rf). assert (Di := bo_deg _ _ _ _ HB _ Hi).
        assert (Gf := Gr f (or_introl eq_refl)).
        destruct (Z.leb_spec (deg (fst f)) (od - deg i)) as [L|L].
        + assert (Ls : deg i + deg (fst f) <= depth) by lia.
          cbn [map for_ fst snd]. destruct (Hmult i (fst f) c0 Hi Rf Ls Hc0) as (c1 & -> & Hc1). cbn [bind].
          destruct (asp_ok (prod i (fst f)) (fn (rmul x (snd f))) od) with (out := s0) as (s1 & E1 & O1 & B1 & C1); auto.
          { intros e He. destruct (Hprod i (fst f) e Hi Rf Ls He) as [Q1 Q2]. split; [auto|lia]. }
          rewrite E1. cbn [bind].
          destruct (IH (fun e He => Ir e (or_intror He)) (fun e He => Gr e (or_intror He)) s1 c1 O1 B1 Hc1) as (s2 & c2 & E2 & O2 & B2 & I2 & C2).
          exists s2, c2. split; [exact E2|]. do 3 (split; [auto|]). intros m Hm. rewrite C2, C1 by auto.
          unfold sconst at 2. destruct (Z.leb_spec (deg i + deg (fst f)) depth); [|lia].
          rewrite <- sum_mul_r. rewrite (sum_ext R (prod i (fst f)) (fun e => rmul (if fst e =? m then rz R (snd e) else r0) (fn (rmul x (snd f)))) (fun e => if fst e =? m then rmul (rz R (snd e)) (fn (rmul x (snd f))) else r0)); [ring|].
          intros e _. destruct (fst e =? m); ring.
        + destruct (IH (fun e He => Ir e (or_intror He)) (fun e He => Gr e (or_intror He)) s0 c0 Hs0 Hb0 Hc0) as (s2 & c2 & E2 & O2 & B2 & I2 & C2).
          exists s2, c2. split; [exact E2|]. do 3 (split; [auto|]). intros m Hm. rewrite C2 by auto.
          unfold sconst at 2. destruct (Z.leb_spec (deg i + deg (fst f)) depth); [unfold od in L; lia|]. ring. }
    (* all rows *)
    assert (All : forall s0 c0, ok s0 -> bnd s0 od -> Inv c0 ->
      exists s1 c1, for_ (map (fun e : Z * R => (key (fst e), snd e)) li) (s0, c0) (fun litem s =>
          let rhs_degree := od - k_degree (fst litem) in
          let! range := degree_range R depth kr rhs_degree in
          for_ range s (fun ritem s => let '(out, c) := s in let! (p, c) := mult (fst litem) (fst ritem) c in
             let! out := asp_helper R X O out p (fn (rmul (snd litem) (snd ritem))) in Ok (out, c))) = Ok (s1, c1) /\
        ok s1 /\ bnd s1 od /\ Inv c1 /\ forall m, 0 <= m < dim -> cf s1 m = radd (cf s0 m)
          (sum li (fun e => sum ri (fun f => rmul (sconst (fst e) (fst f) m) (fn (rmul (snd e) (snd f))))))).
    { clear Sl Cl El. induction li as [|e li IH]; intros s0 c0 Hs0 Hb0 Hc0.
      - exists s0, c0. split; [reflexivity|]. do 3 (split; [auto|]). intros. cbn [sum]. ring.
      - cbn [map for_ fst snd sum]. assert (Re := Il e (or_introl eq_refl)). assert (De := bo_deg _ _ _ _ HB _ Re).
        rewrite degree_range_ok by (auto; lia). cbn [bind].
        replace (below R (od - deg (fst e)) kr) with (map (fun e : Z * R => (key (fst e), snd e)) (filter (fun f => deg (fst f) <=? od - deg (fst e)) ri)).
        2:{ unfold below, kr. clear. induction ri as [|x ri IHr]; [reflexivity|]. cbn [filter map fst snd]. destruct (deg (fst x) <=? od - deg (fst e)); cbn [map]; rewrite IHr; reflexivity. }
        destruct (Row (fst e) (snd e) s0 c0 Re (Gl e (or_introl eq_refl)) Hs0 Hb0 Hc0) as (s1 & c1 & -> & O1 & B1 & I1 & C1). cbn [bind].
        destruct (IH (fun x Hx => Il x (or_intror Hx)) (fun x Hx => Gl x (or_intror Hx)) s1 c1 O1 B1 I1) as (s2 & c2 & E2 & O2 & B2 & I2 & C2).
        exists s2, c2. split; [exact E2|]. do 3 (split; [auto|]). intros m Hm. rewrite C2, C1 by auto. ring. }
    destruct (All out0 c Ho' Bo' Hc) as (s1 & c1 & E1 & O1 & B1 & I1 & C1).
    exists s1, c1. split; [exact E1|]. do 3 (split; [auto|]). intros m Hm. rewrite C1, Co' by auto. f_equal.
    rewrite (items_sum R li dim (cf lhs) (fun i x => sum ri (fun f => rmul (sconst i (fst f) m) (fn (rmul x (snd f)))))); auto.
    - apply sum_ext. intros i Hi. apply zrange_In in Hi.
      apply (items_sum R ri dim (cf rhs) (fun j y => rmul (sconst i j m) (fn (rmul (cf lhs i) y)))); auto.
      intros j Hj. replace (rmul (cf lhs i) r0) with (@r0 R) by ring. rewrite Hfn. ring.
    - intros i Hi. apply sum_zero. intros f _. replace (rmul r0 (snd f)) with (@r0 R) by ring. rewrite Hfn. ring.
  Qed.
End BaseFma.
