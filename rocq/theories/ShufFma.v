(** The multiplication template for operands of two types, with any multiplier whose answers stand for
    given structure constants. *)
From Verif Require Export ShufKeys LalDense.
From Coq Require Import Sorted Permutation.

Section MixedFma.
  Variable R : cring.
  Add Ring Rr : (rth R).
  Variables (X Y : Type) (O : vops R X) (O2 : vops R Y) (V V2 : vbasis) (dim dim2 : Z) (key key2 cnt cnt2 : Z -> Z).
  Hypothesis HB : basis_ok V dim key cnt.
  Hypothesis HB2 : basis_ok V2 dim2 key2 cnt2.
  Variables (ok : X -> Prop) (cf : X -> Z -> R) (bnd : X -> Z -> Prop).
  Variables (ok2 : Y -> Prop) (cf2 : Y -> Z -> R) (bnd2 : Y -> Z -> Prop).
  Notation depth := (vb_depth V).
  Notation depth2 := (vb_depth V2).
  Notation deg i := (k_degree (key i)).
  Notation deg2 i := (k_degree (key2 i)).
  Hypothesis HV : vgood R X O depth dim key ok cf bnd.
  Hypothesis HV2 : vgood R Y O2 depth2 dim2 key2 ok2 cf2 bnd2.
  Hypothesis Hdd : depth <= depth2.
  Variable C : Type.
  Variable mult : Z -> Z -> C -> outcome (list (Z * Z) * C).
  Variable Inv : C -> Prop.
  (** The structure constants. *)
  Variable St : Z -> Z -> Z -> R.
  Notation keyed := (map (fun e : Z * Z => (key (fst e), snd e))).
  Hypothesis Hmult : forall i j c, 0 <= i < dim -> 0 <= j < dim2 -> deg i + deg2 j <= depth -> Inv c ->
    exists p c', mult (key i) (key2 j) c = Ok (keyed p, c') /\ Inv c' /\
      (forall e, In e p -> 0 <= fst e < dim /\ deg (fst e) = deg i + deg2 j) /\
      forall m, 0 <= m < dim -> sum p (fun e => if fst e =? m then rz R (snd e) else r0) = St i j m.
  Hypothesis Hst : forall i j m, 0 <= i < dim -> 0 <= j < dim2 -> 0 <= m < dim -> depth < deg i + deg2 j -> St i j m = r0.
  (** Something the updates keep, and something any update brings about. *)
  Variables P Q : X -> Prop.
  Hypothesis HPQ : forall v i f v', ok v -> P v -> 0 <= i < dim -> vo_upd O v (key i) f = Ok v' -> Q v'.
  Hypothesis HQP : forall v, Q v -> P v.

  Lemma asp2_ok p s d : (forall e, In e p -> 0 <= fst e < dim /\ deg (fst e) <= d) -> 0 <= d <= depth -> forall out, ok out -> bnd out d -> P out ->
    exists out', asp_helper R X O out (keyed p) s = Ok out' /\ ok out' /\ bnd out' d /\ P out' /\ (Q out \/ p <> [] -> Q out') /\
      forall m, 0 <= m < dim -> cf out' m = radd (cf out m) (rmul (sum p (fun e => if fst e =? m then rz R (snd e) else r0)) s).
  Proof.
    intros Hp Hd. unfold asp_helper. induction p as [|e p IH]; intros out Ho Hb HPo; cbn [map for_ sum].
    - exists out. split; [reflexivity|]. split; [auto|]. split; [auto|]. split; [auto|]. split; [intros [|]; congruence|]. intros; ring.
    - cbn [fst snd]. destruct (Hp e (or_introl eq_refl)) as [He1 He2].
      destruct (g_upd _ _ _ _ _ _ _ _ _ HV out (fst e) (fun x => radd x (rmul (rz R (snd e)) s)) Ho He1) as (o1 & E1 & O1 & C1 & B1).
      assert (Q1 := HPQ _ _ _ _ Ho HPo He1 E1). rewrite E1. cbn [bind].
      assert (De := bo_deg _ _ _ _ HB (fst e) He1).
      destruct (IH (fun x Hx => Hp x (or_intror Hx)) o1 O1 (B1 d Hb ltac:(lia)) (HQP _ Q1)) as (o2 & E2 & O2' & B2 & P2 & Q2 & C2).
      exists o2. split; [exact E2|]. split; [auto|]. split; [auto|]. split; [auto|]. split; [auto|]. intros m Hm. rewrite C2, C1 by auto.
      rewrite (Z.eqb_sym (fst e) m). destruct (Z.eqb_spec m (fst e)) as [->|]; ring.
  Qed.
  Theorem mixed_fma_ok out lhs rhs fn c : ok out -> ok lhs -> ok2 rhs -> fn r0 = r0 -> Inv c ->
    let od := Z.min depth (vo_degree O lhs + vo_degree O2 rhs) in
    bnd out od -> P (vo_update_degree O od out) ->
    exists out' c', mixed_fma R X Y O O2 depth depth2 C mult out lhs rhs fn c = Ok (out', c') /\ ok out' /\ Inv c' /\ P out' /\
      (forall i j m li ri, vo_items O lhs = Ok li -> vo_items O2 rhs = Ok ri -> 0 <= i < dim -> 0 <= j < dim2 -> 0 <= m < dim ->
         In (key i) (map fst li) -> In (key2 j) (map fst ri) -> deg i + deg2 j <= od -> St i j m <> r0 -> Q out') /\
      forall m, 0 <= m < dim -> cf out' m = radd (cf out m)
        (sum (zrange dim) (fun i => sum (zrange dim2) (fun j => rmul (St i j m) (fn (rmul (cf lhs i) (cf2 rhs j)))))).
  Proof.
    intros Ho Hl Hr Hfn Hc od Hb HP0. unfold mixed_fma.
    destruct (g_degree _ _ _ _ _ _ _ _ _ HV lhs Hl) as [Dl Bl]. destruct (g_degree _ _ _ _ _ _ _ _ _ HV2 rhs Hr) as [Dr Br].
    assert (D0 := bo_depth _ _ _ _ HB). assert (D02 := bo_depth _ _ _ _ HB2).
    destruct (g_items _ _ _ _ _ _ _ _ _ HV lhs Hl) as (li & El & Il & Sl & Gl & Cl).
    destruct (g_items _ _ _ _ _ _ _ _ _ HV2 rhs Hr) as (ri & Er & Ir & Sr & Gr & Cr).
    specialize (Gl _ Bl Dl). specialize (Gr _ Br Dr).
    rewrite Er. cbn [bind]. set (kr := map (fun e : Z * R => (key2 (fst e), snd e)) ri).
    assert (KS : StronglySorted (klt R) kr).
    { unfold kr. clear - Ir Sr HB2. induction ri as [|e ri IH]; [constructor|]. cbn [map]. constructor.
      - apply IH; [intros; apply Ir; right; auto|]. intros a b l1 l2 E Hb. apply (Sr a b (e :: l1) l2); [cbn; congruence|auto].
      - apply Forall_forall. intros x Hx. apply in_map_iff in Hx. destruct Hx as (y & <- & Hy). unfold klt. cbn [fst].
        assert (Q0 := Sr e y [] ri eq_refl Hy). assert (Q1 := Ir e (or_introl eq_refl)). assert (Q2 := Ir y (or_intror Hy)).
        apply (bo_lt _ _ _ _ HB2); lia. }
    rewrite kv_sort_id by auto.
    assert (DS : dsorted R kr).
    { unfold dsorted. revert KS. assert (Kin : forall e, In e kr -> exists i, 0 <= i < dim2 /\ fst e = key2 i).
      { intros e He. apply in_map_iff in He. destruct He as (x & <- & Hx). exists (fst x). split; auto. }
      clear - Kin HB2. intros KS. induction kr as [|e kr IH]; [constructor|]. apply StronglySorted_inv in KS. destruct KS as [S F].
      constructor; [apply IH; auto; intros; apply Kin; right; auto|]. rewrite Forall_forall in *. intros x Hx. specialize (F x Hx). unfold klt in F.
      destruct (Kin e (or_introl eq_refl)) as (i & Hi & Ei). destruct (Kin x (or_intror Hx)) as (j & Hj & Ej). rewrite Ei, Ej in *.
      assert (Lij : i < j). { destruct (Z.lt_trichotomy i j) as [|[E|E]]; auto; [subst; lia|]. assert (Q0 := bo_lt _ _ _ _ HB2 j i). lia. }
      assert (Dj := bo_deg _ _ _ _ HB2 j Hj). apply (bo_cnt _ _ _ _ HB2 i (deg2 j)); auto. assert (Q0 := bo_cnt _ _ _ _ HB2 j (deg2 j) Hj Dj). lia. }
    assert (DR : forall e, In e kr -> 0 <= k_degree (fst e) <= depth2).
    { intros e He. apply in_map_iff in He. destruct He as (x & <- & Hx). apply (bo_deg _ _ _ _ HB2). auto. }
    fold od. assert (Hod : 0 <= od <= depth) by (unfold od; lia).
    destruct (g_update _ _ _ _ _ _ _ _ _ HV out od Ho Hb Hod) as (Ho' & Co' & Bo'). specialize (Bo' od Hb).
    set (out0 := vo_update_degree O od out) in *. clearbody out0.
    rewrite El. cbn [bind].
    (* one row *)
    assert (Row : forall i x s0 c0, 0 <= i < dim -> deg i <= vo_degree O lhs -> ok s0 -> bnd s0 od -> P s0 -> Inv c0 ->
      exists s1 c1, for_ (map (fun e : Z * R => (key2 (fst e), snd e)) (filter (fun e => deg2 (fst e) <=? od - deg i) ri)) (s0, c0)
        (fun ritem s => let '(out, c) := s in let! (p, c) := mult (key i) (fst ritem) c in
           let! out := asp_helper R X O out p (fn (rmul x (snd ritem))) in Ok (out, c)) = Ok (s1, c1) /\
        ok s1 /\ bnd s1 od /\ P s1 /\ Inv c1 /\ (Q s0 -> Q s1) /\
        (forall j m, 0 <= m < dim -> In j (map fst ri) -> deg i + deg2 j <= od -> St i j m <> r0 -> Q s1) /\
        forall m, 0 <= m < dim -> cf s1 m = radd (cf s0 m)
          (sum ri (fun f => rmul (St i (fst f) m) (fn (rmul x (snd f)))))).
    { intros i x s0 c0 Hi Hdi. clear Sr Cr Er kr KS DS DR. revert s0 c0. induction ri as [|f ri IH]; intros s0 c0 Hs0 Hb0 HP0' Hc0.
      - exists s0, c0. split; [reflexivity|]. do 5 (split; [auto|]). split; [intros ? ? ? []|]. intros. cbn [sum]. ring.
      - cbn [filter sum]. assert (Rf := Ir f (or_introl eq_refl)). assert (Df := bo_deg _ _ _ _ HB2 _ Rf). assert (Di := bo_deg _ _ _ _ HB _ Hi).
        assert (Gf := Gr f (or_introl eq_refl)).
        destruct (Z.leb_spec (deg2 (fst f)) (od - deg i)) as [L|L].
        + assert (Ls : deg i + deg2 (fst f) <= depth) by lia.
          cbn [map for_ fst snd]. destruct (Hmult i (fst f) c0 Hi Rf Ls Hc0) as (p & c1 & -> & Hc1 & Hp & Hsum). cbn [bind].
          destruct (asp2_ok p (fn (rmul x (snd f))) od) with (out := s0) as (s1 & E1 & O1 & B1 & P1 & Q1 & C1); auto.
          { intros e He. destruct (Hp e He) as [Q1 Q2]. split; [auto|lia]. }
          rewrite E1. cbn [bind].
          destruct (IH (fun e He => Ir e (or_intror He)) (fun e He => Gr e (or_intror He)) s1 c1 O1 B1 P1 Hc1) as (s2 & c2 & E2 & O2' & B2 & P2 & I2 & Q2 & Q3 & C2).
          exists s2, c2. split; [exact E2|]. do 4 (split; [auto|]). split; [auto|]. split.
          * cbn [map]. intros j m Hm [<-|Hj] Hd Hne; [|eapply Q3; eauto]. apply Q2, Q1. right. intros ->. apply Hne. rewrite <- Hsum by auto. reflexivity.
          * intros m Hm. rewrite C2, C1, Hsum by auto. ring.
        + destruct (IH (fun e He => Ir e (or_intror He)) (fun e He => Gr e (or_intror He)) s0 c0 Hs0 Hb0 HP0' Hc0) as (s2 & c2 & E2 & O2' & B2 & P2 & I2 & Q2 & Q3 & C2).
          exists s2, c2. split; [exact E2|]. do 4 (split; [auto|]). split; [auto|]. split.
          * cbn [map]. intros j m Hm [<-|Hj] Hd Hne; [lia|eapply Q3; eauto].
          * intros m Hm. rewrite C2, (Hst i (fst f) m) by (auto; unfold od in L; lia). ring. }
    (* all rows *)
    assert (All : forall s0 c0, ok s0 -> bnd s0 od -> P s0 -> Inv c0 ->
      exists s1 c1, for_ (map (fun e : Z * R => (key (fst e), snd e)) li) (s0, c0) (fun litem s =>
          let rhs_degree := od - k_degree (fst litem) in
          let! range := degree_range R depth2 kr rhs_degree in
          for_ range s (fun ritem s => let '(out, c) := s in let! (p, c) := mult (fst litem) (fst ritem) c in
             let! out := asp_helper R X O out p (fn (rmul (snd litem) (snd ritem))) in Ok (out, c))) = Ok (s1, c1) /\
        ok s1 /\ bnd s1 od /\ P s1 /\ Inv c1 /\ (Q s0 -> Q s1) /\
        (forall i j m, 0 <= m < dim -> In i (map fst li) -> In j (map fst ri) -> deg i + deg2 j <= od -> St i j m <> r0 -> Q s1) /\
        forall m, 0 <= m < dim -> cf s1 m = radd (cf s0 m)
          (sum li (fun e => sum ri (fun f => rmul (St (fst e) (fst f) m) (fn (rmul (snd e) (snd f))))))).
    { clear Sl Cl El. induction li as [|e li IH]; intros s0 c0 Hs0 Hb0 HP0' Hc0.
      - exists s0, c0. split; [reflexivity|]. do 5 (split; [auto|]). split; [intros ? ? ? ? []|]. intros. cbn [sum]. ring.
      - cbn [map for_ fst snd sum]. assert (Re := Il e (or_introl eq_refl)). assert (De := bo_deg _ _ _ _ HB _ Re).
        rewrite degree_range_ok by (auto; lia). cbn [bind].
        replace (below R (od - deg (fst e)) kr) with (map (fun e : Z * R => (key2 (fst e), snd e)) (filter (fun f => deg2 (fst f) <=? od - deg (fst e)) ri)).
        2:{ unfold below, kr. clear. induction ri as [|x ri IHr]; [reflexivity|]. cbn [filter map fst snd]. destruct (deg2 (fst x) <=? od - deg (fst e)); cbn [map]; rewrite IHr; reflexivity. }
        destruct (Row (fst e) (snd e) s0 c0 Re (Gl e (or_introl eq_refl)) Hs0 Hb0 HP0' Hc0) as (s1 & c1 & -> & O1 & B1 & P1 & I1 & Q1 & Q1' & C1). cbn [bind].
        destruct (IH (fun x Hx => Il x (or_intror Hx)) (fun x Hx => Gl x (or_intror Hx)) s1 c1 O1 B1 P1 I1) as (s2 & c2 & E2 & O2' & B2 & P2 & I2 & Q2 & Q2' & C2).
        exists s2, c2. split; [exact E2|]. do 4 (split; [auto|]). split; [auto|]. split.
        + intros i j m Hm [<-|Hi] Hj Hd Hne; [apply Q2; eapply Q1'; eauto|eapply Q2'; eauto].
        + intros m Hm. rewrite C2, C1 by auto. ring. }
    destruct (All out0 c Ho' Bo' HP0 Hc) as (s1 & c1 & E1 & O1 & B1 & P1 & I1 & _ & Q1 & C1).
    assert (Kinj : forall (bB : vbasis) d k ct, basis_ok bB d k ct -> forall i j, 0 <= i < d -> 0 <= j < d -> k i = k j -> i = j).
    { intros bB d k ct Hb' i j Hi Hj E. destruct (Z.lt_trichotomy i j) as [L|[L|L]]; auto; [assert (Z0 := bo_lt _ _ _ _ Hb' i j)|assert (Z0 := bo_lt _ _ _ _ Hb' j i)]; lia. }
    exists s1, c1. split; [exact E1|]. do 3 (split; [auto|]). split.
    { intros i j m li' ri' E1' E2' Hi Hj Hm Hli Hri Hd Hne. injection E1' as <-. injection E2' as <-.
      unfold kr in Hri. rewrite map_map in Hli, Hri. cbn [fst] in Hli, Hri. apply in_map_iff in Hli, Hri. destruct Hli as (a & Ea & Ha). destruct Hri as (b & Eb & Hb').
      apply (Q1 i j m); auto; apply in_map_iff; [exists a|exists b]; split; auto.
      - apply (Kinj V dim key cnt HB); auto.
      - apply (Kinj V2 dim2 key2 cnt2 HB2); auto. }
    intros m Hm. rewrite C1, Co' by auto. f_equal.
    rewrite (items_sum R li dim (cf lhs) (fun i x => sum ri (fun f => rmul (St i (fst f) m) (fn (rmul x (snd f)))))); auto.
    - apply sum_ext. intros i Hi. apply zrange_In in Hi.
      apply (items_sum R ri dim2 (cf2 rhs) (fun j y => rmul (St i j m) (fn (rmul (cf lhs i) y)))); auto.
      intros j Hj. replace (rmul (cf lhs i) r0) with (@r0 R) by ring. rewrite Hfn. ring.
    - intros i Hi. apply sum_zero. intros f _. replace (rmul r0 (snd f)) with (@r0 R) by ring. rewrite Hfn. ring.
  Qed.
End MixedFma.
