(** Dynamically constructed streams: queries of intervals, one after the other. *)
From Coq Require Import ZifyBool Lqa Qround.
From Verif Require Export DynProofs4 DynSpec.
From Verif Require Import DyadicLemmas DyadicProofs DyadicProofs2 DyadicProofs3 StreamProofs2 StreamLemmas TickLemmas.
Open Scope Z_scope.

Section Hist.
  Variable lie st : Type.
  Variable is_zero : lie -> bool.
  Variable cbh2 : lie -> lie -> lie.
  Variable R : rule lie st.
  Variable S : sigs lie.
  Variable ok : lie -> Prop.
  Variable ctx : actx lie.
  Hypothesis HS : sound is_zero S ok ctx.
  Variable res h : Z.
  Hypothesis Hres : - 2 ^ 27 <= res <= 2 ^ 27.
  Hypothesis Hh : h = 0 \/ h = -1.
  Infix "===" := (sg_eq S) (at level 70).
  Notation nd := (nd res).
  Notation tree := (tree lie).
  Notation fitn := (DynProofs2.fitn h).
  Notation has := (DynProofs2.has lie res).
  Notation ext := (DynProofs2.ext lie S res).
  Notation sg x := (sg_of S (dn_lie x)).
  Implicit Types (t : tree) (g : st).
  Variable P : tree -> Prop.
  Variable pre : Z -> Z -> Prop.
  Hypothesis Hstep : forall t g k0 m0 r fuel, P t -> fitn k0 m0 -> pre k0 m0 -> res - m0 <= r <= res -> 2 ^ 28 + 101 <= Z.of_nat fuel ->
    exists t' g' w, dn_dyadic cbh2 R fuel g t (nd k0 m0) r = Ok (dn_lie w, t', g') /\ P t' /\ ext t t' /\ has t' k0 m0 w /\ ok (dn_lie w).

  (** The signature a is the product of those of the nodes of the pieces. *)
  Definition prodsig t (l : list dint) (a : sg_t S) : Prop :=
    exists vs, Forall2 (fun i v => has t (di_k i) (res - di_n i) v) l vs /\ a === sg_prod S (map dn_lie vs).
  Lemma prodsig_ext t t' l a : ext t t' -> prodsig t l a -> prodsig t' l a.
  Proof.
    intros X (vs & F & E). assert (Y : exists vs', Forall2 (fun i v => has t' (di_k i) (res - di_n i) v) l vs' /\ sg_prod S (map dn_lie vs') === sg_prod S (map dn_lie vs)).
    { clear E. induction F as [|i v l vs H F IH]; [exists []; split; [constructor|apply (sd_refl _ _ _ _ HS)]|]. destruct IH as (vs' & F' & E'). destruct (X _ _ _ H) as (v' & H' & E). exists (v' :: vs'). split; [constructor; auto|]. cbn [map sg_prod fold_right]. apply (sd_mul _ _ _ _ HS); auto. }
    destruct Y as (vs' & F' & E'). exists vs'. split; auto. eapply (sd_trans _ _ _ _ HS); [exact E|]. apply (sd_sym _ _ _ _ HS). exact E'.
  Qed.
  Lemma nd_self i : di_t i = Clopen -> nd (di_k i) (res - di_n i) = i.
  Proof. destruct i; cbn. intros ->. unfold TickProofs.nd. f_equal. lia. Qed.
  Lemma dyn_pieces_ok r fuel : r <= res -> 2 ^ 28 + 101 <= Z.of_nat fuel -> forall l t g, P t ->
    Forall (fun i => di_t i = Clopen /\ di_n i <= r) l -> Forall (fun i => fitn (di_k i) (res - di_n i) /\ pre (di_k i) (res - di_n i)) l ->
    exists xs t' g', dn_pieces is_zero cbh2 R fuel g t r l = Ok (xs, t', g') /\ P t' /\ ext t t' /\ Forall ok xs /\ prodsig t' l (sg_prod S xs).
  Proof.
    intros Hr Hf. induction l as [|i l IH]; intros t g Pt F1 F2.
    - exists [], t, g. split; auto. split; auto. split; [apply (DynProofs2.ext_refl lie is_zero S ok ctx HS res)|]. split; [constructor|]. exists []. split; [constructor|apply (sd_refl _ _ _ _ HS)].
    - destruct (Forall_inv F1) as [Ti Ni]. destruct (Forall_inv F2) as [Fi Pi].
      destruct (Hstep t g _ _ r fuel Pt Fi Pi ltac:(lia) Hf) as (t1 & g1 & w & E1 & P1 & X1 & H1 & O1). rewrite nd_self in E1 by auto.
      destruct (IH t1 g1 P1 (Forall_inv_tail F1) (Forall_inv_tail F2)) as (xs & t2 & g2 & E2 & P2 & X2 & O2 & (vs & V1 & V2)).
      cbn [dn_pieces]. rewrite E1. cbn [bind]. rewrite E2. cbn [bind]. exists (if is_zero (dn_lie w) then xs else dn_lie w :: xs), t2, g2. split; auto. split; auto. split; [apply (DynProofs2.ext_trans lie is_zero S ok ctx HS res _ _ _ X1 X2)|].
      split; [destruct (is_zero (dn_lie w)); auto|]. destruct (X2 _ _ _ H1) as (w2 & H2 & Ew). exists (w2 :: vs). split; [constructor; auto|]. cbn [map sg_prod fold_right]. destruct (is_zero (dn_lie w)) eqn:Z.
      + eapply (sd_trans _ _ _ _ HS); [exact V2|]. apply (sd_sym _ _ _ _ HS). eapply (sd_trans _ _ _ _ HS); [|apply (sd_one_l _ _ _ _ HS)]. apply (sd_mul _ _ _ _ HS); [|apply (sd_refl _ _ _ _ HS)]. eapply (sd_trans _ _ _ _ HS); [exact Ew|]. apply (sd_is_zero _ _ _ _ HS); auto.
      + apply (sd_mul _ _ _ _ HS); auto. apply (sd_sym _ _ _ _ HS). auto.
  Qed.

  Variable support : ri.
  Hypothesis Hsup : (ri_inf support <= ri_sup support)%Q.
  (** The pieces of a query fit. *)
  Definition side (a b : Q) : Prop := (h = 0 /\ (0 <= a)%Q) \/ (h = -1 /\ (b <= 0)%Q).
  Lemma piece_fitn inf sup r i : fits_query inf sup r res -> r <= res -> side (grid_floor inf r) (grid_floor sup r) -> di_n i <= r ->
    (grid_floor inf r <= dy (di_k i) (di_n i))%Q -> (dy (di_k i + 1) (di_n i) <= grid_floor sup r)%Q -> fitn (di_k i) (res - di_n i).
  Proof.
    intros Hfit Hr Hs Ni B1 B2. destruct (fits_piece inf sup r res (di_k i) (di_n i) Hfit Ni B1 B2) as [HC _]. destruct (HC ltac:(lia)) as (C1 & C2 & C3).
    set (k := di_k i) in *. set (m := res - di_n i) in *. split; [unfold m; lia|]. assert (E : 2 ^ 28 = 2 ^ (28 - m) * 2 ^ m) by (rewrite <- Z.pow_add_r by (unfold m; lia); f_equal; lia). assert (Pm := pow2_pos m ltac:(unfold m; lia)). rewrite E in C1, C2.
    apply div_range; [unfold m; lia|]. destruct Hs as [[-> H0]|[-> H0]].
    - assert (Hk : 0 <= k). { assert (Z0 : (0 == dy 0 (di_n i))%Q) by (unfold dy; ring). apply (proj1 (dy_same_le 0 k (di_n i))). rewrite <- Z0. eapply Qle_trans; [exact H0|exact B1]. } nia.
    - assert (Hk : k + 1 <= 0). { assert (Z0 : (0 == dy 0 (di_n i))%Q) by (unfold dy; ring). apply (proj1 (dy_same_le (k + 1) 0 (di_n i))). rewrite <- Z0. eapply Qle_trans; [exact B2|exact H0]. } nia.
  Qed.
  Definition answered t (q : ri * Z) (x : lie) : Prop :=
    let (i, r) := q in ok x /\ ((~ meets support i /\ sg_of S x === sg_one S) \/ (meets support i /\
      exists l, end_to_end (grid_floor (cut_from support i) r) (grid_floor (cut_upto support i) r) (map DyadicProofs3.cell l) /\
        Forall (fun i => di_t i = Clopen /\ di_n i <= r) l /\ prodsig t l (sg_of S x))).
  Lemma answered_ext t t' q x : ext t t' -> answered t q x -> answered t' q x.
  Proof. destruct q as [i r]. intros X (O & [A|(M & l & A & B & C)]); split; auto. right. split; auto. exists l. split; auto. split; auto. apply (prodsig_ext t); auto. Qed.
  Definition inside (a b : Q) : Prop := forall i, (a <= dy (di_k i) (di_n i))%Q -> (dy (di_k i + 1) (di_n i) <= b)%Q -> pre (di_k i) (res - di_n i).
  Definition good_query (q : ri * Z) : Prop :=
    let (i, r) := q in (ri_inf i <= ri_sup i)%Q /\ (meets support i -> r <= res /\ fits_query (cut_from support i) (cut_upto support i) r res /\
      side (grid_floor (cut_from support i) r) (grid_floor (cut_upto support i) r) /\
      forall k n, n <= r -> (grid_floor (cut_from support i) r <= dy k n)%Q -> (dy (k + 1) n <= grid_floor (cut_upto support i) r)%Q -> pre k (res - n)).
  Lemma query_ok t g i r fuel : P t -> good_query (i, r) -> 2 ^ 28 + 101 <= Z.of_nat fuel ->
    exists x t' g', dn_log_signature_at is_zero cbh2 R fuel g t support i r ctx = Ok (x, t', g') /\ P t' /\ ext t t' /\ answered t' (i, r) x.
  Proof.
    intros Pt [Hi Hg] Hf. unfold dn_log_signature_at. set (s0 := mkStream [] 0 ctx support).
    destruct (refine_spec s0 i Hi Hsup) as [(Er & Le)|(q & R0 & Er & Eq1 & Eq2 & Lt & _)]; rewrite Er.
    - exists (cx_zero ctx), t, g. split; auto. split; auto. split; [apply (DynProofs2.ext_refl lie is_zero S ok ctx HS res)|]. split; [apply (sd_zero_ok _ _ _ _ HS)|]. left. split; [|apply (sd_zero _ _ _ _ HS)]. unfold meets. change (cut_from support i) with (from s0 i). change (cut_upto support i) with (upto s0 i). lra.
    - assert (M : meets support i) by exact Lt. destruct (Hg M) as (Hr & Hfit & Hside & Hpre). change (from s0 i) with (cut_from support i) in *. change (upto s0 i) with (cut_upto support i) in *. rewrite Eq1, Eq2.
      destruct (fits_window _ _ _ _ Hfit) as (Ht & W1 & W2). destruct (dissection_correct _ _ r (Qlt_le_weak _ _ Lt) Ht W1 W2 31 (le_n _)) as (l & El & Hl & HE).
      assert (Hin : forall j, In j l -> (grid_floor (cut_from support i) r <= dy (di_k j) (di_n j))%Q /\ (dy (di_k j + 1) (di_n j) <= grid_floor (cut_upto support i) r)%Q).
      { intros j Hj. apply (end_to_end_in _ _ _ (di_k j) (di_n j) HE). apply (in_map DyadicProofs3.cell) in Hj. exact Hj. }
      destruct (dyn_pieces_ok r fuel Hr Hf l t g Pt Hl) as (xs & t' & g' & E & P' & X & Oxs & V).
      { rewrite Forall_forall in Hl |- *. intros j Hj. destruct (Hin j Hj). destruct (Hl j Hj). split; [apply (piece_fitn (cut_from support i) (cut_upto support i) r); auto|apply Hpre; auto]. }
      unfold dn_stream_impl. rewrite (tdi_more 31 fuel _ _ _ _ _ El) by lia. cbn [bind]. rewrite E. cbn [bind]. exists (cx_cbh ctx xs), t', g'. split; auto. split; auto. split; auto. split; [apply (sd_cbh_ok _ _ _ _ HS); auto|]. right. split; auto. exists l. split; [exact HE|]. split; auto.
      destruct V as (vs & V1 & V2). exists vs. split; auto. eapply (sd_trans _ _ _ _ HS); [apply (sd_cbh _ _ _ _ HS); auto|exact V2].
  Qed.
  Lemma history_ok fuel : 2 ^ 28 + 101 <= Z.of_nat fuel -> forall qs t g, P t -> Forall good_query qs ->
    exists xs t' g', dyn_all is_zero cbh2 R fuel g t support ctx qs = Ok (xs, t', g') /\ P t' /\ ext t t' /\ Forall2 (answered t') qs xs.
  Proof.
    intros Hf. induction qs as [|[i r] qs IH]; intros t g Pt F.
    - exists [], t, g. split; auto. split; auto. split; [apply (DynProofs2.ext_refl lie is_zero S ok ctx HS res)|constructor].
    - destruct (query_ok t g i r fuel Pt (Forall_inv F) Hf) as (x & t1 & g1 & E1 & P1 & X1 & A1). destruct (IH t1 g1 P1 (Forall_inv_tail F)) as (xs & t2 & g2 & E2 & P2 & X2 & A2).
      cbn [dyn_all]. rewrite E1. cbn [bind]. rewrite E2. cbn [bind]. exists (x :: xs), t2, g2. split; auto. split; auto. split; [apply (DynProofs2.ext_trans lie is_zero S ok ctx HS res _ _ _ X1 X2)|]. constructor; auto. apply (answered_ext t1); auto.
  Qed.
End Hist.

(** *** More fuel never changes an answer *)
Ltac more H := apply bind_ok in H; let x := fresh "x" in let E := fresh "E" in destruct H as (x & E & H).
Section More.
  Variable lie st : Type.
  Variable is_zero : lie -> bool.
  Variable cbh2 : lie -> lie -> lie.
  Variable R : rule lie st.
  Implicit Types (t : tree lie) (g : st).
  Lemma parents_more f : forall f' t c r, dn_update_parents cbh2 f t c = Ok r -> (f <= f')%nat -> dn_update_parents cbh2 f' t c = Ok r.
  Proof.
    induction f as [|f IH]; intros f' t c r H L; [discriminate|]. destruct f' as [|f']; [lia|]. cbn [dn_update_parents] in *. more H. rewrite E. cbn [bind]. destruct (key_eqb c x); auto.
    do 5 (more H; match goal with E : _ = Ok _ |- _ => rewrite E; clear E; cbn [bind] end). match goal with |- context[if ?b then Ok t else _] => destruct b; auto end. do 2 (more H; match goal with E : _ = Ok _ |- _ => rewrite E; clear E; cbn [bind] end). apply IH; auto. lia.
  Qed.
  Lemma split_more f f' g t a b r : dn_split cbh2 R f g t a b = Ok r -> (f <= f')%nat -> dn_split cbh2 R f' g t a b = Ok r.
  Proof.
    intros H L. unfold dn_split in *. do 3 (more H; match goal with E : _ = Ok _ |- _ => rewrite E; clear E; cbn [bind] end). destruct (ru_children R g x x0 (dn_lie x1)) as [[u v] g1].
    do 4 (more H; match goal with E : _ = Ok _ |- _ => rewrite E; clear E; cbn [bind] end). more H. rewrite (parents_more f f' _ _ _ E L). exact H.
  Qed.
  Lemma down_more f : forall f' g t a b r, dn_down cbh2 R f g t a b = Ok r -> (f <= f')%nat -> dn_down cbh2 R f' g t a b = Ok r.
  Proof.
    induction f as [|f IH]; intros f' g t a b r H L; [discriminate|]. destruct f' as [|f']; [lia|]. cbn [dn_down] in *. more H. rewrite E. cbn [bind]. destruct (x && _); auto. more H. destruct x0 as [[u v] g1]. rewrite (split_more _ (Datatypes.S f') _ _ _ _ _ E0) by lia. cbn [bind]. apply IH; auto. lia.
  Qed.
  Lemma sweep_more f : forall f' g t a b c r, dn_sweep cbh2 R f g t a b c = Ok r -> (f <= f')%nat -> dn_sweep cbh2 R f' g t a b c = Ok r.
  Proof.
    induction f as [|f IH]; intros f' g t a b c r H L; [discriminate|]. destruct f' as [|f']; [lia|]. cbn [dn_sweep] in *. more H. rewrite E. cbn [bind]. destruct x; auto. more H. destruct x as [[u v] g1]. rewrite (down_more _ (Datatypes.S f') _ _ _ _ _ E0) by lia. cbn [bind]. more H. rewrite (parents_more _ (Datatypes.S f') _ _ _ E1) by lia. cbn [bind].
    do 2 (more H; match goal with E : i32 _ = Ok _ |- _ => rewrite E; clear E; cbn [bind] end). apply IH; auto. lia.
  Qed.
  Lemma refine_more n : forall n' g t a d c s r, dn_refine_loop cbh2 R n g t a d c s = Ok r -> (n <= n')%nat -> dn_refine_loop cbh2 R n' g t a d c s = Ok r.
  Proof.
    induction n as [|n IH]; intros n' g t a d c s r H L; [discriminate|]. destruct n' as [|n']; [lia|]. cbn [dn_refine_loop] in *. destruct c as [c|]; auto.
    destruct (match s with Some e => key_eqb c e | None => false end); auto. destruct (negb _); auto. more H. rewrite E. cbn [bind]. destruct (negb _).
    - more H. rewrite E0. cbn [bind]. apply IH; auto. lia.
    - do 4 (more H; match goal with E : _ = Ok _ |- _ => rewrite E; clear E; cbn [bind] end). more H. destruct x4 as [[u v] g1]. rewrite (sweep_more _ (Datatypes.S n') _ _ _ _ _ _ E0) by lia. cbn [bind]. more H. rewrite E1. cbn [bind]. apply IH; auto. lia.
  Qed.
  Lemma expand_more f : forall f' g t a b r, dn_expand cbh2 R f g t a b = Ok r -> (f <= f')%nat -> dn_expand cbh2 R f' g t a b = Ok r.
  Proof.
    induction f as [|f IH]; intros f' g t a b r H L; [discriminate|]. destruct f' as [|f']; [lia|]. cbn [dn_expand] in *. more H. rewrite E. cbn [bind]. destruct x; auto. clear E.
    do 3 (more H; match goal with E : _ = Ok _ |- _ => rewrite E; clear E; cbn [bind] end). destruct (ru_neighbour R g x1) as [u g1]. more H. rewrite E. cbn [bind]. destruct (ru_root R g1 x) as [v g2]. clear E.
    do 4 (more H; match goal with E : _ = Ok _ |- _ => rewrite E; clear E; cbn [bind] end). apply IH; auto. lia.
  Qed.
  Lemma walk_more f : forall f' t a b r, dn_walk f t a b = Ok r -> (f <= f')%nat -> dn_walk f' t a b = Ok r.
  Proof.
    induction f as [|f IH]; intros f' t a b r H L; [discriminate|]. destruct f' as [|f']; [lia|]. cbn [dn_walk] in *. more H. rewrite E. cbn [bind]. destruct (_ && _); auto. clear E.
    do 4 (more H; match goal with E : _ = Ok _ |- _ => rewrite E; clear E; cbn [bind] end). destruct x3; [apply IH; auto; lia|]. more H. rewrite E. cbn [bind]. apply IH; auto. lia.
  Qed.
  Lemma grow_more' f : forall f' g t a b r, dn_grow cbh2 R f g t a b = Ok r -> (f <= f')%nat -> dn_grow cbh2 R f' g t a b = Ok r.
  Proof.
    induction f as [|f IH]; intros f' g t a b r H L; [discriminate|]. destruct f' as [|f']; [lia|]. cbn [dn_grow] in *. destruct (dyadic_equals _ _); auto. more H. destruct x as [[u v] g1]. rewrite (split_more _ (Datatypes.S f') _ _ _ _ _ E) by lia. cbn [bind]. apply IH; auto. lia.
  Qed.
  Lemma dyadic_more f f' g t i q r : dn_dyadic cbh2 R f g t i q = Ok r -> (f <= f')%nat -> dn_dyadic cbh2 R f' g t i q = Ok r.
  Proof.
    intros H L. unfold dn_dyadic in *. more H. rewrite E. cbn [bind]. destruct x as [v|].
    - destruct (dn_acc v <? q); auto. more H. destruct x as [t1 g1]. unfold dn_refine in *. more E0. rewrite E1. cbn [bind]. rewrite (refine_more f f' _ _ _ _ _ _ _ E0 L). exact H.
    - more H. rewrite E0. cbn [bind]. destruct x as [[[rt t1] g1] dn]. destruct dn; auto. more H. destruct x as [[u v] g2]. rewrite (expand_more f f' _ _ _ _ _ E1 L). cbn [bind]. more H. rewrite (walk_more f f' _ _ _ _ E2 L). cbn [bind]. more H. destruct x0 as [[u' v'] g3]. rewrite (grow_more' f f' _ _ _ _ _ E3 L). cbn [bind].
      more H. rewrite E4. cbn [bind]. destruct (_ && _); auto. more H. destruct x1 as [t4 g4]. unfold dn_refine in *. more E5. rewrite E6. cbn [bind]. rewrite (refine_more f f' _ _ _ _ _ _ _ E5 L). exact H.
  Qed.
  Lemma dpieces_more f f' q : (f <= f')%nat -> forall l g t r, dn_pieces is_zero cbh2 R f g t q l = Ok r -> dn_pieces is_zero cbh2 R f' g t q l = Ok r.
  Proof.
    intros L. induction l as [|i l IH]; intros g t r H; cbn [dn_pieces] in *; auto. more H. destruct x as [[u v] g1]. rewrite (dyadic_more f f' _ _ _ _ _ E L). cbn [bind]. more H. destruct x as [[u2 v2] g2]. rewrite (IH _ _ _ E0). exact H.
  Qed.
  Lemma dat_more f f' g t support i q ctx r : dn_log_signature_at is_zero cbh2 R f g t support i q ctx = Ok r -> (f <= f')%nat -> dn_log_signature_at is_zero cbh2 R f' g t support i q ctx = Ok r.
  Proof.
    intros H L. unfold dn_log_signature_at in *. destruct (refine_interval _ _) as [[q0 r0]|]; auto. unfold dn_stream_impl in *. more H. rewrite (tdi_more f f' _ _ _ _ _ E L). cbn [bind]. more H. rewrite (dpieces_more f f' _ L _ _ _ _ E0). exact H.
  Qed.
  Lemma all_more f f' support ctx : (f <= f')%nat -> forall qs g t r, dyn_all is_zero cbh2 R f g t support ctx qs = Ok r -> dyn_all is_zero cbh2 R f' g t support ctx qs = Ok r.
  Proof.
    intros L. induction qs as [|[i q] qs IH]; intros g t r H; cbn [dyn_all] in *; auto. more H. destruct x as [[u v] g1]. rewrite (dat_more f f' _ _ _ _ _ _ _ E L). cbn [bind]. more H. destruct x as [[u2 v2] g2]. rewrite (IH _ _ _ E0). exact H.
  Qed.
End More.
