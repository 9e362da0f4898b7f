(** Simplified streams. *)
From Coq Require Import ZifyBool Lqa Qround Lia.
From Verif Require Export SimpSpec.
From Verif Require Import StreamProofs StreamProofs2 StreamProofs3 DyadicProofs DyadicProofs2 DyadicProofs3 PwProofs DyadicMax StreamAlign IntervalProofs2.
From Verif Require DyadicLemmas IntervalProofs IntervalLemmas.
Open Scope Z_scope.

(** *** The pieces *)
Section Pieces.
  Context {lie : Type}.
  Variables (is_zero : lie -> bool) (none : lie).
  Hypothesis Hn : is_zero none = true.
  Variables (S : sigs lie) (ok : lie -> Prop) (ctx : actx lie).
  Hypothesis HS : sound is_zero S ok ctx.
  Variable s : stream lie.
  Hypothesis Hs : stream_ok ok s.
  Notation cinv := (cinv lie ctx (st_data s) (st_res s)).

  Lemma loop_spec p r : (forall i iv, piece p i = Ok iv -> fits_call s ctx (QAt iv r)) ->
    forall n i, (forall j, (i <= j < i + n)%nat -> exists iv, piece p j = Ok iv) ->
    exists l, length l = n /\ (forall j, (j < n)%nat -> exists iv x, nth_error l j = Some (iv, x) /\ piece p (i + j) = Ok iv /\ ok x /\
        forall fuel c, (31 <= fuel)%nat -> cinv c -> exists c', ask is_zero none fuel s ctx c (QAt iv r) = Ok (x, c') /\ cinv c') /\
      forall fuel c, (31 <= fuel)%nat -> cinv c -> exists c', simplify_loop is_zero none fuel s c p r ctx i n = Ok (l, c') /\ cinv c'.
  Proof.
    intros Hf. induction n as [|n IH]; intros i Hp.
    - exists []. split; [reflexivity|]. split; [intros j Hj; lia|]. intros fuel c _ C. exists c. split; [reflexivity|exact C].
    - destruct (Hp i ltac:(lia)) as (iv & Ei). destruct (IH (Datatypes.S i)) as (l & Hl & Hj & HF). { intros j Hj. apply Hp. lia. }
      destruct (ask_ok lie is_zero none Hn S ok ctx HS s Hs _ (Hf _ _ Ei)) as (x & Ox & Fx).
      exists ((iv, x) :: l). split; [cbn; lia|]. split.
      + intros [|j] Lj; cbn [nth_error].
        * exists iv, x. split; [reflexivity|]. rewrite Nat.add_0_r. auto.
        * destruct (Hj j ltac:(lia)) as (iv' & x' & E1 & E2 & R). exists iv', x'. split; [exact E1|]. split; [|exact R]. rewrite <- E2. f_equal. lia.
      + intros fuel c Hfu C. cbn [simplify_loop]. rewrite Ei. cbn [bind]. destruct (Fx fuel c Hfu C) as (c1 & E1 & C1). cbn [ask] in E1. rewrite E1. cbn [bind].
        destruct (HF fuel c1 Hfu C1) as (c2 & E2 & C2). rewrite E2. cbn [bind]. eauto.
  Qed.

  Lemma simplify_spec p r : made p -> (forall i iv, piece p i = Ok iv -> fits_call s ctx (QAt iv r)) -> forall effective,
    exists w, pws_res w = r /\ pws_ctx w = ctx /\ pws_support w = effective /\ length (pws_data w) = p_size p /\
      (forall i, (i < p_size p)%nat -> exists iv x, nth_error (pws_data w) i = Some (iv, x) /\ piece p i = Ok iv /\ ok x /\
        forall h, Forall (fits_call s ctx) h -> replies is_zero none s ctx h (QAt iv r) x) /\
      forall h, Forall (fits_call s ctx) h -> simplifies is_zero none s effective ctx p r h w.
  Proof.
    intros Hm Hf effective. destruct (loop_spec p r Hf (p_size p) 0) as (l & Hl & Hj & HF).
    { intros j Hj. destruct (made_tiles p Hm) as (e & _ & _ & T & _). destruct (T j ltac:(lia)) as (a & b & _ & _ & _ & E). eauto. }
    exists (mkPws l r ctx effective). cbn [pws_res pws_ctx pws_support pws_data]. do 4 (split; [auto|]). split.
    - intros i Hi. destruct (Hj i Hi) as (iv & x & E1 & E2 & O & F). exists iv, x. split; [exact E1|]. split; [exact E2|]. split; [exact O|].
      intros h Hh. apply (replies_intro is_zero none Hn S ok ctx HS s Hs h _ x Hh F).
    - intros h Hh fuel Hfu. destruct (ask_all_ok lie is_zero none Hn S ok ctx HS s Hs h Hh) as (xs & _ & F). destruct (F fuel [] Hfu (cinv_nil lie ctx s)) as (c & E & C).
      destruct (HF fuel c Hfu C) as (c' & E' & C'). exists xs, c, c'. split; [exact E|]. split; [unfold simplify; rewrite E'; reflexivity|].
      intros q y Hq R. destruct (ask_ok lie is_zero none Hn S ok ctx HS s Hs q Hq) as (x & _ & Fx). destruct (Fx fuel c' Hfu C') as (c2 & E2 & _). destruct (Fx fuel c Hfu C) as (c3 & E3 & _).
      destruct (R fuel Hfu) as (xs' & c0 & c4 & R1 & R2). assert (c0 = c) as -> by congruence. assert (y = x) as -> by congruence. eauto.
  Qed.
End Pieces.

(** *** Queries *)
Section Query.
  Context {lie : Type}.
  Variables (is_zero : lie -> bool) (S : sigs lie) (ok : lie -> Prop) (ctx : actx lie) (smul : Q -> lie -> lie).
  Variable SD : sound is_zero S ok ctx.
  Variable SC : scaling S ok smul.
  Infix "===" := (sg_eq S) (at level 70).
  Notation okd d := (Forall (fun p : lie_piece lie => ok (snd p)) d).

  Lemma drop_zeros d l xs : pw_pieces smul d ctx l = Ok xs -> Forall ok xs -> exists ys, pws_pieces is_zero smul d ctx l = Ok ys /\ Forall ok ys /\ sg_prod S ys === sg_prod S xs.
  Proof.
    revert xs. induction l as [|i l IH]; intros xs; cbn [pw_pieces pws_pieces].
    - intros [= <-] _. exists []. split; [reflexivity|]. split; [constructor|apply (sd_refl _ _ _ _ SD)].
    - destruct (dinf i) as [lo| | |]; try discriminate. destruct (dsup i) as [hi| | |]; try discriminate. cbn [bind].
      destruct (pw_pieces smul d ctx l) as [xs'| | |] eqn:E; try discriminate. cbn [bind]. intros [= <-] O. apply Forall_cons_iff in O as [O1 O2].
      destruct (IH xs' eq_refl O2) as (ys & E2 & O3 & P). rewrite E2. cbn [bind]. eexists. split; [reflexivity|]. set (x := pw_impl _ _ _ _) in *. destruct (is_zero x) eqn:Z.
      + split; [exact O3|]. cbn [sg_prod fold_right]. eapply (sd_trans _ _ _ _ SD); [exact P|]. eapply (sd_trans _ _ _ _ SD); [apply (sd_sym _ _ _ _ SD), (sd_one_l _ _ _ _ SD)|].
        apply (sd_mul _ _ _ _ SD); [apply (sd_sym _ _ _ _ SD), (sd_is_zero _ _ _ _ SD), Z|apply (sd_refl _ _ _ _ SD)].
      + split; [constructor; auto|]. cbn [sg_prod fold_right]. apply (sd_mul _ _ _ _ SD); [apply (sd_refl _ _ _ _ SD)|exact P].
  Qed.

  (** A piece that is a dyadic interval and has no end of the query strictly inside is not cut by
      the dissection. *)
  Lemma not_cut inf sup tol l fuel : (inf <= sup)%Q -> - 2 ^ 28 <= tol <= 2 ^ 28 -> window inf tol -> window sup tol -> (31 <= fuel)%nat -> to_dyadic_intervals fuel inf sup tol Clopen = Ok l ->
    forall k n pa pb i, (pa == dy k n)%Q -> (pb == dy (k + 1) n)%Q -> In i l ->
    (grid_floor inf tol <= pa \/ pb <= grid_floor inf tol)%Q -> (grid_floor sup tol <= pa \/ pb <= grid_floor sup tol)%Q ->
    (dy (di_k i + 1) (di_n i) <= pa \/ pb <= dy (di_k i + 1) (di_n i))%Q.
  Proof.
    intros Hle Ht W1 W2 Hf El k n pa pb i Ea Eb Hi Ol Oh.
    destruct (DyadicLemmas.dissection_thm inf sup tol Hle Ht W1 W2 fuel Hf) as (l' & E & F & EE & _). assert (l' = l) as -> by congruence. clear E.
    destruct (Qlt_le_dec pa (dy (di_k i + 1) (di_n i))) as [C1|]; [|auto]. destruct (Qlt_le_dec (dy (di_k i + 1) (di_n i)) pb) as [C2|]; [|auto]. exfalso.
    destruct (end_to_end_in _ _ _ (di_k i) (di_n i) EE) as [X Y]; [apply (in_map (fun i => (di_k i, di_n i))) in Hi; exact Hi|].
    rewrite Ea in C1. rewrite Eb in C2.
    assert (N : n < di_n i).
    { destruct (Z_lt_ge_dec n (di_n i)) as [|G]; [auto|exfalso].
      assert (Z1 := dy_scale (di_k i + 1) (di_n i) (n - di_n i) ltac:(lia)). replace (di_n i + (n - di_n i)) with n in Z1 by lia. rewrite Z1 in C1, C2.
      unfold dy in C1, C2. assert (P := Qpow2_pos (- n)). 
      apply Qmult_lt_r in C1; auto. apply Qmult_lt_r in C2; auto. rewrite <- Zlt_Qlt in C1, C2. lia. }
    assert (Z1 := dy_scale k n (di_n i - n) ltac:(lia)). assert (Z2 := dy_scale (k + 1) n (di_n i - n) ltac:(lia)). replace (n + (di_n i - n)) with (di_n i) in Z1, Z2 by lia.
    rewrite Z1 in C1. rewrite Z2 in C2. assert (P := Qpow2_pos (- di_n i)). unfold dy in C1, C2. apply Qmult_lt_r in C1; auto. apply Qmult_lt_r in C2; auto. rewrite <- Zlt_Qlt in C1, C2.
    assert (Start : (dy k n <= dy (di_k i) (di_n i))%Q) by (rewrite Z1; apply dy_same_le; lia).
    assert (Cell : (dy (di_k i) (di_n i) < dy (di_k i + 1) (di_n i))%Q) by (unfold dy; apply Qmult_lt_r; auto; rewrite <- Zlt_Qlt; lia).
    assert (End : (dy (di_k i + 1) (di_n i) <= dy (k + 1) n)%Q) by (rewrite Z2; apply dy_same_le; lia).
    destruct (dissection_coarsest inf sup tol Hle Ht W1 W2 fuel l Hf El i k n Hi N) as (x & [X1 X2] & NX).
    { destruct (proj1 (Forall_forall _ _) F i Hi) as [T _]. intros x. unfold di_pts. rewrite T. unfold clopen_pts. intros [A B]. split; lra. }
    apply NX. rewrite Ea, Eb in *. split; [destruct Ol; lra|destruct Oh; lra].
  Qed.

  (** The query of a row of pieces no cell of its dissection cuts. *)
  Lemma impl_covered d inf sup tol t w fuel : in_order d -> okd d -> (inf <= sup)%Q -> - 2 ^ 28 <= tol <= 2 ^ 28 -> window inf tol -> window sup tol -> (31 <= fuel)%nat -> pws_data w = d ->
    (forall l i, to_dyadic_intervals fuel inf sup tol Clopen = Ok l -> In i l -> outside d (dy (di_k i + 1) (di_n i))) ->
    exists x, pws_impl is_zero smul fuel w (mkRI inf sup t) tol ctx = Ok x /\ ok x /\ sg_of S x === covered_prod S smul (covered (grid_floor inf tol) (grid_floor sup tol) d).
  Proof.
    intros HO HK Hi Ht W1 W2 Hf Ew HG. destruct (DyadicLemmas.dissection_thm inf sup tol Hi Ht W1 W2 fuel Hf) as (l & E & F & EE & _).
    unfold pws_impl. cbn [ri_inf ri_sup]. rewrite E, Ew. cbn [bind].
    assert (HL : Forall (fun i => outside d (dy (di_k i + 1) (di_n i))) l) by (apply Forall_forall; intros i Ii; apply (HG l i E Ii)).
    destruct (PwProofs.pieces_ok is_zero S ok ctx smul SD SC d l HK) as (xs & Ex & Ox & Px); auto. { apply (PwProofs.cell_bound inf sup tol); auto. lia. }
    destruct (drop_zeros d l xs Ex Ox) as (ys & Ey & Oy & Py). rewrite Ey. cbn [bind]. eexists. split; [reflexivity|]. split; [apply (sd_cbh_ok _ _ _ _ SD), Oy|].
    eapply (sd_trans _ _ _ _ SD); [apply (sd_cbh _ _ _ _ SD), Oy|]. eapply (sd_trans _ _ _ _ SD); [exact Py|].
    eapply (sd_trans _ _ _ _ SD); [exact Px|]. apply (sd_sym _ _ _ _ SD). apply (PwProofs.chain is_zero S ok ctx smul SD SC); auto.
    rewrite Forall_forall in *. intros c Hc. apply in_map_iff in Hc. destruct Hc as (i & <- & Hi'). apply HL. exact Hi'.
  Qed.

  (** Pieces one after the other, from [u] to [v], each with the signature of its increments. *)
  Variable D : list (Q * lie).
  Hypothesis HD : ascending D.
  Fixpoint row (u v : Q) (d : list (lie_piece lie)) : Prop :=
    match d with [] => (u == v)%Q | p :: d => (ri_inf (fst p) == u)%Q /\ (u < ri_sup (fst p))%Q /\ sg_of S (snd p) === sg_prod S (within (ri_inf (fst p)) (ri_sup (fst p)) D) /\ row (ri_sup (fst p)) v d end.
  Lemma row_le u v d : row u v d -> (u <= v)%Q.
  Proof. revert u. induction d as [|p d IH]; intros u; cbn [row]; [intros ->; apply Qle_refl|]. intros (A & B & _ & C). apply IH in C. lra. Qed.
  Lemma row_order u v d : row u v d -> in_order d /\ Forall (fun p => (u <= ri_inf (fst p))%Q) d.
  Proof.
    revert u. induction d as [|p d IH]; intros u; cbn [row]; [intros; split; [split; constructor|constructor]|]. intros (A & B & _ & C). destruct (IH _ C) as [[O1 O2] O3]. split; [split|].
    - constructor; [lra|exact O1]. - constructor; auto.
    - constructor; [lra|]. eapply Forall_impl; [|exact O3]. cbn beta. intros q. lra.
  Qed.
  Lemma row_covered lo hi d : forall u v, row u v d -> outside d lo -> outside d hi -> covered_prod S smul (covered lo hi d) === sg_prod S (within (later lo u) (earlier hi v) D).
  Proof.
    induction d as [|p d IH]; intros u v; cbn [row].
    - intros E _ _. rewrite within_empty; [apply (sd_refl _ _ _ _ SD)|]. destruct (later_ge lo u) as (_ & X & _), (earlier_le hi v) as (_ & Y & _). lra.
    - intros (A & B & P & R) Ol Oh. apply Forall_cons_iff in Ol as [L1 L2]. apply Forall_cons_iff in Oh as [H1 H2]. specialize (IH _ _ R L2 H2). assert (Rv := row_le _ _ _ R). destruct (row_order _ _ _ R) as [O1 O2].
      destruct H1 as [H1|H1].
      + (* the query ends before the piece *)
        rewrite covered_past; [|split; [constructor; [lra|apply O1]|constructor; [apply O1|eapply Forall_impl; [|exact O2]; cbn beta; intros q; lra]]|intros q [<-|Hq]; [lra|rewrite Forall_forall in O2; specialize (O2 q Hq); cbn beta in O2; lra]].
        rewrite within_empty; [apply (sd_refl _ _ _ _ SD)|]. destruct (later_ge lo u) as (_ & X & _), (earlier_le hi v) as (Y & _ & _). lra.
      + rewrite covered_cons. destruct L1 as [L1|L1].
        * (* the piece is inside *)
          replace (qlt (later lo (ri_inf (fst p))) (earlier hi (ri_sup (fst p)))) with true.
          2:{ symmetry. apply qlt_iff. destruct (later_ge lo (ri_inf (fst p))) as (_ & _ & [X|X]); rewrite X; destruct (earlier_le hi (ri_sup (fst p))) as (_ & _ & [Y|Y]); rewrite Y; lra. }
          cbn [app]. unfold covered_prod. cbn [map fst snd sg_prod fold_right].
          assert (V : (earlier hi v == earlier hi v)%Q) by reflexivity.
          rewrite (within_eq D (later lo u) (earlier hi v) (ri_inf (fst p)) (earlier hi v)); [|destruct (later_cases lo u) as [[-> ?]|[-> ?]]; lra|reflexivity].
          assert (Me : (ri_sup (fst p) <= earlier hi v)%Q) by (destruct (earlier_le hi v) as (_ & _ & [X|X]); rewrite X; lra).
          rewrite (StreamLemmas.between_app D (ri_inf (fst p)) (ri_sup (fst p)) (earlier hi v)); [|exact HD|lra|exact Me].
          eapply (sd_trans _ _ _ _ SD); [|apply (sd_sym _ _ _ _ SD), (PwProofs.prod_app is_zero S ok ctx SD)].
          apply (sd_mul _ _ _ _ SD).
          -- eapply (sd_trans _ _ _ _ SD); [apply (sc_eq _ _ _ SC); apply (frac_full (ri_inf (fst p)) (ri_sup (fst p)) lo hi); lra|]. eapply (sd_trans _ _ _ _ SD); [apply (sc_one _ _ _ SC)|exact P].
          -- eapply (sd_trans _ _ _ _ SD); [exact IH|]. rewrite (within_eq D (later lo (ri_sup (fst p))) (earlier hi v) (ri_sup (fst p)) (earlier hi v)); [apply (sd_refl _ _ _ _ SD)| |reflexivity].
             destruct (later_cases lo (ri_sup (fst p))) as [[-> ?]|[-> ?]]; lra.
        * (* the piece lies before the query *)
          replace (qlt (later lo (ri_inf (fst p))) (earlier hi (ri_sup (fst p)))) with false.
          2:{ symmetry. apply qlt_niff. destruct (later_ge lo (ri_inf (fst p))) as (X & _). destruct (earlier_le hi (ri_sup (fst p))) as (_ & Y & _). lra. }
          cbn [app]. eapply (sd_trans _ _ _ _ SD); [exact IH|].
          rewrite (within_eq D (later lo (ri_sup (fst p))) (earlier hi v) (later lo u) (earlier hi v)); [apply (sd_refl _ _ _ _ SD)| |reflexivity].
          destruct (later_cases lo (ri_sup (fst p))) as [[-> ?]|[-> ?]], (later_cases lo u) as [[-> ?]|[-> ?]]; lra.
  Qed.
End Query.
