(** Queries that start on the grid of a stream's resolution are exact at finer resolutions
    too. *)
From Coq Require Import ZifyBool Lqa Qround.
From Verif Require Export StreamLemmas DyadicMax.
From Verif Require Import Outcome DyadicProofs DyadicProofs2 DyadicProofs3.
Open Scope Z_scope.
Arguments Z.mul : simpl never.
Arguments Z.pow : simpl never.
Arguments Z.add : simpl never.
Arguments Z.sub : simpl never.

Lemma grid_le x n : (grid_floor x n <= x)%Q.
Proof.
  unfold grid_floor, dy. assert (H := Qfloor_le (x * Qpower 2 n)). assert (P := Qpow2_pos (- n)).
  apply (Qmult_le_compat_r _ _ (Qpower 2 (- n))) in H; [|lra]. rewrite <- Qmult_assoc, <- Qpow2_plus in H. replace (n + - n) with 0 in H by lia. cbn [Qpower] in H. lra.
Qed.
Lemma grid_gt x n : (x < grid_floor x n + Qpower 2 (- n))%Q.
Proof.
  unfold grid_floor, dy. assert (H := Qlt_floor (x * Qpower 2 n)). assert (P := Qpow2_pos (- n)).
  apply (Qmult_lt_compat_r _ _ (Qpower 2 (- n))) in H; [|lra]. rewrite <- Qmult_assoc, <- Qpow2_plus in H. replace (n + - n) with 0 in H by lia. cbn [Qpower] in H. rewrite inject_Z_plus in H. change (inject_Z 1) with 1%Q in H. lra.
Qed.
(** A cell of resolution [n], found from its start and from a point before its end. *)
Lemma cell_floor e q r : (e < dy (q + 1) r)%Q -> (grid_floor e r <= dy q r)%Q.
Proof.
  intros H. unfold grid_floor. apply dy_same_le. assert (P := Qpow2_pos r). apply (Qmult_lt_compat_r _ _ (Qpower 2 r)) in H; auto.
  unfold dy in H. rewrite <- Qmult_assoc, <- Qpow2_plus in H. replace (- r + r) with 0 in H by lia. cbn [Qpower] in H. rewrite Qmult_1_r in H.
  assert (F := Qfloor_le (e * Qpower 2 r)). assert (X : (inject_Z (Qfloor (e * Qpower 2 r)) < inject_Z (q + 1))%Q) by lra. rewrite <- Zlt_Qlt in X. lia.
Qed.
(** Pieces finer than r of a dissection whose start lies on the grid of r come after the
    last point of that grid. *)
Lemma fine_piece x e i r a : r < di_n i -> (x == dy a r)%Q -> (x <= dy (di_k i) (di_n i))%Q ->
  out_left x i \/ out_right e i -> (grid_floor e r <= dy (di_k i) (di_n i))%Q.
Proof.
  intros Hr Ex Hx HO. set (k := di_k i) in *. set (n := di_n i) in *. set (q := k / 2 ^ (n - r)).
  assert (HC : forall y, clopen_pts k n y -> clopen_pts q r y). { intros y Hy. apply clopen_coarse; [lia|]. replace (r + (n - r)) with n by lia. exact Hy. }
  destruct (coarser_contains k n q r Hr HC) as [A B]. destruct (HC _ (clopen_inhabited k n)) as [C D].
  unfold out_left, out_right in HO. fold k n in HO. destruct HO as [HO|HO].
  - exfalso. assert (L : (dy q r < dy a r)%Q) by (rewrite <- Ex; lra). apply dy_same_lt in L. assert (L2 : (dy (q + 1) r <= dy a r)%Q) by (apply dy_same_le; lia). rewrite <- Ex in L2. lra.
  - assert (F := cell_floor e q r ltac:(lra)). lra.
Qed.
Lemma within_sub {A} (d : list (Q * A)) a b c e : within a b d = [] -> (a <= c)%Q -> (e <= b)%Q -> within c e d = [].
Proof.
  unfold within. intros H Hc He. destruct (map snd (filter (fun x => Qle_bool c (fst x) && negb (Qle_bool e (fst x))) d)) as [|v l] eqn:E; auto. exfalso.
  assert (Hin : In v (map snd (filter (fun x => Qle_bool c (fst x) && negb (Qle_bool e (fst x))) d))) by (rewrite E; left; auto).
  apply in_map_iff in Hin as (p & _ & Hp). apply filter_In in Hp as [Hp Hb]. change (Qle_bool c (fst p) && negb (Qle_bool e (fst p))) with (inb A c e p) in Hb. apply inb_iff in Hb.
  assert (X : In (snd p) (map snd (filter (inb A a b) d))). { apply in_map. apply filter_In. split; auto. apply inb_iff. lra. }
  unfold inb in X. rewrite H in X. destruct X.
Qed.

Section Align.
  Variable lie : Type.
  Variable is_zero : lie -> bool.
  Variable lie_none : lie.
  Hypothesis none_zero : is_zero lie_none = true.
  Variable S : sigs lie.
  Variable ok : lie -> Prop.
  Variable ctx : actx lie.
  Hypothesis HS : sound is_zero S ok ctx.
  Variable s : stream lie.
  Hypothesis Hst : stream_ok ok s.
  Notation d := (st_data s).
  Notation res := (st_res s).
  Infix "===" := (sg_eq S) (at level 70).
  Notation cinv := (cinv lie ctx d res).
  Notation contrib := (contrib lie d res).

  (** What makes a query at resolution [tol] exact: it is not finer than the stream's, or it
      starts on the stream's grid and no increment lies between the last point of that grid
      and its end. *)
  Definition exact_at (lo hi : Q) (tol : Z) : Prop :=
    tol <= res \/ (exists a, (grid_floor lo tol == dy a res)%Q) /\ within (grid_floor (grid_floor hi tol) res) (grid_floor hi tol) d = [].
  Lemma impl_aligned q tol : (ri_inf q <= ri_sup q)%Q -> fits_query (ri_inf q) (ri_sup q) tol res -> exact_at (ri_inf q) (ri_sup q) tol ->
    exists x, ok x /\ sg_of S x === sg_prod S (within (grid_floor (ri_inf q) tol) (grid_floor (ri_sup q) tol) d) /\
      forall fuel c, (31 <= fuel)%nat -> cinv c -> exists c', stream_impl is_zero lie_none fuel s c q tol ctx = Ok (x, c') /\ cinv c'.
  Proof.
    intros Hle Hfit [Ht|[(a & Ha) Hlast]]; [destruct Hst as (H1 & H2 & _); exact (stream_impl_coarse lie is_zero lie_none none_zero S ok ctx HS s H1 H2 q tol Hle Hfit Ht)|].
    destruct Hst as (Hasc & Hok & Hsup).
    destruct (stream_impl_ok lie is_zero lie_none none_zero S ok ctx HS s Hasc Hok q tol Hle Hfit) as (l & x & El & Hl & HE & Ox & Px & Fx).
    exists x. split; auto. split; auto. destruct (fits_window _ _ _ _ Hfit) as (Ht & W1 & W2).
    assert (HM := dissection_max _ _ _ Hle Ht W1 W2 31 l (le_n _) El). rewrite Forall_forall in HM.
    replace (flat_map (fun i => contrib (di_k i) (di_n i)) l) with (flat_map (fun i => part lie d (di_k i) (di_n i)) l) in Px.
    { rewrite (flat_part lie is_zero lie_none none_zero ok s Hst l _ _ HE) in Px. exact Px. }
    rewrite !flat_map_concat_map. f_equal. apply map_ext_in. intros i Hi.
    destruct (end_to_end_in _ _ _ (di_k i) (di_n i) HE) as [X Y]; [apply (in_map cell) in Hi; exact Hi|].
    unfold StreamProofs.contrib. destruct (di_n i <=? res) eqn:E; auto.
    assert (F := fine_piece _ _ i res a ltac:(lia) Ha X (HM i Hi)).
    assert (N : within (dy (di_k i) (di_n i)) (dy (di_k i + 1) (di_n i)) d = []) by (apply (within_sub d _ _ _ _ Hlast); auto).
    unfold within in N. apply map_eq_nil in N. unfold part. unfold inb in *. rewrite N. rewrite andb_false_r. reflexivity.
  Qed.
  Lemma at_aligned i tol : (ri_inf i <= ri_sup i)%Q -> fits_query (from s i) (upto s i) tol res -> exact_at (from s i) (upto s i) tol ->
    exists x, ok x /\ sg_of S x === sg_prod S (within (grid_floor (from s i) tol) (grid_floor (upto s i) tol) d) /\
      forall fuel c, (31 <= fuel)%nat -> cinv c -> exists c', log_signature_at is_zero lie_none fuel s c i tol ctx = Ok (x, c') /\ cinv c'.
  Proof.
    intros Hi Hfit HA. unfold log_signature_at. destruct (refine_spec s i Hi (proj2 (proj2 Hst))) as [[-> Hd]|(q & R & -> & E1 & E2 & Hlt & _)].
    - exists (cx_zero ctx). split; [apply (sd_zero_ok _ _ _ _ HS)|]. split; [|intros; eauto]. rewrite between_none by (apply grid_mono; auto). apply (sd_zero _ _ _ _ HS).
    - rewrite <- E1, <- E2 in *. apply impl_aligned; auto. lra.
  Qed.
  Lemma default_aligned i : (ri_inf i <= ri_sup i)%Q ->
    (forall tol, default_resolution s i tol -> fits_query (from s i) (upto s i) tol res /\ exact_at (from s i) (upto s i) tol) ->
    exists x, ok x /\ ((upto s i <= from s i)%Q /\ sg_of S x === sg_one S \/
        exists tol, default_resolution s i tol /\ sg_of S x === sg_prod S (within (grid_floor (from s i) tol) (grid_floor (upto s i) tol) d)) /\
      forall fuel c, (31 <= fuel)%nat -> cinv c -> exists c', log_signature is_zero lie_none fuel s c i ctx = Ok (x, c') /\ cinv c'.
  Proof.
    intros Hi Hfit. unfold log_signature. destruct (refine_spec s i Hi (proj2 (proj2 Hst))) as [[-> Hd]|(q & R & -> & E1 & E2 & Hlt & HR)].
    - exists (cx_zero ctx). split; [apply (sd_zero_ok _ _ _ _ HS)|]. split; [left; split; auto; apply (sd_zero _ _ _ _ HS)|intros; eauto].
    - destruct (Hfit R HR) as [Hf HA]. rewrite <- E1, <- E2 in Hf, HA. destruct (impl_aligned q R) as (x & O & P & F); auto; [rewrite E1, E2; lra|].
      exists x. split; auto. split; auto. right. exists R. rewrite <- E1, <- E2. auto.
  Qed.
End Align.

(** The same as properties of calls. *)
Lemma grid_id a r x : (x == dy a r)%Q -> (grid_floor x r == x)%Q.
Proof.
  intros H. rewrite (grid_eq x (dy a r)) by auto. unfold grid_floor. rewrite H. unfold dy at 2.
  rewrite <- Qmult_assoc, <- Qpow2_plus. replace (- r + r) with 0 by lia. cbn [Qpower]. rewrite Qmult_1_r, Qfloor_Z. reflexivity.
Qed.
Lemma grid_finer a r tol x : r <= tol -> (x == dy a r)%Q -> (grid_floor x tol == x)%Q.
Proof. intros H E. apply (grid_id (a * 2 ^ (tol - r))). rewrite E, (dy_scale a r (tol - r)) by lia. replace (r + (tol - r)) with tol by lia. reflexivity. Qed.
Lemma within_eq {A} (d : list (Q * A)) a b a' b' : (a == a')%Q -> (b == b')%Q -> within a b d = within a' b' d.
Proof. intros E1 E2. unfold within. f_equal. apply (filter_ext' A); auto. Qed.
Lemma within_empty {A} (d : list (Q * A)) a b : (b <= a)%Q -> within a b d = [].
Proof. apply between_none. Qed.

Lemma query_on_grid : forall (lie : Type) (is_zero : lie -> bool) (none : lie), is_zero none = true -> forall S ok ctx, sound is_zero S ok ctx ->
  forall s i tol a b, stream_ok ok s -> fits_call s ctx (QAt i tol) -> st_res s <= tol -> (from s i == dy a (st_res s))%Q -> (upto s i == dy b (st_res s))%Q ->
  exists x, ok x /\ sg_eq S (sg_of S x) (sg_prod S (within (from s i) (upto s i) (st_data s))) /\
    forall h, Forall (fits_call s ctx) h -> replies is_zero none s ctx h (QAt i tol) x.
Proof.
  intros lie is_zero none Hn S ok ctx HS s i tol a b Hs [Hi Hf] Hr Ea Eb.
  assert (Ga := grid_finer _ _ _ _ Hr Ea). assert (Gb := grid_finer _ _ _ _ Hr Eb).
  destruct (at_aligned lie is_zero none Hn S ok ctx HS s Hs i tol Hi Hf) as (x & O & P & F).
  { right. split; [exists a; rewrite Ga; exact Ea|]. rewrite (grid_eq _ _ _ Gb). apply within_empty. rewrite (grid_id b _ _ Eb), Gb. apply Qle_refl. }
  exists x. split; auto. split; [rewrite (within_eq (st_data s) _ _ _ _ Ga Gb) in P; exact P|]. intros h Hh. apply (replies_intro is_zero none Hn S ok ctx HS s Hs h _ x Hh). exact F.
Qed.
Lemma query_default_on_grid : forall (lie : Type) (is_zero : lie -> bool) (none : lie), is_zero none = true -> forall S ok ctx, sound is_zero S ok ctx ->
  forall s i a b, stream_ok ok s -> fits_call s ctx (QDefault i) -> (from s i == dy a (st_res s))%Q -> (upto s i == dy b (st_res s))%Q ->
  exists x, ok x /\ sg_eq S (sg_of S x) (sg_prod S (within (from s i) (upto s i) (st_data s))) /\
    forall h, Forall (fits_call s ctx) h -> replies is_zero none s ctx h (QDefault i) x.
Proof.
  intros lie is_zero none Hn S ok ctx HS s i a b Hs [Hi Hf] Ea Eb.
  assert (HR : forall tol, default_resolution s i tol -> st_res s <= tol) by (intros tol (r & _ & _ & _ & ->); lia).
  destruct (default_aligned lie is_zero none Hn S ok ctx HS s Hs i Hi) as (x & O & P & F).
  { intros tol Ht. split; [auto|]. assert (Ga := grid_finer _ _ _ _ (HR tol Ht) Ea). assert (Gb := grid_finer _ _ _ _ (HR tol Ht) Eb).
    right. split; [exists a; rewrite Ga; exact Ea|]. rewrite (grid_eq _ _ _ Gb). apply within_empty. rewrite (grid_id b _ _ Eb), Gb. apply Qle_refl. }
  exists x. split; auto. split; [|intros h Hh; apply (replies_intro is_zero none Hn S ok ctx HS s Hs h _ x Hh); exact F].
  destruct P as [[Hd P]|(tol & Ht & P)].
  - rewrite (within_empty (st_data s) _ _ Hd). exact P.
  - rewrite (within_eq (st_data s) _ _ _ _ (grid_finer _ _ _ _ (HR tol Ht) Ea) (grid_finer _ _ _ _ (HR tol Ht) Eb)) in P. exact P.
Qed.
