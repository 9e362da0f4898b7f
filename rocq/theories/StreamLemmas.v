(** Statements of the stream properties. *)
From Coq Require Import ZifyBool Lqa Qround.
From Verif Require Export StreamProofs3 StreamCtx.
From Verif Require Import Outcome DyadicProofs DyadicProofs2 DyadicProofs3.
Open Scope Z_scope.

(** After the calls [h], from a fresh cache, the call [q] returns [x]. *)
Definition replies {lie} (is_zero : lie -> bool) (none : lie) (s : stream lie) (ctx : actx lie) (h : list query) (q : query) (x : lie) : Prop :=
  forall fuel, (31 <= fuel)%nat -> exists xs c c', ask_all is_zero none fuel s ctx [] h = Ok (xs, c) /\ ask is_zero none fuel s ctx c q = Ok (x, c').

Lemma replies_intro {lie} (is_zero : lie -> bool) none (Hn : is_zero none = true) S ok ctx (HS : sound is_zero S ok ctx) s (Hs : stream_ok ok s) h q x : Forall (fits_call s ctx) h ->
  (forall fuel c, (31 <= fuel)%nat -> cinv lie ctx (st_data s) (st_res s) c -> exists c', ask is_zero none fuel s ctx c q = Ok (x, c') /\ cinv lie ctx (st_data s) (st_res s) c') ->
  replies is_zero none s ctx h q x.
Proof.
  intros Hh Hq fuel Hf. destruct (ask_all_ok lie is_zero none Hn S ok ctx HS s Hs h Hh) as (xs & _ & F). destruct (F fuel [] Hf (cinv_nil lie ctx s)) as (c & E & Hc).
  destruct (Hq fuel c Hf Hc) as (c' & E' & _). exists xs, c, c'. auto.
Qed.
Lemma replies_fun {lie} (is_zero : lie -> bool) none s ctx h q x y : replies is_zero none s ctx h q x -> replies is_zero none s ctx h q y -> x = y.
Proof. intros H1 H2. destruct (H1 31%nat (le_n _)) as (xs & c & c' & E1 & E2). destruct (H2 31%nat (le_n _)) as (ys & b & b' & F1 & F2). assert (b = c) as -> by congruence. congruence. Qed.

Lemma query_product : forall (lie : Type) (is_zero : lie -> bool) (none : lie), is_zero none = true -> forall S ok ctx, sound is_zero S ok ctx ->
  forall s i tol, stream_ok ok s -> fits_call s ctx (QAt i tol) -> tol <= st_res s ->
  exists x, ok x /\ sg_eq S (sg_of S x) (sg_prod S (within (grid_floor (from s i) tol) (grid_floor (upto s i) tol) (st_data s))) /\
    forall h, Forall (fits_call s ctx) h -> replies is_zero none s ctx h (QAt i tol) x.
Proof.
  intros lie is_zero none Hn S ok ctx HS s i tol Hs [Hi Hf] Ht. destruct (log_at_ok lie is_zero none Hn S ok ctx HS s Hs i tol Hi Hf) as (x & (O & _ & P) & F).
  exists x. split; auto. split; auto. intros h Hh. apply (replies_intro is_zero none Hn S ok ctx HS s Hs h _ x Hh). exact F.
Qed.
Lemma default_is_res {lie} (s : stream lie) i tol : 2 <= st_res s -> (Qpower 2 (2 - st_res s) <= upto s i - from s i)%Q -> default_resolution s i tol -> tol = st_res s.
Proof.
  intros H2 Hl (r & R0 & R1 & R2 & ->). destruct R2 as [->|R2]; [lia|]. assert (X : (Qpower 2 (2 - st_res s) < Qpower 2 (1 - r))%Q) by lra.
  destruct (Z_le_gt_dec (r + 2) (st_res s)) as [?|?]; [lia|]. exfalso. apply (Qlt_not_le _ _ X).
  replace (2 - st_res s) with ((1 - r) + (1 - st_res s + r)) by lia. rewrite Qpow2_plus. assert (P := Qpow2_pos (1 - r)).
  assert (1 <= Qpower 2 (1 - st_res s + r))%Q by (rewrite Qpow2_Z by lia; assert (Y := pow2_pos (1 - st_res s + r) ltac:(lia)); change 1%Q with (inject_Z 1); rewrite <- Zle_Qle; lia). nra.
Qed.
Lemma query_default : forall (lie : Type) (is_zero : lie -> bool) (none : lie), is_zero none = true -> forall S ok ctx, sound is_zero S ok ctx ->
  forall s i, stream_ok ok s -> fits_call s ctx (QDefault i) -> 2 <= st_res s -> (Qpower 2 (2 - st_res s) <= upto s i - from s i)%Q ->
  exists x, ok x /\ sg_eq S (sg_of S x) (sg_prod S (within (grid_floor (from s i) (st_res s)) (grid_floor (upto s i) (st_res s)) (st_data s))) /\
    forall h, Forall (fits_call s ctx) h -> replies is_zero none s ctx h (QDefault i) x.
Proof.
  intros lie is_zero none Hn S ok ctx HS s i Hs [Hi Hf] H2 Hl. destruct (log_default_ok lie is_zero none Hn S ok ctx HS s Hs i Hi Hf) as (x & [(Hd & O & P)|(tol & Hlt & Hd & (O & _ & P))] & F).
  - exfalso. assert (Q := Qpow2_pos (2 - st_res s)). lra.
  - assert (tol = st_res s) as -> by (apply (default_is_res s i); auto). exists x. split; auto. split; [apply P; lia|]. intros h Hh. apply (replies_intro is_zero none Hn S ok ctx HS s Hs h _ x Hh). exact F.
Qed.

Lemma later_ge a b : (a <= later a b)%Q /\ (b <= later a b)%Q /\ (later a b = a \/ later a b = b).
Proof. unfold later. destruct (Qle_bool b a) eqn:E; [apply Qle_bool_iff in E|assert (X := proj1 (qle_niff _ _) E)]; repeat split; auto; lra. Qed.
Lemma earlier_le a b : (earlier a b <= a)%Q /\ (earlier a b <= b)%Q /\ (earlier a b = a \/ earlier a b = b).
Proof. unfold earlier. destruct (Qle_bool a b) eqn:E; [apply Qle_bool_iff in E|assert (X := proj1 (qle_niff _ _) E)]; repeat split; auto; lra. Qed.
Lemma grid_eq x y n : (x == y)%Q -> grid_floor x n = grid_floor y n.
Proof. intros H. unfold grid_floor. f_equal. rewrite H. reflexivity. Qed.
Lemma between_app {A} (d : list (Q * A)) a b c : ascending d -> (a <= b)%Q -> (b <= c)%Q -> within a c d = within a b d ++ within b c d.
Proof. intros Hd H1 H2. unfold within. rewrite <- map_app. f_equal. apply (filter_split A); auto. Qed.

Lemma split_trim {lie} (s : stream lie) a b c t1 t2 t3 n : ascending (st_data s) -> (ri_inf (st_support s) <= ri_sup (st_support s))%Q -> (a <= b)%Q -> (b <= c)%Q ->
  let i := mkRI a b t1 in let j := mkRI b c t2 in let k := mkRI a c t3 in
  within (grid_floor (from s k) n) (grid_floor (upto s k) n) (st_data s) =
  within (grid_floor (from s i) n) (grid_floor (upto s i) n) (st_data s) ++ within (grid_floor (from s j) n) (grid_floor (upto s j) n) (st_data s).
Proof.
  intros Ha Hs H1 H2 i j k. unfold from, upto. cbn [ri_inf ri_sup i j k]. set (p := ri_inf (st_support s)) in *. set (q := ri_sup (st_support s)) in *.
  destruct (later_ge a p) as (A1 & A2 & A3). destruct (later_ge b p) as (B1 & B2 & B3). destruct (earlier_le b q) as (C1 & C2 & C3). destruct (earlier_le c q) as (D1 & D2 & D3).
  destruct (Qlt_le_dec b p) as [X|X].
  - rewrite (between_none lie (grid_floor (later a p) n) (grid_floor (earlier b q) n)) by (apply grid_mono; lra). cbn [app]. rewrite (grid_eq (later a p) (later b p)); auto. destruct A3 as [X3|X3], B3 as [Y3|Y3]; rewrite X3, Y3 in *; lra.
  - destruct (Qlt_le_dec q b) as [Y|Y].
    + rewrite (between_none lie (grid_floor (later b p) n) (grid_floor (earlier c q) n)) by (apply grid_mono; lra). rewrite app_nil_r. rewrite (grid_eq (earlier b q) (earlier c q)); auto. destruct C3 as [X3|X3], D3 as [Y3|Y3]; rewrite X3, Y3 in *; lra.
    + rewrite (grid_eq (earlier b q) b) by (destruct C3 as [X3|X3]; rewrite X3 in *; lra). rewrite (grid_eq (later b p) b) by (destruct B3 as [X3|X3]; rewrite X3 in *; lra).
      apply between_app; auto; apply grid_mono; [destruct A3 as [X3|X3]; rewrite X3 in *; lra|destruct D3 as [X3|X3]; rewrite X3 in *; lra].
Qed.
Lemma chen : forall (lie : Type) (is_zero : lie -> bool) (none : lie), is_zero none = true -> forall S ok ctx, sound is_zero S ok ctx ->
  forall s a b c t1 t2 t3 tol, stream_ok ok s -> (a <= b)%Q -> (b <= c)%Q -> tol <= st_res s ->
  fits_call s ctx (QAt (mkRI a b t1) tol) -> fits_call s ctx (QAt (mkRI b c t2) tol) -> fits_call s ctx (QAt (mkRI a c t3) tol) ->
  forall h1 h2 h3 x y z, Forall (fits_call s ctx) h1 -> Forall (fits_call s ctx) h2 -> Forall (fits_call s ctx) h3 ->
  replies is_zero none s ctx h1 (QAt (mkRI a b t1) tol) x -> replies is_zero none s ctx h2 (QAt (mkRI b c t2) tol) y -> replies is_zero none s ctx h3 (QAt (mkRI a c t3) tol) z ->
  sg_eq S (sg_of S z) (sg_mul S (sg_of S x) (sg_of S y)).
Proof.
  intros lie is_zero none Hn S ok ctx HS s a b c t1 t2 t3 tol Hs H1 H2 Ht Fi Fj Fk h1 h2 h3 x y z G1 G2 G3 Ax Ay Az.
  destruct (query_product lie is_zero none Hn S ok ctx HS s _ tol Hs Fi Ht) as (x' & _ & Px & Ax'). rewrite <- (replies_fun _ _ _ _ _ _ _ _ Ax (Ax' h1 G1)) in Px.
  destruct (query_product lie is_zero none Hn S ok ctx HS s _ tol Hs Fj Ht) as (y' & _ & Py & Ay'). rewrite <- (replies_fun _ _ _ _ _ _ _ _ Ay (Ay' h2 G2)) in Py.
  destruct (query_product lie is_zero none Hn S ok ctx HS s _ tol Hs Fk Ht) as (z' & _ & Pz & Az'). rewrite <- (replies_fun _ _ _ _ _ _ _ _ Az (Az' h3 G3)) in Pz.
  rewrite (split_trim s a b c t1 t2 t3 tol (proj1 Hs) (proj2 (proj2 Hs)) H1 H2) in Pz.
  eapply (sd_trans _ _ _ _ HS); [exact Pz|]. eapply (sd_trans _ _ _ _ HS); [apply (prod_app lie is_zero S ok ctx HS)|]. apply (sd_mul _ _ _ _ HS); apply (sd_sym _ _ _ _ HS); auto.
Qed.

(** The trivial signature: nothing is said about the values. *)
Definition unit_sigs (lie : Type) : sigs lie := mkSigs lie Datatypes.unit (fun _ _ => True) (fun _ _ => tt) tt (fun _ => tt).
Lemma unit_sound {lie} (is_zero : lie -> bool) ctx : sound is_zero (unit_sigs lie) (fun _ => True) ctx.
Proof. constructor; cbn; auto. Qed.
Lemma transparent : forall (lie : Type) (is_zero : lie -> bool) (none : lie), is_zero none = true -> forall ctx s,
  stream_ok (fun _ => True) s -> forall q, fits_call s ctx q -> exists x, forall h, Forall (fits_call s ctx) h -> replies is_zero none s ctx h q x.
Proof.
  intros lie is_zero none Hn ctx s Hs q Hq. destruct (ask_ok lie is_zero none Hn _ _ ctx (unit_sound is_zero ctx) s Hs q Hq) as (x & _ & F). exists x. intros h Hh.
  apply (replies_intro is_zero none Hn _ _ ctx (unit_sound is_zero ctx) s Hs h q x Hh F).
Qed.

(** Queries finer than the stream's resolution. *)
Lemma query_pieces : forall (lie : Type) (is_zero : lie -> bool) (none : lie), is_zero none = true -> forall S ok ctx, sound is_zero S ok ctx ->
  forall s i tol, stream_ok ok s -> fits_call s ctx (QAt i tol) -> (from s i <= upto s i)%Q ->
  exists x pieces outs, end_to_end (grid_floor (from s i) tol) (grid_floor (upto s i) tol) pieces /\ Forall (fun c => snd c <= tol) pieces /\
    Forall2 (piece_gives (st_res s) (st_data s)) pieces outs /\ ok x /\ sg_eq S (sg_of S x) (sg_prod S (concat outs)) /\
    forall h, Forall (fits_call s ctx) h -> replies is_zero none s ctx h (QAt i tol) x.
Proof.
  intros lie is_zero none Hn S ok ctx HS s i tol Hs [Hi Hf] Hle. destruct (log_at_ok lie is_zero none Hn S ok ctx HS s Hs i tol Hi Hf) as (x & (O & M & P) & F).
  assert (A : forall h, Forall (fits_call s ctx) h -> replies is_zero none s ctx h (QAt i tol) x) by (intros h Hh; apply (replies_intro is_zero none Hn S ok ctx HS s Hs h _ x Hh); exact F).
  destruct M as [[Hd M]|(pieces & outs & M1 & M2 & M3 & M4)].
  - exists x, [], []. repeat (split; auto). cbn. rewrite (grid_eq (from s i) (upto s i)); [reflexivity|lra].
  - exists x, pieces, outs. auto 10.
Qed.
Lemma query_inside_cell : forall (lie : Type) (is_zero : lie -> bool) (none : lie), is_zero none = true -> forall S ok ctx, sound is_zero S ok ctx ->
  forall s i tol q, stream_ok ok s -> fits_call s ctx (QAt i tol) -> (from s i <= upto s i)%Q ->
  (dy q (st_res s) < grid_floor (from s i) tol)%Q -> (grid_floor (upto s i) tol <= dy (q + 1) (st_res s))%Q ->
  exists x, sg_eq S (sg_of S x) (sg_one S) /\ forall h, Forall (fits_call s ctx) h -> replies is_zero none s ctx h (QAt i tol) x.
Proof.
  intros lie is_zero none Hn S ok ctx HS s i tol q Hs Hf Hle Hlo Hhi. destruct (query_pieces lie is_zero none Hn S ok ctx HS s i tol Hs Hf Hle) as (x & pieces & outs & HE & HT & HG & _ & P & A).
  exists x. split; auto. eapply (sd_trans _ _ _ _ HS); [exact P|]. replace (concat outs) with (@nil lie); [apply (sd_refl _ _ _ _ HS)|].
  assert (Hin : forall c, In c pieces -> (dy q (st_res s) < dy (fst c) (snd c))%Q /\ (dy (fst c + 1) (snd c) <= dy (q + 1) (st_res s))%Q).
  { intros [k n] Hc. destruct (end_to_end_in _ _ _ k n HE Hc) as [X Y]. cbn. lra. }
  clear - HG Hin. induction HG as [|[k n] o pieces outs G HG IH]; auto. cbn [concat]. rewrite <- IH by (intros c Hc; apply Hin; right; auto).
  destruct (Hin (k, n) (or_introl eq_refl)) as [X Y]. cbn [fst snd] in X, Y. rewrite app_nil_r. set (r := st_res s) in *. cbn [piece_gives] in G.
  assert (No : forall q', ~ (dy k n == dy q' r)%Q).
  { intros q' E. rewrite E in X. rewrite dy_same_lt in X. assert (Z1 : (dy q' r < dy (q + 1) r)%Q). { rewrite <- E. eapply Qlt_le_trans; [|exact Y]. apply dy_same_lt. lia. } rewrite dy_same_lt in Z1. lia. }
  destruct G as [[G _]|[(_ & _ & q' & E & _)|[(_ & _ & E)|(_ & _ & E)]]]; auto.
  - exfalso. apply (No (k * 2 ^ (r - n))). rewrite (dy_scale k n (r - n)) by lia. replace (n + (r - n)) with r by lia. reflexivity.
  - exfalso. apply (No q' E).
Qed.
Lemma query_cell_start : forall (lie : Type) (is_zero : lie -> bool) (none : lie), is_zero none = true -> forall S ok ctx, sound is_zero S ok ctx ->
  forall s i m q, stream_ok ok s -> fits_call s ctx (QAt i (st_res s + m)) -> 0 < m ->
  (from s i == dy q (st_res s))%Q -> (upto s i == dy (q * 2 ^ m + 1) (st_res s + m))%Q -> within (from s i) (upto s i) (st_data s) <> [] ->
  exists x, sg_eq S (sg_of S x) (sg_prod S (within (dy q (st_res s)) (dy (q + 1) (st_res s)) (st_data s))) /\
    forall h, Forall (fits_call s ctx) h -> replies is_zero none s ctx h (QAt i (st_res s + m)) x.
Proof.
  intros lie is_zero none Hn S ok ctx HS s i m q Hs Hf Hm E1 E2 Hne. set (r := st_res s) in *. set (tol := r + m) in *.
  assert (E1' : (from s i == dy (q * 2 ^ m) tol)%Q) by (rewrite E1; apply dy_scale; lia).
  assert (Hle : (from s i <= upto s i)%Q) by (rewrite E1', E2; apply dy_same_le; lia).
  destruct (query_pieces lie is_zero none Hn S ok ctx HS s i tol Hs Hf Hle) as (x & pieces & outs & HE & HT & HG & _ & P & A). exists x. split; auto. eapply (sd_trans _ _ _ _ HS); [exact P|].
  assert (GF : forall k x, (x == dy k tol)%Q -> (grid_floor x tol == dy k tol)%Q).
  { intros k y Hy. unfold grid_floor. rewrite Hy. unfold dy at 2. rewrite <- Qmult_assoc, <- Qpow2_plus. replace (- tol + tol) with 0 by lia. cbn [Qpower]. rewrite Qmult_1_r, Qfloor_Z. reflexivity. }
  assert (F1 := GF _ _ E1'). assert (F2 := GF _ _ E2).
  destruct HG as [|[k n] o pieces outs G HG]; [cbn in HE; rewrite F1, F2 in HE; apply dy_same_eq in HE; lia|].
  cbn [end_to_end] in HE. destruct HE as [Hk HE]. assert (Hn' := Forall_inv HT). cbn [snd] in Hn'.
  assert (Hpos : 1 <= 2 ^ (tol - n)) by (pose proof (pow2_pos (tol - n)); lia).
  assert (Hl1 : (dy (k + 1) n <= grid_floor (upto s i) tol)%Q) by (apply (e2e_le lie is_zero none Hn _ _ _ HE)).
  rewrite F1 in Hk. rewrite F2 in Hl1. rewrite (dy_scale k n (tol - n)) in Hk by lia. rewrite (dy_scale (k + 1) n (tol - n)) in Hl1 by lia. replace (n + (tol - n)) with tol in * by lia.
  rewrite dy_same_le in Hl1. rewrite dy_same_eq in Hk. assert (Hp1 : 2 ^ (tol - n) = 1) by nia. assert (n = tol).
  { destruct (Z_le_gt_dec tol n); [lia|]. exfalso. assert (2 ^ 1 <= 2 ^ (tol - n)) by (apply Z.pow_le_mono_r; lia). lia. } subst n. clear Hl1. replace (tol - tol) with 0 in Hk by lia. rewrite Z.pow_0_r, Z.mul_1_r in Hk. subst k.
  assert (Hnil : pieces = []).
  { destruct pieces as [|[k' n'] pieces]; auto. exfalso. cbn [end_to_end] in HE. destruct HE as [HE1 HE2]. apply (e2e_le lie is_zero none Hn) in HE2. rewrite F2 in HE2. rewrite HE1 in HE2.
    apply (Qlt_not_le (dy k' n') (dy (k' + 1) n')); [apply dy_same_lt; lia|exact HE2]. }
  subst pieces. inversion HG. subst outs. cbn [concat]. rewrite app_nil_r.
  assert (Hown : within (dy (q * 2 ^ m) tol) (dy (q * 2 ^ m + 1) tol) (st_data s) = within (from s i) (upto s i) (st_data s)).
  { unfold within. f_equal. apply (filter_ext' lie); [symmetry; auto|symmetry; auto]. }
  cbn [piece_gives] in G. rewrite Hown in G. destruct G as [[G _]|[(_ & _ & q' & E & ->)|[(_ & E & _)|(_ & E & _)]]]; [lia| |contradiction|].
  - rewrite <- E1', E1 in E. apply dy_same_eq in E. subst q'. apply (sd_refl _ _ _ _ HS).
  - exfalso. apply (E q). rewrite <- E1'. exact E1.
Qed.
Lemma layer_direct : forall (lie : Type) (is_zero : lie -> bool) (none : lie), is_zero none = true -> forall S ok ctx, sound is_zero S ok ctx ->
  forall s i tol, stream_ok ok s -> fits_call s ctx (QLayer i tol) -> cx_depth ctx <> cx_depth (st_ctx s) \/ tol <= st_res s ->
  exists x, ok x /\ sg_eq S (sg_of S x) (sg_prod S (within (grid_floor (ri_inf i) tol) (grid_floor (ri_sup i) tol) (st_data s))) /\
    forall h, Forall (fits_call s ctx) h -> replies is_zero none s ctx h (QLayer i tol) x.
Proof.
  intros lie is_zero none Hn S ok ctx HS s i tol Hs (Hi & Hf & Hw) Hd. destruct (layer_ok lie is_zero none Hn S ok ctx HS s Hs i tol Hi Hf Hw) as (x & O & _ & P & F).
  exists x. split; auto. split; auto. intros h Hh. apply (replies_intro is_zero none Hn S ok ctx HS s Hs h _ x Hh). exact F.
Qed.
Lemma increments_spec : forall (lie : Type) (rows : list (Q * lie)), ascending (lis_data rows) /\
  forall k v, In (k, v) (lis_data rows) <-> exists before after, rows = before ++ (k, v) :: after /\ forall e, In e before -> ~ (fst e == k)%Q.
Proof. intros lie rows. destruct (lis_data_spec lie rows) as [H1 H2]. split; auto. intros k v. exact (H2 (k, v)). Qed.
