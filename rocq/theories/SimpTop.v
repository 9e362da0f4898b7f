(** Simplified streams answer as the stream they come from. *)
From Coq Require Import ZifyBool Lqa Qround Lia.
From Verif Require Export SimpProofs.
From Verif Require Import StreamProofs StreamProofs2 StreamProofs3 DyadicProofs DyadicProofs2 PwProofs StreamAlign IntervalProofs2 PwEx StreamEx.
Open Scope Z_scope.

Section Top.
  Context {lie : Type}.
  Variables (is_zero : lie -> bool) (none : lie).
  Hypothesis Hn : is_zero none = true.
  Variables (S : sigs lie) (ok : lie -> Prop) (ctx : actx lie) (smul : Q -> lie -> lie).
  Hypothesis HS : sound is_zero S ok ctx.
  Hypothesis SC : scaling S ok smul.
  Variable s : stream lie.
  Hypothesis Hs : stream_ok ok s.
  Infix "===" := (sg_eq S) (at level 70).

  (** One piece: all its increments. *)
  Lemma piece_sig r k n iv x : n <= r -> n <= st_res s -> (ri_inf iv == dy k n)%Q -> (ri_sup iv == dy (k + 1) n)%Q ->
    (ri_inf (st_support s) <= ri_inf iv)%Q -> (ri_sup iv <= ri_sup (st_support s))%Q -> fits_call s ctx (QAt iv r) -> replies is_zero none s ctx [] (QAt iv r) x ->
    sg_of S x === sg_prod S (within (ri_inf iv) (ri_sup iv) (st_data s)).
  Proof.
    intros N1 N2 E1 E2 S1 S2 F R.
    assert (A : (from s iv == ri_inf iv)%Q) by (unfold from; destruct (later_cases (ri_inf iv) (ri_inf (st_support s))) as [[-> ?]|[-> ?]]; lra).
    assert (B : (upto s iv == ri_sup iv)%Q) by (unfold upto; destruct (earlier_cases (ri_sup iv) (ri_sup (st_support s))) as [[-> ?]|[-> ?]]; lra).
    destruct (Z_le_gt_dec r (st_res s)) as [L|L].
    - destruct (query_product lie is_zero none Hn S ok ctx HS s iv r Hs F L) as (y & _ & P & Q). rewrite (replies_fun _ _ _ _ _ _ _ _ R (Q [] (Forall_nil _))).
      rewrite (within_eq (st_data s) _ _ (ri_inf iv) (ri_sup iv)) in P; [exact P| |].
      + rewrite (grid_eq _ _ _ A), (grid_finer k n r (ri_inf iv)); auto. reflexivity.
      + rewrite (grid_eq _ _ _ B), (grid_finer (k + 1) n r (ri_sup iv)); auto. reflexivity.
    - assert (G : forall j, (dy j n == dy (j * 2 ^ (st_res s - n)) (st_res s))%Q) by (intros j; rewrite (dy_scale j n (st_res s - n)) by lia; replace (n + (st_res s - n)) with (st_res s) by lia; reflexivity).
      destruct (query_on_grid lie is_zero none Hn S ok ctx HS s iv r (k * 2 ^ (st_res s - n)) ((k + 1) * 2 ^ (st_res s - n)) Hs F) as (y & _ & P & Q); [lia|rewrite A, E1; apply G|rewrite B, E2; apply G|].
      rewrite (replies_fun _ _ _ _ _ _ _ _ R (Q [] (Forall_nil _))). rewrite (within_eq (st_data s) _ _ (ri_inf iv) (ri_sup iv) A B) in P. exact P.
  Qed.

  Variables (p : IntervalModel.partition) (r : Z).
  Hypothesis Hm : made p.
  Hypothesis Hf : forall i iv, piece p i = Ok iv -> fits_call s ctx (QAt iv r).
  Hypothesis Hd : dyadic_pieces p (Z.min r (st_res s)).
  Hypothesis Hinf : (ri_inf (st_support s) <= p_inf p)%Q.
  Hypothesis Hsup : (p_sup p <= ri_sup (st_support s))%Q.

  Lemma ends_row (e : list Q) ty : forall (l : list (lie_piece lie)) i u v, nth_error e i = Some u -> nth_error e (i + length l) = Some v ->
    (forall j, (j < length l)%nat -> exists a b x, nth_error e (i + j) = Some a /\ nth_error e (Datatypes.S (i + j)) = Some b /\ (a < b)%Q /\ nth_error l j = Some (mkRI a b ty, x) /\
      sg_of S x === sg_prod S (within a b (st_data s))) -> row S (st_data s) u v l.
  Proof.
    induction l as [|[iv x] l IH]; intros i u v Hu Hv H; cbn [row length] in *.
    - rewrite Nat.add_0_r in Hv. rewrite Hu in Hv. injection Hv as ->. reflexivity.
    - destruct (H O ltac:(lia)) as (a & b & y & E1 & E2 & L & E3 & P). rewrite Nat.add_0_r in E1, E2. cbn [nth_error] in E3. injection E3 as -> ->. rewrite E1 in Hu. injection Hu as ->. cbn [fst snd ri_inf ri_sup].
      split; [reflexivity|]. split; [exact L|]. split; [exact P|]. apply (IH (Datatypes.S i)); [exact E2|rewrite <- Hv; f_equal; lia|].
      intros j Hj. destruct (H (Datatypes.S j) ltac:(lia)) as (a' & b' & x' & X1 & X2 & X3 & X4 & X5). exists a', b', x'. replace (Datatypes.S i + j)%nat with (i + Datatypes.S j)%nat by lia. auto.
  Qed.
  Lemma data_row w : pws_data w <> [] \/ True -> length (pws_data w) = p_size p ->
    (forall i, (i < p_size p)%nat -> exists iv x, nth_error (pws_data w) i = Some (iv, x) /\ piece p i = Ok iv /\ ok x /\
        forall h, Forall (fits_call s ctx) h -> replies is_zero none s ctx h (QAt iv r) x) ->
    row S (st_data s) (p_inf p) (p_sup p) (pws_data w) /\ Forall (fun e => ok (snd e)) (pws_data w) /\
    Forall (fun e => exists k n, (ri_inf (fst e) == dy k n)%Q /\ (ri_sup (fst e) == dy (k + 1) n)%Q) (pws_data w) /\
    (forall x, between_pieces p x -> outside (pws_data w) x).
  Proof.
    intros _ Hl Hw. destruct (made_tiles p Hm) as (e & E0 & En & T & _).
    assert (Mono : forall i u, (i <= p_size p)%nat -> nth_error e i = Some u -> (p_inf p <= u)%Q).
    { induction i as [|i IH]; intros u Hi Hu; [rewrite E0 in Hu; injection Hu as <-; apply Qle_refl|]. destruct (T i ltac:(lia)) as (a & b & A & B & L & _). rewrite B in Hu. injection Hu as <-. specialize (IH a ltac:(lia) A). lra. }
    assert (Mono2 : forall m i u, (i + m = p_size p)%nat -> nth_error e i = Some u -> (u <= p_sup p)%Q).
    { induction m as [|m IH]; intros i u Hi Hu; [replace i with (p_size p) in Hu by lia; rewrite En in Hu; injection Hu as <-; apply Qle_refl|]. destruct (T i ltac:(lia)) as (a & b & A & B & L & _). rewrite A in Hu. injection Hu as <-. specialize (IH (Datatypes.S i) b ltac:(lia) B). lra. }
    assert (All : forall q, In q (pws_data w) -> exists i, (i < p_size p)%nat /\ nth_error (pws_data w) i = Some q).
    { intros q Hq. apply In_nth_error in Hq as (i & Hi). exists i. split; [|exact Hi]. rewrite <- Hl. apply nth_error_Some. congruence. }
    split; [|split; [|split]].
    - apply (ends_row e (p_type p) _ 0); [exact E0|cbn [Nat.add]; rewrite Hl; exact En|]. rewrite Hl. intros j Hj. cbn [Nat.add].
      destruct (T j Hj) as (a & b & A & B & L & P). destruct (Hw j Hj) as (iv & x & X1 & X2 & _ & X3). assert (iv = mkRI a b (p_type p)) as -> by congruence.
      destruct (Hd j _ X2) as (k & n & N & K1 & K2). cbn [ri_inf ri_sup] in K1, K2. exists a, b, x. split; [exact A|]. split; [exact B|]. split.
      + rewrite K1, K2. unfold dy. apply Qmult_lt_r; [apply Qpow2_pos|]. rewrite <- Zlt_Qlt. lia.
      + split; [exact X1|]. apply (piece_sig r k n (mkRI a b (p_type p))); auto; cbn [ri_inf ri_sup]; auto; try lia.
        * specialize (Mono j a ltac:(lia) A). lra. * specialize (Mono2 (p_size p - Datatypes.S j)%nat (Datatypes.S j) b ltac:(lia) B). lra. * apply (Hf j). exact X2.
    - apply Forall_forall. intros q Hq. destruct (All q Hq) as (i & Hi & E). destruct (Hw i Hi) as (iv & x & X1 & _ & O & _). assert (q = (iv, x)) as -> by congruence. exact O.
    - apply Forall_forall. intros q Hq. destruct (All q Hq) as (i & Hi & E). destruct (Hw i Hi) as (iv & x & X1 & X2 & _). assert (q = (iv, x)) as -> by congruence. destruct (Hd i iv X2) as (k & n & _ & K). exists k, n. exact K.
    - intros y Hy. apply Forall_forall. intros q Hq. destruct (All q Hq) as (i & Hi & E). destruct (Hw i Hi) as (iv & x & X1 & X2 & _). assert (q = (iv, x)) as -> by congruence. apply (Hy i iv X2).
  Qed.

  Lemma simplify_fun effective w w' h : simplifies is_zero none s effective ctx p r h w -> simplifies is_zero none s effective ctx p r h w' -> w = w'.
  Proof. intros A B. destruct (A 31%nat (le_n _)) as (xs & c & c' & A1 & A2 & _). destruct (B 31%nat (le_n _)) as (ys & d & d' & B1 & B2 & _). assert (d = c) as -> by congruence. congruence. Qed.

  Lemma impl_same effective h w q tol fuel : Forall (fits_call s ctx) h -> simplifies is_zero none s effective ctx p r h w -> (ri_inf q <= ri_sup q)%Q -> - 2 ^ 28 <= tol <= 2 ^ 28 -> window (ri_inf q) tol -> window (ri_sup q) tol -> (31 <= fuel)%nat ->
    between_pieces p (grid_floor (ri_inf q) tol) -> between_pieces p (grid_floor (ri_sup q) tol) ->
    exists x, pws_impl is_zero smul fuel w q tol ctx = Ok x /\ ok x /\
      sg_of S x === sg_prod S (within (later (grid_floor (ri_inf q) tol) (p_inf p)) (earlier (grid_floor (ri_sup q) tol) (p_sup p)) (st_data s)).
  Proof.
    intros Hh Hw Hq Ht W1 W2 Hfu B1 B2. destruct (simplify_spec is_zero none Hn S ok ctx HS s Hs p r Hm Hf effective) as (w' & _ & _ & _ & Hl & Hj & Hall).
    rewrite (simplify_fun _ _ _ _ Hw (Hall h Hh)) in *. destruct (data_row w' (or_intror I) Hl Hj) as (R & O & K & Out). destruct q as [inf sup t]. cbn [ri_inf ri_sup] in *.
    destruct (row_order S _ _ _ _ R) as [Ord _].
    destruct (impl_covered is_zero S ok ctx smul HS SC (pws_data w') inf sup tol t w' fuel Ord O Hq Ht W1 W2 Hfu eq_refl) as (x & E & Ox & P).
    { intros l i El Hi. specialize (Out _ B1) as Out1. specialize (Out _ B2) as Out2. unfold outside in *. rewrite Forall_forall in *. intros e He. destruct (K e He) as (k & n & K1 & K2).
      apply (not_cut inf sup tol l fuel Hq Ht W1 W2 Hfu El k n); auto. }
    exists x. split; [exact E|]. split; [exact Ox|]. eapply (sd_trans _ _ _ _ HS); [exact P|]. apply (row_covered is_zero S ok ctx smul HS SC); auto. apply (proj1 Hs).
  Qed.

  Lemma support_is effective h w : simplifies is_zero none s effective ctx p r h w -> pws_support w = effective /\ pws_res w = r.
  Proof. intros Hw. destruct (Hw 31%nat (le_n _)) as (xs & c & c' & _ & E & _). unfold simplify in E. destruct simplify_loop as [[l c1]| | |]; try discriminate. cbn [bind] in E. injection E as <- _. auto. Qed.
  Lemma none_empty (a b c e u v : Q) : (b <= a)%Q -> (a <= c)%Q -> (e <= b)%Q -> sg_of S (cx_zero ctx) === sg_prod S (within (later c u) (earlier e v) (st_data s)).
  Proof.
    intros H1 H2 H3. rewrite within_empty; [apply (sd_zero _ _ _ _ HS)|]. destruct (later_ge c u) as (X & _), (earlier_le e v) as (Y & _). lra.
  Qed.
  Lemma at_same effective h w i tol fuel : (ri_inf effective <= ri_sup effective)%Q -> Forall (fits_call s ctx) h -> simplifies is_zero none s effective ctx p r h w -> fits_at w i tol -> (31 <= fuel)%nat ->
    let lo := grid_floor (from (pws_view w) i) tol in let hi := grid_floor (upto (pws_view w) i) tol in between_pieces p lo -> between_pieces p hi ->
    exists x, pws_at is_zero smul fuel w i tol ctx = Ok x /\ sg_of S x === sg_prod S (within (later lo (p_inf p)) (earlier hi (p_sup p)) (st_data s)).
  Proof.
    intros He Hh Hw (Hi & Ht & W1 & W2) Hfu lo hi B1 B2. destruct (support_is _ _ _ Hw) as [Ew _].
    unfold pws_at. destruct (refine_spec (pws_view w) i Hi) as [[-> Hx]|(q & R & -> & E1 & E2 & Hlt & _)]; [cbn; rewrite Ew; exact He| |].
    - eexists. split; [reflexivity|]. apply (none_empty lo hi); try apply Qle_refl. apply grid_mono. exact Hx.
    - unfold lo, hi in *. rewrite <- E1, <- E2 in *.
      destruct (impl_same effective h w q tol fuel Hh Hw (Qlt_le_weak _ _ Hlt) Ht W1 W2 Hfu B1 B2) as (x & E & _ & P). eauto.
  Qed.
  Lemma default_same effective h w i fuel : (ri_inf effective <= ri_sup effective)%Q -> Forall (fits_call s ctx) h -> simplifies is_zero none s effective ctx p r h w -> (ri_inf i <= ri_sup i)%Q -> (31 <= fuel)%nat ->
    (forall tol, default_resolution (pws_view w) i tol -> fits_at w i tol /\ (grid_floor (from (pws_view w) i) tol == from (pws_view w) i)%Q /\ (grid_floor (upto (pws_view w) i) tol == upto (pws_view w) i)%Q) ->
    between_pieces p (from (pws_view w) i) -> between_pieces p (upto (pws_view w) i) ->
    exists x, pws_default is_zero smul fuel w i ctx = Ok x /\ sg_of S x === sg_prod S (within (later (from (pws_view w) i) (p_inf p)) (earlier (upto (pws_view w) i) (p_sup p)) (st_data s)).
  Proof.
    intros He Hh Hw Hi Hfu HT B1 B2. destruct (support_is _ _ _ Hw) as [Ew _].
    unfold pws_default. destruct (refine_spec (pws_view w) i Hi) as [[-> Hx]|(q & R & -> & E1 & E2 & Hlt & HR)]; [cbn; rewrite Ew; exact He| |].
    - eexists. split; [reflexivity|]. apply (none_empty (from (pws_view w) i) (upto (pws_view w) i)); try apply Qle_refl. exact Hx.
    - destruct (HT R HR) as ((_ & Ht & W1 & W2) & G1 & G2). rewrite <- E1, <- E2 in *.
      destruct (impl_same effective h w q R fuel Hh Hw (Qlt_le_weak _ _ Hlt) Ht W1 W2 Hfu) as (x & E & _ & P).
      { intros j iv Hj. rewrite G1. apply (B1 j iv Hj). } { intros j iv Hj. rewrite G2. apply (B2 j iv Hj). }
      exists x. split; [exact E|].
      rewrite (within_eq (st_data s) _ _ (later (ri_inf q) (p_inf p)) (earlier (ri_sup q) (p_sup p))) in P; [exact P| |].
      + destruct (later_cases (grid_floor (ri_inf q) R) (p_inf p)) as [[-> ?]|[-> ?]], (later_cases (ri_inf q) (p_inf p)) as [[-> ?]|[-> ?]]; lra.
      + destruct (earlier_cases (grid_floor (ri_sup q) R) (p_sup p)) as [[-> ?]|[-> ?]], (earlier_cases (ri_sup q) (p_sup p)) as [[-> ?]|[-> ?]]; lra.
  Qed.
  (** Between two points of the partition, the answer of the stream itself. *)
  Lemma same_answer effective h h2 w i tol fuel y : (ri_inf effective <= ri_sup effective)%Q -> Forall (fits_call s ctx) h -> Forall (fits_call s ctx) h2 -> simplifies is_zero none s effective ctx p r h w -> fits_at w i tol -> (31 <= fuel)%nat ->
    fits_call s ctx (QAt i tol) -> tol <= st_res s -> (p_inf p <= ri_inf i)%Q -> (ri_sup i <= p_sup p)%Q -> (ri_inf effective <= p_inf p)%Q -> (p_sup p <= ri_sup effective)%Q ->
    (grid_floor (ri_inf i) tol == ri_inf i)%Q -> (grid_floor (ri_sup i) tol == ri_sup i)%Q -> between_pieces p (ri_inf i) -> between_pieces p (ri_sup i) ->
    replies is_zero none s ctx h2 (QAt i tol) y ->
    exists x, pws_at is_zero smul fuel w i tol ctx = Ok x /\ sg_of S x === sg_of S y.
  Proof.
    intros He Hh Hh2 Hw Fw Hfu Fc Ht I1 I2 F1 F2 G1 G2 B1 B2 R. destruct (support_is _ _ _ Hw) as [Ew _].
    assert (A1 : (from (pws_view w) i == ri_inf i)%Q) by (unfold from; cbn [pws_view st_support]; rewrite Ew; destruct (later_cases (ri_inf i) (ri_inf effective)) as [[-> ?]|[-> ?]]; lra).
    assert (A2 : (upto (pws_view w) i == ri_sup i)%Q) by (unfold upto; cbn [pws_view st_support]; rewrite Ew; destruct (earlier_cases (ri_sup i) (ri_sup effective)) as [[-> ?]|[-> ?]]; lra).
    assert (A3 : (from s i == ri_inf i)%Q) by (unfold from; destruct (later_cases (ri_inf i) (ri_inf (st_support s))) as [[-> ?]|[-> ?]]; lra).
    assert (A4 : (upto s i == ri_sup i)%Q) by (unfold upto; destruct (earlier_cases (ri_sup i) (ri_sup (st_support s))) as [[-> ?]|[-> ?]]; lra).
    assert (D1 : (grid_floor (from (pws_view w) i) tol == ri_inf i)%Q) by (rewrite (grid_eq _ _ _ A1); exact G1).
    assert (D2 : (grid_floor (upto (pws_view w) i) tol == ri_sup i)%Q) by (rewrite (grid_eq _ _ _ A2); exact G2).
    destruct (at_same effective h w i tol fuel He Hh Hw Fw Hfu) as (x & E & P).
    { intros j iv Hj. rewrite D1. apply (B1 j iv Hj). } { intros j iv Hj. rewrite D2. apply (B2 j iv Hj). }
    exists x. split; [exact E|]. eapply (sd_trans _ _ _ _ HS); [exact P|].
    destruct (query_product lie is_zero none Hn S ok ctx HS s i tol Hs Fc Ht) as (y' & _ & P' & Q'). rewrite (replies_fun _ _ _ _ _ _ _ _ R (Q' h2 Hh2)). apply (sd_sym _ _ _ _ HS).
    eapply (sd_trans _ _ _ _ HS); [exact P'|]. erewrite within_eq; [apply (sd_refl _ _ _ _ HS)| |].
    - rewrite (grid_eq _ _ _ A3), G1. destruct (later_cases (grid_floor (from (pws_view w) i) tol) (p_inf p)) as [[-> ?]|[-> ?]]; lra.
    - rewrite (grid_eq _ _ _ A4), G2. destruct (earlier_cases (grid_floor (upto (pws_view w) i) tol) (p_sup p)) as [[-> ?]|[-> ?]]; lra.
  Qed.
End Top.
