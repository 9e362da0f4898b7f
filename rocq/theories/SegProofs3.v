(** [segment] in terms of points. *)
From Verif Require Export SegProofs2.
From Verif Require Import DyadicSpec DyadicProofs DyadicProofs2 DyadicProofs3.
From Coq Require Import ZArith QArith Qround ZifyBool Sorted.
Open Scope Z_scope.

(** The dyadic cell [k/2^n, (k+1)/2^n) of the unit interval, scaled to [o]. *)
Definition cell_of (o : ri) (k n : Z) : ri :=
  mkRI (dy k n * (ri_sup o - ri_inf o) + ri_inf o)%Q (dy (k + 1) n * (ri_sup o - ri_inf o) + ri_inf o)%Q Clopen.
Definition ri_subset (i : ri) (S : Q -> Prop) : Prop := forall x, in_set i x -> S x.

Lemma ssorted_app {A} (R : A -> A -> Prop) l r : StronglySorted R l -> StronglySorted R r -> (forall x y, In x l -> In y r -> R x y) -> StronglySorted R (l ++ r).
Proof.
  induction 1 as [|x l H IH F]; intros Hr H2; cbn [app]; [auto|]. constructor; [apply IH; auto; intros; apply H2; [right; auto|auto]|].
  apply Forall_app. split; [auto|]. apply Forall_forall. intros y Hy. apply H2; [left; auto|auto].
Qed.
Lemma ssorted_rev {A} (R : A -> A -> Prop) l : StronglySorted R l -> StronglySorted (fun x y => R y x) (rev l).
Proof.
  induction 1 as [|x l H IH F]; cbn [rev]; [constructor|]. apply ssorted_app; [auto|repeat constructor|].
  intros a b Ha [<-|[]]. rewrite Forall_forall in F. apply F. apply in_rev. auto.
Qed.
Lemma ssorted_map {A B} (f : A -> B) (R : B -> B -> Prop) l : StronglySorted (fun x y => R (f x) (f y)) l -> StronglySorted R (map f l).
Proof. induction 1 as [|x l H IH F]; cbn [map]; constructor; auto. rewrite Forall_map. auto. Qed.
Lemma ssorted_impl {A} (R R' : A -> A -> Prop) l : (forall x y, In x l -> In y l -> R x y -> R' x y) -> StronglySorted R l -> StronglySorted R' l.
Proof.
  intros H S1. induction S1 as [|x l S1 IH F]; constructor; [apply IH; intros; apply H; auto; right; auto|].
  rewrite Forall_forall in *. intros y Hy. apply H; [left; auto|right; auto|auto].
Qed.

Lemma ri_make_le a b t : (a <= b)%Q -> ri_make a b t = mkRI a b t.
Proof. apply ri_make_ordered. Qed.

Section Seg.
  Variable o : ri.
  Variable P : ri -> bool.
  Variable N : Z.
  Hypothesis HN : 0 <= N <= 28.
  Hypothesis Ho : (ri_inf o < ri_sup o)%Q.
  Let a := ri_inf o.
  Let w := (ri_sup o - ri_inf o)%Q.
  Lemma w_pos : (0 < w)%Q. Proof. unfold w. lra. Qed.
  Definition Gs (k n : Z) : bool := P (cell_of o k n).
  Lemma scale_mono x y : (x <= y)%Q -> (x * w + a <= y * w + a)%Q.
  Proof. intros. assert (X := w_pos). nra. Qed.
  Lemma scale_lt x y : (x < y)%Q -> (x * w + a < y * w + a)%Q.
  Proof. intros. assert (X := w_pos). nra. Qed.
  Lemma scale_le_inv x y : (x * w + a <= y * w + a)%Q -> (x <= y)%Q.
  Proof. intros. assert (X := w_pos). nra. Qed.
  Lemma scale_lt_inv x y : (x * w + a < y * w + a)%Q -> (x < y)%Q.
  Proof. intros. assert (X := w_pos). nra. Qed.
  Lemma scaled_eval k n : bnd N k n -> scaled P a w (mkDI k n Clopen) = Ok (Gs k n).
  Proof.
    intros [B1 B2]. rewrite pow_S in B2 by lia. unfold scaled, dinf, dsup, dexcluded. cbn [di_t bind]. unfold unit. cbn [di_t unit_t di_k di_n].
    rewrite (i32r N) with (n := n) by lia. cbn [bind]. f_equal. unfold Gs, cell_of. f_equal. rewrite !to_param_dy. cbn [mult power dincluded di_d di_k di_n].
    apply ri_make_ordered. apply scale_mono. apply dy_same_le. lia.
  Qed.
  Lemma seg_eval : P o = false -> exists sn, segment o P N =
      Ok (map (fun i => ri_make (ri_inf i * w + a) (ri_sup i * w + a) (ri_t i))%Q (rev (map (fun p => ri_make (to_param (snd p)) (to_param (fst p)) Clopen) sn))) /\
    map (uvp N) sn = pdepth N Gs (Z.to_nat N) 1 [] /\ Forall (pok N) sn.
  Proof.
    intros HP. destruct (find_eval N HN Gs (scaled P a w) scaled_eval) as (sn & E & M & F). exists sn. split; [|auto].
    unfold segment. rewrite HP. fold w. fold a. cbv zeta. rewrite E. replace (qlt a (ri_sup o)) with true; [reflexivity|]. symmetry. apply qlt_true. exact Ho.
  Qed.
  Lemma uv_dy d : dok N d -> (to_param d == dy (uv N d) N)%Q.
  Proof. intros [H _]. rewrite to_param_dy. rewrite (dy_scale (mult d) (power d) (N - power d)) by lia. unfold uv. replace (power d + (N - power d)) with N by lia. reflexivity. Qed.
  Definition out_of (p : dyadic * dyadic) : ri :=
    let i := ri_make (to_param (snd p)) (to_param (fst p)) Clopen in ri_make (ri_inf i * w + a) (ri_sup i * w + a) (ri_t i).
  Lemma out_spec p : pok N p -> uv N (snd p) <= uv N (fst p) ->
    ri_t (out_of p) = Clopen /\ (ri_inf (out_of p) == dy (uv N (snd p)) N * w + a)%Q /\ (ri_sup (out_of p) == dy (uv N (fst p)) N * w + a)%Q.
  Proof.
    intros [H1 H2] L. unfold out_of. assert (A := uv_dy _ H1). assert (B := uv_dy _ H2).
    assert (C : (dy (uv N (snd p)) N <= dy (uv N (fst p)) N)%Q) by (apply dy_same_le; auto).
    rewrite (ri_make_le (to_param (snd p))) by lra. cbn [ri_inf ri_sup ri_t]. rewrite ri_make_le by (apply scale_mono; lra). cbn [ri_inf ri_sup ri_t].
    rewrite A, B. split; [auto|split; reflexivity].
  Qed.
  Lemma seg_list sn : map (fun i => ri_make (ri_inf i * w + a) (ri_sup i * w + a) (ri_t i))%Q (rev (map (fun p => ri_make (to_param (snd p)) (to_param (fst p)) Clopen) sn)) = rev (map out_of sn).
  Proof. rewrite map_rev, map_map. reflexivity. Qed.

  (** Every predicate: termination, and what the answers are made of. *)
  Lemma chain_e2e l : forall x y, Forall (gcell N Gs) l -> chain N x y l -> end_to_end (dy x N) (dy y N) l.
  Proof.
    assert (D : forall k n, 1 <= n <= N -> (dy (k * 2 ^ (N - n)) N == dy k n)%Q).
    { intros k n Hn. rewrite (dy_scale k n (N - n)) by lia. replace (n + (N - n)) with N by lia. reflexivity. }
    induction l as [|[k n] l IH]; intros x y F H; cbn [chain end_to_end] in *; [subst; reflexivity|].
    inversion F as [|? ? [[B _] _] F']; subst. cbn [fst snd] in *. destruct H as [-> H]. split; [apply D; auto|].
    apply (end_to_end_eq (dy (csup N (k, n)) N) _ (dy y N)); [apply D; auto|reflexivity|auto].
  Qed.
  Lemma chain_le l : forall x y, Forall (gcell N Gs) l -> chain N x y l -> x <= y.
  Proof.
    induction l as [|[k n] l IH]; intros x y F H; cbn [chain] in *; [lia|]. inversion F as [|? ? [[B _] _] F']; subst. destruct H as [-> H]. apply IH in H; auto.
    unfold csup, cinf in *. cbn [fst snd] in *. assert (X := pow2_pos (N - n) ltac:(lia)). nia.
  Qed.
  Theorem segment_any : P o = false -> exists rs, segment o P N = Ok rs /\
    StronglySorted (fun r r' => (ri_sup r < ri_sup r')%Q) rs /\
    (forall r, In r rs -> ri_t r = Clopen /\ exists l x y, l <> [] /\ end_to_end x y l /\
       (ri_inf r == x * w + a)%Q /\ (ri_sup r == y * w + a)%Q /\ (forall k n, In (k, n) l -> 1 <= n <= N /\ P (cell_of o k n) = true)).
  Proof.
    intros HP. destruct (seg_eval HP) as (sn & E & M & F). rewrite seg_list in E. exists (rev (map out_of sn)). split; [exact E|].
    destruct (pdepth_sound N Gs (Z.to_nat N) 1 []) as [A B]; [lia|lia|constructor|constructor|]. rewrite <- M in A, B.
    rewrite Forall_map in A. rewrite Forall_forall in A, F.
    assert (A' : forall p, In p sn -> uv N (snd p) <= uv N (fst p)).
    { intros p Hp. destruct (A p Hp) as (l & _ & C & FG). eapply chain_le; eauto. }
    split.
    - apply ssorted_rev. apply ssorted_map. 
      assert (B' : StronglySorted (fun x y => gt1 (uvp N x) (uvp N y)) sn).
      { clear - B. induction sn as [|x l IH]; [constructor|]. cbn [map] in B. inversion B as [|? ? B1 B2]; subst. constructor; [auto|]. rewrite Forall_map in B2. auto. }
      eapply ssorted_impl; [|exact B']. intros x y Hx Hy L. unfold gt1, uvp in L. cbn [fst] in L.
      destruct (out_spec x (F x Hx) (A' x Hx)) as (_ & _ & ->). destruct (out_spec y (F y Hy) (A' y Hy)) as (_ & _ & ->).
      apply scale_lt. apply dy_same_lt. lia.
    - intros r Hr. apply in_rev in Hr. apply in_map_iff in Hr. destruct Hr as (p & <- & Hp).
      destruct (out_spec p (F p Hp) (A' p Hp)) as (T & I & S1). split; [auto|]. destruct (A p Hp) as (l & NE & C & FG).
      exists l, (dy (uv N (snd p)) N), (dy (uv N (fst p)) N). split; [auto|]. split; [apply chain_e2e; auto|]. split; [auto|split; [auto|]].
      intros k n Hkn. rewrite Forall_forall in FG. destruct (FG _ Hkn) as [[B1 _] B2]. auto.
  Qed.

  (** Predicates "contained in S". *)
  Variable S : Q -> Prop.
  Hypothesis HS : forall x y, (x == y)%Q -> S x -> S y.
  Hypothesis Hsub : forall x, S x -> (ri_inf o <= x < ri_sup o)%Q.
  Hypothesis HP : forall i, ri_t i = Clopen -> (ri_inf i < ri_sup i)%Q -> (P i = true <-> ri_subset i S).
  Lemma cell_pts k n x : in_set (cell_of o k n) (x * w + a) <-> clopen_pts k n x.
  Proof.
    unfold in_set, cell_of, clopen_pts; cbn [ri_inf ri_sup ri_t]. fold w. fold a. split; intros [H1 H2]; (split; [|]).
    - apply scale_le_inv; auto.
    - apply scale_lt_inv; auto.
    - apply scale_mono; auto.
    - apply scale_lt; auto.
  Qed.
  Lemma unscale x : (x == ((x - a) / w) * w + a)%Q.
  Proof. assert (X := w_pos). field. lra. Qed.
  Lemma in_set_eq i x y : (x == y)%Q -> in_set i x -> in_set i y.
  Proof. intros E. unfold in_set. destruct (ri_t i); lra. Qed.
  Lemma Gs_iff k n : Gs k n = true <-> (forall x, clopen_pts k n x -> S (x * w + a)%Q).
  Proof.
    unfold Gs. rewrite HP; [|reflexivity|unfold cell_of; cbn [ri_inf ri_sup]; apply scale_lt, dy_same_lt; lia]. unfold ri_subset. split; intros H x Hx.
    - apply H, cell_pts; auto.
    - apply (HS (((x - a) / w) * w + a)%Q); [symmetry; apply unscale|]. apply H. apply cell_pts. apply (in_set_eq _ x); [apply unscale|auto].
  Qed.
  Lemma coarse_iff k n e x : 0 <= e -> (clopen_pts k n x <-> exists u, u / 2 ^ e = k /\ clopen_pts u (n + e) x).
  Proof.
    intros He. split.
    - intros H. apply clopen_floor in H. exists (Qfloor (x * Qpower 2 (n + e))). rewrite <- floor_coarse by auto. split; [auto|apply clopen_floor; auto].
    - intros (u & <- & H). apply clopen_coarse; auto.
  Qed.
  Lemma Gs_units k n : 1 <= n <= N -> (Gs k n = true <-> forall u, k * 2 ^ (N - n) <= u < (k + 1) * 2 ^ (N - n) -> gu N Gs u).
  Proof.
    intros Hn. assert (PP := pow2_pos (N - n) ltac:(lia)). unfold gu. split.
    - intros H u Hu. rewrite Gs_iff in *. intros x Hx. apply H. replace N with (n + (N - n)) in Hx by lia. rewrite (coarse_iff k n (N - n)) by lia.
      exists u. split; [|auto]. symmetry. apply Z.div_unique with (u - k * 2 ^ (N - n)); lia.
    - intros H. rewrite Gs_iff. intros x Hx. rewrite (coarse_iff k n (N - n)) in Hx by lia. destruct Hx as (u & Eu & Hx).
      replace (n + (N - n)) with N in Hx by lia. specialize (H u). rewrite Gs_iff in H. apply H; auto.
      assert (D := Z.div_mod u (2 ^ (N - n)) ltac:(lia)). assert (M := Z.mod_pos_bound u (2 ^ (N - n)) PP). rewrite Eu in D. lia.
  Qed.
  Lemma dy_unit_range u : (0 <= dy u N < 1)%Q <-> 0 <= u < 2 ^ N.
  Proof.
    assert (E0 : (0 == dy 0 N)%Q) by (unfold dy; ring).
    assert (E1 : (1 == dy (2 ^ N) N)%Q) by (assert (X := dy_scale 1 0 N ltac:(lia)); rewrite Z.mul_1_l, Z.add_0_l in X; rewrite <- X; unfold dy; cbn; reflexivity).
    rewrite E0, E1 at 1. rewrite dy_same_le, dy_same_lt. tauto.
  Qed.
  Lemma Gs_in u : 1 <= N -> gu N Gs u -> 0 <= u < 2 ^ N.
  Proof.
    intros HN1 H. unfold gu in H. rewrite Gs_iff in H. specialize (H (dy u N) (clopen_inhabited u N)). apply Hsub in H. fold a in H.
    apply dy_unit_range. destruct H as [H1 H2]. assert (X := w_pos). assert (Y : (ri_sup o == w + a)%Q) by (unfold w, a; ring). rewrite Y in H2.
    split; [apply scale_le_inv; lra|apply scale_lt_inv; lra].
  Qed.
  Lemma all_units : ri_t o = Clopen -> 1 <= N -> (forall u, 0 <= u < 2 ^ N -> gu N Gs u) -> P o = true.
  Proof.
    intros Ht HN1 H. apply HP; auto. intros x Hx. apply (HS (((x - a) / w) * w + a)%Q); [symmetry; apply unscale|].
    set (y := ((x - a) / w)%Q). assert (C : clopen_pts (Qfloor (y * Qpower 2 N)) N y) by (apply clopen_floor; auto).
    assert (K := H (Qfloor (y * Qpower 2 N))). unfold gu in K. rewrite Gs_iff in K. apply K; auto.
    assert (Y : (0 <= y < 1)%Q).
    { unfold in_set in Hx. rewrite Ht in Hx. fold a in Hx. assert (X := w_pos). assert (E := unscale x). fold y in E. assert (Z1 : (ri_sup o == w + a)%Q) by (unfold w, a; ring). rewrite Z1 in Hx.
      split; [apply scale_le_inv; lra|apply scale_lt_inv; lra]. }
    destruct C as [C1 C2]. assert (E0 : (0 == dy 0 N)%Q) by (unfold dy; ring).
    assert (E1 : (1 == dy (2 ^ N) N)%Q) by (assert (X := dy_scale 1 0 N ltac:(lia)); rewrite Z.mul_1_l, Z.add_0_l in X; rewrite <- X; unfold dy; cbn; reflexivity).
    assert (L1 : (dy 0 N < dy (Qfloor (y * Qpower 2 N) + 1) N)%Q) by lra. assert (L2 : (dy (Qfloor (y * Qpower 2 N)) N < dy (2 ^ N) N)%Q) by lra.
    rewrite dy_same_lt in L1, L2. lia.
  Qed.
  (** The answers lie in S, are separated and in order, cover every cell of depth at
      most N inside S, and cannot be extended by a cell of depth N. *)
  Theorem segment_set : ri_t o = Clopen -> exists rs, segment o P N = Ok rs /\
    StronglySorted (fun r r' => (ri_sup r < ri_inf r')%Q) rs /\
    (forall r, In r rs -> ri_t r = Clopen /\ (ri_inf r < ri_sup r)%Q /\ ri_subset r S) /\
    (forall k n, 1 <= n <= N -> ri_subset (cell_of o k n) S -> exists r, In r rs /\ ri_subset (cell_of o k n) (in_set r)) /\
    (P o = false -> forall r, In r rs -> exists i s, (ri_inf r == dy i N * w + a)%Q /\ (ri_sup r == dy s N * w + a)%Q /\
       ~ ri_subset (cell_of o (i - 1) N) S /\ ~ ri_subset (cell_of o s N) S).
  Proof.
    intros Ht. destruct (P o) eqn:EP.
    { exists [o]. unfold segment. rewrite EP. split; [auto|split; [repeat constructor|split; [|split; [|discriminate]]]].
      - intros r [<-|[]]. split; [auto|split; [auto|]]. apply HP; auto.
      - intros k n Hn H. exists o. split; [left; auto|]. intros x Hx. unfold in_set. rewrite Ht. apply Hsub, H, Hx. }
    destruct (Z_le_gt_dec 1 N) as [HN1|HN1].
    2:{ assert (N = 0) by lia. subst N. exists []. unfold segment. rewrite EP. replace (qlt (ri_inf o) (ri_sup o)) with true by (symmetry; apply qlt_true; auto).
        split; [reflexivity|split; [constructor|split; [intros r []|split; [intros; lia|intros _ r []]]]]. }
    destruct (seg_eval EP) as (sn & E & M & F). rewrite seg_list in E. exists (rev (map out_of sn)). split; [exact E|].
    destruct (pdepth_all N HN Gs) as (A & B & C).
    { intros k n Hn. apply Gs_units; auto. }
    { intros u Hu. apply Gs_in; auto. }
    { intros H. rewrite (all_units Ht HN1 H) in EP. discriminate. }
    rewrite <- M in A, B, C. rewrite Forall_map in A. rewrite Forall_forall in A, F.
    assert (A' : forall p, In p sn -> uv N (snd p) < uv N (fst p)) by (intros p Hp; destruct (A p Hp) as (X & _); exact X).
    assert (O : forall p, In p sn -> ri_t (out_of p) = Clopen /\ (ri_inf (out_of p) == dy (uv N (snd p)) N * w + a)%Q /\ (ri_sup (out_of p) == dy (uv N (fst p)) N * w + a)%Q).
    { intros p Hp. apply out_spec; auto. specialize (A' p Hp). lia. }
    assert (IN : forall r, In r (rev (map out_of sn)) <-> exists p, In p sn /\ r = out_of p).
    { intros r. rewrite <- in_rev, in_map_iff. split; intros (p & X & Y); exists p; auto. }
    split; [|split; [|split]].
    - apply ssorted_rev. apply ssorted_map. 
      assert (B' : StronglySorted (fun x y => gt1 (uvp N x) (uvp N y)) sn).
      { clear - B. induction sn as [|x l IH]; [constructor|]. cbn [map] in B. inversion B as [|? ? B1 B2]; subst. constructor; [auto|]. rewrite Forall_map in B2. auto. }
      eapply ssorted_impl; [|exact B']. intros x y Hx Hy L. unfold gt1, uvp in L. cbn [fst] in L.
      destruct (O x Hx) as (_ & -> & _). destruct (O y Hy) as (_ & _ & ->). apply scale_lt. apply dy_same_lt.
      destruct (A x Hx) as (_ & X2 & _ & _). destruct (A y Hy) as (_ & _ & _ & Y4). unfold uvp in X2, Y4. cbn [fst snd] in X2, Y4.
      destruct (Z_lt_ge_dec (uv N (fst y)) (uv N (snd x))); [auto|]. exfalso. apply Y4, X2. lia.
    - intros r Hr. apply IN in Hr. destruct Hr as (p & Hp & ->). destruct (O p Hp) as (T & I & S1). split; [auto|]. split.
      + rewrite I, S1. apply scale_lt, dy_same_lt. auto.
      + intros x Hx. unfold in_set in Hx. rewrite T, I, S1 in Hx. set (y := ((x - a) / w)%Q). assert (Ex := unscale x). fold y in Ex.
        apply (HS (y * w + a)%Q); [symmetry; auto|]. destruct Hx as [H1 H2]. rewrite Ex in H1, H2. apply scale_le_inv in H1. apply scale_lt_inv in H2.
        assert (CC : clopen_pts (Qfloor (y * Qpower 2 N)) N y) by (apply clopen_floor; auto). destruct (A p Hp) as (_ & X2 & _). unfold uvp in X2. cbn [fst snd] in X2.
        assert (K := X2 (Qfloor (y * Qpower 2 N))). unfold gu in K. rewrite Gs_iff in K. apply K; auto. destruct CC as [C1 C2].
        assert (L1 : (dy (uv N (snd p)) N < dy (Qfloor (y * Qpower 2 N) + 1) N)%Q) by lra. assert (L2 : (dy (Qfloor (y * Qpower 2 N)) N < dy (uv N (fst p)) N)%Q) by lra.
        rewrite dy_same_lt in L1, L2. lia.
    - intros k n Hn Hk. assert (HGk : Gs k n = true). { unfold Gs. apply HP; [reflexivity|unfold cell_of; cbn [ri_inf ri_sup]; apply scale_lt, dy_same_lt; lia|auto]. }
      destruct (C n k ltac:(lia) HGk) as (q & Hq & Q1 & Q2). apply in_map_iff in Hq. destruct Hq as (p & <- & Hp). unfold uvp in Q1, Q2. cbn [fst snd] in Q1, Q2.
      exists (out_of p). split; [apply IN; eauto|]. destruct (O p Hp) as (T & I & S1). intros x Hx. unfold in_set. rewrite T, I, S1. unfold in_set, cell_of in Hx. cbn [ri_t ri_inf ri_sup] in Hx.
      fold w in Hx. fold a in Hx. unfold cinf, csup in Q1, Q2. cbn [fst snd] in Q1, Q2.
      assert (D : forall k, (dy (k * 2 ^ (N - n)) N == dy k n)%Q). { intros k0. rewrite (dy_scale k0 n (N - n)) by lia. replace (n + (N - n)) with N by lia. reflexivity. }
      assert (L1 : (dy (uv N (snd p)) N <= dy k n)%Q) by (rewrite <- D; apply dy_same_le; auto).
      assert (L2 : (dy (k + 1) n <= dy (uv N (fst p)) N)%Q) by (rewrite <- D; apply dy_same_le; auto).
      apply scale_mono in L1. apply scale_mono in L2. lra.
    - intros _ r Hr. apply IN in Hr. destruct Hr as (p & Hp & ->). destruct (O p Hp) as (T & I & S1). exists (uv N (snd p)), (uv N (fst p)). split; [auto|split; [auto|]].
      destruct (A p Hp) as (_ & _ & X3 & X4). unfold uvp in X3, X4. cbn [fst snd] in X3, X4.
      assert (K : forall u, ri_subset (cell_of o u N) S -> gu N Gs u). { intros u H. unfold gu, Gs. apply HP; [reflexivity|unfold cell_of; cbn [ri_inf ri_sup]; apply scale_lt, dy_same_lt; lia|auto]. }
      split; intros H; [apply X3|apply X4]; apply K; auto.
  Qed.
End Seg.
