(** The shuffle product, the (de)shuffle coproduct, primitive and group-like
    series.  Pure mathematics; no code is mentioned. *)
From Verif Require Import Alg PowerSeries Series.
From Coq Require Import Setoid Morphisms.

Section Shuffle.
  Variable R : cring.
  Variable A : Type.
  Add Ring Rring : (rth R).
  Local Open Scope cr_scope.
  Infix "==" := teq (at level 70).
  Notation tens := (tens R A).

  (** All ways of splitting a word into two complementary subwords. *)
  Fixpoint splits (w : list A) : list (list A * list A) :=
    match w with
    | [] => [([], [])]
    | x :: w' => map (fun p => (x :: fst p, snd p)) (splits w') ++ map (fun p => (fst p, x :: snd p)) (splits w')
    end.
  (** All interleavings of two words. *)
  Fixpoint shuffles (u : list A) : list A -> list (list A) :=
    match u with
    | [] => fun v => [v]
    | x :: u' => fix inner (v : list A) : list (list A) :=
        match v with
        | [] => [x :: u']
        | y :: v' => map (cons x) (shuffles u' (y :: v')) ++ map (cons y) (inner v')
        end
    end.
  Lemma shuffles_nil_l v : shuffles [] v = [v]. Proof. reflexivity. Qed.
  Lemma shuffles_nil_r u : shuffles u [] = [u]. Proof. destruct u; reflexivity. Qed.
  Lemma shuffles_cons x u y v :
    shuffles (x :: u) (y :: v) = map (cons x) (shuffles u (y :: v)) ++ map (cons y) (shuffles (x :: u) v).
  Proof. reflexivity. Qed.

  (** Shuffle product of two series. *)
  Definition shuf (a b : tens) : tens := fun w => sum (splits w) (fun p => a (fst p) * b (snd p)).
  Lemma shuf_nil a b : shuf a b [] = a [] * b [].
  Proof. unfold shuf. cbn. ring. Qed.
  Lemma shuf_cons a b x w : shuf a b (x :: w) = shuf (dl x a) b w + shuf a (dl x b) w.
  Proof. unfold shuf. cbn [splits]. rewrite sum_app, !sum_map. reflexivity. Qed.
  Lemma splits_length w p : In p (splits w) -> (length (fst p) + length (snd p))%nat = length w.
  Proof.
    revert p. induction w as [|x w IH]; cbn [splits]; intros p Hp.
    - destruct Hp as [<-|[]]. reflexivity.
    - apply in_app_or in Hp. destruct Hp as [Hp|Hp]; apply in_map_iff in Hp; destruct Hp as (q & <- & Hq);
        apply IH in Hq; cbn [fst snd length]; lia.
  Qed.
  Lemma shuf_local a a' b b' w :
    (forall u, (length u <= length w)%nat -> a u = a' u) ->
    (forall u, (length u <= length w)%nat -> b u = b' u) -> shuf a b w = shuf a' b' w.
  Proof.
    intros Ha Hb. unfold shuf. apply sum_ext. intros p Hp. apply splits_length in Hp.
    rewrite Ha, Hb by lia. reflexivity.
  Qed.
  Global Instance shuf_proper : Proper (teq ==> teq ==> teq) shuf.
  Proof. intros a a' Ha b b' Hb w. apply shuf_local; auto. Qed.
  Lemma shuf_add_l a b c : shuf (tadd a b) c == tadd (shuf a c) (shuf b c).
  Proof. intros w. unfold shuf, tadd. rewrite <- sum_add. apply sum_ext; intros; ring. Qed.
  Lemma shuf_add_r a b c : shuf a (tadd b c) == tadd (shuf a b) (shuf a c).
  Proof. intros w. unfold shuf, tadd. rewrite <- sum_add. apply sum_ext; intros; ring. Qed.
  Lemma shuf_scal_l k a c : shuf (tscal k a) c == tscal k (shuf a c).
  Proof. intros w. unfold shuf, tscal. rewrite <- sum_mul_l. apply sum_ext; intros; ring. Qed.
  Lemma shuf_scal_r k a c : shuf a (tscal k c) == tscal k (shuf a c).
  Proof. intros w. unfold shuf, tscal. rewrite <- sum_mul_l. apply sum_ext; intros; ring. Qed.
  Lemma shuf_comm a b : shuf a b == shuf b a.
  Proof.
    intros w. revert a b. induction w as [|x w IH]; intros a b.
    - rewrite !shuf_nil. ring. - rewrite !shuf_cons, (IH (dl x a)), (IH a). ring.
  Qed.
  Lemma dl_shuf x a b : dl x (shuf a b) == tadd (shuf (dl x a) b) (shuf a (dl x b)).
  Proof. intros w. unfold dl at 1. rewrite shuf_cons. reflexivity. Qed.
  Lemma shuf_assoc a b c : shuf (shuf a b) c == shuf a (shuf b c).
  Proof.
    intros w. revert a b c. induction w as [|x w IH]; intros a b c.
    - rewrite !shuf_nil. ring.
    - rewrite !shuf_cons.
      rewrite (shuf_proper _ _ (dl_shuf x a b) _ _ (reflexivity c) w).
      rewrite (shuf_proper _ _ (reflexivity a) _ _ (dl_shuf x b c) w).
      rewrite (shuf_add_l _ _ _ w), (shuf_add_r _ _ _ w). unfold tadd. rewrite !IH. ring.
  Qed.
  Lemma shuf_one_l a : shuf tone a == a.
  Proof.
    intros w. revert a. induction w as [|x w IH]; intros a.
    - rewrite shuf_nil. cbn. ring.
    - rewrite shuf_cons, IH. assert (E : shuf (dl x tone) a w = 0).
      { unfold shuf. apply sum_zero. intros; unfold dl; cbn; ring. }
      rewrite E. unfold dl. ring.
  Qed.

  (** The coproduct dual to shuffling. *)
  Definition cop (g : tens) (u v : list A) : R := sum (shuffles u v) g.
  Lemma cop_nil_l g v : cop g [] v = g v. Proof. unfold cop. cbn. ring. Qed.
  Lemma cop_nil_r g u : cop g u [] = g u. Proof. unfold cop. rewrite shuffles_nil_r. cbn. ring. Qed.
  Lemma cop_cons g x u y v : cop g (x :: u) (y :: v) = cop (dl x g) u (y :: v) + cop (dl y g) (x :: u) v.
  Proof. unfold cop. rewrite shuffles_cons, sum_app, !sum_map. reflexivity. Qed.
  Lemma shuffles_length u v s : In s (shuffles u v) -> length s = (length u + length v)%nat.
  Proof.
    revert v s. induction u as [|x u IHu]; intros v s.
    - rewrite shuffles_nil_l. intros [<-|[]]. reflexivity.
    - induction v as [|y v IHv] in s |- *.
      + rewrite shuffles_nil_r. intros [<-|[]]. cbn. lia.
      + rewrite shuffles_cons. intros H. apply in_app_or in H. destruct H as [H|H];
          apply in_map_iff in H; destruct H as (q & <- & Hq).
        * apply IHu in Hq. cbn [length] in *. lia.
        * apply IHv in Hq. cbn [length] in *. lia.
  Qed.
  Lemma cop_local g h u v : (forall s, length s = (length u + length v)%nat -> g s = h s) -> cop g u v = cop h u v.
  Proof. intros H. unfold cop. apply sum_ext. intros s Hs. apply H. apply shuffles_length. auto. Qed.
  Lemma cop_ext g h : g == h -> forall u v, cop g u v = cop h u v.
  Proof. intros H u v. apply cop_local. auto. Qed.
  Lemma cop_add g h u v : cop (tadd g h) u v = cop g u v + cop h u v.
  Proof. unfold cop. apply sum_add. Qed.
  Lemma cop_sub g h u v : cop (tsub g h) u v = cop g u v - cop h u v.
  Proof. unfold cop. apply sum_sub. Qed.
  Lemma cop_scal c g u v : cop (tscal c g) u v = c * cop g u v.
  Proof. unfold cop, tscal. apply sum_mul_l. Qed.
  Lemma cop_comm g u v : cop g u v = cop g v u.
  Proof.
    revert g v. induction u as [|x u IHu]; intros g v.
    - rewrite cop_nil_l, cop_nil_r. reflexivity.
    - induction v as [|y v IHv] in g |- *.
      + rewrite cop_nil_l, cop_nil_r. reflexivity.
      + rewrite !cop_cons, IHu, IHv. ring.
  Qed.

  (** Product of two-variable series. *)
  Definition conv2 (F G : list A -> list A -> R) (u v : list A) : R :=
    sum (seq 0 (S (length u))) (fun i => sum (seq 0 (S (length v))) (fun j =>
      F (firstn i u) (firstn j v) * G (skipn i u) (skipn j v))).
  Lemma conv2_local F F' G G' u v :
    (forall p q, (length p <= length u)%nat -> (length q <= length v)%nat -> F p q = F' p q) ->
    (forall p q, (length p <= length u)%nat -> (length q <= length v)%nat -> G p q = G' p q) ->
    conv2 F G u v = conv2 F' G' u v.
  Proof.
    intros HF HG. unfold conv2. apply sum_ext. intros i _. apply sum_ext. intros j _.
    rewrite HF, HG; [reflexivity| | | |]; rewrite ?firstn_length, ?skipn_length; lia.
  Qed.

  Lemma conv2_nil_l F G v : conv2 F G [] v = sum (seq 0 (S (length v))) (fun j => F [] (firstn j v) * G [] (skipn j v)).
  Proof. unfold conv2. cbn [length seq sum firstn skipn]. ring. Qed.
  Lemma conv2_nil_r F G u : conv2 F G u [] = sum (seq 0 (S (length u))) (fun i => F (firstn i u) [] * G (skipn i u) []).
  Proof.
    unfold conv2. apply sum_ext. intros i _. cbn [length seq sum]. cbn [firstn skipn]. ring.
  Qed.
  (** Peel the first letters. *)
  Lemma conv2_cons (F G Fx Fy : list A -> list A -> R) x u y v :
    (forall p q, F (x :: p) (y :: q) = Fx p (y :: q) + Fy (x :: p) q) ->
    (forall p, F (x :: p) [] = Fx p []) -> (forall q, F [] (y :: q) = Fy [] q) ->
    conv2 F G (x :: u) (y :: v) = F [] [] * G (x :: u) (y :: v) + conv2 Fx G u (y :: v) + conv2 Fy G (x :: u) v.
  Proof.
    intros H1 H2 H3. unfold conv2.
    set (m := length u). set (n := length v).
    change (length (x :: u)) with (S m). change (length (y :: v)) with (S n).
    (* left side: split off i=0, then j=0 *)
    rewrite (sum_seq_S _ 0 (S m)), (sum_seq_shift _ 0 (S m)). cbn [firstn skipn].
    rewrite (sum_seq_S _ 0 (S n)), (sum_seq_shift _ 0 (S n)). cbn [firstn skipn].
    rewrite (sum_ext _ (seq 0 (S m))
      (fun k => sum (seq 0 (S (S n))) (fun j => F (x :: firstn k u) (firstn j (y :: v)) * G (skipn k u) (skipn j (y :: v))))
      (fun k => sum (seq 0 (S (S n))) (fun j => Fx (firstn k u) (firstn j (y :: v)) * G (skipn k u) (skipn j (y :: v)))
              + sum (seq 0 (S n)) (fun j => Fy (x :: firstn k u) (firstn j v) * G (skipn k u) (skipn j v)))).
    2:{ intros k _. rewrite !(sum_seq_S _ 0 (S n)), !(sum_seq_shift _ 0 (S n)). cbn [firstn skipn].
        rewrite H2. rewrite (sum_ext _ (seq 0 (S n))
          (fun j => F (x :: firstn k u) (y :: firstn j v) * G (skipn k u) (skipn j v))
          (fun j => Fx (firstn k u) (y :: firstn j v) * G (skipn k u) (skipn j v) + Fy (x :: firstn k u) (firstn j v) * G (skipn k u) (skipn j v))).
        2:{ intros j _. rewrite H1. ring. }
        rewrite sum_add. ring. }
    rewrite sum_add.
    rewrite (sum_seq_S _ 0 (S m) (fun i => sum (seq 0 (S n)) (fun j => Fy (firstn i (x :: u)) (firstn j v) * G (skipn i (x :: u)) (skipn j v)))).
    rewrite (sum_seq_shift _ 0 (S m)). cbn [firstn skipn].
    rewrite (sum_ext _ (seq 0 (S n)) (fun k => F [] (y :: firstn k v) * G (x :: u) (skipn k v))
      (fun k => Fy [] (firstn k v) * G (x :: u) (skipn k v))) by (intros; rewrite H3; reflexivity).
    ring.
  Qed.

  (** The coproduct is multiplicative. *)
  Theorem cop_conv a b u v : cop (conv a b) u v = conv2 (cop a) (cop b) u v.
  Proof.
    revert a v. induction u as [|x u IHu]; intros a v.
    - rewrite cop_nil_l, conv2_nil_l. unfold conv. apply sum_ext. intros; rewrite !cop_nil_l; reflexivity.
    - induction v as [|y v IHv] in a |- *.
      + rewrite cop_nil_r, conv2_nil_r. unfold conv. apply sum_ext. intros; rewrite !cop_nil_r; reflexivity.
      + rewrite (conv2_cons (cop a) (cop b) (cop (dl x a)) (cop (dl y a))).
        * rewrite <- IHu, <- IHv. rewrite !cop_cons, cop_nil_l.
          rewrite (cop_ext (dl x (conv a b)) (tadd (tscal (a []) (dl x b)) (conv (dl x a) b)))
            by (intros w; unfold dl at 1; rewrite conv_cons; reflexivity).
          rewrite (cop_ext (dl y (conv a b)) (tadd (tscal (a []) (dl y b)) (conv (dl y a) b)))
            by (intros w; unfold dl at 1; rewrite conv_cons; reflexivity).
          rewrite !cop_add, !cop_scal. ring.
        * intros p q. apply cop_cons.
        * intros p. rewrite !cop_nil_r. reflexivity.
        * intros q. rewrite !cop_nil_l. reflexivity.
  Qed.

  (** [g] is group-like up to degree [N]: its coefficients satisfy the shuffle identity. *)
  Definition grouplike (N : nat) (g : tens) : Prop :=
    g [] = 1 /\ forall u v, (length u + length v <= N)%nat -> g u * g v = sum (shuffles u v) g.
  (** [x] is primitive up to degree [N]: it vanishes on shuffles of non-empty words. *)
  Definition primitive (N : nat) (x : tens) : Prop :=
    x [] = 0 /\ forall u v, u <> [] -> v <> [] -> (length u + length v <= N)%nat -> sum (shuffles u v) x = 0.

  Lemma grouplike_cop N g u v : grouplike N g -> (length u + length v <= N)%nat -> cop g u v = g u * g v.
  Proof. intros [_ H] Hl. unfold cop. rewrite H; auto. Qed.
  Lemma grouplike_one N : grouplike N tone.
  Proof.
    split; [reflexivity|]. intros u v _. destruct u as [|x u].
    - cbn [shuffles]. cbn [sum]. cbn [tone]. ring.
    - destruct v as [|y v].
      + cbn [shuffles]. cbn. ring.
      + rewrite sum_zero; [cbn; ring|]. intros s Hs. apply shuffles_length in Hs. destruct s; [cbn in Hs; lia|reflexivity].
  Qed.
  Theorem grouplike_conv N g h : grouplike N g -> grouplike N h -> grouplike N (conv g h).
  Proof.
    intros Hg Hh. split.
    - rewrite conv_nil. destruct Hg as [-> _], Hh as [-> _]. ring.
    - intros u v Hl. fold (cop (conv g h) u v). rewrite cop_conv.
      unfold conv2, conv. rewrite <- sum_mul_r. apply sum_ext. intros i Hi. rewrite <- sum_mul_l. apply sum_ext. intros j Hj.
      rewrite (grouplike_cop N g), (grouplike_cop N h); auto; [ring| |]; rewrite ?firstn_length, ?skipn_length; lia.
  Qed.

  (** Primitive elements form a Lie algebra under the commutator. *)
  Definition prim2 (x : tens) (u v : list A) : R := x u * tone v + tone u * x v.
  Lemma primitive_cop N x u v : primitive N x -> (length u + length v <= N)%nat -> cop x u v = prim2 x u v.
  Proof.
    intros [H0 H] Hl. unfold prim2. destruct u as [|a u].
    - rewrite cop_nil_l. cbn [tone]. destruct v; cbn [tone]; rewrite ?H0; ring.
    - destruct v as [|b v].
      + rewrite cop_nil_r. cbn [tone]. ring.
      + unfold cop. rewrite H by (auto; discriminate). cbn [tone]. ring.
  Qed.
  (** Multiplying by a primitive on either side. *)
  Lemma conv2_prim_l x G u v :
    conv2 (prim2 x) G u v = conv x (fun p => G p v) u + conv x (fun q => G u q) v.
  Proof.
    transitivity (sum (seq 0 (S (length u))) (fun i => sum (seq 0 (S (length v))) (fun j => x (firstn i u) * tone (firstn j v) * G (skipn i u) (skipn j v)))
      + sum (seq 0 (S (length u))) (fun i => sum (seq 0 (S (length v))) (fun j => tone (firstn i u) * x (firstn j v) * G (skipn i u) (skipn j v)))).
    { unfold conv2, prim2. rewrite <- sum_add. apply sum_ext. intros i _. rewrite <- sum_add. apply sum_ext. intros j _. ring. }
    f_equal.
    - unfold conv. apply sum_ext. intros i _. rewrite sum_seq_S, sum_zero.
      + cbn [firstn skipn tone]. ring.
      + intros j Hj. apply in_seq in Hj. destruct j; [lia|]. destruct v; [cbn in Hj; lia|]. cbn [firstn tone]. ring.
    - rewrite sum_seq_S, (sum_zero _ (seq 1 (length u))).
      + unfold conv. cbn [firstn skipn tone]. transitivity (sum (seq 0 (S (length v))) (fun j => 1 * x (firstn j v) * G u (skipn j v))); [ring|].
        apply sum_ext. intros; ring.
      + intros i Hi. apply in_seq in Hi. apply sum_zero. intros j _. destruct i; [lia|]. destruct u; [cbn in Hi; lia|].
        cbn [firstn tone]. ring.
  Qed.
  Lemma conv_prim2 (x y : tens) u v :
    conv2 (prim2 x) (prim2 y) u v
    = conv x y u * tone v + x u * y v + (y u * x v + tone u * conv x y v).
  Proof.
    rewrite conv2_prim_l. f_equal.
    - transitivity (conv x (tadd (tscal (tone v) y) (tscal (y v) tone)) u).
      { apply conv_local; auto. intros p _. unfold prim2, tadd, tscal. ring. }
      rewrite (conv_add_r _ _ _ _ _ u). unfold tadd. rewrite (conv_scal_r _ _ _ _ _ u), (conv_scal_r _ _ _ _ _ u).
      unfold tscal. rewrite (conv_one_r _ _ _ u). ring.
    - transitivity (conv x (tadd (tscal (y u) tone) (tscal (tone u) y)) v).
      { apply conv_local; reflexivity. }
      rewrite (conv_add_r _ _ _ _ _ v). unfold tadd. rewrite (conv_scal_r _ _ _ _ _ v), (conv_scal_r _ _ _ _ _ v).
      unfold tscal. rewrite (conv_one_r _ _ _ v). ring.
  Qed.
  Lemma conv2_le N F F' G G' u v :
    (forall p q, (length p + length q <= N)%nat -> F p q = F' p q) ->
    (forall p q, (length p + length q <= N)%nat -> G p q = G' p q) -> (length u + length v <= N)%nat ->
    conv2 F G u v = conv2 F' G' u v.
  Proof.
    intros HF HG Hl. apply conv2_local; intros; [apply HF|apply HG]; lia.
  Qed.
  Definition comm (a b : tens) : tens := tsub (conv a b) (conv b a).
  Theorem primitive_comm N x y : primitive N x -> primitive N y -> primitive N (comm x y).
  Proof.
    intros Hx Hy. split.
    - unfold comm, tsub. rewrite !conv_nil. destruct Hx as [-> _], Hy as [-> _]. ring.
    - intros u v Hu Hv Hl. fold (cop (comm x y) u v). unfold comm. rewrite cop_sub, !cop_conv.
      rewrite (conv2_le N (cop x) (prim2 x) (cop y) (prim2 y)); auto; try (intros; apply (primitive_cop N); auto).
      rewrite (conv2_le N (cop y) (prim2 y) (cop x) (prim2 x)); auto; try (intros; apply (primitive_cop N); auto).
      rewrite !conv_prim2. destruct u; [congruence|]. destruct v; [congruence|]. cbn [tone]. ring.
  Qed.
  Lemma primitive_add N x y : primitive N x -> primitive N y -> primitive N (tadd x y).
  Proof.
    intros [Hx Hx'] [Hy Hy']. split; [unfold tadd; rewrite Hx, Hy; ring|].
    intros u v Hu Hv Hl. unfold tadd. rewrite sum_add, Hx', Hy' by auto. ring.
  Qed.
  Lemma primitive_scal N c x : primitive N x -> primitive N (tscal c x).
  Proof.
    intros [Hx Hx']. split; [unfold tscal; rewrite Hx; ring|].
    intros u v Hu Hv Hl. unfold tscal. rewrite sum_mul_l, Hx' by auto. ring.
  Qed.
  Lemma primitive_zero N : primitive N tzero.
  Proof. split; [reflexivity|]. intros. apply sum_zero. reflexivity. Qed.
  (** Series supported on single letters are primitive. *)
  Lemma primitive_letters N x : (forall w, length w <> 1%nat -> x w = 0) -> primitive N x.
  Proof.
    intros H. split; [apply H; cbn; lia|]. intros u v Hu Hv _. apply sum_zero. intros s Hs. apply H.
    apply shuffles_length in Hs. destruct u; [congruence|]. destruct v; [congruence|]. cbn [length] in Hs. lia.
  Qed.
  Lemma primitive_le N M x : (M <= N)%nat -> primitive N x -> primitive M x.
  Proof. intros Hle [H0 H]. split; auto. intros; apply H; auto; lia. Qed.
  Lemma grouplike_le N M x : (M <= N)%nat -> grouplike N x -> grouplike M x.
  Proof. intros Hle [H0 H]. split; auto. intros; apply H; auto; lia. Qed.
  Lemma grouplike_local N g h : (forall w, (length w <= N)%nat -> g w = h w) -> grouplike N g -> grouplike N h.
  Proof.
    intros E [H0 H]. split; [rewrite <- E; auto; cbn; lia|]. intros u v Hl.
    rewrite <- !E by lia. rewrite H by auto. apply cop_local. intros s Hs. apply E. lia.
  Qed.
  Lemma primitive_local N g h : (forall w, (length w <= N)%nat -> g w = h w) -> primitive N g -> primitive N h.
  Proof.
    intros E [H0 H]. split; [rewrite <- E; auto; cbn; lia|]. intros u v Hu Hv Hl.
    rewrite <- (H u v) by auto. symmetry. apply cop_local. intros s Hs. apply E. lia.
  Qed.

  (** The antipode inverts group-like series. *)
  Lemma grouplike_inverse_l N g w : grouplike N g -> (length w <= N)%nat -> conv (anti g) g w = tone w.
  Proof.
    intros Hg Hw.
    assert (T : forall k u v, w = u ++ v -> length u = k -> 
       sum (seq 0 (S k)) (fun i => rpow (- (1)) i * cop g (rev (firstn i w)) (skipn i w))
       = match v with [] => tone w | y :: v' => rpow (- (1)) k * sum (shuffles (rev u) v') (fun s => g (y :: s)) end).
    { induction k as [|k IH]; intros u v E Hk.
      - destruct u; [|discriminate]. cbn [app] in E. subst v. cbn [seq sum rpow firstn rev skipn].
        rewrite cop_nil_l. destruct w as [|y w'].
        + cbn [tone]. destruct Hg as [-> _]. ring.
        + cbn [shuffles sum]. ring.
      - destruct (exists_last (l := u)) as (u' & x & Eu); [destruct u; [discriminate|congruence]|].
        assert (Hk' : length u' = k) by (subst u; rewrite app_length in Hk; cbn in Hk; lia).
        rewrite sum_seq_last, (IH u' (x :: v)); [|subst u; rewrite <- app_assoc in E; auto|auto].
        cbn [Nat.add]. rewrite E.
        replace (firstn (S k) (u ++ v)) with u by (rewrite <- Hk, firstn_app, firstn_all, Nat.sub_diag; cbn; rewrite app_nil_r; auto).
        replace (skipn (S k) (u ++ v)) with v by (rewrite <- Hk, skipn_app, skipn_all, Nat.sub_diag; reflexivity).
        subst u. rewrite rev_app_distr. cbn [rev app]. cbn [rpow]. destruct v as [|y v].
        + rewrite cop_nil_r. rewrite shuffles_nil_r. cbn [sum]. rewrite app_nil_r.
          destruct (u' ++ [x]) eqn:EE; [apply app_eq_nil in EE; destruct EE; discriminate|]. cbn [tone]. ring.
        + unfold cop. rewrite shuffles_cons, sum_app, !sum_map. ring. }
    transitivity (sum (seq 0 (S (length w))) (fun i => rpow (- (1)) i * cop g (rev (firstn i w)) (skipn i w))).
    - unfold conv. apply sum_ext. intros i Hi. apply in_seq in Hi. unfold anti.
      rewrite (grouplike_cop N g); auto.
      + rewrite firstn_length. replace (Nat.min i (length w)) with i by lia. ring.
      + rewrite rev_length, firstn_length, skipn_length. lia.
    - rewrite (T (length w) w []); [reflexivity|rewrite app_nil_r; auto|auto].
  Qed.
  Lemma grouplike_inverse_r N g w : grouplike N g -> (length w <= N)%nat -> conv g (anti g) w = tone w.
  Proof.
    intros Hg Hw.
      (* any series with constant term 1 has a right inverse; anti g is its left inverse *)
      assert (Hr : exists r, forall u, conv g r u = tone u).
      { (* geometric series *)
        set (y := tsub tone g).
        set (r := fun u => tpoly (length u) (fun _ => 1) y u).
        exists r. intros u.
        assert (y0 : y [] = 0) by (unfold y, tsub; destruct Hg as [-> _]; cbn; ring).
        assert (Er : forall p, (length p <= length u)%nat -> r p = tpoly (length u) (fun _ => 1) y p).
        { intros p Hp. unfold r. rewrite (tpoly_bound _ _ (length u)); auto. }
        transitivity (conv (tsub tone y) (tpoly (length u) (fun _ => 1) y) u).
        { apply conv_local; [intros; unfold y, tsub; ring|apply Er]. }
        rewrite (conv_sub_l _ _ _ _ _ u). unfold tsub at 1. rewrite (conv_one_l _ _ _ u).
        transitivity (tone u - tpow y (S (length u)) u).
        2:{ rewrite tpow_low by (auto; lia). ring. }
        assert (C : conv y (tpoly (length u) (fun _ => 1) y) u = sum (seq 0 (S (length u))) (fun k => tpow y (S k) u)).
        { unfold conv at 1, tpoly. cbn [tpow].
          transitivity (sum (seq 0 (S (length u))) (fun i => sum (seq 0 (S (length u))) (fun k => y (firstn i u) * tpow y k (skipn i u)))).
          - apply sum_ext. intros i _. rewrite <- sum_mul_l. apply sum_ext. intros; ring.
          - rewrite sum_swap. reflexivity. }
        rewrite C. unfold tpoly.
        assert (T : forall m, sum (seq 0 (S m)) (fun k => 1 * tpow y k u) - sum (seq 0 (S m)) (fun k => tpow y (S k) u) = tone u - tpow y (S m) u).
        { induction m as [|m IH].
          - cbn [seq sum tpow]. ring.
          - rewrite (sum_seq_last _ 0 (S m)), (sum_seq_last _ 0 (S m)). cbn [Nat.add].
            transitivity ((sum (seq 0 (S m)) (fun k => 1 * tpow y k u) - sum (seq 0 (S m)) (fun k => tpow y (S k) u)) + tpow y (S m) u - tpow y (S (S m)) u); [ring|].
            rewrite IH. ring. }
        apply T. }
      destruct Hr as [r Hr].
      assert (Er : forall u, (length u <= length w)%nat -> anti g u = r u).
      { intros u Hu. transitivity (conv (anti g) tone u); [symmetry; apply conv_one_r|].
        transitivity (conv (anti g) (conv g r) u); [apply conv_local; auto|].
        rewrite <- (conv_assoc _ _ _ _ _ u).
        transitivity (conv tone r u); [|apply conv_one_l].
        apply conv_local; auto. intros p Hp. apply (grouplike_inverse_l N); auto. lia. }
      transitivity (conv g r w); [apply conv_local; auto|apply Hr].
  Qed.
End Shuffle.
Arguments splits {A}. Arguments shuffles {A}. Arguments shuf {R A}. Arguments cop {R A}.
Arguments grouplike {R A}. Arguments primitive {R A}. Arguments comm {R A}. Arguments conv2 {R A}. Arguments prim2 {R A}.

Section ExpGroup.
  Variable R : qalg.
  Variable A : Type.
  Add Ring Rring2 : (rth (qr R)).
  Local Open Scope cr_scope.
  Infix "==" := teq (at level 70).
  Notation tens := (tens (qr R) A).

  (** Divided powers x^n/n!. *)
  Definition dpow (x : tens) (n : nat) : tens := tscal (invfact R n) (tpow x n).
  Lemma dpow_S x n w : rnat (S n) * dpow x (S n) w = conv x (dpow x n) w.
  Proof.
    unfold dpow. rewrite (conv_scal_r _ _ _ _ _ w). unfold tscal. cbn [invfact tpow].
    transitivity ((rnat (S n) * @qinv R (S n)) * (invfact R n * conv x (tpow x n) w)); [ring|].
    rewrite (qinv_ok R) by lia. ring.
  Qed.
  Lemma cop_dpow N x n u v : primitive N x -> (length u + length v <= N)%nat ->
    cop (dpow x n) u v = sum (seq 0 (S n)) (fun i => dpow x i u * dpow x (n - i)%nat v).
  Proof.
    intros Hx. revert u v. induction n as [|n IH]; intros u v Hl.
    - cbn [seq sum]. cbn [Nat.sub]. unfold dpow. cbn [invfact tpow].
      rewrite (cop_scal _ _ _ _ u v). rewrite (grouplike_cop (qr R) A N tone u v) by (auto; apply grouplike_one).
      unfold tscal. ring.
    - apply (qinv_cancel R (S n)); [lia|].
      rewrite <- cop_scal.
      transitivity (cop (conv x (dpow x n)) u v).
      { apply cop_ext. intros w. unfold tscal at 1. apply dpow_S. }
      rewrite cop_conv.
      rewrite (conv2_le (qr R) A N _ (prim2 x) _ (fun u v => sum (seq 0 (S n)) (fun i => dpow x i u * dpow x (n - i)%nat v))); auto.
      2:{ intros; apply (primitive_cop _ _ N); auto. }
      rewrite conv2_prim_l.
      assert (E1 : conv x (fun p => sum (seq 0 (S n)) (fun i => dpow x i p * dpow x (n - i)%nat v)) u
        = sum (seq 0 (S n)) (fun i => rnat (S i) * dpow x (S i) u * dpow x (n - i)%nat v)).
      { transitivity (sum (seq 0 (S n)) (fun i => conv x (dpow x i) u * dpow x (n - i)%nat v)).
        - unfold conv. transitivity (sum (seq 0 (S (length u))) (fun k => sum (seq 0 (S n)) (fun i => x (firstn k u) * dpow x i (skipn k u) * dpow x (n - i)%nat v))).
          + apply sum_ext. intros k _. rewrite <- sum_mul_l. apply sum_ext. intros; ring.
          + rewrite sum_swap. apply sum_ext. intros i _. rewrite <- sum_mul_r. reflexivity.
        - apply sum_ext. intros i _. rewrite <- dpow_S. reflexivity. }
      assert (E2 : conv x (fun q => sum (seq 0 (S n)) (fun i => dpow x i u * dpow x (n - i)%nat q)) v
        = sum (seq 0 (S n)) (fun i => dpow x i u * (rnat (S n - i) * dpow x (S n - i)%nat v))).
      { transitivity (sum (seq 0 (S n)) (fun i => dpow x i u * conv x (dpow x (n - i)%nat) v)).
        - unfold conv. transitivity (sum (seq 0 (S (length v))) (fun k => sum (seq 0 (S n)) (fun i => dpow x i u * (x (firstn k v) * dpow x (n - i)%nat (skipn k v))))).
          + apply sum_ext. intros k _. rewrite <- sum_mul_l. apply sum_ext. intros; ring.
          + rewrite sum_swap. apply sum_ext. intros i _. rewrite <- sum_mul_l. reflexivity.
        - apply sum_ext. intros i Hi. apply in_seq in Hi. replace (S n - i)%nat with (S (n - i)) by lia. rewrite dpow_S. reflexivity. }
      rewrite E1, E2. rewrite <- sum_mul_l.
      transitivity (sum (seq 0 (S (S n))) (fun i => rnat i * dpow x i u * dpow x (S n - i)%nat v)
        + sum (seq 0 (S (S n))) (fun i => dpow x i u * (rnat (S n - i) * dpow x (S n - i)%nat v))).
      + f_equal.
        * rewrite (sum_seq_S _ 0 (S n) (fun i => rnat i * dpow x i u * dpow x (S n - i)%nat v)), sum_seq_shift. cbn [rnat]. 
          transitivity (0 + sum (seq 0 (S n)) (fun i => rnat (S i) * dpow x (S i) u * dpow x (S n - S i)%nat v)); [|cbn [rnat]; ring].
          transitivity (sum (seq 0 (S n)) (fun i => rnat (S i) * dpow x (S i) u * dpow x (S n - S i)%nat v)); [reflexivity|ring].
        * rewrite (sum_seq_last _ 0 (S n)). cbn [Nat.add]. rewrite Nat.sub_diag. cbn [rnat]. ring.
      + rewrite <- sum_add. apply sum_ext. intros i Hi. apply in_seq in Hi.
        replace (@rnat R (S n)) with (@rnat R i + rnat (S n - i)) by (rewrite <- rnat_add; f_equal; lia). ring.
  Qed.

  (** exp of a primitive series is group-like. *)
  Theorem grouplike_exp N (x : tens) : primitive N x -> grouplike N (texp N x).
  Proof.
    intros Hx. split; [apply texp_nil; apply Hx|].
    intros u v Hl. assert (H0 := proj1 Hx). fold (cop (texp N x) u v).
    assert (E : forall w, texp N x w = sum (seq 0 (S N)) (fun k => dpow x k w)) by reflexivity.
    assert (Z : forall k w, (length w < k)%nat -> dpow x k w = 0).
    { intros k w Hk. unfold dpow, tscal. rewrite tpow_low by auto. ring. }
    transitivity (sum (seq 0 (S N)) (fun k => cop (dpow x k) u v)).
    2:{ unfold cop. rewrite sum_swap. apply sum_ext. intros. reflexivity. }
    transitivity (sum (seq 0 (S N)) (fun k => sum (seq 0 (S k)) (fun i => dpow x i u * dpow x (k - i)%nat v))).
    2:{ apply sum_ext. intros k _. symmetry. apply (cop_dpow N); auto. }
    rewrite (sum_triangle _ N (fun i j => dpow x i u * dpow x j v)).
    rewrite !E, <- sum_mul_r. apply sum_ext. intros i Hi. apply in_seq in Hi. rewrite <- sum_mul_l.
    apply sum_seq_extend; [lia|]. intros k Hk.
    destruct (Nat.le_gt_cases i (length u)).
    - rewrite (Z k v) by lia. ring.
    - rewrite (Z i u) by lia. ring.
  Qed.
End ExpGroup.
Arguments dpow {R A}.
