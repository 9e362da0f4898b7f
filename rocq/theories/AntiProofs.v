(** The antipode of the vendored library reverses words and changes the sign of odd degrees, for both
    storages. *)
From Verif Require Export AntiModel LalDense LalFun.
Open Scope Z_scope.

Lemma zseq_split n : forall s done x rest, zseq s n = done ++ x :: rest -> x = s + Z.of_nat (length done) /\ (length done < n)%nat.
Proof.
  induction n as [|n IH]; intros s done x rest H; [destruct done; discriminate|]. cbn [zseq] in H. destruct done as [|y done].
  - injection H as <- _. cbn. lia.
  - injection H as _ H. destruct (IH _ _ _ _ H). cbn [length]. lia.
Qed.
Lemma zrange_split n done x rest : zrange n = done ++ x :: rest -> x = Z.of_nat (length done) /\ x < n.
Proof. intros H. destruct (zseq_split _ _ _ _ _ H). lia. Qed.
Lemma for_maps {A A' S} (g : A -> A') (l : list A) (s : S) f : for_ (map g l) s f = for_ l s (fun a => f (g a)).
Proof. revert s. induction l as [|a l IH]; intros s; cbn [map for_]; [reflexivity|]. destruct (f (g a) s); cbn [bind]; auto. Qed.
Lemma for_prod {A A' S} (l : list A) (l' : list A') (s : S) f :
  for_ l s (fun i s => for_ l' s (f i)) = for_ (list_prod l l') s (fun p => f (fst p) (snd p)).
Proof.
  revert s. induction l as [|a l IH]; intros s; cbn [list_prod for_]; [reflexivity|]. rewrite for_app, for_maps. cbn [fst snd].
  destruct (for_ l' s (f a)); cbn [bind]; auto.
Qed.
Lemma NoDup_join {A} (l l' : list A) : NoDup l -> NoDup l' -> (forall x, In x l -> ~ In x l') -> NoDup (l ++ l').
Proof.
  intros H H'. induction H as [|a l Ha H IH]; intros Hd; cbn [app]; [auto|]. constructor.
  - rewrite in_app_iff. intros [?|Hi]; [auto|]. apply (Hd a); [left; auto|auto].
  - apply IH. intros x Hx. apply Hd. right; auto.
Qed.
Lemma NoDup_prod {A A'} (l : list A) (l' : list A') : NoDup l -> NoDup l' -> NoDup (list_prod l l').
Proof.
  intros H H'. induction H as [|a l Ha H IH]; cbn [list_prod]; [constructor|]. apply NoDup_join; [|auto|].
  - apply FinFun.Injective_map_NoDup; [intros x y E; congruence|auto].
  - intros p Hp Hp'. apply in_map_iff in Hp. destruct Hp as (y & <- & Hy). apply in_prod_iff in Hp'. tauto.
Qed.

(** Stores over a square. *)
Lemma for_grid (R : cring) (n : Z) (b : buf R) (p : Z -> Z -> Z) (v : Z -> Z -> R) :
  (forall i j, 0 <= i < n -> 0 <= j < n -> 0 <= p i j < blen b) ->
  (forall i j i' j', 0 <= i < n -> 0 <= j < n -> 0 <= i' < n -> 0 <= j' < n -> p i j = p i' j' -> i = i' /\ j = j') ->
  exists b', for_ (zrange n) b (fun i t => for_ (zrange n) t (fun j t => bset t (p i j) (v i j))) = Ok b' /\ blen b' = blen b /\
    (forall i j, 0 <= i < n -> 0 <= j < n -> bat b' (p i j) = v i j) /\
    (forall k, (forall i j, 0 <= i < n -> 0 <= j < n -> k <> p i j) -> bat b' k = bat b k).
Proof.
  intros Hb Hi. rewrite for_prod.
  destruct (for_store R (list_prod (zrange n) (zrange n)) b (fun e => p (fst e) (snd e)) (fun e => v (fst e) (snd e))) as (b' & E & L & H1 & H2).
  - intros [i j] He. apply in_prod_iff in He. rewrite !zrange_In in He. apply Hb; tauto.
  - apply NoDup_prod; apply zrange_NoDup.
  - intros [i j] [i' j'] He He' E. apply in_prod_iff in He, He'. rewrite !zrange_In in He, He'. cbn [fst snd] in E. destruct (Hi i j i' j'); try tauto. congruence.
  - exists b'. split; [exact E|]. split; [exact L|]. split.
    + intros i j Hi' Hj'. apply (H1 (i, j)). apply in_prod_iff. rewrite !zrange_In. auto.
    + intros k Hk. apply H2. intros [i j] He. apply in_prod_iff in He. rewrite !zrange_In in He. cbn [fst snd]. apply Hk; tauto.
Qed.

(** ** Reversing ranks *)
Section Rev.
  Variable w : Z.
  Hypothesis W : 0 < w.
  (** The rank of the reversed word. *)
  Definition rv (d : nat) (i : Z) : Z := idx w (rev (unidx w d i)).
  Lemma rv_bound d i : 0 <= i < w ^ Z.of_nat d -> 0 <= rv d i < w ^ Z.of_nat d.
  Proof.
    intros H. assert (L := unidx_ok w W d i H). assert (Q := idx_bound w W _ (letters_ok_rev w _ L)).
    rewrite rev_length, unidx_length in Q. exact Q.
  Qed.
  Lemma rv_idx u : letters_ok w u -> rv (length u) (idx w u) = idx w (rev u).
  Proof. intros L. unfold rv. rewrite (unidx_idx w W u L). reflexivity. Qed.
  Lemma rv_rv d i : 0 <= i < w ^ Z.of_nat d -> rv d (rv d i) = i.
  Proof.
    intros H. assert (L := unidx_ok w W d i H). unfold rv at 2. set (u := unidx w d i) in *.
    assert (E : d = length (rev u)) by (subst u; rewrite rev_length, unidx_length; reflexivity).
    rewrite E at 1. rewrite rv_idx by (apply letters_ok_rev; auto). rewrite rev_involutive. subst u. apply idx_unidx; auto.
  Qed.
  Lemma rv_inj d i j : 0 <= i < w ^ Z.of_nat d -> 0 <= j < w ^ Z.of_nat d -> rv d i = rv d j -> i = j.
  Proof. intros Hi Hj E. rewrite <- (rv_rv d i), <- (rv_rv d j) by auto. congruence. Qed.
  Lemma rv_cut a b i j : 0 <= i < w ^ Z.of_nat a -> 0 <= j < w ^ Z.of_nat b ->
    rv (a + b) (i * w ^ Z.of_nat b + j) = rv b j * w ^ Z.of_nat a + rv a i.
  Proof.
    intros Hi Hj. assert (Li := unidx_ok w W a i Hi). assert (Lj := unidx_ok w W b j Hj).
    rewrite <- (idx_unidx w W a i Hi) at 1. rewrite <- (idx_unidx w W b j Hj) at 1.
    set (u := unidx w a i) in *. set (v := unidx w b j) in *.
    assert (Eu : length u = a) by (subst u; apply unidx_length). assert (Ev : length v = b) by (subst v; apply unidx_length).
    rewrite <- Ev at 2. rewrite <- (idx_app w W u v). rewrite <- Eu at 1. rewrite <- Ev at 1. rewrite <- app_length.
    rewrite rv_idx by (apply letters_ok_app; auto). rewrite rev_app_distr, (idx_app w W), rev_length, Eu. reflexivity.
  Qed.
  (** The middle of a word, its first [a] and its last [a] letters. *)
  Lemma rv_cut3 a m i q j : 0 <= i < w ^ Z.of_nat a -> 0 <= q < w ^ Z.of_nat m -> 0 <= j < w ^ Z.of_nat a ->
    rv (a + (m + a)) (i * w ^ Z.of_nat (m + a) + (q * w ^ Z.of_nat a + j)) = rv a j * w ^ Z.of_nat (m + a) + (rv m q * w ^ Z.of_nat a + rv a i).
  Proof.
    intros Hi Hq Hj. assert (PA := pow_pos w W a). assert (PM := pow_pos w W m). assert (Pma := pow_plus w W m a).
    rewrite rv_cut; [|auto|rewrite Pma; nia]. rewrite rv_cut by auto. rewrite !Pma. lia.
  Qed.
  Lemma split2 n t k : 0 < t -> 0 <= k < n * t -> exists i j, 0 <= i < n /\ 0 <= j < t /\ k = i * t + j.
  Proof.
    intros Ht H. exists (k / t), (k mod t). assert (D := Z.div_mod k t). assert (M := Z.mod_pos_bound k t).
    split; [split; [apply Z.div_pos; lia|apply Z.div_lt_upper_bound; lia]|]. split; lia.
  Qed.
  Lemma split_unique t i j i' j' : 0 <= j < t -> 0 <= j' < t -> i * t + j = i' * t + j' -> i = i' /\ j = j'.
  Proof. intros H H' E. assert (i = i') by nia. subst. lia. Qed.
End Rev.

Section Antipode.
  Variable R : cring.
  Add Ring Rra : (rth R).
  Variable req : R -> R -> bool.
  Hypothesis Hreq : forall x y, req x y = true <-> x = y.
  Variables (w N : Z) (B : tbasis).
  Hypothesis HP : packs w N.
  Hypothesis HS : sized w N.
  Hypothesis HT : tb_ok w N B.
  Notation V := (tensor_vb B).
  Notation n := (Z.to_nat N).
  Notation len v := (blen (dv_data v)).
  Notation cnt := (tcnt w).
  Let W : 0 < w := Hw w N HP.
  Let XN : 0 <= N < 255 := HN w N HP.
  Notation rv := (rv w).

  Lemma wB : tb_width B = w. Proof. apply HT. Qed.
  Lemma pow_small d : 0 <= d <= N -> 0 < w ^ d <= 2 ^ 56.
  Proof.
    intros H. assert (H3 : w ^ N <= 2 ^ 56) by apply HP. split; [apply Z.pow_pos_nonneg; lia|]. assert (Q := Z.pow_le_mono_r w d N ltac:(lia) ltac:(lia)). lia.
  Qed.
  Lemma reverse_idx_ok d i : Z.of_nat d <= N -> 0 <= i < w ^ Z.of_nat d -> reverse_idx B (Z.of_nat d) i = Ok (rv d i).
  Proof.
    intros Hd Hi. unfold reverse_idx. rewrite Nat2Z.id, wB. assert (L := unidx_ok w W d i Hi). assert (Q := pow_small (Z.of_nat d) ltac:(lia)).
    rewrite <- (idx_unidx w W d i Hi) at 1. rewrite <- (unidx_length w d i) at 1. change 0 with (u64 0).
    assert (W31 : 1 <= w < 2 ^ 31) by apply HP. rewrite reverse_loop; [|lia|auto|rewrite (idx_unidx w W) by auto; lia].
    f_equal. change (0 * _ + idx w (rev (unidx w d i))) with (rv d i). apply u64_small. assert (Q2 := rv_bound w W d i Hi). lia.
  Qed.

  (** ** The tile and its permutation *)
  Definition tl : nat := Nat.min 3 (n / 2).
  Notation tw := (w ^ Z.of_nat tl).
  Lemma tl_eq : Z.min 3 (tb_depth B / 2) = Z.of_nat tl.
  Proof. rewrite (depth_N w N B HT). unfold tl. rewrite Nat2Z.inj_min. rewrite Nat2Z.inj_div. rewrite Z2Nat.id by lia. reflexivity. Qed.
  Lemma tl_le : (2 * tl <= n)%nat.
  Proof. unfold tl. assert (Q := Nat.div_mod n 2). lia. Qed.
  Lemma tw_pos : 0 < tw. Proof. apply (pow_pos w W). Qed.
  Definition sg (k : Z) : Z := rv tl (k mod tw) * tw + rv tl (k / tw).
  Lemma sg_at i j : 0 <= i < tw -> 0 <= j < tw -> sg (i * tw + j) = rv tl j * tw + rv tl i.
  Proof.
    intros Hi Hj. unfold sg. replace ((i * tw + j) mod tw) with j; [replace ((i * tw + j) / tw) with i; [reflexivity|]|].
    - rewrite Z.div_add_l by lia. rewrite Z.div_small; lia.
    - rewrite Z.add_comm, Z.mod_add by lia. rewrite Z.mod_small; lia.
  Qed.
  Lemma sg_bound k : 0 <= k < tw * tw -> 0 <= sg k < tw * tw.
  Proof.
    intros H. destruct (split2 tw tw k tw_pos H) as (i & j & Hi & Hj & ->). rewrite sg_at by auto.
    assert (A := rv_bound w W tl i Hi). assert (C := rv_bound w W tl j Hj). nia.
  Qed.
  Lemma sg_sg k : 0 <= k < tw * tw -> sg (sg k) = k.
  Proof.
    intros H. destruct (split2 tw tw k tw_pos H) as (i & j & Hi & Hj & ->). rewrite sg_at by auto.
    assert (A := rv_bound w W tl i Hi). assert (C := rv_bound w W tl j Hj). rewrite sg_at by auto. rewrite !(rv_rv w W) by auto. reflexivity.
  Qed.
  Definition flat (l : list (Z * Z)) : list Z := flat_map (fun p => [fst p; snd p]) l.
  Lemma flat_app l l' : flat (l ++ l') = flat l ++ flat l'. Proof. apply flat_map_app. Qed.
  Lemma in_flat l x : In x (flat l) <-> exists p, In p l /\ (x = fst p \/ x = snd p).
  Proof. unfold flat. rewrite in_flat_map. split; intros (p & Hp & H); exists p; (split; [auto|]); cbn in *; intuition. Qed.
  (** The list of swaps realises [sg] on the first [m] positions. *)
  Definition swaps (m : Z) (l : list (Z * Z)) : Prop :=
    (forall p, In p l -> 0 <= fst p < tw * tw /\ snd p = sg (fst p) /\ snd p <> fst p) /\ NoDup (flat l) /\
    (forall k, 0 <= k < m -> sg k = k \/ In k (flat l)).
  Lemma swaps_step m l (seen : list Z) : 0 <= m < tw * tw -> swaps m l -> (forall x, In x seen <-> In x (flat l)) ->
    let s := if negb (sg m =? m) && negb (existsb (Z.eqb m) seen) then (l ++ [(m, sg m)], sg m :: m :: seen) else (l, seen) in
    swaps (m + 1) (fst s) /\ (forall x, In x (snd s) <-> In x (flat (fst s))).
  Proof.
    intros Hm (HA & HD & HC) Hs. cbv zeta.
    assert (Hmem : existsb (Z.eqb m) seen = true <-> In m (flat l)).
    { rewrite existsb_exists. setoid_rewrite Hs. split; [intros (x & Hx & E); apply Z.eqb_eq in E; congruence|intros H; exists m; split; [auto|apply Z.eqb_refl]]. }
    destruct (Z.eqb_spec (sg m) m) as [E|E]; cbn [negb andb fst snd].
    - split; [|auto]. split; [auto|]. split; [auto|]. intros k Hk. destruct (Z.eq_dec k m) as [->|]; [auto|apply HC; lia].
    - destruct (existsb (Z.eqb m) seen) eqn:Ee; cbn [negb fst snd].
      + split; [|auto]. split; [auto|]. split; [auto|]. intros k Hk. destruct (Z.eq_dec k m) as [->|]; [right; apply Hmem; auto|apply HC; lia].
      + assert (Nm : ~ In m (flat l)) by (rewrite <- Hmem; congruence).
        assert (Ns : ~ In (sg m) (flat l)).
        { intros Hi. apply Nm. apply in_flat in Hi. apply in_flat. destruct Hi as (p & Hp & Hx). destruct (HA p Hp) as (P1 & P2 & _). exists p. split; [auto|].
          destruct Hx as [Hx|Hx]; [right|left].
          - rewrite P2, <- Hx, sg_sg by auto. reflexivity.
          - rewrite P2 in Hx. rewrite <- (sg_sg m), <- (sg_sg (fst p)) by auto. congruence. }
        split.
        * split; [|split].
          -- intros p Hp. apply in_app_iff in Hp. destruct Hp as [Hp|[<-|[]]]; [auto|]. cbn [fst snd]. auto.
          -- rewrite flat_app. cbn [flat flat_map fst snd app]. 
             assert (NoDup ([m; sg m] ++ flat l)).
             { cbn [app]. constructor; [cbn [In]; intuition|]. constructor; auto. }
             eapply Permutation_NoDup; [|exact H]. apply Permutation_app_comm.
          -- intros k Hk. rewrite flat_app. destruct (Z.eq_dec k m) as [->|].
             ++ right. apply in_app_iff. right. cbn. auto.
             ++ destruct (HC k ltac:(lia)); [auto|right; apply in_app_iff; auto].
        * intros x. rewrite flat_app, in_app_iff. cbn [flat flat_map fst snd app In]. rewrite Hs. intuition.
  Qed.
  Lemma make_tiling_ok : exists l, make_tiling B = Ok (mkTiling (Z.of_nat tl) tw (tw * tw) l) /\ swaps (tw * tw) l.
  Proof.
    unfold make_tiling. rewrite tl_eq. assert (T2 := tl_le). rewrite (power_at w N) by (auto; lia). cbn [bind].
    assert (P := tw_pos). destruct (Z.gtb_spec (tw * tw) 0) as [_|]; [|nia].
    set (Q := fun (m : Z) (s : list (Z * Z) * list Z) => swaps m (fst s) /\ forall x, In x (snd s) <-> In x (flat (fst s))).
    match goal with |- context [for_ ?l1 ?s1 ?f1] => destruct (for_inv (fun done s => Q (Z.of_nat (length done) * tw) s) l1 s1 f1) as ((l & seen) & E & Q1) end.
    - split; cbn [fst snd]; [|reflexivity]. split; [intros ? []|]. split; [constructor|]. cbn [length]. intros; lia.
    - intros done i rest s E Hs. apply zrange_split in E. destruct E as [Ei Hi].
      rewrite reverse_idx_ok by lia. cbn [bind].
      destruct (for_inv (fun done' s => Q (i * tw + Z.of_nat (length done')) s) (zrange tw) s (fun j s =>
          let '(permute, seen) := s in
          let! rj := reverse_idx B (Z.of_nat tl) j in
          let idx := i * tw + j in
          let ridx := rj * tw + rv tl i in
          if negb (ridx =? idx) && negb (existsb (Z.eqb idx) seen)
          then Ok (permute ++ [(idx, ridx)], ridx :: idx :: seen) else Ok (permute, seen))) as (s' & E' & Q').
      + cbn [length]. change (Z.of_nat 0) with 0. rewrite Z.add_0_r, Ei. exact Hs.
      + intros done' j rest' (l & seen) E' (S1 & S2). apply zrange_split in E'. destruct E' as [Ej Hj]. rewrite reverse_idx_ok by lia. cbn [bind].
        assert (Hm : 0 <= i * tw + j < tw * tw) by nia. cbn [fst snd] in S1, S2. rewrite <- Ej in S1.
        assert (St := swaps_step _ _ _ Hm S1 S2). cbv zeta in St |- *. rewrite sg_at in St by lia.
        rewrite app_length. cbn [length].
        replace (i * tw + Z.of_nat (length done' + 1)) with (i * tw + j + 1) by lia.
        destruct (negb (rv tl j * tw + rv tl i =? i * tw + j) && negb (existsb (Z.eqb (i * tw + j)) seen)); (eexists; split; [reflexivity|exact St]).
      + exists s'. split; [exact E'|]. rewrite app_length. cbn [length].
        replace (Z.of_nat (length (zrange tw))) with tw in Q' by (unfold zrange; rewrite zseq_length; lia).
        replace (Z.of_nat (length done + 1) * tw) with (i * tw + tw) by lia. exact Q'.
    - rewrite E. cbn [bind]. exists l. split; [reflexivity|]. destruct Q1 as [Q1 _]. cbn [fst] in Q1.
      replace (Z.of_nat (length (zrange tw))) with tw in Q1 by (unfold zrange; rewrite zseq_length; lia). exact Q1.
  Qed.

  Section Tiled.
    Variable l : list (Z * Z).
    Hypothesis Hl : swaps (tw * tw) l.
    Notation T := (mkTiling (Z.of_nat tl) tw (tw * tw) l).
    Lemma permute_ok t : blen t = tw * tw -> exists t', permute_tile R T t = Ok t' /\ blen t' = tw * tw /\ forall k, 0 <= k < tw * tw -> bat t' k = bat t (sg k).
    Proof.
      intros Lt. unfold permute_tile. cbn [tl_permute]. destruct Hl as (HA & HD & HC).
      destruct (for_inv (fun done t' => blen t' = tw * tw /\ (forall k, In k (flat done) -> bat t' k = bat t (sg k)) /\ (forall k, ~ In k (flat done) -> bat t' k = bat t k)) l t
        (fun p tile => let! x := bget tile (fst p) in let! y := bget tile (snd p) in let! tile := bset tile (fst p) y in bset tile (snd p) x)) as (t' & E & L' & I1 & I2).
      - split; [auto|]. split; [intros k []|auto].
      - intros done [a b] rest s E (Ls & S1 & S2). destruct (HA (a, b)) as (A1 & A2 & A3); [rewrite E; apply in_app_iff; right; left; auto|]. cbn [fst snd] in *.
        assert (Ab := sg_bound a A1). rewrite <- A2 in Ab.
        rewrite bget_ok by lia. cbn [bind]. rewrite bget_ok by lia. cbn [bind]. rewrite bset_ok by lia. cbn [bind]. rewrite bset_ok by (cbn [blen]; lia).
        eexists. split; [reflexivity|]. cbn [blen bat].
        rewrite E, flat_app in HD. cbn [flat flat_map fst snd app] in HD. fold (flat rest) in HD.
        assert (Na : ~ In a (flat done)). { intros Hi. apply NoDup_remove_2 in HD. apply HD. apply in_app_iff. auto. }
        assert (Nb : ~ In b (flat done)). { intros Hi. replace (flat done ++ a :: b :: flat rest) with ((flat done ++ [a]) ++ b :: flat rest) in HD by (rewrite <- app_assoc; reflexivity). apply NoDup_remove_2 in HD. apply HD. rewrite !in_app_iff. auto. }
        split; [auto|]. split.
        + intros k Hk. rewrite flat_app, in_app_iff in Hk. cbn [flat flat_map fst snd app In] in Hk.
          destruct (Z.eqb_spec k b) as [->|Kb]; [rewrite A2, sg_sg by auto; rewrite S2 by auto; reflexivity|].
          destruct (Z.eqb_spec k a) as [->|Ka]; [rewrite S2 by auto; rewrite A2; reflexivity|].
          apply S1. intuition congruence.
        + intros k Hk. rewrite flat_app, in_app_iff in Hk. cbn [flat flat_map fst snd app In] in Hk.
          destruct (Z.eqb_spec k b) as [->|Kb]; [tauto|]. destruct (Z.eqb_spec k a) as [->|Ka]; [tauto|]. apply S2. tauto.
      - exists t'. split; [exact E|]. split; [auto|]. intros k Hk. destruct (HC k Hk) as [Hk'|Hk']; [|auto].
        destruct (in_dec Z.eq_dec k (flat l)) as [Hi|Hi]; [auto|]. rewrite I2 by auto. rewrite Hk'. reflexivity.
    Qed.
    Lemma read_ok src p stride t : blen t = tw * tw -> (forall i j, 0 <= i < tw -> 0 <= j < tw -> 0 <= p + (i * stride + j) < blen src) ->
      exists t', read_tile R T src p stride t = Ok t' /\ blen t' = tw * tw /\ forall i j, 0 <= i < tw -> 0 <= j < tw -> bat t' (i * tw + j) = bat src (p + (i * stride + j)).
    Proof.
      intros Lt Hp. unfold read_tile. cbn [tl_width].
      destruct (for_grid R tw t (fun i j => i * tw + j) (fun i j => bat src (p + (i * stride + j)))) as (t' & E & L & H1 & _).
      - intros; rewrite Lt; nia.
      - intros i j i' j' Hi Hj Hi' Hj' E. apply (split_unique tw); auto.
      - exists t'. rewrite <- Lt. split; [|auto]. rewrite <- E. apply for_ext. intros i s Hi. apply for_ext. intros j s' Hj.
        rewrite zrange_In in Hi, Hj. rewrite bget_ok by auto. reflexivity.
    Qed.
    Lemma write_ok dst p stride t : blen t = tw * tw -> tw <= stride -> (forall i j, 0 <= i < tw -> 0 <= j < tw -> 0 <= p + (i * stride + j) < blen dst) ->
      exists d', write_tile R T dst p stride t = Ok d' /\ blen d' = blen dst /\ (forall i j, 0 <= i < tw -> 0 <= j < tw -> bat d' (p + (i * stride + j)) = bat t (i * tw + j)) /\
        forall k, (forall i j, 0 <= i < tw -> 0 <= j < tw -> k <> p + (i * stride + j)) -> bat d' k = bat dst k.
    Proof.
      intros Lt Hst Hp. unfold write_tile. cbn [tl_width].
      destruct (for_grid R tw dst (fun i j => p + (i * stride + j)) (fun i j => bat t (i * tw + j))) as (d' & E & L & H1 & H2).
      - auto.
      - intros i j i' j' Hi Hj Hi' Hj' E. apply (split_unique stride); try lia.
      - exists d'. split; [|auto]. rewrite <- E. apply for_ext. intros i s Hi. apply for_ext. intros j s' Hj.
        rewrite zrange_In in Hi, Hj. rewrite bget_ok by (rewrite Lt; nia). reflexivity.
    Qed.
    Lemma sign_ok t : blen t = tw * tw -> exists t', sign_tile R T t = Ok t' /\ blen t' = tw * tw /\ forall k, 0 <= k < tw * tw -> bat t' k = ropp (bat t k).
    Proof.
      intros Lt. unfold sign_tile. cbn [tl_size]. unfold zrange.
      destruct (for_map R t 0 (Z.to_nat (tw * tw)) (fun _ x => ropp x) (fun i tile => let! x := bget tile i in bset tile i (ropp x))) as (t' & E & L & H).
      - lia.
      - assert (P := tw_pos). nia.
      - intros; reflexivity.
      - exists t'. split; [exact E|]. split; [lia|]. intros k Hk. rewrite H.
        destruct (Z.leb_spec 0 k), (Z.ltb_spec k (0 + Z.of_nat (Z.to_nat (tw * tw)))); try lia. reflexivity.
    Qed.
    (** ** Levels *)
    Definition sgn (d : Z) (x : R) : R := if Z.even d then x else ropp x.
    (** [dst'] is [dst] with the antipode of one level of [src], the level starting at [p] *)
    Definition lev (p : Z) (d : nat) (src dst dst' : buf R) : Prop :=
      blen dst' = blen dst /\ (forall k, 0 <= k < w ^ Z.of_nat d -> bat dst' (p + k) = sgn (Z.of_nat d) (bat src (p + rv d k))) /\
      (forall k, ~ (p <= k < p + w ^ Z.of_nat d) -> bat dst' k = bat dst k).
    Lemma untiled_ok p d src dst : Z.of_nat d <= N -> 0 <= p -> p + w ^ Z.of_nat d <= blen src -> p + w ^ Z.of_nat d <= blen dst ->
      exists dst', untiled_level R B dst p src p (Z.of_nat d) = Ok dst' /\ lev p d src dst dst'.
    Proof.
      intros Hd Hp Ls Ld. assert (Pd := pow_pos w W d). unfold untiled_level.
      destruct (Z.eqb_spec (Z.of_nat d) 0) as [E0|E0].
      { assert (d = O) by lia. subst d. change (Z.of_nat 0) with 0 in *. rewrite Z.pow_0_r in *. rewrite bget_ok by lia. cbn [bind]. rewrite bset_ok by lia.
        eexists. split; [reflexivity|]. split; [reflexivity|]. cbn [bat]. change (Z.of_nat 0) with 0. rewrite Z.pow_0_r. split.
        - intros k Hk. replace k with 0 by lia. rewrite Z.add_0_r, Z.eqb_refl. unfold sgn. cbn [Z.even]. f_equal. assert (Q := rv_bound w W 0 0). change (Z.of_nat 0) with 0 in Q. rewrite Z.pow_0_r in Q. lia.
        - intros k Hk. destruct (Z.eqb_spec k p); [lia|reflexivity]. }
      destruct (Z.eqb_spec (Z.of_nat d) 1) as [E1|E1].
      { assert (d = 1%nat) by lia. subst d. rewrite wB. change (Z.of_nat 1) with 1 in *. rewrite Z.pow_1_r in *.
        destruct (for_store R (zrange w) dst (fun i => p + i) (fun i => ropp (bat src (p + i)))) as (dst' & E & L & H1 & H2).
        - intros i Hi. apply zrange_In in Hi. lia.
        - apply zrange_NoDup.
        - intros; lia.
        - exists dst'. split.
          + rewrite <- E. apply for_ext. intros i t Hi. apply zrange_In in Hi. rewrite bget_ok by lia. reflexivity.
          + split; [auto|]. change (Z.of_nat 1) with 1. rewrite Z.pow_1_r. split.
            * intros k Hk. rewrite H1 by (apply zrange_In; auto). unfold sgn. cbn [Z.even]. do 3 f_equal. unfold AntiProofs.rv. cbn [unidx rev app idx].
              change (Z.of_nat 0) with 0. change (Z.of_nat (length (@nil Z))) with 0. rewrite Z.pow_0_r, Z.div_1_r. lia.
            * intros k Hk. apply H2. intros i Hi. apply zrange_In in Hi. lia. }
      rewrite (power_at w N) by (auto; lia). cbn [bind].
      destruct (for_store R (zrange (w ^ Z.of_nat d)) dst (fun i => p + rv d i) (fun i => sgn (Z.of_nat d) (bat src (p + i)))) as (dst' & E & L & H1 & H2).
      - intros i Hi. apply zrange_In in Hi. assert (Q := rv_bound w W d i Hi). lia.
      - apply zrange_NoDup.
      - intros i j Hi Hj E. apply zrange_In in Hi, Hj. apply (rv_inj w W d); auto. lia.
      - exists dst'. split.
        + rewrite <- E. apply for_ext. intros i t Hi. apply zrange_In in Hi. rewrite reverse_idx_ok by auto. cbn [bind]. rewrite bget_ok by lia. reflexivity.
        + split; [auto|]. split.
          * intros k Hk. assert (Q := rv_bound w W d k Hk). rewrite <- (rv_rv w W d k Hk) at 1. apply H1. apply zrange_In. auto.
          * intros k Hk. apply H2. intros i Hi. apply zrange_In in Hi. assert (Q := rv_bound w W d i Hi). lia.
    Qed.
    Lemma tiled_ok p d src dst t : (2 * tl <= d)%nat -> Z.of_nat d <= N -> w < 2 ^ 16 \/ d = (2 * tl)%nat -> 0 <= p ->
      p + w ^ Z.of_nat d <= blen src -> p + w ^ Z.of_nat d <= blen dst -> blen t = tw * tw ->
      exists dst' t', tiled_level R B T dst p src p (Z.of_nat d) t = Ok (dst', t') /\ blen t' = tw * tw /\ lev p d src dst dst'.
    Proof.
      intros H2 Hd H16 Hp Ls Ld Lt. unfold tiled_level. cbn [tl_letters tl_width].
      set (m := (d - 2 * tl)%nat). assert (Em : Z.of_nat d - 2 * Z.of_nat tl = Z.of_nat m) by lia. rewrite Em.
      replace (Z.of_nat d - Z.of_nat tl) with (Z.of_nat (m + tl)) by lia.
      rewrite (power_at w N) by (auto; lia). cbn [bind]. rewrite (power_at w N) by (auto; lia). cbn [bind].
      assert (PA := tw_pos). assert (PM := pow_pos w W m). assert (Pma := pow_plus w W m tl).
      assert (Ed : d = (tl + (m + tl))%nat) by lia.
      assert (Pd : w ^ Z.of_nat d = tw * w ^ Z.of_nat (m + tl)) by (rewrite Ed at 1; apply (pow_plus w W)).
      set (st := w ^ Z.of_nat (m + tl)) in *. set (pm := w ^ Z.of_nat m) in *.
      set (Q := fun (done : list Z) (s : buf R * buf R * uword) => let '(dst', t', wd) := s in
        blen dst' = blen dst /\ blen t' = tw * tw /\
        (exists v, letters_ok w v /\ length v = m /\ wd = uw_of_list w v /\ idx w v = Z.of_nat (length done) mod pm) /\
        (forall i q j, 0 <= i < tw -> 0 <= q < pm -> 0 <= j < tw -> rv m q < Z.of_nat (length done) ->
           bat dst' (p + (i * st + (q * tw + j))) = sgn (Z.of_nat d) (bat src (p + (rv tl j * st + (rv m q * tw + rv tl i))))) /\
        (forall k, ~ (p <= k < p + w ^ Z.of_nat d) -> bat dst' k = bat dst k)).
      match goal with |- context [for_ ?l1 ?s1 ?f1] => destruct (for_inv Q l1 s1 f1) as (((dst' & t') & wd) & E & L1 & L2 & _ & I1 & I2) end.
      - split; [reflexivity|]. split; [auto|]. split.
        + exists (repeat 0 m). split; [apply Forall_forall; intros x Hx; apply repeat_spec in Hx; lia|]. split; [apply repeat_length|].
          split.
          * unfold uw_zero, uw_of_list. rewrite wB, Nat2Z.id. f_equal. clear. induction m as [|m IH]; [reflexivity|]. cbn [repeat rev]. rewrite <- IH. apply repeat_cons.
          * change (Z.of_nat (length (@nil Z))) with 0. rewrite Z.mod_0_l by lia. clear. induction m as [|m IH]; cbn [repeat idx]; [reflexivity|]. rewrite IH. lia.
        + split; [|auto]. intros i q j Hi Hq Hj Hr. assert (Qb := rv_bound w W m q Hq). change (Z.of_nat (length (@nil Z))) with 0 in Hr. lia.
      - intros done i rest ((ds & ts) & wd) E (L1 & L2 & (v & Lv & Ev & -> & Iv) & I1 & I2). apply zrange_split in E. destruct E as [Ei Hi].
        rewrite <- Ei in *. assert (Ii : idx w v = i) by (rewrite Iv; apply Z.mod_small; lia).
        rewrite (to_reverse_index_ok w N) by (auto; lia).
        assert (Er : idx w (rev v) = rv m i) by (rewrite <- Ii, <- Ev; symmetry; apply (rv_idx w W); auto). rewrite Er.
        assert (Rb := rv_bound w W m i ltac:(subst pm; lia)).
        assert (Hrng : forall q a b, 0 <= q < pm -> 0 <= a < tw -> 0 <= b < tw -> 0 <= a * st + (q * tw + b) < tw * st).
        { intros q a b Hq Ha Hb. rewrite Pma. assert (0 <= q * tw + b < pm * tw) by nia. nia. }
        destruct (read_ok src (p + i * tw) st ts L2) as (t1 & E1 & Lt1 & C1).
        { intros a b Ha Hb. assert (Q1 := Hrng i a b ltac:(lia) Ha Hb). lia. }
        rewrite E1. cbn [bind].
        assert (X : exists t2, (if Z.even (Z.of_nat d) then Ok t1 else sign_tile R T t1) = Ok t2 /\ blen t2 = tw * tw /\ forall k, 0 <= k < tw * tw -> bat t2 k = sgn (Z.of_nat d) (bat t1 k)).
        { unfold sgn. destruct (Z.even (Z.of_nat d)); [exists t1; auto|]. apply sign_ok; auto. }
        destruct X as (t2 & E2 & Lt2 & C2). rewrite E2. cbn [bind].
        destruct (permute_ok t2 Lt2) as (t3 & E3 & Lt3 & C3). rewrite E3. cbn [bind].
        destruct (write_ok ds (p + rv m i * tw) st t3 Lt3) as (d4 & E4 & L4 & C4 & C4').
        { subst st. rewrite Pma. subst pm. nia. }
        { intros a b Ha Hb. assert (Q1 := Hrng (rv m i) a b Rb Ha Hb). lia. }
        rewrite E4. cbn [bind]. eexists. split; [reflexivity|].
        split; [lia|]. split; [auto|]. split.
        { rewrite app_length. cbn [length]. replace (Z.of_nat (length done + 1)) with (i + 1) by lia.
          destruct (Nat.eq_dec m 0) as [M0|M0].
          - exists []. split; [constructor|]. split; [auto|]. split.
            + destruct v; [reflexivity|cbn [length] in Ev; lia].
            + cbn [idx]. subst pm. rewrite M0. change (Z.of_nat 0) with 0. rewrite Z.pow_0_r, Z.mod_1_r. reflexivity.
          - assert (w < 2 ^ 16) by (destruct H16; [auto|lia]).
            destruct (uw_advance_ok w v 1) as (v' & Lv' & Ev' & Ew & Iv'); [lia|auto|lia|lia|]. exists v'. split; [auto|]. split; [lia|]. split; [auto|].
            rewrite Iv', Ii, Ev. reflexivity. }
        split.
        + intros a q b Ha Hq Hb Hr. rewrite app_length in Hr. cbn [length] in Hr.
          destruct (Z.eq_dec (rv m q) i) as [Eq|Nq].
          * assert (Eq' : q = rv m i) by (rewrite <- Eq; symmetry; apply (rv_rv w W); auto).
            replace (p + (a * st + (q * tw + b))) with (p + rv m i * tw + (a * st + b)) by (rewrite <- Eq'; lia).
            rewrite C4 by auto. rewrite C3 by nia. rewrite sg_at by auto.
            assert (Ra := rv_bound w W tl a Ha). assert (Rbb := rv_bound w W tl b Hb).
            rewrite C2 by nia. rewrite C1 by auto. rewrite Eq. do 2 f_equal. lia.
          * rewrite C4'; [apply I1; auto; lia|]. intros a' b' Ha' Hb' E. apply Nq.
            assert (E' : a * st + (q * tw + b) = a' * st + (rv m i * tw + b')) by lia.
            apply split_unique in E'; [|rewrite Pma; nia|rewrite Pma; nia]. destruct E' as [_ E']. apply split_unique in E'; auto. destruct E' as [E' _].
            rewrite E'. apply (rv_rv w W). subst pm. lia.
        + intros k Hk. rewrite C4'; [apply I2; auto|]. intros a b Ha Hb E. apply Hk. assert (Q1 := Hrng (rv m i) a b Rb Ha Hb). lia.
      - rewrite E. cbn [bind]. exists dst', t'. split; [reflexivity|]. split; [auto|]. split; [auto|]. split; [|auto].
        intros k Hk. rewrite Pd in Hk. destruct (split2 tw st k) as (i & r & Hi & Hr & ->); [subst st; apply (pow_pos w W)|lia|].
        rewrite Pma in Hr. destruct (split2 pm tw r PA Hr) as (q & j & Hq & Hj & ->).
        rewrite I1; auto.
        + f_equal. f_equal. f_equal. subst st. rewrite Ed. symmetry. apply (rv_cut3 w W); auto.
        + unfold zrange. rewrite zseq_length. assert (Qb := rv_bound w W m q Hq). subst pm. lia.
    Qed.
    Lemma handle_ok arg : d_st R w N arg -> len arg <> 0 -> w < 2 ^ 16 \/ N <= 2 ->
      exists x, handle_dense R B T arg = Ok x /\ dv_deg x = dv_deg arg /\ len x = len arg /\
        forall d k, Z.of_nat d <= dv_deg arg -> 0 <= k < w ^ Z.of_nat d -> bat (dv_data x) (words_below w d + k) = sgn (Z.of_nat d) (bat (dv_data arg) (words_below w d + rv d k)).
    Proof.
      intros (Hg & Hlen) Hne H16. destruct Hlen as [Hlen|]; [|lia]. unfold handle_dense. cbn [tl_letters tl_size].
      set (D := dv_deg arg) in *. set (src := dv_data arg) in *.
      set (unt := if Z.of_nat tl >? 0 then Z.min D (2 * Z.of_nat tl - 1) else D).
      assert (Hu : 0 <= unt <= D) by (subst unt; destruct (Z.gtb_spec (Z.of_nat tl) 0); lia).
      cbn [dv_update_degree dv_resize_exact dv_data dv_deg].
      set (dst0 := mkbuf (blen src) _).
      set (Q := fun (m : nat) (op : Z) (dst : buf R) => op = words_below w m /\ blen dst = blen src /\
        forall d k, (d < m)%nat -> 0 <= k < w ^ Z.of_nat d -> bat dst (words_below w d + k) = sgn (Z.of_nat d) (bat src (words_below w d + rv d k))).
      assert (Hlev : forall d dst dst', Z.of_nat d <= D -> Q d (words_below w d) dst -> lev (words_below w d) d src dst dst' -> Q (S d) (words_below w d + w ^ Z.of_nat d) dst').
      { intros d dst dst' Hd (_ & Q2 & Q3) (V1 & V2 & V3). split; [reflexivity|]. split; [lia|]. intros d' k Hd' Hk.
        destruct (Nat.eq_dec d' d) as [->|]; [apply V2; auto|]. rewrite V3; [apply Q3; auto; lia|].
        assert (Z1 := words_below_lt w W d' d ltac:(lia)). lia. }
      assert (Hfit : forall d, Z.of_nat d <= D -> 0 <= words_below w d /\ words_below w d + w ^ Z.of_nat d <= blen src).
      { intros d Hd. split; [apply words_below_nonneg; auto|]. rewrite Hlen. unfold tcnt. apply words_below_lt; auto. lia. }
      match goal with |- context [for_ ?l1 ?s1 ?f1] => destruct (for_inv (fun done s => Q (length done) (snd s) (fst s)) l1 s1 f1) as ((dst & op) & E & Q1) end.
      - cbn [fst snd length]. split; [reflexivity|]. split; [reflexivity|]. intros; lia.
      - intros done d rest (dst & op) E Q1. cbn [fst snd] in Q1. apply zseq_split in E. destruct E as [Ed Hd]. assert (Ed' : d = Z.of_nat (length done)) by lia. clear Ed. subst d.
        assert (Eop : op = words_below w (length done)) by apply Q1. subst op.
        destruct (Hfit (length done) ltac:(lia)) as (F1 & F2).
        destruct (untiled_ok (words_below w (length done)) (length done) src dst) as (dst' & E & Lv); [lia|auto|auto|replace (blen dst) with (blen src) by (symmetry; apply Q1); auto|].
        rewrite E. cbn [bind]. rewrite (power_at w N) by (auto; lia). cbn [bind]. eexists. split; [reflexivity|]. cbn [fst snd].
        rewrite app_length. cbn [length]. rewrite Nat.add_1_r. apply (Hlev _ dst); auto; lia.
      - rewrite E. cbn [bind fst snd] in *. rewrite zseq_length in Q1. set (m0 := Z.to_nat (unt + 1)) in *.
        match goal with |- context [for_ ?l1 ?s1 ?f1] => destruct (for_inv (fun done s => let '(dst, op, t) := s in blen t = tw * tw /\ Q (m0 + length done)%nat op dst) l1 s1 f1) as (((dst2 & op2) & t2) & E2 & _ & Q2) end.
        + split; [reflexivity|]. cbn [length]. rewrite Nat.add_0_r. exact Q1.
        + intros done d rest ((dst2 & op2) & t2) E2 (Lt & Q2). apply zseq_split in E2. destruct E2 as [Ed Hd].
          assert (Ed' : d = Z.of_nat (m0 + length done)) by lia. clear Ed. subst d.
          assert (Eop : op2 = words_below w (m0 + length done)) by apply Q2. subst op2.
          destruct (Hfit (m0 + length done)%nat ltac:(lia)) as (F1 & F2).
          assert (U2 : (2 * tl <= m0 + length done)%nat) by (subst unt; destruct (Z.gtb_spec (Z.of_nat tl) 0); lia).
          destruct (tiled_ok (words_below w (m0 + length done)) (m0 + length done) src dst2 t2) as (dst' & t' & E2 & Lt' & Lv);
            [auto|lia| |auto|auto|replace (blen dst2) with (blen src) by (symmetry; apply Q2); auto|auto|].
          { destruct H16 as [|H16]; [auto|]. right. assert (T3 : tl = Nat.min 3 (n / 2)) by reflexivity.
            assert (n = 0 \/ n = 1 \/ n = 2)%nat as [E0|[E0|E0]] by lia; rewrite E0 in T3; cbn in T3; subst unt; destruct (Z.gtb_spec (Z.of_nat tl) 0); lia. }
          rewrite E2. cbn [bind]. rewrite (power_at w N) by (auto; lia). cbn [bind]. eexists. split; [reflexivity|].
          split; [auto|]. rewrite app_length. cbn [length]. replace (m0 + (length done + 1))%nat with (S (m0 + length done)) by lia. apply (Hlev _ dst2); auto; lia.
        + rewrite E2. cbn [bind]. eexists. split; [reflexivity|]. cbn [dv_deg dv_data]. split; [reflexivity|]. split; [apply Q2|].
          intros d k Hd Hk. apply Q2; auto. rewrite zseq_length. lia.
    Qed.
  End Tiled.

  Lemma sgn_rpow d (x : R) : sgn (Z.of_nat d) x = rmul (rpow (ropp r1) d) x.
  Proof.
    unfold sgn. induction d as [|d IH]; [change (Z.even (Z.of_nat 0)) with true; cbn [rpow]; ring|].
    rewrite Nat2Z.inj_succ, Z.even_succ, <- Z.negb_even. cbn [rpow].
    destruct (Z.even (Z.of_nat d)); cbn [negb].
    - transitivity (ropp (rmul (rpow (ropp r1) d) x)); [rewrite <- IH; reflexivity|ring].
    - transitivity (ropp (rmul (rpow (ropp r1) d) x)); [rewrite <- IH; ring|ring].
  Qed.
  Lemma inside_rev u : inside w n (rev u) = inside w n u.
  Proof.
    apply eq_true_iff_eq. rewrite !inside_iff, rev_length. split; intros [H1 H2]; split; auto; [rewrite <- (rev_involutive u)|]; apply letters_ok_rev; auto.
  Qed.
  Notation dcf := (wcf R w N (dv_at R)).
  Notation scf := (wcf R w N (s_cf R (tkey B))).
  Theorem dv_antipode_ok v : d_st R w N v -> len v <> 0 -> w < 2 ^ 16 \/ N <= 2 ->
    exists x, dv_antipode R B v = Ok x /\ d_fr R w N x /\ forall u, dcf x u = anti (dcf v) u.
  Proof.
    intros Hv Hne H16. unfold dv_antipode. destruct make_tiling_ok as (l & E & Hl). rewrite E. cbn [bind].
    destruct (handle_ok l Hl v Hv Hne H16) as (x & Ex & Dx & Lx & Cx). exists x. split; [exact Ex|].
    destruct Hv as (Hg & Hlen). destruct Hlen as [Hlen|]; [|lia].
    split; [split; [lia|left; congruence]|].
    intros u. unfold anti, wcf. rewrite inside_rev. destruct (inside w n u) eqn:Hu; [|ring].
    apply inside_iff in Hu. destruct Hu as [Lu Nu]. rewrite <- sgn_rpow. rewrite !at_len, Lx, Hlen.
    assert (Lr := letters_ok_rev w u Lu).
    assert (P1 := pos_cnt w N HP u (dv_deg v) Lu ltac:(lia)). assert (P2 := pos_cnt w N HP (rev u) (dv_deg v) Lr ltac:(lia)). rewrite rev_length in P2.
    destruct (Z.ltb_spec (pos w u) (cnt (dv_deg v))), (Z.ltb_spec (pos w (rev u)) (cnt (dv_deg v))); try lia.
    - unfold pos. rewrite Cx; [|tauto|apply idx_bound; auto]. rewrite rev_length. do 3 f_equal. apply (rv_idx w W); auto.
    - unfold sgn. destruct (Z.even _); ring.
  Qed.
  Lemma antipode_no_data v : d_st R w N v -> len v = 0 -> dv_antipode R B v = UB.
  Proof.
    intros Hv E0. unfold dv_antipode. destruct make_tiling_ok as (l & E & Hl). rewrite E. cbn [bind]. unfold handle_dense. cbn [tl_letters].
    match goal with |- context [zseq 0 (Z.to_nat (?m + 1))] => set (unt := m) end.
    assert (Hu : 0 <= unt). { subst unt. destruct Hv as (Hg & _). match goal with |- context [if ?b then _ else _] => destruct b eqn:Eb end; lia. }
    replace (Z.to_nat (unt + 1)) with (S (Z.to_nat unt)) by lia. cbn [zseq for_]. unfold untiled_level. cbn [Z.eqb]. rewrite bget_ub by lia. reflexivity.
  Qed.
  Theorem sv_antipode_ok v : s_ok R (tdim w N) (tkey B) v -> exists x, sv_antipode R req B v = Ok x /\ s_ok R (tdim w N) (tkey B) x /\ forall u, scf x u = anti (scf v) u.
  Proof.
    intros Hv. set (TS := sparse_tgood R req Hreq w N B HP HS HT).
    unfold sv_antipode. destruct make_tiling_ok as (lt & E & _). rewrite E. cbn [bind].
    destruct (t_items _ _ _ _ _ _ _ _ _ _ TS v Hv) as (l & El & Il & Ol & Cl). cbn in El. injection El as ->. rewrite for_maps. cbn [fst snd].
    match goal with |- context [for_ ?l1 ?s1 ?f1] => destruct (for_inv (fun done x => s_ok R (tdim w N) (tkey B) x /\
      forall u, scf x u = rmul (rpow (ropp r1) (length u)) (sum done (fun e => if list_eq_dec Z.eq_dec (fst e) (rev u) then snd e else r0))) l1 s1 f1) as (x & E2 & X1 & X2) end.
    - destruct (t_new _ _ _ _ _ _ _ _ _ _ TS) as (A & C & _). split; [exact A|]. intros u. rewrite C. cbn [sum]. ring.
    - intros done (u & c) rest x E2 (X1 & X2). cbn [fst snd]. rewrite E2 in Il, Ol.
      assert (Iu : inside w n u = true) by (apply (Il (u, c)), in_app_iff; right; left; auto).
      assert (Iu' := Iu). apply inside_iff in Iu'. destruct Iu' as [Lu Nu].
      rewrite (reverse_key_ok w N) by (auto; lia). cbn [bind].
      destruct (t_word _ _ _ _ _ _ _ _ _ _ TS x (rev u) (fun _ => if Z.even (k_degree (wkey w (rev u))) then c else ropp c) X1) as (x' & Ex & Fx & Cx); [rewrite inside_rev; auto|].
      exists x'. split; [exact Ex|]. split; [exact Fx|]. intros u'. rewrite Cx, sum_app. cbn [sum fst snd].
      assert (Ek : k_degree (wkey w (rev u)) = Z.of_nat (length u)). { rewrite (wkey_deg w N); [rewrite rev_length; auto|auto|apply letters_ok_rev; auto|rewrite rev_length; lia]. }
      rewrite Ek. fold (sgn (Z.of_nat (length u)) c). rewrite sgn_rpow.
      destruct (list_eq_dec Z.eq_dec u' (rev u)) as [->|Hne].
      + rewrite rev_involutive, rev_length. destruct (list_eq_dec Z.eq_dec u u); [|congruence].
        rewrite sum_zero; [ring|]. intros (u2 & c2) H2. cbn [fst snd]. destruct (list_eq_dec Z.eq_dec u2 u) as [->|]; [|reflexivity]. exfalso.
        apply in_split in H2. destruct H2 as (l1 & l2 & ->). assert (Z1 := Ol (u, c2) (u, c) l1 (l2 ++ (u, c) :: rest)). rewrite <- app_assoc in Z1. cbn [app fst] in Z1.
        specialize (Z1 eq_refl ltac:(apply in_app_iff; right; left; auto)). lia.
      + destruct (list_eq_dec Z.eq_dec u (rev u')) as [->|]; [rewrite rev_involutive in Hne; congruence|]. rewrite X2. ring.
    - exists x. split; [exact E2|]. split; [exact X1|]. intros u. rewrite X2. unfold anti. rewrite Cl. reflexivity.
  Qed.
End Antipode.
