(** Free tensors of the vendored library: both storages multiply by concatenation. *)
From Verif Require Export LalFma TensorProofs3 HssProofs KeyProofs KeyProofs2.
From Coq Require Import Sorted Permutation.
Local Notation ktb := KeyModel.tensor_basis.

(** A word of the truncated algebra. *)
Definition inside (w : Z) (N : nat) (u : list Z) : bool := forallb (fun x => (0 <=? x) && (x <? w)) u && Nat.leb (length u) N.
Lemma inside_iff w N u : inside w N u = true <-> letters_ok w u /\ (length u <= N)%nat.
Proof.
  unfold inside. rewrite andb_true_iff, forallb_forall, Nat.leb_le. unfold letters_ok. rewrite Forall_forall.
  split; intros [H1 H2]; split; auto; intros x Hx; specialize (H1 x Hx); [apply andb_true_iff in H1; destruct H1 as [A B]; apply Z.leb_le in A; apply Z.ltb_lt in B; lia|].
  apply andb_true_iff. split; [apply Z.leb_le|apply Z.ltb_lt]; lia.
Qed.
Lemma inside_firstn w N u k : inside w N u = true -> inside w N (firstn k u) = true.
Proof. rewrite !inside_iff. intros [H1 H2]. split; [apply letters_ok_firstn; auto|]. rewrite firstn_length. lia. Qed.
Lemma inside_skipn w N u k : inside w N u = true -> inside w N (skipn k u) = true.
Proof. rewrite !inside_iff. intros [H1 H2]. split; [apply letters_ok_skipn; auto|]. rewrite skipn_length. lia. Qed.

(** What the free tensor functions need from a storage.  [fr]: a tensor as every constructor and
    every operation except clearing leaves it; [st]: the same, or cleared. *)
Definition keeps {X} (emp : X -> bool) (fr st : X -> Prop) (v : X) : Prop := (forall u, st u -> fr u) \/ emp v = false.
Record tgood (R : cring) (X : Type) (O : vops R X) (fma : X -> X -> X -> (R -> R) -> Z -> unit -> outcome (X * unit))
    (rtd : X -> Z -> outcome X) (w : Z) (N : nat) (fr st : X -> Prop) (cf : X -> list Z -> R) : Prop := mkTG {
  t_sub : forall v, fr v -> st v;
  t_out : forall v u, inside w N u = false -> cf v u = r0;
  t_new : fr (vo_new O) /\ (forall u, cf (vo_new O) u = r0) /\ vo_empty O (vo_new O) = true;
  t_empty : forall v, st v -> vo_empty O v = true -> forall u, cf v u = r0;
  t_clear : forall v, st v -> st (vo_clear O v) /\ (forall u, cf (vo_clear O v) u = r0);
  t_single : forall s, exists v, vo_single O (mk_key 0 0) s = Ok v /\ fr v /\
     (forall u, cf v u = match u with [] => s | _ => r0 end) /\ (s <> r0 -> vo_empty O v = false);
  t_upd : forall v f, st v -> exists v', vo_upd O v (mk_key 0 0) f = Ok v' /\ fr v' /\ keeps (vo_empty O) fr st v' /\
     (forall u, cf v' u = match u with [] => f (cf v []) | _ => cf v u end);
  t_fma : forall l r fn d md, (0 < N)%nat -> st l -> st r -> vo_empty O l = false -> vo_empty O r = false -> 0 <= md ->
     fn r0 = r0 -> (forall x y, fn (radd x y) = radd (fn x) (fn y)) ->
     exists x, fma (vo_update_degree O d (vo_new O)) l r fn md tt = Ok (x, tt) /\ fr x /\ keeps (vo_empty O) fr st x /\
       forall u, inside w N u = true -> Z.of_nat (length u) <= md -> cf x u = fn (conv (cf l) (cf r) u);
  t_fma0 : forall l r fn md, fma (vo_new O) l r fn md tt = fma (vo_update_degree O 0 (vo_new O)) l r fn md tt;
  t_unary : forall v f, st v -> f r0 = r0 -> st (vo_unary O f v) /\ (fr v -> fr (vo_unary O f v)) /\ (forall u, cf (vo_unary O f v) u = f (cf v u));
  t_binary : forall a b op, fr a -> fr b -> (forall x, op x r0 = x) -> (forall y, op r0 y = r0 -> y = r0) ->
    fr (vo_binary O op a b) /\ (forall u, cf (vo_binary O op a b) u = op (cf a u) (cf b u));
  t_ibinary : forall a b op, st a -> st b -> (forall x, op x r0 = x) -> (forall y, op r0 y = r0 -> y = r0) ->
    st (vo_ibinary O op a b) /\ (forall u, cf (vo_ibinary O op a b) u = op (cf a u) (cf b u)) /\
    (fr a -> fr (vo_ibinary O op a b)) /\ (keeps (vo_empty O) fr st a -> keeps (vo_empty O) fr st (vo_ibinary O op a b)) /\ (fr b -> vo_empty O b = false -> fr (vo_ibinary O op a b));
  t_resize : forall v, st v -> exists v', rtd v (Z.of_nat N) = Ok v' /\ fr v' /\ keeps (vo_empty O) fr st v' /\ (forall u, cf v' u = cf v u);
  t_eqb : forall a b, st a -> st b -> (vo_eqb O a b = true <-> forall u, cf a u = cf b u);
  t_word : forall v u f, st v -> inside w N u = true -> exists v', vo_upd O v (wkey w u) f = Ok v' /\ fr v' /\
     (forall u', cf v' u' = if list_eq_dec Z.eq_dec u' u then f (cf v u) else cf v u');
  t_items : forall v, st v -> exists l, vo_items O v = Ok (map (fun e => (wkey w (fst e), snd e)) l) /\
     (forall e, In e l -> inside w N (fst e) = true) /\
     (forall a b l1 l2, l = l1 ++ a :: l2 -> In b l2 -> pos w (fst a) < pos w (fst b)) /\
     (forall u, cf v u = sum l (fun e => if list_eq_dec Z.eq_dec (fst e) u then snd e else r0)) }.

Section Tensor.
  Variable R : cring.
  Add Ring Rr2 : (rth R).
  Variable req : R -> R -> bool.
  Hypothesis Hreq : forall x y, req x y = true <-> x = y.
  Variables (w N : Z) (B : tbasis).
  Hypothesis HP : packs w N.
  Hypothesis HS : sized w N.
  Hypothesis HT : tb_ok w N B.
  Notation V := (tensor_vb B).
  Notation n := (Z.to_nat N).
  Lemma Hw : 0 < w. Proof. destruct HP; lia. Qed.
  Lemma HN : 0 <= N < 255. Proof. destruct HP as (_ & H & _); lia. Qed.
  Lemma depth_N : tb_depth B = N. Proof. apply HT. Qed.

  Definition tdim : Z := words_below w (S n).
  Definition tkey (i : Z) : Z := match index_to_key B i with Ok k => k | _ => 0 end.
  Definition tcnt (d : Z) : Z := words_below w (S (Z.to_nat d)).
  Definition word (i : Z) : list Z := unidx w (Z.to_nat (k_degree (tkey i))) (k_index (tkey i)).

  Lemma tkey_pos u : letters_ok w u -> (length u <= n)%nat -> tkey (pos w u) = wkey w u.
  Proof. intros Hu Hl. unfold tkey. assert (X := HN). rewrite (index_to_key_ok w N) by (auto; lia). reflexivity. Qed.
  Lemma word_pos u : letters_ok w u -> (length u <= n)%nat -> word (pos w u) = u.
  Proof.
    intros Hu Hl. assert (X := HN). unfold word. rewrite tkey_pos by auto.
    rewrite (wkey_deg w N), (wkey_idx w N) by (auto; lia). rewrite Nat2Z.id. apply unidx_idx; [apply Hw|auto].
  Qed.
  Lemma tpos i : 0 <= i < tdim -> exists u, letters_ok w u /\ (length u <= n)%nat /\ i = pos w u.
  Proof.
    intros Hi. destruct (pos_surj w Hw n i Hi) as (u & A). exists u. intuition.
  Qed.
  Lemma tdeg_pos u : letters_ok w u -> (length u <= n)%nat -> k_degree (tkey (pos w u)) = Z.of_nat (length u).
  Proof. intros Hu Hl. assert (X := HN). rewrite tkey_pos by auto. apply (wkey_deg w N); auto; lia. Qed.

  Lemma tensor_basis_ok' : basis_ok V tdim tkey tcnt.
  Proof.
    assert (X := HN). assert (W := Hw).
    destruct HT as (Tw & Td & Tp & Tz & Vp & Vz).
    constructor; cbn [tensor_vb vb_depth vb_sizes vb_size vb_index vb_key vb_advance]; rewrite ?Td.
    - lia.
    - lia.
    - intros m Hm. unfold tcnt. rewrite <- (Z2Nat.id m) at 1 by lia. rewrite Vz by lia. apply (wb_small w N); auto; lia.
    - intros j j' Hj Hj'. rewrite <- (Z2Nat.id j), <- (Z2Nat.id j') by lia. rewrite !Vz by lia.
      rewrite !(wb_small w N) by (auto; lia). apply words_below_mono; auto; lia.
    - intros i Hi. destruct (tpos i Hi) as (u & Hu & Hl & ->). rewrite tkey_pos by auto. apply (key_to_index_ok w N); auto; lia.
    - exists (mk_key 0 0). split; [reflexivity|]. intros _. reflexivity.
    - intros i Hi. destruct (tpos i Hi) as (u & Hu & Hl & ->). rewrite tkey_pos by auto.
      destruct (Z_lt_le_dec (pos w u + 1) tdim) as [L|L].
      + destruct (tpos (pos w u + 1)) as (v & Hv & Hlv & E); [assert (Q := pos_bound w W u n Hu Hl); unfold tdim in *; lia|].
        exists (wkey w v). split; [apply (advance_ok w N); auto; lia|]. intros _. rewrite E, tkey_pos by auto. reflexivity.
      + exists (mk_key (N + 1) 0). split; [|lia].
        assert (Hl2 : length u = n).
        { destruct (Nat.eq_dec (length u) n) as [|Hne]; auto. exfalso.
          assert (Q := pos_bound w W u (length u) Hu (le_n _)). assert (Q2 := words_below_mono w W (S (length u)) n ltac:(lia)).
          assert (Q3 := words_below_lt w W n (S n) ltac:(lia)). assert (Q4 := pow_pos w W n). unfold tdim in L. lia. }
        apply (advance_last w N); auto; [lia|]. unfold tdim in L. assert (Q := pos_bound w W u n Hu Hl). lia.
    - intros i j Hij Hj. destruct (tpos i ltac:(lia)) as (u & Hu & Hl & ->). destruct (tpos j ltac:(lia)) as (v & Hv & Hlv & ->).
      rewrite !tkey_pos by auto. apply Z.ltb_lt. apply (wkey_lt w N u v); auto; lia.
    - intros i Hi. destruct (tpos i Hi) as (u & Hu & Hl & ->). rewrite tdeg_pos by auto. lia.
    - intros i m Hi Hm. destruct (tpos i Hi) as (u & Hu & Hl & ->). rewrite tdeg_pos by auto. unfold tcnt. split; intros H.
      + apply pos_bound; auto. lia.
      + destruct (Z_le_gt_dec (Z.of_nat (length u)) m); auto. exfalso.
        assert (Q2 := words_below_mono w W (S (Z.to_nat m)) (length u) ltac:(lia)).
        assert (Q3 := idx_bound w W u Hu). unfold pos in H. lia.
    - intros m Hm. apply words_below_nonneg; auto.
    - reflexivity.
  Qed.
  Notation HBt := tensor_basis_ok'.

  Definition wcf {X} (cf : X -> Z -> R) (v : X) (u : list Z) : R := if inside w n u then cf v (pos w u) else r0.
  Lemma wcf_in {X} (cf : X -> Z -> R) v u : letters_ok w u -> (length u <= n)%nat -> wcf cf v u = cf v (pos w u).
  Proof. intros H1 H2. unfold wcf. destruct (inside w n u) eqn:E; auto. assert (inside w n u = true) by (apply inside_iff; auto). congruence. Qed.
  Lemma inside_nil : inside w n [] = true. Proof. reflexivity. Qed.
  Lemma pos_nil : pos w [] = 0. Proof. reflexivity. Qed.
  Lemma dim_pos : 0 < tdim.
  Proof. unfold tdim. rewrite words_below_rec by apply Hw. assert (Q := words_below_nonneg w Hw n). assert (W := Hw). nia. Qed.
  Lemma tkey0 : tkey 0 = mk_key 0 0.
  Proof. reflexivity. Qed.
  Lemma pos_dim u : inside w n u = true -> 0 <= pos w u < tdim.
  Proof. intros H. apply inside_iff in H. apply pos_bound; [apply Hw|tauto|tauto]. Qed.
  Lemma pos_zero u : inside w n u = true -> (pos w u =? 0) = match u with [] => true | _ => false end.
  Proof.
    intros H. apply inside_iff in H. destruct u as [|x u]; [reflexivity|]. apply Z.eqb_neq. intros E.
    assert (Q := pos_inj w Hw (x :: u) [] (proj1 H) ltac:(constructor) E). discriminate.
  Qed.

  (** ** Concatenation of words, on positions *)
  Definition tprod (i j : Z) : list (Z * Z) := [(pos w (word i ++ word j), 1)].
  Lemma ft_mult_ok i j c : 0 <= i < tdim -> 0 <= j < tdim -> k_degree (tkey i) + k_degree (tkey j) <= N ->
    ft_mult B (tkey i) (tkey j) c = Ok (map (fun e => (tkey (fst e), snd e)) (tprod i j), c).
  Proof.
    intros Hi Hj. destruct (tpos i Hi) as (u & Hu & Hl & ->). destruct (tpos j Hj) as (v & Hv & Hlv & ->).
    assert (X := HN). assert (W := Hw). rewrite !tdeg_pos by auto. intros Hd. unfold ft_mult. rewrite !tdeg_pos by auto. rewrite depth_N.
    destruct (Z.leb_spec (Z.of_nat (length u) + Z.of_nat (length v)) N); [|lia].
    unfold concat_product. rewrite !tdeg_pos by auto. rewrite (power_at w N) by (auto; lia). cbn [bind].
    unfold tprod. cbn [map fst snd]. rewrite !word_pos by auto.
    assert (Huv : letters_ok w (u ++ v)) by (apply letters_ok_app; auto).
    rewrite (tkey_pos (u ++ v)) by (auto; rewrite app_length; lia).
    do 4 f_equal. unfold wkey. rewrite app_length. f_equal; [lia|].
    rewrite !tkey_pos by auto. rewrite !(wkey_idx w N) by (auto; lia). rewrite idx_app by auto.
    assert (Q := idx_packs w N (u ++ v) HP Huv). rewrite app_length, idx_app in Q by auto. specialize (Q ltac:(lia)). destruct Q as [Q _].
    assert (Q2 := idx_bound w W v Hv). assert (Q3 := idx_bound w W u Hu). assert (Q4 := pow_pos w W (length v)).
    rewrite (u64_small (idx w u * w ^ Z.of_nat (length v))) by nia. rewrite u64_small by lia. reflexivity.
  Qed.
  Lemma ft_prod_deg i j e : 0 <= i < tdim -> 0 <= j < tdim -> k_degree (tkey i) + k_degree (tkey j) <= N -> In e (tprod i j) ->
    0 <= fst e < tdim /\ k_degree (tkey (fst e)) = k_degree (tkey i) + k_degree (tkey j).
  Proof.
    intros Hi Hj. destruct (tpos i Hi) as (u & Hu & Hl & ->). destruct (tpos j Hj) as (v & Hv & Hlv & ->).
    rewrite !tdeg_pos by auto. intros Hd [<-|[]]. cbn [fst]. rewrite !word_pos by auto.
    assert (Huv : letters_ok w (u ++ v)) by (apply letters_ok_app; auto).
    assert (Hluv : (length (u ++ v) <= n)%nat) by (rewrite app_length; lia).
    split; [apply pos_dim, inside_iff; auto|]. rewrite tdeg_pos by auto. rewrite app_length. lia.
  Qed.
  Notation tconst := (sconst R V tkey tprod).
  Lemma tconst_cuts i j u : 0 <= i < tdim -> 0 <= j < tdim -> inside w n u = true ->
    tconst i j (pos w u) = sum (seq O (S (length u))) (fun k => if (i =? pos w (firstn k u)) && (j =? pos w (skipn k u)) then r1 else r0).
  Proof.
    intros Hi Hj Hu. destruct (tpos i Hi) as (a & Ha & La & ->). destruct (tpos j Hj) as (b & Hb & Lb & ->).
    apply inside_iff in Hu. destruct Hu as [Hu Lu]. unfold sconst. cbn [tensor_vb vb_depth]. rewrite depth_N, !tdeg_pos by auto.
    assert (X := HN). unfold tprod. cbn [sum fst snd]. rewrite !word_pos by auto.
    assert (Rz1 : rz R 1 = r1) by (unfold rz; change (Pos.to_nat 1) with 1%nat; cbn [rnat]; ring).
    assert (Hcut : forall k, (pos w a =? pos w (firstn k u)) && (pos w b =? pos w (skipn k u)) = true <-> a = firstn k u /\ b = skipn k u).
    { intros k. rewrite andb_true_iff, !Z.eqb_eq. split; [|intros [-> ->]; auto]. intros [E1 E2].
      split; (eapply pos_inj; [apply Hw| | |eassumption]); auto; [apply letters_ok_firstn|apply letters_ok_skipn]; auto. }
    destruct (list_eq_dec Z.eq_dec (a ++ b) u) as [E|E].
    - subst u. rewrite app_length in *. destruct (Z.leb_spec (Z.of_nat (length a) + Z.of_nat (length b)) N); [|lia].
      rewrite Z.eqb_refl, Rz1. rewrite (sum_single R (seq O (S (length a + length b))) _ (length a)).
      + destruct (Hcut (length a)) as [_ Q]. rewrite Q; [ring|]. rewrite firstn_app, Nat.sub_diag, firstn_O, app_nil_r, firstn_all.
        rewrite skipn_app, Nat.sub_diag, skipn_O, skipn_all. auto.
      + apply seq_NoDup.
      + apply in_seq. lia.
      + intros k Hk Hne. apply in_seq in Hk. destruct ((pos w a =? pos w (firstn k (a ++ b))) && _) eqn:Ec; [|reflexivity].
        apply Hcut in Ec. destruct Ec as [Ec _]. exfalso. apply Hne. rewrite Ec at 1. rewrite firstn_length_le; [reflexivity|]. rewrite app_length. lia.
    - rewrite (sum_zero R (seq O (S (length u)))).
      + destruct (Z.leb_spec (Z.of_nat (length a) + Z.of_nat (length b)) N); [|reflexivity].
        destruct (Z.eqb_spec (pos w (a ++ b)) (pos w u)) as [E2|]; [|ring]. exfalso. apply E. eapply pos_inj; [apply Hw| | |exact E2]; auto. apply letters_ok_app; auto.
      + intros k _. destruct ((pos w a =? pos w (firstn k u)) && _) eqn:Ec; [|reflexivity]. apply Hcut in Ec. destruct Ec as [-> ->].
        exfalso. apply E. apply firstn_skipn.
  Qed.
  Lemma bilinear_cuts (F : Z -> Z -> R) u : inside w n u = true ->
    sum (zrange tdim) (fun i => sum (zrange tdim) (fun j => rmul (tconst i j (pos w u)) (F i j)))
    = sum (seq O (S (length u))) (fun k => F (pos w (firstn k u)) (pos w (skipn k u))).
  Proof.
    intros Hu.
    rewrite (sum_ext R (zrange tdim) _ (fun i => sum (seq O (S (length u))) (fun k => if i =? pos w (firstn k u) then F i (pos w (skipn k u)) else r0))).
    - rewrite sum_swap. apply sum_ext. intros k _.
      rewrite (sum_single R (zrange tdim) _ (pos w (firstn k u))); [rewrite Z.eqb_refl; reflexivity|apply zrange_NoDup| |].
      + apply zrange_In. apply pos_dim, inside_firstn; auto.
      + intros i _ Hne. destruct (Z.eqb_spec i (pos w (firstn k u))); [congruence|reflexivity].
    - intros i Hi. apply zrange_In in Hi.
      rewrite (sum_ext R (zrange tdim) _ (fun j => sum (seq O (S (length u))) (fun k => if (i =? pos w (firstn k u)) && (j =? pos w (skipn k u)) then F i j else r0))).
      + rewrite sum_swap. apply sum_ext. intros k _. destruct (i =? pos w (firstn k u)); cbn [andb]; [|apply sum_zero; auto].
        rewrite (sum_single R (zrange tdim) _ (pos w (skipn k u))); [rewrite Z.eqb_refl; reflexivity|apply zrange_NoDup| |].
        * apply zrange_In. apply pos_dim, inside_skipn; auto.
        * intros j _ Hne. destruct (Z.eqb_spec j (pos w (skipn k u))); [congruence|reflexivity].
      + intros j Hj. apply zrange_In in Hj. rewrite tconst_cuts by auto. rewrite <- sum_mul_r. apply sum_ext. intros k _.
        destruct ((i =? pos w (firstn k u)) && (j =? pos w (skipn k u))); ring.
  Qed.
  Lemma sum_lin {A} (l : list A) (f : A -> R) (fn : R -> R) : fn r0 = r0 -> (forall x y, fn (radd x y) = radd (fn x) (fn y)) ->
    sum l (fun k => fn (f k)) = fn (sum l f).
  Proof. intros H0 Ha. induction l as [|k l IH]; cbn [sum]; [auto|]. rewrite IH, Ha. reflexivity. Qed.
  Lemma conv_wcf {X} (cf : X -> Z -> R) l r (fn : R -> R) u : inside w n u = true -> fn r0 = r0 -> (forall x y, fn (radd x y) = radd (fn x) (fn y)) ->
    sum (seq O (S (length u))) (fun k => fn (rmul (cf l (pos w (firstn k u))) (cf r (pos w (skipn k u))))) = fn (conv (wcf cf l) (wcf cf r) u).
  Proof.
    intros Hu H0 Ha. rewrite sum_lin by auto. f_equal. unfold conv. apply sum_ext. intros k _.
    unfold wcf. rewrite inside_firstn, inside_skipn by auto. reflexivity.
  Qed.

  Lemma wcf_word {X} (cf : X -> Z -> R) (v v' : X) u f : inside w n u = true ->
    (forall j, 0 <= j < tdim -> cf v' j = if j =? pos w u then f (cf v (pos w u)) else cf v j) ->
    forall u', wcf cf v' u' = if list_eq_dec Z.eq_dec u' u then f (wcf cf v u) else wcf cf v u'.
  Proof.
    intros Hu H u'. unfold wcf. rewrite Hu. destruct (list_eq_dec Z.eq_dec u' u) as [->|Hne].
    - rewrite Hu, H by (apply pos_dim; auto). rewrite Z.eqb_refl. reflexivity.
    - destruct (inside w n u') eqn:Hu'; [|reflexivity]. rewrite H by (apply pos_dim; auto).
      destruct (Z.eqb_spec (pos w u') (pos w u)) as [E|]; [|reflexivity]. exfalso. apply Hne. apply inside_iff in Hu. apply inside_iff in Hu'.
      eapply pos_inj; [apply Hw| | |exact E]; tauto.
  Qed.
  Lemma wcf_items {X} (cf : X -> Z -> R) (v : X) (items : outcome (list (Z * R))) l :
    items = Ok (map (fun e => (tkey (fst e), snd e)) l) -> (forall e, In e l -> 0 <= fst e < tdim) ->
    (forall a b l1 l2, l = l1 ++ a :: l2 -> In b l2 -> fst a < fst b) ->
    (forall i, 0 <= i < tdim -> cf v i = sum l (fun e => if fst e =? i then snd e else r0)) ->
    exists l', items = Ok (map (fun e => (wkey w (fst e), snd e)) l') /\ (forall e, In e l' -> inside w n (fst e) = true) /\
     (forall a b l1 l2, l' = l1 ++ a :: l2 -> In b l2 -> pos w (fst a) < pos w (fst b)) /\
     (forall u, wcf cf v u = sum l' (fun e => if list_eq_dec Z.eq_dec (fst e) u then snd e else r0)).
  Proof.
    intros E Hi Hs Hc.
    assert (Hm : exists l', l = map (fun e => (pos w (fst e), snd e)) l' /\ forall e, In e l' -> inside w n (fst e) = true).
    { clear E Hs Hc. induction l as [|[i x] l IH]; [exists []; split; [reflexivity|intros _ []]|].
      destruct IH as (l' & -> & Hl'); [intros e He; apply Hi; right; auto|].
      destruct (tpos i (Hi (i, x) (or_introl eq_refl))) as (u & Hu & Hl & ->). exists ((u, x) :: l'). split; [reflexivity|].
      intros e [<-|He]; [apply inside_iff; auto|auto]. }
    destruct Hm as (l' & -> & Hl'). exists l'. split; [|split; [auto|split]].
    - rewrite E. f_equal. rewrite map_map. apply map_ext_in. intros e He. cbn [fst snd]. apply Hl', inside_iff in He. rewrite tkey_pos by tauto. reflexivity.
    - intros a b l1 l2 El Hb.
      apply (Hs (pos w (fst a), snd a) (pos w (fst b), snd b) (map (fun e => (pos w (fst e), snd e)) l1) (map (fun e => (pos w (fst e), snd e)) l2)).
      + rewrite El, map_app. reflexivity.
      + apply (in_map (fun e => (pos w (fst e), snd e))). auto.
    - intros u. unfold wcf. destruct (inside w n u) eqn:Hu.
      + rewrite Hc by (apply pos_dim; auto). clear E Hi Hs Hc. induction l' as [|e l' IH]; cbn [map sum fst snd]; [reflexivity|]. f_equal; [|apply IH; intros; apply Hl'; right; auto].
        specialize (Hl' e (or_introl eq_refl)). destruct (list_eq_dec Z.eq_dec (fst e) u) as [->|Hne]; [rewrite Z.eqb_refl; reflexivity|].
        destruct (Z.eqb_spec (pos w (fst e)) (pos w u)) as [E|]; [|reflexivity]. exfalso. apply Hne. apply inside_iff in Hu. apply inside_iff in Hl'.
        eapply pos_inj; [apply Hw| | |exact E]; tauto.
      + symmetry. apply sum_zero. intros e He. destruct (list_eq_dec Z.eq_dec (fst e) u) as [<-|]; [|reflexivity]. rewrite Hl' in Hu by auto. discriminate.
  Qed.

  (** ** Sparse storage *)
  Notation GS := (sparse_good R req Hreq V tdim tkey tcnt HBt).
  Notation sok := (s_ok R tdim tkey).
  Notation scf := (s_cf R tkey).
  Lemma sparse_tgood : tgood R (svec R) (sparse_ops R req) (ft_fma_sparse R req B) (sv_resize_to_degree R) w n sok sok (wcf scf).
  Proof.
    assert (X := HN). assert (D := dim_pos).
    pose proof GS as G.
    constructor.
    - auto.
    - intros v u Hu. unfold wcf. rewrite Hu. reflexivity.
    - destruct (g_new _ _ _ _ _ _ _ _ _ G) as (A & C & _ & E). split; [auto|]. split; [|auto]. intros u. unfold wcf. destruct (inside w n u) eqn:Hu; [apply C, pos_dim; auto|auto].
    - intros v Hv He u. unfold wcf. destruct (inside w n u) eqn:Hu; auto. eapply (g_empty _ _ _ _ _ _ _ _ _ G); eauto. apply pos_dim; auto.
    - intros v Hv. destruct (g_clear _ _ _ _ _ _ _ _ _ G v Hv) as (A & C & _). split; [auto|]. intros u. unfold wcf. destruct (inside w n u) eqn:Hu; [apply C, pos_dim; auto|auto].
    - intros s. destruct (g_single _ _ _ _ _ _ _ _ _ G 0 s ltac:(lia)) as (v & E & A & C & _). exists v. rewrite <- tkey0. split; [exact E|]. split; [auto|]. split.
      + intros u. unfold wcf. destruct (inside w n u) eqn:Hu.
        * rewrite C by (apply pos_dim; auto). rewrite pos_zero by auto. destruct u; reflexivity.
        * destruct u; [discriminate|reflexivity].
      + intros Hs. cbn in E. unfold sv_single in E. destruct (req s r0) eqn:Er; [apply Hreq in Er; congruence|]. injection E as <-. reflexivity.
    - intros v f Hv. destruct (g_upd _ _ _ _ _ _ _ _ _ G v 0 f Hv ltac:(lia)) as (v' & E & A & C & _). exists v'. rewrite <- tkey0. split; [exact E|]. split; [auto|]. split; [left; auto|].
      intros u. unfold wcf. destruct (inside w n u) eqn:Hu.
      + rewrite C by (apply pos_dim; auto). rewrite pos_zero by auto. destruct u; reflexivity.
      + destruct u; [discriminate|reflexivity].
    - intros l r fn d md _ Hl Hr El Er Hmd H0 Ha.
      destruct (base_fma_ok R (svec R) (sparse_ops R req) V tdim tkey tcnt HBt sok scf (s_bnd R) G unit (ft_mult B) (fun _ => True) tprod) with
        (out := vo_update_degree (sparse_ops R req) d (vo_new (sparse_ops R req))) (lhs := l) (rhs := r) (fn := fn) (md := md) (c := tt)
        as (x & [] & E & Ox & _ & _ & Cx); auto.
      + intros i j c Hi Hj Hd _. exists c. split; [|auto]. apply ft_mult_ok; auto. cbn [tensor_vb vb_depth] in Hd. rewrite depth_N in Hd. auto.
      + intros i j e Hi Hj Hd He. apply ft_prod_deg; auto. cbn [tensor_vb vb_depth] in Hd. rewrite depth_N in Hd. auto.
      + apply (g_new _ _ _ _ _ _ _ _ _ G).
      + intros e [].
      + exists x. split; [exact E|]. split; [auto|]. split; [left; auto|]. intros u Hu _. unfold wcf at 1. rewrite Hu. rewrite Cx by (apply pos_dim; auto).
        rewrite bilinear_cuts by auto. rewrite conv_wcf by auto. cbn. ring.
    - reflexivity.
    - intros v f Hv Hf. destruct (g_unary _ _ _ _ _ _ _ _ _ G v f Hv Hf) as (A & C & _). split; [auto|]. split; [auto|]. intros u. unfold wcf. destruct (inside w n u) eqn:Hu; [apply C, pos_dim; auto|auto].
    - intros a b op Ha Hb H1 H2. destruct (g_binary _ _ _ _ _ _ _ _ _ G a b op Ha Hb H1 H2) as (A & C & _). split; [auto|]. intros u. unfold wcf. destruct (inside w n u) eqn:Hu; [apply C, pos_dim; auto|auto].
    - intros a b op Ha Hb H1 H2. destruct (g_ibinary _ _ _ _ _ _ _ _ _ G a b op Ha Hb H1 H2) as (A & C & _). split; [auto|]. split; [|split; [auto|split; [left; auto|auto]]]. intros u. unfold wcf. destruct (inside w n u) eqn:Hu; [apply C, pos_dim; auto|auto].
    - intros v Hv. exists v. split; [reflexivity|]. split; [auto|]. split; [left; auto|auto].
    - intros a b Ha Hb. rewrite (g_eqb _ _ _ _ _ _ _ _ _ G a b Ha Hb). split.
      + intros H u. unfold wcf. destruct (inside w n u) eqn:Hu; auto. apply H, pos_dim; auto.
      + intros H i Hi. destruct (tpos i Hi) as (u & Hu & Hl & ->). specialize (H u). rewrite !wcf_in in H by auto. exact H.
    - intros v u f Hv Hu. destruct (g_upd _ _ _ _ _ _ _ _ _ G v (pos w u) f Hv (pos_dim u Hu)) as (v' & E & A & C & _). exists v'.
      rewrite tkey_pos in E by (apply inside_iff in Hu; tauto). split; [exact E|]. split; [auto|]. apply wcf_word; auto.
    - intros v Hv. destruct (g_items _ _ _ _ _ _ _ _ _ G v Hv) as (l & E & Hi & Hs & _ & Hc). apply (wcf_items scf v _ l); auto.
  Qed.
End Tensor.
