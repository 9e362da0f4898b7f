(** The calls of roughpy_compute on arrays with batch dimensions. *)
From Verif Require Export BatchProofs TensorTop.
Open Scope Z_scope.

Section Local.
  Variable R : cring.
  Lemma sh_mv o b mn mx : make_view (Ptr o) b mn mx = sh_v o (make_view (Ptr 0) b mn mx).
  Proof. rewrite <- sh_make. cbn [sh_it]. rewrite Z.add_0_r. reflexivity. Qed.
  Lemma local_ft_fma b bo bl br : localfn (core_ft_fma (R:=R) b bo bl br).
  Proof.
    intros o n B0 ob OB ps cs E H. unfold core_ft_fma.
    destruct H as [|p1 [c1 C1] ? ? H1 H]; [exact I|]. destruct H as [|p2 [c2 C2] ? ? H2 H]; [exact I|]. destruct H; [|exact I].
    cbn [map fst snd] in *. rewrite (sh_mv o), (sh_mv c1), (sh_mv c2). apply sim_ft_fma; auto.
  Qed.
  Lemma local_ft_inplace_mul b bl br : localfn (core_ft_inplace_mul (R:=R) b bl br).
  Proof.
    intros o n B0 ob OB ps cs E H. unfold core_ft_inplace_mul.
    destruct H as [|p1 [c1 C1] ? ? H1 H]; [exact I|]. destruct H; [|exact I].
    cbn [map fst snd] in *. rewrite (sh_mv o), (sh_mv c1). apply sim_ft_inplace_mul; auto.
  Qed.
  Lemma local_antipode b bo ba : localfn (core_antipode (R:=R) b bo ba).
  Proof.
    intros o n B0 ob OB ps cs E H. unfold core_antipode.
    destruct H as [|p1 [c1 C1] ? ? H1 H]; [exact I|]. destruct H; [|exact I].
    cbn [map fst snd] in *. rewrite (sh_mv o), (sh_mv c1). apply sim_ft_antipode; auto.
  Qed.
  Lemma local_ft_adj_lmul b bo bp ba : localfn (core_ft_adj_lmul (R:=R) b bo bp ba).
  Proof.
    intros o n B0 ob OB ps cs E H. unfold core_ft_adj_lmul.
    destruct H as [|p1 [c1 C1] ? ? H1 H]; [exact I|]. destruct H as [|p2 [c2 C2] ? ? H2 H]; [exact I|]. destruct H; [|exact I].
    cbn [map fst snd] in *. rewrite (sh_mv o), (sh_mv c1), (sh_mv c2). apply sim_ft_adj_lmul; auto.
  Qed.
  Lemma local_st_fma b bo bl br : localfn (core_st_fma (R:=R) b bo bl br).
  Proof.
    intros o n B0 ob OB ps cs E H. unfold core_st_fma.
    destruct H as [|p1 [c1 C1] ? ? H1 H]; [exact I|]. destruct H as [|p2 [c2 C2] ? ? H2 H]; [exact I|]. destruct H; [|exact I].
    cbn [map fst snd] in *. rewrite (sh_mv o), (sh_mv c1), (sh_mv c2). apply sim_st_fma; auto.
  Qed.
  Lemma sh_fr o d : (Ptr o, d) = sh_f o (Ptr 0, d). Proof. unfold sh_f. cbn. rewrite Z.add_0_r. reflexivity. Qed.
  Lemma local_csr m od ad op : localfn (core_csr (R:=R) m od ad op).
  Proof.
    intros o n B0 ob OB ps cs E H. unfold core_csr.
    destruct H as [|p1 [c1 C1] ? ? H1 H]; [exact I|]. destruct H; [|exact I].
    cbn [map fst snd] in *. rewrite (sh_fr o), (sh_fr c1). apply sim_csr; auto.
  Qed.
  Lemma local_csc m od ad op : localfn (core_csc (R:=R) m od ad op).
  Proof.
    intros o n B0 ob OB ps cs E H. unfold core_csc.
    destruct H as [|p1 [c1 C1] ? ? H1 H]; [exact I|]. destruct H; [|exact I].
    cbn [map fst snd] in *. rewrite (sh_fr o), (sh_fr c1). apply sim_csc; auto.
  Qed.
End Local.
Section Local2.
  Variable R : qalg.
  Lemma local_ft_exp b bo : localfn (core_ft_exp (R:=R) b bo).
  Proof.
    intros o n B0 ob OB ps cs E H. unfold core_ft_exp.
    destruct H as [|p1 [c1 C1] ? ? H1 H]; [exact I|]. destruct H; [|exact I].
    cbn [map fst snd] in *. rewrite (sh_mv o), (sh_mv c1). apply sim_ft_exp; auto.
  Qed.
  Lemma local_ft_log b bo ba : localfn (core_ft_log (R:=R) b bo ba).
  Proof.
    intros o n B0 ob OB ps cs E H. unfold core_ft_log.
    destruct H as [|p1 [c1 C1] ? ? H1 H]; [exact I|]. destruct H; [|exact I].
    cbn [map fst snd] in *. rewrite (sh_mv o), (sh_mv c1). apply sim_ft_log; auto.
  Qed.
  Lemma local_ft_fmexp b bo : localfn (core_ft_fmexp (R:=R) b bo).
  Proof.
    intros o n B0 ob OB ps cs E H. unfold core_ft_fmexp.
    destruct H as [|p1 [c1 C1] ? ? H1 H]; [exact I|]. destruct H as [|p2 [c2 C2] ? ? H2 H]; [exact I|]. destruct H; [|exact I].
    cbn [map fst snd] in *. rewrite (sh_mv o), (sh_mv c1), (sh_mv c2). apply sim_ft_fmexp; auto.
  Qed.
End Local2.

(** A call without batch dimensions is one call of the function object. *)
Lemma bind_ok_r {A} (x : outcome A) : bind x Ok = x. Proof. destruct x; reflexivity. Qed.
Lemma cell_vec sz n : 0 < sz -> cell sz (get_ptr (vec sz n) [0]) = Ok 0.
Proof. intros H. reflexivity. Qed.
Lemma vec_cells {R} sz (l : list (Z * buf R)) : 0 < sz ->
  arg_cells sz (map (fun p => (vec sz (fst p), snd p)) l) [0] = Ok (map (fun p => (0, snd p)) l).
Proof.
  intros H. induction l as [|[n b] l IH]; cbn [map arg_cells fst snd]; auto. rewrite cell_vec by auto. cbn [bind]. rewrite IH. reflexivity.
Qed.
Lemma vec_loop {R} sz n (l : list (Z * buf R)) fn ob : 0 < sz < 2 ^ 64 ->
  outer_loop sz (vec sz n) (map (fun p => (vec sz (fst p), snd p)) l) fn ob = fn (Ptr 0) (map (fun p => (Ptr 0, snd p)) l) ob.
Proof.
  intros H. unfold outer_loop, ndims. change (np_shape (vec sz n)) with [n]. change (np_strides (vec sz n)) with [sz]. cbn [np_shape np_strides length removelast zprod fold_right repeat].
  change (Z.to_nat (Z.of_nat 1 - 1)) with 0%nat. cbn [nth]. rewrite (estride_self sz H).
  assert (F : forallb (fun s => s =? 1) (map (fun ab : nparr * buf R => estride (nth 0 (np_strides (fst ab)) 0) sz) (map (fun p => (vec sz (fst p), snd p)) l)) = true).
  { clear - H. induction l as [|[m b] l IH]; cbn [map forallb fst vec np_strides nth]; auto. rewrite (estride_self sz H). cbn. auto. }
  rewrite F. change (zrange 1) with [0]. cbn [for_ fst snd Z.eqb Pos.eqb andb].
  rewrite cell_vec, vec_cells by lia. cbn [bind]. rewrite map_map. cbn [fst snd].
  destruct (fn (Ptr 0) (map (fun x => (Ptr 0, snd x)) l) ob); reflexivity.
Qed.
Lemma vec_call {R} sz n (l : list (Z * buf R)) fn ob : 0 < sz < 2 ^ 64 ->
  array_call sz (vec sz n) (map (fun p => (vec sz (fst p), snd p)) l) fn ob = fn (Ptr 0) (map (fun p => (Ptr 0, snd p)) l) ob.
Proof.
  intros H. unfold array_call. change (ndims (vec sz n) <? 1) with false. cbv iota.
  assert (F : forallb (fun ab : nparr * buf R => check_dims (np_shape (fst ab)) (ndims (fst ab) - 1) (np_shape (vec sz n)) (ndims (vec sz n) - 1)) (map (fun p => (vec sz (fst p), snd p)) l) = true).
  { clear. induction l as [|[m b] l IH]; cbn [map forallb fst]; auto. }
  rewrite F. cbn [negb]. apply vec_loop. auto.
Qed.
Lemma vec_call1 {R} sz n m (b : buf R) fn ob : 0 < sz < 2 ^ 64 ->
  array_call sz (vec sz n) [(vec sz m, b)] fn ob = fn (Ptr 0) [(Ptr 0, b)] ob.
Proof. exact (vec_call sz n [(m, b)] fn ob). Qed.
Lemma vec_call2 {R} sz n m m' (b b' : buf R) fn ob : 0 < sz < 2 ^ 64 ->
  array_call sz (vec sz n) [(vec sz m, b); (vec sz m', b')] fn ob = fn (Ptr 0) [(Ptr 0, b); (Ptr 0, b')] ob.
Proof. exact (vec_call sz n [(m, b); (m', b')] fn ob). Qed.
(** Arrays of different batch shapes are refused. *)
Lemma check_dims_iff s1 x s2 y : check_dims (s1 ++ [x]) (Z.of_nat (length (s1 ++ [x])) - 1) (s2 ++ [y]) (Z.of_nat (length (s2 ++ [y])) - 1) = true <-> s1 = s2.
Proof.
  unfold check_dims. rewrite !app_length. cbn [length]. rewrite andb_true_iff, Z.eqb_eq, forallb_forall. split.
  - intros [L F]. assert (L' : length s1 = length s2) by lia. apply nth_ext with (d := 0) (d' := 0); auto. intros k Hk.
    specialize (F (Z.of_nat k)). rewrite Nat2Z.id in F. rewrite !app_nth1 in F by lia. apply Z.eqb_eq. apply F.
    unfold zrange. apply zseq_In. lia.
  - intros <-. split; auto. intros i Hi. unfold zrange in Hi. apply zseq_In in Hi. rewrite !app_nth1 by lia. apply Z.eqb_refl.
Qed.
Lemma call_mismatch {R} sz so no out (args : list (nparr * buf R)) fn ob a ab sa na : np_shape out = so ++ [no] -> In (a, ab) args -> np_shape a = sa ++ [na] ->
  sa <> so -> array_call sz out args fn ob = Throw.
Proof.
  intros Ho Hi Ha Hne. unfold array_call. destruct (ndims out <? 1); auto.
  replace (forallb _ args) with false; [reflexivity|]. symmetry. apply not_true_is_false. intros F. rewrite forallb_forall in F. specialize (F _ Hi).
  cbn [fst] in F. unfold ndims in F. rewrite Ho, Ha in F. apply check_dims_iff in F. auto.
Qed.

(** C order. *)
Lemma dot_c sh : forall I inner t, length I = length sh -> dot I (c_strides sh inner ++ t) = ravel sh I * inner.
Proof.
  induction sh as [|m sh IH]; intros [|i I] inner t L; cbn [length] in L; try discriminate; cbn [c_strides dot app ravel]; [destruct t; reflexivity|].
  rewrite IH by lia. ring.
Qed.
Lemma in_box_len sh I : in_box sh I -> length I = length sh.
Proof. induction 1; cbn; auto. Qed.
Lemma ravel_bound sh I : in_box sh I -> 0 <= ravel sh I < zprod sh.
Proof. induction 1; cbn [ravel]; [cbn; lia|]. rewrite zprod_cons. nia. Qed.
Lemma ravel_inj sh I : in_box sh I -> forall J, in_box sh J -> ravel sh I = ravel sh J -> I = J.
Proof.
  induction 1 as [|m i sh I Hi H IH]; intros J HJ E; inversion HJ; subst; auto. cbn [ravel] in E.
  pose proof (ravel_bound _ _ H). pose proof (ravel_bound _ _ H4). assert (i = y) by nia. subst. f_equal. apply IH; auto. lia.
Qed.
Lemma c_start sz sh n I : 0 < sz -> in_box sh I -> start sz (c_array sz sh n) I = ravel sh I * n.
Proof.
  intros H HI. unfold start, c_array. cbn [np_data np_strides]. rewrite dot_c by (apply in_box_len; auto).
  replace (0 + ravel sh I * (n * sz)) with (ravel sh I * n * sz) by ring. apply Z.div_mul. lia.
Qed.
Lemma c_strides_len sh inner : length (c_strides sh inner) = length sh.
Proof. induction sh; cbn; auto. Qed.
Lemma c_usable sz sh n len : 0 < sz -> 0 <= n -> zprod sh * n <= len -> usable sz sh (c_array sz sh n) n len.
Proof.
  intros H Hn Hl. split; [reflexivity|exists (c_strides sh (n * sz)); split; [reflexivity|apply c_strides_len]|].
  intros I HI. rewrite c_start by auto. pose proof (ravel_bound _ _ HI). split; [|nia].
  unfold c_array. cbn [np_data np_strides]. rewrite dot_c by (apply in_box_len; auto). exists (ravel sh I * n). ring.
Qed.
Lemma c_separate sz sh n : 0 < sz -> 0 <= n -> separate sz sh (c_array sz sh n) n.
Proof.
  intros H Hn I J HI HJ Hne. rewrite !c_start by auto.
  assert (ravel sh I <> ravel sh J) by (intros E; apply Hne; eapply ravel_inj; eauto). nia.
Qed.

(** Each call on arrays is the calls on the pieces. *)
Section Calls.
  Variables (sz : Z) (sh : list Z).
  Hypothesis Hsz : 0 < sz < 2 ^ 64.
  Hypothesis Hsh : Forall (fun n => 0 <= n) sh.

  Lemma call1 (R : Type) (fn : core_fn R) out n a na (ob ab : buf R) (f : outcome (buf R)) (one : buf R -> buf R -> outcome (buf R)) :
    localfn fn -> (forall pb qb, fn (Ptr 0) [(Ptr 0, qb)] pb = one pb qb) ->
    f = array_call sz out [(a, ab)] fn ob ->
    usable sz sh out n (blen ob) -> separate sz sh out n -> usable sz sh a na (blen ab) ->
    (forall I, in_box sh I -> exists p, one (piece ob (start sz out I) n) (piece ab (start sz a I) na) = Ok p) ->
    exists r, f = Ok r /\ batch_result sz sh out n ob r (fun I p => one (piece ob (start sz out I) n) (piece ab (start sz a I) na) = Ok p).
  Proof.
    intros Hl Ho Ef U S Ua H1. subst f.
    destruct (batch_call R sz sh n out Hsz Hsh fn [(a, ab, na)] ob Hl U S) as (r & E & B).
    - constructor; [exact Ua|constructor].
    - intros I HI. cbn [map]. rewrite Ho. exact (H1 I HI).
    - exists r. split; [exact E|]. destruct B as (B1 & B2 & B3). repeat split; auto. intros I HI. destruct (B2 I HI) as (p & Ep & Hp).
      cbn [map] in Ep. rewrite Ho in Ep. exists p. split; [exact Ep|auto].
  Qed.
  Lemma call2 (R : Type) (fn : core_fn R) out n a na a' na' (ob ab ab' : buf R) (f : outcome (buf R)) (one : buf R -> buf R -> buf R -> outcome (buf R)) :
    localfn fn -> (forall pb qb qb', fn (Ptr 0) [(Ptr 0, qb); (Ptr 0, qb')] pb = one pb qb qb') ->
    f = array_call sz out [(a, ab); (a', ab')] fn ob ->
    usable sz sh out n (blen ob) -> separate sz sh out n -> usable sz sh a na (blen ab) -> usable sz sh a' na' (blen ab') ->
    (forall I, in_box sh I -> exists p, one (piece ob (start sz out I) n) (piece ab (start sz a I) na) (piece ab' (start sz a' I) na') = Ok p) ->
    exists r, f = Ok r /\ batch_result sz sh out n ob r (fun I p => one (piece ob (start sz out I) n) (piece ab (start sz a I) na) (piece ab' (start sz a' I) na') = Ok p).
  Proof.
    intros Hl Ho Ef U S Ua Ua' H1. subst f.
    destruct (batch_call R sz sh n out Hsz Hsh fn [(a, ab, na); (a', ab', na')] ob Hl U S) as (r & E & B).
    - constructor; [exact Ua|constructor; [exact Ua'|constructor]].
    - intros I HI. cbn [map]. rewrite Ho. exact (H1 I HI).
    - exists r. split; [exact E|]. destruct B as (B1 & B2 & B3). repeat split; auto. intros I HI. destruct (B2 I HI) as (p & Ep & Hp).
      cbn [map] in Ep. rewrite Ho in Ep. exists p. split; [exact Ep|auto].
  Qed.
End Calls.
