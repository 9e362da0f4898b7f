(** The kernels only see their own piece of memory: run on a piece, and run on a larger block
    at an offset, they do the same. *)
From Verif Require Export BatchSpec.
Open Scope Z_scope.

(** If the first run returns, so does the second, with related results. *)
Definition osim {A B} (P : A -> B -> Prop) (x : outcome A) (y : outcome B) : Prop :=
  match x with Ok a => exists b, y = Ok b /\ P a b | _ => True end.

Lemma osim_ok {A B} (P : A -> B -> Prop) a b : P a b -> osim P (Ok a) (Ok b).
Proof. intros H. exists b. auto. Qed.
Lemma osim_bind {A B A' B'} (P : A -> B -> Prop) (Q : A' -> B' -> Prop) x y f g :
  osim P x y -> (forall a b, P a b -> osim Q (f a) (g b)) -> osim Q (bind x f) (bind y g).
Proof. destruct x; cbn; auto. intros (b & -> & H) K. cbn. auto. Qed.
Lemma osim_for {A S T} (P : S -> T -> Prop) (l : list A) s t f g :
  P s t -> (forall x a b, In x l -> P a b -> osim P (f x a) (g x b)) -> osim P (for_ l s f) (for_ l t g).
Proof.
  revert s t. induction l as [|x l IH]; intros s t H K; cbn [for_]; [apply osim_ok; auto|].
  apply osim_bind with (P := P); [apply K; [left|]; auto|]. intros a b Hab. apply IH; auto. intros; apply K; [right|]; auto.
Qed.
Lemma osim_eq {A} (x : outcome A) : osim eq x x.
Proof. destruct x; cbn; eauto. Qed.
Lemma osim_if {A B} (P : A -> B -> Prop) (c : bool) x y x' y' : osim P x y -> osim P x' y' -> osim P (if c then x else x') (if c then y else y').
Proof. destruct c; auto. Qed.
Lemma osim_unit {A B} (P : A -> B -> Prop) (y : outcome B) : osim P (@Throw A) y. Proof. exact I. Qed.

(** [b] is the part of [B] from cell [o]. *)
Definition emb {R} (o : Z) (b B : buf R) : Prop :=
  0 <= o /\ o + blen b <= blen B /\ forall k, 0 <= k < blen b -> bat B (o + k) = bat b k.
(** ... and outside that part [B] is as [B0]. *)
Definition emb2 {R} (o n : Z) (B0 b B : buf R) : Prop :=
  emb o b B /\ blen b = n /\ blen B = blen B0 /\ forall k, ~ (o <= k < o + n) -> bat B k = bat B0 k.
Definition sh_it (o : Z) (it : iter) : iter := match it with Ptr b => Ptr (o + b) | Strided b s => Strided (o + b) s end.
Definition sh_v (o : Z) (v : view) : view := mkView (sh_it o (v_it v)) (v_basis v) (v_min v) (v_max v).
Definition sh_f (o : Z) (f : iter * Z) : iter * Z := (sh_it o (fst f), snd f).

Lemma sh_addr o it n : it_addr (sh_it o it) n = o + it_addr it n.
Proof. destruct it; cbn; lia. Qed.
Lemma sh_add o it a : it_add (sh_it o it) a = sh_it o (it_add it a).
Proof. destruct it; cbn; f_equal; lia. Qed.
Lemma sh_make o it b mn mx : make_view (sh_it o it) b mn mx = sh_v o (make_view it b mn mx).
Proof. reflexivity. Qed.
Lemma sh_trunc o v mx mn : v_trunc (sh_v o v) mx mn = sh_v o (v_trunc v mx mn).
Proof. reflexivity. Qed.
Lemma sh_level o v d : osim (fun f F => F = sh_f o f) (at_level v d) (at_level (sh_v o v) d).
Proof.
  unfold at_level. cbn [v_basis sh_v]. eapply osim_bind; [apply osim_eq|]. intros a b <-.
  eapply osim_bind; [apply osim_eq|]. intros c d' <-. apply osim_ok. unfold sh_v, sh_f. cbn [v_it fst snd]. rewrite sh_add. reflexivity.
Qed.
Lemma sh_size o v : v_size (sh_v o v) = v_size v. Proof. reflexivity. Qed.
Lemma emb2_emb {R} o n (B0 b B : buf R) : emb2 o n B0 b B -> emb o b B. Proof. intros H; apply H. Qed.

Section Prim.
  Variable R : cring.
  Notation buf := (buf R).
  Lemma emb_get o (b B : buf) i j : emb o b B -> j = o + i -> osim eq (bget b i) (bget B j).
  Proof.
    intros (H1 & H2 & H3) ->. unfold bget at 1. destruct ((0 <=? i) && (i <? blen b)) eqn:E; [|exact I].
    apply andb_true_iff in E. destruct E as [E1 E2]. apply Z.leb_le in E1. apply Z.ltb_lt in E2.
    exists (bat B (o + i)). split; [apply bget_ok; lia|]. symmetry. apply H3. lia.
  Qed.
  Lemma emb2_set o n (B0 b B : buf) i j v : emb2 o n B0 b B -> j = o + i -> osim (emb2 o n B0) (bset b i v) (bset B j v).
  Proof.
    intros ((H1 & H2 & H3) & H4 & H5 & H6) ->. unfold bset at 1. destruct ((0 <=? i) && (i <? blen b)) eqn:E; [|exact I].
    apply andb_true_iff in E. destruct E as [E1 E2]. apply Z.leb_le in E1. apply Z.ltb_lt in E2.
    rewrite bset_ok by lia. eexists. split; [reflexivity|]. unfold emb2, emb. cbn [blen bat]. repeat split; auto; try lia.
    - intros k Hk. destruct (k =? i) eqn:Ek.
      + apply Z.eqb_eq in Ek. subst. rewrite Z.eqb_refl. reflexivity.
      + apply Z.eqb_neq in Ek. destruct (o + k =? o + i) eqn:E'; [apply Z.eqb_eq in E'; lia|]. apply H3. lia.
    - intros k Hk. destruct (k =? o + i) eqn:Ek; [apply Z.eqb_eq in Ek; lia|]. apply H6. auto.
  Qed.
  Lemma emb_fget o (b B : buf) f i : emb o b B -> osim eq (fget b f i) (fget B (sh_f o f) i).
  Proof. intros H. unfold fget. cbn [sh_f fst]. apply emb_get with (o := o); auto. apply sh_addr. Qed.
  Lemma emb2_fset o n (B0 b B : buf) f i v : emb2 o n B0 b B -> osim (emb2 o n B0) (fset b f i v) (fset B (sh_f o f) i v).
  Proof. intros H. unfold fset. cbn [sh_f fst]. apply emb2_set; auto. apply sh_addr. Qed.
  Lemma emb2_fadd o n (B0 b B : buf) f i v : emb2 o n B0 b B -> osim (emb2 o n B0) (fadd b f i v) (fadd B (sh_f o f) i v).
  Proof. intros H. unfold fadd. eapply osim_bind; [apply emb_fget, (emb2_emb _ _ _ _ _ H)|]. intros x y <-. apply emb2_fset; auto. Qed.
  Lemma emb_vget o (b B : buf) v i : emb o b B -> osim eq (vget b v i) (vget B (sh_v o v) i).
  Proof. intros H. unfold vget. cbn [sh_v v_it]. apply emb_get with (o := o); auto. apply sh_addr. Qed.
  Lemma emb2_vset o n (B0 b B : buf) v i x : emb2 o n B0 b B -> osim (emb2 o n B0) (vset b v i x) (vset B (sh_v o v) i x).
  Proof. intros H. unfold vset. cbn [sh_v v_it]. apply emb2_set; auto. apply sh_addr. Qed.
  Lemma emb2_vadd o n (B0 b B : buf) v i x : emb2 o n B0 b B -> osim (emb2 o n B0) (vadd b v i x) (vadd B (sh_v o v) i x).
  Proof. intros H. unfold vadd. eapply osim_bind; [apply emb_vget, (emb2_emb _ _ _ _ _ H)|]. intros y z <-. apply emb2_vset; auto. Qed.
End Prim.

Ltac osim1 :=
  lazymatch goal with
  | |- osim _ (bind (at_level _ _) _) _ => eapply osim_bind; [apply sh_level|let a := fresh "fr" in let b := fresh "fr" in intros a b ->; cbn [sh_f fst snd]]
  | |- osim _ (bind (fget _ _ _) _) _ => eapply osim_bind; [apply emb_fget; eauto using emb2_emb|let x := fresh "x" in let y := fresh "x" in intros x y <-]
  | |- osim _ (bind (vget _ _ _) _) _ => eapply osim_bind; [apply emb_vget; eauto using emb2_emb|let x := fresh "x" in let y := fresh "x" in intros x y <-]
  | |- osim _ (bind (vadd _ _ _ _) _) _ => eapply osim_bind; [apply emb2_vadd; eassumption|let a := fresh "b" in let b := fresh "b" in intros a b ?]
  | |- osim _ (bind (vset _ _ _ _) _) _ => eapply osim_bind; [apply emb2_vset; eassumption|let a := fresh "b" in let b := fresh "b" in intros a b ?]
  | |- osim _ (bind (for_ _ _ _) _) _ => eapply osim_bind; [eapply osim_for; [eassumption|let x := fresh "i" in let a := fresh "b" in let b := fresh "b" in intros x a b _ ?]|let a := fresh "b" in let b := fresh "b" in intros a b ?]
  | |- osim _ (bind (if _ then _ else _) _) _ => eapply osim_bind; [apply osim_if|let a := fresh "b" in let b := fresh "b" in intros a b ?]
  | |- osim _ (bind _ _) _ => eapply osim_bind; [apply osim_eq|let x := fresh "x" in let y := fresh "x" in intros x y <-]
  | |- osim _ (for_ _ _ _) _ => eapply osim_for; [eassumption|let x := fresh "i" in let a := fresh "b" in let b := fresh "b" in intros x a b _ ?]
  | |- osim _ (fadd _ _ _ _) _ => apply emb2_fadd; eassumption
  | |- osim _ (fset _ _ _ _) _ => apply emb2_fset; eassumption
  | |- osim _ (vadd _ _ _ _) _ => apply emb2_vadd; eassumption
  | |- osim _ (vset _ _ _ _) _ => apply emb2_vset; eassumption
  | |- osim _ (if _ then _ else _) _ => apply osim_if
  | |- osim _ (Ok _) (Ok _) => apply osim_ok; eassumption
  end.

Section Kernels.
  Variable R : cring.
  Notation buf := (buf R).

  Lemma sim_ft_fma oo lo ro n out lhs rhs (B0 ob OB lb LB rb RB : buf) op : emb2 oo n B0 ob OB -> emb lo lb LB -> emb ro rb RB ->
    osim (emb2 oo n B0) (ft_fma out lhs rhs ob lb rb op) (ft_fma (sh_v oo out) (sh_v lo lhs) (sh_v ro rhs) OB LB RB op).
  Proof.
    intros Ho Hl Hr. unfold ft_fma. cbn [sh_v v_min v_max].
    osim1. - osim1. osim1. osim1. osim1. osim1. osim1. osim1. osim1. osim1.
    - osim1; [|osim1]. osim1. osim1. osim1.
  Qed.
  Lemma sim_ft_inplace_mul lo ro n lhs rhs (B0 b B rb RB : buf) op : emb2 lo n B0 b B -> emb ro rb RB ->
    osim (emb2 lo n B0) (ft_inplace_mul lhs rhs b rb op) (ft_inplace_mul (sh_v lo lhs) (sh_v ro rhs) B RB op).
  Proof.
    intros Ho Hr. unfold ft_inplace_mul. cbn [sh_v v_min v_max].
    osim1.
    - repeat osim1.
    - repeat osim1.
  Qed.
  Lemma sim_ft_antipode oo ao n out arg (B0 ob OB ab AB : buf) : emb2 oo n B0 ob OB -> emb ao ab AB ->
    osim (emb2 oo n B0) (ft_antipode out arg ob ab) (ft_antipode (sh_v oo out) (sh_v ao arg) OB AB).
  Proof. intros Ho Ha. unfold ft_antipode. cbn [sh_v v_min v_max v_basis]. repeat osim1. Qed.
  Lemma sim_ft_adj_lmul oo po ao n out op arg (B0 ob OB pb PB ab AB : buf) : emb2 oo n B0 ob OB -> emb po pb PB -> emb ao ab AB ->
    osim (emb2 oo n B0) (ft_adj_lmul out op arg ob pb ab) (ft_adj_lmul (sh_v oo out) (sh_v po op) (sh_v ao arg) OB PB AB).
  Proof. intros Ho Hp Ha. unfold ft_adj_lmul. cbn [sh_v v_min v_max]. repeat osim1. Qed.
  Lemma sim_st_fma oo lo ro n out lhs rhs (B0 ob OB lb LB rb RB : buf) op : emb2 oo n B0 ob OB -> emb lo lb LB -> emb ro rb RB ->
    osim (emb2 oo n B0) (st_fma out lhs rhs ob lb rb op) (st_fma (sh_v oo out) (sh_v lo lhs) (sh_v ro rhs) OB LB RB op).
  Proof.
    intros Ho Hl Hr. unfold st_fma. cbn [sh_v v_min v_max v_basis]. repeat osim1.
    eapply osim_bind with (P := eq).
    - apply osim_for; [reflexivity|]. intros mask a b' _ <-. destruct (pack_masked_index _ _ _ _ _) as [[[ld li] rd] ri].
      osim1. osim1. osim1. osim1. apply osim_ok. reflexivity.
    - intros a b' <-. osim1.
  Qed.
  Lemma sim_vector_inplace_addition lo ro n lhs rhs (B0 b B rb RB : buf) op : emb2 lo n B0 b B -> emb ro rb RB ->
    osim (emb2 lo n B0) (vector_inplace_addition lhs rhs b rb op) (vector_inplace_addition (sh_v lo lhs) (sh_v ro rhs) B RB op).
  Proof. intros Ho Hr. unfold vector_inplace_addition. rewrite !sh_size. repeat osim1. Qed.
  Lemma sim_csr oo ao n out m arg (B0 ob OB ab AB : buf) op : emb2 oo n B0 ob OB -> emb ao ab AB ->
    osim (emb2 oo n B0) (apply_csr out m arg ob ab op) (apply_csr (sh_f oo out) m (sh_f ao arg) OB AB op).
  Proof. intros Ho Ha. unfold apply_csr. repeat osim1. Qed.
  Lemma sim_csc oo ao n out m arg (B0 ob OB ab AB : buf) op : emb2 oo n B0 ob OB -> emb ao ab AB ->
    osim (emb2 oo n B0) (apply_csc out m arg ob ab op) (apply_csc (sh_f oo out) m (sh_f ao arg) OB AB op).
  Proof. intros Ho Ha. unfold apply_csc. repeat osim1. Qed.
End Kernels.

Section Kernels2.
  Variable R : qalg.
  Notation buf := (buf (qr R)).
  Lemma sim_ft_exp oo ao n out arg (B0 ob OB ab AB : buf) : emb2 oo n B0 ob OB -> emb ao ab AB ->
    osim (emb2 oo n B0) (ft_exp out arg ob ab) (ft_exp (sh_v oo out) (sh_v ao arg) OB AB).
  Proof.
    intros Ho Ha. unfold ft_exp. cbn [sh_v v_max]. osim1. osim1.
    eapply osim_bind; [rewrite !sh_trunc; apply (sim_ft_inplace_mul (qr R)); eassumption|]. intros. osim1.
  Qed.
  Lemma sim_ft_log oo ao n out arg (B0 ob OB ab AB : buf) : emb2 oo n B0 ob OB -> emb ao ab AB ->
    osim (emb2 oo n B0) (ft_log out arg ob ab) (ft_log (sh_v oo out) (sh_v ao arg) OB AB).
  Proof.
    intros Ho Ha. unfold ft_log. cbn [sh_v v_max]. osim1. osim1; [osim1; osim1|osim1|].
    rewrite !sh_trunc. apply (sim_ft_inplace_mul (qr R)); eassumption.
  Qed.
  Lemma sim_ft_fmexp oo mo eo n out mul ex (B0 ob OB mb MB eb EB : buf) : emb2 oo n B0 ob OB -> emb mo mb MB -> emb eo eb EB ->
    osim (emb2 oo n B0) (ft_fmexp out mul ex ob mb eb) (ft_fmexp (sh_v oo out) (sh_v mo mul) (sh_v eo ex) OB MB EB).
  Proof.
    intros Ho Hm He. unfold ft_fmexp. rewrite !sh_size. cbn [sh_v v_max]. osim1. osim1. osim1; [osim1; osim1|]. osim1.
    eapply osim_bind; [rewrite !sh_trunc; apply (sim_ft_inplace_mul (qr R)); eassumption|]. intros.
    apply (sim_vector_inplace_addition (qr R)); eassumption.
  Qed.
End Kernels2.
