(** Arithmetic on [int] coefficients either overflows or is exact: a program over Lie objects run with 32-bit
    coefficients has undefined behaviour or gives what exact coefficients give. *)
From Coq Require Import ZArith List Bool Lia.
From Verif Require Import LieObjModel.
Import ListNotations.
Open Scope Z_scope.

Definition sim {A} (a b : outcome A) : Prop := a = UB \/ a = b.
Lemma sim_refl {A} (a : outcome A) : sim a a. Proof. right. reflexivity. Qed.
Lemma sim_ub {A} (b : outcome A) : sim UB b. Proof. left. reflexivity. Qed.
Lemma sim_bind {A B} (a b : outcome A) (f g : A -> outcome B) : sim a b -> (forall x, sim (f x) (g x)) -> sim (bind a f) (bind b g).
Proof. intros [->| ->] H; [left; reflexivity|]. destruct b as [x| | |]; cbn [bind]; [apply H|right; reflexivity..]. Qed.
Lemma sim_for {A S} (l : list A) (f g : A -> S -> outcome S) : (forall x s, sim (f x s) (g x s)) -> forall s, sim (for_ l s f) (for_ l s g).
Proof. intros H. induction l as [|x l IH]; intros s; cbn [for_]; [apply sim_refl|]. apply sim_bind; auto. Qed.
Lemma sim_omap {A B} (l : list A) (f g : A -> outcome B) : (forall x, sim (f x) (g x)) -> sim (omap f l) (omap g l).
Proof. intros H. induction l as [|x l IH]; cbn [omap]; [apply sim_refl|]. apply sim_bind; auto. intros y. apply sim_bind; auto. intros r. apply sim_refl. Qed.
Ltac sim1 := first [apply sim_refl | apply sim_ub | apply sim_bind; [|intros] | apply sim_for; intros | apply sim_omap; intros |
  match goal with |- sim (match ?x with _ => _ end) _ => destruct x end].
Ltac simt := repeat sim1.

Section Sim.
  Variable ck : Z -> outcome Z.
  Hypothesis Hck : forall z, sim (ck z) (Ok z).
  Lemma ck_bind {B} z (f g : Z -> outcome B) : (forall x, sim (f x) (g x)) -> sim (let! x := ck z in f x) (let! x := Ok z in g x).
  Proof. intros. apply sim_bind; auto. Qed.
  Lemma m_upd_sim k f m : sim (m_upd ck k f m) (m_upd Ok k f m).
  Proof. induction m as [|[q y] m IH]; cbn [m_upd]; [apply ck_bind; intros; simt|]. destruct (k <? q); [apply ck_bind; intros; simt|]. destruct (q =? k); [apply ck_bind; intros; simt|]. apply sim_bind; auto. intros. simt. Qed.
  Lemma p_uminus_sim p : sim (p_uminus ck p) (p_uminus Ok p).
  Proof. apply sim_omap. intros e. apply ck_bind. intros. simt. Qed.
  Lemma p_sub_sim a b : sim (p_sub ck a b) (p_sub Ok a b).
  Proof. apply sim_for. intros. apply m_upd_sim. Qed.
  Section Mul.
    Variables op op' : Z -> Z -> hcache -> outcome (kprod * hcache).
    Hypothesis Hop : forall a b c, sim (op a b c) (op' a b c).
    Lemma p_mul_key_sim a b c : sim (p_mul_key ck op a b c) (p_mul_key Ok op' a b c).
    Proof. apply sim_for. intros e [m c0]. apply sim_bind; [apply Hop|]. intros [p c1]. apply sim_bind; [|intros; simt]. apply sim_for. intros. apply ck_bind. intros. apply m_upd_sim. Qed.
    Lemma p_mul_sim a b c : sim (p_mul ck op a b c) (p_mul Ok op' a b c).
    Proof. apply sim_for. intros e s0. apply sim_for. intros e2 [m c0]. apply sim_bind; [apply Hop|]. intros [p c1]. apply sim_bind; [|intros; simt]. apply sim_for. intros. apply ck_bind. intros. apply ck_bind. intros. apply m_upd_sim. Qed.
    Lemma lie_key_prod_sim L a b c : sim (lie_key_prod ck L op a b c) (lie_key_prod Ok L op' a b c).
    Proof.
      unfold lie_key_prod. destruct (k_ltb b a); [apply sim_bind; [apply Hop|]; intros [p c1]; apply sim_bind; [apply p_uminus_sim|]; intros; simt|]. destruct (_ >? _); [simt|]. destruct (hs_find _ _); [simt|].
      apply sim_bind; [simt|]. intros ps. apply sim_bind; [apply Hop|]. intros [p c1]. apply sim_bind; [apply p_mul_key_sim|]. intros [q c2]. apply sim_bind; [apply Hop|]. intros [p2 c3]. apply sim_bind; [apply p_mul_key_sim|]. intros [q2 c4].
      apply sim_bind; [apply p_sub_sim|]. intros. simt.
    Qed.
  End Mul.
  Lemma lie_op_sim L fuel : forall a b c, sim (lie_op ck L fuel a b c) (lie_op Ok L fuel a b c).
  Proof.
    induction fuel as [|fuel IH]; intros a b c; cbn [lie_op]; [simt|]. destruct (k_eqb a b); [simt|].
    destruct (ShufModel.c_find a b c) as [[|e p]|]; [|simt|]; (apply sim_bind; [apply lie_key_prod_sim; exact IH|]; intros [p' c']; simt).
  Qed.
  Lemma lie_mult_sim L a b c : sim (lie_mult ck L a b c) (lie_mult Ok L a b c). Proof. apply lie_op_sim. Qed.
  Lemma gen_commutator_sim L a b : sim (gen_commutator ck L a b) (gen_commutator Ok L a b).
  Proof.
    apply sim_for. intros l t. apply sim_for. intros r t2. apply sim_bind; [simt|]. intros [p ?]. apply sim_bind; [apply sim_for; intros; apply ck_bind; intros; apply ck_bind; intros; apply m_upd_sim|].
    intros m. apply sim_bind; [simt|]. intros [p2 ?]. apply sim_for. intros. apply ck_bind. intros. apply ck_bind. intros. apply m_upd_sim.
  Qed.
  Lemma expand_op_sim L fuel : forall k c, sim (expand_op ck L fuel k c) (expand_op Ok L fuel k c).
  Proof.
    induction fuel as [|fuel IH]; intros k c; cbn [expand_op]; [simt|]. destruct (HsModel.c_find c k); [simt|]. destruct (_ =? _); [simt|]. apply sim_bind; [simt|]. intros p. apply sim_bind; [apply IH|]. intros [a c1].
    apply sim_bind; [apply IH|]. intros [b c2]. apply sim_bind; [apply gen_commutator_sim|]. intros. simt.
  Qed.
  Lemma rbr_op_sim L fuel : forall k s, sim (rbr_op ck L fuel k s) (rbr_op Ok L fuel k s).
  Proof.
    induction fuel as [|fuel IH]; intros k s; cbn [rbr_op]; [simt|]. destruct (_ =? _); [simt|]. destruct (HsModel.c_find (snd s) k); [simt|]. destruct (is_letter k); [simt|].
    apply sim_bind; [simt|]. intros l. apply sim_bind; [simt|]. intros r. apply sim_bind; [apply IH|]. intros [a s1]. apply sim_bind; [apply IH|]. intros [b s2]. apply sim_bind; [apply p_mul_sim; apply lie_mult_sim|]. intros [v c]. simt.
  Qed.

  Section Data.
    Variable R : qalg. Variable req : R -> R -> bool. Variable L : lctx.
    Lemma l2t_sim {X} (OL OT : vops R X) a m : sim (l2t R ck L OL OT a m) (l2t R Ok L OL OT a m).
    Proof. apply sim_bind; [simt|]. intros items. apply sim_for. intros e [r m']. apply sim_bind; [apply expand_op_sim|]. intros [p c]. simt. Qed.
    Lemma t2l_sim {X} (OL OT : vops R X) a m : sim (t2l R ck L OL OT a m) (t2l R Ok L OL OT a m).
    Proof. apply sim_bind; [simt|]. intros items. apply sim_for. intros e [r m']. cbv zeta. destruct (_ >? _); [|simt]. apply sim_bind; [apply rbr_op_sim|]. intros [p c]. simt. Qed.
    Lemma l2t_td_sim a m : sim (l2t_td R req ck L a m) (l2t_td R req Ok L a m).
    Proof. destruct a; (apply sim_bind; [apply l2t_sim|]; intros [y m']; simt). Qed.
    Lemma t2l_td_sim a m : sim (t2l_td R req ck L a m) (t2l_td R req Ok L a m).
    Proof. destruct a; (apply sim_bind; [apply t2l_sim|]; intros [y m']; simt). Qed.
    Lemma conv_lie_sim d a m : sim (conv_lie R req ck L d a m) (conv_lie R req Ok L d a m).
    Proof. apply sim_bind; [apply l2t_td_sim|]. intros [t m']. apply sim_bind; [simt|]. intros. apply t2l_td_sim. Qed.
    Lemma like_sim a b m : sim (like R req ck L a b m) (like R req Ok L a b m).
    Proof. unfold like. destruct (Bool.eqb _ _); [simt|apply conv_lie_sim]. Qed.
    Lemma ld_bin_sim f a b m : sim (ld_bin R req ck L f a b m) (ld_bin R req Ok L f a b m).
    Proof. apply sim_bind; [apply like_sim|]. intros [b' m']. simt. Qed.
    Lemma ld_eqb_sim a b m : sim (ld_eqb R req ck L a b m) (ld_eqb R req Ok L a b m).
    Proof. apply sim_bind; [apply like_sim|]. intros [b' m']. simt. Qed.
    Lemma op_mul_sim {X} (O : vops R X) d x y c : sim (op_mul R X O d hcache (base_fma R X O d hcache (lie_mult ck L)) x y c) (op_mul R X O d hcache (base_fma R X O d hcache (lie_mult Ok L)) x y c).
    Proof.
      unfold op_mul. destruct (_ && _); [|simt]. unfold base_fma. apply sim_bind; [simt|]. intros rb. cbv zeta. apply sim_bind; [simt|]. intros li. apply sim_for. intros e s. apply sim_bind; [simt|]. intros rg. apply sim_for. intros e2 [o c0].
      apply sim_bind; [apply lie_mult_sim|]. intros [p c1]. simt.
    Qed.
    Lemma ld_mul_sim a b m : sim (ld_mul R req ck L a b m) (ld_mul R req Ok L a b m).
    Proof. apply sim_bind; [apply like_sim|]. intros [b' m']. destruct a, b'; [apply sim_bind; [apply op_mul_sim|]; intros [z c]; simt|apply sim_ub|apply sim_ub|apply sim_bind; [apply op_mul_sim|]; intros [z c]; simt]. Qed.
    Lemma compute_signature_sim d rows m : sim (compute_signature R req ck L d rows m) (compute_signature R req Ok L d rows m).
    Proof. apply sim_bind; [simt|]. intros r. apply sim_for. intros row [x m']. apply sim_bind; [simt|]. intros lr. apply sim_bind; [apply l2t_td_sim|]. intros [t m2]. simt. Qed.
  End Data.

  Section Objects.
    Variable R : qalg. Variable req : R -> R -> bool. Variable ctxs : Z -> lctx.
    Lemma within_sim {A} c (f g : mcache -> outcome (A * mcache)) cs : (forall m, sim (f m) (g m)) -> sim (within ctxs c f cs) (within ctxs c g cs).
    Proof. intros H. apply sim_bind; [apply H|]. intros [a m]. simt. Qed.
    Lemma l2t_impl_sim c d a cs : sim (l2t_impl R req ck ctxs c d a cs) (l2t_impl R req Ok ctxs c d a cs).
    Proof. unfold l2t_impl. destruct (_ =? _); [destruct (Bool.eqb _ _); [|simt]; apply within_sim; intros; apply l2t_td_sim|]. destruct (negb _); [simt|]. apply sim_bind; [apply within_sim; intros; apply l2t_td_sim|]. intros [t cs']. simt. Qed.
    Lemma to_tensor_sim c a cs : sim (ctx_lie_to_tensor R req ck ctxs c a cs) (ctx_lie_to_tensor R req Ok ctxs c a cs).
    Proof. apply sim_bind; [apply l2t_impl_sim|]. intros [t cs']. simt. Qed.
    Lemma to_lie_sim c a cs : sim (ctx_tensor_to_lie R req ck ctxs c a cs) (ctx_tensor_to_lie R req Ok ctxs c a cs).
    Proof.
      unfold ctx_tensor_to_lie. destruct (_ =? _); [apply sim_bind; [apply within_sim; intros; apply t2l_td_sim|]; intros [t cs']; simt|]. destruct (negb _); [simt|]. apply sim_bind; [simt|]. intros t.
      apply sim_bind; [apply within_sim; intros; apply t2l_td_sim|]. intros [t' cs']. simt.
    Qed.
    Lemma convert_lie_sim c d a cs : sim (ctx_convert_lie R req ck ctxs c d a cs) (ctx_convert_lie R req Ok ctxs c d a cs).
    Proof. apply sim_bind; [apply within_sim; intros; apply l2t_td_sim|]. intros [t cs']. apply sim_bind; [simt|]. intros t'. apply sim_bind; [apply within_sim; intros; apply t2l_td_sim|]. intros [t2 cs2]. simt. Qed.
    Lemma cbh_sim c ls d cs : sim (ctx_cbh R req ck ctxs c ls d cs) (ctx_cbh R req Ok ctxs c ls d cs).
    Proof.
      assert (M : forall ls, sim (let! collector := td_unit R req (ctxs c) d in
        let! (collector, cs) := for_ ls (collector, cs) (fun alie s =>
          let '(collector, cs) := s in
          if td_dimension R (lo_data alie) =? 0 then Ok (collector, cs) else
          let! (t, cs) := ctx_lie_to_tensor R req ck ctxs c alie cs in
          let! collector := td_fmexp R req (lc_t (ctxs c)) collector (lo_data t) in Ok (collector, cs)) in
        let! l := td_log R req (lc_t (ctxs c)) collector in
        ctx_tensor_to_lie R req ck ctxs c (mkLO c false l) cs)
        (let! collector := td_unit R req (ctxs c) d in
        let! (collector, cs) := for_ ls (collector, cs) (fun alie s =>
          let '(collector, cs) := s in
          if td_dimension R (lo_data alie) =? 0 then Ok (collector, cs) else
          let! (t, cs) := ctx_lie_to_tensor R req Ok ctxs c alie cs in
          let! collector := td_fmexp R req (lc_t (ctxs c)) collector (lo_data t) in Ok (collector, cs)) in
        let! l := td_log R req (lc_t (ctxs c)) collector in
        ctx_tensor_to_lie R req Ok ctxs c (mkLO c false l) cs)).
      { clear ls. intros ls. apply sim_bind; [simt|]. intros u. apply sim_bind.
        - apply sim_for. intros a [x cs']. destruct (_ =? _); [simt|]. apply sim_bind; [apply to_tensor_sim|]. intros [t cs2]. simt.
        - intros [x cs']. apply sim_bind; [simt|]. intros l. apply to_lie_sim. }
      unfold ctx_cbh. destruct ls as [|a [|b ls]]; [apply M|apply convert_lie_sim|apply M].
    Qed.
    Lemma cbh2_sim c a b cs : sim (ctx_cbh2 R req ck ctxs c a b cs) (ctx_cbh2 R req Ok ctxs c a b cs).
    Proof. apply sim_bind; [apply to_tensor_sim|]. intros [l cs1]. apply sim_bind; [simt|]. intros t. apply sim_bind; [apply to_tensor_sim|]. intros [r cs2]. apply sim_bind; [simt|]. intros t2. apply sim_bind; [simt|]. intros l2. apply to_lie_sim. Qed.
    Lemma signature_sim c d rows cs : sim (ctx_signature R req ck ctxs c d rows cs) (ctx_signature R req Ok ctxs c d rows cs).
    Proof. apply sim_bind; [apply within_sim; intros; apply compute_signature_sim|]. intros [t cs']. simt. Qed.
    Lemma log_signature_sim c d rows cs : sim (ctx_log_signature R req ck ctxs c d rows cs) (ctx_log_signature R req Ok ctxs c d rows cs).
    Proof. apply sim_bind; [apply signature_sim|]. intros [s cs']. apply sim_bind; [simt|]. intros l. apply to_lie_sim. Qed.
    Lemma derivative_sim c d info cs : sim (ctx_sig_derivative R req ck ctxs c d info cs) (ctx_sig_derivative R req Ok ctxs c d info cs).
    Proof.
      unfold ctx_sig_derivative. cbv zeta. apply sim_bind; [|intros [r cs']; simt]. apply sim_for. intros p [r cs']. apply sim_bind; [apply l2t_impl_sim|]. intros [t cs1]. apply sim_bind; [apply l2t_impl_sim|]. intros [t2 cs2]. simt.
    Qed.
    Lemma obj_eqb_sim a b cs : sim (obj_eqb R req ck ctxs a b cs) (obj_eqb R req Ok ctxs a b cs).
    Proof. unfold obj_eqb. destruct (negb _); [simt|]. destruct (_ =? _); [|simt]. destruct (lo_lie a); [|simt]. apply within_sim. intros. apply ld_eqb_sim. Qed.
    Lemma stored_sim e x a b : sim a b -> sim (stored R e x a) (stored R e x b).
    Proof. intros H. apply sim_bind; [exact H|]. intros [o cs]. simt. Qed.
    Lemma in_lie_sim c x e a b : sim a b -> sim (in_lie R c x e a) (in_lie R c x e b).
    Proof. intros H. apply sim_bind; [exact H|]. intros [o cs]. simt. Qed.
    Lemma step_sim k st : sim (lie_step R req ck ctxs k st) (lie_step R req Ok ctxs k st).
    Proof.
      destruct st as [e cs]. destruct k as [x c lie dense keys data|x o y|x o y z|x y z|x y|x y|x c y|x c y|x c ys dense|x c y z|x c dense rows|x c dense rows|x c dense info]; cbn [lie_step]; [apply sim_refl|apply sim_refl| | |apply sim_refl|apply sim_refl|..].
      - destruct (e y) as [a|]; [|simt]. destruct (e z) as [b|]; [|simt]. destruct (lalike R a b); [|simt]. destruct (lo_lie a); [|simt]. apply in_lie_sim, within_sim. intros. apply ld_bin_sim.
      - destruct (e y) as [a|]; [|simt]. destruct (e z) as [b|]; [|simt]. destruct (lalike R a b); [|simt]. destruct (lo_lie a); [|simt]. apply in_lie_sim, within_sim. intros. apply ld_mul_sim.
      - apply sim_bind; [simt|]. intros a. apply stored_sim, to_tensor_sim.
      - apply sim_bind; [simt|]. intros a. apply stored_sim, to_lie_sim.
      - apply sim_bind; [simt|]. intros a. apply stored_sim, cbh_sim.
      - apply sim_bind; [simt|]. intros a. apply sim_bind; [simt|]. intros b. apply stored_sim, cbh2_sim.
      - apply stored_sim, signature_sim.
      - apply stored_sim, log_signature_sim.
      - apply sim_bind; [simt|]. intros a. apply stored_sim, derivative_sim.
    Qed.
    Theorem run_sim p st : sim (lie_run R req ck ctxs p st) (lie_run R req Ok ctxs p st).
    Proof. apply sim_for. intros. apply step_sim. Qed.
  End Objects.
End Sim.
Lemma i32_sim z : sim (i32 z) (Ok z).
Proof. unfold i32. destruct (_ && _); [right; reflexivity|left; reflexivity]. Qed.
