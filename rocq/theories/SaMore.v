(** Proofs: whole programs, freed memory, lent memory; and what assignments and empty arrays do wrong. *)
From Verif Require Import SaSpec SaProofs SaTop.
Open Scope nat_scope.

Section More.
  Variables T V : Type.
  Variable ty_eqb : T -> T -> bool.
  Hypothesis ty_eqb_spec : forall a b, ty_eqb a b = true <-> a = b.
  Variable zero : T -> V.
  Notation world := (world T V).
  Notation does := (does T V zero).
  Notation does_all := (does_all T V zero).
  Notation run := (run T V ty_eqb zero).
  Notation step := (step T V ty_eqb zero).
  Notation start := (start T V).
  Notation start_memory := (start_memory T V).

  Lemma runs w l w' os : does_all w l w' os -> wf T V w -> forall s, R T V w s -> exists s', run s l = Ok (s', os) /\ R T V w' s' /\ wf T V w'.
  Proof.
    induction 1 as [w|w c w1 o l w2 os D DA IH]; intros W s HR; [exists s; auto|].
    destruct (simulates T V ty_eqb ty_eqb_spec zero _ _ _ _ D W _ HR) as (s1 & A & HR1 & W1).
    destruct (IH W1 _ HR1) as (s2 & E & HR2 & W2). exists s2. split; [|auto]. cbn [SaModel.run].
    destruct o as [|v|]; cbn [answers] in A.
    - rewrite A. rewrite E. reflexivity.
    - rewrite A. rewrite E. reflexivity.
    - destruct A as [A ->]. rewrite A. rewrite E. reflexivity.
  Qed.
  Lemma start_R given : R T V (start given) (start_memory given) /\ wf T V (start given).
  Proof.
    split; [|intros [|x] a H; discriminate]. split; [reflexivity|]. split; [cbn; now rewrite !map_length|].
    intros r g H. cbn in *. rewrite nth_error_map in *. destruct (nth_error given r); [|discriminate]. injection H as <-. reflexivity.
  Qed.

  Notation holds := (holds T V).
  Lemma R_holds w s : R T V w s -> holds w (fst s).
  Proof.
    intros [_ [L H]]. split; [assumption|]. intros r g Hg. rewrite (H _ _ Hg). unfold block_of. split.
    - intros A. apply alive_cnt in A. destruct A as (g' & Hg' & A). rewrite Hg in Hg'. injection Hg' as <-.
      destruct (rg_given T V g); [eauto|]. destruct A as [A|A]; [discriminate|]. destruct (count T r (arrays T V w)); [lia|eauto].
    - intros A. destruct (rg_given T V g) eqn:E; [exfalso; apply A; exists g; auto|]. destruct (count T r (arrays T V w)) eqn:C; [reflexivity|].
      exfalso. apply A. exists g. split; [assumption|]. right. apply count_pos. lia.
  Qed.
  Lemma sa_programs given prog w os : does_all (start given) prog w os -> exists s, run (start_memory given) prog = Ok (s, os) /\ holds w (fst s).
  Proof.
    intros D. destruct (start_R given) as [HR W]. destruct (runs _ _ _ _ D W _ HR) as (s & E & HR' & _). exists s. split; [assumption|]. now apply R_holds.
  Qed.

  Lemma regions_kept w c w' o : does w c w' o -> forall r g, nth_error (regions T V w) r = Some g ->
    exists g', nth_error (regions T V w') r = Some g' /\ rg_given T V g' = rg_given T V g /\ rg_ty T V g' = rg_ty T V g.
  Proof.
    intros D r g Hg. assert (K : exists g', nth_error (regions T V w) r = Some g' /\ rg_given T V g' = rg_given T V g /\ rg_ty T V g' = rg_ty T V g) by eauto.
    destruct D; cbn [regions with_new with_array]; try exact K; try (exists g; split; [now apply nth_app_old|auto]).
    match goal with |- context [put ?q ?c ?l] => destruct (Nat.eq_dec q r) as [->|N] end.
    - eexists. split; [apply put_same; now apply nth_lt in Hg|]. cbn. split; congruence.
    - exists g. rewrite put_other by assumption. auto.
  Qed.
  Lemma new_own w c w' o : does w c w' o -> forall r g, nth_error (regions T V w') r = Some g -> length (regions T V w) <= r -> rg_given T V g = false.
  Proof.
    intros D r g Hg L. destruct D; cbn [regions with_new with_array] in Hg; try (apply nth_lt in Hg; lia).
    - apply nth_app_inv in Hg. destruct Hg as [Hg|[_ ->]]; [apply nth_lt in Hg; lia|reflexivity].
    - apply nth_app_inv in Hg. destruct Hg as [Hg|[_ ->]]; [apply nth_lt in Hg; lia|reflexivity].
    - apply nth_lt in Hg. rewrite put_length in Hg. lia.
  Qed.
  Lemma own_regions w l w' os : does_all w l w' os -> forall n, (forall r g, nth_error (regions T V w) r = Some g -> n <= r -> rg_given T V g = false) ->
    forall r g, nth_error (regions T V w') r = Some g -> n <= r -> rg_given T V g = false.
  Proof.
    induction 1 as [w|w c w1 o l w2 os D DA IH]; intros n Hn; [assumption|]. apply IH. intros r g Hg Hr.
    destruct (nth_error (regions T V w) r) as [h|] eqn:Eh.
    - destruct (regions_kept _ _ _ _ D _ _ Eh) as (g' & Hg' & E1 & _). rewrite Hg in Hg'. injection Hg' as <-. rewrite E1. now apply (Hn r).
    - apply (new_own _ _ _ _ D _ _ Hg). now apply nth_error_None.
  Qed.
  Lemma sa_all_freed given prog w os : does_all (start given) prog w os -> (forall x a, nth_error (arrays T V w) x = Some a -> a = None) ->
    exists s, run (start_memory given) prog = Ok (s, os) /\ forall r, length given <= r -> r < length (fst s) -> nth_error (fst s) r = Some None.
  Proof.
    intros D Hx. destruct (sa_programs _ _ _ _ D) as (s & E & L & H). exists s. split; [assumption|]. intros r Hr Hs.
    destruct (nth_error (regions T V w) r) as [g|] eqn:Eg; [|apply nth_error_None in Eg; lia].
    apply (H _ _ Eg). intros (g' & Hg' & [A|(x & a & Ha & Ho)]).
    - rewrite Eg in Hg'. injection Hg' as <-. rewrite (own_regions _ _ _ _ D (length given)) with (r := r) in A; [discriminate| |assumption|assumption].
      intros r' g' Hg' Hr'. apply nth_lt in Hg'. cbn in Hg'. rewrite map_length in Hg'. lia.
    - rewrite (Hx _ _ Ha) in Ho. discriminate.
  Qed.

  (** Memory lent for reading only *)
  Definition reads (r : nat) (a : option (array T)) : Prop := match a with Some (Array _ _ _ k (Some (r', _)) _) => r' = r -> k = AConst | _ => True end.
  Definition only_reads (r : nat) (w : world) : Prop := r < length (regions T V w) /\ forall x a, nth_error (arrays T V w) x = Some a -> reads r a.
  Notation lends_writable := (lends_writable T V).
  Lemma only_put r w x a : only_reads r w -> reads r a -> only_reads r (with_array T V w x a).
  Proof. intros [L H] G. split; [assumption|]. intros y b Hy. cbn in Hy. apply put_inv in Hy. destruct Hy as [[_ ->]|[_ Hy]]; [assumption|now apply (H y)]. Qed.
  Lemma only_new r w a : only_reads r w -> reads r (Some a) -> only_reads r (with_new T V w a).
  Proof. intros [L H] G. split; [assumption|]. intros y b Hy. cbn in Hy. apply nth_app_inv in Hy. destruct Hy as [Hy|[_ ->]]; [now apply (H y)|assumption]. Qed.
  Lemma only_kept r w c w' o : does w c w' o -> ~ lends_writable r c -> only_reads r w -> only_reads r w' /\ nth_error (regions T V w') r = nth_error (regions T V w) r.
  Proof.
    intros D NL Hr. pose proof Hr as [L H].
    destruct D as [|t n Hn|t|obj const r0 off n g Hg Hgv Hl|x a Hx|x Hx|x obj t k p n Hx|x a Hx|x a Hx|x y a Hx Hy|x y a obj t r0 off n l N Hx Hy Hel
      |x a Hx|x y a obj t p n N Hx Hy|x y a b N Hx Hy Hb|x i obj t k r0 off n g v Hx Al Hi Hg Hv|x i obj t k p n Hx Hi|x i v obj t k r0 off n g Hx Hk Al Hi Hg
      |x i v obj t p n Hx|x i v obj t k p n Hx Hi|const x b q obj t k p n Hx Hbe Hp Hc|const x b q obj t k p n Hx Hq|const x b q obj t n Hx|x b q obj t p n Hx
      |const x obj t k p n Hx Hp Hc|x obj t p n Hx|const x obj t n Hx]; try (now split); try (pose proof (H _ _ Hx) as Rx); try (pose proof (H _ _ Hy) as Ry).
    - split; [|reflexivity]. apply only_new; [assumption|exact I].
    - split; [|cbn; now rewrite nth_error_app1]. split; [cbn; rewrite app_length; lia|]. intros y b Hy. cbn in Hy. apply nth_app_inv in Hy. destruct Hy as [Hy|[_ ->]]; [now apply (H y)|].
      cbn. lia.
    - split; [|reflexivity]. apply only_new; [assumption|exact I].
    - split; [|reflexivity]. apply only_new; [assumption|]. cbn. destruct const; [auto|]. intros ->. exfalso. apply NL. reflexivity.
    - split; [|reflexivity]. now apply only_new.
    - split; [|reflexivity]. now apply only_new.
    - split; [|reflexivity]. apply only_new; [|assumption]. apply only_put; [assumption|exact I].
    - split; [|reflexivity]. apply only_put; [assumption|exact I].
    - split; [|cbn; now rewrite nth_error_app1]. split; [cbn; rewrite app_length; lia|]. intros z b Hz. cbn in Hz. apply put_inv in Hz. destruct Hz as [[_ ->]|[_ Hz]]; [|now apply (H z)].
      cbn. lia.
    - split; [|reflexivity]. apply only_put; [|exact I]. now apply only_put.
    - split; [|reflexivity]. now apply only_put.
    - cbn in Rx. destruct (Nat.eq_dec r0 r) as [->|Nr]; [exfalso; now apply Hk, Rx|]. split; [|cbn; now rewrite put_other]. split; [cbn; now rewrite put_length|assumption].
    - split; [|reflexivity]. apply only_new; [assumption|]. destruct p as [[r0 off]|]; cbn in *; [|exact I]. intros ->. destruct Hc as [->|Hc]; [reflexivity|]. exfalso. now apply Hc, Rx.
    - split; [|reflexivity]. apply only_new; [assumption|]. destruct p as [[r0 off]|]; cbn in *; [|exact I]. intros ->. destruct Hc as [->|Hc]; [reflexivity|]. exfalso. now apply Hc, Rx.
  Qed.
  Lemma sa_lent given prog w os r t l : does_all (start given) prog w os -> nth_error given r = Some (t, l) -> (forall c, In c prog -> ~ lends_writable r c) ->
    exists s, run (start_memory given) prog = Ok (s, os) /\ nth_error (fst s) r = Some (Some (mkBlock T V t l None)).
  Proof.
    intros D Hr HN. destruct (start_R given) as [HR W]. destruct (runs _ _ _ _ D W _ HR) as (s & E & [_ [L HM]] & _). exists s. split; [assumption|].
    assert (nth_error (regions T V w) r = Some (mkRegion T V true t l)) as K; [|rewrite (HM _ _ K); reflexivity].
    assert (O : only_reads r (start given)). { split; [cbn; rewrite map_length; now apply nth_lt in Hr|]. intros [|x] a H; discriminate. }
    assert (K : nth_error (regions T V (start given)) r = Some (mkRegion T V true t l)) by (cbn; rewrite nth_error_map, Hr; reflexivity).
    clear - D HN O K. induction D as [w|w c w1 o l' w2 os D DA IH]; [assumption|].
    destruct (only_kept r _ _ _ _ D (HN c (or_introl eq_refl)) O) as [O1 E1]. apply IH; [|assumption|congruence]. intros c' Hc'. apply HN. now right.
  Qed.

  (** *** Copies, assignments *)
  Lemma nth_repeat i n (z : V) : i < n -> nth_error (repeat z n) i = Some z.
  Proof. revert i. induction n as [|n IH]; intros [|i] H; cbn; try lia; auto. apply IH. lia. Qed.
  Ltac own_alive := eexists; split; [reflexivity|right].
  Lemma copies_share t n i v : i < n -> exists s, run ([], []) [CAlloc T V t n; CCopy T V 0; CSet T V 1 i v; CGet T V 0 i] = Ok (s, [RDone V; RDone V; RDone V; RValue V v]).
  Proof.
    intros Hi. edestruct (sa_programs []) as (s & E & _); [|exists s; exact E].
    eapply DA_cons; [apply D_alloc; lia|]. eapply DA_cons; [eapply D_copy; reflexivity|]. eapply DA_cons.
    { eapply D_set; [reflexivity|discriminate| |assumption|reflexivity]. own_alive. exists 0. eexists. split; reflexivity. }
    eapply DA_cons; [|apply DA_nil]. eapply D_get; [reflexivity| |assumption|reflexivity|].
    - own_alive. exists 0. eexists. split; reflexivity.
    - cbn [rg_vals Nat.add]. apply put_same. now rewrite repeat_length.
  Qed.
  Lemma assigned_apart t n i v : i < n -> exists s, run ([], []) [CAlloc T V t n; CNull T V; CAssign T V 1 0; CSet T V 1 i v; CGet T V 0 i; CGet T V 1 i] = Ok (s, [RDone V; RDone V; RDone V; RDone V; RValue V (zero t); RValue V v]).
  Proof.
    intros Hi. edestruct (sa_programs []) as (s & E & _); [|exists s; exact E].
    eapply DA_cons; [apply D_alloc; lia|]. eapply DA_cons; [eapply D_null|]. eapply DA_cons.
    { eapply D_assign; [discriminate|reflexivity|reflexivity|]. eexists. split; reflexivity. }
    eapply DA_cons. { eapply D_set; [reflexivity|discriminate| |assumption|reflexivity]. own_alive. exists 1. eexists. split; reflexivity. }
    eapply DA_cons. { eapply D_get; [reflexivity| |assumption|reflexivity|]. own_alive. exists 0. eexists. split; reflexivity. cbn [rg_vals Nat.add]. now apply nth_repeat. }
    eapply DA_cons; [|apply DA_nil]. eapply D_get; [reflexivity| |assumption|reflexivity|].
    - own_alive. exists 1. eexists. split; reflexivity.
    - cbn [rg_vals Nat.add]. apply put_same. cbn [skipn]. rewrite firstn_length, repeat_length. lia.
  Qed.
  Lemma assign_null_keeps t n i : i < n -> exists s, run ([], []) [CAlloc T V t n; CNull T V; CAssign T V 0 1; CGet T V 0 i] = Ok (s, [RDone V; RDone V; RDone V; RValue V (zero t)]).
  Proof.
    intros Hi. edestruct (sa_programs []) as (s & E & _); [|exists s; exact E].
    eapply DA_cons; [apply D_alloc; lia|]. eapply DA_cons; [eapply D_null|]. eapply DA_cons; [eapply D_assign_nothing; reflexivity|].
    eapply DA_cons; [|apply DA_nil]. eapply D_get; [reflexivity| |assumption|reflexivity|].
    - own_alive. exists 0. eexists. split; reflexivity.
    - cbn [rg_vals Nat.add]. now apply nth_repeat.
  Qed.
  Lemma assign_const_view t n : 0 < n -> exists s, run ([], []) [CAlloc T V t n; CBorrow T V true 0; CNull T V; CAssign T V 2 1] = Ok (s, [RDone V; RDone V; RDone V; RError V]).
  Proof. intros Hn. destruct n as [|n]; [lia|]. eexists. reflexivity. Qed.
  Lemma assign_mut_view t n : 0 < n -> run ([], []) [CAlloc T V t n; CBorrow T V false 0; CNull T V; CAssign T V 2 1] = UB.
  Proof. intros Hn. destruct n as [|n]; [lia|]. reflexivity. Qed.
  Lemma assign_lent t v const : run (start_memory [(t, [v])]) [CBorrowMem T V false const t 0 0 1; CNull T V; CAssign T V 1 0; CGet T V 1 0] = UB /\
    exists e os, run (start_memory [(t, [v])]) [CBorrowMem T V false const t 0 0 1; CNull T V; CAssign T V 1 0; CDrop T V 0; CDrop T V 1] = Ok (([Some (mkBlock T V t [v] None); Some (mkBlock T V t [v] (Some 1))], e), os).
  Proof.
    assert (Et : ty_eqb t t = true) by now apply ty_eqb_spec.
    destruct const; cbn; unfold load; cbn; rewrite Et; cbn; (split; [reflexivity|]); do 2 eexists; reflexivity.
  Qed.
  Lemma index_null i : run ([], []) [CNull T V; CGet T V 0 i] = UB.
  Proof. reflexivity. Qed.
  Lemma alloc_info_undefined m t n : (let! (m, a) := alloc_info T V zero m t n in destroy T V m a) = UB.
  Proof. destruct n as [|n]; reflexivity. Qed.
End More.
