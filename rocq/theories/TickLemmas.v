(** Tick streams: the statements of the property file, and examples. *)
From Coq Require Import ZifyBool Lqa Qround.
From Verif Require Export TickProofs4 StreamEx.
From Verif Require Import DyadicProofs DyadicProofs2 DyadicProofs3.
From Verif Require Import Outcome Alg Words Mem Series Shuffle TensorModel TensorTop TensorTop3 TensorLemmas HallModel HallSpec LieSpec HallLemmas BracketModel BracketLemmas SmhModel SmhLemmas L2tModel L2tLemmas.
Open Scope Z_scope.

(** *** More fuel never changes an answer *)
Lemma grow_more f : forall g i e r, tk_grow f i e = Ok r -> (f <= g)%nat -> tk_grow g i e = Ok r.
Proof.
  induction f as [|f IH]; intros g i e r H Hg; [discriminate|]. destruct g as [|g]; [lia|]. cbn [tk_grow] in *. apply bind_ok in H. destruct H as (c & -> & H). cbn [bind].
  destruct c; auto. apply bind_ok in H. destruct H as (j & -> & H). cbn [bind]. apply IH; auto. lia.
Qed.
Lemma smallest_more f g times res di r : tk_smallest f times res di = Ok r -> (f <= g)%nat -> tk_smallest g times res di = Ok r.
Proof.
  intros H Hg. unfold tk_smallest in *. apply bind_ok in H. destruct H as (lo & -> & H). cbn [bind]. apply bind_ok in H. destruct H as (hi & -> & H). cbn [bind]. destruct (_ =? _)%nat; auto.
  apply bind_ok in H. destruct H as ([bk i] & E & H). rewrite E. cbn [bind]. apply bind_ok in H. destruct H as (j & E2 & H). rewrite (grow_more f g _ _ _ E2 Hg). cbn [bind]. exact H.
Qed.
Lemma negative_more f g times res r : tk_negative f times res = Ok r -> (f <= g)%nat -> tk_negative g times res = Ok r.
Proof.
  intros H Hg. unfold tk_negative in *. destruct (_ =? _)%nat; auto. do 4 (apply bind_ok in H; let x := fresh in destruct H as (x & -> & H); cbn [bind]). apply bind_ok in H. destruct H as (j & E2 & H). rewrite (grow_more f g _ _ _ E2 Hg). cbn [bind]. exact H.
Qed.
Lemma positive_more f g times res r : tk_positive f times res = Ok r -> (f <= g)%nat -> tk_positive g times res = Ok r.
Proof.
  intros H Hg. unfold tk_positive in *. do 2 (apply bind_ok in H; let x := fresh in destruct H as (x & -> & H); cbn [bind]). destruct (_ =? _)%nat; auto. do 4 (apply bind_ok in H; let x := fresh in destruct H as (x & -> & H); cbn [bind]). apply bind_ok in H. destruct H as (j & E2 & H). rewrite (grow_more f g _ _ _ E2 Hg). cbn [bind]. exact H.
Qed.
Lemma recursive_more {lie} (is_zero : lie -> bool) none times res ctx f : forall g m di r, tk_recursive is_zero none f times res ctx m di = Ok r -> (f <= g)%nat -> tk_recursive is_zero none g times res ctx m di = Ok r.
Proof.
  induction f as [|f IH]; intros g m di r H Hg; [discriminate|]. destruct g as [|g]; [lia|]. cbn [tk_recursive] in *. apply bind_ok in H. destruct H as (p & E & H). rewrite (smallest_more _ (Datatypes.S g) _ _ _ _ E) by lia. cbn [bind].
  destruct p as [i|]; auto. apply bind_ok in H. destruct H as ([it m1] & -> & H). cbn [bind]. destruct (negb (is_zero it)); auto. destruct (di_n i =? res); auto.
  do 2 (apply bind_ok in H; let x := fresh in destruct H as (x & -> & H); cbn [bind]). apply bind_ok in H. destruct H as ([a m2] & Ea & H). rewrite (IH g _ _ _ Ea) by lia. cbn [bind]. apply bind_ok in H. destruct H as ([b m3] & Eb & H). rewrite (IH g _ _ _ Eb) by lia. cbn [bind]. exact H.
Qed.
Lemma make_more {lie} (is_zero is_null : lie -> bool) none cbh2 f g ctx res rows s : tk_make is_zero is_null none cbh2 f ctx res rows = Ok s -> (f <= g)%nat -> tk_make is_zero is_null none cbh2 g ctx res rows = Ok s.
Proof.
  intros H Hg. unfold tk_make in *. apply bind_ok in H. destruct H as ([t m] & -> & H). cbn [bind]. unfold tk_build in *. apply bind_ok in H. destruct H as (ng & En & H). rewrite (negative_more f g _ _ _ En Hg). cbn [bind].
  apply bind_ok in H. destruct H as (m1 & E1 & H). assert (X : match ng with Some i => let! (_, m0) := tk_recursive is_zero none g t res ctx m i in Ok m0 | None => Ok m end = Ok m1).
  { destruct ng as [i|]; auto. apply bind_ok in E1. destruct E1 as ([v m0] & E & E1). rewrite (recursive_more is_zero none t res ctx f g _ _ _ E Hg). exact E1. }
  rewrite X. cbn [bind]. apply bind_ok in H. destruct H as (po & Ep & H). rewrite (positive_more f g _ _ _ Ep Hg). cbn [bind].
  apply bind_ok in H. destruct H as (m2 & E2 & H). assert (X2 : match po with Some i => let! (_, m0) := tk_recursive is_zero none g t res ctx m1 i in Ok m0 | None => Ok m1 end = Ok m2).
  { destruct po as [i|]; auto. apply bind_ok in E2. destruct E2 as ([v m0] & E & E2). rewrite (recursive_more is_zero none t res ctx f g _ _ _ E Hg). exact E2. }
  rewrite X2. exact H.
Qed.

Lemma at_more {lie} (is_zero : lie -> bool) f g s support i tol ctx x : tk_log_signature_at is_zero f s support i tol ctx = Ok x -> (f <= g)%nat -> tk_log_signature_at is_zero g s support i tol ctx = Ok x.
Proof.
  intros H Hg. unfold tk_log_signature_at in *. destruct (refine_interval _ _) as [[q r]|]; auto. unfold tk_stream_impl in *. apply bind_ok in H. destruct H as (l & El & H). rewrite (tdi_more f g _ _ _ _ _ El Hg). cbn [bind].
  apply bind_ok in H. destruct H as (xs & Ex & H). assert (X : tk_pieces is_zero g s ctx l = Ok xs); [|rewrite X; exact H]. clear -Ex Hg. revert xs Ex. induction l as [|j l IH]; intros xs H; cbn [tk_pieces] in *; auto.
  apply bind_ok in H. destruct H as (y & Ey & H). apply bind_ok in H. destruct H as (ys & E2 & H). rewrite (IH _ E2). unfold tk_impl in *. apply bind_ok in Ey. destruct Ey as (p & Ep & Ey). rewrite (smallest_more f g _ _ _ _ Ep Hg). cbn [bind]. rewrite Ey. exact H.
Qed.
Lemma default_more {lie} (is_zero : lie -> bool) f g s support i ctx x : tk_log_signature is_zero f s support i ctx = Ok x -> (f <= g)%nat -> tk_log_signature is_zero g s support i ctx = Ok x.
Proof.
  intros H Hg. assert (X := fun r => at_more is_zero f g s support i r ctx x). unfold tk_log_signature_at in X. unfold tk_log_signature in *. destruct (refine_interval _ _) as [[q r]|]; auto.
Qed.
Lemma empty_more {lie} f g (s : ticks lie) inf sup b : tk_empty f s inf sup = Ok b -> (f <= g)%nat -> tk_empty g s inf sup = Ok b.
Proof.
  intros H Hg. unfold tk_empty in *. apply bind_ok in H. destruct H as (l & El & H). rewrite (tdi_more f g _ _ _ _ _ El Hg). cbn [bind]. clear El. induction l as [|i l IH]; auto.
  apply bind_ok in H. destruct H as (p & Ep & H). rewrite (smallest_more f g _ _ _ _ Ep Hg). cbn [bind]. destruct p; auto.
Qed.

Section Top.
  Variable lie : Type.
  Variable is_zero is_null : lie -> bool.
  Variable none : lie.
  Variable cbh2 : lie -> lie -> lie.
  Variable S : sigs lie.
  Variable ok : lie -> Prop.
  Hypothesis H2 : sound2 is_zero is_null none cbh2 S ok.
  Variable ctx0 ctx : actx lie.
  Hypothesis HS0 : sound is_zero S ok ctx0.
  Hypothesis HS : sound is_zero S ok ctx.
  Infix "===" := (sg_eq S) (at level 70).
  Notation made := (constructed is_zero is_null none cbh2 ctx0).

  Lemma made_shape res rows ts s : fits_ticks res rows -> Forall (fun e => ok (snd e)) rows -> filed res rows ts -> made res rows s ->
    exists M, s = mkTicks (times lie res rows) M res /\ complete lie is_zero S ok res ts M.
  Proof.
    intros Hf Ho Hfi [F HF]. destruct (make_ok lie is_zero is_null none cbh2 S ok ctx0 HS0 H2 res rows ts Ho Hf Hfi (F + 58)%nat ltac:(lia)) as (M & E & HM).
    rewrite (HF (F + 58)%nat ltac:(lia)) in E. injection E as ->. exists M. auto.
  Qed.
  Lemma tick_constructed res rows : fits_ticks res rows -> Forall (fun e => ok (snd e)) rows -> exists s, made res rows s.
  Proof.
    intros Hf Ho. destruct (filed_exists res rows) as (ts & Hfi).
    (* the answer does not depend on the fuel *)
    assert (X : forall fuel, (58 <= fuel)%nat -> exists M, tk_make is_zero is_null none cbh2 fuel ctx0 res rows = Ok (mkTicks (times lie res rows) M res) /\ complete lie is_zero S ok res ts M) by (intros; apply make_ok with (cbh2 := cbh2); auto).
    destruct (X 58%nat (le_n _)) as (M & E & _). exists (mkTicks (times lie res rows) M res). exists 58%nat. intros fuel Hfu. apply make_more with (1 := E); auto.
  Qed.

  (** Any resolution. *)
  Lemma at_shape res rows ts s support i tol : fits_ticks res rows -> Forall (fun e => ok (snd e)) rows -> filed res rows ts -> made res rows s ->
    (ri_inf support <= ri_sup support)%Q -> (ri_inf i <= ri_sup i)%Q -> fits_query (cut_from support i) (cut_upto support i) tol res ->
    exists x, ok x /\ (tol <= res -> sg_of S x === sg_prod S (within (grid_floor (cut_from support i) tol) (grid_floor (cut_upto support i) tol) ts)) /\
      ((cut_from support i <= cut_upto support i)%Q -> exists pieces outs, end_to_end (grid_floor (cut_from support i) tol) (grid_floor (cut_upto support i) tol) pieces /\ Forall (fun c => snd c <= tol) pieces /\
         Forall2 (tick_gives res ts) pieces outs /\ sg_of S x === sg_prod S (concat outs)) /\
      tick_answer is_zero s support i tol ctx x.
  Proof.
    intros Hf Ho Hfi Hm Hs Hi Hq. destruct (made_shape res rows ts s Hf Ho Hfi Hm) as (M & -> & HM).
    set (s0 := mkStream [] res ctx support). assert (Ef : from s0 i = cut_from support i) by reflexivity. assert (Eu : upto s0 i = cut_upto support i) by reflexivity.
    destruct (refine_spec s0 i Hi Hs) as [(Er & Le)|(q & R & Er & Eq1 & Eq2 & Lt & _)]; rewrite Ef, Eu in *.
    - exists (cx_zero ctx). split; [apply (sd_zero_ok _ _ _ _ HS)|]. split; [|split].
      + intros _. rewrite between_none by (apply grid_mono; auto). apply (sd_zero _ _ _ _ HS).
      + intros Le2. exists [], []. split; [apply Qle_antisym; apply grid_mono; auto|]. split; [constructor|]. split; [constructor|]. apply (sd_zero _ _ _ _ HS).
      + exists 0%nat. intros fuel _. unfold tk_log_signature_at. cbn [tk_res]. fold s0. rewrite Er. reflexivity.
    - destruct (stream_ok_at lie is_zero S ok ctx HS res rows ts Hf Hfi M HM (cut_from support i) (cut_upto support i) tol ltac:(lra) Hq) as (x & ps & outs & A1 & A2 & A3 & A4 & A5 & A6 & A7).
      exists x. split; auto. split; [intros Ht; rewrite <- (A6 Ht); auto|]. split; [intros _; exists ps, outs; auto|].
      exists 31%nat. intros fuel Hfu. unfold tk_log_signature_at. cbn [tk_res]. fold s0. rewrite Er, Eq1, Eq2. apply A7; auto.
  Qed.
  Lemma tick_product res rows ts s support i tol : fits_ticks res rows -> Forall (fun e => ok (snd e)) rows -> filed res rows ts -> made res rows s ->
    (ri_inf support <= ri_sup support)%Q -> (ri_inf i <= ri_sup i)%Q -> fits_query (cut_from support i) (cut_upto support i) tol res -> tol <= res ->
    exists x, ok x /\ sg_of S x === sg_prod S (within (grid_floor (cut_from support i) tol) (grid_floor (cut_upto support i) tol) ts) /\ tick_answer is_zero s support i tol ctx x.
  Proof. intros Hf Ho Hfi Hm Hs Hi Hq Ht. destruct (at_shape res rows ts s support i tol Hf Ho Hfi Hm Hs Hi Hq) as (x & A & B & _ & D). exists x. auto. Qed.
  Lemma tick_in_order res rows s support i tol : fits_ticks res rows -> Forall (fun e => ok (snd e)) rows -> in_time_order rows -> made res rows s ->
    (ri_inf support <= ri_sup support)%Q -> (ri_inf i <= ri_sup i)%Q -> fits_query (cut_from support i) (cut_upto support i) tol res -> tol <= res ->
    exists x, ok x /\ sg_of S x === sg_prod S (within (grid_floor (cut_from support i) tol) (grid_floor (cut_upto support i) tol) rows) /\ tick_answer is_zero s support i tol ctx x.
  Proof. intros Hf Ho Hfi. apply tick_product; auto. apply filed_self; auto. Qed.
  Lemma tick_pieces res rows ts s support i tol : fits_ticks res rows -> Forall (fun e => ok (snd e)) rows -> filed res rows ts -> made res rows s ->
    (ri_inf support <= ri_sup support)%Q -> (ri_inf i <= ri_sup i)%Q -> fits_query (cut_from support i) (cut_upto support i) tol res -> (cut_from support i <= cut_upto support i)%Q ->
    exists x pieces outs, end_to_end (grid_floor (cut_from support i) tol) (grid_floor (cut_upto support i) tol) pieces /\ Forall (fun c => snd c <= tol) pieces /\
      Forall2 (tick_gives res ts) pieces outs /\ ok x /\ sg_of S x === sg_prod S (concat outs) /\ tick_answer is_zero s support i tol ctx x.
  Proof. intros Hf Ho Hfi Hm Hs Hi Hq Hl. destruct (at_shape res rows ts s support i tol Hf Ho Hfi Hm Hs Hi Hq) as (x & A & _ & C & D). destruct (C Hl) as (ps & outs & C1 & C2 & C3 & C4). exists x, ps, outs. repeat (split; auto). Qed.
  Lemma answer_fun s support i tol c x y : tick_answer is_zero s support i tol c x -> tick_answer is_zero s support i tol c y -> x = y.
  Proof. intros [F H] [G K]. specialize (H (F + G)%nat ltac:(lia)). specialize (K (F + G)%nat ltac:(lia)). congruence. Qed.
  Lemma tick_split res (ts : list (Q * lie)) support a b c t1 t2 t3 n : n <= res -> StronglySorted (fun a b => tick_cell res (fst a) <= tick_cell res (fst b)) ts -> (ri_inf support <= ri_sup support)%Q -> (a <= b)%Q -> (b <= c)%Q ->
    let i := mkRI a b t1 in let j := mkRI b c t2 in let k := mkRI a c t3 in
    within (grid_floor (cut_from support k) n) (grid_floor (cut_upto support k) n) ts =
    within (grid_floor (cut_from support i) n) (grid_floor (cut_upto support i) n) ts ++ within (grid_floor (cut_from support j) n) (grid_floor (cut_upto support j) n) ts.
  Proof.
    intros Hn Ha Hs H1 H3 i j k. unfold cut_from, cut_upto. cbn [ri_inf ri_sup i j k]. set (p := ri_inf support) in *. set (q := ri_sup support) in *.
    destruct (later_ge a p) as (A1 & A2 & A3). destruct (later_ge b p) as (B1 & B2 & B3). destruct (earlier_le b q) as (C1 & C2 & C3). destruct (earlier_le c q) as (D1 & D2 & D3).
    destruct (Qlt_le_dec b p) as [X|X].
    - rewrite (between_none lie (grid_floor (later a p) n) (grid_floor (earlier b q) n)) by (apply grid_mono; lra). cbn [app]. rewrite (grid_eq (later a p) (later b p)); auto. destruct A3 as [X3|X3], B3 as [Y3|Y3]; rewrite X3, Y3 in *; lra.
    - destruct (Qlt_le_dec q b) as [Y|Y].
      + rewrite (between_none lie (grid_floor (later b p) n) (grid_floor (earlier c q) n)) by (apply grid_mono; lra). rewrite app_nil_r. rewrite (grid_eq (earlier b q) (earlier c q)); auto. destruct C3 as [X3|X3], D3 as [Y3|Y3]; rewrite X3, Y3 in *; lra.
      + rewrite (grid_eq (earlier b q) b) by (destruct C3 as [X3|X3]; rewrite X3 in *; lra). rewrite (grid_eq (later b p) b) by (destruct B3 as [X3|X3]; rewrite X3 in *; lra).
        assert (L1 : (grid_floor (later a p) n <= grid_floor b n)%Q) by (apply grid_mono; destruct A3 as [X3|X3]; rewrite X3 in *; lra). assert (L2 : (grid_floor b n <= grid_floor (earlier c q) n)%Q) by (apply grid_mono; destruct D3 as [X3|X3]; rewrite X3 in *; lra).
        unfold grid_floor in *. rewrite dy_same_le in L1, L2. apply (within_join res); auto.
  Qed.
  Lemma tick_chen res rows s support a b c t1 t2 t3 tol x y z : fits_ticks res rows -> Forall (fun e => ok (snd e)) rows -> made res rows s ->
    (ri_inf support <= ri_sup support)%Q -> (a <= b)%Q -> (b <= c)%Q -> tol <= res ->
    (forall i, In i [mkRI a b t1; mkRI b c t2; mkRI a c t3] -> fits_query (cut_from support i) (cut_upto support i) tol res) ->
    tick_answer is_zero s support (mkRI a b t1) tol ctx x -> tick_answer is_zero s support (mkRI b c t2) tol ctx y -> tick_answer is_zero s support (mkRI a c t3) tol ctx z ->
    sg_of S z === sg_mul S (sg_of S x) (sg_of S y).
  Proof.
    intros Hf Ho Hm Hs H1 H3 Ht Hq Ax Ay Az. destruct (filed_exists res rows) as (ts & Hfi).
    destruct (tick_product res rows ts s support (mkRI a b t1) tol) as (x' & _ & Px & Ax'); auto; [apply Hq; cbn; auto|]. rewrite <- (answer_fun _ _ _ _ _ _ _ Ax Ax') in Px.
    destruct (tick_product res rows ts s support (mkRI b c t2) tol) as (y' & _ & Py & Ay'); auto; [apply Hq; cbn; auto|]. rewrite <- (answer_fun _ _ _ _ _ _ _ Ay Ay') in Py.
    destruct (tick_product res rows ts s support (mkRI a c t3) tol) as (z' & _ & Pz & Az'); auto; [cbn; lra|apply Hq; cbn; auto|]. rewrite <- (answer_fun _ _ _ _ _ _ _ Az Az') in Pz.
    rewrite (tick_split res ts support a b c t1 t2 t3 tol Ht (proj1 Hfi) Hs H1 H3) in Pz.
    eapply (sd_trans _ _ _ _ HS); [exact Pz|]. eapply (sd_trans _ _ _ _ HS); [apply (prod_app lie is_zero S ok ctx HS)|]. apply (sd_mul _ _ _ _ HS); apply (sd_sym _ _ _ _ HS); auto.
  Qed.
  (** Without a resolution. *)
  Lemma tick_default res rows s support i : fits_ticks res rows -> Forall (fun e => ok (snd e)) rows -> made res rows s ->
    (ri_inf support <= ri_sup support)%Q -> (ri_inf i <= ri_sup i)%Q -> (cut_from support i < cut_upto support i)%Q ->
    exists tol, default_resolution (mkStream [] res ctx support) i tol /\ forall x, tick_answer_default is_zero s support i ctx x <-> tick_answer is_zero s support i tol ctx x.
  Proof.
    intros Hf Ho Hm Hs Hi Hlt. destruct (filed_exists res rows) as (ts & Hfi). destruct (made_shape res rows ts s Hf Ho Hfi Hm) as (M & -> & HM).
    set (s0 := mkStream [] res ctx support). destruct (refine_spec s0 i Hi Hs) as [(Er & Le)|(q & R & Er & Eq1 & Eq2 & Lt & D)].
    - exfalso. change (from s0 i) with (cut_from support i) in Le. change (upto s0 i) with (cut_upto support i) in Le. lra.
    - exists R. split; auto. intros x. unfold tick_answer_default, tick_answer, tk_log_signature, tk_log_signature_at. cbn [tk_res]. fold s0. rewrite Er. reflexivity.
  Qed.
  Lemma tick_empty_iff res rows s inf sup : fits_ticks res rows -> Forall (fun e => ok (snd e)) rows -> made res rows s ->
    (inf <= sup)%Q -> fits_query inf sup res res ->
    tick_empty s inf sup (match within (grid_floor inf res) (grid_floor sup res) rows with [] => true | _ => false end).
  Proof.
    intros Hf Ho Hm Hle Hq. destruct (filed_exists res rows) as (ts & Hfi). destruct (made_shape res rows ts s Hf Ho Hfi Hm) as (M & -> & HM).
    assert (E : match within (grid_floor inf res) (grid_floor sup res) rows with [] => true | _ => false end = match within (grid_floor inf res) (grid_floor sup res) ts with [] => true | _ => false end).
    { assert (X : forall l l' : list (Q * lie), (forall e, In e l -> In e l') -> within (grid_floor inf res) (grid_floor sup res) l' = [] -> within (grid_floor inf res) (grid_floor sup res) l = []).
      { intros l l' Hl E. unfold within in *. apply map_eq_nil in E. rewrite filter_none; auto. intros e He. apply not_true_iff_false. intros Y. assert (Z0 : In e (filter (fun e0 => Qle_bool (grid_floor inf res) (fst e0) && negb (Qle_bool (grid_floor sup res) (fst e0))) l')) by (apply filter_In; split; auto). rewrite E in Z0. destruct Z0. }
      assert (Hin := filed_in res rows ts Hfi). destruct (within _ _ rows) eqn:E1, (within _ _ ts) eqn:E2; auto.
      - rewrite (X ts rows) in E2; [discriminate| |auto]. intros e He. apply Hin; auto.
      - rewrite (X rows ts) in E1; [discriminate| |auto]. intros e He. apply Hin; auto. }
    rewrite E. exists 31%nat. intros fuel Hfu. apply empty_ok with (is_zero := is_zero) (S := S) (ok := ok) (ctx := ctx); auto.
  Qed.
End Top.

(** The binary cbh of a context that computes it as the one of a list. *)
Lemma pair_sound2 {lie} (is_zero is_null : lie -> bool) none S ok ctx : sound is_zero S ok ctx -> is_null none = true -> (forall x, is_null x = true -> is_zero x = true) ->
  sound2 is_zero is_null none (fun a b => cx_cbh ctx [a; b]) S ok.
Proof.
  intros HS Hn Hz. constructor; auto.
  - intros a b Ha Hb. apply (sd_cbh_ok _ _ _ _ HS). auto.
  - intros a b Ha Hb. eapply (sd_trans _ _ _ _ HS); [apply (sd_cbh _ _ _ _ HS); auto|]. cbn [sg_prod fold_right]. apply (sd_mul _ _ _ _ HS); [apply (sd_refl _ _ _ _ HS)|apply (sd_one_r _ _ _ _ HS)].
Qed.
