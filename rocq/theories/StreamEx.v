(** Concrete streams and contexts for the stream properties. *)
From Coq Require Import ZifyBool Lqa Qround.
From Verif Require Export StreamLemmas.
From Verif Require Import Outcome.
Open Scope Z_scope.

(** Commutative example: one letter, depth 1; Lie elements are integers. *)
Definition add_ctx : actx Z := mkCtx 1 1 0 (fold_right Z.add 0).
Definition add_sigs : sigs Z := mkSigs Z Z eq Z.add 0 (fun x => x).
Lemma add_sound : sound (Z.eqb 0) add_sigs (fun _ => True) add_ctx.
Proof. constructor; cbn; auto; intros; subst; try lia. destruct x; congruence. Qed.

(** Noncommutative example: two letters, depth 2.  (a, b, c) is a x + b y + c/2 [x,y]; the
    depth 1 context forgets c. *)
Definition heis : Type := (Z * Z * Z)%type.
Definition heis_mul (p q : heis) : heis := let '(a, b, c) := p in let '(a', b', c') := q in (a + a', b + b', c + c' + a * b' - a' * b).
Definition heis_is_zero (p : heis) : bool := let '(a, b, c) := p in (a =? 0) && (b =? 0) && (c =? 0).
Definition heis2 : actx heis := mkCtx 2 2 (0, 0, 0) (fold_right heis_mul (0, 0, 0)).
Definition heis1 : actx heis := mkCtx 2 1 (0, 0, 0) (fun l => let '(a, b, _) := fold_right heis_mul (0, 0, 0) l in (a, b, 0)).
Definition heis_sigs : sigs heis := mkSigs heis heis eq heis_mul (0, 0, 0) (fun x => x).
Lemma heis2_sound : sound heis_is_zero heis_sigs (fun _ => True) heis2.
Proof.
  constructor; cbn [sg_t sg_eq sg_mul sg_one sg_of heis_sigs cx_zero heis2 cx_cbh]; auto; intros; subst; auto; try (destruct a as [[a1 a2] a3]; try destruct b as [[b1 b2] b3]; try destruct c as [[c1 c2] c3]; cbn; apply pair_equal_spec; split; [apply pair_equal_spec; split|]; lia).
  destruct x as [[a b] c]. cbn in *. apply pair_equal_spec; split; [apply pair_equal_spec; split|]; lia.
Qed.

(** Increments at 1/16, 3/16 and 5/8; cells of length 1/4. *)
Definition add_stream : stream Z := mkStream (lis_data [((1#16)%Q, 1); ((3#16)%Q, 2); ((5#8)%Q, 4)]) 2 add_ctx (mkRI 0 1 Clopen).
Lemma add_stream_ok : stream_ok (fun _ => True) add_stream.
Proof. split; [apply lis_data_spec|]. split; [apply Forall_forall; auto|]. unfold Qle; cbn; lia. Qed.
Ltac fits_compute := split; [unfold Qle; cbn; lia|]; split; [lia|]; split; [cbn; lia|]; split; [cbn; lia|]; intros x [->| ->]; vm_compute; split; discriminate.
Lemma add_fits a b tol : In (a, b, tol) [((1#10)%Q, (9#10)%Q, 2)] -> fits_call add_stream add_ctx (QAt (mkRI a b Clopen) tol).
Proof. cbn [In]. intros [[= <- <- <-]|[]]; fits_compute. Qed.
Definition val {A B} (o : outcome (A * B)) : option A := match o with Ok (x, _) => Some x | _ => None end.
Lemma ex_product : stream_ok (fun _ => True) add_stream /\ sound (Z.eqb 0) add_sigs (fun _ => True) add_ctx /\ fits_call add_stream add_ctx (QAt (mkRI (1#10) (9#10) Clopen) 2) /\
  within (grid_floor (1#10) 2) (grid_floor (9#10) 2) (st_data add_stream) = [1; 2; 4] /\
  val (ask (Z.eqb 0) 0 31 add_stream add_ctx [] (QAt (mkRI (1#10) (9#10) Clopen) 2)) = Some 7.
Proof.
  split; [apply add_stream_ok|]. split; [apply add_sound|]. split; [apply add_fits; cbn; tauto|]. split; vm_compute; reflexivity.
Qed.

(** Chen's identity and cache use across contexts. *)
Lemma chen_fails_finer : exists s ctx S, stream_ok (fun _ => True) s /\ sound (Z.eqb 0) S (fun _ => True) ctx /\
  (forall a b, In (a, b) [(0, 1#8); (1#8, 1#4); (0, 1#4)]%Q -> fits_call s ctx (QAt (mkRI a b Clopen) 3)) /\
  exists x y z, val (ask (Z.eqb 0) 0 31 s ctx [] (QAt (mkRI 0 (1#8) Clopen) 3)) = Some x /\
    val (ask (Z.eqb 0) 0 31 s ctx [] (QAt (mkRI (1#8) (1#4) Clopen) 3)) = Some y /\
    val (ask (Z.eqb 0) 0 31 s ctx [] (QAt (mkRI 0 (1#4) Clopen) 3)) = Some z /\ ~ sg_eq S (sg_of S z) (sg_mul S (sg_of S x) (sg_of S y)).
Proof.
  exists (mkStream [((3#16)%Q, 2)] 2 add_ctx (mkRI 0 1 Clopen)), add_ctx, add_sigs. split; [|split; [apply add_sound|split]].
  - split; [repeat constructor|]. split; [apply Forall_forall; auto|]. unfold Qle; cbn; lia.
  - cbn [In]. intros a b [[= <- <-]|[[= <- <-]|[[= <- <-]|[]]]]; fits_compute.
  - exists 0, 0, 2. split; [vm_compute; reflexivity|]. split; [vm_compute; reflexivity|]. split; [vm_compute; reflexivity|]. cbn. lia.
Qed.
(** The stream of resolution 0 with an increment at 1/2, asked for [1/4, 1) without naming
    a resolution. *)
Lemma default_loses : exists s ctx S i, stream_ok (fun _ => True) s /\ sound (Z.eqb 0) S (fun _ => True) ctx /\ fits_call s ctx (QDefault i) /\
  within (ri_inf i) (ri_sup i) (st_data s) <> [] /\
  exists x, val (ask (Z.eqb 0) 0 31 s ctx [] (QDefault i)) = Some x /\ sg_of S x = sg_one S /\
    ~ sg_eq S (sg_of S x) (sg_prod S (within (ri_inf i) (ri_sup i) (st_data s))).
Proof.
  exists (mkStream [((1#2)%Q, 5)] 0 add_ctx (mkRI 0 2 Clopen)), add_ctx, add_sigs, (mkRI (1#4) 1 Clopen). split; [|split; [apply add_sound|split; [|split]]].
  - split; [repeat constructor|]. split; [apply Forall_forall; auto|]. unfold Qle; cbn; lia.
  - split; [unfold Qle; cbn; lia|]. intros tol (r & R0 & R1 & R2 & ->). cbn [st_res]. assert (r = 1).
    { assert (Ef : from (mkStream [((1#2)%Q, 5)] 0 add_ctx (mkRI 0 2 Clopen)) (mkRI (1#4) 1 Clopen) = (1#4)%Q) by reflexivity.
      assert (Eu : upto (mkStream [((1#2)%Q, 5)] 0 add_ctx (mkRI 0 2 Clopen)) (mkRI (1#4) 1 Clopen) = 1%Q) by reflexivity. rewrite Ef, Eu in *.
      destruct R2 as [->|R2]; [unfold Qle in R1; cbn in R1; lia|]. destruct (Z.eq_dec r 0) as [->|N0]; [unfold Qle in R1; cbn in R1; lia|]. destruct (Z_le_gt_dec 2 r) as [G|G]; [|lia]. exfalso.
      assert (X : (Qpower 2 (1 - r) <= 1#2)%Q).
      { assert (E : (Qpower 2 (1 - r) * Qpower 2 (r - 2) == 1#2)%Q) by (rewrite <- DyadicProofs.Qpow2_plus; replace (1 - r + (r - 2)) with (-1) by lia; reflexivity).
        assert (P := DyadicProofs.Qpow2_pos (1 - r)). assert (L : (1 <= Qpower 2 (r - 2))%Q). { rewrite DyadicProofs.Qpow2_Z by lia. assert (Y := DyadicProofs.pow2_pos (r - 2) ltac:(lia)). change 1%Q with (inject_Z 1). rewrite <- Zle_Qle. lia. } nra. }
      lra. }
    subst r. split; [lia|]. split; [cbn; lia|]. split; [cbn; lia|]. intros x [->| ->]; vm_compute; split; discriminate.
  - vm_compute. discriminate.
  - exists 0. split; [vm_compute; reflexivity|]. split; [reflexivity|]. vm_compute. discriminate.
Qed.
(** The same cell asked for first with the depth 1 context and then with the depth 2
    context. *)
Lemma other_context : exists (s : stream heis) i c x1 x2 fresh, stream_ok (fun _ => True) s /\ sound heis_is_zero heis_sigs (fun _ => True) heis2 /\
  fits_call s heis1 (QAt i 2) /\ fits_call s heis2 (QAt i 2) /\
  ask heis_is_zero (0, 0, 0) 31 s heis1 [] (QAt i 2) = Ok (x1, c) /\
  val (ask heis_is_zero (0, 0, 0) 31 s heis2 c (QAt i 2)) = Some x2 /\
  val (ask heis_is_zero (0, 0, 0) 31 s heis2 [] (QAt i 2)) = Some fresh /\ x2 <> fresh.
Proof.
  eexists (mkStream [((1#16)%Q, (1, 0, 0)); ((3#16)%Q, (0, 1, 0))] 2 heis2 (mkRI 0 1 Clopen)), (mkRI 0 (1#4) Clopen), _, _, _, _.
  split; [|split; [apply heis2_sound|split; [|split; [|split; [vm_compute; reflexivity|split; [vm_compute; reflexivity|split; [vm_compute; reflexivity|discriminate]]]]]]].
  - split; [repeat constructor|]. split; [apply Forall_forall; auto|]. unfold Qle; cbn; lia.
  - fits_compute.
  - fits_compute.
Qed.
