(** Examples of keys, and what goes wrong. *)
From Coq Require Import ZifyBool.
From Verif Require Export TkModel TkSpec TkProofs TkTop.
Open Scope Z_scope.

Definition x_ctx (w d : Z) : bool := (1 <=? w) && (w <? 10) && (0 <=? d) && (d <? 10).
Lemma x_fits w d : x_ctx w d = true -> fits w d.
Proof.
  unfold x_ctx. intros H. repeat split; try lia. apply Z.le_trans with (10 ^ 10); [|lia]. apply Z.le_trans with (10 ^ (d + 1)); [apply Z.pow_le_mono_l; lia|apply Z.pow_le_mono_r; lia].
Qed.
Ltac wordt := unfold a_word; repeat (apply Forall_cons; [cbn; lia|]); apply Forall_nil.
Definition x_key : tkey := mkTK 3 4 50.
Lemma x_usual : usual x_key /\ word_of x_key [1; 2; 1; 2].
Proof. split; [|split; [wordt|reflexivity]]. split; [cbn; lia|]. split; [apply x_fits; reflexivity|]. vm_compute. split; congruence. Qed.
(** TensorKey(1, 2, 1, 2, width=3), TensorKey(index=50, width=3, depth=4) *)
Definition x_letters : tkargs := mkArgs [1; 2; 1; 2] None (Some 3) None.
Definition x_index : tkargs := mkArgs [] (Some 50) (Some 3) (Some 4).
Lemma x_construct : construct x_ctx false x_letters = Ok x_key /\ construct x_ctx true x_index = Ok x_key.
Proof. split; reflexivity. Qed.
Lemma x_stands : stands_for false x_letters 3 4 [1; 2; 1; 2] /\ stands_for true x_index 3 4 [1; 2; 1; 2] /\ ~ In 0 (given x_letters).
Proof.
  split; [|split].
  - apply (Sf_letters false x_letters 3 4); auto; try (cbn; lia). wordt.
  - apply (Sf_index x_index 50 3 4); auto; try (cbn; lia). wordt.
  - cbn. lia.
Qed.
Lemma x_others : reverse x_key = Ok (mkTK 3 4 70) /\ to_letters (mkTK 3 4 70) = Ok [2; 1; 2; 1] /\ degree x_key = Ok 4 /\ split_n x_key 1 = Ok (mkTK 3 4 16, mkTK 3 4 2) /\ to_letters (mkTK 3 4 16) = Ok [1; 2; 1].
Proof. repeat split; reflexivity. Qed.

Lemma times_swaps w d : 2 <= w -> 2 <= d -> fits w d -> exists c, times (from_letters w d [1]) (from_letters w d [2]) = Ok c /\ word_of c [2; 1] /\ ~ word_of c [1; 2].
Proof.
  intros Hw Hd F. assert (H1 : a_word w [1]) by (wordt). assert (H2 : a_word w [2]) by (wordt).
  destruct (key_word w d [1] ltac:(lia) F H1 ltac:(cbn; lia)) as (U1 & W1 & _). destruct (key_word w d [2] ltac:(lia) F H2 ltac:(cbn; lia)) as (U2 & W2 & _).
  destruct (times_spec _ _ _ _ U1 U2 W1 W2 eq_refl eq_refl ltac:(cbn; lia)) as (c & E & _ & W & _). exists c. split; [assumption|]. split; [exact W|]. intros W'. pose proof (word_unique _ _ _ W W'). discriminate.
Qed.
Lemma times_deeper : exists a c, usual a /\ word_of a [1] /\ times a a = Ok c /\ word_of c [1; 1] /\ tk_depth c = 1.
Proof.
  exists (mkTK 2 1 1), (mkTK 2 1 3). split; [|split; [split; [wordt|reflexivity]|split; [reflexivity|split; [split; [wordt|reflexivity]|reflexivity]]]].
  split; [cbn; lia|]. split; [apply x_fits; reflexivity|vm_compute; split; congruence].
Qed.
Lemma letter_zero : exists k, construct x_ctx false (mkArgs [1; 0] None (Some 2) (Some 2)) = Ok k /\ word_of k [2].
Proof. exists (mkTK 2 2 2). split; [reflexivity|]. split; [wordt|reflexivity]. Qed.
Lemma index_one context i d : 0 <= i < 2 ^ 64 -> 0 <= d < 2 ^ 31 -> construct context true (mkArgs [] (Some i) (Some 1) (Some d)) = UB.
Proof. intros Hi Hd. unfold construct. cbn [index width depth]. assert (is_deg 1 && is_deg d && (0 <=? i) && (i <? 2 ^ 64) = true) as -> by (unfold is_deg; lia). reflexivity. Qed.
Lemma equal_differ : exists a b c x, usual a /\ usual b /\ usual c /\ tk_equals a b = true /\ times a c = Ok x /\ times b c = Throw.
Proof.
  exists (mkTK 2 2 1), (mkTK 2 3 1), (mkTK 2 2 2). eexists.
  assert (F2 : fits 2 2) by (apply x_fits; reflexivity). assert (F3 : fits 2 3) by (apply x_fits; reflexivity).
  split; [split; [cbn; lia|split; [exact F2|vm_compute; split; congruence]]|]. split; [split; [cbn; lia|split; [exact F3|vm_compute; split; congruence]]|]. split; [split; [cbn; lia|split; [exact F2|vm_compute; split; congruence]]|].
  split; [reflexivity|]. split; reflexivity.
Qed.
