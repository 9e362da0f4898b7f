(** Examples of Lie keys, and what goes wrong. *)
From Coq Require Import ZifyBool.
From Verif Require Export LkModel LkSpec LkProofs.
Open Scope Z_scope.

(** Width 2, depth 4: 1, 2, [1,2], [1,[1,2]], [2,[1,2]], [1,[1,[1,2]]], [2,[1,[1,2]]], [2,[2,[1,2]]]; and
    [[1,2],[1,[1,2]]] of degree 5 *)
Definition x_basis : basis := mkBasis 2 [(1, 2); (1, 3); (2, 3); (1, 4); (2, 4); (2, 5); (3, 4)].
Lemma x_right : right_basis x_basis.
Proof.
  split; [cbn; lia|]. split; [repeat (constructor; [cbn; intuition congruence|]); constructor|].
  intros n x y H. cbn [x_basis b_pairs b_width] in *. do 7 (destruct n as [|n]; [injection H as <- <-; lia|]). destruct n; discriminate.
Qed.
Definition x_tree : tree := B (B (L 1) (L 2)) (B (L 1) (B (L 1) (L 2))).
Definition x_obj : obj := OList [OList [OInt 1; OInt 2]; OList [OInt 1; OList [OInt 1; OInt 2]]].
Lemma x_means : means x_obj x_tree.
Proof. repeat constructor; lia. Qed.
Lemma x_bracket : bracket x_basis 9 x_tree.
Proof.
  apply (B_pair x_basis 6 3 4 _ _ eq_refl); [apply (B_pair x_basis 0 1 2 _ _ eq_refl); constructor; cbn; lia|].
  apply (B_pair x_basis 1 1 3 _ _ eq_refl); [constructor; cbn; lia|]. apply (B_pair x_basis 0 1 2 _ _ eq_refl); constructor; cbn; lia.
Qed.
Definition x_data : list node := [Off 2; Off 3; Let 1; Let 2; Let 1; Off 1; Let 1; Let 2].
Lemma x_make : make_lie_key (Some x_basis) [x_obj] = Ok x_data /\ key_of_basis x_basis 9 = Ok x_data /\ to_string x_data = Ok (show x_tree).
Proof. repeat split; reflexivity. Qed.
Lemma x_index : index_of x_basis x_data = Ok 0 /\ index_of x_basis [Let 1; Let 2] = Ok 1 /\ index_of x_basis [Off 2; Let 2; Let 1; Let 2] = Ok 3.
Proof. repeat split; reflexivity. Qed.
Lemma x_iterate : exists ds, collect 10 (make_iter x_basis 1 (2 ^ 64 - 1)) = Ok ds /\ length ds = 9%nat /\ nth_error ds 8 = Some x_data.
Proof. eexists. split; [vm_compute; reflexivity|]. split; reflexivity. Qed.

(** Brackets that no basis has are accepted: [[0,0]] *)
Lemma not_hall K : exists x t d, make_lie_key (Some K) [x] = Ok d /\ stands d t /\ forall k, ~ bracket K k t.
Proof.
  exists (OList [OInt 0; OInt 0]), (B (L 0) (L 0)). eexists. split; [reflexivity|]. split; [reflexivity|]. intros k H. inversion H as [|n x y l r E Hx Hy]; subst. inversion Hx. lia.
Qed.
(** letters beyond the width too *)
Lemma beyond K a : 0 <= b_width K < a -> a < 2 ^ 16 -> exists d, make_lie_key (Some K) [OList [OInt 1; OInt a]] = Ok d /\ stands d (B (L 1) (L a)) /\ make_lie_key (Some K) [OInt a] = Throw.
Proof.
  intros Ha H16. exists [Let 1; Let a]. cbn [make_lie_key helper parse_single]. unfold cast_let. assert ((0 <=? a) && (a <? 2 ^ 16) = true) as -> by lia. cbn [bind]. split; [reflexivity|]. split; [reflexivity|]. destruct (Z.ltb_spec (b_width K) a); [reflexivity|lia].
Qed.
(** and the letter 0 *)
Lemma zero K : 0 <= b_width K -> exists d, make_lie_key (Some K) [OInt 0] = Ok d /\ stands d (L 0) /\ index_of K d = Ok 0.
Proof. intros H. exists [Let 0]. cbn [make_lie_key]. change (cast_let 0) with (Ok 0). cbn [bind]. destruct (Z.ltb_spec (b_width K) 0); [lia|]. repeat split; reflexivity. Qed.
