(** Property theorems C55: the adjoint of the shuffle product. *)
From Coq Require Import QArith Qcanon.
From Verif Require Import TensorLemmas3 TensorProofs8.
Open Scope Z_scope.

(** Every word v of the output receives the sum, over the words u of the argument and the ways to split u into two
    subsequences of which the second is v, of the argument at u times the operator at the first; nothing
    else is written. *)
Theorem C55_kernel : forall (R : cring) w, 0 < w -> w <= 32768 -> forall out op arg oo po ao (ob pb ab : buf R),
  vwf w out oo -> vwf w op po -> vwf w arg ao -> fits w out oo ob -> fits w op po pb -> fits w arg ao ab ->
  v_max arg <= v_max out -> v_max arg <= v_max op -> v_max arg < 64 ->
  exists ob', st_adj_mul out op arg ob pb ab = Ok ob' /\ blen ob' = blen ob /\
    (forall v, letters_ok w v -> bat ob' (oo + pos w v) = radd (bat ob (oo + pos w v))
       (sum (seq O (S (Z.to_nat (v_max arg)))) (fun n => sum (words w n) (fun u => rmul (bat ab (ao + pos w u))
          (sum (splits u) (fun p => if is_word (snd p) v then bat pb (po + pos w (fst p)) else r0)))))) /\
    (forall k, (forall v, letters_ok w v -> Z.of_nat (length v) <= v_max arg -> k <> oo + pos w v) -> bat ob' k = bat ob k).
Proof. exact st_adj_mul_ok. Qed.
Print Assumptions C55_kernel.
(** Started on zeros, the kernel is the adjoint of shuffle multiplication: <op * x, arg> = <x, result>. *)
Theorem C55_adjoint : forall (R : cring) w, 0 < w -> w <= 32768 -> forall out op arg oo po ao (ob pb ab : buf R) (x : tens R Z),
  vwf w out oo -> vwf w op po -> vwf w arg ao -> fits w out oo ob -> fits w op po pb -> fits w arg ao ab ->
  v_max arg <= v_max out -> v_max arg <= v_max op -> v_max arg < 64 -> (forall k, bat ob k = r0) ->
  exists ob', st_adj_mul out op arg ob pb ab = Ok ob' /\
    let N := Z.to_nat (v_max arg) in
    pairing w N (shuf (fun u => bat pb (po + pos w u)) x) (fun u => bat ab (ao + pos w u)) = pairing w N x (fun u => bat ob' (oo + pos w u)).
Proof.
  intros R w Hw H16 out op arg oo po ao ob pb ab x H1 H2 H3 H4 H5 H6 H7 H8 H9 Hz.
  destruct (st_adj_mul_ok R w Hw H16 out op arg oo po ao ob pb ab) as (ob' & E & _ & Hv & _); auto.
  exists ob'. split; auto. cbv zeta. rewrite adjs_adjoint. unfold pairing. apply sum_ext. intros n _. apply sum_ext. intros u Hu.
  apply words_In in Hu as [Hu _]. rewrite Hv by auto. rewrite Hz. unfold lcoef. f_equal.
  destruct (rth R) as [A _ _ _ _ _ _ _ _]. now rewrite A.
Qed.
Print Assumptions C55_adjoint.
(** Width 2, depth 2, small letters 0 and 1: op = 1 + 2*a0, arg = 5*a0 + 3*a0a1. *)
Example C55_ex : let v := mkView (Ptr 0) (tensor_basis 2 2) 0 2 in
  match st_adj_mul (R := Zcr) v v v (mkbuf 7 (fun _ => 0)) (mkbuf 7 (fun k => if k =? 0 then 1 else if k =? 1 then 2 else 0))
    (mkbuf 7 (fun k => if k =? 1 then 5 else if k =? 4 then 3 else 0)) with
  | Ok r => map (bat r) [0; 1; 2; 3; 4; 5; 6] = [10; 5; 6; 0; 3; 0; 0]
  | _ => False end.
Proof. vm_compute. reflexivity. Qed.
