(** The finite list of words of a given length, and sums over it.  Specification side. *)
From Coq Require Import ZArith Lia List Bool Permutation.
From Verif Require Export Alg Words Series.
Import ListNotations.
Open Scope Z_scope.
Arguments Z.of_nat : simpl never. Arguments Z.to_nat : simpl never.

(** All words of length n over the letters 0..w-1. *)
Fixpoint words (w : Z) (n : nat) : list (list Z) :=
  match n with O => [[]] | S n => flat_map (fun x => map (cons x) (words w n)) (zrange w) end.

Lemma NoDup_append {A} (l1 l2 : list A) : NoDup l1 -> NoDup l2 -> (forall x, In x l1 -> ~ In x l2) -> NoDup (l1 ++ l2).
Proof.
  intros H1 H2 H. induction H1 as [|x l1 Hn H1 IH]; cbn [app]; [auto|]. constructor.
  - intros Hi. apply in_app_or in Hi. destruct Hi as [Hi|Hi]; [auto|]. apply (H x); [left; auto|auto].
  - apply IH. intros y Hy. apply H. right; auto.
Qed.
Lemma NoDup_flat_map_cons {A} (xs : list A) (L : list (list A)) : NoDup xs -> NoDup L ->
  NoDup (flat_map (fun x => map (cons x) L) xs).
Proof.
  intros Hx HL. induction Hx as [|x xs Hn Hx IH]; cbn [flat_map]; [constructor|].
  assert (ND : forall a, NoDup (map (cons a) L)).
  { intros a. apply FinFun.Injective_map_NoDup; auto. intros u v E. injection E. auto. }
  apply NoDup_append; auto. intros u Hu Hu'. apply in_map_iff in Hu. destruct Hu as (v & <- & Hv).
    apply in_flat_map in Hu'. destruct Hu' as (y & Hy & Hu'). apply in_map_iff in Hu'. destruct Hu' as (v' & E & Hv').
    injection E as -> _. auto.
Qed.

Section Words.
  Variable w : Z.
  Lemma words_In n u : In u (words w n) <-> letters_ok w u /\ length u = n.
  Proof.
    revert u. induction n as [|n IH]; intros u; cbn [words].
    - split.
      + intros [<-|[]]. split; [constructor|reflexivity].
      + intros [_ H]. destruct u; [left; auto|discriminate].
    - rewrite in_flat_map. split.
      + intros (x & Hx & Hu). apply in_map_iff in Hu. destruct Hu as (v & <- & Hv). apply IH in Hv. destruct Hv as [Hv Hl].
        apply zrange_In in Hx. split; [constructor; auto|cbn; auto].
      + intros [Hu Hl]. destruct u as [|x u]; [discriminate|]. inversion Hu; subst. exists x. split; [apply zrange_In; auto|].
        apply in_map. apply IH. split; auto.
  Qed.
  Lemma words_NoDup n : NoDup (words w n).
  Proof.
    induction n as [|n IH]; cbn [words]; [constructor; [intros []|constructor]|].
    apply NoDup_flat_map_cons; auto. apply zrange_NoDup.
  Qed.
  Hypothesis Hw : 0 < w.
  Lemma words_idx n : Permutation (zrange (w ^ Z.of_nat n)) (map (idx w) (words w n)).
  Proof.
    apply NoDup_Permutation.
    - apply zrange_NoDup.
    - assert (H := words_NoDup n). assert (I := words_In n). revert H I. generalize (words w n) as L.
      intros L HL HI. assert (G : forall u v, In u L -> In v L -> idx w u = idx w v -> u = v).
      { intros u v Hu Hv E. apply HI in Hu, Hv. destruct Hu, Hv. apply (idx_inj w Hw); auto; congruence. }
      clear HI. induction HL as [|u L Hn HL IH]; cbn [map]; constructor.
      + intros Hi. apply in_map_iff in Hi. destruct Hi as (v & E & Hv). assert (u = v) by (apply G; [left; auto|right; auto|auto]). subst. auto.
      + apply IH. intros; apply G; auto; right; auto.
    - intros i. rewrite zrange_In, in_map_iff. split.
      + intros Hi. exists (unidx w n i). split; [apply idx_unidx; auto|]. apply words_In. split; [apply unidx_ok; auto|apply unidx_length].
      + intros (u & <- & Hu). apply words_In in Hu. destruct Hu as [Hu <-]. apply idx_bound; auto.
  Qed.
End Words.

Section Sums.
  Variable R : cring.
  Add Ring Rring : (rth R).
  Local Open Scope cr_scope.
  Variable w : Z.
  Lemma sum_words_idx n (f : Z -> R) : (0 < w)%Z -> sum (zrange (w ^ Z.of_nat n)) f = sum (words w n) (fun u => f (idx w u)).
  Proof. intros Hw. rewrite (sum_perm R _ _ f (words_idx w Hw n)), sum_map. reflexivity. Qed.
  Lemma sum_words_app m n (F : list Z -> R) :
    sum (words w (m + n)) F = sum (words w m) (fun u => sum (words w n) (fun v => F (u ++ v))).
  Proof.
    revert F. induction m as [|m IH]; intros F; cbn [Nat.add words].
    - cbn [sum app]. change (fun v : list Z => F v) with F. ring.
    - rewrite !sum_flat_map. apply sum_ext. intros x _. rewrite !sum_map. rewrite IH. reflexivity.
  Qed.

  (** Pairing of two tensors: the sum of products of coordinates up to degree N. *)
  Definition pairing (N : nat) (a b : tens R Z) : R :=
    sum (seq O (S N)) (fun n => sum (words w n) (fun u => a u * b u)).
  (** The adjoint of left multiplication by [a], applied to [s], on words up to length N. *)
  Definition adjl (N : nat) (a s : tens R Z) : tens R Z :=
    fun v => sum (seq O (S (N - length v))) (fun m => sum (words w m) (fun u => a u * s (u ++ v))).

  Lemma pairing_comm N a b : pairing N a b = pairing N b a.
  Proof. unfold pairing. apply sum_ext. intros n _. apply sum_ext. intros u _. ring. Qed.
  Lemma pairing_local N a a' b b' : (forall u, letters_ok w u -> (length u <= N)%nat -> a u = a' u) ->
    (forall u, letters_ok w u -> (length u <= N)%nat -> b u = b' u) -> pairing N a b = pairing N a' b'.
  Proof.
    intros Ha Hb. unfold pairing. apply sum_ext. intros n Hn. apply in_seq in Hn. apply sum_ext. intros u Hu.
    apply words_In in Hu. destruct Hu as [Hu Hl]. rewrite Ha, Hb by (auto; lia). reflexivity.
  Qed.

  Theorem adjl_adjoint N a x s : pairing N (conv a x) s = pairing N x (adjl N a s).
  Proof.
    unfold pairing.
    (* left side: sum over total length, then over the cut, then over both parts *)
    transitivity (sum (seq O (S N)) (fun n => sum (seq O (S n)) (fun k =>
       sum (words w k) (fun u => sum (words w (n - k)) (fun v => a u * x v * s (u ++ v)))))).
    - apply sum_ext. intros n _.
      transitivity (sum (words w n) (fun z => sum (seq O (S n)) (fun k => a (firstn k z) * x (skipn k z) * s z))).
      { apply sum_ext. intros z Hz. apply words_In in Hz. destruct Hz as [_ Hl]. unfold conv. rewrite Hl.
        rewrite <- sum_mul_r. reflexivity. }
      rewrite sum_swap. apply sum_ext. intros k Hk. apply in_seq in Hk.
      replace n with (k + (n - k))%nat at 1 by lia. rewrite sum_words_app. apply sum_ext. intros u Hu. apply sum_ext. intros v Hv.
      apply words_In in Hu. destruct Hu as [_ Hu]. rewrite firstn_app, skipn_app, Hu, Nat.sub_diag. cbn [firstn skipn].
      rewrite <- Hu at 1 2. rewrite firstn_all, skipn_all, app_nil_r. reflexivity.
    - symmetry.
      transitivity (sum (seq O (S N)) (fun m => sum (seq O (S (N - m))) (fun k =>
         sum (words w k) (fun u => sum (words w m) (fun v => a u * x v * s (u ++ v)))))).
      + apply sum_ext. intros m _.
        transitivity (sum (words w m) (fun v => sum (seq O (S (N - m))) (fun k => sum (words w k) (fun u => a u * x v * s (u ++ v))))).
        { apply sum_ext. intros v Hv. apply words_In in Hv. destruct Hv as [_ Hv]. unfold adjl. rewrite Hv.
          rewrite <- sum_mul_l. apply sum_ext. intros k _. rewrite <- sum_mul_l. apply sum_ext. intros; ring. }
        rewrite sum_swap. apply sum_ext. intros k _. apply sum_swap.
      + rewrite <- (sum_triangle R N (fun m k => sum (words w k) (fun u => sum (words w m) (fun v => a u * x v * s (u ++ v))))).
        apply sum_ext. intros n _. rewrite sum_seq_rev. apply sum_ext. intros k Hk. apply in_seq in Hk.
        replace (n - (n - k))%nat with k by lia. reflexivity.
  Qed.
End Sums.
Arguments pairing {R}. Arguments adjl {R}.
