(** The statements about packed type words. *)
From Coq Require Import Lia.
From Verif Require Export PackedProofs.
Open Scope N_scope.

Lemma object_kept : forall p e type_of, type_object p -> tag e -> type_info_from type_of (of_type p e) = type_of p /\ get_enumeration (of_type p e) = e /\ is_pointer (of_type p e) = true /\ get_pointer (of_type p e) = p.
Proof. intros p e f Hp He. unfold tag in He. unfold type_info_from. rewrite of_type_pointer, of_type_get, of_type_enum by assumption. repeat split. Qed.
Lemma description_kept : forall i e type_of, described i -> tag e -> In (ti_code i) kept_codes -> type_info_from type_of (of_info i e) = i /\ get_enumeration (of_info i e) = e /\ is_pointer (of_info i e) = false.
Proof.
  intros i e f Hi He Hc. unfold tag in He. unfold type_info_from. rewrite of_info_pointer, of_info_get, of_info_enum by assumption. repeat split.
  apply clear_id. repeat (destruct Hc as [<-|Hc]; [reflexivity|]). destruct Hc.
Qed.
Lemma description_lost : forall i e type_of, described i -> tag e -> In (ti_code i) type_codes -> ~ In (ti_code i) kept_codes ->
  type_info_from type_of (of_info i e) = with_code i (ti_code i - 1) /\ type_info_from type_of (of_info i e) <> i.
Proof.
  intros i e f Hi He Hc Hk. unfold tag in He. unfold type_info_from. rewrite of_info_pointer, of_info_get by assumption. unfold clear_low, with_code.
  assert (E : 2 * (ti_code i / 2) = ti_code i - 1 /\ ti_code i - 1 <> ti_code i).
  { unfold type_codes in Hc. cbn [In] in Hc. unfold kept_codes in Hk. cbn [In] in Hk.
    repeat (destruct Hc as [Hc|Hc]; [rewrite <- Hc in *; first [split; [reflexivity|discriminate] | exfalso; apply Hk; tauto]|]). destruct Hc. }
  destruct E as [-> E]. split; [reflexivity|]. destruct i as [c b a l]. cbn [ti_code ti_bytes ti_alignment ti_lanes] in *. intro F. injection F as F. exact (E F).
Qed.
Lemma retag : forall p i e e', type_object p -> described i -> tag e -> tag e' ->
  update_enumeration (of_type p e) e' = of_type p e' /\ update_enumeration (of_info i e) e' = of_info i e'.
Proof. intros. split; [apply update_type|apply update_info]; assumption. Qed.
Lemma words_differ : forall p e p' e' i, type_object p -> type_object p' -> tag e -> tag e' -> described i ->
  (same_word (of_type p e) (of_type p' e') = true <-> p = p' /\ e = e') /\ same_word (of_type p e) (of_info i e') = false.
Proof.
  intros p e p' e' i Hp Hp' He He' Hi. unfold tag in *. unfold same_word. split.
  - rewrite N.eqb_eq. split; [apply of_type_inj; assumption|intros [-> ->]; reflexivity].
  - apply N.eqb_neq. apply of_type_info; assumption.
Qed.
Lemma descriptions_differ : forall i e i' e', described i -> described i' -> tag e -> tag e' -> In (ti_code i) kept_codes -> In (ti_code i') kept_codes ->
  (same_word (of_info i e) (of_info i' e') = true <-> i = i' /\ e = e').
Proof.
  intros i e i' e' Hi Hi' He He' Hc Hc'. unfold tag in *. unfold same_word. rewrite N.eqb_eq. rewrite of_info_eq by assumption.
  assert (K : forall j, In (ti_code j) kept_codes -> clear_low j = j).
  { intros j Hj. apply clear_id. repeat (destruct Hj as [<-|Hj]; [reflexivity|]). destruct Hj. }
  rewrite (K i Hc), (K i' Hc'). reflexivity.
Qed.
Lemma empty_words : forall p i e, type_object p -> described i -> tag e -> (is_null (of_type p e) = true <-> p = 0 /\ e = 0) /\ is_null (of_info i e) = false.
Proof. intros. split; [apply null_type|apply null_info]; assumption. Qed.

(** *** Cases *)
Definition t_double := mkInfo c_float 8 8 1.
Definition t_uint8 := mkInfo c_uint 1 1 1.
Definition t_ap_rational := mkInfo c_ap_rational 32 8 1.
Lemma t_described : described t_double /\ described t_uint8 /\ described t_ap_rational /\ type_object 140000 /\ tag 5.
Proof. repeat split; vm_compute; reflexivity. Qed.
Lemma unsigned_lost : get_type_info (of_info t_uint8 1) = mkInfo c_int 1 1 1 /\ same_word (of_info t_uint8 1) (of_info (mkInfo c_int 1 1 1) 1) = true.
Proof. split; vm_compute; reflexivity. Qed.
Lemma rational_lost : ti_code (get_type_info (of_info t_ap_rational 5)) = 14 /\ ~ In 14 type_codes.
Proof. split; [vm_compute; reflexivity|]. unfold type_codes. cbn. intro H. repeat (destruct H as [H|H]; [discriminate|]). destruct H. Qed.
