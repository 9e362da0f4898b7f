(** C72: scalars and scalar arrays remember their type. *)
From Verif Require Import PackedTop.
Open Scope N_scope.

(** Made with a type object, they answer with that type and with how the value is stored. *)
Theorem C72_object : forall p e type_of, type_object p -> tag e ->
  type_info_from type_of (of_type p e) = type_of p /\ get_enumeration (of_type p e) = e /\ is_pointer (of_type p e) = true /\ get_pointer (of_type p e) = p.
Proof. exact object_kept. Qed.
Print Assumptions C72_object.

(** Made with a description of a signed integer, float, bfloat, bool or polynomial type, they
    answer with that description. *)
Theorem C72_description : forall i e type_of, described i -> tag e -> In (ti_code i) kept_codes ->
  type_info_from type_of (of_info i e) = i /\ get_enumeration (of_info i e) = e /\ is_pointer (of_info i e) = false.
Proof. exact description_kept. Qed.
Print Assumptions C72_description.

(** Changing how the value is stored leaves the type alone. *)
Theorem C72_retag : forall p i e e', type_object p -> described i -> tag e -> tag e' ->
  update_enumeration (of_type p e) e' = of_type p e' /\ update_enumeration (of_info i e) e' = of_info i e'.
Proof. exact retag. Qed.
Print Assumptions C72_retag.

(** Words are equal only for equal types stored the same way. *)
Theorem C72_distinct : forall p e p' e' i, type_object p -> type_object p' -> tag e -> tag e' -> described i ->
  (same_word (of_type p e) (of_type p' e') = true <-> p = p' /\ e = e') /\ same_word (of_type p e) (of_info i e') = false.
Proof. exact words_differ. Qed.
Print Assumptions C72_distinct.

Theorem C72_distinct_descriptions : forall i e i' e', described i -> described i' -> tag e -> tag e' ->
  In (ti_code i) kept_codes -> In (ti_code i') kept_codes -> (same_word (of_info i e) (of_info i' e') = true <-> i = i' /\ e = e').
Proof. exact descriptions_differ. Qed.
Print Assumptions C72_distinct_descriptions.

(** Only a word without type object, description and tag counts as empty. *)
Theorem C72_empty : forall p i e, type_object p -> described i -> tag e ->
  (is_null (of_type p e) = true <-> p = 0 /\ e = 0) /\ is_null (of_info i e) = false.
Proof. exact empty_words. Qed.
Print Assumptions C72_empty.

(** Every other type code is read back as its predecessor: unsigned as signed, complex as
    bfloat, an opaque handle as a float. *)
Theorem C72_description_refuted : forall i e type_of, described i -> tag e -> In (ti_code i) type_codes -> ~ In (ti_code i) kept_codes ->
  type_info_from type_of (of_info i e) = with_code i (ti_code i - 1) /\ type_info_from type_of (of_info i e) <> i.
Proof. exact description_lost. Qed.
Print Assumptions C72_description_refuted.

(** uint8 is int8, and the arbitrary-precision rational is no type at all. *)
Theorem C72_unsigned_refuted : get_type_info (of_info t_uint8 1) = mkInfo c_int 1 1 1 /\ same_word (of_info t_uint8 1) (of_info (mkInfo c_int 1 1 1) 1) = true.
Proof. exact unsigned_lost. Qed.
Print Assumptions C72_unsigned_refuted.

Theorem C72_rational_refuted : ti_code (get_type_info (of_info t_ap_rational 5)) = 14 /\ ~ In 14 type_codes.
Proof. exact rational_lost. Qed.
Print Assumptions C72_rational_refuted.

Example C72_ex : described t_double /\ described t_uint8 /\ described t_ap_rational /\ type_object 140000 /\ tag 5.
Proof. exact t_described. Qed.
Example C72_ex_double : type_info_from (fun _ => t_uint8) (of_info t_double 5) = t_double /\ type_info_from (fun _ => t_uint8) (of_type 140000 5) = t_uint8.
Proof. split; vm_compute; reflexivity. Qed.
