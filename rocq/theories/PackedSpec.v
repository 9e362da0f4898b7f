(** What remembering a type means. *)
From Verif Require Export PackedModel.
Import ListNotations.
Open Scope N_scope.

(** A type description: four bytes. *)
Definition described (i : type_info) : Prop := ti_code i < 256 /\ ti_bytes i < 256 /\ ti_alignment i < 256 /\ ti_lanes i < 256.
(** The address of a type object, aligned to 16 bytes. *)
Definition type_object (p : N) : Prop := p mod 16 = 0 /\ p < 2 ^ 64.
(** How a value is stored (ScalarContentType, ScalarArrayStorageModel): below 8. *)
Definition tag (e : N) : Prop := e < 8.
(** Codes of the types whose description is kept. *)
Definition kept_codes : list N := [c_int; c_float; c_bfloat; c_bool; c_ap_int; c_ap_float; c_ap_rational_poly].
Definition with_code (i : type_info) (c : N) : type_info := mkInfo c (ti_bytes i) (ti_alignment i) (ti_lanes i).
