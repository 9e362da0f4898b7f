(** The word in which scalars and scalar arrays keep their type:
    scalars/include/roughpy/scalars/packed_scalar_type_ptr.h, type codes and descriptions of
    platform/include/roughpy/platform/devices/core.h:214-258.  64-bit pointers, little-endian. *)
From Coq Require Export NArith Bool List.
Import ListNotations.
Open Scope N_scope.

(** core.h:252-258.  One byte each. *)
Record type_info := mkInfo { ti_code : N; ti_bytes : N; ti_alignment : N; ti_lanes : N }.
(** core.h:214-238 *)
Definition c_int := 0. Definition c_uint := 1. Definition c_float := 2. Definition c_opaque := 3.
Definition c_bfloat := 4. Definition c_complex := 5. Definition c_bool := 6. Definition c_rational := 7.
Definition c_ap_int := 8. Definition c_ap_uint := 9. Definition c_ap_float := 10. Definition c_ap_complex := 13.
Definition c_ap_rational := 15. Definition c_ap_rational_poly := 16.
Definition type_codes := [c_int; c_uint; c_float; c_opaque; c_bfloat; c_complex; c_bool; c_rational; c_ap_int; c_ap_uint; c_ap_float; c_ap_complex; c_ap_rational; c_ap_rational_poly].

(** bit_cast<uint32_t>(info) and back *)
Definition info_bits (i : type_info) : N := ti_code i + 2 ^ 8 * (ti_bytes i + 2 ^ 8 * (ti_alignment i + 2 ^ 8 * ti_lanes i)).
Definition bits_info (n : N) : type_info := mkInfo (n mod 2 ^ 8) (n / 2 ^ 8 mod 2 ^ 8) (n / 2 ^ 16 mod 2 ^ 8) (n / 2 ^ 24 mod 2 ^ 8).

(** packed_scalar_type_ptr.h:57-84; min_scalar_type_alignment is 16 (scalars_fwd.h:114) *)
Definition non_pointer_bits : N := N.log2 16.
Definition max_enum_bits : N := non_pointer_bits - 1.
Definition enum_mask : N := N.shiftl 1 max_enum_bits - 1.
Definition mode_mask : N := N.shiftl 1 max_enum_bits.
Definition pointer_mask : N := N.lxor (N.ones 64) (N.lor mode_mask enum_mask).
Definition type_info_mask : N := N.shiftl (N.shiftl 1 32 - 1) non_pointer_bits.

(** lines 89-93: from a type object (its address) *)
Definition of_type (p : N) (e : N) : N := N.lor p e.
(** lines 95-99: from a type description; static_cast to 64 bits loses nothing *)
Definition of_info (i : type_info) (e : N) : N := N.lor (N.lor (N.shiftl (info_bits i) max_enum_bits) mode_mask) (N.land e enum_mask).
(** lines 101-106 *)
Definition is_pointer (m : N) : bool := N.land m mode_mask =? 0.
Definition is_null (m : N) : bool := m =? 0.
(** lines 108-113 *)
Definition get_pointer (m : N) : N := N.land m pointer_mask.
(** lines 115-118 *)
Definition get_enumeration (m : N) : N := N.land m enum_mask.
(** lines 120-125 *)
Definition get_type_info (m : N) : type_info := bits_info (N.shiftr (N.land m type_info_mask) max_enum_bits mod 2 ^ 32).
(** lines 148-152 *)
Definition update_enumeration (m e : N) : N := N.lor (N.land m (N.lor pointer_mask mode_mask)) (N.land e enum_mask).
(** lines 154-157 *)
Definition same_word (a b : N) : bool := a =? b.
(** lines 161-168 [type_info_from]; scalar.cpp:456-462, scalar_array.cpp:251-255: the type
    behind a word, asking the type object where there is one. *)
Definition type_info_from (type_of : N -> type_info) (m : N) : type_info :=
  if is_pointer m then type_of (get_pointer m) else get_type_info m.
