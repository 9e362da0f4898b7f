(** Property theorems C43: CacheArray. *)
From Verif Require Import CarrSpec CarrProofs.
Open Scope Z_scope.

(** Any history of resizes and accesses below the requested size, for any inline capacity: no
    access is out of bounds; reads give the value last written since the last resize; size()
    is the newest request except that one of at most the inline capacity directly after
    another such one is ignored; destruction leaks one block for every time a request above
    the inline capacity was followed by one that is not, and gives the wrong size to
    deallocate exactly if the newest request exceeds the inline capacity and is not the
    greatest of the row of such requests. *)
Theorem C43_life : forall (T : Type) I, 0 <= I -> forall size (junk : Z -> T) us, 0 <= size -> proper size us -> let rs := requests size us in
  (exists s l, uses I (construct I [] size junk) us = Ok (s, l) /\ answers_ok I size us l) /\
  (last_request rs <= I \/ last_request rs = top I rs -> exists l m, life I size junk us = Ok (l, m) /\ answers_ok I size us l /\ length m = drops I rs) /\
  (last_request rs > I /\ last_request rs <> top I rs -> life I size junk us = UB).
Proof. exact @life_full. Qed.
Print Assumptions C43_life.
(** If no request is smaller than the one before, and all but the first exceed the inline
    capacity: size() is what was requested, nothing is leaked. *)
Theorem C43_growing : forall (T : Type) I size (junk : Z -> T) us, 0 <= I -> 0 <= size -> proper size us -> growing I (requests size us) ->
  shown I (requests size us) = last_request (requests size us) /\ exists l, life I size junk us = Ok (l, []) /\ answers_ok I size us l.
Proof. exact @grows_full. Qed.
Print Assumptions C43_growing.
Example C43_growing_ex : let us := [Write 1 5 (fun _ => 0); Resize 40 (fun _ => 9); Write 39 7 (fun _ => 0); Read 39; Size; Resize 50 (fun _ => 8); Capacity; Size; Read 0] in
  proper 3 us /\ growing 32 (requests 3 us) /\ life 32 3 (fun _ => 1) us = Ok ([Done; Done; Done; Value 7; Count 40; Done; Count 50; Count 50; Value 8], []).
Proof. exact life_ex. Qed.
(** "size() is the requested size" fails within the inline capacity, always. *)
Theorem C43_size_refuted : forall (T : Type) I a b (junk junk' : Z -> T), 0 <= a <= I -> 0 <= b <= I -> life I a junk [Resize b junk'; Size] = Ok ([Done; Count a], []).
Proof. exact @inline_size. Qed.
Print Assumptions C43_size_refuted.
(** "The destructor frees the storage" fails after shrinking into the inline capacity; ... *)
Theorem C43_leak_refuted : forall (T : Type) I a b (junk junk' : Z -> T), 0 <= b <= I -> I < a -> exists l m, life I a junk [Resize b junk'] = Ok (l, m) /\ length m = 1%nat.
Proof. exact @shrink_leaks. Qed.
Print Assumptions C43_leak_refuted.
(** ... and shrinking above it makes the destructor deallocate with the wrong size. *)
Theorem C43_deallocate_refuted : forall (T : Type) I a b (junk junk' : Z -> T), 0 <= I < b -> b < a -> life I a junk [Resize b junk'] = UB.
Proof. exact @shrink_mismatch. Qed.
Print Assumptions C43_deallocate_refuted.
