(** The Hall set size helper and the default sizes of a context. *)
From Verif Require Export Mem.
Open Scope Z_scope.

(** 64-bit unsigned arithmetic ([dimn_t]). *)
Definition u64 (z : Z) : Z := z mod 2 ^ 64.

(** algebra/src/hall_set_size.h:52-57: the values the vector [m_mobius] starts with *)
Definition mobius_init : list Z :=
  [0;
   1; -1; -1; 0; -1; 1;  -1; 0;  0;  1; -1; 0;  -1; 1;  1; 0; -1;
   0; -1; 0;  1; 1;  -1; 0;  0;  1;  0; 0;  -1; -1; -1; 0; 1; 1;
   1; 0;  -1; 1; 1;  0;  -1; -1; -1; 0; 0;  1;  -1; 0;  0; 0].
Definition init_buf : buf Z := mkbuf (Z.of_nat (length mobius_init)) (fun i => nth (Z.to_nat i) mobius_init 0).

(** hall_set_size.cpp:43-55: a sieve on [tmp]; the inner loop runs over [m = i * j < bound] *)
Definition sieve (bound : Z) : outcome (buf bool) :=
  let! tmp := bset (mkbuf bound (fun _ => true)) 0 false in
  for_ (zseq 2 (Z.to_nat (bound - 2))) tmp (fun i tmp =>
    for_ (zseq 2 (Z.to_nat ((bound - 1) / i - 1))) tmp (fun j tmp =>
      let! m := i32 (i * j) in bset tmp m false)).
(** lines 56-60 *)
Definition primes_of (bound : Z) (tmp : buf bool) : outcome (list Z) :=
  for_ (zseq 2 (Z.to_nat (bound - 2))) [] (fun i primes =>
    let! b := bget tmp i in Ok (if b then primes ++ [i] else primes)).
(** lines 73-76 and 78-80: [m] is computed once, only [i] is advanced *)
Fixpoint mark (f : Z -> outcome Z) (fuel : nat) (i m depth : Z) (mob : buf Z) : outcome (buf Z) :=
  if m <=? depth then
    match fuel with
    | O => NoFuel
    | S fuel =>
        let! x := bget mob m in
        let! x := f x in
        let! mob := bset mob m x in
        let! i := i32 (i + 1) in
        mark f fuel i m depth mob
    end
  else Ok mob.
(** lines 39-91 [HallSetSizeHelper]: the resulting [m_mobius]; [depth] is an [int] compared after
    conversion to an unsigned type *)
Definition helper_construct (fuel : nat) (depth : Z) : outcome (buf Z) :=
  if u64 depth >? blen init_buf then
    let bound := Z.quot depth 2 in
    if bound <? 0 then Throw else
    let! tmp := sieve bound in
    let! primes := primes_of bound tmp in
    let old_size := blen init_buf in
    let! n := i32 (depth + 1) in
    let mob := mkbuf n (fun k => if k <? old_size then bat init_buf k else 1) in
    let! mob := for_ primes mob (fun prime mob =>
      let i := old_size / prime + 1 in
      let! m := i32 (i * prime) in
      let! mob := mark (fun x => i32 (x * - prime)) fuel i m depth mob in
      let! p2 := i32 (prime * prime) in
      let i := old_size / p2 + 1 in
      let! m := i32 (i * p2) in
      mark (fun _ => Ok 0) fuel i m depth mob) in
    for_ (zseq (old_size + 1) (Z.to_nat (depth - old_size))) mob (fun i mob =>
      let! x := bget mob i in
      let! x := if negb (Z.abs x =? i) then i32 (- x) else Ok x in
      bset mob i (Z.sgn x))
  else Ok init_buf.

(** lines 98-103 [power], exponent at least 1 *)
Fixpoint power (fuel : nat) (base exp : Z) : outcome Z :=
  match fuel with
  | O => NoFuel
  | S fuel =>
      if exp =? 1 then Ok (u64 base) else
      let! p := power fuel base (exp / 2) in
      let! q := power fuel base (exp / 2) in
      Ok (u64 (u64 (u64 (if exp mod 2 =? 1 then base else 1) * p) * q))
  end.
(** lines 105-121 [operator()]; the debug assertion is left out *)
Definition helper_call (width : Z) (mob : buf Z) (k : Z) : outcome Z :=
  let! result := for_ (zseq 1 (Z.to_nat k)) 0 (fun i result =>
    if k mod i =? 0 then
      let comp := k / (k / i) in
      let! mu := bget mob (k / i) in
      let! p := power (Z.to_nat comp) width comp in
      Ok (u64 (result + u64 (u64 mu * p)))
    else Ok result) in
  if k =? 0 then UB else Ok (result / u64 k).

(** algebra/src/context.cpp:91-126 [ContextBase::ContextBase] without given sizes: the arrays
    [tensor_sizes] and [lie_sizes] *)
Record sizes := mkSizes { z_depth : Z; z_lie : buf Z; z_tensor : buf Z }.
Definition new_array (n : Z) : outcome (buf Z) := if n <? 0 then Throw else Ok (mkbuf n (fun _ => 0)).
Definition context_base (fuel : nat) (width depth : Z) : outcome sizes :=
  let! n := i32 (1 + depth) in
  let! ts := new_array n in
  let! ts := bset ts 0 1 in
  let! x := i32 (1 + width) in
  let! ts := bset ts 1 (u64 x) in
  let! ts := for_ (zseq 1 (Z.to_nat depth)) ts (fun i ts =>
    let! p := bget ts (i - 1) in bset ts i (u64 (1 + u64 (p * u64 width)))) in
  let! helper := helper_construct fuel depth in
  let! ls := new_array n in
  let! ls := bset ls 0 0 in
  let! ls := bset ls 1 (u64 width) in
  let! ls := for_ (zseq 2 (Z.to_nat (depth - 1))) ls (fun i ls =>
    let! h := helper_call width helper i in
    let! p := bget ls (i - 1) in
    bset ls i (u64 (h * p))) in
  Ok (mkSizes depth ls ts).
(** context.cpp:130-139 *)
Definition clamp (s : sizes) (deg : Z) : Z := if (deg <? 0) || (deg >? z_depth s) then z_depth s else deg.
Definition lie_size (s : sizes) (deg : Z) : outcome Z := bget (z_lie s) (clamp s deg).
Definition tensor_size (s : sizes) (deg : Z) : outcome Z := bget (z_tensor s) (clamp s deg).
