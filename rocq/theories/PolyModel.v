(** Model of platform/src/generics/polynomial_type: monomials and polynomials with rational
    coefficients.

    The containers are boost::container::flat_map: a sorted array of pairs, searched by
    bisection.  Inserting and erasing invalidates the end iterator; using an invalidated
    iterator is undefined.  Simplifications: exponents ([deg_t], a 32-bit int) and degrees are
    unbounded integers; coefficients ([mpq_t]) are rationals in lowest terms. *)
From Coq Require Export QArith Qcanon.
From Verif Require Export Outcome Words.
Open Scope Z_scope.

Section FlatMap.
  Context {K V : Type}.
  Variable lt : K -> K -> bool.
  Definition fmap := list (K * V).
  (** boost flat_tree.hpp [priv_lower_bound]: bisection *)
  Fixpoint lower_bound_loop (fuel : nat) (m : fmap) (k : K) (first len : nat) : outcome nat :=
    match fuel with
    | O => NoFuel
    | S fuel =>
        match len with
        | O => Ok first
        | _ =>
            let step := Nat.div2 len in
            match nth_error m (first + step) with
            | None => UB
            | Some x => if lt (fst x) k then lower_bound_loop fuel m k (S (first + step)) (len - S step) else lower_bound_loop fuel m k first step
            end
        end
    end.
  Definition lower_bound (m : fmap) (k : K) : outcome nat := lower_bound_loop (S (length m)) m k 0 (length m).
  (** [find]: the position, None for end() *)
  Definition find (m : fmap) (k : K) : outcome (option nat) :=
    let! i := lower_bound m k in
    match nth_error m i with None => Ok None | Some x => if lt k (fst x) then Ok None else Ok (Some i) end.
  (** [emplace]: inserts unless the key is present *)
  Definition emplace (m : fmap) (k : K) (v : V) : outcome fmap :=
    let! i := lower_bound m k in
    let insert := Ok (firstn i m ++ (k, v) :: skipn i m) in
    match nth_error m i with None => insert | Some x => if lt k (fst x) then insert else Ok m end.
  Definition erase (m : fmap) (i : nat) : fmap := firstn i m ++ skipn (S i) m.
  Definition deref (m : fmap) (i : nat) : outcome (K * V) := match nth_error m i with Some x => Ok x | None => UB end.
  Definition assign (m : fmap) (i : nat) (v : V) : outcome fmap :=
    match nth_error m i with Some x => Ok (firstn i m ++ (fst x, v) :: skipn (S i) m) | None => UB end.
End FlatMap.
Arguments fmap : clear implicits.

(** ** Indeterminates *)
(** indeterminate.h:21-60: the prefix character in the top byte, the index below; a [char] is
    converted to uint64_t with sign extension. *)
Definition indet (prefix index : Z) : Z :=
  Z.lor (Z.shiftl (prefix mod 2 ^ 64) 56 mod 2 ^ 64) (Z.land index (2 ^ 56 - 1)).
(** indeterminate.h:72-88; the byte read back as a [char] *)
Definition indet_prefix (d : Z) : Z := let b := Z.shiftr d 56 mod 256 in if b <? 128 then b else b - 256.
Definition indet_index (d : Z) : Z := Z.land d (2 ^ 56 - 1).

(** ** Monomials *)
(** monomial.h:28-33 *)
Definition mono := fmap Z Z.
(** monomial.cpp:17-25 *)
Definition degree (m : mono) : Z := fold_left (fun acc p => acc + snd p) m 0.
(** monomial.cpp:28-32 *)
Definition exponent (m : mono) (x : Z) : outcome Z :=
  let! it := find Z.ltb m x in match it with None => Ok 0 | Some i => let! e := deref m i in Ok (snd e) end.
(** monomial.cpp:34-43 [operator*=]: [lend] was taken before the loop; [ok] says whether it is
    still valid. *)
Definition mono_mul_inplace (lhs rhs : mono) : outcome mono :=
  let! (r, _) := (fix loop (rhs : mono) (lhs : mono) (ok : bool) : outcome (mono * bool) :=
    match rhs with
    | [] => Ok (lhs, ok)
    | (ind, pow) :: rhs =>
        let! it := find Z.ltb lhs ind in
        if negb ok then UB else
        match it with
        | Some i => let! e := deref lhs i in let! lhs := assign lhs i (snd e + pow) in loop rhs lhs ok
        | None => let! lhs := emplace Z.ltb lhs ind pow in loop rhs lhs false
        end
    end) rhs lhs true in Ok r.
(** Order and equality of std::pair, std::lexicographical_compare, std::equal. *)
Definition pair_lt (a b : Z * Z) : bool := (fst a <? fst b) || (negb (fst b <? fst a) && (snd a <? snd b)).
Definition pair_le (a b : Z * Z) : bool := negb (pair_lt b a).
Definition pair_eq (a b : Z * Z) : bool := (fst a =? fst b) && (snd a =? snd b).
Fixpoint lexicographical_compare (comp : Z * Z -> Z * Z -> bool) (a b : mono) : bool :=
  match a, b with
  | [], [] => false
  | [], _ :: _ => true
  | _ :: _, [] => false
  | x :: a, y :: b => if comp x y then true else if comp y x then false else lexicographical_compare comp a b
  end.
Fixpoint std_equal (a b : mono) : bool :=
  match a, b with
  | [], _ => true
  | x :: a, y :: b => pair_eq x y && std_equal a b
  | _ :: _, [] => false
  end.
(** monomial.cpp:66-71 *)
Definition mono_eqb (a b : mono) : bool := if negb (Nat.eqb (length a) (length b)) then false else std_equal a b.
(** monomial.cpp:73-88 *)
Definition mono_lt (a b : mono) : bool :=
  if degree a <? degree b then true else if degree a =? degree b then lexicographical_compare pair_lt a b else false.
(** monomial.cpp:90-106 *)
Definition mono_le (a b : mono) : bool :=
  if degree a <? degree b then true else if degree a =? degree b then lexicographical_compare pair_le a b else false.
(** monomial.h:118-128 *)
Definition mono_gt (a b : mono) : bool := negb (mono_le a b).
Definition mono_ge (a b : mono) : bool := negb (mono_lt a b).

(** ** Polynomials *)
(** polynomial.h:68-69 *)
Definition poly := fmap mono Qc.
Definition Qc_zero (c : Qc) : bool := if Qc_eq_dec c 0%Qc then true else false.
(** polynomial.cpp:26-42, 44-62: [op] is the coefficient update, [ins] what a new term gets *)
Definition poly_combine_inplace (op : Qc -> Qc -> Qc) (ins : Qc -> Qc) (lhs rhs : poly) : outcome poly :=
  let! (r, _) := (fix loop (rhs : poly) (lhs : poly) (ok : bool) : outcome (poly * bool) :=
    match rhs with
    | [] => Ok (lhs, ok)
    | (rhs_key, rhs_coeff) :: rhs =>
        let! it := find mono_lt lhs rhs_key in
        if negb ok then UB else
        match it with
        | Some i =>
            let! e := deref lhs i in
            let c := op (snd e) rhs_coeff in
            let! lhs := assign lhs i c in
            if Qc_zero c then loop rhs (erase lhs i) false else loop rhs lhs ok
        | None => let! lhs := emplace mono_lt lhs rhs_key (ins rhs_coeff) in loop rhs lhs false
        end
    end) rhs lhs true in Ok r.
Definition poly_add_inplace : poly -> poly -> outcome poly := poly_combine_inplace Qcplus (fun c => c).
Definition poly_sub_inplace : poly -> poly -> outcome poly := poly_combine_inplace Qcminus Qcopp.
(** polynomial.cpp:64-98; here end() is asked for again in every step *)
Definition poly_mul_step (result : poly) (new_key : mono) (new_coeff : Qc) : outcome poly :=
  let! it := find mono_lt result new_key in
  match it with
  | Some i =>
      let! e := deref result i in
      let c := (snd e + new_coeff)%Qc in
      let! result := assign result i c in
      if Qc_zero c then Ok (erase result i) else Ok result
  | None => emplace mono_lt result new_key new_coeff
  end.
Definition poly_mul_inplace (lhs rhs : poly) : outcome poly :=
  (fix outer (lhs : poly) (result : poly) : outcome poly :=
    match lhs with
    | [] => Ok result
    | (lhs_key, lhs_coeff) :: lhs =>
        let! result :=
          (fix inner (rhs : poly) (result : poly) : outcome poly :=
            match rhs with
            | [] => Ok result
            | (rhs_key, rhs_coeff) :: rhs =>
                let! new_key := mono_mul_inplace lhs_key rhs_key in
                let! result := poly_mul_step result new_key (lhs_coeff * rhs_coeff)%Qc in
                inner rhs result
            end) rhs result in
        outer lhs result
    end) lhs [].
(** polynomial.cpp:100-112 *)
Definition poly_div_inplace (lhs : poly) (rhs : Qc) : outcome poly :=
  if Qc_zero rhs then Throw else Ok (map (fun t => (fst t, (snd t / rhs)%Qc)) lhs).
(** polynomial.cpp:113-134 *)
Fixpoint terms_equal (a b : poly) : bool :=
  match a, b with
  | [], [] => true
  | x :: a, y :: b => mono_eqb (fst x) (fst y) && Qc_eq_bool (snd x) (snd y) && terms_equal a b
  | _, _ => false
  end.
Definition poly_cmp_equal (lhs rhs : poly) : bool := if negb (Nat.eqb (length lhs) (length rhs)) then false else terms_equal lhs rhs.
(** polynomial.h:133, polynomial.cpp:19-24, 164-173 *)
Definition poly_cmp_is_zero (p : poly) : bool := match p with [] => true | _ => false end.
Definition poly_degree (p : poly) : Z := fold_left (fun acc t => Z.max acc (degree (fst t))) p 0.
Definition is_constant (p : poly) : bool :=
  match p with [] => true | [(m, _)] => match m with [] => true | _ => false end | _ => false end.
