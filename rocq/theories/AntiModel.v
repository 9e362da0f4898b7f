(** The antipode of free tensors of the vendored library (vendored/libalgebra_lite/free_tensor.h,
    class [antipode_helper]), for dense and sparse storage.  Pointers are offsets into the arrays;
    products of the tile width and the strides are not wrapped (they are bounded by the length of
    the data). *)
From Verif Require Export LalModel.
Open Scope Z_scope.

Section Antipode.
  Variable R : cring.
  Variable req : R -> R -> bool.
  Variable B : tbasis.
  Notation sops := (sparse_ops R req).

  (** tensor_basis.h:114-124 *)
  Definition reverse_idx (degree idx : Z) : outcome Z := reverse_idx_loop (Z.to_nat degree) (tb_width B) idx 0.

  (** lines 553-560: the members that the constructor sets *)
  Record tiling := mkTiling { tl_letters : Z; tl_width : Z; tl_size : Z; tl_permute : list (Z * Z) }.
  (** lines 656-693 (no [LAL_MAX_TILE_LETTERS] is set); [seen] is a set *)
  Definition make_tiling : outcome tiling :=
    let letters := Z.min 3 (tb_depth B / 2) in
    let! width := bget (tb_powers B) letters in
    let size := width * width in
    if size >? 0 then
      let! (permute, _) := for_ (zrange width) ([], []) (fun i s =>
        let! ri := reverse_idx letters i in
        for_ (zrange width) s (fun j s =>
          let '(permute, seen) := s in
          let! rj := reverse_idx letters j in
          let idx := i * width + j in
          let ridx := rj * width + ri in
          if negb (ridx =? idx) && negb (existsb (Z.eqb idx) seen)
          then Ok (permute ++ [(idx, ridx)], ridx :: idx :: seen) else Ok (permute, seen))) in
      Ok (mkTiling letters width size permute)
    else Ok (mkTiling letters width size []).

  Section Helper.
    Variable T : tiling.
    Notation tile_width := (tl_width T).
    (** lines 562-569 *)
    Definition read_tile (src : buf R) (at_ stride : Z) (tile : buf R) : outcome (buf R) :=
      for_ (zrange tile_width) tile (fun i tile => for_ (zrange tile_width) tile (fun j tile =>
        let! x := bget src (at_ + (i * stride + j)) in bset tile (i * tile_width + j) x)).
    (** lines 571-578 *)
    Definition write_tile (dst : buf R) (at_ stride : Z) (tile : buf R) : outcome (buf R) :=
      for_ (zrange tile_width) dst (fun i dst => for_ (zrange tile_width) dst (fun j dst =>
        let! x := bget tile (i * tile_width + j) in bset dst (at_ + (i * stride + j)) x)).
    (** lines 611-621 *)
    Definition permute_tile (tile : buf R) : outcome (buf R) :=
      for_ (tl_permute T) tile (fun p tile =>
        let! x := bget tile (fst p) in
        let! y := bget tile (snd p) in
        let! tile := bset tile (fst p) y in
        bset tile (snd p) x).
    Definition sign_tile (tile : buf R) : outcome (buf R) :=
      for_ (zrange (tl_size T)) tile (fun i tile => let! x := bget tile i in bset tile i (ropp x)).
    (** lines 580-609 *)
    Definition untiled_level (dst : buf R) (op : Z) (src : buf R) (ip : Z) (degree : Z) : outcome (buf R) :=
      if degree =? 0 then let! x := bget src ip in bset dst op x
      else if degree =? 1 then
        for_ (zrange (tb_width B)) dst (fun i dst => let! x := bget src (ip + i) in bset dst (op + i) (ropp x))
      else
        let! p := bget (tb_powers B) degree in
        for_ (zrange p) dst (fun i dst =>
          let! ri := reverse_idx degree i in
          let! x := bget src (ip + i) in
          bset dst (op + ri) (if Z.even degree then x else ropp x)).
    (** lines 623-642 *)
    Definition tiled_level (dst : buf R) (op : Z) (src : buf R) (ip : Z) (degree : Z) (tile : buf R) : outcome (buf R * buf R) :=
      let middle_degree := degree - 2 * tl_letters T in
      let! stride := bget (tb_powers B) (degree - tl_letters T) in
      let! p := bget (tb_powers B) middle_degree in
      let! (dst, tile, _) := for_ (zrange p) (dst, tile, uw_zero (tb_width B) middle_degree) (fun i s =>
        let '(dst, tile, word) := s in
        let ridx := uw_to_reverse_index word in
        let! tile := read_tile src (ip + i * tile_width) stride tile in
        let! tile := if Z.even degree then Ok tile else sign_tile tile in
        let! tile := permute_tile tile in
        let! dst := write_tile dst (op + ridx * tile_width) stride tile in
        Ok (dst, tile, uw_advance word 1)) in
      Ok (dst, tile).
    (** lines 723-755 *)
    Definition handle_dense (arg : dvec R) : outcome (dvec R) :=
      let result := dv_update_degree R (dv_deg arg) (dv_resize_exact R (dv_new R) (blen (dv_data arg)) 0) in
      let max_degree := dv_deg arg in
      let untiled := if tl_letters T >? 0 then Z.min max_degree (2 * tl_letters T - 1) else max_degree in
      let! (dst, op) := for_ (zseq 0 (Z.to_nat (untiled + 1))) (dv_data result, 0) (fun deg s =>
        let '(dst, op) := s in
        let! dst := untiled_level dst op (dv_data arg) op deg in
        let! p := bget (tb_powers B) deg in Ok (dst, op + p)) in
      let! (dst, _, _) := for_ (zseq (untiled + 1) (Z.to_nat (max_degree - untiled))) (dst, op, mkbuf (tl_size T) (fun _ => r0)) (fun deg s =>
        let '(dst, op, tile) := s in
        let! (dst, tile) := tiled_level dst op (dv_data arg) op deg tile in
        let! p := bget (tb_powers B) deg in Ok (dst, op + p, tile)) in
      Ok (mkDV dst (dv_deg result)).
  End Helper.
  (** lines 696-705, 917-921 *)
  Definition dv_antipode (arg : dvec R) : outcome (dvec R) := let! T := make_tiling in handle_dense T arg.
  (** lines 707-721 *)
  Definition sv_antipode (arg : svec R) : outcome (svec R) :=
    let! _ := make_tiling in
    for_ arg [] (fun e result =>
      let! key := reverse_key B (fst e) in
      sv_upd R req result key (fun _ => if Z.even (k_degree key) then snd e else ropp (snd e))).
End Antipode.
