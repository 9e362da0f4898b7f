(** Model of the dynamically constructed streams:
    streams/src/dynamically_constructed_stream.cpp,
    streams/include/roughpy/streams/dynamically_constructed_stream.h,
    streams/src/brownian_stream.cpp, roughpy/src/streams/function_stream.cpp, with the
    parts of streams/src/stream.cpp through which they are asked.

    As in StreamModel.v Lie elements are abstract, parameters are exact rationals, vector
    types are left out and calls run one after another (the code holds a lock).  Only
    clopen streams are modelled (the default of StreamMetadata).  An iterator into the
    tree is the key it points to: a std::map neither moves nor removes nodes.  [None] is
    [m_data_tree.end()].  The debug assertions, which release builds drop, are left out. *)
From Verif Require Export StreamModel.
Open Scope Z_scope.

(** The virtual functions by which the streams differ; [st] is whatever state they keep
    (a random generator).  Python callbacks are taken to return normally. *)
Record rule (lie st : Type) := mkRule {
  ru_root : st -> dint -> lie * st;                        (* make_new_root_increment *)
  ru_neighbour : st -> dint -> lie * st;                   (* make_neighbour_root_increment *)
  ru_children : st -> dint -> dint -> lie -> lie * lie * st (* compute_child_lie_increments *) }.
Arguments mkRule {lie st}. Arguments ru_root {lie st}. Arguments ru_neighbour {lie st}. Arguments ru_children {lie st}.

Section Dyn.
  Variable lie st : Type.
  (** algebra_base_impl.h:351 [is_zero]. *)
  Variable is_zero : lie -> bool.
  (** Context::cbh of two elements, of the stream's own context. *)
  Variable cbh2 : lie -> lie -> lie.
  Variable R : rule lie st.

  (** dynamically_constructed_stream.h:41-90 [DataIncrement]. *)
  Record dnode := mkNode { dn_acc : Z; dn_lie : lie; dn_sib : option dint; dn_par : option dint }.
  (** [m_data_tree], in the order of the map. *)
  Definition tree := cache dnode.

  Definition key_eqb (a b : dint) : bool := (di_k a =? di_k b) && (di_n a =? di_n b) && itype_eqb (di_t a) (di_t b).
  (** Dereferencing an iterator, and writing through it. *)
  Fixpoint dn_at (t : tree) (i : dint) : outcome dnode :=
    match t with [] => UB | (j, v) :: t => if key_eqb j i then Ok v else dn_at t i end.
  Fixpoint dn_set (t : tree) (i : dint) (v : dnode) : outcome tree :=
    match t with
    | [] => UB
    | (j, w) :: t => if key_eqb j i then Ok ((j, v) :: t) else let! t1 := dn_set t i v in Ok ((j, w) :: t1)
    end.
  Definition dn_deref (o : option dint) : outcome dint := match o with Some i => Ok i | None => UB end.
  (** [begin()], and [++] on an iterator. *)
  Definition dn_begin (t : tree) : option dint := match t with [] => None | (j, _) :: _ => Some j end.
  Fixpoint dn_next (t : tree) (i : dint) : outcome (option dint) :=
    match t with [] => UB | (j, _) :: t => if key_eqb j i then Ok (dn_begin t) else dn_next t i end.
  (** [insert]: in the order of the keys; nothing happens if the key is there.  (The red
      black tree compares with some of the keys only; the model with all up to the place.) *)
  Fixpoint dn_insert (t : tree) (i : dint) (v : dnode) : outcome tree :=
    match t with
    | [] => Ok [(i, v)]
    | (j, w) :: t' =>
        let! l := di_lt i j in
        if l then Ok ((i, v) :: t)
        else
          let! g := di_lt j i in
          if g then let! t1 := dn_insert t' i v in Ok ((j, w) :: t1) else Ok t
    end.
  (** dynamically_constructed_stream.h:86-89 [is_leaf] *)
  Definition dn_is_leaf (i : dint) (v : dnode) : bool := di_n i =? dn_acc v.

  (** dynamically_constructed_stream.cpp:96-109 [insert_node]; the node is reached by its
      key afterwards, whether it was inserted or there before. *)
  Definition dn_insert_node (t : tree) (i : dint) (x : lie) (acc : Z) : outcome tree := dn_insert t i (mkNode acc x None None).

  (** lines 225-260 [update_parents] *)
  Fixpoint dn_update_parents (fuel : nat) (t : tree) (cur : dint) : outcome tree :=
    match fuel with
    | O => NoFuel
    | S f =>
        let! root := dn_deref (dn_begin t) in
        if key_eqb cur root then Ok t
        else
          let! c := dn_at t cur in
          let! par := dn_deref (dn_par c) in
          let! sib := dn_deref (dn_sib c) in
          let! p := dn_at t par in
          let! s := dn_at t sib in
          let avail := Z.min (dn_acc c) (dn_acc s) in
          if avail <=? dn_acc p then Ok t
          else
            let! al := aligned cur in
            let x := if al then cbh2 (dn_lie c) (dn_lie s) else cbh2 (dn_lie s) (dn_lie c) in
            let! t := dn_set t par (mkNode avail x (dn_sib p) (dn_par p)) in
            dn_update_parents f t par
    end.
  (** lines 188-223 [update_parent_accuracy]; the iterator it returns is not used. *)
  Definition dn_update_parent (t : tree) (below : dint) : outcome tree :=
    let! c := dn_at t below in
    match dn_par c with
    | None => Ok t
    | Some par =>
        let! sib := dn_deref (dn_sib c) in
        let! p := dn_at t par in
        let! s := dn_at t sib in
        let avail := Z.min (dn_acc c) (dn_acc s) in
        if dn_acc p <? avail then
          let! al := aligned below in
          let x := if al then cbh2 (dn_lie c) (dn_lie s) else cbh2 (dn_lie s) (dn_lie c) in
          dn_set t par (mkNode avail x (dn_sib p) (dn_par p))
        else Ok t
    end.
  (** [it->second.parent(p); it->second.sibling(s)] *)
  Definition dn_link (t : tree) (i : dint) (par sib : dint) : outcome tree :=
    let! v := dn_at t i in dn_set t i (mkNode (dn_acc v) (dn_lie v) (Some sib) (Some par)).

  (** lines 262-300 [insert_children_and_refine] *)
  Definition dn_split (fuel : nat) (g : st) (t : tree) (leaf interval : dint) : outcome (dint * tree * st) :=
    let! lf := shrink_interval_left leaf 1 in
    let! rt := shrink_interval_right leaf in
    let! v := dn_at t leaf in
    let '(x, y, g) := ru_children R g lf rt (dn_lie v) in
    let! t := dn_insert_node t lf x (di_n lf) in
    let! t := dn_insert_node t rt y (di_n rt) in
    let! t := dn_link t lf leaf rt in
    let! t := dn_link t rt leaf lf in
    let! t := dn_update_parents fuel t lf in
    let! b := contains_dyadic lf interval in
    Ok (if b then lf else rt, t, g).

  (** The loops [while (a contains i && !dyadic_equals(a, i)) a = insert_children...]. *)
  Fixpoint dn_down (fuel : nat) (g : st) (t : tree) (leaf interval : dint) : outcome (dint * tree * st) :=
    match fuel with
    | O => NoFuel
    | S f =>
        let! b := contains_dyadic leaf interval in
        if b && negb (dyadic_equals (di_d leaf) (di_d interval)) then
          let! (leaf, t, g) := dn_split fuel g t leaf interval in dn_down f g t leaf interval
        else Ok (leaf, t, g)
    end.
  (** The inner loop of lines 83-91. *)
  Fixpoint dn_sweep (fuel : nat) (g : st) (t : tree) (leaf inc end_ : dint) : outcome (dint * tree * st) :=
    match fuel with
    | O => NoFuel
    | S f =>
        let! b := di_lt inc end_ in
        if b then
          let! (leaf, t, g) := dn_down fuel g t leaf inc in
          let! t := dn_update_parents fuel t leaf in
          let! k := i32 (di_k inc + 1) in
          let! k := i32 (k + 1) in
          dn_sweep f g t leaf (mkDI k (di_n inc) (di_t inc)) end_
        else Ok (leaf, t, g)
    end.
  (** The outer loop of lines 74-92; [cur] is [leaf_above]. *)
  Fixpoint dn_refine_loop (fuel : nat) (g : st) (t : tree) (inc : dint) (desired : Z) (cur stop : option dint) : outcome (tree * st) :=
    match fuel with
    | O => NoFuel
    | S f =>
        match cur with
        | None => match stop with None => Ok (t, g) | Some _ => UB end
        | Some leaf =>
            if match stop with Some e => key_eqb leaf e | None => false end then Ok (t, g)
            else if negb (di_n leaf <? desired) then Ok (t, g)
            else
              let! v := dn_at t leaf in
              if negb (dn_is_leaf leaf v) then let! n := dn_next t leaf in dn_refine_loop f g t inc desired n stop
              else
                let! d := i32 (desired - di_n inc) in
                let! ri := shrink_interval_left inc (Z.to_nat d) in
                let! k := i32 (di_k inc + 1) in
                let! re := shrink_interval_left (mkDI k (di_n inc) (di_t inc)) (Z.to_nat d) in
                let! (leaf, t, g) := dn_sweep fuel g t leaf ri re in
                let! n := dn_next t leaf in
                dn_refine_loop f g t inc desired n stop
        end
    end.
  (** lines 45-94 [refine_accuracy]; [equal_range] of a key that is in the map is the
      node and the next one. *)
  Definition dn_refine (fuel : nat) (g : st) (t : tree) (inc : dint) (desired : Z) : outcome (tree * st) :=
    let! stop := dn_next t inc in
    dn_refine_loop fuel g t inc desired (Some inc) stop.

  (** lines 111-157 [expand_root_until_contains] *)
  Fixpoint dn_expand (fuel : nat) (g : st) (t : tree) (root di : dint) : outcome (dint * tree * st) :=
    match fuel with
    | O => NoFuel
    | S f =>
        let! b := contains_dyadic root di in
        if b then Ok (root, t, g)
        else
          let! new_root := expand_interval root 1 in
          let! al := aligned root in
          let! neighbour := if al then shrink_to_omitted_end new_root else shrink_to_contained_end new_root 1 in
          let (x, g) := ru_neighbour R g neighbour in
          let! t := dn_insert_node t neighbour x (di_n neighbour) in
          let (y, g) := ru_root R g new_root in
          let! t := dn_insert_node t new_root y (di_n root) in
          let! t := dn_update_parent t root in
          let! t := dn_link t root new_root neighbour in
          let! t := dn_link t neighbour new_root root in
          dn_expand f g t new_root di
    end.
  (** lines 335-352: down the tree to the interval or to a leaf that contains it. *)
  Fixpoint dn_walk (fuel : nat) (t : tree) (root di : dint) : outcome dint :=
    match fuel with
    | O => NoFuel
    | S f =>
        let! v := dn_at t root in
        if negb (dyadic_equals (di_d root) (di_d di)) && negb (dn_is_leaf root v) then
          let! n := dn_next t root in
          let! lf := dn_deref n in
          let! lv := dn_at t lf in
          let! b := contains_dyadic lf di in
          if b then dn_walk f t lf di
          else let! rt := dn_deref (dn_sib lv) in dn_walk f t rt di
        else Ok root
    end.
  (** lines 356-358 *)
  Fixpoint dn_grow (fuel : nat) (g : st) (t : tree) (root di : dint) : outcome (dint * tree * st) :=
    match fuel with
    | O => NoFuel
    | S f =>
        if dyadic_equals (di_d root) (di_d di) then Ok (root, t, g)
        else let! (root, t, g) := dn_split fuel g t root di in dn_grow f g t root di
    end.
  (** lines 302-369: [log_signature] of a dyadic interval. *)
  Definition dn_dyadic (fuel : nat) (g : st) (t : tree) (di : dint) (resolution : Z) : outcome (lie * tree * st) :=
    let! found := cache_find t di in
    match found with
    | Some v =>
        if dn_acc v <? resolution then
          let! (t, g) := dn_refine fuel g t di resolution in
          let! v := dn_at t di in Ok (dn_lie v, t, g)
        else Ok (dn_lie v, t, g)
    | None =>
        let! (root, t, g, done) :=
          match dn_begin t with
          | None =>
              let (x, g) := ru_root R g di in
              let! t := dn_insert_node t di x (di_n di) in
              let! v := dn_at t di in
              Ok (di, t, g, dn_acc v >=? resolution)
          | Some root => Ok (root, t, g, false)
          end in
        if done : bool then let! v := dn_at t root in Ok (dn_lie v, t, g)
        else
          let! (root, t, g) := dn_expand fuel g t root di in
          let! root := dn_walk fuel t root di in
          let! (root, t, g) := dn_grow fuel g t root di in
          let! v := dn_at t root in
          if dyadic_equals (di_d root) (di_d di) && (dn_acc v >=? resolution) then Ok (dn_lie v, t, g)
          else
            let! (t, g) := dn_refine fuel g t root resolution in
            let! v := dn_at t root in Ok (dn_lie v, t, g)
    end.

  (** stream.cpp:106-123: the query of the [Stream] around it. *)
  Fixpoint dn_pieces (fuel : nat) (g : st) (t : tree) (resolution : Z) (l : list dint) : outcome (list lie * tree * st) :=
    match l with
    | [] => Ok ([], t, g)
    | i :: l =>
        let! (x, t, g) := dn_dyadic fuel g t i resolution in
        let! (xs, t, g) := dn_pieces fuel g t resolution l in
        Ok (if is_zero x then xs else x :: xs, t, g)
    end.
  Definition dn_stream_impl (fuel : nat) (g : st) (t : tree) (inf sup : Q) (resolution : Z) (ctx : actx lie) : outcome (lie * tree * st) :=
    let! l := to_dyadic_intervals fuel inf sup resolution Clopen in
    let! (xs, t, g) := dn_pieces fuel g t resolution l in
    Ok (cx_cbh ctx xs, t, g).
  (** stream.cpp:137-157: [log_signature(interval, resolution[, ctx])], cut down to the
      support. *)
  Definition dn_log_signature_at (fuel : nat) (g : st) (t : tree) (support query : ri) (resolution : Z) (ctx : actx lie) : outcome (lie * tree * st) :=
    match refine_interval (mkStream (lie := lie) [] 0 ctx support) query with
    | None => Ok (cx_zero ctx, t, g)
    | Some (q, _) => dn_stream_impl fuel g t (ri_inf q) (ri_sup q) resolution ctx
    end.

  (** *** Saving and loading *)
  (** dynamically_constructed_stream.h:177-183 [DataIncrementSafe]; index -1 is [end()]. *)
  Record safe := mkSafe { sf_interval : dint; sf_resolution : Z; sf_content : lie; sf_sib : Z; sf_par : Z }.
  (** [indices[key]]: the position of a key; an unknown key is entered with index 0. *)
  Fixpoint dn_index (t : tree) (i : dint) (p : Z) : outcome (option Z) :=
    match t with [] => Ok None | (j, _) :: t => let! s := same_key j i in if s then Ok (Some p) else dn_index t i (p + 1) end.
  Definition dn_index_of (t : tree) (o : option dint) : outcome Z :=
    match o with None => Ok (-1) | Some i => let! r := dn_index t i 0 in Ok (match r with Some p => p | None => 0 end) end.
  (** lines 205-233 [store_cache].  [todo] is the part of the tree not yet written. *)
  Fixpoint dn_store_from (t todo : tree) : outcome (list safe) :=
    match todo with
    | [] => Ok []
    | (i, v) :: todo =>
        let! p := dn_index_of t (dn_par v) in
        let! s := dn_index_of t (dn_sib v) in
        let! rest := dn_store_from t todo in
        Ok (mkSafe i (dn_acc v) (dn_lie v) s p :: rest)
    end.
  Definition dn_store (t : tree) : outcome (list safe) := dn_store_from t t.
  (** lines 241-245: [m_data_tree[interval]] with accuracy and content assigned; the keys
      of a file are taken to be different, so that each is entered once. *)
  Fixpoint dn_load_nodes (l : list safe) (t : tree) : outcome tree :=
    match l with
    | [] => Ok t
    | e :: l => let! t := dn_insert t (sf_interval e) (mkNode (sf_resolution e) (sf_content e) None None) in dn_load_nodes l t
    end.
  (** lines 247-259; an index past the end is out of bounds. *)
  Definition dn_load_link (l : list safe) (t : tree) (p : Z) : outcome (option dint) :=
    if p =? -1 then Ok None
    else match nth_error l (Z.to_nat p) with
         | None => UB
         | Some e => let! r := cache_find t (sf_interval e) in Ok (match r with Some _ => Some (sf_interval e) | None => None end)
         end.
  Fixpoint dn_load_links (l todo : list safe) (t : tree) : outcome tree :=
    match todo with
    | [] => Ok t
    | e :: todo =>
        let! v := dn_at t (sf_interval e) in
        let! p := dn_load_link l t (sf_par e) in
        let! s := dn_load_link l t (sf_sib e) in
        let! t := dn_set t (sf_interval e) (mkNode (dn_acc v) (dn_lie v) s p) in
        dn_load_links l todo t
    end.
  (** lines 234-260 [load_cache], into a stream without data. *)
  Definition dn_load (l : list safe) : outcome tree :=
    let! t := dn_load_nodes l [] in dn_load_links l l t.
End Dyn.
Arguments mkNode {lie}. Arguments dn_acc {lie}. Arguments dn_lie {lie}. Arguments dn_sib {lie}. Arguments dn_par {lie}.
Arguments dn_at {lie}. Arguments dn_set {lie}. Arguments dn_begin {lie}. Arguments dn_next {lie}. Arguments dn_insert {lie}.
Arguments dn_is_leaf {lie}. Arguments dn_insert_node {lie}. Arguments dn_update_parents {lie}. Arguments dn_update_parent {lie}.
Arguments dn_link {lie}. Arguments dn_split {lie st}. Arguments dn_down {lie st}. Arguments dn_sweep {lie st}. Arguments dn_refine_loop {lie st}.
Arguments dn_refine {lie st}. Arguments dn_expand {lie st}. Arguments dn_walk {lie}. Arguments dn_grow {lie st}. Arguments dn_dyadic {lie st}.
Arguments dn_pieces {lie st}. Arguments dn_stream_impl {lie st}. Arguments dn_log_signature_at {lie st}.
Arguments mkSafe {lie}. Arguments sf_interval {lie}. Arguments sf_resolution {lie}. Arguments sf_content {lie}. Arguments sf_sib {lie}. Arguments sf_par {lie}.
Arguments dn_index {lie}. Arguments dn_index_of {lie}. Arguments dn_store_from {lie}. Arguments dn_store {lie}.
Arguments dn_load_nodes {lie}. Arguments dn_load_link {lie}. Arguments dn_load_links {lie}. Arguments dn_load {lie}.

(** *** The streams *)
(** function_stream.cpp:59-96: streams of a function.  [F a b] is [log_signature_impl] of
    the interval from a to b: for value functions f it is f(b) - f(a) (lines 78-81), for
    increment functions what the function returns (line 75).  The ends of the interval are
    taken in exact arithmetic. *)
Definition di_from (i : dint) : Q := (inject_Z (di_k i) * Qpower 2 (- di_n i))%Q.
Definition di_upto (i : dint) : Q := (inject_Z (di_k i + 1) * Qpower 2 (- di_n i))%Q.
Definition function_rule {lie} (F : Q -> Q -> lie) : rule lie Datatypes.unit :=
  let impl i := F (di_from i) (di_upto i) in
  mkRule (fun g i => (impl i, g)) (fun g i => (impl i, g)) (fun g l r _ => (impl l, impl r, g)).
(** brownian_stream.cpp:40-88.  [gauss g s] draws a Gaussian increment of scale s. *)
Definition brownian_rule {lie st} (half : lie -> lie) (add sub : lie -> lie -> lie) (gauss : st -> Q -> lie * st) : rule lie st :=
  let fresh g i := gauss g (di_upto i - di_from i)%Q in
  mkRule fresh fresh
    (fun g l r v =>
       let mean := half v in
       let (p, g) := gauss g ((1 # 2) * Qpower 2 (di_n l))%Q in
       (add mean p, sub mean p, g)).
