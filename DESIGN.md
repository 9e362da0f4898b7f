# RoughPy formal model: design

Coq 8.16.1, standard library only.  Sources in `rocq/theories`, logical root `Verif`.
86 properties (`properties.jsonl`), each with its theorems in a `Prop_*.v` file that holds
nothing but statements, one-line proofs, concrete examples and `Print Assumptions`.

## Modelling conventions

* A call has an outcome: `Ok v`; `Throw` (a C++/Python exception or an error return);
  `UB` (out-of-bounds access, signed overflow, bad shift, invalid iterator, use of a freed
  object, null dereference); `NoFuel` (the recursion bound of the model ran out, shown not to
  happen or quantified over).  Safety statements say the outcome is `Ok`.
* Machine integers are `Z` with a range check on every arithmetic result whose type is
  signed; unsigned types are reduced modulo their size.  Where a size is bounded by the length
  of an array in memory it is left unbounded, and the comment on the definition says so.
* `param_t` (double) is modelled by exact rationals `Q`.  Comparisons of finite doubles and
  scaling by powers of two are exact, so the model is faithful for functions that only compare
  and scale; rounding of `+`, `/` (midpoints, fractions) is not modelled.
* Scalars of the kernels range over an arbitrary commutative ring (`Alg.cring`); for exp, log
  and everything above them over a ring in which every positive integer is invertible
  (`Alg.qalg`).  Floating-point rounding is not modelled.
* Arrays are bounds-checked (`Mem.buf`: a length and a content); loops run with the same
  index arithmetic as the code.  Contents of uninitialised memory are a universally quantified
  argument (`jd`, `ji`, `jp`, `junk`).
* Stateful code (bracket cache, query cache, builders, containers with iterators, object
  lifetimes, programs over objects) is a transition system; the theorems quantify over every
  history.
* Specifications are words and series (`Words`, `Series`, `Shuffle`, `LieSpec`, `HallSpec`),
  rational point sets (`DyadicSpec`), lists (`CarrSpec`, `SchemaSpec`), finite maps; they do not
  use the model's helpers.
* A full statement that is false of the code is kept as a theorem `..._refuted` with a witness
  (or the whole region where it fails) next to the strongest true statement.

## Per property: what is modelled, how it is proved

| id | code modelled | model file | statement file | method |
|---|---|---|---|---|
| C01-C07 | intervals/src/dyadic.cpp, dyadic_interval.cpp | DyadicModel | Prop_Dyadic | value function into Q; invariants of the rebasing and dissection loops; floor arithmetic |
| C08-C10 | interval.cpp, intersection_and_union.cpp, partition.cpp | IntervalModel | Prop_Interval | point sets; induction over edit histories |
| C11 | segmentation.cpp, dyadic_searcher, scaled_predicate | SegModel | Prop_Interval | search tree evaluated over unbounded integers; the pieces returned are the maximal dyadic pieces inside the set where the predicate holds, merged; predicate is any pure boolean function |
| C12-C23, C25, C26, C48, C49 | roughpy_compute/dense/basic/*.hpp, dense_basic.cpp, roughpy/compute/__init__.py | TensorModel | Prop_Tensor | loop invariants; array denotes a series; algebra of series (PowerSeries, Series, Shuffle) |
| C24 | sparse linear map kernel | SparseModel | Prop_Tensor | loop invariant |
| C27-C29 | lie_basis.c | HallModel, Mobius | Prop_Hall | table = Hall set by induction on degree; Witt's formula by elimination (HallCount) |
| C30, C33 | lie_multiplication_cache.cpp | BracketModel | Prop_Bracket | invariant: every cached entry is the value of a cache-free function; that function computes commutators |
| C31, C32 | lie_basis.c (matrices), dense_basic.cpp (application) | L2tModel | Prop_L2t, Prop_T2l | columns by recursion on the basis; Dynkin-Specht-Wever |
| C34 | sparse_matrix.c | SmhModel | Prop_Smh | abstraction to sorted columns, all histories |
| C35, C52 | fnv1a_hash.c, tensor_basis.c, lie_basis.c (hash, equality) | FnvModel | Prop_Basis | histories of constructing, truncating, hashing |
| C36, C37 | streams: lie_increment_stream, dyadic_caching_layer, stream | StreamModel | Prop_Stream | context abstract; recursion over the dyadic tree; cache invariant over all query histories; each piece's contribution characterised exactly, including data lost or counted elsewhere below the resolution |
| C38, C50 | piecewise_abelian_stream, tensor_valued_stream | PwModel | Prop_Pw | as above |
| C39, C40 | schema.cpp, channels, stream_construction_helper | SchemaModel | Prop_Schema | a schema denotes a list of coordinates; histories of helper calls |
| C41, C42 | platform polynomial_type | PolyModel | Prop_Poly | sorted maps with iterator validity; ring laws |
| C43 | cache_array.hpp | CarrModel | Prop_Carr | state machine against lists |
| C44 | lal keys, tensor_basis, unpacked words | KeyModel | Prop_Key | bit fields; rank of words |
| C45, C54 | lal hall_set | HsModel | Prop_Hs | same rows as the Hall table of C27 |
| C46 | lal maps lifetimes | MapsModel | Prop_Maps | heap histories |
| C47, C53 | hall_set_size, context sizes | HssModel | Prop_Hss | recurrence |
| C51 | context.cpp cbh, to_signature | CbhModel | Prop_Cbh | Friedrichs' theorem (logarithm of group-like is primitive) and C32 |
| C55 | shuffle_tensor_adjoint_mul.hpp | TensorModel | Prop_Adj | loop invariant over bit masks |
| C56-C58 | AlgebraBase, AlgebraImplementation, FreeTensor, LiteContext construction, lal dense/sparse vectors, graded multiplication, exp/log/fmexp | LalModel, LhModel | Prop_Free | programs over objects refine programs over truncated series |
| C59 | antipode of lal free tensors, tiled and untiled | AntiModel | Prop_Free | loop invariants; series antipode |
| C60, C61 | brackets, maps and cbh above | (BracketModel, L2tModel, CbhModel) | Prop_Lie | linear independence of Hall elements by elimination (HallFree, HallIndep); injectivity of exp; exp of commuting elements (ExpComm) |
| C62 | tick streams: construction, queries, `empty` | TickModel (clopen) | Prop_Tick | the recursion leaves an entry for the least dyadic interval around the cells of any dyadic query (TickProofs2 `rec_ok`); cells are filed stably; refuted parts as counterexamples |
| C63 | dynamically constructed streams: sequences of queries, saving | DynModel (`rule` is the source of increments) | Prop_Dyn | invariant of the tree over all operations (DynProofs2 `tinv`): one root, siblings and parents linked, every value right for the path behind it; fuel shown to suffice; refuted parts as counterexamples |
| C64 | shuffle and half-shuffle products of tensor objects; sequences of calls, several contexts | ShufModel (multipliers with their caches, mixed storages, `*` and the two functions) | Prop_Shuf | keys: products list every interleaving with its multiplicity, cache invariant over all calls (ShufKeys); vectors: generic fused multiply over both storages (ShufFma, ShufVec); objects: refinement of words-to-coefficients functions over all programs (ShufObj), laws (ShufLaws) |
| C65 | Lie objects, brackets, conversions; sequences of calls, several contexts | LieObjModel (Lie multiplier, expansions and projections with their caches, both storages, contexts, calls) | Prop_LieObj | keys: brackets of basis elements are commutators, cache invariants (LieTab, LieBasis, LieProd, LieMult, LieMaps), vectors in both storages (LieVec, LieOne, LieTwo, LieThree), objects: refinement of words-to-coefficients functions over all programs (LieObj), laws (LieObjLaws), 32-bit coefficients by simulation (LieSim), contexts exist for all widths and depths (LieObjEx) |
| C66 | signatures, log signatures, Campbell-Baker-Hausdorff products of objects | LieObjModel | Prop_LieObj | as C65; Chen and associativity from truncated exponential and logarithm (Series, Cbh) |
| C67 | derivatives of signatures | LieObjModel | Prop_LieObj | dual numbers (Dual), derivative of the exponential by iterated commutators (Dexp); several intervals characterised and refuted |
| C68 | batched calls of roughpy.compute | BatchModel | Prop_Batch | every kernel run at an offset of a larger block simulates the kernel on its own piece (BatchSim); the odometer visits every index once (BatchProofs); per call and per Python function (BatchTop*); Fortran order and short rows refuted |
| C69 | Python data as coefficients and rows | DataModel, DataSpec | Prop_Data | reading plain data is exactly the inductive relations of DataSpec (DataProofs*); strided copies by loop invariants over the memory image (DataArr*); wrong cases refuted (DataWit) |
| C70 | scalar type of data | DataModel, DataSpec | Prop_Data | invariant of the promotion fold over rows; the type asked for does not influence what is looked at (DataTypes) |
| C71 | LieIncrementStream.from_increments: indices, resolution, support, time, schema width | IndexModel, IndexSpec | Prop_Index | invariants of the index loops; whole-stream queries from C36/C37 and the maximality of the dyadic dissection (DyadicMax, StreamAlign) |
| C72 | the word that holds type and storage kind of scalars and scalar arrays | PackedModel, PackedSpec | Prop_Packed | bit-by-bit equations of the word (PackedProofs); lost codes refuted |
| C73 | the Scalar class: copies, references, arithmetic, assignment, comparison, division | SclModel, SclSpec | Prop_Scl | each operation has a bounded effect on memory (SclProofs, SclOps) and a value in a ring (SclVal); programs refine an ideal machine of values and references (SclRef); wrong cases refuted |
| C74 | memory use of programs of scalar operations | SclModel, SclSpec | Prop_Scl | invariant of memory and owners kept by every command (SclProofs, SclOps) |
| C75 | Stream::simplify, the piecewise stream it makes and its queries | SimpModel, SimpSpec | Prop_Simp | the loop over pieces keeps the cache sound (C33), each piece replies for its interval; dissection of dyadic pieces covers each once (SimpProofs, SimpTop, SimpEx) |
| C76 | PyArg_ParseTupleAndKeywords for the formats used, parse_sig_args, resolution_converter, the dispatch to the four queries | ArgModel, ArgSpec | Prop_Arg | parsing equals a relational reading of the arguments (ArgProofs, ArgTop), composed with C36; failing arguments classified |
| C77 | arguments of signature_derivative, simplify, restrict | ArgModel, ArgSpec | Prop_Arg | parsing equals a relational reading; the intervals are asked one after the other with the cache kept sound (ArgMore) |
| C78 | ScalarArray: constructors, destructor, both assignments, indexing, slices, borrowing, over counted buffers and memory of the caller | SaModel, SaSpec | Prop_Sa | every command simulates a world without memory management: counts equal the number of owners (SaProofs, SaTop); freed and lent memory by invariants over worlds (SaMore) |
| C79 | TensorKey: construction from letters and indices, to_letters, split_n, equality, reverse, product, degree; the iterator | TkModel, TkSpec | Prop_Tk | numbering of words is a bijection preserving order (TkProofs); construction, powers modulo 2^64 and iteration (TkTop) |
| C80 | LieKey: construction from letters, lists and basis keys, printing, conversion to the index used by Lie.__getitem__; the iterator | LkModel, LkSpec | Prop_Lk | positions of pairs in the array by induction on brackets (LkProofs); Hall sets of C27 are such bases (LkHall) |
| C81 | parse_schema.cpp: schemas from dictionaries and sequences | PsModel, PsSpec | Prop_Ps | relation between data and lists of channels; acceptance both ways by induction on the data (PsProofs) |
| C82 | kwargs_to_metadata and parse_algebra_configuration: schema, channel types, time, width, depth, scalar type | PsModel, PsSpec | Prop_Pm | the schema picked by the arguments, then cases (PsMeta) |
| C83 | the tick construction helper, timestamps, finalize_schema and the loop that makes Lie elements of ticks | PtModel, PtSpec | Prop_Pt | invariant of numbers at equal times, uniqueness of the sorted order (PtProofs); previous values against the history of ticks, sums (PtRows); channels by induction on calls (PtSchema), acceptance and safety (PtWhole); channels added for a width asked for (PtPad, PtPadWhole, Prop_PtPad) by induction on their number |
| C84 | StandardTickDataParser and the calls it makes, then the stream | TpModel, TpSpec | Prop_Tp | a grammar of data, both directions by induction on data and on derivations (TpProofs); common forms from the grammar, composition with C83 (TpEx) |
| C85 | the sound file source, its query, the rows of external data streams and from_uri | SfModel, SfSpec | Prop_Sf | what the loop over channels writes and keeps, induction on rows, uniqueness of rows, ceilings of times (SfProofs); regrouping of the buffer and the schema of n channels (SfWhole); schemas given by the caller (SfGiven) |
| C86 | constructors of external data streams, their payloads and the registry of factories | EdModel, EdProofs (holds, allowed) | Prop_Ed | invariant: payloads allocated are those held or left by errors, and with those deleted all that were made; induction on histories |

Files `*Proofs*`, `*Lemmas*`, `*Laws*`, `*Build`, `*Ex` hold the proofs; `*Spec` the vocabulary
of the statements.

## Trusted base

* Coq's kernel (and the virtual machine, used by `vm_compute` in examples and witnesses).
* Axioms: `Print Assumptions` after every theorem in `Prop_*.v` prints "Closed under the global
  context".  A check of all compiled files (`coqchk -o`, or the gate's report) also lists the
  seven parameters of the sealed module `Coq.ssr.ssrunder.Under_rel` of the standard library
  (`Under_rel`, `Under_rel_from_rel`, `Under_relE`, `under_rel_done`, `over_rel`,
  `over_rel_done`, and the reflexivity instance), loaded with `lia` and the ssreflect plugin's
  support files; no theorem depends on them.
* The reading of the C++/C/Python code into the model, documented in the comment on every
  definition with file and lines.

## Not modelled

* Floating-point rounding, NaN and infinities; memory exhaustion; signals.
* Threads: the bracket cache and the lal caches are used by one caller at a time.
* pybind11/NumPy glue: reference counts, dtype dispatch, output arrays that overlap an input.
* Python keys (C79, C80): lparent, rparent and equals of Lie keys (not exposed), LieBasis.key_to_index and parents.
* Python arguments (C76, C77): the C++ context registry, the context's to_signature and derivative are
  parameters; warnings, subclasses of int and float, and errors raised by `__index__` are left out.
* Schemas and metadata from Python (C81, C82): strings are bytes, bytes objects and other sequence types, the vtype, resolution
  and support arguments, warnings, and what is left in a schema after an error.
* Ticks from Python (C83, C84): parsers other than the standard one, subclasses of dict, list and tuple, rounding of timestamps, scalar type and context
  deduction, precision and support; the rows are filed as in C62.
* Data given from Python: Python subclasses with overridden protocols, iterators, arrays of more than
  two dimensions beyond what C69 states.
* Serialisation, printing, JSON parsing of schemas, file streams, `platform` devices and the
  scalar type registry, scalars of half floats or of other sizes, serialisation and conversions of scalar arrays, `ExternalData` sources other than sound files (for these: URIs, opening, formats and seeking of libsndfile, rounding), opencl tick streams, the Python callbacks and the
  Gaussian generator behind function and Brownian streams.
* Public objects: bundles over lal storage; in-place and fused operations of shuffle tensors and
  Lie objects, null Lie objects.
* JAX and device kernels.
