# A Rocq model of casadi_extras

Scope: `casadi_extras/structure3.py`, `inequality.py`, `dae_model.py`, `system_trajectory.py`,
`collocation/{polynomial,butcher,piecewise_poly,collocation}.py`.  The code is only read as text; nothing is run.

## 1. Layout

| file (rocq/theories) | content |
|---|---|
| `PyBase.v` | exceptions as values, Python ranges/slices/indexing |
| `IndexModel.v` | `combine`, `lpack`, `listindices`, `intersperse`, `canonicalIndexAncestors`, `canonical` |
| `StructModel.v` | entries, structures, `Structure.__init__`, traversal, `CasadiStructure.__init__`, look-up table |
| `DMModel.v` | the part of CasADi's sparse matrices that structure3 uses (index, set, reshape, project, triu2symm) |
| `PowerModel.v` | `traverseByPowerIndex`, dispatchers, `performExtraIndex`, delegation |
| `EntryModel.v` | `entry(...)` keyword handling, `EntryList` |
| `AliasModel.v` | which DM object is the data of a numeric structure (C91) |
| `StructsModel.v` | concrete struct classes: calls, MX fast path, veccat, repeated/squared/product, prefixes, pickling |
| `IneqModel.v`, `DaeModel.v` | inequality and DAE classes |
| `NumModel.v`, `NumInst.v` | numpy-level arithmetic, parametric in the number type; instances |
| `PolynomialModel.v` | poly1d, PolynomialBasis, interpolators, Chebyshev points, Butcher tableaus |
| `PiecewiseModel.v`, `PdqModel.v` | PiecewisePoly; Pdq, its interpolators, SystemTrajectory |
| `LabelModel.v` | `getLabel`, `labels` |
| `SymModel.v` | `getStruct`, `struct_symSX`, `struct_symMX` |
| `PickleModel.v` | pickling several objects: shared `__dict__`s and the pickler's memo |
| `PrefixAttrModel.v` | `Prefixer.__getattr__` |
| `MxViewModel.v` | `repeated`/`squared`/`product`/`squared_repeated` of MX matrices: `buildMap` runs on the matrix itself |
| `StrModel.v` | `str()` and `repr()` of structures and Structured objects |
| `SimulateModel.v` | CollocationSimulator.simulate |
| `SchemeModel.v`, `SchemeAttrModel.v` | CollocationScheme and its properties, CollocationIntegrator, CollocationSimulator, save/struct_load |
| `*Spec.v` | small specifications, independent of the model's helpers |
| `*Proofs.v`, `*Thms*.v`, `PolyMath.v`, `PolynomialBase.v` | proofs |
| `*Examples.v` | concrete objects meeting the theorems' hypotheses; witnesses of refutations |
| `Props*.v` | only property theorems, each closed by `exact`, followed by `Print Assumptions` |

`properties.jsonl` has the properties in words, `MANIFEST.json` maps them to theorems, `seeded/LOG.jsonl` records which
theorems fail when a bug is put into the model.  A theorem is listed there if, in the edited copy, its proof or the
proof of a lemma it rests on no longer checks: it does not compile, `Print Assumptions` names a lemma that failed, or it is
`exact` of such a lemma.  Proofs were not repaired, so a listed theorem need not be false of the edited model.  Only the
files about the edited part were rebuilt for an edit, so the lists can be incomplete.

## 2. Modelling decisions

* Python exceptions are values (`res A := Ok a | Err e`).  Setters run in a state + exception monad so that a
  partially executed assignment is visible.
* Python `int` is `Z`; sizes and flat indices are `nat`; strings are Coq `string`.
* A CasADi matrix in the structure part is a sparsity pattern (rows, columns, list of nonzero positions in
  column-major order) with a list of values.  CasADi itself is external: `DMModel.v` transcribes the documented
  behaviour of `Matrix::get/set/get_nz/set_nz/sub/reshape/project/triu2symm`; it is part of the trusted base.
* The numeric part is written once over a class `Num` of operations.  Theorems are about its instance at the
  reals (exact arithmetic: rounding is *not* modelled by these theorems); the instance at `Q` is executable and is
  used to replay the repository's unit tests, and an instance at IEEE binary64 (`Coq.Floats.SpecFloat`)
  is used for C104, C105 and for refutations that are due to rounding.
* External calls are parameters of the definitions or Section variables turned into premises: `cs.collocation_points`,
  `cs.solve`, `cs.rootfinder`, user DAE functions.

## 3. Properties

For each property: what is modelled, how it is proved.

* C01-C05, C09: traversal + map construction; induction over nested structures; specification = inductive predicate
  of leaf indices and recursive size formula.
* C06: the iterator loop with explicit fuel; proof that the fuel suffices, and that the result is the round-robin.
* C07: full statement refuted by a witness; proved for orders that are permutations of the names.
* C08, C34, C35: keyword processing as a decision procedure over an option-record of keywords.
* C10-C19, C28: state/exception model of `traverseByPowerIndex`; frame and read-after-write lemmas over the map.
  C16, C17 (offset slices), C19 are expected to be refuted in general; restricted versions are proved.
* C20-C22: `__call__`, `parseMatrix` on top of the setter model.
* C23-C25: veccat storage / vertsplit fast path against the map; C25 refuted.
* C26, C27: symmetric storage; direct element read refuted.
* C29-C31: delegation and DataReference classes.
* C32, C33: prefix; pickling as reconstruction from the recorded initializer, with the fields dropped by `__getstate__`.
* C36-C39: inequality constructors with extended-real bounds; satisfaction predicate.
* C40-C42: decision procedure of the constructors; expressions as functions of an environment.  Structure objects lack `is_scalar`, so they are refused as `t`.
* C68: `Binds` states Python's rule for binding arguments; `bind_args` follows it.  C29: `ViewThms.v` characterises the matrices of which views can be made.
* C43-C47: polynomials as coefficient lists; uniqueness by root counting; derivatives with Coquelicot's `is_derive`.
* C48: stdlib `cos`.
* C49: Coquelicot `is_RInt`.
* C50-C54: interval search, exact arithmetic; C53 in binary64 and C54 refuted by witnesses.
* C55-C60: grids, block differentiation matrix; C56 for Legendre-like points and C59 for 'left' refuted.
* C61-C67: matrices as functions with dimensions; kron; main collocation theorem by polynomial uniqueness.
* C68, C69: constructor call binding / missing builtin: refuted by evaluating the model of the call.

* C70, C71: evaluation of the keyword branch / of the call.
* C72, C73: canonical indices fed back as power indices; labels are injective because a comma-free list is recovered from
  its joined string.
* C74, C75: the integrator unfolded up to the call of the rootfinder; attribute look-up.
* C76, C77: `SimThms` shows once and for all that two read dispatchers walk a structure in the same
  way; `ReadSpec` says what it means for a result to show the values at the positions of another.
* C78, C79: `getStruct`; symbols of SX structures are numbered by creation and carry their name.
* C80: the heap of CasadiStructure dictionaries; the memo keeps the state written first, so what is restored is decided by
  the first object that reaches a structure.  C81: reduction to C29 block by block.
* C82: attributes as arbitrary functions of the matrix they are looked up on.  C83: from the grid of C55.
* C84: `buildMap` on a matrix with several columns: which of CasADi's `vertsplit` and `MX(sp, val)` calls raise; the map only
  answers the empty index for square and product views, so other reads go to the matrix.
* C85: `simulate` on any simulator object, with the log of the calls of `input`; what follows the failing call of
  `SystemTrajectory()` is a parameter.
* C86: the printed text is read back piece by piece (`StrThms`): digits, names and brackets delimit each other.
* C28, element by element: `ExtraThms.v` first fixes what an integer, a list and a slice select (`Selects`, `Rejects`: Python's
  positions when the bounds lie inside the matrix, an exception otherwise), then reads and writes through them.
* C17-C19 for slices and lists: `SliceWriteThms.v` folds single writes over the selected repeats and says which payload item each
  takes; C12 for short indices: `PrefixThms.v`; C11 with symmetric entries: `SymFrameThms.v`; C16, C88: `NamesThms.v`.
* C33 for writes: `PickleWriteThms.v` simulates the traversal of the restored structure by that of the original one; the relation
  only allows the restored side to raise where the original does not.
* C59, 'left': `PdqLeftThms.v` evaluates the polynomial of the shifted columns.
* C89: `ListRhsThms.v` reduces lists to the matrix they denote; C90: `CtorErrThms.v` reads the exception off each constructor.
* C91: a heap of matrix objects; C92: `InvThms.v` lifts any relation that single element writes have to whole traversals, so the
  size and the reach of assignments hold for refused ones too.
* C93, C94: `OrderSpec.v` defines the nodal polynomial, orthogonality, quadratic forms and power; `OrderMath.v` divides by the
  nodal polynomial; `OrderThms.v` integrates the rate of change of the quadratic form of the step polynomials (for Radau points
  the one degree too many has a known sign) and sums over the grid; `OrderExamples.v` has one-step examples in closed form.
* C95, C96: `ConvSpec.v` defines the Lipschitz constant of a DAE, short steps and the closeness of a derivative to polynomials;
  `ConvThms.v` has Banach's fixed point theorem in R^n for existence, one discrete Gronwall estimate for uniqueness, continuity
  and the error bound, and carries them over to integrators; `ConvExamples.v` has x' = -x/4 and a long step without a solution.
* C97: `BlockSpec.v` defines sums over leaves and products of blocks, `BlockThms.v` proves them for product views, `BlockExamples.v`
  has a 6 x 3 matrix over two structures. No axioms.
* C98, C99: `GridSpec.v` defines parts of a grid and affine changes of variables; `GridThms.v` expresses all attributes of a scheme by
  one Runge-Kutta tableau (`scheme_all`) and derives the splitting and the transformation from it; `GridExamples.v` splits and moves x' = 2 t.
* C100: `ErrSpec.v` defines Lebesgue constants and the Lipschitz constants of algebraic states and quadratures; `ErrThms.v` extends the
  error bound to the piecewise polynomial, its derivative, Z, q, Q and to integrators; `ErrExamples.v` has a DAE with all of them.
* C101: `AssignSpec.v` defines, by recursion over what `s.i` returns, which right-hand sides suit an index and what is read afterwards
  (`Receives`); `AssignThms.v` follows the setter and the index getter side by side; `AssignExamples.v` has dicts, lists and nesteddict. No axioms.
* C102: `CallSpec.v` says where a callable stands (`Above`) and what is applied to it (`apply_at`); `CallThms.v` proves what is read, `CallThms2.v`
  what is written (also C11 for callables); `CallExamples.v` has vertcat, last, computing callables and the two refutations. No axioms.
* C103: `SuperSpec.v` defines smoothness of pieces and the error weighted with an adjoint solution; `SuperThms.v` proves the error identity and the
  orders at grid times; `SuperExamples.v` has the implicit midpoint rule.
* C104: `F64Spec.v` defines finite binary64 numbers and their values; `F64Thms.v` relates `Coq.Floats.SpecFloat` to Flocq's correctly rounded operations
  and bounds the local time, `F64Thms2.v`-`F64Thms6.v` prove what interpolators, `PiecewisePoly`, `Pdq`, trajectories and schemes return;
  `F64Examples.v` has concrete grids and the refutation (t = [-3, -0.9], Radau). Flocq adds no axioms of its own.
* C105: `RndSpec.v` states the conditions and error bounds; `RndThms.v` propagates relative errors through products, quotients and sums, `RndThms2.v`
  through weights and matrices, `RndThms3.v`, `RndThms4.v` through interpolation, `PiecewisePoly` and `derivative()`; `RndExamples.v` has concrete numbers
  and the NaN for a query next to a node. The bounds are for sums from left to right.
* C106: `RevSpec.v` defines symmetric points, reversed matrices and DAEs in another time; `RevThms.v` reverses schemes, `RevThms2.v` proves that the order determines
  the points and that Legendre's are symmetric, and reverses integrators; `RevExamples.v`: rotation and decay by the midpoint rule, implicit Euler as counterexample.
* C107: `StiffSpec.v` defines fast relaxation and the DAE's arguments at a grid time; `StiffThms.v` inverts the tableau (its inverse consists of derivatives of the
  Lagrange polynomials of the points and 0) and bounds the damping; `StiffExamples.v`: implicit Euler, and the midpoint rule as counterexample.
* C108: `MonoSpec.v` defines one-sided Lipschitz bounds in an inner product; `MonoThms.v` shows that the inverse of the tableau is coercive after
  weighting with the b_j (1/c - 1) (Legendre) or b_j / c (Radau) and that the points lie within the interval; `MonoThms2.v` derives uniqueness, `MonoThms3.v` existence
  (a contraction with small relaxation in the weighted norm), `MonoThms4.v` states both for schemes and integrators.
* C109: `DissSpec.v` defines the norm of an inner product; `DissThms.v` bounds the stages by the defect through the coercive inverse of the tableau, `DissThms2.v` the growth of
  differences and the local error of a step, `DissThms3.v` sums up over the grid, `DissThms4.v` states the bound for schemes and integrators.
* C112: `DissErrThms.v` carries a bound of the states at the collocation points over to algebraic states and quadratures (as `ErrThms.v` does), and to the polynomial
  pieces through their values at the start and the collocation points; `DissErrExamples.v` shows one bound for a family of arbitrarily stiff DAEs.
* C113: `SensSpec.v` says when inputs are near and how a DAE depends on them; `SensThms.v` bounds the distance of a solution of the equations from values that satisfy
  them up to a defect (the argument of C109 with the true solution replaced); `SensThms2.v` takes for these the other solution and carries the bound over to the outputs.
* C114: `Sens2Spec.v` and `SensThms3.v` bound the same differences for short steps and any points, with the constants of C95 and C96, directly by the largest difference of stages.
* C115: `RefineSpec.v` says when inputs are near those of a trajectory, or taken from it, and what a fine grid is; `RefineThms.v` bounds the errors with inexact inputs for
  short steps (the scheme is compared with the solution's values at the collocation points); `RefineThms2.v` derives convergence on refined grids from uniform continuity,
  `RefineThms3.v` first-order rates from Lipschitz constants in time.
* C117: `StiffRefThms.v` compares the scheme with the stages of the DAE at the solution's states and the scheme's inputs (C113's near solutions), which bounds the errors with
  inexact inputs independent of the Lipschitz constant; `StiffRefThms2.v` derives a first-order rate with one constant for all DAEs of given rates.
* C116: `ErrClassSpec.v` names the keyword arguments whose refusal does not raise `Exception`; `ErrClassThms.v` derives the class of each refusal from the checks of `EntryModel.v`
  (`type` is looked at last, so the rest is an entry without it).
* C118: `MXSymmThms.v` adds to C23 what reading a symmetric entry of struct_MX gives and which expressions it refuses; `MXSymmThms2.v` decides a single such entry, compares with struct_SX, and has the examples.
* C119: `ViewAcceptThms.v` decides the outcome of `repeated`, `squared_repeated`, `product` and `squared` for every matrix; the model of these methods is the one of C29-C31 and C81.
* C110: `SettledSpec.v` joins the two conditions for uniqueness (C95, C108); `SettledThms.v` derives uniqueness for the whole scheme and compares integrators through
  the theorems about schemes of C98, C99, C106.
* C111: `NameSelThms.v` says which positions a name, names, `index[...]` and `indexf[...]` stand for (`ByName`, from `A.f`, `A.i`), shows that the traversal
  cannot tell them from lists of numbers, and transfers the element-wise theorems of C28; `dm_linr` (a row of positions) is treated separately.
* `RepoTests.v` replays the repository's tests of structures and piecewise polynomials on the model.
* C87: the two writes of a symmetric block (the transposed block, then the block) followed cell by cell; reads go through
  `triu2symm` of the block, which only fits blocks on the diagonal.

A theorem whose name ends in `_partial` proves less than its property; the manifest's note says what is missing.  A
theorem whose name ends in `_refuted` shows, by a witness, that the code does not have the property in full.

## 4. Trusted base

### 4.1 Kernel and axioms

Coq 8.16.1's kernel with its virtual machine (`vm_compute` is used to evaluate closed model terms).  No axiom is
declared here.  `Print Assumptions` reports, for the theorems of `Props*.v`:

| theorems | axioms |
|---|---|
| all of `PropsLayout`, `PropsEntry`, `PropsPower`, `PropsLabel`, `PropsRead`, `PropsStructs`, `PropsMx`, `PropsSymm`, `PropsSlice` but C59, `PropsLists`, `PropsAlias`, `PropsBlock`, `PropsErrClass`, `PropsMXSymm`, `PropsViewAccept`, `PropsAssign`, `PropsCall`, `PropsNameSel`; C70, C72, C73, C76-C82, C84, C86-C92; C36-C39; C40 except the refutations; C50; C53/C55 binary64 refutations; C69; C75 `pdq_never` | none |
| refutations of C40; C41 `make_implicit_id`; C42 | `ClassicalDedekindReals.sig_forall_dec` |
| the other theorems of C41; C43, C44, C46, C47, C51, C53, C54; C49 `butcher_method_spec`; C55 `grid_bounds`; C61 `scheme_fun_*`; C67 rejections; C68, C85; C71 `integrate_by_position`; C103 `adjoint`; C104 `interval_*`; C106 `radau_not_symmetric` | the above, `functional_extensionality_dep` |
| C45, C48, C49, C52, C55-C61, C64-C67, C74, C75, C83, C93, C94 otherwise; C95 `solution_exists`, `long_steps_refuted`; C98 `split_scheme`; C99 `move_scheme`; C100 `constants_exist`; C106 otherwise; C107; C108 `points`; C109 `other_points_refuted`; C110 `unsettled_refuted` | the above, `ClassicalDedekindReals.sig_not_dec` |
| C56 `derivative_legendre_refuted`; C62, C63; C71 `integrate_by_name`, `integrate_position_refuted`; C75 `pdq_refuted`; C93 `quadrature_order`; C94 quadratic theorems, `dissipation`, `energy_decay`, `contraction`; C95, C96, C98-C100, C103, C104 otherwise; C105; C106 `integrator_back`; C108-C110 otherwise; C112-C115; C117 | the above, `Classical_Prop.classic` |

These are the axioms of the standard library's real numbers, functional extensionality and excluded middle; the
last comes in through Coquelicot's integrals and Flocq.  The gate's longer list contains every axiom of the libraries that are
loaded, used or not.

### 4.2 The model is read off the code

Nothing checks the model against the Python program mechanically: each definition cites the lines it transcribes, and
its comment states what it leaves out.  The repository's unit tests that fit the model are replayed as `Example`s.

### 4.3 External libraries, modelled by their documented behaviour

* CasADi matrices (`DMModel.v`): patterns, `get/set/get_nz/set_nz`, `reshape`, `project`, `triu2symm`, `vertsplit`,
  `MX(sp, val)`, `veccat`.  In the collocation part matrices are dense functions of (row, column); `kron`, `mtimes`, `horzcat`, `diff`,
  `repmat`, `Function.map` are transcribed (`SchemeModel.v`, `PdqModel.v`).
* MX expressions: an expression is the function giving its value at each value of the symbols.  `is_valid_input` is
  an attribute, since CasADi decides it from the expression graph.
* `cs.collocation_points`, `cs.solve`, `cs.rootfinder`, the DAE's functions, the user's `tdp_fun`, the serialisation
  behind pickle: parameters, with premises stated in the theorems (`Points`, `Nodes`, `Solver`, `Complete`, `RootFinder`,
  `Answers`, `DaeOk`, `TdpOk`).
* numpy (`NumModel.v`, `PolynomialModel.v`): `poly1d`, `convolve`, `searchsorted`, `clip`, `linspace`, `diff`, `hstack`.
* Python: dict and set iteration order (insertion order; a set's order is an argument), slices, comprehension
  scoping, call binding for `CollocationSimulator`.

### 4.4 Simplifications and what is not modelled

* Numbers are exact in the theorems (real numbers) but in C104, C105 and the binary64 refutations, where all operations round to nearest, ties to even.
  Sums of products in matrix multiplications are taken from left to right without fused operations; what C104 says about products with unit vectors
  does not depend on that.
* Not modelled: the text of `Prefixer`, `PrefixConstructor`, `Delegater` and `ButcherTableau` objects; the options
  `parallelization`, `expand`, `options`; names of CasADi functions and symbols; Python-2 branches; warnings; time and
  memory; `CollocationSimulator.__init__` past the call that raises; identity and aliasing of Python objects unless a
  property is about it.
* C86: `Sparsity.dim()` prints rows and columns only, as CasADi 3 does; names with quotes, backslashes or unprintable
  characters, which Python's `repr` escapes, are excluded by the premise.
* Error messages are not modelled, only the kind of exception.
* `__init__.py` files only import names and are not modelled.
