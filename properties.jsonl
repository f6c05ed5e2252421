{"id": "C01", "title": "Flat indices are a partition of the vector", "statement": "For a structure s, the flat indices listed by s.i over all canonical indices, taken in the order of s.traverseCanonicalIndex(), are exactly 0,1,...,s.size-1: every element of the flat vector belongs to exactly one canonical index, none is missing and none is shared.", "quantifier": "all structures built from entries with distinct names and any legal grouping, nesting, repeats and sparsities", "why_tests_cant": "the set of structures is infinite (unbounded nesting, repeat counts, names, sparsity patterns and groupings); a unit test fixes one layout", "anchors": ["casadi_extras/structure3.py:CasadiStructure.__init__", "casadi_extras/structure3.py:Structure.traverseCanonicalIndex", "casadi_extras/structure3.py:StructEntry.traverseCanonicalIndex"]}
{"id": "C02", "title": "Canonical indices enumerate exactly the declared leaves", "statement": "s.traverseCanonicalIndex() lists exactly the tuples (name, i1..ik, subname, j1.. ...) in which each name is declared at that level and each integer lies in range(repeat), for every such tuple and nothing else, and every leaf is visited once; s.canonicalIndices(0) contains exactly those that have a structural nonzero.", "quantifier": "all well-formed structures", "why_tests_cant": "completeness and absence of duplicates over arbitrary nesting cannot be enumerated", "anchors": ["casadi_extras/structure3.py:listindices", "casadi_extras/structure3.py:combine", "casadi_extras/structure3.py:StructEntry.traverseCanonicalIndex", "casadi_extras/structure3.py:Structure.traverseCanonicalIndex"]}
{"id": "C03", "title": "getCanonicalIndex inverts the index map", "statement": "For 0<=i<s.size, s.getCanonicalIndex(i) returns (can..., k) such that the k-th nonzero of s.i[can] is i, with extraMode=0 returning can alone and extraMode=2 returning can followed by the (column,row) pair of that nonzero; any other i raises. For extraMode 1 and 2 different i give different answers.", "quantifier": "all well-formed structures and all integers i, all extraModes", "why_tests_cant": "two-sided inverse over an infinite family", "anchors": ["casadi_extras/structure3.py:CasadiStructure.getCanonicalIndex", "casadi_extras/structure3.py:CasadiStructure.canonicalIndices"]}
{"id": "C04", "title": "Size formula", "statement": "s.size equals the sum over the entries of prod(repeat) times (number of structural nonzeros of the entry, or the size of its sub-structure).", "quantifier": "all well-formed structures", "why_tests_cant": "infinite family of nested shapes", "anchors": ["casadi_extras/structure3.py:CasadiStructure.__init__"]}
{"id": "C05", "title": "Grouping only permutes the layout", "statement": "Grouping entries with tuple syntax never adds, drops or duplicates a canonical index: the canonical indices of the grouped structure are a permutation of those of the ungrouped one, the size is unchanged, and inside a group the blocks come round-robin by first repeat index: block k of entry j precedes block k' of entry j' iff (k,j)<(k',j') lexicographically.", "quantifier": "all groupings of all structures", "why_tests_cant": "number of groups, lengths and nesting are unbounded; uneven repeat lengths exercise the iterator loop differently", "anchors": ["casadi_extras/structure3.py:intersperseIt", "casadi_extras/structure3.py:intersperse", "casadi_extras/structure3.py:Structure.traverseCanonicalIndex"]}
{"id": "C06", "title": "The interleaving loop terminates", "statement": "Building a structure terminates: the round-robin iterator behind tuple grouping stops after finitely many steps for every number of groups and every (possibly different, possibly zero) lengths, and yields every element exactly once.", "quantifier": "all finite lists of finite lists", "why_tests_cant": "termination for all inputs is not testable", "anchors": ["casadi_extras/structure3.py:intersperseIt"]}
{"id": "C07", "title": "An explicit order may not lose or duplicate entries", "statement": "Whatever `order` is accepted at construction, every declared entry occupies space in the vector exactly once (so s[name] works for every declared name and size is the sum of the entry sizes).", "quantifier": "all entry lists and all accepted order arguments", "why_tests_cant": "the acceptance check must be compared against all orders", "anchors": ["casadi_extras/structure3.py:Structure.__init__", "casadi_extras/structure3.py:EntryList.__init__"]}
{"id": "C08", "title": "Entry lists reject duplicate names and mixed ordering syntax", "statement": "Constructing from a list of entries succeeds iff all names (including those inside tuples) are pairwise different and tuple grouping is not combined with order=...; without order the resulting order is the declaration order.", "quantifier": "all lists of entries", "why_tests_cant": "all name lists", "anchors": ["casadi_extras/structure3.py:EntryList.__init__"]}
{"id": "C09", "title": "Sub-structure blocks are contiguous and complete", "statement": "For an entry holding a sub-structure, s.i[name, i1..ik] is the column of consecutive flat indices start..start+size(sub)-1, and it is the concatenation of the indices of all leaves beneath it in order.", "quantifier": "all well-formed structures, all struct-valued entries at every depth", "why_tests_cant": "depends on the whole traversal order", "anchors": ["casadi_extras/structure3.py:canonicalIndexAncestors", "casadi_extras/structure3.py:CasadiStructure.__init__"]}
{"id": "C10", "title": "Read after write", "statement": "For a numeric structure, after s[idx] = v succeeds, s[idx] returns v (broadcast when v is scalar), for every canonical index idx, leaf or sub-structure.", "quantifier": "all structures, all data, all canonical indices, all payloads", "why_tests_cant": "all states x indices x values", "anchors": ["casadi_extras/structure3.py:SetterDispatcher", "casadi_extras/structure3.py:GetterDispatcher", "casadi_extras/structure3.py:MasterSettable", "casadi_extras/structure3.py:MasterGettable"]}
{"id": "C11", "title": "Writes do not leak", "statement": "s[idx] = v changes only the flat positions listed by s.i[idx]; every other element of s.cat, hence every s[idx'] with disjoint positions (e.g. any other leaf), is unchanged, and s.size/shape are unchanged.", "quantifier": "all structures, states, indices and payloads", "why_tests_cant": "frame condition over all other indices", "anchors": ["casadi_extras/structure3.py:SetterDispatcher"]}
{"id": "C12", "title": "Negative and out-of-range repeat indices", "statement": "For a repeat dimension of length n, s[name, i] is accepted iff -n <= i < n, and s[name,-j] is s[name,n-j]; any other integer raises and changes nothing.", "quantifier": "all structures, all integers", "why_tests_cant": "all integers and all lengths", "anchors": ["casadi_extras/structure3.py:canonical", "casadi_extras/structure3.py:StructEntry.traverseByPowerIndex"]}
{"id": "C13", "title": "Slice reads behave like Python list slices", "statement": "s[name, a:b:c] equals s[name][a:b:c] (Python list slicing of the list of all repeats), for every start/stop/step including None, negative and out-of-range values.", "quantifier": "all integers start/stop/step (step != 0), all lengths", "why_tests_cant": "integer corner cases are unbounded", "anchors": ["casadi_extras/structure3.py:StructEntry.traverseByPowerIndex"]}
{"id": "C14", "title": "Pending dimensions are filled with ':'", "statement": "Omitting trailing repeat indices is the same as writing ':' for each of them: s[name, i1..ik] = s[name, i1..ik, :, ..., :], and it returns the nested list, in index order, of the individual reads.", "quantifier": "all entries with any number of repeat dimensions", "why_tests_cant": "arbitrary dimension count", "anchors": ["casadi_extras/structure3.py:StructEntry.traverseByPowerIndex"]}
{"id": "C15", "title": "Ellipsis, {} and set indices are maps over the entries", "statement": "s[...] is the list of s[k] for k in s.keys(); s[{}] is the dict of s[k] over all declared names; s[{'a','b'}] is the dict restricted to those names; an unknown name raises.", "quantifier": "all structures and all remaining power indices", "why_tests_cant": "all structures and suffixes", "anchors": ["casadi_extras/structure3.py:Structure.traverseByPowerIndex"]}
{"id": "C16", "title": "A list of names is a list of reads", "statement": "s[['a','b',...]] returns [s['a'], s['b'], ...].", "quantifier": "all structures and lists of declared names", "why_tests_cant": "all structures/types of entries", "anchors": ["casadi_extras/structure3.py:Structure.traverseByPowerIndex"]}
{"id": "C17", "title": "Write-back of a read is a no-op", "statement": "s[idx] = s[idx] succeeds and leaves s unchanged.", "quantifier": "all power indices made of names, integers and slices", "why_tests_cant": "all index shapes", "anchors": ["casadi_extras/structure3.py:payloadUnpack", "casadi_extras/structure3.py:StructEntry.traverseByPowerIndex"]}
{"id": "C18", "title": "Assigning a list over a repeat dimension", "statement": "s[name,:] = [v0,...,v_{n-1}] stores v_i at repeat i for every i; a shorter list raises; extra trailing elements are ignored; s[name,:] = repeated(v) and s[name,:] = v (one matrix or scalar) store v in every repeat.", "quantifier": "all structures, repeat counts, payload lists", "why_tests_cant": "all lengths", "anchors": ["casadi_extras/structure3.py:payloadUnpack", "casadi_extras/structure3.py:repeated"]}
{"id": "C19", "title": "Failed assignments are atomic", "statement": "If s[idx] = v raises, s.cat is unchanged.", "quantifier": "all structures, indices, payloads", "why_tests_cant": "needs every failing payload position (crash point)", "anchors": ["casadi_extras/structure3.py:StructEntry.traverseByPowerIndex", "casadi_extras/structure3.py:SetterDispatcher"]}
{"id": "C20", "title": "Construction from a dict", "statement": "s({k: v_k}) succeeds only if the key set equals the set of declared keys, and then result[k] == v_k for every key (scalars broadcast) and no element of the result is left undefined.", "quantifier": "all structures without repeats, all dicts", "why_tests_cant": "all structures and payloads", "anchors": ["casadi_extras/structure3.py:CasadiStructureDerivable.__call__"]}
{"id": "C21", "title": "Construction from a vector or scalar", "statement": "s(v) with v a size x 1 numeric vector yields a structure with cat == v; s(c) with c scalar yields every element equal to c; a numeric matrix of any other shape raises.", "quantifier": "all structures, all numeric matrices", "why_tests_cant": "all shapes", "anchors": ["casadi_extras/structure3.py:CasadiStructureDerivable.__call__", "casadi_extras/structure3.py:MatrixStruct.__init__"]}
{"id": "C22", "title": "parseMatrix splits every column", "statement": "parseMatrix(data) for data with s.size rows returns for each key k the matrix whose j-th column block is s(data[:,j])[k]; stacking the pieces back in key order restores data. Data with a different number of rows is rejected.", "quantifier": "all structures of column entries, all matrices", "why_tests_cant": "all shapes and values", "anchors": ["casadi_extras/structure3.py:CasadiStructureDerivable.parseMatrix"]}
{"id": "C23", "title": "struct_MX concatenation agrees with the index map", "statement": "For struct_MX built from expressions, s.cat restricted to the flat indices s.i[k] equals the assigned expression for every first-level index k, also after any sequence of later assignments s[k] = e (last one wins), and s.cat raises while some slot was never assigned.", "quantifier": "all structures, all assignment histories", "why_tests_cant": "all histories", "anchors": ["casadi_extras/structure3.py:MXVeccatStruct.__init__", "casadi_extras/structure3.py:MXVeccatStruct.__setitem__", "casadi_extras/structure3.py:MXVeccatStruct.master"]}
{"id": "C24", "title": "The MX fast path agrees with the index map", "statement": "For struct_symMX (and a freshly built struct_MX_mutable), s[k] obtained by splitting the master vector equals the elements of s.cat selected by s.i[k], for every leaf and every sub-structure at every depth.", "quantifier": "all structures", "why_tests_cant": "arbitrary nesting and grouping", "anchors": ["casadi_extras/structure3.py:VertsplitStructure.buildMap", "casadi_extras/structure3.py:GetterDispatcher"]}
{"id": "C25", "title": "struct_MX_mutable reads see later writes", "statement": "After s[k] = e on a struct_MX_mutable, s[k] returns e.", "quantifier": "all structures, all histories", "why_tests_cant": "needs read-after-write over histories", "anchors": ["casadi_extras/structure3.py:MXStruct.__init__", "casadi_extras/structure3.py:VertsplitStructure.buildMap", "casadi_extras/structure3.py:GetterDispatcher"]}
{"id": "C26", "title": "Symmetric entries: matrix round trip", "statement": "For a matrix entry (no struct=) with type='symm', s[name] is always a symmetric matrix; after s[name] = P with P of the declared sparsity, s[name] equals the matrix whose upper triangle is that of P, in particular P itself when P is symmetric.", "quantifier": "all sizes n, all matrices, all prior states", "why_tests_cant": "all sizes and values", "anchors": ["casadi_extras/structure3.py:SetterDispatcher", "casadi_extras/structure3.py:GetterDispatcher", "casadi_extras/structure3.py:CasadiStructEntry.__init__"]}
{"id": "C27", "title": "Symmetric entries: element access", "statement": "For entry type='symm', s[name,i,j] = c makes s[name][i,j] == s[name][j,i] == c and leaves the other elements of s[name] unchanged; and s[name,i,j] read directly equals s[name][i,j].", "quantifier": "all n, i, j, values", "why_tests_cant": "all element positions", "anchors": ["casadi_extras/structure3.py:SetterDispatcher", "casadi_extras/structure3.py:GetterDispatcher", "casadi_extras/structure3.py:performExtraIndex"]}
{"id": "C28", "title": "Extra (matrix-level) indices commute with reading", "statement": "For an ordinary matrix entry, s[name, r, c] equals the (r,c) sub-matrix of s[name], and writing through s[name,r,c] = v changes exactly the selected elements.", "quantifier": "all shapes, all row/column selectors (integers, negative integers, slices, lists)", "why_tests_cant": "all index combinations", "anchors": ["casadi_extras/structure3.py:performExtraIndex", "casadi_extras/structure3.py:GetterDispatcher", "casadi_extras/structure3.py:SetterDispatcher"]}
{"id": "C29", "title": "squared() and product() address blocks by name", "statement": "P = s.squared(M): P['a','b'] is the block of M with rows s.f['a'] and columns s.f['b'], and P['a','b'] = B replaces exactly that block of the matrix. Likewise product(s2, M) with columns taken from s2.", "quantifier": "all structures, all matrices, all pairs of names", "why_tests_cant": "all structures", "anchors": ["casadi_extras/structure3.py:CasadiStructureDerivable.squared", "casadi_extras/structure3.py:CasadiStructureDerivable.product", "casadi_extras/structure3.py:delegation", "casadi_extras/structure3.py:DataReferenceSquared", "casadi_extras/structure3.py:DataReferenceProduct"]}
{"id": "C30", "title": "product() and squared() accept a scalar", "statement": "s.squared(c) and s.product(s2,c) with a scalar c (e.g. the default 0) give the constant matrix of the right shape.", "quantifier": "all pairs of structures", "why_tests_cant": "all sizes, including 1", "anchors": ["casadi_extras/structure3.py:CasadiStructureDerivable.product", "casadi_extras/structure3.py:CasadiStructureDerivable.squared"]}
{"id": "C31", "title": "repeated() views a matrix column by column", "statement": "R = s.repeated(A) with A of shape (s.size, n): R[j, name] is s(A[:,j])[name], R[j,name] = v updates exactly the corresponding elements of column j of the underlying matrix, and the flat vector and the matrix stay in sync.", "quantifier": "all structures, all n, all matrices, all write histories", "why_tests_cant": "all histories", "anchors": ["casadi_extras/structure3.py:CasadiStructureDerivable.repeated", "casadi_extras/structure3.py:DataReferenceRepeated"]}
{"id": "C32", "title": "Prefix views", "statement": "s.prefix[p][q] == s[p+q] for reading, and assignment through a prefix is assignment to the concatenated index.", "quantifier": "all structures, prefixes, suffixes", "why_tests_cant": "all indices", "anchors": ["casadi_extras/structure3.py:Prefixer", "casadi_extras/structure3.py:PrefixConstructor"]}
{"id": "C33", "title": "Pickling preserves structures", "statement": "Restoring a pickled structure gives the same size, index map, labels and behaviour of reads and writes.", "quantifier": "all structures, including symmetric entries", "why_tests_cant": "all structures x subsequent operations", "anchors": ["casadi_extras/structure3.py:CasadiStructure.__getstate__", "casadi_extras/structure3.py:CasadiStructEntry.__getstate__", "casadi_extras/structure3.py:DMStruct.__getstate__"]}
{"id": "C34", "title": "Entry argument validation", "statement": "entry(name, **kw) rejects unknown keywords and each forbidden combination (shape/struct, struct/shapestruct, sym with shape/repeat/expr, expr with shape/repeat/sym) and non-integer repeats; otherwise the entry's repeat and sparsity are those documented for the given keywords.", "quantifier": "all subsets of keywords and values", "why_tests_cant": "all combinations", "anchors": ["casadi_extras/structure3.py:CasadiStructEntry.__init__"]}
{"id": "C35", "title": "Nested expression lists are fully stored", "statement": "entry(name, expr=L) with L a nested list of expressions stores every expression of L: either the entry is rejected or each L[i][j].. is readable at index (i,j,..).", "quantifier": "all nested lists", "why_tests_cant": "ragged lists of all shapes", "anchors": ["casadi_extras/structure3.py:CasadiStructEntry.__init__", "casadi_extras/structure3.py:payloadUnpack"]}
{"id": "C36", "title": "Inequality defaults and shape checks", "statement": "Inequality(expr, lb, ub, nominal) is constructed iff every given bound has the shape of expr; omitted bounds are -inf/+inf of that shape, so that an inequality without bounds is satisfied by every value.", "quantifier": "all shapes and bounds", "why_tests_cant": "all shapes", "anchors": ["casadi_extras/inequality.py:Inequality.__new__"]}
{"id": "C37", "title": "vertcat of inequalities is conjunction", "statement": "vertcat(list) of column inequalities yields an inequality that a point satisfies iff it satisfies every member; expr, lb, ub, nominal are concatenated in the same order, so position i of each refers to the same scalar constraint.", "quantifier": "all lists of inequalities, all points", "why_tests_cant": "all lists and points", "anchors": ["casadi_extras/inequality.py:vertcat"]}
{"id": "C38", "title": "vertcat of a dict of inequalities", "statement": "vertcat(dict) yields structured bounds with lb[k], ub[k], nominal[k] equal to the members' values and the same satisfaction semantics.", "quantifier": "all dicts", "why_tests_cant": "all dicts", "anchors": ["casadi_extras/inequality.py:vertcat"]}
{"id": "C39", "title": "vertcat works for inequalities without nominal values", "statement": "vertcat succeeds for any list or dict of validly constructed inequalities, also when nominal was omitted.", "quantifier": "all lists/dicts of inequalities", "why_tests_cant": "all combinations of optional fields", "anchors": ["casadi_extras/inequality.py:vertcat", "casadi_extras/inequality.py:Inequality.__new__"]}
{"id": "C40", "title": "DAE constructors accept exactly consistent models", "statement": "SemiExplicitDae(x,z,u,p,t,ode,alg,...) is accepted iff the inputs are symbolic (columns where required) and the sizes match: numel(ode)=numel(x), numel(alg)=numel(z); ImplicitDae iff numel(xdot)=numel(x) and numel(dae)=numel(x)+numel(z).", "quantifier": "all argument combinations", "why_tests_cant": "all sizes and optional arguments", "anchors": ["casadi_extras/dae_model.py:Dae.__init__", "casadi_extras/dae_model.py:SemiExplicitDae.__init__", "casadi_extras/dae_model.py:ImplicitDae.__init__"]}
{"id": "C41", "title": "makeImplicit preserves the solution set", "statement": "(xdot,x,z,u,p,t,tdp) is a zero of the residual of dae.makeImplicit() iff xdot equals the ode and alg is zero at that point; inputs, parameters and quadratures are unchanged; makeImplicit of an implicit DAE is itself.", "quantifier": "all semi-explicit DAEs, all points", "why_tests_cant": "all functions and points", "anchors": ["casadi_extras/dae_model.py:SemiExplicitDae.makeImplicit", "casadi_extras/dae_model.py:ImplicitDae.makeImplicit"]}
{"id": "C42", "title": "parallel() keeps the dynamics of its members", "statement": "parallel(models) is a DAE whose states, inputs and right-hand sides are the concatenation of those of the members.", "quantifier": "all lists of models", "why_tests_cant": "all lists", "anchors": ["casadi_extras/dae_model.py:parallel"]}
{"id": "C43", "title": "Basis polynomials are the Lagrange basis", "statement": "For pairwise different nodes tau, basis.poly[j](tau[k]) is 1 if j==k else 0, and every polynomial f of degree < n satisfies f = sum_j f(tau[j])*poly[j].", "quantifier": "all finite lists of distinct real nodes, all polynomials", "why_tests_cant": "real nodes and degrees unbounded", "anchors": ["casadi_extras/collocation/polynomial.py:PolynomialBasis.__init__"]}
{"id": "C44", "title": "Barycentric interpolation is exact", "statement": "For distinct nodes and every real t (node or not), interpolationMatrix(t) applied to the values of a polynomial of degree < n at the nodes gives its value at t; in particular it reproduces nodal data and each row sums to 1.", "quantifier": "all nodes, all t, all polynomials of degree < n", "why_tests_cant": "uncountably many t", "anchors": ["casadi_extras/collocation/polynomial.py:PolynomialBasis.interpolationMatrix", "casadi_extras/collocation/polynomial.py:barycentricInterpolator"]}
{"id": "C45", "title": "The differentiation matrix is exact", "statement": "For distinct nodes, basis.D applied to nodal values of a polynomial of degree < n gives its derivative at the nodes; rows sum to 0.", "quantifier": "all nodes, all polynomials of degree < n", "why_tests_cant": "all real inputs", "anchors": ["casadi_extras/collocation/polynomial.py:PolynomialBasis.__init__"]}
{"id": "C46", "title": "compose() builds the interpolating polynomial", "statement": "compose(c)[i] evaluates to sum_j c[i,j]*poly[j] everywhere, hence equals c[i,j] at node j.", "quantifier": "all coefficient matrices with at most n columns", "why_tests_cant": "all reals", "anchors": ["casadi_extras/collocation/polynomial.py:PolynomialBasis.compose"]}
{"id": "C47", "title": "Monomial and barycentric interpolators agree", "statement": "polynomialInterpolator(x)(u,xx) == barycentricInterpolator(x)(u,xx) for distinct nodes.", "quantifier": "all nodes, data, query points", "why_tests_cant": "all reals", "anchors": ["casadi_extras/collocation/polynomial.py:polynomialInterpolator", "casadi_extras/collocation/polynomial.py:barycentricInterpolator"]}
{"id": "C48", "title": "Chebyshev grid is valid", "statement": "For order >= 1 the Chebyshev points are order+1 strictly increasing numbers with first 0 and last 1 (so all collocation constructions on them are well defined); cheb(N,t0,tf) returns a grid from t0 to tf and a matrix differentiating polynomials of degree <= N on that grid.", "quantifier": "all orders, all t0 != tf", "why_tests_cant": "all orders", "anchors": ["casadi_extras/collocation/polynomial.py:collocationPoints", "casadi_extras/collocation/polynomial.py:cheb"]}
{"id": "C49", "title": "Butcher tableau quadrature is exact", "statement": "For distinct nodes tau (n of them), A applied to nodal values of a polynomial f of degree < n gives the integrals of f from 0 to tau_i and b gives the integral from 0 to 1; hence row sums of A are tau and b sums to 1.", "quantifier": "all node sets, all polynomials of degree < n", "why_tests_cant": "all reals", "anchors": ["casadi_extras/collocation/butcher.py:butcherTableuForCollocationPoints"]}
{"id": "C50", "title": "Tableau constructor shape checks", "statement": "ButcherTableau(A,b,c) is accepted iff A is square N x N and b, c have length N.", "quantifier": "all shapes", "why_tests_cant": "all shapes", "anchors": ["casadi_extras/collocation/butcher.py:ButcherTableau.__init__"]}
{"id": "C51", "title": "Piecewise evaluation picks the right piece", "statement": "PiecewisePoly(t, continuity) for ascending bounds evaluates the polynomial of the interval containing t: with 'right' a bound belongs to the interval on its right, with 'left' to the one on its left, points outside use the first/last interval; inside open intervals both options agree; a vector of points is evaluated pointwise in order.", "quantifier": "all ascending interval lists, all t", "why_tests_cant": "all reals", "anchors": ["casadi_extras/collocation/piecewise_poly.py:PiecewisePoly.__call__"]}
{"id": "C52", "title": "Piecewise derivative", "statement": "derivative() evaluates, in the interior of each interval, to the derivative of the original function; the interval list is unchanged.", "quantifier": "all piecewise polynomials, all t", "why_tests_cant": "all reals", "anchors": ["casadi_extras/collocation/piecewise_poly.py:PiecewisePoly.derivative"]}
{"id": "C53", "title": "discretize() covers every interval", "statement": "For step > 0, discretize(step) returns ascending x that contains both ends of each interval, whose consecutive points inside an interval are at most step apart, and y equal to the piece's value at x; it never raises.", "quantifier": "all step > 0, all interval lists", "why_tests_cant": "all reals; floating-point corner cases of arange", "anchors": ["casadi_extras/collocation/piecewise_poly.py:PiecewisePoly.discretize"]}
{"id": "C54", "title": "poly(n) returns the local polynomial", "statement": "poly(n)[i](t) equals self(intervals[n]+t)[i] for t inside the interval, for every piecewise polynomial.", "quantifier": "all coefficient values, all t", "why_tests_cant": "degenerate coefficient values (degree drop) are measure-zero and missed by random tests", "anchors": ["casadi_extras/collocation/piecewise_poly.py:PiecewisePoly.poly"]}
{"id": "C55", "title": "Pdq grid", "statement": "Pdq(t, order) for ascending t yields N*order+1 strictly ascending collocation points, containing every interval bound, with t0/tf the ends, and group i is the set of indices of points in interval i including both ends.", "quantifier": "all ascending t, all orders >= 1", "why_tests_cant": "all grids", "anchors": ["casadi_extras/collocation/collocation.py:Pdq.__init__"]}
{"id": "C56", "title": "Pdq.derivative is exact on piecewise polynomials", "statement": "If y holds the values at the collocation points of a continuous function that is a polynomial of degree <= order on each interval, derivative(y) gives at every point but the last the derivative of the piece to the right of that point, for every supported polynomial_type.", "quantifier": "all grids, orders, piecewise polynomials, all point types", "why_tests_cant": "all reals and point types", "anchors": ["casadi_extras/collocation/collocation.py:Pdq.__init__", "casadi_extras/collocation/collocation.py:Pdq.derivative"]}
{"id": "C57", "title": "Pdq.integral inverts derivative", "statement": "integral(dy) is the unique y (at all points but the first) with derivative([0, y]) = dy.", "quantifier": "all grids, all dy", "why_tests_cant": "all reals", "anchors": ["casadi_extras/collocation/collocation.py:Pdq.integral"]}
{"id": "C58", "title": "expandInput repeats each interval's input", "statement": "expandInput(u) has order columns for each interval, all equal to that interval's column of u, in interval order.", "quantifier": "all u, N, order", "why_tests_cant": "all sizes", "anchors": ["casadi_extras/collocation/collocation.py:Pdq.expandInput"]}
{"id": "C59", "title": "Pdq interpolators reproduce their data", "statement": "For each continuity option, interpolator(continuity)(x, t_k) returns the data column belonging to collocation point t_k, and interpolates exactly data sampled from polynomials of the corresponding degree.", "quantifier": "all grids, data, options 'both','left','right'", "why_tests_cant": "all options x all intervals", "anchors": ["casadi_extras/collocation/collocation.py:_PdqInterpolator.__init__", "casadi_extras/collocation/collocation.py:_PdqInterpolator.__call__"]}
{"id": "C60", "title": "SystemTrajectory evaluates its samples", "statement": "SystemTrajectory(x,z,u,pdq) with matching column counts gives state(t_k)=x[:,k] at every collocation point and algState/input(t_k)=z[:,k]/u[:,k] at every point but the last; mismatched column counts are rejected.", "quantifier": "all trajectories", "why_tests_cant": "all grids and data", "anchors": ["casadi_extras/system_trajectory.py:SystemTrajectory"]}
{"id": "C61", "title": "Collocation equations are the Runge-Kutta collocation equations", "statement": "In CollocationScheme, X[:,nM+i] = x_n + h_n*sum_j A_ij K_nj, tc[nM+i] = t_n + h_n c_i, the input at collocation points is that of its interval, and eq == 0 iff the DAE residual vanishes at every collocation point, x_n + h_n*sum_j b_j K_nj = x_{n+1} for every interval and (with repeat_param) all parameter columns coincide.", "quantifier": "all N, M, nx, nz, all values of the variables, all DAEs", "why_tests_cant": "all sizes and values", "anchors": ["casadi_extras/collocation/collocation.py:CollocationScheme.__init__"]}
{"id": "C62", "title": "Solutions of the scheme are collocation trajectories", "statement": "If eq == 0, the piecewise polynomial returned by piecewisePolyX passes through x_n at t_n from both sides (continuous), its value and its time derivative at every collocation point are X and K, so it satisfies the DAE at every collocation point.", "quantifier": "all DAEs, all solutions of the equations", "why_tests_cant": "all solutions", "anchors": ["casadi_extras/collocation/collocation.py:CollocationScheme.piecewisePolyX", "casadi_extras/collocation/collocation.py:CollocationScheme.evalX"]}
{"id": "C63", "title": "Polynomial solutions are reproduced exactly", "statement": "If the DAE has a solution whose state is a polynomial of degree <= M on each interval, sampling it satisfies the collocation equations exactly; if moreover quad along it has degree < M, q at the interval ends is the exact integral.", "quantifier": "all DAEs with such a solution", "why_tests_cant": "all functions", "anchors": ["casadi_extras/collocation/collocation.py:CollocationScheme.__init__"]}
{"id": "C64", "title": "Quadratures accumulate over the intervals", "statement": "scheme.q has N+1 columns, starts at 0, q_{n+1} = q_n + h_n * b . quad on interval n, and Q[:,nM+i] = q_n + h_n*sum_j A_ij quad_nj.", "quantifier": "all sizes and values", "why_tests_cant": "all sizes", "anchors": ["casadi_extras/collocation/collocation.py:CollocationScheme.__init__"]}
{"id": "C65", "title": "The integrator's system is square", "statement": "The rootfinding problem posed by the integrator has as many equations as unknowns, for every DAE and grid.", "quantifier": "all nx, nz, N, M, np", "why_tests_cant": "all sizes", "anchors": ["casadi_extras/collocation/collocation.py:CollocationIntegrator.__init__", "casadi_extras/collocation/collocation.py:CollocationScheme.__init__"]}
{"id": "C66", "title": "Integrator outputs are consistent", "statement": "If the rootfinder returns a root, the outputs of the integrator satisfy: x[:,0]=x0, xf = x[:,1:], collocation and continuity equations hold for (x,K,Z,u,p), X, Q, qf are those of the scheme at that root and at the parameter value passed by the caller.", "quantifier": "all DAEs incl. those with parameters and quadratures", "why_tests_cant": "all DAEs and parameter values", "anchors": ["casadi_extras/collocation/collocation.py:CollocationIntegrator.__init__"]}
{"id": "C67", "title": "combine() exposes the named parts", "statement": "combine(what) accepts exactly the documented part names and returns a structure with one entry per name holding that part, in the given order.", "quantifier": "all lists of names", "why_tests_cant": "all lists", "anchors": ["casadi_extras/collocation/collocation.py:CollocationScheme.combine"]}
{"id": "C68", "title": "CollocationSimulator can be constructed", "statement": "CollocationSimulator(dae, t, poly_order) returns a simulator for every valid DAE and grid.", "quantifier": "all DAEs and grids", "why_tests_cant": "a universally failing constructor has no passing test", "anchors": ["casadi_extras/collocation/collocation.py:CollocationSimulator.__init__"]}
{"id": "C69", "title": "save/struct_load round trip", "statement": "s.save(f); struct_load(f) returns an equal structure.", "quantifier": "all structures", "why_tests_cant": "all structures", "anchors": ["casadi_extras/structure3.py:DMStruct.save", "casadi_extras/structure3.py:CasadiStructure.save", "casadi_extras/structure3.py:struct_load"]}
{"id": "C70", "title": "The struct keyword is honoured or rejected", "statement": "entry(name, struct=v) either raises or creates an entry whose sub-structure is v; a value that is not a structure is never silently ignored.", "quantifier": "all values v and other keywords", "why_tests_cant": "all values", "anchors": ["casadi_extras/structure3.py:CasadiStructEntry.__init__"]}
{"id": "C71", "title": "integrate() calls the integrator", "statement": "CollocationIntegrator.integrate called with the integrator's inputs returns the trajectory of the state through the integrator's result, whether the inputs are given by name or by position.", "quantifier": "all DAEs, inputs and calling conventions", "why_tests_cant": "all solutions", "anchors": ["casadi_extras/collocation/collocation.py:CollocationIntegrator.integrate"]}
{"id": "C72", "title": "Canonical indices address the component they name", "statement": "For every position i of a structure, s[getCanonicalIndex(i, extraMode)] reads component i of the data: with extraMode=0 the leaf that contains it, with extraMode=1 and extraMode=2 the component itself.", "quantifier": "all structures, positions and modes", "why_tests_cant": "all structures, incl. sparse and non-scalar leaves", "anchors": ["casadi_extras/structure3.py:getCanonicalIndex", "casadi_extras/structure3.py:__getitem__"]}
{"id": "C73", "title": "Labels identify the components", "statement": "labels(extraMode) returns one string per component of the structure, in order, each getLabel(i, extraMode), and no two components of a structure share a label.", "quantifier": "all structures and all modes", "why_tests_cant": "all structures and names", "anchors": ["casadi_extras/structure3.py:getLabel", "casadi_extras/structure3.py:labels"]}
{"id": "C74", "title": "The integrator's rootfinder starts from the constant trajectory", "statement": "The integrator calls its rootfinder at the point with every state column equal to x0, all derivatives zero and every algebraic column equal to z0, and the x, K and Z outputs are the parts of the rootfinder's answer.", "quantifier": "all DAEs, grids, orders and inputs", "why_tests_cant": "all sizes", "anchors": ["casadi_extras/collocation/collocation.py:CollocationIntegrator.__init__"]}
{"id": "C75", "title": "The properties of a collocation scheme can be read", "statement": "Every public property of CollocationScheme (pdq, t, tc, numTotalCollocationPoints, x, X, xdot, K, Z, U, u, p, q, Q, quad, eq, butcher) can be read on every scheme and returns the documented quantity with the documented shape.", "quantifier": "all schemes", "why_tests_cant": "all schemes", "anchors": ["casadi_extras/collocation/collocation.py:CollocationScheme"]}
{"id": "C76", "title": "Flat indices list the positions of the index matrices", "statement": "s.f[idx] is the list of all flat positions that s.i[idx] shows, in reading order, for every power index idx for which s.i[idx] is an index matrix or a nested list of index matrices.", "quantifier": "all structures and power indices without callables", "why_tests_cant": "all structures and indices", "anchors": ["casadi_extras/structure3.py:CasadiStructure.FlatIndexDispatcher", "casadi_extras/structure3.py:FlatIndexGetter", "casadi_extras/structure3.py:vec"]}
{"id": "C77", "title": "Reading shows the elements at the listed positions", "statement": "In a structure without symmetric entries, s[idx] succeeds exactly when s.i[idx] does, and is s.i[idx] with every index matrix replaced by the matrix of the same sparsity pattern holding the elements of s.cat at its positions.", "quantifier": "all structures, data and power indices without callables (names, integers, negative integers, slices, lists, sets, ellipsis, {}, nesteddict, extra matrix indices)", "why_tests_cant": "all indices on all structures", "anchors": ["casadi_extras/structure3.py:GetterDispatcher.__call__", "casadi_extras/structure3.py:CasadiStructure.IMDispatcher", "casadi_extras/structure3.py:correct_vector_indexing"]}
{"id": "C78", "title": "getStruct returns sub-structures", "statement": "s.getStruct(name) returns the sub-structure of the entry with that name, and raises the documented Exception if there is no such entry or the entry has no sub-structure.", "quantifier": "all structures and names", "why_tests_cant": "all names", "anchors": ["casadi_extras/structure3.py:Structure.getStruct"]}
{"id": "C79", "title": "Symbolic structures hold one symbol per element", "statement": "struct_symSX([...]) accepts lists of entries with different names and without expr=, and holds size pairwise different new symbols, those of a leaf being named after its canonical index; an entry declared with sym=X reads back as X. struct_symMX([...]) accepts no sym= and no expr=.", "quantifier": "all lists of entries", "why_tests_cant": "all structures", "anchors": ["casadi_extras/structure3.py:ssymStruct.__init__", "casadi_extras/structure3.py:msymStruct.__init__"]}
{"id": "C80", "title": "Pickling several structure objects together restores each", "statement": "pickle.loads(pickle.dumps([o1, ..., on])) restores every structure object of the list (struct, CasadiStructure, struct_symSX data, numeric structures) with its class, layout and values, also when objects share a structure or one's structure is a sub-structure of another's.", "quantifier": "all lists of structure objects, any sharing, and any history of earlier dumps", "why_tests_cant": "sharing patterns and histories", "anchors": ["casadi_extras/structure3.py:CasadiStructure.__getstate__", "casadi_extras/structure3.py:CasadiStructured.__getstate__", "casadi_extras/structure3.py:DMStruct.__setstate__"]}
{"id": "C81", "title": "squared_repeated is a stack of square views", "statement": "For a dense n x (N n) matrix A, V = s.squared_repeated(A) behaves as N square views side by side: V[k, ...] reads and writes like s.squared of the k-th n x n block of A, negative k count from the end, other blocks are unchanged, and matrices of any other shape raise.", "quantifier": "all structures, N, indices, data and sequences of assignments", "why_tests_cant": "all sizes and sequences", "anchors": ["casadi_extras/structure3.py:CasadiStructureDerivable.squared_repeated", "casadi_extras/structure3.py:DataReferenceSquaredRepeated"]}
{"id": "C82", "title": "Attributes of a prefixed structure are those of its block", "statement": "An attribute of s.prefix[p] that the Prefixer itself does not define is the attribute of s.prefix[p]() (as its comment says); for the views made by squared and product it is that of the viewed matrix, also after assignments.", "quantifier": "all structures, prefixes, data and attributes", "why_tests_cant": "all prefixes and attributes", "anchors": ["casadi_extras/structure3.py:Prefixer.__getattr__", "casadi_extras/structure3.py:Prefixer.__call__"]}
{"id": "C83", "title": "intervalLength is the distance of the outermost collocation points", "statement": "Pdq.intervalLength() is positive, is the largest distance between two collocation points, and equals t[-1]-t[0] exactly when the collocation nodes include the end of the interval.", "quantifier": "all ascending t, orders >= 1 and node sets", "why_tests_cant": "all grids", "anchors": ["casadi_extras/collocation/collocation.py:Pdq.intervalLength"]}
{"id": "C84", "title": "Views of MX matrices behave as views of numeric matrices", "statement": "repeated, squared, product and squared_repeated of an MX matrix succeed exactly when they do for a numeric matrix of the same shape, and the view reads and writes in the same way: every V[q] shows the current elements of the matrix and V[q] = v has the same effect on it.", "quantifier": "all structures, dense MX matrices, power indices and sequences of assignments", "why_tests_cant": "all shapes and sequences", "anchors": ["casadi_extras/structure3.py:CasadiStructureDerivable.repeated", "casadi_extras/structure3.py:CasadiStructureDerivable.squared", "casadi_extras/structure3.py:CasadiStructureDerivable.product", "casadi_extras/structure3.py:CasadiStructureDerivable.squared_repeated", "casadi_extras/structure3.py:VertsplitStructure.buildMap", "casadi_extras/structure3.py:MXStruct.__init__"]}
{"id": "C85", "title": "simulate() returns the simulated trajectory", "statement": "CollocationSimulator.simulate(x0, input, param) calls input once at every collocation point, in ascending order, evaluates the simulation with these inputs and returns its trajectory; if the DAE has parameters and param is missing it raises ValueError before calling input.", "quantifier": "all simulators, initial states, inputs and parameters", "why_tests_cant": "a method that never returns has no passing test", "anchors": ["casadi_extras/collocation/collocation.py:CollocationSimulator.simulate"]}
{"id": "C86", "title": "Structures that print alike are laid out alike", "statement": "If str(a) == str(b) for two CasADi structures whose names consist of letters, digits and underscores, then a and b have the same size, labels and index matrices; the same for repr.", "quantifier": "all pairs of structures, any nesting, repeats, grouping and orders", "why_tests_cant": "all pairs of structures", "anchors": ["casadi_extras/structure3.py:Structure.__str__", "casadi_extras/structure3.py:StructEntry.__str__", "casadi_extras/structure3.py:CasadiStructEntry.primitiveString", "casadi_extras/structure3.py:CasadiStructure.__str__", "casadi_extras/structure3.py:Structured.__str__"]}
{"id": "C87", "title": "Blocks of symmetric entries", "statement": "For entry type='symm' and selectors a, b without repetitions, s[name,a,b] = m with m of the pattern of that block makes s[name][a,b] equal to m and s[name][b,a] to its transpose (where the two overlap, the elements of m on or above the diagonal win), keeps s[name] symmetric and changes nothing else; a scalar fills both blocks; other patterns raise and change nothing. s[name,a,b] reads s[name][a,b], and s[name,k] reads and writes element k of s[name].", "quantifier": "all sizes, patterns, selectors, values and prior states", "why_tests_cant": "all blocks and overlaps", "anchors": ["casadi_extras/structure3.py:SetterDispatcher", "casadi_extras/structure3.py:GetterDispatcher", "casadi_extras/structure3.py:performExtraIndex"]}
{"id": "C88", "title": "A list of names distributes over index and right-hand side", "statement": "s[[n1,...,nk]] = [v1,...,vk] has the effect of s[n1] = v1; ...; s[nk] = vk in that order, and s[[n1,...,nk], rest] reads [s[n1,rest], ..., s[nk,rest]].", "quantifier": "all structures, lists of names, values and prior states", "why_tests_cant": "all structures, entry kinds and names", "anchors": ["casadi_extras/structure3.py:Structure.traverseByPowerIndex", "casadi_extras/structure3.py:SetterDispatcher", "casadi_extras/structure3.py:GetterDispatcher"]}
{"id": "C89", "title": "Lists on the right-hand side are matrices given by rows", "statement": "For an element of shape n x k (not symmetric), s[...] = [[...],...] with n rows of k numbers sets element (i,j) of its pattern to number j of row i; a flat list of numbers sets a column or row, and a list of one number fills the element. Rows of different lengths and other shapes raise and change nothing; nothing outside the element changes.", "quantifier": "all structures, elements, numbers and prior states", "why_tests_cant": "all shapes and patterns", "anchors": ["casadi_extras/structure3.py:SetterDispatcher"]}
{"id": "C90", "title": "Contradictory constructor arguments raise Exception", "statement": "entry() without exactly one positional argument; struct([...]) with duplicate names, with tuples together with order=, or with order= naming something undeclared; struct_SX, struct_MX, struct_MX_mutable with an entry without expr; struct_symSX, struct_symMX with an entry with expr, struct_symMX with sym: all raise Exception (not another class).", "quantifier": "all lists of entries and orders", "why_tests_cant": "all combinations of arguments", "anchors": ["casadi_extras/structure3.py:entry", "casadi_extras/structure3.py:EntryList.__init__", "casadi_extras/structure3.py:Structure.__init__", "casadi_extras/structure3.py:MatrixStruct.__init__", "casadi_extras/structure3.py:MXVeccatStruct.__init__", "casadi_extras/structure3.py:ssymStruct.__init__", "casadi_extras/structure3.py:msymStruct.__init__"]}
{"id": "C91", "title": "A structure made from data keeps its own copy", "statement": "After t = s(d) (d a number, list, array, DM, or the .cat of another structure), assignments to t leave d, and every other structure made from d, as they were.", "quantifier": "all structures, data and sequences of assignments", "why_tests_cant": "needs later mutation observed through another object", "anchors": ["casadi_extras/structure3.py:CasadiStructureDerivable.__call__", "casadi_extras/structure3.py:CasadiStructureDerivable.argtype", "casadi_extras/structure3.py:MatrixStruct.__init__"]}
{"id": "C92", "title": "Assignments stay within their entry, also when refused", "statement": "No assignment s[...] = v, accepted or refused, changes the number of elements of s.cat; s[n, ...] = v leaves everything that s[m, ...] reads for entries m other than n as it was; the matrix behind repeated and squared_repeated views keeps holding the numbers of the view.", "quantifier": "all structures, power indices, right-hand sides and prior states", "why_tests_cant": "all indices and partial failures", "anchors": ["casadi_extras/structure3.py:SetterDispatcher", "casadi_extras/structure3.py:Structure.traverseByPowerIndex", "casadi_extras/structure3.py:StructEntry.traverseByPowerIndex", "casadi_extras/structure3.py:DataReferenceRepeated"]}
{"id": "C93", "title": "Order of the collocation points' quadrature", "statement": "For distinct points tau, the weights b of butcherTableuForCollocationPoints(tau) integrate every polynomial of degree < len(tau)+k over [0,1] exactly if and only if prod(x - tau_i) is orthogonal on [0,1] to all polynomials of degree < k (k = n for n Legendre points, n-1 for Radau points); never all of degree 2 n; from order 2n-1 on they are positive. A scheme's quadratures at the time grid are exact for integrands of that degree.", "quantifier": "all lists of distinct points, all k, all polynomials, grids and DAEs", "why_tests_cant": "all polynomials and points; floating-point tests sample a few", "anchors": ["casadi_extras/collocation/butcher.py:butcherTableuForCollocationPoints", "casadi_extras/collocation/collocation.py:CollocationScheme.__init__"]}
{"id": "C94", "title": "Collocation keeps the invariants of the dynamics", "statement": "Let the equations of a CollocationScheme hold. If every solution of the DAE (with these controls and parameters) keeps w'x, so does the scheme, at all points and grid times, whatever the points; if d(w'x)/dt or d(x'Sx)/dt is one of the quadratures, the scheme's quadrature is the change of w'x, with Legendre points that of x'Sx. With Legendre points (or Radau points, S >= 0): if x'Sx never grows along solutions, it does not grow along the scheme; the distance of two solutions of a DAE whose solutions do not move apart does not grow.", "quantifier": "all DAEs, grids, orders, points with these orthogonality properties, controls, parameters and solutions of the equations", "why_tests_cant": "all dynamics and step lengths", "anchors": ["casadi_extras/collocation/collocation.py:CollocationScheme.__init__", "casadi_extras/collocation/butcher.py:butcherTableuForCollocationPoints"]}
{"id": "C95", "title": "With short steps a CollocationScheme has exactly one solution", "statement": "If the DAE determines xdot with Lipschitz constant L in x and every step is at most 1/(2 alpha L) (alpha bounding the absolute sums of the Butcher coefficients of the points), then for every initial state, control and parameter the equations of CollocationScheme have a solution; any two with the same initial state agree in x, K and X, and otherwise their distance grows at most by exp(2 alpha L T). So an integrator's xf and X depend neither on the rootfinder nor on z0.", "quantifier": "all DAEs with these properties, grids, orders, points, controls, parameters and initial states", "why_tests_cant": "existence and uniqueness over all real vectors cannot be sampled", "anchors": ["casadi_extras/collocation/collocation.py:CollocationScheme.__init__", "casadi_extras/collocation/collocation.py:CollocationIntegrator.__init__", "casadi_extras/collocation/butcher.py:butcherTableuForCollocationPoints"]}
{"id": "C96", "title": "Error bound of collocation", "statement": "In the situation of the previous property, with points in (0,1]: if a solution of the DAE has a derivative that is on each interval within D of some polynomial of degree < order, then x at every grid time t is within exp(2 alpha L (t-t0)) (d + (t-t0)(1+alpha) D) of it, d being the distance of the initial states, X at the collocation points within twice such a bound; the same for an integrator's xf.", "quantifier": "all such DAEs, true solutions, grids, orders and points", "why_tests_cant": "needs the unknown true solution; tests compare few problems up to a tolerance", "anchors": ["casadi_extras/collocation/collocation.py:CollocationScheme.__init__", "casadi_extras/collocation/collocation.py:CollocationIntegrator.__init__", "casadi_extras/collocation/butcher.py:butcherTableuForCollocationPoints"]}
{"id": "C97", "title": "Block arithmetic with product views", "statement": "Let M be a matrix of s.size x s2.size and V = s.product(s2, M). If y = M v, then s(y)[a] is the sum over the entries b of s2 of V[a, b] times s2(v)[b]; the blocks of v w' are V[a, b] = s(v)[a] s2(w)[b]'; and s2.product(s, M')[b, a] is the transpose of V[a, b].", "quantifier": "all structures with dense non-symmetric leaves, all matrices and vectors, also after assignments through the view", "why_tests_cant": "all structures and index pairs", "anchors": ["casadi_extras/structure3.py:CasadiStructureDerivable.product", "casadi_extras/structure3.py:CasadiStructureDerivable.__call__"]}
{"id": "C98", "title": "Splitting the time grid", "statement": "The equations of a CollocationScheme over t hold if and only if those of the schemes over t[:k+1] and t[k:] hold for the corresponding columns of x, K, Z, u (and, with repeat_param, the parameters of both parts agree); tc is the concatenation of theirs, X consists of theirs, and q, Q of the second part start at q of the end of the first one. Under the short-step condition, an integrator over t returns what an integrator over t[:k+1] followed by one over t[k:] from its last xf returns.", "quantifier": "all DAEs, grids, split points 0 < k < N, orders, points, controls and parameters", "why_tests_cant": "all grids, dynamics and split points", "anchors": ["casadi_extras/collocation/collocation.py:CollocationScheme.__init__", "casadi_extras/collocation/collocation.py:CollocationIntegrator.__init__"]}
{"id": "C99", "title": "Changes of variables and of the time axis", "statement": "If x = S y + d, t = c + k s (k != 0, S any real matrix, not necessarily square) carries the solutions of a DAE for y over s into solutions of a DAE for x over t, then it carries the solutions of the equations of the CollocationScheme for y into solutions for x over the transformed grid; tc, X transform likewise, and quadratures with the same integral stay the same. Under the short-step condition and k > 0, so do an integrator's xf, X and tc.", "quantifier": "all pairs of DAEs related in this way, grids, orders, points, controls, parameters and solutions", "why_tests_cant": "all transformations and dynamics", "anchors": ["casadi_extras/collocation/collocation.py:CollocationScheme.__init__", "casadi_extras/collocation/collocation.py:CollocationIntegrator.__init__"]}
{"id": "C100", "title": "Error bounds of the trajectory, the algebraic states and the quadratures", "statement": "In the situation of the previous error bound, write E(t) for the bound at grid time t and lam for a Lebesgue constant of the points. Inside the interval from t_n to t_n+1 the piecewise polynomial of piecewisePolyX (or of integrate) is at time v within E(t_n) + (v-t_n)(lam (2 L E(t_n+1) + D) + D) of the true solution, and its derivative within the last factor; if z and the quadrature rates depend on x with constants Lz, Lq, then Z is within 2 Lz E(t_n+1) of the true algebraic states, and q, Q (and an integrator's qf) within T (2 alpha Lq E + (1+alpha) Dq) of the true integrals. alpha and lam exist for all distinct points.", "quantifier": "all such DAEs, true solutions, grids, orders, points, rootfinders and times", "why_tests_cant": "needs the unknown true solution at all times; tests compare few problems up to a tolerance", "anchors": ["casadi_extras/collocation/collocation.py:CollocationScheme.__init__", "casadi_extras/collocation/collocation.py:CollocationIntegrator.__init__", "casadi_extras/collocation/collocation.py:CollocationScheme.piecewisePolyX", "casadi_extras/collocation/piecewise_poly.py:PiecewisePoly"]}
{"id": "C101", "title": "Assignments of nested values", "statement": "Let s have no entry of type symm, let the index consist of names, integers, initial slices, ..., {}, sets, nesteddict, and let s.i[idx] list no position twice. s[idx] = v succeeds if v suits s.i[idx] level by level (numbers and matrices that fit, lists long enough, dicts whose keys occur, one value for all): then s[idx] reads exactly those values, entries missing in a dict and all other elements are unchanged. Without sets, it succeeds only then. So t[idx] = s[idx] copies exactly the elements of s.i[idx]; nesteddict lists every position once, and t[nesteddict] = s[nesteddict] makes t.cat equal s.cat.", "quantifier": "all structures without symmetric entries, such indices, right-hand sides and prior states", "why_tests_cant": "all nestings of lists and dicts", "anchors": ["casadi_extras/structure3.py:SetterDispatcher", "casadi_extras/structure3.py:payloadUnpack", "casadi_extras/structure3.py:Structure.traverseByPowerIndex", "casadi_extras/structure3.py:StructEntry.traverseByPowerIndex", "casadi_extras/structure3.py:NestedDictLiteral"]}
{"id": "C102", "title": "Callables in indices", "statement": "s[pre, f, post] is f applied to what s[pre, post] is, for every value found behind pre; the same for s.i. s[pre, f, post] = v writes v into the elements f(s.i[pre, post]): it succeeds exactly if v fits them, changes nothing else, and changes nothing if it raises; if f only selects or rearranges, s[pre, f, post] then reads v.", "quantifier": "all structures, indices, callables, right-hand sides and prior states", "why_tests_cant": "all callables", "anchors": ["casadi_extras/structure3.py:Structure.traverseByPowerIndex", "casadi_extras/structure3.py:StructEntry.traverseByPowerIndex", "casadi_extras/structure3.py:Dispatcher.callableInner", "casadi_extras/structure3.py:Dispatcher.callableOuter", "casadi_extras/structure3.py:SetterDispatcher", "casadi_extras/structure3.py:performExtraIndex"]}
{"id": "C103", "title": "Accuracy of collocation at the grid times", "statement": "Let the equations of a CollocationScheme hold and let y solve the adjoint equation of the DAE along the difference of the piecewise polynomial and a true solution. Then y(t)'(x - true x) at a grid time minus its initial value is the integral of y' times the residual of the polynomial. If the points integrate t^j, j < order + k, exactly on [0,1] (Legendre: k = order, Radau: k = order - 1) and y' residual is within eps of polynomials of degree < order + k on every interval, it is at most 2 (t - t0) eps; with an (order + k)-th derivative bounded by B, at most 2 (t - t0) B H^(order+k)/(order+k)! for steps up to H. The same for xf of an integrator. With short steps the states are accurate up to H^order/order! times explicit constants.", "quantifier": "all DAEs that determine xdot and z, true solutions, adjoint solutions, grids, orders, points with this exactness, controls and parameters", "why_tests_cant": "needs unknown solutions; observed orders of a few runs prove nothing about other problems", "anchors": ["casadi_extras/collocation/collocation.py:CollocationScheme.__init__", "casadi_extras/collocation/collocation.py:CollocationIntegrator.__init__", "casadi_extras/collocation/collocation.py:CollocationScheme.piecewisePolyX", "casadi_extras/collocation/butcher.py:butcherTableuForCollocationPoints"]}
{"id": "C104", "title": "Results at grid and collocation points are exact in floating point", "statement": "In IEEE binary64, for finite ascending times whose differences do not overflow: PiecewisePoly evaluates the polynomial of the interval containing t at a local time which is within [0,1], nondecreasing in t, within 4*2^-53 of (t - t_i)/(t_i+1 - t_i), exactly 0 and 1 at the ends of the interval; so at interval ends it returns exactly the coefficients of nodes 0 and 1. barycentricInterpolator, the Pdq interpolators and SystemTrajectory return exactly their data at their nodes (no NaN, no rounding), CollocationScheme.piecewisePolyX exactly x at the grid times. tc lies within its interval and ascends with c.", "quantifier": "all finite binary64 grids, nodes, data and times", "why_tests_cant": "all floating-point inputs; tests compare few results up to a tolerance", "anchors": ["casadi_extras/collocation/piecewise_poly.py:PiecewisePoly.__call__", "casadi_extras/collocation/polynomial.py:PolynomialBasis.interpolationMatrix", "casadi_extras/collocation/polynomial.py:barycentricInterpolator", "casadi_extras/collocation/collocation.py:Pdq", "casadi_extras/collocation/collocation.py:PdqInterpolator", "casadi_extras/collocation/collocation.py:CollocationScheme.__init__", "casadi_extras/collocation/collocation.py:CollocationScheme.piecewisePolyX"]}
{"id": "C105", "title": "Rounding errors of interpolation and differentiation are small multiples of the unit roundoff", "statement": "In IEEE binary64, an interpolated value of barycentricInterpolator or PiecewisePoly differs from the exact interpolation polynomial of the data by at most a small multiple, linear in the number n of nodes, of 2^-53 times the condition of the interpolation problem (for PiecewisePoly plus 4*2^-53 times the slope, from rounding the local time); the elements of the interpolation and differentiation matrices and of the coefficients of PiecewisePoly.derivative() likewise. The result is always a finite number.", "quantifier": "all finite binary64 nodes, data, grids and times with moderate magnitudes", "why_tests_cant": "all floating-point inputs; a tolerance in a test is neither a proof nor a bound", "anchors": ["casadi_extras/collocation/polynomial.py:PolynomialBasis.__init__", "casadi_extras/collocation/polynomial.py:PolynomialBasis.interpolationMatrix", "casadi_extras/collocation/polynomial.py:barycentricInterpolator", "casadi_extras/collocation/piecewise_poly.py:PiecewisePoly.__call__", "casadi_extras/collocation/piecewise_poly.py:PiecewisePoly.derivative"]}
{"id": "C106", "title": "Integration with Legendre points is reversible in time", "statement": "With method='legendre' (points that lie symmetrically around 1/2, which follows from their order): if x, K, Z, u, p satisfy the equations of a CollocationScheme on the grid t, then the same columns in reverse order satisfy those on the reversed grid; tc and X are reversed and the quadratures count from the end. The same holds for the time-transformed DAE on the grid c + kap*t (K divided by kap), so a CollocationIntegrator for the DAE that runs backwards, started in the final state with reversed controls, passes the same states and returns to the initial state. The Butcher tableau satisfies b_l = b_(s+1-l), a_jl + a_(s+1-j)(s+1-l) = b_l. The points of an order are determined by that order: no other ascending points have Legendre's (or, with 1 among them, Radau's). For Radau's points none of this holds.", "quantifier": "all DAEs, grids, orders, symmetric points, controls, parameters and root finders; for the integrator steps short enough for the solution to be unique", "why_tests_cant": "needs all problems and orders; the exact algebraic symmetry is hidden by solver tolerances", "anchors": ["casadi_extras/collocation/collocation.py:CollocationScheme.__init__", "casadi_extras/collocation/collocation.py:CollocationIntegrator.__init__", "casadi_extras/collocation/butcher.py:butcherTableuForCollocationPoints", "casadi_extras/collocation/polynomial.py:collocationPoints"]}
{"id": "C107", "title": "Points at the end of the interval: consistent grid states and damping of fast dynamics", "statement": "If the last collocation point is 1 (method='radau') and the equations of a CollocationScheme hold, then the collocation time, X and Q of that point equal the grid time t_n+1, x and q there, and the DAE itself holds at t_n+1 with the grid state x_n+1, K and Z of that point (so algebraic equations hold at grid times); CollocationIntegrator's X, Q at these columns are its xf, qf. If moreover two solutions of the DAE with equal inputs are never further apart than eps times their slopes (fast decay), then there is a constant C of the points only such that every step of length h multiplies the difference of two solutions of the equations by at most 2*eps*C/h, at all collocation points and, with Radau points, at the grid times; so n steps with 2*eps*C <= r*h, r <= 1 by r^n, for CollocationIntegrator whatever the root finder. No factor below 1 holds for the Legendre point 1/2.", "quantifier": "all DAEs, grids, orders, points (not containing 0), controls, parameters, pairs of solutions and of root finders", "why_tests_cant": "needs all problems and arbitrarily fast dynamics", "anchors": ["casadi_extras/collocation/collocation.py:CollocationScheme.__init__", "casadi_extras/collocation/collocation.py:CollocationIntegrator.__init__", "casadi_extras/collocation/butcher.py:butcherTableuForCollocationPoints", "casadi_extras/collocation/polynomial.py:collocationPoints"]}
{"id": "C108", "title": "For dissipative dynamics a CollocationScheme has exactly one solution, however long the steps", "statement": "Let two solutions of the DAE with equal inputs never move apart, in some inner product, at a relative rate above nu (nu <= 0: dissipative), and let h*nu < 2 for all step lengths h with method='legendre', h*nu < 1/2 with method='radau' - no restriction for nu <= 0, however large the Lipschitz constant. Then for every initial state, u and p the equations of a CollocationScheme have a solution if the DAE determines xdot, z Lipschitz continuously, and any two solutions with equal initial state agree in x, K, X (and Z, q, Q if the DAE determines z). A CollocationIntegrator's xf, X, Z, qf do not depend on the rootfinder or z0. The bound 2 is sharp. Legendre's points lie strictly within the interval, Radau's in (0,1].", "quantifier": "all such DAEs, inner products, grids, orders, points with this exactness, controls, parameters, initial states, root finders", "why_tests_cant": "needs all problems and arbitrarily stiff dynamics; a solver that finds one solution shows neither existence elsewhere nor uniqueness", "anchors": ["casadi_extras/collocation/collocation.py:CollocationScheme.__init__", "casadi_extras/collocation/collocation.py:CollocationIntegrator.__init__", "casadi_extras/collocation/butcher.py:butcherTableuForCollocationPoints", "casadi_extras/collocation/polynomial.py:collocationPoints"]}
{"id": "C109", "title": "Error bounds of collocation that do not depend on stiffness", "statement": "For Legendre's or Radau's points and an inner product there is a constant C such that for every DAE whose solutions with equal inputs move apart in it at a relative rate of at most nu >= 0 (0: dissipative), with steps h*nu <= 1/8 and however large Lipschitz constant, and every true solution whose derivative is on each interval within D of a polynomial of degree < order: the norm of the error of x of a CollocationScheme at grid time t is at most exp(C nu (t-t0)) (initial error + (t-t0) C D); X at the collocation points, and xf, X of a CollocationIntegrator likewise. With an order-th derivative of xdot bounded by B and steps up to H, D = B H^order/order!. For other points errors may grow.", "quantifier": "all such DAEs, true solutions, inner products, grids, orders, Legendre or Radau points, controls, parameters, root finders", "why_tests_cant": "needs the unknown true solution and arbitrarily stiff problems; C96's bound grows exponentially with the Lipschitz constant", "anchors": ["casadi_extras/collocation/collocation.py:CollocationScheme.__init__", "casadi_extras/collocation/collocation.py:CollocationIntegrator.__init__", "casadi_extras/collocation/butcher.py:butcherTableuForCollocationPoints", "casadi_extras/collocation/polynomial.py:collocationPoints"]}
{"id": "C110", "title": "Integrators of well-determined problems: stages, changes of variables and reversal, for all outputs and long steps", "statement": "If steps are short for the Lipschitz constant, or the dynamics have a one-sided bound (dissipative: any step) and the points are Legendre's or Radau's, then a solution of a CollocationScheme is determined by its initial state. Hence for a CollocationIntegrator, whatever root finders and guesses are used: integrating over [t0..tk] and on from there over [tk..tN] gives the same tc, xf, X as at once, and, if the DAE determines z, the same Z, the quadratures Q shifted by the first part's qf, and qf the sum; affine changes of state and time give the transformed tc, xf, X and the same Z, Q, qf; with symmetric points the time-reversed DAE leads back to x0 through the same X, Z, with qf of opposite sign.", "quantifier": "all such DAEs, grids, split points, changes of variables, root finders, orders, controls and parameters", "why_tests_cant": "relations between several runs of the integrator; C98, C99, C106 need short steps and leave out Z, Q and qf", "anchors": ["casadi_extras/collocation/collocation.py:CollocationIntegrator.__init__", "casadi_extras/collocation/collocation.py:CollocationScheme.__init__"]}
{"id": "C111", "title": "Parts of an entry selected by the names of its shapestruct", "statement": "For an entry with shapestruct=(A, B): s[..., a, b], where a is a name or list of names of A, index[...] or indexf[...] of it (b likewise for B; integers, lists and slices may be mixed in), reads, writes and indexes (s.i, s.f) exactly what the same expression with the positions A.f[a], B.f[b] would: the block of these rows and columns, a written matrix going there element by element and everything else staying. With a single selector the elements counted down the columns; index[...] that is a row gives a row, or a column when the entry is a column, and writes like the list. A name that does not exist, a name for a dimension without structure or for an entry without shapestruct, or a list mixing names and numbers raises an exception and leaves the struct unchanged.", "quantifier": "all structures, nested and repeated entries, shapestructs, names and delayed indices, states and values; entries without type='symm' for the element-wise part", "why_tests_cant": "needs all layouts of two structures at once; a wrong row only shows when its neighbours differ", "anchors": ["casadi_extras/structure3.py:delegation", "casadi_extras/structure3.py:performExtraIndex", "casadi_extras/structure3.py:IndexDelegater", "casadi_extras/structure3.py:FlatIndexDelegater"]}
{"id": "C112", "title": "Stiffness-independent error bounds for algebraic states, quadratures and trajectories", "statement": "Under C109's conditions, with C, al depending on the points and the inner product only, let E(t) = C exp(C nu (t-t0)) (initial error + (t-t0) C D). If z of the DAE depends on x with constant Lz, then Z of a CollocationScheme differs from the true algebraic states at the collocation points by at most Lz E(t_{n+1}). If the quadrature rate depends on x with constant Lq and its true values are on each interval within Dq of a polynomial of degree < order, then q at t_n is within (t_n-t0)(al Lq E(t_n) + (1+al) Dq) of the true integral, and Q likewise with t_{n+1}. For a CollocationIntegrator the same holds for Z and qf without initial error. The trajectory that CollocationIntegrator.integrate returns (or piecewisePolyX of a scheme's solution) is between the grid points within c (exp(C nu (t-t0)) (initial error + (t-t0) C D) + h D) of the true solution at the end t of the interval of length h. The Lipschitz constant of the DAE does not enter any of these.", "quantifier": "all such DAEs, true solutions, inner products, grids, orders, Legendre or Radau points, controls, parameters, root finders, times", "why_tests_cant": "needs the unknown true solution and arbitrarily stiff problems; C100's bounds grow exponentially with the Lipschitz constant", "anchors": ["casadi_extras/collocation/collocation.py:CollocationScheme.__init__", "casadi_extras/collocation/collocation.py:CollocationIntegrator.__init__", "casadi_extras/collocation/collocation.py:CollocationIntegrator.integrate", "casadi_extras/collocation/collocation.py:CollocationScheme.piecewisePolyX", "casadi_extras/collocation/butcher.py:butcherTableuForCollocationPoints", "casadi_extras/collocation/polynomial.py:collocationPoints"]}
{"id": "C113", "title": "Results depend on initial states, controls and parameters independent of stiffness", "statement": "For Legendre's or Radau's points and an inner product there are constants C, al such that for every DAE under C109's conditions (one-sided rate at most nu >= 0, steps h*nu <= 1/8, however large Lipschitz constant) whose xdot depends on controls, parameters and time-dependent parameters with constant Lu: two solutions of the equations of a CollocationScheme on the same grid whose inputs differ by at most d differ at grid time t by at most B(t) = exp(C nu (t-t0)) (difference of the initial states + (t-t0) C Lu d) in norm; X at the collocation points of an interval by at most C B(its end); Z by at most Lz C B + Lzu d and q, Q by at most (t-t0) al (Lq C B + Lqu d) if z and the quadrature rates depend on states and inputs with these constants. xf, X, Z, qf of a CollocationIntegrator likewise, whatever root finders and guesses z0 are used.", "quantifier": "all such DAEs, pairs of solutions, inner products, grids, orders, Legendre or Radau points, controls, parameters, time-dependent parameters, initial states, root finders", "why_tests_cant": "compares all pairs of runs, for arbitrarily stiff problems; a test perturbs few inputs of few problems", "anchors": ["casadi_extras/collocation/collocation.py:CollocationScheme.__init__", "casadi_extras/collocation/collocation.py:CollocationIntegrator.__init__", "casadi_extras/collocation/butcher.py:butcherTableuForCollocationPoints", "casadi_extras/collocation/polynomial.py:collocationPoints"]}
{"id": "C114", "title": "With short steps results depend on initial states, controls and parameters with explicit constants", "statement": "For any collocation points in (0,1] whose Butcher coefficients have absolute row sums at most al, and any DAE whose xdot depends on states with constant L and on controls, parameters and time-dependent parameters with constant Lu, on a grid with h*al*L <= 1/2: two solutions of the equations of a CollocationScheme whose inputs differ by at most d and initial states by at most e0 (in each component) differ at grid time t by at most B(t) = exp(2 al L (t-t0)) (e0 + (t-t0) al Lu d); X at the collocation points of an interval by at most 2 B(its end), K by L 2 B + Lu d, Z by Lz 2 B + Lzu d and q, Q by (t-t0) al (Lq 2 B + Lqu d) if z and the quadrature rates depend on states and inputs with these constants. xf, X, Z, qf of a CollocationIntegrator likewise, whatever root finders and guesses z0 are used.", "quantifier": "all such DAEs, pairs of solutions, grids, orders, points, controls, parameters, time-dependent parameters, initial states, root finders", "why_tests_cant": "compares all pairs of runs; a test perturbs few inputs of few problems", "anchors": ["casadi_extras/collocation/collocation.py:CollocationScheme.__init__", "casadi_extras/collocation/collocation.py:CollocationIntegrator.__init__", "casadi_extras/collocation/butcher.py:butcherTableuForCollocationPoints"]}
{"id": "C115", "title": "Results with inexact inputs are near the solution, and converge to it on refined grids", "statement": "Let trajectories of states, algebraic states, controls, parameters solve the DAE, whose derivatives and algebraic states are Lipschitz in states and inputs where it is solved. Whenever the equations of CollocationScheme are zero for controls, parameters and time-dependent parameters within d of those of the trajectories, on a grid with short steps (twice step times stage constant times Lipschitz constant at most 1), states at grid times, states and derivatives at collocation points, algebraic states, quadratures and piecewise polynomials differ from the trajectories by explicit multiples of the initial error, of d and of the best approximation of derivatives by polynomials. Hence, for continuous controls and derivatives, for every eps there is a step such that on every grid with steps at most that, with the controls of each interval taken anywhere in the interval and initial states near enough, every result of CollocationScheme, CollocationIntegrator and its integrate is within eps of the solution. If controls, derivatives and quadrature rates are Lipschitz in time, the errors are at most C times the largest step, with C depending on the constants, the points and the interval only.", "quantifier": "for all DAE functions with Lipschitz constants, solutions, all points, orders, methods, grids, inputs, eps > 0, root finders and guesses", "why_tests_cant": "tests observe few grids and cannot sample all controls, all choices of points in intervals or all refinements.", "anchors": ["casadi_extras/collocation/collocation.py:CollocationScheme.__init__", "casadi_extras/collocation/collocation.py:CollocationIntegrator.__init__", "casadi_extras/collocation/collocation.py:CollocationIntegrator.integrate", "casadi_extras/collocation/butcher.py:butcherTableuForCollocationPoints"]}
{"id": "C116", "title": "Refused entries raise Exception", "statement": "entry(name, **kw) with keyword arguments it does not accept raises Exception, with a message that says what is wrong, and no exception of another class: an unknown keyword, a forbidden combination, repeat that is not integers, a shape or shapestruct of another kind, sym that is not symbolic, expr without a sparsity, a type that is not 'symm' or a matrix that is not square.", "quantifier": "all names and keyword arguments made of Python values, structures and matrices", "why_tests_cant": "tests try few wrong values; the class of the exception matters to handlers", "anchors": ["casadi_extras/structure3.py:CasadiStructEntry.__init__", "casadi_extras/structure3.py:entry"]}
{"id": "C117", "title": "For dissipative problems results with sampled controls converge with first order, independent of stiffness", "statement": "For Legendre's or Radau's points, an inner product, rates nu >= 0, Lu, Lz, Lzu, Lq, Lqu, c and a length T there is one constant C such that for every DAE whose solutions with equal inputs move apart at a relative rate of at most nu (0: dissipative), with xdot depending on inputs with constant Lu, z and quadrature rates on states and inputs with constants Lz, Lzu, Lq, Lqu, and with however large dependence of xdot on states: if trajectories with xdot, controls and quadrature rates Lipschitz in time with constant c solve it on an interval no longer than T, then on every grid with steps at most dl (dl*nu <= 1/8), with each interval's controls taken anywhere in the interval and initial states within dl, the solution of the equations of CollocationScheme (x, X, Z, q, Q and piecewisePolyX) and xf, X, Z, qf and trajectory of CollocationIntegrator differ from the trajectories by at most C*dl. More generally, with inputs within d and derivatives within D of polynomials, x at grid time t is within exp(C nu (t-t0)) (initial error + (t-t0) C (Lu d + D)) in norm, and the other results accordingly.", "quantifier": "for all such DAE functions whatever their Lipschitz constant, solutions, orders, grids, controls, root finders and guesses", "why_tests_cant": "tests cannot try all stiffness ratios, grids and ways to sample the controls.", "anchors": ["casadi_extras/collocation/collocation.py:CollocationScheme.__init__", "casadi_extras/collocation/collocation.py:CollocationIntegrator.__init__", "casadi_extras/collocation/collocation.py:CollocationIntegrator.integrate", "casadi_extras/collocation/butcher.py:butcherTableuForCollocationPoints"]}
{"id": "C118", "title": "Symmetric entries of struct_MX", "statement": "struct_MX([..., entry('P', expr=E, type='symm'), ...]) accepts every square E, as struct_SX does, and s['P'] (also of repeats, and after assignments s['P', ...] = E') is the symmetric matrix whose elements on and above the diagonal are those of the expression last assigned. An expression whose sparsity is not that of the entry raises Exception.", "quantifier": "all lists of entries, expressions, repeats, histories of assignments", "why_tests_cant": "needs all sparsities and histories; a full and a triangular expression take different paths", "anchors": ["casadi_extras/structure3.py:MXVeccatStruct.__init__", "casadi_extras/structure3.py:CasadiStructEntry.__init__"]}
{"id": "C119", "title": "Which matrices the views of a structure accept", "statement": "s.repeated(A) accepts A exactly if A is dense with s.size rows; another number of rows raises the documented exception and a sparse A of the right height fails the assertion; so the default s.repeated() works only if s.size is 1. s.squared_repeated(A) accepts exactly dense matrices of shape (s.size, N s.size) with s.size > 0; for a structure of size 0 and a matrix without rows it raises ZeroDivisionError, any other wrong shape raises the documented exception, a sparse matrix of the right shape fails the assertion. s.product(s2, A) and s.squared(A) raise the documented exception exactly for a wrong shape that is not a scalar to be spread, and fail the assertion exactly for a sparse matrix of the right shape or a structurally zero scalar.", "quantifier": "all structures, all shapes and sparsities of the matrix, any element type", "why_tests_cant": "all shapes and sparsity patterns, including empty structures", "anchors": ["casadi_extras/structure3.py:CasadiStructureDerivable.repeated", "casadi_extras/structure3.py:CasadiStructureDerivable.squared_repeated", "casadi_extras/structure3.py:CasadiStructureDerivable.squared", "casadi_extras/structure3.py:CasadiStructureDerivable.product", "casadi_extras/structure3.py:DataReferenceRepeated", "casadi_extras/structure3.py:DataReferenceSquaredRepeated"]}
