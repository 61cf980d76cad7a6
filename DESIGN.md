# Design of the PyOGRe verification

The subject is the Python package in `/repo/src/PyOGRe` (tensor calculus on top of SymPy) at the
pinned commit. The code was read as text; it was neither built nor run. Everything below is about a
hand-written Gallina model in `rocq/theories`, and the tie to the code is the citation at each
definition.

## 1. What is modelled

| Model file | Code | Contents |
|---|---|---|
| `Base.v` | Python runtime | exceptions as values, ordered dictionaries, list helpers, the iterate-while-removing loop of CPython lists |
| `Alg.v` | SymPy scalars | the component algebra (see 2) |
| `Arr.v` | SymPy dense arrays | shape plus flat row-major data; get, tabulate, tensorproduct, tensorcontraction, permutedims, slicing, addition, elementwise maps |
| `UtilsM.v` | `Utils.py` | zero_tensor, elements, map_to_array, contract, partial_contract |
| `TensorM.v` | `Tensor.py`, `BaseTensor.py`, `Coordinates.py`, `Christoffel.py`, `Metric.py`, `Lagrangian.py`, `Geodesic.py` (pure parts) | raise and lower, coordinate change, Jacobians, change of Christoffel symbols, metric representations, Lagrangians and geodesic equations under coordinate change |
| `WorldM.v` | `OGReObject.py`, constructors, `delete`, `Options.py` session functions, representation caches | heap of objects, registry, state and exception monad, dynamically typed arguments |
| `CalcM.v` | `Calc.py` | CalcObject arithmetic, PartialD, CovariantD, Calc |
| `CurvM.v` | `Calc.py` | Christoffel symbols, Riemann, Ricci, scalar, Einstein and Weyl tensors |
| `LineM.v` | `Metric.py` | line and volume element |
| `WrapM.v` | `Coordinates.py`, `Metric.py`, `Tensor.py` | functions and methods that make objects, with default arguments |
| `CoordShowM.v` | `Coordinates.py` | show, list and call of coordinate systems |
| `DefaultsM.v` | `Defaults.py` | importing the module |
| `OptionsM.v` | `Options.py`, `Utils.py`, `OGReObject.py`, `BaseTensor.py` | options, `sympy.symbols`, `str_symbols`, labels of objects and components |
| `CurveM.v` | `BaseTensor.py`, `Lagrangian.py`, `Geodesic.py`, `Coordinates.py` | `get_components` with `replace`, coordinates as functions of the parameter |
| `ShowM.v` | `BaseTensor.py`, `Lagrangian.py`, `Geodesic.py`, `Coordinates.py` | `show`, `list` and `get_components` with all arguments |
| `FileM.v` | `Export.py`, `OGReObject.py` | export to files and import from files |
| `AliasM.v` | `Coordinates.py` | dictionaries of transformations that callers keep and coordinate systems share |
| `InfoM.v` | `OGReObject.py`, `Coordinates.py`, `Metric.py`, `Tensor.py` | `_get_info`, `info` |
| `GeodM.v` | `Calc.py` | Lagrangian and the three kinds of geodesic equations |
| `ListM.v` | `BaseTensor.list` | grouping and line breaking |
| `LexM.v`, `ParseM.v`, `InterpM.v` | `MathematicaParser/*` | lexer, parser, interpreter |
| `MessageM.v` | `Exceptions.py`, `OGReObject.py`, `BaseTensor.py` | messages of refused indices and shapes |
| `TransMessageM.v` | `Exceptions.py`, `Coordinates.py`, `BaseTensor.py` | messages about missing rules |
| `ReportM.v` | `Options.py` | the number reported by delete_results |
| `PyExprM.v` | `MathematicaParser/Interpreter.py` | how `sympify` reads the printed arguments as Python |
| `ExportM.v` | `Export.py` | export and import of objects and sessions as texts |

The vocabulary of the theorems is in `Spec.v`, `SpecWorld.v`, `SpecCalc.v`, `SpecCurv.v`, `SpecCov.v`,
`SpecChange.v`, `SpecGeod.v`, `SpecLine.v`, `SpecOptions.v`, `SpecInfo.v`, `SpecCurve.v`, `SpecScalar.v`, `SpecForm.v`, `SpecAlias.v`, `SpecShow.v`, `SpecParse.v`, `SpecExport.v`, `SpecFile.v`, `SpecSession.v`, `SpecDim.v`, `SpecDeriv.v`, `SpecVolume.v`, `SpecConst.v`, `SpecRename.v`, `SpecHead.v`, `SpecScale.v`, `SpecBlock.v`, `SpecKilling.v`, `SpecLeib.v`, `SpecDefault.v`, `SpecStart.v`, `SpecPy.v`, `SpecMove.v`, `SpecTrans.v`, `SpecReal.v`, `SpecMessage.v`, `SpecLight.v`, `SpecOrbit.v`, `SpecPrefer.v`, `SpecMissing.v`, `SpecRequest.v`, `SpecReport.v`, `SpecTransMessage.v`, `SpecRank.v` and `SpecAnnounce.v`. Concrete instances and sessions are in `Inst.v`,
`InstNum.v`, `InstExp.v`, `InstSph.v`, `Ex.v`, `ExWorld.v`, `ExForm.v` and `ExExport.v`. The remaining files are proofs (`*_P.v`) and
property theorems (`Props_*.v`).

Not modelled: LaTeX and Markdown display text, `pprint`, progress bars, the SymPy algorithms
`simplify`, `diff`, `subs`, `solve`, `Matrix.inv` (they are operations of the component algebra),
garbage collection, `tqdm`, notebooks.

Simplifications, each also noted at the definition:

- A coordinate function x(lambda) along a curve is identified with the symbol x, its derivative
  with the symbol "xdot"; the curve parameter has the fixed name "lambda"; rules contain no
  velocities.
- SymPy returns the transformed components of a scalar as an expression, not as an array of rank 0.
  The model stores an array in both cases; `is_expr` tells them apart by the coordinates, and the
  operations that fail on expressions test it. The assumed behaviour is that of SymPy 1.10:
  indexing an array of rank 0 with (0,) is a ValueError, contraction of an expression an
  AttributeError, its length a TypeError.
- The three geodesic classes are one class with a flag; only `activate=True` is modelled.
- Text that SymPy converts (`sympify`) and the expressions the interpreter builds are values of an
  abstract type with the operations of `PyOps` (see 2).
- Parsing takes fuel. Theorems say "from some amount of fuel on, always this outcome" (`settles`,
  `ends`) or "for no amount" (`never_ends`).

## 2. The component algebra and the other oracles

A component of an array is a SymPy expression. The model is generic in a record of operations
(`AlgOps`): carrier `K`, an equivalence `==` read as "mathematically equal", `0 1 + - *`, fractions
`1/n`, symbols, partial derivative by a symbol, single substitution `e.subs({s: r})`, `simplify`,
the structural zero test, the zero test of a determinant, matrix inversion returning an option (None
is SymPy's non-invertible error) and the clean-up of an equation. The model functions use only the
operations. The theorems assume the laws they need through separate classes:

- `AlgLaws`: `(K, ==)` is a commutative ring, `simplify e == e`, a component that tests as zero is
  `== 0`, `n * (1/n) == 1`.
- `DiffLaws`: differentiation is a derivation, respects `==`, and derivations by different symbols
  commute. `SymLaws`: derivatives of symbols.
- `InvLaws`: a returned inverse is a two-sided inverse. `DetLaws`: a matrix whose determinant does
  not test as zero is inverted.
- `SubsLaws` (coordinate changes only): substitution respects `==`, is a ring homomorphism, obeys
  the chain rule, and two substitutions may be exchanged, or a symbol renamed, under conditions of
  independence.
- `CleanLaws` (geodesic equations only): the clean-up of an equation multiplies it by an invertible
  factor.

The interpreter of Mathematica text builds SymPy expressions through `PyOps` (sympify, arithmetic,
equations, function application, equality). Exports use `CodeOps` (the Mathematica code of a
scalar, and which expressions are scalars, integers, symbols, rules), with the laws `CodeLaws`: SymPy's
== is equality, a symbol is a scalar, and 1 and -1 are read as integers. That the code of a
particular scalar is read back as this scalar is a hypothesis of the round-trip theorems
(`scalar_back`), since SymPy's printer is outside the model.

These laws are the trust placed in SymPy. Each class has a concrete instance (polynomials with
rational coefficients, `Inst.v` and `ExExport.v`), so no theorem that assumes them is vacuous.

## 3. Style of statements and proofs

- Model files hold definitions only. Proofs are in `*_P.v` files. `Props_*.v` files hold only the
  property theorems, closed by `exact`, each followed by `Print Assumptions` and accompanied by an
  `Example` that meets the hypotheses.
- Specifications are written with sums over position lists and assignments from index symbols to
  positions. They do not mention the model's slicing, permutation or dictionary helpers.
- Errors are values. The state monad keeps the state on an error, so partial effects of failed
  calls are visible.
- `reachable` sessions are those that the public operations lead to from the empty one, failed
  operations included. Sessions in refutations are always reachable.
- A property that is false of the model is answered by a theorem `..._refuted` with a witness,
  and, where possible, by general theorems that say how far it holds.
- The theorems were tested against wrong programs: `seeded/LOG.jsonl` lists edits of model
  definitions, the theorems that failed, and the statements that were tightened.

## 4. Properties

| Id | Property | Outcome | Model and proof |
|---|---|---|---|
| C01 | contract computes the Einstein sum | proved | `UtilsM.contract` as the fold over index tuples of products of slices. Slices and sums are read at a position; induction on the list of pairs. |
| C02 | contract validates its positions | proved | Validation loop of `UtilsM.contract`; counting lemma for repeated positions. |
| C03 | contract never silently drops components when dimensions differ | false of the code | Witness: a vector of length 2 against one of length 3. |
| C04 | partial_contract is the gradient or the divergence | proved | `UtilsM.partial_contract`; reading lemmas for slices and elementwise derivatives. |
| C05 | every valid divergence position is accepted | false as stated, with what holds | Witness, and the general statement that no position above one is ever accepted. |
| C06 | map_to_array applies the function to every component | proved | `UtilsM.elements` recursion over the shape, `map_to_array` writes; induction on the rank. |
| C07 | map_to_array keeps the shape of any array | false as stated, with what holds | Witness, and the general statement that every column becomes a square. |
| C08 | raising and lowering contracts with the metric | proved | `TensorM.raise_lower`: one contraction and one axis permutation per index; induction on the index position. |
| C09 | raising then lowering gives back the components | proved | From C08 and the inverse law; per-index matrices compose. |
| C10 | changing coordinates applies one Jacobian factor per index | proved | `TensorM.transform`: tensorproduct and tensorcontraction with the axis numbers of the code. |
| C11 | a coordinate change can be undone | proved | From C10; composition of per-index matrices. |
| C12 | coordinate change commutes with raising and lowering | proved | From C08 and C10. |
| C13 | scalars do not depend on coordinates | proved | From C10; cancellation index by index, induction on the number of pairs. |
| C14 | get_components does not depend on the history of a tensor | proved | `WorldM` caches as a state machine. Invariant: every stored array is the representation of one geometric object; induction over operation lists. |
| C15 | a metric can be requested in any configuration first | false of the code | Witness session: KeyError, and the cache stays damaged. |
| C16 | the mixed components of a metric are the identity | proved | Metric constructor of `WorldM` and `TensorM.metric_transform`; inverse law. |
| C17 | Christoffel symbols transform to the symbols of the transformed metric | proved | `TensorM.christoffel_transform` under DiffLaws and SubsLaws; derivation with sums. |
| C18 | Christoffel components do not depend on the history of requests | false of the code | Witness session. |
| C19 | the Jacobian follows the coordinate order | proved | `TensorM.calculate_jacobian`; reading lemmas, and failure only for singular matrices. |
| C20 | a coordinate without a rule keeps its meaning | false of the code | Witness: a common symbol at different positions. |
| C21 | replacing the rules of a transformation takes effect | false of the code | Witness session: the stored Jacobian is kept. |
| C22 | removing a transformation makes it unavailable | false of the code | Witness session: KeyError instead of TransformationError. |
| C23 | rule substitution is simultaneous | false of the code | Witness: exchange of two symbols. |
| C24 | rule substitution is correct for separate symbols | proved | Sequential against simultaneous substitution under SubsLaws; induction on the rules. |
| C25 | a rejected constructor call leaves no trace | proved | Constructors of `WorldM`; case analysis in the monad. |
| C26 | a rejected metric leaves no trace for any indices argument | false of the code | Witness session: the metric stays registered. |
| C27 | index tuples are validated exactly | proved | Validation on dynamically typed values; induction on the tuple. |
| C28 | constructor arguments are validated exactly | proved | Validation on dynamically typed arguments. |
| C29 | delete succeeds exactly for unused registered objects | proved | `WorldM.delete`; characterisation of the scan for uses. |
| C30 | registered objects only refer to registered objects | proved | Invariant by induction over the operations of `SpecWorld.op`. |
| C31 | a deleted coordinate system leaves no dangling Jacobian | false as stated, with what holds | Witness session, and the exact condition under which exports fail; from C30 and C99. |
| C32 | Calc leaves no temporary tensors behind | false of the code | Witness session: four temporaries in a row. |
| C33 | the temporary clean-up law | proved | `Base.iter_remove`; induction on the block. |
| C34 | delete_results removes short blocks of results | proved | `Base.iter_remove` four times. |
| C35 | clear_instances empties the session | proved | `WorldM.clear_instances`. |
| C36 | Calc does not touch the user's tensors | false of the code | Witness session: a user tensor with the name TEMP. |
| C37 | adding indexed tensors adds matching components | proved | `CalcM` run through the monad; semantics of labelled components (assignments from symbols to positions). |
| C38 | invalid sums are rejected | proved | Error branches of the sum. |
| C39 | subtracting from a number is rejected or correct | false of the code | Witness session. |
| C40 | @ sums over shared symbols | proved | C01 plus the semantics of labelled components. |
| C41 | @ uses one coordinate system for both operands | false as stated, with what holds | `C41_product_in_different_coordinates` says what is computed instead. |
| C42 | repeated symbols are traces | proved | Constructor of CalcObject; labelled components. |
| C43 | traces use the tensor's own coordinates | false of the code | Witness session. |
| C44 | PartialD(a) @ T is labelled correctly | false as stated, with what holds | C04 plus labelled components; witness for later positions. |
| C45 | T @ PartialD(a) is the same labelled object as PartialD(a) @ T | false of the code | Witness session. |
| C46 | Calc permutes components to the requested symbol order | proved | `CalcM.calc`; permutation lemmas. |
| C47 | the Christoffel symbols have the textbook value | proved | `CurvM.calc_christoffel` run through the monad; ring reasoning under sums. |
| C48 | the Christoffel symbols do not depend on the default configuration of the metric | false of the code | Witness session: dimension one, wrong sign. |
| C49 | results are not shared between different metrics | false of the code | Witness session: two metrics with one name. |
| C50 | the Riemann tensor has its symmetries | proved | `CurvM.calc_riemann` run through the monad; DiffLaws. |
| C51 | the Ricci tensor, Ricci scalar and Einstein tensor are the right traces | proved | `CurvM` functions; consequences of C50. |
| C52 | the Weyl tensor is trace free | proved | `CurvM.calc_weyl`; trace computation. |
| C53 | calc_weyl_tensor destroys nothing | false as stated, with what holds | Witness session, and the general form. |
| C54 | list() shows every non-zero component exactly once | false as stated, with what holds | `ListM` grouping; invariant over the list of positions. |
| C55 | list() breaks lines without losing entries | proved | `ListM` line breaking; induction. |
| C56 | every accepted LIST_PER_LINE works | false as stated, with what holds | Witness, and the general outcome. |
| C57 | the parser always terminates | false as stated, with what holds | Witness text that loops for every amount of fuel; termination for texts without an opening curly bracket by a measure. |
| C58 | printed expressions are parsed back | proved | `LexM`, `ParseM` on printed expressions; mutual induction with fuel bounds. |
| C59 | quoted names survive the round trip | false as stated, with what holds | Witnesses and general forms. |
| C60 | simple quoted names survive the round trip | proved | String scanner of `LexM`; induction on the name. |
| C61 | decimal numbers can be imported | false as stated, with what holds | Every decimal of the usual form fails. |
| C62 | the lexer drops no characters | false as stated, with what holds | Witness; all other texts by induction. |
| C63 | the geodesic equations are transformed | false as stated, with what holds | `TensorM.geodesic_transform`: general theorem and witness session. |
| C64 | a metric may have any default configuration | false of the code | Witness session. |
| C65 | the number of index symbols is checked | false of the code | Witness session. |
| C66 | CovariantD applies to formulas | false of the code | Witness session. |
| C67 | zero_tensor validates its arguments | proved | `UtilsM.zero_tensor` on dynamically typed values. |
| C68 | printed documents are parsed back | proved | As C58, with nested lists and associations of any depth. |
| C69 | associations keep their keys | proved | Induction on the association. |
| C70 | nested function calls can be imported | false as stated, with what holds | Value of a call in `InterpM`; witness. |
| C71 | Lagrangians are covariant | proved | `TensorM.lagrangian_transform`; chain rule for velocities. |
| C72 | the Lagrangian and the geodesic equations of a metric | proved | `GeodM` run through the monad. |
| C73 | the Euler-Lagrange equations are the geodesic equations | proved | `GeodM`; derivation of the Euler-Lagrange equations under DiffLaws. |
| C74 | geodesic equations in requested coordinates | false of the code | Witness session. |
| C75 | geodesic equations with the time as parameter | proved | `GeodM`; elimination of the parameter. |
| C76 | a request in other coordinates leaves earlier results alone | false of the code | Witness session. |
| C77 | expressions are given their value | proved | `InterpM` on the trees of C58; induction on expressions. |
| C78 | Greek letters can be arguments of functions | false as stated, with what holds | General form and witness. |
| C79 | documents are given their value | proved | `InterpM` on the trees of C68. |
| C80 | Greek letters in names | proved | 49 successive replacements; invariant that no replacement creates a later pattern. |
| C81 | every group of arguments counts | false as stated, with what holds | General form and witness. |
| C82 | texts of white space only | proved | `LexM`, `InterpM`; induction on the text. |
| C83 | exporting changes nothing | proved | `ExportM`; every step leaves the state alone. |
| C84 | a tensor survives export and import | proved | `ExportM` composed with C68 and C79: the text is a printed document, its value is the dictionary, the constructor gets the arguments back. |
| C85 | a metric survives export and import | proved | As C84, through the metric constructor. |
| C86 | coordinates survive export and import | proved | As C84, through the search for targets by name. |
| C87 | a whole session survives export and import | proved | The four passes of the import as loops with invariants over the registry; a bijection from originals to copies. |
| C88 | an import leaves no trace if it fails | proved | Hoare-style rule over all texts; outcome of the constructors (C25). |
| C89 | no text can corrupt a session | proved | The import is a sequence of operations (C30); loop invariants for the import of a session. |
| C90 | names are unique after an import of a session | proved | Keys of a read dictionary differ; names of constructed objects are these keys. |
| C91 | sessions with equal names survive | false of the code | Witness session. |
| C92 | a failed import keeps the session | false as stated, with what holds | Witness session, and the general form. |
| C93 | one dimension | false of the code | Witness session. |
| C94 | every name can be used | false of the code | Witness session. |
| C95 | the symbol survives export and import | false of the code | Witness session. |
| C96 | a metric with mixed default indices survives | false of the code | Witness session. |
| C97 | coordinates and metric of one name | false of the code | Witness session. |
| C98 | coordinate systems of any name | false of the code | Witness session. |
| C99 | references have the right class | proved | Invariant by induction over the operations. |
| C100 | the covariant derivative has the textbook value | proved | `CalcM.covariant_product` run through the monad: partial derivative, then one term per index by induction on the list of indices; the sums add up by labelled components. |
| C101 | the covariant divergence has the textbook value | proved | As C100, followed by the trace of C42 with the inverse metric or the identity. |
| C102 | T @ CovariantD(a) is the same labelled object as CovariantD(a) @ T | false as stated, with what holds | As C100, and a witness session. |
| C103 | covariant derivatives can be added | false of the code | Witness session. |
| C104 | the covariant derivative of the metric vanishes | proved | C100 and metric compatibility (C47). |
| C105 | the second Bianchi identity holds | proved | Ring reasoning under sums and DiffLaws; connection matrices and the Jacobi identity. |
| C106 | the Einstein tensor has no divergence | proved | C51 and C101; the contracted Bianchi identity from C105, C50 and the derivative of the inverse metric. |
| C107 | an import without a symbol gets the symbol of the class | proved | read_tensor passes the entry of the first association on; the constructors store the argument (new_tensor_spec, metric_name, new_coordinates_spec). |
| C108 | the norm squared of a tensor has the right value | proved | Norm_P runs the contraction: matmul_run gives the sum over all index tuples of the components with their opposite configuration; Norm2_P proves that this sum does not depend on the configuration (act_symmetric moves the conversion to the other factor, conv_symmetric and the inverse property cancel it). |
| C109 | the norm squared belongs to its tensor | false of the code | Refuted: calc_norm_squared looks up an object by the name of the tensor with " Norm Squared" behind it; two tensors can have the same name. |
| C110 | the line element is that of the metric in the coordinates asked for | proved | metric_history_sound (the invariant of C14 without a tensor) gives the components; line_element runs like get_components up to the sum (display_get). line_invariant expands the law of the covariant components. |
| C111 | the symbol ds of the line element is not a differential | false of the code | Refuted: the differential of a coordinate called s is the symbol ds. |
| C112 | the volume element is the determinant of the metric in the coordinates asked for | proved | Det_P proves that the determinant is multiplicative and invariant under transposition (a sum over all arrangements of rows and columns), and that the expansion by the first row, which the model uses for Matrix.det, is the sum over arrangements of the statement. |
| C113 | simplify keeps the values | proved | simplify_tensor maps simp over all arrays; simp_ok is the only law used. |
| C114 | a scalar can be simplified | false as stated, with what holds | Refuted with a scalar of a reachable session; general theorem for all scalars. |
| C115 | a scalar can be followed through a chain of coordinates | false as stated, with what holds | Refuted with x,y -> u,v -> p,q. The object type has no separate shape for expressions: is_expr recognises a scalar in coordinates that are not the first it has components for, and need_array raises at the places where SymPy would. |
| C116 | negative, multiple, quotient and difference | proved | neg_run, scale_run, div_run compute the new object; subtraction is addition of the negative (sub_is_add) with C37. |
| C117 | the negative is the multiple by -1 | false as stated, with what holds | Refuted with a scalar whose default coordinates were changed. |
| C118 | a function is applied to each component | proved | By C06 (map_to_array). |
| C119 | a function can be applied to a scalar in any coordinates | false as stated, with what holds | Refuted with the scalar of C117. |
| C120 | a scalar survives export and import | false of the code | Refuted by running export and import on the scalar of C117. |
| C121 | curvature changes coordinates as a tensor | proved | The change of the connection (C17) and the chain rule give the change of the Riemann tensor as in the textbook proof, done for any ring with a derivation; the others follow. The theorem is about `transform`, on any array that holds the components. |
| C122 | the covariant derivative changes coordinates as a tensor | proved | By induction on the rank, from the change of the connection; any configuration. |
| C123 | curvature is the same geometry in all coordinate systems | proved | C121 for every pair of coordinate systems with rules. |
| C124 | computed curvature is right in all coordinates | proved | A new result stores exactly one representation, with the value given by C50-C52; with C123 this makes the session one to which C14 applies. |
| C125 | index letters and the labels they give | proved | The separators of sympy.symbols are modelled on characters; special_symbols (ranges, escapes) and latex of a symbol are oracles. |
| C126 | accepted letters give labels | false as stated, with what holds | By computation in the model of sympy.symbols: a tuple only if there are several names or a comma at the end. |
| C127 | labels tell index configurations apart | proved | By induction on the configurations: after the common symbol the first characters differ. |
| C128 | labels of list tell components apart | false as stated, with what holds | By induction on the positions; the names are recovered from the text between the marks. |
| C129 | str_symbols gives a normal form | proved | Splitting and joining are inverse on plain names. |
| C130 | options have the value of the last accepted call | false as stated, with what holds | By induction on the sequence of calls. |
| C131 | curve parameter given by name | false as stated, with what holds | As C125. |
| C132 | info shows the state of the session | false as stated, with what holds | With the invariants of reachable sessions (all references are registered, every non-coordinate has coordinates and metric, a metric is its own metric). |
| C133 | listed users and deletion | false as stated, with what holds | C29 with the attributes that info() reads. |
| C134 | replacement in components of tensors | proved | The substitutions commute, so neither the dictionary nor its order matters; then C10's comparison of sequential and simultaneous substitution. |
| C135 | replacement that exchanges symbols | false of the code | Session with a vector whose components are x and y. |
| C136 | components of curves as functions | proved | The functions are renamed symbols; renaming back is inverse if the names are apart. |
| C137 | replacement in components of curves | proved | Coordinates, velocities and accelerations are replaced by the jets x(p), x(p)', x(p)''; the derivative by p of an expression in jets is the jet of its total derivative (chain rule), and the inverse rules turn jets back. The resulting substitutions are separate, so dictionary order does not matter. |
| C138 | coordinate replaced by an expression in itself | false of the code | Session with geodesic equations yddot + 1. |
| C139 | velocity in a replacement | false as stated, with what holds | Keys of the dictionary are functions that occur nowhere in the entries. |
| C140 | zero components under replacement | false of the code | As C138. |
| C141 | replaced parameter that does not occur | false of the code | As C138. |
| C142 | value of a formula of any size | proved | `SpecForm.v` has the formulas as a type (`formula`), their evaluation with the operators of the CalcObject (`eval`) and their covariant components by the summation convention (`value`), which knows nothing of the session. Index positions are labels: contraction and change of position are operations on functions of labels (`Along_P.v`, `Label_P.v`), which commute. `FormVal_P.v` and `FormVal2_P.v` show that what the operators compute has the value of the formula, `FormRun_P.v` and `FormRun2_P.v` carry this through the session, and the induction on the formula is in `FormRun2_P.v` and `FormTop_P.v`. PartialD is taken of the components in the configuration of its operand, as the code does. |
| C143 | Calc of a formula of any size | proved | As C142; the reordering of the symbols by Calc and the deletion of the temporary tensors come from C40. |
| C144 | formulas in other coordinates | proved | By induction on the formula: the value in the new coordinates is the old one with the Jacobian along every free symbol (`FormCov_P.v`); contraction with the inverse metric cancels the Jacobians, and the derivative of a scalar follows the chain rule. `FormGeo_P.v` puts this into the geometries of C123. Derivatives of tensors of higher rank are excluded, since they are no tensors; factors must be constants, i.e. be left alone by the rules between the coordinate systems. |
| C145 | transformations of a coordinate system are its own | false as stated, with what holds | `AliasM.v` keeps the dictionaries of callers and, for each coordinate system, whether its transformations are one of them. The refuting session makes two systems from one dictionary; the positive theorems hold in all states. |
| C146 | sessions in which no dictionary is given twice | proved | Simulation between the shared and the copied session, by induction on the history; every other operation of the session leaves `o_trans` alone (frame lemmas of `Alias_P.v`). |
| C147 | rules of coordinate systems are equations | proved | Invariant over the steps: entries of dictionaries that are referred to hold no `RBad`. |
| C148 | rules are always validated | false as stated, with what holds | Two concrete sessions, one with indices=None and one with a changed dictionary. |
| C149 | show displays the components of get_components | proved | `ShowM.v` has the three methods with the arguments function and replace; the theorems compare them from the common call of `get_components` on. |
| C150 | show of a vector with a function | false as stated, with what holds | The reshaped column meets `map_to_array` (C07). |
| C151 | list lists the components of get_components | proved | With C54; the exact zero test is a hypothesis of the part on single labels. |
| C152 | show and list of Lagrangians and geodesic equations | proved | As C149, with the substitutions of C136 and C137. |
| C153 | modes of get_components | proved | SymPy printers are arbitrary functions of the components. |
| C154 | what export writes into a file | proved | The session is paired with the files of a disk; which files can be opened for writing is an oracle (`Disk`). |
| C155 | files are read like strings | proved | Reading turns carriage returns into line feeds. `parse_str` makes single spaces of white space after it has removed `\\ReleaseHold`, so this makes no difference; the two calls of `clear_instances` are as good as one. |
| C156 | a failing import from a file keeps the session | false as stated, with what holds | `clear_instances` comes before the check of the argument and `open`. Compare C92. |
| C157 | sessions of all public functions keep the registry and the references sound | proved | `SpecSession.v` has one constructor of `call` for each public function. `Session_P.v` to `Session8_P.v`: a small program logic with facts about the references that a program holds (registered or deleted, registered, of a class); every function of the model is walked through once. `copy_object` makes an unregistered copy of the metric inside `calc_christoffel`; it is gone from every reference when the call returns. |
| C158 | formulas refer to registered or deleted tensors | proved | The facts that survive deletion are the ones a user can rely on: held, class. CalcObjects from before `clear_instances` and `import_all` are left out, see C160. |
| C159 | results are registered | false as stated, with what holds | A result called TEMP falls to the clean-up at the end of `Calc`; every other result survives it, also if results of earlier calculations with the same name are deleted. |
| C160 | clear_instances deletes the objects | false of the code | Compare C35: the list of instances is empty, but this is because it is overwritten. |
| C161 | the Einstein tensor vanishes in two dimensions | proved | The only independent component of the lowered Riemann tensor determines the Ricci tensor, which is a multiple of the metric (`CurvDim_P.v`). |
| C162 | the Weyl tensor vanishes in three dimensions | proved | A tensor with the symmetries of the Riemann tensor and without traces is zero in three dimensions (`traceless_three`): it is written with two Levi-Civita symbols, and an identity for 3x3 matrices does the rest. |
| C163 | vacuum solutions can be recognised by either tensor | proved | From the trace of the Einstein tensor (C51). |
| C164 | a flat metric has no curvature in any coordinates | proved | From C123 and C124: zero components stay zero under the transformation law. |
| C165 | the Lagrangian is conserved along geodesics | proved | `rate` (`SpecCurve.v`) is the total derivative; the identity is dL/dt = 2 v^k g_ks (x''^s + ...). |
| C166 | cyclic coordinates have conserved momenta | proved | From the same computation, with dL/dx^k = 0. |
| C167 | covariant derivatives of formulas | false as stated, with what holds | Compare C103. |
| C168 | repeated covariant derivatives have the textbook value | proved | `derivatives` chains the programs of C100 with Calc; C167 says why Calc has to come in between.  Induction over the steps. |
| C169 | the Ricci identity holds | proved | `curvature_terms` is the right-hand side.  The proof is by induction over the configuration: the commutator of the connection terms is the connection term of the commutator. |
| C170 | covariant derivatives obey the product rule | proved | `outer` is the product; for a scalar operand `@` takes another branch, which gives the same. |
| C171 | covariant derivatives commute with raising and lowering | proved | Follows from the covariant constancy of g and of its inverse; holds for every h, so also for the tensor after a change of its default indices. |
| C172 | covariant derivatives do not depend on the choice of index letters | proved | The letters are an argument of matmul_with (CalcM.v) and LettersM.v takes them from the options; Cov3_P and Cov4_P prove the value for any letters, sessions (C163-C166) hold for any letters too. |
| C173 | every accepted choice of index letters works with covariant derivatives | false as stated, with what holds | Refuted by a repeated letter; general theorems say when derivatives fail. |
| C174 | geodesic equations from the Lagrangian do not depend on the curve parameter | proved | The parameter is an argument of calc_geodesic_lagrangian_with (GeodM.v), taken from the options in LettersM.v. |
| C175 | every accepted curve parameter gives the geodesic equations | false of the code | Refuted by a session with the parameter x. |
| C176 | The volume element and the Christoffel symbols agree | proved | `Jacobi_P.v` proves Jacobi's formula for the determinant (`SpecLine.v`); `Voss_P.v` and `VolRun_P.v` the rest. Example: hyperbolic space over `InstExp.v`, whose volume element exp(4x) is not constant. |
| C177 | Divergences are weighted with the volume element | proved | `weighted_divergence` (`SpecVolume.v`) avoids the square root: with v = u^2 it is 2 u times the sum of d_a (u T^a...). |
| C178 | The divergence of a gradient is the Laplace-Beltrami operator | proved | From C177 for the covector d_b s. |
| C179 | Curls contain no Christoffel symbols | proved | From the symmetry of the Christoffel symbols. |
| C180 | Constant curvature | proved | `curvature_like` (`SpecConst.v`) is the hypothesis; k need not be constant. Example: hyperbolic space over `InstExp.v`, k = -1. |
| C181 | Vacuum with a cosmological constant | proved | Generalises C163, which is the case l = 0, to a cosmological constant. |
| C182 | In two dimensions the Ricci scalar determines the Riemann tensor | proved | Says more than C161, which follows from it. |
| C183 | Names do not matter | false as stated, with what holds | `renaming`, `alike` and `call_alike` (`SpecRename.v`) say what may differ. Proof (`Rename_P.v`): every function of the model respects `alike`. Example: the metric g is called h. |
| C184 | Symbols do not matter | proved | C183 for the renaming that changes nothing. |
| C185 | Formulas that contain a covariant derivative | false as stated, with what holds | `headed` (`SpecHead.v`) is a formula with a place that is evaluated first, `starting d s x` the same formula with a tensor there, whose value is that of C142. Proof (`Head_P.v`): the derivative yields an operand (C100, C101), the other operands survive it, and the number of the new tensor does not matter. Example: V^c nabla_c V^b + 2 V^b. Refutation: (2 V^c) nabla_c V^b. |
| C186 | Arguments of Coordinates and Metric are validated exactly | proved | `new_coordinates` and `new_metric` of `WorldM.v`. Proof (`Wrap_P.v`): `validate_object_spec` characterises the common validation, `new_metric_exact` runs the constructor of metrics. `DetLaws` (a matrix whose determinant is not zero has an inverse) and arrays with as many entries as their shape says are needed for metrics. |
| C187 | Default arguments of the methods that make objects | proved | `WrapM.v` gives the functions and methods optional arguments; Proof (`Wrap2_P.v`): reduction to C28 and C186. |
| C188 | Accepted coordinates are proper coordinate systems | false as stated, with what holds | `Witness_Wrap_P.v`: coordinates x, y made with None as indices, exported and imported; (x, x) and (1) as coordinates. |
| C189 | A metric multiplied by a constant | proved | Vocabulary in `SpecScale.v`. Proof (`Scale_P.v`): the inverse of a g is b times that of g, so the factor cancels in the Christoffel symbols; the rest follows from C47 - C50. Witness: dx^2 + exp(2x) dy^2 + dz^2 - dt^2 and four times it. |
| C190 | The Weyl tensor of conformally related metrics | proved | Proof (`Conf_P.v`): the lowered Riemann tensor of a g is a times that of g plus the Kulkarni-Nomizu product of g with a symmetric tensor of first and second derivatives of a (`lowered_conf`), which the Weyl combination removes (`weyl_conf`). Conformally flat metrics: the Riemann tensor of constant components vanishes. Witness: exp(2z) times the metric of C189, whose Weyl tensor is not zero, and exp(2x) times the Minkowski metric. |
| C191 | Show and list of coordinate systems | proved | Model in `CoordShowM.v`. The labels of list are the symbol, `^` and the coordinate; with LaTeX they go through the oracle of `OptionsM.v`, so that the statement about different labels is for plain text. |
| C192 | Products of spaces | proved | Vocabulary in `SpecBlock.v`. Proof (`Block_P.v`): the inverse of a block metric is the block matrix of the inverses (`inverse_same`), sums split into the two blocks, derivatives of one block along the other vanish. Witness: the product of two hyperbolic planes, Ricci scalar -4. |
| C193 | Killing's equation and the Lie derivative of the metric | proved | Vocabulary in `SpecKilling.v`. Proof (`Killing_P.v`): the Christoffel symbols with the vector lowered are half the combination of first derivatives of the metric; symmetrised, two of the three terms remain. Witness: dx^2 + exp(2x) (dy^2 + dz^2) with a rotation of y and z, a symmetry, and the coordinate vector of x, which is none. |
| C194 | Covariant derivatives of formulas obey the rules for sums, products and contractions | proved | Vocabulary in `SpecLeib.v`: `nabla_value` differentiates the formula. Proof: `Leib_P.v` shows by induction over the formula that the covariant derivative of its value, with one Christoffel term for every free symbol, is that (`derived_value`; contractions by compatibility of the inverse metric, `cvl_con`); `LeibRun_P.v` puts together C143 (Calc), C100 (the derivative) and the conversion of configurations. Witness: 2 S(b a) @ V(a) - V(b) / 2. |
| C195 | Curvature of the Schwarzschild metric | proved | Vocabulary in `SpecDefault.v`: the functions of the coordinates are given by the rules they obey (r * 1/r = 1, sin^2 + cos^2 = 1 and the derivatives). Proof: `Default_P.v` has the tables of derivatives, Christoffel symbols and Riemann components by ring normalisation modulo these rules, `Diag_P.v` the traces for any diagonal metric, `DefaultRun_P.v` the results of the calls. Witness: the algebra `InstSph.v` of polynomials in r, 1/r, sin, 1/sin, cos, M, k, 1/(1-2M/r), 1/(1-kr^2), a, 1/a, a', a'', ... modulo these rules. |
| C196 | Curvature of the FLRW metric | proved | As C195; a'' enters through the derivative of the Christoffel symbols only. Witness: the same session with a symbol k and a function a. |
| C197 | New coordinates and metrics start a session | proved | Vocabulary in `SpecStart.v`; proof in `Start_P.v` from the exact validation of C186. It discharges the hypothesis `metric_session` of the curvature claims: no session has to be assumed, it can be made. |
| C198 | Importing Defaults.py | proved | Model in `DefaultsM.v`: the module from top to bottom as one program; the functions of SymPy that it uses are a record of unknown functions. Proof in `StartDefault_P.v`: the steps compose because each keeps the session in order and everything usable. The condition on the three arrays is that SymPy's determinant test does not call them singular and that it simplifies e - e to zero for their entries. |
| C199 | Operands of formulas that are refused | proved | Proof in `Operands_P.v` by unfolding the operators. C38 has the same for sums. |
| C200 | Arguments that must be metrics or coordinates | proved | Proof in `Operands_P.v`: the checks come before everything else in `cached`, `cached_curve` and `display_components`. |
| C201 | The divergence of the divergence of an antisymmetric tensor vanishes | proved | Proof in `Charge_P.v`, without volume elements: the second derivatives of an antisymmetric tensor cancel by the Ricci identity and the symmetry of the Ricci tensor; `ChargeRun_P.v` runs the program. |
| C202 | Symmetries give quantities conserved along geodesics | proved | Proof in `KillingGeod_P.v` from Killing's equation (C193), the product rule for rates and the equations of C72 and C73. The equations are known up to units, hence the coefficients r with inverses r'. |
| C203 | Divergences of formulas and conserved currents | proved | Proof in `LeibDiv_P.v` from C194 and the divergence of a published tensor, and in `Current_P.v`. |
| C204 | Arguments of functions keep their value | false as stated, with what holds | `PyExprM.v` models how sympify reads Python expressions, `SpecPy.v` says what is assumed of it. Proof (`PyExpr_P.v`): the printed form of an argument is read back as the argument, except that the sign of a negative base is put before the power. |
| C205 | A metric that changes its default coordinates is the same metric in the new coordinates | proved | Proof in `Move_P.v` (the session after the change) and `MoveDefault_P.v` (the Jacobian matrix of spherical coordinates; the metric is then Schwarzschild's with M = 0). Substituting a symbol is assumed to be a homomorphism. |
| C206 | What add_coord_transformation changes | proved | Proof in `AddTrans_P.v`. The statement is about systems with dictionaries of their own; C145 and C146 are about shared ones. |
| C207 | The transformations of Defaults.py are inverse to each other | false as stated, with what holds | Components are functions of real points (`InstReal.v`), sin, cos, sqrt, acos, atan and 1/x the real functions of Coq's standard library. Proof in `Real_P.v`. The only theorems with axioms (section 5). |
| C208 | Refused indices and shapes are explained | false as stated, with what holds | Messages are texts (`MessageM.v`); the refusals are proved to be those of `validate_indices` and `validate_base`. Proof in `Message_P.v`. |
| C209 | A scalar times a tensor | false as stated, with what holds | Proof in `ScalarMul_P.v`: asking a scalar for its components changes no other tensor (`scalar_get_frame`). |
| C210 | Geodesics of metrics that differ by a factor | proved | Proof in `ScaleGeod_P.v`: the difference of the Christoffel symbols (`gamma_conf`), contracted with the velocities (`gamma_sum`). The factors are computed by `choose_units`, as the clean-up multiplies each equation with an unknown invertible factor. |
| C211 | Geodesics of the default metrics | proved | Proof in `Orbit_P.v` from the Christoffel symbols of C195 and C196 (`sw_gam`, `fl_gam`). The equations are written out in `SpecOrbit.v`. |
| C212 | Ricci tensor and scalar of conformally related metrics | proved | Proof in `ConfRicci_P.v` from `ricci_conf` and `scalar_conf` of `Conf_P.v`; stated times four to avoid fractions. |
| C213 | Changes of defaults are requests for components | false as stated, with what holds | Refuted for coordinates: a vector moved from x, y to u, v still has its old components, so get_components gives them, but change_default_coords wants rules for the way back and refuses (BaseTensor.py 445-449). With rules, and for indices, it is proved (`Prefer_P.v`); the equality of errors leaves metrics out. |
| C214 | Default components are always there | false as stated, with what holds | Refuted for metrics: a metric with default indices (1, 1) that is asked for its (-1, -1) components in new coordinates raises KeyError (Metric.py 140-142) but keeps the entry made before; Metric._check_representation looks at the coordinates only (126), so change_default_coords succeeds, and the metric has no default components any more. Invariant over all operations for the other classes in `Home_P.v`, carried over all public calls by the invariant `good` of `Session_P.v`. |
| C215 | What TransformationError is about | false as stated, with what holds | Refuted: raising an index needs the metric in the coordinates of the tensor, and it is brought there from its own default coordinates (Tensor.py 130-133), so that the missing rules may be those of the metric, for the requested coordinates or for the default coordinates of the tensor. What is proved is that one of these three sets of rules is missing. `SpecMissing.v`, `Missing_P.v` (a Hoare logic for one exception, on top of `Keep_P.v`). |
| C216 | delete_results reports what it removed | proved | `ReportM.v` is delete_results with the counter; `Report_P.v` shows that it does what delete_results of `WorldM.v` does and that every counted deletion removes one object. |
| C217 | The message about missing rules tells the two systems | false as stated, with what holds | Refuted: names of coordinate systems need not be different, and a name may contain ` and `. What is proved is that the text has the two names, first that of the system without the rules, and tells both when the first is one word. `TransMessageM.v`, `SpecTransMessage.v`. |
| C218 | The rank of an object is the number of its indices | false as stated, with what holds | Refuted for metrics: a call that is refused after the metric was registered can leave one of rank 1. `SpecRank.v` says what a later state is; `Rank_P.v` relates the states before and after each call, `Stored_P.v` is an invariant of the stored configurations. Both are parts of the invariant `good` of sessions of all public calls (`Session_P.v`); that the rank never changes is proved for the operations of `reachable` only. |
| C219 | Exports tell the version, imports need complete entries | proved | `SpecAnnounce.v` lists the roles and says what a complete entry is; the proofs in `Announce_P.v` invert the reading of a text. Found by two mutants, of the version and of a missing key, that no earlier theorem excluded. |

## 5. Trusted base

- Coq's kernel (8.16.1) and its virtual machine (used for concrete sessions).
- No axioms but for C207: `Print Assumptions` under each other theorem in the `Props_*.v` files
  reports "Closed under the global context". The theorems of C207 (`Props_Real.v`) are about the
  real numbers of the standard library and use its axioms `ClassicalDedekindReals.sig_not_dec`,
  `ClassicalDedekindReals.sig_forall_dec`, `FunctionalExtensionality.functional_extensionality_dep`
  and `Classical_Prop.classic`.
- The reading of the code: the model definitions and their citations.
- The laws of section 2 as a description of SymPy.
- SymPy array functions (`tensorproduct`, `tensorcontraction`, `permutedims`, slicing) behave as in
  `Arr.v`.
- Python dictionaries keep insertion order; object identity is equality of handles.
