{"id": "C01", "title": "contract computes the Einstein sum", "statement": "contract(a1, a2, *pairs) on arrays of one common dimension n returns an array whose axes are the uncontracted axes of a1 in order followed by those of a2 in order, and whose entry at a free position is the sum over all n^k assignments of the k contracted positions of the product of the two entries. With no pairs it is the tensor product.", "quantifier": "all dimensions n>=1, all ranks, all numbers and choices of distinct valid pairs, all component values", "why_tests_cant": "tests contract a few rank-1 and rank-2 arrays of dimension 4; the axis bookkeeping for several pairs at once and high ranks is a combinatorial family", "anchors": ["src/PyOGRe/Utils.py:contract"]}
{"id": "C02", "title": "contract validates its positions", "statement": "contract raises ValueError exactly when some position is negative, or is not smaller than the rank of its array, or is used twice for the same array; in every other case with arrays of one common dimension it returns a result.", "quantifier": "all arrays of one common dimension and all lists of integer pairs", "why_tests_cant": "the accepted set is an infinite set of pair lists", "anchors": ["src/PyOGRe/Utils.py:contract"]}
{"id": "C03", "title": "contract never silently drops components when dimensions differ", "statement": "If the two contracted axes have different lengths, contract raises an error; it never returns a value computed from a strict part of the entries.", "quantifier": "all arrays and pairs", "why_tests_cant": "tests only ever pass arrays of equal dimension", "anchors": ["src/PyOGRe/Utils.py:contract"]}
{"id": "C04", "title": "partial_contract is the gradient or the divergence", "statement": "partial_contract(coordinates, array) puts the derivative axis first: entry (i, rest) is the derivative of entry rest by coordinate i. partial_contract(coordinates, array, index) with index 0 or 1 below the rank of the array is the divergence: entry rest is the sum over i of the derivative by coordinate i of the entry with i inserted at position index.", "quantifier": "all dimensions, all ranks, all component values", "why_tests_cant": "tests use vectors only", "anchors": ["src/PyOGRe/Utils.py:partial_contract"]}
{"id": "C05", "title": "every valid divergence position is accepted", "statement": "partial_contract(coordinates, array, index) succeeds for every 0 <= index < rank(array) and raises ValueError for every index >= rank(array).", "quantifier": "all ranks and positions", "why_tests_cant": "the failing cases need a tensor of rank 3 or more, or an index equal to the rank", "anchors": ["src/PyOGRe/Utils.py:partial_contract"]}
{"id": "C06", "title": "map_to_array applies the function to every component", "statement": "On an array all of whose axes have the same length, elements() lists every position exactly once with its entry, and map_to_array(array, f, *args) has the same shape and at every position f of the entry, with rank 0 included.", "quantifier": "all ranks, dimensions, functions and component values", "why_tests_cant": "tests check one or two shapes", "anchors": ["src/PyOGRe/Utils.py:elements", "src/PyOGRe/Utils.py:elements.recurse", "src/PyOGRe/Utils.py:map_to_array", "src/PyOGRe/Utils.py:zero_tensor"]}
{"id": "C07", "title": "map_to_array keeps the shape of any array", "statement": "map_to_array(array, f) returns an array of the same shape as its argument, also when the axes have different lengths, as with the column that show(function=...) builds from a rank 1 tensor.", "quantifier": "all shapes", "why_tests_cant": "show prints and returns None, so no test sees the shape", "anchors": ["src/PyOGRe/Utils.py:map_to_array", "src/PyOGRe/BaseTensor.py:BaseTensor.show"]}
{"id": "C08", "title": "raising and lowering contracts with the metric", "statement": "When a tensor has a stored representation in coordinates c with index configuration s, get_components(coords=c, indices=t) returns the components in which each position that goes from -1 to +1 is contracted with the inverse metric in c, each position that goes from +1 to -1 with the metric in c, and the others are untouched, with every index staying at its own position.", "quantifier": "all ranks, dimensions, source and target configurations, all metrics and components", "why_tests_cant": "2^rank source times 2^rank target configurations for unbounded rank", "anchors": ["src/PyOGRe/Tensor.py:Tensor._raise_lower", "src/PyOGRe/Tensor.py:Tensor._check_representation", "src/PyOGRe/Utils.py:contract"]}
{"id": "C09", "title": "raising then lowering gives back the components", "statement": "Converting components from configuration s to configuration t and the result back from t to s gives components mathematically equal to the original, and going from s to u directly equals going via t, provided the metric and the inverse metric are inverse to one another.", "quantifier": "all ranks, dimensions, configurations, components and invertible metrics", "why_tests_cant": "round trips over all ranks and configurations cannot be enumerated", "anchors": ["src/PyOGRe/Tensor.py:Tensor._raise_lower"]}
{"id": "C10", "title": "changing coordinates applies one Jacobian factor per index", "statement": "The components stored for new coordinates are those of the old coordinates contracted, for each upper index, with the inverse Jacobian (new index first) and, for each lower index, with the Jacobian (new index last), every index staying at its own position, followed by the substitution of the transformation rules in the listed order.", "quantifier": "all ranks, dimensions, index configurations, Jacobians and components", "why_tests_cant": "tests transform rank 1 and 2 tensors between two fixed coordinate systems", "anchors": ["src/PyOGRe/BaseTensor.py:BaseTensor._transform_coordinates"]}
{"id": "C11", "title": "a coordinate change can be undone", "statement": "If the Jacobian of the way back is the inverse of the Jacobian of the way out, transforming the components there and back gives components mathematically equal to the original, for every index configuration; and two changes in a row equal the single change with the product Jacobian.", "quantifier": "all ranks, dimensions, index configurations and invertible Jacobians", "why_tests_cant": "the identity is algebraic over all ranks", "anchors": ["src/PyOGRe/BaseTensor.py:BaseTensor._transform_coordinates"]}
{"id": "C12", "title": "coordinate change commutes with raising and lowering", "statement": "Raising or lowering indices with the metric and then changing coordinates gives the same components as changing coordinates first and then raising or lowering with the transformed metric.", "quantifier": "all ranks, dimensions, configurations, metrics and invertible Jacobians", "why_tests_cant": "needs all ranks and all metrics", "anchors": ["src/PyOGRe/Tensor.py:Tensor._raise_lower", "src/PyOGRe/BaseTensor.py:BaseTensor._transform_coordinates", "src/PyOGRe/Metric.py:Metric._transform_coordinates"]}
{"id": "C13", "title": "scalars do not depend on coordinates", "statement": "The full contraction of the components of two tensors with opposite index configurations has the same value before and after a coordinate change.", "quantifier": "all ranks, dimensions and invertible Jacobians", "why_tests_cant": "holds for an infinite family of ranks", "anchors": ["src/PyOGRe/BaseTensor.py:BaseTensor._transform_coordinates", "src/PyOGRe/Utils.py:contract"]}
{"id": "C14", "title": "get_components does not depend on the history of a tensor", "statement": "For a tensor whose coordinates, metric and transformation rules do not change, the components returned for (coords, indices) are mathematically the same whatever sequence of get_components, show, list, change_default_indices and change_default_coords calls came before, provided the transformations between the coordinate systems are consistent with one another and the metric's default configuration is (-1,-1).", "quantifier": "all call sequences, all ranks, all numbers of coordinate systems", "why_tests_cant": "the cache state space is unbounded", "anchors": ["src/PyOGRe/BaseTensor.py:BaseTensor._get_representation", "src/PyOGRe/Tensor.py:Tensor._check_representation", "src/PyOGRe/Tensor.py:Tensor._raise_lower", "src/PyOGRe/Tensor.py:Tensor._transform_coordinates", "src/PyOGRe/BaseTensor.py:BaseTensor._check_representation"]}
{"id": "C15", "title": "a metric can be requested in any configuration first", "statement": "For a metric with a defined coordinate transformation, get_components(coords=c, indices=i) succeeds for each of the four index configurations i, whichever is requested first.", "quantifier": "all metrics, coordinates and request orders", "why_tests_cant": "tests request the default configuration first", "anchors": ["src/PyOGRe/Metric.py:Metric._transform_coordinates", "src/PyOGRe/Metric.py:Metric._check_representation"]}
{"id": "C16", "title": "the mixed components of a metric are the identity", "statement": "A newly built metric stores the identity for (1,-1) and (-1,1) and a two-sided matrix inverse for the negated configuration. After its first transformation to new coordinates requested in the default configuration, the negated configuration is again the matrix inverse and both mixed configurations are the identity.", "quantifier": "all dimensions, all symmetric invertible metrics, both default configurations, all Jacobians", "why_tests_cant": "tests check one diagonal metric", "anchors": ["src/PyOGRe/Metric.py:Metric.__init__", "src/PyOGRe/Metric.py:Metric._transform_coordinates"]}
{"id": "C17", "title": "Christoffel symbols transform to the symbols of the transformed metric", "statement": "The components computed for Christoffel symbols in new coordinates from the default configuration (1,-1,-1) are mathematically equal to the Christoffel symbols of the transformed metric in the new coordinates. This also holds for the components returned by get_components for Christoffel symbols of any session.", "quantifier": "all dimensions, metrics and smooth invertible coordinate changes", "why_tests_cant": "one example metric is tested", "anchors": ["src/PyOGRe/Christoffel.py:Christoffel._transform_coordinates", "src/PyOGRe/Calc.py:CalcChristoffel"]}
{"id": "C18", "title": "Christoffel components do not depend on the history of requests", "statement": "get_components(coords=c, indices=i) on Christoffel symbols returns the same value whatever was requested before.", "quantifier": "all request sequences", "why_tests_cant": "needs a particular order of requests in two coordinate systems", "anchors": ["src/PyOGRe/Christoffel.py:Christoffel._transform_coordinates", "src/PyOGRe/Christoffel.py:Christoffel.__init__"]}
{"id": "C19", "title": "the Jacobian follows the coordinate order", "statement": "After the first use of a transformation whose rules have distinct left sides, row i of the Jacobian holds the derivatives of the right side of the rule for the i-th coordinate whatever the order of the rules; a coordinate without a rule gives the i-th row of the identity; the inverse Jacobian is the matrix inverse; the second-derivative array is symmetric in its last two positions.", "quantifier": "all dimensions, all rule lists with distinct left sides", "why_tests_cant": "n! orders of the rules", "anchors": ["src/PyOGRe/Coordinates.py:Coordinates._calculate_jacobian"]}
{"id": "C20", "title": "a coordinate without a rule keeps its meaning", "statement": "If a source coordinate has no rule, it is the target coordinate with the same symbol, and its Jacobian row has its 1 in the column of that target coordinate.", "quantifier": "all coordinate systems", "why_tests_cant": "the tests list the common coordinate at the same position in both systems", "anchors": ["src/PyOGRe/Coordinates.py:Coordinates._calculate_jacobian"]}
{"id": "C21", "title": "replacing the rules of a transformation takes effect", "statement": "After add_coord_transformation(coords, rules) every later transformation to coords uses the Jacobian of those rules.", "quantifier": "all sequences of rule definitions and transformations", "why_tests_cant": "tests define the rules once", "anchors": ["src/PyOGRe/Coordinates.py:Coordinates.add_coord_transformation", "src/PyOGRe/Coordinates.py:Coordinates._check_jacobians"]}
{"id": "C22", "title": "removing a transformation makes it unavailable", "statement": "After add_coord_transformation(coords, None) a request for components in coords that are not stored raises TransformationError.", "quantifier": "all coordinates and histories", "why_tests_cant": "needs a previous use of the transformation", "anchors": ["src/PyOGRe/Coordinates.py:Coordinates.add_coord_transformation", "src/PyOGRe/Coordinates.py:Coordinates._check_jacobians"]}
{"id": "C23", "title": "rule substitution is simultaneous", "statement": "Substituting the transformation rules into an expression replaces every coordinate by its right side at once.", "quantifier": "all rule lists and expressions", "why_tests_cant": "needs rules whose right sides mention later left sides", "anchors": ["src/PyOGRe/BaseTensor.py:BaseTensor._transform_coordinates"]}
{"id": "C24", "title": "rule substitution is correct for separate symbols", "statement": "If no right side of a rule mentions the left side of a later rule, substituting the rules one after the other has the same effect as substituting them simultaneously.", "quantifier": "all rule lists and expressions", "why_tests_cant": "infinitely many expressions and rule lists", "anchors": ["src/PyOGRe/BaseTensor.py:BaseTensor._transform_coordinates"]}
{"id": "C25", "title": "a rejected constructor call leaves no trace", "statement": "If new_coordinates, new_tensor or new_metric (with a tuple for indices) raises an error, get_instances() and all existing objects are unchanged; if it succeeds, exactly the new object is appended.", "quantifier": "all arguments and all session states", "why_tests_cant": "all combinations of bad arguments and states", "anchors": ["src/PyOGRe/OGReObject.py:OGReObject.__init__", "src/PyOGRe/BaseTensor.py:BaseTensor.__init__", "src/PyOGRe/Coordinates.py:Coordinates.__init__", "src/PyOGRe/Metric.py:Metric.__init__", "src/PyOGRe/Tensor.py:Tensor.__init__"]}
{"id": "C26", "title": "a rejected metric leaves no trace for any indices argument", "statement": "If new_metric raises an error, get_instances() is unchanged, also when indices is None.", "quantifier": "all arguments", "why_tests_cant": "no test passes indices=None to new_metric", "anchors": ["src/PyOGRe/Metric.py:Metric.__init__", "src/PyOGRe/Metric.py:ValidateMetric"]}
{"id": "C27", "title": "index tuples are validated exactly", "statement": "Index validation accepts None, and a tuple if and only if every entry is 1 or -1 and its length equals the rank of the components (or the number of existing indices). Otherwise it raises TypeError for a non-tuple, IndicesValueError for a bad entry, IndicesDimensionError for a bad length, in that order of priority.", "quantifier": "all values and ranks", "why_tests_cant": "infinitely many tuples", "anchors": ["src/PyOGRe/OGReObject.py:ValidateIndices", "src/PyOGRe/OGReObject.py:ValidateOGReObject"]}
{"id": "C28", "title": "constructor arguments are validated exactly", "statement": "new_tensor succeeds if and only if the metric is a metric, coords are coordinates, the name is a string, the symbol a string or symbol, the components an array or matrix with every axis as long as the coordinates, and indices None or a valid tuple. The default configuration is all -1.", "quantifier": "all arguments", "why_tests_cant": "the argument space is a product of infinite types", "anchors": ["src/PyOGRe/Tensor.py:Tensor.__init__", "src/PyOGRe/BaseTensor.py:BaseTensor.__init__", "src/PyOGRe/BaseTensor.py:ValidateBaseTensor", "src/PyOGRe/OGReObject.py:ValidateOGReObject"]}
{"id": "C29", "title": "delete succeeds exactly for unused registered objects", "statement": "delete() on a registered object raises PermissionError and changes nothing if another registered object uses it as coordinates of some stored components, as metric, as default coordinates or as target of a transformation; otherwise it removes exactly that object and keeps the order of the others.", "quantifier": "all session states", "why_tests_cant": "all object graphs", "anchors": ["src/PyOGRe/OGReObject.py:OGReObject.delete"]}
{"id": "C30", "title": "registered objects only refer to registered objects", "statement": "In every session that starts empty and uses new_coordinates, new_metric, new_tensor on live objects, add_coord_transformation between live objects, get_components, change_default_coords, change_default_indices and delete, every registered object's metric, default coordinates, component keys and transformation targets are registered, and no object is registered twice.", "quantifier": "all operation sequences", "why_tests_cant": "unbounded histories", "anchors": ["src/PyOGRe/OGReObject.py:OGReObject.delete", "src/PyOGRe/OGReObject.py:OGReObject.__init__", "src/PyOGRe/Coordinates.py:Coordinates.add_coord_transformation"]}
{"id": "C31", "title": "a deleted coordinate system leaves no dangling Jacobian", "statement": "After a coordinate system is deleted, every remaining coordinate system can still be exported.", "quantifier": "all histories of adding, using and removing transformations", "why_tests_cant": "needs use, removal and deletion in this order", "anchors": ["src/PyOGRe/OGReObject.py:OGReObject.delete", "src/PyOGRe/Export.py:tensor_to_dict"]}
{"id": "C32", "title": "Calc leaves no temporary tensors behind", "statement": "After Calc returns, get_instances() holds no tensor created for intermediate results.", "quantifier": "all formulas", "why_tests_cant": "small test formulas create few temporaries", "anchors": ["src/PyOGRe/Calc.py:Calc"]}
{"id": "C33", "title": "the temporary clean-up law", "statement": "If at the end of Calc the registry holds a block of k consecutive temporaries surrounded by other objects, then exactly floor(k/4) of them stay registered, so none is left if and only if k <= 3; no other object is removed and the order is kept.", "quantifier": "all k and all surrounding registries", "why_tests_cant": "unbounded k", "anchors": ["src/PyOGRe/Calc.py:Calc", "src/PyOGRe/Options.py:delete_results"]}
{"id": "C34", "title": "delete_results removes short blocks of results", "statement": "delete_results() removes only tensors named Result, keeps the order of the others, and leaves floor(k/16) of a block of k consecutive deletable results.", "quantifier": "all k and all surrounding registries", "why_tests_cant": "unbounded k", "anchors": ["src/PyOGRe/Options.py:delete_results"]}
{"id": "C35", "title": "clear_instances empties the session", "statement": "After clear_instances() get_instances() is empty, whatever the dependencies between the objects.", "quantifier": "all session states", "why_tests_cant": "all object graphs", "anchors": ["src/PyOGRe/Options.py:clear_instances"]}
{"id": "C36", "title": "Calc does not touch the user's tensors", "statement": "Calc removes no tensor that the user created.", "quantifier": "all tensor names", "why_tests_cant": "needs a tensor named TEMP", "anchors": ["src/PyOGRe/Calc.py:Calc"]}
{"id": "C37", "title": "adding indexed tensors adds matching components", "statement": "For tensors of equal metric with index symbols that are permutations of one another, the sum carries the symbols of the left operand and at every assignment of positions to symbols its component is the sum of the two operands' components at that assignment, the right one converted to the left operand's coordinates and index configuration.", "quantifier": "all ranks, permutations, dimensions and components", "why_tests_cant": "n! relabelings for every rank", "anchors": ["src/PyOGRe/Calc.py:CalcObject.__add__"]}
{"id": "C38", "title": "invalid sums are rejected", "statement": "+ raises TypeError for a non-zero operand that is not an indexed tensor, and ValueError for derivatives, different metrics, different ranks and symbol lists that are not permutations of one another; adding the number 0 returns the operand itself.", "quantifier": "all operands", "why_tests_cant": "all pairs of operands", "anchors": ["src/PyOGRe/Calc.py:CalcObject.__add__", "src/PyOGRe/Calc.py:CalcObject.__radd__"]}
{"id": "C39", "title": "subtracting from a number is rejected or correct", "statement": "c - x for an indexed tensor x raises an error unless c is 0.", "quantifier": "all numbers c", "why_tests_cant": "the tests only use 0", "anchors": ["src/PyOGRe/Calc.py:CalcObject.__rsub__"]}
{"id": "C40", "title": "@ sums over shared symbols", "statement": "For two tensors with the same default coordinates, x @ y carries the symbols of x not in y followed by those of y not in x, and at every assignment its component is the sum over positions of the shared symbols of the product, with each shared index of y in the configuration opposite to that of x.", "quantifier": "all ranks, symbol choices, dimensions and components", "why_tests_cant": "all patterns of shared symbols", "anchors": ["src/PyOGRe/Calc.py:CalcObject.__matmul__", "src/PyOGRe/Utils.py:contract"]}
{"id": "C41", "title": "@ uses one coordinate system for both operands", "statement": "x @ y computes both component arrays in the coordinates in which the result is labelled.", "quantifier": "all operands", "why_tests_cant": "tests keep all tensors in the default coordinates of the metric", "anchors": ["src/PyOGRe/Calc.py:CalcObject.__matmul__"]}
{"id": "C42", "title": "repeated symbols are traces", "statement": "T(\"... a ... a ...\") is the tensor with the two positions contracted with the metric in the opposite configuration and the remaining symbols in order, for several repeated symbols as well; more than two occurrences raise ValueError.", "quantifier": "all ranks and symbol patterns, tensors in the metric's default coordinates", "why_tests_cant": "all symbol patterns", "anchors": ["src/PyOGRe/Calc.py:CalcObject.__init__"]}
{"id": "C43", "title": "traces use the tensor's own coordinates", "statement": "The trace of a tensor is computed with the metric in the tensor's default coordinates.", "quantifier": "all tensors and metrics", "why_tests_cant": "tests take traces in the metric's default coordinates", "anchors": ["src/PyOGRe/Calc.py:CalcObject.__init__"]}
{"id": "C44", "title": "PartialD(a) @ T is labelled correctly", "statement": "PartialD(\"a\") @ T(...) with a not among the symbols has the symbols a followed by those of T and the derivative index first and lower; with a shared it is the divergence over that index taken in its upper configuration.", "quantifier": "all ranks and symbols", "why_tests_cant": "tests use vectors", "anchors": ["src/PyOGRe/Calc.py:CalcObject.__matmul__", "src/PyOGRe/Utils.py:partial_contract"]}
{"id": "C45", "title": "T @ PartialD(a) is the same labelled object as PartialD(a) @ T", "statement": "T(...) @ PartialD(\"a\") assigns to each assignment of positions to symbols the same component as PartialD(\"a\") @ T(...).", "quantifier": "all tensors and symbols", "why_tests_cant": "the test compares component arrays, not labels", "anchors": ["src/PyOGRe/Calc.py:CalcObject.__matmul__"]}
{"id": "C46", "title": "Calc permutes components to the requested symbol order", "statement": "Calc(x, indices=s) with s a permutation of the symbols of x returns the tensor whose component at every assignment equals that of x, with axes and index configuration in the order of s; other s raise ValueError.", "quantifier": "all ranks and permutations", "why_tests_cant": "n! permutations", "anchors": ["src/PyOGRe/Calc.py:Calc"]}
{"id": "C47", "title": "the Christoffel symbols have the textbook value", "statement": "For a metric with default configuration (-1,-1), calc_christoffel() has the components 1/2 g^{ls} (d_m g_{ns} + d_n g_{sm} - d_s g_{mn}); they are symmetric in the lower indices and make the covariant derivative of the metric vanish.", "quantifier": "all dimensions and metrics", "why_tests_cant": "an algebraic identity over all metrics", "anchors": ["src/PyOGRe/Calc.py:CalcChristoffel"]}
{"id": "C48", "title": "the Christoffel symbols do not depend on the default configuration of the metric", "statement": "calc_christoffel() gives the same symbols for a metric entered with upper indices as for the same metric entered with lower indices.", "quantifier": "all metrics", "why_tests_cant": "every test enters metrics with lower indices", "anchors": ["src/PyOGRe/Calc.py:CalcChristoffel"]}
{"id": "C49", "title": "results are not shared between different metrics", "statement": "calc_christoffel() and the other curvature functions return objects computed from the metric they are called on.", "quantifier": "all sessions", "why_tests_cant": "needs two metrics of the same name", "anchors": ["src/PyOGRe/Calc.py:CalcChristoffel", "src/PyOGRe/Calc.py:CalcRiemannTensor"]}
{"id": "C50", "title": "the Riemann tensor has its symmetries", "statement": "calc_riemann_tensor() has the components d_m G^r_{ns} - d_n G^r_{ms} + G^r_{ml} G^l_{ns} - G^r_{nl} G^l_{ms}; they are antisymmetric in the last two indices and satisfy the first Bianchi identity, and with all indices lowered are antisymmetric in the first two and symmetric under exchange of the pairs.", "quantifier": "all dimensions and metrics", "why_tests_cant": "differential identities over all metrics", "anchors": ["src/PyOGRe/Calc.py:CalcRiemannTensor"]}
{"id": "C51", "title": "the Ricci tensor, Ricci scalar and Einstein tensor are the right traces", "statement": "calc_ricci_tensor() is the trace of the Riemann tensor over its first and third index and is symmetric; calc_ricci_scalar() is its trace; calc_einstein_tensor() is R_mn - 1/2 R g_mn, symmetric, with trace (1 - n/2) R.", "quantifier": "all dimensions and metrics", "why_tests_cant": "differential identities over all metrics", "anchors": ["src/PyOGRe/Calc.py:CalcRicciTensor", "src/PyOGRe/Calc.py:CalcRicciScalar", "src/PyOGRe/Calc.py:CalcEinsteinTensor"]}
{"id": "C52", "title": "the Weyl tensor is trace free", "statement": "For dimension n >= 3 calc_weyl_tensor() has the textbook components and every trace of it vanishes; for n = 2 the call raises ZeroDivisionError.", "quantifier": "all dimensions and metrics", "why_tests_cant": "an algebraic identity over all dimensions", "anchors": ["src/PyOGRe/Calc.py:CalcWeylTensor"]}
{"id": "C53", "title": "calc_weyl_tensor destroys nothing", "statement": "calc_weyl_tensor() deletes no object that existed before the call and leaves no auxiliary object registered.", "quantifier": "all sessions", "why_tests_cant": "tests do not look at the registry after the call", "anchors": ["src/PyOGRe/Calc.py:CalcWeylTensor"]}
{"id": "C54", "title": "list() shows every non-zero component exactly once", "statement": "list() puts every position with a non-zero component into exactly one group, with sign + if the component equals the value of the group and - if it is the negative, shows no zero component, and the values of different groups are neither equal nor opposite.", "quantifier": "all ranks, dimensions and components", "why_tests_cant": "output is printed, never inspected", "anchors": ["src/PyOGRe/BaseTensor.py:BaseTensor.list"]}
{"id": "C55", "title": "list() breaks lines without losing entries", "statement": "The lines shown for a group, concatenated, are the group's entries in order, each line but the last has exactly LIST_PER_LINE entries, and the value is printed after the last line only.", "quantifier": "all group sizes and positive LIST_PER_LINE", "why_tests_cant": "unbounded sizes", "anchors": ["src/PyOGRe/BaseTensor.py:BaseTensor.list"]}
{"id": "C56", "title": "every accepted LIST_PER_LINE works", "statement": "After set_list_per_line(n) succeeds, list() on a tensor with a non-zero component does not fail.", "quantifier": "all n", "why_tests_cant": "boundary value", "anchors": ["src/PyOGRe/Options.py:set_list_per_line", "src/PyOGRe/BaseTensor.py:BaseTensor.list"]}
{"id": "C57", "title": "the parser always terminates", "statement": "parse_str terminates on every input string, with a value or an error.", "quantifier": "all strings", "why_tests_cant": "termination on all inputs is not testable", "anchors": ["src/PyOGRe/MathematicaParser/MathematicaParser.py:Parser.list", "src/PyOGRe/MathematicaParser/Interpreter.py:parse_str", "src/PyOGRe/MathematicaParser/Lexer.py:Lexer.__init__", "src/PyOGRe/MathematicaParser/Lexer.py:Lexer.advance", "src/PyOGRe/MathematicaParser/MathematicaParser.py:Parser.__init__", "src/PyOGRe/MathematicaParser/MathematicaParser.py:Parser.advance"]}
{"id": "C58", "title": "printed expressions are parsed back", "statement": "For every expression built from identifiers, non-negative integers, + - * / ^, unary minus and function calls, printing it with the usual precedences and parsing the result gives the same tree.", "quantifier": "all expressions of any size", "why_tests_cant": "infinitely many expressions", "anchors": ["src/PyOGRe/MathematicaParser/MathematicaParser.py:Parser.expr", "src/PyOGRe/MathematicaParser/MathematicaParser.py:Parser.term", "src/PyOGRe/MathematicaParser/MathematicaParser.py:Parser.factor", "src/PyOGRe/MathematicaParser/Lexer.py:Lexer.generate_tokens"]}
{"id": "C59", "title": "quoted names survive the round trip", "statement": "A quoted name is read back unchanged.", "quantifier": "all names", "why_tests_cant": "tests use simple names", "anchors": ["src/PyOGRe/MathematicaParser/Lexer.py:Lexer.generate_str", "src/PyOGRe/MathematicaParser/Interpreter.py:parse_str"]}
{"id": "C60", "title": "simple quoted names survive the round trip", "statement": "A non-empty quoted name of letters, digits, and single inner spaces and punctuation other than quotes and backslashes is read back unchanged, and the text after the closing quote is lexed separately.", "quantifier": "all such names and all following text", "why_tests_cant": "infinitely many names", "anchors": ["src/PyOGRe/MathematicaParser/Lexer.py:Lexer.generate_str", "src/PyOGRe/MathematicaParser/Interpreter.py:parse_str"]}
{"id": "C61", "title": "decimal numbers can be imported", "statement": "A decimal literal such as 1.5 is read as that number.", "quantifier": "all decimal literals", "why_tests_cant": "tests contain no decimals", "anchors": ["src/PyOGRe/MathematicaParser/Lexer.py:Lexer.generate_expr"]}
{"id": "C62", "title": "the lexer drops no characters", "statement": "Every character outside strings that is not white space contributes to a token or raises an error.", "quantifier": "all strings", "why_tests_cant": "needs stray angle brackets or bars", "anchors": ["src/PyOGRe/MathematicaParser/Lexer.py:Lexer.generate_tokens"]}
{"id": "C63", "title": "the geodesic equations are transformed", "statement": "get_components(coords=c) on geodesic equations returns the equations in the coordinates c.", "quantifier": "all metrics and coordinate changes", "why_tests_cant": "no test inspects transformed geodesics", "anchors": ["src/PyOGRe/Geodesic.py:GeodesicLagrangian._transform_coordinates", "src/PyOGRe/Geodesic.py:GeodesicChristoffel._transform_coordinates", "src/PyOGRe/Geodesic.py:GeodesicTime._transform_coordinates"]}
{"id": "C64", "title": "a metric may have any default configuration", "statement": "After change_default_indices with any valid index tuple, the components of a metric in every configuration and every coordinate system are the same as before.", "quantifier": "all metrics, all valid default configurations, all later requests", "why_tests_cant": "needs a change of defaults followed by a coordinate change followed by a request in a third configuration", "anchors": ["src/PyOGRe/Metric.py:Metric._transform_coordinates", "src/PyOGRe/BaseTensor.py:BaseTensor.change_default_indices"]}
{"id": "C65", "title": "the number of index symbols is checked", "statement": "T(...) with a number of index symbols that differs from the rank of T raises an error.", "quantifier": "all tensors and all symbol strings", "why_tests_cant": "tests only use the right number of symbols", "anchors": ["src/PyOGRe/Calc.py:CalcObject.__init__", "src/PyOGRe/BaseTensor.py:BaseTensor.__call__", "src/PyOGRe/Metric.py:Metric.__call__"]}
{"id": "C66", "title": "CovariantD applies to formulas", "statement": "CovariantD(\"a\") @ x yields a result for every indexed formula x for which it yields one when x is a single tensor.", "quantifier": "all formulas", "why_tests_cant": "needs a covariant derivative of an intermediate result", "anchors": ["src/PyOGRe/Calc.py:CalcObject.__matmul__", "src/PyOGRe/Calc.py:Calc"]}
{"id": "C67", "title": "zero_tensor validates its arguments", "statement": "zero_tensor(dim, rank) returns the zero array with rank axes of length dim when rank is 0, or when rank is positive and dim is at least 1; it raises ValueError for every other pair of integers.", "quantifier": "all pairs of integers", "why_tests_cant": "needs negative ranks and dimensions below one", "anchors": ["src/PyOGRe/Utils.py:zero_tensor"]}
{"id": "C68", "title": "printed documents are parsed back", "statement": "For every document built from expressions, replacement rules, quoted names, lists and associations nested to any depth, writing it the way the export functions do and parsing the result gives the same tree.", "quantifier": "all documents of any size and depth, compact and with spaces", "why_tests_cant": "infinitely many documents", "anchors": ["src/PyOGRe/MathematicaParser/MathematicaParser.py:Parser.list", "src/PyOGRe/MathematicaParser/MathematicaParser.py:Parser.assoc", "src/PyOGRe/MathematicaParser/Lexer.py:Lexer.generate_tokens", "src/PyOGRe/Export.py:iterable_to_mathematica"]}
{"id": "C69", "title": "associations keep their keys", "statement": "An association whose keys are distinct quoted names is read as a dictionary with exactly these keys, in this order, each with the value of its own text.", "quantifier": "all associations with distinct simple names as keys and readable values", "why_tests_cant": "infinitely many documents", "anchors": ["src/PyOGRe/MathematicaParser/Interpreter.py:Interpreter.visit_AssocNode", "src/PyOGRe/MathematicaParser/Interpreter.py:parse_str"]}
{"id": "C70", "title": "nested function calls can be imported", "statement": "A function call with a function call as argument is read as the composition of the two functions.", "quantifier": "all nested calls", "why_tests_cant": "tests only nest arithmetic inside calls", "anchors": ["src/PyOGRe/MathematicaParser/Interpreter.py:Interpreter.visit_FunctionNode", "src/PyOGRe/MathematicaParser/Nodes.py:FunctionNode"]}
{"id": "C71", "title": "Lagrangians are covariant", "statement": "When a Lagrangian g_ij x'^i x'^j is transformed to other coordinates, the result is g'_ab y'^a y'^b with the transformed metric g'. This also holds for the components returned by get_components for Lagrangians of any session.", "quantifier": "all metrics of every dimension, all invertible coordinate changes whose rules do not contain the old coordinates", "why_tests_cant": "infinitely many metrics and coordinate changes", "anchors": ["src/PyOGRe/Lagrangian.py:Lagrangian._transform_coordinates", "src/PyOGRe/Lagrangian.py:Lagrangian.__init__"]}
{"id": "C72", "title": "the Lagrangian and the geodesic equations of a metric", "statement": "In the default coordinates of the metric calc_lagrangian returns g_ij x'^i x'^j and calc_geodesic_from_christoffel returns equations equivalent to x''^s + Gamma^s_ij x'^i x'^j = 0.", "quantifier": "all metrics of every dimension, all sessions with one metric, all sequences of these calls", "why_tests_cant": "infinitely many metrics, equality of expressions", "anchors": ["src/PyOGRe/Calc.py:CalcLagrangian", "src/PyOGRe/Calc.py:CalcGeodesicFromChristoffel", "src/PyOGRe/Geodesic.py:GeodesicLagrangian.__init__", "src/PyOGRe/Geodesic.py:GeodesicChristoffel.__init__"]}
{"id": "C73", "title": "the Euler-Lagrange equations are the geodesic equations", "statement": "In the default coordinates of the metric calc_geodesic_from_lagrangian returns equations equivalent to g_ks (x''^s + Gamma^s_ij x'^i x'^j) = 0, which have the same solutions as those from the Christoffel symbols.", "quantifier": "all metrics of every dimension that contain no velocities and no curve parameter", "why_tests_cant": "infinitely many metrics, equality of expressions", "anchors": ["src/PyOGRe/Calc.py:CalcGeodesicFromLagrangian"]}
{"id": "C74", "title": "geodesic equations in requested coordinates", "statement": "calc_geodesic_from_christoffel(metric, coords=c) returns the geodesic equations of the metric in the coordinates c.", "quantifier": "all metrics and all coordinate systems that can be reached", "why_tests_cant": "no test compares the equations in two coordinate systems", "anchors": ["src/PyOGRe/Calc.py:CalcGeodesicFromChristoffel"]}
{"id": "C75", "title": "geodesic equations with the time as parameter", "statement": "In the default coordinates of the metric calc_geodesic_with_time_parameter returns equations equivalent to x''^s + (Gamma^s_ij - Gamma^0_ij x'^s) x'^i x'^j = 0 with x'^0 = 1 and x''^0 = 0; the first of them is 0 = 0.", "quantifier": "all metrics of every dimension, all sessions with one metric, all sequences of these calls", "why_tests_cant": "infinitely many metrics, equality of expressions", "anchors": ["src/PyOGRe/Calc.py:CalcGeodesicWithTimeParameter", "src/PyOGRe/Geodesic.py:GeodesicTime.__init__", "src/PyOGRe/Metric.py:Metric.calc_geodesic_with_time_parameter"]}
{"id": "C76", "title": "a request in other coordinates leaves earlier results alone", "statement": "calc_lagrangian(metric, coords=c) does not change the default coordinates of an object that an earlier call returned.", "quantifier": "all sessions", "why_tests_cant": "needs two calls with different coordinates and a look at the first result", "anchors": ["src/PyOGRe/Calc.py:CalcLagrangian"]}
{"id": "C77", "title": "expressions are given their value", "statement": "For every expression built from words, Greek letters, + - * / ^, products by juxtaposition, minus signs, parentheses and function calls, reading its text gives the SymPy operations applied to the values of its parts in the order of the usual precedence; a function is applied to its arguments converted from their printed form.", "quantifier": "all expressions of any size and depth, compact and with spaces", "why_tests_cant": "infinitely many expressions", "anchors": ["src/PyOGRe/MathematicaParser/Interpreter.py:Interpreter", "src/PyOGRe/MathematicaParser/MathematicaParser.py:Parser.expr", "src/PyOGRe/MathematicaParser/MathematicaParser.py:Parser.term", "src/PyOGRe/MathematicaParser/MathematicaParser.py:Parser.factor", "src/PyOGRe/MathematicaParser/Interpreter.py:Interpreter.visit", "src/PyOGRe/MathematicaParser/Interpreter.py:Interpreter.visit_AddNode", "src/PyOGRe/MathematicaParser/Interpreter.py:Interpreter.visit_SubNode", "src/PyOGRe/MathematicaParser/Interpreter.py:Interpreter.visit_MulNode", "src/PyOGRe/MathematicaParser/Interpreter.py:Interpreter.visit_DivNode", "src/PyOGRe/MathematicaParser/Interpreter.py:Interpreter.visit_PowNode", "src/PyOGRe/MathematicaParser/Interpreter.py:Interpreter.visit_PlusNode", "src/PyOGRe/MathematicaParser/Interpreter.py:Interpreter.visit_MinusNode", "src/PyOGRe/MathematicaParser/Interpreter.py:Interpreter.visit_ExprNode", "src/PyOGRe/MathematicaParser/Interpreter.py:Interpreter.visit_GreekNode"]}
{"id": "C78", "title": "Greek letters can be arguments of functions", "statement": "A function call with a Greek letter as argument is read as the function of the symbol for this letter.", "quantifier": "all functions and Greek letters", "why_tests_cant": "no test calls a function with a Greek letter", "anchors": ["src/PyOGRe/MathematicaParser/Interpreter.py:Interpreter.visit_FunctionNode", "src/PyOGRe/MathematicaParser/Nodes.py:GreekNode"]}
{"id": "C79", "title": "documents are given their value", "statement": "A list is read as the list of the values of its members in order; an association is read as a dictionary in which a key written twice keeps its first place and has its last value, or, if a key is a list, as the pair of the list of keys and the list of values; the marks for ReleaseHold have no effect.", "quantifier": "all documents of any size and depth whose parts have values", "why_tests_cant": "infinitely many documents", "anchors": ["src/PyOGRe/MathematicaParser/Interpreter.py:Interpreter.visit_ListNode", "src/PyOGRe/MathematicaParser/Interpreter.py:Interpreter.visit_AssocNode", "src/PyOGRe/MathematicaParser/Interpreter.py:parse_str", "src/PyOGRe/MathematicaParser/Interpreter.py:Interpreter.visit_EqNode"]}
{"id": "C80", "title": "Greek letters in names", "statement": "In a quoted name every command for a Greek letter is replaced by the name of the letter, the placeholder for an empty square disappears, and the other characters stay.", "quantifier": "all names made of plain text and such commands in any number and order", "why_tests_cant": "infinitely many names; the replacements are made one after the other and could interfere", "anchors": ["src/PyOGRe/MathematicaParser/Interpreter.py:replace_greek_commands", "src/PyOGRe/MathematicaParser/Interpreter.py:Interpreter.visit_StrNode"]}
{"id": "C81", "title": "every group of arguments counts", "statement": "In a call with several groups of arguments, f[a][b], the value depends on every group. Derivative[n1, ..., nk][f][x1, ..., xk] is the function f of x1, ..., xk differentiated n1 times by x1, and so on; with fewer than three groups Derivative raises IndexError.", "quantifier": "all calls with several groups", "why_tests_cant": "no test has two groups except for Derivative", "anchors": ["src/PyOGRe/MathematicaParser/Interpreter.py:Interpreter.visit_FunctionNode", "src/PyOGRe/MathematicaParser/MathematicaParser.py:Parser.func"]}
{"id": "C82", "title": "texts of white space only", "statement": "Reading a text that consists of white space only, or no text, raises AttributeError and never returns a value.", "quantifier": "all such texts", "why_tests_cant": "infinitely many texts", "anchors": ["src/PyOGRe/MathematicaParser/Interpreter.py:parse_str", "src/PyOGRe/MathematicaParser/MathematicaParser.py:Parser.parse"]}
{"id": "C83", "title": "exporting changes nothing", "statement": "export_to_string and export_all_to_string leave the session as it is, whether they succeed or raise an error.", "quantifier": "all sessions and objects", "why_tests_cant": "tests do not compare the session before and after", "anchors": ["src/PyOGRe/Export.py:export_to_string", "src/PyOGRe/Export.py:export_all_to_string"]}
{"id": "C84", "title": "a tensor survives export and import", "statement": "A tensor with plain names and symbols is exported as a text that, read in any session with coordinates and a metric of the names of its own, makes exactly one new object, of the same class, with the same name, symbol, rank, default indices and default components.", "quantifier": "all tensors of every rank and of dimension at least 2, with any number of stored representations (a scalar must still have the coordinates it was made in as its default coordinates), and all sessions", "why_tests_cant": "infinitely many tensors and sessions; the text passes through a parser", "anchors": ["src/PyOGRe/Export.py:export_to_string", "src/PyOGRe/Export.py:import_from_string", "src/PyOGRe/Export.py:tensor_to_dict", "src/PyOGRe/Export.py:tensor_dict_to_association", "src/PyOGRe/Export.py:release_hold", "src/PyOGRe/Export.py:string_to_tensor"]}
{"id": "C85", "title": "a metric survives export and import", "statement": "A metric with default indices (-1,-1) or (1,1) is exported as a text that, read in any session with coordinates of the name of its own, makes exactly one new metric with the same name, symbol, indices and components, the inverse and the two identity matrices included.", "quantifier": "all metrics of dimension at least 2 that the constructor accepts, and all sessions", "why_tests_cant": "infinitely many metrics and sessions", "anchors": ["src/PyOGRe/Export.py:export_to_string", "src/PyOGRe/Export.py:import_from_string"]}
{"id": "C86", "title": "coordinates survive export and import", "statement": "A coordinate system is exported as a text that, read in any session that knows the targets of its transformations by name, makes exactly one new coordinate system with the same name, symbol and coordinates and with the same transformations to all objects of these names.", "quantifier": "all coordinate systems of dimension at least 2 with any number of transformations and Jacobians, and all sessions", "why_tests_cant": "infinitely many coordinate systems and sessions", "anchors": ["src/PyOGRe/Export.py:export_to_string", "src/PyOGRe/Export.py:import_from_string", "src/PyOGRe/Export.py:tensor_to_dict"]}
{"id": "C87", "title": "a whole session survives export and import", "statement": "The text of export_all_to_string, read by import_all_from_string in any session, replaces that session by one with exactly one copy of every exported object, coordinates first, then metrics, then the others; every copy has the class, name, symbol, default indices, default components and transformations of its original and refers to the copies of what its original refers to. The empty session is read as the empty session.", "quantifier": "all sessions with plain and different names and dimension at least 2, with any number of objects and transformations, whose scalars still have the coordinates they were made in as default coordinates", "why_tests_cant": "infinitely many sessions; the import runs in four passes over the text", "anchors": ["src/PyOGRe/Export.py:export_all_to_string", "src/PyOGRe/Export.py:import_all_from_string"]}
{"id": "C88", "title": "an import leaves no trace if it fails", "statement": "import_from_string either raises an error and leaves the session as it was or adds exactly one object at the end of the registry.", "quantifier": "all texts and sessions", "why_tests_cant": "infinitely many malformed texts", "anchors": ["src/PyOGRe/Export.py:import_from_string", "src/PyOGRe/Export.py:string_to_tensor"]}
{"id": "C89", "title": "no text can corrupt a session", "statement": "Whatever the text, import_from_string takes a session that the public operations can reach to another one, and after import_all_from_string every registered object exists, is registered once, and refers to registered objects only, even if the import fails halfway.", "quantifier": "all texts and sessions", "why_tests_cant": "infinitely many texts, errors can occur in every pass", "anchors": ["src/PyOGRe/Export.py:import_from_string", "src/PyOGRe/Export.py:import_all_from_string"]}
{"id": "C90", "title": "names are unique after an import of a session", "statement": "If import_all_from_string succeeds, it returns exactly the objects of the session, and no two of them have the same name.", "quantifier": "all texts and sessions", "why_tests_cant": "infinitely many texts, with repeated keys among them", "anchors": ["src/PyOGRe/Export.py:import_all_from_string"]}
{"id": "C91", "title": "sessions with equal names survive", "statement": "A session in which two objects have the same name is restored with as many objects as it had.", "quantifier": "all sessions with any names", "why_tests_cant": "tests export objects with different names only", "anchors": ["src/PyOGRe/Export.py:export_all_to_string", "src/PyOGRe/Export.py:import_all_from_string"]}
{"id": "C92", "title": "a failed import keeps the session", "statement": "If import_all_from_string raises an error, the objects of the session are still registered.", "quantifier": "all texts and sessions", "why_tests_cant": "no test reads a malformed text in a session with objects", "anchors": ["src/PyOGRe/Export.py:import_all_from_string"]}
{"id": "C93", "title": "one dimension", "statement": "Coordinate systems with one coordinate, and sessions with such, can be exported and imported.", "quantifier": "all dimensions", "why_tests_cant": "tests use four coordinates", "anchors": ["src/PyOGRe/Export.py:string_to_tensor", "src/PyOGRe/Export.py:tensor_to_dict", "src/PyOGRe/MathematicaParser/Interpreter.py:Interpreter.visit_ListNode"]}
{"id": "C94", "title": "every name can be used", "statement": "An object with any non-empty name of letters survives export and import.", "quantifier": "all names", "why_tests_cant": "tests use ordinary names", "anchors": ["src/PyOGRe/Export.py:string_to_tensor", "src/PyOGRe/Export.py:export_all_to_string"]}
{"id": "C95", "title": "the symbol survives export and import", "statement": "The imported copy of an object has the symbol of the original, also if that is empty.", "quantifier": "all symbols", "why_tests_cant": "tests use ordinary symbols", "anchors": ["src/PyOGRe/Export.py:tensor_to_dict", "src/PyOGRe/Export.py:string_to_tensor"]}
{"id": "C96", "title": "a metric with mixed default indices survives", "statement": "A metric whose default indices were changed to (1,-1) can be exported and imported.", "quantifier": "all metrics and all choices of default indices", "why_tests_cant": "tests export metrics with lower indices", "anchors": ["src/PyOGRe/Export.py:import_from_string", "src/PyOGRe/Metric.py:Metric.__init__", "src/PyOGRe/BaseTensor.py:BaseTensor.change_default_indices"]}
{"id": "C97", "title": "coordinates and metric of one name", "statement": "A session in which a metric has the name of its coordinates can be exported and imported.", "quantifier": "all sessions", "why_tests_cant": "tests use different names", "anchors": ["src/PyOGRe/Export.py:import_all_from_string"]}
{"id": "C98", "title": "coordinate systems of any name", "statement": "A coordinate system with a transformation can be exported and imported whatever the name of the target.", "quantifier": "all names", "why_tests_cant": "tests use ordinary names", "anchors": ["src/PyOGRe/Export.py:string_to_tensor", "src/PyOGRe/Export.py:tensor_to_dict"]}
{"id": "C99", "title": "references have the right class", "statement": "In every session that the public operations can reach, the metric of an object is a metric, its default coordinates are a coordinate system, and every object that is not a coordinate system has both.", "quantifier": "all histories of public operations, failing ones included", "why_tests_cant": "infinitely many histories", "anchors": ["src/PyOGRe/Tensor.py:Tensor.__init__", "src/PyOGRe/Metric.py:Metric.__init__", "src/PyOGRe/BaseTensor.py:BaseTensor.change_default_coords", "src/PyOGRe/OGReObject.py:OGReObject.delete"]}
{"id": "C100", "title": "the covariant derivative has the textbook value", "statement": "CovariantD(\"a\") @ T(...) with distinct symbols is nabla_a T: the partial derivative plus one term Gamma T for every upper index and minus one for every lower index, with the derivative index as the first, lower one; T, the metric and all other objects stay as they are.", "quantifier": "all dimensions, metrics, tensors of every rank and configuration, and choices of symbols", "why_tests_cant": "the number of terms grows with the rank; tests use a few tensors", "anchors": ["src/PyOGRe/Calc.py:CalcObject.__matmul__", "src/PyOGRe/Calc.py:CovariantD"]}
{"id": "C101", "title": "the covariant divergence has the textbook value", "statement": "CovariantD(\"a\") @ T(... a ...) is nabla_a T^a for an upper index and g^ab nabla_a T_b for a lower one, in every position of the index, and has the remaining symbols and index configuration of T.", "quantifier": "all dimensions, metrics, tensors of every rank and configuration, and positions of the index", "why_tests_cant": "the contraction depends on position and kind of the index", "anchors": ["src/PyOGRe/Calc.py:CalcObject.__matmul__", "src/PyOGRe/Calc.py:CalcObject.__init__"]}
{"id": "C102", "title": "T @ CovariantD(a) is the same labelled object as CovariantD(a) @ T", "statement": "T(...) @ CovariantD(\"a\") assigns to each assignment of positions to symbols the same component as CovariantD(\"a\") @ T(...).", "quantifier": "all tensors and symbols", "why_tests_cant": "tests write the derivative on the left", "anchors": ["src/PyOGRe/Calc.py:CalcObject.__matmul__"]}
{"id": "C103", "title": "covariant derivatives can be added", "statement": "CovariantD(\"a\") @ V(\"b\") + CovariantD(\"b\") @ V(\"a\"), as in the Killing equation, yields a result.", "quantifier": "all vectors", "why_tests_cant": "tests evaluate one covariant derivative per formula", "anchors": ["src/PyOGRe/Calc.py:CalcObject.__matmul__", "src/PyOGRe/Calc.py:Calc", "src/PyOGRe/Calc.py:CalcObject.__add__"]}
{"id": "C104", "title": "the covariant derivative of the metric vanishes", "statement": "All components of CovariantD(\"k\") @ g(\"i j\") are zero.", "quantifier": "all dimensions, metrics with default configuration (-1,-1), and symbols", "why_tests_cant": "an identity over all metrics; tests check one metric", "anchors": ["src/PyOGRe/Calc.py:CalcObject.__matmul__", "src/PyOGRe/Calc.py:CalcChristoffel"]}
{"id": "C105", "title": "the second Bianchi identity holds", "statement": "The cyclic sum of the components of CovariantD(\"e\") @ R(\"a b c d\") over c, d, e is zero for the Riemann tensor that calc_riemann_tensor yields.", "quantifier": "all dimensions and metrics", "why_tests_cant": "a differential identity over all metrics", "anchors": ["src/PyOGRe/Calc.py:CalcRiemannTensor", "src/PyOGRe/Calc.py:CalcObject.__matmul__"]}
{"id": "C106", "title": "the Einstein tensor has no divergence", "statement": "CovariantD(\"a\") @ G(\"a b\") for the tensor G that calc_einstein_tensor yields is zero.", "quantifier": "all dimensions and metrics with default configuration (-1,-1), and symbols", "why_tests_cant": "a differential identity over all metrics", "anchors": ["src/PyOGRe/Calc.py:CalcEinsteinTensor", "src/PyOGRe/Calc.py:CalcObject.__matmul__"]}
{"id": "C107", "title": "an import without a symbol gets the symbol of the class", "statement": "An object imported from a text without a Symbol entry has the default symbol of its class (x, g, T, Gamma, L, 0); with an entry that is a text or a symbol it has that symbol.", "quantifier": "all texts and sessions", "why_tests_cant": "all texts; exported texts always have the entry", "anchors": ["src/PyOGRe/Export.py:string_to_tensor", "src/PyOGRe/Export.py:import_from_string"]}
{"id": "C108", "title": "the norm squared of a tensor has the right value", "statement": "calc_norm_squared(T) yields a scalar whose value is the full contraction of T with itself through the metric; it does not depend on the index configuration T is given in, for a vector it is the sum of g_ij v_i v_j, and for the metric it is the dimension. Nothing else in the session changes, except that T may hold further components.", "quantifier": "all dimensions, ranks, configurations, tensors and sessions", "why_tests_cant": "tests norm one tensor; the claim is an identity over all ranks and configurations", "anchors": ["src/PyOGRe/Calc.py:CalcNormSquared", "src/PyOGRe/Calc.py:CalcObject.__matmul__", "src/PyOGRe/BaseTensor.py:BaseTensor.calc_norm_squared"]}
{"id": "C109", "title": "the norm squared belongs to its tensor", "statement": "calc_norm_squared(T) yields the norm squared of T, whichever norms have been calculated before in the session.", "quantifier": "all sessions and tensors", "why_tests_cant": "needs two tensors with the same name in one session", "anchors": ["src/PyOGRe/Calc.py:CalcNormSquared"]}
{"id": "C110", "title": "the line element is that of the metric in the coordinates asked for", "statement": "metric.line_element(coords) prints ds**2 = sum of g_ij dx_i dx_j with the metric in these coordinates, whatever was requested before; two coordinate systems give the same form when the differentials are related by the derivatives of the rules. It leaves all stored components right.", "quantifier": "all dimensions, metrics, consistent systems of rules, and histories of requests and changes of defaults", "why_tests_cant": "an identity over all metrics and all histories; the method only prints", "anchors": ["src/PyOGRe/Metric.py:Metric.line_element", "src/PyOGRe/Metric.py:Metric._transform_coordinates"]}
{"id": "C111", "title": "the symbol ds of the line element is not a differential", "statement": "On the right side of the equation that line_element prints the symbol ds does not occur.", "quantifier": "all metrics and coordinates", "why_tests_cant": "needs a coordinate called s", "anchors": ["src/PyOGRe/Metric.py:Metric.line_element"]}
{"id": "C112", "title": "the volume element is the determinant of the metric in the coordinates asked for", "statement": "metric.volume_element(coords) prints the determinant of the metric in these coordinates, whatever was requested before; between coordinate systems it changes by the square of the determinant of the Jacobian, and it is never zero.", "quantifier": "all dimensions, metrics, consistent systems of rules, and histories", "why_tests_cant": "an identity over all dimensions; tests can check a few matrices", "anchors": ["src/PyOGRe/Metric.py:Metric.volume_element", "src/PyOGRe/Metric.py:Metric._transform_coordinates"]}
{"id": "C113", "title": "simplify keeps the values", "statement": "t.simplify() replaces the stored components of t, in every configuration and coordinate system, by components of equal value; the other attributes of t and all other objects stay as they are.", "quantifier": "all tensors of rank at least 1 and sessions", "why_tests_cant": "all stored representations of all tensors", "anchors": ["src/PyOGRe/BaseTensor.py:simplify", "src/PyOGRe/BaseTensor.py:BaseTensor.simplify"]}
{"id": "C114", "title": "a scalar can be simplified", "statement": "t.simplify() succeeds for a tensor of rank 0.", "quantifier": "all scalars and sessions", "why_tests_cant": "no test simplifies a scalar", "anchors": ["src/PyOGRe/BaseTensor.py:simplify"]}
{"id": "C115", "title": "a scalar can be followed through a chain of coordinates", "statement": "If rules lead from the default coordinates of a scalar to others, its components there can be requested and they can become its default coordinates.", "quantifier": "all scalars and sessions", "why_tests_cant": "needs three coordinate systems and a change of the default coordinates", "anchors": ["src/PyOGRe/BaseTensor.py:BaseTensor._transform_coordinates", "src/PyOGRe/Tensor.py:Tensor._transform_coordinates", "src/PyOGRe/OGReObject.py:OGReObject.get_components"]}
{"id": "C116", "title": "negative, multiple, quotient and difference", "statement": "-x, k*x, x/k and x-y are labelled like x and have minus, k times, one k-th of the components of x, and the differences of the components of x and y with the same values of the index symbols.", "quantifier": "all dimensions, ranks, components and labels; sessions; scalars with the default coordinates they were made in", "why_tests_cant": "infinitely many tensors and labels", "anchors": ["src/PyOGRe/Calc.py:CalcObject.__neg__", "src/PyOGRe/Calc.py:CalcObject.__sub__", "src/PyOGRe/Calc.py:CalcObject.__mul__", "src/PyOGRe/Calc.py:CalcObject.__truediv__"]}
{"id": "C117", "title": "the negative is the multiple by -1", "statement": "Whenever (-1)*x has a value, -x has it too.", "quantifier": "all formulas and sessions", "why_tests_cant": "needs a scalar whose default coordinates were changed", "anchors": ["src/PyOGRe/Calc.py:CalcObject.__neg__", "src/PyOGRe/BaseTensor.py:BaseTensor._transform_coordinates"]}
{"id": "C118", "title": "a function is applied to each component", "statement": "get_components(function=f) has the entry f(x) wherever get_components() has the entry x and leaves the session as get_components() does.", "quantifier": "all functions, coordinates, configurations and tensors; scalars in the coordinates they were made in", "why_tests_cant": "all functions and ranks", "anchors": ["src/PyOGRe/BaseTensor.py:BaseTensor.get_components", "src/PyOGRe/Utils.py:map_to_array"]}
{"id": "C119", "title": "a function can be applied to a scalar in any coordinates", "statement": "If get_components(coords) succeeds for a scalar, then get_components(coords, function=f) succeeds.", "quantifier": "all scalars and coordinates", "why_tests_cant": "needs a scalar in coordinates other than those it was made in", "anchors": ["src/PyOGRe/BaseTensor.py:BaseTensor.get_components", "src/PyOGRe/Utils.py:map_to_array"]}
{"id": "C120", "title": "a scalar survives export and import", "statement": "A tensor of rank 0 with a plain name that can be exported can be imported.", "quantifier": "all scalars and sessions", "why_tests_cant": "needs a scalar whose default coordinates were changed", "anchors": ["src/PyOGRe/Export.py:string_to_tensor", "src/PyOGRe/Export.py:tensor_to_dict"]}
{"id": "C121", "title": "curvature changes coordinates as a tensor", "statement": "Transforming the Riemann tensor, the Ricci tensor, the Ricci scalar, the Einstein tensor or (from dimension 3 on) the Weyl tensor of a metric to new coordinates gives what the textbook formulas give for the transformed metric in the new coordinates.", "quantifier": "all dimensions, symmetric invertible metrics and rules with one rule for every old coordinate; metrics that do not contain the new coordinates", "why_tests_cant": "infinitely many metrics and rules; the identity needs second derivatives of the rules to cancel", "anchors": ["src/PyOGRe/BaseTensor.py:BaseTensor._transform_coordinates", "src/PyOGRe/Coordinates.py:Coordinates._calculate_jacobian", "src/PyOGRe/Calc.py:CalcRiemannTensor", "src/PyOGRe/Calc.py:CalcWeylTensor"]}
{"id": "C122", "title": "the covariant derivative changes coordinates as a tensor", "statement": "If a tensor transforms to another, its covariant derivative in the old coordinates transforms to the covariant derivative, with the Christoffel symbols of the transformed metric, of the other in the new ones.", "quantifier": "all dimensions, ranks, configurations, metrics and rules as in the property before; tensors that do not contain the new coordinates", "why_tests_cant": "all ranks and configurations", "anchors": ["src/PyOGRe/BaseTensor.py:BaseTensor._transform_coordinates", "src/PyOGRe/Coordinates.py:Coordinates._calculate_jacobian", "src/PyOGRe/Calc.py:CovariantD"]}
{"id": "C123", "title": "curvature is the same geometry in all coordinate systems", "statement": "If the rules between the coordinate systems connect the components of the metric, they connect the components of its curvature tensors as well.", "quantifier": "all sets of coordinate systems and rules between them, including circular ones", "why_tests_cant": "any number of coordinate systems", "anchors": ["src/PyOGRe/Coordinates.py:Coordinates.add_coord_transformation", "src/PyOGRe/Calc.py:CalcRiemannTensor"]}
{"id": "C124", "title": "computed curvature is right in all coordinates", "statement": "The tensor that CalcRiemannTensor, CalcRicciTensor, CalcRicciScalar, CalcEinsteinTensor or (from dimension 3 on) CalcWeylTensor makes has, after any requests and changes of defaults, in every coordinate system and configuration the components of the curvature of the metric in that coordinate system.", "quantifier": "all sessions with a regular metric and consistent rules, all later histories of requests, changes of defaults and labels and simplifications, all coordinates and configurations", "why_tests_cant": "infinitely many sessions and histories", "anchors": ["src/PyOGRe/Calc.py:CalcRiemannTensor", "src/PyOGRe/Calc.py:CalcRicciTensor", "src/PyOGRe/Calc.py:CalcRicciScalar", "src/PyOGRe/Calc.py:CalcEinsteinTensor", "src/PyOGRe/Calc.py:CalcWeylTensor", "src/PyOGRe/OGReObject.py:OGReObject.get_components", "src/PyOGRe/Tensor.py:Tensor._transform_coordinates"]}
{"id": "C125", "title": "index letters and the labels they give", "statement": "set_index_letters accepts two or more names separated by white space or commas as the letters in their order (and the key words automatic, english, greek in any mixture of cases), changes no other option, and the label of an object of a rank up to the number of letters is its symbol followed by the letters, each up or down as the configuration says; with more indices than letters the label raises IndexError.", "quantifier": "all lists of plain names, separators, symbols, configurations and states of the options", "why_tests_cant": "infinitely many names, configurations and ranks", "anchors": ["src/PyOGRe/Options.py:set_index_letters", "src/PyOGRe/OGReObject.py:OGReObject._eq_symbol"]}
{"id": "C126", "title": "accepted letters give labels", "statement": "If set_index_letters accepts a text, the labels of all objects can be made afterwards.", "quantifier": "all texts and objects", "why_tests_cant": "no test sets a single letter or fewer letters than the rank", "anchors": ["src/PyOGRe/Options.py:set_index_letters", "src/PyOGRe/OGReObject.py:OGReObject._eq_symbol"]}
{"id": "C127", "title": "labels tell index configurations apart", "statement": "Two index configurations for which an object has the same label are equal.", "quantifier": "all index letters, including repeated ones, LaTeX or text output, symbols and configurations", "why_tests_cant": "all letters and configurations", "anchors": ["src/PyOGRe/OGReObject.py:OGReObject._eq_symbol"]}
{"id": "C128", "title": "labels of list tell components apart", "statement": "Two positions with the same label in list() are equal.", "quantifier": "all names of coordinates, configurations, symbols and options", "why_tests_cant": "all names and ranks", "anchors": ["src/PyOGRe/BaseTensor.py:BaseTensor.list", "src/PyOGRe/OGReObject.py:OGReObject._eq_symbol"]}
{"id": "C129", "title": "str_symbols gives a normal form", "statement": "Where str_symbols accepts a text without colons, backslashes and brackets, its result is read by SymPy as the same symbols, is separated by single spaces, and is left as it is by str_symbols.", "quantifier": "all texts", "why_tests_cant": "infinitely many texts", "anchors": ["src/PyOGRe/Utils.py:str_symbols"]}
{"id": "C130", "title": "options have the value of the last accepted call", "statement": "After any sequence of calls of the functions that set options, accepted or rejected, each option has the value of the last accepted call for it, or the documented default; rejected calls change nothing; sizes are positive.", "quantifier": "all sequences of calls with any arguments", "why_tests_cant": "sequences of any length", "anchors": ["src/PyOGRe/Options.py:set_list_per_line", "src/PyOGRe/Options.py:set_font_size", "src/PyOGRe/Options.py:set_parallelization", "src/PyOGRe/Options.py:set_index_letters", "src/PyOGRe/Options.py:set_curve_parameter", "src/PyOGRe/Options.py:jupyter_support", "src/PyOGRe/Options.py:command_line_support"]}
{"id": "C131", "title": "curve parameter given by name", "statement": "Of a text with several names set_curve_parameter takes the first name, or rejects the text.", "quantifier": "all texts with plain names", "why_tests_cant": "infinitely many texts", "anchors": ["src/PyOGRe/Options.py:set_curve_parameter", "src/PyOGRe/Options.py:get_curve_parameter"]}
{"id": "C132", "title": "info shows the state of the session", "statement": "In every session info() answers for every registered object without changing anything, with name, symbol, type, rank, default indices, default coordinates, metric, coordinate transformations and users as they are in the session, every entry once and in the fixed order; an unused metric is shown without users.", "quantifier": "all sessions that can be reached and all registered objects", "why_tests_cant": "infinitely many sessions", "anchors": ["src/PyOGRe/OGReObject.py:OGReObject._get_info", "src/PyOGRe/OGReObject.py:OGReObject.info", "src/PyOGRe/Coordinates.py:Coordinates._get_info", "src/PyOGRe/Metric.py:Metric._get_info", "src/PyOGRe/Tensor.py:Tensor._get_info", "src/PyOGRe/BaseTensor.py:BaseTensor._get_info", "src/PyOGRe/OGReObject.py:OGReObject.__str__"]}
{"id": "C133", "title": "listed users and deletion", "statement": "If info() lists another object as a user of an object, deleting the object raises PermissionError and changes nothing; if it lists none the object can be deleted.", "quantifier": "all sessions that can be reached", "why_tests_cant": "infinitely many sessions", "anchors": ["src/PyOGRe/OGReObject.py:OGReObject.delete", "src/PyOGRe/Coordinates.py:Coordinates._get_info", "src/PyOGRe/Metric.py:Metric._get_info"]}
{"id": "C134", "title": "replacement in components of tensors", "statement": "get_components(replace=r) gives the entries of get_components() in which all symbols of r are replaced at the same time, if no value of r contains a symbol that is replaced.", "quantifier": "all sessions, tensors, coordinates, index configurations and dictionaries of any length", "why_tests_cant": "infinitely many dictionaries; the order of the substitutions depends on the names", "anchors": ["src/PyOGRe/BaseTensor.py:BaseTensor.get_components"]}
{"id": "C135", "title": "replacement that exchanges symbols", "statement": "get_components(replace={x: y, y: x}) exchanges x and y in the entries.", "quantifier": "all sessions", "why_tests_cant": "depends on the order in which SymPy substitutes", "anchors": ["src/PyOGRe/BaseTensor.py:BaseTensor.get_components"]}
{"id": "C136", "title": "components of curves as functions", "statement": "get_components() of a Lagrangian or of geodesic equations gives the stored entries with coordinates, velocities and accelerations written as functions of the parameter, and turning the functions back gives the stored entries.", "quantifier": "all sessions, coordinates, index configurations and parameters; names of coordinates, velocities, accelerations and functions do not clash", "why_tests_cant": "infinitely many sessions and names", "anchors": ["src/PyOGRe/Lagrangian.py:Lagrangian.get_components", "src/PyOGRe/Geodesic.py:GeodesicTime.get_components", "src/PyOGRe/Coordinates.py:Coordinates._coord_functions"]}
{"id": "C137", "title": "replacement in components of curves", "statement": "get_components(replace=r) of a Lagrangian or of geodesic equations describes the curve on which the coordinates of r have the given values: velocities and accelerations of these coordinates become the first and second derivative of the values along the curve. So the Lagrangian becomes that of the pulled back metric with the new velocities, and geodesic equations are those of the new velocities and accelerations.", "quantifier": "all sessions, coordinates, index configurations, parameters and dictionaries of any length; values contain coordinates and the parameter but no velocities and no replaced symbol; symbols that are not coordinates have constant values", "why_tests_cant": "infinitely many dictionaries; a proof by the chain rule", "anchors": ["src/PyOGRe/Lagrangian.py:Lagrangian.get_components", "src/PyOGRe/Geodesic.py:GeodesicTime.get_components", "src/PyOGRe/Coordinates.py:Coordinates._coord_functions", "src/PyOGRe/Coordinates.py:Coordinates._inverse_coord_functions"]}
{"id": "C138", "title": "coordinate replaced by an expression in itself", "statement": "get_components(replace={x: f(x)}) of geodesic equations replaces the acceleration of x by the second derivative of f(x) along the curve.", "quantifier": "all sessions", "why_tests_cant": "depends on the order in which SymPy substitutes", "anchors": ["src/PyOGRe/Geodesic.py:GeodesicTime.get_components", "src/PyOGRe/Lagrangian.py:Lagrangian.get_components"]}
{"id": "C139", "title": "velocity in a replacement", "statement": "get_components(replace={xdot: q}) of a Lagrangian, with a number q, replaces the velocity xdot by q.", "quantifier": "all sessions", "why_tests_cant": "the call raises no error and the result has the right shape", "anchors": ["src/PyOGRe/Lagrangian.py:Lagrangian.get_components", "src/PyOGRe/Coordinates.py:Coordinates._inverse_coord_functions"]}
{"id": "C140", "title": "zero components under replacement", "statement": "A component of geodesic equations that is zero stays zero under a replacement.", "quantifier": "all sessions and dictionaries", "why_tests_cant": "only for values that vary along the curve, given to symbols that are not coordinates", "anchors": ["src/PyOGRe/Geodesic.py:GeodesicTime.get_components", "src/PyOGRe/Lagrangian.py:Lagrangian.get_components"]}
{"id": "C141", "title": "replaced parameter that does not occur", "statement": "Replacing the parameter of geodesic equations by a number does not change a component that does not contain the parameter.", "quantifier": "all sessions", "why_tests_cant": "only components with the summand 1 are affected", "anchors": ["src/PyOGRe/Geodesic.py:GeodesicTime.get_components"]}
{"id": "C142", "title": "value of a formula of any size", "statement": "A formula made of tensors with index symbols (repeated ones included), sums, differences, negations, multiples, quotients by scalars, contracted products and PartialD, in which every tensor has one symbol for each index, no symbol more than twice, sums have the same free symbols on both sides and derivatives new symbols, is evaluated without error; the result has the free symbols of the formula and the components that the formula has by the summation convention, repeated symbols being summed with the inverse metric whatever the positions of the indices; no tensor loses or changes components.", "quantifier": "all sessions, formulas of any size, tensors of any rank and any index configuration with their default coordinates in common", "why_tests_cant": "infinitely many formulas; operators are applied to intermediate results of earlier operators", "anchors": ["src/PyOGRe/Calc.py:CalcObject.__init__", "src/PyOGRe/Calc.py:CalcObject.__add__", "src/PyOGRe/Calc.py:CalcObject.__sub__", "src/PyOGRe/Calc.py:CalcObject.__neg__", "src/PyOGRe/Calc.py:CalcObject.__mul__", "src/PyOGRe/Calc.py:CalcObject.__truediv__", "src/PyOGRe/Calc.py:CalcObject.__matmul__", "src/PyOGRe/Calc.py:PartialD", "src/PyOGRe/Tensor.py:Tensor.__call__"]}
{"id": "C143", "title": "Calc of a formula of any size", "statement": "Calc of such a formula, with or without requested order of the free symbols, gives one new tensor with the given name and symbol, the configuration of the free symbols in the requested order and the components of the formula in this order; apart from temporary tensors nothing is added or deleted, and nothing stored is lost.", "quantifier": "all sessions, formulas of any size, names other than TEMP and all orders of the free symbols", "why_tests_cant": "infinitely many formulas and orders", "anchors": ["src/PyOGRe/Calc.py:Calc", "src/PyOGRe/Calc.py:CalcObject.__matmul__", "src/PyOGRe/Calc.py:CalcObject.__add__"]}
{"id": "C144", "title": "formulas in other coordinates", "statement": "The components of a formula whose derivatives are taken of scalars obey the transformation law of tensors between all coordinate systems, if its tensors do; so whatever is obtained from the tensor that Calc returns, in any coordinates, in any configuration and after any history of the session, is the value of the formula evaluated in these coordinates.", "quantifier": "all geometries with any number of coordinate systems, formulas of any size with constant factors, and all histories of requests, changes of defaults, renamings and simplifications", "why_tests_cant": "infinitely many formulas, coordinate systems and histories; a proof by induction on the formula with the chain rule", "anchors": ["src/PyOGRe/Calc.py:Calc", "src/PyOGRe/Calc.py:CalcObject.__matmul__", "src/PyOGRe/Calc.py:PartialD", "src/PyOGRe/BaseTensor.py:BaseTensor._transform_coordinates", "src/PyOGRe/BaseTensor.py:BaseTensor.get_components"]}
{"id": "C145", "title": "transformations of a coordinate system are its own", "statement": "add_coord_transformation on one coordinate system does not change the transformations of another coordinate system.", "quantifier": "all histories of a session, dictionaries given to the constructor included", "why_tests_cant": "only systems made from one dictionary object are concerned; each system alone looks right", "anchors": ["src/PyOGRe/Coordinates.py:Coordinates.__init__", "src/PyOGRe/Coordinates.py:Coordinates.add_coord_transformation"]}
{"id": "C146", "title": "sessions in which no dictionary is given twice", "statement": "If callers give no dictionary of transformations with entries to two coordinate systems and do not change one after they gave it away, a session raises the same errors and has the same objects as the session in which every coordinate system has a copy of its dictionary.", "quantifier": "all histories of any length: constructors, changes of transformations, new dictionaries, changes of dictionaries not given away, all other operations", "why_tests_cant": "a refinement between two state machines over histories of any length", "anchors": ["src/PyOGRe/Coordinates.py:Coordinates.__init__", "src/PyOGRe/Coordinates.py:Coordinates.add_coord_transformation", "src/PyOGRe/BaseTensor.py:BaseTensor.get_components"]}
{"id": "C147", "title": "rules of coordinate systems are equations", "statement": "If coordinate systems are made with index tuples and callers do not change dictionaries that they made, every rule of every transformation that a coordinate system holds is an equation or None.", "quantifier": "all histories of any length", "why_tests_cant": "an invariant over all histories, with dictionaries shared or not", "anchors": ["src/PyOGRe/Coordinates.py:ValidateCoordinates", "src/PyOGRe/Coordinates.py:Coordinates.add_coord_transformation", "src/PyOGRe/Coordinates.py:Coordinates.__init__"]}
{"id": "C148", "title": "rules are always validated", "statement": "A coordinate system never holds a rule that is neither an equation nor None.", "quantifier": "all histories", "why_tests_cant": "the constructor looks at the rules in the default call; the fault needs indices=None or a later change of the dictionary", "anchors": ["src/PyOGRe/Coordinates.py:ValidateCoordinates", "src/PyOGRe/Coordinates.py:Coordinates.__init__"]}
{"id": "C149", "title": "show displays the components of get_components", "statement": "For tensors of rank other than 1, and for vectors when no function is given, show(coords, indices, replace, function) displays the array that get_components returns for the same arguments (vectors as a column): function is applied to every component and then the symbols are replaced. Both leave the session in the same state and raise the same errors, TypeError for a function on a scalar in coordinates it was not made in.", "quantifier": "all sessions, tensors of any rank and dimension, all functions and dictionaries of replacements without replaced symbols in the values", "why_tests_cant": "infinitely many arguments; the code is written three times", "anchors": ["src/PyOGRe/BaseTensor.py:BaseTensor.show", "src/PyOGRe/BaseTensor.py:BaseTensor.list", "src/PyOGRe/BaseTensor.py:BaseTensor.get_components", "src/PyOGRe/Utils.py:map_to_array"]}
{"id": "C150", "title": "show of a vector with a function", "statement": "show(function=f) of a vector or of geodesic equations displays the column of the components with f applied.", "quantifier": "all sessions", "why_tests_cant": "show only prints; the tests do not look at the output", "anchors": ["src/PyOGRe/BaseTensor.py:BaseTensor.show", "src/PyOGRe/Lagrangian.py:Lagrangian.show", "src/PyOGRe/Geodesic.py:GeodesicTime.show", "src/PyOGRe/Utils.py:map_to_array"]}
{"id": "C151", "title": "list lists the components of get_components", "statement": "list(coords, indices, replace, function) lists the array that get_components returns for the same arguments: a label for exactly the positions whose component is not recognised as zero, each with its value; if the zero test is exact, one label for each, and the values are different up to sign.", "quantifier": "all sessions, tensors of any rank and dimension, all functions and dictionaries of replacements", "why_tests_cant": "infinitely many arguments; list only prints", "anchors": ["src/PyOGRe/BaseTensor.py:BaseTensor.list", "src/PyOGRe/BaseTensor.py:BaseTensor.get_components"]}
{"id": "C152", "title": "show and list of Lagrangians and geodesic equations", "statement": "What show (without function for geodesic equations) and list display for Lagrangians and geodesic equations is, with coordinates, velocities and accelerations turned into functions of the parameter, what get_components returns for the same arguments; replacements follow the curve, and with the time as parameter its velocity becomes 1 and its acceleration 0.", "quantifier": "all sessions, both kinds of parameter, all functions and good replacements", "why_tests_cant": "code repeated for each class and method, compared on infinitely many arguments", "anchors": ["src/PyOGRe/Lagrangian.py:Lagrangian.show", "src/PyOGRe/Lagrangian.py:Lagrangian.list", "src/PyOGRe/Lagrangian.py:Lagrangian.get_components", "src/PyOGRe/Geodesic.py:GeodesicTime.show", "src/PyOGRe/Geodesic.py:GeodesicTime.list", "src/PyOGRe/Geodesic.py:GeodesicTime.get_components"]}
{"id": "C153", "title": "modes of get_components", "statement": "get_components accepts the modes sympy, mathematica and latex in any mixture of capital and small letters; the components and the state of the session do not depend on the mode, only their form does. Every other string gives ValueError and every other object TypeError, before anything is computed. Coordinates do the same.", "quantifier": "all strings and other values of mode, all sessions", "why_tests_cant": "infinitely many strings", "anchors": ["src/PyOGRe/BaseTensor.py:BaseTensor.get_components", "src/PyOGRe/Coordinates.py:Coordinates.get_components"]}
{"id": "C154", "title": "what export writes into a file", "statement": "export(filename) and export_all(filename) leave in the file exactly the text that export_to_string and export_all_to_string return; the other files and the session do not change. If the text cannot be made the same error is raised and no file changes, so an older export is not lost; if the file cannot be opened nothing changes. Without a filename the text is returned; every other object gives TypeError.", "quantifier": "all sessions, objects, file names and contents of the disk", "why_tests_cant": "needs every session and every failure of the export", "anchors": ["src/PyOGRe/Export.py:export_to_file", "src/PyOGRe/Export.py:export_all_to_file", "src/PyOGRe/Export.py:export_all", "src/PyOGRe/OGReObject.py:OGReObject.export"]}
{"id": "C155", "title": "files are read like strings", "statement": "import_from_file and import_all_from_file have the same outcome as import_from_string and import_all_from_string on the text of the file, with any line ends in it; the files do not change. So a session that can be written and read back as a string can be written into a file and read back from it.", "quantifier": "all sessions, all texts with any mixture of line ends, any number of objects", "why_tests_cant": "infinitely many texts and sessions; the session is cleared twice", "anchors": ["src/PyOGRe/Export.py:import_from_file", "src/PyOGRe/Export.py:import_all_from_file", "src/PyOGRe/Export.py:import_all_from_string"]}
{"id": "C156", "title": "a failing import from a file keeps the session", "statement": "import_from_file and import_all_from_file of a file that does not exist, or of a name that is no string, raise the error and leave the session as it was.", "quantifier": "all sessions and file names", "why_tests_cant": "the functions look alike; only the order of their statements differs", "anchors": ["src/PyOGRe/Export.py:import_all_from_file", "src/PyOGRe/Export.py:import_from_file"]}
{"id": "C157", "title": "sessions of all public functions keep the registry and the references sound", "statement": "After any sequence of calls of the public functions, also of calls that raise errors, no object is registered twice, no registered object is deleted, every registered object refers only to registered objects, metrics are metrics, coordinates are coordinates, tensors have both, and every registered metric is its own metric. The calls are all constructors, requests for components, displays, changes and deletions, all calculations of curvature, geodesics, Lagrangians and norms, the steps of formulas, Calc, info, export, import, import_all, delete_results and clear_instances.", "quantifier": "all sequences of calls of any length, with registered or deleted objects as arguments (registered ones where constructors store them), all formulas of any size", "why_tests_cant": "an invariant over all programs that use the package", "anchors": ["src/PyOGRe/OGReObject.py:OGReObject.delete", "src/PyOGRe/Options.py:delete_results", "src/PyOGRe/Calc.py:Calc", "src/PyOGRe/Metric.py:Metric.calc_christoffel", "src/PyOGRe/Metric.py:Metric.calc_lagrangian", "src/PyOGRe/Metric.py:Metric.line_element", "src/PyOGRe/Export.py:import_all_from_string", "src/PyOGRe/Options.py:clear_instances"]}
{"id": "C158", "title": "formulas refer to registered or deleted tensors", "statement": "The tensor of every CalcObject that a user still has is registered or deleted: no CalcObject keeps alive a tensor that is missing in the registry. No call, except clear_instances and import_all, makes a live object of the user unregistered without deleting it, brings back a deleted object or changes the class of one.", "quantifier": "all sessions of any length with all public functions, all CalcObjects made in them", "why_tests_cant": "an invariant over all programs; the temporary tensors are deleted behind the back of the CalcObjects", "anchors": ["src/PyOGRe/Calc.py:CalcObject.__init__", "src/PyOGRe/Calc.py:Calc", "src/PyOGRe/OGReObject.py:OGReObject.delete", "src/PyOGRe/Options.py:delete_results"]}
{"id": "C159", "title": "results are registered", "statement": "The object that a calculation, Calc or an import returns is registered when the call returns.", "quantifier": "all sessions of any length, all formulas, names and arguments", "why_tests_cant": "all calculations end with a clean-up that deletes objects by their names", "anchors": ["src/PyOGRe/Calc.py:Calc", "src/PyOGRe/Metric.py:Metric.calc_riemann_tensor", "src/PyOGRe/Metric.py:Metric.calc_einstein_tensor", "src/PyOGRe/Metric.py:Metric.calc_geodesic_from_lagrangian", "src/PyOGRe/Export.py:import_from_string"]}
{"id": "C160", "title": "clear_instances deletes the objects", "statement": "After clear_instances no object of the session is left, so objects that are made later refer only to registered objects.", "quantifier": "all sessions", "why_tests_cant": "needs two coordinate systems with transformations to each other", "anchors": ["src/PyOGRe/Options.py:clear_instances", "src/PyOGRe/OGReObject.py:OGReObject.delete"]}
{"id": "C161", "title": "the Einstein tensor vanishes in two dimensions", "statement": "calc_einstein_tensor() for a metric in two dimensions yields a tensor all of whose components are zero.", "quantifier": "all two-dimensional symmetric invertible metrics with default configuration (-1,-1), all sessions", "why_tests_cant": "an identity for all metrics, with symbolic components", "anchors": ["src/PyOGRe/Metric.py:Metric.calc_einstein_tensor", "src/PyOGRe/Metric.py:Metric.calc_ricci_tensor", "src/PyOGRe/Metric.py:Metric.calc_ricci_scalar"]}
{"id": "C162", "title": "the Weyl tensor vanishes in three dimensions", "statement": "calc_weyl_tensor() for a metric in three dimensions yields a tensor all of whose components are zero.", "quantifier": "all three-dimensional symmetric invertible metrics with default configuration (-1,-1), all sessions in which the Ricci tensor is not used by another object", "why_tests_cant": "an identity for all metrics, with symbolic components", "anchors": ["src/PyOGRe/Metric.py:Metric.calc_weyl_tensor"]}
{"id": "C163", "title": "vacuum solutions can be recognised by either tensor", "statement": "In dimensions other than two, the result of calc_einstein_tensor() is zero if and only if the result of calc_ricci_tensor() is zero.", "quantifier": "all dimensions other than two, all symmetric invertible metrics, all sessions", "why_tests_cant": "an equivalence for all metrics in all dimensions", "anchors": ["src/PyOGRe/Metric.py:Metric.calc_einstein_tensor", "src/PyOGRe/Metric.py:Metric.calc_ricci_tensor"]}
{"id": "C164", "title": "a flat metric has no curvature in any coordinates", "statement": "If the components of the metric are constant in its default coordinates, then the Christoffel symbols there are zero, and the Riemann tensor, the Ricci tensor, the Ricci scalar, the Einstein tensor and (from dimension 3 on) the Weyl tensor are zero in all coordinates to which chains of transformation rules lead, in every index configuration and whatever the session does with them, although the metric is not constant there.", "quantifier": "all dimensions, constant metrics, consistent sets of coordinate systems and rules, chains of any length, all later histories of requests and changes", "why_tests_cant": "tests would need all coordinate systems of flat space", "anchors": ["src/PyOGRe/Metric.py:Metric.calc_riemann_tensor", "src/PyOGRe/Metric.py:Metric.calc_ricci_tensor", "src/PyOGRe/Metric.py:Metric.calc_ricci_scalar", "src/PyOGRe/Metric.py:Metric.calc_einstein_tensor", "src/PyOGRe/Metric.py:Metric.calc_weyl_tensor", "src/PyOGRe/Metric.py:Metric.calc_christoffel", "src/PyOGRe/BaseTensor.py:BaseTensor.get_components"]}
{"id": "C165", "title": "the Lagrangian is conserved along geodesics", "statement": "The derivative of the result of calc_lagrangian() along a curve is 2 v^k e_k, where e_k are the equations in the result of calc_geodesic_from_lagrangian() up to invertible factors, and 2 v^k g_ks f^s with those in the result of calc_geodesic_from_christoffel(); it is zero wherever these equations hold.", "quantifier": "all dimensions, symmetric invertible metrics that contain neither velocities nor the curve parameter, all sessions", "why_tests_cant": "relates the results of three functions for all metrics", "anchors": ["src/PyOGRe/Metric.py:Metric.calc_lagrangian", "src/PyOGRe/Metric.py:Metric.calc_geodesic_from_lagrangian", "src/PyOGRe/Metric.py:Metric.calc_geodesic_from_christoffel"]}
{"id": "C166", "title": "cyclic coordinates have conserved momenta", "statement": "If no component of the metric depends on the coordinate k, the derivative along a curve of dL/dv_k, where L is the result of calc_lagrangian(), is the k-th equation of calc_geodesic_from_lagrangian() up to an invertible factor; it is zero exactly where this equation holds.", "quantifier": "all dimensions, symmetric invertible metrics that contain neither velocities nor the curve parameter, all cyclic coordinates, all sessions", "why_tests_cant": "relates the results of two functions for all metrics", "anchors": ["src/PyOGRe/Metric.py:Metric.calc_lagrangian", "src/PyOGRe/Metric.py:Metric.calc_geodesic_from_lagrangian"]}
{"id": "C167", "title": "covariant derivatives of formulas", "statement": "CovariantD can be applied to every formula that has a value: CovariantD(\"a\") @ (CovariantD(\"b\") @ V(\"c\")) and CovariantD(\"a\") @ (V(\"b\") + V(\"b\")) yield results.", "quantifier": "all formulas", "why_tests_cant": "tests apply CovariantD to tensors, not to formulas", "anchors": ["src/PyOGRe/Calc.py:CalcObject.__matmul__", "src/PyOGRe/Calc.py:Calc", "src/PyOGRe/Calc.py:CovariantD"]}
{"id": "C168", "title": "repeated covariant derivatives have the textbook value", "statement": "If every covariant derivative is made a tensor with Calc before the next one is taken, any number of them succeed, and the result has the components of the iterated covariant derivative, the newest index in front; nothing else changes in the session.", "quantifier": "all tensors of any rank and configuration, all numbers of derivatives, all symmetric invertible metrics with default configuration (-1,-1), all names other than \"TEMP\" and those of the curvature tensors, all symbols that leave two letters free", "why_tests_cant": "any number of derivatives of tensors of any rank", "anchors": ["src/PyOGRe/Calc.py:CalcObject.__matmul__", "src/PyOGRe/Calc.py:Calc", "src/PyOGRe/Calc.py:CovariantD"]}
{"id": "C169", "title": "the Ricci identity holds", "statement": "The second covariant derivative of a tensor, computed with CovariantD, Calc and CovariantD, has the Riemann tensor as commutator: nabla_a nabla_b T - nabla_b nabla_a T is the sum of +R^s_dab T^d over the upper and of -R^d_sab T_d over the lower indices s; for a scalar it is zero.", "quantifier": "all tensors of any rank and configuration, all symmetric invertible metrics with default configuration (-1,-1), all sessions", "why_tests_cant": "relates CovariantD with calc_riemann_tensor for all tensors and metrics", "anchors": ["src/PyOGRe/Calc.py:CalcObject.__matmul__", "src/PyOGRe/Calc.py:Calc", "src/PyOGRe/Calc.py:CovariantD", "src/PyOGRe/Metric.py:Metric.calc_riemann_tensor"]}
{"id": "C170", "title": "covariant derivatives obey the product rule", "statement": "The covariant derivative of the product S(\"ab..\") @ T(\"cd..\") without a shared symbol, made a tensor with Calc, has the components (nabla S) T + S (nabla T).", "quantifier": "all pairs of tensors of any ranks and configurations, scalars included, all symmetric invertible metrics with default configuration (-1,-1), all sessions", "why_tests_cant": "an identity for all tensors and metrics", "anchors": ["src/PyOGRe/Calc.py:CalcObject.__matmul__", "src/PyOGRe/Calc.py:Calc", "src/PyOGRe/Calc.py:CovariantD"]}
{"id": "C171", "title": "covariant derivatives commute with raising and lowering", "statement": "If the components of a tensor in its configuration j are those of a tensor h of configuration i with indices raised and lowered, then CovariantD of it yields the covariant derivative of h with the same indices raised and lowered.", "quantifier": "all tensors of any rank, all pairs of configurations, all symmetric invertible metrics with default configuration (-1,-1), all sessions", "why_tests_cant": "an identity for all tensors, configurations and metrics", "anchors": ["src/PyOGRe/Calc.py:CalcObject.__matmul__", "src/PyOGRe/Calc.py:CovariantD", "src/PyOGRe/BaseTensor.py:BaseTensor._get_representation"]}
{"id": "C172", "title": "covariant derivatives do not depend on the choice of index letters", "statement": "After set_index_letters has been given two or more different letters, of which at least two are not used as symbols in the formula, CovariantD gradients and divergences have the textbook value, the same as under the default letters. Two letters more than there are symbols are enough. The key words automatic and english restore the default behaviour and greek gives the Greek alphabet.", "quantifier": "all lists of different letters and separators that set_index_letters accepts, all key words, all previous options, all tensors of any rank and configuration, all symmetric invertible metrics with default configuration (-1,-1), all sessions", "why_tests_cant": "any letters, any separators, any tensors: the dummy names are chosen from the option at every derivative", "anchors": ["src/PyOGRe/Options.py:set_index_letters", "src/PyOGRe/Calc.py:CalcObject.__matmul__", "src/PyOGRe/Calc.py:CovariantD"]}
{"id": "C173", "title": "every accepted choice of index letters works with covariant derivatives", "statement": "Whenever set_index_letters accepts a text, covariant derivatives still have the textbook value.", "quantifier": "all texts that set_index_letters accepts, all tensors, all sessions", "why_tests_cant": "needs the combination of an option with a later derivative", "anchors": ["src/PyOGRe/Options.py:set_index_letters", "src/PyOGRe/Calc.py:CalcObject.__matmul__"]}
{"id": "C174", "title": "geodesic equations from the Lagrangian do not depend on the curve parameter", "statement": "After set_curve_parameter has been given a symbol or a name that is neither a coordinate nor in the metric, calc_geodesic_from_lagrangian yields the same textbook equations as with the default parameter.", "quantifier": "all parameters given as symbol or as one name, all previous options, all symmetric invertible metrics with default configuration (-1,-1) in which neither velocities nor the parameter occur, all sessions", "why_tests_cant": "any parameter, any metric, any dimension", "anchors": ["src/PyOGRe/Options.py:set_curve_parameter", "src/PyOGRe/Metric.py:Metric.calc_geodesic_from_lagrangian"]}
{"id": "C175", "title": "every accepted curve parameter gives the geodesic equations", "statement": "Whenever set_curve_parameter accepts a name, calc_geodesic_from_lagrangian still yields the geodesic equations.", "quantifier": "all names that set_curve_parameter accepts, all metrics", "why_tests_cant": "needs the combination of an option with the names of the coordinates", "anchors": ["src/PyOGRe/Options.py:set_curve_parameter", "src/PyOGRe/Metric.py:Metric.calc_geodesic_from_lagrangian", "src/PyOGRe/Coordinates.py:Coordinates._coord_functions"]}
{"id": "C176", "title": "The volume element and the Christoffel symbols agree", "statement": "In a session with a metric that is invertible and symmetric, the volume element squared that Metric.volume_element computes is the determinant v of the metric, for every dimension, and it is invertible. Its derivative with the coordinate x^i is 2 v Gamma^k_ik for the Christoffel symbols that calc_christoffel computes, and the same with the lower indices exchanged.", "quantifier": "every session with a metric in default coordinates, every dimension, every symmetric invertible matrix of components, coordinates given or not", "why_tests_cant": "two functions that share no code have to agree by Jacobi's formula, for symbolic components of any dimension", "anchors": ["src/PyOGRe/Metric.py:Metric.volume_element", "src/PyOGRe/Metric.py:Metric.calc_christoffel"]}
{"id": "C177", "title": "Divergences are weighted with the volume element", "statement": "For a vector T^a, and for a tensor T^ab... of any rank with upper indices only whose components change sign when the first index is exchanged with any other, 2 v times the divergence CovariantD('a') @ T('ab...') is the sum over a of 2 v d_a T^ab... + T^ab... d_a v, with the volume element squared v that volume_element computes: the other Christoffel terms cancel. For a covector the same holds with its index raised.", "quantifier": "every session with a metric, every rank, every tensor of that rank antisymmetric in its first index, every choice of index symbols", "why_tests_cant": "the cancellation of the connection terms depends on the rank and on symmetries of symbolic components; tests compute single examples", "anchors": ["src/PyOGRe/Calc.py:CalcObject.__matmul__", "src/PyOGRe/Calc.py:CovariantD", "src/PyOGRe/Metric.py:Metric.volume_element", "src/PyOGRe/Metric.py:Metric.calc_christoffel"]}
{"id": "C178", "title": "The divergence of a gradient is the Laplace-Beltrami operator", "statement": "For a scalar s, the gradient CovariantD('a') @ S('') made a tensor with Calc, and the divergence CovariantD('a') @ of it, give the Laplacian: 2 v times the result is the sum over a of 2 v d_a (g^ab d_b s) + g^ab d_b s d_a v, with the volume element squared v.", "quantifier": "every session with a metric, every scalar, every name for the tensor in between, every dimension", "why_tests_cant": "two covariant derivatives, a change of index position and a published tensor in between; no finite set of metrics covers it", "anchors": ["src/PyOGRe/Calc.py:CalcObject.__matmul__", "src/PyOGRe/Calc.py:CovariantD", "src/PyOGRe/Calc.py:Calc", "src/PyOGRe/Metric.py:Metric.volume_element"]}
{"id": "C179", "title": "Curls contain no Christoffel symbols", "statement": "For a covector A_b, the derivative D_ab = CovariantD('a') @ A('b') satisfies D_pq - D_qp = d_p A_q - d_q A_p. For an antisymmetric tensor F_bc, the cyclic sum of CovariantD('a') @ F('bc') over its three indices is the cyclic sum of the partial derivatives.", "quantifier": "every session with a metric, every covector and every antisymmetric tensor with two lower indices, every dimension, every choice of distinct index symbols", "why_tests_cant": "an identity between symbolic components for all index values, metrics and dimensions", "anchors": ["src/PyOGRe/Calc.py:CalcObject.__matmul__", "src/PyOGRe/Calc.py:CovariantD", "src/PyOGRe/Metric.py:Metric.calc_christoffel"]}
{"id": "C180", "title": "Constant curvature", "statement": "If the Riemann tensor of the metric is k (g_il g_jm - g_im g_jl), then in a session with this metric calc_ricci gives k (n-1) g, calc_ricci_scalar gives k n (n-1), calc_einstein gives k (n-1) (1 - n/2) g, and from three dimensions on calc_weyl gives zero.", "quantifier": "every session with such a metric, every dimension, every k, whether the tensors before were computed or not", "why_tests_cant": "four functions have to agree for a family of metrics of every dimension; a test checks single spheres", "anchors": ["src/PyOGRe/Metric.py:Metric.calc_ricci_tensor", "src/PyOGRe/Metric.py:Metric.calc_ricci_scalar", "src/PyOGRe/Metric.py:Metric.calc_einstein_tensor", "src/PyOGRe/Metric.py:Metric.calc_weyl_tensor"]}
{"id": "C181", "title": "Vacuum with a cosmological constant", "statement": "From three dimensions on, the Einstein tensor that is computed is -l g if and only if the Ricci tensor that is computed is 2 l / (n-2) g.", "quantifier": "every session with a metric, every dimension n >= 3, every l", "why_tests_cant": "an equivalence between two computed tensors for all metrics and dimensions", "anchors": ["src/PyOGRe/Metric.py:Metric.calc_einstein_tensor", "src/PyOGRe/Metric.py:Metric.calc_ricci_tensor"]}
{"id": "C182", "title": "In two dimensions the Ricci scalar determines the Riemann tensor", "statement": "In two dimensions the Riemann tensor that calc_riemann computes is, with its first index lowered, S/2 (g_ip g_jq - g_iq g_jp), where S is what calc_ricci_scalar computes.", "quantifier": "every session with a metric in two dimensions", "why_tests_cant": "an identity between two computed tensors for all symbolic metrics", "anchors": ["src/PyOGRe/Metric.py:Metric.calc_riemann_tensor", "src/PyOGRe/Metric.py:Metric.calc_ricci_scalar"]}
{"id": "C183", "title": "Names do not matter", "statement": "Two programs of calls that differ only in the names and symbols they give to objects, by a one-to-one renaming that keeps the names TEMP and Result and respects the names of results (the new name of 'g Christoffel' is the new name of g followed by ' Christoffel', and so on), have the same outcomes, call by call and errors included, and end in sessions whose objects differ in names and symbols only. In two such sessions get_components, show, list, the line element and the volume element are the same.", "quantifier": "every program of any length of constructors, requests, changes, curvature and geodesic computations, formulas, deletions and displays, every renaming", "why_tests_cant": "a relation between two runs of any length; tests run single programs", "anchors": ["src/PyOGRe/OGReObject.py:OGReObject.change_name", "src/PyOGRe/OGReObject.py:OGReObject.__repr__", "src/PyOGRe/OGReObject.py:OGReObject.__eq__", "src/PyOGRe/OGReObject.py:OGReObject.__hash__", "src/PyOGRe/Calc.py:Calc", "src/PyOGRe/Metric.py:Metric.calc_christoffel", "src/PyOGRe/Options.py:delete_results", "src/PyOGRe/BaseTensor.py:BaseTensor.get_components"]}
{"id": "C184", "title": "Symbols do not matter", "statement": "Two programs of calls that differ only in the symbols they give to objects have the same outcomes, call by call and errors included, and end in sessions whose objects differ in their symbols only.", "quantifier": "every program of any length of constructors, requests, changes, curvature and geodesic computations, formulas, deletions and displays, every choice of symbols", "why_tests_cant": "a relation between two runs of any length; tests run single programs", "anchors": ["src/PyOGRe/OGReObject.py:OGReObject.change_symbol", "src/PyOGRe/OGReObject.py:OGReObject.__init__", "src/PyOGRe/Calc.py:CalcObject.__init__", "src/PyOGRe/Calc.py:Calc"]}
{"id": "C185", "title": "Formulas that contain a covariant derivative", "statement": "A formula with one covariant derivative CovariantD(a) @ T(...), a gradient or a divergence, further operators + - @ / and scalar multiples, PartialD, any formulas to the right and tensors T(...) without a repeated symbol to the left of it evaluates without error, directly and through Calc, to a tensor with the value of the formula in which the derivative is replaced by the textbook covariant derivative; no other object changes, and nothing is registered besides temporary tensors, the result and the Christoffel symbols. With a formula that is no plain tensor to the left of the derivative this fails.", "quantifier": "every dimension, metric, tensor of any rank and configuration, formula of any size, choice of index letters with two free ones, name, symbol and order of indices", "why_tests_cant": "formulas of any size and tensors of any rank, in any session", "anchors": ["src/PyOGRe/Calc.py:CalcObject.__matmul__", "src/PyOGRe/Calc.py:CovariantD", "src/PyOGRe/Calc.py:CalcObject.__add__", "src/PyOGRe/Calc.py:CalcObject.__sub__", "src/PyOGRe/Calc.py:CalcObject.__mul__", "src/PyOGRe/Calc.py:CalcObject.__truediv__", "src/PyOGRe/Calc.py:CalcObject.__neg__", "src/PyOGRe/Calc.py:Calc"]}
{"id": "C186", "title": "Arguments of Coordinates and Metric are validated exactly", "statement": "Coordinates(...) succeeds exactly if the components are an Array of rank 1, the name a str, the symbol a str or Symbol, and the indices None or (1,), in the latter case with equations or None as rules; Metric(...) succeeds exactly if coords is a coordinate system with n coordinates, the components are an n x n Array or Matrix with a determinant other than zero that the symmetry test accepts, the indices (-1,-1) or (1,1), and name and symbol of the right types. The new object is registered last, has exactly the given attributes, and no other object changes.", "quantifier": "every session, every value of every argument, every dimension", "why_tests_cant": "all values of all arguments in all sessions", "anchors": ["src/PyOGRe/Coordinates.py:Coordinates.__init__", "src/PyOGRe/Coordinates.py:ValidateCoordinates", "src/PyOGRe/Metric.py:Metric.__init__", "src/PyOGRe/Metric.py:ValidateMetric", "src/PyOGRe/OGReObject.py:OGReObject.__init__", "src/PyOGRe/OGReObject.py:ValidateOGReObject", "src/PyOGRe/BaseTensor.py:BaseTensor.__init__", "src/PyOGRe/BaseTensor.py:ValidateBaseTensor"]}
{"id": "C187", "title": "Default arguments of the methods that make objects", "statement": "metric.new_tensor(name, components) succeeds exactly for a str and an array with the dimension of the coordinates the metric uses at that time, and makes a tensor with this metric, those coordinates, lower indices and the symbol T, also after the default coordinates of the metric were changed; coords.new_metric(name, components) makes a metric with lower indices and the symbol g; new_coordinates(name, components) makes coordinates with the index (1,), the symbol x and no transformations. With further arguments the methods do what the functions new_metric and new_tensor do with the object as argument, with the same defaults.", "quantifier": "every session, metric, coordinate system, name and array of components of any rank", "why_tests_cant": "all sessions, all arrays", "anchors": ["src/PyOGRe/Metric.py:Metric.new_tensor", "src/PyOGRe/Coordinates.py:Coordinates.new_metric", "src/PyOGRe/Coordinates.py:new_coordinates", "src/PyOGRe/Metric.py:new_metric", "src/PyOGRe/Tensor.py:new_tensor", "src/PyOGRe/BaseTensor.py:BaseTensor.change_default_coords"]}
{"id": "C188", "title": "Accepted coordinates are proper coordinate systems", "statement": "A coordinate system the constructor accepts consists of distinct symbols and survives export and import.", "quantifier": "every argument the constructor accepts", "why_tests_cant": "a counterexample is proved", "anchors": ["src/PyOGRe/Coordinates.py:Coordinates.__init__", "src/PyOGRe/Coordinates.py:ValidateCoordinates", "src/PyOGRe/Export.py:export_to_string", "src/PyOGRe/Export.py:import_from_string"]}
{"id": "C189", "title": "A metric multiplied by a constant", "statement": "If the components of a second metric are a constant a (with inverse b) times those of the first, in coordinates with the same symbols, the Christoffel symbols, the Riemann, Ricci and Einstein tensors that are computed for both are the same and the Ricci scalar of the second is b times that of the first.", "quantifier": "every dimension, every two sessions with such metrics, every invertible factor whose derivatives vanish", "why_tests_cant": "all metrics of all dimensions and all factors", "anchors": ["src/PyOGRe/Metric.py:Metric.calc_christoffel", "src/PyOGRe/Metric.py:Metric.calc_riemann_tensor", "src/PyOGRe/Metric.py:Metric.calc_ricci_tensor", "src/PyOGRe/Metric.py:Metric.calc_ricci_scalar", "src/PyOGRe/Metric.py:Metric.calc_einstein_tensor"]}
{"id": "C190", "title": "The Weyl tensor of conformally related metrics", "statement": "If the components of a second metric are a function a times those of the first, the Weyl tensor that is computed for it, with all indices lowered, is a times that of the first. The Weyl tensor that is computed for a function times a metric with constant components is zero.", "quantifier": "every dimension of at least 3, every two sessions with such metrics, every invertible function of the coordinates", "why_tests_cant": "all metrics of all dimensions and all functions", "anchors": ["src/PyOGRe/Metric.py:Metric.calc_weyl_tensor", "src/PyOGRe/Metric.py:Metric.calc_riemann_tensor", "src/PyOGRe/Metric.py:Metric.calc_ricci_tensor", "src/PyOGRe/Metric.py:Metric.calc_ricci_scalar"]}
{"id": "C191", "title": "Show and list of coordinate systems", "statement": "show displays the label of the coordinates and the coordinates as a column, in order; it needs one index letter and fails with IndexError without letters and with TypeError when the index letters are one single string. list displays every coordinate once, in order, whatever the index letters; different coordinates have different labels, and no label equals its coordinate, so no line is the text True. A coordinate system used in a formula fails with NotImplementedError.", "quantifier": "every coordinate system in every state, all options", "why_tests_cant": "all symbols, numbers of coordinates and options", "anchors": ["src/PyOGRe/Coordinates.py:Coordinates.show", "src/PyOGRe/Coordinates.py:Coordinates.list", "src/PyOGRe/Coordinates.py:Coordinates.__call__", "src/PyOGRe/OGReObject.py:OGReObject._eq_symbol"]}
{"id": "C192", "title": "Products of spaces", "statement": "If a metric in n1 + n2 coordinates consists of a block that depends on the first n1 coordinates and a block that depends on the others, the Christoffel symbols, the Riemann tensor and the Ricci tensor that are computed for it consist of those that are computed for the two blocks and of zeros, and the Ricci scalar is the sum of the two.", "quantifier": "all dimensions, every three sessions with such metrics", "why_tests_cant": "all metrics of all dimensions", "anchors": ["src/PyOGRe/Metric.py:Metric.calc_christoffel", "src/PyOGRe/Metric.py:Metric.calc_riemann_tensor", "src/PyOGRe/Metric.py:Metric.calc_ricci_tensor", "src/PyOGRe/Metric.py:Metric.calc_ricci_scalar"]}
{"id": "C193", "title": "Killing's equation and the Lie derivative of the metric", "statement": "For a covector T whose components are those of a vector X lowered with the metric, CovariantD(a) @ T(b) added to itself with the indices exchanged has the components of the Lie derivative of the metric along X. For the coordinate vector k these are the derivatives of the components of the metric along the coordinate k, so it satisfies Killing's equation exactly if the metric does not depend on that coordinate.", "quantifier": "every dimension, metric, vector and session", "why_tests_cant": "all metrics and vectors of all dimensions", "anchors": ["src/PyOGRe/Calc.py:CalcObject.__matmul__", "src/PyOGRe/Calc.py:CovariantD", "src/PyOGRe/Metric.py:Metric.calc_christoffel"]}
{"id": "C194", "title": "Covariant derivatives of formulas obey the rules for sums, products and contractions", "statement": "CovariantD(a) @ Calc(formula, name)(...) for a formula of tensors, sums, differences, products, contractions and multiples evaluates without error and has the components that result from the formula by the rules of the covariant derivative: sums term by term, in a product one factor after the other, coefficients by their partial derivative, contractions and traces of the derivative of the tensor, indices raised and lowered with the metric as if it were constant. No object changes besides components added to the operands; nothing is registered besides temporary tensors, the result and the Christoffel symbols.", "quantifier": "formulas of any size without derivatives, tensors of any rank and configuration, every dimension, metric, choice of index letters with two free ones, name and session", "why_tests_cant": "formulas of any size and tensors of any rank, in any session", "anchors": ["src/PyOGRe/Calc.py:CalcObject.__matmul__", "src/PyOGRe/Calc.py:CovariantD", "src/PyOGRe/Calc.py:CalcObject.__add__", "src/PyOGRe/Calc.py:CalcObject.__sub__", "src/PyOGRe/Calc.py:CalcObject.__mul__", "src/PyOGRe/Calc.py:CalcObject.__truediv__", "src/PyOGRe/Calc.py:CalcObject.__neg__", "src/PyOGRe/Calc.py:Calc", "src/PyOGRe/Metric.py:Metric.calc_christoffel"]}
{"id": "C195", "title": "Curvature of the Schwarzschild metric", "statement": "For diag(-(1-2M/r), 1/(1-2M/r), r^2, r^2 sin(theta)^2), the metric of Defaults.py, with any constant M: calc_christoffel has the well-known 13 nonzero components and no others; calc_riemann_tensor has the components that belong to planes of curvature 2M/r^3 (t-r and theta-phi) and -M/r^3 (the others); calc_ricci_tensor, calc_ricci_scalar and calc_einstein_tensor are zero; calc_weyl_tensor is the Riemann tensor with all indices down; and calc_norm_squared of a tensor with the components of the Riemann tensor is 48 M^2/r^6.", "quantifier": "every component algebra with functions that obey the rules of 1/r, sin and cos, every constant M, names of coordinates and metric and session with any correct earlier results", "why_tests_cant": "all constants and sessions; the tests of the repository compare the nonzero components of a few tensors with one output", "anchors": ["src/PyOGRe/Metric.py:Metric.calc_christoffel", "src/PyOGRe/Metric.py:Metric.calc_riemann_tensor", "src/PyOGRe/Metric.py:Metric.calc_ricci_tensor", "src/PyOGRe/Metric.py:Metric.calc_ricci_scalar", "src/PyOGRe/Metric.py:Metric.calc_einstein_tensor", "src/PyOGRe/Metric.py:Metric.calc_weyl_tensor", "src/PyOGRe/BaseTensor.py:BaseTensor.calc_norm_squared", "src/PyOGRe/Defaults.py:schwarzschild"]}
{"id": "C196", "title": "Curvature of the FLRW metric", "statement": "For diag(-1, a^2/(1-kr^2), a^2 r^2, a^2 r^2 sin(theta)^2), the metric of Defaults.py, with any function a of t and any constant k: calc_christoffel has the well-known components; calc_riemann_tensor has the components that belong to planes of curvature a''/a (with t) and (a'^2+k)/a^2 (the others); calc_ricci_tensor, calc_ricci_scalar = 6 (a''/a + (a'^2+k)/a^2) and calc_einstein_tensor are those of the Friedmann equations; calc_weyl_tensor is zero; and calc_norm_squared of a tensor with the components of the Riemann tensor is 12 ((a''/a)^2 + ((a'^2+k)/a^2)^2).", "quantifier": "every component algebra with functions that obey the rules of 1/r, sin and cos, every function a of t with an inverse and two derivatives, every constant k, names and session with any correct earlier results", "why_tests_cant": "all functions, constants and sessions", "anchors": ["src/PyOGRe/Metric.py:Metric.calc_christoffel", "src/PyOGRe/Metric.py:Metric.calc_riemann_tensor", "src/PyOGRe/Metric.py:Metric.calc_ricci_tensor", "src/PyOGRe/Metric.py:Metric.calc_ricci_scalar", "src/PyOGRe/Metric.py:Metric.calc_einstein_tensor", "src/PyOGRe/Metric.py:Metric.calc_weyl_tensor", "src/PyOGRe/BaseTensor.py:BaseTensor.calc_norm_squared", "src/PyOGRe/Defaults.py:flrw"]}
{"id": "C197", "title": "New coordinates and metrics start a session", "statement": "In every session in order (typed references, registered references, no temporary tensor in use) new_coordinates with a name other than TEMP and a nonempty vector of symbols succeeds, adds one registered object that is a chart with these symbols, and leaves the session in order; new_metric with a chart and a symmetric array that SymPy finds invertible then succeeds, adds one object, and the result is a session in which curvature can be computed (all the hypotheses of the curvature properties hold, also those about results computed earlier if no object has a name of such a result); every chart, metric and computed result that could be used before can be used as before.", "quantifier": "every session in order, dimension, name, symbols and array", "why_tests_cant": "all sessions, dimensions and arrays", "anchors": ["src/PyOGRe/Coordinates.py:new_coordinates", "src/PyOGRe/Metric.py:new_metric", "src/PyOGRe/Metric.py:Metric.__init__", "src/PyOGRe/Coordinates.py:Coordinates.__init__"]}
{"id": "C198", "title": "Importing Defaults.py", "statement": "In every session in order the import makes exactly five registered objects, in this order: the coordinates 4D Cartesian (t, x, y, z) and 4D Spherical (t, r, theta, phi), each with the transformation to the other as its only one, and the metrics 4D Minkowski, Schwarzschild and FLRW with the components of the formulas, all three ready for computing curvature; objects that were usable stay usable. If 1/x, sin and cos obey their rules, afterwards the Riemann tensor of Minkowski's metric is zero, Schwarzschild's Riemann tensor belongs to planes of curvature 2M/r^3 and -M/r^3 and its Ricci tensor is zero, and the Ricci scalar of the FLRW metric is 6 (a''/a + (a'^2+k)/a^2).", "quantifier": "every session in order, component algebra and functions sin, cos, sqrt, acos, atan, 1/x and a(t)", "why_tests_cant": "all sessions into which the module is imported", "anchors": ["src/PyOGRe/Defaults.py:cartesian", "src/PyOGRe/Defaults.py:spherical", "src/PyOGRe/Defaults.py:minkowski", "src/PyOGRe/Defaults.py:schwarzschild", "src/PyOGRe/Defaults.py:flrw", "src/PyOGRe/Coordinates.py:Coordinates.add_coord_transformation", "src/PyOGRe/Coordinates.py:Coordinates.new_metric"]}
{"id": "C199", "title": "Operands of formulas that are refused", "statement": "PartialD and CovariantD accept no symbol or one and raise ValueError for more; a derivative cannot be negated, multiplied, divided, subtracted, subtracted from, or contracted with a derivative (ValueError), and a tensor times a derivative is AttributeError; x - y raises TypeError for a y that is no formula (x - 0 is x), and ValueError for different ranks or symbols that are not a permutation; x * y raises TypeError for a y that is neither a number nor a formula and ValueError for two tensors of positive rank; 0 * x is labelled like x with all components zero; @ raises ValueError for tensors with different metrics. In all these cases the session stays as it was (0 * x makes a temporary tensor).", "quantifier": "every session, operands, symbols and ranks", "why_tests_cant": "all operands and sessions", "anchors": ["src/PyOGRe/Calc.py:PartialD", "src/PyOGRe/Calc.py:CovariantD", "src/PyOGRe/Calc.py:CalcObject.__neg__", "src/PyOGRe/Calc.py:CalcObject.__sub__", "src/PyOGRe/Calc.py:CalcObject.__rsub__", "src/PyOGRe/Calc.py:CalcObject.__mul__", "src/PyOGRe/Calc.py:CalcObject.__truediv__", "src/PyOGRe/Calc.py:CalcObject.__matmul__"]}
{"id": "C200", "title": "Arguments that must be metrics or coordinates", "statement": "The functions that compute Christoffel symbols, curvature tensors, the Lagrangian and geodesics raise TypeError if the metric is an object of another class, and those with an argument coords (Lagrangian, three geodesics, line_element, volume_element, change_default_coords, get_components) raise TypeError if it is an object of another class, add_coord_transformation TransformationError; the session stays as it was, also when a result is known already.", "quantifier": "every session, object and curve parameter", "why_tests_cant": "all sessions and objects", "anchors": ["src/PyOGRe/Calc.py:CalcChristoffel", "src/PyOGRe/Calc.py:CalcRiemannTensor", "src/PyOGRe/Calc.py:CalcLagrangian", "src/PyOGRe/Calc.py:CalcGeodesicFromLagrangian", "src/PyOGRe/Calc.py:CalcGeodesicFromChristoffel", "src/PyOGRe/Calc.py:CalcGeodesicWithTimeParameter", "src/PyOGRe/Metric.py:Metric.line_element", "src/PyOGRe/Metric.py:Metric.volume_element", "src/PyOGRe/BaseTensor.py:BaseTensor.change_default_coords", "src/PyOGRe/BaseTensor.py:BaseTensor.get_components", "src/PyOGRe/Coordinates.py:Coordinates.add_coord_transformation"]}
{"id": "C201", "title": "The divergence of the divergence of an antisymmetric tensor vanishes", "statement": "For every antisymmetric tensor F with two upper or two lower indices, j = Calc(CovariantD(\"b\") @ F(\"a b\"), name=nm) followed by CovariantD(\"a\") @ j(\"a\") succeeds with a tensor of rank 0 whose component is zero; only temporary tensors, j and the Christoffel symbols are registered.", "quantifier": "every metric, dimension, antisymmetric tensor, symbols and session", "why_tests_cant": "all tensors, metrics and dimensions", "anchors": ["src/PyOGRe/Calc.py:CovariantD", "src/PyOGRe/Calc.py:CalcObject.__matmul__", "src/PyOGRe/Calc.py:Calc", "src/PyOGRe/Calc.py:CalcChristoffel"]}
{"id": "C202", "title": "Symmetries give quantities conserved along geodesics", "statement": "For a covector h the rate of change of h_q v^q along a curve is v^i v^j times what CovariantD(\"a\") @ h(\"b\") computes plus a combination of the geodesic equations computed from the Christoffel symbols; if h is a vector X with its index lowered along which the Lie derivative of the metric vanishes, the rate of change is a combination of the equations computed from the Lagrangian (with coefficients X^k times units) and of those computed from the Christoffel symbols, so that it is zero on every geodesic.", "quantifier": "every metric, dimension, covector and session", "why_tests_cant": "all metrics, symmetries and dimensions", "anchors": ["src/PyOGRe/Calc.py:CalcGeodesicFromLagrangian", "src/PyOGRe/Calc.py:CalcGeodesicFromChristoffel", "src/PyOGRe/Geodesic.py:GeodesicLagrangian.__init__", "src/PyOGRe/Geodesic.py:GeodesicChristoffel.__init__", "src/PyOGRe/Calc.py:CovariantD", "src/PyOGRe/Calc.py:CalcObject.__matmul__"]}
{"id": "C203", "title": "Divergences of formulas and conserved currents", "statement": "For every formula without derivatives, CovariantD(\"a\") @ Calc(formula, nm)(\"... a ...\") succeeds with the divergence over the index in the place of a, contracted with the inverse metric if the index is lower, whose components the rules for sums, products and contractions give; the current T(\"a b\") @ X(\"b\") of a symmetric tensor without divergence and a symmetry X of the metric has divergence zero, in every default configuration.", "quantifier": "every formula without derivatives, tensors, configurations, symbols, metrics and dimensions", "why_tests_cant": "all formulas, metrics and dimensions", "anchors": ["src/PyOGRe/Calc.py:CovariantD", "src/PyOGRe/Calc.py:CalcObject.__matmul__", "src/PyOGRe/Calc.py:CalcObject.__add__", "src/PyOGRe/Calc.py:CalcObject.__sub__", "src/PyOGRe/Calc.py:CalcObject.__mul__", "src/PyOGRe/Calc.py:Calc"]}
{"id": "C204", "title": "Arguments of functions keep their value", "statement": "The arguments of a function in Mathematica text are printed by the __repr__ methods of the nodes and read again by sympify as Python. For arguments made with +, -, *, /, ^ and parentheses the function is applied to the values of the arguments.", "quantifier": "every text of a call with any number of arguments of any depth, every value of the names", "why_tests_cant": "all expressions of all depths", "anchors": ["src/PyOGRe/MathematicaParser/Interpreter.py:Interpreter.visit_FunctionNode", "src/PyOGRe/MathematicaParser/Nodes.py:AddNode.__repr__", "src/PyOGRe/MathematicaParser/Nodes.py:SubNode.__repr__", "src/PyOGRe/MathematicaParser/Nodes.py:MulNode.__repr__", "src/PyOGRe/MathematicaParser/Nodes.py:DivNode.__repr__", "src/PyOGRe/MathematicaParser/Nodes.py:PowNode.__repr__", "src/PyOGRe/MathematicaParser/Nodes.py:MinusNode.__repr__", "src/PyOGRe/MathematicaParser/Nodes.py:ExprNode.__repr__"]}
{"id": "C205", "title": "A metric that changes its default coordinates is the same metric in the new coordinates", "statement": "If a metric has components in its default coordinates only and change_default_coords succeeds, the metric is afterwards a metric in the new coordinates with which curvature can be computed; its components are the sums of the old ones times derivatives of the rules, with the rules substituted; the names and the registered objects stay the same. Minkowski's metric of the module Defaults becomes diag(-1, 1, r^2, r^2 sin(theta)^2) in the spherical coordinates of the module, and its Riemann tensor computed there is zero.", "quantifier": "every session, metric, dimension and rules; every session into which the module is imported", "why_tests_cant": "all metrics, rules, dimensions and sessions", "anchors": ["src/PyOGRe/BaseTensor.py:BaseTensor.change_default_coords", "src/PyOGRe/Metric.py:Metric._transform_coordinates", "src/PyOGRe/BaseTensor.py:BaseTensor._transform_coordinates", "src/PyOGRe/Coordinates.py:Coordinates._calculate_jacobian", "src/PyOGRe/Defaults.py:minkowski", "src/PyOGRe/Defaults.py:spherical"]}
{"id": "C206", "title": "What add_coord_transformation changes", "statement": "add_coord_transformation(coords, rules) with other coordinates and a list of equations and None succeeds and changes nothing but the transformation to coords, which becomes these equations; with rules=None it removes exactly this transformation, or raises KeyError if there is none; it raises TransformationError if coords is the coordinate system itself, an object of another class or no object, and TypeError if a rule is neither an equation nor None, and then changes nothing.", "quantifier": "every session, coordinates, dictionary of transformations and arguments", "why_tests_cant": "all sessions and all contents of the dictionary", "anchors": ["src/PyOGRe/Coordinates.py:Coordinates.add_coord_transformation"]}
{"id": "C207", "title": "The transformations of Defaults.py are inverse to each other", "statement": "The rules of the module Defaults from 4D Cartesian to 4D Spherical and from 4D Spherical to 4D Cartesian are inverse to each other: at every point where the rules are defined, a component that is transformed to the other coordinates and back has the same value.", "quantifier": "every component and every real point", "why_tests_cant": "all points and components; the test suite looks at expressions only", "anchors": ["src/PyOGRe/Defaults.py:cartesian", "src/PyOGRe/Defaults.py:spherical"]}
{"id": "C208", "title": "Refused indices and shapes are explained", "statement": "When a tuple of indices is refused because of its length, the message of the error tells how many indices are needed. The messages about values and shapes contain the tuple, respectively the shapes, that are refused.", "quantifier": "every tuple of indices, every rank and every shape of components", "why_tests_cant": "all tuples and shapes; the test suite checks the types of exceptions only", "anchors": ["src/PyOGRe/Exceptions.py:IndicesDimensionError.__init__", "src/PyOGRe/Exceptions.py:IndicesDimensionError.__str__", "src/PyOGRe/Exceptions.py:IndicesValueError.__init__", "src/PyOGRe/Exceptions.py:IndicesValueError.__str__", "src/PyOGRe/Exceptions.py:TensorDimensionError.__init__", "src/PyOGRe/Exceptions.py:TensorDimensionError.__str__", "src/PyOGRe/Exceptions.py:TensorCoordinatesError.__init__", "src/PyOGRe/Exceptions.py:TensorCoordinatesError.__str__", "src/PyOGRe/OGReObject.py:ValidateIndices", "src/PyOGRe/OGReObject.py:ValidateOGReObject", "src/PyOGRe/BaseTensor.py:ValidateBaseTensor"]}
{"id": "C209", "title": "A scalar times a tensor", "statement": "A tensor can be multiplied with * by each scalar tensor that has components in its coordinates, from either side. The product has the metric, the coordinates, the configuration and the index symbols of the tensor, and its components are those of the tensor times the value of the scalar in these coordinates.", "quantifier": "every session, every scalar and every tensor of any rank and dimension, with any default coordinates", "why_tests_cant": "all sessions and tensors; the test suite has no product of a scalar tensor with a tensor in other coordinates", "anchors": ["src/PyOGRe/Calc.py:CalcObject.__mul__", "src/PyOGRe/Calc.py:CalcObject.__rmul__", "src/PyOGRe/BaseTensor.py:BaseTensor.get_components"]}
{"id": "C210", "title": "Geodesics of metrics that differ by a factor", "statement": "If one metric is a function a times another one in the same coordinates, its Lagrangian is a times the other Lagrangian L. Its geodesic equations are, up to invertible factors, the other equations plus (v^i d_i a) v^s / a - (g^sl d_l a) L / (2 a), so light follows the same curves; with the time as the parameter only the part with L remains. If a is constant the geodesic equations are the same up to invertible factors, whichever of the three functions computes them.", "quantifier": "every pair of sessions with metrics of any dimension, every invertible factor a", "why_tests_cant": "all metrics and factors; the test suite compares the geodesics of no two metrics", "anchors": ["src/PyOGRe/Metric.py:Metric.calc_lagrangian", "src/PyOGRe/Metric.py:Metric.calc_geodesic_from_christoffel", "src/PyOGRe/Metric.py:Metric.calc_geodesic_from_lagrangian", "src/PyOGRe/Metric.py:Metric.calc_geodesic_with_time_parameter"]}
{"id": "C211", "title": "Geodesics of the default metrics", "statement": "The geodesic equations that are computed from the Christoffel symbols and with the time as the parameter are, up to invertible factors, the ones known from textbooks for the Schwarzschild metric with any M and for the FLRW metric with any scale factor a(t) and any k. For a metric with constant components, such as the Minkowski metric, they are those of straight lines.", "quantifier": "every session with such a metric, every constant M and k, every function a(t); every dimension for constant components", "why_tests_cant": "symbolic parameters and all sessions; the test suite evaluates no geodesic equations", "anchors": ["src/PyOGRe/Defaults.py:schwarzschild", "src/PyOGRe/Defaults.py:flrw", "src/PyOGRe/Defaults.py:minkowski", "src/PyOGRe/Metric.py:Metric.calc_geodesic_from_christoffel", "src/PyOGRe/Metric.py:Metric.calc_geodesic_with_time_parameter"]}
{"id": "C212", "title": "Ricci tensor and scalar of conformally related metrics", "statement": "If one metric is a function a times another one in the same coordinates, its Ricci tensor is R_ij + (n-2) (3/4 (d_i a)(d_j a)/a^2 - 1/2 (D_i D_j a)/a) - (1/2 (D^2 a)/a + (n-4)/4 |da|^2/a^2) g_ij and its Ricci scalar is R/a - (n-1) ((D^2 a)/a^2 + (n-6)/4 |da|^2/a^3).", "quantifier": "every pair of sessions with metrics of any dimension n, every invertible factor a", "why_tests_cant": "all metrics and factors in all dimensions; the test suite has single metrics only", "anchors": ["src/PyOGRe/Metric.py:Metric.calc_ricci_tensor", "src/PyOGRe/Metric.py:Metric.calc_ricci_scalar"]}
{"id": "C213", "title": "Changes of defaults are requests for components", "statement": "change_default_indices and change_default_coords succeed exactly if get_components succeeds with these indices or coordinates, raise the same errors otherwise, and change nothing but the caches that get_components fills and the one default; the components it gives are the default components afterwards.", "quantifier": "every session, every tensor and metric in it, every tuple of indices, every coordinate system", "why_tests_cant": "all sessions, indices and ways to fail; a test tries a few calls that succeed and looks at one attribute", "anchors": ["src/PyOGRe/BaseTensor.py:BaseTensor.change_default_indices", "src/PyOGRe/BaseTensor.py:BaseTensor.change_default_coords", "src/PyOGRe/BaseTensor.py:BaseTensor.get_components"]}
{"id": "C214", "title": "Default components are always there", "statement": "In every session, get_components() without arguments succeeds for every tensor that was not deleted and changes nothing.", "quantifier": "every session of calls of all public functions, with calls that fail anywhere; every tensor, Christoffel symbol, Lagrangian, geodesic and metric", "why_tests_cant": "all sequences of calls, including those that fail half way", "anchors": ["src/PyOGRe/BaseTensor.py:BaseTensor.get_components", "src/PyOGRe/BaseTensor.py:BaseTensor.change_default_coords", "src/PyOGRe/BaseTensor.py:BaseTensor.change_default_indices", "src/PyOGRe/Tensor.py:Tensor._check_representation", "src/PyOGRe/Metric.py:Metric._check_representation"]}
{"id": "C215", "title": "What TransformationError is about", "statement": "get_components and change_default_coords raise TransformationError only if there are no rules from the default coordinates of the tensor to the requested ones, and change_default_indices never does; components are not found without rules unless they were stored before.", "quantifier": "every session, every tensor of every class, all coordinates and configurations, whether or not the calls succeed", "why_tests_cant": "all tensors, metrics and systems of coordinates, with rules for some ways and not for others", "anchors": ["src/PyOGRe/BaseTensor.py:BaseTensor.get_components", "src/PyOGRe/BaseTensor.py:BaseTensor.change_default_coords", "src/PyOGRe/BaseTensor.py:BaseTensor.change_default_indices", "src/PyOGRe/BaseTensor.py:BaseTensor._transform_coordinates", "src/PyOGRe/Coordinates.py:Coordinates._check_jacobians", "src/PyOGRe/Tensor.py:Tensor._raise_lower", "src/PyOGRe/Tensor.py:Tensor._transform_coordinates", "src/PyOGRe/Metric.py:Metric._transform_coordinates"]}
{"id": "C216", "title": "delete_results reports what it removed", "statement": "Unless it is silent, delete_results reports the number of objects that it has taken out of the registry; for a block of k results that nothing uses this is k - floor(k/16).", "quantifier": "every registry in which no object is twice and none is deleted, with any number of results, used or not", "why_tests_cant": "registries of any size and order; the test suite does not look at the text", "anchors": ["src/PyOGRe/Options.py:delete_results", "src/PyOGRe/Options.py:get_instances"]}
{"id": "C217", "title": "The message about missing rules tells the two systems", "statement": "The message of a TransformationError about missing rules tells from which coordinate system to which one there are no rules.", "quantifier": "every session state, all pairs of coordinate systems and all names", "why_tests_cant": "all names and pairs of systems; a test looks at single messages", "anchors": ["src/PyOGRe/Exceptions.py:TransformationError", "src/PyOGRe/Exceptions.py:TransformationError.__init__", "src/PyOGRe/Exceptions.py:TransformationError.__str__", "src/PyOGRe/Coordinates.py:Coordinates._check_jacobians", "src/PyOGRe/BaseTensor.py:BaseTensor.change_default_coords"]}
{"id": "C218", "title": "The rank of an object is the number of its indices", "statement": "At any time the rank of an object is the number of its default indices, each of which is 1 or -1, and it never changes; every configuration in which components of a tensor are stored has that many indices; coordinates have rank 1 and metrics rank 2.", "quantifier": "every state of every session of constructors, requests, changes, simplifications and deletions, every object and every later state; the parts about single states for sessions of all public functions", "why_tests_cant": "sessions of any length with requests, changes of defaults and failing calls in any order", "anchors": ["src/PyOGRe/OGReObject.py:OGReObject.rank", "src/PyOGRe/OGReObject.py:OGReObject.__init__", "src/PyOGRe/OGReObject.py:ValidateIndices", "src/PyOGRe/BaseTensor.py:BaseTensor.change_default_indices", "src/PyOGRe/Metric.py:Metric.__init__"]}
{"id": "C219", "title": "Exports tell the version, imports need complete entries", "statement": "Every text of export_to_string begins with the name of the object and ends with the entry of the version, every text of export_all_to_string begins with the version. A text that import_from_string or import_all_from_string accepts is an association in which every object has a role, default coordinates, default indices and components, and a metric unless it is coordinates or a metric. If the first object lacks its role, has an unknown role, or lacks default coordinates, default indices or components, import_from_string raises KeyError and the session is as before.", "quantifier": "all sessions and objects, all texts with any number of objects and any entries in any order", "why_tests_cant": "texts of any length with any of the entries missing", "anchors": ["src/PyOGRe/Export.py:export_to_string", "src/PyOGRe/Export.py:export_all_to_string", "src/PyOGRe/Export.py:string_to_tensor", "src/PyOGRe/Version.py"]}
