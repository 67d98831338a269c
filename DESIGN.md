# Formal model of libristra: design

Source under study: `laristra/libristra` (read as text from /repo; not built or run).
Prover: Coq 8.16.1 with mathcomp, project in `rocq/` (`-Q theories Verif`).

## 1. Conventions

* One area of the library = up to three kinds of files: `XModel.v` (Gallina model, every definition
  cites file and lines), `XProofs.v` and the like (lemmas) and `XProps.v` (property theorems `Cnn_*`,
  with `Print Assumptions` beneath and an `Example` showing the hypotheses are met by a case that
  is not trivial).
* A theorem named `..._refuted` exhibits a witness on which the code, as modelled, violates the
  English property. The strongest true part is proved next to it, named `..._partial` when it is
  weaker than the English claim. Section 6 lists all refutations.
* Outcomes are explicit. `Ok v`, `Throw` (C++ exception), `AssertFail` (`assert` in a debug build)
  and `UB` (undefined behaviour) are different constructors, so that "does not read out of bounds"
  is a statement about the model and not a convention.
* Loops are structural recursion/folds; where termination is not evident the function takes fuel and
  returns a separate out-of-fuel value, which the theorems exclude.
* Machine integers: `Z`/`nat` unbounded unless the property is about wrap-around; then the wrap is
  written out.
* Floating point is modelled twice.
  - `FloatModel.v` is at bit level: IEEE 754 binary arithmetic (Coq's `SpecFloat` operations, generic
    in precision and exponent range, so float, double and wider formats alike), with signed zeros,
    infinities, NaN and subnormal numbers. `FloatRound.v` proves these operations correctly rounded.
    Assumed of the compiler: `FLT_EVAL_METHOD` 0 (no extended intermediates), no contraction to
    fused multiply-add, round to nearest even, no flush to zero, no value-changing optimisation.
    The sign and payload of a NaN are not modelled.
  - All other files use exact reals (`R`) or an abstract ring or field. A theorem there is a
    statement about the formula, not about doubles.

## 2. Trusted base

* Coq's kernel (`coqc`, re-checked by `coqchk`).
* The axioms that `Print Assumptions` lists. All are the standard library's:
  - A1 `ClassicalDedekindReals.sig_forall_dec`
  - A2 `ClassicalDedekindReals.sig_not_dec`
  - A3 `FunctionalExtensionality.functional_extensionality_dep`
  - A4 `Classical_Prop.classic`
  - A5 `Epsilon.epsilon_statement`
* The reading of the C++ into Gallina. Nothing ties model and code but the citations.

Axioms per theorem:

| file | theorems | axioms |
|------|----------|--------|
| `ArgumentsProps` | all theorems | none |
| `ArrayRefProps` | all theorems | none |
| `ArrayTextProps` | all theorems | none |
| `AtomicsApiProps` | all theorems | none |
| `AtomicsProps` | all theorems | none |
| `AtomicsSingleProps` | all theorems | none |
| `AtomicsTestProps` | all others (17) | none |
| `AtomicsTestProps` | `C174_check` | A1, A3 |
| `AtomicsTypesProps` | all others (18) | none |
| `AtomicsTypesProps` | `C172_double`, `C172_double_refuted` | A1, A3 |
| `AtomicsVarsProps` | all theorems | none |
| `BoundsProps` | all theorems | none |
| `CatalystProps` | all others (22) | none |
| `CatalystProps` | `C106_images` | A1, A3 |
| `DbcProps` | all theorems | none |
| `ElementsConfProps` | all others (11) | A1, A3 |
| `ElementsConfProps` | `C108_tess` | A1 |
| `ElementsFixedMemProps` | all theorems | A1, A3 |
| `ElementsMemProps` | all others (8) | A1, A3 |
| `ElementsMemProps` | `C169_natural_sizes`, `C169_position`, `C169_position_ex`, `C169_corners`, `C169_corners_ex`, `C169_jacobian`, `C169_jacobian_ex`, `C169_square_refuted` | A1 |
| `ElementsMemProps` | `C169_chebyshev`, `C169_chebyshev_ex`, `C169_lobatto`, `C169_gauss`, `C169_gauss_ex`, `C169_lobatto_ex` | A1, A2, A3 |
| `ElementsProps` | all theorems | A1, A3 |
| `FixedVectorProps` | all theorems | none |
| `FloatCentroidProps` | all others (3) | A1, A3 |
| `FloatCentroidProps` | `C152_refuted` | none |
| `FloatDetProps` | all others (8) | A1, A3 |
| `FloatDetProps` | `C149_ex`, `C151_rejected`, `C151_overflow`, `C150_refuted`, `C150_ex` | none |
| `FloatElementsProps` | all others (9) | A1, A3 |
| `FloatElementsProps` | `C162_basis` | none |
| `FloatGeomProps` | all others (24) | A1, A3 |
| `FloatGeomProps` | `C131_refuted`, `C131_ex`, `C132_refuted`, `C132_ex`, `C133_ex`, `C134_self`, `C134_ex`, `C135_ex`, `C136_refuted`, `C136_ex`, `C137_refuted`, `C137_ex`, `C138_all`, `C138_refuted`, `C138_ex` | none |
| `FloatGeomProps` | `C134_nonneg`, `C134_separated`, `C134_distance`, `C134_triangle_approximate` | A1, A2, A3 |
| `FloatJacobianProps` | all others (13) | A1, A3 |
| `FloatJacobianProps` | `C164_shape`, `C164_stale_refuted` | none |
| `FloatLagrangeProps` | all theorems | A1, A3 |
| `FloatProps` | all others (15) | none |
| `FloatProps` | `C127_dot`, `C127_dot_normal`, `C127_dot_finite`, `C127_matvec`, `C127_matmul`, `C127_sqr`, `C127_cube`, `C127_cancellation`, `C128_normal2`, `C129_refuted`, `C130_ex` | A1, A3 |
| `FloatProps` | `C129_nonneg`, `C129_length`, `C129_length_normal`, `C129_finite`, `C129_component`, `C130_in_range`, `C130_length` | A1, A2, A3 |
| `FloatQuadratureProps` | all others (5) | A1, A2, A3, A4 |
| `FloatQuadratureProps` | `C171_tight`, `C171_sound`, `C171_copies2`, `C171_copies3`, `C171_copies4` | A1, A3 |
| `FloatQuadratureProps` | `C171_ends`, `C171_orders`, `C171_ex2` | none |
| `FloatQuadratureProps` | `C171_nearest` | A1, A2, A3 |
| `FloatShapeProps` | all others (14) | A1, A3 |
| `FloatShapeProps` | `C146_ex`, `C146_hex_ex`, `C147_ex`, `C148_ex` | none |
| `FloatSolveProps` | all others (6) | A1, A3 |
| `FloatSolveProps` | `C156_inverse`, `C156_singular`, `C156_solve`, `C156_whole` | A1, A3, A5 |
| `FloatSolveProps` | `C157_one_transpose`, `C157_symmetric`, `C157_ex` | none |
| `FloatSolveProps` | `C157_two`, `C157_two_finite` | A1, A2, A3 |
| `FoobarProps` | all theorems | none |
| `FunctionalProps` | all theorems | none |
| `IndexProps` | all theorems | none |
| `InputProps` | all theorems | none |
| `InputSourceProps` | all theorems | none |
| `IntGeometryProps` | all others (6) | none |
| `IntGeometryProps` | `C144_polygon_area`, `C144_polygon_normal`, `C144_volumes`, `C144_shapes_refuted`, `C144_centroid_refuted` | A1, A3 |
| `JacobianProps` | all others (11) | A1, A3 |
| `JacobianProps` | `C57_storage_refuted` | none |
| `LagrangeProps` | all others (25) | A1, A3 |
| `LagrangeProps` | `C60_literal`, `C60_close`, `C60_code`, `C60_symmetric`, `C60_near_symmetric`, `C60_basis` | A1, A2, A3, A4 |
| `LagrangeProps` | `C60_increasing`, `C60_ends`, `C60_distinct`, `C60_values`, `C60_example` | A1, A2, A3 |
| `LagrangeProps` | `C60_order_zero` | A1 |
| `LogProps` | all theorems | none |
| `LuaProps` | all theorems | none |
| `LuaRefProps` | all theorems | none |
| `LuaTextProps` | all theorems | none |
| `MathArrayProps` | all others (34) | none |
| `MathArrayProps` | `C28_array_div_scalar_case` | A1, A3 |
| `MatrixExpProps` | all others (3) | A1, A2, A3, A4, A5 |
| `MatrixExpProps` | `C107_scaling` | A1, A2, A3, A4 |
| `MatrixExpProps` | `C107_every_field` | none |
| `MatrixProps` | all theorems | none |
| `MiscProps` | all theorems | none |
| `NormalProps` | all theorems | A1, A3 |
| `PolygonProps` | all others (15) | A1, A3 |
| `PolygonProps` | `C46_rotation_scaling`, `C51_area_versions`, `C51_triangle_refuted`, `C51_triangle_release`, `C51_triangle_example`, `C51_invariance`, `C85_area_ge_normal`, `C85_nonconvex_refuted` | A1, A2, A3 |
| `PolyhedronProps` | all theorems | A1, A3 |
| `PythonProps` | all theorems | none |
| `QuadratureProps` | all others (10) | A1, A3 |
| `QuadratureProps` | `C55_gauss_exact`, `C55_gauss_tabulated`, `C55_lobatto_exact`, `C55_lobatto_tabulated`, `C55_ex`, `C56_gauss2d_exact`, `C56_gauss3d_exact` | A1, A2, A3, A4 |
| `QuadratureProps` | `C55_orders`, `C55_gauss_symmetric`, `C56_order_refuted`, `C56_points_ex` | A1, A2, A3 |
| `QuadratureProps` | `C56_bijection2`, `C56_bijection3`, `C56_ex` | none |
| `SpaceNumProps` | all others (5) | none |
| `SpaceNumProps` | `C173_area2`, `C173_parallel`, `C173_refuted`, `C173_area_int` | A1, A3 |
| `SpaceNumProps` | `C173_area3`, `C173_plane`, `C173_distance`, `C173_magnitude` | A1, A2, A3 |
| `SpaceVectorProps` | all others (6) | A1, A2, A3 |
| `SpaceVectorProps` | `C122_list`, `C122_list_length`, `C122_list_refuted`, `C122_fill`, `C122_axes`, `C122_case` | none |
| `StringProps` | all theorems | none |
| `TypeTraitsProps` | all theorems | none |
| `VectorProps` | all others (17) | A1, A3 |
| `VectorProps` | `C44_dot_bilinear`, `C44_magnitude_container`, `C44_cauchy_schwarz`, `C44_magnitude_norm`, `C44_unit`, `C44_magnitude_example`, `C44_reflect`, `C44_reflect_example`, `C44_cross3`, `C83_metric`, `C83_midpoint`, `C83_example`, `C42_rotation`, `C42_rotation_example` | A1, A2, A3 |
| `VectorProps` | `C44_normal3_throws`, `C45_average_empty_asserts`, `C45_int_average_refuted`, `C45_int_average_nonnegative`, `C45_int_average_example` | none |
| `VectorProps` | `C44_dot_instances` | A1 |
| `ViewIterProps` | all theorems | none |
| `VtkOwnProps` | all theorems | none |
| `VtkProps` | all theorems | none |

A1-A3 come with Coq's real numbers. A4 comes with lemmas of the standard library's real analysis, A5 with
`RealInst.v`, which makes the reals an instance of mathcomp's real closed archimedean fields.

## 3. What is modelled

Paths are relative to `ristra/` in the source.

| model | source | left out |
|-------|--------|----------|
| `FixedVectorModel.v` | utils/fixed_vector.h | allocation, iterator types |
| `ArrayRefModel.v` | utils/array_ref.h | lifetime of the referenced array |
| `StringModel.v` | utils/string_utils.h | multibyte decoding is a parameter; growth limit of std::string |
| `BoundsModel.v` | utils/array_view.h | ptrdiff_t overflow (see IndexModel); array_view_impl.h (older copy, not included) |
| `ViewIterModel.v` | utils/array_view.h 1572-1973, 2133-2146, 2354-2410, 2655-2668: iterators over views, flattening, comparison | conversions between element types |
| `TypeTraitsModel.v` | utils/type_traits.h, type_traits_impl.h and the overloads they select in array_view.h and general.h | all other overload resolution |
| `IndexModel.v` | utils/array_view.h (index_t operators, overflow), utils/template_helpers.h (select_counter) | fractional scalars are rationals |
| `MiscModel.v` | utils/ zip, filter_iterator, algorithm, tuple_visit and tuple_for_each, static_for, template_helpers, trivial_string, const_string, time_utils | wall clock, printing |
| `MathArrayModel.v` | math/array.h, math/multi_array.h, utils/dimensioned_array.h | expression types, overload resolution |
| `ArrayTextModel.v` | math/multi_array.h, array.h, tuple.h: indices of any integer type, construction from lists, comparison, output | formatting of one element is a parameter |
| `SpaceVectorModel.v` | geometry/space_vector.h, utils/dimensioned_array.h | same |
| `VectorModel.v` | math/vector.h, general.h, geometry/point.h | rounding (see FloatModel.v) |
| `MatrixModel.v`, `MatrixExp*.v`, `ExpScale.v` | math/matrix.h | rounding; std::log is exact |
| `FloatModel.v` | general.h, vector.h, matrix.h, point.h, area.h, triangle.h | libm other than sqrt |
| `FloatShapeModel.v`, `FloatSolveModel.v` | the same headers, geometry/ and math/matrix.h: three-dimensional shapes, determinants, centroids, inversion, linear systems, norms | libm other than sqrt |
| `AtomicsModel.v`, `AtomicsVarsModel.v`, `AtomicsApiModel.v` | atomics/atomics.h and its macro files | example programs, value types' own operators, thin-air values |
| `AtomicsTypesModel.v` | atomics/atomics.h 984-1303 and the class macros for integer types of 8 to 64 bits | bool, enumerations, pointers; the Kokkos functions are assumed to compute in T |
| `AtomicsTestModel.v` | atomics/test/unit-threads.h, the int and unsigned data of unit-threads-*.cc, atomics/example/multithreaded-*.cc | pointer and complex test data, command lines, printing; the two variables of the min-max example one at a time |
| `AtomicsSingleModel.v` | atomics/test/unit-{add,sub,mul,div,mod,lshift,rshift,and,or,xor,min,max,preinc,predec,postinc,postdec}.cc for int and unsigned, atomics/example/correct-operators.cc | float and double of the operations other than add, sub, mul and div, printing, unit-operators, unit-member-functions, unit-global-functions |
| `FoobarModel.v` | atomics/example/foobar.h and mineq, maxeq for it | stream output; the calls in all-*.cc |
| `FunctionalModel.v` | utils/functional.h, utils/tuple_to_array.h | bool, enumerations, floating point and class types; missing includes |
| `SpaceNumModel.v` | geometry/space_vector.h and distance of geometry/point.h for floating-point and integer elements | long double (fabs would narrow it); integer cross_magnitude in three dimensions |
| `GeometryModel.v` | geometry/area*.h, centroid*.h, normal.h, shapes/ | printing, rounding |
| `IntGeometryModel.v` | shapes/, point.h, math/general.h average for integer coordinates | overflow, except in the averages; triangle<3>::area, polygon<3> and polyhedra |
| `ElementsModel.v`, `JacobianModel.v`, `QuadratureModel.v`, `LagrangeModel.v` | elements/elements.cc, elements/elements.h | sizes and rounding (next three rows), printing; cos in the Chebyshev nodes is exact |
| `FloatQuadratureModel.v` | elements/elements.cc 10-524 in double: tables, literals, products of weights | contraction to fma, excess precision |
| `ElementsMemModel.v`, `ElementsFixedMemModel.v` | elements/elements.cc: the same routines over vectors that have a size | int overflow, aliasing of the arguments |
| `FloatElementsModel.v`, `FloatJacobianModel.v`, `FloatLagrangeModel.v` | elements/elements.cc: shape functions, Jacobians and Lagrange bases with rounding | cos |
| `InputModel.v` | initialization/: input*.h, init_value.h, inputs_impl.h | printing, Lua metatables |
| `InputSourceModel.v` | initialization/input_source.h: exceptions, lengths, tables, ownership of sources | Lua metatables |
| `LuaModel.v`, `LuaRefModel.v`, `LuaTextModel.v` | embedded/embed_lua.h: calls and conversions; lifetimes of references and function wrappers; texts | Lua 5.3 assumed; metatables, memory errors, userdata, threads |
| `PythonModel.v` | embedded/embed_python.h | interpreter is an environment obeying the documented reference rules; zero-argument calls (do not compile) |
| `DbcModel.v` | assertions/: here.h, dbc.h, dbc_impl.*, errors.h, exceptions.h | dbc_action differing between translation units |
| `VtkModel.v` | io/catalyst/: vtk/unstructuredGrid.h, flecsale_unstructuredGrid.h | reference counts (see VtkOwnModel.v) |
| `VtkOwnModel.v` | io/catalyst/: vtk/unstructuredGrid.h, flecsale_unstructuredGrid.h, adaptor.h: reference counts | contents of the objects (see VtkModel.v) |
| `CatalystModel.v` | io/catalyst/: adaptor.h, utils/catalystUtils.hpp, utils/insituTimer.hpp | MPI, Python scripts, json.hpp, image library |
| `LogModel.v` | io/catalyst/utils/insituLog.hpp, utils/tasks.h | file system errors other than failure to open |
| `ArgumentsModel.v` | initialization/arguments.h | boost's parser is a parameter |

Not modelled anywhere: template metaprogramming and overload resolution except in TypeTraitsModel.v, compile-time-only
headers (target.h, static_warning.h, compatibility layer), third-party code, build system.

## 4. Plan per property

Key: M = model, P = proof method.

| id | M | P |
|----|---|---|
| C01 | `fixed_vector` state = storage list of length N + length; one function per member; outcome type | refinement to `list` by a simulation over operation lists |
| C02 | `at` on the same state | corollary of the refinement |
| C03 | element-wise forward copy (`std::copy` as a loop) | refutation by witness, characterisation of the result, partial theorem for positions >= size-1 |
| C04 | `operator==` = `std::equal(lhs.begin,lhs.end,rhs.begin)` | refutation + exact characterisation (prefix test) |
| C05 | insert with the argument a reference into the storage | refutation + theorem for k < pos |
| C06 | range erase with returned offset | refutation for the returned iterator, contents proved |
| C07 | `array_ref` = (offset,length) into a fixed array | invariant over operation lists |
| C08 | `replace_all` with fuel | equality with a declarative recursive specification; non-termination for empty pattern proved as out-of-fuel for every fuel |
| C09 | string functions on lists of characters | round-trip laws, refutation for dotted directories |
| C10 | `split` loop with the character table | characterisation by maximal runs |
| C11 | digit counting loop | digits bound `10^(d-1) <= n < 10^d` |
| C12-C15 | `make_strides`, linearize, iterator increment as list functions over extents of arbitrary rank | induction over rank; lexicographic enumeration as specification |
| C16-C17 | views as (offset, strides, extents) | induction over rank |
| C18-C21 | members as written | characterisation and refutation |
| C22-C23 | zip over a list of sequences | induction; refutation of the size check |
| C24 | iterator state machine | refutation (stuck on match) |
| C25 | sort + merge loop; std::unique | counting (`count_occ`) specification |
| C26 | div/mod chain | arithmetic |
| C27 | buffer with explicit overflow outcome | round trip |
| C28 | element loops reading operands from a store, so aliasing is visible | loop lemma; refutations for aliased operands |
| C29 | index to offset, store update | bijection |
| C30-C36 | interleaving semantics: shared value, per-thread program counter (read / CAS), arbitrary schedules | simulation with a ghost commit log; invariants over all reachable states |
| C37-C39 | recursive Laplace expansion on functions `nat->nat->R`, generic in the dimension, over an abstract commutative ring/field of mathcomp | `expand_det_row`, adjugate |
| C40-C43 | loops as big sums | mathcomp `mulmx` laws; refutation for matrix_vector |
| C44-C51 | formulas over R | ring/field/nra, induction over vertex lists |
| C52-C57 | element formulas over R with the tables of reference vertices | ring, derivatives through `derivable_pt_lim` |
| C58-C60 | elements.cc 2162-2693: loops over a list of nodes of arbitrary length | polynomial uniqueness; induction |
| C61-C68 | registries as association lists, sources as maps, value types with a moved-from value | invariants and refutations over histories |
| C69-C71 | Lua stack machine (stack = list of values, registry of references) | stack-effect lemmas for every initial stack |
| C72 | outcome of a check as a function of condition and action | case analysis |
| C73 | stream encoder, specification decoder | round trip |
| C75 | resize(n) without a fill value on the same fixed_vector state | refutation: stale cells |
| C76 | container constructor of views: accepted iff size() fits | refutation; total_size() as the right bound |
| C77 | column-major multi_array strides | refutation for rank 3, exact rank 2 |
| C78 | math::array on lists | equality with list functions |
| C79 | same interleaving model, one thread, all schemes | corollary of the simulation |
| C80-C81 | exponential with the number of squarings an arbitrary function of the norm | numerator and denominator exchange under A -> -A; polynomial identity modulo x^13 for the (6,6) Pade approximant |
| C82 | operands read in the current state of the destination | refutation; frame lemma |
| C74 | fold over components with effects | equality with `map`/`seq` |
| C83 | the loops of point.h over R | norm lemmas of C44; induction over the point list |
| C84-C85 | face loops with the running triple (cx, nsum, v) | sums over triangles; Stokes-type identities cancel on matched edges; refutation by an arrowhead |
| C86-C88 | the same sources and registries | case analysis of the two load_table calls; refutations |
| C69-C71, C89-C94 | a Lua 5.3 stack with bounded capacity, abstract interpreter of functions and scripts | specification of each reader as total function of the value read; stack invariants |
| C72, C95, C96 | world = user state, stream, exception text; argument expressions with effects; tokens and grammar of if/else | case analysis over macro uses |
| C73, C97-C101 | meshes as connectivity lists; VTK objects as the lists they store | induction over loops; injectivity of length-prefixed encoding |
| C102-C106 | timer histories with clock readings as inputs; files and images by contents; the share of differing bytes in float | induction over histories; case analysis; exactness of float for small numerators, computed witness |
| C107 | exact arithmetic over any real field and over Coq's reals (made an instance of mathcomp's archimedean and real closed fields in `RealInst.v`); number of squarings from ln, truncated as static_cast<int> does | remainder coefficients of the Pade approximant in closed form; sub-multiplicative norm; limits of partial sums |
| C108-C110 | the ref_vert tables and shape functions of C52-C54 | tables against the pictures; face traces and mirror symmetry of the shape functions; monomials up to the order of the element |
| C111-C115 | embed_python.h with the interpreter as an arbitrary environment obeying the reference rules of the C interface; references counted from the program's side | ledger of references through every path |
| C116-C118 | many variables, operations naming their variable, mutex per variable type, stale loads | projection of a run onto one variable is a run of the one-variable model (forward simulation, compare-exchange loop collapsed to its successful attempt); mutex invariant |
| C119 | the five enabling conditions over arbitrary sizes | case analysis |
| C120 | tables operator -> member -> function -> function object; apply overloads by number of memory orders | computation against declarative meaning of the operators |
| C121 | vectors as functions of the index, loops as in the source | Lagrange's identity, ring |
| C122 | cells that may be uninitialised | induction over the assignment loop with aliasing invariant |
| C123-C124 | std::map as sorted association list, registrations as events, boost parser as parameter | per-key projection of the event list determines the sorted table |
| C125 | files as function of the name, programs of log actions | relation between history and content, shown functional |
| C126 | containers as address ranges of one memory | induction over the zip loop |
| C127–C130 | IEEE 754 binary arithmetic, bit level, generic in the format | rounding proved correct in FloatRound.v, then induction over the loops with (1+u)^n bounds; sqrt(x*x)=abs(x) by exact analysis |
| C131–C137 | same | nearest-number arguments (monotone rounding, exactness), Minkowski's inequality over the reals; witnesses by evaluation |
| C138 | same | composition of the error bounds; doubling is exact |
| C139 | checked arithmetic in IndexModel | every partial product and sum is between 0 and the number of elements |
| C140 | same | componentwise induction over checked operations |
| C141 | loop with fuel over the selected counter | induction over the remaining steps |
| C142 | StringModel, decoding as a parameter | induction over the decoding |
| C143 | GeometryModel | ring identities; uniqueness by solving the two linear equations |
| C144 | IntGeometryModel against GeometryModel | integer division is the floor of the real quotient |
| C145 | IntGeometryModel | modular arithmetic of the conversions |
| C146 | FloatShapeModel: the formulas over spec_float | reflection into expressions with a general error theorem |
| C147 | same | intermediate whole values below 2^prec are exact |
| C148 | same | differences of moved points are the same numbers; witnesses computed |
| C149 | same, determinant by recursive expansion | expressions of every size; errors, terms and degrees by induction |
| C150 | same | the sum as an expression, the reciprocal rounded |
| C151 | same | C149 against the test of the determinant; witnesses computed |
| C152 | FloatShapeModel: both loops over spec_float | invariant: all partial sums are whole and below 2^prec; witnesses computed |
| C153 | ArrayTextModel: offsets modulo 2^64 | reduction of the wrapped offset to the row-major one; witness computed |
| C154 | ArrayTextModel: elements as options | list induction; witness computed |
| C155 | ArrayTextModel: texts as strings | splitting a text at blanks and newlines, by induction |
| C156 | FloatSolveModel: the overloads of inverse, ax_plus_y and solve over spec_float | whole cofactors are exact, then two roundings; Cramer's rule by mathcomp (DetBridge) |
| C157 | FloatSolveModel: the loops over spec_float | nested loops as one sum, then the bounds of C127, C129 and C137 |
| C158 | LuaRefModel: objects, shared pointer counts, registry | invariant: counts agree with the objects, keys in use are distinct; refinement by induction on the trace |
| C159 | LuaRefModel: objects, owners, wrappers | invariant and refinement by induction on the trace; witnesses computed |
| C160 | LuaTextModel: texts as strings, on LuaModel | splitting the text at newlines, by induction |
| C161 | LuaTextModel: texts as strings, on LuaModel | list induction; uniqueness of the text up to the first quote or bracket |
| C162 | FloatElementsModel: the formulas of elements.cc read with rounding operations, generated from the C++ text | change of arithmetic between floats, reals and formula trees; evaluation of bounds in rationals and of an abstract domain at the nodes; rounding of thirds in every precision |
| C163 | FloatLagrangeModel.v: lagrange_1D and basis_partials of QuadN and HexN as in LagrangeModel.v, read with SFadd, SFsub, SFmul, SFdiv; no fma contraction, no excess precision | relative errors as factors between (1-u)^k and (1-u)^-k through products, sums and quotients |
| C164 | FloatJacobianModel.v: jacobian, jacobian4D and the inverses as texts over any arithmetic, read with SFadd, SFsub, SFmul, SFdiv; no fma contraction, no excess precision | texts as formula trees (FloatExpr), error and exactness theorems for trees, quotient bound for the inverse |
| C165 | TypeTraitsModel.v: C++ types as a datatype, classes as an environment of nested names, members and overload outcomes; traits and the overload sets that use them; None is an ill-formed program | case analysis over types |
| C166 | InputSourceModel.v: exceptions as dynamic type and message, lookups as in lua_source_t; engines and sources as slots and a heap of live and deleted objects | case analysis; invariant over sequences of operations |
| C167 | ViewIterModel.v: iterators as the address of a view and an index or a pointer; loops over iterators; static, default, flattened and converted views | induction over positions on top of C13 and C15 |
| C168 | reference counts of VTK objects with holders (members, variables, locals, slots), a worklist for cascading destruction; one function per wrapper | invariant count = holders + pending + lost references, through releases; levels of object types exclude cycles; refuted by accounting for every prefix and by evaluated programs |
| C169 | vectors as lists with checked reads and writes, loops in the outcome monad | loop invariants describing the written prefix; exact success conditions by counting; results equal to the function models |
| C170 | loops of the fixed-order elements over lists with a size, as expression trees | generic theorem over loops, sizes by computation, entries by conversion |
| C171 | tables of the quadrature rules in rounded arithmetic, literals included | moments of the tables as integers over 2^60, checked by computation; error bound of products |
| C172 | one operation on an integer variable: conversions of the language, std::atomic, Kokkos | modular arithmetic; case analysis over pairs of types |
| C173 | space_vector.h and distance in floating point and in integer types | error bounds of C127-C135 reused; equal exact products round equally; integer square root through a double below 2^52 |
| C174 | unit-threads tests and multithreaded examples of atomics | the order of C30-C36 read as a permutation of all operations; undefined behaviour carried as a value; invariants instead of running the data |
| C175 | AtomicsSingleModel.v | the order of one thread's operations is its program; values by C172 and computation |
| C176 | FunctionalModel.v | wrap is the identity on values a type holds; cases of the types |
| C177 | FoobarModel.v | cases of the operators; C174_final for the threads |

## 5. Tests of the theorems

`seeded/LOG.jsonl`: one line per deliberate change of a definition, made in a scratch copy, with the theorems
that stopped being provable and, where none did, the theorem that was added.

The last batch (changes of MiscModel to GeometryModel at the end of the log) was stopped before its last two changes ran.
Its `claim_broken` entries were written before the run, some as topics or with a wrong number. Three changes survived:

* `MiscModel.read_c`: C27_str was stated because of it. The change was not run again afterwards.
* `BoundsModel.idx_sub` reversed: a real gap. C17_section_origin does not say what the extents of the section are, and with
  the change they are negative, so that its second half holds of no index. Not repaired.
* `VectorModel.max_container`: the same program, since every non-empty call is undefined either way.

`AtomicsSingleModel.rounds` with a delta of type int also survived; it computes the same values.

## 6. Findings

What the refutations say about the code, as modelled.

* **C01** Proved for all histories with size()+count < 2^64; C01_wrap_refuted shows the assert is bypassed when size()+count wraps around size_t.
* **C03** REFUTED for element-by-element std::copy (C03_insert_refuted); exact result C03_insert_smears; holds for trivially copyable T (C03_insert_trivial) and for positions >= size()-1 (C03_insert_partial).
* **C04** REFUTED: sizes are not compared; lhs==rhs is a prefix test (C04_eq_prefix).
* **C05** REFUTED for an argument aliasing an element after pos; exact characterisation in C05_insert_alias.
* **C06** REFUTED for empty ranges, which return begin(); non-empty ranges proved.
* **C07** All windows of all histories stay inside the array. Additionally C07_release_refuted: with asserts compiled out remove_prefix/suffix beyond the length leave the array.
* **C08** REFUTED for an empty search string (the loop never terminates). Proved for every non-empty one (C08_replace_all_partial).
* **C09** REFUTED: a dot in a directory name is taken for an extension by split_extension/remove_extension. Proved when the last component has a dot or the path has none; basename fully.
* **C14** REFUTED for every shape with a zero and a non-zero extent; C14_empty_partial gives the exact set of visited indices.
* **C15** REFUTED: begin()+size() != end() for every rank >= 2. All other random access and all differences proved.
* **C18** REFUTED: empty() returns data()!=nullptr (C18_empty_exact).
* **C19** REFUTED for strided views sharing their data pointer; proved for contiguous/static views and for strided views with different data pointers.
* **C20** REFUTED: operator< is 'some component is smaller'; meaning of all comparison operators proved in C20_index_order_partial.
* **C21** REFUTED: strides are the extents themselves; right iff all extents are 1.
* **C23** REFUTED: the first container's size is never compared; exact condition in C23_zip_size_partial; zip of one container reads past the size array.
* **C24** REFUTED: operator++ does not leave a matching element, so every traversal with a match is infinite; one step characterised in C24_increment_partial.
* **C25** Intersection proved. remove_duplicates REFUTED for unsorted input; proved for sorted input and characterised in general (C25_remove_adjacent).
* **C27** Round trip proved; REFUTED: strings of length >= N overflow the buffer, operator[](N) passes the assert.
* **C28** REFUTED in three ways: += -= *= by an own element use the updated value (C28_array_scalar_alias_refuted, exact result in _alias_exact), /= s on integers gives zeros (C28_array_div_integral_refuted), dimensioned_array op= itself is a no-op (C28_dimensioned_self_refuted). All other combinations proved componentwise.
* **C36** REFUTED: two concurrent cpp-scheme add(1) both return the value after both (C36_cpp_return_refuted), two concurrent kokkos post-increments return the same ticket (C36_kokkos_post_refuted). C36_cpp_partial: the updates are atomic (final value explained by a real-time order) and each returned value is that of the variable at a later (cpp) or earlier (kokkos post) moment, within the call.
* **C40** REFUTED: beta*y is applied once per column, so the result is sum_j alpha*A_ij*x_j*beta^(n-1-j) + beta^n*y_i (C40_formula); equals gemv only for beta = 1 or one column (C40_gemv_partial).
* **C45** REFUTED for run-time containers: element-wise min/max write into an unsized temporary (C45_container_minmax_refuted, always undefined when non-empty); average of an int container with a negative sum is wrong because the division happens in size_t (C45_int_average_refuted). Averages over real scalars, extreme elements and array min/max proved.
* **C49** REFUTED: hexahedron::volume takes std::abs of each of the three triple products (C49_volume_refuted, witness with eight positive corner Jacobians). C49_volume_partial: it is never smaller than the polyhedron volume and equal exactly when the three terms do not differ in sign. Centroids agree always.
* **C51** REFUTED: the iterator overloads assert num_points > 3 and so refuse triangles (C51_triangle_refuted); the variadic ones need four arguments. With assertions off the results are the triangle's (C51_triangle_release). Normal = area vector for every polygon.
* **C52** REFUTED for Tess16: ref_vert and num_nodes are uninitialised non-static members (elements.h 743-773) and the table in elements.cc is an unrelated namespace-scope variable, so a default-constructed Tess16 reads indeterminate values (C52_tess16_refuted); even zero-initialised it is not a partition of unity (C52_tess16_zeroed_refuted). With the intended table it holds (C52_tess16_partial), and it holds for all six Quad/Hex classes.
* **C54** REFUTED for Quad12: basis() is a copy of Quad8's, leaves entries 8..11 unwritten and disagrees with the shape functions (C54_quad12_unwritten_refuted, C54_quad12_refuted). It agrees for Quad4, Quad8, Hex8, Hex20, Hex32, Tess16.
* **C56** REFUTED for orders above 8, which have no table and read uninitialised values (C56_order_refuted), and for the 4-D rules when dim is not 4 (C56_dim_refuted). Proved: the index map for every order; every integrand for orders 1..8.
* **C57** REFUTED: jacobian_inverse_3d returns the cofactor matrix untransposed, with one mistyped cofactor, over a wrong determinant (C57_inverse_3d_refuted; exact result C57_inverse_3d_value; right iff harmless for symmetric J, C57_inverse_3d_partial); jacobian_inverse_4d has a mistyped term (C57_inverse_4d_refuted; right iff J30 J03 (J11-J12) = 0, C57_inverse_4d_partial); jacobian reads J[2][2] even for dim = 2 (C57_storage_refuted). Proved: entries, determinants, derivative of the position, inverse_2d.
* **C59** REFUTED for physical_position: QuadN writes only coordinate 0 and HexN only coordinates 0 and 1 (loops dim < 1, dim < 2), and neither resets x_point, so results accumulate. The exact behaviour is C59_*_position_partial; everything else in the statement (entries, partial derivatives, nodal, sum to 1, reproduction of tensor polynomials, corners) is proved for every order.
* **C62** REFUTED: a key missing from the table map (C62_unknown_key_refuted) or registered in base_state (C62_base_state_refuted) throws although a default exists; exact fallback condition C62_fallback_iff.
* **C63** REFUTED for types with destructive moves (C63_idempotent_refuted, C63_instant_refuted; general law C63_second_value); proved for trivially moved types and functions (C63_idempotent_partial).
* **C64** REFUTED: hard-coded functions are inserted, not assigned (C64_function_refuted); plain values, Lua functions and functions after clear_registry are delivered.
* **C65** REFUTED: values of earlier resolutions remain (C65_stale_refuted), failures are never removed (C65_failures_refuted), the flag survives clear (C65_flag_refuted); exact law C65_resolved_partial; nothing is resolved after clear (C65_clear).
* **C66** get() proved; REFUTED for valid(): the verdict is cached (C66_valid_refuted, C66_invalid_refuted); without a cached verdict it agrees (C66_valid_partial).
* **C67** REFUTED: namespace and name are joined by ':' (C67_injective_refuted, C67_shared_refuted); injective for names without ':' (C67_injective_partial).
* **C68** REFUTED: always returns true (C68_report_refuted), key?name collisions (C68_collision_refuted), undefined behaviour for other types (C68_other_types_refuted); rest proved.
* **C69** REFUTED: operator[] clears the whole stack (C69_index_refuted), a failing conversion (C69_convert_refuted), a failing call (C69_call_refuted) and calling a non-function (C69_not_function_refuted) leave values behind; balanced in the success cases (C69_global_partial, C69_convert_partial, C69_call_partial).
* **C70** Order of a tuple proved; REFUTED for Lua's adjustment of results: counts must match (C70_adjust_refuted, C70_adjust_single_refuted), trailing nil (C70_trailing_nil_refuted), no result is undefined behaviour (C70_no_result_refuted).
* **C71** Proved for integers, doubles, floats, booleans, vectors and arrays; REFUTED for strings with a NUL byte (C71_string_refuted) and for arrays pushed as arguments (C71_array_push_refuted).
* **C72** REFUTED: disabled OneOf is true for every set (C72_one_of_refuted); Insist continues when the action is not to throw (C72_insist_continues_refuted). Everything else proved.
* **C74** Loops and tuple-tuple operators proved; REFUTED for tuple op= scalar when the scalar refers to a component of the tuple.
* **C75** REFUTED: resize(n) exposes stale or indeterminate cells; C75_resize_resurrects states it for every vector.
* **C76** REFUTED: the constructor compares bounds.size() instead of total_size(); total_size() is proved to be the right bound, contiguous views are safe.
* **C77** REFUTED: col_major_ordering strides leave the storage for 2x3 and collide for 3x2; right for palindromic shapes; exact for rank 2.
* **C81** REFUTED for the zero matrix: log(0) = -inf is converted to int (C81_exp_zero_refuted). For every non-zero matrix with A^13 = 0 the result is exactly the exponential series; for all other non-zero matrices see C107.
* **C82** REFUTED for aliased operands (C82_alias_refuted); for distinct objects see C41_entries/C41_vector and the frame theorem C82_acc_frame.
* **C85** REFUTED for non-convex polygons: unsigned triangle areas about the midpoint are added up (C85_nonconvex_refuted, arrowhead 14 instead of 4). C85_area_ge_normal: area >= |normal|, equality when the fan does not fold.
* **C87** REFUTED: the Lua key is ignored (C87_lua_key_refuted) and a loaded table is never replaced (C87_replace_refuted).
* **C88** REFUTED: the exception aborts the loop (C88_abort_refuted).
* **C89** REFUTED: the recorded type is that of the value below (C89_type_refuted); the reference itself is right (C89_value_partial).
* **C90** REFUTED: pushing an array checks one slot too few (C90_array_refuted), globals and element reads are unchecked (C90_unchecked_refuted); a call with one more free slot than pushed values plus the function is safe (C90_call_partial).
* **C91** REFUTED: a row that is not a table is undefined behaviour (C91_matrix_row_refuted), long rows are cut (C91_cut_refuted); exact conversion C91_matrix_partial.
* **C92** REFUTED: length and elements are taken from the top (C92_index_refuted).
* **C93** REFUTED: non-integers give 0 (C93_not_an_integer_refuted), out-of-range values wrap (C93_out_of_range_refuted); integers in range proved (C93_integer_partial).
* **C94** REFUTED: results of the script stay on the stack (C94_script_refuted); scripts without results leave it unchanged (C94_script_partial).
* **C95** REFUTED: disabled InOpenRange evaluates x twice (C95_in_open_range_refuted), disabled Require does not evaluate (C95_require_refuted); arguments without effects proved (C95_pure_partial), enabled checks evaluate once (C95_on_once, C95_on_once_range).
* **C96** REFUTED: the exception has a fixed text (C96_what_refuted), assert_true captures a following else (C96_dangling_refuted), enabled checks before else do not parse (C96_semicolon_refuted), HERE and HERE_STR differ in order (C96_here_order_refuted); raising never continues (C96_raise).
* **C98** REFUTED for createMesh when vertices are not iterated by identifier (C98_order_refuted); true when they are (C98_partial); proved for writePointsToGrid in any order (C98_write_points).
* **C99** REFUTED: every two-dimensional mesh with two or more vertices writes past vertex_coord (C99_two_dimensions_refuted); three dimensions proved.
* **C100** Layout proved when every component has enough values; REFUTED: a shorter component is read out of bounds (C100_short_refuted).
* **C101** REFUTED: setPoints after other points (C101_set_twice_refuted); true for addPoint alone and for one setPoints.
* **C102** REFUTED: the first stop after the start counts (C102_last_stop_refuted, exact law C102_first_stop); rest proved.
* **C103** REFUTED: processCatalyst always forces output (C103_process_catalyst_refuted); finalizeAdaptor has no return statement, which the model records as undefined behaviour (C103_finalize_refuted); adaptor_t::process proved.
* **C104** REFUTED: a file name without directory is used as directory (C104_bare_refuted); names with a directory proved.
* **C105** REFUTED: throws when the pattern does not occur (C105_absent_refuted); first occurrence proved.
* **C106** REFUTED: the share of differing bytes is rounded to float, so images of 2^24 bytes or more can be judged similar although more than 2 percent of their bytes differ (C106_large_refuted). Exact for every size below 2^24 bytes (C106_images); the comparison of files and of sizes is exact.
* **C111** REFUTED: a failing import keeps the name (C111_import_leak_refuted), a failing call or a failing conversion of an argument keeps the argument tuple (C111_call_leak_refuted); exact laws C111_import, C111_build_args, C111_call; the rest proved. Calls without arguments do not compile.
* **C112** REFUTED: python_add_to_path and python_get_tuple_element return borrowed references (C112_borrowed_refuted, C112_element_borrowed_refuted); the test frees the path. True for the other functions (C112_owned).
* **C114** REFUTED: python_as_long and python_as_double return -1 and leave the error pending (C114_as_long_refuted, C114_as_double_refuted), python_run_string ignores the result (C114_run_string_refuted); proved for all others (C114_reported).
* **C115** REFUTED for Python before 3.8, which keeps the pointer to the freed string (C115_dangling_refuted); proved when the interpreter copies it.
* **C117** REFUTED: T(x) and os << x do not take the mutex while lock updates through a plain reference (C117_locked_read_refuted). Proved when each variable is used only with lock, or without lock and serial, or by one thread (C117_race_free).
* **C120** REFUTED for the forms with two memory orders: (acq_rel, release) reaches compare_exchange (C120_two_orders_refuted, exact law C120_two_orders); everything else proved. Operands are unbounded integers.
* **C122** REFUTED: in a release build a list longer than the array is undefined behaviour and a shorter one leaves elements uninitialised (C122_list_refuted, exact law C122_list_length). Proved for lists of the right length, fill and assignment, with the value possibly an element of the array.
* **C123** REFUTED: a group registered after one of its arguments keeps an empty title while registration reports success (C123_title_refuted, exact law C123_title). Everything else proved.
* **C125** REFUTED: a file that cannot be opened is skipped silently (C125_silent_refuted). Proved for every file that can be opened.
* **C126** REFUTED: with a single container zip reads sizes[1] out of bounds (C126_single_refuted). Proved for two or more containers.
* **C129** REFUTED: the magnitude of (1e200, 1) is infinite, of (1e-200, 1e-200) zero, and a component can exceed it (C129_refuted). Proved: error bounds with and without underflow, nonnegativity, finiteness below the range limit, and that no component exceeds it when its square does not underflow.
* **C130** REFUTED: unit of (1e200, 1e200) is the zero vector, of (1e-200, 1e-200) infinite, and of a single small number 1.2 (C130_refuted). Proved when no square overflows or underflows: components in [-1,1] and length one up to rounding.
* **C131** REFUTED: the average of three times 0.1 is above 0.1, of ten times 0.1 below, and the average of two largest numbers is infinite (C131_refuted). Proved: two numbers with a finite sum average between them, and the error bound for any number of values.
* **C132** REFUTED: with a NaN the order of the arguments decides, sgn of NaN is 0 and zeros of different sign depend on the order (C132_refuted). Proved for all finite numbers.
* **C133** REFUTED: the unit square moved by 2^27 has area 0, and the two overloads disagree on one polygon (C133_refuted). Proved: error bounds for both overloads and for the triangle, and bitwise translation invariance of the triangle.
* **C134** REFUTED: the triangle inequality fails in the last bit and different points can be at distance 0 (C134_refuted). Proved: nonnegative, symmetric (C128), zero from a point to itself, positive when the points are apart by enough, error bounds and the triangle inequality up to rounding.
* **C135** REFUTED: 1e-200 times the identity is rejected though its inverse is representable, a 3x3 matrix with two equal rows is accepted, and 2^-537 times the identity is accepted but its inverse consists of infinities and NaNs because the reciprocal of the determinant overflows (C135_refuted). Proved: every exactly singular 2x2 matrix with finite products is rejected, one far enough from singular accepted, error bounds of determinant and entries.
* **C136** REFUTED: associativity, distributivity, and the identity law for matrices with infinite elements (C136_refuted). Proved: the identity is neutral on both sides for finite matrices.
* **C137** REFUTED: a row with a NaN is ignored (C137_refuted). Proved: the error bound for finite matrices below the range limit.
* **C138** REFUTED: reflecting (0.7, 0.7) twice at the normal (0.6, 0.8) gives 0.7000000000000002 (C138_refuted). Proved: the error bound of every component, and that a vector whose computed dot product with the normal is zero is unchanged.
* **C139** REFUTED: extents (2^32, 2^32) have size() 0, so a view of them over an empty container is accepted (C139_size_refuted); strides of (0, 2^32, 2^32), bounds without elements, overflow (C139_empty_refuted). Proved: with positive extents and fewer than 2^63 elements strides, size, offsets and the container check are those of unlimited arithmetic; size() is the product modulo 2^64 always.
* **C140** REFUTED: a floating-point scalar is truncated to ptrdiff_t first, so index * 0.5 is zero and index / 0.5 divides by zero (C140_fraction_refuted). Proved: all laws for integers, with the exact conditions of overflow, and for whole numbers in floating-point variables.
* **C142** REFUTED: the UTF-8 text of one two-byte character gives that character followed by a NUL, and invalid text gives NULs without an error (C142_multibyte_refuted). Proved: the exact result for every decoding, and correctness exactly for texts of single-byte characters, ASCII in particular.
* **C143** REFUTED in three dimensions: the vector product of the positions depends on the origin and vanishes for lines through it, and math::normal throws (C143_normal3_refuted). Proved: everything in two dimensions, including uniqueness; in three dimensions perpendicularity, length and agreement with the space vectors.
* **C144** REFUTED: area, normal and midpoint of every triangle and the midpoints of the other shapes are zero (C144_shapes_refuted); the centroid of a polygon is the origin or a division by zero (C144_centroid_refuted). Proved: polygon areas and the volumes of tetrahedra and hexahedra are the exact values rounded down, normals rounded towards zero, midpoints and distances of points truncated. Overflow of the coordinate type is not modelled.
* **C145** REFUTED: the container and variadic versions divide by a size_t; the average of -3, -3, -3 is 1431655762 (C145_negative_refuted). Proved: the iterator and two-argument versions always, the others for sums that are not negative.
* **C148** REFUTED for tetrahedra: the volume of the tetrahedron with unit edges along the axes is 42.67 at (1e6, 1e6, 1e6), exact value 1/6, and 0 at (1e8, 1e8, 1e8); it depends on the order of the points and need not vanish for two equal points (C148_refuted). Proved: the volume of a hexahedron is the same to the last bit after any exactly representable displacement (C148_hex).
* **C150** REFUTED: the midpoint of three points with the coordinate 0.3, and of eight with 0.1, is smaller than that coordinate (C150_refuted). Proved: the error bounds.
* **C151** REFUTED: the inverse of 1e100 times the identity of size 4 is the zero matrix, that of 1e-100 times the identity is rejected (C151_refuted). Proved: whenever the determinant exceeds its error bound there is a result; zero and NaN determinants are rejected; with an infinite determinant all entries are zero or NaN.
* **C152** REFUTED: the centroid of the triangle with the corner (73000009, 73000009) and edges of length one is (73000008, 73000008), outside of it; that of the unit square at (1e8, 1e8) is infinite; the two versions differ for coordinates that are not whole (C152_refuted). Proved: for n points with whole coordinates of magnitude at most M and 4 n M^3 within the significand both versions return the same numbers, with two relative rounding errors, and nothing finite exactly when the area is zero.
* **C153** REFUTED: operator() in a release build and operator[] with an index list accept index lists outside of the dimensions and return another element: (1, -1) of a 2 x 3 matrix is element (0, 2) (C153_unchecked_refuted); exactly which element or undefined behaviour results is C153_unchecked_exact. Proved: at() throws and operator() of a debug build stops for exactly the index lists that are not within the dimensions, whatever the integer types, and all accept the others with the row-major element.
* **C154** REFUTED in a release build: a list shorter than the matrix leaves elements undefined, a longer one writes past the end (C154_release_refuted, for all such lists C154_release). Proved: lists of the right length and of length one construct the matrix in every build, all others stop a debug build; the constructors of array define all elements as given; comparison with a value.
* **C155** REFUTED: a matrix is printed with one line for each column, so transposed (C155_rows_refuted). Proved: exactly that, for every matrix (C155_matrix), and the texts of arrays and tuples.
* **C159** REFUTED: a wrapper made from a reference keeps a copy but calls the original: undefined after the original is destroyed (C159_dangling_refuted), another function after assignment to it (C159_assigned_refuted). Proved: otherwise, and for wrappers made from unique pointers always, it calls its function (C159_wrappers, C159_unique).
* **C161** REFUTED: the types in the name of a call start with that of the function itself (C161_call_name_refuted, exactly C161_call_name); keys with quotes make names ambiguous (C161_path_refuted). Proved: the names of chains of keys without quotes are unambiguous (C161_path); the model of the call with its name agrees with that of LuaModel.v (C161_same_call).
* **C164** REFUTED: for dimension 2 the determinant depends on what the caller left in the third row and column of J_matrix, which the loops do not write (C164_stale_refuted: in double precision the determinant of the identity is 0 with 2^60 left in J[2][2], NaN with 2^600 in J[1][2] and J[2][1] or with infinity or NaN in J[2][2]). Proved: C164_text (the reading over reals is the model of C57), C164_shape, C164_entry, C164_element for (a); C164_det with the factor 1 + 2 |J[2][2]| that the left-over entry brings in dimension 2, C164_det_whole, C164_det4, C164_det4_whole for (b); C164_det2, C164_inverse_2d, C164_inverse_2d_whole for (c). The 3D and 4D inverses have wrong entries already over exact reals (C57).
* **C165** REFUTED: (c) C165_iterator_refuted (references to iterators and const pointers are denied), (d) C165_callable_refuted (functions, function pointers, references to functors and unions are denied, final classes are ill-formed), (e) C165_container_refuted (containers without data() such as std::list are denied), C165_view_refuted (ref-qualified members: enabled and ill-formed), (f) C165_subscript_refuted (an integer has a subscript operator for pointers), (g) C165_extents_refuted (every instantiation is ill-formed: auto & is bound to a prvalue), (h) C165_special_decay_refuted (a const wrapper or a reference to one stays a wrapper), (i) C165_name_refuted (references and cv are dropped), (j) C165_average_refuted (two variables of the same type where only the second is const are rejected; a variable is cast to an rvalue if the first argument is a temporary). Proved: (a) C165_are_type, C165_decay; (b) C165_integral, C165_index; (c) for types deduced by value, as in average(first, last): C165_iterator; (d) for classes: C165_callable; (e) C165_container, C165_view; (f) C165_subscript; (h) C165_special_decay; (i) C165_name; (j) C165_average_range, C165_average_different, C165_average_values.
* **C166** REFUTED: (b) C166_error_refuted (throw x copies a std::exception: type and message are lost for every key and every failure), (c) C166_size_refuted (a key that is absent from its table has size 0, no exception), (e) C166_ownership_refuted (registering the same pointer again deletes it while it is stored; two engines delete it twice), (f) C166_get_refuted (undefined with the assertions off). Proved: (a) C166_agree, C166_found; (b) for functions and raw access C166_error_kept; (c) C166_size; (d) C166_table; (e) if no pointer is handed over twice: C166_ownership.
* **C167** REFUTED: (b) C167_order_refuted (< of strided iterators holds both ways for every view of two dimensions), (c) C167_lifetime_refuted and C167_copies_refuted (a strided iterator of a temporary slice dangles; iterators of copies fail the assertion), (d) C167_static_const_refuted (constant iterators of a static view meet as many elements as there are dimensions, also past the end), (e) C167_flatten_refuted (a section), (f) C167_default_static_refuted. Proved: (a) C167_strided, C167_contiguous, C167_same; (b) C167_random, C167_order_rank_one, C167_contiguous; (d) exactly C167_static_const; (e) contiguous views C167_flatten; (f) C167_default; (g) C167_convert; (h) C167_compare.
* **C168** REFUTED: addScalarData, addTensorData, two of the overloads of addVectorData and setScalarData, setVectorData, setTensorData never give up the reference of the array they make, and outputVTKUnstructredGrid that of its writer, so these (and the written grid) are never destroyed, whatever follows; reset gives up references that the members still hold, so later uses and the destructor touch destroyed objects; copies of an adaptor both delete the processor; initVTKUnstructuredGrid sets a copy of its argument. Proved: without reset and copies of adaptors nothing is touched after its destruction and references are holders plus the leaked ones, one for each of these calls; without leaking calls everything is destroyed in the end. VTK's reference counting itself is assumed.
* **C169** REFUTED: jacobian always reads and writes row and column 2, so the 2 by 2 matrix of a two-dimensional element is overrun whatever else is passed (C169_square_refuted). Proved for all sizes: each routine runs without undefined behaviour exactly when the sizes listed in its theorem fit, the natural sizes do, and the results are those of the value models. The fixed-order elements are C170.
* **C172** REFUTED: (1) overflow of a signed variable is undefined under strong, weak, lock and serial but wraps under cpp and kokkos (C172_overflow_refuted); (2) dividing a negative int by an unsigned divides it modulo 2^32 (C172_div_refuted); (3) min(-1, 3u) stores 3 and max(5, 2^32) stores 0 (C172_min_max_refuted); (4) kokkos cuts the right-hand side to the type of the variable first (C172_kokkos_refuted); (5) -3 += 1.5 leaves -1, under cpp -2 (C172_double_refuted); (6) the product of two unsigned short can overflow int, undefined (C172_narrow_refuted). Proved: exactness and modular results for all types, agreement of cpp with the language wherever the latter is defined, of kokkos for equal types, and exact conditions for undefined behaviour.
* **C173** REFUTED: (1) vectors that are not parallel can have cross_magnitude 0, and the area of two plane vectors stored in three dimensions can be 0 or infinite when the two-dimensional one is neither (C173_refuted); (2) cross_magnitude of long vectors goes through fabs of a double: 2^53+1 becomes 2^53 and 2^63-1 undefined; of unsigned vectors it is wrong when the difference is negative; the length of a long vector can be rounded up (C173_int_refuted). Proved: agreement with math, symmetry to the last bit, error bounds in two and three dimensions, exact zero for parallel vectors, equality in two and three dimensions while the square neither underflows nor overflows; integer distance and magnitude rounded down for every type while the sum of squares fits and is below 2^52 (unsigned differences may wrap), integer area exact for signed types below 2^53.
* **C174** REFUTED: (1) the int data of unit-threads-mul.cc and unit-threads-lshift.cc overflows (1*3^20, 1<<32): the tests are undefined in their serial part (C174_data_refuted); (2) equal results that are zero, infinite, NaN or very small doubles fail the comparison (C174_check_refuted); (3) the examples accept the serial scheme with several threads, which loses updates (C174_serial_refuted). Proved: the final value for every program, type and permitted scheme; the assertion holds whenever the serial part is defined, which it is for all other int and unsigned data; the comparison accepts every equal non-zero finite float and doubles from 2^-1040 on; the results of all five examples (multithreaded-mul-div-shift.cc prints 0 under any scheme, racing or not).
* **C177** REFUTED: (1) foo++ and foo-- return the new value, for every foo (C177_post_refuted), and so does an atomic<foo> (C177_post_run_refuted); (2) min(foo(1), bar(2)) leaves foo(2), which is larger; max with bar(256) leaves foo(0); min with two bars depends on their order (C177_min_max_refuted). Proved: the operators byte by byte, ++ and --, the exact condition under which min and max do what they say (C177_min_max), the sum after any threaded run, and that the punned integer determines the foo.
