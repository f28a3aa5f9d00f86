# Design of the cvxpygen model

Source: `/repo` (cvxpygen, read as text, never run).  Model and proofs: `rocq/theories` (logical
name `Verif`, Coq 8.16.1, standard library only).

## 1. Shape of the model

* **Generator side** (Python): the functions that decide *what* C code is emitted are Gallina
  functions from modelled inputs to emitted structures.  Python exceptions are values
  (`Err KeyError` ...), loops are structural recursions or `fold_left`, dictionaries are
  association lists in insertion order.
* **Run-time side** (generated C, C++ glue, Python wrapper): the emitted structures get an
  operational semantics over an explicit C state (`cpg_params_vec`, `Canon_Params`,
  `Canon_Outdated`, `Canon_Params_conditioning` with pointer aliasing, solver workspace, gradient
  workspace).  Array accesses are checked: an access outside an array is `Err OutOfBounds`, so
  "the call succeeds" includes memory safety.
* **Arithmetic**: run-time theorems that need no algebra hold for an arbitrary carrier with
  arbitrary `0, 1, +, *` (record `Num`), hence also for IEEE doubles.  Theorems that need algebra
  hold for every commutative ring (`Ring`), ordered ring (`ORing`) or field (`Fld`) with a zero
  test; rounding is then out of scope.
* **External code** (CVXPY, NumPy/SciPy, the solver libraries, PDAQP, QDLDL) is not modelled; what
  is assumed about a call is a hypothesis or an oracle argument of the theorem (section 5).

File roles: `X.v` model; `XSpec.v` specification written without the model's helpers;
`XProofs.v`, `XMain.v`, ... lemmas; `PropX.v` the property theorems with `Print Assumptions` and,
beside each theorem, an `Example` with a concrete non-trivial case that meets its hypotheses.

| model file | part of /repo |
|---|---|
| `Pus.v` | update tables of `solvers/*.py`, `utils.py` 348-467 (analysis, nested if/else emission), `mappings.py` 100-113 |
| `Machine.v` | effect of the emitted copy/init/update calls, `utils.py` 987-1006 |
| `Runtime.v` | `cpg_update_*`, `cpg_canonicalize_*`, `cpg_solve`: `utils.py` 279-294, 904-944, 1008-1052 |
| `Wrapper.v` | `cpg_solver.py.jinja2` 26-117, `utils.py` 1194-1209, settings 1069-1084 |
| `Canon.v`, `CanonProblem.v` | `canonicalizer.py` 109-122, 226-332, 429-486; `_interface.py` 39-79, 132-176 |
| `Info.v` | objective of `cpg_retrieve_info`, `utils.py` 977-985 |
| `Retrieve.v` | primal/dual bookkeeping `canonicalizer.py` 124-224, retrieval `utils.py` 574-628, 949-975, 1217-1243 |
| `Merge.v` | two-stage canonicalization `canonicalizer.py` 54-66, 334-415 |
| `Explicit.v` | explicit mode: `solvers/pdaqp.py`, explicit branches of `utils.py`, `writer.py` 418-516 |
| `Sparse.v`, `Ldl.v`, `Gradient.v` | `cpg_osqp_grad_compute.c.jinja2`, `writer.py` 145-312, 354-416 |
| `GradSession.v` | sessions of solve and gradient calls (C and Python level) |
| `TwoStage.v` | results of two-stage programs: `writer.py` 95-143, 176-215, `canonicalizer.py` 334-361, 402-406, `utils.py` 574-628, 945-975 |
| `GradUser.v` | array marshalling of gradient calls: `cpg_solver.py.jinja2` 132-173, `utils.py` 675-689, 1273-1328 |
| `Qdldl.v` | QDLDL's published algorithms (contract of the oracle, shown satisfiable) |
| `Config.v` | `generator.py` 64-182, `canonicalizer.py` 48-122 (control flow), `_interface.py` 125-130 |
| `Literals.v` | `utils.py` 87-173, 213-228, `cpg_solver.py.jinja2` 98-101 |
| `Cones.v` | cone descriptions of `clarabel.py`, `scs.py`, `ecos.py`, `qoco.py` |
| `Symbols.v` | every global identifier the generated files define, declare or use |
| `CExample.v` | `cpg_example.c.jinja2`, `utils.py` 1535-1556 and the declarations it uses (733-788, 852-883, 1098-1130); not modelled: `#include` lines, `printf` formatting |
| `Params.v` | `cpg_solver.py.jinja2` 17-34, 63-67, `cpg_module.hpp.jinja2` 10-14, `utils.py` 1196-1204 (arrays to fields); attributes plain, diag, sparse; not modelled: NumPy dtype conversions |
| `EndToEnd.v` | order of the steps in `canonicalizer.py` 87-122, `cpg_solver.py.jinja2` 42-101, `utils.py` 1010-1051; the solver is an oracle (one answer per call); spec in `EndSpec.v` |
| `ExplicitEnd.v` | `pdaqp.py` 92-145 and 214-216 (arguments of MPQP, what is stored), `cpg_solver.py.jinja2` 36-87 and `utils.py` 1010-1051, 1194-1239 with `explicit`; the table is an oracle; spec in `ExplicitEndSpec.v` |
| `StoredVars.v` | `pdaqp.py` 141-164 and 171 (keys of `stored_vars` to index lists), CVXPY's `key_utils` for positive steps; spec in `StoredSpec.v` |
| `Layer.v` | `cpg_solver.py.jinja2` 176-212 (`forward`, `backward`) on top of `cpg_solve` and `cpg_gradient`; spec in `LayerSpec.v` |
| `Import.v` | `generator.py` 65-100, 153-156, `compiler.py`, `utils.py` 1591: directories, import and registration, over models of the file system and importlib; spec in `ImportSpec.v` |
| `CTypes.v` | `utils.py` 692-883 (types, guard, declared structs), 540-689 (initial values of structs), `writer.py` 245 (cast), `CMakeLists.txt.jinja2` 91-101 (targets); struct layout on a 64-bit machine; spec in `CTypesSpec.v` |
| `Build.v` | `generator.py` 81-140 and `generate_code` of all interfaces as operations on files, `writer.py` 62-143, 445-639 (which files are written), `CMakeLists.txt.jinja2` 37-99, `setup.py.jinja2` 103-112 (lists and include directories), the include lines of all generated files and the search of the compiler; file contents are tags (who wrote or changed it); spec in `BuildSpec.v` |
| `ExplicitLayer.v` | `cpg_solver.py.jinja2` 176-212 with 37-86 and 134-173 in explicit mode, on top of `Explicit.v` and `Layer.v`; spec in `ExplicitLayerSpec.v` |
| `Binding.v` | `utils.py` 1163-1412 (`write_module_def`), `cpg_module.hpp.jinja2`, the header declarations it uses, and the names `cpg_solver.py.jinja2` uses; statements as syntax, a type checker and an interpreter; spec in `BindingSpec.v` |
| `Text.v` | Python's `str.replace`, `str.find`; `utils.py` 57-72; the edits in `osqp.py` 138-146, `clarabel.py` 237-276, `scs.py` 154-164, `ecos.py` 155-157, `pdaqp.py` 238-262, `writer.py` 627-634; spec in `TextSpec.v` |
| `Report.v` | `cpg_solver.py.jinja2` 36-117 from the answer of the module to the problem object; name-keyed dictionaries of `canonicalizer.py` 125-160, 239-248; `solver_py_context`; spec in `ReportSpec.v` |
| `Readme.v` | `readme_context`, `_problem_summary_html` (`utils.py` 1418-1431, 1455-1532), `README.html.jinja2` (file tree, tables, types, functions, import, embedding), texts of the typedefs of `cpg_workspace.h` and the declarations of `cpg_solve.h`; reader of C and HTML in `ReadmeSpec.v` |
| `Stray.v` | update functions with signed unchecked index (`utils.py` 904-930, also explicit) on the states of `Runtime.v` and `Explicit.v` |
| `Objects.v` | pointers, run-time objects and their lifetimes: the call strings of `solvers/*.py`, the braces of `utils.py` 422-467, `cpg_solve` 1008-1052, settings functions 1069-1084 |
| `CMake.v` | an evaluator for the CMake commands used (variables as text, lists by semicolons, scopes, GLOB, targets); `CMakeLists.txt.jinja2` 11-13, 30-104, `write_canon_cmake` 1144-1160, `pdaqp.py` 224-229, `cmake_context_extra`/`setup_py_context` of all interfaces, `setup.py.jinja2` 27-99, 117, `compiler.py` 24-31 |
| `Units.v` | declarations, file-local objects and definitions of all generated C files and headers with types and used names: `utils.py` 110-158, 297-345, 470-1142, `writer.py` 145-590, `declare_workspace`/`define_workspace` of all interfaces, `canonicalizer.py` 241-245, `cpg_osqp_grad_workspace.h`/`cpg_osqp_grad_compute.c` templates; a checker for translation units |
| `Template.v` | the part of Jinja the templates use and rendering with strict undefined names: `utils.py` 13-39 |
| `TemplateText.v` | all templates in `cvxpygen/templates`, in full |
| `TemplateCtx.v` | the contexts and the files rendered: `utils.py` 1415-1630, `_interface.py` 197-232, `cmake_context_extra`, `setup_py_context` of all interfaces, `writer.py` 62-92, 518-539, 590-615, 641-646 |
| `TemplateCheck.v`, `TemplateKinds.v` | abstract rendering: a template with kinds of values instead of values, run by a scanner (proof device, no code) |
| `GradDims.v` | lengths and accesses of the arrays of the gradient code: `writer.py` 145-312, 354-416, 518-588, `canonicalizer.py` 335-344, 369-376, `utils.py` 1616-1625, loops of `cpg_osqp_grad_compute.c.jinja2` |

Every definition of a model file carries a comment with file and lines, and says where it
simplifies.

## 2. Properties: what is modelled and how it is proved

"+ witness" means that the property statement itself contains the exact boundary, the positive part
is a theorem and the negative part a `..._refuted` theorem with a computed witness.

| id | modelled | method |
|----|----------|--------|
| C01-C03 | emitted update code, C state machine, histories as arbitrary operation lists, arbitrary overwriting by the library | invariant by induction on the history; abstract interpretation of the emitted code proved sound, then evaluated exhaustively for all tables/change patterns/flags. C03 + witness (one-entry block is aliased) |
| C04 | flat parameter layout | prefix sums, induction on the history |
| C05 | wrapper call with `updated_params` | two runs related by an invariant |
| C06, C07 | dependency lists, constant blocks | column reasoning on sparse rows |
| C08 | emitted loops over compressed rows | loop invariants, every access in bounds |
| C09 | `analyze_pus`, `write_update_structure`, C parser and if/else semantics | parser uniqueness; exhaustive evaluation lifted to all states; independence of set order by permutation |
| C10 | OSQP's bound validation as an oracle | case analysis over emitted update code |
| C11 | second solve without update | emitted code with cleared flags; + witnesses (SCS, ECOS) |
| C59 | calls of the next update code after a solve | history invariant on flags + exhaustive evaluation over change patterns, orders, flags; + witness (u sent twice) |
| C12 | `cpg_retrieve_info` | history invariant + ring |
| C13 | lower bounds of inequality rows | invariant |
| C14, C15, C16, C17 | canonicalizer: row selection, signs, densification, pruning, column-pointer recount | ring algebra against an independent definition of CVXPY's problem (`CanonSpec.v`) |
| C18 | baked data | equality with the loops' result |
| C19-C22 | dual/primal bookkeeping, retrieval code, result structs | prefix sums; execution of the emitted statements; + witness (C20: equality-only problem with split duals) |
| C23 | column-major order | mutual inverse for every shape |
| C24, C25, C54 | `_get_osqp_problem`, `_merge` | associativity of sparse products, success iff; + witnesses |
| C26-C32, C55 | explicit mode | order lemmas, mask lemmas, adjoint identity, execution of retrieval; + witnesses |
| C33-C36 | gradient code inside sessions of solves and gradients | adjoint identity, history invariants; + witnesses |
| C37-C40, C43 | rank-one update, activate/deactivate, sparse insertion, mask index, storage | field algebra on loops, induction; + witnesses |
| C41 | KKT refresh | loop invariants on patterns; + witness |
| C42 | `cpg_update_d<var>` | positions; + witnesses |
| C44, C45, C47 | generator front end | case analysis, string lemmas; + witnesses |
| C46 | process-global tables and settings | invariant over sequences of generations; + witness (SCS) |
| C48, C49 | literal text and its reader | decimal arithmetic on strings; + witnesses |
| C50, C51 | settings and rejected calls | state machine of the wrapper; + witness (SCS) |
| C52 | identifier lists | list/string reasoning; + witnesses |
| C57 | the same sessions over ordered fields | quasidefiniteness: a pivot is the value of the quadratic form at a vector; every failing operation is traced to a zero pivot or a root of a pivot; + witness (non-convex) |
| C58 | the same sessions, families of optimal points over the reals | linearised KKT system, residual after refinement as a power of eps, derivative of products and sums; + witnesses (zero equality dual, products of variables) |
| C60 | Python gradient calls on arrays in the user's shapes | composition of C57, C58 with column-major marshalling and the layout of `cpg_dp`; size mismatches raise |
| C61 | intermediate OSQP solution of two-stage programs and retrieval of the user's variables and duals | order algebra on the KKT systems both ways; loop invariants; execution of the emitted statements on two vectors; + witnesses (wrong variables, wrong duals, undefined function) |
| C62 | the example program as an expression/statement tree, the declarations it is compiled against | typing decided by a checker, proved equivalent to a condition on prefix and sizes; calls replayed on the C01 model, output compared with C19/C21 retrieval; + witnesses |
| C63 | the values the Python method assigns to the fields of the C++ struct | each attribute against CVXPY's entry order; calls refine sessions of `Wrapper.v`, composed with `session_data`; error cases by computation; + witness (one stored entry) |
| C64 | the whole package: generation, Python calls, update and solve, retrieval, stored values | equivalence of feasibility, objective, stationarity and complementarity between the solver's data and CVXPY's; vectors cut into blocks; induction over the session; nothing assumed of the solver beyond the stated contract at each call |
| C65 | explicit mode: generation, Python calls, clamping, theta, table, stored variables and duals | invariant over sessions; rows kept by a mask correspond to the user's rows (rank); equivalence of the reduced parametric QP at theta with the user's regularised problem (feasibility, objective, KKT); wrong equality indices refuted |
| C66 | index expressions, CVXPY's key validation, ranges, product, column-major positions | membership in the product = membership axis by axis = NumPy selection (at most one long list); injectivity of column-major positions; composition with C30 |
| C67 | contexts, values and gradients stored in the problem objects, solver answers kept per context | simulation by sessions of C60; invariant that set parameter values equal the abstract values; gradients depend on parameters through P and A only |
| C68 | file system, sys.path, sys.modules, from-import of the generated module, registered methods | invariant over sessions (modules of a name are those of its first loaded generation); path and text lemmas for directory names |
| C69 | typedefs and guard, declarations, initialisers, member offsets, reads through the types of another program | case analysis for initialisers; induction on member lists of eight-byte members gives the exact prefix condition; offsets increase, so equal forms read equal members |
| C70 | file operations, build lists, include lines and search | symbolic execution of each interface's operations over an arbitrary repository; the written names are compared with the table of the specification; an invariant over the files a compiler reads |
| C71 | forward and backward in explicit mode with several contexts | invariant over the call sequence (parameter objects, canonical state at clamped values, regions remembered per context, cleared `cpg_dx`); the adjoint identity of C31 turned into sums over the context's arrays |
| C72 | the C++ file compiles / which C calls solve and gradient make and what they return | type checker evaluated symbolically over all names and sizes (lookups behind an unknown prefix decided by suffixes); interpreter over an arbitrary C library, loops turned into `mapM`, records into lists; refinement to the operations of `Wrapper.v` |
| C73 | which places of a text the edits change | scan refined to a division of the text at the first, second, ... occurrence; a computed check that no occurrence of one text touches another makes replacements distribute over concatenation, hence independence, recovery, counting |
| C74 | what the problem object holds after calls | dictionaries refined to the last pair of each key; composition with C19/C21 for the entries; independence of the object given by a simulation; entries outside all written ranges by counting |
| C75 | README.html against headers, files, build lists, import | a lexer of C run over the written texts: each line reads as its words whatever the names (scanner composes over concatenation), then parsers for typedefs and declarations; files and directories from C70 and an invariant of the operations |
| C76 | update functions called with any index | the invariant of C01 restated with, per block, the array it was last computed from instead of parameter values; spec `seen` walks the history once per block; in range reduces to C01, the rest by the layout of the array |
| C77 | solver objects and pointers over repeated solves | abstract heap with block lifetimes; an invariant per solver (object list, every pointer, faults) kept by every branch of the update code; the order and number of set-up calls by a sweep over all change patterns, orders and flags, lifted to all programs; counts defined from the calls alone |
| C78 | what the build compiles and links | the evaluator run on the generated file with arbitrary own files of the solvers and an arbitrary GLOB; lists read back what was joined; targets, include directories, libraries and passed-up variables as equations; link objects against a table of built files for all machines; setup.py runs as a state machine of versions |
| C79 | declarations, definitions and uses in the generated C files | item lists per file and header; the checker accepts exactly the files valid in a declarative sense; one list with distinct names gives every declaration and definition its type; uses are traced to headers, file-local names are shown to differ from all header names; `_refuted` for three cases outside |
| C80 | templates and the contexts they are rendered with | abstract rendering over kinds of values, sound for any scanner that composes (`chk_sound`); computed for the finitely many values the conditions depend on and lifted to all strings, names, sizes and lists; four scanners: none (rendering), brackets, Python layout, function definitions; `_refuted` for strings outside |
| C81 | dimensions of the gradient code | lists of array lengths and accesses per mode; linear arithmetic over all entries; an exact condition for two-stage mode; `_refuted` for two-stage, ECOS and linear programs |
| C53, C56 | cone descriptions | list equalities, iff; + witnesses |

All 81 properties are expressible; none is left partial.  The theorems per property are listed in
`MANIFEST.json`.

## 3. Findings (what is false of the code)

Each is a `_refuted` theorem whose witness is computed by the model.

1. C03 ECOS/Clarabel/QOCO copy of a one-entry block copies the *pointer*; ECOS then overwrites the
   canonical data and later solves run on corrupted data.
2. C11 constant matrix in a `||` group: SCS rebuilds its workspace / ECOS resends all data at every
   solve, because the flag of the constant block is never cleared.
3. C20 split duals and no inequality: `d_canon_offsets[n_split]` raises IndexError.
4. C25 two-stage: a parameter in the objective's offset raises KeyError; a constant offset is lost
   from the reported objective.
5. C26 `p == c` on a parameter only bounds it from above.
6. C27 the box of (q, u) uses end-point values only; with coefficients of both signs it is too small.
7. C29 explicit duals: a parameter bound listed first shifts rows and constraint numbers.
8. C30 explicit storage: dropping a variable raises IndexError; one stored entry, negative indices,
   symmetric variables are misplaced.
9. C31 explicit gradient with a dropped variable reads past the table; before the first solve the
   region is -1.
10. C32/C55 `cpg_obj` ignores offset and sign and reads stored entries positionally.
11. C34 the sign mark of an already active row may be wrong (harmless for equality rows).
12. C35/C36 C-level gradient between update and solve uses the old matrix; delayed backward with a
    parametric matrix uses the matrix of the latest forward.
13. C37 rank-one update without the fill-in pattern is wrong (the code inserts it first).
14. C41 the true KKT matrix takes only the stored triangle of P, so refinement uses a different matrix
    when P has off-diagonal entries.
15. C42 derivatives of symmetric variables go outside the packed range, into other variables.
16. C44 the documented default solver raises AttributeError; `osqp` in lower case with gradients
    selects two-stage mode.
17. C45 explicit mode deletes the old directory before rejecting the problem.
18. C46 generating an SCS LP first removes P from the shared table: later QPs never send P.  Enabled
    settings leak into later generations.
19. C47 nested prefixes (`a` and `a_b`) can clash; so can a gradient prefix.
20. C48 doubles below 2^-13 may change, tiny ones become 0.  C49 infinities outside the replacement
    are written as `inf`.
21. C50 SCS ignores changed settings unless its workspace is rebuilt.
22. C52 variables named like solver globals, `d0`, `N` (symmetric, gradient code without prefix), ... do not compile; example program with prefix
    and gradient uses `CPG_Result` without prefix; two-stage gradient code refers to names no file
    defines; two gradient programs always share helper functions.
23. C53 Clarabel: several exponential cones are cut; exp before SOC/PSD differs from CVXPY's order.
24. C54 two-stage generation fails if an entry of A is zero at the values present at generation.
25. C56 ECOS/QOCO checks look at exponential cones only.
26. C57 a gradient of a non-convex problem can divide by zero (the code checks nothing).
27. C58 an equality constraint whose dual is 0 is dropped from the gradient computation; gradients
    with respect to its data are then 0 although the solution moves.
28. C58 with products of different variables in the objective the refinement works with a different
    matrix (item 14) and the gradient is off by an amount that does not shrink with eps.
29. C59 OSQP's update code sends a vector twice when exactly one or two of three parametric vectors
    are outdated (harmless).
30. C60 a parameter with a diag or sparse attribute (fewer entries in the parameter vector than in
    its shape) makes every Python gradient call raise ValueError at the final reshape.
31. C61 two-stage programs: `_write_solve` does not redirect the solution pointers (its comment says it
    does), so copied variables and duals are read from the wrong vector; with SCS a scalar variable makes the
    code call a function that is never defined.
32. C62 the example program with gradient code does not compile with a prefix (`CPG_Result` unprefixed) or with
    a scalar variable (a `cpg_float` is subscripted); with explicit partial storage it reads past `sol_x` or
    prints entries under the wrong index.
33. C63 a sparse matrix parameter with a single stored entry: the struct field is a scalar, the wrapper passes an
    array of one entry, so every call raises TypeError.
34. C65 `eq_inds` (pdaqp.py 131-133) are positions before rows without variables are removed from A: with
    constraints `p == 2`, `x == q`, `x >= -5` the row of the inequality is declared an equality and the program
    returns x = -5.  Rows without variables are harmless after all other equalities.
35. C66 `stored_vars`: `X[[0,1]]` on a matrix stores the single entry (0,1); masks are read as the indices 0/1; a
    variable listed twice gets values of other variables; an empty selection stores everything; slices of vectors
    and negative list entries of matrices raise.
36. C67 `backward` sets gradients only for the variables its context lists: a layer returning some of the variables
    raises, or silently uses the derivative another layer set for the others; and it differentiates the problem of
    the latest forward call of any layer if P or A changed since.
37. C68 `register` imports without reloading: generating twice into one directory (the default one) silently keeps the
    first problem's code; `code_dir` must be a plain identifier although the generated text handles
    subdirectories; `code_dir='.'` deletes the content of the working directory.
38. C69 The type definitions of all programs share the guard `CPG_TYPES_H` and their names, so prefixes do not make two
    headers usable in one C file: results of the second program are silently read from wrong members. The CMake targets
    `cpg` and `cpg_example` carry no prefix either. `cpg_gradient_workspace.h` has no guard at all. For two-stage code
    with Clarabel, `(cpg_grad_csc*)` reinterprets eight-byte indices as `int`.
39. C70 Two-stage gradient code includes `qdldl.h`, but the include directories never contain `osqp_code`: with ECOS, SCS and
    Clarabel the header is not found unless the solver happens to have one, with QOCO it is the header of QOCO's own
    QDLDL, while the sources compiled are those of `osqp_code`. QOCO's licence at the top is overwritten by cvxpygen's.
40. C71 In explicit mode parameter values are limited to their bounds on update, but backward differentiates the law as if they
    were not: outside the bounds forward is constant while the gradient is not 0. As in C67, a context with only some of the
    variables reuses derivatives of other contexts.
41. C72 `gradient=True` with any solver but OSQP (two-stage) and `wrapper=True`: `cpg_module.cpp` uses `sol_x` and `sol_y`, which no
    header declares (`gradient_<prefix>sol_x` is), so the binding never compiles. A parameter of size 0 or called like a C++ keyword
    (`new`, `class`) does not compile either; one called `lambda` compiles, but `cpg_solver.py` contains `par.lambda` and cannot be parsed.
42. C73 edits of solver files never report a missing text: another version of the file silently stays unedited. SCS paths are only
    found after a space, not at the beginning of a line; OSQP's edit replaces `src` inside names as well.
43. C74 two variables of one name: only the last gets a value; two parameters of one name: values go to the wrong entries and the last
    entry is never updated; a constraint listed twice: later constraints get each other's duals. In explicit mode `prob.solve(method=...)`
    returns the solve time, `prob.value` and `prob.status` are None, and unknown settings are accepted. Numeric statuses never equal a CVXPY status.
44. C75 README.html in explicit mode documents `CPG_Info_t`, `info` (and `dual` for explicit=1) in `CPG_Result_t` and the functions for
    settings, none of which exist; with two-stage gradients its "Embed" list omits `osqp_code`, which CMakeLists.txt adds; its import line is
    wrong for a `code_dir` with a trailing slash, `.`, `..`, an absolute path or a name that is no identifier; its tables drop dimensions
    beyond the second and the stored size of sparse vectors.
45. C76 `cpg_update_<p>(idx, val)` does not test `idx`: an index beyond the parameter changes another parameter but sets only the flags of
    `<p>`, so the next solve can mix old and new values; index = number of values left in the array replaces the constant 1 for good
    (not in explicit mode, where its bounds are both 1).
46. C77 Clarabel with a linear objective: `P`'s column pointers are a compound literal inside `if (1) { ... }`, dead when
    `clarabel_DefaultSolver_new(&P, ...)` reads them (undefined in C, every solve). Nothing allocated is ever freed: Clarabel keeps one
    solver object per solve, SCS one workspace per re-initialisation (every solve if exactly one of P, A depends on parameters).
    Constructor results are not tested: a NULL is followed in the same solve.
47. C78 Building: a semicolon in the path splits the source lists; an empty list of solver sources is not noticed by CMake; Clarabel's
    program uses `solver_src`/`solver_head` of an enclosing project; Clarabel's library path in `setup.py` is that of the generating machine
    (ARM Mac or not) and has no Windows form; `setup.py` ignores the exit codes of cmake and does not list the library among what the
    module depends on, so a second run keeps the old module; a two-stage program for OSQP compiles both `workspace.c`.
48. C79 Declarations: `cpg_gradient.c` of explicit mode has file-local `cpg_dx`, `cpg_dtheta`, which clash with the declared `cpg_<name>` of a
    symmetric variable `dx` or `dtheta`; `col_to_name_usp` is a dictionary by first column, so a parameter without entries loses its update
    function to the next one, although it is declared and called by the example and the Python module; with SCS the initialisers use
    `canon_A_x` even if the matrix stores nothing and is not written; `cpg_<variable>`, `scs_A`, `scs_P` and, in explicit mode, `canon_A`
    are declared but defined nowhere.
49. C80 Strings in Python files: the directory of the code is written into `cpg_solver.py` as it is (import line), so a directory whose
    name has an apostrophe gives a file Python cannot read.
50. C81 Gradient dimensions: in two-stage mode `_write_gradient` passes `self._pc` and the solver interface of the second canonicalization for
    the OSQP gradient workspace and the loop bounds, but the maps of the first, so loops run past the ends of maps whenever the second form has
    more variables or rows; with QOCO also past the workspace arrays; with ECOS, and with OSQP for a problem without quadratic term (where
    `get_affine_map` returns None for P), `parameter_canon.p['P']` raises KeyError after other files are written.

## 4. Trusted base

* The Coq 8.16.1 kernel, including `vm_compute`.
* `Print Assumptions` is printed for every property theorem during the build.  Every one of them
  answers **Closed under the global context** (no axiom, neither our own nor the library's), except
  those that speak about Coq's real numbers: `C58_gradients_are_derivatives`, `C60_user_gradients`, `C61_optimal`,
  `C57_example`, `C58_example` and `C60_example` list the library's `sig_forall_dec`, `functional_extensionality_dep` and (examples)
  `sig_not_dec`, which come with `Coq.Reals`.  (A tool that lists axioms of *loaded* library files may also name
  seven from `Coq.ssr.ssrunder`, `Classical_Prop.classic` and constants of `Coq.Reals`; they are
  loaded with `Lia`/`Ring`/`Reals` and not used.)  There is no `Admitted`,
  no `Axiom`, no section-less `Variable`, no functor or module type, no plugin, no switched-off check.
* The correspondence between the definitions and `/repo` (comments cite the lines).
* The assumptions on external code in section 5.

## 5. Assumptions on external code

* **Jinja** (C80): rendering as in `Template.v`; the node lists in `TemplateText.v` were written by a script from the template files,
  which applied `lstrip_blocks`, `trim_blocks` and `keep_trailing_newline`; that they are what Jinja's parser gives is trusted.

* **CVXPY**: `param_prob` provides the reduced matrices, their index arrays and the flat parameter
  vector as in record `cvx` (`Canon.v`), well-formed in the sense of `wf_cvx` (column pointers, row
  indices in range, columns of sparse rows increasing and in range, the flat vector is the
  concatenation of the flattened parameters plus 1).  Rows are ordered zero, nonneg, SOC, PSD, exp,
  power.  Symmetric variables are stored by `upper_tri_to_full`.  `value_sparse.data` lists the stored
  entries in the order of the `sparsity` index list; a diag parameter contributes its diagonal.
* **CVXPY problem object** (C74): `_clear_solution` empties the values of all variables, all dual values, value, status and solution;
  `var_dict`, `param_dict` and the constraint id maps are filled by one assignment per object in order; `save_value` and
  `save_dual_value` store the array they are given.
* **CVXPY index expressions** (C66): a key without lists is stored as validated slices, any other as written.
* **Python** (C68): importlib's rules for packages (sys.modules first, then sys.path or the package's directory;
  a failing module is not kept, its package is), directory contents seen without stale caches; `os.mkdir`,
  `shutil.rmtree` on POSIX without symbolic links; a package's attribute `cpg_module` is its loaded submodule.
* **C compiler** (C69): LP64 sizes, members aligned to their size, little-endian integers; solver libraries in their
  default builds (`ClarabelFloat`, `QOCOFloat`, `scs_float` = double, `QOCOInt`, `scs_int` = int). CMake target names are unique.
* **Solver files** (C70): the repositories and generators supply arbitrary sets of files; where a theorem needs one (a header) it
  is a hypothesis. CMake's `add_subdirectory` does not add include directories to its parent.
* **Builds** (C78): CMake variables are text, unquoted arguments are split at semicolons, `add_subdirectory` copies variables and `PARENT_SCOPE`
  sets those of the adding file; GLOB returns names without semicolons; static libraries go to `LIBRARY_OUTPUT_PATH` (per configuration on
  Windows), cargo's to its target directory; `build_ext` skips a module newer than its sources and depends.
* **Objects** (C77): constructors return a new object or NULL; `clarabel_CscMatrix_init` stores the pointers it gets; `load_data` of QOCOGEN
  allocates nothing.
* **PDAQP** (C71): for every region and theta the feedback law of the table gives the rows `out_inds` of a vector of canonical
  variables (the law); the search tree ends in a region of the table for every theta.
* **SciPy/NumPy**: `tocsr`, slicing, fancy indexing, `bmat`, `nonzero()` (entries by row), sparse
  sums drop zero results; column-major reshape and flatten.
* **Solver libraries**: an init/update call takes over the data passed (C01: data source as in the
  tables; C03: afterwards the library may write anything into the arrays it got; C10: OSQP ignores
  a pair with l > u; C64: the answer to a call minimises, or satisfies the KKT conditions of, the data of
  that call; C65: the table answers with a minimiser, or KKT point, of the parametric QP given to MPQP).  Statuses, iterates and convergence are not modelled: the answer `sol_x`,
  `sol_y` is arbitrary in all session theorems.
* **QDLDL**: `qfactor` answers an LDL^T factorisation with a sorted pattern that contains K's
  pattern and is closed under fill-in, and fails only if a pivot of K is zero (`Qdldl.v` contains the algorithm and a proof that it
  satisfies this contract), `qsolve` solves with it.
* **OSQP's duals**: inequality rows have nonnegative duals (C34-C36).
* **sqrt** by contract (`sqr x = Ok r` implies r*r = x).
* **pdaqp**: the table is an input (feedback laws per region).
* **Python**: `'%.20f'` rounds correctly half-to-even; strings are ASCII in `Config.v`.
* **C**: integer arithmetic does not overflow; an initialiser that is too long is cut (C53).

## 6. Not modelled

Rounding of doubles (except C48), timing, printing;
text of the generated files other than literals, identifiers and the rendered templates (C80); the text of files written by
`utils.py` and `writer.py` directly is represented by the structures it denotes; what the rendered text means to Python, C++
and CMake beyond brackets, layout, function definitions and the lists of C70 and C78; the solver libraries themselves; region limits of pdaqp (its regularisation
`1e-6*I` is part of C65); dead code of the gradient template (`remove_nonzero` is modelled, the symbolic
downdate that would call it is never called).  Exact arithmetic replaces infinities and NaNs by
`Err Arith` in the gradient model.  P's pattern is assumed to hold one triangle (no `triu` in the
repository; CVXPY gives the upper triangle for OSQP).  In two-stage mode the order of the entries of
`osqp_A` is taken as matching the layout; the numerical content of CVXPY's second run is an input.

## 7. Mutation testing

`seeded/LOG.jsonl` has one line per seeded bug: definition edited, the edit, the claim it breaks,
the theorems whose proofs failed, and what was tightened.  Method: scratch copy, edit one
definition, rebuild; each failing proof is replaced by an admission and the build continues, so that
`Print Assumptions` shows which property theorems depend on a failed proof.
