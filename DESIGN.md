# Formal model of GTMesh in Rocq (Coq 8.16.1)

Sources modelled: `/repo/src/GTMesh/**` (header-only C++). Nothing is built or run; every
definition of the model cites the file and lines it was read from.

## Layout (`rocq/theories`)

* `Base.v` — outcome monad (`Ok`/`Throw`/`UB`/`Diverge`), checked vectors.
* `M_*.v` — executable model, no proofs. `S_*.v` — specifications stated without the model's
  helpers. `P_*.v` — proofs. `T_*.v` — the property theorems (each closed by `exact` of a lemma),
  non-vacuity examples, `Print Assumptions`.

## Modelling conventions

* C++ exceptions, undefined behaviour and non-termination are three distinct outcomes.
* `size_t`-like indices are `N` with the real invalid value (2^64-1) and boundary bit (2^63);
  the encoding itself is proved for every width. Vectors are lists; `at()` out of range throws,
  `operator[]` out of range is `UB`.
* Loops without an obvious bound (ring walks) run on fuel and return `Diverge` on exhaustion;
  a theorem shows that the fuel used is enough for *every* terminating run, so `Diverge` in the
  model means a non-terminating loop in the code.
* Element objects' stored index is their position (what all readers and all users of the API do).
* Geometry is over Coq's classical reals `R` without rounding, except in C87–C90: there the same
  model functions are run with every arithmetic operation rounded (the standard model
  `|rnd x - x| <= u |x|`; no overflow or underflow) and compared with the exact run.
* Streams are token lists in C18–C65; C79–C81 refine the mesh files to characters (number formatting and parsing included).

## Per-property plan

| id | model | proof method |
|----|-------|--------------|
| C01 | `M_Index` bit operations on `N`, width parameter | `N.testbit` extensionality |
| C02,C03 | `M_Conn` two-slot record | induction over call lists |
| C04 | `M_Conn` four-slot record | induction over call lists against an association spec |
| C05 | `M_Conn` bounded container | induction over call lists |
| C06,C07 | `M_Mesh` faces + boundary cells | invariant over the face loop |
| C08–C10 | `M_Apply` recursion over dimensions, ring walk with fuel | induction on dimension; pigeonhole for termination |
| C11–C14 | `M_Connections` ordered-set insertion | equality with relational spec |
| C15–C17 | `M_Color` greedy/random loops, RNG as an arbitrary stream | loop invariant |
| C18 | decimal rendering of indices | injectivity of `to_string` by induction |
| C19–C24 | `M_FPMA` reader/writer over token lists | loop invariants, round trip |
| C25–C28 | `M_VTK` readers | loop invariants; shape tables by finite computation lifted to all labelings |
| C29–C31 | `M_VTKWrite`, `M_VTKData` | induction over cells / cursor invariant |
| C32,C33 | `M_Signature`, writer cache as state machine, hash an arbitrary function | algebra of xor; explicit counterexample histories |
| C34,C35 | `M_Data` | induction over dimension list |
| C36–C40 | `M_Serial`: universe of types, byte lists, cursor state | induction over types |
| C41–C49 | `M_Geom` over `R` | field/nra, induction over polygons |
| C50–C52 | `M_Traits` trees of members | structural induction |
| C53 | `M_Print` (printer selection, stream and printf sinks), spec `S_Print`, JSON grammar `S_Json` | induction over types; unique readability by prefix codes |
| C54, C55, C60 | `M_Log` (JSON and HTML loggers over a file system), spec `S_Log` | invariant over call histories |
| C56 | `M_Log` (ConsoleLogger, Debug.h macros) | induction over settings and variables |
| C61–C63 | `M_Files` (load/write of UnstructuredMesh.h over a file system), `M_FilesI` (with the concrete readers and writers) | case analysis on the path; round trips C22, C25 and cache theorem C32 |
| C64–C65 | `M_VTKWrite` (native cells), `S_Solid` (when a mesh cell is a VTK solid) | finite symmetry check of the four solids on vertex positions, transferred to arbitrary cells; round trip through C28 |
| C66 | `M_Macro` (MacroForEach.h tables, trait and debug macros) | induction on the argument list through the tables |
| C67 | `M_Singleton` (interleaved steps of getInstance) | invariant over schedules |
| C68–C69 | `M_Access` (forms of getters and setters; nested references) | case analysis of the forms; induction on the index sequence |
| C70–C72 | `M_GeomN` (getCenters, normals and measures of any dimension); spec `S_GeomN` (flats, feet of perpendiculars, volumes of simplices) | Gram-Schmidt yields the foot of the perpendicular; induction over dimensions; volume independent of the order of the vertices by exchanging the last two |
| C73 | the models of C06, C08, C19–C29; spec `S_Flux` (signs of faces) | exchange of the sums over cells and faces; agreement of the two records of sidedness from the reader theorems |
| C74–C75 | the models of C44–C49; spec `S_Flux` (star-shaped cells, left and right of a face) | each face contributes its signed triangle/tetrahedra; closed surfaces telescope; then C73 |
| C76 | `M_Object` (mesh with stored centres: initializeCenters, setupBoundaryCells, setupBoundaryCellsCenters, the member functions) | the geometric functions depend on the topology that C06 preserves; distances by C48 |
| C77 | no new model: the planar VTK reader, `M_Object` and `M_Geom` composed; spec `S_Convex` | C24 (read), polygon centre = mean of the vertices, convexity ⇒ the star-shape and orientation hypotheses of C45, C44, C74 |
| C78 | no new model: `M_Object` and `M_Geom` composed; spec `S_Convex` (convex_solid, convex_mesh3) | centres are relatively interior (both methods), hence the star-shape and orientation hypotheses of C45, C44, C75; files: `S_ConvexFile` (convex_file3, convex_grid3, tet_grid), C19/C28 give the connectivity, C85/C86 the text |
| C79 | `M_Stream`: the characters `operator<<`, `operator>>`, `ignore` and `to_string` write and read; spec `S_Stream` (nearest_six) | rounding half even is nearest; digits written are the digits read |
| C80 | `M_FileText`: FPMA reader and writer over characters; spec `S_FileText` (precise, copy3) | simulation of the token level reader (C22) by the character level one |
| C81 | `M_FileText`: VTK readers and writers over characters | simulation of the token level readers (C25, C65); findings by computation of the header |
| C82 | readers of C80 on prefixes of written files | invariant on the reader's position in the file; every read is complete, cut or after the end |
| C83 | readers of C81 on prefixes of written files | the same, per section; findings by computation of the rest of the reader |
| C84 | centerKey (M_FileText), indexMesh3 | the text of to_string determines the sign and the rounded multiple of 1e-6; C29 |
| C85 | readFPMA (characters) on any text spelling the file's numbers (S_Layout) | each extraction returns the number of the next word; step by step equal to the token reader of C19 |
| C86 | readVTK2, readVTK3 on any text with the sections of the format | as C85, plus getline/ignore and keywords; C24, C26, C28 |
| C87 | edge_lengths, cellsDistance, computeNormals2 of M_Geom run on numFl (M_Round): every operation rounded | factors between (1-u)^k and (1-u)^-k are closed under products, quotients, roots and sums of nonnegative numbers |
| C88 | computeMeasures2 on numFl | errors relative to a magnitude; sums add magnitudes; C45 for the exact value |
| C89 | computeCenters on numFl | exact and rounded run in lockstep, level by level |
| C90 | edgeIsLeft2, edgeIsLeft3 on numFl | as C88; comparison with zero is exact |
| C91 | `M_DataText`: cell data writer, index and reader over characters | lines of a written column contain no keyword and are found in order; every number is read back where it was written (C79); C30 for the order of 3D values |
| C92 | put, get of `M_Serial` at two types | mutual induction over `same`; C37; insertion lemmas of C39 |
| C93 | `M_Detect`: what types offer, the conditions of the serializer classes, ClassSelector | induction over types; case analysis of the selection; C92 for the bytes |
| C94 | `M_BoundSerial`: objects with all members, default and bound traits as positions | induction over objects, one lemma for the members at given positions |
| C95 | `M_EdgeOps`: histories of calls on the edge of `M_Mesh` | invariant over histories |
| C96 | `M_Overload`: conditions of the printers, overload resolution, both versions; loggers on top of `M_Log` | induction over values; the reader of `P_JsonParse` refuses a log with an empty record |
| C97 | `M_Print.realText` (numbers of `M_Stream`, infinite numbers, NaN), `S_Json.jnumber` (numbers of RFC 8259) | value of the written text through the reader of `M_Stream`; every text either is JSON or the reader of `P_JsonParse` refuses it |
| C98 | `M_DataOps` (programs over named containers; moved-from contents are any value) | the vectors refine a slot-wise specification `S_DataOps.slot`; induction over the program |
| C99 | no new model (`M_VTKWrite`, `M_VTK`, `M_VTKData`, `M_Object`); `S_Export` | the written tetrahedra satisfy `tet_grid` of C78 (orientation of every side from convexity, opposite directions across shared triangles), block sums by the surface formula of C49, data by C30; `T_ExportFile`: composed with the FPMA reader |
| C100 | no new model (`M_DataText`); `S_DataCut` | case analysis of the cut (head, line of values, number); a cut number leaves the stream exhausted (`P_Cut`), induction over the values |
| C101 | `TUser` in `M_Serial` (arbitrary functions of the user), `Custom` and `Enum` in `M_Detect`; `S_Custom` | induction over the type; case analysis of what a type offers |
| C102 | nothing new: `M_Geom` over the reals, `M_FileText`; `S_Near` (moved vertices, boxes) | induction over dimensions for centres; triangle inequality for norms and determinants, summed over polygons; C80, C81 for the files |
| C103 | nothing new: `M_Stream`, `M_FileText`, `M_Geom`; `S_Layout` (index words may carry a minus sign) | equations of the extraction functions; C85, C86 for the readers, then an edge with a missing end point makes the walk of computeCenters throw; exceptions carried from the token reader to the text reader by simulation |
| C104 | nothing new: `M_FPMA`, `M_VTK`, `M_Conn`, `M_Apply`; `S_Shared` (the vocabulary) | FPMA: the specification of the loader for any number of listings per face (the first two are recorded, the result of setNextBElem is ignored). VTK: the boundary construction again with the invariant that an element holds its first and its last cell (`P_Shared`; setRight overwrites). The walk stops at the first face that does not know the cell |
| C105 | `M_Compact` (layout of classes by the ABI, containers as the memory of their elements), `S_Compact` (which memory holds a value) | mutual induction over classes and members; the sum of the bytes of two memories with different padding shows that they differ exactly if there is padding; embedded in the universe of `M_Serial` as a type with functions of the user, so that C37-C40 apply |
| C106 | `M_Geom`, `M_GeomN`; `S_Similar` (maps that multiply distances, images of meshes, arrows carried by a map) | such a map is a translation after an orthogonal map and a scaling; relational proof, function by function, that results for a mesh and its image correspond; the planar normal through the orthogonal map and the quarter turn; orientation through determinants; for the tessellated centres the tessellated sums are images scaled by the area, which is positive where one triangle of the face has an area |
| C107 | `M_Apply`, `M_Connections`, `M_Geom`, `M_GeomN`; `S_Renumber` (numberings, renumbered meshes, shuffled tables) | simulation: every lookup in the renumbered mesh is the renamed lookup, walks stop together because numberings are injective, tables are filled because they are onto; incidence is carried both ways by induction on chains |
| C108 | `M_LogPage` (script of the page); `S_LogPage` (blocks, selectors, sublists) | the loop of `filterData` is a fold over the blocks of calls; `back` finds the start of a block, `forth` its end |
| C109 | `S_Gradient` (centroid of a face); the tables of C45, C49, C44 | flux of the field through the edges or triangles = area or volume part + an antisymmetric side term, which cancels along the cycle and over the closed surface; the first moment of a planar face does not depend on the point it is cut around |
| C110 | `S_Lossless` (short numbers, sturdy and flat faces); the tables of C81, C80 and C102 | a six-digit number is printed exactly, so the copy differs by distance 0 in C102; the volume does not depend on the order of the edges of a flat face |
| C111 | `S_Rewrite` (oriented polygons, edges with the left cell on the left); the readers and writers of C24, C25, C81 | the writer starts a row with the first edge of the cell in the direction of its left cell, which the reader sets to the direction of the first row with that edge; a polygon is determined by its first two vertices; for the exact condition the left cell is the first of the cells with the edge and the text of the section determines the rows; settling: a row is turned only against an earlier polygon, so by induction the row of polygon c is final after c rewritings |
| C112 | the FPMA reader and writer of C19 - C22 on tokens; composition of the two, n times | the first edge of the mesh is made for the first side of the first polygon, in its direction; the writer starts a row with the second vertex of the first edge; a polygon is determined by its first two vertices; induction on the number of rewritings |
| C57 | `M_Traits` (constexprFor with size_t wrap-around, makeTraits, apply) | induction |
| C58 | `M_Traits` classSelector | induction on the list |
| C59 | `M_Traits` partName (8 character buffer) | all 1000 admitted dimensions by computation |

Not expressible in this model: whether C++ templates instantiate at all is expressed only where
overload or specialisation choice is the property (C50, C58, C66, C68, C69); floating point
rounding outside C87–C90, overflow and underflow; buffering and failures of the file system other than "cannot be opened"; data races as
such (C67 interleaves whole steps of the singleton, the rest of the library shares no state).

Properties whose full English wish is false of the code (C07, C23, C26, C31, C32, C35, C38–C40,
C43, C54, C55, C59–C62, C67) are stated as what does hold, followed by what fails; the failing part
is itself a theorem (named `_finding_`, `_keeps_`, `_ignored`, ...), universally quantified where
the failure is universal, otherwise an explicit counterexample history in an `Example`.

## Trusted base

* Coq 8.16.1 kernel (with its `vm_compute`) and the standard library; Flocq (definitions and proved
  lemmas, no axiom of its own) is imported in `T_Round.v` only, for the binary64 instance; no other library
  is imported, no axiom, functor, module type, plugin or changed flag; no `Admitted`.
* The reading of the C++ recorded in the comments of `M_*.v` (file:lines), including the stated
  simplifications, and the C++ semantics they assume (conversion, overload resolution, order of
  evaluation, `std::map`/`std::set`/stream behaviour).
* The specifications `S_*.v` together with the statements in `T_*.v`.
* `Print Assumptions` is run for every manifest theorem in its `T_*.v`. Result:
  * all theorems of C41–C49, C51, C52, C70–C78 and of any later geometry file (the ones about `R`):
    `ClassicalDedekindReals.sig_forall_dec`, `ClassicalDedekindReals.sig_not_dec`,
    `FunctionalExtensionality.functional_extensionality_dep` (axioms of the standard library's
    `Reals`), exactly these or a subset
    (the reader and topology theorems of C73 and C06 and C76_geometry_kept are closed);
  * C87–C90 are about `R` as well; their instance lemmas (binary64 precision, from Flocq) also list
    `Classical_Prop.classic` (standard library);
  * every other theorem: "Closed under the global context".

## What is modelled

Paths below `/repo/src/GTMesh`. "full" = every function with run-time (or selection) behaviour.

| code | model | not modelled |
|------|-------|--------------|
| `UnstructuredMesh/UnstructuredMeshDefine.h` | `M_Index` full | |
| `MeshElements/CellConnection.h`, `CellBoundaryConnection.h`, `MeshElement.h` | `M_Conn` | trivial get/set of index, vertex, centre, colour/flag (`ComputationalySignificantElement.h`) |
| `MeshElements/MeshElements.h` | `M_Mesh` (containers, setupBoundaryCells, clear), `M_Signature` (hash) | accessors, `reserve<dim>`, `ElementIndex.hpp` (a wrapper; its `operator IndexType()` is not const, so `getElement` const does not compile) |
| `MeshFunctions/MeshApply.h` | `M_Apply` full | |
| `MeshFunctions/MeshConnections.h`, `MeshNeighborhood.h` | `M_Connections` full | |
| `MeshFunctions/MeshColoring.h` | `M_Color` full; the random generator is an arbitrary stream | statistical quality |
| `MeshFunctions/ComputeCenters.h` | `M_Geom` (both methods, any dimension); rounding in C89 | overflow, underflow |
| `MeshFunctions/ComputeNormals.h`, `ComputeMeasures.h` | `M_Geom` (2D, 3D), `M_GeomN` (generic overloads) | `_ComputeMeasures<3,3,TESSELLATED>` (237–275), which nothing reaches |
| `MeshFunctions/GetCenters.h` | `M_GeomN`, `M_Geom` | the cell-level case and the wrapper (42–83) are folded into the callers' tables |
| `MeshFunctions/CellsDistance.h`, `ComputeCellsCenterDifference.h`, `EdgesOrientation.h` | `M_Geom` | |
| `NumericStaticArray/*` | `M_Vec` full; rounding in C87–C90 for the operations the geometry uses | `<<`/`>>` of vertices only as tokens |
| `MeshDataContainer/MeshDataContainer.h` | `M_Data` (allocation, lookup, access), `M_DataOps` (copy, move, programs) | deduction of constructor arguments |
| `MeshDataContainerTraits/*` | `M_Traits` (names of parts) | |
| `MeshDataIO/*` | `M_VTKData`, `M_DataText` | the `DataContainer` overloads, which call functions that do not exist |
| `MeshIO/MeshReader/*`, `MeshNativeType.h` | `M_FPMA`, `M_VTK`, `M_Text` (keys) | token lists; `M_Stream`/`M_FileText` refine them to characters (finite numbers, no negative zero, unbounded exponents) |
| `MeshIO/MeshWriter/*` | `M_FPMA`, `M_VTKWrite`, `M_Signature` (cache) | token lists with an arbitrary key function of centres; `M_FileText` refines them to characters and to the 6-decimal keys (C79–C86) |
| `UnstructuredMesh.h` | `M_Files`, `M_FilesI` (load, write), `M_Object` (centres, measures, normals) | one-line wrappers around the functions above |
| `BinarySerializer/**` | `M_Serial` over a universe of types, `M_Detect` (which class is chosen), `M_BoundSerial` (traits), `M_Compact` (classes declared compact) | user functions called with bound traits |
| `Traits/Traits.h`, `TraitsBind`, `TraitsAlgorithm`, `Utils/*` | `M_Traits`, `M_Macro` | |
| `Traits/MemberAccess/*`, `FunctionTraits.h` | `M_Access` | |
| `Traits/Interfaces/*`, `CustomTypeTraits.h` | `M_Detect` (what a type offers decides the serializer); for printers the classification is data of the universe in `M_Print` | the substitution of templates |
| `Debug/**` | `M_Print`, `M_Overload`, `M_Log`, `M_Macro`, `M_LogPage` (script of the page) | Windows branches, HTML tokenisation, `addFilter` and the browser |
| `Macros/MacroForEach.h` | `M_Macro` full | the preprocessor |
| `Singleton/Singleton.h` | `M_Singleton` | memory model |

## Simplifications that matter

* Real arithmetic is exact outside C87–C90. Division by zero in `R` gives the unspecified value of `/ 0`; theorems
  assume non-degenerate input where the code divides.
* A read of an uninitialised member (e.g. `lastHash` of two writers) is an arbitrary value given as
  a parameter (`h0`), not immediate undefined behaviour.
* Texts are lists of tokens (words, numbers, line ends); a token is read back as itself. For the mesh files C79–C81 remove this simplification.
* `std::map`, `std::set` are sorted lists, `std::unordered_*` association lists (they are only used for keyed lookup).

## Findings (all proved or visible in the model; line numbers as of the pinned commit)

1. `clear()` keeps boundary cells (MeshElements.h:137–160) — C07, C23.
2. FPMA reader does not clear the mesh — C23.
3. Readers construct an exception for unsupported types without `throw` — C26.
4. Writer caches: 3D VTK ignores changed cell types; signature blind to the order of edges of faces;
   a throwing write spoils the index; `lastHash` uninitialised in FPMA and 2D VTK writers — C32, C33, C63.
5. PYRAMID/WEDGE cells without a base face: null pointer dereference — C64.
6. Missing data column: zeros, then undefined behaviour — C31. Tensors and vectors whose size is
   not the mesh dimension are written but cannot be read. Integer vectors of 2D meshes are read back
   wrong from the second cell on; a member name with a blank is found under its first word only — C91.
7. `allocateData(mesh, v)` does not initialise existing slots — C35.
8. Serializer: no bounds check (C40), iterator invalidated by reallocation, `loadFromFile` keeps the
   read position (C38), reading into a non-empty map merges (C39), bool check unreachable (C36);
   pointers, string literals and everything else that converts to bool is written as one byte, a
   `std::list` cannot be read (C93); bound traits of members are ignored (C94).
9. `Vertex / int` multiplies by an integer reciprocal: zero vector — C43.
10. 2D normals ignore the cells (C44); in four and more dimensions the normal points towards the left
    cell, in 3D away from it — C70.
11. `computeMeasures<METHOD_TESSELLATED>` ignores the method in 3D — C49.
12. Centre difference changes sign when the left side is missing — C48.
13. `const - temporary` of traited classes returns nothing; `pow(number, object)` swaps — C51.
14. Random recolouring never releases the old colour and is undefined on an empty container — C17.
15. Loggers: JSON logger does not double backslashes in the first two characters, second `create`
    breaks the log (C54, C55); HTML names unescaped (C60); `DBGVAR_STDIO` swaps file and function,
    printf of unsigned appends `d` (C53, C56). A variable of type `std::tuple` is not written to JSON and
    HTML logs: `exportVariable(*logFile, tuple)` with a `std::ofstream` prefers the overload for
    (value, traits tuple) and dumps the memory of the stream to the standard output; `DBGCHECK_STDIO`
    prints `true`; string literals are printed as `true` by the printf version — C96. `inf` and `nan` are
    written as such: one NaN makes the whole JSON log unreadable — C97.
  * `operator[](integer_sequence)` of a data container with a tuple of types does not compile for the
    documented example (return type uses the position as a dimension) — C98; `allocateData(container)`
    without a value cannot be instantiated (not deducible pack; observed by reading only).
16. Part names of data containers wrong or overflowing for most dimensions — C59.
17. `load` looks for the extension anywhere in the path; `write` truncates the file before it knows
    the format; a path without a dot throws — C61, C62.
18. Singleton: overlapping first calls — C67.
19. Seen while reading, outside the model: `initializeCenters(centers)` does not compile; overloads
    of normals/measures with centres do not compile for dimensions 2 and 3; `allocateData(other)`
    without value has a non-deducible pack; tuple `operator[](integer_sequence)` wrong return type;
    free `abs()` for short/unsigned recurses forever; variadic `writeMessageC` passes swapped
    arguments; `CSVDBGLog` refers to a nonexistent logger; with `UNDEBUG` three STDIO macros are
    undefined; `DBGVARCOND` has a dangling else; stdio export of long ambiguous;
    `inlineScalarProduct<1>` returns double.
20. `swapCellsLR` leaves the successors of an edge with the wrong cells — C95.
21. Numbers in mesh files are not checked against the range of what they refer to: missing vertices, edges
    and faces are accepted by all readers, and `-1` is read as the invalid index — C103.
22. Faces that belong to more than two cells are accepted: FPMA files keep the first two cells, VTK files the
    first and the last; walks over the boundary of the others throw — C104.
23. Containers of classes declared compact are written with the padding of their objects: equal values give
    different files — C105.
24. The page of an HTML log: choosing a line without a selector shows nothing until a selector has been used
    (`apliedRule` is undefined), then the kind of that selector is used; a mixed choice can show a row twice — C108.

## Testing the theorems

`seeded/LOG.jsonl` records mutations of the model made in a scratch copy: after each edit the
development is rebuilt with every broken proof admitted, and `Print Assumptions` tells which
property theorems rest on a broken proof. Where a theorem survived an edit that breaks its claim it
was tightened (field `theorems_tightened`).

## Testing the model

`Ex_RepoTests.v`, `Ex_RepoTests2.v` and `Ex_RepoTests3.v` evaluate the model on the inputs of the project's own unit
tests (`/repo/tests`) and compare with the results the authors state there: sides, centres, measures, normals,
distances, connections, neighbours and colourings of the square, the two prisms and the 4D simplex; the 2D and 3D
VTK write/read tests with cell data (on characters, including the tessellated export); the texts of the variable
export and of the JSON logger; the serializer; MeshDataContainer; arithmetic on traited classes. Rationals with 18
decimals replace doubles in these computations. These are tests of the model, not proofs of properties; no theorem
of the manifest rests on them.
