{"id": "C01", "title": "Boundary index encoding is lossless and disjoint from plain indices", "statement": "For every unsigned index type of w bits and every plain index i (top bit clear): makeBoundaryIndex(i) is recognised by isBoundaryIndex, extractBoundaryIndex gives i back, plain indices are never recognised as boundary or invalid, two plain indices never share a boundary code, and the encoding is idempotent. The invalid index is the one value that is both invalid and a boundary index.", "quantifier": "all bit widths w >= 1 and all 2^w index values", "why_tests_cant": "2^64 values per type and every width; a test samples a handful", "anchors": ["src/GTMesh/UnstructuredMesh/UnstructuredMeshDefine.h:makeBoundaryIndex", "src/GTMesh/UnstructuredMesh/UnstructuredMeshDefine.h:extractBoundaryIndex", "src/GTMesh/UnstructuredMesh/UnstructuredMeshDefine.h:isBoundaryIndex", "src/GTMesh/UnstructuredMesh/UnstructuredMeshDefine.h:isInvalidIndex"]}
{"id": "C02", "title": "A face records at most two cells and never forgets one", "statement": "Starting from an unconnected face, after any sequence of setCellIndex calls the left cell is the first valid index offered, the right cell the second, a call returns false exactly when the index is invalid or both sides are taken, and no accepted cell is ever overwritten.", "quantifier": "all finite call sequences and all index values", "why_tests_cant": "the claim is about every history of calls", "anchors": ["src/GTMesh/UnstructuredMesh/MeshElements/CellConnection.h:setCellIndex", "src/GTMesh/UnstructuredMesh/MeshElements/CellConnection.h:cellsOK"]}
{"id": "C03", "title": "getOtherCellIndex crosses a face and comes back", "statement": "On every face, getOtherCellIndex(c) throws exactly when c is the invalid index or neither side is c; when both sides are set and differ it maps left to right and right to left, so crossing twice returns to c; swapCellsLR twice is the identity and does not change what getOtherCellIndex answers when the sides are distinct.", "quantifier": "all faces (all left/right values) and all query indices", "why_tests_cant": "universally quantified over index values including the invalid one and equal sides", "anchors": ["src/GTMesh/UnstructuredMesh/MeshElements/CellConnection.h:getOtherCellIndex", "src/GTMesh/UnstructuredMesh/MeshElements/CellConnection.h:swapCellsLR"]}
{"id": "C04", "title": "The per-cell successor stored in a face is the last one written", "statement": "After any sequence of setNextBElem(next, cell) calls on a fresh face, getNextBElem(c) returns the successor of the last accepted call for c, throws exactly when no call for c was accepted, calls for one cell never change the answer for another cell, and at most two distinct cells are ever accepted.", "quantifier": "all finite call sequences, all cells and successors", "why_tests_cant": "history-quantified invariant (three branches, order dependent claims of left/right)", "anchors": ["src/GTMesh/UnstructuredMesh/MeshElements/CellBoundaryConnection.h:setNextBElem", "src/GTMesh/UnstructuredMesh/MeshElements/CellBoundaryConnection.h:getNextBElem"]}
{"id": "C05", "title": "Reserved subelement storage behaves like a bounded list", "statement": "For a face/element with Reserve = r > 0, after any sequence of addSubelement calls the stored subelements are exactly the first r offered, in order, and a call throws exactly when r are already stored; with Reserve = 0 every call is accepted and order is preserved.", "quantifier": "all reserves r, all call sequences", "why_tests_cant": "all sizes and histories", "anchors": ["src/GTMesh/UnstructuredMesh/MeshElements/MeshElement.h:SubelementContainer::addSubelement"]}
{"id": "C06", "title": "setupBoundaryCells closes the mesh", "statement": "After setupBoundaryCells every face has a cell on both sides, no previously set side changed, there is exactly one boundary cell per previously missing side, the boundary cell points back at that face, the index stored on the face is the boundary-coded position of that boundary cell, and calling it again changes nothing. The sub-element lists, the boundary walks of the cells and the calls of MeshApply are the same before and after the call.", "quantifier": "all meshes (any number of faces, any pattern of missing sides)", "why_tests_cant": "unbounded mesh size; the 1-1 correspondence is a global invariant", "anchors": ["src/GTMesh/UnstructuredMesh/MeshElements/MeshElements.h:setupBoundaryCells", "src/GTMesh/UnstructuredMesh/MeshElements/MeshElements.h:appendBoundaryCell"]}
{"id": "C07", "title": "clear() empties the mesh, except for the boundary cells", "statement": "After clear() the mesh has no vertices, edges, faces, cells or intermediate elements and keeps its dimension, for every mesh. The boundary cells are left in place, whatever they are: the cleared mesh is an empty mesh exactly when there were none, so after clear, reload and setupBoundaryCells stale boundary cells remain (a user would rely on the contrary).", "quantifier": "all meshes", "why_tests_cant": "a claim about every previous state of the mesh object", "anchors": ["src/GTMesh/UnstructuredMesh/MeshElements/MeshElements.h:clear"]}
{"id": "C08", "title": "MeshApply visits exactly the incidence chains, in order", "statement": "On a mesh with well formed cell rings, MeshApply<Start,Target>::apply calls the function once for every chain start > ... > target of incidences (cell->face by the ring, element->subelement by the stored order, edge->vertex A then B), in lexicographic order, with (start,target) as arguments; it never calls it for a non-incident pair.", "quantifier": "all mesh dimensions, all Start > Target, all well formed meshes", "why_tests_cant": "recursion over dimensions and unbounded sizes", "anchors": ["src/GTMesh/UnstructuredMesh/MeshFunctions/MeshApply.h:MeshRun", "src/GTMesh/UnstructuredMesh/MeshFunctions/MeshApply.h:MeshApply::apply"]}
{"id": "C09", "title": "The cell boundary walk terminates exactly when the ring closes", "statement": "Walking a cell boundary by getNextBElem from getBoundaryElementIndex stops after visiting each face of the ring once when the successors form a cycle through the first face; if it does not stop within (number of faces) steps it never stops; the faces visited by a terminating walk are pairwise distinct.", "quantifier": "all meshes, well formed or not, all cells", "why_tests_cant": "termination is not testable", "anchors": ["src/GTMesh/UnstructuredMesh/MeshFunctions/MeshApply.h:MeshRun (cell level)", "src/GTMesh/UnstructuredMesh/MeshElements/CellBoundaryConnection.h:getNextBElem"]}
{"id": "C10", "title": "Ascending and descending MeshApply report the same pairs", "statement": "apply for Start < Target calls the function with the same pairs as apply for (Target, Start), each with its arguments exchanged, in the same order, so f is called with (start element, target element) in both directions.", "quantifier": "all meshes, all dimension pairs", "why_tests_cant": "relation between two unbounded traversals", "anchors": ["src/GTMesh/UnstructuredMesh/MeshFunctions/MeshApply.h:MeshRun", "src/GTMesh/UnstructuredMesh/MeshFunctions/MeshApply.h:MeshApply::apply"]}
{"id": "C11", "title": "connections<Start,Target> is exactly the incidence relation, sorted and duplicate free", "statement": "For Start > Target, MeshConnections gives for every element the strictly increasing list of exactly those target elements incident to it.", "quantifier": "all well formed meshes, all Start > Target", "why_tests_cant": "set equality over unbounded meshes", "anchors": ["src/GTMesh/UnstructuredMesh/MeshFunctions/MeshConnections.h:MeshConnections"]}
{"id": "C12", "title": "Connections up and down are transposes of each other", "statement": "For Start < Target, element t is listed among the connections of s iff s is listed among the connections<Target,Start> of t; every list is strictly increasing.", "quantifier": "all well formed meshes, all Start < Target", "why_tests_cant": "relation between two computed tables of unbounded size", "anchors": ["src/GTMesh/UnstructuredMesh/MeshFunctions/MeshConnections.h:MeshConnections"]}
{"id": "C13", "title": "Original-order connections are a permutation in first-visit order", "statement": "ORDER_ORIGINAL connections contain the same elements as the ascending ones, without duplicates, in the order in which the traversal first meets them.", "quantifier": "all well formed meshes, all dimension pairs", "why_tests_cant": "unbounded order property", "anchors": ["src/GTMesh/UnstructuredMesh/MeshFunctions/MeshConnections.h:MeshConnections<ORDER_ORIGINAL>"]}
{"id": "C14", "title": "neighborhood is exactly the shared-connecting-element relation", "statement": "MeshNeighborhood<Start,Connecting,Connected> lists for each start element exactly the connected-dimension elements that share a connecting element with it, excluding itself when Start = Connected, strictly increasing; with Start = Connected the relation is symmetric; the original-order variant has the same members.", "quantifier": "all well formed meshes and all dimension triples", "why_tests_cant": "relational claim over unbounded meshes", "anchors": ["src/GTMesh/UnstructuredMesh/MeshFunctions/MeshNeighborhood.h:MeshNeighborhood"]}
{"id": "C15", "title": "Greedy colouring is proper", "statement": "After ColorMesh greedy colouring no two distinct coloured elements incident to a common connecting element share a colour.", "quantifier": "all well formed meshes, any number of elements and colours", "why_tests_cant": "the colour table grows dynamically; unbounded", "anchors": ["src/GTMesh/UnstructuredMesh/MeshFunctions/MeshColoring.h:ColorMesh"]}
{"id": "C16", "title": "Greedy colouring gives each element the least colour free among earlier neighbours", "statement": "Every element gets the smallest colour not used by an already coloured element it shares a connecting element with, so the number of colours is at most 1 + the largest number of neighbours; growing the table (16, 32, ...) is unobservable.", "quantifier": "all well formed meshes", "why_tests_cant": "optimality/bound over all inputs, including those with more than 16 colours", "anchors": ["src/GTMesh/UnstructuredMesh/MeshFunctions/MeshColoring.h:ColorMesh"]}
{"id": "C17", "title": "Randomised colouring stays proper for every random sequence", "statement": "For every sequence the random generator may return, the randomised colouring is proper and uses only colours the greedy colouring used.", "quantifier": "all meshes and all random streams", "why_tests_cant": "quantifies over all RNG outcomes", "anchors": ["src/GTMesh/UnstructuredMesh/MeshFunctions/MeshColoring.h:ColorMesh<METHOD_RANDOM>"]}
{"id": "C18", "title": "Edge and face lookup keys identify edges and faces", "statement": "The textual keys the readers use to recognise an already created edge (smaller;larger vertex index) or face (sorted edge indices) coincide exactly for equal unordered vertex pairs, respectively equal edge multisets, for all indices.", "quantifier": "all index values and all lists of edges", "why_tests_cant": "injectivity of a decimal encoding over all integers", "anchors": ["src/GTMesh/UnstructuredMesh/MeshIO/MeshReader/FPMAMeshReader.h:loadFaces", "src/GTMesh/UnstructuredMesh/MeshIO/MeshReader/VTKMeshReader.h:loadCells"]}
{"id": "C19", "title": "FPMA reader: each face keeps its polygon and edges are shared", "statement": "After loading, face f has as many edges as the file lists vertices, edge k joins the k-th and (k+1)-th listed vertex (cyclically), and no two edges of the mesh join the same pair of vertices.", "quantifier": "all FPMA files", "why_tests_cant": "unbounded files", "anchors": ["src/GTMesh/UnstructuredMesh/MeshIO/MeshReader/FPMAMeshReader.h:loadFaces"]}
{"id": "C20", "title": "FPMA reader: the boundary walk of each loaded cell yields its faces in file order", "statement": "If each face is listed by at most two cells and no cell lists a face twice, then after loading, walking the boundary of cell c visits exactly the faces the file lists for c, in file order; the left cell of each face is the first cell that lists it and the right the second.", "quantifier": "all FPMA files meeting the manifold condition", "why_tests_cant": "ring structure invariant maintained over the whole load", "anchors": ["src/GTMesh/UnstructuredMesh/MeshIO/MeshReader/FPMAMeshReader.h:loadCells", "src/GTMesh/UnstructuredMesh/MeshElements/CellBoundaryConnection.h:setNextBElem"]}
{"id": "C21", "title": "FPMA writer: the vertex cycle written for a face is the face's polygon", "statement": "For every face whose edges form a simple closed polygon, in whatever order and orientation they are stored, the writer emits the vertices of that polygon once each, consecutive ones joined by edges of the face, starting with vertex B and then vertex A of the first edge.", "quantifier": "all faces: any number of edges, all edge orders and orientations", "why_tests_cant": "n! * 2^n storage orders per polygon", "anchors": ["src/GTMesh/UnstructuredMesh/MeshIO/MeshWriter/FPMAMeshWriter.h:indexFace"]}
{"id": "C22", "title": "FPMA write then read reproduces the mesh", "statement": "Writing a mesh whose faces are polygons with at least three vertices and reading the file into a fresh mesh gives the same vertices, for every face the same vertex polygon, and for every cell the same boundary face sequence.", "quantifier": "all meshes with closed faces and well formed rings", "why_tests_cant": "round trip over all inputs", "anchors": ["src/GTMesh/UnstructuredMesh/MeshIO/MeshWriter/FPMAMeshWriter.h:writeToStream", "src/GTMesh/UnstructuredMesh/MeshIO/MeshReader/FPMAMeshReader.h:loadFromStream"]}
{"id": "C23", "title": "VTK readers replace the mesh, the FPMA reader does not", "statement": "Loading a VTK file gives a result that depends only on the file, not on what the mesh contained before, except for boundary cells, which survive. The FPMA reader does not replace the content: every old edge survives, new edges are appended, and the result of loading a file into a used mesh can differ from loading it into a fresh one (a user would rely on the contrary).", "quantifier": "all files and all previous mesh contents", "why_tests_cant": "history dependence", "anchors": ["src/GTMesh/UnstructuredMesh/MeshIO/MeshReader/FPMAMeshReader.h:loadFromStream", "src/GTMesh/UnstructuredMesh/MeshIO/MeshReader/VTKMeshReader.h:loadFromStream"]}
{"id": "C24", "title": "VTK 2D reader: edges are shared, sides are set, cells are rings", "statement": "After loading a conforming 2D file (each edge used by at most two cells, no edge twice in a cell) every cell's boundary walk yields its polygon's edges in file order, no two edges join the same vertices, the first cell using an edge is its left cell and the second its right cell.", "quantifier": "all conforming files", "why_tests_cant": "unbounded files", "anchors": ["src/GTMesh/UnstructuredMesh/MeshIO/MeshReader/VTKMeshReader.h:VTKMeshReader<2>::loadCells"]}
{"id": "C25", "title": "VTK 2D write then read reproduces the mesh", "statement": "The vertex polygon the 2D writer emits for a cell is the closed vertex chain of its edge ring; reading the written file gives cells with the same polygons.", "quantifier": "all conforming 2D meshes", "why_tests_cant": "round trip over all inputs", "anchors": ["src/GTMesh/UnstructuredMesh/MeshIO/MeshWriter/VTKMeshWriter.h:VTKMeshWriter<2>::indexCell", "src/GTMesh/UnstructuredMesh/MeshIO/MeshReader/VTKMeshReader.h:VTKMeshReader<2>::loadCells"]}
{"id": "C26", "title": "VTK cell type codes: supported ones are read exactly, unsupported ones silently keep the old type", "statement": "For every conforming file, in two and three dimensions, the reader reports one type per cell: for every supported VTK code exactly the type the code means; for an unsupported code no exception is thrown (it is constructed, not thrown) and the cell keeps the type this reader object had at that position before, or the default one (a user would rely on an error).", "quantifier": "all type codes", "why_tests_cant": "total case analysis over codes rather than samples", "anchors": ["src/GTMesh/UnstructuredMesh/MeshIO/MeshReader/VTKMeshReader.h:loadCellTypes", "src/GTMesh/UnstructuredMesh/MeshIO/MeshWriter/VTKMeshWriter.h:writeToStream"]}
{"id": "C27", "title": "VTK 3D reader: the shape tables describe closed polyhedra", "statement": "For tetrahedra, hexahedra, wedges and pyramids with pairwise distinct vertices, the faces created for a cell are closed: every edge of the cell belongs to exactly two of its faces and every face is a closed polygon; face and edge tables are consistent with each other.", "quantifier": "all vertex labelings", "why_tests_cant": "all labelings of all shapes", "anchors": ["src/GTMesh/UnstructuredMesh/MeshIO/MeshReader/VTKMeshReader.h:TypeEdgesFaces"]}
{"id": "C28", "title": "VTK 3D reader: shared faces are created once, with both cells attached", "statement": "Two cells that contain the same face (same edge set) refer to one face object whose two sides are the two cells; every cell's boundary walk yields its faces in table order.", "quantifier": "all conforming 3D files", "why_tests_cant": "unbounded files", "anchors": ["src/GTMesh/UnstructuredMesh/MeshIO/MeshReader/VTKMeshReader.h:VTKMeshReader<3>::loadCells"]}
{"id": "C29", "title": "VTK 3D writer tessellation and backward map", "statement": "Cells of a non-native type are replaced by one tetrahedron per (face, edge) incidence; the backward map sends each emitted tetrahedron to the cell it came from and natively written cells are not in the map; the emitted cell count equals the sum over cells.", "quantifier": "all meshes and type assignments", "why_tests_cant": "unbounded", "anchors": ["src/GTMesh/UnstructuredMesh/MeshIO/MeshWriter/VTKMeshWriter.h:VTKMeshWriter<3>::indexMesh"]}
{"id": "C30", "title": "Cell data columns match the written cells", "statement": "For every backward map produced by the mesh writer, each data column has one value per emitted VTK cell and the k-th value is the value of the mesh cell the k-th VTK cell came from.", "quantifier": "all backward maps a writer can produce, all data", "why_tests_cant": "cursor arithmetic over unbounded interleavings of native and tessellated cells", "anchors": ["src/GTMesh/UnstructuredMesh/MeshDataContainer/MeshDataIO/VTKMeshDataWriter.h:writeColumn"]}
{"id": "C31", "title": "Cell data write then read", "statement": "For every text of a mesh followed by columns with pairwise distinct one-word names, reading any selection of the columns in any order returns the written values in order (3D: expanded to the emitted cells; a vector column is readable if its length is the mesh dimension). For a name that is not in the file, nothing is reported: the column is all zeros and, the stream having failed, reading any further column is undefined behaviour (a user would rely on an error).", "quantifier": "all column names and values", "why_tests_cant": "round trip and failure branch over all inputs", "anchors": ["src/GTMesh/UnstructuredMesh/MeshDataContainer/MeshDataIO/VTKMeshDataReader.h:indexData", "src/GTMesh/UnstructuredMesh/MeshDataContainer/MeshDataIO/VTKMeshDataReader.h:readColumn"]}
{"id": "C32", "title": "When the text of a writer object depends only on the mesh", "statement": "For every history of writes with one writer object and every hash function: the text is that of a fresh writer provided the meshes written before with the same signature have the same elements (for 3D VTK: also the same types), none of the earlier writes threw, and the signature of the first mesh differs from the initial value of the cached hash. Without these conditions the text can be that of another mesh: the 3D VTK writer ignores changed cell types always, and for every hash function there are meshes with equal signatures and different texts, and a throwing write spoils the index (a user would rely on the text depending on the mesh and types only).", "quantifier": "all pairs of consecutive write calls", "why_tests_cant": "history dependence and hash collisions for every hash function", "anchors": ["src/GTMesh/UnstructuredMesh/MeshIO/MeshWriter/FPMAMeshWriter.h:writeToStream", "src/GTMesh/UnstructuredMesh/MeshIO/MeshWriter/VTKMeshWriter.h:writeToStream", "src/GTMesh/UnstructuredMesh/MeshElements/MeshElements.h:computeSignature"]}
{"id": "C33", "title": "What the mesh signature determines", "statement": "The signature depends only on the content of the mesh. Two 2D meshes have equal signatures for every hash function exactly if they have the same vertices, faces and cells; two 3D meshes exactly if they have the same vertices, edges and cells, equally many faces and every edge occurs in the faces an even number of times in both or odd in both. So the order of the edges of a face, and even which face an edge belongs to, never influence the 3D signature, whatever the hash function.", "quantifier": "all meshes, all hash functions", "why_tests_cant": "quantifies over hash functions", "anchors": ["src/GTMesh/UnstructuredMesh/MeshElements/MeshElements.h:MeshElementsHash"]}
{"id": "C34", "title": "MeshDataContainer allocates one slot per element of each mapped dimension", "statement": "After construction/allocateData the container of each mapped dimension has exactly as many entries as the mesh has elements of that dimension, each reachable by the element index, and lookup by dimension finds the first container mapped to it.", "quantifier": "all meshes and all dimension lists", "why_tests_cant": "template-level recursion over all dimension lists", "anchors": ["src/GTMesh/UnstructuredMesh/MeshDataContainer/MeshDataContainer.h:allocateMemory", "src/GTMesh/UnstructuredMesh/MeshDataContainer/MeshDataContainer.h:getDataByDim", "src/GTMesh/UnstructuredMesh/MeshDataContainer/MeshDataContainer.h:DimIndex"]}
{"id": "C35", "title": "Allocation with an initial value", "statement": "allocateData(mesh, v) on an empty container fills every slot with v; on a container already holding data only the newly added slots are set (the documented 'initializes the value' does not hold for reallocation).", "quantifier": "all meshes, values and previous contents", "why_tests_cant": "history dependence", "anchors": ["src/GTMesh/UnstructuredMesh/MeshDataContainer/MeshDataContainer.h:allocateMemory"]}
{"id": "C36", "title": "Scalars survive binary serialization", "statement": "For every integer width and every value, and for bool, write then read returns the value and consumes exactly the bytes written. The overload that checks the byte of a bool is never selected: a byte other than 0 and 1 raises no exception, the bool object is then invalid (undefined behaviour).", "quantifier": "all widths and values", "why_tests_cant": "2^64 values", "anchors": ["src/GTMesh/BinarySerializer/Serializers/SerializeSimple.h", "src/GTMesh/BinarySerializer/BinarySerializer.h:write", "src/GTMesh/BinarySerializer/BinarySerializer.h:read"]}
{"id": "C37", "title": "Composite values survive binary serialization", "statement": "For every nesting of pairs, tuples, sequences, strings, sets, maps and traited classes, reading into a freshly constructed object of the type returns an equal value and consumes exactly the bytes written.", "quantifier": "all types built from these constructors and all values", "why_tests_cant": "induction over types and values", "anchors": ["src/GTMesh/BinarySerializer/Serializers/SerializeIterable.h", "src/GTMesh/BinarySerializer/Serializers/SerializeTuple.h", "src/GTMesh/BinarySerializer/Serializers/SerializeTraitedClass.h", "src/GTMesh/BinarySerializer/Serializers/SerializeCompactContainer.h", "src/GTMesh/BinarySerializer/Serializers/SerializeIndexable.h"]}
{"id": "C38", "title": "The serializer is a FIFO of values", "statement": "After writing any list of values, reading the same types in order returns them in order; when all bytes are consumed the next read starts again from the beginning; data survive saveToFile/loadFromFile. Writes and reads may be interleaved as long as the storage is not reallocated after the first read; a reallocation makes the next read undefined behaviour. loadFromFile keeps the old read position.", "quantifier": "all sequences of values of all types", "why_tests_cant": "unbounded histories", "anchors": ["src/GTMesh/BinarySerializer/BinarySerializer.h:readNext", "src/GTMesh/BinarySerializer/BinarySerializer.h:resetIteratorIfNotValid"]}
{"id": "C39", "title": "Reading into a non-empty associative container merges, the old entries win", "statement": "Deserializing a map or set into a container that already has entries gives the union, and where both have a key the old entry wins; so the written value is returned exactly for targets without other entries (a user would rely on getting the written value).", "quantifier": "all targets and all written maps", "why_tests_cant": "state of the target is unbounded", "anchors": ["src/GTMesh/BinarySerializer/Serializers/SerializeIterable.h:DeserializeAsociativeMap"]}
{"id": "C40", "title": "Reading past the end is undefined behaviour", "statement": "For every type (without serialization functions of the user) and value: reading from a proper prefix of the bytes written is undefined behaviour (reads beyond the buffer) and never an exception; for scalars this happens exactly when fewer bytes remain than the type needs; reading a scalar from an empty serializer is undefined behaviour (a user would rely on an error).", "quantifier": "all byte buffers and types", "why_tests_cant": "quantifies over all truncated inputs", "anchors": ["src/GTMesh/BinarySerializer/BinarySerializer.h:readNext"]}
{"id": "C41", "title": "Gram-Schmidt orthogonalises", "statement": "For linearly independent input vectors (no zero intermediate vector) the results are pairwise orthogonal, span-equivalent (each result is the input minus a combination of earlier results), and in the normalised version have unit norm and the reported norms.", "quantifier": "all dimensions, all numbers of vectors, all real vectors", "why_tests_cant": "real-valued inputs", "anchors": ["src/GTMesh/NumericStaticArray/GramSchmidt.h:gramSchmidt"]}
{"id": "C42", "title": "Vector algebra laws", "statement": "Vector addition, subtraction, scaling, scalar product and cross product satisfy their algebraic laws (commutativity, bilinearity, anticommutativity, orthogonality, Lagrange identity); initializer lists shorter than the dimension are padded with zeros.", "quantifier": "all vectors of all dimensions", "why_tests_cant": "real-valued inputs", "anchors": ["src/GTMesh/NumericStaticArray/Vertex.h", "src/GTMesh/NumericStaticArray/Vector.h:vectorProduct"]}
{"id": "C43", "title": "Dividing a vector by an integer scalar", "statement": "v / s is v scaled by 1/s for real s; for an integer s the code computes the reciprocal in integer arithmetic, so v / s is the zero vector for |s| > 1.", "quantifier": "all vectors and scalars", "why_tests_cant": "all scalar values of both types", "anchors": ["src/GTMesh/NumericStaticArray/Vertex.h:operator/"]}
{"id": "C44", "title": "Face normals are unit and orthogonal to the face; in 3D they point out of the left cell", "statement": "In 2D the normal of a non-degenerate edge is a unit vector orthogonal to the edge, on the right of the direction from its first to its second vertex, whatever the cells at its sides; in 3D the normal of a non-degenerate planar face is unit, orthogonal to the face, and points away from the left cell's centre (towards the right cell's when there is no left cell). METHOD_TESSELLATED gives the area-weighted mean of the triangle normals, equal to the default one for planar faces.", "quantifier": "all real coordinates", "why_tests_cant": "real-valued inputs", "anchors": ["src/GTMesh/UnstructuredMesh/MeshFunctions/ComputeNormals.h"]}
{"id": "C45", "title": "2D cell measure equals the polygon area", "statement": "The measure computed for a 2D cell is the sum over its edges of the areas of the triangles (edge, centre); it is never less than the shoelace area of the polygon formed by the edges (in any order and direction) and equal to it whenever all those triangles have the same orientation.", "quantifier": "all polygons and centres", "why_tests_cant": "real-valued inputs, unbounded polygons", "anchors": ["src/GTMesh/UnstructuredMesh/MeshFunctions/ComputeMeasures.h:_ComputeMeasures<2,2>"]}
{"id": "C46", "title": "Element centres are means and commute with translation", "statement": "Edge centres are midpoints; the centre of a higher element is the mean of the centres of its subelements; translating all vertices translates all centres; each centre lies in the coordinate bounding box of the vertices.", "quantifier": "all meshes and real coordinates", "why_tests_cant": "real-valued inputs, unbounded meshes", "anchors": ["src/GTMesh/UnstructuredMesh/MeshFunctions/ComputeCenters.h"]}
{"id": "C47", "title": "Edge orientation in 3D is the sign of a triple product", "statement": "edgeIsLeft for an edge, face normal and face centre is true exactly when the oriented triple product (A-C) x (B-C) . N is positive, so reversing the edge reverses the answer for non-degenerate input; in 2D it is the sign of the cross product; edgesOrientation tells for each edge of each planar face whether it runs counterclockwise around the face centre seen from outside the left cell.", "quantifier": "all real coordinates", "why_tests_cant": "real-valued inputs", "anchors": ["src/GTMesh/UnstructuredMesh/MeshFunctions/EdgesOrientation.h:edgeIsLeft"]}
{"id": "C48", "title": "Cells distance and centre difference across boundary faces", "statement": "For every face the cells distance is the distance of the points of its two sides: the cell centre, or for a missing side the face centre (no boundary cells) or the boundary cell centre; the centre difference is right point minus left point, except that it is the opposite when there are no boundary cells and the left side is the missing one; a missing side in a mesh with boundary cells makes both functions throw.", "quantifier": "all faces and centres", "why_tests_cant": "real-valued inputs, all side patterns", "anchors": ["src/GTMesh/UnstructuredMesh/MeshFunctions/CellsDistance.h", "src/GTMesh/UnstructuredMesh/MeshFunctions/ComputeCellsCenterDifference.h"]}
{"id": "C49", "title": "3D cell measure is the sum of pyramid volumes and the volume of the polyhedron", "statement": "The measure computed for a 3D cell is the sum over its faces of (distance of the cell centre from the plane of the face's first edge and centre) * (face measure) / 3, the face measure being the sum of the triangle areas (face centre, edge). For a cell with planar faces forming a closed surface it is never less than the volume of the polyhedron and equal to it when it is star-shaped around the centres used; for a tetrahedron it is |det|/6 wherever inside it the centres are.", "quantifier": "all meshes, coordinates and centres", "why_tests_cant": "real-valued inputs", "anchors": ["src/GTMesh/UnstructuredMesh/MeshFunctions/ComputeMeasures.h:_ComputeMeasures<3,3>"]}
{"id": "C50", "title": "Traits selection picks the first matching user traits, otherwise the default", "statement": "Binding traits to an object selects for class C the first traits in the tuple whose class is C, and the default traits of C when there is none (without any, the selection reports invalid); it never selects traits of another class.", "quantifier": "all tuples of traits", "why_tests_cant": "all tuple lengths and orders", "anchors": ["src/GTMesh/Traits/TraitsBind/TraitsBind.h:SelectTraits"]}
{"id": "C51", "title": "Arithmetic on traited classes is memberwise", "statement": "operators +, -, elementwise *, * and / by a number, unary minus and the compound assignments act on every traited member (recursively on nested classes and Vertex coordinates) exactly once, whichever operands are temporaries (except const - temporary, which returns nothing: undefined behaviour); compound assignments leave the other members of the object alone (members of nested classes that are not traited are lost); so the vector space laws of the members carry over. pow(number, object) computes the powers of the members.", "quantifier": "all traited class shapes and values", "why_tests_cant": "recursion over all class shapes", "anchors": ["src/GTMesh/Traits/TraitsAlgorithm/TraitsAlgorithm.h"]}
{"id": "C52", "title": "max, min and sum aggregate all leaves", "statement": "max/min/sum of a traited value is the maximum/minimum/sum over all its leaves, each counted once, provided no contained array is empty; an empty array counts as 0.0 (so the result can exceed every leaf).", "quantifier": "all shapes and values", "why_tests_cant": "recursion over all shapes", "anchors": ["src/GTMesh/Traits/TraitsAlgorithm/TraitsAlgorithm.h:TraitsAggregationProcesor"]}
{"id": "C53", "title": "Exported text is faithful", "statement": "Every variable built from integers, floating point numbers, bools, texts, sequences, pairs, tuples and objects with traits is exported to a stream; two variables of the same type (texts without the quotation mark) have the same text exactly if they agree in all exported parts (floating point numbers in six significant digits), and the text is readable in front of anything that does not begin with a character of numbers, inf or nan. When the texts and member names stand for themselves in JSON and the variable has a JSON value, the text is JSON for that value. The printf version writes the same text unless an unsigned int (written with 'd' appended), a long or a text with character 0 is involved.", "quantifier": "all types and values", "why_tests_cant": "injectivity over all values", "anchors": ["src/GTMesh/Debug/Printers/PrintIterable.h", "src/GTMesh/Debug/Printers/PrintTuple.h", "src/GTMesh/Debug/Printers/PrintTraitedClass.h"]}
{"id": "C54", "title": "The JSON log is a well formed sequence of records", "statement": "After any non-empty sequence of writeVar calls (with or without place in the source) followed by destruction, the file is one JSON object whose logs array has one record per variable in order, the records of a macro call carrying the number of macro calls before it; values must be exported as JSON, names printable. No other file is touched, without calls no file is created. (A second create() leaves the first file incomplete; use after destroy() is undefined.)", "quantifier": "all call sequences", "why_tests_cant": "history-quantified", "anchors": ["src/GTMesh/Debug/JSONLogger.h:writeVar", "src/GTMesh/Debug/JSONLogger.h:destroy"]}
{"id": "C55", "title": "Backslashes in file names are escaped", "statement": "In the HTML log each backslash of the source file name is doubled and nothing else changed. In the JSON log this holds from the third character on: all backslashes are doubled exactly if none of the first two characters is one. Names can be recovered.", "quantifier": "all file names", "why_tests_cant": "all strings", "anchors": ["src/GTMesh/Debug/JSONLogger.h:doubleBackSlash", "src/GTMesh/Debug/HTMLLogger.h:writeVar"]}
{"id": "C56", "title": "Console logger: file name, settings, colours, lines", "statement": "With setOnlyFliename(true) the file name printed is the part after the last slash, otherwise the full name. A setting holds until it is set again or reset; reset() restores the initial settings except the indentation. Colours only insert colour codes: without them the output is that of the uncoloured logger. One line per variable, one more for the place if aggregated; every message carries its place. (DBGVAR_STDIO exchanges file and function.)", "quantifier": "all paths and configurations", "why_tests_cant": "all strings, all configuration histories", "anchors": ["src/GTMesh/Debug/ConsoleLogger.h:getFileName", "src/GTMesh/Debug/ConsoleLogger.h:reset", "src/GTMesh/Debug/ConsoleLogger.h:writeVariable", "src/GTMesh/Debug/Debug.h:DBGVAR_STDIO"]}
{"id": "C57", "title": "Compile-time loops run each index once, in order", "statement": "constexprFor<F, start, stop, step> executes F for start, start+step, ... while < stop, once each, in this order, for start < stop and step > 0 (and downwards for negative steps), and nothing for start = stop; without room for one more step below 2^64 the instantiation never ends. Members of a traited class are visited exactly once each in declaration order.", "quantifier": "all bounds and steps", "why_tests_cant": "all bounds", "anchors": ["src/GTMesh/Utils/ConstexprFor.h", "src/GTMesh/Traits/Traits.h:apply"]}
{"id": "C58", "title": "Selection of a printer or serializer", "statement": "From a non-empty list of candidate classes the first one satisfying the condition is selected; when none satisfies it, the last one is, unconditionally.", "quantifier": "all lists and conditions", "why_tests_cant": "all list lengths and conditions", "anchors": ["src/GTMesh/Utils/ClassSelector.h:ClassSelector", "src/GTMesh/Debug/VariableExport.h", "src/GTMesh/BinarySerializer/BinarySerializer.h:SelectSerializer"]}
{"id": "C59", "title": "Names of the parts of a data container", "statement": "The traits of a MeshDataContainer name the part of dimension N 'dim N' exactly when N has at most two digits, none of them 0; so vertices get 'dim ', dimensions 1 and 10 the same name, and three nonzero digits overflow the name buffer.", "quantifier": "all dimensions below 1000", "why_tests_cant": "all dimensions", "anchors": ["src/GTMesh/UnstructuredMesh/MeshDataContainer/MeshDataContainerTraits/MeshDataContainerTraits.h:nameContainer"]}
{"id": "C60", "title": "The HTML log is a script with one row per variable", "statement": "After any non-empty sequence of calls followed by destruction the HTML log consists of the fixed beginning, one row of a JavaScript array per variable in order (number of the call, line, file, name, value) and the fixed end, and no other file is touched; for names without ', backslash and line end, files without ' and line end, and values exported as JSON. (Names are not escaped: one with ' is written wrongly.)", "quantifier": "all call sequences", "why_tests_cant": "history-quantified", "anchors": ["src/GTMesh/Debug/HTMLLogger.h:writeVar", "src/GTMesh/Debug/HTMLLogger.h:destroy"]}
{"id": "C61", "title": "load chooses the reader by the path", "statement": "Loading a mesh from a path: a file that cannot be opened gives an exception; a path containing .vtk (.fpma in three dimensions) and not the other is read by the reader of that format and this reader is returned; any other path leaves the mesh unchanged and returns no reader, without an error. (A path containing both, like data.vtk/m.fpma, is read by both readers one after the other.)", "quantifier": "all paths, file systems, meshes and readers", "why_tests_cant": "all paths", "anchors": ["src/GTMesh/UnstructuredMesh/UnstructuredMesh.h:load"]}
{"id": "C62", "title": "write chooses the writer by the extension and touches no other file", "statement": "Writing a mesh to a path changes no other file; a path ending in .vtk (.fpma in three dimensions) then holds exactly the text of the writer of that format (the given writer if it fits, else a new one, which replaces it), with polyhedra (polygons) when no cell types are given; a path that cannot be opened gives an exception and changes nothing. (An unknown extension is silently ignored, and with a given writer the file is emptied and the writer lost; a path without a dot throws after emptying.)", "quantifier": "all paths, file systems, meshes, writers and histories of writers", "why_tests_cant": "all paths and writer histories", "anchors": ["src/GTMesh/UnstructuredMesh/UnstructuredMesh.h:write", "src/GTMesh/UnstructuredMesh/UnstructuredMesh.h:checkExtension"]}
{"id": "C63", "title": "A mesh written to a file is loaded back", "statement": "Writing a well-formed mesh to a file and loading this path into an empty mesh gives the same mesh: vertices, number of elements, the faces around each cell and the polygon of each face (FPMA in three dimensions), or vertices, cells with the same polygons and the cell types (VTK in two dimensions).", "quantifier": "all meshes, paths and file systems", "why_tests_cant": "all meshes", "anchors": ["src/GTMesh/UnstructuredMesh/UnstructuredMesh.h:load", "src/GTMesh/UnstructuredMesh/UnstructuredMesh.h:write"]}
{"id": "C64", "title": "Tetrahedra, pyramids, wedges and hexahedra are written to VTK as such", "statement": "The 3D VTK writer emits a cell that is declared TETRA, PYRAMID, WEDGE or HEXAHEDRON and whose faces are those of such a solid as one cell of this type whose vertices are those of the cell, in an order for which VTK's faces of the cell are exactly the mesh cell's faces, whatever the order and direction in which the mesh stores faces and edges; no vertices are added for it. (A cell declared PYRAMID without a quadrilateral or WEDGE without a triangle dereferences a null pointer.)", "quantifier": "all well-formed 3D meshes, cells, cell types and face orientations", "why_tests_cant": "all meshes and storage orders", "anchors": ["src/GTMesh/UnstructuredMesh/MeshIO/MeshWriter/VTKMeshWriter.h:indexMesh", "src/GTMesh/UnstructuredMesh/MeshIO/MeshWriter/VTKMeshWriter.h:indexPyramid", "src/GTMesh/UnstructuredMesh/MeshIO/MeshWriter/VTKMeshWriter.h:indexLinearObject", "src/GTMesh/UnstructuredMesh/MeshIO/MeshWriter/VTKMeshWriter.h:indexFace"]}
{"id": "C65", "title": "A 3D mesh of VTK solids written to VTK is read back", "statement": "Writing a well-formed mesh of tetrahedra, pyramids, wedges and hexahedra without coincident faces to VTK and reading the text (or the file) into an empty mesh gives the same vertices, the same number of cells and cell types, and faces in one-to-one correspondence with the same vertex cycles, every cell being bounded by the images of its faces; the result is well-formed, without duplicate edges or faces.", "quantifier": "all such meshes, headers, paths and file systems", "why_tests_cant": "all meshes", "anchors": ["src/GTMesh/UnstructuredMesh/MeshIO/MeshWriter/VTKMeshWriter.h:writeToStream", "src/GTMesh/UnstructuredMesh/MeshIO/MeshReader/VTKMeshReader.h:loadFromStream", "src/GTMesh/UnstructuredMesh/UnstructuredMesh.h:load", "src/GTMesh/UnstructuredMesh/UnstructuredMesh.h:write"]}
{"id": "C66", "title": "The trait and debug macros process every argument once, in order, or are rejected", "statement": "FOR_EACH applies the macro to each of up to 40 arguments, the pairwise macros to each of up to 20 pairs, in order; with more arguments (or an odd number for the pairwise ones) the program is rejected, never silently truncated. DBGVAR passes the text and value of each variable in order, and MAKE_ATTRIBUTE_TRAIT / MAKE_NAMED_ATTRIBUTE_TRAIT define traits with exactly the given attributes, names and types in order, for up to 20 attributes. (FOR_EACH_ODD rejects an even number of arguments; no argument counts as one empty argument.)", "quantifier": "all argument lists, macros applied, classes and attributes", "why_tests_cant": "all argument counts and contents", "anchors": ["src/GTMesh/Macros/MacroForEach.h:FOR_EACH", "src/GTMesh/Macros/MacroForEach.h:FOR_EACH_2ARGS", "src/GTMesh/Traits/Traits.h:MAKE_ATTRIBUTE_TRAIT", "src/GTMesh/Traits/Traits.h:MAKE_NAMED_ATTRIBUTE_TRAIT", "src/GTMesh/Debug/Debug.h:STRVAR", "src/GTMesh/Debug/Debug.h:DBGVAR"]}
{"id": "C67", "title": "The singleton gives everybody the same object", "statement": "All calls of Singleton<Class>::getInstance that do not overlap with the first successful one return the same object, constructed once and never destroyed while the program runs, in every interleaving of the later calls; a constructor that throws is simply retried by the next call. (Two overlapping first calls may construct two objects and leave one caller with a destroyed one: there is no synchronisation.)", "quantifier": "all schedules of calls by any number of threads", "why_tests_cant": "all interleavings", "anchors": ["src/GTMesh/Singleton/Singleton.h:getInstance"]}
{"id": "C68", "title": "Access through traits does what the member, getter or setter does", "statement": "Traits::getValue gives what the data member or the getter gives, setValue has the effect of the assignment or of the setter, getAttr refers to the member, in the same way for objects and pointers, const getters leaving the object unchanged; so reading after writing through traits returns the value written whenever the user's getter and setter agree. Which combinations compile is determined by the constness and the form in which functions take the object.", "quantifier": "all classes, attributes, getters, setters, forms of functions and of objects", "why_tests_cant": "all combinations and functions", "anchors": ["src/GTMesh/Traits/MemberAccess/MemberAccess.h:MemberAccess", "src/GTMesh/Traits/MemberAccess/GetSetAccess.h:GetAccess", "src/GTMesh/Traits/MemberAccess/GetSetAccess.h:SetAccess", "src/GTMesh/Traits/Traits.h:getValue", "src/GTMesh/Traits/Traits.h:setValue", "src/GTMesh/Traits/Traits.h:getAttr"]}
{"id": "C69", "title": "get<i, j, ...> refers to the nested attribute and to nothing else", "statement": "get<Indices...>(object) compiles exactly when the indices lead through the traits of the classes to an attribute, returns a reference to this attribute, and assigning to it changes this attribute only.", "quantifier": "all traited classes, nesting depths, index sequences and values", "why_tests_cant": "all nestings", "anchors": ["src/GTMesh/Traits/Traits.h:TraitedAttributeGetter", "src/GTMesh/Traits/Traits.h:get"]}
{"id": "C70", "title": "Face normals in spaces of any dimension", "statement": "For a mesh of any dimension (in C++: four and more) and centre tables of the right shape, computeFaceNormals(centers, mesh) succeeds; for a face whose points (its centre, the centre of its first boundary element, ..., the two ends of an edge) together with the centre of the deciding cell are in general position, the normal has length one, is orthogonal to the flat through these points and points towards the left cell (away from the right cell when there is no left one) - the opposite of the planar and spatial versions. For simplices with the centres of computeCenters it is orthogonal to the face and points to the remaining vertex.", "quantifier": "all dimensions, meshes, coordinates and centre tables", "why_tests_cant": "all dimensions and real coordinates", "anchors": ["src/GTMesh/UnstructuredMesh/MeshFunctions/ComputeNormals.h:_ComputeNormals", "src/GTMesh/UnstructuredMesh/MeshFunctions/ComputeNormals.h:computeFaceNormals", "src/GTMesh/UnstructuredMesh/MeshFunctions/GetCenters.h:getCenters"]}
{"id": "C71", "title": "Measures in spaces of any dimension", "statement": "computeMeasures(centers, mesh) gives one value per element: an edge its length, an element of dimension k the sum over its boundary elements of (distance of its centre from the flat of the boundary element) * (measure of the boundary element) / k.", "quantifier": "all dimensions, meshes, coordinates and centre tables", "why_tests_cant": "all dimensions and real coordinates", "anchors": ["src/GTMesh/UnstructuredMesh/MeshFunctions/ComputeMeasures.h:_ComputeMeasures", "src/GTMesh/UnstructuredMesh/MeshFunctions/ComputeMeasures.h:computeMeasures", "src/GTMesh/UnstructuredMesh/MeshFunctions/GetCenters.h:getCenters"]}
{"id": "C72", "title": "The measure of a simplex is its volume", "statement": "For an element that is a simplex with vertices in general position, computeCenters gives the mean of the vertices and computeMeasures (with these centres) gives exactly the volume of the simplex (base times height over dimension), which is positive and does not depend on the numbering of the vertices and boundary elements.", "quantifier": "all dimensions, meshes, simplices and numberings", "why_tests_cant": "all dimensions, real coordinates and numberings", "anchors": ["src/GTMesh/UnstructuredMesh/MeshFunctions/ComputeMeasures.h:computeMeasures", "src/GTMesh/UnstructuredMesh/MeshFunctions/ComputeCenters.h:computeCenters"]}
{"id": "C73", "title": "Conservation: interior face fluxes cancel", "statement": "For every mesh whose faces and cell boundary walks agree, looping over the cells and their faces with MeshApply and adding a flux with the sign of the side on which the cell lies (left +, right -) gives exactly the sum over the faces with a cell on one side only; every visited face names the visiting cell as left or right. Meshes produced by the FPMA reader, the planar and the spatial VTK reader satisfy the assumption, and setupBoundaryCells keeps it and the signs.", "quantifier": "all dimensions, meshes and face fluxes; all files the readers accept", "why_tests_cant": "all meshes, all flux functions", "anchors": ["src/GTMesh/UnstructuredMesh/MeshFunctions/MeshApply.h:MeshApply", "src/GTMesh/UnstructuredMesh/MeshElements/MeshElements.h:setupBoundaryCells", "src/GTMesh/UnstructuredMesh/MeshIO/MeshReader/FPMAMeshReader.h:FPMAMeshReader", "src/GTMesh/UnstructuredMesh/MeshIO/MeshReader/VTKMeshReader.h:VTKMeshReader"]}
{"id": "C74", "title": "Planar measures and normals satisfy the divergence theorem", "statement": "For every planar cell that is star-shaped around its centre, the computed edge lengths, normals and cell area fit together: the outward length-weighted normals sum to zero and the flux of the position field is twice the computed area. If edges run counterclockwise around their left cell the computed normals point from the left to the right cell, and twice the sum of all computed areas equals the flux of the position field through the boundary edges alone.", "quantifier": "all planar meshes with star-shaped cells, all coordinates and centres", "why_tests_cant": "all meshes and real coordinates", "anchors": ["src/GTMesh/UnstructuredMesh/MeshFunctions/ComputeMeasures.h:computeMeasures", "src/GTMesh/UnstructuredMesh/MeshFunctions/ComputeNormals.h:computeFaceNormals"]}
{"id": "C75", "title": "Spatial measures and normals satisfy the divergence theorem", "statement": "For every spatial cell that is a closed polyhedron with planar faces, star-shaped around its centre and the face centres, the outward area-weighted normals sum to zero and the flux of the position field is three times the computed volume. If the centres of the two cells of each inner face lie on different sides of it the normals point from the left to the right cell, and three times the sum of all computed volumes equals the flux of the position field through the boundary faces alone.", "quantifier": "all spatial meshes with star-shaped cells, all coordinates and centres", "why_tests_cant": "all meshes and real coordinates", "anchors": ["src/GTMesh/UnstructuredMesh/MeshFunctions/ComputeMeasures.h:computeMeasures", "src/GTMesh/UnstructuredMesh/MeshFunctions/ComputeNormals.h:computeFaceNormals"]}
{"id": "C76", "title": "Life of a mesh object: centres and boundary cells", "statement": "initializeCenters succeeds on every mesh with non-empty elements, stores in each face and cell the mean of the centres of its boundary elements (midpoints for edges) whatever was stored before, and touches nothing else. setupBoundaryCells followed by setupBoundaryCellsCenters gives every missing side a boundary cell whose centre is the centre of its face. Neither changes the measures, the normals or the result of initializeCenters, and the distances across faces stay the same; the centre differences stay the same except for faces without a left cell, whose difference changes sign.", "quantifier": "all meshes, dimensions, coordinates; for measures and normals all coordinate types and both methods", "why_tests_cant": "all meshes and coordinates", "anchors": ["src/GTMesh/UnstructuredMesh/UnstructuredMesh.h:initializeCenters", "src/GTMesh/UnstructuredMesh/UnstructuredMesh.h:computeElementMeasures", "src/GTMesh/UnstructuredMesh/UnstructuredMesh.h:computeFaceNormals", "src/GTMesh/UnstructuredMesh/MeshElements/MeshElements.h:setupBoundaryCells", "src/GTMesh/UnstructuredMesh/MeshElements/MeshElements.h:setupBoundaryCellsCenters", "src/GTMesh/UnstructuredMesh/MeshFunctions/CellsDistance.h:computeCellsDistance", "src/GTMesh/UnstructuredMesh/MeshFunctions/ComputeCellsCenterDifference.h"]}
{"id": "C77", "title": "Planar convex meshes, from the file to areas, normals and total area", "statement": "A VTK file whose cells are convex counterclockwise polygons (neighbours running through a common side in opposite directions) loads into a mesh for which initializeCenters puts each cell centre at the mean of the polygon's vertices, computeElementMeasures returns the area of each polygon of the file in file order (positive) and the length of each edge, computeFaceNormals returns unit normals pointing from the left cell to the right cell (out of the mesh on the boundary), and twice the total area is the flux of the position field through the boundary.", "quantifier": "all such files, all coordinates, both methods", "why_tests_cant": "all files and coordinates", "anchors": ["src/GTMesh/UnstructuredMesh/MeshIO/MeshReader/VTKMeshReader.h:loadFromStream", "src/GTMesh/UnstructuredMesh/UnstructuredMesh.h:initializeCenters", "src/GTMesh/UnstructuredMesh/UnstructuredMesh.h:computeElementMeasures", "src/GTMesh/UnstructuredMesh/UnstructuredMesh.h:computeFaceNormals", "src/GTMesh/UnstructuredMesh/MeshFunctions/ComputeCenters.h", "src/GTMesh/UnstructuredMesh/MeshFunctions/ComputeMeasures.h", "src/GTMesh/UnstructuredMesh/MeshFunctions/ComputeNormals.h"]}
{"id": "C78", "title": "Spatial meshes of convex polyhedra: centres inside, exact volumes, outward unit normals", "statement": "If the cells of a spatial mesh are convex polyhedra with planar convex faces (any shape), then for every combination of the two computation methods initializeCenters puts each cell centre and face centre strictly inside the cell and the face (with the default face method: at the mean of the vertices), computeElementMeasures returns for every cell the volume of the polyhedron of its faces (positive), for every face its area (positive), for every edge its length, computeFaceNormals returns unit normals that point out of the left cell, and three times the total volume is the flux of the position field through the boundary of the mesh. This holds from the file on: an FPMA or VTK file (any layout of its text) whose cells are convex polyhedra with neighbours on different sides of their common faces loads into such a mesh and the computed volumes are those of the polyhedra of the file, in file order; for tetrahedra listed with their vertices in any order they are |det(b-a,c-a,d-a)|/6.", "quantifier": "all such meshes, all coordinates, both methods for centres, measures and normals; all files of convex polyhedra (FPMA, VTK) in any layout", "why_tests_cant": "all meshes and coordinates", "anchors": ["src/GTMesh/UnstructuredMesh/UnstructuredMesh.h:initializeCenters", "src/GTMesh/UnstructuredMesh/UnstructuredMesh.h:computeElementMeasures", "src/GTMesh/UnstructuredMesh/UnstructuredMesh.h:computeFaceNormals", "src/GTMesh/UnstructuredMesh/MeshFunctions/ComputeCenters.h", "src/GTMesh/UnstructuredMesh/MeshFunctions/ComputeMeasures.h", "src/GTMesh/UnstructuredMesh/MeshFunctions/ComputeNormals.h", "src/GTMesh/UnstructuredMesh/MeshIO/MeshReader/FPMAMeshReader.h", "src/GTMesh/UnstructuredMesh/MeshIO/MeshReader/VTKMeshReader.h"]}
{"id": "C79", "title": "What a mesh file keeps of a number: indices exactly, coordinates to six digits", "statement": "An index written to a mesh file is read back exactly. A coordinate is read back as the nearest number of six decimal digits (relative error at most 5e-6), exactly if it has at most six digits; writing the number read gives the same characters again. Since no writer sets the stream precision, all coordinates from 1000000 up to 1000005 are written as 1e+06.", "quantifier": "all indices below 2^64, all finite coordinates, any white space before and after", "why_tests_cant": "infinitely many numbers", "anchors": ["src/GTMesh/UnstructuredMesh/MeshIO/MeshWriter/FPMAMeshWriter.h", "src/GTMesh/UnstructuredMesh/MeshIO/MeshWriter/VTKMeshWriter.h", "src/GTMesh/UnstructuredMesh/MeshIO/MeshReader/FPMAMeshReader.h", "src/GTMesh/UnstructuredMesh/MeshIO/MeshReader/VTKMeshReader.h"]}
{"id": "C80", "title": "FPMA files character by character", "statement": "Writing a well formed spatial mesh with FPMAMeshWriter and reading the characters of the file with FPMAMeshReader gives the same cells, faces, order of faces and face polygons, and the coordinates rounded to six digits; a second round trip changes no coordinate.", "quantifier": "all well formed 3D meshes whose faces are polygons, all coordinate types (for stability: at least as precise as float), all values of the reader's reservation", "why_tests_cant": "all meshes and coordinates", "anchors": ["src/GTMesh/UnstructuredMesh/MeshIO/MeshWriter/FPMAMeshWriter.h:FPMAMeshWriter", "src/GTMesh/UnstructuredMesh/MeshIO/MeshReader/FPMAMeshReader.h:FPMAMeshReader"]}
{"id": "C81", "title": "VTK files character by character", "statement": "Writing a planar mesh, or a spatial mesh of tetrahedra, pyramids, wedges and hexahedra, with VTKMeshWriter and reading the characters of the file with VTKMeshReader gives the same cells (as polygons, resp. solids with the same faces), the same cell types and the coordinates rounded to six digits. This needs a data set name of one line of less than 1024 characters: a longer name, or a name with a line break, makes the file unreadable. Anything may follow the mesh in the file.", "quantifier": "all such meshes, coordinates, cell types and names; for tessellated output: reading the characters agrees with reading the tokens", "why_tests_cant": "all meshes, coordinates and names", "anchors": ["src/GTMesh/UnstructuredMesh/MeshIO/MeshWriter/VTKMeshWriter.h:VTKMeshWriter", "src/GTMesh/UnstructuredMesh/MeshIO/MeshReader/VTKMeshReader.h:VTKMeshReader"]}
{"id": "C82", "title": "An FPMA file cut short is not taken for a mesh", "statement": "If a file written by FPMAMeshWriter is cut at any place, FPMAMeshReader accepts the rest only if at most the last number of the last cell is incomplete; if all cells are complete, the mesh read is the one written. An empty file makes the reader use an uninitialised counter. Finding: a file cut within the last number is accepted and yields a wrong mesh (a prism of eleven faces becomes a cell of two).", "quantifier": "all meshes whose faces are polygons, all cut positions", "why_tests_cant": "all meshes and all cut positions (crash points of the writer)", "anchors": ["src/GTMesh/UnstructuredMesh/MeshIO/MeshReader/FPMAMeshReader.h:FPMAMeshReader::loadFromStream", "src/GTMesh/UnstructuredMesh/MeshIO/MeshWriter/FPMAMeshWriter.h:FPMAMeshWriter::writeToStream"]}
{"id": "C83", "title": "What VTKMeshReader does with a file cut short", "statement": "A VTK file cut inside its header makes the reader throw; cut among its cells before the last row it never yields a mesh. Findings: cut before POINTS it is accepted as an empty mesh; cut after POINTS an uninitialised count is used; cut among the points it is accepted with the announced number of vertices (the complete ones right) and no cell; cut after the rows it is accepted with the whole mesh but with the previous cell types, or with types only for the codes that are complete.", "quantifier": "all names of one line, points, rows, codes and cut positions", "why_tests_cant": "all files and all cut positions", "anchors": ["src/GTMesh/UnstructuredMesh/MeshIO/MeshReader/VTKMeshReader.h:VTKMeshReader::loadFromStream", "src/GTMesh/UnstructuredMesh/MeshIO/MeshWriter/VTKMeshWriter.h:VTKMeshWriter::writeToStream"]}
{"id": "C84", "title": "How far apart centres must be for the 3D VTK writer", "statement": "The writer of 3D meshes identifies centres of cells and faces by their coordinates printed with six decimals: centres that differ by more than 1e-6 in a coordinate are never merged, so if all centres of a mesh are, every tetrahedron written in place of a cell is spanned by an edge of a face, the centre of that face and the centre of the cell. Finding: in a mesh of extent below 5e-7 around a point of the 1e-6 grid all centres become one vertex and all tetrahedra written have a repeated vertex.", "quantifier": "all meshes, cell types, centres and floating point types", "why_tests_cant": "all meshes and coordinates; tests use meshes of unit size", "anchors": ["src/GTMesh/UnstructuredMesh/MeshIO/MeshWriter/VTKMeshWriter.h:VTKMeshWriter::indexMesh", "src/GTMesh/UnstructuredMesh/MeshIO/MeshWriter/VTKMeshWriter.h:VTKMeshWriter::writeToStream"]}
{"id": "C85", "title": "FPMA files of any layout", "statement": "The FPMA reader takes files as other programs write them: counts, indices and coordinates in any decimal notation (signs, leading zeros, a point at any place, an exponent), separated by any white space (blanks, tabs, line ends of Unix and Windows, empty lines). The mesh depends on the numbers only, each coordinate being the number of the coordinate type nearest to the written one, and what follows the last number is ignored.", "quantifier": "all files, notations of the numbers, amounts and kinds of white space, texts after the last number, and coordinate types", "why_tests_cant": "infinitely many texts stand for the same file; tests read a few files made by one program", "anchors": ["src/GTMesh/UnstructuredMesh/MeshIO/MeshReader/FPMAMeshReader.h:FPMAMeshReader::loadFromStream"]}
{"id": "C86", "title": "VTK files of any layout", "statement": "The same for the readers of legacy VTK files in 2D and 3D: two title lines of fewer than 1024 characters, then the sections of the format with any white space between words and any notation of numbers give exactly the mesh and the cell types of the file, provided fewer than 20 characters follow the number of points on its line and fewer than 50 the number of cells. Finding: with a longer remark there, the reader silently returns a mesh whose vertices are all at the origin, without cells.", "quantifier": "all files, notations of the numbers, amounts and kinds of white space, and coordinate types", "why_tests_cant": "infinitely many texts stand for the same file; tests read a few files made by one program", "anchors": ["src/GTMesh/UnstructuredMesh/MeshIO/MeshReader/VTKMeshReader.h:VTKMeshReader::loadFromStream", "src/GTMesh/UnstructuredMesh/MeshIO/MeshReader/VTKMeshReader.h:VTKMeshReader::loadPoints", "src/GTMesh/UnstructuredMesh/MeshIO/MeshReader/VTKMeshReader.h:VTKMeshReader::loadCells"]}
{"id": "C87", "title": "Rounding errors of lengths, distances and planar normals", "statement": "In floating point arithmetic with unit roundoff u (no overflow or underflow), every edge length and every distance of cells computed on a mesh has a relative error of at most k u/(1 - k u) with k = 3 in the plane, 4 in space and 2 + ceil(d/2) in d dimensions, and each component of a planar edge normal one of at most 6 u/(1 - 6 u). Nothing is lost to cancellation, whatever the coordinates.", "quantifier": "all meshes, coordinates, stored centres, and all roundings of relative error u", "why_tests_cant": "all floating point inputs; tests compare with a tolerance on a few meshes", "anchors": ["src/GTMesh/UnstructuredMesh/MeshFunctions/ComputeMeasures.h:_ComputeMeasures", "src/GTMesh/UnstructuredMesh/MeshFunctions/CellsDistance.h:CellsDistance", "src/GTMesh/UnstructuredMesh/MeshFunctions/ComputeNormals.h:_ComputeNormals", "src/GTMesh/NumericStaticArray/Vertex.h:Vertex::normEuclid"]}
{"id": "C88", "title": "Rounding errors of areas of planar cells", "statement": "computeMeasures of a planar mesh in floating point: the area of a cell with n edges differs from the exact one by at most gamma_(n+7) times half the sum of the absolute values of the products (coordinate differences) it is computed from. This holds for whatever centre is stored with the cell: if the cell is star-shaped around the stored centre (convex cell: centre inside), an inexact centre adds no error.", "quantifier": "all planar meshes, stored centres, and all roundings of relative error u", "why_tests_cant": "all floating point inputs; tests compare with a tolerance on a few meshes", "anchors": ["src/GTMesh/UnstructuredMesh/MeshFunctions/ComputeMeasures.h:_ComputeMeasures"]}
{"id": "C89", "title": "Rounding errors of centres", "statement": "computeCenters (default method) in floating point: if all coordinates of vertices are at most B in absolute value and no element has more than n boundary elements, every coordinate of the centre of an element of dimension k is within gamma_(4+(k-1)(2n+2)) B of the exact mean.", "quantifier": "all meshes of any dimension and all roundings of relative error u", "why_tests_cant": "all floating point inputs", "anchors": ["src/GTMesh/UnstructuredMesh/MeshFunctions/ComputeCenters.h:_ComputeCenters"]}
{"id": "C90", "title": "Reliability of the orientation tests", "statement": "The tests whether an edge is oriented counterclockwise around a point (planar, and spatial with a normal) give the exact answer in floating point whenever the exact determinant exceeds gamma_4 (planar), gamma_8 (spatial) times the sum of the absolute values of the products in it.", "quantifier": "all points and normals and all roundings of relative error u", "why_tests_cant": "all floating point inputs", "anchors": ["src/GTMesh/UnstructuredMesh/MeshFunctions/EdgesOrientation.h:edgeIsLeft"]}
{"id": "C91", "title": "Cell data of VTK files character by character", "statement": "Cell data written after a mesh with VTKMeshDataWriter and read from the characters of the file with VTKMeshDataReader, by name and in any order: integers (int, unsigned long) come back as they were, floating point numbers rounded to six digits, 3D values as often as their cell is represented in the file; the mesh in front of the data is still read. This needs names that are single words without the words SCALARS and VECTORS, and in 2D vector columns of floating point numbers: integer vectors of a 2D mesh are read back wrong from the second cell on, and a name with a blank is indexed under its first word only.", "quantifier": "all meshes, columns of scalars and vectors, values, names, requested subsets of columns and texts before and after the data", "why_tests_cant": "all files; tests write one file and compare it by eye", "anchors": ["src/GTMesh/UnstructuredMesh/MeshDataContainer/MeshDataIO/VTKMeshDataWriter.h:writeColumn", "src/GTMesh/UnstructuredMesh/MeshDataContainer/MeshDataIO/VTKMeshDataReader.h:readColumn", "src/GTMesh/UnstructuredMesh/MeshDataContainer/MeshDataIO/VTKMeshDataReader.h:indexData"]}
{"id": "C92", "title": "Serialized containers are interchangeable", "statement": "The bytes the serializer writes depend on the content only: what was written from a vector, array, deque, valarray, string, set or map (or any nesting of them, and pairs, tuples, classes) is read into any other type that can hold the same content. Any sequence can be read into a set (union with what is there) or a sequence of pairs into a map (the first pair of a key wins). A fixed-size array that is too small is overrun (undefined behaviour); in a larger one the remaining elements keep their values.", "quantifier": "all pairs of types, values and targets", "why_tests_cant": "all pairs of types; the tests have one case (vector to valarray)", "anchors": ["src/GTMesh/BinarySerializer/Serializers/SerializeIterable.h", "src/GTMesh/BinarySerializer/Serializers/SerializeIndexable.h", "src/GTMesh/BinarySerializer/Serializers/SerializeCompactContainer.h", "src/GTMesh/BinarySerializer/BinarySerializer.h:readNext"]}
{"id": "C93", "title": "A type is read in the form it was written in", "statement": "The serializer chooses at compile time, from what a type offers, how to write and how to read it. Reading compiles exactly for nestings of numbers, strings, vectors (not of bool), arrays, deques, valarrays, sets, maps, pairs, tuples, classes with traits and types with serialization functions of the user, and for these every value is read back. For any other type, if writing and reading compile, both use the same form, unless the user gives only one of the two functions, or the type converts to bool: pointers, string literals and classes with a conversion to bool or a number are silently written as one byte. A std::list can be written but not read (except into a vector).", "quantifier": "all types (nestings of the above; all combinations of operations a type may offer) and all values", "why_tests_cant": "ranges over all types", "anchors": ["src/GTMesh/BinarySerializer/BinarySerializer.h:addNext", "src/GTMesh/BinarySerializer/BinarySerializer.h:readNext", "src/GTMesh/Utils/ClassSelector.h:ClassSelector", "src/GTMesh/Traits/CustomTypeTraits.h", "src/GTMesh/Traits/Interfaces/InterfaceIndexable.h", "src/GTMesh/Traits/Interfaces/InterfaceCompactContainer.h"]}
{"id": "C94", "title": "Traits decide which members are serialized", "statement": "Writing an object and reading it into another object of the class gives that one with exactly the members named by the traits replaced, at every depth and whatever the order in the traits; members that are not named are kept. With bound traits the first of them for the class counts for the object itself (or for the elements of a sequence of objects). Bound traits for the classes of members are ignored, unlike in the export as text.", "quantifier": "all classes, traits, bound traits, nesting of objects and sequences of objects, and all values", "why_tests_cant": "all nestings of classes and all traits", "anchors": ["src/GTMesh/BinarySerializer/Serializers/SerializeTraitedClass.h", "src/GTMesh/BinarySerializer/BinarySerializer.h:addNext", "src/GTMesh/Traits/TraitsBind/TraitsBind.h:bindTraits"]}
{"id": "C95", "title": "Edges under arbitrary sequences of calls", "statement": "An edge object is changed by any sequence of its calls (set cell, set next element for a cell, set left/right cell or next element directly, swap). As long as cells are first registered and then given successors, the first two registered cells are its sides and each gets back exactly the last successor set for it; other cells are refused. swapCellsLR exchanges the cells but not the successors, so that each cell gets the successor of the other; with the same cell on both sides, a new successor is reported as set but is not found.", "quantifier": "all histories of calls on an edge, all cells and successors", "why_tests_cant": "unbounded histories", "anchors": ["src/GTMesh/UnstructuredMesh/MeshElements/MeshElements.h:MeshElement", "src/GTMesh/UnstructuredMesh/MeshElements/CellConnection.h:CellConnection"]}
{"id": "C96", "title": "Every value reaches the printer for its type", "statement": "A value is printed by the first printer that fits its type, and the printers of its parts likewise; the stream version prints every value. Both versions (stream and printf) write the same unless the value contains unsigned or long integers, small integers, text with a zero character, string literals, other pointers, or classes without both PrintTo functions. A JSON log of variables that are not tuples is JSON with exactly these values. A variable of type std::tuple is not written into JSON and HTML logs (the call is resolved to another overload), after which the JSON log is not JSON. String literals are logged with quotation marks in HTML only; DBGCHECK_STDIO prints 'true'.", "quantifier": "all types (combinations of features), all values, all sequences of log calls", "why_tests_cant": "ranges over all types, nested values and histories of calls", "anchors": ["src/GTMesh/Debug/VariableExport.h:exportVariable", "src/GTMesh/Debug/Printers/PrintAny.h", "src/GTMesh/Debug/Printers/PrintExportable.h", "src/GTMesh/Debug/Printers/PrintCustom.h", "src/GTMesh/Debug/JSONLogger.h:writeVar", "src/GTMesh/Debug/HTMLLogger.h:writeVar", "src/GTMesh/Debug/Debug.h:DBGCHECK_STDIO"]}
{"id": "C97", "title": "Logged real numbers; when a JSON log can be read", "statement": "Every finite floating point number is exported as a JSON number: the nearest one with six significant digits, with a relative error of at most five millionths; two numbers have the same text exactly if they have the same six digits. The text of a variable is JSON if and only if no printed part of it is infinite, NaN or a pair whose first part is not text; a JSON log is JSON if and only if this holds of every logged variable and none is a tuple. One NaN coordinate makes the whole log file unreadable, whatever is logged before and after it.", "quantifier": "all floating point values (finite ones as any rational number), all variables of all types, all sequences of log calls", "why_tests_cant": "all numbers, all types and histories; impossibility of reading a text as any JSON value", "anchors": ["src/GTMesh/Debug/Printers/PrintExportable.h", "src/GTMesh/Debug/VariableExport.h", "src/GTMesh/Debug/JSONLogger.h"]}
{"id": "C98", "title": "Several data containers: copies, moves, reallocation and writes in any order", "statement": "In a program over any number of data containers (copies, moves, allocation to a mesh, allocation like another container, clearing, writes with at and operator[]), the program is undefined exactly if some operator[] write hits an entry that does not exist at that moment; at() throws exactly on the writes to missing entries and changes nothing; and afterwards every entry holds what the latest relevant statement put there. A copy holds what the original held and the two are independent from then on; a moved-from container is usable again after an allocation or assignment. operator[](integer_sequence) is the vector at that position; for containers with a tuple of types it compiles only where position and dimension are the same number.", "quantifier": "all element types and dimension lists, all programs (statement sequences), all meshes, all contents of moved-from containers", "why_tests_cant": "all histories over any number of objects; moved-from contents are unspecified", "anchors": ["src/GTMesh/UnstructuredMesh/MeshDataContainer/MeshDataContainer.h: MeshDataContainer, operator=, allocateData, operator[]"]}
{"id": "C99", "title": "The tessellated VTK export conserves volume and the integrals of cell data", "statement": "A mesh of simple convex polyhedra without native VTK types (for example loaded from an FPMA file), written with the 3D VTK writer and centres inside (the computed ones, by either method) whose keys differ: the file loads again; the recomputed measures of the tetrahedra are all positive; the tetrahedra written for a cell have together exactly the volume computed for that cell; the total volume is unchanged; the writer's backward map names for every tetrahedron its cell; and the cell data written with the mesh keep their integral.", "quantifier": "all convex meshes with simple cells, all coordinate types with an interpretation as points, all centres inside, all key functions that tell the centres apart, all cell data", "why_tests_cant": "quantifies over all convex meshes and all data; exact equality of real sums is not observable in floating point", "anchors": ["src/GTMesh/UnstructuredMesh/MeshIO/MeshWriter/VTKMeshWriter.h: indexMesh, writeToStream", "src/GTMesh/UnstructuredMesh/MeshIO/MeshReader/VTKMeshReader.h", "src/GTMesh/UnstructuredMesh/MeshDataContainer/MeshDataIO/VTKMeshDataWriter.h", "src/GTMesh/UnstructuredMesh/MeshFunctions/ComputeMeasures.h"]}
{"id": "C100", "title": "Cell data read from a VTK file that was cut", "statement": "Whatever beginning of a VTK file with cell data is left (2D and 3D, cut at any character), reading one of its columns never throws: it is undefined behaviour (a variable that never got a value is used), or it gives some first values of the column exactly as they are read from the complete file and then one and the same value for all other cells. If the complete text of at least one value of the column is left, it is not undefined and at least the values with complete text are read; a column whose text is complete is read completely. The loss is silent: a file that ends behind a value repeats this value for all later cells; a column that is missing altogether is read as zeros (numbers) or is undefined behaviour (vectors).", "quantifier": "all column lists, numbers, meshes (3D), all places where the file can be cut", "why_tests_cant": "every cut of every file", "anchors": ["src/GTMesh/UnstructuredMesh/MeshDataContainer/MeshDataIO/VTKMeshDataReader.h: indexData, readFromStream, readColumn", "src/GTMesh/UnstructuredMesh/MeshDataContainer/MeshDataIO/VTKMeshDataWriter.h: writeToStream"]}
{"id": "C101", "title": "Serialization functions of the user", "statement": "A type for which the user defines BinarySerialize and BinaryDeserialize is written and read by these functions, whatever else it offers (conversions, traits, iterators), also inside any nesting of pairs, tuples, classes, vectors, deques, arrays, sets and maps; if the functions restore the values of their type, every such nesting is read back. Nothing requires both functions: with only one of them the other direction falls back to another form, and a value may silently come back as a different one. Vectors and arrays of an enumeration bypass its functions (raw memory), while deques, sets and single values use them, so the same elements have different bytes.", "quantifier": "all user functions, types, values and targets", "why_tests_cant": "every pair of user functions and every nesting", "anchors": ["src/GTMesh/BinarySerializer/Serializers/SerializeCustom.h: serialize, deserialize", "src/GTMesh/BinarySerializer/BinarySerializer.h: addNext, readNext", "src/GTMesh/Traits/Interfaces/InterfaceCompactContainer.h: Compact"]}
{"id": "C102", "title": "Geometry of a mesh whose coordinates are slightly off", "statement": "If no coordinate of any vertex moves by more than d, no centre computed by computeCenters (default method, any dimension) moves by more than d in any coordinate, every edge length computed by computeMeasures changes by at most 2 sqrt(dim) d, the area of a planar cell with n sides by at most n((w+2d)^2 - w^2) and the area of a spatial face by at most sqrt(3) times that, where w is the size of the box of the cell or face; no convexity or planarity is needed. In particular a planar mesh written to a VTK text file and read, and a spatial mesh written to an FPMA text file and read, have the same centres and areas up to these bounds with d = 5.2e-6 of the largest coordinate, although the edges of the copy are numbered differently.", "quantifier": "all meshes, all displacements of the vertices, all coordinate types at least as precise as float", "why_tests_cant": "every mesh and every displacement; real numbers", "anchors": ["src/GTMesh/UnstructuredMesh/MeshFunctions/ComputeCenters.h: computeCenters", "src/GTMesh/UnstructuredMesh/MeshFunctions/ComputeMeasures.h: computeMeasures", "src/GTMesh/UnstructuredMesh/MeshIO/MeshWriter/VTKMeshWriter.h: writeToStream", "src/GTMesh/UnstructuredMesh/MeshIO/MeshReader/FPMAMeshReader.h: loadFromStream"]}
{"id": "C103", "title": "Numbers in mesh files that no writer writes: signs, overflow, malformed numbers, indices out of range", "statement": "Reading a number from a mesh file skips white space (blank, tab, newline, vertical tab, form feed, carriage return), takes an optional sign and the longest run of digits. An index or count up to 2^64-1 is read; with a minus sign it is read modulo 2^64 without an error, so -1 becomes the invalid index; a greater one gives 2^64-1 and the stream fails. A type code is read as an int, clamped with a failure outside [-2^31, 2^31-1]. Anything else gives 0 and the stream fails, and after a failure nothing more is read. Vertex indices are not checked by any reader: a file with an index out of range (-1 included) is read without error into a mesh that is not well formed, and computing its centres throws; if all indices are in range the mesh is well formed. The FPMA reader throws if a cell lists a face that does not exist, except -1 in a position other than the last.", "quantifier": "all texts of numbers; all files in the layouts of C85, C86 with any indices", "why_tests_cant": "every spelling of a number and every file with a wrong index at any place", "anchors": ["src/GTMesh/UnstructuredMesh/MeshIO/MeshReader/FPMAMeshReader.h: loadFromStream, loadCells", "src/GTMesh/UnstructuredMesh/MeshIO/MeshReader/VTKMeshReader.h: loadFromStream", "src/GTMesh/UnstructuredMesh/MeshFunctions/ComputeCenters.h: computeCenters"]}
{"id": "C104", "title": "Mesh files in which a face belongs to more than two cells", "statement": "A mesh file may list a face in any number of cells, and no reader reports it. FPMA: the face knows the first two cells that list it. VTK (a side of planar cells, a face of spatial cells): it knows the first and the last of the cells that have it. A cell that each of its faces knows has its faces as boundary, in the order of the file; for every other cell every walk over the boundary throws, and the centres of the mesh cannot be computed. If the vertices exist (and the faces are polygons), the mesh is well formed exactly if no face belongs to more than two cells.", "quantifier": "all FPMA files whose cells list existing faces, none twice; all VTK files of polygons (planar) or of tetrahedra, pyramids, wedges and hexahedra (spatial); any layout", "why_tests_cant": "any number of cells at any face", "anchors": ["src/GTMesh/UnstructuredMesh/MeshIO/MeshReader/FPMAMeshReader.h: loadCells", "src/GTMesh/UnstructuredMesh/MeshElements/CellBoundaryConnection.h: setNextBElem, getNextBElem", "src/GTMesh/UnstructuredMesh/MeshFunctions/MeshApply.h: apply", "src/GTMesh/UnstructuredMesh/MeshIO/MeshReader/VTKMeshReader.h: loadCells", "src/GTMesh/UnstructuredMesh/MeshFunctions/ComputeCenters.h: computeCenters"]}
{"id": "C105", "title": "Containers of classes declared compact", "statement": "If the user specialises Interface::Compact for a class, a container with data() of its objects is written as its size and the memory of the objects, whatever functions and traits the class has. Reading it gives back all the values, whatever the container held, and takes exactly the bytes written; an earlier end of the buffer is undefined. If the class has no padding and no arrays, the bytes are those written without the declaration. With padding they depend on what the padding holds, and programs with and without the declaration cannot read each other's files.", "quantifier": "all classes of numbers, classes and arrays, in any nesting, all values, all contents of padding, all containers and buffers", "why_tests_cant": "any class, any padding, any number of elements", "anchors": ["src/GTMesh/Traits/Interfaces/InterfaceCompact.h", "src/GTMesh/Traits/Interfaces/InterfaceCompactContainer.h", "src/GTMesh/BinarySerializer/Serializers/SerializeCompactContainer.h", "src/GTMesh/BinarySerializer/BinarySerializer.h: SelectSerializer, SelectDeserializer"]}
{"id": "C106", "title": "Geometry moves, turns, reflects and scales with the mesh", "statement": "If all vertices of a mesh are moved by a map that multiplies distances by s > 0 (translations, rotations, reflections, scalings and their compositions), the same functions return or fail, the centres of elements of all dimensions move with the vertices (METHOD_TESSELLATED: when the faces have an area), measures of dimension k are multiplied by s^k whether the orientation is kept or not, distances between neighbouring cells by s, and spatial normals and differences of centres turn with the mesh. Normals of edges of planar meshes turn too and are reversed by reflections. Maps that keep the orientation keep the side of a face or cell an edge is on. In any dimension the measures and normals obtained through the computed centres behave in this way.", "quantifier": "all meshes, all maps of the plane, of space or of any dimension that multiply distances by a positive number, all tables of centres", "why_tests_cant": "any mesh, any rotation, reflection or scaling", "anchors": ["src/GTMesh/UnstructuredMesh/MeshFunctions/ComputeCenters.h", "src/GTMesh/UnstructuredMesh/MeshFunctions/ComputeNormals.h", "src/GTMesh/UnstructuredMesh/MeshFunctions/ComputeMeasures.h", "src/GTMesh/UnstructuredMesh/MeshFunctions/CellsDistance.h", "src/GTMesh/UnstructuredMesh/MeshFunctions/ComputeCellsCenterDifference.h", "src/GTMesh/UnstructuredMesh/MeshFunctions/EdgesOrientation.h"]}
{"id": "C107", "title": "The numbering of elements does not matter", "statement": "Give the vertices, edges, faces and cells of a mesh other numbers (any permutation in each dimension). The mesh stays well formed, traversals visit the same elements in the same order, connections and neighbourhoods are the same elements, and whenever the centres (both methods), normals, orientations of edges, measures, distances between neighbouring cells and differences of their centres are computed for the original mesh they are also computed for the renumbered one, with exactly the same values in the new places - in any arithmetic, so with the same rounding errors.", "quantifier": "all well formed meshes, all permutations in each dimension, all kinds of numbers", "why_tests_cant": "any mesh, any permutation, any arithmetic", "anchors": ["src/GTMesh/UnstructuredMesh/MeshFunctions/MeshApply.h", "src/GTMesh/UnstructuredMesh/MeshFunctions/MeshConnections.h", "src/GTMesh/UnstructuredMesh/MeshFunctions/MeshNeighborhood.h", "src/GTMesh/UnstructuredMesh/MeshFunctions/ComputeCenters.h", "src/GTMesh/UnstructuredMesh/MeshFunctions/ComputeNormals.h", "src/GTMesh/UnstructuredMesh/MeshFunctions/ComputeMeasures.h", "src/GTMesh/UnstructuredMesh/MeshFunctions/CellsDistance.h"]}
{"id": "C108", "title": "The page of an HTML log shows what was asked for", "statement": "On the page HTMLLogger writes, 'filter' with selectors of rows shows exactly the rows of the chosen line (negative: all) that some selector fits, in order, each once; with selectors of groups exactly the calls that contain such a row, completely, in order, each once; with both kinds a row is shown exactly if the first selector that fits it selects rows or its call has a row for which the first fitting selector selects groups. Without selectors, choosing a line shows nothing on a fresh page (a defect), and otherwise uses the kind of the selector used last. The table keeps the order, alternates light and dark, and changes colour exactly between different calls.", "quantifier": "all logs, selectors, lines, comparisons of values with texts", "why_tests_cant": "any log, any choice of the user", "anchors": ["src/GTMesh/Debug/HTMLLogger.h:HtmlLogger::writeScript", "src/GTMesh/Debug/HTMLLogger.h:filterData", "src/GTMesh/Debug/HTMLLogger.h:checkData", "src/GTMesh/Debug/HTMLLogger.h:showData"]}
{"id": "C109", "title": "The Green-Gauss gradient of an affine field is exact", "statement": "In every planar cell that is star-shaped around its centre, the sum over its edges of outward-signed length times (normal . w) times the value of an affine field at the midpoint of the edge is the computed area times the derivative of the field in direction w; in every spatial cell that is a closed star-shaped polyhedron with planar faces, the same holds with the computed areas, normals and volume and the values at the centroids of the faces. For meshes of convex polygons (also loaded from a VTK file) the points are the edge centres initializeCenters computes; for convex polyhedra they are the face centres of the tessellated method, or those of either method if the faces are triangles; the sign of a face is +1 for its left and -1 for its right cell.", "quantifier": "all such meshes, all coordinates, affine fields and directions", "why_tests_cant": "all meshes, real coordinates and fields", "anchors": ["src/GTMesh/UnstructuredMesh/MeshFunctions/ComputeMeasures.h:computeMeasures", "src/GTMesh/UnstructuredMesh/MeshFunctions/ComputeNormals.h:computeFaceNormals", "src/GTMesh/UnstructuredMesh/MeshFunctions/ComputeCenters.h", "src/GTMesh/UnstructuredMesh/UnstructuredMesh.h:initializeCenters"]}
{"id": "C110", "title": "Files of numbers with at most six digits lose nothing", "statement": "If every coordinate of a mesh has at most six significant decimal digits and the coordinate type keeps its own values (a decimal number equal to a coordinate is read as it), then a planar mesh written to VTK and read back, and a spatial mesh written to FPMA and read back, have the same vertices, and the loaded mesh has exactly the cell centres, face centres and areas of the original, although its edges may be renumbered and the faces rotated; the volumes agree too if the faces are planar, in particular for all convex polyhedra, where they are the volumes of the polyhedra.", "quantifier": "all such meshes, coordinate types, names and text after the file", "why_tests_cant": "all meshes and coordinates", "anchors": ["src/GTMesh/UnstructuredMesh/MeshFunctions/ComputeCenters.h: computeCenters", "src/GTMesh/UnstructuredMesh/MeshFunctions/ComputeMeasures.h: computeMeasures", "src/GTMesh/UnstructuredMesh/MeshIO/MeshWriter/VTKMeshWriter.h: writeToStream", "src/GTMesh/UnstructuredMesh/MeshIO/MeshReader/FPMAMeshReader.h: loadFromStream"]}
{"id": "C111", "title": "A planar VTK file read and written again is the same file", "statement": "If the polygons of a planar VTK file are oriented alike (no two have a side in the same direction), the mesh read from it is written with the same points, the same rows of vertices (same first vertex, same direction) and the given types; with third coordinates zero and the types the writer knows the file is reproduced item by item. Exactly: the rows are the same if and only if no polygon has the first side of a later polygon in the same direction; otherwise every row is still the same polygon. A planar mesh whose cells have their first and their shared edges on the left when they are the left cells is written, read and written again with the same characters, although the coordinates of the copy may differ from those of the mesh. However the polygons are oriented, rewriting settles: a file of n polygons (types the writer knows, third coordinates equal to the one written) no longer changes after n - 1 rewritings.", "quantifier": "all conforming planar grids, free header lines, text after the file, coordinate types at least as precise as a float, types and names", "why_tests_cant": "all grids and coordinates", "anchors": ["src/GTMesh/UnstructuredMesh/MeshIO/MeshReader/VTKMeshReader.h: loadFromStream", "src/GTMesh/UnstructuredMesh/MeshIO/MeshWriter/VTKMeshWriter.h: indexMesh", "src/GTMesh/UnstructuredMesh/MeshIO/MeshWriter/VTKMeshWriter.h: writeToStream"]}
{"id": "C112", "title": "An FPMA file read and written again is never the same file", "statement": "Reading a conforming FPMA file with at least one face and writing the mesh gives a file with the same vertices, the same cells and the same polygons, but the row of the first face v0 v1 r is written as v1 v0 followed by r reversed: the texts differ. Repeated any number of times this never settles; the first face is turned by every rewriting.", "quantifier": "all conforming FPMA files with a face, all reserve sizes that fit, all numbers of rewritings", "why_tests_cant": "all files and any number of rewritings", "anchors": ["src/GTMesh/UnstructuredMesh/MeshIO/MeshReader/FPMAMeshReader.h: loadFaces", "src/GTMesh/UnstructuredMesh/MeshIO/MeshWriter/FPMAMeshWriter.h: indexFace", "src/GTMesh/UnstructuredMesh/MeshIO/MeshWriter/FPMAMeshWriter.h: writeToStream"]}
