# Formal model of ericw-tools in Rocq (Coq 8.16.1)

The source under study is `/repo` (C++). It is never built or run; the model is
transcribed from the text, function by function, and every definition in a
`*Model.v` file carries a comment citing the file and lines it models and the
simplifications made.

## Layout

`rocq/theories/` (logical name `Verif`):

* `Base.v` - list and byte utilities shared by all models (no model content).
* `<Subsystem>Model.v` - executable definitions transcribed from the code.
* `<Subsystem>Proofs.v` - lemmas about them.
* `Properties<Subsystem>.v` - only the property theorems (each closed by `exact`),
  concrete non-vacuity examples, and a `Print Assumptions` for each theorem.

## Conventions

* Bytes are `N` (or `Z` when signed arithmetic matters) with explicit range hypotheses
  only where the code depends on the range.
* Undefined behaviour, out-of-bounds access and calls of `FError`/`Error`/`throw` are
  distinct outcomes of a model function, never silently totalised.
* A loop that is not structurally recursive gets fuel; running out of fuel is a
  distinct outcome and a theorem excludes it.
* Geometry (floating-point tests) enters as universally quantified oracles: a theorem
  holds for every outcome the floating-point code could produce.
* If the property as stated in `properties.jsonl` is false of the code, a theorem
  `..._refuted` proves the negation with a concrete witness, and (where possible) a
  theorem proves the part that does hold.

## Plan per property

| id | modelled | proof method |
|----|----------|--------------|
| C01-C03 | `CompressRow`, `DecompressVis` as list functions with explicit stop reasons | induction over the row, generalised over pending run |
| C04, C07 | `CompressBits`, `DecompressBits` | induction; corrupt input `rep = 0` modelled with C's wrapping `--rep` |
| C05 | byte-exact writer/reader of the state file | parser/printer round-trip by induction over portals |
| C06 | file system as finite map, save as list of atomic steps incl. partial writes | invariant over crash points and histories |
| C08 | `leafbits_t` with 32-bit blocks | refinement to a set of indices by induction over histories |
| C09 | `SimpleFlood` with an explicit visited set | DFS invariant, termination measure |
| C10 | `RecursiveLeafFlow` with geometry oracles | induction over the recursion |
| C11, C12 | threads as a labelled transition system over the locked sections | invariant over all reachable states |
| C13 | `ClusterFlow` and row storage | induction over clusters, uses C01 |
| C14 | `CalcPHS` word-wise OR | refutation + equality theorem when the size is a multiple of 8 bytes |
| C15 | winding pool | invariant over histories |
| C16, C17 | `parse_token` on a byte list ending in NUL | induction over remaining text |
| C18-C21 | `entdict_t`, entity writer/reader | induction over entities; refutations for the bugs |
| C22-C26 | portal file writer/reader, `NumberLeafs_r`, cluster table | tree induction |
| C27-C30 | tree export into flat arrays, pruning | tree induction with array-prefix invariants |
| C31-C34 | point location, BFS floods, leak line | BFS invariant (distance layers) |
| C35-C38 | `numeric_cast`, record conversions | arithmetic |
| C39-C45 | little-endian serialisers, lump directory, BSPX, texture lump, Q2 vis lump, brush list | codec combinators with a generic round-trip lemma |
| C46-C51 | contents tables of both games | bitwise reasoning on `N`, finite case analysis |
| C52-C54 | settings | induction over histories |
| C55 | progress spin lock | transition system; refutation by an interleaving |
| C56 | CRC table and bitwise definition | finite check of 256 entries lifted by induction |
| C57 | memory stream buffer | arithmetic |
| C58, C59 | natural comparison, case folding | lexicographic order proofs / refutation |
| C60 | `LoadFilePath` buffers (no terminating NUL) + tokenizer reading past the end | refutation with file images; simulation for newline-terminated files |
| C61 | token text/line number of `parse_token` | induction over the skipped text |
| C62 | `EntData_Parse` loop | progress measure of the tokenizer |
| C63 | `LoadPrtFile` text scanner with explicit hang outcome | fuel bound for all loops but one, refutation for that one |
| C64 | `LoadPortals` pairing | index arithmetic over the portal list |
| C65, C66 | `CountPortals`, `WritePortals`, brush lists of merged leafs | list induction |
| C67 | `ExportLeaf`/`CountLeafs` face ranges | tree induction with a running offset |
| C68, C69 | detail filling, `MarkVisibleSides` | graph component invariant |
| C70 | `LoadBSPFile` version detection over `WriteBSPFile` output | case analysis on versions + C40 |
| C71 | `FindPortalSide` brush choice, contents only | bitwise case analysis over brush lists |
| C72 | `setting_container::parse` on argument lists | induction over arguments |
| C73 | FACENORMALS / DECOUPLED_LM serialisers | codec combinators |
| C74, C75 | `ExportBrushList`, truncated lumps | list induction, prefix cases |
| C76 | `EmitFaces`, `GetEdge`, face ranges of nodes | invariant over the emission state |
| C77 | `ExportMapTexinfo`, `ExportMapPlane` | invariant over export histories |
| C78-C81 | T-junction vertices, minimum weight triangulation, splitting, retopology | dynamic-programming optimality, loop invariants; refutations |
| C82 | `EmitVertices` with the spatial hash as an oracle | invariant over insertion histories |
| C83 | `.texinfo.json` writer and reader as JSON values | per-field case analysis |
| C84 | `FindTexinfo`, Quake II animation chains | functional-graph argument, refutation |
| C85 | `BasePortalThread`, flood, `RecursiveLeafFlow`, scheduling | soundness invariant over runs of the scheduler |
| C86-C88 | PAK and WAD readers over one shared stream, search lists, `where`, path splitting | invariant over load histories and add histories; refutations |
| C89, C90 | `load_wal`, `load_mip` over the memory stream | exact outcome for every byte string; refutations |
| C91 | `calculate_average` | bounds of the mean; refutation |
| C92 | light grid: point indexing, octree construction, lump writer; the reader of the format is the specification | invariant over the construction (leafs partition the box), decoding lemma per record; refutation |
| C93-C95 | `bsputil --scale` over exact rationals; normalisation and plane search as oracles | algebraic identities for scaled planes, invariant over the plane list (pairs), induction over walks; refutations |
| C96, C97 | lightmap space and styles (light/write.cc); pixels as parameters, threads as arbitrary orders of reservations and byte writes | blocks of distinct requests are disjoint, so every byte is written once and the order is irrelevant; sorted lists; refutations |
| C98 | samples of light grid points as lists of slots, exact integer colours | rev induction over lights; refutations for a fifth style |
| C99 | flood fill, downsampling and blur of one channel over rationals | passes only turn pixels opaque, a pass without change means all or none are (grid connectivity); kernels characterised by membership; permutation of pixels for the mean |
| C100 | LoadPCXPalette and init_palette over the membuf model | fields of the header and the slice at the end; refutations for short files |
| C101, C102 | BrushBSP with SplitBrush, plane selection, volumes and metrics as oracles on brushes; points off all planes as sign vectors | invariant: sides on planes of parents are marked, so the planes of unmarked sides decrease; the sequence of brushes around a point is kept by each split; refutation on a one-dimensional instance |
| C103 | ChopBrushes as a loop over the list with SubtractBrush | every step is a bite (one brush replaced by what is left of it); measure 2*cells-1 summed over the list; refutation on the line |
| C104 | passes of SelectSplitPlane and ChooseMidPlaneFromList | invariant over tried planes and best value; refutations on the line |
| C105 | areas of leafs: flood over a graph with area portals as barriers, portals per area | depth-first search invariant (new leafs are connected, neighbours of new leafs are marked), the two smallest touching areas, slices of the lump; refutations |
| C106 | table of names and styles, the pass over entities, calls split into search and append for threads | table invariant: k-th entry has style start+k, names distinct; counting; refutation by interleaving |
| C107 | ParseEscapeSequences on byte lists | two equations that determine the function; refutations |
| C108 | map_file_t::parse and write on byte strings over the parser of C01, numbers by arbitrary readers and printers | state relation "the parser stands before this text", one lemma for each syntactic part, induction on sides, brushes, entities; termination by the bytes left; refutations by computation and in general |
| C109 | set_texinfo of the three styles, TexDef_BSPToValve, TexDef_BSPToQuakeEd over the real numbers of the standard library; the normal of the local side is a parameter | algebra (field, nra), case analysis of the four sign guesses; refutations with concrete faces |
| C110 | MakeTreePortals_r and its helpers on numbered trees; windings, clipping and the test for tiny windings are parameters | induction on the tree with a linking invariant; counting of the portals through a point; chains for the lists at nodes |
| C111 | the three storages of windings; a fixed array with unspecified content, a vector, a count | simulation by lists that may have unspecified elements, with the number of left-over elements; refutations for all capacities |
| C112 | clip, clip_front, clip_back over the real numbers of the standard library | convex hulls as an inductive predicate; orientation determinants of index triples; a segment between points on opposite sides meets one between two changes of side |
| C113 | from_plane, the loop of CreateBrushWindings over one side | orthonormal frame (nsatz), C112 along the list of planes |
| C114 | table of planes with the choice of the spatial index as an input of each request; integers in any unit | invariant over histories: pairs, index sound and complete, stored planes separate; refutations by short histories |
| C115 | AddBrushBevels over real numbers; answers of the table of planes as an oracle with tolerance | invariant of the axial loop (slots, permutation), growth relation for the loop over edges with a measure for its end, algebra for slanted planes |
| C116 | sides of LoadBrush for a hull over real numbers | the corner maximises the product with the normal; convex hull of vertices; refutation by a small corner of a box |
| C117 | scan of the styles and writing of the lumps; the reader of an engine is the specification; composed with the saving of faces (C96) | characterisation of the scan by fold, slices of lumps with records of one size; refutations |
| C118 | WriteLitFile, WriteLuxFile, the end of SaveLightmapSurfaces, -litonly with threads as any order of byte writes | sizes of buffers; lightmaps as disjoint places (each byte written once, others 0); refutations |
| C119 | light formulas over real numbers; None for a division by 0 | case analysis and monotonicity of quotients; Cauchy-Schwarz; monotone cosine for cones |
| C120 | CullLight, the plane test and the gate per sample over real numbers; dirt and projected texture as inputs | triangle inequality, monotonicity of C119; refutations by one lamp |
| C121 | Dirt_GetScaleFactor over real numbers with Rpower | monotonicity of each step |
| C122 | LightFace_ScaleAndClamp over real numbers with Rpower; None for undefined numbers | every step is a monotone function of the components, so is the composition |
| C123 | conversions to bytes with truncation as a function on reals, undefined outside of the range | bounds of the integer part; convex combinations |
| C124 | node and clipnode arrays with an outcome for errors, undefined behaviour and too deep trees; queries by fuel; planes over real numbers | the arrays are related to an inductive tree; every query equals its specification on the tree, by induction; wrong files by concrete ones |
| C125 | decompression of all rows, CalcPvs, VisCullEntity as functions on the lumps | the rows of C07-C10 composed with the tests of bits |
| C126 | 4x4 matrices as functions, the adjugate formula, three constructors of faceextents_t, sample coordinates; real numbers | ring identities for the 16 entries, determinant of products; bounds of floor and ceil; convexity |
| C127 | clamp_texcoord with casts as options | floor modulo width, by cases of the sign |
| C128 | TryMerge over real numbers, MergeFaceToList with fuel | identities of triple products (Pluecker), edges of rotated lists; induction over merge steps; sums over edges for areas |
| C129 | CalcAmbientSounds on the uncompressed rows of build_vislump | loops over faces and leafs as existence of a source; the buffer of rows from an extended invariant of C13's lump |
| C130 | ExportWad, read back with wad_open and arc_load of C86 | the file as a WAD in the sense of C86 (entries at sums of sizes); concrete bytes for the refutations |
| C131 | external maps, origin brushes, ProcessEntity over all hulls, UpdateEntLump, WriteEntitiesToString; brushes by origin flag and first texture | frames (which keys each pass may change) and a numbering invariant, kept by the later hulls; the text by C18's round trip |
| C132 | aabb.hh as lists of intervals over real numbers; CalcTreeBounds_r on trees with the points of portals; FindEdgeVerts_FaceBounds_R | induction over coordinates; union as least upper bound; induction on trees with the old bounds of parents |
| C133 | the polygon functions of mathlib.cc and qvec.hh over real numbers; edge choice of CalcPointNormal | distances to edge planes as 2-d orientations in a frame of the plane; a point on the inner side of all edges lies in a triangle of the fan; sums over the fan telescope to sums over the edges |
| C134 | `CalculateVertexNormals` over real numbers: keys of models, pairs of faces to smooth, weighted sums of normals; the edge map | membership in the set of neighbours; sums of vectors in a cone stay in it; sums do not depend on the order; refutations with triangles around an edge |
| C135 | `ConvertBSPFormat` on whole BSPs with the conversions of C36 for each record, the choice of version by qbsp | what `load_file` accepts is in the ranges of its records; the conversions of records lifted over the lumps; refutations with one record of each kind |
| C136 | settings of a surface, lightmaps by style, `LightFace_Min`, `LightFace_LocalMin`, `LightFace_AutoMin`, `PostProcessLightFace` without negative lights, `Mottle`, over real numbers | what the dictionary shows for a style before and after; every step only raises; bytes of the noise compared with the exact interpolation; refutations by evaluation |
| C137 | `CheckBSPFile` with its comparisons of signed numbers and sizes, `Node_Height`, `PrintNodeHeights`, the reads of `CheckBSPFacesPlanar` | the list of warnings against a table of conditions, in both directions; induction on fuel, with a rank of nodes for termination; refutations by evaluation and, for the cycle, for every fuel |
| C138 | `JitterEntity`, `AddSun`, `SetupSuns`, `SetupSkyDome(s)` and the two sources of suns, over real numbers with a stream of random numbers | inductions over samples; sums of directions and of brightness; lengths by sin^2 + cos^2; refutations by evaluation |
| C139 | first pass of `LoadEntities` for lightmap_scale with the reference into the erased pair, the renaming for Arghrad | association of keys through `ed_remove`, `ed_set`, `ed_rename`; refutations for every dictionary |
| C140 | the loop of `bsputil_main` over the command line for seven commands, on the disk, with `ConvertBSPFormat` of C135 and `WriteBSPFile` of C70 | an edit of the generic form is the generic form of the edited BSP, so converting back is exact (C135); refutations for every file |
| C141 | the brush part of `--replace-entities`, `ParseEntity` and `LoadMapOrEntFile` over the parser of C16 | induction over slots and entities; the text of a brush is the consumed part of the memory |
| C142 | the walk of nodes and clipnodes with a stack of planes, `RemoveRedundantPlanes` with the array of `std::remove_if`, initial brushes, splitting by texture, over real numbers; planes of edges are an oracle | induction over trees against `find_leaf` and `find_clip` of C124; clipping lemmas of C112 and C113; loop invariant for the array; inductions over splits; refutations for all lists |
| C143 | `NormalDistanceToThreePoints`, `texdef_valve_t`, the offset of `write`, the pass that names sides, the origin brush, over real numbers | algebra of cross products; invariant of the pass over the array; refutation for all texture vectors |
| C144 | `DecompileEntity` over `entdict` of C16, the search of area portal brushes, the brushes of leafs, the choice of texture | inductions over keys and brushes; refutations for all dictionaries and groups |
| C145 | `ScaleMapFace`, `RotateMapFace`, `TranslateMapFace`, the keys of misc_external_map, the offset of origin brushes, `-scale`, `lmshift`, over real numbers | one lemma on planes through the images of three points (determinant); elementary rotations composed; refutations for all faces |
| C146 | names of region brushes, the brushes around a region, brushes left out, the loop that erases entities (vector semantics, undefined behaviour as `None`) | case analysis on sides; the first crossing of a segment by induction over the sides; inductions over entities; refutations |
| C147 | `ParseEntity`, `ParseBrush`, `ParseBrushFace`, `ParseTextureDef`, `LoadMapFile` with `-add` and `-aliasdef` on the parser of C108, numbers and dropped planes as oracles | simulation of the parser of maputil token by token; texts as joined words; measure on the unread text; refutations by computation and for all region brushes |
| C148 | `SurfFlagsForEntity` with names, Quake II fix-ups of surface information, hintskip marks and the order of keys and brushes; numbers as rationals or NaN, `atof` and `sscanf` as oracles | lookup lemmas of C71 key by key; order lemmas of rationals; bits of contents; refutations for all dictionaries and by computation |
| C149 | `SubdividePolygon` with its arrays of 64 points (overflow is an outcome of its own), templates, marks of leafs and the order of lights; real numbers | no plane has four points alternately on its sides, which cuts keep; the sum of widths bounds the recursion, and each of the twelve half-spaces adds at most one point; refutations for all sizes |
| C150 | `MatchTargets`, `SetupSpotlights`, the 4x4 matrices of the projection as lists of 16 numbers, `LightFace_SampleMipTex`; real numbers | the frame of the angles is orthonormal and the product of the matrices maps it to the axes of the texture; `tan`/`atan` for the field of view; bilinear weights |
| C151 | table as a list of names; `FindMiptex` and `AddAnimTex` for games other than Quake II, `AddAnimationFrames`, `LoadTextureData`; file system as two oracles (exists, can be opened) | induction over the names with the invariant that no name is there twice; refutations for all tables and file systems |
| C152 | emitted styles, `GetSurfaceLighting` and the culls over real numbers; `bounce_color` per lightmap; the loop over passes; threads as a transition system with atomic loads and stores | algebra; induction over passes; invariants over all interleavings, and a run that loses the answer for all results of the other threads |
| C153, C154 | the settings of twelve options of qbsp and twenty-three of light, with their sources; the words of a command line and of worldspawn as events; the side effects in the order of the code | induction over words; case analysis per option; computed counterexamples |
| C155 | the two loaders over the tokenizer of C16 and the entity parser of C18, on the bytes of a file without a NUL behind them; maps as lists of pairs, newest first | induction over lines with the words of C108's proofs; progress of every token for the end of the loops; computed counterexamples |
| C156 | sorting, packing with fuel per pass of the loop, the grid of atlases, images as functions from index to pixel, reads outside the samples as an outcome of their own; texture coordinates over Q; numbers of vertices | induction with an invariant of the shelf (what comes later lies behind, above or in a later atlas); disjoint index sets for the images; computed counterexamples |
| C157 | the encoder, with the table as a partial function | a decoder after RFC 4648 in the statement; bit operations checked for all bytes by computation; induction by three bytes |
| C158 | hex_string, and the object of the visibility data with the library's emplace, which keeps a key that is there | a reader of two digits per byte in the statement; a family of pairs with the same text around any context; the whole object is computed for every list of offsets |
| C159 | the rule on top of the tests for contents of C46-C51 | case analysis over the answers of the tests; bits of the flags for detail walls; counterexamples by computation |
| C160 | the choice of the list for each face, the filters for hits, the lists of models, the model of a face; a failed assertion and FError as outcomes; the meeting of ray and face is given | case analysis over the keys and flags; an exact outcome for every ray; induction for the loop and the search |
| C161 | the lines of a file, the tokens of a line with the parser of C16, the order of the files; std::stod and the printing of floats are given, its exception is an outcome | the words of a line as a relation, one lemma for the next token, induction over words and lines |
| C162 | both functions beside each other, with the bounds and all tests; windings with their clipping, distances, bounds and volumes are given, the same for both; numbers are rational as they are only compared | case analysis on the tests; bounds of unions by induction over the sides; a brush at the limit as counterexample |
| C163 | the loops over axes and corners as they are, over rationals; a quotient by zero is a distinct outcome | the height of the plane over a corner is linear, so its extremes over the box are at corners; invariant of the loop over the corners |
| C164 | the loop and load_texture for mips as they are; archives and the header of a mip are functions; a size that was never read is a distinct value | induction over the textures |
| C165 | both functions as they are, over rationals; a quotient by zero is a distinct outcome | sums of prefixes by induction; the choice is the first prefix that reaches the number |

## Trusted base

* The Coq 8.16.1 kernel, including its `vm_compute` machine.
* The transcription of the C++ text into the `*Model.v` files. Nothing ties the model
  to the code mechanically; each definition cites the lines it was read from.
* The reading of C++ used in the transcription: two's complement integers, 8-bit
  signed `char`, 32-bit `int`, IEEE-754 `float`/`double`, little-endian host, `long` of
  4 or 8 bytes where it matters (C14), and no code other than the modelled one writing
  to the modelled objects.

### Assumptions

`Print Assumptions` is run below every property theorem. It prints
`Closed under the global context` for each of them except those of C109, C112, C113, C115, C116, C119-C123, C124 (without `C124_file` and `C124_visit`), C126, C127 (without `C127_none`), C128, C132, C133, C134 (without `C134_value`), C136 (without `C136_table`), C138 (without `C138_dirt`, `C138_world`), C142 (without `C142_needs`), C143, C145 (without `C145_lmshift`), C146 (without `C146_kind`), C149 (without `C149_match`, `C149_once`), C150 (without `C150_target`) and C152 (without `C152_vis_refuted`, `C152_vis_partial`, `C152_passes`, `C152_once`, `C152_debug_refuted`, `C152_serial`, `C152_threads_partial`, `C152_race_refuted`): no
other theorem depends on an axiom, neither of the standard library nor of this development.
C109, C112, C113, C115, C116, C119-C124, C126-C128, C132-C134, C136, C138, C142, C143, C145, C146, C149, C150 and C152 are stated over the real numbers of the standard library and depend on
the axioms these are built on:

* `ClassicalDedekindReals.sig_forall_dec`
* `ClassicalDedekindReals.sig_not_dec` (not used by `C109_shape`, `C112_inside`, `C112_same`,
  `C112_on`, `C112_axial_refuted`, `C116_sides`, `C116_touches`, `C116_point`, `C116_box`,
  `C119_sign`, `C119_fades`, `C119_reach`, `C119_finite_refuted`, `C119_fields`, `C115_snap`, `C123_luxel`, `C123_bilinear`,
  `C123_decoupled_partial`, `C123_decoupled_refuted`, C124 except `C124_solid_near`, `C124_solid_refuted`,
  `C124_faces`, `C124_faces_near`, C126 except `C126_sphere`, C127, C128 except
  `C128_near`, C132, `C133_tangents`, `C133_perpendicular_refuted`, `C134_keys`, `C138_samples`, `C138_split`,
  C142 except `C142_kept`, `C142_duplicate_refuted`, `C142_twice_refuted`, `C142_q2`,
  `C143_names`, `C143_first`, `C143_order_refuted`, `C145_origin`, C146, `C149_tjunc`, `C149_ends`, `C149_pieces`, `C149_own`, `C149_radlights_refuted`, `C136_surface`, `C150_texel`, `C150_bilinear`, C152 except `C152_falloff`, `C152_high`, `C152_cull_refuted`, `C152_scale_refuted`, and the theorems
  of C136 about levels, autominlight (except `C136_auto_scaled_twice_refuted`), scales and noise)
* `FunctionalExtensionality.functional_extensionality_dep` (not used by `C134_keys`, `C136_minscale`, `C142_leaf_refuted`, `C149_own`)
* `Classical_Prop.classic` (only the theorems of C121 and C122, through `Rpower`, those of C134 that
  speak of corner normals or `acos`, those of C136 that speak of dirt or scaling, and `C150_fov`)

The build loads seven constants `Coq.ssr.ssrunder.*` of the standard library as part of its
own modules (through `Lia` and its dependencies), and `Reals` loads `Coq.Logic.Classical`
and related modules; they are listed by checks that scan the loaded libraries, but no
theorem here uses them beyond the four axioms above.

### Modelled code

| file in /repo | modelled | left out |
|---|---|---|
| common/bspfile*.cc/.hh, bspfile_q1/q2 | record serialisers, lump directory writing and reading, version detection, record conversions, texture and vis lumps, contents tables and rules of both games | `CheckBSP*` printing |
| common/bspxfile | BSPX directory, BRUSHLIST, FACENORMALS, DECOUPLED_LM | `LIGHTGRID` lump without octree |
| common/parser.cc, entdata.cc | tokenizer, peeking, command-line parser, entity parser and writer, dictionary | `get_vector`/`get_float` conversions |
| common/prtfile.cc, qbsp/prtfile.cc | writer, reader, numbering, cluster table | text-to-double conversion |
| common/settings.cc/.hh | sources, precedence, parsing of every setting type, command lines, help and summary outcomes | help text layout, unit of `std::stod` (parameter) |
| common/fs.cc | archives, directories as oracles, search order | case-insensitive hashing itself (C57), real file systems |
| common/imglib.cc | WAL and miptex decoding, palettes, average colour | stb_image formats, `.wal_json`, texture search |
| common/cmdlib.cc, log.cc, numeric_cast.hh, qvec rounding | CRC, natural and case-insensitive comparison, hashing, memory streams, spin lock of progress printing, casts | path helpers |
| vis/*.cc | RLE, leaf bits, state file and its crash behaviour, base vis flood, portal flow with winding pool, might-see updates, scheduling, rows, PHS, ambient sounds | the floating-point clipping itself (oracle) |
| qbsp/tree.cc, prunenodes, outside.cc, portals.cc (parts), writebsp.cc, faces.cc, tjunc.cc, map.cc (texinfos), qbsp.cc (BRUSHLIST) | see C24-C34, C65-C69, C71, C74, C76-C84 | CSG (dead code), portal clipping, map parsing |
| qbsp/brushbsp.cc | SplitBrush (which windings survive is an oracle), tests, selection of planes, SplitBrushList, BuildTree_r, BrushBSP, LeafNode, SubtractBrush, ChopBrushes | windings and bounds, volumes (oracles), statistics, debug output; int overflow of values |
| qbsp/portals.cc (areas) | FloodAreas_r, FindAreas_r, SetAreaPortalAreas_r, EmitAreaPortals | AreanodeEntityForLeaf (its result is a field of the leaf), warnings, debug traces of leaks (FindShortestPath) |
| light/entities.cc (styles) | LightStyleForTargetname, TargetnameForLightStyle, ParseEscapeSequences, first pass of LoadEntities | other keys of entities; data races themselves (only interleavings of the halves of calls) |
| common/mapfile.cc, mapfile.hh | map_file_t, map_entity_t, brush_t and brush_side_t: parse and write; set_texinfo, conversions to Valve 220 and quaked | source locations, warnings; what `keep` (planes without normal, duplicate planes) computes; parsing of a brush primitives matrix (always ends in FError) |
| qbsp/portals.cc, tree.cc | building of portals: MakeHeadnodePortals, MakeNodePortal, SplitNodePortals, ClipNodePortalsToTree_r, MakeTreePortals_r, MakePortalsFromBuildportals, AddPortalToNodes | clipping of windings, CalcTreeBounds_r, statistics |
| include/common/polylib.hh, qbsp/brush.cc (CreateBrushWindings) | storages of windings; from_plane, clip, clip_front, clip_back; one side of CreateBrushWindings | rounding of floating-point numbers; bevel sides, bounds, other functions of winding_base_t |
| qbsp/map.cc, qbsp.cc, brush.cc (planes, bevels, hulls) | table of planes, normalize, Snap, AddBrushBevels, LoadBrush up to the windings | rounding, the spatial index itself, statistics, the variant without QBSP3 (not compiled), bounds for rotating entities |
| light/light.cc, write.cc (lumps and files) | LMSTYLE, LMSTYLE16, LMOFFSET, LMSHIFT scales, .lit, .lux, lit2, RGBLIGHTING, LIGHTINGDIR, -litonly | failing writes, byte order other than little endian, decoupled matrices (C73) |
| light/ltface.cc, write.cc, entities.cc (light values) | GetLightValue, angles, spotlights, CullLight, Dirt_GetScaleFactor, LightFace_ScaleAndClamp, bytes of luxels and directions, sampling from decoupled lightmaps | rounding, ray tracing, computation of occlusion, sampling of projected textures, suns, bounce and surface lights |
| common/bsputils.cc (queries), light/ltface.cc (visibility) | leaf, solid, contents and face of a point, traversal of faces, FixLightOnFace, samples in solid; DecompressAllVis, CalcPvs, VisCullEntity | BSP_FindNodeAtPoint, rounding |
| common/bsputils.cc (faceextents_t), qvec.cc (inverse), light/ltface.cc (CalcPoints), trace.cc (textures) | conversions between world, texture and lightmap, sizes, samples, pixels | rounding, warnings, CalcPointNormal |
| qbsp/merge.cc | TryMerge, MergeFaceToList, MergeFaceList | rounding, UpdateFaceSphere |
| bsputil/bsputil.cc (ExportWad) | the WAD of `--extract-textures` | streams that fail, sizes beyond int32 |
| qbsp/qbsp.cc (ProcessEntity, CreateHulls, UpdateEntLump), map.cc (entities), brush.cc (FixRotateOrigin) | what happens to entities between map and lump | region brushes, -scale, _omitbrushes, misc_external_map transforms, the geometry of bounds |
| include/common/aabb.hh; qbsp/portals.cc (CalcTreeBounds_r); qbsp/tjunc.cc (FindEdgeVerts_FaceBounds) | boxes, bounds of nodes, search for vertices | stream support, rounding, NaN |
| common/mathlib.cc, include/common/qvec.hh (polygons); light/ltface.cc (CalcPointNormal, edge choice) | FaceNormal, edge planes, point inside, closest points, LinesOverlap, barycentric coordinates, InterpolateNormal, PolyArea, PolyCentroid, tangents | rounding, FLT_MAX, ShrinkPoly, random points, matrices |
| light/phong.cc; common/bspfile.cc (surfflags_may_phong) | keys of models, Q2_FacePhongValue, pairs of faces, angles, weighted normals, edge map, Face_EdgeIndexSmoothed, GetSurfaceVertexNormal | rounding, tangents and bitangents, face_cache_t, the map of planes, texinfo numbers out of range |
| common/bspfile.cc:1756-1980; qbsp/writebsp.cc:460-526 | CopyArray, conversions between generic and both families, ConvertBSPFormat, choice of the written version | BSPX lumps (moved along), the messages, loadversion of generic input given by hand |
| light/ltface.cc:583-680, 733-800, 999-1014, 1547-1841, 2693-2742 | settings of a surface, Lightmap_ForStyle/Save, minimum light, local minimum light, autominlight, noise | rounding, rays and CullLight (oracles), directions, debug modes, the light at the point of autominlight (given; C98) |
| bsputil/bsputil.cc:154-447 | `--check` | texts, distances from planes, the colours of the printed counts |
| light/entities.cc:305-345, 364-392, 416-505, 513-693, 918-932, 972-987, 1185-1205 | split lights, suns, sky domes; lightmap_scale and Arghrad keys | rounding, atan2, the conversion of values to numbers |
| bsputil/bsputil.cc:697-740, 1176-1199, 1272-1316, 1344-1354, 1395-1418, 1475-1553 | commands that edit a BSP or extract from it | archives, directories in paths, failing streams, other commands |
| bsputil/bsputil.cc:497-596, 1199-1270 | `ParseEntity`, `LoadMapOrEntFile`, `--replace-entities` for maps | locations of entities; names of files |
| common/decompile.cc:231-259, 327-335, 433-486, 609-762, 785-795, 985-1090 | walk of the tree, redundant planes, brushes, splitting | rounding; the leaf brushes of Quake 2, which faces belong to a node; writing |
| common/decompile.cc:54-88, 99-120, 160-190, 507-607, 785-795, 855-935, 1119-1356; include/common/qvec.hh:556-590 | points, axes and shift of sides, names, entities, brushes of models | writing numbers as text, wal metadata, leaf visualization |
| qbsp/map.cc:1892-1926, 2593-2676, 2791-2881, 2953-2980, 3179-3187, 3281-3316, 3338-3369; brush.cc:712-733; common/mathlib.cc:31-67 | transformations of faces, regions | scales of zero, reading of keys, rounding |
| qbsp/map.cc:843-862, 896-921, 1620-1735, 1982-2005, 2532-2789, 3391-3450 | reading of .map files | planes, texture lookup, surface flags of entities |
| qbsp/map.cc:525-577, 635-841, 1766-1872, 2000-2005, 2699-2712 | flags of sides | the texinfo table, rounding of numbers |
| light/entities.cc:1264-1580 | surface lights in the manner of Quake | fields of lights that are copied, the OBJ file, rounding |
| light/entities.cc:211-303, 694-868, 1003-1049; light/ltface.cc:890-957 | targets, spotlights and projected textures | loading of the texture, fields of view that are not a number, rounding |
| qbsp/map.cc:212-286, 390-457; qbsp/qbsp.cc:49-99, 725-734, 1533-1632 | texture table, frames, embedded textures, WAD search | decoding of images, `load_image_meta`, paths of Windows, `.` and `..` in paths |
| light/surflight.cc:52-190; light/bounce.cc:77-233; light/ltface.cc:1905-2110, 2607-2682; light/light.cc:780-822 | surface lights of Quake II, bounced light | which faces bounce, `dice`, occlusion, `EstimateVisibleBoundsAtPoint`, `LightPoint_SurfaceLight`, rounding |
| qbsp/qbsp.cc:444-452, 680-767; light/light.cc:270-275, 311-345, 433-535, 1173-1209, 1336-1410, 1458-1461; light/entities.cc:899-919 | target format, options that follow from others | how words become options (see C52-C54, C72), `-maxedges` below 3, `-radlights`, texture and alias definitions, the other options |
| qbsp/qbsp.cc:602-678; qbsp/map.cc:1766-1774 | load_texture_def, load_entity_def, the use of texture definitions | whether and where the file is found, the field animation of extended_texinfo_t |
| common/bspinfo.cc:138-184, 300-478, 500-555 | Base64EncodeTo, build_lightmap_atlas after its rectangles are known, numbers of vertices in the .obj file | stb_image_write, the choice between LMOFFSET, DECOUPLED_LM and lightofs, the JSON file |
| common/bspinfo.cc:38-47, 569-590 | hex_string, visdata and lightdata of serialize_bsp | the other entries of the JSON file, the writer of the library |
| qbsp/tjunc.cc:140-190 | Welds, HasTJuncInteraction | nothing of these two |
| light/light.cc:541-560, 647-720; light/trace_embree.cc:73-98, 134-180, 307-460, 544-657 | ModelInfoForFace, FindModelInfo, Face_Alpha, triinfo, both filters, Embree_TraceInit | Embree, the triangles, sides of models without faces, SampleTexture (C127), the offset of models |
| light/entities.cc:1450-1494; light/light.cc:439-443, 1351-1354 | ParseEntityLights, ParseLightsFile, the files that are read | std::stod and the format of floats, which name of an unordered_set is the first, reads that fail before the end of the file |
| qbsp/brushbsp.cc:409-577, 599-765; qbsp/brush.cc:922-956 | SplitBrush, CheckSplitBrush, both update_bounds | windings (C112, C113), BrushVolume, BrushMostlyOnSide, fields of sides other than winding and plane, statistics, the sphere of a brush |
| qbsp/brushbsp.cc:783-846; include/common/aabb.hh:234-238 | DivideBounds, SplitPlaneMetric, volume | rounding; which planes are axial is given (C163 assumes that the plane of an axial type faces its positive axis) |
| bsputil/bsputil.cc:115-138; common/imglib.cc:329-359 | ReplaceTexturesFromWad, load_texture for mips alone | pixels (C89, C90), archives (C86), padding of the lump (C43), ConvertBSPFormat and writing (C40) |
| common/mathlib.cc:94-135, 312-327; include/common/qvec.hh:676-692 | NormalizePDF, MakeCDF, SampleCDF, PolyRandomPoint, Barycentric_Random, Barycentric_ToPoint | rounding; the square root is given; PolyRandomPoint_Setup with the areas (286-310) |
| bsputil/bsputil.cc | `--scale` except entities | the other commands |
| light/*.cc | reading of the texinfo file, octree light grid and its samples; lightmap styles, space, offsets; flood fill, downsampling, blur | lighting itself (rays, formulas, entities), conversion of samples to bytes, writing of LMSTYLE/LMOFFSET, -litonly |

Everything not listed is not modelled; floating-point geometry appears only as
universally quantified oracles or over the real numbers (C109, C112, C113, C115, C116, C119-C124, C126-C128, C132-C134, C136, C138, C142, C143, C145, C146, C149, C150, C152).

## Wrong programs

seeded/LOG.jsonl lists edits of definitions that were made in a copy outside the repository, with the theorems whose proofs then failed.
A failed proof shows that the script does not go through for the edited definition. It does not by itself show that the statement is false:
an edit that keeps the value but changes its form can break a script too, and a theorem is also listed if only a lemma that it uses failed. Edits known to be of that kind are listed as surviving, with a note;
the other entries were not checked one by one for it.
