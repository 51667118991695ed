{"id": "C01", "title": "Visibility row codec round-trip", "statement": "Decompressing what CompressRow produced for a row, into a buffer of the row's length, gives back exactly that row, even when other bytes follow the compressed row (rows are stored back to back in one lump).", "quantifier": "every byte row of every length, every following byte string", "why_tests_cant": "The row length and contents are unbounded; zero runs crossing the 255 limit and rows ending inside a run are easy to miss with samples.", "anchors": ["common/bsputils.cc: CompressRow, DecompressVis"]}
{"id": "C02", "title": "Visibility row decompressor is memory safe and total on arbitrary bytes", "statement": "DecompressVis terminates on any input, reads only inside [in,inend), and leaves exactly the out buffer's length of bytes written or untouched; it never writes outside it.", "quantifier": "every input byte string (including corrupt lumps), every output buffer length", "why_tests_cant": "Corrupt lumps are an infinite family; a fuzzer only samples it.", "anchors": ["common/bsputils.cc: DecompressVis"]}
{"id": "C03", "title": "Compressed row size bound", "statement": "A compressed row never exceeds its input length plus its number of zero bytes, hence never twice the input; all bytes written are valid bytes; a row without zero bytes is stored verbatim.", "quantifier": "every byte row", "why_tests_cant": "The worst case depends on an adversarial layout of zero runs at every length.", "anchors": ["common/bsputils.cc: CompressRow"]}
{"id": "C04", "title": "vis state leaf-bit codec round-trip", "statement": "For every bit set, the bytes produced by CompressBits are restored by the reader to the same bytes, whichever of the two encodings (run-length or raw) was chosen, and the stored length alone tells the reader which one it was.", "quantifier": "every byte string of every length", "why_tests_cant": "Unbounded length; the fallback decision depends on the exact compressed size.", "anchors": ["vis/state.cc: CompressBits, DecompressBits, CopyLeafBits, SaveVisState, LoadVisState"]}
{"id": "C05", "title": "vis state file round-trip", "statement": "Loading the file SaveVisState wrote restores, for every portal, status (with a portal that was being worked on becoming not started), mightsee bits, both counters and - for finished portals - the vis bits; the vis bits of the others are blank; the elapsed time is restored.", "quantifier": "every number of portals and leafs and every portal state", "why_tests_cant": "Unbounded number of portals and states.", "anchors": ["vis/state.cc: SaveVisState, LoadVisState"]}
{"id": "C06", "title": "Crash safety of the vis state file", "statement": "Whatever point of SaveVisState the machine stops at, the next run resumes from a completely written state file (the old one or the new one) or starts from scratch; it never resumes from a partially written one.", "quantifier": "every crash point of a save, every history of earlier saves", "why_tests_cant": "Crash points are not enumerable from the outside and need the process to die between two file operations.", "anchors": ["vis/state.cc: SaveVisState, LoadVisState"]}
{"id": "C07", "title": "vis state decoder is safe on corrupt files", "statement": "Decoding a corrupt state file ends in an error or in some bit set; it never writes beyond the portal's bit buffer.", "quantifier": "every byte string offered as a run-length stream", "why_tests_cant": "Corrupt files are an infinite family.", "anchors": ["vis/state.cc: DecompressBits"]}
{"id": "C08", "title": "Leaf bit set behaves as a finite set of leaf numbers", "statement": "After any history of resize, clear, set, unset, setall and union operations, reading a bit tells exactly whether that leaf is a member.", "quantifier": "every size, every operation history, every index", "why_tests_cant": "Histories and sizes are unbounded; block boundaries (32 bits) need every index.", "anchors": ["include/vis/leafbits.hh: leafbits_t"]}
{"id": "C09", "title": "Base visibility is exactly portal reachability", "statement": "A leaf is in a portal's might-see set after base vis if and only if it can be reached from the leaf behind the portal through portals that the portal can see; the stored count equals the number of members.", "quantifier": "every portal graph (including cyclic ones), every geometric relation", "why_tests_cant": "Graphs are unbounded and cyclic.", "anchors": ["vis/flow.cc: SimpleFlood, BasePortalThread"]}
{"id": "C10", "title": "Full visibility never exceeds base visibility", "statement": "Whatever the geometric clipping decides, the leafs a portal's full flow marks visible are its own target leaf and members of its might-see set; the visible count equals the number of distinct leafs marked.", "quantifier": "every portal graph, every outcome of the separator/plane tests, every test level, every recursion depth", "why_tests_cant": "Floating-point geometry and graph are unbounded; tests fix a few maps.", "anchors": ["vis/flow.cc: RecursiveLeafFlow, PortalFlow"]}
{"id": "C11", "title": "Portal scheduling processes every portal exactly once", "statement": "Under every interleaving of worker threads, each portal is handed out at most once, and when the workers stop every portal is done; no portal is ever reflowed.", "quantifier": "every number of threads, every schedule, every portal set", "why_tests_cant": "Schedules are not controllable from a test.", "anchors": ["vis/vis.cc: GetNextPortal, LeafThread, PortalCompleted, CalcPortalVis"]}
{"id": "C12", "title": "Might-see updates only ever remove leafs, keep the counts right and touch only unstarted portals", "statement": "After any history of completions, every portal's might-see set is a subset of its base one, its stored count equals the number of members, and portals already started are unchanged.", "quantifier": "every history of portal completions in every order", "why_tests_cant": "The order of completion depends on the schedule.", "anchors": ["vis/vis.cc: UpdateMightsee, PortalCompleted"]}
{"id": "C13", "title": "The visibility lump stores every leaf's row intact", "statement": "After vis has processed all clusters in any order, decompressing at a leaf's stored offset yields exactly its row: bit k set iff the cluster of leaf k is seen by some portal of the leaf's cluster or is that cluster itself.", "quantifier": "every cluster count, every leaf-to-cluster map, every processing order", "why_tests_cant": "Offsets of all rows interact through one shared buffer; sizes unbounded.", "anchors": ["vis/vis.cc: ClusterFlow, CalcVis", "common/bsputils.cc: CompressRow"]}
{"id": "C14", "title": "The hearable set is the union of the visible sets of visible clusters", "statement": "In the Q2 PHS, cluster k is hearable from cluster i iff k is visible from some cluster visible from i, or from i itself.", "quantifier": "every number of clusters, every PVS", "why_tests_cant": "Sizes that are not a multiple of the machine word matter and no test map has been chosen for that.", "anchors": ["vis/soundpvs.cc: CalcPHS"]}
{"id": "C15", "title": "Stack windings: no slot in use is handed out, and the flow never exhausts them", "statement": "A returned winding is not one that is still in use; exhaustion and double frees are reported, foreign windings ignored; and whatever clipping decides, the portal flow never exhausts the three windings of a frame, never frees one twice, never overflows a fixed winding or the separator cache, and keeps source and pass in separate slots while it recurses.", "quantifier": "every history of alloc/free calls; every geometry, test level and portal list", "why_tests_cant": "Histories are unbounded.", "anchors": ["vis/vis.cc: AllocStackWinding, FreeStackWinding, ClipStackWinding", "vis/flow.cc: ClipToSeparators, VisTests, RecursiveLeafFlow, TargetChecks"]}
{"id": "C16", "title": "Tokenizer is total and stays inside NUL-terminated text", "statement": "parse_token on any NUL-terminated text terminates, never moves past the terminator, and repeated calls make progress until the end of the text.", "quantifier": "every text, every flag combination, every position", "why_tests_cant": "All byte strings; lookahead of one and two bytes at every position.", "anchors": ["common/parser.cc: parser_t::parse_token"]}
{"id": "C17", "title": "Peeking does not consume input", "statement": "Parsing a token with PEEK leaves position and line number unchanged and returns the token the next ordinary parse returns.", "quantifier": "every text and flag combination", "why_tests_cant": "All byte strings.", "anchors": ["common/parser.cc: parser_t::parse_token"]}
{"id": "C18", "title": "Entity text round-trip", "statement": "Parsing the text EntData_Write produced for a list of entities gives back the same entities (keys and values in order).", "quantifier": "every list of entities whose strings contain no quote, backslash, newline or NUL and whose keys are usable", "why_tests_cant": "Strings and lists are unbounded.", "anchors": ["common/entdata.cc: EntData_Write, EntData_Parse, entdict_t::parse, parse_entities"]}
{"id": "C19", "title": "Entity dictionary obeys the laws of an ordered map with unique keys", "statement": "After set, get returns the value set; other keys are unaffected; remove removes; order of insertion is preserved; starting from the empty dictionary no history of set and remove produces duplicate keys.", "quantifier": "every history of operations", "why_tests_cant": "Histories are unbounded.", "anchors": ["common/entdata.cc: entdict_t::set, get, has, remove, find"]}
{"id": "C20", "title": "Renaming a key moves its value", "statement": "After rename(from,to) on a dictionary holding from, get(to) is the old value of from and from is absent.", "quantifier": "every dictionary, every pair of keys", "why_tests_cant": "Collisions with an existing key are the corner case.", "anchors": ["common/entdata.cc: entdict_t::rename"]}
{"id": "C21", "title": "Entity keys are trimmed of surrounding spaces", "statement": "Parsing an entity whose key has leading or trailing spaces stores it under the key without them.", "quantifier": "every key text", "why_tests_cant": "All strings.", "anchors": ["common/entdata.cc: entdict_t::parse"]}
{"id": "C22", "title": "Portal file portal records round-trip", "statement": "Reading the portal file that was written for a portal list yields the same leaf numbers, windings and order, for each of the formats.", "quantifier": "every portal list", "why_tests_cant": "Unbounded lists.", "anchors": ["common/prtfile.cc: LoadPrtFile", "qbsp/prtfile.cc: WritePortalfile, WritePortals_r"]}
{"id": "C23", "title": "Portal file reader rejects out-of-range leaf numbers", "statement": "Every portal accepted from a portal file refers to two leafs inside the declared leaf range, so no later table access is out of bounds.", "quantifier": "every portal file", "why_tests_cant": "All texts.", "anchors": ["common/prtfile.cc: LoadPrtFile", "vis/vis.cc: LoadPortals"]}
{"id": "C24", "title": "Leaf and cluster numbering is dense and consistent", "statement": "Numbering gives the non-solid leafs the numbers 0..n-1 in tree order, the clusters 0..m-1, all leafs under one detail separator the same cluster and solid leafs none.", "quantifier": "every tree", "why_tests_cant": "Trees are unbounded.", "anchors": ["qbsp/prtfile.cc: NumberLeafs_r"]}
{"id": "C25", "title": "The PRT2 cluster table reproduces the leaf-to-cluster map", "statement": "On every pruned tree writing the cluster table succeeds without an internal error and reading it back assigns each leaf number the cluster it was numbered with.", "quantifier": "every pruned tree", "why_tests_cant": "Trees are unbounded; the internal error depends on empty clusters.", "anchors": ["qbsp/prtfile.cc: WritePTR2ClusterMapping_r, WritePortalfile", "common/prtfile.cc: LoadPrtFile", "qbsp/tree.cc: PruneNodes"]}
{"id": "C26", "title": "Vis leaf number k is exported as BSP leaf k+1", "statement": "For Quake-style targets the leaf numbered k by the portal file writer is the leaf at index k+1 of the written BSP.", "quantifier": "every tree", "why_tests_cant": "Two separate traversals in two files must agree on every tree.", "anchors": ["qbsp/prtfile.cc: NumberLeafs_r", "qbsp/writebsp.cc: ExportDrawNodes, ExportLeaf", "vis/vis.cc: ClusterFlow"]}
{"id": "C27", "title": "The exported draw tree classifies every point like the in-memory tree", "statement": "Walking the written nodes from the model's head node ends, for every point, in a leaf whose contents are those of the in-memory leaf that contains the point.", "quantifier": "every tree, every point, every earlier content of the node/leaf arrays", "why_tests_cant": "Trees and points are unbounded.", "anchors": ["qbsp/writebsp.cc: ExportDrawNodes", "common/bsputils.cc: BSP_FindLeafAtPoint"]}
{"id": "C28", "title": "The exported clip hull classifies every point like the in-memory tree", "statement": "Walking the written clipnodes gives, for every point, the native contents of the in-memory leaf that contains the point, also after conversion to the 16-bit format when that conversion succeeds.", "quantifier": "every tree, every point", "why_tests_cant": "Trees and points are unbounded; the 16-bit encoding overlaps contents and node numbers.", "anchors": ["qbsp/writebsp.cc: ExportClipNodes", "common/bspfile_q1.cc: bsp29_dclipnode_t::downcast, upcast", "common/bsputils.cc: BSP_FindContentsAtPoint"]}
{"id": "C29", "title": "Planes are exported once and to the right number", "statement": "Exporting a map plane any number of times in any order returns the same output number each time, distinct planes get distinct numbers and the output plane equals the map plane.", "quantifier": "every history of export requests", "why_tests_cant": "Histories are unbounded.", "anchors": ["qbsp/writebsp.cc: ExportMapPlane"]}
{"id": "C30", "title": "Pruning preserves solidity everywhere", "statement": "After pruning, every point is solid iff it was solid before, non-solid points keep their contents, and no remaining node has two solid leaf children.", "quantifier": "every tree, every point", "why_tests_cant": "Trees are unbounded.", "anchors": ["qbsp/tree.cc: PruneNodes_R, ConvertNodeToLeaf"]}
{"id": "C31", "title": "Point location prefers the requested kind of leaf on planes", "statement": "PointInLeaf returns a leaf whose closed region contains the point, and returns a leaf of the preferred kind (sealing or not) whenever one of the leafs whose closed region contains the point is of that kind.", "quantifier": "every tree, every point", "why_tests_cant": "Unbounded trees; ties on planes.", "anchors": ["qbsp/outside.cc: PointInLeaf"]}
{"id": "C32", "title": "Flood distances are shortest path lengths", "statement": "After the flood from the occupied leafs (or from the void) a leaf's number is the least number of passable portals from a start leaf, and unreachable leafs are unmarked.", "quantifier": "every portal graph", "why_tests_cant": "Graphs are unbounded.", "anchors": ["qbsp/outside.cc: BFSFloodFillFromOccupiedLeafs, FloodFillLeafsFromVoid"]}
{"id": "C33", "title": "Leak detection and outside filling are exact", "statement": "Filling reports a leak iff some entity's leaf is connected to the void leaf through passable portals; without a leak the leafs turned solid are exactly the non-sealing leafs not connected to an entity (inside fill) or connected to the void (outside fill), all others keep their contents.", "quantifier": "every portal graph, every set of entity positions, both fill types", "why_tests_cant": "Graphs are unbounded.", "anchors": ["qbsp/outside.cc: FillOutside, OutLeafsToSolid_R, MarkOccupiedLeafs"]}
{"id": "C34", "title": "Leak line is a shortest valid path", "statement": "When a leak is found the leak-line search never fails an assertion, and its result is a sequence of passable portals of least length joining the void leaf and an entity's leaf.", "quantifier": "every portal graph with a leak", "why_tests_cant": "Graphs are unbounded.", "anchors": ["qbsp/outside.cc: MakeLeakLine, FindPortalsToVoid"]}
{"id": "C35", "title": "Integer narrowing is exact or an error", "statement": "numeric_cast between integer types returns the same mathematical value when it is representable and throws otherwise.", "quantifier": "every value and every pair of integer types", "why_tests_cant": "The value ranges are too large to enumerate.", "anchors": ["include/common/numeric_cast.hh: numeric_cast"]}
{"id": "C36", "title": "Floating to integer conversion is exact or an error", "statement": "numeric_cast from float to an integer type never has undefined behaviour: the converted value is representable or an error is thrown.", "quantifier": "every float including NaN and values at the range boundary", "why_tests_cant": "Boundary values and NaN.", "anchors": ["include/common/numeric_cast.hh: numeric_cast, aabb_mins_cast, aabb_maxs_cast"]}
{"id": "C37", "title": "BSP record conversion round-trip", "statement": "If converting a generic node, face, leaf, clipnode, brush side or model to a format's record succeeds, converting back gives the same integer fields, and bounding boxes that contain the original ones.", "quantifier": "every record value, every supported format", "why_tests_cant": "Value ranges are too large to enumerate.", "anchors": ["common/bspfile_q1.cc", "common/bspfile_q2.cc", "include/common/numeric_cast.hh"]}
{"id": "C38", "title": "Clip node children round-trip through 16 bits", "statement": "Every child value accepted by the 16-bit clipnode encoder decodes to itself, and every value outside the documented range is refused.", "quantifier": "every 32-bit value", "why_tests_cant": "Contents values and node numbers share one 16-bit space.", "anchors": ["common/bspfile_q1.cc: bsp29_dclipnode_t::downcast, upcast"]}
{"id": "C39", "title": "Binary records round-trip", "statement": "Reading back the little-endian bytes written for any record gives the record and consumes exactly the bytes written.", "quantifier": "every record type of the BSP formats, every value", "why_tests_cant": "Value ranges are too large to enumerate; field order mistakes are hidden by symmetric samples.", "anchors": ["include/common/cmdlib.hh: operator<=, operator>=", "common/bspfile_q1.cc", "common/bspfile_q2.cc", "common/bspfile_generic.cc"]}
{"id": "C40", "title": "A written BSP file reads back to the same lumps", "statement": "Loading a written BSP file yields the same bytes for every lump; lumps are 4-byte aligned, do not overlap and lie inside the file.", "quantifier": "every lump content of every length", "why_tests_cant": "Offsets depend on all earlier lump lengths.", "anchors": ["common/bspfile.cc: bspfile_t::write_lump, WriteBSPFile, LoadBSPFile, lump_reader::read"]}
{"id": "C41", "title": "BSPX lumps survive a write and load", "statement": "Every BSPX lump attached to a BSP is found after loading the written file with the same name and bytes.", "quantifier": "every set of BSPX lumps", "why_tests_cant": "Names and contents are unbounded.", "anchors": ["common/bspfile.cc: bspfile_t::write_bspx, LoadBSPFile"]}
{"id": "C42", "title": "Malformed lump directories are refused", "statement": "Loading refuses a lump that does not lie in the file or whose length is not a multiple of its record size.", "quantifier": "every header", "why_tests_cant": "All headers.", "anchors": ["common/bspfile.cc: lump_reader::read, LoadBSPFile"]}
{"id": "C43", "title": "Texture lump round-trip", "statement": "Reading a written texture lump gives the same number of textures with the same names, sizes and data up to trailing padding of less than four zero bytes; missing textures stay missing.", "quantifier": "every texture list, at every 4-byte aligned file position", "why_tests_cant": "Offsets depend on all earlier texture sizes.", "anchors": ["common/bspfile_generic.cc: dmiptexlump_t::stream_write, stream_read, miptex_t"]}
{"id": "C44", "title": "Q2 visibility lump round-trip", "statement": "Reading a written Q2 visibility lump gives the same offsets and bits, and a stored bit offset is read back as the one set.", "quantifier": "every cluster count and bit data", "why_tests_cant": "Unbounded.", "anchors": ["common/bspfile_generic.cc: mvis_t"]}
{"id": "C45", "title": "BRUSHLIST BSPX lump round-trip", "statement": "Parsing the serialized brush list gives the same models, brushes and planes.", "quantifier": "every brush list with fewer than 65536 planes per brush", "why_tests_cant": "Unbounded nesting of variable-length lists.", "anchors": ["common/bspxfile.cc: bspxbrushes"]}
{"id": "C46", "title": "Quake native contents round-trip", "statement": "Reading a native Quake contents value and writing it back gives the same value for all contents the game defines, and only those are accepted.", "quantifier": "every native value", "why_tests_cant": "All 32-bit values.", "anchors": ["common/bspfile.cc: gamedef_q1_like_t::create_contents_from_native, contents_to_native"]}
{"id": "C47", "title": "Quake II native contents round-trip", "statement": "Reading any 32-bit native Quake II contents value and writing it back gives the same value.", "quantifier": "all 2^32 native values", "why_tests_cant": "Too many values to enumerate; a bit mapped twice or dropped shows only on that bit.", "anchors": ["common/bspfile.cc: gamedef_q2_t::create_contents_from_native, contents_to_native"]}
{"id": "C48", "title": "Combining contents is order independent", "statement": "Combining the contents of several brushes or of a cluster's leafs is commutative, associative and idempotent, so the result does not depend on brush or leaf order, and a solid contribution keeps it solid.", "quantifier": "every multiset of contents", "why_tests_cant": "All flag combinations and all orders.", "anchors": ["common/bspfile.cc: combine_contents, cluster_contents"]}
{"id": "C49", "title": "Portal transparency is symmetric and solids block", "statement": "Whether vis can see through a portal does not depend on the side order; solid on a side always blocks; equal non-solid contents on both sides never block.", "quantifier": "every pair of contents, both games, both transwater settings", "why_tests_cant": "All flag combinations.", "anchors": ["common/bspfile.cc: portal_can_see_through", "qbsp/portals.cc: Portal_VisFlood"]}
{"id": "C50", "title": "Opaque Quake II contents block vis and invisible ones do not", "statement": "In Quake II a portal between air and an opaque liquid blocks vis, and a portal between contents that differ only in invisible flags does not.", "quantifier": "every pair of contents", "why_tests_cant": "All flag combinations.", "anchors": ["common/bspfile.cc: gamedef_q2_t::portal_can_see_through"]}
{"id": "C51", "title": "Exported contents are always valid", "statement": "The contents remapped for export are valid for the target game so that writing leafs and brushes never aborts with an internal error.", "quantifier": "every leaf contents produced by combining brush contents", "why_tests_cant": "All flag combinations.", "anchors": ["common/bspfile.cc: contents_remap_for_export, contents_are_valid", "qbsp/writebsp.cc: ExportLeaf"]}
{"id": "C52", "title": "Setting precedence", "statement": "After any sequence of assignments a setting holds the last value assigned by the strongest source that assigned it (command line over map over game default), regardless of order between sources.", "quantifier": "every sequence of assignments", "why_tests_cant": "Histories are unbounded.", "anchors": ["include/common/settings.hh: setting_base::change_source, setting_value::set_value", "common/settings.cc"]}
{"id": "C53", "title": "Numeric settings stay in range", "statement": "After any successful parse, set or reset a numeric setting lies between its minimum and maximum; an in-range number on the command line is stored exactly and an out-of-range one as the nearest bound.", "quantifier": "every text, every bounds", "why_tests_cant": "All numbers; wrap-around at 2^32.", "anchors": ["include/common/settings.hh: setting_numeric"]}
{"id": "C54", "title": "Inverted options are inverted under every accepted spelling", "statement": "-noX sets X to false and -X sets it to true whatever accepted spelling of the option name (leading dashes or underscores) is used.", "quantifier": "every accepted spelling", "why_tests_cant": "All spellings.", "anchors": ["include/common/settings.hh: setting_invertible_bool", "common/settings.cc: setting_container::find_setting, parse"]}
{"id": "C55", "title": "Progress printing is mutually exclusive", "statement": "Two threads are never inside the progress printing section at the same time.", "quantifier": "every interleaving of any number of threads", "why_tests_cant": "Schedules are not controllable from a test.", "anchors": ["common/log.cc: percent"]}
{"id": "C56", "title": "CRC equals the CCITT polynomial", "statement": "CRC_Block over any byte string equals the bit-by-bit CRC-16/CCITT (0x1021, initial 0xffff), and can be computed incrementally.", "quantifier": "every byte string", "why_tests_cant": "All byte strings.", "anchors": ["common/cmdlib.cc: CRC_Init, CRC_ProcessByte, CRC_Block"]}
{"id": "C57", "title": "Memory streams never touch memory outside their buffer", "statement": "Reading or writing any number of bytes at any position of a memory stream transfers at most the bytes that remain and reports how many.", "quantifier": "every buffer, position and request size", "why_tests_cant": "All sizes and positions.", "anchors": ["include/common/cmdlib.hh: membuf"]}
{"id": "C58", "title": "Option and key ordering is a strict weak order", "statement": "The natural case-insensitive comparison used for ordered containers is irreflexive, transitive and has transitive incomparability.", "quantifier": "every triple of strings", "why_tests_cant": "All strings.", "anchors": ["common/cmdlib.cc: natstrlt, natstrcmp", "include/common/cmdlib.hh: natural_less"]}
{"id": "C59", "title": "Case-insensitive hash agrees with equality", "statement": "Strings that compare equal ignoring case have the same case-insensitive hash.", "quantifier": "every pair of strings", "why_tests_cant": "All strings.", "anchors": ["include/common/cmdlib.hh: case_insensitive_hash, case_insensitive_equal"]}
{"id": "C60", "title": "Text files read from disk are tokenized inside the file", "statement": "parse_token on a file image as fs::load returns it (no terminator) never reads outside the image.", "quantifier": "every file content, every flag combination", "why_tests_cant": "The read past the end shows only for particular last bytes and heap contents.", "anchors": ["common/parser.cc: parser_t::parse_token", "common/fs.cc: directory_archive::load"]}
{"id": "C61", "title": "Tokens are verbatim pieces of the text and the line number counts newlines", "statement": "A returned token is exactly the text between quotes, a maximal run of non-blank characters or a comment; nothing but blanks and comments is skipped; the line number is one plus the newlines before the position.", "quantifier": "every text and flag combination", "why_tests_cant": "All byte strings.", "anchors": ["common/parser.cc: parser_t::parse_token"]}
{"id": "C62", "title": "The entity parser terminates", "statement": "EntData_Parse on any string finishes with entities, an error or a detected failure.", "quantifier": "every string", "why_tests_cant": "All byte strings.", "anchors": ["common/entdata.cc: EntData_Parse, EntData_ParseInto, entdict_t::parse"]}
{"id": "C63", "title": "The portal file reader ends on every text", "statement": "Reading any portal file text ends with a portal file or with a reported error; it never loops forever and never uses values it did not read.", "quantifier": "every text", "why_tests_cant": "All texts; truncated files are not among the tests.", "anchors": ["common/prtfile.cc: LoadPrtFile"]}
{"id": "C64", "title": "Portals are loaded as consistent opposite pairs", "statement": "After loading, portal 2i leads from leaf a to leaf b and portal 2i+1 from b to a with the reversed winding and the opposite plane, and the portal list of each leaf is exactly the portals that start in it, in file order.", "quantifier": "every portal file that is read", "why_tests_cant": "Unbounded lists.", "anchors": ["vis/vis.cc: LoadPortals"]}
{"id": "C65", "title": "The portal count in the header is the number of portal lines", "statement": "The number of portals written in the portal file header equals the number of portal lines that follow.", "quantifier": "every tree", "why_tests_cant": "The count and the lines come from two traversals that must agree on every tree.", "anchors": ["qbsp/prtfile.cc: CountPortals, NumberLeafs_r, WritePortals_r"]}
{"id": "C66", "title": "Merged leafs keep each brush once", "statement": "When pruning merges two leafs, the brush list of the result contains every brush of the two exactly once.", "quantifier": "every pair of lists, every order the sort may produce", "why_tests_cant": "Unbounded lists; the result of an unstable sort.", "anchors": ["qbsp/tree.cc: ConvertNodeToLeaf"]}
{"id": "C67", "title": "Face lists of exported leafs tile the face array", "statement": "The leafs exported for a model list their faces in consecutive, disjoint ranges, each holding exactly the faces of its leaf, and the number of vis leafs is the number of leafs added.", "quantifier": "every tree", "why_tests_cant": "Trees are unbounded.", "anchors": ["qbsp/writebsp.cc: ExportLeaf, ExportDrawNodes, ExportDrawNodes(entity, node)"]}
{"id": "C68", "title": "Detail filling turns exactly the enclosed leafs solid", "statement": "Detail filling makes detail-solid exactly those leafs that do not seal for detail and are not connected to an entity's leaf through portals open for detail; all others keep their contents.", "quantifier": "every portal graph, every set of entities", "why_tests_cant": "Graphs are unbounded.", "anchors": ["qbsp/outside.cc: FillDetail, FillDetailEnclosedLeafsToDetailSolid_R, BFSFloodFillFromOccupiedLeafs"]}
{"id": "C69", "title": "Visible brush sides are those that face open space", "statement": "After filling, a side of the filled brushes is visible iff it is a hint side or it is coplanar with a portal between a non-opaque leaf and a leaf its brush is in.", "quantifier": "every tree, portal graph and brush list", "why_tests_cant": "Graphs are unbounded.", "anchors": ["qbsp/outside.cc: MarkBrushSidesInvisible, MarkVisibleBrushSides_R"]}
{"id": "C70", "title": "Saving then loading a BSP keeps its version and every lump", "statement": "For every supported version, loading a saved BSP file yields the same version and the same planes, vertices, nodes, faces, leafs, models, entities, light, visibility and BSPX lumps; textures keep their data up to fewer than four zero bytes.", "quantifier": "every BSP value of every version, every size below 2 GiB", "why_tests_cant": "The contents and lump sizes are unbounded and the loader guesses the game from the size of one lump; tests load a few sample maps.", "anchors": ["common/bspfile.cc: WriteBSPFile, LoadBSPFile, isHexen2, BSPVersionSupported, ReadQ1BSP, ReadQ2BSP"]}
{"id": "C71", "title": "Every visible contents change finds a brush for its face", "statement": "When the visible contents differ across a portal between two leafs, the strongest differing contents are the same whichever side is taken first, and at least one brush of the two leafs has a side that generates a face for it, so no visible surface is left without a texture source.", "quantifier": "every pair of brush lists of adjacent leafs, both games", "why_tests_cant": "All flag combinations and all brush lists; a missing face shows only for one combination.", "anchors": ["common/bspfile.cc: portal_visible_contents, portal_generates_face, combine_contents", "qbsp/portals.cc: FindPortalSide"]}
{"id": "C72", "title": "Command lines are consumed from the front and never lose an argument", "statement": "Parsing a command line leaves exactly the trailing arguments after the options, changes only settings named by an option (or a redirect to them), rejects unknown options, and afterwards the options summary can be printed.", "quantifier": "every container of settings and every command line", "why_tests_cant": "Unbounded argument lists and every mixture of option kinds.", "anchors": ["common/settings.cc: setting_container::parse, find_setting, print_summary", "include/common/settings.hh: setting_enum::string_value"]}
{"id": "C73", "title": "FACENORMALS and DECOUPLED_LM lumps round-trip", "statement": "Reading a FACENORMALS lump with the edge counts of the faces, or seeking to any face of a DECOUPLED_LM lump, returns exactly what was written.", "quantifier": "every table of normals, every list of per-face records, every face number", "why_tests_cant": "Unbounded tables; random access into the record array must line up with the stream layout for every index.", "anchors": ["common/bspxfile.cc: bspxfacenormals, bspx_decoupled_lm_perface", "common/bsputils.cc: BSPX_DecoupledLM"]}
{"id": "C74", "title": "BRUSHLIST of a compiled map", "statement": "The BRUSHLIST has one model for each entity with a brush model, in entity order; the world model also gets the brushes of world brush entities except illusionary ones; every brush carries its bounds, its non-axial planes and contents the engines know (-1..-6, -8); writing it does not fail.", "quantifier": "every entity list, both games, every brush", "why_tests_cant": "Depends on every combination of entity kinds, model keys, textures and entity flags.", "anchors": ["qbsp/qbsp.cc: BSPX_Brushes_AddModel, BSPX_CreateBrushList"]}
{"id": "C75", "title": "Truncated BRUSHLIST lumps", "statement": "A BRUSHLIST lump cut anywhere is read as the complete models before the cut, without undefined behaviour.", "quantifier": "every brush list, every cut", "why_tests_cant": "Every byte position of every lump is a different input.", "anchors": ["common/bspxfile.cc: bspxbrushes_permodel::stream_read"]}
{"id": "C78", "title": "Vertices put on the edges of a face", "statement": "T-junction fixing replaces each edge of a face by a path through vertices that lie on it, in order, keeps the vertices of the face itself, and leaves no candidate vertex strictly inside one of the pieces.", "quantifier": "every edge, every set of candidate vertices in any order, every monotone rounding of the piece ends", "why_tests_cant": "The recursion depends on the order in which candidates are found; tests only look at a few maps.", "anchors": ["qbsp/tjunc.cc: PointOnEdge, TestEdge, CreateSuperFace"]}
{"id": "C79", "title": "Minimum weight triangulation of faces", "statement": "With -tjunc mwt every face is cut into fragments whose triangles are exactly those of a triangulation of the face, with no zero-area triangle when one can be avoided, and of minimal total perimeter.", "quantifier": "every polygon, every table of weights that behaves like doubles, every iteration order of the hash set", "why_tests_cant": "The number of triangulations grows exponentially and the merging into fans depends on hash order.", "anchors": ["qbsp/tjunc.cc: minimum_weight_triangulation, compress_triangles_into_fans, find_best_fan, find_seed_vertex, mwt_face, FixFaceEdges"]}
{"id": "C80", "title": "Fragments keep to the edge limit", "statement": "Fixing a face never runs into an assertion, rotation finds a start without zero-area triangles if there is one, and with -maxedges no fragment has more edges than the limit.", "quantifier": "every face, level, limit and geometry", "why_tests_cant": "Only faces that are cut up and still too large show the fault.", "anchors": ["qbsp/tjunc.cc: SplitFaceIntoFragments, FixFaceEdges"]}
{"id": "C81", "title": "Retopologized faces", "statement": "Retopologizing a face ends, and the fans it is cut into cover the face without zero-area triangles.", "quantifier": "every polygon and geometry", "why_tests_cant": "Needs faces with vertices on several sides in particular rotations.", "anchors": ["qbsp/tjunc.cc: RetopologizeFace"]}
{"id": "C76", "title": "Faces and edges in the BSP file", "statement": "Every fragment of the tree with at least three vertices becomes one face, in tree order; its surfedges go around its vertices without using edge 0 or an edge of an earlier model; faces sharing an edge have the same contents in front; an edge is used forwards at most once; each node gets exactly the range of its own faces.", "quantifier": "every tree, every number of models and fragments, every contents and reuse setting", "why_tests_cant": "Sharing of edges depends on the order of faces over the whole map; a wrong edge only shows in the geometry of one face.", "anchors": ["qbsp/faces.cc: GetEdge, EmitEdges, EmitFaceFragment, EmitFaces_R, EmitFaces"]}
{"id": "C77", "title": "Export of texinfos and planes", "statement": "Each texinfo and plane is written to the BSP file at most once, with the fields of the map texinfo and a link to the exported next animation frame; rings of frames do not lead to endless recursion; skipped texinfos and links to them are -1; texture names are cut to 31 characters and a zero.", "quantifier": "every table of texinfos with any links between frames, every sequence of exports", "why_tests_cant": "Depends on the order of exports and on cyclic links.", "anchors": ["qbsp/writebsp.cc: ExportMapPlane, ExportMapTexinfo"]}
{"id": "C82", "title": "Vertices in the BSP file", "statement": "A corner of a face becomes a vertex within the tolerance box around it, vertices once written keep their number, no written vertex lies in the box around a later one, and asking again for a written vertex gives its number.", "quantifier": "every sequence of corners, every position, every search result allowed by the spatial hash", "why_tests_cant": "Floating point positions near the tolerance and their order are not covered by fixed test maps.", "anchors": ["qbsp/faces.cc: EmitVertex, EmitVertices_R"]}
{"id": "C83", "title": "Texinfo flags passed from qbsp to light", "statement": "Flags that light reads from the .texinfo.json file are the flags qbsp had for that texinfo.", "quantifier": "every table of texinfo flags, every float bit pattern, every target name", "why_tests_cant": "Needs every combination of present and absent fields, non-finite numbers and non-UTF-8 names.", "anchors": ["qbsp/writebsp.cc: WriteExtendedTexinfoFlags", "light/light.cc: LoadExtendedTexinfoFlags", "common/bspfile_common.cc: surfflags_t::needs_write"]}
{"id": "C84", "title": "Texinfos and animation frames", "statement": "FindTexinfo ends for all links between animated textures, gives equal texinfos the same number and different ones different numbers, and links each to the texinfo of the next frame; loading the frames of an animation ends.", "quantifier": "every table of texinfos and every graph of animation links", "why_tests_cant": "Cyclic chains of texture files are not part of test data.", "anchors": ["qbsp/map.cc: FindTexinfo, FindMiptex"]}
{"id": "C85", "title": "Full visibility loses no line of sight", "statement": "If the geometric tests refuse no portal on a line of sight, then base visibility, every portal flow and every state of every run, in any order of portals over any number of threads, keep each leaf on a line of sight in the might-see set of its portal, and in the visible set once the portal is done.", "quantifier": "every portal graph, every set of lines of sight, every answer of the tests, every order of starts and completions", "why_tests_cant": "A lost line of sight depends on the order in which portals complete and on sets read from other portals; tests see one order on one map.", "anchors": ["vis/flow.cc: RecursiveLeafFlow, PortalFlow, SimpleFlood", "vis/vis.cc: UpdateMightsee, PortalCompleted, GetNextPortal"]}
{"id": "C86", "title": "Files in PAK and WAD archives load byte for byte", "statement": "Every file listed in a PAK or WAD is loaded with exactly its bytes (the last of several entries of one name, names compared without regard to case), in whatever order and however often files are loaded; names that are not listed give nothing.", "quantifier": "all PAK and WAD images, all directories in them, all sequences of loads", "why_tests_cant": "sequences of loads share one stream whose failure state is never reset", "anchors": ["common/fs.cc: pak_archive", "common/fs.cc: wad_archive"]}
{"id": "C87", "title": "Malformed PAK and WAD files are refused", "statement": "A PAK or WAD file that is not a well-formed archive is refused with a warning and leaves the search lists as they were.", "quantifier": "all byte strings", "why_tests_cant": "the malformed files are unbounded in variety", "anchors": ["common/fs.cc: pak_archive::pak_archive", "common/fs.cc: wad_archive::wad_archive", "common/fs.cc: addArchiveInternal"]}
{"id": "C88", "title": "File search order", "statement": "A file is taken from the first place that has it, in the order of the file priority: loose files, directories and archives, newest first within each kind; adding an archive twice does not change the order, and a path into an archive is split at the archive.", "quantifier": "all histories of adding archives and loading files, all file systems", "why_tests_cant": "histories and file systems are unbounded", "anchors": ["common/fs.cc: where", "common/fs.cc: addArchive", "common/fs.cc: splitArchivePath", "common/fs.cc: load"]}
{"id": "C89", "title": "Textures decode to the pixels of the file", "statement": "A well-formed WAL or miptex yields its width, height, flags, contents, value and animation name, and one pixel for each byte of the image with the colour of that byte in the palette, transparent exactly for byte 255; a Half-Life miptex uses the palette stored behind its last image.", "quantifier": "all byte strings that are well-formed images, all palettes of 256 colours", "why_tests_cant": "image files are unbounded in variety", "anchors": ["common/imglib.cc: load_wal", "common/imglib.cc: load_mip", "common/imglib.cc: convert_paletted_to_32_bit"]}
{"id": "C90", "title": "Malformed textures do not read outside the file", "statement": "A truncated or inconsistent WAL or miptex is refused or yields a texture of width times height pixels; nothing is read outside the file.", "quantifier": "all byte strings", "why_tests_cant": "malformed files are unbounded in variety, and reads past the buffer do not fail tests reliably", "anchors": ["common/imglib.cc: load_wal", "common/imglib.cc: load_mip"]}
{"id": "C91", "title": "Average colour of a texture", "statement": "The average colour of a texture is the mean of its visible pixels, rounded down, so each component lies between the smallest and the largest of that component; it is defined for every texture.", "quantifier": "all pixel lists", "why_tests_cant": "textures are unbounded; the undefined conversion gives a platform-dependent value", "anchors": ["common/imglib.cc: calculate_average", "common/imglib.cc: AddTextureName"]}
{"id": "C92", "title": "The light grid lump stores every sample", "statement": "For every grid, a reader of the LIGHTGRID_OCTREE lump finds at every grid point what was calculated there: nothing at an occluded point, otherwise the style and colour of every used slot; the leafs of the octree are disjoint boxes inside the grid that cover all points that are not occluded.", "quantifier": "all grid sizes, all samples and occlusion at the points", "why_tests_cant": "grids are three-dimensional and unbounded, and the octree depends on every point", "anchors": ["light/lightgrid.cc: MakeOctreeLump", "light/lightgrid.cc: build_octree", "light/lightgrid.cc: LightGrid"]}
{"id": "C93", "title": "Scaling a BSP keeps the tree", "statement": "After bsputil --scale, the walk down the tree for a scaled point ends in the same leaf (and in the clip hulls in the same contents) as the walk for the point did before.", "quantifier": "all BSP files, all factors other than 0, all points off the planes of the tree", "why_tests_cant": "trees, planes and points are unbounded; the sign combinations of the factors matter", "anchors": ["bsputil/bsputil.cc: bsputil_main --scale", "bsputil/bsputil.cc: planelist_t", "bsputil/bsputil.cc: NormalDistanceToThreePoints", "common/bsputils.cc: BSP_FindLeafAtPoint"]}
{"id": "C94", "title": "Scaling a BSP keeps the faces", "statement": "After bsputil --scale every face has the scaled corners, in the opposite order when the map is mirrored, its edges still follow each other, and what was in front of it stays in front of it.", "quantifier": "all BSP files, all factors other than 0, all faces", "why_tests_cant": "faces and factor combinations are unbounded", "anchors": ["bsputil/bsputil.cc: bsputil_main --scale", "common/bsputils.cc: Face_VertexAtIndex", "common/bsputils.cc: Face_Plane"]}
{"id": "C95", "title": "Scaling a BSP keeps texture coordinates, bounds and the light grid", "statement": "After bsputil --scale a scaled point has the texture and lightmap coordinates of the point, lies within the bounds of the leafs and nodes that contained the point, and every point of the light grid is where the scaled point is.", "quantifier": "all factors, vectors, bounds and grids", "why_tests_cant": "real-valued inputs of any size and sign", "anchors": ["bsputil/bsputil.cc: bsputil_main --scale"]}
{"id": "C96", "title": "Lightmaps are where their faces say", "statement": "Whatever the order in which threads reserve space and write, every face with light styles finds the samples of each style at its offset (and, for decoupled or scaled lightmaps, at that offset), no block overlaps another, nothing is written outside the data, and faces without styles have no lightmap.", "quantifier": "all numbers and sizes of faces, all numbers of styles, all schedules of reservations and of byte writes, all storage modes", "why_tests_cant": "schedules and faces are unbounded; overlaps only show in some maps", "anchors": ["light/write.cc: GetFileSpace", "light/write.cc: SaveLightmapSurface", "light/write.cc: SaveLightmapSurfaces", "light/light.cc: CreateLightmapSurfaces"]}
{"id": "C97", "title": "A face keeps its brightest light styles", "statement": "The light styles saved for a face are the brightest ones that are not dark, brightest first; none is left out while there is room; Quake II faces always have one; engines use all the styles that were saved.", "quantifier": "all collections of lightmaps, all limits", "why_tests_cant": "collections of styles are unbounded", "anchors": ["light/write.cc: CalculateLightmapStyles", "light/ltface.cc: Lightmap_ForStyle"]}
{"id": "C98", "title": "Light grid samples are the light of each style", "statement": "The samples of a light grid point hold, for each of its light styles, the sum of all light of that style, independent of the order of the lights; adding two points is like lighting both.", "quantifier": "all sequences of lights", "why_tests_cant": "sequences are unbounded; five styles at one point are rare", "anchors": ["light/ltface.cc: lightgrid_samples_t::add", "light/ltface.cc: lightgrid_samples_t::operator+="]}
{"id": "C99", "title": "Filters of lightmaps stay inside and between", "statement": "Filling transparent samples ends for every lightmap, leaves opaque samples alone and makes all samples opaque when one is; downsampling and blurring read inside the lightmap only; all colours produced lie between the colours they are made of; downsampling keeps the mean.", "quantifier": "all lightmaps, sizes, factors and radii", "why_tests_cant": "images are unbounded; termination is not testable", "anchors": ["light/write.cc: FloodFillTransparent", "light/write.cc: IntegerDownsampleImage", "light/write.cc: BoxBlurImage"]}
{"id": "C100", "title": "The Quake II palette is the end of the colour map", "statement": "With Quake II the palette is the 256 colours in the last 768 bytes of pics/colormap.pcx, when that is a PCX file of version 5 with 8 bits per pixel; a missing, empty or other file leaves the built-in palette, and no file makes the tools read outside of it.", "quantifier": "all contents of the file", "why_tests_cant": "contents are unbounded; short files are not tried", "anchors": ["common/imglib.cc: LoadPCXPalette", "common/imglib.cc: init_palette"]}
{"id": "C101", "title": "A BSP leaf has the contents of the brushes around it", "statement": "For every point off all planes at which splitting brushes is exact, the leaf of the tree built by BrushBSP around it holds a piece of exactly the input brushes that contain the point, in input order; if the point is behind all sides of the brushes in the leaf, the contents of the leaf are combined from exactly those brushes.", "quantifier": "all brush lists, geometry oracles, split methods, points", "why_tests_cant": "trees over all brush lists cannot be enumerated, and a wrong leaf shows only at points inside it", "anchors": ["qbsp/brushbsp.cc: BuildTree_r", "qbsp/brushbsp.cc: SplitBrushList", "qbsp/brushbsp.cc: SplitBrush", "qbsp/brushbsp.cc: LeafNode", "qbsp/brushbsp.cc: BrushBSP"]}
{"id": "C102", "title": "Building a BSP tree ends without internal errors", "statement": "BrushBSP ends on all brushes whatever the geometry says, no plane is used twice on a path (so \"Tried parent\" and \"PSIDE_FACING with splits\" are never raised and the height is at most the number of planes), and a leaf is made only when every side is a bevel, windingless, used, hintskip or rejected.", "quantifier": "all brush lists, all geometry oracles, all split methods", "why_tests_cant": "termination and absence of errors over all maps", "anchors": ["qbsp/brushbsp.cc: SelectSplitPlane", "qbsp/brushbsp.cc: CheckPlaneAgainstParents", "qbsp/brushbsp.cc: BuildTree_r"]}
{"id": "C103", "title": "Chopping keeps the solid space", "statement": "ChopBrushes keeps, at every point at which splitting is exact, whether it is inside a solid and inside a structural solid brush; the brushes around a point afterwards are some of those before, in order; brushes that are not solid or are marked no_chop stay as they are; it ends; its output has no intersecting brushes.", "quantifier": "all brush lists, geometry oracles, points, with and without fragmentation", "why_tests_cant": "interaction of many overlapping brushes; lists and cuts are unbounded", "anchors": ["qbsp/brushbsp.cc: ChopBrushes", "qbsp/brushbsp.cc: SubtractBrush", "qbsp/brushbsp.cc: BrushGE", "qbsp/brushbsp.cc: BrushesDisjoint"]}
{"id": "C104", "title": "Structural planes are chosen before detail planes", "statement": "SelectSplitPlane chooses the best valued plane of the first pass that has one (structural before detail, visible before invisible), marks exactly the nodes split by detail brushes as detail separators with only detail separators below them, and never splits a hint side except with another hint.", "quantifier": "all brush lists, volumes, geometry oracles", "why_tests_cant": "wrong separators show only as missing or extra vis portals on particular maps", "anchors": ["qbsp/brushbsp.cc: SelectSplitPlane", "qbsp/brushbsp.cc: ChooseMidPlaneFromList", "qbsp/brushbsp.cc: TestBrushToPlanenum", "include/qbsp/qbsp.hh: nodedata_t"]}
{"id": "C105", "title": "Areas of Quake II maps are the parts between area portals", "statement": "After EmitAreaPortals two leafs outside of area portals have the same area exactly if a path that crosses no area portal joins them, a leaf has an area exactly if such a path leads there from a leaf entities can reach, areas are numbered without gaps; the two areas of an area portal are the two lowest ones that border on it; the portals listed for an area are exactly the area portals it borders on with the area on the other side, and lists agree in both directions.", "quantifier": "all leaf graphs, contents, entities", "why_tests_cant": "connectivity over unbounded portal graphs; a wrong area shows only in game when a door closes", "anchors": ["qbsp/portals.cc: FloodAreas_r", "qbsp/portals.cc: FindAreas_r", "qbsp/portals.cc: SetAreaPortalAreas_r", "qbsp/portals.cc: EmitAreaPortals"]}
{"id": "C106", "title": "Every targetname of switchable lights has one style", "statement": "Two requests get the same style exactly if they are for the same nonempty targetname; styles are in [compilerstyle_start, compilerstyle_max) and the error is raised exactly if there are too many names; lights and switchable shadows of one name share a style, shadows without a name get their own; lighting again gives the same styles; requests from surface lights are consistent as well.", "quantifier": "all lists of entities and names, all interleavings of threads", "why_tests_cant": "lists of names are unbounded; thread interleavings cannot be enumerated by tests", "anchors": ["light/entities.cc: LightStyleForTargetname", "light/entities.cc: TargetnameForLightStyle", "light/entities.cc: LoadEntities", "light/surflight.cc: MakeSurfaceLight"]}
{"id": "C107", "title": "Escape sequences in entity values", "statement": "\"\\b\" in a value switches bit 7 of the bytes that follow on and off and is removed; values without it are kept, no value grows; handling a handled value again changes nothing; file names are kept.", "quantifier": "all byte strings", "why_tests_cant": "all strings; problems need particular sequences of backslashes", "anchors": ["light/entities.cc: ParseEscapeSequences", "light/entities.cc: LoadEntities"]}
{"id": "C108", "title": "Map files survive being read and written", "statement": "Reading the text map_file_t::write prints for a map gives the same entities, keys, brushes, plane points, texture names, texture projections and surface information; reading ends for every text without leaving it.", "quantifier": "all maps whose parts can be printed, all texts, all ways numbers are printed and read back", "why_tests_cant": "maps and texts are unbounded and sides nest in brushes in entities; a wrong blank or comment only matters for particular neighbours", "anchors": ["common/mapfile.cc: map_file_t::parse", "common/mapfile.cc: map_file_t::write", "common/mapfile.cc: brush_side_t::write", "common/mapfile.cc: parse_texture_def", "common/mapfile.cc: parse_extended_texinfo", "common/mapfile.cc: parse_entity_dict", "common/mapfile.cc: parse_brush"]}
{"id": "C109", "title": "Conversions of texture projections keep the projection", "statement": "Converting a side to Valve 220 or to quaked style keeps the texture coordinates of all points; quaked projections lie in the plane of the closest axis with perpendicular vectors of inverse scale; QuArK projections put the plane points at (0,0), (128,0), (0,-128).", "quantifier": "all normals, plane points, shifts, rotations, scales (as real numbers), all indeterminate values", "why_tests_cant": "the parameters are continuous; wrong signs or shifts appear only for particular orientations and stack contents", "anchors": ["common/mapfile.cc: brush_side_t::set_texinfo", "common/mapfile.cc: TexDef_BSPToValve", "common/mapfile.cc: TexDef_BSPToQuakeEd", "common/mapfile.cc: Reverse_QuakeEd", "common/mapfile.cc: evalTexDefAtPoint", "include/common/mapfile.hh: texture_axis_t"]}
{"id": "C110", "title": "Portals of a BSP tree connect the right leafs", "statement": "Building portals never finds a mislinked portal. Each portal leads from a leaf to the outside, or lies on a node and leads from a leaf in front of it to one behind it. Its points belong to both leafs, the portals cover the box and the node windings without overlap, and the list of portals at each node can be walked and has each portal once.", "quantifier": "all trees, both portal types, all windings and clipping results; for the geometric parts all clippings that are sound", "why_tests_cant": "trees are recursive and of any size; a wrongly linked portal shows as a leak or a missing surface in one map only", "anchors": ["qbsp/portals.cc: MakeHeadnodePortals", "qbsp/portals.cc: MakeNodePortal", "qbsp/portals.cc: SplitNodePortals", "qbsp/portals.cc: ClipNodePortalsToTree_r", "qbsp/portals.cc: MakeTreePortals_r", "qbsp/portals.cc: AddPortalToNodes", "qbsp/portals.cc: MakePortalsFromBuildportals"]}
{"id": "C111", "title": "Windings keep their points in order", "statement": "Whatever sequence of operations is applied to windings (push, resize, clear, copy, move, write), each winding has the points of the corresponding list, whether they are in the fixed array or in the vector behind it.", "quantifier": "all sequences of operations on any number of windings, all capacities and points", "why_tests_cant": "a wrong point needs a history of growing over the fixed array and shrinking; tests make windings once", "anchors": ["include/common/polylib.hh: winding_storage_hybrid_t", "include/common/polylib.hh: winding_storage_stack_t", "include/common/polylib.hh: winding_storage_heap_t"]}
{"id": "C112", "title": "Clipping splits a winding without loss", "statement": "When a winding is clipped by a plane each of its points is in the front part or in the back part, nothing is added, no part is on the wrong side of the plane by more than the epsilon, and both parts are convex polygons with at least three points in the same order and plane.", "quantifier": "all convex polygons of any size, all planes with unit normal, all epsilons", "why_tests_cant": "polygons and planes are real-valued and of any size; tests clip a few squares", "anchors": ["include/common/polylib.hh: clip", "include/common/polylib.hh: clip_front", "include/common/polylib.hh: clip_back"]}
{"id": "C113", "title": "The winding of a brush side is the side", "statement": "The winding that is made for a plane lies on it and has all of its points in the extents. The winding of a brush side has each point of the side that is strictly inside of the other sides; it lies on the plane of the side and in all other sides up to the epsilon. There is no undefined behaviour.", "quantifier": "all planes with unit normal, all brushes, extents and epsilons", "why_tests_cant": "the winding depends on all planes of a brush; tests compare a few brushes", "anchors": ["include/common/polylib.hh: from_plane", "qbsp/brush.cc: CreateBrushWindings", "qbsp/map.cc: CalculateBrushBounds"]}
{"id": "C114", "title": "Plane numbers stand for the planes asked for", "statement": "Planes are stored in pairs of opposite planes, the first one of a pair facing up its major axis. Each request is answered with the number of a plane that agrees with the one asked for up to half of the epsilons, and the number keeps that plane for ever. Stored planes are never within the tolerances of each other, so a request for a stored plane always gives its own number and a request for its opposite the other number of the pair.", "quantifier": "all sequences of requests, all planes, all choices that the spatial index may make among planes in the box", "why_tests_cant": "the answer depends on the whole history of requests and on the order of the spatial index; tests ask for few planes", "anchors": ["qbsp/map.cc: add_plane", "qbsp/map.cc: find_plane_nonfatal", "qbsp/map.cc: add_or_find_plane", "qbsp/qbsp.cc: qbsp_plane_t::normalize"]}
{"id": "C115", "title": "Bevels of a brush", "statement": "AddBrushBevels keeps every face of the brush, and ends with the six axial directions in fixed order as the first six faces; a missing direction becomes a bevel at the bounds. The other bevels contain an edge of the brush and are parallel to an axis. All vertices are behind all bevels, and no plane through an edge and along an axis that has all vertices behind it is missing, if the edge is at least half a unit long and on a slanted face.", "quantifier": "all brushes with unit normals and any windings, all answers of the table of planes within its tolerance", "why_tests_cant": "brushes are real-valued and have any number of faces; a missing or wrong bevel is only seen when a player slides along it", "anchors": ["qbsp/map.cc: AddBrushBevels", "include/common/qvec.hh: Snap"]}
{"id": "C116", "title": "A brush is expanded by the size of the hull", "statement": "The sides of a brush for a clipping hull contain each sum of a point of the brush and a vector of the hull, each plane is moved no further than needed for that, and an axial box is expanded exactly. The point hull has the planes of the brush and no bevels.", "quantifier": "all brushes, hulls and points", "why_tests_cant": "which points are solid for a player is a statement about all points; tests look at a few brushes of a map", "anchors": ["qbsp/brush.cc: LoadBrush", "qbsp/map.cc: AddBrushBevels"]}
{"id": "C117", "title": "BSPX lumps for styles and offsets", "statement": "With scaled lightmaps (LMSHIFT, lit2 or more than four styles), an engine that reads LMSTYLE16, LMSTYLE and LMOFFSET, or the record of a face where there is no lump, gets for every face exactly the styles saved for it, in their order, and the offset of its scaled lightmaps. Lumps are only written when they are needed; styles are never cut to a byte.", "quantifier": "all numbers of faces, all lists of styles, all offsets, both settings of -novanilla, all scales", "why_tests_cant": "the reader is an engine; which lump is written depends on all faces together", "anchors": ["light/light.cc: LightWorld", "light/write.cc: SaveLightmapSurfaces", "light/write.cc: SaveLightmapSurface"]}
{"id": "C118", "title": ".lit and .lux files hold the colours and directions of the lightmaps", "statement": "A .lit file is a header of eight bytes and three bytes for each byte of light data, and so for .lux, RGBLIGHTING and LIGHTINGDIR; the colours of a lightmap at offset o are at 8 + 3 o. -litonly writes the colours for the styles and offsets that the file has, whatever the order of the threads, black for styles that were not computed, and does not change the light data. The shift of the LMSHIFT lump is the one written again.", "quantifier": "all lightmaps, files, flags and orders of the threads", "why_tests_cant": "threads write in any order; sizes of several buffers have to agree for all maps and options", "anchors": ["light/write.cc: WriteLitFile", "light/write.cc: WriteLuxFile", "light/write.cc: SaveLitOnlyLightmapSurface", "light/write.cc: SaveLightmapSurfaces", "light/light.cc: LightWorld"]}
{"id": "C119", "title": "Attenuation, angle and cone of lights", "statement": "The light of an entity keeps the sign of its key, never grows with the distance, ends where falloff or the linear formula says, and has the brightness of the key at the documented distance. Angle and cone only weaken it; nothing comes from behind unless the light bleeds or the face is two-sided; the cone has the angles of the keys. With a positive \"dist\" every sample gets a finite value whatever the keys are.", "quantifier": "all lights, distances, directions, cones and settings", "why_tests_cant": "formulas over real numbers; a test samples a few distances and angles", "anchors": ["light/ltface.cc: GetLightValue", "light/ltface.cc: GetLightValueWithAngle", "light/ltface.cc: GetLightContrib", "light/entities.cc: SetupSpotlights", "light/entities.cc: CheckEntityFields"]}
{"id": "C120", "title": "Culling lights changes no lightmap", "statement": "A light that CullLight rejects by the bounding sphere of a surface, or LightFace_Entity because it is behind the plane, would not have passed the gate at any sample of the surface.", "quantifier": "all lights, surfaces, samples in the bounding sphere, gates and dirt factors", "why_tests_cant": "an equivalence of two computations for all positions; a test can only compare single maps", "anchors": ["light/ltface.cc: CullLight", "light/ltface.cc: LightFace_Entity", "light/ltface.cc: GetLightContrib"]}
{"id": "C121", "title": "Dirt only darkens", "statement": "The dirt factor is between 0 and 1, falls with occlusion and with the distance to the light, is 1 where dirt is off or within dirt_off_radius, and 0 at full occlusion with a scale of at least 1 beyond dirt_on_radius.", "quantifier": "all settings of world and light, all occlusions and distances", "why_tests_cant": "a monotone function of real numbers", "anchors": ["light/ltface.cc: Dirt_GetScaleFactor", "light/ltface.cc: fraction"]}
{"id": "C122", "title": "Final colours are between 0 and 255 and keep their hue", "statement": "Scaling, maxlight, lightcolorscale, gamma and clamping give components between 0 and 255 whose order is that of the input; the brightest one is the function of the settings that the documentation gives, and without gamma and lightcolorscale the colour is a multiple of the input.", "quantifier": "all colours, all settings in their ranges", "why_tests_cant": "a function of real numbers with a power; tests cover default settings", "anchors": ["light/write.cc: LightFace_ScaleAndClamp", "light/ltface.cc: LightPoint_ScaleAndClamp"]}
{"id": "C123", "title": "Bytes of lightmaps, .lit and .lux", "statement": "The bytes of a luxel in the .lit file are its colour rounded down, the byte in the .bsp is the largest of the three, as engines require, and the bytes of .lux decode to the direction within 1/128. No conversion is undefined.", "quantifier": "all averages of valid colours, all directions and tangent vectors, all decoupled lightmaps and positions", "why_tests_cant": "conversion of floats to bytes is undefined outside the range and tests do not notice", "anchors": ["light/write.cc: WriteSingleLightmap", "light/write.cc: WriteSingleLightmap_FromDecoupled"]}
{"id": "C124", "title": "Points of a BSP are found where the tree says", "statement": "For every file whose trees are well formed, the leaf of a point is the one whose planes it satisfies, a point counts as solid exactly if a solid leaf has it within the tolerance on every plane of its path, the contents of a clipping hull are those of the reached leaf, and a face is found under a point if a node on the path lies within the tolerance and has a face there that is wanted. Light entities and samples in solid are moved by the documented steps, to the first free place.", "quantifier": "all trees, planes, points and predicates; all files whose nodes are well formed (files that are not are stated separately)", "why_tests_cant": "depends on an arbitrary tree and on real distances; tests use a few maps and points", "anchors": ["common/bsputils.cc: BSP_FindLeafAtPoint", "common/bsputils.cc: Light_PointInSolid_r", "common/bsputils.cc: BSP_FindContentsAtPoint", "common/bsputils.cc: BSP_FindFaceAtPoint", "light/trace.cc: Light_PointInLeaf", "light/entities.cc: FixLightOnFace", "light/ltface.cc: Light_PointInAnySolid"]}
{"id": "C125", "title": "Lights skipped by visibility are those that the face cannot see", "statement": "With visibility data a light is skipped for a surface only if no leaf containing the surface sees the leaf or cluster of the light according to the vis lump written by vis; without data none is skipped, and lumps are decompressed without reading outside of them.", "quantifier": "all vis lumps, leafs, marks, surfaces and lights of both games", "why_tests_cant": "an equivalence over all visibility matrices and leaf lists", "anchors": ["light/ltface.cc: Mod_LeafPvs", "light/ltface.cc: CalcPvs", "light/ltface.cc: VisCullEntity", "common/bsputils.cc: DecompressAllVis", "light/light.cc: UncompressedVis"]}
{"id": "C126", "title": "Lightmaps cover their faces and luxels convert to points and back", "statement": "For every face the size of the lightmap is the least one that covers all of the face; luxel coordinates are the texture coordinates over the scale (or two world coordinates over the units per luxel); luxels convert to points of the plane and back without loss; the samples of a luxel are spread evenly around it and lie one unit in front of the face; the bounding sphere holds the face.", "quantifier": "all texture axes, planes, polygons, scales and supersampling factors", "why_tests_cant": "real geometry with inverse matrices; tests check some faces within a tolerance", "anchors": ["common/bsputils.cc: faceextents_t::faceextents_t", "common/qvec.cc: qv::inverse", "include/common/qvec.hh: MakeTangentAndBitangentUnnormalized", "light/ltface.cc: CalcPoints"]}
{"id": "C127", "title": "Texture sampling repeats and stays in the texture", "statement": "The pixel that light reads for a point is the whole part of its scaled texture coordinates modulo the size of the texture, also for negative coordinates, and lies within the pixels.", "quantifier": "all texture coordinates, sizes and scales", "why_tests_cant": "negative and huge coordinates; an index out of range is silent undefined behaviour", "anchors": ["light/trace.cc: clamp_texcoord", "light/trace.cc: SampleTexture"]}
{"id": "C128", "title": "Merged faces cover what the faces covered", "statement": "qbsp merges faces only if they have one plane, texture and lightmap scale and lie on one side of borders of the sky (and of liquids, if asked); the merged face is convex and covers exactly the two faces; merging a list of faces ends, leaves no face that merges with an earlier one, and for each kind of face covers the same points before and after.", "quantifier": "all lists of faces, planes and windings", "why_tests_cant": "real geometry and restarts of a loop over a changing list; tests compare the number of faces of a few maps", "anchors": ["qbsp/merge.cc: TryMerge", "qbsp/merge.cc: MergeFaceToList", "qbsp/merge.cc: MergeFaceList"]}
{"id": "C129", "title": "A leaf hears exactly the sounds of what it sees", "statement": "After vis, each ambient sound of a leaf is at full volume if the leaf sees a leaf with a face whose texture is a source of that sound, however far away, and silent otherwise; each texture is a source of one sound at most, options switch off single sources, and with all of them switched off no leaf has a sound.", "quantifier": "all BSPs, visibilities, texture names and options", "why_tests_cant": "the row of a leaf, its cluster and the faces behind it all have to be right at once; tests do not look at the levels", "anchors": ["vis/soundpvs.cc: CalcAmbientSounds"]}
{"id": "C130", "title": "Exported textures can be loaded again", "statement": "bsputil --extract-textures writes a WAD that opens, whose entries are the textures with pixels in their order, and loading a name returns the data of the last texture of that name.", "quantifier": "all lists of textures and sequences of loads", "why_tests_cant": "offsets of all entries add up over the file; tests export a few textures", "anchors": ["bsputil/bsputil.cc: ExportWad"]}
{"id": "C131", "title": "Models are numbered in the order of the map, and -onlyents agrees", "statement": "Whatever the hulls, the world is model 0, the entities whose brushes make a model of their own have the numbers from 1 on in the order of the map and a key \"model\" that names that number, and no other entity changes its key; the entity lump reads back as those entities; and -onlyents writes the keys that a compile of the same map writes.", "quantifier": "all maps, external maps, hulls and option values", "why_tests_cant": "the numbers depend on all entities before and on every hull agreeing with the first; tests compile maps with a few brush entities and do not compare with -onlyents", "anchors": ["qbsp/qbsp.cc: ProcessEntity", "qbsp/qbsp.cc: UpdateEntLump", "qbsp/map.cc: WriteEntitiesToString"]}
{"id": "C132", "title": "Bounding boxes bound", "statement": "The box of points, the union, the intersection, a grown and a moved box and the tests on boxes are what they are for sets of points; the bounds of each node of a portalized tree have all points of the portals below it; and the search for vertices near an edge that skips nodes by their bounds finds every vertex of a matching face near the edge.", "quantifier": "all boxes of any dimension, all trees and faces", "why_tests_cant": "the statements are about all points of boxes and all trees; tests look at single boxes", "anchors": ["include/common/aabb.hh", "qbsp/portals.cc: CalcTreeBounds_r", "qbsp/tjunc.cc: FindEdgeVerts_FaceBounds_R"]}
{"id": "C133", "title": "Polygons of faces: inside, closest point, interpolated normals", "statement": "A sample point is inside of a face when it is within 0.05 of the inner side of each edge; the closest point on its boundary is a closest one; the phong normal in a face is the barycentric mean of the normals of three of its corners and on an edge depends on the ends of the edge alone, so that neighbouring faces agree; area and centroid do not depend on the first point; the edge that a point outside of a face is continued over is one that the point is behind.", "quantifier": "all convex polygons in any plane, all points", "why_tests_cant": "the statements hold for every point of every polygon; tests look at single points", "anchors": ["common/mathlib.cc: EdgePlanes_PointInside, ClosestPointOnPolyBoundary, InterpolateNormal, LinesOverlap", "include/common/qvec.hh: PolyArea, PolyCentroid, Barycentric_FromPoint, MakeTangentAndBitangentUnnormalized", "light/ltface.cc: CalcPointNormal"]}
{"id": "C134", "title": "Smoothed normals of faces", "statement": "Two faces are smoothed exactly if they share a vertex, both ask for it, their groups and texture flags agree and the angle between them is within the lesser of their two angles; smoothing is mutual; the normal at every corner of a face has length 1 and is within the allowed angle of the normal of the face; faces that are smoothed with each other have the same normal at the vertices they share; a face that is smoothed with none keeps its normal; the keys of a model concern its own faces; the face found across an edge is the one that has the edge the other way round.", "quantifier": "all maps: faces, vertices, texinfos, angles, groups and keys of models", "why_tests_cant": "the relation between all pairs of faces and the sums of weighted normals depend on the whole map; tests look at single faces", "anchors": ["light/phong.cc: CalculateVertexNormals, FacesSmoothed, Face_EdgeIndexSmoothed, GetSurfaceVertexNormal, Q2_FacePhongValue", "common/bspfile.cc: surfflags_may_phong"]}
{"id": "C135", "title": "Converting whole BSPs between formats", "statement": "Loading a BSP file of any version, converting it to the generic form and back to its version gives every record that was loaded; converting it to a wider version of the same game is never refused and can be undone; converting a generic BSP either succeeds and keeps everything the format has room for, or returns false, changes nothing and some record does not fit; qbsp writes the version asked for or, if something does not fit and that is allowed, its wide sibling, or stops.", "quantifier": "all BSP files, all generic BSPs and all nine versions", "why_tests_cant": "every member of every lump has its own conversion in each direction; tests load and save a few maps of one version", "anchors": ["common/bspfile.cc: ConvertBSPFormat, ConvertQ1BSPToGeneric, ConvertQ2BSPToGeneric, ConvertGenericToQ1BSP, ConvertGenericToQ2BSP, CopyArray", "qbsp/writebsp.cc: WriteBSPFile"]}
{"id": "C136", "title": "Minimum light", "statement": "The minimum light of a face is the greater of that of worldspawn and the one of its model or texture; it raises every sample that is below it to it, and no other sample and no other style; local minimum lights leave every sample that sees them at least as bright; autominlight fills exactly the samples it is meant for with the light at its point; nothing before the negative lights makes a sample darker; the mottled pattern adds between 0 and 48.", "quantifier": "all faces: samples, dirt, styles present, keys, texture flags, lights, light at the point", "why_tests_cant": "the outcome is a combination of keys of three places, of all samples and of the styles that happen to exist; a test sees one combination", "anchors": ["light/ltface.cc: Lightsurf_Init, Lightmap_ForStyle, Lightmap_Save, Light_ClampMin, Mottle, LightFace_Min, LightFace_LocalMin, LightFace_AutoMin, PostProcessLightFace", "light/entities.cc: CheckEntityFields", "qbsp/map.cc: SetTextureFlags"]}
{"id": "C137", "title": "bsputil --check", "statement": "The warnings of bsputil --check are exactly those of a fixed table of conditions on the records; a file that gives none but the harmless ones has every reference in range; if its vertices are all there, its root is and its nodes have no cycle, the check itself reads nothing out of bounds and ends; the height it prints is the length of the longest way down.", "quantifier": "all generic BSPs: numbers and contents of all records", "why_tests_cant": "each warning compares one of about twenty members with the size of another lump, in mixed signed and unsigned arithmetic; a test has one file", "anchors": ["bsputil/bsputil.cc: CheckBSPFacesPlanar, Node_Height, PrintNodeHeights, CheckBSPFile"]}
{"id": "C138", "title": "Suns, sky domes and split lights", "statement": "Splitting a light by _deviance gives _samples lights that stay within _deviance of it along each axis and add up to its brightness; a sun is split into unit directions around the given one that add up to its brightness; a sky dome has 4n*n+1 unit directions from above (or below), balanced sideways, that add up to the brightness asked for, with 4n*n+1 as near to the number of samples as n can make it.", "quantifier": "all lights, sun keys, penumbras, numbers of samples and streams of random numbers", "why_tests_cant": "the directions are random and thousands; a test has one stream and looks at one picture", "anchors": ["light/entities.cc: AddSun, SetupSun, SetupSuns, SetupSkyDome, SetupSkyDomes, JitterEntity, JitterEntities, CheckEntityFields"]}
{"id": "C139", "title": "Keys that light rewrites", "statement": "Without lightmap_scale entities are unchanged, otherwise that key goes and only _lightmap_scale changes; -arghradcompat moves the value of each Arghrad key to the key of this tool and converts the angle scale, and changes nothing else.", "quantifier": "all dictionaries: keys, values, order of pairs", "why_tests_cant": "the outcome depends on which pair follows the renamed one; a test has one order", "anchors": ["light/entities.cc: LoadEntities"]}
{"id": "C140", "title": "bsputil edits only what it is asked to", "statement": "--replace-entities, --settexinfo, --insert-bspx-lump, --remove-bspx-lump and --convert write a BSP that reads as the loaded one with exactly that change, and no other file; --extract-entities and --extract-bspx-lump write exactly the bytes of that part, and putting an extracted text back gives the BSP that was loaded.", "quantifier": "all BSP files that load, of all versions; all texts, lumps, names, face and texinfo numbers", "why_tests_cant": "the commands load, convert to the generic form, edit, convert back and save: every record of every version must survive; and the state left by one command is what the next one works on; a test tries one file and one command", "anchors": ["bsputil/bsputil.cc: bsputil_main"]}
{"id": "C141", "title": "bsputil gives the brushes of a map to the entities of another file", "statement": "--replace-entities on a .map writes the entities of the given file, worldspawn with the brushes of worldspawn and the k-th entity with a model (or area portal) with the text of the k-th other brush entity; other entities keep what they have; origin goes from entities with brushes, style from lights with a targetname and from area portals, all other keys stay; too many brush entities are an error; what is written is read back as the same entities.", "quantifier": "all maps and entity files", "why_tests_cant": "which text goes where depends on all the entities before it, in both files; a test shows one pair of files that fit each other", "anchors": ["bsputil/bsputil.cc: ParseEntity, LoadMapOrEntFile, bsputil_main"]}
{"id": "C142", "title": "Decompiling a BSP tree into brushes", "statement": "A point strictly inside the bounds and off the planes of the BSP is in exactly one brush made by bsputil --decompile, with the contents of its leaf (or of the clip hull), or in none if that is empty; sides that bound the brush are kept; faces on a side are parts of the original faces with their texinfo; splitting a brush by textures gives parts that do not overlap, have one texture per side, and together fill the brush.", "quantifier": "all BSP trees and clip hulls, bounds, lists of planes, faces and epsilons", "why_tests_cant": "the brushes are the regions of a tree of any depth; a test decompiles one map and counts brushes", "anchors": ["common/decompile.cc: RemoveRedundantPlanes, BuildInitialBrush, BuildInitialBrush_Q2, SideNeedsSplitting, SuggestSplit, SplitDifferentTexturedPartsOfBrush_R, DecompileLeaf, DecompileNode, DecompileClipNode, AddMapBoundsToStack"]}
{"id": "C143", "title": "Sides of decompiled brushes", "statement": "The three points written for a side give back its plane, moved by the offset of the entity; the texture axes, scale and shift give back the texture vectors; default axes are unit vectors at right angles to the normal; the origin brush is the box of eight units around the offset; sides without a face take the name of a side that has one, and keep their plane.", "quantifier": "all planes with unit normals, texture vectors, offsets and lists of sides", "why_tests_cant": "the sides have any direction and scale; a test compares one map", "anchors": ["common/decompile.cc: texdef_valve_t, NormalDistanceToThreePoints, compiled_brush_t::write, DecompileEntity cleanup and origin brush", "include/common/qvec.hh: MakeTangentAndBitangentUnnormalized"]}
{"id": "C144", "title": "Entities of a decompiled map", "statement": "Entities keep their keys in order except model, style of an area portal and an origin turned into an offset; a Quake 2 model has the brushes of its leafs without area portals, each once; a func_areaportal gets its own brush; sides get the name, flags and value of the face or brush side.", "quantifier": "all entities, brush lists, leafs and texinfos", "why_tests_cant": "the outcome depends on the order of keys and of brushes; a test has one map", "anchors": ["common/decompile.cc: DecompileEntity, DecompileLeafTask, DefaultTextureForContents, OverrideTextureForContents"]}
{"id": "C145", "title": "External maps, origin brushes and -scale", "statement": "The brushes that misc_external_map loads are scaled, rotated and moved together with their textures: a point is in a brush if its image is in the new one, with the same texture coordinates; without the keys they are only moved; rotations keep lengths and handedness. An origin brush moves the brushes of its entity to the origin with their textures, and -scale scales brushes with their textures. _lmscale gives the logarithm of its value.", "quantifier": "all faces through three points that are not on a line, all scales, angles and origins, all points", "why_tests_cant": "the space of faces, scales and angles is continuous; a test shows single numbers", "anchors": ["qbsp/map.cc: ScaleMapFace, RotateMapFace, TranslateMapFace, ProcessExternalMapEntity, ProcessMapBrushes, mapface_t::set_planepts", "common/mathlib.cc: RotateAboutX, RotateAboutY, RotateAboutZ"]}
{"id": "C146", "title": "Compiling a region of a map", "statement": "A brush whose sides are all named region limits what is compiled: brushes around it close it, layers of 16 units outside of each side, none of which has a point of the inside and one of which every segment out of the region meets; brushes of the world away from it are left out; point entities outside of it are removed and no others. Antiregion brushes remove what is in them.", "quantifier": "all brushes, boxes, points and entity lists", "why_tests_cant": "the claim is about all points and segments of space and all orders of entities", "anchors": ["qbsp/map.cc: ParseBrush, ProcessMapBrushes", "qbsp/brush.cc: Brush_LoadEntity"]}
{"id": "C147", "title": "Reading .map files in qbsp", "statement": "qbsp reads a .map file to the same entities, keys, brushes and sides as the library that writes and converts .map files, and reads back what that library writes; brush primitives are read to the sides they say. -add appends the entities of a second file, its worldspawn as func_group; keys of -aliasdef only fill in what is missing. Region brushes only count in the world, at most one. Reading ends for all texts.", "quantifier": "all texts, all readings of numbers, all choices of dropped planes, all lists of entities", "why_tests_cant": "two parsers of the same language in two programs must agree on all texts; tests read single files", "anchors": ["qbsp/map.cc: ParseEntity, ParseBrush, ParseBrushFace, ParseTextureDef, LoadMapFile, ParseEpair", "common/maputil.cc: map_file_t::parse"]}
{"id": "C148", "title": "Flags of sides", "statement": "The flags a side gets from its entity, from worldspawn, from its name and from surface information: only the documented keys matter and only three are inherited; all numbers are within their ranges; no_minlight, no_shadow, no_dirt, no_bounce and lightignore are set exactly by their keys; in Quake the names with special flags are the names of liquids and sky and the hint names those without contents; in Quake 2 accepted surface information has one kind of visible contents; a brush with a hint side splits by its hint sides only; keys before the brushes hold for all of them.", "quantifier": "all dictionaries, names, surface information and lists of sides", "why_tests_cant": "a test has a few keys; the claims are about all dictionaries, names and orders of keys", "anchors": ["qbsp/map.cc: SurfFlagsForEntity, IsSkipName, IsSpecialName, IsHintName, FindMiptex, ParseTextureDef, ParseBrush", "common/bspfile.cc: texinfo_is_hintskip, surfflags_are_valid, contents_are_valid"]}
{"id": "C149", "title": "Surface lights in the manner of Quake", "statement": "Faces whose texture matches a light with _surface are cut into pieces: the cutting ends for all polygons and sizes; a round face with at most 51 points is cut without a write outside of the arrays into round pieces that cover the face and nothing else and are less than 16 units wider than surflight_subdivide; each face is handled once; there is one light in front of the centroid of each piece for each template that matches, moved with the model, so next to each point of the face there is a light; the light with _surface itself goes out.", "quantifier": "all polygons, sizes, templates, faces and leafs", "why_tests_cant": "a test has a few faces of simple shape; the claims are about all shapes, sizes, templates and leaf lists", "anchors": ["light/entities.cc: CreateSurfaceLight, CreateSurfaceLightOnFaceSubdivision, BoundPoly, FaceMatchesSurfaceLightTemplate, SubdividePolygon, GL_SubdivideSurface, MakeSurfaceLights"]}
{"id": "C150", "title": "Spotlights, targets and projected textures", "statement": "A light looks at the first entity whose targetname is its target, in any letter case, else where its mangle points, with a direction of length 1; its cone is twice _cone, else angle, else 40 degrees (20 for Quake II); with automatic falloff it reaches everything of its cone up to the plane of its target; a projected texture is placed by the same angles, square pixels and the given width in degrees, with the middle of the texture in the middle of the cone; a point gets the colour between its four pixels, first row at the top, and a point less than 16 units in front gets nothing.", "quantifier": "all entities, lights, angles, points and textures", "why_tests_cant": "tests look at the lightmap of a few maps; the claims are about all directions, angles and points", "anchors": ["light/entities.cc: MatchTargets, SetupSpotlights, LoadEntities, Matrix4x4_CM_Projection_Inf, Matrix4x4_CM_MakeModelViewProj, CalcFov", "light/ltface.cc: Matrix4x4_CM_Transform4, Matrix4x4_CM_Project, LightFace_SampleMipTex"]}
{"id": "C151", "title": "Texture table, frames of animations and WAD files of a map", "statement": "Two textures share a number exactly if their names after the last slash agree but for letter case, and keep it while others are added; an animated texture brings the frames before it, and every frame that an archive has of it is in the table in the end; textures of archives that are to be embedded are written as they are and all others as a header with name and size; the archives are those of _wad, else wad, in order, looked for in the search paths, else the one with the name of the map.", "quantifier": "all lists of names, archives, file systems and search paths", "why_tests_cant": "tests have a few textures and one WAD; the claims are about all names and search paths", "anchors": ["qbsp/map.cc: FindMiptex, AddAnimTex, EnsureTexturesLoaded, LoadTexturePath", "qbsp/qbsp.cc: AddAnimationFrames, LoadTextureData, setting_wadpathset::parse", "common/fs.cc: addArchive"]}
{"id": "C152", "title": "Surface lights of Quake II and bounced light", "statement": "A surface emits its area times its color, in equal parts from its points; a sample gets it by the inverse square of the distance and both cosines, never negative, nothing from behind; each bounce emits exactly what was received since the last one, each light is used in exactly one pass, and passes go on while some face bounces light, whatever the threads do; the lights sit one unit in front of their face.", "quantifier": "all colors, areas, points, samples, faces, lightmaps and interleavings of threads", "why_tests_cant": "tests run one interleaving of threads on small maps and compare a few luxels; the claims are about all of them", "anchors": ["light/surflight.cc: MakeSurfaceLight", "light/bounce.cc: MakeBounceLight, MakeBounceLightsThread, MakeBounceLights", "light/ltface.cc: SurfaceLight_ColorAtDist, GetSurfaceLighting, SurfaceLight_SphereCull, SurfaceLight_VisCull, LightFace_SurfaceLight, IndirectLightFace", "light/light.cc: LightWorld"]}
{"id": "C153", "title": "The format qbsp writes and what it implies", "statement": "The format is the one asked for, Quake's if none is; asking for two is an error; an option that was given keeps its value whatever the format, one that was not gets the default of the format; the order of options does not matter.", "quantifier": "all command lines and qbsp.ini files, as lists of options with values", "why_tests_cant": "tests fix a few command lines; the combinations of twelve options with and without values are far too many", "anchors": ["qbsp/qbsp.cc:qbsp_settings::postinitialize", "qbsp/qbsp.cc:set_target_version", "include/common/settings.hh:is_changed"]}
{"id": "C154", "title": "The options of light", "statement": "An option holds what the command line says, else what worldspawn says, else what the game implies; -dirt spreads to minimum light and sun unless those were given; the files written are those asked for, whatever the order; colours make the .lit file that is needed.", "quantifier": "all command lines, worldspawn keys, games and BSP files with or without visibility", "why_tests_cant": "tests fix a few command lines and maps; the claim is about every combination and order of options and keys", "anchors": ["light/light.cc:light_main", "light/light.cc:light_settings::postinitialize", "light/light.cc:FixupGlobalSettings", "light/light.cc:SetLitNeeded", "light/entities.cc:LoadEntities"]}
{"id": "C155", "title": "Files of texture and entity definitions", "statement": "A file of -texturedefs or -aliasdefs that consists of definitions, comments and empty lines is read exactly as written: each name means its last definition, names that are not defined keep what they meant; an incomplete or wrong line is an error; reading ends for every file; a side gets the new name of its own name once and keeps its flags unless the definition gives some.", "quantifier": "all files of definitions with any number of lines, names and numbers; for the end of reading, all files", "why_tests_cant": "tests read one or two files; the claim is about every sequence of definitions and about files that are malformed anywhere", "anchors": ["qbsp/qbsp.cc:qbsp_settings::load_texture_def", "qbsp/qbsp.cc:qbsp_settings::load_entity_def", "qbsp/map.cc:ParseTextureDef", "include/qbsp/qbsp.hh:loaded_texture_defs"]}
{"id": "C156", "title": "The atlas of lightmaps", "statement": "In the images that bspinfo writes every face has a place of its own: no two lightmaps share a pixel and all lie in the image, which is about square; the image of a style holds exactly the samples of the faces with that style and is empty elsewhere; texture coordinates stay in the place of the face; each face of the .obj file lists its own vertices in the other direction.", "quantifier": "all lists of faces with lightmaps of any size, styles, offsets and samples", "why_tests_cant": "tests compile a few maps; overlap depends on the sizes of all lightmaps together, and a loop that never ends cannot be tested", "anchors": ["common/bspinfo.cc:build_lightmap_atlas", "common/bspinfo.cc:export_obj_and_lightmaps", "common/bspinfo.cc:face_rect"]}
{"id": "C157", "title": "The text of images in JSON files", "statement": "The base64 text of an image can be read back to exactly the same bytes by any reader that follows RFC 4648, and no two images have the same text.", "quantifier": "all lists of bytes", "why_tests_cant": "tests encode a few images; the claim is about every length and every byte", "anchors": ["common/bspinfo.cc:Base64EncodeTo", "common/bspinfo.cc:serialize_image"]}
{"id": "C158", "title": "Raw data in JSON files", "statement": "The JSON file of bspinfo shows the visibility and light data of the BSP: the bytes can be read back from their hexadecimal text, and for Quake II the offsets of the PVS and of the PHS are listed each under its own name.", "quantifier": "all lists of bytes and all lists of offsets", "why_tests_cant": "tests compare a few values of the BSP, never the text of the file; that two different inputs have the same text is a claim about pairs of inputs", "anchors": ["common/bspinfo.cc:hex_string", "common/bspinfo.cc:serialize_bsp"]}
{"id": "C159", "title": "Which faces break each other's edges", "statement": "Faces of the same kind of contents share their vertices along edges: of two faces either both or neither break the other's edges; a detail wall meets only detail walls and always meets those; solid and liquid meet exactly if water is opaque; faces of the empty side of a brush meet only their like.", "quantifier": "all contents of both faces, both games, with and without -transwater", "why_tests_cant": "tests look at a few maps; the rule is a relation on all pairs of flags, and symmetry and transitivity are claims about pairs and triples", "anchors": ["qbsp/tjunc.cc:Welds", "qbsp/tjunc.cc:HasTJuncInteraction"]}
{"id": "C160", "title": "Which faces cast shadows on what", "statement": "Faces of the world and of models with _shadow shade everything, those with _shadowself only their own model, with _shadowworldonly only the world; a switchable shadow blocks nothing but leaves its style; glass tints and fences block where they are opaque; faces with noshadow and models without these keys shade nothing; nothing acts on a ray without a channel in common; no assertion fails.", "quantifier": "all models, faces, keys, flags of both games, channels and rays", "why_tests_cant": "tests light a few maps; the claim is about all combinations of keys, flags and channels, most of which no map has", "anchors": ["light/trace_embree.cc:Embree_TraceInit", "light/trace_embree.cc:Embree_FilterFuncN", "light/trace_embree.cc:PerRay_FilterFuncN", "light/light.cc:FindModelInfo", "light/light.cc:ModelInfoForFace"]}
{"id": "C161", "title": "Files of surface lights", "statement": "Each line of a .rad file with a name, three numbers and a value gives one surface light of that name, colour and value, in the order of the file; blank lines, comments and further words give nothing. A .ent file gives its entities. light reads the file of -radlights, then lights.rad, then the file of the map, and a file that is missing changes nothing.", "quantifier": "all texts of files made of words, quoted words, blanks and comments; all options and names of maps", "why_tests_cant": "no test reads such a file; the claim is about all texts and all sets of files", "anchors": ["light/entities.cc:ParseLightsFile", "light/entities.cc:ParseEntityLights", "light/light.cc:light_main", "light/light.cc:light_settings::postinitialize"]}
{"id": "C162", "title": "Trial cuts of brushes agree with the cuts", "statement": "qbsp tries a splitting plane on the volume of a node without building the pieces (CheckSplitBrush); the trial succeeds exactly if cutting the volume (SplitBrush) gives a brush on both sides, as the assertion under PARANOID says. The cut gives the brush itself on one side, or pieces made of the parts of its sides, on their planes, and a face on the plane of the cut. The trial stays inside the memory it has for sides.", "quantifier": "all brushes, planes, sizes of the world and least volumes", "why_tests_cant": "the assertion is only compiled in under PARANOID; brushes at the limits of the world are rare", "anchors": ["qbsp/brushbsp.cc:SplitBrush", "qbsp/brushbsp.cc:CheckSplitBrush", "qbsp/brushbsp.cc:stack_brush_t::update_bounds", "qbsp/brush.cc:bspbrush_t::update_bounds"]}
{"id": "C163", "title": "Bounds of the two sides of a plane", "statement": "When qbsp looks for a plane that halves a node it divides the bounds of the node (DivideBounds): the bounds it gets for each side contain all of the box that is on that side of the plane and are inside the box, and the metric of a plane (SplitPlaneMetric) is the difference of their volumes, which for an axial plane is zero only in the middle.", "quantifier": "all boxes, planes and axes", "why_tests_cant": "the bounds are only compared with each other to choose a plane, so wrong ones only make a worse tree", "anchors": ["qbsp/brushbsp.cc:DivideBounds", "qbsp/brushbsp.cc:SplitPlaneMetric", "include/common/aabb.hh:volume"]}
{"id": "C164", "title": "Replacing textures of a BSP", "statement": "bsputil --replace-textures gives each texture of the BSP the data of the mip of its name in the WAD file if there is one of its size, also if the BSP has no data for it, and leaves all other textures as they are; numbers, names and sizes of textures stay the same, and doing it again changes nothing.", "quantifier": "all texture lumps and archives", "why_tests_cant": "the tests do not replace textures; headers with other names and textures without data are rare", "anchors": ["bsputil/bsputil.cc:ReplaceTexturesFromWad", "common/imglib.cc:img::load_texture", "common/bspfile_generic.cc:miptex_t::stream_read"]}
{"id": "C165", "title": "Choosing by weight", "statement": "MakeCDF turns weights that are not negative into a table with which SampleCDF chooses an entry for any number from 0 to 1, each entry for a range of numbers in proportion to its weight; PolyRandomPoint chooses triangles by area with it and gives a point inside the polygon.", "quantifier": "all lists of weights and all numbers", "why_tests_cant": "the test has one list of three weights", "anchors": ["common/mathlib.cc:MakeCDF", "common/mathlib.cc:SampleCDF", "common/mathlib.cc:NormalizePDF", "common/mathlib.cc:PolyRandomPoint", "include/common/qvec.hh:qv::Barycentric_Random"]}
