{
 "C06": {
  "note": "Full claim is false of the code. Proved: once a complete state exists, any crash in any later save leaves a complete one. Refuted: crash in the first save, -nostate runs, leftover temporary file after a finished -fast run."
 },
 "C07": {
  "note": "Full claim is false of the code: a zero run count, a stream needing more than the buffer, and an oversized length field each access memory out of bounds. Proved: safe when run counts are at least one and the buffer is twice the bit set."
 },
 "C09": {
  "note": "The geometric tests of BasePortalThread enter as an arbitrary bit vector portalsee."
 },
 "C10": {
  "note": "All geometry (clipping, separators, IterativeTargetChecks) and the bits read from other portals enter as an arbitrary oracle; the floating-point tests themselves are not modelled."
 },
 "C11": {
  "note": "Each fetch, PortalFlow entry and completion is one atomic step (portal_mutex). Assumes the might-see counts lie in [0, INT_MAX), which C12 provides. Progress of tbb::parallel_for itself is not modelled."
 },
 "C12": {
  "note": "Assumes each portal is on one leaf, which LoadPortals establishes (vis.cc:632-665)."
 },
 "C13": {
  "note": "Portal rows are the portals' visbits; statistics not modelled. Assumes the worst-case lump fits in 2^31 bytes (offsets are int32)."
 },
 "C14": {
  "note": "The claim is false of the code: the trailing (n+7)/8 mod sizeof(long) bytes of each row are never or-ed (refuted for 4- and 8-byte longs). Proved: exactly what is stored, and the full claim when a row is a whole number of machine words."
 },
 "C15": {
  "note": "Which side of a plane each point lies on is an arbitrary oracle; coordinates are not modelled. Assumes portal windings have at most 64 points, which LoadPrtFile checks."
 },
 "C20": {
  "note": "False of the code when the new name already exists (duplicate key, old value wins). Proved for a free new name."
 },
 "C21": {
  "note": "False of the code: a trailing blank or an empty key reads before the string. Proved for leading blanks."
 },
 "C60": {
  "note": "False of the code: refuted with three file images. Proved: a file ending in a newline is read outside only where the terminated text would be rejected."
 },
 "C61": {
  "note": "Newlines inside quoted tokens are not counted (refuted). Proved: token text, skipped text, and the line number in terms of skipped newlines. char is signed (x86)."
 },
 "C62": {
  "note": "Termination is proved for all texts. Outcomes other than entities and errors (blank keys) are the subject of C21."
 },
 "C18": {
  "note": "Strings with escapes are covered by the second theorem."
 },
 "C22": {
  "note": "PRT1 and PRT2 text written by qbsp is read back to the same portals and (for PRT2) clusters. Coordinates are kept as the written text (the text grammar of number output); conversion of text to double is not modelled. PRT1-AM is only read, never written."
 },
 "C23": {
  "note": "Proved: accepted leaf numbers lie in 0..portalleafs. Refuted: the check uses > so a leaf number equal to portalleafs is accepted and LoadPortals then writes past the leaf table."
 },
 "C63": {
  "note": "Proved: all loops other than the skip to the end of a winding line end. Refuted: a file truncated inside a winding makes the skip loop run forever; a missing portal count leaves the values of the scan used uninitialised; PRT1-AM cluster numbers overflow the table."
 },
 "C64": {
  "note": "The leaf numbers have to be below the number of leafs (C23 shows the reader lets one larger through). Planes are abstract with an opposite operation."
 },
 "C24": {
  "note": ""
 },
 "C25": {
  "note": "On trees made by PruneNodes. A second theorem shows that pruning is needed: otherwise an internal error is reported."
 },
 "C26": {
  "note": "Quake-style targets (solid leafs share leaf 0)."
 },
 "C27": {
  "note": "Proved for every tree with at least one node, after any later export; successful export on pruned trees. Refuted for a model whose tree is one leaf: its head node does not exist or is the next model's. Points are judged against the planes as written (float)."
 },
 "C28": {
  "note": ""
 },
 "C29": {
  "note": ""
 },
 "C30": {
  "note": "For Quake-style targets a detail wall leaf counts as solid after pruning, as the code intends; the theorem says so explicitly."
 },
 "C65": {
  "note": "Holds when leafs' portals are those of vis nodes (vis_portals)."
 },
 "C66": {
  "note": "Proved: no brush is lost; each is kept once when distinct brushes have distinct map brushes. Refuted: two brushes cut from one map brush can leave a duplicate since the list is sorted by map brush but compared by brush."
 },
 "C67": {
  "note": ""
 },
 "C31": {
  "note": "Planes enter only through the side the point is on."
 },
 "C32": {
  "note": "Portal graphs satisfy graph_ok (each portal is in the lists of the two leafs it joins)."
 },
 "C33": {
  "note": "For the outside fill type the void leaf must not seal (the code asserts this)."
 },
 "C34": {
  "note": ""
 },
 "C68": {
  "note": ""
 },
 "C69": {
  "note": "Coplanarity is an abstract relation."
 },
 "C36": {
  "note": "NaN and types wider than the significand are undefined behaviour; otherwise proved"
 },
 "C37": {
  "note": "Q2 leaf upper corner is rounded inwards (refuted with 100.5); all other conversions proved"
 },
 "C40": {
  "note": "proved for files below 2 GiB (offsets are int32_t); the load half is C70"
 },
 "C41": {
  "note": "names of at most 23 characters survive; refuted for longer names, which are truncated and may collide"
 },
 "C42": {
  "note": "proved: an accepted file has whole-record lumps inside the file. Refuted: lumps outside the file, BSPX ends beyond 2^32, an empty lump at offset -4 and a truncated header are read out of bounds or uninitialized instead of refused"
 },
 "C43": {
  "note": "proved for textures that are missing, empty or carry a whole header; refuted for 1-39 bytes of data (header read past the end)"
 },
 "C44": {
  "note": "proved for lumps with clusters; refuted: bits without clusters are dropped"
 },
 "C57": {
  "note": "proved for requests that fit; refuted for every longer request (memcpy uses n, not the clamped count)"
 },
 "C70": {
  "note": "proved unless the model count makes the lump size a multiple of both record sizes; refuted there: Quake BSPs with 0 or 5 models load as Hexen II"
 },
 "C48": {
  "note": "Order and multiplicity independence proved with an exact description of the result for leafs and clusters. The part \"a solid contribution keeps it solid\" holds for structural solid; for detail solid it is refuted in Quake: sky overlapping a detail brush replaces it."
 },
 "C49": {
  "note": "Symmetry, blocking by solid and by visblockers, and transparency of equal non-solid contents, for both games and whole clusters; for Quake the complete rule."
 },
 "C50": {
  "note": "Refuted in both directions: the last test of the Quake II function is inverted, so opaque contents never block and translucent contents block against contents with only invisible flags. What holds is proved."
 },
 "C51": {
  "note": "Proved from entity keys, options and face contents for Quake, and for Quake II without func_illusionary_visblocker, whose brushes cannot be written in Quake II (refuted). Texture-name comparison is abstracted to a classification."
 },
 "C71": {
  "note": "Leaf contents as combined from brushes (before outside filling). Geometric matching of brush sides is not modelled."
 },
 "C52": {
  "note": "setting_value history, container parse and map keys; setting_set accumulates values instead of replacing them and is modelled that way."
 },
 "C53": {
  "note": "Integer settings stay in range and in-range decimals are stored exactly. Refuted: an integer above 2^32 is reduced modulo 2^32 before clamping (settings.hh:308), so it can land inside the range; \"nan\" passes both comparisons of std::clamp and is stored in a float setting. std::stod is a parameter of the model."
 },
 "C54": {
  "note": "Proved for hyphens and for the plain name with underscores. Refuted for every invertible setting: find_setting strips underscores but setting_invertible_bool::parse looks at the unstripped name, so the map key \"_noX\" turns X on."
 },
 "C55": {
  "note": "Proved for parallel_for/parallel_for_each loops, where the finishing call comes after all others. Refuted for the API in general: the failed compare-exchange leaves expected == true, so a waiting finishing call enters while another thread is inside (log.cc:197-199)."
 },
 "C56": {
  "note": ""
 },
 "C58": {
  "note": "Asymmetric for all strings; strict weak order for strings whose numbers have no leading zeros; refuted otherwise by a cycle."
 },
 "C59": {
  "note": "Proved for strings without NUL, which covers every C string; refuted with an embedded NUL, where strcasecmp stops and the hash does not."
 },
 "C72": {
  "note": "Refuted parts: a token of hyphens only calls front() on an empty string (settings.cc:674); any number is accepted for an enum setting and print_summary then throws std::exception for a value without a label."
 },
 "C45": {
  "note": "numfaces of the model is written from the brushes, so the round trip requires it to equal their face total."
 },
 "C73": {
  "note": ""
 },
 "C74": {
  "note": "Refuted parts: Quake II liquids are written as solid; a non-numeric \"*...\" model key throws; a \"*0\" model key repeats the world brush entities. Computation of bounds and plane types is an input of the model."
 },
 "C75": {
  "note": "Refuted: a cut between the version and the end of the brush count uses the count uninitialised. All other cuts are proved."
 },
 "C78": {
  "note": "Positions along the edge are an oracle; which vertices are near an edge (FindEdgeVerts_FaceBounds) is not modelled."
 },
 "C79": {
  "note": "Hypotheses on the doubles (absorbs, sums_grow, adds_at_most) are shown to hold for faces with integer coordinates. The 2D projection is an oracle."
 },
 "C80": {
  "note": "Partial: refuted for faces that are already cut into several fans, because only the first face of the list is cut to the limit. Assertion freedom, rotation and single faces are proved."
 },
 "C81": {
  "note": "Partial: termination and covering are proved for runs that do not wrap around the array; the wrap-around branch loses a triangle, and a zero-area triangle can be left where it could be avoided (refuted with a concrete face). The lost triangle needs tests that are inconsistent with exact convex geometry."
 },
 "C76": {
  "note": "Partial only in that \"an edge belongs to at most two faces\" is refuted: the reversed use is not limited. Counts below 2^31. Contents merging by texture (edge contents) as in the code; the tree is a value."
 },
 "C77": {
  "note": "The texture table is a list of names and values; the vectors are opaque."
 },
 "C82": {
  "note": "Partial: the spatial hash is an oracle that finds some vertex in the box whenever there is one; that close corners always become one vertex is refuted with three positions on a line. The rounding to float is a function."
 },
 "C83": {
  "note": "Partial: proved for tables with distinct export numbers, finite floats, valid UTF-8 names and no no_phong flag; the fields that are lost or swapped are refuted one by one. nlohmann::json is modelled as a value of objects and its dump and parse are inverse."
 },
 "C84": {
  "note": "Partial: FindTexinfo is proved for all graphs; loading frames of Quake 2 textures is proved to end when the chain ends or returns to its start, and proved to hang for a chain that enters a ring later."
 },
 "C85": {
  "note": "The separating planes and the windings are oracles constrained to accept the lines of sight; a line of sight enters no leaf twice and can be followed backwards. Bits read from other portals may come from any earlier state of the run. A flow reads its own might-see set once, as it does not change while the portal is being worked on."
 },
 "C86": {
  "note": "Proved for archives whose entries lie inside the file. Refuted otherwise: an entry past the end sets failbit of the shared stream, which nothing clears, so every later load of that archive delivers zeros."
 },
 "C87": {
  "note": "Proved: refused exactly for a wrong magic number in a file of at least twelve bytes. Refuted: shorter files, truncated directories and names without NUL are used uninitialised or read past an array; the theorem says exactly when."
 },
 "C88": {
  "note": "Order, recency and splitting proved for all reachable states. Refuted part: a directory called like the file hides it, because the lookup in directories does not exclude directories as the lookup of loose files does."
 },
 "C90": {
  "note": "Refuted: the theorems say exactly when a WAL or miptex file leads to a read outside the buffer or the use of uninitialised data (WAL has no check at all; the check of miptex files is made modulo 2^32), and when a miptex is refused. The pixel count is width*height modulo 2^32. The Half-Life palette branch is covered for well-formed files by C89 only."
 },
 "C91": {
  "note": "Mean, rounding and bounds proved for textures with a pixel of alpha >= 127; without one - in particular for textures whose image is missing - the code converts 0/0 to bytes, which is undefined."
 },
 "C92": {
  "note": "Proved for all grids of positive size with fewer than 2^31 points; from 2^31 points on the int arithmetic of the point count overflows (refuted). Header floats are carried as bit patterns."
 },
 "C93": {
  "note": "Exact rational arithmetic; the search for equal planes is any function that returns planes within the tolerances. Proved for 0, 1 or 3 negative factors; with exactly two the planes are turned the wrong way (the condition is flip_faces instead of flip_faces & 1) and every walk takes the other child (refuted). Clipnodes are not given the new plane numbers at all, so clip hulls change even with factors 1 1 1 (refuted)."
 },
 "C94": {
  "note": "Corners proved for all factors; front sides except with exactly two negative factors (inside out); the edges of a face no longer follow each other when an odd number of factors is negative, since they are reordered but not negated (refuted). Premise: faces do not share surfedges."
 },
 "C95": {
  "note": "Texture coordinates and bounds proved; the light grid only for factors that are not negative: on an axis with a negative factor the grid is displaced by its extent (refuted). Exact rational arithmetic."
 },
 "C96": {
  "note": "Pixels are parameters; sizes below a third of INT_MAX (above, id.lightofs * 3 overflows an int: refuted). Proved for plain, decoupled and scaled lightmaps where the scale is that of the model or -novanilla is used. Refuted: with scaled lightmaps the offset of the face itself is always -1 for the plain scale (copied before it is set); with another scale both lightmaps are written to one offset, may overrun the block into the lightmap of another face or stop the program; faces without styles keep the offset of the input file."
 },
 "C97": {
  "note": "Brightness as exact integers. No style above 255 is ever saved, in spite of the message that LMSTYLE16 will hold it (refuted); a light of style 255 ends the list of styles engines read (refuted), otherwise all saved styles are used."
 },
 "C98": {
  "note": "Colours as exact integers; operator/= not modelled. Up to four styles proved; a fifth replaces the dimmest even when it is dimmer (refuted), and the sums then depend on the order (refuted)."
 },
 "C99": {
  "note": "One colour channel as exact rationals, alpha 0 or 1. An image with more pixels than width times height that is all transparent would be filled without end (C99_sizes; callers pass matching sizes).",
  "status": "proved"
 },
 "C100": {
  "note": "Proved for files of at least 768 bytes. Shorter files of 70 bytes or more with the right first bytes are read from before their start (767 bytes: a black palette), and files shorter than 16 bytes leave the header uninitialised (refuted). Files of 16 to 69 bytes are not characterised."
 },
 "C101": {
  "note": "Proved for all points at which the split oracle is exact and the bounds are sound. Refuted: a hundred brushes ending less than one unit beyond a plane make its value at most -99999, so no plane is chosen and the leaf mixes contents."
 },
 "C102": {
  "note": "Proved without any hypothesis on the geometry."
 },
 "C103": {
  "note": "Everything except \"non-intersecting\" is proved (termination for geometry with finitely many cells). Refuted: after a brush was cut by a later one, its pieces are not compared with the brushes after them, although the comment says the loop restarts with them."
 },
 "C104": {
  "note": "Order, best value and separators are proved for the precise method. Refuted: midsplit chooses detail planes without marking the node; hint sides are split because every test of a brush clears hintsplit, so only the last brush counts. The value of a candidate is stated exactly."
 },
 "C105": {
  "note": "Proved for symmetric portal graphs and distinct area portal numbers, including termination. Refuted: a leaf whose contents are AREAPORTAL and something else stays in no area; a third area that borders on an area portal is not connected."
 },
 "C106": {
  "note": "Proved for calls one after the other and for the pass over entities. Refuted for surface lights: MakeSurfaceLightsThread calls LightStyleForTargetname from several threads without a lock."
 },
 "C107": {
  "note": "The first two claims are proved. Refuted: a second run can find new escape sequences; \"c:\\base.wad\" is changed."
 },
 "C108": {
  "note": "The round trip is proved for plain and Valve 220 sides; termination and bounds are proved for texts without quotes. Refuted: sides with //TX1 or //TX2 come back as plain ones; no brush primitives are read or written; sides with one or two numbers of surface information print indeterminate values; quoted texture names lose their quotes; empty or blank keys read before the string."
 },
 "C109": {
  "note": "Proved over the real numbers: conversion to Valve 220, the shape of quaked and QuArK projections, and conversion back to quaked when the uninitialised plane of evalTexDefAtPoint has the axes of the face. Refuted: with a zero plane walls get a wrong shift; strongly scaled mirrored sides lose the mirroring; degenerate QuArK sides become Valve sides with scale 0. Not covered: brush primitives, the texture size in normalizeShift, projections with shear (they are changed on purpose), rounding. The rotation of converted Valve sides is never set and printed as it is."
 },
 "C110": {
  "note": "Proved for all trees with clipping as a parameter: no error, the ends of portals, their lists; that portals lie in their leafs and cover boxes and nodes holds if clipping is exact. Refuted when a piece is taken for tiny: the rest of the portal is kept unclipped, so it reaches into a leaf that has no portal there. Not covered: CalcTreeBounds_r, rounding, FError when the box is clipped away."
 },
 "C111": {
  "note": "Proved for all sequences of operations in which no winding grows again over the fixed array after it was shrunk (C111_grow: always so if windings are only built up). Refuted otherwise: clear, resize and assignment leave old elements in the vector, so a later push past the fixed array shows an old point; a push to a full stack winding is counted though it throws."
 },
 "C112": {
  "note": "Proved over the real numbers (no rounding) for strictly convex polygons and unit normals. Refuted for normals with a component 1 and other components that are not 0: the split points are then off the plane."
 },
 "C113": {
  "note": "Proved over the real numbers (no rounding). Refuted: a winding with a point beyond the extents is dereferenced after it was discarded (brush.cc:286-301)."
 },
 "C114": {
  "note": "Numbers are integers in an arbitrary unit, rounding of the box is not modelled. Proved for planes whose normal has no component 1 or -1, or is axial (C114_near: up to half of the epsilon). Refuted for planes between two stored ones: they have no fixed number, and the opposite may be answered from the other pair; refuted for the normal 0 of degenerate faces: the opposite is answered with the same number."
 },
 "C115": {
  "note": "Proved over the real numbers (no rounding). The table of planes is an oracle with the tolerance of C114.",
  "status": "proved"
 },
 "C116": {
  "note": "Proved over the real numbers (no rounding), with the table of planes as an oracle with the tolerance of C114. Refuted: a brush with edges shorter than 1/2 gets no bevels for them, and then has points for the hull that are no such sum."
 },
 "C117": {
  "note": "Proved when no style is 255 and the file has not been lit before. Refuted: style 255 ends the list; a negative -facestyles saves styles that are not readable; faces without samples keep the styles of an earlier run."
 },
 "C118": {
  "note": "Proved for all flags but -lit2 alone. Refuted: a lit2 file has as many samples as the file had before, none for a fresh one, and memory outside the buffers is read otherwise; -litonly writes outside its buffers when lightmaps do not fit the data of the file; shifts above 30 or a short LMSHIFT lump are undefined."
 },
 "C119": {
  "note": "Proved over the real numbers (no rounding). Refuted for the allowed setting \"dist\" 0: lights with delay 1 and 2 divide by 0 at every sample."
 },
 "C120": {
  "note": "Proved over the real numbers for colours of at most 255. Refuted for projected textures, whose colours are doubled: culling drops up to twice the gate (C120_projected: not more); refuted for samples closer than 0.1 to the plane. The test of the bounds of -visapprox rays is not modelled."
 },
 "C121": {
  "note": "Proved over the real numbers for dirtscale of at least 0. Refuted for a negative dirtscale of a light, which is accepted and brightens corners."
 },
 "C122": {
  "note": "Proved over the real numbers for lightcolorscale between 0 and 1, maxlight of at least 0 and positive gamma. Refuted for the other values, which are accepted: components become negative or undefined."
 },
 "C123": {
  "note": "Proved over the real numbers for ordinary lightmaps. For lightmaps sampled from a decoupled one: proved at positions that are not negative; refuted between -1 and 0 (the interpolation extrapolates out of the range of bytes), and the byte in the .bsp is always 0."
 },
 "C124": {
  "note": "Proved over the real numbers (no rounding). Refuted: nodes of a file are not checked, so a cyclic or short node lump makes the queries endless, undefined or an error; in a wedge a point counts as solid although the solid is more than the tolerance away; Light_PointInAnySolid does not take off the offset of the own model. BSP_FindNodeAtPoint is not modelled."
 },
 "C125": {
  "note": "Proved for lumps written by the model of vis (C07-C11). Refuted for faces that no leaf marks: they lose all lights as soon as there is visibility data."
 },
 "C126": {
  "note": "Proved over the real numbers (no rounding; -lux and bspx uses of the matrices are C73). Refuted: texture axes that are parallel in the plane of the face give a lightmap whose points are not numbers, and coordinates of more than 2^31 luxels are converted to int with undefined behaviour."
 },
 "C127": {
  "note": "Proved for textures with a width and a height and coordinates below 2^32. Refuted for a height of 0 (only the width is checked) and for coordinates of at least 2^32."
 },
 "C128": {
  "note": "Proved over the real numbers for convex faces whose points are equal or further apart than the tolerances; without that, the area differs by at most the length of an edge times 1/2000. Refuted without that: a merged face can cover points of neither face, and faces with a point in the middle of their common side give a face that has one point twice."
 },
 "C129": {
  "note": "Proved for leafs that are one to a cluster in their order or not as many as the clusters (detail leafs), for BSPs whose face references are in range. Refuted for portal files that number as many clusters as leafs in another order. Slime sounds like water, and distance never matters. The volume at each distance is stated as well; beyond 100 it depends on the distance of the third kind of sound alone."
 },
 "C130": {
  "note": "Proved for textures whose data is as long as width and height say. Refuted for textures read from a BSP file whose size is no multiple of four bytes (the padding is taken for data and shifts the entries behind it) and for Half-Life textures with a palette."
 },
 "C131": {
  "note": "Numbers are proved when the first entity is the world (its class is none whose brushes are merged); otherwise a door becomes model 0 (refuted). -onlyents agrees on all keys but \"origin\", \"_lmscale\" and \"style\", and on the whole text without origin brushes, rotate_ classes, area portals and -lmscale. Refuted: it loses the origin of an origin brush, and entities with only origin brushes or triggers under -notriggermodels shift all numbers behind them. Area portals are numbered anew in each hull (refuted). Region brushes are not modelled."
 },
 "C132": {
  "note": "Over the real numbers up to the largest number of the type. Proved for boxes whose corners are in order. Refuted: the union with an empty box is everything, an empty box converted to another number type is no longer empty, growing by a negative amount leaves the box. Bounds of nodes are proved for leafs whose portals have an extent in x, and tight if all leafs have; leafs without portals stretch the nodes above them to a corner of an older box, and as a head node dereference a null parent (refuted)."
 },
 "C133": {
  "note": "Over the real numbers, for convex polygons given by coordinates in a plane. Interpolation is proved for fans of triangles that reach the epsilons. Refuted: a triangle with an edge shorter than 0.05 gives no normal at any of its points although the caller relies on one, and points 1000 units beyond the short edge are inside of it; the normal at a corner less than 0.05 outside of an earlier triangle of the fan is not the one of the corner; an edge without length overlaps all edges; the centroid of points on a line is not a number; the two tangents are not perpendicular to each other; the edge chosen past a corner is not the one the point is least past of (the length of the edge is counted beyond its second end)."
 },
 "C134": {
  "note": "Over the real numbers, for planes with normals of length 1. Mutual smoothing is proved when the concave angles are the usual ones, common normals for faces smoothed with the same faces at the vertex, the deviation for angles up to 90 degrees. Refuted: with a lesser concave angle a wide face can be smoothed with a narrow one but not the narrow with the wide; two faces smoothed with each other differ along their edge when only one of them is smoothed with a third; angles beyond 180 degrees smooth less, since the cosine grows again; the key of a model smooths faces of other models that have the same texinfo. Tangents are not modelled."
 },
 "C135": {
  "note": "Refuted: between the games conversions report success and lose what the other game does not have. If a bound is NaN the conversion to 16 bits is undefined."
 },
 "C136": {
  "note": "Over the real numbers. Refuted: a model cannot have a lower level than worldspawn, and in Quake its own colour is ignored unless its level is higher; a sample that is bright in one colour is not raised by a local minimum light; autominlight is scaled (and gamma corrected) twice; samples in solid stay black in styles the point does not have; _surflight_minlight_scale of worldspawn counts twice and the key of a brush multiplies it; a debug build stops in the mottled pattern between -4096 and -4080. Rays and culling are oracles."
 },
 "C137": {
  "note": "Refuted: a face without a lightmap (-1) and a leaf without a row (-1) are always warned of; a vertex one beyond the last is not noticed and then read; a sum of marks of 2^32 or more, planes of nodes, and roots are not checked; a cycle of nodes is not noticed and the check never ends. Whether vertices are on their planes is not modelled, only which records are read."
 },
 "C138": {
  "note": "Over the real numbers. Refuted: the lights of _deviance fill a cube, not the sphere the manual promises; the loop that should keep suns in a circle compares radians with degrees and never repeats; mangle of a sun entity is taken as a vector; a sun with a dividing formula and _deviance is divided twice; only one of the two dome keys counts when both are given to entities; a negative sun entity stays a point light. atan2 is an oracle, dirt of entities an integer."
 },
 "C139": {
  "note": "Refuted: the value of lightmap_scale is read after its pair is erased, so _lightmap_scale gets the value of the following pair, or undefined behaviour if it was the last; with both _angfade and _angwait the converted value is overridden by the unconverted one. The conversion of numbers is an oracle."
 },
 "C140": {
  "note": "Refuted: a texinfo number that does not fit destroys the BSP (the failed conversion is ignored, the file truncated); after a command that wrote, another --replace-entities reads a map that was not loaded, most commands throw, --convert writes the old format under the new name; after --extract-entities later commands write the BSP over the extracted text; --extract-entities without entities reads beyond the string; --extract-bspx-lump and --insert-bspx-lump without arguments make a path of a null pointer. Reading again is what C70 says (number of models, sizes); archives of the file system are left out."
 },
 "C141": {
  "note": "Refuted: too few brush entities are not noticed and shift all later brushes; worldspawn with a key model loses the brushes of the world; switchable lights of other classes than light keep their style; empty files are accessed at [0]; braces inside a brush end it, so maps with brushDef or patches are errors; without a last line end the parser reads behind the text. Reading back is for brushes of tokens without quotes and comments."
 },
 "C142": {
  "note": "Over the real numbers. Refuted: std::remove_if leaves planes found redundant in the array that the check of later planes reads, so a plane that comes twice can be dropped altogether: a brush with every plane twice is left without planes (the Quake 2 code keeps one of each); nothing outside the bounds of the head node or model is decompiled; a model whose head is a leaf stops the program or reads out of bounds; a brush with overlapping faces of two textures disappears. Not shown: that splitting ends (the planes of edges are an oracle)."
 },
 "C143": {
  "note": "Over the real numbers. Refuted: with an offset the shift changes by the offset along the axis without dividing by the scale, so the texture comes back shifted unless the scale is 1; a later side without a name can copy an earlier one that was itself given a name, although a named side is more opposite. Writing the numbers as text and the choice between the points of the winding and these three are not modelled."
 },
 "C144": {
  "note": "Refuted: an origin before the model key is written as a key and the brushes are not moved; an area portal with several brushes makes the following ones take the wrong brush; an entity without classname is read past its end; a model number without digits is worldspawn; the nodraw flag of clip sides is overwritten by the flags of the texinfo. The numbers of an origin are an oracle; the order of Quake 2 brushes (unordered map of pointers) is left open."
 },
 "C145": {
  "note": "Over the real numbers, for scales that are not zero (with a zero the code divides by it). Refuted: a negative scale turns the planes over, a slab is left without a point; -scale makes the planes anew from points that an origin brush did not move, so that the model is off by its scaled origin while the texture is moved, and gives bevels the plane with normal zero. Reading the keys as numbers is not modelled."
 },
 "C146": {
  "note": "Over the real numbers. Refuted: with a side that has no exactly opposite side the whole region is inside of one of the brushes around it; antiregions leave no brush out, because continue ends only the inner loop; with both kinds the loop over entities looks at the entity behind a removed one, brushes or not, and past the end. The bounds of brushes are given (C113, C132)."
 },
 "C147": {
  "note": "Refuted: a region brush in brush primitives leaves its second brace unread, so the map is refused; _omitbrushes with brush primitives as well; the key behind the first brush means nothing; //TX1 behind surface information means an other projection to the library and nothing to qbsp. Agreement is stated for maps without _omitbrushes and regions, and for planes dropped by the same test. Plane arithmetic, texture lookup and SurfFlagsForEntity inside ParseBrushFace are not part of this model (C145)."
 },
 "C148": {
  "note": "Refuted: _phong 0 of an entity means nothing if worldspawn has a _phong_angle; Quake liquids keep their shadow although the code means to remove it, because contents are not known yet; names with a path have the flags of the last part and the contents of the whole; a Quake 2 brush named hint without the flag splits nothing; keys behind a brush mean nothing to it; colours out of range or not a number are undefined behaviour, and nan passes clamps. Numbers are rationals or NaN, reading of numbers is an oracle, without rounding to float."
 },
 "C149": {
  "note": "Refuted: a face with 64 points that has to be cut is written past the ends of dist and verts, and one with more points past the end of verts before its number of points is checked; templates of a lights file keep 16 samples without deviance, so each of their lights is there sixteen times. Numbers are real numbers; a piece without area gets no light. Faces with 52 to 63 points are outside of C149_pieces."
 },
 "C150": {
  "note": "Refuted: a negative angle (-1 and -2 mean up and down for other entities) is a cone of 1 or 2 degrees; a light with a projected texture and neither mangle, project_mangle nor target becomes a spotlight without direction that lights nothing, as does a light at its own target. Numbers are real numbers; a field of view that is not a number is outside of the model."
 },
 "C151": {
  "note": "Refuted: the lower frames come after the texture although the comment of AddAnimTex asks for them first; for names of more than 15 characters frames with cut names are added instead; a texture called + makes AddAnimationFrames write over the end of its name (undefined); a WAD in the current directory goes before the second search path and takes the flag of the first, so it is not embedded if that is an -xwadpath; an empty name in the list of WADs opens the search path itself and keeps the default WAD from being used."
 },
 "C152": {
  "note": "Refuted: surfaces darker than 1 emit in proportion to the square of their color; a thread whose face does not bounce can overwrite the answer of the others (load and store of any_to_bounce are separate), so bouncing can end early; SurfaceLight_VisCull drops a surface if any of its leafs is hidden; SurfaceLight_SphereCull looks at the far end of the face, so near samples lose light, and uses _surflightscale for bounced light too; -bouncedebug keeps no light at all; bounced light of a model with an offset comes from where the model would be without it. Proved with more than one thread only: the answer yes is right."
 },
 "C153": {
  "note": "Refuted: -hexen2 with -q2bsp, -qbism, -hlbsp or -q2rtx writes a Hexen II file without an error; -q2rtx with \"-q2bsp 0\" or \"-qbism 0\" writes a Quake file compiled as for Q2RTX, and with -bsp2 it is an error."
 },
 "C154": {
  "note": "Refuted: \"-visapprox auto\" switches both approximations off instead of choosing one, as does the key of worldspawn; a debug mode of bounced light forgets -bounce N; -dirtdebug does not spread dirt as -dirt does; -bspx after -lit takes the .lit file away and -lit or -litonly after -lit2 the .lit2 file; such keys in worldspawn ignore their value and act over the command line; -novanilla does not imply -bspxlit."
 },
 "C155": {
  "note": "Round trip proved for names that are plain words with lines of up to three numbers separated by a blank (quoted names, tabs and further words in a line are in the model and in the examples only). Refuted: a last line without an end of line, an empty or blank quoted name and a quote that is not closed read outside the memory; a quoted name at the very end is dropped silently; contents of -1 or beyond 32 bits wrap and 0x10 is 0; names are looked up with their case, unlike textures elsewhere."
 },
 "C156": {
  "note": "Proved for lightmaps of at most 512 samples in width and 511 in height. Refuted: one that is 512 or higher is never placed, so bspinfo does not end; one that is wider than 512 lies over the next atlas; style 254 gets no image; a face with a style but offset -1 is read before the samples."
 },
 "C157": {
  "note": "Over the bytes that the PNG writer delivers, which is not modelled."
 },
 "C158": {
  "note": "Proved for data in which every byte is 16 or more. Refuted: a byte below 16 is written with one digit, so different data have the same text; the PHS offsets go into the array \"pvs\", by turns with those of the PVS, and there is no array \"phs\"."
 },
 "C159": {
  "note": "Refuted: in Quake two detail walls whose flags differ in anything, such as _mirrorinside, leave T-junctions between them. The relation is transitive in Quake; refuted in Quake II, where translucent and opaque water count as the same type."
 },
 "C160": {
  "note": "Proved for ordinary faces, and for fences and glass of the world of Quake. Refuted: _shadowself together with _shadowworldonly casts no shadow; liquids of such models shade everything; in Quake II the alpha of a face without flags of transparency is ignored; a ray in another channel that meets a model without faces ends light; _switchableshadow other than 1 fails an assertion; the warning about lightmap scales can never appear."
 },
 "C161": {
  "note": "Proved for lines of words, quoted words without backslashes, blanks and comments. Refuted: a line with a name but without three numbers ends the program by an uncaught exception; of several files given with -radlights only one is read; a file given with -radlights that is read anyway has its lights twice."
 },
 "C162": {
  "note": "Proved that the trial succeeds when the cut gives two brushes, and the converse for brushes inside the world in y and z. Refuted at the limits of the world: the trial looks at the first axis three times, so that it accepts planes for which the cut gives nothing or the uncut brush. Geometry of windings is given. When the cut and when the trial succeed is stated exactly."
 },
 "C163": {
  "note": "Proved for boxes that are not flat, in rational arithmetic without rounding: the bounds contain their side, at a sloping plane they are inside the box and on each axis that the plane is not parallel to the new limit is reached by a point of that side. Refuted: the metric of a flat box is not a number, and the bounds at an axial plane beside the box are not inside it."
 },
 "C164": {
  "note": "Proved for the textures in memory, and for the file that is read again if mips are stored under their own names. Refuted: a mip whose header has another name renames the texture in the file, and textures that the BSP lists as missing have no name in memory, so that they stay missing; if a mip is found for a texture for which nothing was read, sizes without a value are compared. Archives are given as a function; the header is given as a function of the data; pixels are not modelled here."
 },
 "C165": {
  "note": "Proved in rational arithmetic: the entries of the table, that it ends at one, exactly which entry is chosen, and that there is one exactly for numbers up to one. A random point of a polygon is in every half space that contains the polygon, with the square root as a given number from 0 to 1. Refuted: 0 chooses the first entry even if it has no weight, and weights that are all zero give no table. Missing: rounding, with which the last entry of the table may be below one so that 1 has no entry."
 }
}
