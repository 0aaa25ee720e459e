# A machine-checked model of LLNL/conduit in Rocq (Coq 8.16.1)

This file is the plan that precedes the proofs and the record of what they rest
on.  `properties.jsonl` lists the properties (C01 ...); `MANIFEST.json` maps each
to exact theorem names; `seeded/LOG.jsonl` records the mutation experiments.

## 1. What kind of model

The code base is C++.  It is not run here; the tie between model and code is a
line by line reading.  Every definition in `rocq/theories/` that models code
carries a comment with file and line range and says where it simplifies.

Conventions used everywhere:

* **Outcomes.** A C++ function that can throw (`CONDUIT_ERROR` -> `conduit::Error`),
  run into undefined behaviour, or fail to terminate returns
  `outcome A := Ok a | Err | UB | Fuel`.
  `Err` = the default error handler threw; `UB` = out of bounds access, null
  dereference, use of a dangling pointer, ...; `Fuel` = the fuelled recursion ran
  out, used to state non-termination ("`Fuel` for every amount of fuel") and
  excluded in every positive theorem.
* **Integers.** `index_t` is a 64 bit signed integer; the model uses unbounded
  `Z` (`nat` for positions in lists).  Overflow of `index_t` is out of scope
  unless a theorem says otherwise.
* **Strings** are lists of bytes (`Coq.Strings.String`), like `std::string`.
* **Memory** is a finite map from block ids to byte lists; a pointer is a block id
  and an offset; every load and store is bounds checked and yields `UB` when it
  leaves its block.
* **std::map / std::vector** are association lists with unique keys / lists.
* **Parent pointers.** In the tree layer a position is the root plus a list of
  child indices, so the parent is the prefix of the position.  That parent
  pointers always agree with the tree is itself a property, treated in the
  pointer (heap) layer.

Layers (one or more `.v` files each): base (outcomes, lists, byte memory),
data types, strings and paths, schema trees, nodes (schema + memory), text codecs
(escape, base64, JSON schema), iterators, node heap (pointers), blueprint helpers
(one-to-many relations, n-d index, multi-component arrays, curves), relay pieces.

Specifications are kept apart from the model: for each property a small `Spec`
definition (an ordered dictionary, a finite function from paths to values, "every
byte of the element lies in the interval", ...) that does not call the modelled
functions.

## 2. Plan per property

* **C01** Model object hierarchy as the three redundant containers (child vector,
  name->index map, name order). Invariant by induction over operation lists;
  refinement to an ordered dictionary (list of (name, sub-tree) with unique names).
* **C02** Tree model of `fetch`; lemmas by induction on the path; frame condition
  over all other paths.
* **C03** Model `has_path` and `fetch_existing` (Schema and Node versions) on raw
  strings with fuel; positive theorem for ordinary component names; refutations by
  witness for strings such as `//a`, and non-termination for the empty path.
* **C04** String lemmas over the modelled `split_string`, `rsplit_string`,
  `join_path` and the file path variants.
* **C05** `name`/`path` on positions; round trip through `fetch_existing` for trees of
  objects with ordinary names; refutation for lists and names containing `/`.
* **C06** `equals` by structural recursion; reflexive/symmetric/transitive and
  characterisation against an independent relation on trees; refutation for names
  containing `/`.
* **C07** `compatible`; reflexive, transitive, element-count guarantee.
* **C08** Arithmetic over `dtype`; induction over trees; tightness.
* **C09** `compact_to` on schemas; tiling stated as a list of intervals.
* **C10** Refutation (sums cancel / stride 0), plus the positive theorem under the
  layout conditions that make it true.
* **C11** Node model with memory; correctness of `compact_elements_to` by induction
  over the tree; frame over all other blocks.
* **C12** `serialize` to a byte vector; refutation for strided non-last leaves;
  positive theorem when every leaf is compact.
* **C13** Byte level theorem about the strided copy loop and its fast path.
* **C14, C15** Node model; separation of blocks (no sharing) / identity of
  addresses.
* **C16** `set` of arrays on a leaf in any previous state; refutation (reads past the
  source) and positive theorem for the non-reuse path.
* **C17** `update` on value trees (after C11's abstraction); merge specification.
* **C18** `update_compatible` on memory; frame.
* **C19** Byte reversal on strided memory.
* **C20, C21** `diff` on value trees for integer, string, object, list data.
  Floating point comparison is abstracted (see trusted base).
* **C22** Pointer heap model of nodes and schemas.
* **C23** Address model.
* **C24** JSON value tree printed by `to_json` and consumed by `walk_json_schema`;
  the text <-> JSON value step is rapidjson (third party), outside the model.
* **C25** Byte string functions.
* **C26** libb64 state machines.
* **C27** Finite tables, plus "every other string".
* **C28** Iterator state machine over move sequences.
* **C29** `factor` with termination.
* **C30** `json_sanitize` character machine.
* **C31, C32** Iterator state machine; `compact_to` with fuel.
* **C33** Mixed radix arithmetic.
* **C34** Layout computation plus C17.
* **C35** Recursion with well-founded measure; permutation of the grid.
* **C36** Composition of C11, C12, C24. `SaveCrash.v` lists the disks a crash of a save may leave (a file grows from
  the front); what was saved elsewhere survives, a save over an earlier one may not (refuted).
* **C37** Registry state machine.
* **C38** Strided views over memory.
* **C39** `set(schema)` on the node model: walk over one fresh zeroed block; bounds of
  every element from the span arithmetic of C08.
* **C40** The pointer heap of C22, invariant by induction over lists of calls.
* **C41** A small command language over Node variables (calls at a path, swap, move);
  denotation on value trees; simulation by induction on the program, with a separation
  invariant (every variable reads and owns its own memory) and an exact account of live
  buffers.
* **C42** Writer and reader of the base64 JSON protocol, composed from the models of
  C11, C24, C26 and C30.
* **C43** Writer and reader of node values as JSON.  Conversions between floats and text
  are a record of functions that theorems quantify over; FloatText.v gives the concrete
  ones (printf %.15g, rapidjson's number reader, strtod).  About these it is proved that every
  finite float32 and every whole number of at most 15 digits survives, and that any double
  between 10^-280 and 10^305 comes back within 6 parts in 10^15 and is stable from then on:
  FloatOps.v (division and multiplication of the standard library's SpecFloat round
  correctly), RjRead.v and RjFloat.v (what rapidjson computes), RjText.v, JFloat.v.
* **C44** The same models with the json protocol; `reads` (PureJson.v) relates a JSON value
  to the node value it stands for, `says` and `kept` (PureText.v) a node value to its text
  and to what comes back.
* **C45** MatSet.v models the conversions of matset_xforms.cpp on the contents of the nodes;
  volume fractions are abstract values with a test "counts".  `full_at`, `uni_at`, `sbm_at`
  (MatSetFacts.v) say how much of a material an element holds in each form; each conversion
  is proved to keep them, by lemmas about packed rows, maps and in-order writes.
* **C46** Silo.v models detail::to_silo (both buffer layouts, element or material dominant, with or without
  a field) and find_widest_dtype.  The specification lists the entries (element, material number, volume
  fraction, value) of a material set and says what a Silo object records (`stands_for`: a chain of slots
  for a mixed element).  Proof: the nested O2MIterator loops visit the groups; entering the slots in the
  maps keeps them sorted and complete; laying out is an induction over the elements with the arrays
  written so far as a prefix.  Refuted: an element without slots makes the loop endless, unsigned and narrow
  ids break the negative references, scattered indices are ignored, field values are narrowed.
* **C47** Silo.v models specset::to_silo.  `leads_for` says that a place in species_mf belongs to a material
  in a zone.  Proof: the rows of species_mf have equal length, so a place is row * length + offset;
  the chain walk follows the chain of the specification.  Combined with C46 for objects made by to_silo.

* **C48** `MeshConv.v`, `MeshConvFacts.v`, `P_MeshConv.v`. Coordinate sets as records of their children,
  axis numbers in an arbitrary type with arithmetic and conversions as parameters, the three write loops of
  `convert_coordset_to_explicit` over a memory of written/unwritten cells, grid arithmetic and corner loops of
  `convert_topology_to_unstructured`. Spec: mixed-radix numbering `grid_index`, explicit corner lists, `coordinate`.
  Proof: writes of a loop nest as one list of (place, value) pairs that is functional and covers every place;
  case split on one, two, three axes for the corners. Counterexamples: int8 dims, 0x0 grid, integer axes.

* **C49** `MeshElem.v`, `MeshElemFacts.v`, `P_MeshElem.v`. The shape tables, `generate_offsets` (destinations
  that are new, and the topology itself), `points` with its iterators and sets, `unique_mask` with its lookup
  tables and its loops, both centroid loops over abstract coordinates. Spec: a topology *has rows*, a list of
  lists laid out one after another; `starts` are the prefix lengths, `distinct` the first occurrences, `mean` the
  sum times the inverse of the number. Proof: the value of a mask entry is one less the number of equal
  earlier entries (invariant over the list of compared pairs, tables checked for n <= 8); sets by sorted insertion.
  Faces: closedness and orientation on reference elements, by computation. Counterexamples: polygons of more than
  eight points (all of them), a point three times, narrow offsets, stream topologies, mixed, half-given offsets.

* **C50** `MeshRenum.v`, `MeshRenumFacts.v`, `P_MeshRenum.v`. `TopologyBuilder` (add, execute, as histories of
  calls), `unstructured::reorder` with the slicing of coordinates and fields, `reindex_coords`, and the Hilbert
  ordering with `std::partition` as any function that partitions. Proof: invariants of the numbering loops (number
  = place among the distinct points so far); termination of the recursion because every part is shorter. Refuted:
  ids missing from the new list become point 0; the type of the old offsets is kept although new ones may not fit;
  the Hilbert ordering returned is the inverse of the order documented; clusters are not sorted.

* **C51** `KdTree.v`, `KdTreeFacts.v`, `P_KdTree.v`. The kd-tree (extents, cutting, in-place sorting of ranges, boxes
  in a heap layout, descent, search of the parent of the last box) and the brute-force search, over a record of
  arithmetic; instances: exact rationals, and IEEE of any precision (`Coq.Floats.SpecFloat`, plain Gallina, no axioms).
  `std::sort` is any function that sorts strict weak orders, the number of levels any function. Proof: `holds`, an
  invariant that ties the boxes below a node to a stretch of the index; descendants in the heap as quotients by
  powers of two for the frame. Refuted: float planes (nothing found), points near a cut, no points.

* **C52** `PointMerge.v`: the tree that grows while points are put in (boxes, median cut, bucket
  size), the merging of points one after the other, the choice between appending and merging,
  coordinate systems and their names, the output columns. Coordinates with an arbitrary
  arithmetic as in C51; the theorems are for exact arithmetic; `rtp_to_xyz`, `xyz_to_rtp` are
  parameters. Proved by an invariant (every point lies in the boxes above it), so that a box that
  does not contain the position within the tolerance has no point that is near; induction over
  the points for merging. Refuted parts: points nearer than the tolerance in boxes that do not
  meet, equal points with different numbers, truncated origins of uniform sets, axes x and z,
  spherical coordinates, a single set, logical coordinates.

* **C53** `AdjSet.v`: adjacency sets as lists of named groups (neighbors, values): renaming to
  canonical names, the test for them, the tests for and conversions to the pairwise and max-share
  forms, with the maps they fill.  Proved: what is listed for each neighbor (order included), that
  two domains that agree still agree in pairwise form, that max-share is a partition of the
  entities by the set of their neighbors, and max-share to pairwise and back.  The order of names
  is an independent inductive relation.

* **C54** `Mpi.v` models what a rank puts into a message and what it makes of one: the message
  node with its schema text and packed data, the parsed schema laid over the bytes, the update of
  the receiving node; for the raw calls the direct pointer or the packed copy.  `MpiFacts.v` proves
  send-then-receive equal to `vupdate` on values (spec of C17), raw sends equal to the
  bytes of the value, raw receives filling the elements in order, and the bisection for the tag
  limit by an interval invariant.  Refuted for pieces of one array, for leaves at an offset, for nodes in
  use, empty containers, adjacent blocks, and tag limits of 2^30-1 and up (int overflow).

* **C55** `MpiColl.v` models each collective as what a rank passes to MPI and what a receiving rank
  makes of the parts of all ranks: displacements, parsed schemas laid one after the other, `list_of`,
  the direct pointer or packed copies, the element type and count of a reduction.  `MpiCollFacts.v`
  shows that a value is its kinds and its bytes (`value_same`), so equal bytes in equal shapes are
  equal values, and from it: gathering is the list of the values, broadcasting is the root's value,
  reducing is the update with the elementwise results.  Refuted for gather and reduce at an offset,
  gather and broadcast of pieces, unequal sizes, longer leaves, other byte orders, sums over 2^31.

* **C56** `MpiNet.v` models all ranks of a communicator inside communicate_using_schema: a rank's
  next MPI call is a send, a probe with its receive, or the wait at the end with the building of
  the nodes; the network is a list of messages of which a receive takes the oldest for its source
  and tag.  A schedule is any sequence of ranks allowed to make their next call.  `MpiNetFacts.v`
  proves an invariant with ghost lists (sent so far, received so far: per source, destination and
  tag, sent = received ++ in the network), progress from the balance of sends and receives,
  termination by a measure, and the final values from the C54 laws.  The spec (`received`) is a
  relation on values only.  Refuted for tags above the bound (they collide), for a rank without
  operations (address of the first entry of an empty vector) and for unmatched receives (hang).
* **C57** `MpiDist.v` models distribute on all ranks: the rank map, the walk over the domain map
  (iterator of `O2M.v`), copies, sends and receives with tags from 422000; the exchange is that of
  C56.  `MpiNetMore.v` shows that operations read off one list of transfers match up whatever their
  tags (tags above the bound fall together), which is the new theorem C56_transfers.
  `MpiDistFacts.v`: specification `due` (what the map sends to a rank), the rank map by a maximum
  over ranks, induction over the walk for the queues of one rank, induction for the values received.
* **C58** `Csv.v` models the writer (header, rows, names of list children and of columns with
  slashes), the reader (lines, trimming, the test whether the first line holds names, the tree made
  of the names, numbers by C++'s stof/stod over `c_strto` of `FloatText.v`) and the directory forms
  (file names, listing order, sorting by the number after `table_list_`). Proof: the pieces of a
  joined line are its entries; the tree made of the names has the shape of the table; rows append
  one element to each leaf (`CsvFacts.v`); the text of an integer is read back by induction on its
  digits (`CsvNum.v`); the text of printf's %g is the number rounded to its significant digits
  (`GText.v`) and a float of enough precision read from it is so near that it prints the same text
  (`GRead.v`, `CsvFloat.v`); sorting undoes any permutation of the listing (`CsvMany.v`).

* **C59** `NumConv.v` models the conversion of one number (`cast`), the accessor, the scalar and array
  conversions and the reading of text. The specification (`NumConvFacts.v`) speaks of rationals: the
  target's number nearest to the source's, or the truncated one, or the one congruent modulo 2^bits.
  That the floating point model rounds correctly is proved from `SpecFloat`'s definitions in
  `RoundFacts.v` (a finite result is nearest, ties to even; overflow exactly from half a unit above
  the largest float) and `RoundText.v` (the same for decimal text through a big fraction).
  `NumConvMem.v` lifts the element law to arrays in memory, `NumConvText.v` to text.

* **C60** `MeshIO.v` models write_mesh and read_mesh over a disk (file name to a map from paths in the
  file to values): the numbering of the domains, the map of domains to files, the baton rounds in
  which the ranks take turns (`rounds`, with an arbitrary scheduler of each round's writes and
  arbitrary failures), the three file styles, the root file with its two kinds of patterns, fmt and
  the two path generators. `MeshIORounds.v`: each file ends as the fold of the writes of the ranks
  that queue for it, in an order that does not depend on the scheduler, because a file has one writer
  per round. `MeshIONames.v`: the patterns lead back to the names. `MeshIOTrip.v`, `MeshIOMore.v`: the
  round trip, the second mesh, the older reader. What happens when a write fails outside the N to M
  loop on one rank only (the others wait for ever) is not in the model.

* **C61** `IOHandle.v` models IOHandle and BasicHandle: objects with mode flags, the node kept in
  memory, the save at close, over a disk of opaque contents; node operations and io::save / io::load
  are section variables, with the hypothesis that what a protocol wrote it reads back.
  `IOHandleSpec.v` is a write-through file system with a crash content per file, and the rules a
  program has to keep. `IOHandleFacts.v`: forward simulation, for every program; `IOHandleMore.v`:
  what holds for programs that keep no rules.

* **C62** `Partition.v` models the serial partitioner down to which elements go to which output
  domain: the four kinds of selections, splitting the largest until the target is met, the numbers
  given to chunks. `PartitionSpec.v` says which elements a request wants. `PartitionFacts.v`: splitting
  keeps the elements; `PartitionInit.v`: what the first selections name, and when they are whole;
  `PartitionCount.v`: pigeonhole for the splits, and the invariant of the grouping;
  `PartitionField.v`: field selections. The loop that splits may not end: it has fuel, and the count
  theorem says how much is enough.
* **C63** `Hdf5.v` models relay's HDF5 back end over a small model of the library: groups with links in
  creation order, one-dimensional data sets with a type, a byte order and perhaps unlimited length, and
  the list mark. Writing is modelled with its compatibility check, creation, conversion of fixed to
  unlimited data sets and hyperslabs; reading with its walk over the links. `Hdf5Spec.v` is the tree
  the user thinks of (what fits, what a write leaves). `Hdf5Facts.v`: the file that stands for a tree, and
  the check and the write on it; `Hdf5Hist.v`: reading, removing, and programs by induction; `Hdf5Slab.v`:
  offsets and strides. Reads past the end of a node's memory are UB.
* **C64** `TopoMeta.v` models `TopologyMetadata` as the generate_points / lines / faces calls use it:
  the sweep that hashes sorted point ids and numbers entities by sorting, `polygons_to_lines`, the
  association of elements with faces, lines and points, edge lookup by binary search, and the map
  back.  `std::sort` is any function that sorts by a strict weak order (a hypothesis of every
  theorem; insertion sort is shown to be one).  `TopoMetaSpec.v` lists faces and edges of each
  shape and says what a numbering and its maps are.  The theorems need that the hash tells the
  entities apart; for lines between points below 256 this is proved (`TopoMetaHash.v`: mixing is
  injective, and a table of 256 states is spread out), and a collision is exhibited for larger ids.
* **C65** `MeshFlat.v` models `mesh::flatten` function by function: collecting the sizes, axes and ids of
  the domains, choosing fields and reference fields, making columns, copying with conversion, centers in
  float64 and ids. `MeshFlatSpec.v` says what each row of each column holds, given domains that go together
  (`fits`). Proof: every write changes one column only and is a splice (`MeshFlatFacts`, `MeshFlatSingle`);
  one domain has a known effect on every column (`single_ok`); the rows of a column after all domains follow
  by induction for any column at once (`domains_col`). On whole meshes (`whole`) flatten succeeds (`C65_total`): the
  types and lengths of all columns stay as allocated, which lets every later step succeed. Nine refutations.
* **C66** `MeshVerify.v` models `mesh::verify` and every function below it: the checks thread a report (a second
  tree) whose entry `valid` is and-ed by `log::validation`, and references read the flags earlier sections left there.
  `MeshVerifySpec.v` is the schema as a boolean function on trees with no report. `MeshVerifyFacts.v` gives rules
  for the combinators (`ok`: ends with this answer and only lowers the flag if the answer is no; `keeps`: leaves the flag),
  `MeshVerifyParts.v` and `MeshVerifySets.v` apply them to each part, `MeshVerifyDomain.v` carries the invariant that
  the flags of finished sections are those of the schema through the sections of a domain, the pass over grid
  functions and the domains of a mesh. Refuted: windows of adjacency sets are not compared (an argument is passed in the
  wrong place), shapes without a map, maps of other integer types or without elements and materials without species make the check throw
  or read outside, as does a part named `valid`; empty coordinates or materials and components of different lengths pass.
* **C67** `MeshIndex.v` models `generate_index` (with `Node::update` for several domains) and `mesh::index::verify`.
  `MeshIndexSpec.v` has the schema of an index (`index_ok`), the domains whose axes, materials and components have
  names (`indexable`) and what an index has to say of a domain (`index_of`, `state_of`). `MeshIndexFacts.v` applies the rules of C66 to
  the check; `MeshIndexMake.v` shows for each kind of part that its entry is made, says what it should and follows the schema;
  `MeshIndexWhole.v` carries this through the sections, with references that move from the domain to its index. `MeshIndexMany.v`
  is about several domains: `Node::update` of an entry with an equal one or with nothing gives the entry (`update_same`, `update_new`), entries of parts
  that are `alike` are equal, so every section of the merged index holds entries of some domain, and those of all domains (`inv`). Ten
  refutations: meshes that pass `mesh::verify` and have no index, or one that does not pass.
* **C68** `RelayIO.v` models `relay::io::save`, `save_merged`, `load`, `load_merged` (built-in protocols only) and
  `identify_protocol`: splitting `file:place`, the two files of conduit_bin, `Node::fetch` with `..` on trees of values.
  What the protocols write and read and `Node::update` are parameters (their own laws: C36, C42-C44, C17). The
  specification (`RelayIOSpec.v`) is a store from files to documents with `part` and `plant` at lists of names. Proof:
  induction over the program with the invariant that every file loads as its document (`programs`).
  Refuted: an empty place after the colon, a missing place as an error, files named like the schema file of another,
  names with a colon, names that are only an extension, one-letter names before a backslash, `x/../x`, two slashes at the end.
  `RelayIOMore.v` has the other spellings of places: extra slashes, slashes only, `..`.
* **C69** `TableVerify.v` models `table::verify` with the loop over the columns as it is (its flags `res` and
  `first_column`, its counter), on the trees and reports of C66. `TableVerifySpec.v` says when columns have one
  number of rows and what the report should tell. Proved: the answer (C69_answer, C69_means) and the report
  (C69_report, C69_report_many) for all trees with decent names and no empty columns. Refuted: a column without
  components makes the check throw; so does a column called `valid`; columns after a wrong one are blamed,
  because the number of rows is only looked up while all is well and taken from the first column only; components
  of which the first is empty may differ in length.
* **C70** `Protocol.v` models `blueprint::verify`, `mesh::verify(protocol, ...)` and `zfparray::verify`; the checks called
  are those of C66, C67 and C69. `ProtocolSpec.v` is a list of the names of protocols, each with the rules of its
  own specification. Proved: the answer for every name in the list (C70_answer), errors and refusals for all other
  strings (C70_unknown, C70_nested, C70_nested_mesh), a slash at the end (C70_slash). Refuted: after a name like
  `mesh/fields` the report has no answer; a slash at the end of a nested protocol, or at the front, matters.
  `ProtocolMpi.v` has `mpi::verify` and `mpi::mesh::verify` for any number of ranks (C70_parallel, C70_parallel_other; the
  reduction is that of C55). Refuted: it answers for parts of meshes as the serial one does, it knows errors, and
  the report of a rank carries the answer.
* **C71** `RankMap.v` models `generate_domain_to_rank_map` once more, now with domains that have no number, with numbers used
  several times and with the vector that is written (C57 has it for distinct numbers, as part of `distribute`).
  `RankMapSpec.v` says who has a domain and what the map should tell. Proved: C71_map, C71_found. Refuted: a domain without a
  number hides a numbered one of another rank, two such domains of a rank share a place, a negative number or no domain
  at all is undefined behaviour.
- **C72** (index of a mesh over ranks): `MeshIndexMpi.v` models mpi::mesh::generate_index over the list of the ranks' trees, with
  `number_of_domains` and the sum read as a 32-bit number; `MeshIndexMpiSpec.v` says which domains a rank has. The invariant of C67
  (all entries come from a domain, every part of every domain has its entry) is kept when the index of a whole rank is merged;
  entries are determined by the parts, so the spread over ranks does not matter (`C72_spread`). Refuted: a mesh without domains on
  all ranks has an index that fails its check; the cycle of the index depends on the order of ranks if domains disagree.

## 3. Trusted base

* The Coq 8.16.1 kernel, and `vm_compute` (part of the kernel) for closed computations
  (mostly in refutations and examples).
* `Print Assumptions` is issued under every property theorem.  Every one answers
  "Closed under the global context": no axiom is used, neither of ours nor of the standard
  library.  (A scan of the *loaded* library also finds the seven module-type parameters
  `Coq.ssr.ssrunder.Under_rel.*` of Coq's own ssreflect; no theorem depends on them.)
  No theorem uses an external library besides the Coq standard library.
* The reading of the C++ source (no extraction, no execution), see section 4.
* The memory model: a block per allocation, pointers are (block, offset), every access is
  bounds checked; allocation never fails and always returns zeroed memory (conduit calls
  `calloc`).  Alignment and strict aliasing are ignored.
* `index_t` is unbounded except where a theorem says otherwise (C20, C24, C26, C38 speak
  of 64-bit, 32-bit or element widths).
* rapidjson is not modelled: where JSON text is read, theorems quantify over every reader
  that is right on strict JSON whose numbers are not too long or too big (`reads_json`, an
  explicit hypothesis); a concrete reader is shown to meet it, so the hypothesis is
  satisfiable.  FloatText.v models how rapidjson computes the double of a number.
* printf("%.15g") and strtod are taken to be correctly rounded (as glibc's are).

## 4. What is modelled, what is not

| Code (src/libs/...) | Model | Left out |
|---|---|---|
| conduit/conduit_data_type.{hpp,cpp} | DType.v | Fortran/native name tables beyond the ids, printing other than JSON |
| conduit/conduit_utils.cpp: paths, factor, allocator registry, escape, base64, json_sanitize | Path.v, Utils.v, Codec.v, Json.v | file system calls, formatting, logging handlers, hash |
| thirdparty libb64 | Codec.v | line breaks in the encoder |
| conduit/conduit_schema.cpp | Schema.v (value), NodeLinks.v (pointers), Json.v (to_json) | save/load of schema files (C36 has the text), YAML |
| conduit/conduit_node.cpp: fetch, child, append, remove, has_path, set/set_external/set_schema/set arrays/strings, compact, serialize, update, update_compatible, endian_swap, swap, move, reset, save/load/mmap (conduit_bin), diff, diff_compatible, contiguity | NodePath.v, Node.v, NodeHist.v, NodeLinks.v, NodeDiff.v, Contig.v, Save.v | `info` reports of diff, YAML output, accessors by type, describe, update_external, the typed overloads that only differ in the C++ type |
| conduit/conduit_data_array.cpp, conduit_data_accessor.cpp | NodeDiff.v, ArrayOps.v | mean, float sums, int/float conversions, string output |
| conduit/conduit_node_iterator.{hpp,cpp} | NodeIter.v | info() |
| conduit/conduit_generator.cpp | Json.v (schema half), B64Json.v (base64 protocol), ValueJson.v (values) | YAML, external data with inline values, lengths by reference, addresses |
| blueprint/o2mrelation*, ndarray_index, mcarray, curves | O2M.v, NDIndex.v, McArray.v, Gilbert.v | verify reports, examples |
| blueprint/mesh_matset_xforms.cpp | MatSet.v, Silo.v | species sets other than to_silo, foreign endianness, relations given per material |
| blueprint/mesh_utils.cpp find_widest_dtype | Silo.v, MeshConv.v | strings |
| blueprint/mesh.cpp coordinate set and topology conversions, mesh_utils.cpp get_coordset_info | MeshConv.v | strips, names of the results, foreign endianness, arithmetic of floats (a parameter) |
| blueprint/mesh_utils.cpp ShapeType, generate_offsets, points; mesh.cpp centroids | MeshElem.v | mixed shapes (UB at once), conversion of centroids to the float type |
| blueprint/mesh_utils.cpp TopologyBuilder, reorder, slicing, reindex_coords, Hilbert ordering | MeshRenum.v | ordering in one dimension (std::sort), strided and multi-component layouts of the sliced arrays, overflow of index_t |
| blueprint/mesh_kdtree.hpp; mesh_utils.cpp PointQuery searches, spatial_ordering | KdTree.v | printing, grouping of queries by domain, conversion of positions to float, the 1e-9 constant for float is rounded once |
| blueprint/mesh_partition.cpp: coordset::point_merge, coordset::utils | PointMerge.v | float64 leaves only; simple_merge_data (not compiled in), sets without a type |
| mesh.cpp adjset, mesh_utils.cpp adjset canonicalize, is_canonical | `AdjSet.v` | groups given by windows; group names with slashes; the other children (copied); find_domain_id is an argument; adjset::validate, compare_pointwise, to_topo |
| `relay/conduit_relay_mpi.cpp` send/recv/isend/irecv with and without schema, wait, safe_tag, tag probing | `Mpi.v`, `MpiFacts.v` | MPI itself (a message is the bytes given), request objects, status of wait |
| `relay/conduit_relay_mpi.cpp` gather, all_gather, broadcast (with and without schema), reduce, all_reduce; `Node::list_of` | `MpiColl.v`, `MpiCollFacts.v` | MPI itself (hands over the bytes given, applies the operation place by place); the nodes that hold counts and displacements are lists of numbers |
| `relay/conduit_relay_mpi.cpp` communicate_using_schema | `MpiNet.v`, `MpiNetFacts.v` | MPI itself (no overtaking per source, destination and tag); MPI_ANY_SOURCE; logging; the send buffers live only until copied |
| `blueprint/conduit_blueprint_mpi_mesh_distribute.cpp`; `conduit_blueprint_mpi_mesh.cpp` generate_domain_to_rank_map | `MpiDist.v`, `MpiNetMore.v`, `MpiDistFacts.v` | reading the ids out of the domains; children of the output are variables; MPI_Allreduce gives the maximum (C55); int and index_t do not wrap |
| `relay/conduit_relay_io_csv.cpp`; `blueprint/conduit_blueprint_table.cpp` verify | `Csv.v`, `CsvFacts.v`, `CsvNum.v`, `CsvMany.v`, `GText.v`, `GRead.v`, `CsvFloat.v` | the file system (a directory is a map from names to texts, listed in any order); long double; columns of strings; stream output of integers and of floats is printf %d and %.6g |
| `conduit_node.cpp` to_int8 … to_double, to_X_array, to_data_type; `conduit_data_accessor.cpp` element, set, fill; string_to_value | `NumConv.v`, `NumConvFacts.v`, `NumConvMem.v`, `NumConvText.v` (`RoundFacts.v`, `RoundText.v`) | text is read by iostreams in the C locale (num_get's character collection, then strtol/strtod; hexadecimal floats not accepted); the order of the source's error and the destination's re-initialisation for non-numeric sources; the rounding mode is to nearest |
| `conduit_relay_io_blueprint.cpp` write_mesh, save_mesh, read_mesh and helpers; generate_domain_ids; BasicHandle open modes | `MeshIO.v` (`MeshIOSpec.v`, `MeshIOFacts.v`, `MeshIORounds.v`, `MeshIONames.v`, `MeshIOTrip.v`, `MeshIOMore.v`) | one opaque value per domain (reading the entries the index lists one by one is left out); HDF5; the choice of suffix and of the mesh name; option parsing; creation of directories; the contents of the blueprint index; entries of a file are compared by path, so a path inside another entry is a different entry |
| `conduit_relay_io_handle.cpp` HandleInterface (mode parsing, create), BasicHandle, IOHandle | `IOHandle.v` (`IOHandleSpec.v`, `IOHandleFacts.v`, `IOHandleMore.v`) | the HDF5 and Sidre handles; a save that fails while closing; options |
| `conduit_blueprint_mesh_partition.cpp` Partitioner (initialize, count_targets, get_largest_selection, split_selections, execute, map_chunks), the four selections | `Partition.v` (`PartitionSpec.v`, `PartitionFacts.v`, `PartitionInit.v`, `PartitionCount.v`, `PartitionField.v`) | reading of the options, several topologies, extract and combine (what becomes of coordinates and fields), the parallel partitioner |
| `conduit_relay_io_hdf5.cpp` writing, reading, compatibility check, has_path, remove_path, offset / stride / size | `Hdf5.v` (`Hdf5Spec.v`, `Hdf5Facts.v`, `Hdf5Hist.v`, `Hdf5Slab.v`) | the HDF5 library itself (a model of its groups and data sets stands for it), cycles and shared links, absolute names, compression and chunk sizes, file versions, metadata-only reads, data sets of other ranks, variable length strings, conversions between numeric types |
| `conduit_blueprint_mesh_topology_metadata.cpp`, generate_points / lines / faces in `conduit_blueprint_mesh.cpp`, `utils::hash` of index arrays | `TopoMeta.v` (`TopoMetaSpec.v`, `TopoMetaFacts.v`, `TopoMetaBack.v`, `TopoMetaGen.v`, `TopoMetaLines.v`, `TopoMetaSolid.v`, `TopoMetaHash.v`) | polyhedra, connectivity that is not whole elements, offsets for fixed-size shapes, conversion of the results to the integer types of the input, local maps, the reference implementation |
| `conduit_blueprint_mesh_flatten.cpp/.hpp` | `MeshFlat.v` (options after parsing, explicit form of the coordinates, elements as vertex lists) | `set_options`, messages, conversion of implicit coordinates (C48), list valued fields, the MPI version |
| `conduit_blueprint_mesh.cpp` verify of meshes, coordsets, topologies, matsets, fields, specsets, adjsets, nestsets; `o2mrelation::verify`, `mcarray::verify`, `mlarray::verify`, `conduit_log.cpp` | `MeshVerify.v` (`MeshVerifySpec.v`, `MeshVerifyFacts.v`, `MeshVerifyParts.v`, `MeshVerifySets.v`, `MeshVerifyDomain.v`) | texts of messages, verify by protocol name, paths with slashes as names |
| `conduit_blueprint_mesh.cpp` generate_index, generate_index_for_single_domain, mesh::index::verify and the index checks of the parts; `get_coordset_info`; `Node::update` | `MeshIndex.v` (`MeshIndexSpec.v`, `MeshIndexFacts.v`, `MeshIndexMake.v`, `MeshIndexWhole.v`, `MeshIndexMany.v`) | texts of messages, names with slashes, the MPI version; a shorter text copied over a longer one ends early |
| `conduit_relay_io.cpp` save, save_merged, load, load_merged; `conduit_relay_io_identify_protocol.cpp` | `RelayIO.v` (`RelayIOSpec.v`, `RelayIOFacts.v`, `RelayIOMore.v`) | HDF5, Silo, ADIOS and CSV branches, options, directories and files that cannot be written, the node of the caller after an error |
| `conduit_blueprint_table.cpp` verify | `TableVerify.v` (`TableVerifySpec.v`, `TableVerifyFacts.v`) | the texts of messages; columns named `errors`; names with slashes or `..` |
| `conduit_blueprint.cpp` verify; `mesh::verify` of nested protocols; `conduit_blueprint_zfparray.cpp` verify | `Protocol.v` (`ProtocolSpec.v`, `ProtocolFacts.v`) | the texts of messages; `about` |
| `conduit_blueprint_mpi.cpp` verify; `conduit_blueprint_mpi_mesh.cpp` verify | `ProtocolMpi.v` (`ProtocolMpiFacts.v`) | all ranks at once, an error on one rank is an error of the whole (the others would wait) |
| `conduit_blueprint_mpi_mesh.cpp` generate_domain_to_rank_map | `RankMap.v` (`RankMapSpec.v`, `RankMapFacts.v`) | reading `state/domain_id` with `to_int64`; all ranks at once |
| conduit_blueprint_mpi_mesh.cpp generate_index; conduit_blueprint_mesh.cpp number_of_domains | MeshIndexMpi.v (C72) | all_gather_using_schema delivers the trees sent |

Not modelled at all: threads, the MPI library, the HDF5 library, Silo/ADIOS/zfp back ends, Python and Fortran
bindings, the web server, mesh transforms beyond the rows above,
memory exhaustion.

Simplifications inside a modelled function are stated in the comment above its definition.
A property that the code does not meet in full is stated with its exceptions in
`properties.jsonl`; each exception is a theorem with suffix `_refuted` giving a concrete
state in which the faithful model misbehaves.
