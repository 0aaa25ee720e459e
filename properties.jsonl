{"id": "C01", "title": "Object children stay a consistent ordered dictionary", "statement": "After any sequence of structural edits on an object (create child by name, remove by name or index, rename, append on lists, reset), every child name is unique, looking a name up gives the position at which that name is listed, listing positions 0..n-1 gives each child exactly once, and the list of names, the name lookup and the children vector all have the same length. The visible content equals that of an ordered dictionary (insertion order, removal keeps the order of the others, rename keeps the position).", "quantifier": "every finite sequence of structural operations with every choice of names and indices, starting from an empty schema", "why_tests_cant": "The name map, name order and child vector are three redundant containers updated by hand (removal re-numbers the map); tests try a handful of short histories, the property is about all histories.", "anchors": ["src/libs/conduit/conduit_schema.cpp: Schema::add_child, Schema::fetch, Schema::remove, Schema::remove_child, Schema::rename_child, Schema::append, Schema::child_index, Schema::child_names"]}
{"id": "C02", "title": "A path that was created can be fetched, and creating it disturbs nothing else", "statement": "After fetching (creating) a path, the same path is reported present and fetch_existing returns the entry that fetch returned; every other path that was present before is still present and denotes the same sub-tree; fetching an already existing path changes nothing. Exceptions: the component '..' moves to the parent and then creates an entry with the empty name there (counterexample proved).", "quantifier": "every schema tree and every path built from ordinary component names", "why_tests_cant": "Holds for unbounded trees and paths; interaction of leading slashes, repeated slashes, '..' and promotion of leaves to objects has too many combinations to sample.", "anchors": ["src/libs/conduit/conduit_schema.cpp: Schema::fetch, Schema::fetch_existing, Schema::has_path, Schema::add_child"]}
{"id": "C03", "title": "has_path and fetch_existing agree", "statement": "has_path(p) is true exactly when fetch_existing(p) succeeds, for a tree and a path; in particular fetch_existing never loops or crashes on any path string. Exceptions: false of the code for leading or repeated slashes, '..' and the empty path, on which Node::fetch_existing never returns (counterexamples proved); proved for ordinary component names, and for Node::fetch_existing for every spelling with extra slashes.", "quantifier": "every tree and every path string, including leading, trailing and repeated slashes, '..' components and empty strings", "why_tests_cant": "Agreement must hold for every string; tests only use well formed paths, while the two functions parse paths with different code.", "anchors": ["src/libs/conduit/conduit_schema.cpp: Schema::has_path, Schema::fetch_existing", "src/libs/conduit/conduit_node.cpp: Node::fetch_existing, Node::fetch"]}
{"id": "C04", "title": "Path splitting and joining are inverse", "statement": "Joining a component and a rest and splitting the result at the first '/' returns the two parts; splitting at the last '/' then joining returns the original path; splitting a string on a separator character and re-joining the pieces loses no characters other than the separators. Exceptions: rsplit then join loses leading or repeated slashes; splitting on a character stops at a NUL byte (counterexamples proved); proved for the remaining strings.", "quantifier": "every string", "why_tests_cant": "Universally quantified over strings; boundary cases (no separator, leading/trailing/adjacent separators) interact.", "anchors": ["src/libs/conduit/conduit_utils.cpp: split_path, rsplit_path, join_path, split_string, rsplit_string, split_file_path, rsplit_file_path, join_file_path"]}
{"id": "C05", "title": "A node's path leads back to it", "statement": "For any node inside a tree, the path string it reports, when fetched from the root, yields that node again. Exceptions: false for entries of lists and for names containing '/' (counterexamples proved); proved for nodes reached through ordinary names.", "quantifier": "every tree and every position in it", "why_tests_cant": "Depends on naming rules at every level (object names, list indices, names containing '/'), for trees of any depth.", "anchors": ["src/libs/conduit/conduit_schema.cpp: Schema::name, Schema::path, Schema::fetch_existing"]}
{"id": "C06", "title": "Schema equality is an equivalence relation that characterises structure", "statement": "Schema::equals is reflexive, symmetric and transitive, and is true exactly when the two trees have the same leaf descriptions under the same names (lists: same positions), ignoring the order of object children. Exceptions: false when a name contains '/', where even reflexivity fails (counterexample proved); proved for ordinary names.", "quantifier": "all pairs and triples of schema trees", "why_tests_cant": "Equivalence laws quantify over all trees; equality is implemented with asymmetric lookups.", "anchors": ["src/libs/conduit/conduit_schema.cpp: Schema::equals", "src/libs/conduit/conduit_data_type.cpp: DataType::equals"]}
{"id": "C07", "title": "Compatibility is a preorder that guarantees update-in-place is in bounds", "statement": "Schema::compatible is reflexive and transitive; when dest.compatible(src) holds, every leaf of src has a counterpart in dest of the same type and element size that has at least as many elements. Exceptions: transitivity is false: children missing on one side are skipped, so an empty object in the middle is compatible with everything, and a leaf of src need not have a counterpart (counterexample proved); names with '/' raise an error instead of a verdict. Proved: reflexivity, the exact characterisation, the bound for leaves present on both sides, transitivity when the middle tree covers the last.", "quantifier": "all pairs and triples of schema trees", "why_tests_cant": "Quantifies over all trees; the check that guards unchecked memory copies must never be weaker than what the copies need.", "anchors": ["src/libs/conduit/conduit_schema.cpp: Schema::compatible", "src/libs/conduit/conduit_data_type.cpp: DataType::compatible"]}
{"id": "C08", "title": "A buffer of spanned_bytes holds every element of every leaf", "statement": "For a schema whose leaves have non-negative offsets and strides and at least one element, every byte of every element of every leaf lies in [0, spanned_bytes), and no smaller buffer suffices; total_bytes_compact is the sum over leaves of number_of_elements times the size of the type. Exceptions: an array without elements but with a stride has a negative span (counterexample proved).", "quantifier": "every schema tree and every layout (offset, stride, element size, count)", "why_tests_cant": "Memory safety of every reader and writer rests on this bound for all layouts, including strided, overlapping and interleaved ones.", "anchors": ["src/libs/conduit/conduit_schema.cpp: Schema::spanned_bytes, Schema::total_bytes_compact, Schema::total_strided_bytes", "src/libs/conduit/conduit_data_type.cpp: DataType::spanned_bytes, DataType::strided_bytes, DataType::element_index, DataType::bytes_compact"]}
{"id": "C09", "title": "Compacting a schema yields a dense, non overlapping layout", "statement": "Schema::compact_to keeps names, order, types and counts; the resulting leaves tile [0, total_bytes_compact) exactly, in depth first order, with no gap and no overlap; the result reports itself compact and compacting it again changes nothing.", "quantifier": "every schema tree", "why_tests_cant": "The running offset is threaded through a recursion over arbitrary trees.", "anchors": ["src/libs/conduit/conduit_schema.cpp: Schema::compact_to", "src/libs/conduit/conduit_data_type.cpp: DataType::compact_to"]}
{"id": "C10", "title": "is_compact tells the truth", "statement": "If a schema or data type reports is_compact, then its elements really occupy a gap-free sequence of bytes of total_bytes_compact bytes. Exceptions: offsets are not looked at, and a gap in one leaf may be cancelled by overlapping elements of another (counterexamples proved); proved: for standard leaves with elements that do not overlap, is_compact holds exactly when each leaf is dense.", "quantifier": "every schema tree and every layout", "why_tests_cant": "The test is a comparison of two sums over all leaves; whether equal sums imply density is a universally quantified statement.", "anchors": ["src/libs/conduit/conduit_schema.cpp: Schema::is_compact", "src/libs/conduit/conduit_data_type.cpp: DataType::is_compact"]}
{"id": "C11", "title": "Compacting a node preserves every value", "statement": "Node::compact_to produces a node whose leaves hold, element for element, the same bytes as the source, in one allocation of exactly total_bytes_compact bytes; no byte outside that allocation is written and the source is unchanged. Exceptions: False when the source is a view of memory the destination owns (use after free, counterexample proved).", "quantifier": "every node tree, every memory layout (strides, offsets, shared or external buffers) and every content", "why_tests_cant": "Quantifies over memory contents and layouts; out of bounds writes are invisible to value tests.", "anchors": ["src/libs/conduit/conduit_node.cpp: Node::compact_to, Node::compact_elements_to", "src/libs/conduit/conduit_utils.cpp: conduit_memcpy_strided_elements"]}
{"id": "C12", "title": "Serialize is the inverse of reading with the compact schema", "statement": "Node::serialize writes exactly total_bytes_compact bytes; reading them back with the compacted schema gives the same values. In particular it never writes outside the buffer. Exceptions: False for serialize(vector) when a strided leaf sits inside an object or list (buffer overrun or scrambled values, counterexamples proved); proved for dense leaves, single leaves and serialize(ofstream).", "quantifier": "every node tree, every memory layout and content", "why_tests_cant": "The buffer size is computed from one traversal and the write positions by another; they must agree for all layouts.", "anchors": ["src/libs/conduit/conduit_node.cpp: Node::serialize, Node::set_data_using_schema"]}
{"id": "C13", "title": "Strided element copy moves exactly the requested elements", "statement": "Copying n elements with given source and destination strides makes element i of the destination equal to element i of the source for all i < n and changes no other byte; the fast path for dense data gives the same result as the element loop.", "quantifier": "all element counts, element sizes, strides and memory contents with non overlapping destination elements", "why_tests_cant": "Statement about every byte of memory for all strides.", "anchors": ["src/libs/conduit/conduit_utils.cpp: conduit_memcpy_strided_elements"]}
{"id": "C14", "title": "set copies deeply", "statement": "After dest.set(src) the two nodes have equal structure and values, and no later write to a leaf of one is visible in the other; the source is not modified. Exceptions: False for n.set(n), which empties n, and for setting a node from a view of its own memory (counterexamples proved).", "quantifier": "all source and destination trees, layouts, contents and later writes", "why_tests_cant": "Absence of aliasing is a statement about all future writes.", "anchors": ["src/libs/conduit/conduit_node.cpp: Node::set(const Node&), Node::set_node"]}
{"id": "C15", "title": "set_external shares, never copies", "statement": "After dest.set_external(src) every leaf of dest reads and writes the same memory as the corresponding leaf of src: a write through either is visible through the other, for every leaf, and no data is allocated or copied. Exceptions: False when the destination was set to an empty schema before: it then frees the shared buffer a second time (counterexample proved).", "quantifier": "all source trees, layouts and later writes", "why_tests_cant": "Aliasing is a statement about all future writes and all leaves.", "anchors": ["src/libs/conduit/conduit_node.cpp: Node::set_external, Node::mirror_node"]}
{"id": "C16", "title": "Setting an array reads only the given elements and stores exactly them", "statement": "Setting a leaf from an array of n elements reads exactly those n elements, after which the leaf has these n values, whatever the leaf held before. Exceptions: False when the destination is already a leaf of that type with more elements (the array overload reads past the source, the vector and scalar overloads keep the old length and tail), when it has another stride (vector overload), or when it records a foreign byte order (counterexamples proved); proved in all other cases. Strings are read back exactly unless the existing leaf is strided.", "quantifier": "every previous state of the destination leaf (type, length, stride, external or owned) and every source array", "why_tests_cant": "The re-use-in-place shortcut depends on the history of the destination; tests set fresh nodes.", "anchors": ["src/libs/conduit/conduit_node.cpp: Node::set_int8_array, Node::set_int8_vector, Node::init", "src/libs/conduit/conduit_data_type.cpp: DataType::compatible"]}
{"id": "C17", "title": "update merges, overwriting what the source has and keeping what it lacks", "statement": "After dest.update(src): every path present in src is present in dest with the value of src; every path of dest that src does not mention is unchanged; the relative order of existing children is unchanged and new ones come after. Exceptions: False for empty objects, lists and leaves of the source, which change nothing; for a shorter array into a longer leaf, where the tail stays; for a leaf recording a foreign byte order; and for a non-empty object into a non-empty list, which leaves dangling children (counterexamples proved). The exact result is proved in all other cases.", "quantifier": "all pairs of trees", "why_tests_cant": "Recursion over two trees of any shape; frame condition over all other paths.", "anchors": ["src/libs/conduit/conduit_node.cpp: Node::update"]}
{"id": "C18", "title": "update_compatible never changes structure or layout", "statement": "dest.update_compatible(src) leaves the schema of dest (names, types, strides, offsets) and all bytes outside the matching leaves unchanged, and copies the values of src for exactly the paths present in both with compatible types.", "quantifier": "all pairs of trees, layouts and contents", "why_tests_cant": "A frame condition over all bytes and all paths.", "anchors": ["src/libs/conduit/conduit_node.cpp: Node::update_compatible"]}
{"id": "C19", "title": "Endian conversion is an involution that only reverses bytes", "statement": "Converting a node to the other byte order and back restores every byte and the recorded endianness; each element is exactly byte-reversed, bytes between strided elements are untouched, and converting to the order it already has is the identity. Exceptions: Proved for nodes in which no byte belongs to two elements; with shared bytes they are swapped twice (counterexample proved).", "quantifier": "all leaf types, counts, strides, contents", "why_tests_cant": "Quantifies over memory contents and layouts including strided views.", "anchors": ["src/libs/conduit/conduit_node.cpp: Node::endian_swap", "src/libs/conduit/conduit_endianness.cpp: Endianness::swap16, swap32, swap64"]}
{"id": "C20", "title": "diff finds exactly the differences", "statement": "For nodes without floating point data and epsilon 0, a.diff(b) is false if and only if a and b have the same structure and the same values; diff of a node with itself is false; diff is symmetric in its verdict. Exceptions: signed overflow in the reported difference is undefined behaviour; a NaN differs from nothing; the recorded byte order is ignored; string leaves without a NUL are read past their end; relaxint compares first elements only, and int64 -1 with uint64 2^64-1 as equal (counterexamples proved).", "quantifier": "all pairs of node trees", "why_tests_cant": "An 'if and only if' over all pairs of trees; tests check chosen pairs.", "anchors": ["src/libs/conduit/conduit_node.cpp: Node::diff", "src/libs/conduit/conduit_data_array.cpp: DataArray::diff"]}
{"id": "C21", "title": "diff_compatible is a one sided containment check", "statement": "a.diff_compatible(b) is false exactly when every path of a is present in b with the same leading values; identical trees are compatible, and containment composes. Exceptions: with a tolerance containment of floats does not compose (counterexample proved).", "quantifier": "all pairs and triples of node trees", "why_tests_cant": "Quantifies over all trees.", "anchors": ["src/libs/conduit/conduit_node.cpp: Node::diff_compatible", "src/libs/conduit/conduit_data_array.cpp: DataArray::diff_compatible"]}
{"id": "C22", "title": "swap and move exchange content and leave both trees well formed", "statement": "After a.swap(b) each holds the former content of the other, and in both trees every child still knows its parent and its schema is the one its parent's schema lists at that position; swapping twice restores the start. Exceptions: a.swap(b) with b a later child of the same parent leaves the parent schema unchanged; children keep their old parent pointer after swap and move; neither node may be inside the other.", "quantifier": "all pairs of nodes: distinct roots, children of different trees, siblings in either order", "why_tests_cant": "Pointer level invariant over all tree positions; values look right even when the internal links are wrong.", "anchors": ["src/libs/conduit/conduit_node.cpp: Node::swap, Node::move"]}
{"id": "C23", "title": "contiguity reports are truthful", "statement": "If is_contiguous() is true, the non-empty leaves occupy one gap-free address range in depth first order; if contiguous_with(address) is true, that range starts exactly at the address. Exceptions: contiguous_with(address) forgets the address when an empty child comes first, and a leaf with zero elements and a stride other than its element size has a negative extent (counterexamples proved).", "quantifier": "all trees and all placements of leaves in the address space", "why_tests_cant": "Quantifies over all address assignments.", "anchors": ["src/libs/conduit/conduit_node.cpp: Node::is_contiguous, Node::contiguous_with, Node::contiguous_data_ptr"]}
{"id": "C24", "title": "Schema text round trip", "statement": "Writing a schema as JSON and parsing it again gives an equal schema (default endianness being recorded as the machine's). Exceptions: Names hold no quote, backslash or control character and are not \"dtype\"; leaf fields are non-negative; an empty leaf comes back with number_of_elements 1; \\u escapes are not modelled.", "quantifier": "every schema tree and every child name", "why_tests_cant": "Names and structures are unbounded; special names can collide with the syntax used for leaves.", "anchors": ["src/libs/conduit/conduit_schema.cpp: Schema::to_json_stream", "src/libs/conduit/conduit_data_type.cpp: DataType::to_json_stream", "src/libs/conduit/conduit_generator.cpp: walk_json_schema, parse_leaf_dtype"]}
{"id": "C25", "title": "String escaping round trip", "statement": "Unescaping an escaped string returns the original string, and the escaped string contains no raw double quote, control character that JSON forbids among those handled, or unescaped backslash. Exceptions: control characters other than \\n \\t \\b \\f \\r are emitted raw, and an unknown escape such as \\q is read as the character twice (counterexamples proved).", "quantifier": "every byte string", "why_tests_cant": "Universally quantified over strings.", "anchors": ["src/libs/conduit/conduit_utils.cpp: escape_special_chars, unescape_special_chars"]}
{"id": "C26", "title": "Base64 round trip within the advertised buffer sizes", "statement": "Encoding n bytes and decoding the result returns the same n bytes; both directions stay within the buffer sizes computed by base64_encode_buffer_size and base64_decode_buffer_size. Exceptions: lengths of 2^31 bytes and more are truncated to int, and decoding text without padding writes past the advertised size (counterexamples proved).", "quantifier": "every byte string of every length", "why_tests_cant": "All lengths modulo 3 and all byte values; overruns by one byte do not show up in value tests.", "anchors": ["src/libs/conduit/conduit_utils.cpp: base64_encode, base64_decode, base64_encode_buffer_size, base64_decode_buffer_size", "src/thirdparty_builtin/libb64-1.2.1/src/cencode.cpp", "src/thirdparty_builtin/libb64-1.2.1/src/cdecode.cpp"]}
{"id": "C27", "title": "Type names and ids are inverse", "statement": "For every supported leaf type, turning the id into a name and back gives the id; names are distinct; unknown names map to the empty type; the size table agrees with the type. Exceptions: the default data type of the string type does not have that type (counterexample proved).", "quantifier": "all type ids and all strings", "why_tests_cant": "Quantifies over all strings (unknown names) and all ids.", "anchors": ["src/libs/conduit/conduit_data_type.cpp: DataType::name_to_id, DataType::id_to_name, DataType::default_bytes", "src/libs/conduit/conduit_endianness.cpp: Endianness::name_to_id, id_to_name"]}
{"id": "C28", "title": "Children iteration visits each child exactly once, in order, in both directions", "statement": "Walking with has_next/next from the front yields every child once in order; walking back with has_previous/previous yields the reverse; the peek functions return what the corresponding move returns next. Exceptions: peek_previous returns the current child, not the one previous returns; after to_back the walk back starts before the last child; name() before the first next() reads outside the list of names (counterexamples proved).", "quantifier": "all nodes with any number of children, any interleaving of forward and backward moves", "why_tests_cant": "Quantifies over all sequences of moves.", "anchors": ["src/libs/conduit/conduit_node_iterator.cpp: NodeIterator::next, previous, peek_next, peek_previous, to_front, to_back"]}
{"id": "C29", "title": "Integer factoring", "statement": "factor(n) returns a list of primes whose product is n.", "quantifier": "every n >= 2", "why_tests_cant": "All n.", "anchors": ["src/libs/conduit/conduit_utils.cpp: factor"]}
{"id": "C30", "title": "JSON clean-up keeps strict JSON unchanged", "statement": "json_sanitize removes // comments and quotes bare words; on text that is already strict JSON it returns the same text. Exceptions: The text is an object or an array; no string ends in an escaped backslash; no quote inside a comment; no comment directly behind a word.", "quantifier": "every strict JSON text", "why_tests_cant": "Quantifies over all texts, including strings containing slashes, quotes and escapes.", "anchors": ["src/libs/conduit/conduit_utils.cpp: json_sanitize"]}
{"id": "C31", "title": "One-to-many relations enumerate every pair exactly once", "statement": "Iterating a one-to-many relation visits, for each 'one' in order, exactly its 'many' entries at the positions given by sizes/offsets/indices; offsets generated from sizes are the running sums, so the groups tile the data without gap or overlap. Exceptions: the data iterator invents an entry for a zero-size group, reads only the first index of a group with scattered indices, has_next(ONE) is false for a single group, and the index's count is 0 when all meta arrays are absent (counterexamples proved).", "quantifier": "all sizes/offsets/indices arrays, including zero sizes", "why_tests_cant": "Quantifies over all size arrays; zero-size groups and single groups are corner cases of a hand written state machine.", "anchors": ["src/libs/blueprint/conduit_blueprint_o2mrelation_iterator.cpp: O2MIterator::next, has_next, previous, index, elements", "src/libs/blueprint/conduit_blueprint_o2mrelation_index.cpp: O2MIndex::index, size, offset", "src/libs/blueprint/conduit_blueprint_o2mrelation.cpp: generate_offsets"]}
{"id": "C32", "title": "Compacting a one-to-many relation preserves it", "statement": "o2mrelation::compact_to terminates and produces a relation that maps each 'one' to the same list of values as before, for every data array, stored back to back. Exceptions: does not terminate with a zero-size group before the last, loses the values of a single group, and writes past the end with two or more data arrays (counterexamples proved).", "quantifier": "all valid relations with any number of data arrays, including zero-size and single groups", "why_tests_cant": "Quantifies over all relations; termination cannot be tested.", "anchors": ["src/libs/blueprint/conduit_blueprint_o2mrelation.cpp: compact_to"]}
{"id": "C33", "title": "N-dimensional indexing is injective", "statement": "With default strides, distinct in-range logical indices map to distinct flat positions inside the array extent; with explicit strides the flat index is the affine combination the documentation states. Exceptions: the number of indices passed is not checked (counterexample proved).", "quantifier": "all dimensions, shapes, offsets and indices", "why_tests_cant": "All shapes and dimensions.", "anchors": ["src/libs/blueprint/conduit_blueprint_ndarray_index.hpp: NDIndex::index, stride, offset"]}
{"id": "C34", "title": "Multi-component array re-layout preserves components", "statement": "to_contiguous and to_interleaved give a result with the same component names and, element for element, the same values, and the result has the layout the name promises. Exceptions: for a list source, or component names containing '/', the promised layout is lost; is_interleaved accepts overlapping components; verify accepts zero-element components in front of others (counterexamples proved).", "quantifier": "all multi-component arrays: any number, type, stride, offset of components, objects and lists", "why_tests_cant": "All layouts and component sets.", "anchors": ["src/libs/blueprint/conduit_blueprint_mcarray.cpp: to_contiguous, to_interleaved, is_interleaved"]}
{"id": "C35", "title": "Space filling curves visit every cell exactly once", "statement": "gilbert2d(width,height) calls the consumer exactly once for each cell of the width x height grid and for no other cell; gilbert3d likewise; consecutive cells are neighbours in 2D up to one diagonal step. Exceptions: for an empty block (0 x 0, or a 3D block with a side of length 0 such as 0 x 2 x 3) the recursion does not end (counterexamples proved).", "quantifier": "all widths, heights and depths >= 1", "why_tests_cant": "All grid sizes; the recursion splits by parity and aspect ratio.", "anchors": ["src/libs/blueprint/conduit_blueprint_curves.hpp: gilbert2d, gilbert3d, detail::generate2d, detail::generate3d"]}
{"id": "C36", "title": "Saving and loading a node preserves it", "statement": "Writing a node with the binary protocol (schema text plus raw bytes) and loading it, by reading or by memory mapping, gives a node with the same structure and values. A crash at any point of a save touches no file but the two of that save, so whatever was saved under another name can still be loaded. Exceptions: names must be writable between quotes (no quote, backslash or control character) and differ from 'dtype'; mapping needs at least one and fewer than 2^31 bytes; 'default' byte order is recorded as the machine's; a crash of a save over an earlier one can leave files that load without an error as something that was never saved (C36_crash_mix_refuted), and data that did not reach the disk loads as zeros (C36_crash_zeros_refuted).", "quantifier": "all node trees, layouts and contents, all crash points of a save", "why_tests_cant": "Composition of compaction, serialization, schema text and external reading, for all trees.", "anchors": ["src/libs/conduit/conduit_node.cpp: Node::save, Node::load, Node::mmap, Node::serialize"]}
{"id": "C37", "title": "Allocator registry hands out distinct ids and finds what was registered", "statement": "Every registration returns an id different from all earlier ones; allocating or freeing with an id uses exactly the pair of functions registered under it; memory set and copy hooks in force are the last ones installed.", "quantifier": "all sequences of registrations", "why_tests_cant": "All histories.", "anchors": ["src/libs/conduit/conduit_utils.cpp: AllocManager::register_allocator, AllocManager::allocate, AllocManager::free, register_allocator, set_memcpy_handler, set_memset_handler"]}
{"id": "C38", "title": "Array reductions and fills agree with their mathematical meaning", "statement": "min, max, sum, count, fill and element-wise set over an array view depend only on the logical elements 0..n-1 and equal the mathematical reduction over them, for any stride; fill and set change only the elements' own bytes. Exceptions: the minimum (maximum) of an array of only +infinity (-infinity) or NaN is the largest (lowest) finite number; int32 and int64 sums may overflow; set(values,n) is not checked against the array length and set(array) reads past a shorter source.", "quantifier": "all integer arrays, strides, offsets, contents", "why_tests_cant": "All layouts and contents.", "anchors": ["src/libs/conduit/conduit_data_array.cpp: DataArray::min, max, sum, count, fill, set", "src/libs/conduit/conduit_data_accessor.cpp: DataAccessor::min, max, sum, count, fill, element, set"]}
{"id": "C39", "title": "Allocating from a schema gives room for every element", "statement": "n.set(schema) gives a node with exactly that schema whose leaves all lie in one fresh zero-filled buffer of exactly spanned_bytes bytes; every element of every leaf can be read; what the node owned before is released, nothing else changes and nothing leaks. Exceptions: leaves with a negative stride get too small a buffer, a strided root leaf without elements asks for a negative size, and an empty schema leaks its buffer (counterexamples proved).", "quantifier": "all schemas, all previous contents of the node", "why_tests_cant": "All layouts; absence of leaks and of out-of-bounds access cannot be tested exhaustively.", "anchors": ["src/libs/conduit/conduit_node.cpp: Node::set_schema, Node::allocate, Node::release, Node::walk_schema", "src/libs/conduit/conduit_schema.cpp: Schema::spanned_bytes"]}
{"id": "C40", "title": "Nodes and their schemas stay in step over any history", "statement": "After any sequence of creating, deleting, fetching, appending, adding, removing, resetting, swapping and moving nodes, no call has touched a freed object; the i-th child of every node uses the i-th child of its schema; parents and children of schemas agree; every child knows its parent; no node or schema is leaked; deleting a root frees exactly its tree; a call changes nothing outside the node it is made on. Exceptions: add_child on a list with children, remove with an index past the end, swap/move with a descendant or of an earlier with a later sibling; parent pointers are only right in histories without swap and move.", "quantifier": "all histories of structural calls on any number of trees", "why_tests_cant": "Dangling pointers and leaks depend on the whole history.", "anchors": ["src/libs/conduit/conduit_node.cpp: Node::fetch, add_child, append, remove, reset, swap, move, init, release, cleanup, set_schema_ptr", "src/libs/conduit/conduit_schema.cpp: Schema::set, remove, add_child, append, release, child_index"]}
{"id": "C41", "title": "Programs over nodes mean what their values say and manage memory exactly", "statement": "A program that declares some nodes and makes any sequence of calls on them and on nodes reached by paths inside them (set, compact_to, update, update_compatible, set from schema and buffer, set from schema, reset, endian_swap, remove, swap, move) never reads or writes outside a live buffer; afterwards every variable holds the value obtained by applying the calls to plain values, calls on one variable never change another; every live buffer is owned by exactly one node, and when the variables go out of scope every buffer has been freed exactly once. Exceptions: swapping a node out of a tree whose buffer belongs to an ancestor leaves it pointing into that buffer, which dies with the ancestor.", "quantifier": "all programs, of any length, over any number of variables", "why_tests_cant": "Aliasing, leaks and double frees depend on the whole history of calls.", "anchors": ["src/libs/conduit/conduit_node.cpp: Node::set, compact_to, update, update_compatible, set_schema, reset, endian_swap, fetch, child, append, remove, swap, move, release, cleanup, ~Node"]}
{"id": "C42", "title": "Base64 JSON text gives the node back", "statement": "Printing a node with the conduit_base64_json protocol succeeds, changes no memory and leaves nothing allocated; the text is strict JSON with the schema and the RFC 4648 encoding of the node's elements in order; reading the text into any node, whatever it held, gives the values that were written, in memory the node owns. Exceptions: a text whose data is shorter than its schema, base64 text without padding, and members of the wrong kind are undefined behaviour rather than errors; a child called dtype does not come back.", "quantifier": "all nodes with JSON-able names and at most 1610612733 bytes of data, any indentation and padding, any previous contents of the node read into", "why_tests_cant": "All shapes, layouts and contents; three text formats (schema JSON, base64, string literals) have to agree on every byte.", "anchors": ["src/libs/conduit/conduit_node.cpp: Node::to_base64_json, Node::to_pure_json, Node::as_string", "src/libs/conduit/conduit_generator.cpp: Generator::walk(Node&), Generator::Parser::JSON::parse_base64, walk_json_schema", "src/libs/conduit/conduit_utils.cpp: base64_encode, base64_decode, json_sanitize"]}
{"id": "C43", "title": "Detailed JSON text gives the node back", "statement": "Printing a node with the conduit_json protocol (type description and value for each leaf) gives strict JSON, and reading that text into any node, whatever it held, gives the structure, types, lengths and values that were written, in memory the node owns; nothing else changes. Exceptions: a backslash in a string may come back as another character or make the text unreadable; bytes after a NUL and strided strings change; a single infinity or NaN cannot be read back; floats are written with 15 digits, so some come back different and the largest as infinity; arrays with stride 0 cannot be written; names with quotes or a child called dtype do not come back; a bare type name gives a leaf without memory.", "quantifier": "all readable nodes, any indentation and padding, any previous contents of the node read into", "why_tests_cant": "All shapes, layouts and contents; number formatting, string escaping, sanitizing and parsing have to agree on every byte.", "anchors": ["src/libs/conduit/conduit_node.cpp: Node::to_json_generic, Node::to_detailed_json, Node::set_string, Node::init", "src/libs/conduit/conduit_data_array.cpp: DataArray::to_json_stream", "src/libs/conduit/conduit_data_type.cpp: DataType::to_json_stream", "src/libs/conduit/conduit_generator.cpp: Generator::walk(Node&), walk_json_schema, parse_leaf_dtype, parse_inline_value, parse_inline_leaf, check_homogenous_json_array", "src/libs/conduit/conduit_utils.cpp: float64_to_string, escape_special_chars, unescape_special_chars"]}
{"id": "C44", "title": "Plain JSON is read as the node it describes, and plain text of a node says what it holds", "statement": "Reading any JSON text (comments and unquoted words allowed) whose value is an object or an array gives, whatever the node held, the node that mirrors it: objects and lists with the same names and order, whole numbers as int64 (uint64 if too big), other numbers as float64, arrays of numbers as one array, strings, empty for null, uint8 for booleans; all in memory the node owns. Printing a node with the json protocol gives strict JSON that says what the node holds, and reading that text gives the same tree with the leaf types just listed. Exceptions: a list of numbers or of strings that look like numbers comes back as one array, an array without elements as a list, infinities and NaN as strings; numbers of 2^63 and more inside arrays are undefined behaviour; a string that ends in a backslash damages what follows; a string as the whole text is read as the empty string; a boolean is read as uint8 and written as a number.", "quantifier": "all JSON values and their texts, all readable nodes, any white space, any previous contents of the node read into", "why_tests_cant": "All shapes and contents; the reader guesses types from the text.", "anchors": ["src/libs/conduit/conduit_node.cpp: Node::to_json_generic, Node::to_pure_json", "src/libs/conduit/conduit_generator.cpp: Generator::walk(Node&), Generator::Parser::JSON::walk_pure_json_schema, check_homogenous_json_array, parse_json_int64_array, parse_json_float64_array", "src/libs/conduit/conduit_utils.cpp: json_sanitize, escape_special_chars"]}
{"id": "C45", "title": "Material sets say the same in each of their representations", "statement": "Converting a material set between full, sparse-by-element and sparse-by-material form keeps, for every material and every element, the volume fraction (one not above the small bound counts as 0), and likewise the values of the fields defined on it; the result is again a proper material set over the same elements. Going from full to a sparse form and back gives the same material set. Exceptions: converting a sparse-by-material set in which some element holds no material writes out of bounds or gives fewer elements; a material that occurs in no element is lost going from by-element to by-material; a uni-buffer set that is material dominant, or one without sizes and offsets, is silently turned into an empty one; an id missing in the material map writes through a missing array; of a material listed twice for an element only the last value is kept.", "quantifier": "all numbers of elements and materials, all names, ids, value arrays, offsets and index tables", "why_tests_cant": "All sparsity patterns, orders and index tables; the forms number and order the materials differently.", "anchors": ["src/libs/blueprint/conduit_blueprint_mesh_matset_xforms.cpp: to_multi_buffer_full, to_sparse_by_element, to_multi_buffer_by_material, field versions, create_sbm_rep, sbm_rep_to_full, walk_uni_buffer_by_element_to_multi_buffer_by_element, determine_num_elems_in_multi_buffer_by_material", "src/libs/blueprint/conduit_blueprint_o2mrelation_index.cpp: O2MIndex::size, O2MIndex::index"]}
{"id": "C46", "title": "The Silo form of a material set says what the material set says", "statement": "Converting a material set, in any of its representations, and a field on it to the Silo form gives an object from which, for every element, exactly the materials whose volume fraction counts can be read: a single material directly, several through a chain of slots that ends, in ascending order of their numbers, each slot with the volume fraction and the field's value for that material; no slot is shared or unused. Exceptions: elements without a slot make the conversion loop forever; elements where no volume fraction counts are an error; unsigned or narrow integer types make slot references positive; scattered indices are read as consecutive; field values are converted to the floating point type of the material set.", "quantifier": "all material sets with an entry that counts in every element, all fields on them, all element and material numbers within the integer type of the set", "why_tests_cant": "All sparsity patterns and orders; the chains are encoded with offsets, signs and a terminator.", "anchors": ["src/libs/blueprint/conduit_blueprint_mesh_matset_xforms.cpp: matset::to_silo, field::to_silo (detail::to_silo)", "src/libs/blueprint/conduit_blueprint_mesh_utils.cpp: find_widest_dtype", "src/libs/blueprint/conduit_blueprint_o2mrelation_iterator.cpp: O2MIterator"]}
{"id": "C47", "title": "The Silo form of a species set points to the right mass fractions", "statement": "Converting a species set to the Silo form succeeds, and the entry for every zone, or for every material slot of a mixed zone, is the place (counted from 1) in the array of mass fractions from which the fractions of exactly that material's species in exactly that zone are stored; the entries for mixed zones are in step with the slots of the material object. Exceptions: a material number that is not in the map stands for the first material; another order of the materials is an error.", "quantifier": "all species sets and material objects with the same materials in the same order, any number of zones, materials and species", "why_tests_cant": "The places are computed from running sums over materials and zones; one wrong summand shifts everything after it.", "anchors": ["src/libs/blueprint/conduit_blueprint_mesh_matset_xforms.cpp: specset::to_silo"]}
{"id": "C48", "title": "Structured meshes keep their points and cells when made explicit", "statement": "Converting a uniform or rectilinear coordinate set to explicit form writes every grid point exactly once, at the place its indices give with the first axis fastest, with the coordinate of each index on its axis; going by way of the rectilinear form gives the same set. Converting the topology to unstructured form lists for every cell the numbers of its corners in line, quad or hexahedron order, so that looking the corners up in the explicit coordinate set gives the coordinates the axes prescribe; all numbers are those of existing points. Exceptions: ids are stored in the widest integer type of the topology, so int8 dims make them wrap; a uniform grid of 0x0 points gets one cell; integer axes are stored as float32 and may lose precision (counterexamples proved).", "quantifier": "all grids in one, two or three dimensions of any size, any names and order of axes, any coordinates, whose point numbers fit the integer type chosen", "why_tests_cant": "All grid sizes; the index arithmetic differs per axis and the corner order is permuted.", "anchors": ["src/libs/blueprint/conduit_blueprint_mesh.cpp: convert_coordset_to_rectilinear, convert_coordset_to_explicit, convert_topology_to_structured, convert_topology_to_unstructured, grid_ijk_to_id, grid_id_to_ijk", "src/libs/blueprint/conduit_blueprint_mesh_utils.cpp: find_widest_dtype, get_coordset_info"]}
{"id": "C49", "title": "The elements of an unstructured mesh are found where they are", "statement": "For every unstructured topology the generated offsets say where each element (and each face of a polyhedral mesh) starts in the connectivity; asking for the points of an element gives exactly the points the connectivity lists for it, on request ascending and without repetition, for polyhedra the points of all its faces; its centroid is the mean of its distinct points, each counted once. The faces listed for the solid shapes close up around the element, every edge being used once in each direction, and are ordered counterclockwise seen from outside. Exceptions: centroids of polygons with more than eight points read past the end (all of them), a point occurring three or more times in an element is counted again, offsets that do not fit the integer type of the connectivity wrap, stream topologies with points, hexahedra, wedges or pyramids get wrong offsets, and with element offsets only the last group is seen, shape mixed reads past a table, a polyhedral topology with only one of the two offsets has no centroids, and the triangles a wedge or pyramid is split into are not ordered alike.", "quantifier": "all lists of elements of every shape, all connectivities, sizes and coordinates", "why_tests_cant": "All element counts, sizes, repetitions of points and integer types; tables with an entry per shape.", "anchors": ["src/libs/blueprint/conduit_blueprint_mesh_utils.cpp: ShapeType::init, ShapeType::get_face, topology::unstructured::generate_offsets, generate_offsets_inline, points", "src/libs/blueprint/conduit_blueprint_mesh.cpp: unique_mask, unstructured_centroid, unstructured_centroid_polyhedral, calculate_unstructured_centroids", "src/libs/blueprint/conduit_blueprint_mesh_utils.hpp: TOPO_SHAPES and related tables"]}
{"id": "C50", "title": "Renumbering points and reordering elements keep geometry and fields", "statement": "Building a mesh out of elements of another one, and reordering or selecting the elements of a mesh, gives elements that have, in the given order, the same points with the same coordinates, point values and element values as before; points are numbered without gaps or repetition, unused ones are dropped, and the returned map says where every point went. Renumbering a connectivity from one list of global point ids to another keeps the global ids. Ordering elements along a Hilbert curve ends and names every element exactly once. Exceptions: the type of the offsets is kept even when the new offsets do not fit it; a global id missing from the new list silently becomes point 0; the vector returned by the Hilbert ordering holds the place of each element, the inverse of the order documented and expected by reordering, and elements all in one quarter of a quarter are not sorted further.", "quantifier": "all meshes, element lists, orders and selections (with repetitions), all histories of a builder, all coordinates and partitioning functions", "why_tests_cant": "All orders and connectivities; numbers are handed out in order of first use, so every element depends on those before it.", "anchors": ["src/libs/blueprint/conduit_blueprint_mesh_utils.cpp: TopologyBuilder, topology::unstructured::reorder, slice_array, slice_field, topology::reindex_coords, topology::hilbert_ordering, HilbertSort2D, HilbertSort3D"]}
{"id": "C51", "title": "Points of a mesh are found by position", "statement": "Sorting points spatially names every point exactly once. Looking up a position gives a point of the set that is closer than the tolerance, or none; every point of the set is found at its own position. The search used for small sets gives the first point that is closer than the tolerance, and none only if there is none. Exceptions: in float arithmetic no point is found when all have the same coordinate on one axis and that is large enough (1 in single, 1e8 in double precision) to absorb the widening of the box; positions closer than the tolerance are not found across a cut; a set without points is undefined behaviour.", "quantifier": "all sets of points in any number of dimensions, all positions and tolerances, any number of levels, any correct sort", "why_tests_cant": "All positions of points relative to the planes that cut the boxes; the tree is stored by index arithmetic and the order is rearranged in place.", "anchors": ["src/libs/blueprint/conduit_blueprint_mesh_kdtree.hpp: kdtree::initialize, construct, constructBox, cutBox, cutRange, sortIndexRange, longest, calculateExtents, findPoint, pointInBox, pointEqual, getIndices", "src/libs/blueprint/conduit_blueprint_mesh_utils.cpp: PointQuery::acceleratedSearch, PointQuery::normalSearch, spatial_ordering_impl"]}
{"id": "C52", "title": "Coordinate sets are joined point by point", "statement": "Joining coordinate sets gives one explicit set and, for every input set, the number of the joined point for each of its points: that point lies within the tolerance, and every joined point is one of the input points. If two sets have a point in common, no two joined points lie within the tolerance of each other; if all points are equal or farther apart than the tolerance, points of different sets get the same number exactly if they are equal. The search tree built on the way finds a point within the tolerance whenever there is one. Exceptions: points of sets whose bounding boxes do not meet are not merged however near they are, and equal points of one set are merged only if some boxes meet; equal points may get different numbers if they are near two joined points; boxes of uniform sets are computed with the origin rounded to an integer; a set with the axes x and z loses z; spherical sets are compared with others without conversion, lose their third coordinate in two dimensions, and if merged get x, y, z under the names r, theta, phi; one set alone is stored below coordsets/coords; sets of logical coordinates are ignored or read a name past the end.", "quantifier": "all lists of two or more explicit cartesian sets in up to three dimensions, all orders of points, all tolerances, any correct sort", "why_tests_cant": "All orders of insertion and all positions of points relative to the cuts of the tree; a point may be near points on both sides of a cut.", "anchors": ["src/libs/blueprint/conduit_blueprint_mesh_partition.cpp: coordset::point_merge (execute, examine_extents, append_data, spatial_search_merge, iterate_coordinates, create_output, translate_system), coordset::utils::kdtree (insert, node_split, find_point), vector, bounding_box", "src/libs/blueprint/conduit_blueprint_mesh_utils.cpp: coordset::extents, get_coordset_info"]}
{"id": "C53", "title": "Adjacency sets say the same in every form", "statement": "Converting the adjacency set of a domain to the pairwise form gives one group for each neighbor, listing what the groups with that neighbor list; domains whose common groups list the same entities in the same order still do afterwards, in groups of the same name. Converting to the max-share form puts every entity into exactly one group, whose neighbors are all domains it is shared with. Converting from max-share to pairwise and back gives the same groups. Renaming groups to their canonical names changes nothing else, and the tests for the forms accept exactly the sets of that form. Exceptions: groups that have each other's canonical name cannot be renamed; the canonical test ignores the neighbors and is undefined for ids that are no int; the pairwise form repeats an entity two groups share with the same domain; in max-share form domains that agreed may list the entities of a group in different orders or name it differently; an unsigned id may be lost when mixed with signed ones of the same size (counterexamples proved).", "quantifier": "all adjacency sets with any groups, neighbors, entities and names, all domain ids, any pair of domains", "why_tests_cant": "All numbers and orders of groups; the agreement of the lists of two domains is a relation between two separate conversions.", "anchors": ["src/libs/blueprint/conduit_blueprint_mesh.cpp: mesh::adjset::is_pairwise, is_maxshare, to_pairwise, to_maxshare, group_prefix", "src/libs/blueprint/conduit_blueprint_mesh_utils.cpp: adjset::canonicalize, adjset::is_canonical, find_widest_dtype", "src/libs/conduit/conduit_schema.cpp: Schema::rename_child"]}
{"id": "C54", "title": "Messages between MPI ranks carry the values of the node sent", "statement": "If one rank calls relay::mpi::send_using_schema with a readable node of any shape and layout and another rank passes the bytes of that message to recv_using_schema, the receiving node is updated with exactly the values sent; into an empty node, it becomes a copy of the node sent. With send/isend and recv/irecv the bytes of the values are sent in order, and put in order into the elements of the receiving node, whatever the layouts of the two. The sender keeps nothing allocated and nothing but the receiving node changes. safe_tag gives a tag MPI takes and leaves a valid tag alone, and the upper bound found by probing is the greatest tag MPI takes. Exceptions: a node whose leaves are separate pieces of one array arrives with the first piece repeated; a leaf at a nonzero offset in its block makes the receiver read out of bounds; entries of a node in use stay; empty objects and lists arrive as empty leaves; leaves in blocks at adjacent addresses are read as one; a tag limit of 2^30-1 or more overflows int in the probe (all refuted).", "quantifier": "all source and destination nodes (trees of any depth, strides, offsets, owned and external memory), all memories of the two ranks, all parsers that read JSON correctly, all tags and tag limits", "why_tests_cant": "tests send a handful of nodes allocated by conduit itself, on a few ranks, with small tags; strided, external and piecewise nodes and the tag limits of other MPI libraries are not in reach of a test run", "anchors": ["src/libs/relay/conduit_relay_mpi.cpp: send_using_schema, recv_using_schema, send, recv, isend, irecv, wait, safe_tag, TagLimits::probeTagUpperBound"]}
{"id": "C55", "title": "Collective MPI operations give every rank what all ranks put in", "statement": "With gather_using_schema and all_gather_using_schema the receiving node becomes the list, in the order of the ranks, of the values of the nodes passed by all ranks, whatever their shapes and layouts. gather and all_gather do the same for nodes of one shape. After broadcast a node of the shape of the root's, and after broadcast_using_schema any node, has the value of the root's. With reduce and all_reduce the receiving node is updated with the array whose element at each place is made by the operation from the elements of all ranks at that place. Nothing but the receiving node changes and no buffer stays allocated. Exceptions: gather and reduce take the wrong bytes for a leaf at an offset; gather of an object made of adjacent pieces passes a null pointer; broadcast_using_schema of such pieces writes past the receiver's buffer, into a longer leaf of the same type the sizes disagree, into a leaf of the other byte order bytes are not swapped; gather takes no part longer than the root's; displacements beyond 2^31-1 overflow; reduce takes elements of the other byte order as native (all refuted).", "quantifier": "any number of ranks, all nodes and memories of every rank, all receiving nodes, all elementwise operations, all parsers that read JSON correctly", "why_tests_cant": "Tests run on two or four ranks with small nodes made by conduit itself; strided, offset and external nodes, other numbers of ranks and sizes near the limits of int are not reached.", "anchors": ["src/libs/relay/conduit_relay_mpi.cpp: gather, all_gather, gather_using_schema, all_gather_using_schema, broadcast, broadcast_using_schema, reduce, all_reduce", "src/libs/conduit/conduit_node.cpp: Node::list_of"]}
{"id": "C56", "title": "An exchange of nodes between ranks ends with the right values under every schedule", "statement": "Ranks whose Node variables were made by any programs add sends and receives to a communicate_using_schema object and execute it. If for every source, destination and tag as many messages are sent as received, tags are between 0 and MPI's bound, every rank has at least one operation and the nodes sent can be sent (C54), then whatever the order in which the calls of the ranks happen, and whether or not MPI buffers messages: no call fails; as long as some rank has not returned some rank can go on, so there is no deadlock; all ranks return after exactly (operations + ranks) calls; no message is left over; every receive updates its variable with the value, from before the exchange, of the matching send (the k-th send of the source for this destination and tag), in the order the receives were added; and no buffer is leaked or freed twice. Exceptions: tags above MPI's bound are lowered to it, so they collide (C56_high_tags_refuted); a rank without operations takes the address of an element of an empty vector (C56_nothing_refuted); a receive without a send hangs (C56_unmatched_refuted).", "quantifier": "all numbers of ranks, all lists of operations that match, all values of the variables, all interleavings of the ranks' calls, buffering or not, every JSON parser that reads JSON correctly", "why_tests_cant": "A test sees the few schedules its MPI library happens to produce, on two or four ranks.", "anchors": ["src/libs/relay/conduit_relay_mpi.cpp: communicate_using_schema (add_isend, add_irecv, execute, execute_internal)"]}
{"id": "C57", "title": "Domains are handed out to the ranks a domain map names", "statement": "Every rank calls blueprint::mpi::mesh::distribute with the same domain map and its own domains. If every domain of the map is on exactly one rank, destinations are existing ranks, only the last domain may have no destination and every rank has a domain to send or to get, then whatever the order in which the calls of the ranks happen, whatever MPI's bound for tags, and whether or not MPI buffers messages: no call fails, some rank can always go on until all have returned, no message is left over, every rank keeps its own domains, and its output lists exactly the domains the map sends to it, in the order of the map: copies of its own and, for those of other ranks, the values as they arrive in a message (C54). The map from domains to ranks, which all ranks compute, gives for every domain the rank that has it. Exceptions: a domain without destination that is not the last makes every rank loop for ever; a rank with nothing to send or receive (for instance every rank, if the map leaves all domains where they are) runs into undefined behaviour; of two domains of a rank with the same id, for instance without state/domain_id, the first reaches nobody; a domain that no rank has makes the receiver read outside of the rank map; a domain two ranks have can make them wait for ever.", "quantifier": "all numbers of ranks and domains, all domain maps (domains may go to several ranks, or several times to one), all values of domains, all interleavings of the ranks' calls, all tag bounds", "why_tests_cant": "A test sees a few maps on two or four ranks and the schedules of one MPI library, whose tag bound is larger than the tags used.", "anchors": ["src/libs/blueprint/conduit_blueprint_mpi_mesh_distribute.cpp: mpi::mesh::distribute", "src/libs/blueprint/conduit_blueprint_mpi_mesh.cpp: generate_domain_to_rank_map", "src/libs/relay/conduit_relay_mpi.cpp: communicate_using_schema, safe_tag", "src/libs/blueprint/conduit_blueprint_o2mrelation_iterator.cpp: O2MIterator"]}
{"id": "C58", "title": "Tables survive being written and read as comma separated text", "statement": "relay::io::save / write_csv of a table of numeric columns (an object or list of columns, columns being arrays or groups of arrays of one length) followed by read_csv gives a table with the same columns, the same grouping and the same number of rows, in order, and each element is what reading its own text alone gives. Integers of magnitude up to 2^24 (2^53 with use_float64), zeros, infinities and NaN are given back exactly; other floats as the float nearest to the number to six significant digits, within 6 millionths of it, and the table read, when its integers have at most six digits, is written as the same text again. A list of tables written to a directory is read back as the list in its order whatever the order in which the system lists the files, for up to 2^31 tables; tables with names come back under their names. Exceptions: floats keep six digits; a float64 beyond float32 cannot be read by default, nor can the smallest normal float32; integers of more than six digits lose digits when the table read is written again; files whose names are all numbers, files without names and rows with an extra entry are undefined behaviour; text after a number is ignored; a list of columns comes back as an object, a group with one component as a plain column; names with commas or slashes come back as other columns; old files in the directory are read too; a directory whose path contains table_list_ turns a list into named tables and names that all start with table_list_ are lost.", "quantifier": "all tables with any numbers of columns, groups and rows and names without commas, slashes, line ends and blanks at their ends, both precisions, all listing orders of the directory", "why_tests_cant": "tests write four small tables with plain names; orders of directory listings (table_list_10 before table_list_2), numeric names and numbers of other sizes are not covered", "anchors": ["src/libs/relay/conduit_relay_io_csv.cpp: read_csv, write_csv, read_many_tables, write_multiple_tables, read_column_names, read_csv_data, add_columns", "src/libs/blueprint/conduit_blueprint_table.cpp: table::verify", "src/libs/conduit/conduit_utils.cpp: trim_string, list_directory_contents", "src/libs/conduit/conduit_node.cpp: Node::name"]}
{"id": "C59", "title": "Numbers are converted to other numeric types as C++ converts them", "statement": "Reading a number through to_int8 ... to_double, through a DataAccessor, or converting a whole array with to_int8_array ... to_float64_array or to_data_type, gives: the same number when the target type has it; otherwise, between integers, the number of the type that differs by a multiple of 2^bits; to a float the nearest one (ties to even), infinity when out of range; from a float to an integer the number without its fraction, when the integer type has that. Setting or filling elements through an accessor converts the same way and changes only those bytes. to_T_array leaves its source as it is and gives an array of the same length whatever the layout of the source. A number that the other type has comes back when converted there and back. Of a string, to_T gives the integer, or the nearest float to the decimal number, that the text starts with. Exceptions: converting a node into itself gives zeros; a destination that already is a longer array of the type is kept and the source is read past its end; NaN, infinities and floats outside the integer type are undefined; so is the largest int64 converted to float64 and back; the byte order of the leaf is ignored; a leaf without elements is read beyond its end; objects, lists and empty nodes give 0 without an error; the texts inf, nan and those out of range give 0, exponents are not read for integers, a minus wraps for unsigned types and int8 wraps only up to the int16 range.", "quantifier": "all pairs of the ten numeric types, all values, all layouts of source and destination, all memories, all texts", "why_tests_cant": "there are a hundred pairs of types with up to 2^64 values each, and rounding, truncation and wrap-around differ at the borders; tests use 42 and -42", "anchors": ["src/libs/conduit/conduit_node.cpp: Node::to_int8 ... Node::to_double, Node::to_int8_array ... Node::to_float64_array, Node::to_data_type", "src/libs/conduit/conduit_data_accessor.cpp: DataAccessor::element, set, fill", "src/libs/conduit/conduit_utils.hpp: string_to_value"]}
{"id": "C60", "title": "A mesh written to files is read back domain by domain, for any number of ranks", "statement": "Writing a mesh with relay's write_mesh or save_mesh (through the built-in protocols) and reading it with read_mesh gives every domain once, in order, with the number it was given when it was written: for any distribution of the domains to the writing ranks, one file per domain, several domains per file or everything in the root file, any order in which the ranks reach the file system, and any number of reading ranks, each of which reads an equal share. In a round no two ranks write to the same file. Files get equal shares of the domains. Writing always ends; if a domain cannot be written it ends with an error on all ranks. A second mesh of another name written to the same files without truncation leaves the first as it was. Readers that know only file_pattern and tree_pattern find the same domains. Exceptions: several domains in the root file cannot be read back when the path has a directory; with MPI a mesh without any domain is an error instead of nothing; files written to the top directory are looked for in the current one; a file name with braces cannot be read, one with a colon is refused; with one file per domain (the default) a second mesh written without truncation destroys the first; writing a mesh again with fewer domains without truncation leaves the old ones; older patterns with %d lose two characters; a partition map whose domain ids are not 0 to n-1 is read out of bounds.", "quantifier": "all distributions of domains to ranks, numbers of files, file styles, interleavings of the writes, pre-existing files, write failures, numbers of reading ranks, all contents", "why_tests_cant": "needs many ranks and a shared file system; tests run with two to four ranks, one schedule and small files", "anchors": ["src/libs/relay/conduit_relay_io_blueprint.cpp: write_mesh, save_mesh, read_mesh, gen_domain_to_file_map, BlueprintLegacyPathGenerator, BlueprintPartitonMapPathGenerator", "src/libs/blueprint/conduit_blueprint_mpi_mesh.cpp: generate_domain_ids", "src/libs/relay/conduit_relay_io_handle.cpp: BasicHandle"]}
{"id": "C61", "title": "What is written through a file handle is there to be read, and a crash leaves the last closed content", "statement": "A program opens files through relay's IOHandle (built-in protocols) in the modes r, w, a and t, reads, writes, removes, lists and closes, through any number of handle objects. If a file open for writing is not open in another object, is always opened with its own protocol, is read or truncated rather than opened write-only on top of old content, and objects whose open failed are not used, then every call answers as if each write had gone to the file at once; and wherever the program is cut off, every file holds what it held when it was last closed (or an empty tree when it was never closed), and loads. Whatever the program, a file only opened in modes without w keeps its bytes, files change only at open and close, and a closed object refuses everything until opened again. Exceptions: w and wa do not read an existing file, so its content is lost at close; an object whose open failed takes writes silently; after an open refused for a colon the mode is uninitialised; of two objects on one file the last to close wins; only the letters of a mode are looked at, so write truncates; rt shows nothing; another protocol is noticed only when the file is read.", "quantifier": "all programs of handle calls, all numbers of objects and files, all mode strings, all contents, all crash points, all protocols that read back what they write", "why_tests_cant": "histories of interleaved sessions and crash points are unlimited; tests open one file, write and read it back", "anchors": ["src/libs/relay/conduit_relay_io_handle.cpp: IOHandle, HandleInterface::open, HandleInterface::create, BasicHandle", "src/libs/relay/conduit_relay_io_handle_api.hpp: HandleInterface"]}
{"id": "C62", "title": "Partitioning a mesh neither loses nor repeats elements, and gives the domains asked for", "statement": "mesh::partition of a mesh puts every element, or every element that the selections name, into exactly one output domain, whatever the target. Up to one output domain for each element there are exactly as many output domains as the target says, numbered from zero, none of them empty; this holds for whole meshes and for logical, explicit and range selections. With a field selection the output domain of each number has exactly the elements whose field has that value, from all input domains, in their order. Exceptions: the partition never ends when a structured mesh is to be cut into more domains than it has cells; with only empty selections it reads before the start of a vector; explicit ids in order, as many as elements, with one past the end, count as the whole mesh; overlapping ranges give elements twice unless they make up the mesh; several ranges of one element each are not split; the field value -1 stands for no destination; values past int wrap; empty domains at the end give more domains than the target; numbers named by fields are kept even when more than the target.", "quantifier": "all meshes with any numbers of domains and elements, structured or not, all lists of selections, all targets, all field values", "why_tests_cant": "How selections are split and chunks are grouped depends on all sizes at once; tests partition a few meshes to a few targets and look at pictures.", "anchors": ["src/libs/blueprint/conduit_blueprint_mesh.cpp: mesh::partition", "src/libs/blueprint/conduit_blueprint_mesh_partition.cpp: Partitioner (initialize, count_targets, get_largest_selection, split_selections, execute, map_chunks), SelectionLogical, SelectionExplicit, SelectionRanges, SelectionField"]}
{"id": "C63", "title": "A tree kept in an HDF5 file behaves as a tree", "statement": "A tree written to a new HDF5 file with relay reads back as the same tree, in the byte order of the machine. Any sequence of writes at paths and removals of paths on one file acts as on a tree in memory: a write succeeds exactly if its leaves meet nothing, or leaves of the same type, byte order and length (arrays of more than two million bytes may be replaced by others); it adds what is new, replaces the leaves it names and leaves everything else; a refused operation changes nothing; afterwards every path reads what the tree has there and has_path tells whether there is something. A write with an offset and a stride puts its elements at those places of the array, keeps the others, fills new places with zeros, and the same options read the elements back; no other path changes. Exceptions: a shorter array over one of unlimited length (written with an offset, or of more than two million bytes) keeps the old end; with offset = 0 lengths are not compared, so the write reads past the end of the node's memory or is cut short; a list written over an object, or an object over a list, is checked by place and written by name, so data is mixed, memory is overrun or a failed write changes the file; writing or removing one entry of a list by path makes it an object or unreadable; a write with an offset moves fixed arrays behind their siblings; names that are empty, \".\", \"..\" or contain slashes are taken as paths; reading into a node that holds a compatible array keeps its byte order and its longer end.", "quantifier": "all trees of objects, lists and leaves with plain names, all sequences of writes and removals in which objects and lists do not meet, all paths, both byte orders, all offsets, strides, sizes and array contents", "why_tests_cant": "The check, the writing and the reading are three walks over the file that must agree, and what a write does depends on everything written before; tests write one tree and read it.", "anchors": ["src/libs/relay/conduit_relay_io_hdf5.cpp: hdf5_write, hdf5_read, hdf5_has_path, hdf5_remove_path, check_if_conduit_node_is_compatible_with_hdf5_tree, write_conduit_node_to_hdf5_tree, write_conduit_leaf_to_hdf5_dataset, read_hdf5_tree_into_conduit_node"]}
{"id": "C64", "title": "The points, lines and faces of a topology are complete, and the maps between them and the elements agree", "statement": "generate_faces on a topology of tets, hexes, wedges or pyramids and generate_lines on triangles, quads or polygons give every face or line once, in the order of first mention; generate_lines on solids gives exactly the edges of the elements, each once; generate_points gives the points of the coordinate set. The map from elements lists for each element exactly its faces, lines or points, and the map back lists for each of those exactly the elements it belongs to, ascending; sizes and offsets of both maps fit. This holds as long as the hash by which lines and faces are recognised does not take one for another, which for lines between fewer than 256 points is proved never to happen. Exceptions: two lines with equal hashes (found: 376530-597466 and 20872-597357) are merged; wedges sharing a side can cut it along different diagonals and then share no face; polygons with more than 32 points overflow a stack buffer; hexes sharing faces in different orders can make an edge lookup read out of bounds; polygons whose offsets leave gaps or reorder them give out-of-bounds accesses or a wrong map back; a degenerate element is listed twice; the points of a point topology are all points of its coordinate set", "quantifier": "all meshes of any number of elements of these shapes, all connectivity, all sorting functions, all numbers of points", "why_tests_cant": "Which entities are shared and how they are numbered depends on the whole mesh, and a hash collision only shows on meshes no test has; tests look at counts for a few generated meshes.", "anchors": ["src/libs/blueprint/conduit_blueprint_mesh.cpp: unstructured::generate_points, generate_lines, generate_faces", "src/libs/blueprint/conduit_blueprint_mesh_topology_metadata.cpp: TopologyMetadata (make_embedded_connectivity, polygons_to_lines, make_unique, build_associations, build_child_to_parent_association, build_edge_key_to_id, lookup_edge_id, get_global_dim_map)", "src/libs/conduit/conduit_utils.cpp: hash"]}
{"id": "C65", "title": "Flattening a mesh puts every vertex and element of every domain into the tables once, with its values", "statement": "blueprint::mesh::flatten gives a vertex table and an element table whose rows are the vertices and elements of the domains, domain after domain, none missing and none twice. Each row holds the number of its domain and its place there, the coordinates of the vertex or the mean of the coordinates of the vertices of the element, and the value of every chosen field and component converted to the type of the column, or the fill value if the domain lacks the field. The columns are the chosen fields in the order asked for, or of first mention, that some domain has on the topology. Exceptions: a field of the same name on another topology in a later domain is read as if it were on this one; the type of a column is that of the first domain, or of the widest component or of dims, so later or narrower floats are cut to integers; coordinates of mixed types, and a domain without fields, are errors; a field called domain_id replaces the domain numbers; centers are swapped when the coordinates are stored in another order; a field with too few values is read past its end.", "quantifier": "all meshes with any number of domains, topologies, coordinate sets and fields that fit together, all options, all numeric types", "why_tests_cant": "Which columns exist, their types and where a row lands depend on all domains together; tests compare a few generated meshes whose domains are alike.", "anchors": ["src/libs/blueprint/conduit_blueprint_mesh_flatten.cpp: MeshFlattener (execute, collect_mesh_info, get_fields_to_flatten, get_reference_field, allocate_column, generate_element_centers, flatten_single_domain, flatten_many_domains), append_data", "src/libs/blueprint/conduit_blueprint_mesh_flatten.hpp: for_each_in_range", "src/libs/blueprint/conduit_blueprint_mesh_utils.cpp: find_widest_dtype"]}
{"id": "C66", "title": "Checking a mesh answers as the rules of the mesh blueprint say, and the report tells which parts are wrong", "statement": "mesh::verify of a tree with distinct names, none of them a word of reports (valid, info, optional, errors), and with readable shape numbers and species, always ends with an answer. The answer is yes exactly if the tree follows the schema: its coordinate sets, topologies, material sets, species sets, fields, adjacency sets and nesting sets have the required entries of the required types and one of the known types, shapes, associations and so on, every name of another part names one that is there and is itself good, and this for every domain. The report says valid at its top, for every domain, and for every coordinate set, topology, material set, field and so on exactly if that one is good. The checks of single parts (coordset::verify, topology::verify and so on) answer as the schema says whatever the report held before. The check looks at types and names only: lengths and ranges of indices are not checked.", "quantifier": "all trees of objects, lists, strings and numeric arrays of any depth and size, all contents of the report before", "why_tests_cant": "the check is a few thousand lines over nested optional entries; tests try some dozens of trees with one thing wrong at a time, and the report is kept in a second tree that later steps read", "anchors": ["src/libs/blueprint/conduit_blueprint_mesh.cpp: mesh::verify, verify_single_domain, verify_multi_domain, mesh::coordset::verify, mesh::topology::verify, mesh::matset::verify, mesh::field::verify, mesh::specset::verify, mesh::adjset::verify, mesh::nestset::verify, verify_field_exists, verify_object_field, verify_reference_field", "src/libs/blueprint/conduit_blueprint_o2mrelation.cpp: o2mrelation::verify", "src/libs/blueprint/conduit_blueprint_mcarray.cpp: mcarray::verify, mlarray::verify", "src/libs/conduit/conduit_log.cpp: validation"]}
{"id": "C67", "title": "The index of a mesh lists every part with its place, and a good mesh has an index that passes its check", "statement": "mesh::index::verify of any tree with distinct names that are not words of reports ends with the answer the schema of indices gives, and its report marks every listed coordinate set, topology, material set, species set, field, adjacency set and nesting set as valid exactly if its entry and what it refers to follow the schema. generate_index of a domain that passes mesh::verify, whose axes belong to one coordinate system and whose materials and components have names, succeeds: section by section it lists the same names in the same order, each with the path below the reference path and with the type, axes, references, materials, species, association and number of components of the part; it holds the number of domains given, and cycle and time; and it passes mesh::index::verify. The same holds for a mesh of any number of such domains whose parts of the same name are of the same kind: every part of every domain is listed with its path and what it is, and nothing else. Exceptions: a mesh that passes mesh::verify has an index that does not pass if coordinates name their axes i, j, k, or are in a list, or an origin has no entries, or a material set has no materials, or there are no domains, or two domains use different coordinate systems for coordinates of the same name; generate_index throws if volume_dependent is not text or matset_values is a single array; components in a list are counted as one.", "quantifier": "all trees of any depth and size given to the check; all domains with any numbers of parts of all kinds, any number of domains, all reference paths, all numbers of domains", "why_tests_cant": "generation, mesh check and index check are three separate walks over nested optional entries that must agree; tests index a few example meshes", "anchors": ["src/libs/blueprint/conduit_blueprint_mesh.cpp: mesh::generate_index, generate_index_for_single_domain, mesh::index::verify, coordset::index::verify, coordset::coord_system::verify, topology::index::verify, matset::index::verify, specset::index::verify, field::index::verify, adjset::index::verify, nestset::index::verify", "src/libs/blueprint/conduit_blueprint_mesh_utils.cpp: get_coordset_info", "src/libs/conduit/conduit_node.cpp: Node::update"]}
{"id": "C68", "title": "Files saved and loaded through relay I/O behave as documents, whole or at a place inside them", "statement": "With the built-in protocols (conduit_bin, json, conduit_json, conduit_base64_json, yaml), any program of relay::io::save, save_merged, load and load_merged calls, each naming a file or file:place, answers as a store of documents would: save replaces the document, or, with a place, the part there if the document exists; save_merged updates the document or part, making it if need be; load gives the document or the part; load_merged updates the node of the caller with it; a missing file is an error and an error changes nothing. Extra slashes before the names of a place change nothing, slashes alone are an error, and .. leads back. Parts at other places and all other files stay as they are. Without a protocol, the one of the extension of the file is used, whatever the place. Exceptions: an empty place after the colon makes the colon part of the file name (C68_trailing_colon_refuted); loading a place that is not in the document gives an empty node and no error (C68_missing_place_refuted); a conduit_bin file loses its schema to a file with its name and _json behind (C68_companion_refuted); a name with a colon is split, and the end of the name is not looked at (C68_colon_refuted); a name that is only an extension is taken for one (C68_bare_name_refuted); a one-letter file and a place beginning with a backslash are taken for a name on a drive (C68_drive_refuted); a detour x/../x loses what is at x (C68_detour_refuted), and two slashes behind a place are an error where one is ignored (C68_two_slashes_refuted).", "quantifier": "all programs of calls of any length, all file names without colon (or with a drive letter), all places, all documents the protocols can hold, all protocols that read back what they wrote", "why_tests_cant": "every call re-reads, edits and rewrites whole files, so the effect of a call depends on the entire history; tests save and load one or two files", "anchors": ["src/libs/relay/conduit_relay_io.cpp: save, save_merged, load, load_merged", "src/libs/relay/conduit_relay_io_identify_protocol.cpp: identify_protocol", "src/libs/conduit/conduit_node.cpp: Node::save, Node::load, Node::fetch", "src/libs/conduit/conduit_utils.cpp: split_file_path, rsplit_string"]}
{"id": "C69", "title": "Checking a table says whether its columns have one length, and which column is the first that has not", "statement": "table::verify of a tree whose names are distinct and no words of reports, and whose columns with components have at least one, always ends with an answer. For a node with values the answer is yes exactly if values is an object or a list and every entry is an array, or an array of components of equal length, all with the same number of rows; for any other node it is yes exactly if there is at least one child and every child is such a table. The report carries the answer; up to the first wrong column every column is flagged as what it is, the good ones with their number of rows; an accepted table is reported with its numbers of columns and rows, a set of tables with their number. Exceptions: a column that is an empty object or list makes the check throw (C69_empty_refuted), and so does a column named valid (C69_valid_refuted); columns after a wrong one may be flagged although they agree with the good columns (C69_blame_refuted, C69_blame_first_refuted); components after an empty one may have other lengths (C69_ragged_refuted).", "quantifier": "all trees of objects, lists, strings and numeric arrays of any depth and size", "why_tests_cant": "the result for a column depends on all columns before it, through flags and counters carried along; tests try tables of two or three columns", "anchors": ["src/libs/blueprint/conduit_blueprint_table.cpp: verify, verify_table_values, verify_single_table, verify_many_tables", "src/libs/blueprint/conduit_blueprint_mcarray.cpp: mcarray::verify", "src/libs/conduit/conduit_schema.cpp: Schema::name"]}
{"id": "C70", "title": "Checking by the name of a protocol is the check of that protocol", "statement": "blueprint::verify(protocol, node, report) of every protocol (mesh, mcarray, table, o2mrelation, zfparray, the seven kinds of parts of a mesh, the index and the index entries of the seven kinds, written mesh/kind and mesh/kind/index) answers as the rules of that protocol say and the report carries the answer, whatever the report held before. A slash after the name of a protocol does not matter. Names that do not start with a protocol are errors; anything else after the name of a protocol is answered with no. In parallel (blueprint::mpi::verify with mesh) every rank gets yes exactly if the meshes of all ranks are good, and the report of each rank tells of its own mesh. Exceptions: for mesh/x with an unknown x the answer is no but the report is empty (C70_silent_refuted); mesh/topology/index/ is refused although mesh/ is not (C70_slash_refuted); a slash before the name makes it unknown (C70_front_refuted); in parallel everything after mesh/ is ignored (C70_parallel_part_refuted), unknown names are no errors (C70_parallel_error_refuted), and the report of a rank may say yes when the answer is no (C70_parallel_report_refuted).", "quantifier": "all strings as protocols, all trees of any depth and size with names that are not words of reports and, for meshes, topologies, species sets and tables, the conditions of their checks", "why_tests_cant": "the protocol is any string, and one name taken for another is only seen on nodes on which the two checks differ; tests ask for the usual names", "anchors": ["src/libs/blueprint/conduit_blueprint.cpp: verify", "src/libs/blueprint/conduit_blueprint_mpi.cpp: mpi::verify", "src/libs/blueprint/conduit_blueprint_mpi_mesh.cpp: mpi::mesh::verify", "src/libs/blueprint/conduit_blueprint_mesh.cpp: mesh::verify(protocol, n, info)", "src/libs/blueprint/conduit_blueprint_zfparray.cpp: zfparray::verify", "src/libs/blueprint/conduit_blueprint_mcarray.cpp: mcarray::verify", "src/libs/blueprint/conduit_blueprint_o2mrelation.cpp: o2mrelation::verify", "src/libs/blueprint/conduit_blueprint_table.cpp: table::verify", "src/libs/conduit/conduit_utils.cpp: split_path"]}
{"id": "C71", "title": "The map from domain numbers to ranks tells, for every number, the last rank that has it", "statement": "All ranks call blueprint::mpi::mesh::generate_domain_to_rank_map with their domains, numbered by state/domain_id or, without one, by their rank. If no number is negative and some rank has a domain, every rank gets the same array: it reaches up to the largest number in use, holds for every number the last of the ranks that have such a domain, and -1 for numbers no rank has. So a number that only one rank uses is found at that rank. Exceptions: a domain without number may take the place of a numbered domain of another rank (C71_taken_refuted), and two domains of a rank without numbers share one (C71_two_refuted); a negative number writes outside of the array (C71_negative_refuted), and without any domain the address of the first element of an empty vector is taken (C71_none_refuted).", "quantifier": "all numbers of ranks, all numbers of domains per rank, with and without domain_id, all numbers, also used several times", "why_tests_cant": "the array combines the domains of all ranks; tests give every rank domains with distinct numbers", "anchors": ["src/libs/blueprint/conduit_blueprint_mpi_mesh.cpp: generate_domain_to_rank_map", "src/libs/relay/conduit_relay_mpi.cpp: max_all_reduce"]}
{"id": "C72", "title": "The index of a mesh spread over ranks lists the parts of all domains of all ranks", "statement": "All ranks call blueprint::mpi::mesh::generate_index with their part of a mesh: one domain, several, or none. If the domains pass their check and parts of the same name are alike wherever they are, every rank gets the same index: it lists every part of every domain of every rank with its path and what it is, and nothing else, states the number of all domains, and the cycle and time on which all domains agree. If the mesh of every rank passes mesh::verify and some rank has a domain, the index passes mesh::index::verify. Which rank has which domain makes no difference to any entry. Exceptions: if no rank has a domain the index is empty and fails its check; if domains disagree on cycle or time, which one the index states depends on the order of the ranks.", "quantifier": "all numbers of ranks, also ranks without domains, all numbers of domains per rank (fewer than 2^31 in all), all domains with any parts of all kinds, all reference paths", "why_tests_cant": "a part may be on a single rank only and the answer merges the trees of all ranks; tests run two or four ranks with the same parts everywhere", "anchors": ["src/libs/blueprint/conduit_blueprint_mpi_mesh.cpp: mpi::mesh::generate_index", "src/libs/blueprint/conduit_blueprint_mesh.cpp: mesh::number_of_domains, is_multi_domain, generate_index", "src/libs/conduit/conduit_node.cpp: Node::update"]}
