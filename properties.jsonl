{"id": "C01", "title": "Packed bytes come back first-in first-out", "statement": "For a memory pack_t driven by any interleaving of packraw and unpackraw (or the typed << and >>), the bytes returned by all successful unpacks, concatenated, are exactly the first pos() bytes of the concatenation of everything packed, size() is the total number of bytes packed and pos() the total number of bytes unpacked.", "quantifier": "every finite history of pack and unpack calls of any sizes and contents whose total stays below 2^64 bytes", "why_tests_cant": "a unit test fixes one sequence of calls; the claim is about every interleaving and every chunking of the data", "anchors": ["pack_base.h: pack_t::append, popoff, packraw, unpackraw, size, pos"]}
{"id": "C02", "title": "Reading past the end throws and changes nothing", "statement": "On a memory pack_t an unpack of s bytes succeeds if and only if pos()+s <= size(); otherwise it throws pack_error and size(), pos() and the data are unchanged, so a failed read can be retried after more data is appended. No call in such a history touches memory outside the allocated buffer.", "quantifier": "every history of pack/unpack/reseti/reseto/clear/resize calls with total size below 2^64, and every requested length", "why_tests_cant": "needs every state reachable by any call sequence and every length, including lengths near 2^64", "anchors": ["pack_base.h: pack_t::popoff, unpackraw, reseti, reseto, clear, resize"]}
{"id": "C03", "title": "Seeking inside the written data is safe, and only that", "statement": "seeko/seeki move the read position / end of data by exactly the offset; if every seek keeps 0 <= pos and 0 <= size' <= size then every later read either returns the bytes at that position or throws, and never touches memory outside the buffer.", "quantifier": "every history of operations including seeks, every offset", "why_tests_cant": "the interesting offsets are those that make size_t arithmetic wrap, which example tests do not hit", "anchors": ["pack_base.h: pack_t::seeki, seeko, popoff, unpackraw"]}
{"id": "C04", "title": "pack/unpack round trip for every serialisable type", "statement": "For every type built from fundamental types, bool, enums, strings, sequences, sets, maps, pairs, tuples, fixed arrays, nullable smart pointers and (nested) classes, and every value x of that type, unpacking the bytes produced by packing x into any destination object y makes y equal to x and consumes exactly the bytes packed.", "quantifier": "every type of the grammar at any nesting depth, every value, every previous content of the destination, any bytes following in the buffer", "why_tests_cant": "types and values are unbounded; a test picks a few", "anchors": ["pack_base.h: pack, unpack, access_pack", "pack_stl.h: pack/unpack of containers, strings, pairs, tuples", "polyAccessPack.h: pack_smart_ptr, unpack_smart_ptr"]}
{"id": "C05", "title": "Records can be concatenated in one buffer", "statement": "Packing any list of values (of possibly different types) one after the other into one buffer and unpacking with the same list of types yields the same values in order and leaves pos() == size().", "quantifier": "every list of typed values", "why_tests_cant": "universally quantified over heterogeneous lists of any length", "anchors": ["pack_base.h: operator<<, operator>>", "pack_stl.h"]}
{"id": "C06", "title": "A truncated record never unpacks successfully", "statement": "Unpacking a value from any strict prefix of its packed representation throws; it never returns a value.", "quantifier": "every type, every value, every truncation point", "why_tests_cant": "truncation points inside nested values of every type are unbounded", "anchors": ["pack_base.h: popoff, unpackraw", "pack_stl.h"]}
{"id": "C07", "title": "deepEq decides equality", "statement": "For two values of the same serialisable type, their packed buffers compare equal (deepEq, cmp()==0, ==) if and only if the values are equal.", "quantifier": "every type of the grammar and every pair of values", "why_tests_cant": "injectivity of an encoding cannot be sampled", "anchors": ["pack_base.h: deepEq, deepCmp, pack_t::cmp, operator=="]}
{"id": "C08", "title": "Buffer comparison is a strict total order", "statement": "For buffers x and y exactly one of x<y, x==y, x>y holds, < is transitive, and cmp() returns -1, 0 or 1 with the lexicographic order its documentation promises.", "quantifier": "every pair (triple) of buffers and every implementation of memcmp allowed by the C standard", "why_tests_cant": "depends on the sign-only contract of memcmp; a test observes one libc", "anchors": ["pack_base.h: pack_t::cmp, operator<, operator>, operator==, operator!="]}
{"id": "C09", "title": "Unpacking hostile bytes is memory safe", "statement": "Unpacking any type of the grammar from an arbitrary byte string ends with a value or a thrown exception; it never reads or writes outside the buffer or the destination.", "quantifier": "every type and every byte string, including length fields near 2^64", "why_tests_cant": "fuzzing samples the byte strings; wrap-around needs exact values", "anchors": ["pack_stl.h: access_unpack<std::string>, unpackSequence, BinStream vector operator>>", "pack_base.h: unpackraw"]}
{"id": "C10", "title": "Fixed-size std::array reads exactly what was written", "statement": "Unpacking a std::array<T,N> consumes exactly the elements its stream claims, whatever the stored count, so that the data following it is still read correctly.", "quantifier": "every N, every stored count, every element type and following data", "why_tests_cant": "needs every mismatch between stored and static size", "anchors": ["pack_stl.h: unpackSequence (std::array)"]}
{"id": "C11", "title": "Excluded and static-const members contribute no bytes", "statement": "A class packed with any set of Exclude<> or const static members produces the same bytes as the class without them, unpacking leaves those members unchanged, and the remaining members still round trip. A raw pointer member packed with the DEFAULT pointer policy always throws.", "quantifier": "every class shape, every subset of excluded members, every value", "why_tests_cant": "all subsets and positions of excluded members", "anchors": ["pack_base.h: Exclude, is_const_static, access_pack<T*>", "classdesc.h: Exclude"]}
{"id": "C12", "title": "Tree pointers round trip", "statement": "Packing any finite tree of treenode pointers and unpacking it into any destination pointer reproduces the same tree, null pointers included.", "quantifier": "every finite tree shape, any depth; any previous value of the destination", "why_tests_cant": "structural induction over all trees is required", "anchors": ["pack_graph.h: pack_tree/unpack (TREE)", "pack_base.h: access_pack<T*>"]}
{"id": "C13", "title": "Graph pointers: sharing and cycles are preserved", "statement": "Packing any object graph reachable from a graphnode pointer whose depth is below recur_max and unpacking it yields an isomorphic graph: shared nodes are shared, cycles are cycles, null stays null, node contents equal.", "quantifier": "every finite directed graph with sharing and cycles, every root", "why_tests_cant": "graph isomorphism over all graphs", "anchors": ["pack_graph.h: pack_graph, unpack_graph"]}
{"id": "C14", "title": "Graph pointers deeper than the recursion limit", "statement": "The same holds when the graph is deeper than recur_max, for every value of recur_max.", "quantifier": "every graph and every recursion limit", "why_tests_cant": "needs histories of cut-off and restart across arbitrarily deep graphs", "anchors": ["pack_graph.h: pack_graph, unpack_graph, graph_restart"]}
{"id": "C15", "title": "Heap objects created by unpack are freed exactly once", "statement": "Objects allocated while unpacking pointers are owned by the buffer and are destroyed exactly once, no earlier than the last handle to them, for every history of copying, assigning and destroying handles.", "quantifier": "every history of construct/copy/assign/destroy on any number of handles", "why_tests_cant": "reference count protocols fail on particular histories", "anchors": ["pack_base.h: PtrStoreRef"]}
{"id": "C16", "title": "ref<T> counts its references", "statement": "For every history of construction, copy, assignment, assignment of a payload, nullify, swap and destruction of ref<T> variables, refCount() equals the number of live ref variables designating the object, an object is destroyed exactly when the last of them goes, and no freed object is ever accessed.", "quantifier": "every finite history on any number of variables", "why_tests_cant": "invariant over all histories", "anchors": ["ref.h: ref<T>"]}
{"id": "C17", "title": "xdr_pack round trip at any size", "statement": "Packing any list of basic values and raw blocks into an xdr_pack and reading it back in the same order returns the same values, whatever the total size.", "quantifier": "every list of values, total size unbounded", "why_tests_cant": "chunk boundaries at arbitrary positions", "anchors": ["xdr_pack.cc: xdr_pack::append, popoff, packraw, unpackraw"]}
{"id": "C18", "title": "XDR encoding is machine independent", "statement": "Each item written by xdr_pack occupies a multiple of four bytes and equals the RFC 4506 big-endian encoding of the value, so that the decoder recovers the value on any machine.", "quantifier": "every integer value of every width", "why_tests_cant": "all values", "anchors": ["xdr_pack.cc: XDR_filter table, append, popoff"]}
{"id": "C19", "title": "Swapping and moving buffers exchanges them", "statement": "swap(a,b) leaves a exactly as b was and b exactly as a was; swapping twice restores both; moving into a fresh buffer preserves contents and position.", "quantifier": "every pair of buffer states", "why_tests_cant": "state equality over all fields and states", "anchors": ["pack_base.h: pack_t::swap, swap_base, move constructor, xdr_pack::swap"]}
{"id": "C20", "title": "BinStream containers round trip", "statement": "Streaming any vector, sequence or associative container of PODs through BinStream and back into an empty container gives an equal container; streaming a vector back never reads outside the buffer whatever length is stored.", "quantifier": "every container content, every stored length", "why_tests_cant": "wrap-around of length*sizeof(T) needs exact values", "anchors": ["pack_base.h: BinStream", "pack_stl.h: BinStream::operator<<, operator>> (vector)"]}
{"id": "C21", "title": "JSON round trip", "statement": "For every type in the JSON grammar (numbers, bools, strings, enums, sequences, sets, pairs, nested classes with distinct member names) and every value, json_unpack of the tree produced by json_pack into any object of that type restores the value.", "quantifier": "every type at any depth and every value", "why_tests_cant": "unbounded types and values", "anchors": ["json_pack_base.h: json_packp, json_unpackp", "json_pack_epilogue.h"]}
{"id": "C22", "title": "Missing JSON members leave the object unchanged", "statement": "With throw_on_error and throw_on_not_found both false, json_unpack never throws and a member whose key is absent keeps its previous value; with the flags set, the absence is reported by an exception.", "quantifier": "every JSON document and every class shape", "why_tests_cant": "quantifies over all documents lacking any subset of keys", "anchors": ["json_pack_base.h: json_unpackp, json_find, throw_on_error, throw_on_not_found"]}
{"id": "C23", "title": "JSON path lookup and update are local", "statement": "Looking up the path a.b.c returns the member reached by following a, b and c; storing a value at a path makes exactly that path return it and changes no member at a path that is not a prefix or extension of it.", "quantifier": "every document and every pair of paths", "why_tests_cant": "frame property over all documents", "anchors": ["json_pack_base.h: json_find, json_packp"]}
{"id": "C24", "title": "Fixed C arrays and JSON arrays of the wrong length", "statement": "Unpacking a fixed-size array from a JSON array of any length reads only existing elements.", "quantifier": "every array length on both sides", "why_tests_cant": "all length pairs", "anchors": ["json_pack_base.h: json_unpackp(is_array)"]}
{"id": "C25", "title": "JSON tuples round trip", "statement": "json_unpack restores every component of a std::tuple packed by json_pack.", "quantifier": "every tuple arity and component values", "why_tests_cant": "all arities", "anchors": ["json_pack_epilogue.h: tuple json_pack, json_unpack", "classdesc.h: tupleTail"]}
{"id": "C26", "title": "JSON smart pointers: null and polymorphic members", "statement": "Packing a class with smart pointer members (plain or polymorphic) and unpacking it restores each pointer: null stays null and non-null is recreated with the right dynamic type and contents, at any nesting depth.", "quantifier": "every class shape and every combination of null/non-null members", "why_tests_cant": "combinations and nesting depth", "anchors": ["polyAccessJsonPack.h: json_pack_smart_ptr, json_unpack_smart_ptr"]}
{"id": "C27", "title": "XML text round trips through quoting and tokenising", "statement": "For every string s, the text written by xml_pack for s is read back by xml_unpack as exactly s.", "quantifier": "every byte string", "why_tests_cant": "all byte strings; failures need particular bytes or substrings", "anchors": ["xml_pack_base.h: xml_quote", "xml_unpack_base.h: XMLtoken::token, parse_entity, retval"]}
{"id": "C28", "title": "XML output is well formed", "statement": "For every object, the document written by xml_pack has properly nested, matching start and end tags and no markup characters in content.", "quantifier": "every object tree of any depth", "why_tests_cant": "all nestings", "anchors": ["xml_pack_base.h: xml_pack_t::tag, endtag, Tag, pack"]}
{"id": "C29", "title": "XML structure round trip", "statement": "Parsing the document written for any tree of named elements records, for every leaf, its text under the path formed by its ancestors' names and occurrence numbers, and nothing else.", "quantifier": "every element tree with valid names and any repetition of names", "why_tests_cant": "unbounded trees", "anchors": ["xml_unpack_base.h: xml_unpack_t::parse, contentMap, tokenCount", "xml_pack_base.h: tag, endtag"]}
{"id": "C30", "title": "Missing or empty XML elements", "statement": "xml_unpack leaves a variable whose element is absent unchanged (or throws if missingException is set), and an element present with empty text sets a string to the empty string.", "quantifier": "every document and key", "why_tests_cant": "all documents", "anchors": ["xml_unpack_base.h: xml_unpack_t::unpack, checkKey"]}
{"id": "C31", "title": "Occurrence numbering of XML paths", "statement": "The key completion used by xml_unpack appends #0 to exactly those path components that carry no occurrence number and leaves numbered ones alone, and is idempotent.", "quantifier": "every path string", "why_tests_cant": "all strings", "anchors": ["xml_unpack_base.h: addHashNoughts"]}
{"id": "C32", "title": "The XML tokenizer terminates on every input", "statement": "Reading tokens from any finite byte stream ends after finitely many steps, and every token consumes input.", "quantifier": "every finite input", "why_tests_cant": "termination on all inputs", "anchors": ["xml_unpack_base.h: XMLtoken::token, gobble_comment, processBang"]}
{"id": "C33", "title": "Enum symbol tables", "statement": "For an enum with pairwise distinct names and values, converting value to symbol and back (and symbol to value and back) is the identity; unknown symbols and values are reported by the documented defaults.", "quantifier": "every table of keys and every symbol/value", "why_tests_cant": "all tables", "anchors": ["classdesc.h: EnumKeys, Enum_handle"]}
{"id": "C34", "title": "Path splitting laws", "statement": "head and tail split a description string at its last dot: when there is a dot head(d)+\".\"+tail(d)==d and tail(d) has no dot; when there is none tail(d)==d and head(d) denotes the parent.", "quantifier": "every string", "why_tests_cant": "all strings", "anchors": ["classdesc.h: head, tail"]}
{"id": "C35", "title": "MultiArray addressing", "statement": "Distinct in-range multi-indices of a MultiArray address distinct elements inside the underlying array, all of which are reached, for every rank and every dimension.", "quantifier": "every rank, dimension vector and index", "why_tests_cant": "bijection over all ranks", "anchors": ["multiArray.h: MultiArray::operator[], constructDims, iterator"]}
{"id": "C36", "title": "REST dispatch finds the longest registered prefix", "statement": "RESTProcess_t::process(query) dispatches to the object registered under the longest prefix of query ending at a dot boundary and hands it exactly the rest of the query; it throws Command not found if and only if there is none it may use.", "quantifier": "every registry and every query string", "why_tests_cant": "all registries and queries", "anchors": ["RESTProcess_epilogue.h: RESTProcess_t::process"]}
{"id": "C37", "title": "Overload resolution picks the unique best match or throws", "statement": "Calling an overloaded function invokes the overload whose match score is strictly smaller than all others; if the best score is shared the call throws an ambiguity error, if no overload accepts the arguments it throws no suitable overload; the outcome does not depend on registration order.", "quantifier": "every list of overloads and every argument vector", "why_tests_cant": "all score vectors and permutations", "anchors": ["RESTProcess_epilogue.h: RESTProcessOverloadedFunction::process", "RESTProcess_base.h: MatchScore, argMatchScore"]}
{"id": "C38", "title": "Registry registration semantics", "statement": "After any history of add calls, looking up a name yields the most recently added object, or the overload set made of the functions added since the last non-function, one per argument signature, the last one added for that signature.", "quantifier": "every history of add calls", "why_tests_cant": "all histories", "anchors": ["RESTProcess_base.h: RESTProcess_t::add, RESTProcessOverloadedFunction::addFunction"]}
{"id": "C39", "title": "REST sequence commands behave like a list", "statement": "@elem, @insert, @erase and @size on a sequence refine the corresponding list operations; an out-of-range index throws (or yields void with @elemNoThrow) and never touches memory outside the sequence.", "quantifier": "every history of commands and every index, including negative ones", "why_tests_cant": "all histories", "anchors": ["RESTProcess_epilogue.h: elemImpl, RESTProcessSequence::process", "RESTProcess_base.h: RESTProcessSequence"]}
{"id": "C40", "title": "Reading a map through REST does not modify it", "statement": "@elem without argument, @size and @keys leave an associative container unchanged; @insert and @erase and assignment affect only the named key.", "quantifier": "every container, key and command history", "why_tests_cant": "all histories", "anchors": ["RESTProcess_epilogue.h: RESTProcessAssociativeContainer::process", "RESTProcess_base.h: RPAC_insert, RPAC_erase, assignElem, getElem"]}
{"id": "C41", "title": "REST calls pass arguments in order", "statement": "Calling a function of n arguments with a JSON array of at least n elements passes element i to parameter i; with fewer it throws or does not match; surplus arguments are applied to the result.", "quantifier": "every arity and argument array", "why_tests_cant": "all arities", "anchors": ["RESTProcess_base.h: JSONBuffer, callFunction, MatchScore"]}
{"id": "C42", "title": "Functional application passes arguments in order", "statement": "functional::apply and callOnBuffer call f with arguments 1..n in that order, for every arity; PackFunctor.pack followed by call is the direct call.", "quantifier": "every arity n and every argument list", "why_tests_cant": "template recursion over all arities", "anchors": ["function.h: CurryLastNonVoid, CurryFirst, CallOnBuffer, PackFunctor"]}
{"id": "C43", "title": "Factory creates what was registered", "statement": "After any history of registerType, create(t) builds an object of the class registered for t and throws InvalidType exactly for unregistered names, and types() lists exactly the registered names once each.", "quantifier": "every history of registrations", "why_tests_cant": "all histories", "anchors": ["factory.h: Factory::registerType, create, types"]}
{"id": "C44", "title": "Type identifiers of polymorphic objects are stable and unique", "statement": "Whatever the order in which classes first use type(), distinct classes get distinct identifiers, an identifier never changes, and object::create(x.type()) builds an object of x's class.", "quantifier": "every order of first uses", "why_tests_cant": "all orders", "anchors": ["object.h: Object::type, register_with_factory, object::create"]}
{"id": "C45", "title": "poly<T> owns its object", "statement": "For every history of construction, assignment (including self assignment), addObject, swap and destruction of poly variables each object is deleted exactly once and never used after deletion; copies are deep.", "quantifier": "every history", "why_tests_cant": "aliasing histories", "anchors": ["poly.h: poly"]}
{"id": "C46", "title": "Polymorphic smart pointers round trip in binary", "statement": "Packing a shared_ptr/unique_ptr/weak_ptr to a polymorphic object and unpacking it recreates the dynamic type and contents, null becomes null, and no null pointer is dereferenced.", "quantifier": "every hierarchy, value and destination state", "why_tests_cant": "all combinations of null/non-null source and destination", "anchors": ["polyAccessPack.h", "object.h: pack/unpack of shared_ptr"]}
{"id": "C47", "title": "MPI gather concatenates in rank order", "statement": "After gather(root) every process's packed bytes are in root's buffer, in rank order, with size() equal to the total, whether or not const_buffer is set.", "quantifier": "every number of processes and every buffer contents", "why_tests_cant": "any number of processes", "anchors": ["classdescMP.h: MPIbuf::gather"]}
{"id": "C48", "title": "MPI scatter is delimited by marks", "statement": "If root packs one section per process separated by mark, scatter gives process i exactly section i, any number of times in succession, without writing outside the offset table.", "quantifier": "every number of processes, section contents and repetition count", "why_tests_cant": "repetition histories", "anchors": ["classdescMP.h: MPIbuf::operator<<(mark), scatter"]}
{"id": "C49", "title": "Master/slave bookkeeping", "statement": "At any time in any interleaving of exec and get_returnv, each slave is either idle (listed exactly once) or busy with exactly one request; wait_all_idle returns only when every request has been answered.", "quantifier": "every schedule of requests and replies with any number of slaves", "why_tests_cant": "schedules", "anchors": ["classdescMP.h: MPIslave"]}
{"id": "C50", "title": "Generated schema defines types before use", "statement": "xsd output writes every registered type definition exactly once and, when the dependency relation has no cycle, after all the definitions it depends on, for any order of registration; output always terminates.", "quantifier": "every dependency graph", "why_tests_cant": "all graphs", "anchors": ["xsd_generate_base.h: xsd_generate_t::outputType, output"]}
{"id": "C51", "title": "Generated schema is balanced", "statement": "For any properly nested sequence of openType/addMember/addBase/closeType calls every complex type definition written has balanced tags and members occur only inside a sequence.", "quantifier": "every call sequence", "why_tests_cant": "all sequences", "anchors": ["xsd_generate_base.h: openType, addMember, addBase, closeType"]}
{"id": "C52", "title": "The C++ tokenizer neither loses nor invents characters", "statement": "Every token produced by tokeninput is a contiguous part of the input after comment, continuation and attribute removal, tokens come in input order, and tokenising any finite file terminates with eof.", "quantifier": "every input file", "why_tests_cant": "all files", "anchors": ["tokeninput.h: tokeninput::nexttok, getnextc"]}
{"id": "C53", "title": "Balanced skipping", "statement": "gobble_delimited stops exactly at the delimiter that closes the one it started in, for any nesting.", "quantifier": "every token stream", "why_tests_cant": "all nestings", "anchors": ["tokeninput.h: gobble_delimited, get_template_args"]}
{"id": "C54", "title": "Shorn template types are all qualified once", "statement": "Replacing type names inside a template argument string changes exactly the occurrences of the name as a whole identifier and leaves every other character in place.", "quantifier": "every input string and table of names", "why_tests_cant": "all strings", "anchors": ["classdesc.cc: replaceShornTypes"]}
{"id": "C55", "title": "Namespace bookkeeping of the processor", "statement": "While processing a file the current namespace prefix always equals the list of enclosing namespaces of the current token.", "quantifier": "every nesting of namespaces", "why_tests_cant": "all nestings", "anchors": ["classdesc.cc: main (namespace handling)"]}
{"id": "C56", "title": "Java class files serialise big-endian and round trip", "statement": "Packing any Java class file structure and unpacking it gives an equal structure, and every multi-byte field is written most significant byte first with 16-bit element counts.", "quantifier": "every class file structure with counts below 2^16", "why_tests_cant": "all structures", "anchors": ["javaClass.h", "javaClass_serialisation.h"]}
{"id": "C57", "title": "dump indents by depth", "statement": "The line printed for a member starts with as many blanks as its path has dots, followed by the last component and a colon.", "quantifier": "every path", "why_tests_cant": "all strings", "anchors": ["dump_base.h: format"]}
{"id": "C58", "title": "StringKeyMap round trips", "statement": "A StringKeyMap packed to JSON or XML and unpacked gives an equal map for every set of keys.", "quantifier": "every map", "why_tests_cant": "all key sets", "anchors": ["stringKeyMap_epilogue.h"]}
{"id": "C59", "title": "File-backed buffers", "statement": "Packing to a file and unpacking from it returns the same data, and size()/pos() count the bytes written/read, for raw and typed calls alike.", "quantifier": "every history of calls in file mode", "why_tests_cant": "all histories", "anchors": ["pack_base.h: pack_t (readf/writef modes)"]}
{"id": "C60", "title": "Iterator serialisation", "statement": "An iterator packed together with its container is restored to the element at the same distance from begin() in the unpacked container.", "quantifier": "every container and every valid position", "why_tests_cant": "all positions", "anchors": ["pack_stl.h: iterator pack/unpack"]}
{"id": "C61", "title": "Copying an MPIbuf copies its message", "statement": "After b(x) or b=x the buffer b holds exactly the bytes of x.", "quantifier": "every pair of buffers", "why_tests_cant": "The tests run no MPI program and never assign a buffer that is not empty; all contents have to be considered.", "anchors": ["classdescMP.h:108-124"]}
{"id": "C62", "title": "send_recv receives the requested message", "statement": "send_recv(dest,sendtag,source,recvtag) receives, complete and unaltered, the first message from source with tag recvtag, whatever sendtag is and whatever other messages are queued.", "quantifier": "every queue of messages, tags and sources", "why_tests_cant": "Depends on the queue of messages of other processes; tests exercise at most one message with equal tags.", "anchors": ["classdescMP.h:281-303"]}
{"id": "C63", "title": "MPI bcast gives every process root's message", "statement": "After bcast(root) every process holds root's bytes, positioned at their start, with const_buffer set or not.", "quantifier": "every number of processes and all buffer contents", "why_tests_cant": "Unbounded number of processes and contents.", "anchors": ["classdescMP.h:305-319"]}
{"id": "C64", "title": "Schema generation terminates", "statement": "Generating the schema of any class, whatever classes its members and shared pointers refer to, ends after finitely many calls.", "quantifier": "every class graph, every description, every generator state", "why_tests_cant": "tests use a handful of classes, none of them recursive; the claim ranges over all class graphs", "anchors": ["xsd_generate_base.h:254-274", "xsd_generate_base.h:475-489"]}
{"id": "C65", "title": "Reading tokens echoes the file", "statement": "When the tokeniser has an output stream (insert-friend), what it writes while reading a file to its end is exactly that file.", "quantifier": "every file", "why_tests_cant": "unboundedly many files", "anchors": ["tokeninput.h:28-66", "insert-friend.cc:138"]}
{"id": "C66", "title": "Arguments of a template parameter list", "statement": "extract_targs turns a template parameter list into the list of the parameter names, each once and in order, packs followed by an ellipsis.", "quantifier": "every non-empty list of named parameters with any types", "why_tests_cant": "unboundedly many parameter lists and nested template parameters", "anchors": ["classdesc.cc:948-994", "insert-friend.cc:30-64"]}
{"id": "C67", "title": "Java methods refer to their names", "statement": "After any sequence of methods has been added to a class file, every added method's name and descriptor indices refer to the constant pool entries that hold the name and the descriptor it was added with.", "quantifier": "every class file and every list of names and descriptors that fits a pool of 2^16 entries", "why_tests_cant": "all sequences of methods", "anchors": ["javaClass.h"]}
{"id": "C68", "title": "Java signatures", "statement": "The JNI argument list parsed from the signature generated for a function type consists of the JNI types of its arguments in order followed by the JNI type of its result; a fundamental data member x of an object gets exactly the three methods x, getX and setX with the signatures (T)T, ()T and (T)V.", "quantifier": "every function type over the supported types, and every member name", "why_tests_cant": "all signatures of any arity", "anchors": ["javaClassDescriptor.h", "javaClass_base.h", "java/compileClass.cc"]}
{"id": "C69", "title": "The descriptor generator terminates on every token stream", "statement": "For every sequence of tokens and every setting of the options, the main loop of the generator, including the parsing of nested classes, typedefs, enumerations and templates, ends: it either reads to the end of the file or reaches one of the known dead ends on a string, and never loops for another reason.", "quantifier": "for all token sequences and all option settings", "why_tests_cant": "Each construct has its own inner loop, some of which look ahead and then go back; a test only shows that some files are processed.", "anchors": ["classdesc.cc:250-288", "classdesc.cc:348-821", "classdesc.cc:848-1049", "classdesc.cc:1250-1355"]}
{"id": "C70", "title": "The recorded members of a class are exactly its described members", "statement": "For every class made of access labels, data members (with initialisers, bit widths, braces, arrays, several declarators) and member functions, the generator records exactly one call per accessible member, in order, with the right name, argument, and static and const marking; constructors, destructors, deleted and overloaded functions are left out.", "quantifier": "for all class bodies of the grammar, all prefixes, both settings of the privacy and member pointer options", "why_tests_cant": "The parser keeps state (static, const, template, private) from one token to the next; whether it leaks depends on the sequence of members, of which there is no bound.", "anchors": ["classdesc.cc:328-345", "classdesc.cc:464-821"]}
{"id": "C71", "title": "The recorded base classes are exactly the accessible ones", "statement": "For every base clause, a base is recorded exactly when it is public, or public by default, or privacy is ignored, and with exactly its tokens.", "quantifier": "for all lists of base classes with any nesting of template arguments", "why_tests_cant": "The loop mixes access keywords, template brackets and names over an unbounded list.", "anchors": ["classdesc.cc:364-462"]}
{"id": "C72", "title": "The recorded keys of an enumeration are exactly its enumerators", "statement": "For every enumeration with an optional class keyword, underlying type, values and trailing comma, the generator records one key per enumerator, in order.", "quantifier": "for all enumerations of the grammar", "why_tests_cant": "Values may be any sequence of tokens, of any length.", "anchors": ["classdesc.cc:250-288"]}
{"id": "C73", "title": "For a whole file exactly its classes and enumerations are recorded", "statement": "For every file made of nested namespaces, classes, declarations, enumerations, functions, using directives and pragmas, the generator reaches the end of the file having recorded exactly one descriptor per class and enumeration, in order, with the qualified name.", "quantifier": "for all files of the grammar, nested to any depth", "why_tests_cant": "It needs every part of the parser to consume exactly its construct, for every combination and depth.", "anchors": ["classdesc.cc:1250-1355", "classdesc.cc:996-1049"]}
{"id": "C74", "title": "Every generated block survives the preprocessor once, however often the file is included", "statement": "The conditional sections of the generated text are balanced; on the first inclusion the block of every type whose guard macro is new is kept whole, and on a further inclusion no block is kept.", "quantifier": "for all recorded types and members, descriptors, options and macros already defined", "why_tests_cant": "It speaks about every file the generator can produce and about the preprocessor's state after any number of inclusions.", "anchors": ["classdesc.cc:1081-1094", "classdesc.cc:1388-1712"]}
{"id": "C75", "title": "Empty definitions are emitted exactly for the classes only declared", "statement": "The generator prints a definition of an empty class for a name exactly when it was declared, is not a template, and was not defined, and at most once.", "quantifier": "for all sequences of declarations and definitions", "why_tests_cant": "The order and the number of declarations and definitions is unbounded.", "anchors": ["classdesc.cc:168-184", "classdesc.cc:1361-1367"]}
{"id": "C76", "title": "Nested type names are brought into scope once, the innermost first", "statement": "The typedefs printed for a class name each type nested in one of its enclosing scopes exactly once, qualified with the innermost scope that declares it.", "quantifier": "for all tables of nested types and all scopes of any depth", "why_tests_cant": "Depth of nesting and number of shadowed names are unbounded.", "anchors": ["classdesc.cc:1119-1138"]}
{"id": "C77", "title": "The printed descriptor calls each recorded member once, in order", "statement": "For every file of the grammar, the output holds for each descriptor and each class the specialisation whose operator() calls the descriptor once on each base and each recorded member, in order, and whose type() does so for the member pointers.", "quantifier": "for all files of the grammar and all descriptor names", "why_tests_cant": "Numbers of classes, members and descriptors are unbounded and all interact in one printed text.", "anchors": ["classdesc.cc:1500-1709"]}
{"id": "C78", "title": "The type name of a template replaces each type parameter by its own type name", "statement": "The string printed for the name of a class template is the parameter list in which each named type parameter, and each named pack, is replaced by a call giving its type name, and everything else is kept.", "quantifier": "for all lists of type and value parameters", "why_tests_cant": "The parameter list has any length and the scan is by substring search.", "anchors": ["classdesc.cc:78-135", "classdesc.cc:1388-1426"]}
{"id": "C79", "title": "The printed enumeration table holds each enumerator once with its own value", "statement": "For each recorded enumeration the table printed has one entry per enumerator in order, with its name and an expression that names that enumerator in its scope.", "quantifier": "for all enumerations and scopes", "why_tests_cant": "The number of enumerators and the depth of the scope are unbounded.", "anchors": ["classdesc.cc:1427-1465"]}
{"id": "C80", "title": "A type is left out or treated as a node exactly when a pragma names it", "statement": "A block is empty exactly when an omit pragma of the input or of a descriptor header names the descriptor and the type; a node specialisation is added exactly when a node pragma names the type; naming a type as both sets the error code.", "quantifier": "for all sets of pragmas, header texts and types", "why_tests_cant": "Header files and pragma lists are arbitrary texts.", "anchors": ["classdesc.cc:1476-1554"]}
{"id": "C81", "title": "Each overloaded member uses a variable that is declared exactly once", "statement": "With overloading on, every recorded action that names a temporary has exactly one declaration of that temporary in its class, with the signature of that overload.", "quantifier": "for all token streams", "why_tests_cant": "It is an invariant of the parser over any number of members and nested classes.", "anchors": ["classdesc.cc:652-752", "classdesc.cc:206-228"]}
{"id": "C82", "title": "The command line is read option by option", "statement": "Every sequence of known options, with their arguments, followed by descriptor names gives the configuration obtained by applying the options from left to right; reading the command line ends for every command line.", "quantifier": "for all lists of arguments", "why_tests_cant": "Options may appear in any order and number.", "anchors": ["classdesc.cc:1129-1239"]}
{"id": "C83", "title": "Classes nested to any depth are recorded with their scopes, and every kind of member is consumed exactly", "statement": "For every class body made of labels, data members, functions, function templates, operators, using declarations, friends, typedefs, unions, enumerations, class declarations and nested classes, the parser stops at the closing brace of the class, having recorded the calls for exactly the visible members that are neither overloaded nor named in a using declaration, the nested types that are not private under their full scope, and nothing else.", "quantifier": "for all bodies of the grammar, nested to any depth", "why_tests_cant": "Each kind of member has its own way of skipping to its end, and any of them may follow any other, inside classes nested to any depth.", "anchors": ["classdesc.cc:340-790", "classdesc.cc:996-1049"]}
{"id": "C84", "title": "Class templates are described once for each set of arguments, with the parameters of the template", "statement": "For every file in which a class template (primary or partial specialisation) or a full specialisation stands between any other declarations, the generator prints, under a guard of its own, the struct template <parameters> struct access_<d>< kind ::name<arguments> > with the parameters stripped of default values, one call per base class and per member, a base class preceded by typename only if it is qualified and always if its qualification names a parameter; with -typename the tn<> struct of the template follows.", "quantifier": "all parameter lists, argument lists, base lists, member lists, surrounding declarations, descriptors and options without -overload", "why_tests_cant": "Parameter lists, nesting of angle brackets and the combinations of declarations are unbounded; the tests have a few templates.", "anchors": ["classdesc.cc:996-1049", "classdesc.cc:1266-1330", "classdesc.cc:1388-1426"]}
{"id": "C85", "title": "insert-friend prints an access declaration exactly in the classes that need one", "statement": "For every sequence of tokens of a file without nested classes that need declarations: after the brace of each class definition, and after the first private or protected label of each struct definition, exactly one CLASSDESC_ACCESS with its name is printed; for specialisations of templates CLASSDESC_ACCESS_TEMPLATE with their arguments, and the definition after the closing brace; nothing is printed for forward declarations, friends, parameters, enumerations, structs without hidden members, function templates and explicit instantiations. The program ends on every file.", "quantifier": "all files of the grammar, any number of declarations, any bodies; termination for all token sequences", "why_tests_cant": "The places depend on nested braces, base clauses and labels in bodies of any length; undefined behaviour (a read past the end of a string) does not show in a test.", "anchors": ["insert-friend.cc:31-133", "insert-friend.cc:136-201"]}
{"id": "C86", "title": "insert-friend copies the file unchanged apart from what it inserts", "statement": "For every file without attributes the output is the file cut into pieces with the printed texts, in order, between them; for a file whose tokens are each followed by a blank the output is the file with each text right after the blank that follows its token.", "quantifier": "all files; all sequences of plain tokens and blanks", "why_tests_cant": "The tokeniser echoes characters as it reads ahead while the texts are printed by the parser; the interleaving depends on how far it has read at every place.", "anchors": ["insert-friend.cc:111-133", "tokeninput.h:28-66"]}
{"id": "C87", "title": "JSON turned into Python objects and back is unchanged", "statement": "In every state of the Python heap that a program using PythonBuffer can reach, a JSON document (int64 numbers, UTF-8 strings and names without NUL) given to newPyObjectJson and read back with get<json_pack_t> is the same document, and the objects that were there before are unchanged.", "quantifier": "all documents of any depth and size, all reachable heaps", "why_tests_cant": "Documents are unbounded trees; the heap in which they are built depends on the whole history.", "anchors": ["pythonBuffer.h:64-95", "pythonBuffer.h:188-267"]}
{"id": "C88", "title": "PythonBuffer counts references correctly", "statement": "For every program over PythonBuffer variables (construction, copies, assignment, destruction, array(), push_back, get) the reference count of each object is the number of variables and containers that refer to it, no freed object is used, and when all variables are destroyed only None is left.", "quantifier": "all programs, of any length, over any number of variables and objects", "why_tests_cant": "A reference lost or kept shows only in a leak or, much later, in a crash; histories are unbounded.", "anchors": ["pythonBuffer.h:64-95", "pythonBuffer.h:150-287"]}
{"id": "C89", "title": "Values written to a PythonBuffer are read back", "statement": "For every type with streaming operators and every value of it, b<<v; b>>w leaves w equal to v.", "quantifier": "all types of the model (numbers, strings, enumerations, nested sequences, classes), all values, all reachable heaps", "why_tests_cant": "Types nest without bound; the operators dispatch differently for a value on its own and for an element.", "anchors": ["pythonBuffer.h:55-61", "pythonBuffer.h:99-120", "pythonBuffer.h:293-406"]}
{"id": "C90", "title": "Every registered name is an attribute path of the Python module", "statement": "For every registry, building the module terminates; the attribute path n1.n2...nk leads to the command registered under that name (_x leading to @x), and to nothing else.", "quantifier": "all registries, all attribute paths", "why_tests_cant": "Registries are unbounded, and names can be prefixes of each other or collide after renaming.", "anchors": ["pythonBuffer.h:676-691", "pythonBuffer.h:724-745"]}
{"id": "C91", "title": "The attributes of a wrapper keep their objects alive", "statement": "For every sequence of attribute assignments, reads and deletions, calls of insert and erase, and uses of Python variables, no freed object is used and the counts equal the references.", "quantifier": "all sequences of operations of any length", "why_tests_cant": "The freed object is used only when the last Python variable goes away first; None runs out of references only after very many calls.", "anchors": ["pythonBuffer.h:480-494", "pythonBuffer.h:571-605", "pythonBuffer.h:676-691"]}
{"id": "C92", "title": "A dotted path addresses the member it spells, and only that member", "statement": "For every object tree and every path to a member, base class member, pair component, sequence element or pointer target, the answer is that of the member alone and the rest of the object is unchanged; reading shows the member, writing a value and reading again shows that value.", "quantifier": "all types and values of any depth, all paths, all JSON arguments", "why_tests_cant": "The registry, containers and pointers each parse part of the path; a wrong offset or a lost write-back needs a particular nesting to show.", "anchors": ["RESTProcess_base.h:154-337", "RESTProcess_base.h:446-470", "RESTProcess_epilogue.h:179-185", "RESTProcess_epilogue.h:382-389", "RESTProcess_epilogue.h:409-456", "RESTProcess_epilogue.h:506-519"]}
{"id": "C93", "title": "No REST query corrupts an object", "statement": "For every well-formed type, every well-typed value, every query and every JSON argument whose reals are in range, the new value is well typed and the behaviour is defined.", "quantifier": "all types, values, queries and arguments", "why_tests_cant": "Queries come from outside: no finite set of them covers malformed paths and arguments of wrong types.", "anchors": ["RESTProcess_base.h:154-337", "RESTProcess_base.h:446-470", "RESTProcess_base.h:1563-1584", "RESTProcess_epilogue.h:213-291"]}
{"id": "C94", "title": "A query without arguments changes nothing", "statement": "For every object and every query that contains neither .@insert nor .@erase, null or empty arguments leave the object as it is.", "quantifier": "all types, values and queries", "why_tests_cant": "A change in a distant member goes unnoticed unless the whole object is compared, for every query.", "anchors": ["RESTProcess_base.h:446-470", "RESTProcess_epilogue.h:213-291", "RESTProcess_epilogue.h:409-456"]}
{"id": "C95", "title": "The listing of an object consists of its members", "statement": "For every class, pair or object with base classes, .@list names every member, and every listed name other than that of an enumeration can be read.", "quantifier": "all types and values of any depth", "why_tests_cant": "Classes have any number of members and depth of nesting.", "anchors": ["RESTProcess_base.h:446-470", "RESTProcess_epilogue.h:179-185", "RESTProcess_epilogue.h:409-456"]}
{"id": "C96", "title": "Documents written by others are read by their meaning", "statement": "Any XML document made of elements, attributes, text, character references, CDATA sections, comments and processing instructions is recorded by element path: an element's text is what its text and CDATA sections spell, with the number of its occurrences, whatever comments, attributes and prologue surround it. A document whose elements match those of an object of a type reads back as that object.", "quantifier": "all documents of the grammar of any depth and length, all types and values", "why_tests_cant": "Layouts of a document - where comments, references, attributes and white space stand - are unlimited in number.", "anchors": ["xml_unpack_base.h:85-311", "xml_unpack_base.h:442-509"]}
{"id": "C97", "title": "C arrays through REST", "statement": "For a member T a[n] or T a[d0][d1], .@elem.i (.@elem.j) reaches the element with these indices and changes nothing else; assigning a JSON array sets the elements it has values for and no others; the value shown has the elements in their places; no query and no argument touches memory outside the array.", "quantifier": "all dimensions, positions in memory, contents, queries and arguments", "why_tests_cant": "Dimensions, indices and arguments are unlimited in number, and memory outside the array is not looked at by tests.", "anchors": ["RESTProcess_base.h:268-297", "RESTProcess_base.h:750-816", "RESTProcess_base.h:1648-1667", "RESTProcess_epilogue.h:249-305", "multiArray.h:24-130"]}
{"id": "C98", "title": "Random initialisation gives valid values", "statement": "random_init gives every number a value within its type, every character a printable one, every enumeration one of its keys and every container fewer than ten new elements; constants, pointers and excluded members keep their values; it ends and nothing is undefined, and every key of an enumeration can come out.", "quantifier": "all types, objects and sequences of results of rand()", "why_tests_cant": "The value that breaks it comes up once in 2^31 calls of rand(), and rounding matters only for draws next to 1; recursion through smart pointers would not end in a test.", "anchors": ["random_init_base.h:20-158", "random_init_epilogue.h:15-130", "classdesc.h:459-474", "classdesc.h:773-806"]}
{"id": "C99", "title": "Java classes written for C++ objects are complete and correspond to the C++ functions", "statement": "For every registered object the class file written by compileClass has the object's name, extends CppObject, contains exactly the exported methods, auto and a constructor that calls the constructor of CppObject, with every index of the constant pool referring to an entry of the right kind; and the C++ file contains, for each native method, one function with the name, parameters and result the Java virtual machine expects, acting on the object it is called for.", "quantifier": "every class name and every list of members that fits a pool of 2^16 entries", "why_tests_cant": "all lists of members; positions in the pool depend on their number", "anchors": ["java/compileClass.cc: write_JNI, write_JNI_t::add_functor", "javaClass.h: makeNative, addMethod"]}
{"id": "C100", "title": "isa answers whether one class is derived from another", "statement": "isa(x,y) is true exactly when the class of y is the class of x or one of its bases.", "quantifier": "all class hierarchies, with or without virtual functions, all static and dynamic classes of the two objects", "why_tests_cant": "all hierarchies; the only test, test/test_isa.cc, returns the answer as its exit status, so that it passes when the answer is wrong", "anchors": ["isa_base.h: isa, isa_onbase", "test/test_isa.cc"]}
{"id": "C101", "title": "Clones have the class of the original and are not leaked", "statement": "Poly::clone gives an object of the same class; cloneT<U> returns that object if it is a U and otherwise a null pointer, in which case the clone is destroyed.", "quantifier": "all class hierarchies, all heaps, all target types", "why_tests_cant": "all hierarchies and all target types", "anchors": ["polyBase.h: Poly::clone, PolyBase::cloneT"]}
{"id": "C102", "title": "Names of types tell types apart", "statement": "typeName<A>() and typeName<B>() are the same string only if A and B are the same type; so two functions are taken to have the same arguments only if they have.", "quantifier": "all types built from named types, const, pointers, references, arrays, the containers and templates, of any depth", "why_tests_cant": "infinitely many types; tests compare a few names with literals", "anchors": ["classdesc.h: tn, typeName, varTn", "typeName_epilogue.h", "signature.h: operator=="]}
{"id": "C103", "title": "Overloads with different argument types are all registered", "statement": "After the overloads of a member function are registered under its name each of them can be found, unless one with the same argument types was registered after it.", "quantifier": "all registries, all sequences of functions, all argument types", "why_tests_cant": "all sequences of registrations and argument types", "anchors": ["RESTProcess_base.h: RESTProcess_t::add", "signature.h: operator==", "RESTProcess_epilogue.h: Args, functionSignature"]}
{"id": "C104", "title": "The text printed by dump tells the values", "statement": "Two objects of the same type for which dump prints the same text are equal, and the braces in the text match.", "quantifier": "all class types of any depth with bases, containers, maps, arrays and pointers, all values", "why_tests_cant": "infinitely many types and values; tests compare one output with a file", "anchors": ["dump_base.h: format, dump_basic, dump_container, dump", "dump_epilogue.h: Format, dump"]}
{"id": "C105", "title": "Things registered with Python are found under their names", "statement": "python_t::checkScope leaves exactly the scopes of the name it is given open, without making again those already open; a function or object registered under a dotted name is found by following the attributes of that name from the module, and things registered before are still found.", "quantifier": "all dotted names, all states of the scope stack, all sequences of registrations", "why_tests_cant": "a test registers a few classes in one order; the outcome depends on the stack left by all registrations before", "anchors": ["python_base.h: python_t::Scope, checkScope, tail, addObject, addFunctional"]}
{"id": "C106", "title": "Qualified names are registered in the scopes around them", "statement": "ExtractClassNameAndSetScope takes the last component of a qualified name, with its template arguments, as the class name and enters the scopes around it, outermost first; each scope has one object of its own, made once.", "quantifier": "all qualified names with any number of components and any nesting of template arguments, all registrations before", "why_tests_cant": "infinitely many names and orders of registration", "anchors": ["python_base.h: python_t::ExtractClassNameAndSetScope, namedScope"]}
{"id": "C107", "title": "Registering a class with Python ends and defines every class it needs", "statement": "python<T>(p,d) returns, however classes refer to each other; afterwards every class needed through members, arguments, results, elements and pointers is completed and has all its members, and no other class has any.", "quantifier": "all finite sets of classes with any members, any nesting of containers and pointers, any sequence of registrations", "why_tests_cant": "cycles of references between classes are endless in variety; a test has one", "anchors": ["python_base.h: classDefStarted, DefineArgClasses, addMember, pythonSharedPtr, python", "python_epilogue.h: python"]}
{"id": "C108", "title": "Each type has one class object", "statement": "getClass<T>() returns the class object of T, the same at every call and different for different types; after the registry is cleared it throws instead of returning another type's object.", "quantifier": "all sequences of calls of getClass and clear", "why_tests_cant": "depends on the order in which all types of the program are first used", "anchors": ["python_base.h: python_t::getClass, classes"]}
{"id": "C109", "title": "Containers and arrays seen from Python", "statement": "From Python, indexing, iterating, assigning to elements and assigning lists act on the C++ container or array as on a Python sequence or mapping; an index out of range raises an exception.", "quantifier": "all contents, indices, lists, ranks and extents", "why_tests_cant": "infinitely many sizes and indices", "anchors": ["python_base.h: pythonDetail::ArrayGet, getItemRef, getItem, setItem, getMapItem, setMapItem, Iterator, convertListTo, assignList", "python_epilogue.h: ArrayGetRegisterClass"]}
{"id": "C110", "title": "SimpleBuffer gives back what was put in", "statement": "Writing a value to the SimpleBuffer of the REST example with << and reading it with >> gives the value back; a buffer made from a JSON value is this value; a value of another kind is refused with an exception; a buffer constructed for a kind is of that kind.", "quantifier": "all types of the JSON descriptor, all values, all previous contents of the target", "why_tests_cant": "infinitely many types and values", "anchors": ["RESTProcessExample/SimpleBuffer.h: TypeVisitor, ToJsonVisitor, SimpleBuffer, operator<<, operator>>", "classdesc.h: resize, push_back"]}
{"id": "C111", "title": "Enumerations in Python", "statement": "defineEnum makes the enumeration available in the Python scope of its C++ scope, with every enumerator having its value, both as attribute of the type and of the scope; defining others does not disturb it.", "quantifier": "all qualified names, all lists of enumerators, all sequences of definitions", "why_tests_cant": "infinitely many names and sequences", "anchors": ["python_epilogue.h: python_t::defineEnum", "python_base.h: ExtractClassNameAndSetScope, python<E>"]}
{"id": "C112", "title": "addPythonObject puts objects where their path says", "statement": "addPythonObject(path, object) makes the object an attribute of the module named by the path before its last dot, or of the main module; nothing else changes; the path may go through namespaces.", "quantifier": "all paths, all sets of modules, all sequences of calls", "why_tests_cant": "infinitely many paths", "anchors": ["python_base.h: addPythonObject"]}
{"id": "C113", "title": "Calls and indexing from Python deliver their arguments", "statement": "Calling a wrapped C++ object from Python hands exactly the arguments, in order, to the command (the text of the key for commands whose name starts with @), and w[k], w[k]=v the key and the value; scalars come back as values and objects and arrays as wrappers; nothing the program can reach changes, no freed object is used, and no reference is lost.", "quantifier": "all argument lists, all commands, all states of the Python heap reachable with PythonBuffer", "why_tests_cant": "infinitely many argument lists and heaps", "anchors": ["pythonBuffer.h: CppWrapperType::call", "pythonBuffer.h: CppWrapper::returnResult", "pythonBuffer.h: CppWrapperType::MappingMethods"]}
{"id": "C114", "title": "Attributes of wrapped objects", "statement": "After any sequence of attribute assignments and deletions from Python, w.n is the object assigned last, or, if there is none or it has been deleted, the member of that name of the C++ object, else the method of the wrapper, else an error; assigning to a member sets it.", "quantifier": "all sequences of assignments and deletions, all lists of members", "why_tests_cant": "infinitely many sequences", "anchors": ["pythonBuffer.h: CppWrapperType::getAttro", "pythonBuffer.h: CppWrapperType::setAttro"]}
