# Formal model of classdesc in Rocq

## What this is

`/verif/rocq/theories` contains a machine-checked model of classdesc: the serialisation buffers
and descriptors (binary, XDR, JSON, XML, dump, schema), the pointer and polymorphism support, the
REST registry, the MPI wrapper, the Java class file writer, and the `classdesc` processor itself
(tokeniser, parser, output).  The C++ was read as text; it was neither compiled nor run.  Every
definition of a model cites the file and lines it follows.

`properties.jsonl` lists the properties, `MANIFEST.json` the theorems that prove each of them,
`seeded/LOG.jsonl` the mutation tests of the theorems.

## Layout

For each topic `X`:

* `X_Model.v`  - Gallina functions following the C++ function by function.
* `X_Spec.v`   - what is expected, stated without the functions of the model; short specifications
  are at the top of `X_Props.v` instead.
* `X_Proofs.v` - lemmas.
* `X_Props.v`  - the property theorems (`Cnn_...`), with an `Example` meeting their hypotheses and
  `Print Assumptions` beneath them, and the refuted statements (`Cnn_..._refuted`).

| theories | source modelled |
|---|---|
| `Base`, `SMap`, `Dec` | bytes, little endian numbers, outcomes (value, exception, undefined behaviour), `std::map`, decimal text |
| `PackBuf_*` | `pack_base.h` 137-304 (`pack_t` in memory), `Realloc.h` |
| `Codec_*`, `Weak_*` | `pack_base.h` 533-765, `pack_stl.h` 81-331, `polyAccessPack.h` |
| `Stream_*`, `Stream2_*` | `pack_base.h` 237-249 (file branches), 371-438 (`BinStream`), file modes 189-281, `pack_stl.h` 50-102, 197-223 (iterators) |
| `Graph_*` | `pack_graph.h` |
| `Ref_*` | `pack_base.h` 100-132 (`PtrStoreRef`), `ref.h` |
| `Xdr_*`, `Xdr2_*` | `xdr_pack.cc`, `pack_base.h` 322-358 |
| `Desc_*` | `classdesc.h` 763-957, 1130-1136 (head, tail, basename, `EnumKeys`), `dump_base.h` 43-56 |
| `Json_*`, `Json2_Props` | `json_pack_base.h`, `json_pack_epilogue.h`, `polyAccessJsonPack.h`, `stringKeyMap_epilogue.h` |
| `Xml_*`, `Xml2_Props`, `XmlDoc_*` | `xml_common.h`, `xml_pack_base.h`, `xml_unpack_base.h`, `xml_pack_epilogue.h`, `polyAccessXMLPack.h` |
| `MArr_*` | `multiArray.h` |
| `Rand_*` | `random_init_base.h`, `random_init_epilogue.h` |
| `Rest_*`, `Rest2_*`, `RestObj*`, `RestArr_*`, `Call_Props` | `RESTProcess_base.h`, `RESTProcess_epilogue.h`, `signature.h`, `function.h` |
| `Factory_*` | `factory.h`, `object.h`, `poly.h` |
| `Isa_*` | `isa_base.h`, `polyBase.h` 30-83 |
| `TypeName_*` | `classdesc.h` 572-757, 908-921, 1098-1103, `typeName_epilogue.h`, `signature.h`, `RESTProcess_epilogue.h` 152-172 |
| `Dump_*` | `dump_base.h` 59-171, `dump_epilogue.h` 17-66; what `operator<<` prints for a number or string is a parameter |
| `PyScope_*` | `python_base.h` 496-551 (`Scope`, `ExtractClassNameAndSetScope`), 730-751 (`tail`, `checkScope`), 783-811 (`addObject`, `addFunctional` without `DefineArgClasses`). Taken from outside: `boost::python::scope` makes its object current and its destructor makes the one before current again; `class_<>(name)` sets an attribute of the current scope; `staticmethod` throws if the class has no such attribute; `std::vector::erase` up to the end destroys the elements from the first to the last (libstdc++) |
| `PyClass_*` | `python_base.h` 131-149 (`ArrayGet`), 199-282 (items, iterator), 288-296 (`classDefStarted`), 690-728 (`getClass`), 753-780 (`DefineArgClasses`), 816-870 (which members are added), 974-1080 (lists, sequences, maps, `shared_ptr`), `python_epilogue.h` 27-52. Types are a small grammar; members that are C arrays, base classes and what boost does with an attribute are left out |
| `MPI_*` | `classdescMP.h` |
| `Xsd_*` | `xsd_generate_base.h` |
| `Java_*`, `JavaSig_*` | `javaClass.h`, `javaClass_serialisation.h`, `javaClassDescriptor.h`, `javaClass_base.h` 366-392, `java/compileClass.cc` 37-86 |
| `Jni_*` | `java/compileClass.cc` 86-188, `javaClass_base.h` 300-320, `java/JNIEx.h` 25 |
| `Tok_*`, `Tok2_Props` | `tokeninput.h` |
| `Parse_*`, `Ns_Props` | `classdesc.cc` helpers: `gobble_delimited`, `get_template_args`, `extract_targs`, `replaceShornTypes`, namespaces |
| `ClassParse_*`, `ClassFile_*`, `ClassMem_*`, `ClassEnum_*`, `ClassNest_*`, `ClassTempl_*`, `ClassLoop_*`, `ClassOver_*` | `classdesc.cc` 293-1049 and 1240-1360: `parse_class`, `parse_typedef`, `assign_class_action`, `assign_enum_action`, the loop of `main` |
| `Gen_Model`, `GenOpt_Props`, `GenPP_Props`, `Gen_Props`, `GenFile_Props`, `GenTd_Props`, `GenName_Props`, `GenPrag_Props`, `GenOver_Props`, `GenTight_Props`, `GenTempl_Props`, `OverSig_Props` | `classdesc.cc` 60-290 and 1050-1717: options, `action_t`, `MemberSig`, everything printed |
| `PyEnum_*` | `python_epilogue.h` 49-56, `python_base.h` 1171-1202 |
| `PyCall_*` | `pythonBuffer.h` 421-439, 454-459, 545-565, 571-605, 617-641 (call, returnResult, attributes, indexing) |
| `SBuf_*` | `RESTProcessExample/SimpleBuffer.h`, `classdesc.h` 459-493 |
| `Tight_Props`, `Tight2_Props`, `Tight3_Props`, `Tight4_Props`, `Tight5_Props`, `Tight6_Props`, `Tight7_Props` | further theorems added where mutation testing found one missing |

## Conventions

* bytes and C++ `char` are Coq `ascii`; `std::string` and buffers are `list ascii`.
* `size_t`/`uint64_t` are `N` or `Z` with explicit `mod 2^64` where the code computes with them and
  the property depends on wrap-around.
* the platform is LP64 little endian (`sizeof(int)=4`, `sizeof(size_t)=8`, `char` signed): an assumption.
* exceptions are `Throw`, undefined behaviour is a distinct outcome `UB`, running out of fuel a
  distinct outcome; theorems exclude the latter (the fuel given is proved to be enough).
* memory allocation is assumed to succeed.
* a property that is false of the faithful model has a theorem `..._refuted : exists x, ...` with a
  concrete witness, listed below; where only part of it holds, the positive theorems carry the
  hypotheses that are needed and the refuted ones show that they are needed.

## Trusted base

* Coq 8.16.1: its kernel, and `vm_compute` (used to evaluate closed examples and witnesses; the
  conversion is checked by the kernel's virtual machine).
* Axioms: none.  `Print Assumptions` answers "Closed under the global context" after every
  theorem of the `*_Props.v` files.  (`coqchk -o` lists the seven parameters of
  `Coq.ssr.ssrunder.Under_rel`: they belong to a module type application of the standard library
  that is loaded with the tactics, and no theorem uses them.)
* No functors, module types, plugins or disabled kernel checks; `_CoqProject` only maps the directory.
* The models: that the Gallina functions say what the cited C++ does.  The points where they
  abstract from it are:
  - **external code** is represented by what its documentation says.  `json5_parser` is an empty
    submodule of the repository: its value type is a tree, `get_value` throws on a kind mismatch.
    The XDR library follows RFC 4506; what `xdr_long` does with a value out of range is a parameter.
    MPI moves the bytes it is given if all processes call it with matching counts, and delivers
    messages between two processes in order.  `std::map` is a sorted association list, `memcmp` any
    function with the sign required by the C standard, `std::stoi` as in the C++ standard.
  - **oracles**: values of uninitialised memory are parameters (`PackBuf`, `Graph`); conversion of
    floating point numbers to text and back is a parameter (`Xml`); the element operations of REST
    containers are parameters (`Rest2`); conversions between integers and floating point, and the
    names of types, are parameters (`RestObj`); in the output of the generator `bf` gives the contents of
    the header files found on the include path, and `orc` the value of the conditions of `#if`
    sections in the source (`GenPP`).
  - **graphs**: addresses are natural numbers; counts of references are unbounded.
  - **tokeniser**: line numbers are not modelled (used in messages only); the file position of the
    parser is the list of tokens still to come, and each token takes at least one character.
  - **parser**: `qt` and `objc` are off; `virtualsdb` is left out (it is filled but never used for
    output); maps of lists are the sequence of their `push_back` calls; the counter of angle
    brackets is unbounded.
  - **output**: a text is a list of lines; `fopen` succeeds for the files of `-workdir`.
  - **insert-friend**: a text printed is recorded with the number of tokens still to come and woven
    into the echo afterwards, as both go through the same stdout buffer; the map of template
    arguments is empty, since the option that reads it is commented out.
  - **Python**: CPython's C API follows its documentation (who owns which reference); objects are
    None, bool, int, float, str, list and dict on a heap with unbounded counts; only None is shared;
    None is counted, as it is before Python 3.12; a dict's keys are byte strings.  Whether a byte
    string is UTF-8, the text form of JSON, the conversions of integers to double and of double to
    float are parameters.
  - **REST objects**: after an exception during an assignment the object is shown as before it,
    although part of it may have been assigned.
  - **Python enumerations**: boost::python::enum_ follows its source (type and names set as attributes
    of the current scope); `import` finds exactly the modules of a table.
  - **SimpleBuffer**: conversions between integers and doubles are modelled to the bit; boost::variant
    assigns a string literal to its bool alternative.
  - **Java**: `put` gives `None` where the C++ has no defined result.

## Not modelled

`python_base.h` beyond C105-C109, C111, C112, `pythonCAPI.*`; `pythonBuffer.h` beyond C87-C91 (calls of wrapped methods, the mapping
protocol, `str()`, reading objects that are neither sequences nor mappings); `objc` support; `functiondb*.h` beyond the
application of a function to arguments (C42); the
text syntax of JSON; `RESTProcess` for
`weak_ptr`, and for maps, sets and polymorphic pointers below other objects; signature JSON of REST; the rest of `java/JNIEx.*`; `classdescMP.h` with
`HETERO`; template metaprogramming that selects overloads (the choice is made in the model, citing
the specialisation); floating point formatting; locales; threads.

## Findings: statements refuted for the faithful model

Each has a witness checked by `vm_compute` or a proof for all instances of a family.

| theorem | file | what happens |
|---|---|---|
| `C02_huge_length_refuted` | `PackBuf_Props.v` | C02 without the guard on the length is false: with one byte packed and read, a request of 2^64-1 bytes passes the check (the sum wraps to 0) and reads out of bounds |
| `C02_resize_zero_refuted` | `PackBuf_Props.v` | C02: [resize(0)] throws, and afterwards [size()] still claims data that has been freed: the next read is undefined behaviour |
| `C03_wild_seeko_refuted` | `PackBuf_Props.v` | C03: a seek before the beginning is accepted silently and makes a later read undefined |
| `C03_wild_seeki_refuted` | `PackBuf_Props.v` | a relative seek before the start of the buffer is accepted and makes the next read undefined |
| `C03_append_nothing_refuted` | `PackBuf_Props.v` | C03: outside the guard. Appending nothing to an empty buffer throws [bad_alloc] (the reallocation to no bytes returns null), whereas [packraw] of nothing does not |
| `C04_wide_enum_refuted` | `Codec_Props.v` | an enum value that does not fit an int is silently changed |
| `C08_trichotomy_refuted` | `PackBuf_Props.v` | With a memcmp that returns the byte difference (allowed by the C standard), three distinct relations fail at once: none of [<], [>], [==] holds |
| `C08_lexicographic_refuted` | `PackBuf_Props.v` | The documentation promises the lexicographic order; "b" < "aa" shows it is not |
| `C09_string_length_refuted` | `Codec_Props.v` | eight bytes 0xFF unpacked as a string read out of bounds |
| `C09_bool_refuted` | `Codec_Props.v` | a validity flag other than 0 or 1 makes the code load an invalid bool |
| `C09_iterator_refuted` | `Stream_Props.v` | A stored distance larger than the container walks past its end |
| `C10_array_long_count_refuted` | `Codec_Props.v` | a larger stored count leaves the surplus elements in the stream, where the next member picks them up |
| `C12_destination_kept_refuted` | `Graph_Props.v` | A null pointer packed and unpacked over a destination that is not null leaves the destination as it was: pack_graph.h 44-56 has no else branch |
| `C12_members_indeterminate_refuted` | `Graph_Props.v` | The same for null members of nodes inside the tree, when the node class does not initialise its pointer members: they are left indeterminate |
| `C13_mixed_types_refuted` | `Graph_Props.v` | an object of type A with two pointers to one B: the table of pack_graph<B*> is cleared between them and the shared object is duplicated |
| `C14_recur_max_one_refuted` | `Graph_Props.v` | With recur_max = 1 every pointer is postponed, the restart loop of pack_graph (pack_graph.h 110-117) pops it and postpones it again: packing never terminates |
| `C15_assign_leaks_refuted` | `Ref_Props.v` | Assignment to a handle that holds something does not release it (pack_base.h 130): the object is never destroyed |
| `C15_self_assign_leaks_refuted` | `Ref_Props.v` | the same for self assignment |
| `C16_self_value_refuted` | `Ref_Props.v` | [v = *v] when [v] is the only handle: operator=(const T&) frees the object before copying from it (ref.h 48) |
| `C17_fresh_refuted` | `Xdr_Props.v` | A buffer to which nothing has been written claims to hold 1024 bytes: pack_base.h 211 takes the size of the allocation for the size of the contents |
| `C17_large_refuted` | `Xdr_Props.v` | what was written to memory cannot be read back once it exceeds 1024 bytes |
| `C17_big_raw_refuted` | `Xdr_Props.v` | A raw block of more than 1024 bytes cannot be written at all |
| `C17_interleaved_refuted` | `Xdr_Props.v` | Reading part of the buffer and then writing across a chunk boundary rewinds the reader: the item already read is returned again |
| `C17_reseto_refuted` | `Xdr2_Props.v` | So after [reseto] a buffer with contents says that it is at its end |
| `C17_reseti_refuted` | `Xdr2_Props.v` | xdr_pack.cc 211-212 |
| `C17_seeki_refuted` | `Xdr2_Props.v` | So taking back what was written last does not in general restore the buffer |
| `C18_long_refuted` | `Xdr_Props.v` | A 64 bit long that does not fit in 32 bits is either refused or silently truncated, depending on the XDR library: xdr_pack.cc uses xdr_long for long |
| `C19_swap_refuted` | `PackBuf_Props.v` | [recur_max] is left behind by [swap], and a moved-to object gets an indeterminate one |
| `C19_move_refuted` | `PackBuf_Props.v` | a buffer constructed by moving has an indeterminate recur_max |
| `C19_moved_from_refuted` | `PackBuf_Props.v` | A moved-from buffer is not empty: it has no memory but an indeterminate size, so reading from it is undefined |
| `C19_xdr_refuted` | `Xdr2_Props.v` | So swapping does not exchange two xdr_packs: pack_base.h 356 says [input] where [output] is meant |
| `C19_xdr_twice_refuted` | `Xdr2_Props.v` | Swapping twice does not restore the buffers either |
| `C21_pair_member_refuted` | `Json_Props.v` | a std::pair data member does not survive the round trip |
| `C21_enum_unlisted_refuted` | `Json_Props.v` | An enum value without an enumerator (a combination of flag bits, say) comes back as 0 |
| `C22_enum_reset_refuted` | `Json_Props.v` | An absent enum does not keep its value |
| `C22_elements_silent_refuted` | `Json_Props.v` | [throw_on_error] does not reach the elements of containers |
| `C22_mismatch_throws_refuted` | `Json_Props.v` | A member of the wrong kind throws even with both flags false (exception of the JSON library, not json_pack_error) |
| `C22_pack_flags_lost_refuted` | `Json_Props.v` | Setting the flags before packing into a fresh json_pack_t has no effect |
| `C23_store_nodot_refuted` | `Json_Props.v` | A path without its leading dot is looked up but not stored at |
| `C24_short_refuted` | `Json_Props.v` | A JSON array shorter than the C array is read out of bounds |
| `C25_second_lost_refuted` | `Json_Props.v` | of a tuple only the first component is restored |
| `C25_member_refuted` | `Json_Props.v` | A tuple data member wipes out the members packed before it: [x] is lost |
| `C25_short_refuted` | `Json_Props.v` | Reading a tuple from a JSON array that is too short is out of bounds |
| `C26_poly_member_refuted` | `Json_Props.v` | a polymorphic pointer data member is not restored |
| `C26_null_refuted` | `Json_Props.v` | a null pointer to a class comes back as a default constructed object |
| `C27_utf8_refuted` | `Xml_Props.v` | "é" in UTF-8 |
| `C27_markup_refuted` | `Xml_Props.v` | the strings "<", "</" and "a=<" are not read back; nor is the empty string |
| `C27_empty_refuted` | `Xml_Props.v` | the empty string leaves the old value |
| `C27_cdata_refuted` | `Xml_Props.v` | CDATA whose text ends in ']', or written with prettyPrint |
| `C27_cdata_pretty_refuted` | `Xml_Props.v` | CDATA written with prettyPrint gains white space |
| `C28_byte_refuted` | `Xml_Props.v` | unsigned char is written raw; the element name of a C array is not cut at '<'; the keys of a StringKeyMap become names |
| `C28_array_name_refuted` | `Xml_Props.v` | the name of the elements of a C array is not cut at '<' |
| `C28_map_key_refuted` | `Xml_Props.v` | the keys of a StringKeyMap become element names unchecked |
| `C29_tuple_refuted` | `Xml_Props.v` | tuples are not read back |
| `C29_null_refuted` | `Xml_Props.v` | a null pointer in a vector is read back as a pointer to a default object |
| `C29_ptr_leaf_refuted` | `Xml_Props.v` | pointers to leaves in a vector are wrapped twice and lost |
| `C29_char_refuted` | `Xml_Props.v` | the character ' ' is lost |
| `C29_endtag_refuted` | `Xml_Props.v` | ill-formed documents are accepted: the end tag may be any suffix of the path, or any unrelated name one character longer than the path |
| `C29_comment_refuted` | `Xml_Props.v` | comments: a '>' within seven characters of "<!" ends the comment; an odd number of quotes makes it run to the end of the file |
| `C30_enum_refuted` | `Xml_Props.v` | an absent enum is reset to 0 |
| `C30_empty_refuted` | `Xml_Props.v` | an empty element keeps the old value |
| `C30_empty_attribute_refuted` | `Xml_Props.v` | an attribute with an empty value makes the document unreadable |
| `C30_absent_pointer_refuted` | `Xml2_Props.v` | an absent pointer is reset to null |
| `C34_nodot_head_refuted` | `Desc_Props.v` | Without a dot [head] does not denote the parent (the empty path): it returns the whole string, so that code looking for the parent of "x" looks up "x" itself |
| `C35_construct_refuted` | `MArr_Props.v` | a zero dimension divides by zero |
| `C35_bijection_refuted` | `MArr_Props.v` | from rank 3 on two index tuples address one element |
| `C36_enum_list_refuted` | `Rest_Props.v` | an object registered as "@enum" makes the listing throw std::out_of_range |
| `C38_emplace_refuted` | `Rest_Props.v` | a later registration of a fundamental type under an existing name is lost |
| `C39_erase_refuted` | `Rest2_Props.v` | without an index "@erase" removes the first element; an index outside is ignored rather than reported |
| `C39_nothrow_refuted` | `Rest2_Props.v` | "@elemNoThrow" does throw for an index that is not an [int] |
| `C39_index_syntax_refuted` | `Rest2_Props.v` | characters after the digits are ignored |
| `C40_member_assignment_refuted` | `Rest2_Props.v` | assigning to a member of an element answers the new value and loses it |
| `C40_getElem_refuted` | `Rest2_Props.v` | reading through getElem adds the missing key |
| `C41_missing_refuted` | `Call_Props.v` | the two arguments of a function that is not overloaded may be left out |
| `C41_remainder_refuted` | `Call_Props.v` | a longer query hands the function's own arguments on to the member of the result |
| `C44_portable_refuted` | `Factory_Props.v` | the identifiers depend on the order of first use: another process, or another run, gives another identifier to the same class, and unpacks an object of a different one |
| `C44_default_refuted` | `Factory_Props.v` | create does not give a default constructed object but a copy of the first one whose type was asked for |
| `C44_null_refuted` | `Factory_Props.v` | a null pointer does not survive the round trip into a variable that is not null |
| `C44_hostile_refuted` | `Factory_Props.v` | a hostile identifier indexes outside the table, or gives an object of a class that is not a T |
| `C44_negative_refuted` | `Tight_Props.v` | so a null marker of any other negative value is undefined behaviour, too |
| `C45_self_assign_refuted` | `Factory_Props.v` | x = x deletes the object and then copies it |
| `C45_alias_refuted` | `Factory_Props.v` | x = *x likewise |
| `C45_throw_refuted` | `Factory_Props.v` | addObject deletes the old object before constructing the new one: if that throws, the destructor deletes it again |
| `C46_weak_null_refuted` | `Weak_Props.v` | Packing an expired weak pointer and unpacking it into a live one dereferences null |
| `C47_const_refuted` | `MPI_Props.v` | gather with const_buffer leaves size() at one process's share, so the contents are cut |
| `C48_repeat_refuted` | `MPI_Props.v` | a second use of the buffer after scatter marks outside the table of offsets, as offsctr is never reset |
| `C48_position_refuted` | `MPI_Props.v` | the read position of the receivers is not reset |
| `C49_exec_refuted` | `MPI_Props.v` | exec without an idle slave reads the end of an empty vector |
| `C49_no_reply_refuted` | `MPI_Props.v` | a request whose method sends no reply leaves its slave out of the books: the slave is waiting, the master takes it for busy, and wait_all_idle waits for ever |
| `C49_bcast_refuted` | `MPI_Props.v` | bcast does not mark the slaves as busy: with methods that reply, slaves get listed twice |
| `C49_bcast_wait_refuted` | `MPI_Props.v` | and all_idle holds while requests are unanswered |
| `C49_bcast_data_refuted` | `MPI_Props.v` | bcast(c) sends the contents of *this |
| `C50_base_refuted` | `Xsd_Props.v` | a base class is used by the definition but not recorded as a dependency |
| `C50_output_again_refuted` | `Xsd_Props.v` | output adds empty definitions for types not defined yet; they then count as defined |
| `C51_any_refuted` | `Xsd_Props.v` | xs:any is written outside a sequence |
| `C51_base_refuted` | `Xsd_Props.v` | a base class after a member |
| `C51_string_refuted` | `Xsd_Props.v` | "xs::string" drops the closing quote |
| `C52_pragma_refuted` | `Tok_Props.v` | the character after a slash is lost from a #pragma |
| `C52_swallow_refuted` | `Tok_Props.v` | a preprocessor line ending in a slash swallows the next line |
| `C52_attr_refuted` | `Tok_Props.v` | "[[" without "]]", even in a string or a comment: tokenising never ends |
| `C52_string_refuted` | `Tok_Props.v` | a comment or string with "[[" and "]]" swallows the code between |
| `C52_last_refuted` | `Tok_Props.v` | a token that ends with the file is not delivered |
| `C53_angle_refuted` | `Parse_Props.v` | with three open brackets [>>] ends the scan although one is still open: in A<B<C<D>>,E> x; the scan stops before the comma |
| `C53_template_refuted` | `Parse_Props.v` | template<class T=A<int>> class C {}; the default argument takes the bracket that closes the parameter list with it, and the rest of the file is read |
| `C54_two_refuted` | `Parse_Props.v` | map<Foo,Foo> with Foo standing for Foo<T>: the result is not even balanced |
| `C54_part_refuted` | `Parse_Props.v` | a longer identifier that contains the name is changed as well |
| `C55_nested_refuted` | `Ns_Props.v` | namespace A::B { ... } is not entered: the prefix inside it is that of the outside |
| `C55_last_refuted` | `Ns_Props.v` | a file whose last character closes a namespace: the tokeniser does not deliver that brace, so the namespace is not closed and nothing in it is processed |
| `C56_counts_refuted` | `Java_Props.v` | hence the file written for an empty class is not the one the format prescribes |
| `C56_foreign_refuted` | `Java_Props.v` | and a file in the class file format is misread: here the count of the interfaces and the following counts are taken for one number |
| `C56_long_refuted` | `Java_Props.v` | A long constant is counted once, so the pool is not in the class file format either, and the pool of a class file with a long constant is read one entry too far |
| `C56_stale_refuted` | `Java_Props.v` | A constant with a tag the reader does not know is lost, and the entry keeps what the object read into had at this place |
| `C56_string_cut_refuted` | `Tight9_Props.v` | So a string of 65536 characters or more is cut without a word |
| `C58_json_dot_refuted` | `Json_Props.v` | Keys containing a dot are lost |
| `C58_xml_refuted` | `Xml_Props.v` | reading XML never changes a StringKeyMap |
| `C59_size_refuted` | `Stream_Props.v` | size() of a file buffer does not count raw writes |
| `C59_failed_read_refuted` | `Stream_Props.v` | a failed read moves the file to its end while pos() stays, so a shorter retry that fits also fails |
| `C59_rewind_refuted` | `Stream2_Props.v` | rewinding a file for writing leaves what was there: writing less afterwards leaves the old tail in the file, while size() is that of the new contents |
| `C59_seeki_refuted` | `Stream2_Props.v` | moving back beyond the beginning changes size() but not the place in the file |
| `C59_more_refuted` | `Stream2_Props.v` | a buffer that reads a file never says that there is more to read |
| `C59_seeko_refuted` | `Stream2_Props.v` | moving back beyond the beginning changes pos() but not the place in the file: the next read succeeds |
| `C61_assign_refuted` | `MPI_Props.v` | assignment appends to the old contents |
| `C62_tags_refuted` | `MPI_Props.v` | the probe uses the tag of the message sent instead of the one wanted |
| `C62_truncate_refuted` | `MPI_Props.v` | the receive buffer is sized for another message, which is truncated |
| `C62_size_refuted` | `MPI_Props.v` | the size after send_recv is that of another message |
| `C64_recursive_refuted` | `Xsd_Props.v` | a class with a shared_ptr to itself: the call stack overflows |
| `C65_attr_refuted` | `Tok_Props.v` | with attributes the output is not the input: the attribute is gone and the next character comes twice |
| `C66_unnamed_refuted` | `Parse_Props.v` | a parameter without a name: the keyword is taken for the name |
| `C66_paren_refuted` | `Tight2_Props.v` | A comma inside parentheses ends a default argument: what follows is taken for another parameter |
| `C68_array_refuted` | `JavaSig_Props.v` | An array of int gets a type that does not exist in the JNI |
| `C68_nested_refuted` | `JavaSig_Props.v` | an array of arrays of int becomes an int |
| `C70_const_leak_refuted` | `ClassParse_Props.v` | [const] is remembered until the next function |
| `C70_static_list_refuted` | `ClassParse_Props.v` | only the first of several static members is recorded as static |
| `C70_static_const_function_refuted` | `ClassParse_Props.v` | a static function returning const is recorded as a static constant |
| `C70_template_leak_refuted` | `ClassParse_Props.v` | a function after a nested template class is taken for a template, and not recorded |
| `C70_initialiser_refuted` | `ClassParse_Props.v` | an argument in an initialiser is recorded as a member |
| `C70_braced_init_list_refuted` | `ClassParse_Props.v` | a member initialiser after a braced one is recorded as a function |
| `C70_flexible_array_refuted` | `ClassParse_Props.v` | a flexible array member is lost |
| `C70_not_a_function_refuted` | `ClassParse_Props.v` | static_assert, decltype and the handler of a function try block are recorded as functions |
| `C70_unnamed_bits_refuted` | `ClassParse_Props.v` | an unnamed bit field is recorded under the name of its type |
| `C70_private_enum_refuted` | `ClassParse_Props.v` | a private member with an elaborated enumeration type hides everything up to the next closing brace |
| `C70_unnamed_struct_refuted` | `ClassParse_Props.v` | an unnamed structure: its members are merged into the class, which is taken to end with it |
| `C71_template_word_refuted` | `ClassParse_Props.v` | words are joined without a space |
| `C71_final_refuted` | `ClassParse_Props.v` | a class marked final, or with an export macro, is taken for a declaration |
| `C72_variable_refuted` | `ClassParse_Props.v` | a declarator after an enumeration becomes one of its keys |
| `C72_empty_refuted` | `ClassParse_Props.v` | an empty enumeration gets the key `{` |
| `C72_comma_refuted` | `ClassParse_Props.v` | a comma inside parentheses in a value starts another key |
| `C72_struct_refuted` | `ClassParse_Props.v` | `enum struct` is not recorded |
| `C73_local_class_refuted` | `ClassParse_Props.v` | a class inside a function is recorded as if it were global |
| `C73_typedef_pointer_refuted` | `ClassParse_Props.v` | a typedef of an unnamed structure that ends with a pointer loses its name |
| `C73_typedef_attribute_refuted` | `ClassParse_Props.v` | the name of a typedef is the token before the semicolon, also when that ends an attribute |
| `C73_typedef_array_refuted` | `ClassParse_Props.v` | and when it is the bracket of an array |
| `C73_typedef_qualified_refuted` | `ClassParse_Props.v` | a typedef of a class named with its scope: the scope operator is taken for the colon before the base classes, and what follows up to the next brace is lost |
| `C73_typedef_enum_refuted` | `ClassParse_Props.v` | a typedef of an enumeration is not described |
| `C73_bare_pragma_refuted` | `ClassParse_Props.v` | a pragma without a name ends the program with an exception |
| `C74_collision_refuted` | `GenPP_Props.v` | two types have one macro: the block of the second is never seen |
| `C74_undeclared_twice_refuted` | `GenPP_Props.v` | the definition made up for a class that is only declared is in no conditional section |
| `C75_defined_refuted` | `Gen_Props.v` | a definition is recorded with its namespaces, a declaration without: a class that is declared and then defined gets a second, empty definition |
| `C75_specialisation_refuted` | `Gen_Props.v` | a specialisation that is only declared gets a definition with no meaning |
| `C76_workdir_own_refuted` | `GenTight_Props.v` | so the types nested in the class itself, which its members use, get none |
| `C77_workdir_object_refuted` | `GenFile_Props.v` | in these files a method is passed without its object |
| `C77_template_enum_refuted` | `GenFile_Props.v` | an enumeration inside a class template is described by a complete specialisation that names the parameter |
| `C77_typedef_keyword_refuted` | `GenFile_Props.v` | a structure defined in a typedef whose name begins like a keyword: the name is cut, and another type is described |
| `C77_typedef_scope_refuted` | `GenFile_Props.v` | one in a namespace is named without the namespace |
| `C77_typedef_omit_refuted` | `GenTd_Props.v` | a type nested in a structure whose typedef has a name of one letter is not left out by a pragma: the name looked for has one colon |
| `C78_unnamed_refuted` | `GenName_Props.v` | a parameter without a name, and a value parameter whose name holds the word class |
| `C78_value_name_refuted` | `GenName_Props.v` | a value parameter whose name contains `class` loses it |
| `C78_angle_refuted` | `GenTight_Props.v` | a parameter whose type is a member of a template is taken for the template |
| `C79_branches_refuted` | `GenName_Props.v` | an enumeration defined in both branches of a condition gets the keys of both |
| `C80_joined_refuted` | `GenPrag_Props.v` | the names of the descriptor and of the type are put together: an omit pragma leaves out another type of another descriptor |
| `C80_bare_refuted` | `GenPrag_Props.v` | a pragma without a name takes the next line for it |
| `C80_later_refuted` | `GenPrag_Props.v` | the pragmas of the header of a descriptor hold for the later descriptors too |
| `C81_clash_refuted` | `GenOver_Props.v` | a member f1 and eleven members f: one declaration twice, in one class without any error in it |
| `C81_branches_refuted` | `GenOver_Props.v` | a class defined in both branches of a condition: the declarations of both stand together |
| `C81_default_refuted` | `OverSig_Props.v` | a default that is a call with two arguments: its second argument is taken for a parameter |
| `C81_blank_refuted` | `OverSig_Props.v` | a blank between the parentheses |
| `C81_global_refuted` | `OverSig_Props.v` | a first parameter that does not begin with an identifier |
| `C81_callback_refuted` | `OverSig_Props.v` | a first parameter that is a pointer to a function: the rest of it is lost |
| `C81_shift_refuted` | `OverSig_Props.v` | two angle brackets of the return type written together are repeated |
| `C81_qualifier_refuted` | `OverSig_Props.v` | volatile and reference qualifiers are lost |
| `C82_ends_refuted` | `GenOpt_Props.v` | an unknown option makes the generator loop for ever |
| `C83_private_nested_refuted` | `ClassNest_Props.v` | a class inside a private class is described all the same |
| `C83_elaborated_refuted` | `ClassNest_Props.v` | a member whose type is written with [struct] makes the class a member type of this one |
| `C83_friend_body_refuted` | `ClassNest_Props.v` | the body of a friend is skipped to its first semicolon only, the rest is taken for members, and its closing brace for the end of the class |
| `C83_alias_refuted` | `ClassNest_Props.v` | an alias hides a member named like the type it stands for |
| `C83_operator_template_refuted` | `ClassNest_Props.v` | the function after an operator template is taken for a template, and not recorded |
| `C83_union_name_refuted` | `ClassNest_Props.v` | the name of a union is recorded as a member, in place of that of the member if there is one |
| `C83_inside_template_refuted` | `ClassNest_Props.v` | a class inside a class template is not described |
| `C83_typedef_scope_refuted` | `ClassNest_Props.v` | a structure named in a typedef inside a class is recorded under its bare name as a known type |
| `C84_onbase_typename_refuted` | `GenTempl_Props.v` | with -onbase, type() names a dependent base class without typename |
| `C84_guard_refuted` | `GenTempl_Props.v` | two partial specialisations that differ in punctuation have one guard: the second is not described |
| `C84_nested_refuted` | `GenTempl_Props.v` | a class nested in a full specialisation is a type like any other, but is not described |
| `C84_omit_refuted` | `GenTempl_Props.v` | an enumeration of a specialisation is looked for with a blank in its name, those of the pragmas have none |
| `C85_option_refuted` | `InsFriend_Props.v` | an option makes it run for ever: the argument is not removed |
| `C85_template_refuted` | `InsFriend_Props.v` | the behaviour is undefined at a class template |
| `C85_enum_class_refuted` | `InsFriend_Props.v` | the declaration is inserted in an enumeration |
| `C85_final_refuted` | `InsFriend_Props.v` | a final class gets none |
| `C85_qualified_refuted` | `InsFriend_Props.v` | a variable of a class with a qualified name: the declaration is inserted in the next function |
| `C85_nested_refuted` | `InsFriend_Props.v` | a class within a struct gets none; one with a label gets that of the struct |
| `C85_comma_refuted` | `InsFriend_Props.v` | a class specialised with two arguments: a typedef replaces the name, so that the arguments of the template are read as if it were no specialisation; the behaviour is undefined |
| `C86_split_refuted` | `InsFriend_Props.v` | the character after the brace has been echoed already when the declaration is inserted: a word that follows the brace at once is split |
| `C87_nul_refuted` | `PyBuf_Props.v` | Strings and member names are cut at a NUL character |
| `C87_key_refuted` | `PyBuf_Props.v` | A member whose name is not UTF-8 is left out without an error |
| `C87_uint_refuted` | `PyBuf_Props.v` | A number of 2^63 or more becomes negative |
| `C88_assign_refuted` | `PyBuf_Props.v` | The assignment operator forgets the reference the variable had |
| `C88_member_refuted` | `PyBuf_Props.v` | newPyObjectJson keeps a reference to every member of an object |
| `C88_array_refuted` | `PyBuf_Props.v` | array() makes two references to each element and gives up one |
| `C88_get_refuted` | `PyBuf_Props.v` | Reading a list or a dict as JSON leaves a reference to every element behind |
| `C88_null_refuted` | `PyBuf_Props.v` | PythonBuffer(nullptr) refers to None without counting; destroying it takes a reference away from somebody else, and in the end None is freed |
| `C88_utf8_refuted` | `PyBuf_Props.v` | A string that is not UTF-8 becomes a null pointer, which is then used |
| `C88_cycle_refuted` | `PyBuf_Props.v` | A list that contains itself is read for ever |
| `C89_class_refuted` | `PyBuf_Props.v` | A class is written as the text of a JSON document, in one Python string; reading it back finds no members, so that the value is left as it was, without an error |
| `C89_chars_refuted` | `PyBuf_Props.v` | The elements of a sequence of char are written as numbers but read as strings: a null pointer is used |
| `C89_char_refuted` | `PyBuf_Props.v` | A char of 0x80 or more is no UTF-8 string: writing it uses a null pointer |
| `C90_orphan_refuted` | `PyReg_Props.v` | A registered name is unreachable from Python when the name before its last dot is not registered itself: a.x.y without a.x |
| `C90_collision_refuted` | `PyReg_Props.v` | The command @x is hidden when there is a member _x: both become the attribute _x and the later one wins |
| `C90_enum_refuted` | `PyReg_Props.v` | A registered object called enum is replaced by the module's dictionary of enumerations |
| `C91_setattr_refuted` | `PyReg_Props.v` | Assigning an attribute from Python: setAttro keeps a reference it was only lent, so that the object is freed with the last Python variable and the attribute is left dangling |
| `C91_none_refuted` | `PyReg_Props.v` | Calling insert once more than None has references is a use of freed memory |
| `C92_enum_suffix_refuted` | `RestObj_Props.v` | RESTProcessEnum::process ignores what follows the name of the member, so that a misspelt command assigns the enum; on an enum alone the same command is an error |
| `C92_enum_integer_refuted` | `RestObj_Props.v` | An integer is ignored by an enum member, without an error |
| `C92_string_number_refuted` | `RestObj_Props.v` | A number assigned to a string becomes a string of one character: [std::string] is assignable from [char] |
| `C92_sequence_refuted` | `RestObj_Props.v` | A JSON array given as it is to a sequence is taken apart: its first element, a number, is given to the sequence, which ignores it without an error |
| `C92_large_integer_refuted` | `RestObj_Props.v` | An integer of 2^63 or more goes through int64_t on its way to a double |
| `C92_hidden_refuted` | `RestObj_Props.v` | A member of a fundamental type that hides one of the base class cannot be addressed: the base class is registered first, and [emplace] keeps the first entry |
| `C93_real_refuted` | `RestObj2_Props.v` | A JSON number with a fraction or an exponent that is out of the range of the integer it is assigned to is converted all the same |
| `C94_insert_refuted` | `RestObj2_Props.v` | "@insert" and "@erase" do not insist on an argument: without one, an element with the default value is appended, and the first element is erased |
| `C94_erase_refuted` | `RestObj2_Props.v` | "@erase" without an argument erases the first element |
| `C95_enum_refuted` | `RestObj2_Props.v` | The listing of an object with an enum member contains the name of the enumeration, which cannot be used as the name of a sub-object |
| `C96_attribute_refuted` | `XmlDoc_Props.v` | so an object whose member is given as an attribute does not get its value |
| `C96_empty_attribute_refuted` | `XmlDoc_Props.v` | an attribute with an empty value is an error |
| `C96_blank_attribute_refuted` | `XmlDoc_Props.v` | and so is one whose value is white space |
| `C96_apostrophe_refuted` | `XmlDoc_Props.v` | an apostrophe in the text of an element begins a string: the document is rejected, or the apostrophes are lost |
| `C96_comment_space_refuted` | `XmlDoc_Props.v` | white space after a comment is lost |
| `C96_comment_gt_refuted` | `XmlDoc_Props.v` | a comment with a '>' ends there, and the rest of it becomes text |
| `C96_comment_lt_refuted` | `XmlDoc_Props.v` | a comment with a '<' swallows elements up to the next one with a '>' |
| `C96_quotes_refuted` | `XmlDoc_Props.v` | two double quotes in a row in text are an error |
| `C96_dotted_refuted` | `XmlDoc_Props.v` | members are not found under element names with a dot |
| `C97_shape_refuted` | `RestArr_Props.v` | [int a[2][3]={{1,2,3},{4,5,6}}] is shown as [[1,2],[3,4],[5,6]]; a[0][2] can not be reached by these indices, and a[2][0] can |
| `C97_unwrapped_refuted` | `RestArr_Props.v` | an array given as the argument itself assigns nothing, without an error |
| `C97_type_refuted` | `RestArr_Props.v` | "@type" of an array of rank 2 is the text of an expression, "@list" is empty although the commands exist |
| `C98_rand_one_refuted` | `Rand_Props.v` | rand() can return 1, against the comment at its head |
| `C98_enum_refuted` | `Rand_Props.v` | then an enumeration is set from what follows its table |
| `C98_long_refuted` | `Rand_Props.v` | and a 64 bit integer from a double that does not fit |
| `C98_char_refuted` | `Rand_Props.v` | and a character is 127, which is not printable |
| `C98_enum_missed_refuted` | `Rand_Props.v` | enumerators that come after two with the same value are never chosen |
| `C98_array_refuted` | `Rand_Props.v` | arrays are not initialised: their elements are passed on as constants |
| `C98_map_refuted` | `Rand_Props.v` | a map never gets more than one new key |
| `C98_recursive_refuted` | `Rand_Props.v` | a list that owns its tail: random_init does not come back |
| `C99_line_refuted` | `Jni_Props.v` | it is meant to be LineNumberTable, but that name is never in the pool |
| `C99_symbol_refuted` | `Jni_Props.v` | So a data member called my_value cannot be used from Java |
| `C99_calls_refuted` | `Jni_Props.v` | So a method called for a second object of a class acts on the first |
| `C100_test_refuted` | `Isa_Props.v` | The program test/test_isa.cc returns the conjunction of its four answers as its exit status; a correct [isa] makes that 1, the status of a failure, this one makes it 0 |
| `C102_arrays_refuted` | `TypeName_Props.v` | [int x[2][3]] has the type written [int[2][3]] in C++; its name is that of another type |
| `C104_container_refuted` | `Dump_Props.v` | The elements of a container dumped with a description without dots run together |
| `C104_null_refuted` | `Dump_Props.v` | A null pointer to a string looks like one to the string "null" |
| `C104_string_refuted` | `Dump_Props.v` | Strings are not quoted: with line ends in them members cannot be told apart |
| `C105_two_refuted` | `PyScope_Props.v` | C105: leaving two scopes at once puts a function into the wrong one: after [a.b.f], [g] is found as [a.g], not as [g] |
| `C105_throw_refuted` | `PyScope_Props.v` | C105: and a function in another scope throws: after [a.b.c.f], [a.g] |
| `C105_reenter_refuted` | `PyScope_Props.v` | C105: a scope entered again is a new class: after [a.f], [b.g] and [a.h], [a.f] is gone |
| `C107_twice_refuted` | `PyClass_Props.v` | C107: a class that is reached again while it is being defined gets its members twice |
| `C108_cast_refuted` | `PyClass_Props.v` | C108: the message "classes registry no longer valid" is not given when a new class has taken the number: then there is std::bad_cast |
| `C109_set_refuted` | `PyClass_Props.v` | C109: an assignment to an element of class type is silently ignored |
| `C109_array_refuted` | `PyClass_Props.v` | C109: a[3] of an array of three elements is undefined behaviour, not an IndexError |
| `C110_wide_refuted` | `SBuf_Props.v` | A plain integer with more than 53 bits is changed |
| `C110_max_refuted` | `SBuf_Props.v` | Reading back the largest 64 bit integer is undefined: it has become 2^63 |
| `C110_construct_refuted` | `SBuf_Props.v` | A SimpleBuffer constructed from a 64 bit integer holds another one, which is then read |
| `C110_string_refuted` | `SBuf_Props.v` | The buffer for a string is a bool |
| `C111_hidden_refuted` | `PyEnum_Props.v` | An enumerator called like its enumeration hides it |
| `C111_clash_refuted` | `PyEnum_Props.v` | What is exported is the latest: an enumerator of another enumeration of the same scope takes the name, also for scoped enumerations, which do not clash in C++ |
| `C112_namespace_refuted` | `PyEnum_Props.v` | A path through a namespace or an object, which is an attribute of the module and no module, throws |
| `C113_extra_refuted` | `PyCall_Props.v` | The other arguments of a command that takes a key are ignored without a word |
| `C113_leak_refuted` | `PyCall_Props.v` | An argument is never freed after a call, not even when the caller and the result give up their references |
| `C113_del_refuted` | `PyCall_Props.v` | del w[k] does not remove the element: it is sent as an assignment of null; and it takes away a reference to None, here the last one |
| `C114_assign_refuted` | `PyCall_Props.v` | Assigning to a member from Python does not reach the C++ object: the name no longer leads to the member, and deleting the attribute brings the member back instead of being an error |
| `C114_hides_refuted` | `PyCall_Props.v` | A C++ member called like a method of the wrapper hides it |

## Noted while reading, not proved

* C76: the scopes around a class nested in a template get typedefs without `typename`; with
  `-workdir` only the nested types of the directly enclosing scope get typedefs, there is no
  `type()`, an `enum class` keeps both words, and constructors are printed; the names of the work files can collide.
* C78: a pack of parameters without a name, and a name with `X<Y>`, are misprinted; a type without
  keyword whose name begins with `class`, `struct`, `enum` or `typename` is split.
* C81: `insertTypename` puts `typename` before an unqualified template (`vector<A::B>`).
* `MPIslave::operator<<(const T&)` calls itself; the copy constructor of `MPIbuf` leaves fields indeterminate.

## How the properties are proved

| id | modelled | how proved |
|----|----------|-----------|
| C01-C03 | pack_t in `buf` mode as state machine (block, m_size, m_pos) | refinement to a byte queue by induction over the history |
| C04-C07 | universe of types `ty`, `pack`/`unpack` by recursion on the type | mutual induction on types; prefix-freeness |
| C08 | comparison with any memcmp satisfying the C contract | order laws |
| C09-C11 | unpacking arbitrary bytes with 64-bit wrap, classes with excluded members | induction on types and member lists |
| C12-C14 | heap graphs as finite maps, pack_graph with its table of ids and restart stack | simulation giving an isomorphism |
| C15, C16 | counting handles over a heap | invariant over histories |
| C17-C20 | xdr_pack buffer and encoders, swap, BinStream | round trips, invariant over histories |
| C21-C26, C58 | JSON tree, json_find, json_packp/json_unpackp on a type universe | induction on types; frame lemmas |
| C27-C32 | xml_quote, XMLtoken, parse, content map | lexer/quote round trip, independent stack scanner, induction on element trees |
| C33, C34, C57 | EnumKeys, head/tail, dump lines | list and map lemmas |
| C35 | MultiArray strides | arithmetic, induction on the rank |
| C36-C42 | registry and dispatch, overload scores, container commands, function application | refinement, induction on arity |
| C43-C46 | Factory, type registry, poly, smart pointers | invariants over histories |
| C47-C49, C61-C63 | MPI collectives as functions over all ranks; slave protocol as a transition system | list lemmas, invariant over all schedules |
| C50, C51, C64 | schema output as a depth first search, definition strings | DFS invariant, independent stack scanner |
| C52-C55, C65, C66 | tokeniser, delimiters, template parameters, name replacement, namespaces | induction over the text |
| C56, C67, C68 | Java class file codec, signatures | round trip |
| C69-C73, C83, C84 | parser of classes and files | inductive grammars independent of the parser; one lemma per construct, induction over derivations |
| C74-C81 | output of the generator | a preprocessor evaluates the output; the sections kept are compared with the text expected for each declaration |
| C82 | options | induction over the command line |
| C85, C86 | insert-friend: its loop on tokens, the echo of the tokeniser woven with what is printed | inductive grammar of marked tokens; measure for termination; prefix order of the echo |
| C87-C89 | PythonBuffer: JSON and typed values as counted Python objects | heap invariant (count = variables + containers + abandoned references) by induction over programs; values of objects as trees, preserved by extension of the heap; cycles characterise the endless reads |
| C90, C91 | the Python module of a registry | the fold over the sorted registry equals a recursive lookup; measure for termination; heap invariant |
| C92 – C95 | REST access to a tree of objects | the registry of a tree as a finite map of suffixes; one step lemma per constructor of an address; typing as an invariant of every action |
| C96 | XML documents as people write them: attributes, comments, CDATA, character references, processing instructions | grammar of documents independent of the reader; the records left by the reader, by induction over derivations with any text still to come |
| C97 | C arrays and MultiArray views through REST | memory as a list; each command reads and writes offsets of the view; pointwise specification of what an assignment leaves |
| C98 | random initialisation | the values drawn as a stream; which members draw, by induction over the type |
| C99 | the Java class files made for C++ objects | the class file as lists of pool entries and methods; completeness and agreement by induction over the registered names |
| C100, C101 | isa and cloneT | run-time types as lists of bases; case analysis of the cast |
| C102, C103 | type names and registries keyed by them | typeName is prefix free, so injective, by induction over types |
| C104 | dump | the printed text determines the value, by induction over types with any text still to come |
| C105, C106 | Python scopes | the stack of scopes as a chain of attributes, an invariant of every registration; frame lemma for the attributes not touched |
| C107 – C109 | Python classes and containers | depth first search with one-shot switches: a measure of switches not yet set; invariant with the set of types in progress; registry as a bijection; row-major index |
| C110 | SimpleBuffer | round trip on top of C21; binary64 encoding of integers computed with N.log2 |
| C111, C112 | Python enumerations and objects | attribute stores with frame lemmas; induction over the sequence of definitions |
| C113, C114 | Python calls, indexing, attributes | the count invariant of C88 carried through call; what is reachable keeps its contents; frame lemma for attributes |
