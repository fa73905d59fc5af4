{"id": "C01", "title": "Parsing never panics", "statement": "Reading a DLT message or a stored DLT message from a byte slice always returns (Some or None); it never panics, whatever the bytes and however short the slice.", "quantifier": "every byte slice", "why_tests_cant": "a test samples slices; an out-of-range index can hide behind one particular length field or slice length", "anchors": ["rapiddlt/src/dlt_v1.rs: DltEntry::try_read, DltStorageEntry::try_read, try_read_valid_marker"]}
{"id": "C02", "title": "Exact acceptance condition of the parser", "statement": "A stored DLT message is read from a slice exactly when the slice starts with 'DLT\\x01', has at least 20 bytes and its big-endian length field L satisfies 4 <= L <= slice length - 16; then exactly 16+L bytes are consumed, len() is 16+L, and every header field and the tail are the bytes at their documented offsets.", "quantifier": "every byte slice", "why_tests_cant": "an if-and-only-if over all slices, including every length-field value and every boundary", "anchors": ["rapiddlt/src/dlt_v1.rs: DltStorageEntry::try_read, len, DltStorageHeader, DltStandardHeader"]}
{"id": "C03", "title": "Parsing only depends on the message's own bytes", "statement": "If a message is read from a slice consuming n bytes, then reading from any other slice with the same first n bytes gives the same message and the same n; and reading from any strictly shorter prefix of these n bytes fails.", "quantifier": "every slice, every continuation, every truncation point", "why_tests_cant": "ranges over all continuations and all cut points", "anchors": ["rapiddlt/src/dlt_v1.rs: DltStorageEntry::try_read, DltEntry::try_read"]}
{"id": "C04", "title": "Header serialisation round-trip", "statement": "A storage header, standard header or extended header built with its constructor from in-range values and viewed as bytes reads back to the same values, and conversely any 16/4/10 bytes read as a header and viewed as bytes give back the same bytes (secs/microseconds little endian, length big endian).", "quantifier": "every field value of the declared integer types; every byte string", "why_tests_cant": "2^32 x 2^32 field values", "anchors": ["rapiddlt/src/dlt_v1.rs: DltStorageHeader::new, DltStandardHeader::new, DltExtendedHeader::new", "dd_dlt/src/main.rs: as_bytes uses"]}
{"id": "C05", "title": "Header type byte is a faithful flag set", "statement": "Building a header type byte from five flags and a version and querying it returns each flag unchanged and the version modulo 8; every byte is the result of building from its own queried flags and version.", "quantifier": "every flag combination, every u8 version, every byte", "why_tests_cant": "all 32 x 256 combinations and the converse direction", "anchors": ["rapiddlt/src/dlt_v1.rs: DltHTyp::new, is_*, version"]}
{"id": "C06", "title": "Optional header fields are located correctly", "statement": "For a message laid out as standard header, then ECU id / session id / timestamp / extended header exactly as announced by the header type flags, then payload, the accessors ecu_id, timestamp, extended_header and payload return exactly these parts (None for absent ones).", "quantifier": "every flag combination, every field value, every payload", "why_tests_cant": "combinatorial in flags and unbounded payloads", "anchors": ["rapiddlt/src/dlt_v1.rs: DltEntry::ecu_id, timestamp, extended_header, payload"]}
{"id": "C07", "title": "Accessors never panic on a parsed message", "statement": "On every message returned by the parser, ecu_id(), timestamp(), extended_header() and payload() return a value (possibly None) and do not panic.", "quantifier": "every parsed message, including ones too short for the fields their header type announces", "why_tests_cant": "needs every flag/length combination on malformed input; test files only contain well-formed messages", "anchors": ["rapiddlt/src/dlt_v1.rs: DltEntry::ecu_id, timestamp, extended_header, payload"]}
{"id": "C08", "title": "Message type decoding follows the DLT standard", "statement": "message_type()/is_verbose()/info() decode the message info byte as: bit 0 verbose, bits 1-3 message type, bits 4-7 message type info, None for undefined values.", "quantifier": "every message info byte", "why_tests_cant": "a full table over bytes; existing tests contain a single byte value", "anchors": ["rapiddlt/src/dlt_v1.rs: MessageType::message_type, is_verbose, info, DltMessageInfoMask"]}
{"id": "C09", "title": "Message type encode/decode round-trip", "statement": "MessageType::create_message_type(v, t).info() == (v, Some(t)) for every verbosity v and message type t, in every build of the program.", "quantifier": "every verbosity, every message type value, every code layout the linker may choose", "why_tests_cant": "the encoded bits come from function addresses, which differ per build; one build's test says nothing about another", "anchors": ["rapiddlt/src/dlt_v1.rs: MessageType::create_message_type, info"]}
{"id": "C10", "title": "max_len is an upper bound", "statement": "For every readable message, len() <= max_len(), as the trait promises.", "quantifier": "every parsed message", "why_tests_cant": "only fails for length fields above 65519, which no sample file has", "anchors": ["rapiddlt/src/dlt_v1.rs: DltStorageEntry::len, max_len", "matchit/src/lib.rs: FromBytesReadableTrait::max_len"]}
{"id": "C11", "title": "Sequential iteration is total", "statement": "Iterating dltit/dltit_offset over any byte slice from any start offset terminates without panic, the nested recursion inside one next() call is at most one level deep, and at most (len/20) messages are produced.", "quantifier": "every byte slice, every start offset below 2^64 - 4 (C88 has the others)", "why_tests_cant": "termination and panic freedom over all inputs", "anchors": ["matchit/src/searchable/readfallbackit.rs: ReadFallbackIterator::next", "rapiddlt/src/dlt_v1.rs: dltit, dltit_offset"]}
{"id": "C12", "title": "Iterated messages are genuine, in order and disjoint", "statement": "Every (offset, message) produced by dltit_offset satisfies: the marker is at offset, the message is what the parser reads at offset, it lies inside the slice, and the next item's offset is at least the end of this one.", "quantifier": "every byte slice and every item of the iteration", "why_tests_cant": "for every input and every position in the history", "anchors": ["matchit/src/searchable/readfallbackit.rs: ReadFallbackIterator::next"]}
{"id": "C13", "title": "A well-formed file is read back exactly", "statement": "For every file that is a concatenation of valid messages (whatever their payloads contain, including embedded complete DLT messages), dltit_offset yields exactly these messages, in order, at their offsets; dltit yields the same messages without offsets.", "quantifier": "every list of valid messages", "why_tests_cant": "unbounded number, sizes and payload contents", "anchors": ["matchit/src/searchable/readfallbackit.rs: ReadFallbackIterator::next", "rapiddlt/src/dlt_v1.rs: dltit, dltit_offset", "matchit/src/lib.rs: NoOffsetIterator::next"]}
{"id": "C14", "title": "Marker-free garbage between messages is skipped", "statement": "If garbage byte strings containing no marker precede, separate or follow the messages, iteration yields exactly the messages, in order, at their offsets.", "quantifier": "every list of messages and every interleaving with marker-free garbage", "why_tests_cant": "unbounded layouts", "anchors": ["matchit/src/searchable/readfallbackit.rs: ReadFallbackIterator::next", "matchit/src/searchable/mod.rs: search_marker"]}
{"id": "C15", "title": "Truncation loses only the cut message", "statement": "If a file of concatenated valid messages is cut at an arbitrary byte (crash while writing), iteration yields exactly the messages that lie entirely before the cut.", "quantifier": "every file and every cut point", "why_tests_cant": "every crash point of every file", "anchors": ["matchit/src/searchable/readfallbackit.rs: ReadFallbackIterator::next", "rapiddlt/src/dlt_v1.rs: DltStorageEntry::try_read_valid_marker"]}
{"id": "C16", "title": "Iteration resumes after a corrupted message", "statement": "When a marker is followed by a corrupted message, iteration falls back to searching for the next marker and still yields the valid messages behind it.", "quantifier": "every file with a corrupted message followed by a valid one", "why_tests_cant": "position and kind of corruption are unbounded; the sample corrupt file only has marker-free garbage", "anchors": ["matchit/src/searchable/readfallbackit.rs: ReadFallbackIterator::next", "CHANGELOG.md 0.1.0: ReadIterator falls back to binary search for markers in case of a corrupted type"]}
{"id": "C17", "title": "Exhaustion is final", "statement": "Once dltit/dltit_offset, the search iterator or the contiguous read iterator returned None, every later call returns None again (fused).", "quantifier": "every byte slice, every number of further calls", "why_tests_cant": "a statement about all continuations of a history", "anchors": ["matchit/src/searchable/readfallbackit.rs: ReadFallbackIterator::next", "matchit/src/searchable/searchit.rs: SearchIterator::next", "matchit/src/readit.rs: ReadIterator::next"]}
{"id": "C18", "title": "Search iterator finds every candidate", "statement": "SearchIterator::next returns the first position at or after its cursor that carries a marker and parses as a message, and None exactly if there is none; its cursor then moves behind that message. In particular it recovers from corrupted messages.", "quantifier": "every byte slice, every cursor below 2^64 - 4 (C88 has the others)", "why_tests_cant": "minimality over all positions of all inputs", "anchors": ["matchit/src/searchable/searchit.rs: SearchIterator::search, next"]}
{"id": "C19", "title": "Sequential iteration agrees with searching", "statement": "The messages yielded by dltit_offset are a prefix of those yielded by SearchIterator on the same slice, and the two agree completely unless the sequential iterator met a corrupted message.", "quantifier": "every byte slice", "why_tests_cant": "relates two iterators on all inputs", "anchors": ["matchit/src/searchable/readfallbackit.rs: ReadFallbackIterator::next", "matchit/src/searchable/searchit.rs: SearchIterator::next"]}
{"id": "C20", "title": "Reverse search yields all candidates backwards", "statement": "Starting from the end of the slice, RevSearchIterator yields exactly all positions that carry a marker and parse as a message, each once, in strictly descending order.", "quantifier": "every byte slice", "why_tests_cant": "all inputs, exactness in both directions", "anchors": ["matchit/src/searchable/searchit.rs: RevSearchIterator::search, next"]}
{"id": "C21", "title": "Reverse search stays exhausted", "statement": "After RevSearchIterator returned None, calling next() again returns None promptly.", "quantifier": "every exhausted reverse iterator", "why_tests_cant": "about what happens after the history tests look at", "anchors": ["matchit/src/searchable/searchit.rs: RevSearchIterator::next"]}
{"id": "C22", "title": "Marker search returns the first / last occurrence", "statement": "search_marker returns the least index at which the marker occurs, search_last_marker the greatest, None exactly if it does not occur.", "quantifier": "every byte slice", "why_tests_cant": "minimality/maximality over all inputs", "anchors": ["matchit/src/searchable/mod.rs: search_marker, search_last_marker"]}
{"id": "C23", "title": "Contiguous read iterator yields the maximal valid prefix", "statement": "ReadIterator yields the messages of the longest contiguous run of messages starting at its offset and stops at the first position that is not a message; it terminates without panic.", "quantifier": "every byte slice, every start offset", "why_tests_cant": "all inputs", "anchors": ["matchit/src/readit.rs: ReadIterator::next"]}
{"id": "C24", "title": "Grep results contain a match", "statement": "Every (offset, message) yielded by GrepIterator is a message parsed at offset such that the pattern matches somewhere inside the message, strictly after its marker; a message is yielded for the last marker in front of the match.", "quantifier": "every regex, every byte slice, every item", "why_tests_cant": "all patterns and inputs", "anchors": ["matchit/src/searchable/grepit.rs: GrepIterator::search, next"]}
{"id": "C25", "title": "Grep terminates", "statement": "Iterating a GrepIterator over any slice with any valid pattern terminates without panic.", "quantifier": "every regex, every byte slice", "why_tests_cant": "non-termination shows up only for patterns that can match the empty string", "anchors": ["matchit/src/searchable/grepit.rs: GrepIterator::search, next"]}
{"id": "C26", "title": "Grep never yields a message twice", "statement": "The offsets yielded by a GrepIterator are strictly increasing.", "quantifier": "every regex, every byte slice", "why_tests_cant": "a statement on all pairs of items of all runs", "anchors": ["matchit/src/searchable/grepit.rs: GrepIterator::next (comment: not to emit the same DLT entry twice)"]}
{"id": "C27", "title": "Grep finds exactly the messages whose content matches", "statement": "On a well-formed file, GrepIterator yields exactly the messages whose payload contains a match of the pattern.", "quantifier": "every well-formed file, every pattern", "why_tests_cant": "false positives and negatives depend on payload contents (embedded markers) and header bytes", "anchors": ["matchit/src/searchable/grepit.rs: GrepIterator::search, next", "matchit/src/searchable/searchit.rs: RevSearchIterator::search", "CHANGELOG.md 0.1.0: GrepIterator, binary search for payload within raw data"]}
{"id": "C28", "title": "Capture iterator is sound and visits every matching message", "statement": "RegExMatcherIterator yields, for each message containing a match, its offset and the span of capture group 1 inside the slice, and continues right behind that match.", "quantifier": "every regex with a group, every byte slice", "why_tests_cant": "the cursor update only goes wrong from the second message on", "anchors": ["matchit/src/searchable/grepit.rs: RegExMatcherIterator::capture, next"]}
{"id": "C29", "title": "Containment search is total and sound", "statement": "contained_by never panics and always terminates; when it returns (i, t), t is what the parser reads at i, i lies before the queried range and t extends at least to the end of the range; no marker-bearing message that is reported is itself contained in another.", "quantifier": "every byte slice, every queried range", "why_tests_cant": "recursion over all inputs", "anchors": ["matchit/src/lib.rs: ContainedBySearch::contained_by"]}
{"id": "C30", "title": "Containment search finds the outermost message", "statement": "In a file of valid messages of at most 65536 bytes and garbage where every marker occurrence lies inside a message, contained_by for a byte strictly after the first byte of a message (and not the last byte of the file) returns that top-level message even if its payload embeds complete or overlapping DLT messages, and returns None for a position that is not strictly inside a message.", "quantifier": "every such file, every position", "why_tests_cant": "nesting depth and payload contents are unbounded", "anchors": ["matchit/src/lib.rs: ContainedBySearch::contained_by"]}
{"id": "C31", "title": "Partitions are consecutive non-empty slices from the start", "statement": "partition_from(bytes, num) for num >= 1 terminates without panic and returns non-empty slices which, joined in order, are a prefix of bytes; for num = 0 it panics.", "quantifier": "every byte slice, every num", "why_tests_cant": "all inputs and all partition counts", "anchors": ["matchit/src/lib.rs: partition_from", "rapiddlt/src/dltbuffer.rs: DltBuffer::partition"]}
{"id": "C32", "title": "No message spans two partitions", "statement": "For a file of valid messages, every partition consists of whole messages, for every requested number of partitions.", "quantifier": "every file, every num", "why_tests_cant": "depends on where len/num falls relative to nested markers", "anchors": ["matchit/src/lib.rs: partition_from (doc comment)", "rapiddlt/src/dltbuffer.rs: DltBuffer::partition"]}
{"id": "C33", "title": "Partitions cover the whole input in num pieces", "statement": "partition_from(bytes, num) returns num slices whose concatenation is bytes.", "quantifier": "every byte slice, every num >= 1", "why_tests_cant": "data loss depends on the ratio of message size to partition size", "anchors": ["matchit/src/lib.rs: partition_from (doc comment)", "rapiddlt/src/dltbuffer.rs: test partition_len"]}
{"id": "C34", "title": "Parallel count equals sequential count", "statement": "Counting messages per partition and adding up gives the number of messages of the whole file, whatever the number of cores and the order in which the threads finish.", "quantifier": "every file, every degree of parallelism, every schedule", "why_tests_cant": "schedules and core counts are outside of a test's control", "anchors": ["ripdlt/src/main.rs: multithreaded, count", "matchit/src/lib.rs: partition_from"]}
{"id": "C35", "title": "filter and map adapters mean what their iterator namesakes mean", "statement": "Pushing any sequence through a chain of filter/map adapters and finalizing delivers to the reducer exactly the sequence obtained by the corresponding list functions, in order; adapter chains compose.", "quantifier": "every input sequence, every chain of adapters", "why_tests_cant": "all sequences and all chains", "anchors": ["matchit/src/generator/adapter.rs: Adapter::adapt, Adapter::finalize, Filter, Map, NilAdapter", "matchit/src/generator/generator.rs: Generator"]}
{"id": "C36", "title": "groupby yields the maximal runs of the relation", "statement": "groupby(f) splits the input into consecutive maximal runs in which each element is f-related to its successor and emits the (first, last) pair of each run in order, nothing lost and nothing invented.", "quantifier": "every relation, every input sequence", "why_tests_cant": "all relations; non-reflexive relations are not in the tests", "anchors": ["matchit/src/generator/groupby.rs: GroupBy::adapt, GroupBy::finalize", "CHANGELOG.md 0.2.0: groupby matches (reflexive-)transitional closures of a relation"]}
{"id": "C37", "title": "Durations never underflow", "statement": "The durations computed from groups (last minus first timestamp, in every ripdlt command) never underflow.", "quantifier": "every file", "why_tests_cant": "needs the run invariant for every input", "anchors": ["ripdlt/src/main.rs: continuous_timestamp_histogram, lifecycle_splitit, lifecycle_histogram, lifecycle_iter, timestamp_splitit"]}
{"id": "C38", "title": "Merging overlapping periods preserves coverage and leaves disjoint periods", "statement": "merge with the overlap criterion used by ripdlt emits periods that cover exactly the same points in time as the input periods, ordered by start, and pairwise disjoint.", "quantifier": "every sequence of periods", "why_tests_cant": "order-dependent over all sequences", "anchors": ["matchit/src/generator/groupby.rs: Merge::adapt, Merge::finalize", "ripdlt/src/main.rs: merge_overlapping_timestamps"]}
{"id": "C39", "title": "split reduces each key's subsequence independently", "statement": "split(key, reducer) returns, in ascending key order and for exactly the keys that occur, the result of running the reducer on the subsequence of inputs with that key in arrival order.", "quantifier": "every input sequence, every key function, every reducer", "why_tests_cant": "all sequences, keys and reducers", "anchors": ["matchit/src/generator/reducer.rs: Split::next, Split::finalize", "matchit/src/fromgenerator.rs: FromAdaptFnCall::split"]}
{"id": "C40", "title": "fold, count, sum, collect and fork", "statement": "fold is the left fold of the delivered elements, count their number, sum their sum, collect the list itself, and fork gives both reducers the complete sequence.", "quantifier": "every input sequence, every reducer pair, every fold function", "why_tests_cant": "all sequences", "anchors": ["matchit/src/generator/reducer.rs: Fold, Fork, Reducer::next, Reducer::finalize", "matchit/src/generator/adapter.rs: count, sum, collect"]}
{"id": "C41", "title": "Iterator-style and push-style adapters agree", "statement": "Pulling from FromAdaptFn(adapter, iterator) until None yields the same sequence as pushing the iterator's items into the adapter and finalizing.", "quantifier": "every adapter, every input sequence", "why_tests_cant": "two execution styles related on all inputs", "anchors": ["matchit/src/fromgenerator.rs: FromAdaptFn::next, groupby"]}
{"id": "C42", "title": "Parallel histogram reduction is schedule independent", "statement": "The merged histogram of par_histogram_timestamp and par_split_timestamp is the key-wise sum of the per-partition histograms, independent of how rayon splits, associates and interleaves the reduction.", "quantifier": "every list of partial results, every reduction tree", "why_tests_cant": "schedules cannot be enumerated by tests", "anchors": ["ripdlt/src/main.rs: par_continuous_timestamp_histogram, par_timestamp_splitit"]}
{"id": "C43", "title": "Histograms account for every message", "statement": "In every histogram command the counts add up to the number of messages (or, for the duration histograms, of periods) considered, and sum(k*v) of the message-size histogram is the total number of bytes of the messages (the file size for a well-formed file).", "quantifier": "every file", "why_tests_cant": "unbounded files", "anchors": ["ripdlt/src/main.rs: histogram_message, histogram_payload, mstp_info_histogram, main"]}
{"id": "C44", "title": "ripdlt commands do not crash on a file", "statement": "Each ripdlt command processes every file without panic.", "quantifier": "every file content, every command", "why_tests_cant": "malformed messages in otherwise valid files", "anchors": ["ripdlt/src/main.rs: lifecycle_*, mstp_info_histogram, count_hello_world, histogram_payload"]}
{"id": "C45", "title": "Parallel timestamp histogram equals the sequential one", "statement": "par_histogram_timestamp prints the same histogram as histogram_timestamp.", "quantifier": "every file, every number of cores", "why_tests_cant": "depends on where partitions cut runs of timestamps", "anchors": ["ripdlt/src/main.rs: par_continuous_timestamp_histogram, continuous_timestamp_histogram"]}
{"id": "C46", "title": "dd_dlt output reads back", "statement": "For every input stream, 4-byte ids and payload size, reading the output of dd_dlt with dltit gives one message per complete payload-size chunk, in order, whose payload is the chunk, whose ECU id and application id are the given ones, with increasing message counter and timestamps; output and reader agree even if the input itself contains DLT messages.", "quantifier": "every input stream, every payload size, every id", "why_tests_cant": "all streams and sizes, boundary at u16", "anchors": ["dd_dlt/src/main.rs: main", "rapiddlt/src/dlt_v1.rs: constructors, dltit"]}
{"id": "C47", "title": "dd_dlt terminates", "statement": "dd_dlt terminates on every finite input.", "quantifier": "every finite input, every payload size", "why_tests_cant": "non-termination for one parameter value", "anchors": ["dd_dlt/src/main.rs: main"]}
{"id": "C48", "title": "Every sequence of complete records dd_dlt writes has a correct length field", "statement": "The length field of every message written by dd_dlt is the number of bytes following the storage header.", "quantifier": "every payload size accepted on the command line", "why_tests_cant": "overflow only for sizes above 65517", "anchors": ["dd_dlt/src/main.rs: main, len"]}
{"id": "C49", "title": "A loaded buffer is the file", "statement": "If DltBuffer::mmap_file or read_file returns Ok, as_slice() is the complete content of the file and len() its length; both access methods give the same result.", "quantifier": "every file content, every I/O outcome", "why_tests_cant": "I/O errors at every point of the read", "anchors": ["rapiddlt/src/dltbuffer.rs: DltBuffer::mmap_file, read_file, len, as_slice"]}
{"id": "C50", "title": "Grep count and payload count agree", "statement": "count_hello_world_grepit and count_hello_world report the same number for a well-formed file.", "quantifier": "every well-formed file", "why_tests_cant": "payload contents unbounded", "anchors": ["ripdlt/src/main.rs: count_hello_world, count_hello_world_grepit, count_hello_world_raw"]}
{"id": "C51", "title": "Search iterator's stack depth is bounded", "statement": "One call of SearchIterator::next needs a bounded number of nested calls, whatever the input.", "quantifier": "every byte slice", "why_tests_cant": "the depth grows with the number of unreadable markers in a row, which sample files do not have", "anchors": ["matchit/src/searchable/searchit.rs: SearchIterator::search"]}
{"id": "C52", "title": "Parallel per-ECU message counts equal the sequential ones", "statement": "par_split_timestamp reports the same number of messages per ECU as split_timestamp.", "quantifier": "every file, every number of cores, every schedule", "why_tests_cant": "depends on where the partitions fall and on the schedule", "anchors": ["ripdlt/src/main.rs: par_timestamp_splitit, timestamp_splitit", "matchit/src/lib.rs: partition_from"]}
{"id": "C53", "title": "ripdlt's command line", "statement": "With fewer than three arguments ripdlt prints the usage and does nothing else; with an unknown access method or command, or a file that cannot be loaded, it panics; otherwise it prints its arguments and then exactly what the command produces for the loaded file.", "quantifier": "every argument list, every file system state", "why_tests_cant": "all argument strings and all operating system answers", "anchors": ["ripdlt/src/main.rs: main"]}
{"id": "C54", "title": "Both access methods print the same", "statement": "ripdlt prints the same lines after the argument line whether the file is mapped or read.", "quantifier": "every file, every command, every I/O outcome", "why_tests_cant": "differs only for empty files and I/O errors", "anchors": ["ripdlt/src/main.rs: main", "rapiddlt/src/dltbuffer.rs: DltBuffer::mmap_file, read_file"]}
{"id": "C55", "title": "Killing dd_dlt loses only the incomplete message", "statement": "If only the first cut bytes of dd_dlt's output reach the file (it is killed or the disk is full), reading the file gives exactly the first floor(cut / message size) messages with their payloads, provided no payload has a last line feed followed by 1024 or more bytes and the size is at most 65517.", "quantifier": "every input stream, every payload size up to 65517, every cut point", "why_tests_cant": "every crash point of every run", "anchors": ["dd_dlt/src/main.rs: main", "matchit/src/searchable/readfallbackit.rs: ReadFallbackIterator::next"]}
{"id": "C56", "title": "dd_dlt's command line", "statement": "With fewer than three arguments dd_dlt writes nothing and ends normally; the size argument is accepted exactly if it is a decimal numeral below 65536, with or without a plus sign; ids that are not four bytes long panic as soon as there is a chunk to write, without output.", "quantifier": "every argument list, every input stream", "why_tests_cant": "all argument strings", "anchors": ["dd_dlt/src/main.rs: main"]}
{"id": "C57", "title": "Appending to a well-formed file", "statement": "Reading a well-formed file (messages and marker-free garbage, ending with a message) to which arbitrary bytes were appended gives the messages of the file followed by exactly what reading the appended bytes alone gives, with shifted offsets.", "quantifier": "every well-formed file, every appended byte string", "why_tests_cant": "concatenation of arbitrary files", "anchors": ["matchit/src/searchable/readfallbackit.rs: ReadFallbackIterator::next", "rapiddlt/src/dlt_v1.rs: dltit_offset"]}
{"id": "C58", "title": "ripdlt on dd_dlt's output", "statement": "ripdlt count on the output of dd_dlt prints the number of complete chunks of the input, histogram_message_size and histogram_payload_size print a single size, payload size + 34 and payload size, with that count, for both access methods (payload size 1 to 65517, no chunk with a last line feed followed by 1024 or more bytes).", "quantifier": "every input stream with at least one chunk, every payload size, every id, both build modes", "why_tests_cant": "end-to-end over two programs and all inputs", "anchors": ["dd_dlt/src/main.rs: main", "ripdlt/src/main.rs: main, count, histogram_message, histogram_payload"]}
{"id": "C59", "title": "ripdlt's counts are exact", "statement": "count prints the number of entries found in the file; count_hello_world the number of those whose payload contains 'Hello World', and panics exactly if some entry does not hold the header fields it announces; count_hello_world_raw the number of positions of the file at which 'Hello World' occurs; count_hello_world_grepit the number of entries the pattern search yields, and histogram_hello_world their distribution over blocks of 100 MB.", "quantifier": "every file, every machine", "why_tests_cant": "every file content; all error conditions", "anchors": ["ripdlt/src/main.rs: count, count_hello_world, count_hello_world_raw, count_hello_world_grepit, histogram_hello_world, main"]}
{"id": "C60", "title": "ripdlt's size histograms are exact", "statement": "histogram_message_size and histogram_payload_size print, in ascending order of sizes, every size that occurs with the number of entries of that size and its share in kB, then the total in kB; the payload histogram panics exactly if some entry announces an extended header and ends before its position.", "quantifier": "every file, every machine", "why_tests_cant": "every file content; all error conditions", "anchors": ["ripdlt/src/main.rs: histogram_message, histogram_payload, main"]}
{"id": "C61", "title": "ripdlt's message type histogram is exact", "statement": "histogram_message_type prints, in ascending order, every pair of verbose flag and (masked) message type that occurs in entries with an extended header, with its number of entries; it panics exactly if some such entry does not hold its announced header fields.", "quantifier": "every file, every machine", "why_tests_cant": "every file content; all error conditions", "anchors": ["ripdlt/src/main.rs: mstp_info_histogram, main", "rapiddlt/src/dlt_v1.rs: DltExtendedHeader, MessageType"]}
{"id": "C62", "title": "ripdlt's continuous period tables are exact", "statement": "histogram_timestamp prints the distribution of the lengths of the maximal runs of non-descending storage seconds; split_timestamp prints the same per ECU in ascending order of ECU ids, after joining each run with the first earlier period it meets, with the number of messages of the ECU, and panics exactly if some ECU id is not UTF-8.", "quantifier": "every file, every machine", "why_tests_cant": "every file content; runs of any length; all error conditions", "anchors": ["ripdlt/src/main.rs: continuous_timestamp_histogram, timestamp_splitit, main", "matchit/src/generator/groupby.rs: GroupBy, Merge", "matchit/src/generator/reducer.rs: Split, Fork"]}
{"id": "C63", "title": "ripdlt's lifecycle commands are exact", "statement": "Over the entries that announce a timestamp: iter prints the number of maximal runs of non-descending timestamps that last at least half an hour; histogram_lifecycles the distribution in seconds of the durations of maximal runs with equal ECU id and non-descending timestamps; split_lifecycles the durations of runs per ECU; itertools only counts neighbouring entries at least half an hour apart. Each panics exactly if an entry announces a timestamp it does not hold (itertools: unless it is the last one), split_lifecycles also if an ECU id is not UTF-8.", "quantifier": "every file, every machine", "why_tests_cant": "every file content; runs of any length; all error conditions", "anchors": ["ripdlt/src/main.rs: lifecycle_iter, lifecycle_itertools, lifecycle_histogram, lifecycle_splitit, main", "matchit/src/generator/groupby.rs: GroupBy"]}
{"id": "C64", "title": "Parallel commands are the sequential ones on the partitions", "statement": "par_count, par_count_hello_world, par_count_hello_world_raw and par_count_hello_world_grepit print the number of partitions and the sum of what the sequential command prints for each partition, and panic if it panics on one; par_iter prints what iter prints for each partition; par_histogram_timestamp and par_split_timestamp print the tables of the runs of all partitions, whatever the schedule.", "quantifier": "every file, every number of cores, every schedule", "why_tests_cant": "schedules and partition borders are outside of a test's control", "anchors": ["ripdlt/src/main.rs: multithreaded, par_continuous_timestamp_histogram, par_timestamp_splitit, main", "matchit/src/lib.rs: partition_from"]}
{"id": "C65", "title": "Sequential reading is determined by the bytes", "statement": "Every byte string splits in exactly one way into pattern-free garbage, messages, and a rest that either contains no pattern or starts, after pattern-free garbage, with a pattern at which no message can be read; dltit_offset and dltit yield exactly these messages, in order and with their offsets.", "quantifier": "every byte string", "why_tests_cant": "arbitrary files, including corrupted ones", "anchors": ["rapiddlt/src/dlt_v1.rs: dltit, dltit_offset", "matchit/src/searchable/readfallbackit.rs: ReadFallbackIterator::next"]}
{"id": "C66", "title": "Searching is determined by the bytes", "statement": "The searching iterator started at an offset yields exactly the greedy selection of messages from there on: each starts behind the previous one, and a message is left out only if it starts before the offset or inside a selected message; there is exactly one such selection.", "quantifier": "every byte string, every start offset below 2^64 - 4 (C88 has the others)", "why_tests_cant": "arbitrary files, including corrupted ones and nested messages", "anchors": ["matchit/src/searchable/searchit.rs: SearchIterator::next", "matchit/src/searchable/mod.rs: SearchableMarkerTrait, search_marker"]}
{"id": "C67", "title": "Grep is determined by the matches", "statement": "From any offset, grep delivers the message that owns the first owned match (the last pattern occurrence before the match starts a message that reaches at least to its end), skipping to the end of each match that is not owned, then continues behind that message; it ends exactly if no match is left, and runs forever exactly if this never delivers nor ends.", "quantifier": "every byte string, every pattern (any leftmost-match function), every start offset", "why_tests_cant": "every pattern and file, including endless runs", "anchors": ["matchit/src/searchable/grepit.rs: GrepIterator::next, GrepIterator::search"]}
{"id": "C68", "title": "Capture is determined by the matches", "statement": "One step of the capture iterator delivers the offset of the owner of the first owned match and the span of its group 1, moving the cursor to offset plus span end; it reports the end if no match is left or if group 1 took no part in that match; it runs forever exactly if neither happens.", "quantifier": "every byte string, every pattern with captures, every start offset", "why_tests_cant": "every pattern and file, including endless runs", "anchors": ["matchit/src/searchable/grepit.rs: RegExMatcherIterator::next, RegExMatcherIterator::capture"]}
{"id": "C69", "title": "groupby for any predicate", "statement": "For an arbitrary predicate (not only reflexive ones) groupby delivers exactly: every maximal chain of at least two elements and every single element related to itself, as (first, last); a single element that is not related to itself stays and drops the following elements until one is related to it. Pulling and reducing agree.", "quantifier": "every list, every predicate", "why_tests_cant": "arbitrary predicates and lists", "anchors": ["matchit/src/generator/groupby.rs: GroupBy"]}
{"id": "C70", "title": "Partitioning is determined by the bytes", "statement": "Every piece boundary is the start of the first outermost message that holds the byte at the planned position (at most 65535 bytes earlier), or that position itself; the pieces end at the end of the data if less than a quarter of a piece is left, and they stop early, losing the rest, exactly if a planned cut is beyond the end or falls back to the start of the piece; zero pieces panic.", "quantifier": "every byte string, every number of pieces", "why_tests_cant": "arbitrary data and partition counts", "anchors": ["matchit/src/lib.rs: partition_from, contained_by"]}
{"id": "C71", "title": "Accessors on any message", "statement": "For every valid message ecu_id, timestamp, extended_header and payload are closed formulas of its bytes: which field is read where, when the result is None, and when the call panics (ecu_id without room for it, extended_header and payload with an announced extended header and too few bytes for the fields before it).", "quantifier": "every message, whatever follows it", "why_tests_cant": "all header type bytes and lengths", "anchors": ["rapiddlt/src/dlt_v1.rs: DltEntry::ecu_id, timestamp, extended_header, payload"]}
{"id": "C72", "title": "merge for any merge function", "statement": "merge keeps items in the order of their keys; a new item is merged with the first kept item that accepts it, and the result replaces that item and any item with the result's key; without such an item it is kept itself, replacing an item with its key. The delivered list is the only one described by these rules. For the periods of ripdlt: each is joined with the first one it meets, and starts are strictly ascending.", "quantifier": "every list of items, every merge function, every key function into a totally ordered type", "why_tests_cant": "arbitrary functions and lists", "anchors": ["matchit/src/generator/groupby.rs: Merge", "ripdlt/src/main.rs: merge_overlapping_timestamps"]}
{"id": "C73", "title": "merge loses nothing", "statement": "If merging adds weights, the total weight of what merge delivers is the total weight of its input.", "quantifier": "every list of items, every weight-adding merge function", "why_tests_cant": "arbitrary functions and lists", "anchors": ["matchit/src/generator/groupby.rs: Merge"]}
{"id": "C74", "title": "dd_dlt's output is exact", "statement": "In a release build dd_dlt writes one message per complete chunk, for any number of chunks and any size from 1 to 65535: running number modulo 2^32 in the time stamps and counter, length field modulo 2^16, and of the chunk everything up to its last line feed plus what the output buffer takes of the rest. A debug build does the same up to 42949673 messages with sizes up to 65517; with larger sizes it panics before writing, and with more messages it panics 20 bytes into the next one.", "quantifier": "every input stream, every size, both build modes, both versions of the standard output buffer", "why_tests_cant": "all input lengths, overflow only after 2^32 messages", "anchors": ["dd_dlt/src/main.rs: main"]}
{"id": "C75", "title": "What an adapter's stop request does", "statement": "If an adapter answers Break to an item, pulling from it finalizes it at once: the iteration ends there without a value, or delivers one value and then goes on with the items behind it; reducing ignores the request and goes on; in a chain the request of the inner adapter becomes that of the chain.", "quantifier": "every adapter (any implementation of the traits), every input", "why_tests_cant": "user-written adapters and inputs are unbounded", "anchors": ["matchit/src/generator/adapter.rs: AdaptFnTrait, AdapterTrait", "matchit/src/fromgenerator.rs: FromAdaptFn::next", "matchit/src/generator/reducer.rs: Reducer::next", "matchit/src/generator/adapter.rs: Adapter::adapt"]}
{"id": "C76", "title": "The iterators are exact for every type with a marker", "statement": "For every type whose marker is not empty and does not overlap itself, and whose reading at a marker does not panic and fits into the slice, the sequential, the searching and the backward iterator deliver exactly the values described for DLT entries. The DLT entry and the type of the repository's tests are such types.", "quantifier": "every such type, every byte string, every start offset from which the end of a marker can be computed (C87, C88)", "why_tests_cant": "the type is a parameter", "anchors": ["matchit/src/searchable/readfallbackit.rs: ReadFallbackIterator::next", "matchit/src/searchable/searchit.rs: SearchIterator::next", "matchit/src/searchable/searchit.rs: RevSearchIterator", "matchit/src/lib.rs: FromBytesReadableTrait, SearchableMarkerTrait"]}
{"id": "C77", "title": "Grep is exact for every type with a marker", "statement": "For every such type and every leftmost regular expression grep delivers the value that owns the first owned match, moves behind it, ends exactly if no owned match is left, and runs forever exactly if neither happens.", "quantifier": "every such type, every pattern, every byte string, every start offset", "why_tests_cant": "the type is a parameter", "anchors": ["matchit/src/searchable/grepit.rs: GrepIterator::next, GrepIterator::search"]}
{"id": "C78", "title": "partition_from is exact for every type with a marker", "statement": "For every such type whose two read functions agree at a marker, partition_from delivers exactly the pieces that end at the first outermost value which holds the byte at the planned position.", "quantifier": "every such type, every byte string, every number of pieces", "why_tests_cant": "the type is a parameter", "anchors": ["matchit/src/lib.rs: partition_from, contained_by"]}
{"id": "C79", "title": "The search iterator finds every readable value whatever the marker", "statement": "The search iterator delivers every value that can be read at a marker and does not start inside a delivered one, also if the marker overlaps itself.", "quantifier": "every type, every byte string", "why_tests_cant": "the type is a parameter", "anchors": ["matchit/src/searchable/searchit.rs: SearchIterator::next, search"]}
{"id": "C80", "title": "ripdlt prints its results as text", "statement": "ripdlt prints its arguments separated by blanks on one line (or two lines of usage), then one line per result: fixed texts, ECU ids as they are in the file, message types by name, and numbers as decimal numerals without leading zeros; only the lines of par_iter's workers may come in any order. It ends normally exactly if all lines have been printed.", "quantifier": "every file, every machine, every command line, every order of worker output", "why_tests_cant": "all numbers and all schedules", "anchors": ["ripdlt/src/main.rs: main, multithreaded, lifecycle_iter, lifecycle_itertools", "rapiddlt/src/dlt_v1.rs: DltMessageType, DltLogMessageTypeInfo, DltTraceMessageTypeInfo, DltNetworkMessageTypeInfo, DltControlMessageTypeInfo (derived Debug)"]}
{"id": "C81", "title": "ripdlt's text can be read back", "statement": "Two runs with the same arguments that print the same text have the same results: every number, ECU id and message type can be read back from the text, even if ECU ids contain digits, blanks or line feeds.", "quantifier": "every pair of files and machines, every command line", "why_tests_cant": "pairs of arbitrary files", "anchors": ["ripdlt/src/main.rs: main"]}
{"id": "C82", "title": "What ripdlt has printed when it crashes", "statement": "If an argument is not Unicode, nothing; if the file cannot be loaded or the command is unknown, the arguments; otherwise the arguments, the heading and the slices line of the command, and nothing else, except that the split commands have printed the rows of all ECUs up to the first one whose id is not UTF-8, and par_iter the lines of some of the slices that could be worked on.", "quantifier": "every file, every machine, every command line, every schedule", "why_tests_cant": "every crash point", "anchors": ["ripdlt/src/main.rs: main, multithreaded, par_continuous_timestamp_histogram, par_timestamp_splitit"]}
{"id": "C83", "title": "ripdlt always ends", "statement": "ripdlt ends, normally or by a panic, with every command on every file of less than 2^64 - 1 bytes.", "quantifier": "every file, every machine, every command line", "why_tests_cant": "non-termination cannot be observed by a test", "anchors": ["ripdlt/src/main.rs: main and every command", "matchit/src/generator/groupby.rs: Merge::finalize", "matchit/src/searchable/grepit.rs: GrepIterator::next"]}
{"id": "C84", "title": "Adapters over iterators", "statement": "Pulling from filter, map, groupby or merge (or a chain of them) over an iterator delivers exactly what the adapters deliver for the items of the iterator, and then None however often it is asked; groupby over each of the library's iterators does.", "quantifier": "every chain of adapters, every iterator that stays at its end, every number of calls", "why_tests_cant": "arbitrary iterators and call histories", "anchors": ["matchit/src/fromgenerator.rs: FromAdaptFn::next", "matchit/src/generator/adapter.rs: AdaptFn", "matchit/src/generator/groupby.rs: GroupBy, Merge", "matchit/src/searchable/searchit.rs: RevSearchIterator"]}
{"id": "C85", "title": "dd_dlt on a failing output", "statement": "Whatever portion of each write the operating system takes, what has arrived is a beginning of the complete output, so that exactly the messages that have arrived completely can be read back; dd_dlt ends with an error or as if everything had been taken.", "quantifier": "every sequence of answers of the operating system, every input, every command line", "why_tests_cant": "arbitrary failures of the operating system at every write", "anchors": ["dd_dlt/src/main.rs: main"]}
{"id": "C86", "title": "dd_dlt's success means that the output is complete", "statement": "If dd_dlt ends without an error, all of its output has arrived.", "quantifier": "every sequence of answers of the operating system, every input, every command line", "why_tests_cant": "arbitrary failures of the operating system at every write", "anchors": ["dd_dlt/src/main.rs: main"]}
{"id": "C87", "title": "Offset arithmetic does not overflow", "statement": "In debug and release builds, on machines with words of w = 32 or w = 64 bits, no addition of offsets overflows while iterating forwards and backwards, searching, grepping, capturing, looking for containers or partitioning, so that everything happens as with unbounded numbers: for the sequential and the searching iterator from every start offset below 2^w minus the length of the marker, for the backward one from every offset but 2^w - 1, at which it has ended, for all others from every start offset.", "quantifier": "every type with a marker, every slice of up to 2^(w-1) - 1 bytes, every offset and number of pieces, both builds", "why_tests_cant": "overflow needs slices and offsets no test can have", "anchors": ["matchit/src/searchable/readfallbackit.rs: ReadFallbackIterator::next", "matchit/src/searchable/searchit.rs: SearchIterator::next, search", "matchit/src/readit.rs: ReadIterator", "matchit/src/searchable/grepit.rs: GrepIterator::next, RegExMatcherIterator", "matchit/src/lib.rs: contained_by, partition_from"]}
{"id": "C88", "title": "Start offsets behind the end", "statement": "A forward iterator created with an offset at or behind the end of the slice delivers nothing and does not panic.", "quantifier": "every slice, every start offset, both builds", "why_tests_cant": "every 64-bit offset", "anchors": ["matchit/src/searchable/readfallbackit.rs: ReadFallbackIterator::next", "matchit/src/searchable/searchit.rs: SearchIterator::next", "matchit/src/readit.rs: ReadIterator", "matchit/src/searchable/grepit.rs: GrepIterator::next, RegExMatcherIterator"]}
{"id": "C89", "title": "Cutting any file anywhere", "statement": "Whatever a file holds, reading its first c bytes sequentially gives exactly those of its messages that end within the first c bytes, at the same offsets.", "quantifier": "every byte string, well-formed or not, every cut point", "why_tests_cant": "every crash point of whatever wrote the file", "anchors": ["rapiddlt/src/dlt_v1.rs: dltit_offset", "matchit/src/searchable/readfallbackit.rs: ReadFallbackIterator::next"]}
{"id": "C90", "title": "Payloads do not influence where messages are found", "statement": "If arbitrary bytes behind the storage and standard header of the messages of a file are overwritten (with anything, markers included), sequential reading finds the same number of messages at the same places with the same lengths and headers; count, histogram_message_size, histogram_payload_size, histogram_timestamp and split_timestamp print the same or crash for both.", "quantifier": "every byte string, every way to overwrite the bytes behind the headers", "why_tests_cant": "arbitrary payloads, including ones that imitate messages", "anchors": ["rapiddlt/src/dlt_v1.rs: dltit_offset", "matchit/src/searchable/readfallbackit.rs: ReadFallbackIterator::next", "ripdlt/src/main.rs: main"]}
{"id": "C91", "title": "Commands on concatenated files add up", "statement": "For a well-formed file followed by any other file count, count_hello_world, histogram_message_size, histogram_payload_size and histogram_message_type print the sum of what they print for both, provided they do not crash on one of them.", "quantifier": "every well-formed file, every other file", "why_tests_cant": "concatenation of arbitrary files", "anchors": ["ripdlt/src/main.rs: count, count_hello_world, histogram_message, histogram_payload, mstp_info_histogram", "matchit/src/searchable/readfallbackit.rs: ReadFallbackIterator::next"]}
{"id": "C92", "title": "Searching a cut file", "statement": "The searching iterator on the first c bytes of a file yields exactly those of its messages that end within the first c bytes.", "quantifier": "every byte string, every cut point", "why_tests_cant": "every crash point of whatever wrote the file", "anchors": ["matchit/src/searchable/searchit.rs: SearchIterator::next"]}
{"id": "C93", "title": "ripdlt notices a failing output", "statement": "Whatever the operating system does with ripdlt's writes, what has arrived is a beginning of what ripdlt prints; either it is complete and ripdlt ends as usual, or ripdlt ends with an error.", "quantifier": "every operating system behaviour (partial writes, errors, at any point), every command, file and command line", "why_tests_cant": "every point at which a disk may be full or a pipe may be closed", "anchors": ["ripdlt/src/main.rs: main, lifecycle_iter, multithreaded"]}
{"id": "C94", "title": "ripdlt's arithmetic does not overflow", "statement": "In debug and release builds on a 64-bit machine no counter, sum, product, bucket bound or time difference that ripdlt computes overflows or falls below zero: every command prints the same and panics in the same cases as with unbounded numbers.", "quantifier": "every buffer of up to 2^63 - 1 bytes, every command, number of cores, scheduling of the reductions and regular expression engine, both builds", "why_tests_cant": "overflow needs buffers no test can have, and wrong differences need particular message sequences", "anchors": ["ripdlt/src/main.rs: every function", "matchit/src/generator/adapter.rs: count", "matchit/src/generator/generator.rs: count", "matchit/src/generator/reducer.rs: Split, Fork, Fold"]}
{"id": "C95", "title": "Recordings appended to one file", "statement": "If the outputs of several runs of dd_dlt (each with its own ids and size) are appended to one file, count prints the sum of the numbers of messages and itertools 0; if every run has at least two messages, each run is one lifecycle for iter, histogram_lifecycles and split_lifecycles, with (messages - 1) / 100 seconds; if every run has at least 101 messages each is one continuous period for histogram_timestamp; split_timestamp joins the periods of one ECU to one.", "quantifier": "every number of runs, every input, id and size, both builds, up to 42949673 messages per run", "why_tests_cant": "end-to-end over two programs and all inputs", "anchors": ["dd_dlt/src/main.rs: main", "ripdlt/src/main.rs: main, count, lifecycle_iter, lifecycle_itertools, lifecycle_histogram, lifecycle_splitit, continuous_timestamp_histogram, timestamp_splitit", "test/test_gen.sh"]}
{"id": "C96", "title": "Messages in messages", "statement": "If an input is piped through dd_dlt several times, reading the result and joining the payloads as many times gives back the input up to the last complete chunk, and all of it if every run is fed a whole number of chunks: messages inside of payloads are not mistaken for messages of the file.", "quantifier": "every number of levels, every payload size up to 1024 per level, every input, both builds", "why_tests_cant": "arbitrarily deep nesting and arbitrary inputs", "anchors": ["dd_dlt/src/main.rs: main", "rapiddlt/src/dlt_v1.rs: dltit, DltEntry::payload", "matchit/src/searchable/readfallbackit.rs: ReadFallbackIterator::next", "test/test_gen.sh"]}
{"id": "C97", "title": "dd_dlt does not depend on how its input arrives", "statement": "Whatever pieces standard input delivers, with whatever signals in between and whether it ends, fails or is not open, dd_dlt writes the same and ends in the same way as with all bytes before the end or the first error delivered at once.", "quantifier": "every history of read(2) on standard input, every payload size, every behaviour of the output", "why_tests_cant": "pieces, signals and errors are outside of a test's control", "anchors": ["dd_dlt/src/main.rs: main"]}
{"id": "C98", "title": "Reading a file does not depend on the pieces", "statement": "read_file holds exactly the bytes read(2) delivers before the end or the first error, whatever pieces it delivers, whatever sizes are asked for and however often it is interrupted.", "quantifier": "every history of read(2) on the file, every sequence of read sizes", "why_tests_cant": "pieces, signals and errors are outside of a test's control", "anchors": ["rapiddlt/src/dltbuffer.rs: DltBuffer::read_file"]}
{"id": "C99", "title": "dd_dlt's report and exit status", "statement": "dd_dlt ends with status 0 and the usage if it has fewer than three arguments; with 101 if an argument is not Unicode or it panics; with 1 if a write fails; otherwise with status 0, and the report on standard error names, as decimal numerals, the number of complete chunks of its input modulo 2^32 and the payload size.", "quantifier": "every argument vector, every history of standard input and output, both builds", "why_tests_cant": "all inputs and failures", "anchors": ["dd_dlt/src/main.rs: main"]}
{"id": "C100", "title": "Partitions of files of equal messages", "statement": "For a file of n messages of equal length (at most 65536 bytes), as one run of dd_dlt writes it, partition_from with num pieces delivers nothing if n < num; otherwise at least num pieces of n / num or more whole messages each, losing at most n / num messages; if n is a multiple of num, num equal pieces and nothing is lost. par_count prints the number of the pieces and of the messages in them.", "quantifier": "every number of messages and pieces, every length, every schedule of the reductions", "why_tests_cant": "all numbers of messages and pieces", "anchors": ["matchit/src/lib.rs: partition_from, contained_by", "rapiddlt/src/dltbuffer.rs: DltBuffer::partition", "ripdlt/src/main.rs: main", "dd_dlt/src/main.rs: main"]}
{"id": "C101", "title": "Reading takes linear time", "statement": "Reading a slice sequentially to its end takes at most two calls for each message and two more, and no byte is passed over twice in search of markers.", "quantifier": "every byte string", "why_tests_cant": "all sizes and contents, worst cases included", "anchors": ["matchit/src/searchable/readfallbackit.rs: ReadFallbackIterator::next", "rapiddlt/src/dlt_v1.rs: dltit_offset"]}
{"id": "C102", "title": "Searching takes linear time", "statement": "Searching a slice for all messages, forward or backward, passes over a number of bytes that is linear in its size.", "quantifier": "every byte string", "why_tests_cant": "worst cases over all contents", "anchors": ["matchit/src/searchable/searchit.rs: SearchIterator::next, RevSearchIterator"]}
{"id": "C103", "title": "Partitioning takes reasonable time", "statement": "The time partition_from takes grows no faster than a polynomial in the size of the slice.", "quantifier": "every byte string, every number of pieces", "why_tests_cant": "worst cases over all contents", "anchors": ["matchit/src/lib.rs: contained_by, partition_from"]}
{"id": "C104", "title": "Grep takes linear time", "statement": "Apart from the work of the regular expression engine, grep passes over a number of bytes that is linear in the size of the slice.", "quantifier": "every byte string, every pattern without empty matches", "why_tests_cant": "worst cases over all contents and patterns", "anchors": ["matchit/src/searchable/grepit.rs: GrepIterator::search, GrepIterator::next"]}
{"id": "C105", "title": "dd_dlt on an output that takes writes in part", "statement": "Whatever part of each write an open output takes, and whether or not it goes on after taking a part or failing, what arrives consists of a beginning of each part dd_dlt writes (storage header, header, timestamp, extended header, payload of each message), in their order and nothing else, and dd_dlt ends as usual or with an error. If the output never fails and always takes something, dd_dlt ends as usual, parts of less than 1024 bytes without a newline arrive completely, other parts of up to 1024 bytes at least up to their last newline, and larger parts with a newline completely, or up to some newline, or up to 1024 bytes without one.", "quantifier": "every sequence of answers of the operating system, every payload size up to 65517, every sequence of chunks", "why_tests_cant": "arbitrary behaviour of the operating system at every write", "anchors": ["dd_dlt/src/main.rs: main"]}
{"id": "C106", "title": "Partitions are balanced and lose little", "statement": "If no message is longer than a num-th of the data (the share), partition_from delivers at least num partitions, each with more than share - (longest message) and at most share + share / 4 bytes, and fewer than share bytes are lost at the end; for a file of messages of at most 65536 bytes only its own messages count, not those in payloads, and par_count's result, on every schedule, is too low by fewer than share / 20 messages.", "quantifier": "every byte string, every number of partitions, every schedule", "why_tests_cant": "all layouts of messages and all numbers of partitions", "anchors": ["matchit/src/lib.rs: partition_from, ContainedBySearch", "ripdlt/src/main.rs: multithreaded"]}
{"id": "C107", "title": "Adapters do not ask for more than they need", "statement": "Pulling n items from filter, map, groupby or a chain of them over an iterator asks the iterator only for the items that determine these n: filter and map for those up to the n-th that counts, groupby for the first item of the run behind the n-th; whatever the iterator would do if asked further (end, panic, never return) has no influence. merge asks for all items before it delivers the first.", "quantifier": "every adapter and chain, every iterator, every number of items asked for", "why_tests_cant": "arbitrary iterators, including ones that panic or never end", "anchors": ["matchit/src/fromgenerator.rs: FromAdaptFn::next", "matchit/src/generator/groupby.rs: GroupBy, Merge", "matchit/src/generator/adapter.rs: Adapter::adapt, Filter, Map"]}
{"id": "C108", "title": "Reading a file that is being appended to", "statement": "If a file is read into memory while other programs append to it, the buffer is the file as it was at the last call of read(2), and its entries are those of the later file that were complete at that moment; count never counts less after appending. Reading the output of dd_dlt while it is written gives exactly the messages written completely. If read(2) fails, the same holds for the beginning read so far.", "quantifier": "every history of appends, every sequence of answers of read(2), every moment", "why_tests_cant": "the schedule of the writers is outside of a test's control", "anchors": ["rapiddlt/src/dltbuffer.rs: DltBuffer::read_file", "rapiddlt/src/dlt_v1.rs: dltit_offset", "dd_dlt/src/main.rs: main"]}
{"id": "C109", "title": "The order of the messages", "statement": "count, count_hello_world, histogram_message_size, histogram_payload_size and histogram_message_type print the same for files that hold the same messages in any order, with any garbage between them; split_timestamp and split_lifecycles print the same if the messages of each ECU are in the same order, however the ECUs are interleaved.", "quantifier": "every pair of files with the same messages, every permutation, every interleaving, every machine", "why_tests_cant": "all permutations and interleavings", "anchors": ["ripdlt/src/main.rs: main, count, histogram_message, histogram_payload, mstp_info_histogram, timestamp_splitit, lifecycle_splitit", "matchit/src/generator/reducer.rs: Split, Fork"]}
{"id": "C110", "title": "Copied messages can be read back", "statement": "If the bytes of any entries delivered by the sequential, the searching, the contiguous, the grep or the backward iterator over a slice (as many bytes as the entry says, from its offset on) are written one after the other, in any order and with any repetitions, reading the result gives exactly these entries. Copying all messages sequential reading finds, without what lies between them, keeps the output of every command that reads messages one after the other, and copying again changes nothing.", "quantifier": "every byte string, every selection and order of delivered entries, every start offset and pattern", "why_tests_cant": "all selections over arbitrary files", "anchors": ["rapiddlt/src/dlt_v1.rs: dltit, dltit_offset, StorageEntry", "matchit/src/searchable/readfallbackit.rs: ReadFallbackIterator::next", "matchit/src/searchable/searchit.rs: SearchIterator::next, RevSearchIterator", "matchit/src/searchable/grepit.rs: GrepIterator::next", "matchit/src/readit.rs: ReadIterator", "ripdlt/src/main.rs: main"]}
{"id": "C111", "title": "Iterators that meet stay together", "statement": "Two runs over the same bytes, started at different offsets, that deliver an entry found at the same offset deliver the same entry and stand at the same offset afterwards, so that runs of the same iterator deliver the same from there on. Reading a well-formed file from any offset, all later messages of the file follow exactly once one of them has been delivered; if the pattern occurs only at the starts of the messages, exactly the messages from the offset on are delivered.", "quantifier": "every byte string, every pair of start offsets, every forward iterator", "why_tests_cant": "all pairs of start offsets over arbitrary files", "anchors": ["matchit/src/searchable/readfallbackit.rs: ReadFallbackIterator::next", "matchit/src/searchable/searchit.rs: SearchIterator::next", "matchit/src/readit.rs: ReadIterator", "matchit/src/searchable/grepit.rs: GrepIterator::next"]}
{"id": "C112", "title": "When the generator calls closures", "statement": "Closures with side effects are called in a fixed order: an item passes through a chain of adapters into the reducer before the next item is looked at, and each closure is called once for each item that reaches it; groupby's predicate is called for each item and its successor and, for a run of one item, with this item twice, never more than 2 n - 1 times for n items; split asks for each item's key once and hands over the item at once; merge offers an item to the kept ones in the order of their keys until one accepts. Side effects that do not change the closures' results do not change what adapters and reducers return.", "quantifier": "every closure with side effects, every chain of adapters and reducers, every list of items", "why_tests_cant": "arbitrary user closures and inputs", "anchors": ["matchit/src/generator/adapter.rs: Adapter, Filter, Map", "matchit/src/generator/groupby.rs: GroupBy, Merge", "matchit/src/generator/reducer.rs: Reducer, Split, Fork, Fold"]}
{"id": "C113", "title": "The generator takes linear time", "statement": "The number of closure calls, of reducers made and of items copied by adapters and reducers grows linearly with the number of items.", "quantifier": "every chain of adapters and reducers, every list of items", "why_tests_cant": "worst cases over all inputs", "anchors": ["matchit/src/generator/groupby.rs: Merge", "matchit/src/generator/reducer.rs: Fold, Split", "matchit/src/generator/adapter.rs: Adapter::collect"]}
{"id": "C114", "title": "Bounded nesting of calls", "statement": "Grepping, capturing and partitioning nest a bounded number of calls, whatever the input: they cannot exhaust the stack.", "quantifier": "every slice, every matcher, every offset, every number of parts", "why_tests_cant": "arbitrarily long inputs", "anchors": ["matchit/src/searchable/grepit.rs: GrepIterator::search", "matchit/src/searchable/grepit.rs: RegExMatcherIterator::capture", "matchit/src/lib.rs: contained_by"]}
{"id": "C115", "title": "Reading a mapped file that is being overwritten is safe", "statement": "If the bytes of a memory mapped file change while it is read (its length stays), iterating forwards, searching, searching backwards, reading contiguously and partitioning neither panic nor run for ever, and every message or part delivered lies within the mapping; sequential messages do not overlap, parts have no gaps.", "quantifier": "every sequence of answers to single reads, every length, every start", "why_tests_cant": "unboundedly many interleavings with a writer", "anchors": ["rapiddlt/src/dltbuffer.rs: DltBuffer::from_file (mmap)", "matchit/src/searchable/readfallbackit.rs: ReadFallbackIterator::next", "matchit/src/searchable/searchit.rs: SearchIterator::next", "matchit/src/searchable/searchit.rs: RevSearchIterator::next", "matchit/src/readit.rs: ReadIterator::next", "matchit/src/lib.rs: partition_from"]}
{"id": "C116", "title": "Grepping a mapped file that is being overwritten ends", "statement": "Grepping or capturing in a memory mapped file whose bytes change meanwhile does not panic, delivers places within the mapping and comes to an end.", "quantifier": "every sequence of answers to single reads, every matcher", "why_tests_cant": "unboundedly many interleavings with a writer", "anchors": ["matchit/src/searchable/grepit.rs: GrepIterator::search", "matchit/src/searchable/grepit.rs: GrepIterator::next", "matchit/src/searchable/grepit.rs: RegExMatcherIterator::next"]}
{"id": "C117", "title": "The part of a mapped file that does not change is read as it is", "statement": "If the first c bytes of a memory mapped file do not change, sequential iteration delivers first exactly the messages that end within them, whatever happens to the bytes behind; if nothing changes, every iterator does what it does on a slice.", "quantifier": "every file, every c, every sequence of answers about the other bytes", "why_tests_cant": "unboundedly many interleavings with a writer", "anchors": ["rapiddlt/src/dltbuffer.rs: DltBuffer", "matchit/src/searchable/readfallbackit.rs: ReadFallbackIterator::next"]}
{"id": "C118", "title": "Accessors of a message that is being overwritten", "statement": "On a message in a mapping whose bytes change, timestamp never panics, ecu_id does not panic if the message has 24 bytes, extended_header and payload do not if it has 32; what they return lies within the message behind its headers.", "quantifier": "every message place, every sequence of answers to single reads", "why_tests_cant": "unboundedly many interleavings with a writer", "anchors": ["rapiddlt/src/dlt_v1.rs: DltEntry::ecu_id", "rapiddlt/src/dlt_v1.rs: DltEntry::timestamp", "rapiddlt/src/dlt_v1.rs: DltEntry::extended_header", "rapiddlt/src/dlt_v1.rs: DltEntry::payload"]}
{"id": "C119", "title": "Signals do not disturb ripdlt's output", "statement": "However many calls of write(2) are interrupted by a signal, if not for ever, ripdlt writes and ends as if they had not been.", "quantifier": "every file system, argument list and sequence of answers of write(2) among which are interruptions", "why_tests_cant": "unboundedly many places for signals", "anchors": ["ripdlt/src/main.rs: main", "ripdlt/src/main.rs: println! in each command"]}
{"id": "C120", "title": "Signals do not disturb dd_dlt's output", "statement": "However many calls of write(2) are interrupted by a signal, if not for ever, dd_dlt writes and ends as if they had not been.", "quantifier": "every argument list, every input, every sequence of answers of write(2) among which are interruptions", "why_tests_cant": "unboundedly many places for signals", "anchors": ["dd_dlt/src/main.rs: main", "dd_dlt/src/main.rs: handle.write in the loop of main"]}
{"id": "C121", "title": "Reading a mapped file that is truncated", "statement": "If bytes of a memory mapped file become unreadable (SIGBUS) while it is read, nothing else goes wrong: no byte outside of the mapping is ever read, what was delivered before is a beginning of what would have been delivered, and the messages that stand back to back at the start of the file with their headers in the part that remains are delivered.", "quantifier": "every sequence of answers to single reads, every set of unreadable bytes at every time", "why_tests_cant": "unboundedly many interleavings with a process that truncates", "anchors": ["rapiddlt/src/dltbuffer.rs: DltBuffer::from_file (mmap)", "matchit/src/searchable/readfallbackit.rs: ReadFallbackIterator::next", "matchit/src/searchable/searchit.rs: SearchIterator::next", "matchit/src/readit.rs: ReadIterator::next", "rapiddlt/src/dlt_v1.rs: DltEntry::try_read"]}
{"id": "C122", "title": "Iterating does not read payloads", "statement": "Iterating over a file of messages that stand back to back reads the four bytes of each marker and the two bytes of each length field and no others; payload and extended_header read the header type byte only, ecu_id and timestamp also the bytes of header fields.", "quantifier": "every file of messages back to back, every set of readable bytes that contains these", "why_tests_cant": "a test cannot see which bytes are read", "anchors": ["matchit/src/searchable/readfallbackit.rs: ReadFallbackIterator::next", "rapiddlt/src/dlt_v1.rs: DltEntry::try_read", "rapiddlt/src/dlt_v1.rs: DltEntry::payload", "rapiddlt/src/dlt_v1.rs: DltEntry::timestamp"]}
{"id": "C123", "title": "Commands on a mapped file that is overwritten", "statement": "While another process overwrites the mapped file a command works on, the command ends with a result and does not panic, and it counts no more messages than fit into the file.", "quantifier": "every command, every file size, every answer to every single read of the mapping", "why_tests_cant": "unboundedly many interleavings with the writing process", "anchors": ["test_matchit/src/lib.rs: count, count_hello_world, lifecycle_iter, histogram_*, *_splitit, multithreaded", "matchit/src/searchable/readfallbackit.rs: ReadFallbackIterator::next", "matchit/src/searchable/grepit.rs: GrepIterator::next", "rapiddlt/src/dlt_v1.rs: DltEntry::timestamp"]}
{"id": "C124", "title": "Adapters may take turns with the iterator", "statement": "If the mapped file does not change, iterator, adapters and closures that take turns and read the mapping again and again have the effect of the closures applied to the collected sequence of messages.", "quantifier": "every file, every command, every schedule of the workers", "why_tests_cant": "the sequence of reads is unbounded", "anchors": ["test_matchit/src/lib.rs: all commands", "matchit/src/generator/generator.rs: Adaptable", "matchit/src/searchable/readfallbackit.rs: ReadFallbackIterator::next"]}
{"id": "C125", "title": "Side effects when an adapter is pulled", "statement": "Closures with side effects see the same items in the same order whether an adapter is pulled like an iterator or pushed in front of a reducer: result, panics and all effects are the same, and one comes to an end exactly if the other does. The iterator underneath is asked once per item, once at its end, and once more for every item the adapter had kept back.", "quantifier": "every adapter that does not ask to stop (all of the library do not), every reducer, every iterator that stays at its end, every effect", "why_tests_cant": "the effects and the items are arbitrary", "anchors": ["matchit/src/fromgenerator.rs: FromAdaptFn::next, split", "matchit/src/generator/adapter.rs: AdaptFnTrait, Adapter", "matchit/src/generator/groupby.rs: GroupBy", "matchit/src/generator/reducer.rs: Reducer"]}
{"id": "C126", "title": "Parallel pattern counts equal the sequential ones", "statement": "par_count_hello_world_raw and par_count_hello_world_grepit print the number their sequential counterparts print for the whole file.", "quantifier": "every file, every number of cores, every schedule", "why_tests_cant": "where the borders fall depends on the whole content", "anchors": ["matchit/src/lib.rs: multithreaded, count_hello_world_raw, count_hello_world_grepit", "matchit/src/searchable/grepit.rs: partition_from"]}
{"id": "C127", "title": "par_iter counts the long periods of the file", "statement": "The numbers par_iter prints for the partitions add up to the number of periods of at least half an hour that iter prints.", "quantifier": "every file, every number of cores", "why_tests_cant": "a border can fall anywhere in a period", "anchors": ["matchit/src/lib.rs: par_iter, iter", "matchit/src/searchable/grepit.rs: partition_from", "matchit/src/generator/groupby.rs: GroupBy"]}
{"id": "C128", "title": "dd_dlt passes on what it reads while its input is open", "statement": "While its input stays open, what dd_dlt has written is a beginning of its later output, lacks at most 1024 bytes of what it would write if the input ended now, and lacks nothing if the last payload ends with a line feed or has 1024 bytes or more and no line feed; a reader of its output sees exactly the complete messages of that. On an endless input a release build goes on for ever and its output exceeds every bound.", "quantifier": "every input so far, every continuation, every argument list, every endless input", "why_tests_cant": "what is in the buffer depends on the whole history of writes", "anchors": ["dd_dlt/src/main.rs: main"]}
{"id": "C129", "title": "Reports stay short", "statement": "However large the file, histogram_message_size and histogram_payload_size print at most 65532 rows and two more lines, and r rows only for files of at least r*(r+39)/2 bytes; histogram_message_type prints at most 22 rows below its heading; split_timestamp one line per ECU of the file below its heading, split_lifecycles at most that; all tables of a report together have at most one entry for ten bytes of the file, and three more.", "quantifier": "every file, every machine, every sequential command without pattern search", "why_tests_cant": "the bounds are reached only by files of many different sizes, ECUs or types", "anchors": ["ripdlt/src/main.rs: main, histogram_message, histogram_payload, mstp_info_histogram, timestamp_splitit, lifecycle_splitit"]}
{"id": "C130", "title": "The unchanging part of a mapped file is searched and partitioned as it is", "statement": "If the first c bytes of a mapped file do not change while other bytes do, iterating, searching and reading contiguously deliver first exactly the messages whose 20 header bytes lie in those c bytes, as for the frozen file; partitioning begins with the same parts, as long as a part's start plus length/num plus 20 is at most c; count counts at least those messages and at most length/20.", "quantifier": "every history of a mapped file, every unchanging prefix, every number of parts, every fuel-free execution", "why_tests_cant": "the rest of the file may change between any two reads", "anchors": ["matchit/src/searchable/searchit.rs: SearchIterator::next", "matchit/src/readit.rs: ReadIterator::next", "matchit/src/searchable/readfallbackit.rs: ReadFallbackIterator::next", "matchit/src/lib.rs: partition_from, contained_by"]}
{"id": "C131", "title": "A file truncated meanwhile is searched, grepped and partitioned as far as it can be read", "statement": "If some bytes of a mapped file cannot be read (the file was truncated behind the mapping), searching backwards, grepping and partitioning either do exactly what they do if everything can be read, or the process is killed after delivering a beginning of it; no byte outside of the mapping is read; searching backwards from an offset needs no byte at offset+16 or behind.", "quantifier": "every mapping, every set of unreadable bytes that may change at every read, every offset, pattern and number of parts", "why_tests_cant": "which byte is touched when depends on the history and on how far the search routines look ahead", "anchors": ["matchit/src/searchable/searchit.rs: RevSearchIterator::next", "matchit/src/searchable/grepit.rs: GrepIterator::next", "matchit/src/lib.rs: partition_from, contained_by"]}
{"id": "C132", "title": "Between two pipes", "statement": "What dd_dlt does while its standard input may still be open and its output calls may be interrupted, taken in part or fail depends on the bytes delivered and on whether the input has ended, not on pieces, interruptions or the way it ends; as long as it waits, what has arrived is a beginning of everything that follows; if the input ends then, it succeeds after at most 1024 further bytes; if it has ended while the input is open, what is still delivered does not matter, and it was the number of arguments, a failed write or a panic; it never gets stuck.", "quantifier": "every sequence of answers of read(2) with an open or closed end, every continuation, every fair sequence of answers of write(2)", "why_tests_cant": "schedules of two peers and signals on both sides; a test has one", "anchors": ["dd_dlt/src/main.rs: main"]}
{"id": "C133", "title": "The same reports on 32-bit machines", "statement": "On a machine with words of 32 bits ripdlt prints the same reports as on one with words of 64 bits.", "quantifier": "every command, every file a slice can hold there, every number of cores, every scheduling, every regular expression engine, both builds", "why_tests_cant": "the program is only ever built for the developer's machine; the difference needs two messages 136 years apart", "anchors": ["ripdlt/src/main.rs: main", "ripdlt/src/main.rs: continuous_timestamp_histogram, par_continuous_timestamp_histogram"]}
{"id": "C134", "title": "A truncated file has no wrong report", "statement": "If a file is truncated (or its device fails) while a command of ripdlt reads it mapped, the process is killed or prints exactly the report of the complete file; it never prints a report of a part. If every byte of the file can be read it is not killed, so the commands read nothing but the file. What it prints does not depend on bytes that cannot be read. Counting messages one behind the other needs of each the marker and the length field only, and is killed if one of these cannot be read.", "quantifier": "every command, every file, every set of bytes that cannot be read and every moment at which that begins, every length to which memmem and the regular expression engine look ahead, every number of cores and scheduling", "why_tests_cant": "SIGBUS kills the test process, and the moment of the truncation cannot be chosen", "anchors": ["ripdlt/src/main.rs: main", "ripdlt/src/main.rs: all commands", "rapiddlt/src/dltbuffer.rs: DLTBuffer::map_dlt_file"]}
{"id": "C135", "title": "What ripdlt prints before SIGBUS kills it", "statement": "If ripdlt is started with mmap and the file is truncated (or its device fails, or it is changed) while ripdlt runs, then it either prints and ends exactly as it does if everything can be read (with an unchanged file: exactly what it prints for the complete file), or it is killed, and of its lines there are the arguments and at most the lines with which the command begins (a heading, the number of slices): what is on standard output is the beginning of the full text and no figure in it is a result. Only par_iter may have printed results, and these are the results of complete parts, as on the complete file. If every byte of the file can be read it is not killed. A file that is read instead of mapped is not affected.", "quantifier": "every command line and file, every machine (cores, scheduling, order in which the workers print), every set of bytes that cannot be read and every moment at which that begins, in the main thread and in each worker", "why_tests_cant": "SIGBUS kills the test process, and the moment of the truncation cannot be chosen", "anchors": ["ripdlt/src/main.rs: main", "ripdlt/src/main.rs: multithreaded", "ripdlt/src/main.rs: lifecycle_iter", "rapiddlt/src/dltbuffer.rs: DLTBuffer::map_dlt_file"]}
{"id": "C136", "title": "Which bytes of a mapped file are needed", "statement": "ripdlt looks at no byte of a message that it does not need. Each field that a command uses (seconds and ECU of the storage header, the bits of the header type, length, timestamp, ECU id, message type) can be read if and only if its own bytes, and for optional fields the header type byte, can: if one of these is lost the process is killed, and no other byte matters. Hence all commands but those that look for Hello World report (or panic) as on the whole file, and a run with one of the sequential ones prints the text it prints for the complete file, even if no byte of any payload can be read (messages one behind the other, headers readable).", "quantifier": "every file content, every message place, every set of bytes that cannot be read, every log of messages without bytes in between, with any number of messages of any size", "why_tests_cant": "tests do not make single bytes of a mapping unreadable, and cannot do so for every layout", "anchors": ["ripdlt/src/main.rs: count", "ripdlt/src/main.rs: continuous_timestamp_histogram", "ripdlt/src/main.rs: mstp_info_histogram", "rapiddlt/src/dlt_v1.rs: DltEntry::timestamp", "rapiddlt/src/dlt_v1.rs: DltEntry::extended_header"]}
{"id": "C137", "title": "Capturing and grepping in a truncated mapping", "statement": "If a mapped file is truncated while a pattern's group 1 is being captured, the process is killed or captures exactly what it captures from the whole file; what was captured before the kill is a beginning of that. No byte outside of the mapping is read. If the first c bytes can be read, the regular expression engine looks at none behind them and every match starts at least 16 bytes in front of c, neither capturing nor grepping is ever killed; and bytes that are not read do not influence the result.", "quantifier": "every file history, every set of bytes that can be read at any time, every regular expression engine and every set of bytes it looks at, every start of the search", "why_tests_cant": "tests do not make single bytes of a mapping unreadable, and cannot do so for every pattern and layout", "anchors": ["matchit/src/searchable/grepit.rs: RegExMatcherIterator", "matchit/src/searchable/grepit.rs: GrepIterator", "matchit/src/searchable/searchit.rs: RevSearchIterator"]}
{"id": "C138", "title": "How many messages are captured", "statement": "The iterator that captures group 1 passes over nearly all matching messages of a large file: if messages have at most L bytes, it delivers at most L + 2 + log2(n) captures from n bytes, whatever the pattern and wherever it starts (at most 65553 + log2(n) for any file), because it goes on at the start of the message plus the end of the group, counted from the start of the file. For every r there are files of matching messages, all of which grep delivers, of which it delivers less than one in r.", "quantifier": "every file content shorter than 2^64 - 1 bytes, every pattern and leftmost engine, every bound on the length of messages, every start of the search", "why_tests_cant": "tests capture from the first messages of a file; the growth of the gap shows in files of every size only by induction", "anchors": ["matchit/src/searchable/grepit.rs: RegExMatcherIterator::next"]}
{"id": "C139", "title": "Work of contiguous and capturing iteration", "statement": "Contiguous iteration takes one step for each message and one more, and searches no byte. Capturing with patterns whose matches and groups are not empty takes at most as many steps as the slice has bytes, and one; each passes over at most the slice, and over at most L + 3 bytes in a file of messages of at most L bytes; on slices without markers the product is attained but for a constant factor.", "quantifier": "every byte content, every pattern and leftmost engine, every bound on the length of messages", "why_tests_cant": "run time is not an assertion, and measurements cover single files", "anchors": ["matchit/src/readit.rs: ReadIterator::next", "matchit/src/searchable/grepit.rs: RegExMatcherIterator::next", "matchit/src/searchable/grepit.rs: RegExMatcherIterator::capture"]}
{"id": "C140", "title": "What one damaged message costs", "statement": "Let the bytes of one message in a log be overwritten by any bytes d, of any length, and let no marker occur in d or in the later messages but at their starts. If d no longer begins with the marker, reading and searching deliver exactly the other messages. If a message reads at the damaged place, it is delivered with the others, except those that begin before its end. If the marker is there but no message reads, searching delivers exactly the other messages, and reading only the earlier ones. Damage that leaves the marker and a fitting length changes no other message.", "quantifier": "every log of valid messages, every damaged message, every byte string in its place", "why_tests_cant": "tests damage single files in single ways", "anchors": ["matchit/src/searchable/readfallbackit.rs: ReadFallbackIterator::next", "matchit/src/searchable/searchit.rs: SearchIterator::next", "rapiddlt/src/dlt_v1.rs: DltEntry::try_read"]}
{"id": "C141", "title": "Commands see only the messages", "statement": "If reading delivers messages of the same bytes from two files, at whatever offsets, then each of the eleven commands that read the file on one core prints the same text for both, or crashes for both after the same text. So garbage in a file is not seen by them; and for a log with one damaged message they print what they print for the log without that message, for the log with the message that stands there now and without those it reaches into, or for the log up to it.", "quantifier": "every two files with the same messages, every damaged message, every command that reads on one core", "why_tests_cant": "tests compare few files", "anchors": ["ripdlt/src/main.rs: main, count, count_hello_world, histogram_message, histogram_payload, mstp_info_histogram, continuous_timestamp_histogram, timestamp_splitit, lifecycle_histogram, lifecycle_splitit, lifecycle_iter, lifecycle_itertools", "rapiddlt/src/dlt_v1.rs: dltit"]}
