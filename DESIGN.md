# Formal model of pgraubner/rapiddlt in Rocq (Coq 8.16.1)

## 1. Shape of the development

Everything is in `rocq/theories/`, in this order of dependency. Only Coq's standard library is used.

**Model** (every definition cites the lines of /repo it models and says where it simplifies)

| file | models |
|---|---|
| `Base.v` | bytes, fixed-width integers, outcomes (`Ret` / `Panic` / `Fuel`), slicing that panics out of range |
| `DltModel.v` | rapiddlt/src/dlt_v1.rs: headers, parser, accessors, message types |
| `MatchModel.v` | matchit/src/lib.rs, readit.rs, searchable/*.rs: traits (a record of functions), all iterators, `contained_by`, `partition_from` |
| `GenModel.v` | matchit/src/generator/*.rs and fromgenerator.rs: adapters, reducers, BTreeMap |
| `PullModel.v` | fromgenerator.rs over an arbitrary iterator |
| `WordModel.v` | the iterators (also the backward one), `contained_by` and `partition_from` with machine arithmetic, words of 32 or 64 bits |
| `ToolsWord.v` | ripdlt's commands, reducers and reductions with machine arithmetic: `usize` of 32 or 64 bits, `u32` |
| `ToolsModel.v` | the commands of ripdlt/src/main.rs; rapiddlt/src/dltbuffer.rs |
| `MainModel.v` | `main` of ripdlt: arguments, loading, dispatch, what is printed, as structured lines |
| `PrintModel.v` | the same as characters on standard output, including what has appeared at a panic |
| `DdModel.v` | dd_dlt/src/main.rs including std's LineWriter around standard output |
| `DdOs.v` | the same with an operating system that takes writes in part or not at all |
| `InModel.v` | read(2) as a history of events, std's BufReader, `read_exact`, `read_to_end`; dd_dlt as a process (arguments, exit status, standard error) and `read_file` on top |
| `CostModel.v` | the iterators, contained_by and partition_from of MatchModel.v with the number of calls and of bytes searched |
| `CostMore.v` | the same for contiguous iteration and capturing |
| `TraceModel.v` | the generator of GenModel.v with closures that have side effects |
| `MappedModel.v` | iterators, grep, contained_by, partition_from and the accessors over a mapped file that is being overwritten |
| `SigModel.v` | standard output as in DdOs.v and RipOs.v with calls of write(2) interrupted by signals (EINTR), dd_dlt and ripdlt on it |
| `TouchModel.v` | sequential, contiguous and searching iteration and the accessors over a mapped file of which bytes can become unreadable |
| `TouchMore.v` | backward search, grep and partitioning over such a file |
| `TouchCapture.v` | capturing over such a file |
| `DdRun.v` | dd_dlt as a process between an input that may still be open and an output with signals, partial and failing writes |
| `TouchCmd.v` | ripdlt/src/main.rs: the commands of MappedCmd.v on a mapped file of which some bytes cannot be read (SIGBUS) |
| `TouchRun.v` | ripdlt/src/main.rs: `main` with the method mmap, the text on standard output until a SIGBUS |
| `MappedCmd.v` | ripdlt's commands over a mapped file that is being overwritten, iterator and closures taking turns |
| `PullTrace.v` | FromAdaptFn, the loop of `split` and std's filter and map with closures that have side effects |
| `DdLive.v` | dd_dlt while its input is open: what has arrived when it waits for more |
| `RipOs.v` | the same for ripdlt: `main` as a script of lines, std's `println!` and `write_all` |
| `TestModel.v` | the type test_matchit/src/lib.rs tests matchit with |
| `HelloRegex.v` | a reference engine for ripdlt's one pattern (shows that the hypotheses on the engine can be met) |
| `ModelTests.v` | the repository's unit tests, run on the model |

**Specification** (independent vocabulary; does not mention the model's functions except the result
types they return): `Spec.v` (positions, messages as byte strings, layouts, runs, periods, leftmost
matching), `CommandSpec.v` (what commands print), `ReadSpec.v` (readings, greedy selections, owners,
cuts), `StopSpec.v`, `GenericSpec.v`, `PrintSpec.v` (numerals, texts), `OsSpec.v`, `RipOsSpec.v`,
`StreamSpec.v`, `WordSpec.v`, `EditSpec.v`, `PipeSpec.v`, `InSpec.v`, `CostSpec.v`, `LazySpec.v`, `LiveSpec.v`,
`StepSpec.v`, `TraceSpec.v`, `NestSpec.v`, `MappedSpec.v`, `SigSpec.v`, `TouchSpec.v`,
`MappedCmdSpec.v`, `PullTraceSpec.v`, `RunSpec.v`, `Words32Spec.v`, `TouchCmdSpec.v`, `TouchRunSpec.v`, `TouchHeadSpec.v`.

**Proofs**: `*Facts.v`, `Grep*.v`, `GenericCut.v`, `PrintRead.v`, `PrintCrash.v`, `Samples.v` (concrete
messages for examples).

**Property theorems**: `P_*.v`. Each theorem has `Print Assumptions` beneath, and an `Example` that
shows a concrete case meeting its hypotheses.

Conventions. A Rust panic (index out of range, `unwrap` of `None`, division by zero, checked
overflow) is the value `Panic`; a loop or recursion that is not structural takes explicit fuel and
returns `Fuel` when exhausted, so "terminates" is "with this much fuel the result is not `Fuel`",
with the sufficient fuel stated, and "runs forever" is "`Fuel` for every fuel". A `&mut self` method
returns the new state. Slices are lists of bytes. `usize` is `nat` where only in-range values can
occur (a slice never exceeds isize::MAX bytes) and `N` with an explicit 2^64-1 where the code uses
`usize::MAX` as a value.

A property that is false of the code is kept in properties.jsonl with its natural statement, is
recorded by a theorem `..._refuted` (a witness, where possible a whole class of witnesses) and has
theorems `..._partial` with what does hold. Such claims have status "partial" in MANIFEST.json, with
a note. Most of them are complemented by a later property that states exactly what the code does
(C59-C74) and is proved without restriction.

## 2. Per property: what is modelled, how it is proved

C01 parser with panicking slices; shown equal to a total function. (P_Parse)
C02 acceptance by length / marker / length field, fields by position. (P_Parse)
C03 locality, from C02. (P_Parse)
C04 encode / decode of headers, endian arithmetic. (P_Parse)
C05 sweep over all bytes lifted by `forallb_forall`. (P_Parse)
C06 layout builder in Spec.v; accessors computed on it. (P_Parse)
C07 exact panic condition of each accessor; refuted by a witness. (P_Parse)
C08, C09 sweep over all bytes; the constructor's code layout is an oracle, proved for every oracle; refuted. (P_Parse)
C10 refuted by a 65551-byte message; true bounds. (P_Parse)
C11-C17 ReadFallbackIterator over an abstract lawful reader, then the DLT instance; C16 refuted. (P_Iter)
C18-C22 search iterators characterised by marker positions; C21 refuted for every message-free slice. (P_Iter)
C23 ReadIterator, induction on the rest. (P_Iter)
C24-C28 grep iterators with the regular expression engine as an oracle; hypotheses on it are explicit. (P_Grep)
C29-C33 contained_by by strong induction on the queried position; invariant of the partition loop. (P_Partition)
C34 sums over partitions, arbitrary reduction trees for rayon. (P_Partition)
C35-C41 chains of adapters: a denotation as list functions; induction over the pushes. (P_Gen, P_Tools, P_Stop)
C42 reduction trees, commutative key-wise sums. (P_Tools)
C43 sums of histograms. (P_Tools)
C44, C45, C50, C52 ripdlt's commands as compositions; refuted by files. (P_Commands, P_Grep)
C46-C48, C55, C56, C58 dd_dlt as a function from stdin and arguments to stdout, loop invariant. (P_DD)
C49, C53, C54 file system as an oracle (sequence of read results); dispatch on arguments. (P_Main)
C51 lower bound by a family of files, upper bound by one nested call per four bytes. (P_Iter, P_Generic)
C57 appending: decomposition of the concatenation. (P_Iter)
C59-C64 every ripdlt command equal to a closed description over the list of entries. (P_Exact)
C65-C68, C70 unique relational descriptions of reading, searching, grep, capture, partitioning. (P_Read)
C69, C72, C73 groupby and merge for arbitrary functions; unique relational descriptions. (P_Read)
C71, C74 closed formulas for the accessors and for dd_dlt's output. (P_Read)
C75 adapters as arbitrary state machines that may answer Break. (P_Stop)
C76-C79 the iterators over any type that satisfies the stated laws; C79 refuted by a self-overlapping marker. (P_Generic)
C80-C83 output as characters: refinement of MainModel, injectivity by parsing numerals back, panic points, totality. (P_Print)
C84 `pull` over any iterator; streams that stay at their end; refuted for the reverse iterator. (P_Pull)
C85, C86 write(2) as an oracle sequence; prefix invariant of the LineWriter; refuted by short writes, full disks and closed outputs. (P_DdOs)
C87, C88 the iterators with machine words, refinement to the unbounded model; wrap-around computed exactly. (P_Word)
C89, C92 cutting: the chain of found messages is a prefix; greedy selection up to the cut; C92 refuted by a nested message. (P_Edit)
C90 overwriting behind the headers: induction along the chain of messages. (P_Edit)
C91 concatenation (C57) and the closed descriptions of the commands (C59-C61). (P_Edit)
C93 ripdlt as a script of lines over the write(2) oracle; invariant: arrived and buffered text is a beginning; refuted for closed outputs and workers that go on. (P_RipOs)
C94 ripdlt's commands with machine words, refinement to the unbounded model: reducers that agree for a bounded number of steps, and weights of histograms for the reductions. (P_ToolsWord)
C95 appended runs: entries with counting time stamps; runs, periods and rows of their concatenation; the closed descriptions of the commands (C59-C63). (P_Pipe)
C96 levels of dd_dlt: one level and any beginning of its output, then induction over the levels. (P_Pipe)
C97, C98 a reader holds exactly the bytes still to be delivered: invariant of read, fill_buf and read_exact; induction over the rounds. (P_In)
C99 the counter at the end of the loop, for every output; numerals from C80. (P_In)
C100 the planned cuts fall back to the start of the message around them: closed form by induction over the pieces; the rest is arithmetic. (P_Uniform)
C101, C102, C104 the functions with their cost return what the plain ones return (erasure); bounds by induction over the iterators with a potential; lower bounds on files of zeros. (P_Cost)
C103 upper bound: messages that do not overlap leave one candidate; in general the answers asked for double with every message of an overlapping chain; lower bound: induction over three overlapping messages at a time. (P_Cost)
C105 what is held back and what has arrived grows by a beginning of each buffer passed to write, for any answers of write(2). (P_DdOs)
C106 induction over the exact description of the pieces (C70); the outermost messages of a file are its own. (P_Balance)
C107 induction over the items an adapter takes; the state of a chain is the pair of the states, groupby's is described by its pending run. (P_Lazy)
C108 what read(2) has delivered is a beginning of the file at that moment, by induction over its answers; then C98 and C89. (P_Live)
C109 the closed descriptions of the commands (C59-C63) determine the tables, and are invariant under permutations of the entries, or of entries of different ECUs. (P_Order)
C110 every call delivers a message with its bytes (C12, C20, C24, C66); reading back the concatenation of messages is C13. (P_Step)
C111 the offset after a call is the end of the delivered message, so the state is determined by where it was found; clean files by induction over their messages. (P_Step)
C112 the generator with closures that change a world; erasure to GenModel.v structure by structure; logs of calls by induction over the items. (P_Trace)
C113 the same with counters: exact numbers of copies, made reducers and comparisons. (P_Trace)
C114 the fuel of a recursive function is the number of calls that may be active at once: exact counts from an inductive count of matches passed over, and a file of overlapping messages for the lower bound on contained_by. (P_Nest)
C34, C45, C52 on files with losses: the parts concatenate to a front part of the file cut between messages, whose entries are those of the parts. (P_Loss)
C115 the iterators and the partitioner over an oracle that answers every read on its own (MappedModel.v); invariants on offsets by induction on the fuel. (P_Mapped)
C116 the same for grep: no panic, places within the mapping, each call returns; refuted: an oracle that shows a shorter length on every third reading makes it deliver one message for ever. (P_Mapped)
C117 induction on the specification of the sequential iterator (chain) with an oracle that is right about the first c bytes; equality with MatchModel.v on an oracle that never changes. (P_Mapped)
C118 the accessors over the same oracle, which may show a different header type byte at every test of a flag. (P_Mapped)
C119 the run with signals (SigModel.v) is simulated by the run of RipOs.v on the history without them. (P_Sig)
C120 the same with DdOs.v; an interrupted call that is not repeated acts like a failing one; refuted for a payload with a newline. (P_Sig)
C121 MappedModel.v once more with the bytes each read touches and a predicate that says which can be read (TouchModel.v); simulation: killed or the same. (P_Touch)
C122 messages back to back are delivered although only marker and length bytes can be read; files that agree on the bytes read give the same messages; induction on the specification of the sequential iterator. (P_Touch)
C123 the commands as loops that call the iterators of MappedModel.v and read the mapping in every closure (MappedCmd.v); invariants on offsets and counters, witnesses for the panics. (P_MappedCmd)
C124 simulation between these loops on an unchanging file and ToolsModel.v's folds over collected messages. (P_MappedCmd)
C125 FromAdaptFn over closures and iterators that change a world (PullTrace.v); both loops simulate each other, by induction on their fuels. (P_PullTrace)
C126 Induction over the slices: occurrences inside slices, at most one crosses a border; grep splits at a border of a clean file. Refuted in general. (P_ParCount)
C127 Joining the maximal runs of two lists changes the number of long runs by at most one. Refuted as an equation. (P_ParCount)
C128 The buffer of standard output never holds more than 1024 bytes and what was given to the operating system only grows; induction over the loop. (DdLive.v, P_DdLive)
C129 From the exact tables (C60-C63): rows are the different values; sizes are between 20 and 65551 and entries do not overlap, so their sum is at most the file. (P_Short)
C130 The mapped runs agree with a frozen file step by step as long as every read lies in the unchanging prefix. (SteadyParts, P_Steady)
C131 As C121, by simulation; and an invariant that what is found has its headers in the mapping. (TouchMore, TouchMoreFacts, P_TouchMore)
C132 The process between an input that may be open and a disturbed output; the reader of the input refined to the bytes there are, then monotonicity in patience and in the input. (DdRun, RunSpec, DdRunFacts, P_DdRun)
C133 ripdlt with words of 32 bits: the refinement of C94 is over the width of a word; what is left are the rows of two commands, whose upper bound may be 2^32. False as stated: refuted, with the exact report and the files on which it is the same. (P_Words32)
C134 ripdlt's commands on a mapped file of which some bytes cannot be read (TouchCmd.v): the commands are built from reads with combinators that respect "the same, or killed", so the relation that C121 and C131 prove for the reads and iterators holds for the commands; that every byte of the mapping can be read is enough (TouchCmdInside.v: results satisfy an invariant, "the item lies in the mapping", next to being the same); counting exactly, from the bytes read for each delivered message. (P_TouchCmd)
C135 the text of a whole run of ripdlt on a mapped file that is truncated or changed meanwhile (TouchRun.v): C134 for the computations, then "the same, or killed after a beginning of the first lines" is preserved by each step of main; on an unchanged file the run with everything readable is that of PrintModel.v (C124, and C83's proof that nothing runs for ever); for par_iter the lines are those of workers that were not killed. (P_TouchRun)
C136 which bytes the reads of TouchCmd.v need: each accessor-like read is computed for every set of readable bytes (needs, TouchHeadFacts.v); the commands on a log of which only headers are readable by the invariant "the iterator stands at a message of the log" pushed through adapters and reducers as in C134_readable (TouchHeadRun.v), and with C135_whole the text of a whole run. (P_TouchHead, P_TouchHeadMain)
C137 captures from a mapping of which some bytes cannot be read: TouchCapture.v follows m_capture; simulation as for C131 and C121, same bytes - same run as for C122; what is enough to survive by pushing "items lie in front of the hole" through the search. (P_TouchCapture)
C138 each capture at least doubles the distance from L (C28_capture_sound: the message starts at most L bytes in front of the group's end); induction over the run. The files that show the loss are copies of one message, grep's side by C27_literal_exact. (P_Thin)
C139 as C101 and C104: costs of the two remaining iterators, by induction over the run; erasing the costs gives the iterators of MatchModel.v. (CostMore, P_CostMore)
C140 from C14, C16 and the greedy characterisation C66: the damaged file is split into messages, one stretch without a marker, and messages; induction over the later messages for those the damaged one reaches into. (P_Damage)
C141 from the exact results C59 to C63: what is read determines the tables and rows, whose uniqueness makes the text a function of the messages; with C14 and C140 for garbage and damage. (P_Seen)

## 3. Trusted base

* Coq 8.16.1's kernel (type checker and `vm_compute`'s virtual machine, which `Example`s and sweeps
  over finite domains use).
* Axioms: none. `Print Assumptions` beneath every property theorem prints "Closed under the global
  context". `coqchk` lists seven axioms of `Coq.ssr.ssrunder` (standard library); they are in modules
  loaded by `lia` (`zify`), no theorem depends on them.
* No functors, module types, plugins, admitted goals or switched off checks.
* That the model says what the Rust code does. Each definition cites its lines; section 5 says how
  this was checked.
* The specification files listed in section 1.

## 4. What is modelled, what is not

Modelled, function by function:

* rapiddlt/src/dlt_v1.rs: `DltHTyp`, `DltStandardHeader`, `DltExtendedHeader`, `DltStorageHeader`,
  `DltEntry` and `DltStorageEntry` with all readers, accessors and offsets, `MessageType` and its
  codecs. zerocopy's `ref_from_prefix` / `AsBytes` by their documented meaning (bytes in order of
  declaration; the structs are `repr(C, packed)` or consist of byte arrays).
* rapiddlt/src/dltbuffer.rs: `mmap_file`, `read_file`, `as_slice`, `len`, `partition`. The file
  system is an oracle: whether the file opens, its content, whether it maps, whether and where reading fails.
* matchit: all of lib.rs, readit.rs, searchable/*.rs, fromgenerator.rs, generator/*.rs.
* ripdlt/src/main.rs: all commands and `main`.
* dd_dlt/src/main.rs: all.
* test_matchit/src/lib.rs: the readable type; its tests are in ModelTests.v.

Simplifications and oracles:

* memchr's `memmem` by its documented meaning (first / last / successive non-overlapping occurrences).
* The regular expression engine is an oracle `find_at` / `captures_at`; the theorems say which
  property of leftmost matching they need. UTF-8 / Unicode mode plays no role (byte API).
* rayon: `par_iter().map().reduce()` is an arbitrary reduction tree over the partitions with arbitrary
  insertion of identities (`fair_sched`); lines printed by workers arrive in an arbitrary order.
  Threads share nothing mutable in this code. The number of cores is a parameter.
* Cost (CostModel.v, CostMore.v): calls of the iterators' and contained_by's functions, and the bytes `memmem` passes over up to the end of its
  match; what these functions do besides is constant time. The regular expression engine is not counted.
* ToolsModel.v applies the closures of a command to the collected sequence of messages; MappedCmd.v lets them take turns with
  the iterator, as the code does, and C124 shows that the results are the same.
* BTreeMap is a list sorted by the key order; HashMap is not used.
* Memory is unbounded and stack overflow is not modelled; the nesting depth of the recursive iterators is
  stated separately (C11, C21, C51).
* In MatchModel.v offsets are natural numbers. WordModel.v has the same functions with words of 32 or 64 bits and arithmetic
  that panics (debug) or wraps (release); C87 shows that both agree, C88 and C17 where they do not.
  Likewise ToolsModel.v and MainModel.v count and subtract with unbounded numbers, ToolsWord.v with machine words of either width (C94, C133).
* Slices are shorter than 2^63 bytes (Rust guarantees it); where a theorem needs that, it is a hypothesis.
* A mapped file that is overwritten by another process meanwhile is modelled for the iterators, grep, the partitioner and the
  accessors (MappedModel.v, C115-C118) and for ripdlt's commands (MappedCmd.v, C123, and with their output TouchRun.v, C135). It is assumed that the compiler reads memory as often and in the order in which the
  source does (the language makes no such promise for a slice that changes), and that memmem and the regular expression engine report
  positions within the slice they are given. A mapped file that is truncated (SIGBUS) is modelled for iterating, searching, grepping, capturing, partitioning and the accessors (TouchModel.v, TouchMore.v, TouchCapture.v: C121, C131, C137) and for the commands of ripdlt (TouchCmd.v: C134) and what a whole run prints (TouchRun.v: C135).
* In PrintModel.v and DdModel.v every write to standard output succeeds; in RipOs.v and DdOs.v it may fail or
  be taken in part. Writes interrupted by a signal are in SigModel.v only. How `println!` cuts a line into fragments
  is left open (any cut); so is which workers of par_iter still try to print after one could not. For dd_dlt both implementations of std's LineWriter that exist for
  partial writes are covered (`TakesSome` / `TakesNone`); the buffer of 1024 bytes is std's.
* In DdModel.v and DdOs.v dd_dlt's standard input delivers bytes and then ends; InModel.v has pieces, signals and errors, and
  is equal by C97. Likewise `read_file` in ToolsModel.v and C98. Inputs that have not ended (yet) are in DdLive.v (C128) and, with a disturbed output, in DdRun.v (C132).
* In MainModel.v a panic discards the lines printed before; PrintModel.v keeps them.
* Traits are records of functions; generic parameters are Coq type parameters. Closures are functions
  that may panic (`outcome`) but have no side effects; the code's closures have none, except the
  counters in ripdlt, which are modelled as state. TraceModel.v has closures with side effects (C112).
* Not modelled: license and build files, benchmarks, `Debug` formatting that no command prints,
  documentation examples.

## 5. How the model was checked against the code

* ModelTests.v runs the repository's own unit tests (dlt_v1.rs, test_matchit, generator/mod.rs) on the model.
* The model was extracted to OCaml (outside /verif, not part of the development) and run on the sample
  files of the repository. It reproduces its published results: 11696 entries for lc_ex002.dlt; for the
  concatenation of lc_ex002..006 (122478 entries) the histograms of message sizes, payload sizes and
  timestamps are exactly 1/800 of those BENCHMARKS.md shows for 4_4gb_concat.dlt; n copies give n - 1
  for `iter`; the histogram of lifecycles of one copy is what the one in BENCHMARKS.md says per copy; "Counter" is found 1323 and "Hello world" 1322 times in lc_ex003.dlt as the tests expect.
* seeded/LOG.jsonl: edits of the model as realistic bugs would change the program, the claims they
  break and the theorems that then fail.

## 6. Findings (theorems about the code as it is)

* The accessors panic on messages whose announced header fields do not fit (C07, C71); ripdlt's
  commands crash on files that hold one (C44, C59-C62, C82).
* The info mask drops bits 5 and 7: "warn" decodes as "fatal" (C08); encoding depends on the memory
  layout the compiler chooses (C09).
* `max_len` is 16 bytes too small for stored messages (C10); a partition can therefore cut a message
  (C32), and partitions can lose the end of a file (C33, C70): parallel counts are too low (C34, C52).
* Sequential reading ends at the first marker that cannot be read (C16, C65).
* RevSearchIterator must not be called after its end (C21), but groupby and merge do call it (C84).
* SearchIterator recurses once per unreadable marker (C51), and starts over when its offset overflows (C17, C88);
  ReadFallbackIterator panics for start offsets of 2^64 - 4 and above (C88).
* On a 32-bit machine histogram_timestamp and par_histogram_timestamp panic (debug) or print `4294967295-0 secs` (release)
  for a period from second 0 to second 2^32 - 1 (main.rs:342, :348; C133).
* grep does not end for patterns with empty matches (C25), matches header bytes, and misses messages whose payload
  contains a marker (C27, C50); the capture iterator passes over messages (C28), all but a logarithmic number of them (C138).
* groupby keeps an element that is not related to itself and drops others (C36, C69); merge can lose
  items with equal keys (C73).
* dd_dlt drops the rest of chunks whose last line feed is followed by 1024 or more bytes (C46, C74), does not end
  for payload size 0 (C47), writes wrong length fields above 65517 (C48), ignores short writes (C85), and
  reports success when its output was lost (C86); a signal during a write can end it with an error (C120). ripdlt does so only if standard output is not open (C93).
* read_file reports success after a read error (C49); an empty file can be read but not mapped (C54).
* Searching and grepping take quadratic time on garbage (C102, C104), and partitioning exponential time on overlapping
  messages: 3000 bytes per core keep the par_ commands busy for 2^50 calls (C103).
* collect copies the vector for every item, split makes a reducer for every item, merge compares all pairs of items (C113).
* Grepping, capturing and cutting recurse without bound (C114).
* On a mapped file that is overwritten meanwhile grep can deliver one message for ever (C116), and accessors can panic although
  the message announced no such field when it was read (C118); sequential iteration is safe (C115).
* Nine commands can panic on a mapped file that holds complete messages at every time, if it is overwritten meanwhile: closures read a field
  once more after it was checked (C123).
