# Formal model of tgeijten/xo: design

## 1. Approach

The C++ sources in `/repo/xo` are read as text and modelled, function by
function, as total computable Gallina functions.  Per component there are up to
four files in `rocq/theories`:

* `XModel.v`    - the model: definitions only, each citing file and lines of `/repo`;
* `XSpec.v`     - a small specification written without reference to the model's helpers;
* `XProofs.v`   - lemmas;
* `XTheorems.v` - the property theorems only, each closed by `exact lemma`, followed by
  `Print Assumptions`, with an `Example` that exhibits a non-trivial instance of its hypotheses.

Conventions (see `Base.v`):

* C++ outcomes are explicit: `Ok v` (normal return), `Throw` (a C++ exception,
  from `xo_error`, `xo_assert`, `std::out_of_range`, ...), `UB` (undefined behaviour: out-of-bounds
  access, missing return, unbounded recursion, signed overflow, shift by too much).
  Absence of `UB` is a theorem, not a convention.  Loops whose termination is in question get fuel, with a
  distinct out-of-fuel outcome that a theorem excludes (or whose reachability is the finding).
* `xo_assert` and `xo_error` throw (`assert.h` 6-36, the default configuration).
* `std::vector` is `list`; positions are `nat`.  `size_t` wrap-around is modelled
  only where the property is about it (`no_index`, hash, flag_set, octal decoding).
* Strings are lists of bytes (`N` below 256 or `ascii`); `char` signedness is explicit where it matters.
* `float`/`double` code is modelled over the real numbers `R` of the standard library, where rounding,
  overflow to infinity and NaN are out of scope; or, where the property is about rounding, with the standard library's
  `spec_float` or Flocq's binary32 numbers.  The comment at the top of each model says which.
* Clocks, file systems, user callbacks, `fnmatch`, `mkdir` etc. are parameters (Section variables, generalised
  when the section is closed), never axioms.
* Concurrency: small-step interleaving semantics; a lock acquisition is a step that is
  enabled only when the lock is available; the theorems quantify over all schedules.

When the full statement is false of the faithful model, the file contains a theorem
`..._refuted` with a concrete witness, and the strongest true variant found, named `..._partial`.

`seeded/LOG.jsonl` lists edits of the model that imitate bugs.  Lines with a `method` come from a script that makes one edit and
compiles the component again: `theorems_failed` are the theorems whose proofs use the first lemma that no longer compiles.
A proof that no longer compiles does not show that the statement became false, and these lines were not checked one by one
for edits that leave the behaviour as it is.  The other lines were made by hand.

## 2. Trusted base

* Coq 8.16.1's kernel (with its conversion test and `vm_compute`, used by some proofs and examples).
* Axioms: those reported by `Print Assumptions` beneath each theorem; section 5 lists them for every theorem.
  All come from the standard library: `ClassicalDedekindReals.sig_forall_dec`, `ClassicalDedekindReals.sig_not_dec`,
  `FunctionalExtensionality.functional_extensionality_dep` (these three through `Reals`) and
  `Classical_Prop.classic` (through Flocq's proofs).  The development adds none.
* The correspondence between the Gallina text and the C++ text, which is by inspection, guided by the line citations.
* The C++ standard library as specified (e.g. `std::lower_bound` returns the partition point of a partitioned range);
  where a standard or system function is a parameter, its contract is a hypothesis of the theorem.

## 3. Plan per property

The model column names the component in parentheses (files `XSpec.v`, `XModel.v`, `XProofs.v`, `XTheorems.v`).
Status *partial* means that the statement as listed in `properties.jsonl` is false of the code or is proved only with an added
condition; the manifest's note says which.

<!-- plan begin -->
| Id | Property | What is modelled | How it is proved | Status |
|----|----|----|----|----|
| C01 | flat_map behaves as a finite map | vector of pairs with binary-search lower_bound (`Box, Flat`) | refinement to a function from keys to values, induction over operation lists | proved |
| C02 | flat_set behaves as a finite set | flat_set as a sorted vector (`Flat`) | refinement to a set, induction over operation lists | proved |
| C03 | flat_map / flat_set built from an initializer list is a map / set | the initializer-list constructors (`Flat`) | witness against; induction for sorted lists | partial |
| C04 | sorted_vector is a sorted multiset | upper_bound insertion, removal of an equal run (`Flat`) | sortedness and multiset invariants by induction | proved |
| C05 | indexed_map keeps insertion order | association list with first-match lookup (`Assoc`) | refinement by induction | proved |
| C06 | indexed_set / proxy interning is a bijection with stable indices | value vector with an index map of bounded index type (`Assoc`) | invariant by induction; witness for exhaustion | proved |
| C07 | label_vector finds a label exactly at its current position | labels with an index map (`Assoc, Box`) | invariant for add-only histories; witness for relabelling | partial |
| C08 | storage reshaping never corrupts samples | row-major buffer as a list, in-place loops written as loops (`Box, Grid`) | index arithmetic, induction on the loops | proved |
| C09 | storage frame lookup by time returns the nearest frame | `find_frame_index` over the time column (`Frm, Grid`) | witness against; order reasoning for what holds | partial |
| C10 | table keeps cells when rows or columns are added | table with row and column labels (`Box, Grid`) | index arithmetic; witness for `resize` | partial |
| C11 | circular_deque is a deque | ring buffer as list with offsets (`Box, Ring`) | abstraction function to a list, refinement by induction over operations | partial |
| C12 | circular_buffer keeps the most recent frames | overwriting ring buffer (`Box, Ring`) | abstraction function to the last elements, induction over operations | proved |
| C13 | flag_set operations act on single bits | 64-bit `N` with bit operations (`Flag`) | extensionality of `N.testbit` | proved |
| C14 | prop_node: reading back what was set by query | rose tree with ordered labelled children (`Pn`) | structural induction | proved |
| C15 | prop_node: erase removes only its target | erasing from the tree (`Pn`) | structural induction | partial |
| C16 | prop_node: merge semantics | merging of trees (`Pn`) | structural induction | partial |
| C17 | prop_node: unaccessed-key report is exact | accessed flags (`Pn`) | structural induction, history invariant | proved |
| C18 | prop_node: recursive search is pre-order | pre-order traversals (`Pn`) | structural induction on the tree | proved |
| C19 | Quoting strings round-trips | byte-level encoder and decoder with a position, UB past the end (`Str`) | induction on strings; witnesses for bytes from 128 | partial |
| C20 | Tokenizer terminates and partitions its input | `char_stream` as a state machine (`Tok`) | lexer lemmas, induction on the text | proved |
| C21 | ZML write/read round-trip | ZML writer and reader (`Zml`) | lexer lemma, then induction on the tree; witnesses for special texts | proved |
| C22 | ZML reader is insensitive to layout and comments | ZML reader on two texts with the same tokens (`Zml`) | token-sequence equality, fuel induction | proved |
| C23 | INI write/read round-trip | line-based INI reader and writer (`Ini`) | induction on lines | proved |
| C24 | Include resolution terminates and replaces each directive by the included root node | file map as parameter, depth-limited include resolver (`Inc`) | induction on depth | proved |
| C25 | String search helpers agree with their definitions | search helpers on strings (`Str`) | induction on the text | partial |
| C26 | replace_str replaces all non-overlapping occurrences, left to right | find-and-replace loop (`Str`) | induction on the text | proved |
| C27 | split_str yields the maximal separator-free pieces | splitting with skipping of separators (`Str`) | induction on the text | proved |
| C28 | Path algebra | paths as text with last-separator search (`Path`) | string lemmas; witness for dots in directories | partial |
| C29 | Integer and boolean text conversion round-trips | decimal printer and strtol (`Cast`) | induction on digits | partial |
| C30 | version comparison is a consistent order | versions as four integers (`Cast`) | case analysis; witness against transitivity | partial |
| C31 | Memoized functions compute each key once, in every schedule | threads with shared map and reader-writer lock (`Memo`) | invariant over all reachable states | proved |
| C32 | file_resource_cache serves data at most its check interval old, in every schedule | threads with shared cache, files that change (`Cache`) | invariant over all reachable states | proved |
| C33 | Log messages reach exactly the interested sinks | sink registry, sequential and with threads (`Log`) | invariant over histories and over schedules | proved |
| C34 | timer measures running time across pause and resume | clock-driven timer and stopwatch (`Time`) | invariant by induction over events | partial |
| C35 | stopwatch splits add up | stopwatch over a clock (`Time`) | sums by induction over splits | proved |
| C36 | profiler accounting is exact for nested sections | profiler sections as a tree (`Prof`) | invariant by induction over nested calls | partial |
| C37 | settings stay within their schema | settings over the tree model (`Sdb, Set`) | invariant by induction over operations | partial |
| C38 | factory registration | registry of factories and proxies (`Assoc`) | refinement by induction | proved |
| C39 | arg_parser finds flags and values | argument list (`Cast`) | list lemmas | proved |
| C40 | clamp and bounds | clamping and real intervals, any order for the comparisons (`Num`) | case analysis | proved |
| C41 | Integer helper functions | integers with their widths (`Num`) | number theory lemmas | partial |
| C42 | Periodic helpers | wrapping of angles and phases with fmod by contract (`Num`) | real arithmetic | partial |
| C43 | Interpolation passes through its data | piecewise linear and constant functions over sorted points, lerp (`Ipl`) | induction on points, algebra | partial |
| C44 | delayer reproduces its input after the delay | delay line over samples (`Sig`) | invariant over sequences of samples | partial |
| C45 | Quaternion rotation laws | quaternions and vectors (`Geo`) | ring, field | partial |
| C46 | Transforms form a group action | transforms (`Geo`) | ring | partial |
| C47 | Rotation matrix / quaternion conversion | rotation matrices and quaternions (`Geo`) | ring, field, case analysis on the largest component | proved |
| C48 | Euler angle conversion | Euler angles (`Eul`) | trigonometry | partial |
| C49 | Mirroring is an involution compatible with transforms | mirrored vectors, quaternions, transforms (`Geo`) | ring | proved |
| C50 | aabb contains what was added | bounding boxes (`Shp`) | order reasoning, induction on points | proved |
| C51 | Distance to a segment / between lines is the minimum | segments and lines (`Shp`) | order reasoning, nra | partial |
| C52 | Regression lines are optimal or robust | regression lines (`Stat`) | algebra of sums, median by contract | proved |
| C53 | Order statistics | median, mean, top elements, sorting by contract (`Mom, Stat`) | permutations, order reasoning | proved |
| C54 | Hash: compile-time and run-time variants agree | 64-bit modular arithmetic, two recurrences (`Util`) | induction on the text | proved |
| C55 | enum and date text round-trips | enum text table, dates (`Util`) | induction on the text, digit lemmas | proved |
| C56 | optional with sentinel | optional values with a sentinel (`Util`) | case analysis over operations | proved |
| C57 | Filters are linear and have unit DC gain | second-order and Butterworth filters (`Sig`) | linear recurrences, induction on samples | proved |
| C58 | Path points insertion preserves the path | insertion of points in a path (`Shp`) | induction on the path | proved |
| C59 | Unique directory creation | directories and system calls as interaction tree (`Fs`) | invariant of the trace for every answer of the system | proved |
| C60 | cached_var recomputes exactly when the time stamp changes; interval_checker is rate-limited | time-stamped caches and interval checkers (`Time`) | invariant by induction over events | proved |
| C61 | Stop requests are never lost | stop tokens (`Util`) | history invariant | proved |
| C62 | Handles keep denoting their element | handles over a handle_vector (`Assoc, Box`) | index lemmas, induction over histories | proved |
| C63 | Rejected container calls have no effect | containers after a rejected call (`Assoc, Grid`) | state comparison; witnesses | partial |
| C64 | Joining strings skips empty parts and undoes splitting | joining of strings (`Str`) | induction on the parts | proved |
| C65 | make_key_value_str splits at the first separator | key=value text (`Str`) | induction on the text | proved |
| C66 | File-name helpers decompose the path text | file-name helpers (`Str`) | string lemmas; witness | partial |
| C67 | version text round-trips | version printer and reader (`Cast`) | digit lemmas; witnesses | partial |
| C68 | prop_node: equality is structural | equality of trees (`Pn`) | structural induction | proved |
| C69 | prop_node: the query made for a node leads back to it | query text of a node (`Pn`) | induction on the path; witness for arrays | partial |
| C70 | prop_node: typed access | typed get and set (`Pn`) | tree lemmas, conversion as parameter | proved |
| C71 | prop_node from command line | argv to tree (`Pn`) | induction on the arguments; witnesses | partial |
| C72 | File search order | search through a list of folders (`Fs`) | induction on the list | proved |
| C73 | File search in folders ends | recursive search in folders (`Fs`) | case analysis and fuel induction; witness for the endless recursion | partial |
| C74 | time values convert and divide exactly | times as integers (`Time`) | division lemmas; witnesses for negative times | partial |
| C75 | settings survive saving and reloading | saving and reloading of settings (`Sdb, Set`) | induction over the schema; witnesses | partial |
| C76 | Side suffixes of names | side suffixes (`Util`) | string lemmas | proved |
| C77 | Integer ranges | integer ranges as iterators (`Util`) | induction on the number of steps | proved |
| C78 | result holds what was assigned last | result values (`Util`) | case analysis over assignments | proved |
| C79 | Approximate comparison | approximate comparison over the reals (`Num`) | order reasoning; witness against symmetry | partial |
| C80 | Value with compile-time bounds | bounded values, missing return as UB (`Num`) | case analysis | partial |
| C81 | First-order filter | first-order filter (`Hst, Sig`) | exponentials and linear recurrences; witness for overshoot | partial |
| C82 | Difference and average accumulators | accumulators (`Sig`) | induction on samples | proved |
| C83 | Polynomials and minimum jerk | polynomials, minimum jerk (`Mom, Sig`) | ring, induction on coefficients | proved |
| C84 | Channel means and covariance | means and covariance of channels (`Stat`) | sums, permutations | proved |
| C85 | Normalisation | normalisation (`Geo`) | field, square roots | proved |
| C86 | Distance and projection | distances and projections (`Geo`) | Cauchy-Schwarz, nra | proved |
| C87 | Axis, angle and rotation vector | axis, angle and rotation vectors (`Geo`) | trigonometry | proved |
| C88 | Rotation between directions | rotation between directions (`Geo`) | field, nra; witness for opposite directions | partial |
| C89 | Rotation about an axis: swing and twist | swing and twist (`Geo`) | field, trigonometry | proved |
| C90 | Headings, polar coordinates and angle units | headings and polar coordinates (`Eul`) | trigonometry, atan2 by contract | proved |
| C91 | Volume and inertia of shapes | volumes and inertias (`Vol`) | integrals (`RiemannInt` of the standard library) of the bodies | partial |
| C92 | Scaling shapes | scaling of shapes (`Vol`) | field; witnesses for capsules | partial |
| C93 | Extents of shapes | extents of shapes (`Vol`) | order reasoning; witnesses | partial |
| C94 | Intersection of a line with a plane | line and plane (`Vol`) | field | proved |
| C95 | Catmull-Rom splines interpolate | Catmull-Rom segments (`Spa, Spl`) | ring, derivatives as limits | partial |
| C96 | Length of a spline | length of a polyline on a spline (`Spl`) | triangle inequality, induction on steps | proved |
| C97 | Generic searches and tests on containers | searches in lists (`Ct`) | induction on the list | proved |
| C98 | Copying between containers | element-wise copy in a memory (`Ct`) | induction on the length; witness for overlap | partial |
| C99 | Filtered views and zipping | filtered views, zip (`Ct`) | induction on the list; witness | partial |
| C100 | dynarray variables are values | heap of blocks, programs over array variables (`Arr`) | simulation between heap states and values, induction over programs | partial |
| C101 | Vectors of any size | vectors as lists (`Dyn`) | induction on the length | proved |
| C102 | Matrices of any size | matrices as lists with a stride (`Dyn`) | index arithmetic; witness for the product | partial |
| C103 | Vectors of four | vectors of four (`Dyn`) | ring; witnesses | partial |
| C104 | Scales | scales (`Dyn`) | field | proved |
| C105 | Vectors and scales are read from every documented form, and only those | tree to vector and back (`Gft, Gpn`) | case analysis over forms of trees | proved |
| C106 | Quaternions are read from w/x/y/z or from Euler angles with a chosen order | tree to quaternion (`Gft, Gpn`) | case analysis; witness | partial |
| C107 | Transforms survive conversion to a property tree and back | tree to transform (`Gpn`) | case analysis; witness | partial |
| C108 | Bounds survive text form; named bounds are honoured | bounds as text (`Gft, Gpn`) | string lemmas; witnesses | partial |
| C109 | Shapes survive conversion to a property tree and back | tree to shape (`Gft, Gpn`) | case analysis over shapes | partial |
| C110 | Lists and arrays of convertible things are convertible | tree to lists and arrays (`Gft, Gpn`) | induction on the list | proved |
| C111 | Hexadecimal colours survive | hexadecimal colours in binary32 (`Col`) | Flocq rounding lemmas for every 32-bit value | proved |
| C112 | Hue, saturation and value determine the colour | hue, saturation, value (`Col, Hsv`) | case analysis over sextants, lra | partial |
| C113 | Colours are ordered and clamped channel by channel | order and clamping by channel (`Col`) | order reasoning | proved |
| C114 | Colour arithmetic is vector arithmetic | colour arithmetic (`Col`) | ring; witness | partial |
| C115 | Colours are read from text and property trees as written | colour from text and tree (`Col`) | string lemmas, case analysis | partial |
| C116 | Colour gradients interpolate between neighbouring stops | gradient as sorted stops (`Col`) | induction on stops | proved |
| C117 | Unique colours differ and have the asked brightness | unique colours (`Col, Unq`) | real arithmetic, irrational step | partial |
| C118 | Ranges reach both ends with equal steps | real ranges (`Rng`) | induction on the number of steps | partial |
| C119 | Single precision ranges end and do not accumulate errors | binary32 ranges (`Rng`) | Flocq rounding bounds; witness of an endless loop | partial |
| C120 | Function tables contain the function's values at the range's points | function tables (`Rng`) | induction on the points | proved |
| C121 | Console plots show the functions and stay inside the picture | picture as rows of characters (`Rng`) | bounds on rows and columns; witnesses | partial |
| C122 | Typed indices refer to the position they are made from | typed indices modulo 2^32 (`Idx`) | case analysis, modular arithmetic | partial |
| C123 | A loop over an index span visits every index in it once, in order | index spans (`Idx`) | induction on the length; witness | partial |
| C124 | Collections of several types keep their indices valid | collections by type (`Idx`) | list lemmas | partial |
| C125 | Test results count what the checks did | test case counters (`Tst`) | induction over events; witnesses | partial |
| C126 | Running tests in parallel gives the sequential results | threads that run tests (`Tst`) | simulation between every schedule and the sequential run | proved |
| C127 | Dictionaries and lookup tables | dictionaries (`Dic`) | induction on the entries | proved |
| C128 | stack_string is the concatenation of its parts | stack_string (`Dic`) | induction over operations | proved |
| C129 | pattern_matcher accepts what one of its patterns accepts | patterns, fnmatch as parameter (`Dic`) | list and string lemmas; witness | partial |
| C130 | Tidied names | tidied names (`Dic`) | induction on the text; witnesses | partial |
| C131 | Values streamed into a sequence can be streamed back | stream wrapper over a sequence (`Io`) | induction on the values | proved |
| C132 | A data file is read completely or an error is reported | text data file (`Io`) | induction on the text; witness | partial |
| C133 | Debug recordings group values into frames | debug recordings (`Io`) | induction over values; witness | proved |
| C134 | Reading any text as XML ends in a tree or a parse error | rapidxml parser with position and fuel (`Xml`) | measure on the remaining text | proved |
| C135 | An XML document is read as the tree of its first element | printed documents (`Xml`) | induction on the element tree | proved |
| C136 | A property tree written as XML is read back unchanged | tree to XML to tree (`Xml`) | induction on the tree; witnesses | partial |
| C137 | Characters referred to by number are read as UTF-8 | numeric character references (`Xml`) | arithmetic of UTF-8; witnesses | partial |
| C138 | Text is read as the nearest floating-point number | strtod and strtof on characters, with exact rational rounding (`Flt`) | the rounding is shown to be Flocq's round to nearest even; induction on the digits | proved |
| C139 | Floating-point numbers are written with six correct digits | the %g conversion on exact fractions (`Flt`) | six digits are Flocq's rounding in radix ten; digits by induction | proved |
| C140 | A number written and read again is nearly the same | both conversions (`Flt`) | relative error of rounding; nearest numbers; monotonicity at the largest number | proved |
| C141 | Writing and reading numbers keeps their order | both conversions (`Flt`) | monotonicity of rounding; witness | proved |
| C142 | Text that was written once does not change again | both conversions (`Flt`) | midpoints of the six-digit numbers against the error of the binary rounding; witness | partial |
| C143 | A storage survives being saved as text | the stream operators on characters, with the numbers of `Flt` (`Tbl`) | induction on the rows and labels; the accuracy is C140 | proved |
| C144 | Reading any text as a storage | the read operator on characters (`Tbl`) | induction on the lines and their numbers; the numbers are C138 | proved |
| C145 | A table survives being saved as text | the stream operators on characters, with istream's number format (`Tbl`) | induction on rows and columns; the accuracy is C140 | proved |
| C146 | Vectors and quaternions in a frame | fields of frames on the storage of `Grid` (`Tbl`) | invariant of reachable storages; induction on the fields | proved |
| C147 | Values between frames | the interpolation on real numbers (`Frm, Tbl`) | case distinction on the whole part of the index | partial |
| C148 | Loading with an error code gives the same tree as loading with exceptions | load_file with and without error code over an abstract file system (`Ser`) | simulation between the reader with and without error code, by induction on the text and the depth of inclusion | proved |
| C149 | With an error code, loading reports failure without exceptions | the readers with an error code (`Ser`) | case analysis; totality of the reader by induction on the remaining text | partial |
| C150 | A tree saved to a file and loaded again is the same tree | save_file and load_file over an abstract file system (`Ser`) | composition of the round trips of the formats with a model of the file system | proved |
| C151 | What the result of save_file means | save_file over an abstract file system (`Ser`) | case analysis of every outcome of a save | proved |
| C152 | Files included in ZML documents | the include directive of ZML over an abstract file system (`Ser`) | simulation between stack depths, then composition with C150 | proved |
| C153 | What a ZML document with macros, references and includes means | the ZML reader on documents with macros, references, includes and nested blocks (`ZmlDoc`) | inductive meaning of documents; induction on the document with the position of the block being read in the tree or in the macros | proved |
| C154 | Macros of ZML documents are local to their block and the last definition counts | the meaning of documents (`ZmlDoc`) | induction on the items before the use | proved |
| C155 | References in ZML documents copy the node read so far | the meaning of documents (`ZmlDoc`) | addressing is not changed by an item added at the end | proved |
| C156 | A block after an item adds to its children | the meaning of documents (`ZmlDoc`) | induction on the items of the block | proved |
| C157 | A ZML text without macros is either read or refused | the ZML reader on arbitrary texts (`ZmlDoc`) | invariant on the text left and on the address of the block being read; induction on the fuel, which is shown to suffice | proved |
| C158 | Log sinks write every message they receive, in order | stream_sink, console_sink, file_sink and get_log_prefix over a stream (`Snk`) | induction on the events told to the sink; the lines are the maximal pieces without line breaks (C27); C33 for what the sink is told | proved |
| C159 | Logging to a full or unopened file never throws and keeps the beginning | the same with a stream that has room for n bytes (`Snk`) | invariant between the two streams: the limited one holds a prefix of the other | proved |
| C160 | Console sinks of several threads write whole messages | threads writing under g_console_mutex, one step per text handed to the stream (`Snk`) | invariant: whole messages by thread, and the part of the one being written; race freedom and progress from the lock | proved |
| C161 | Files hold what was saved and appended | load_string, save_string and append_string as programs of system calls over an arbitrary operating system that keeps file contents (`Fil`) | the run is making folders (which touches no file), opening, and one call per byte; induction on the text and on the history | proved |
| C162 | A program stopped while appending loses nothing that was there | the same programs, run for n system calls (`Fil`) | invariant of the rest of the program together with the state of the file | proved |
| C163 | find_files finds every matching entry once | find_files over trees of directories (`Fil`) | induction on trees with nested lists; the paths found are characterised by an inductive relation | proved |
| C164 | Times survive double precision | seconds(), milliseconds() and back with Flocq doubles (`Dur`) | relative error of each operation; exact grids of doubles as bounds of the rounded sum | proved |
| C165 | The text of a time shows the time | time_to_str and time_from_str, printf with a fixed number of decimals (`Dur`) | the double stays within the second by monotony of rounding; reading by the decimal theorems of Flt | proved |
| C166 | Reports of a stopwatch show the times to the millisecond | the texts of get_report (`Dur`) | induction on the list of times | proved |
| C167 | Clamping and bounds of float and double | clamping, bounds and midpoint with Flocq numbers of any precision (`Dbl`) | order of floating-point numbers with infinities; differences have relative error below u, also when subnormal | proved |
| C168 | Wrapped numbers stay in range in floating point | fmod as exact remainder of mantissas; wrapped (`Dbl`) | the remainder fits the format; rounding is monotone, so the bounds are not crossed; errors added up | proved |
| C169 | Interpolation in floating point | lerp, lerp_map and the piecewise linear function (`Dbl`) | monotony of rounding; relative error of each operation; induction on the points | proved |
| C170 | Averages in floating point | average with weight one (`Dbl`) | induction on the list from the right with an invariant for the error | proved |
| C171 | The text of a property tree | to_stream, to_str and prop_node_align_width over strings of any length (`Txt`) | the column is the maximum over the preorder of nodes; lines and the preorder with depths determine the tree, by induction | proved |
| C172 | Reports of unread values | log_unaccessed and to_str_unaccessed (`Txt`) | both are the preorder filtered by a positive count; the count is positive exactly when something is unread | proved |
| C173 | Logging a property tree | log_prop_node as list of messages (`Txt`) | as C171, with the name and level taken from the key | proved |
| C174 | make_str_from_prop_node is ZML for words | make_str_from_prop_node, read by the model of the ZML reader (`Txt`) | the text emits the tokens of a document whose meaning is the tree, by induction on trees | proved |
| C175 | The lines of a profiler report | report and report_section over the sections of the profiler, in binary64 (`Rep`) | sections and call paths correspond (C36); the tree is built by recursion over them; rounding errors are bounded operation by operation, and rounding is monotone | proved |
| C176 | The figures of a profiler report | the format string of report_section, %f with Flocq binary64 (`Rep`) | relative errors of at most 16 units through conversions, products and quotients; printing rounds exactly | proved |
| C177 | Logging a profiler report | log_results through the model of log_prop_node (`Rep`) | the lines of C175 through C173 | proved |
| C178 | Length and normalization of vectors in floating point | vectors of Flocq numbers of any precision of at least 11 bits with 4 prec <= emax (`Vec`) | running errors of sums of products; the square root halves relative errors; rounding is monotone | partial |
| C179 | Normalization of quaternions in floating point | quaternions of Flocq numbers of any precision of at least 11 bits with 4 prec <= emax (`Vec`) | as C178; the quotient 2/(1+s) against 1/sqrt(s) by (1-sqrt s)^2; acceptance by monotone rounding of 16 units | partial |
| C180 | Products of quaternions in floating point | quat operator* (`Vec`) | running errors of four signed products; Hamilton products multiply lengths | partial |
| C181 | Rotating vectors in floating point | the two cross products of quat operator* on vectors (`Vec`) | acceptance gives finite components and bounds; errors through both cross products; the rotation by the unit quaternion differs by the error in the squared length | proved |
| C182 | Comparing floating-point numbers with a tolerance | equal() (`Vec`) | monotone rounding one way, error bounds the other | partial |
| C183 | Finding the frame of a value in floating point | the search on storages of Flocq numbers of any precision of at least 3 bits (`Frm`) | the search ends at the border between smaller and other samples; rounding is monotone and differences have relative errors | partial |
| C184 | Values between frames in floating point | get_interpolated_value with the cast to an unsigned index (`Frm`) | the fraction of the index is exact because a remainder is; running errors of the two products and their sum | partial |
| C185 | Positions in a sequence in floating point | lerp_span with the cast to int (`Frm`) | the fraction is exact; errors and monotonicity of lerp from C169 | partial |
| C186 | Waves in floating point | triangle_wave, square_wave, is_whole with floor and remainder (`Frm`) | adding one half rounds up to a whole number only just below 1/2, where the tie goes to the even number; remainders are exact | partial |
| C187 | Vectors, rotations and lists of numbers survive as text | the conversions of C105-C110 with numbers as IEEE numbers and their texts as in C138-C142 (`Gft`) | the general reading theorems with the accuracy of the texts | partial |
| C188 | Bounds of floating-point numbers survive as text | bounds with the same texts (`Gft`) | a decimal text followed by two points is scanned to the same number; a written number never ends in a point, so the first two points are the separator | partial |
| C189 | Shapes survive in property trees | shapes with the same texts, halving and doubling as IEEE products (`Gft`) | doubling is exact, halving errs by at most half of the smallest number | partial |
| C190 | Numbers survive in ZML files | save_file and load_file of C148-C152 (`Gft`) | number texts consist of characters that ZML writes without quotes; reading depends only on keys and values | proved |
| C191 | Sums and averages in floating point | accumulate and average on IEEE numbers of any precision (`Mom`) | induction over the list with the relative error of each addition; whole numbers below 2^precision are added without rounding | partial |
| C192 | Variances and deviations in floating point | mean_var and mean_std on the same numbers (`Mom`) | errors of differences, products and their sum; signs of sums, squares and quotients for all numbers | partial |
| C193 | Channel means and covariances in floating point | the loops over frames and channels (`Mom`) | the same loops as average and mean_var; multiplication is commutative | proved |
| C194 | Medians and extremes in floating point | the loops and the contracts of nth_element and partial_sort_copy (`Mom`) | order statistics of the values, and the error of one addition and one exact halving | partial |
| C195 | Polynomials in floating point | the loop with powers (`Mom`) | induction over the coefficients with the errors of powers, products and sums | partial |
| C196 | Differences of successive values in floating point | the object as its state on IEEE numbers of any precision (`Hst`) | induction over the history with the relative error of a difference; the lemma of Sterbenz | partial |
| C197 | First-order filter by fast updates in floating point | the update as written, folded over the history (`Hst`) | error of one step; the filter contracts errors by 1 - k per step, so that they stay below the error of one step over k | partial |
| C198 | First-order filter by accurate updates in floating point | the update as written with std::exp as a parameter (`Hst`) | the same, with the exponential function being 1-Lipschitz below 0 | proved |
| C199 | Numbers in settings keep six digits | settings with binary64 numbers, strtod and %g (`Sdb`) | texts between equal texts are equal, since rounding to six digits is monotone; reading in a wide format shows that a text determines the six digits; then the theorems about settings | partial |
| C200 | Colours from hues keep their range with real floats | color_from_hsv with binary32 numbers (`Hsv`) | fmod and the fractional part are exact and the quotient stays below 6; rounding is monotone and keeps numbers of the format, which bounds the channels; the shares of red, green and blue have slope at most 1, which carries the error of the hue over | partial |
| C201 | Unique colours with real floats | make_unique_color and perceived_brightness with binary32 numbers (`Unq`) | errors of all operations are added up; perceived brightness is a norm, so it moves no more than the channels; equal colours have equal largest and smallest channels, hence close saturations, hence the same one, and then close hues | partial |
| C202 | A circular frame buffer keeps the last frames | the buffer with its frame count, capacity, data and labels; size_t subtraction wraps around (`Cfb`) | an invariant relates every place in the data to the recording; two kept frames never share a place, since they are less than the capacity apart | partial |
| C203 | A function tabulated at regular points is accurate in floating point | the table and its evaluation with correctly rounded operations, floor and the conversion to int (`Rpl`) | error bounds for each rounding, combined; the computed position stays below 2^31, so the conversion is defined and the clamped index has a next sample | partial |
| C204 | Weighted averages in floating point | the two sums with correctly rounded operations, after any list of calls (`Wav`) | induction over the history: relative error bounds for both sums, and monotonicity of rounding for the weights; then one division | partial |
| C205 | Recursive filters in floating point | the filter with correctly rounded operations, called for any list of inputs (`Iif`) | one call: induction over the taps with a rounding error for each operation; runs: the state holds the last inputs and outputs; an invariant that relates the state to that of the exact filter | partial |
<!-- plan end -->

## 4. What is modelled and what is not

Per component: the modelled sources (paths under `/repo/xo`), then what is left out or simplified there.
Every definition in the `XModel.v` files cites its lines.

| Component | Modelled | Simplified or left out |
|----|----|----|
| `Base`, `Str` | outcomes; `std::string` members used by xo | allocation failure |
| `Flat` | `container/flat_map.h`, `flat_set.h`, `sorted_vector.h` | iterator invalidation; exceptions thrown by element operations |
| `Assoc` | `container/indexed_map.h`, `indexed_set.h`, `label_vector.h`, `handle_vector.h`, `utility/proxy.h`, `handle.h`, `factory.h` | exceptions thrown by element operations |
| `Grid` | `container/storage.h`, `storage_tools.h`, `table.h` | reading and writing of whole files; interpolation |
| `Ring` | `container/circular_deque.h`, `circular_buffer.h` | `deprecated/circular_frame_buffer.h` |
| `Flag` | `container/flag_set.h` (64-bit storage) | other storage widths |
| `Str` (model) | `string/string_tools.cpp` and `.h` | the printf family, `char` locale functions beyond ASCII |
| `Cast` | integers and bool in `string/string_cast.cpp`; `system/version.h`; `utility/arg_parser.h` | numbers with a fraction (component `Flt`) |
| `Pn` | `container/prop_node.h`, `.cpp`, parts of `prop_node_tools.cpp` | log output of the tools |
| `Tok`, `Zml` | `serialization/char_stream.h`, `.cpp`, `prop_node_serializer_zml.cpp` | text of error messages |
| `Path`, `Fs` | `filesystem/path.h`, `.cpp`; searching and making directories of `filesystem.cpp` | permissions; the system's answers are arbitrary |
| `Ini`, `Inc`, `Xml` | `serialization/prop_node_serializer_ini.cpp`, `serialize.cpp` (includes), `prop_node_serializer_xml.cpp` with the used parts of `contrib/rapidxml-1.13` | stack depth, memory pool |
| `Conc`, `Memo`, `Cache` | `utility/memoize.h`, `file_resource_cache.h` with threads and locks | memory model weaker than sequential consistency (all shared accesses are under the lock or shown racy) |
| `Log`, `LogConc` | `system/log.h`, `log.cpp`, class `sink` of `log_sink.cpp` | text of the individual sinks (component `Snk`) |
| `Time`, `Prof` | `time/timer.cpp`, `stopwatch.*`, `interval_checker.h`, `time.h`, `utility/cached_var.h`, `system/profiler.*` | report texts; overflow of nanoseconds |
| `Set` | `system/settings.h`, `.cpp` | number text by contract |
| `Util` | `utility/hash.h`, `smart_enum.h`, `optional.h`, `result.h`, `side.h`, `irange.h`, `time/date.h`, `thread/stop_token.h` | |
| `Num`, `Ipl`, `Sig`, `Stat` | `numerical/math.h`, `bounds.h`, `compare.h`, `bounded.h`, `interpolation.h`, the piecewise functions, `delayer.h`, `filter*.h`, `delta.h`, `average.h`, `polynomial.h`, `functions.h`, `regression.h`, `container/container_algorithms.h`, `utility/data_algorithms.h` | rounding, infinities and NaN, except where the model uses `spec_float` |
| `Geo`, `Eul`, `Shp`, `Vol`, `Spl`, `Dyn` | `geometry/*.h`, `shape/*` | rounding; tolerances are parameters; `vec.h` (an empty alias header) |
| `Ct`, `Arr`, `Idx`, `Io` | `container/container_tools.h`, `view_if.h`, `zip.h`, `dynarray.h`, `utility/index.h`, `container/collection*.h`, `stream_wrapper.h`, `serialization/container_io.h`, `system/debug_storage.cpp` | exceptions thrown by element operations |
| `Gpn`, `Col`, `Rng` | conversions between trees and geometry, shapes and bounds; `utility/color*.h`, `frange.h`, `numerical/function_tools.h`, `console_plot.h` | number text by contract; hue over the reals |
| `Tst`, `Dic` | `system/test_case.*`; `string/dictionary.h`, `stack_string.h`, `pattern_matcher.h`, names in `system/system_tools.cpp` | `fnmatch` and demangling by parameter |
| `Flt` | `float` and `double` in `string/string_cast.cpp`, with `strtod`, `strtof` and `%g` of the C library | `errno`; the sign of NaN; locales other than C |
| `Tbl` | text of `container/storage.h` and `table.h`, frames, `storage_tools.h` 51-75, `get_interpolated_value` | the rest of `storage_tools.h`; rounding in the interpolation |
| `Ser` | `serialization/serialize.cpp`, `prop_node_serializer.cpp`, the ZML and INI readers with an error code, includes between files, `system/error_code` | what is logged; the file a writer leaves behind when it throws is modelled as empty |
| `ZmlDoc` | the meaning of ZML documents (`prop_node_serializer_zml.cpp`), over the model of `Zml` | macros defined inside macros |
| `Snk` | `system/log_format.h`, the sinks of `system/log_sink.cpp` | buffering, Windows console colours |
| `Fil` | whole files as strings and `find_files` of `filesystem/filesystem.cpp` | links; buffering; text conversion on Windows |
| `Dur` | times in double precision and their texts: `time/time.h`, `string/string_cast.cpp` (time), `time/stopwatch.cpp` (texts) | decimals beyond nine; limits of hidden decimals that are not whole |
| `Dbl` | numerical code in floating point of any precision: `numerical/math.h` (clamp, wrap, midpoint), `numerical/bounds.h`, `numerical/interpolation.h`, `numerical/piecewise_linear_function.h`, `numerical/average.h` | `is_null`, `infinite`, other weights; extrapolation beyond the points |
| `Txt` | texts of property trees: `container/prop_node.cpp` (to_stream, to_str), `container/prop_node_tools.cpp` (prop_node_align_width, log_prop_node, log_unaccessed, to_str_unaccessed, make_str_from_prop_node) | that make_str_from_prop_node marks the nodes as read |
| `Rep` | the report of the profiler: `system/profiler.cpp` 118-192 (get_children, report, report_section, log_results, total_overhead), stringf as it is used there | std::sort (a parameter that sorts), the measured overhead estimate (a parameter), NaN texts |
| `Vec` | vectors and quaternions in floating point of any precision: `geometry/vec3.h` (arithmetic, length, normalize, is_normalized, dot, cross), `geometry/quat.h` 18-92 (products, rotation, normalization), `numerical/compare.h` 10-11 | fused multiply-add; `scaled` (returns a reference to its own argument) |
| `Frm` | `container/storage_tools.h` 24-49, `container/storage.h` 117-124, `numerical/interpolation.h` 37-57, `numerical/math.h` 71, 141-148 in floating point of any precision | `floor` is taken in the type of its argument |
| `Gft` | the conversions of `Gpn` for float and double: `geometry/vec3.h`, `geometry/quat.h`, `numerical/bounds.h`, `shape/shape.cpp`, `container/prop_node.h` 284-298 with the texts of `Flt` | conversion of Euler angles (a parameter) |
| `Mom` | `container/container_algorithms.h` 13-18, 37-41, 59-67, 73-81, 98-110, 116-141, `container/data_algorithms.h` 9-42, `numerical/polynomial.h` 17-22, 39 in floating point of any precision | the order in which `std::accumulate` adds is the one of the standard; x87 excess precision and contraction to fused operations are not modelled |
| `Hst` | `numerical/delta.h`, `numerical/filter_1st_order.h` in floating point of any precision | T and TimeT of different precision; the accuracy of `std::exp` is a parameter |
| `Sdb` | `system/settings.cpp` with `double`, `strtod` and `%g` | conversion to color and vec3 is a parameter |
| `Hsv` | `utility/color.cpp` `color_from_hsv` with `float` | other colours are in `Col` |
| `Unq` | `utility/color.cpp` `make_unique_color`, `perceived_brightness` with `float` | fused operations |
| `Cfb` | `container/deprecated/circular_frame_buffer.h` | resizing with another value than the default; the constant `operator()`, which returns nothing |
| `Rpl` | `numerical/regular_piecewise_linear_function.h` in floating point | std::function; other number types |
| `Wav` | `numerical/average.h` in floating point, with any weights | value and weight of different types |
| `Iif` | `numerical/filter.h` iir_filter in floating point | contraction of a product and a sum into one operation |
<!-- components end -->

Not modelled at all: `numerical/random.h` (random distributions of the standard library), `container/small_vector.h`
(does not compile when instantiated), `thread/thread_priority.*` and `thread/interruptible.*` (scheduling requests to the system),
`system/benchmark_tools.h`, `debug_tools.h`, `test_main.h`, `type_class.h`, `utility/type_traits.h`, `sfinae_tools.h`, `overload.h`,
`variant_cast.h`, `pointer_types.h` (compile-time only or no behaviour of their own), everything in folders named `deprecated` except `circular_frame_buffer.h`,
the Lua bindings, and the parts of `system_tools.cpp` that only ask the operating system (computer name, paths).

## 5. Axioms per theorem

As printed by `Print Assumptions` (recorded by `tools/assumptions.py`): `-` closed under the global context; F `sig_forall_dec`,
N `sig_not_dec`, E `functional_extensionality_dep`, C `Classical_Prop.classic`.

<!-- axioms begin -->
* C01: `C01_flat_map_refines_map` -, `C01_flat_map_results` -, `C01_bounds` -
* C02: `C02_flat_set_refines_set` -
* C03: `C03_flat_map_init_partial` -, `C03_flat_set_init_partial` -, `C03_flat_map_init_refuted` -, `C03_flat_set_init_refuted` -
* C04: `C04_sorted_vector_multiset` -, `C04_sorted_vector_results` -
* C05: `C05_indexed_map_known_key` -, `C05_indexed_map_new_key` -, `C05_indexed_map_history` -, `C05_indexed_map_stable_positions` -
* C06: `C06_indexed_set_interning` -, `C06_size_after_overflow_refuted` -
* C07: `C07_label_vector_partial` -, `C07_relabel_refuted` -, `C07_constructed_refuted` -, `C07_results` -
* C08: `C08_storage_history` -, `C08_storage_made` -
* C09: `C09_find_frame_index_partial` -, `C09_first_frame_refuted` -, `C183_nearest` CEFN
* C10: `C10_table_history_partial` -, `C10_resize_rows_refuted` -, `C10_table_made` -
* C11: `C11_circular_deque_partial` -, `C11_push_back_full_refuted` -, `C11_const_back_refuted` -, `C11_reserve_partial` -, `C11_reserve_refuted` -, `C11_const_back` -
* C12: `C12_circular_buffer` -, `C12_empty_buffer_refuted` -, `C12_resize` -, `C12_fewer_channels_refuted` -
* C13: `C13_flag_set` -, `C13_constructors` -
* C14: `C14_query_get` -, `C14_set_query` -, `C14_index` -
* C15: `C15_erase` -, `C15_erase_query_partial` -, `C15_erase_other_delimiter_refuted` -, `C15_erase_by_index_refuted` -
* C16: `C16_merge` -, `C16_unmentioned` -, `C16_self` -, `C16_empty` -, `C16_empty_overwrite_refuted` -, `C16_self_duplicate_refuted` -
* C17: `C17_flags` -, `C17_flag_unique` -, `C17_count` -
* C18: `C18_find_recursively` -, `C18_find_parent` -, `C18_counts` -, `C18_answers` -
* C19: `C19_quoting_partial` -, `C19_quoting_refuted` -, `C19_unquote_bounds_refuted` -, `C19_unquoted` -, `C19_encoded` -, `C19_decoded` -
* C20: `C20_token` -, `C20_history` -, `C20_reaches_end` -, `C20_line` -, `C20_seek` -, `C20_lone_backslash_refuted` -, `C20_prefix_dropped_refuted` -, `C20_open_quote_refuted` -, `C20_empty_quote_refuted` -, `C20_try_get_refuted` -, `C20_characters` -
* C21: `C21_round_trip` -, `C21_round_trip_concise` -, `C21_round_trip_refuted` -, `C21_concise_empty_refuted` -, `C21_concise_empty_value_refuted` -, `C21_refused` -
* C22: `C22_same_tokens` -, `C22_insert` -, `C22_space_after_colon_refuted` -
* C23: `C23_round_trip` -, `C23_ignored` -, `C23_last_line` -, `C23_order_refuted` -, `C23_long_refuted` -, `C23_lost_refuted` -
* C24: `C24_terminates` -, `C24_meaning` -, `C24_no_directive` -, `C24_cycle` -, `C24_plain` -, `C24_depth_refuted` -
* C25: `C25_search` -, `C25_substring` -, `C25_find_nth_partial` -, `C25_find_nth_refuted` -
* C26: `C26_replace` -, `C26_replaced_unique` -, `C26_replace_char` -
* C27: `C27_split` -, `C27_pieces_exist` -, `C27_split_join` -, `C27_trim` -, `C27_split_at` -
* C28: `C28_parts` -, `C28_stem_extension` -, `C28_stem` -, `C28_extension_exact` -, `C28_extension_refuted` -, `C28_replace_extension` -, `C28_replace_extension_refuted` -, `C28_join` -, `C28_join_name` -, `C28_join_assoc` -, `C28_reconstruct_partial` -, `C28_reconstruct_refuted` -, `C28_replace_filename` -, `C28_replace_stem` -, `C28_make_preferred` -
* C29: `C29_int_round_trip` -, `C29_int_written` -, `C29_int_read` -, `C29_int_failure` -, `C29_bool` -, `C29_int_strict_refuted` -, `C29_int_limits` -
* C30: `C30_version_order_partial` -, `C30_version_transitive_partial` -, `C30_version_total_order_refuted` -, `C30_version_level` -
* C31: `C31_once` -, `C31_values` -, `C31_failures` -, `C31_size` -, `C31_exclusive` -, `C31_progress` -, `C31_bounded` -, `C31_complete` -, `C31_recursive` -
* C32: `C32_fresh` -, `C32_exclusive` -, `C32_progress` -, `C32_bounded` -, `C32_after_failure_refuted` -, `C32_same_second_refuted` -
* C33: `C33_delivery` -, `C33_threads` -, `C33_exclusive` -, `C33_quick_test` -, `C33_lost_refuted` -, `C33_format_refuted` -
* C34: `C34_elapsed_partial` -, `C34_pause_twice_refuted` -, `C34_resume_twice_refuted` -, `C34_restart_paused_refuted` -, `C34_set_late_refuted` -
* C35: `C35_splits` -, `C35_names` -, `C35_report` -, `C35_total_name_refuted` -, `C35_order_refuted` -, `C35_clear` -
* C36: `C36_sections` -, `C36_exclusive` -, `C36_exclusive_sum` -, `C36_exclusive_nonneg` -, `C36_misuse` -, `C36_report_refuted` -, `C36_unbalanced_refuted` -
* C37: `C37_set` -, `C37_range` -, `C37_undefined` -, `C37_valid` -, `C37_get` -, `C37_load` -, `C37_saved_refuted` -, `C37_position_refuted` -, `C37_nested_refuted` -, `C37_get_group_refuted` -, `C37_allowed_range_refuted` -, `C37_nan_refuted` -, `C37_lowest_int_refuted` -, `C37_range_int_refuted` -, `C37_get_unknown` -, `C37_saved` -, `C199_set` CEFN, `C199_stored` CEFN, `C199_outside_refuted` -, `C37_not_a_number` -
* C38: `C38_factory_history` -
* C39: `C39_flags` -, `C39_positional` -, `C39_dashed_name` -, `C39_default_refuted` -
* C40: `C40_clamp` -, `C40_double_order` -, `C40_nan_refuted` -, `C40_within` -, `C40_min_max` -, `C40_extend` -, `C40_extend_bounds` -, `C40_violation` EF, `C40_negated` EF, `C40_soft_clamp` EF, `C40_smooth_clamp` CEFN
* C41: `C41_gcd` -, `C41_gcd_negative_refuted` -, `C41_power_of_two` -, `C41_parity` -, `C41_power` EF, `C41_count_digits` -, `C41_count_digits_refuted` -, `C41_midpoint` -, `C41_midpoint_refuted` -, `C41_sign` -, `C41_midpoint_real` EF
* C42: `C42_wrap_partial` EF, `C42_wrap_refuted` EF, `C42_pos_mod_partial` EF, `C42_pos_mod_refuted` EF, `C42_square_wave_partial` EF, `C42_square_wave_refuted` EF, `C42_triangle_wave` EF, `C42_triangle_between` EF
* C43: `C43_lerp` EF, `C43_lerp_double_refuted` -, `C43_lerp_precise_refuted` EF, `C43_piecewise_linear` EF, `C43_piecewise_constant` EF, `C43_lerp_map` EF, `C43_lerp_map_int_refuted` EF, `C43_lerp_span` EF, `C43_lerp_span_far_refuted` EF, `C43_regular` EF, `C43_lerp_double_partial` -, `C43_lerp_double_overflow_refuted` -, `C43_lerp_map_int` EF
* C44: `C44_delayer_partial` EF, `C44_initial_refuted` EF, `C44_long_step_refuted` EF, `C44_smooth_delayer_partial` EF, `C44_rejected` EF
* C45: `C45_rotation` EF, `C45_composition` EF, `C45_conjugate` EF, `C45_axes` EF, `C45_representation` EF, `C45_positive` EF, `C45_inverse_refuted` EF
* C46: `C46_composition` EF, `C46_inverse` EF, `C46_srt_partial` EF, `C46_srt_refuted` EF
* C47: `C47_frame` EFN, `C47_round_trip` EFN
* C48: `C48_meaning` EFN, `C48_round_trip` CEFN, `C48_from_quat` CEFN, `C48_gimbal_refuted` CEFN
* C49: `C49_mirror` EF, `C49_rotation` EFN, `C49_bounds` EF, `C49_limits` EF
* C50: `C50_points` EF, `C50_join` EF, `C50_join_empty` EF, `C50_box` EF, `C50_sphere` EFN
* C51: `C51_segment` EFN, `C51_lines` EFN, `C51_lines_refuted` EFN, `C51_zero_direction_refuted` EF
* C52: `C52_least_squares` EF, `C52_fixed_step` EF, `C52_median_line` EF, `C52_repeated_median` EF
* C53: `C53_median` EF, `C53_sorted_indices` -, `C53_extremes` EF, `C53_average` EF, `C53_variance` EFN, `C53_top_average` EF, `C53_top_average_refuted` EF, `C191_average` CEFN, `C192_variance` CEFN, `C194_median` CEFN, `C194_extremes` CEFN
* C54: `C54_hash` -, `C54_one_character` -, `C54_high_refuted` -
* C55: `C55_enum_to` -, `C55_enum_from` -, `C55_enum_round` -, `C55_explicit_values_refuted` -, `C55_date_round` -, `C55_date_from` -, `C55_date_negative_refuted` -
* C56: `C56_compact` -, `C56_flagged` -, `C56_sentinel_refuted` -, `C56_not_equal_refuted` -, `C56_write_empty_refuted` -
* C57: `C57_equation` EF, `C57_linear` EF, `C57_time_invariant` EF, `C57_butterworth_constant` EFN, `C57_butterworth_gain` EFN, `C57_velocity` F
* C58: `C58_length` EFN, `C58_insert` EFN, `C58_too_short` EFN
* C59: `C59_create_unique` -, `C59_first_free` -, `C59_concurrent` -, `C59_parents` -, `C59_existing_refuted` -, `C59_find_unique` -, `C59_find_unique_refuted` -
* C60: `C60_cached` -, `C60_interval` -, `C60_interval_count` -
* C61: `C61_requested` -, `C61_forever` -, `C61_moved_refuted` -
* C62: `C62_handle_push_back` -, `C62_handle_erase_update` -, `C62_invalid_handle_stays_invalid` -, `C62_erase_one` -
* C63: `C63_storage_add_channel_refuted` -, `C63_table_add_column_refuted` -, `C06_size_after_overflow_refuted` -
* C64: `C64_concat` -, `C64_split_concat` -, `C64_append` -
* C65: `C65_key_value` -
* C66: `C66_extension` -, `C66_folder_partial` -, `C66_folder_refuted` -
* C67: `C67_version_text_partial` -, `C67_version_text_refuted` -, `C67_version_read` -
* C68: `C68_equality` -
* C69: `C69_node_query_partial` -, `C69_array_refuted` -
* C70: `C70_set_get` -, `C70_get` -, `C70_get_any` -, `C70_get_all` -, `C70_vector` -
* C71: `C71_from_arg_partial` -, `C71_from_arg_refuted` -
* C72: `C72_find_file` -, `C72_try_find_file` -, `C72_agree_refuted` -
* C73: `C73_search` -, `C73_search_relative` -, `C73_terminates_refuted` -
* C74: `C74_division_partial` -, `C74_seconds_partial` -, `C74_distance` -, `C74_division_refuted` -, `C74_seconds_refuted` -
* C75: `C75_reload_partial` -, `C75_version_refuted` -, `C75_allowed_range_refuted` -, `C199_reload_partial` CEFN, `C199_subnormal_refuted` -
* C76: `C76_side` -, `C76_mirror` -, `C76_set` -, `C76_set_none_refuted` -
* C77: `C77_range` -, `C77_step` -
* C78: `C78_result` -, `C78_empty_error_refuted` -
* C79: `C79_equal` EF, `C79_symmetric_refuted` EF
* C80: `C80_bounded_refuted` -
* C81: `C81_accurate` CEFN, `C81_fast` EF, `C81_fast_refuted` EF, `C197_fast` CEFN, `C198_accurate` CEFN
* C82: `C82_delta` EF, `C82_average` EF
* C83: `C83_polynomial` EF, `C83_intersect` EF, `C83_minimum_jerk` EF, `C195_error` CEFN, `C195_intersect` CEFN
* C84: `C84_covariance` EFN
* C85: `C85_normalize` EFN, `C85_normalize_fast` EFN, `C85_try_fast` EFN, `C85_normalize_vec` EFN
* C86: `C86_metric` EFN, `C86_projection` EFN, `C86_squared` EFN
* C87: `C87_axis_angle` EFN, `C87_from_quat` CEFN, `C87_rotation_vector` CEFN, `C87_from_vector` CEFN, `C87_short_vector` EFN
* C88: `C88_directions` EFN, `C88_opposite_refuted` EFN
* C89: `C89_twist` CEFN, `C89_quat_angle` CEFN, `C89_recover` CEFN, `C89_main_axes` CEFN, `C89_no_twist` CEFN
* C90: `C90_heading` CEFN, `C90_single` EFN, `C90_polar` EFN, `C90_degrees` CEFN
* C91: `C91_sphere` CEFN, `C91_cylinder` CEFN, `C91_cone` CEFN, `C91_box` CEFN, `C91_capsule_partial` CEFN, `C91_capsule_refuted` CEFN, `C91_capsule_density_refuted` EFN, `C91_density` EFN, `C91_capsule_excess` CEFN, `C91_made_box` EFN
* C92: `C92_volume` EFN, `C92_inertia_partial` EFN, `C92_capsule_inertia_refuted` EFN, `C92_by_vector` EFN, `C92_uniform` EFN, `C92_capsule_refuted` EFN
* C93: `C93_dim_partial` EFN, `C93_dim_refuted` EF, `C93_distance_partial` EFN, `C93_intersection` EFN, `C93_cylinder_refuted` EFN, `C93_centers` EFN, `C93_centers_refuted` EF, `C93_unsupported` EFN
* C94: `C94_plane` EF
* C95: `C95_segment` CEFN, `C95_smooth` CEFN, `C95_line` EF, `C95_alpha` EFN, `C95_alpha_refuted` EFN, `C95_spline` CEFN, `C95_alpha_smooth` CEFN, `C95_alpha_velocity_refuted` CEFN, `C95_alpha_zero` EFN
* C96: `C96_length` EFN, `C96_refine` EFN, `C96_straight` EFN
* C97: `C97_find_if` -, `C97_find` -, `C97_find_index_if` -, `C97_find_index` -, `C97_find_again` -, `C97_find_ref` -, `C97_tests` -, `C97_contains` -, `C97_count_if` -, `C97_count` -, `C97_for_each` -, `C97_back_index` -
* C98: `C98_copy_partial` -, `C98_copy_refuted` -, `C98_copy_to_range_partial` -, `C98_copy_container` -
* C99: `C99_view` -, `C99_zip_partial` -, `C99_zip_refuted` -
* C100: `C100_values_partial` -, `C100_equal` -, `C100_self_assign_refuted` -, `C100_moved_refuted` -
* C101: `C101_sum` F, `C101_self` F, `C101_scale` EF, `C101_equal` EF, `C101_length` EFN, `C101_dot` EFN, `C101_cauchy` EFN, `C101_triangle` EFN, `C101_normalize` EFN
* C102: `C102_table` -, `C102_new` -, `C102_resize` -, `C102_times_partial` F, `C102_times_refuted` EF, `C102_clear` -
* C103: `C103_add` EF, `C103_refuted` EF, `C103_three_partial` EF
* C104: `C104_scale` EF
* C105: `C105_vec_read` -, `C105_vec_refused` -, `C105_vec_round_trip` -, `C105_scale_read` -, `C187_vec` CEFN
* C106: `C106_quat_read` -, `C106_quat_round_trip` -, `C106_quat_order_refuted` -, `C187_quat` CEFN
* C107: `C107_transform_read` -, `C107_transform_round_trip_refuted` -
* C108: `C108_int_bounds_round_trip` -, `C108_bounds_round_trip` -, `C108_bounds_group` -, `C108_bounds_named_refuted` -, `C188_bounds` CEFN
* C109: `C109_shape_read` -, `C109_shape_round_trip` -, `C109_shape_unknown` -, `C109_shape_type_exact_refuted` -, `C189_shape` CEFN
* C110: `C110_list_read` -, `C110_list_round_trip` -, `C110_array_read` -, `C187_list` CEFN
* C111: `C111_rgb` CEFN, `C111_rgba` CEFN, `C111_channels` CEFN, `C111_nearest_byte` CEFN, `C111_nan_refuted` CEFN
* C112: `C112_hsv_partial` EF, `C112_distinct` EF, `C112_named` EF, `C112_negative_hue_refuted` EF, `C200_close` CEFN, `C200_period` CEFN, `C200_negative_refuted` CEFN
* C113: `C113_order` -, `C113_clamp` -
* C114: `C114_arithmetic_partial` EF, `C114_double_factor_refuted` EF
* C115: `C115_hex_text` -, `C115_words` -, `C115_hsv_group` -, `C115_list_partial` -, `C115_failure_unchanged_refuted` -, `C115_text_refused` -
* C116: `C116_gradient` EF
* C117: `C117_brightness` EFN, `C117_unique_color` EFN, `C117_distinct` EFN, `C201_distinct_refuted` CEFN, `C201_brightness` CEFN
* C118: `C118_steps` EF, `C118_increment_partial` EF, `C118_ends` EF, `C118_single_refuted` EF, `C118_direction_refuted` EF, `C118_size_refuted` EF, `C118_postfix_refuted` EF
* C119: `C119_float_partial` CEFN, `C119_float_endless_refuted` CEFN, `C119_float_close_partial` CEFN
* C120: `C120_evaluate` EF
* C121: `C121_plot_partial` EF, `C121_constant_refuted` EF, `C121_far_refuted` EF
* C122: `C122_make` -, `C122_step` -, `C122_container` -, `C122_nothing_stays_nothing_refuted` -, `C122_large_container_refuted` -, `C122_order` -
* C123: `C123_span` -, `C123_reversed_refuted` -
* C124: `C124_push` -, `C124_pop` -, `C124_erase` -, `C124_position` -, `C124_clear` -, `C124_walk` -, `C124_index_erase_refuted` -, `C124_erase_span` -
* C125: `C125_run` -, `C125_tests` -, `C125_escape` -, `C125_silent_exception_refuted` -, `C125_rerun_refuted` -
* C126: `C126_async` -
* C127: `C127_dictionary` -, `C127_inverse` -, `C127_lookup` -, `C127_inverse_without_uniqueness_refuted` -
* C128: `C128_stack` -
* C129: `C129_matcher` -, `C129_is_pattern` -, `C129_text_refuted` -
* C130: `C130_identifier` -, `C130_type_name` -, `C130_no_arguments_refuted` -, `C130_every_name_refuted` -
* C131: `C131_stream` -, `C131_push_back` -
* C132: `C132_read_partial` -, `C132_missing` -, `C132_last_refuted` -
* C133: `C133_recording` -, `C133_sentinel_refuted` -
* C134: `C134_total` -
* C135: `C135_document` -, `C135_preamble` -
* C136: `C136_roundtrip_partial` -, `C136_every_tree_refuted` -
* C137: `C137_reference` -, `C137_malformed_refuted` -
* C138: `C138_decimal` CEFN, `C138_hexadecimal` CEFN, `C138_words` -, `C138_accepts` -, `C138_refused` -
* C139: `C139_text` CEFN, `C139_special` -, `C139_integer` CEFN
* C140: `C140_close` CEFN, `C140_six` CEFN, `C140_special` -, `C140_exact_refuted` -
* C141: `C141_order` CEFN, `C141_strict_refuted` EF
* C142: `C142_stable_partial` CEFN, `C142_subnormal_refuted` -, `C142_typed` CEFN
* C143: `C143_storage` CEFN, `C143_spaces_refuted` -, `C143_unlabelled_refuted` -, `C143_carriage_return_refuted` -
* C144: `C144_lines` CEFN, `C144_total` -
* C145: `C145_table` CEFN, `C145_infinite_refuted` -
* C146: `C146_fields` -, `C146_vec` -, `C146_quat` -, `C146_stale_refuted` -, `C146_missing_refuted` -
* C147: `C147_between` EF, `C147_beyond` EF, `C147_last_refuted` EF, `C184_between` CEFN
* C148: `C148_same_tree` -, `C148_same_tree_as` -, `C148_good_means_loaded` -, `C148_first_error_refuted` -
* C149: `C149_absent_partial` -, `C149_zml_returns_partial` -, `C149_no_exception_refuted` -
* C150: `C150_zml_file` -, `C150_ini_file` -, `C150_xml_file` -
* C151: `C151_true_means_written` -, `C151_false_means_untouched` -, `C151_refused` -, `C151_result_refuted` -, `C151_keeps_old_file_refuted` -
* C152: `C152_deeper` -, `C152_include_saved` -, `C152_cycle_refuted` -, `C152_included_files_refuted` -
* C153: `C153_meaning` -
* C154: `C154_scope` -, `C154_latest` -, `C154_extend_refuted` -
* C155: `C155_reference` -
* C156: `C156_more` -
* C157: `C157_defined` -, `C157_refuted` -
* C158: `C158_stream` -, `C158_console` -, `C158_console_lines` -, `C158_log_file` -, `C158_refuted` -
* C159: `C159_full_device` -, `C159_not_opened` -
* C160: `C160_whole` -, `C160_exclusive` -, `C160_stream_refuted` -
* C161: `C161_contents` -, `C161_load` -, `C161_errors` -, `C161_folders` -, `C161_full_refuted` -
* C162: `C162_append` -, `C162_save` -, `C162_complete` -, `C162_save_refuted` -
* C163: `C163_find` -, `C163_files_only_refuted` -
* C164: `C164_seconds_kept` CEFN, `C164_milliseconds_kept` CEFN, `C164_accurate` CEFN, `C164_ordered` CEFN, `C164_from_seconds` CEFN, `C164_whole` CEFN, `C164_seconds_kept_refuted` CEFN, `C164_too_large_refuted` CEFN
* C165: `C165_clock` CEFN, `C165_decimals` CEFN, `C165_read` CEFN, `C165_millisecond` CEFN, `C165_nanosecond` CEFN, `C165_clock_read_refuted` CEFN, `C165_hide_refuted` CEFN
* C166: `C166_report` CEFN, `C166_decimals_refuted` CEFN
* C167: `C167_clamp` CEFN, `C167_extend` CEFN, `C167_extend_least` CEFN, `C167_violation` CEFN, `C167_middle` CEFN, `C167_nan_refuted` CEFN, `C167_center_refuted` CEFN
* C168: `C168_remainder` CEFN, `C168_wrap` CEFN, `C168_upper_refuted` CEFN
* C169: `C169_lerp` CEFN, `C169_lerp_monotone` CEFN, `C169_map_keys` CEFN, `C169_map_outside` CEFN, `C169_map_line` CEFN, `C169_map_monotone` CEFN, `C169_pieces_line` CEFN, `C169_pieces_points` CEFN, `C169_end_refuted` CEFN, `C169_points_refuted` CEFN, `C169_monotone_refuted` CEFN, `C169_float_refuted` CEFN
* C170: `C170_mean` CEFN, `C170_count` CEFN, `C170_none` CEFN, `C170_between_refuted` CEFN
* C171: `C171_text` -, `C171_given_column` -, `C171_identifies` -, `C171_marks` -, `C171_any_column_refuted` -, `C171_root_value_refuted` -, `C171_lines_refuted` -
* C172: `C172_text` -, `C172_log` -, `C172_agree` -, `C172_empty` -, `C172_root_refuted` -
* C173: `C173_messages` -, `C173_other_keys_refuted` -
* C174: `C174_zml` -, `C174_spaces_refuted` -, `C174_unique_refuted` -, `C174_empty_refuted` -
* C175: `C175_lines` CEFN, `C175_stops` CEFN, `C175_instant_refuted` CEFN
* C176: `C176_text` CEFN
* C177: `C177_messages` CEFN
* C178: `C178_length` CEFN, `C178_normalize` CEFN, `C178_short` CEFN, `C178_overflow_refuted` CEFN, `C178_underflow_refuted` CEFN
* C179: `C179_normalize` CEFN, `C179_try_fast` CEFN, `C179_accepted` CEFN, `C179_zero_refuted` CEFN, `C179_overflow_refuted` CEFN
* C180: `C180_product` CEFN, `C180_chain` CEFN, `C180_product_refuted` CEFN
* C181: `C181_rotate` CEFN, `C181_formula` CEFN, `C181_length` CEFN, `C181_rotation` EF
* C182: `C182_itself` CEFN, `C182_equal` CEFN, `C182_symmetric_refuted` CEFN, `C182_infinity_refuted` CEFN, `C182_zero_refuted` CEFN
* C183: `C183_nearest` CEFN, `C183_present` CEFN, `C183_empty` CEFN, `C183_exact_refuted` CEFN, `C183_first_refuted` CEFN, `C183_nan_refuted` CEFN
* C184: `C184_between` CEFN, `C184_beyond` CEFN, `C184_index_refuted` CEFN, `C184_constant_refuted` CEFN, `C184_monotone_refuted` CEFN, `C184_infinite_refuted` CEFN
* C185: `C185_between` CEFN, `C185_monotone` CEFN, `C185_outside` CEFN, `C185_far_refuted` CEFN
* C186: `C186_triangle` CEFN, `C186_square` CEFN, `C186_whole` CEFN, `C186_large_refuted` CEFN, `C186_tiny_refuted` CEFN, `C186_negative_refuted` CEFN
* C187: `C187_vec` CEFN, `C187_quat` CEFN, `C187_list` CEFN, `C187_exact_refuted` -
* C188: `C188_bounds` CEFN, `C188_within` CEFN, `C188_typed` CEFN, `C188_within_refuted` EF, `C188_typed_point_refuted` -
* C189: `C189_shape` CEFN, `C189_large_refuted` -
* C190: `C190_vec_file` CEFN, `C190_shape_file` CEFN, `C190_list_file` CEFN
* C191: `C191_sum` CEFN, `C191_average` CEFN, `C191_integers` CEFN, `C191_none` CEFN, `C191_between_refuted` CEFN, `C191_large_refuted` CEFN, `C191_lost_refuted` CEFN
* C192: `C192_variance` CEFN, `C192_not_negative` CEFN, `C192_deviation` CEFN, `C192_constant_refuted` CEFN, `C192_large_refuted` CEFN
* C193: `C193_means` CEFN, `C193_symmetric` CEFN, `C193_diagonal` CEFN, `C193_error` CEFN
* C194: `C194_extremes` CEFN, `C194_median` CEFN, `C194_large_refuted` CEFN, `C194_nan_refuted` CEFN
* C195: `C195_error` CEFN, `C195_zero` CEFN, `C195_integers` CEFN, `C195_intersect` CEFN, `C195_large_refuted` CEFN, `C195_cancel_refuted` CEFN
* C196: `C196_delta` CEFN, `C196_exact` CEFN, `C196_history` CEFN, `C196_first` CEFN, `C196_sum_refuted` CEFN
* C197: `C197_fast` CEFN, `C197_fast_settles` CEFN, `C197_fast_stays` CEFN, `C197_reach_refuted` CEFN, `C197_past_refuted` CEFN, `C197_unstable_refuted` CEFN
* C198: `C198_accurate` CEFN, `C198_accurate_settles` CEFN, `C198_accurate_stays` CEFN, `C198_accurate_long` CEFN
* C199: `C199_set` CEFN, `C199_stored` CEFN, `C199_reload_partial` CEFN, `C199_outside_refuted` -, `C199_subnormal_refuted` -
* C200: `C200_range` CEFN, `C200_close` CEFN, `C200_period` CEFN, `C200_grey` CEFN, `C200_negative_refuted` CEFN
* C201: `C201_brightness` CEFN, `C201_distinct_partial` CEFN, `C201_distinct_refuted` CEFN, `C201_primary` CEFN
* C202: `C202_read` -, `C202_at_partial` -, `C202_at_refuted` -, `C202_interpolated` -, `C202_interpolated_last_refuted` -, `C202_add_channel` -, `C202_add_channel_refuted` -, `C202_resize` -
* C203: `C203_value` CEFN, `C203_knot` CEFN, `C203_samples` CEFN, `C203_sample_refuted` CEFN, `C203_far_refuted` CEFN
* C204: `C204_mean` CEFN, `C204_empty` CEFN, `C204_negative_refuted` CEFN
* C205: `C205_step` CEFN, `C205_run` CEFN, `C205_dies_out_refuted` CEFN
<!-- axioms end -->
