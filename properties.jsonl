{"id": "C01", "title": "flat_map behaves as a finite map", "statement": "Starting from an empty flat_map, after any sequence of operator[] assignment, insert, erase(key), clear and lookups, iteration yields strictly increasing keys, find/contains/count/at/operator[] agree with the mathematical map produced by the same operations (insert never overwrites, operator[] creates a default entry, erase removes exactly that key, at on a missing key throws), and size() is the number of distinct keys present.", "quantifier": "every finite sequence of operations, every key type with a strict total order, every key and value", "why_tests_cant": "A test samples a few histories; the binary search is only right if sortedness and uniqueness survive every interleaving of inserts and erases.", "anchors": ["xo/container/flat_map.h: flat_map::operator[], insert, erase, find, contains, count, at, clear, lower_bound"]}
{"id": "C02", "title": "flat_set behaves as a finite set", "statement": "Starting from an empty flat_set, after any sequence of insert, erase(value) and clear, iteration is strictly increasing, contains/find/count agree with set membership, insert of a present element changes nothing, and size() is the cardinality.", "quantifier": "every finite sequence of operations and every element of a strictly totally ordered type", "why_tests_cant": "Needs every history: membership is decided by binary search over whatever the earlier operations left behind.", "anchors": ["xo/container/flat_set.h: flat_set::insert, erase, find, contains, count, clear"]}
{"id": "C03", "title": "flat_map / flat_set built from an initializer list is a map / set", "statement": "A flat_map (flat_set) constructed from an initializer list holds each key (element) once, as its default-constructed-and-inserted counterpart would.", "quantifier": "every initializer list, including lists with duplicate keys", "why_tests_cant": "Only lists with duplicates show the difference; example tests use distinct keys.", "anchors": ["xo/container/flat_map.h: flat_map(std::initializer_list)", "xo/container/flat_set.h: flat_set(std::initializer_list)"]}
{"id": "C04", "title": "sorted_vector is a sorted multiset", "statement": "After any sequence of insert and remove, the elements are in non-decreasing order, an inserted element is placed after all elements that compare equal to it, no element is lost or duplicated by insert, and remove deletes exactly the elements equivalent to its argument.", "quantifier": "every sequence of operations and every strict weak ordering", "why_tests_cant": "Order, stability and conservation must hold for every history, in particular in presence of ties.", "anchors": ["xo/container/sorted_vector.h: sorted_vector::insert, remove"]}
{"id": "C05", "title": "indexed_map keeps insertion order", "statement": "indexed_map keeps its elements in the order their keys were first added: operator[]/insert on a known key change only the first entry with that key and no position, on a new key append at the end; find returns the first entry with the key; emplace_back/push_back always append.", "quantifier": "every sequence of operations and every key", "why_tests_cant": "The positions are relied on as stable handles across arbitrary later operations.", "anchors": ["xo/container/indexed_map.h: indexed_map::operator[], insert, find, count, contains, push_back, emplace_back"]}
{"id": "C06", "title": "indexed_set / proxy interning is a bijection with stable indices", "statement": "get_or_add returns the same index for equal values and different indices for different values, get_value of the returned index gives back the value, and an index once handed out keeps denoting the same value whatever is added later; when the index type is exhausted the failing call leaves the earlier associations intact.", "quantifier": "every sequence of get_or_add calls, every capacity of the index type", "why_tests_cant": "Stability must hold over all later histories, and the exhaustion case needs more insertions than a test makes.", "anchors": ["xo/container/indexed_set.h: indexed_set::get_or_add, operator[], try_get", "xo/utility/proxy.h: proxy::set, get, operator=="]}
{"id": "C07", "title": "label_vector finds a label exactly at its current position", "statement": "After any sequence of add and set, find(label) returns the position whose current label is that label, and reports absence for labels that are no longer (or never were) present.", "quantifier": "every sequence of add/set operations over all labels", "why_tests_cant": "A stale index entry only shows after a relabelling followed by a lookup of the old name.", "anchors": ["xo/container/label_vector.h: label_vector::add, set, find, resize, constructors"]}
{"id": "C08", "title": "storage reshaping never corrupts samples", "statement": "Growing a storage in frames or channels (resize, add_channel, add_frame, find_or_add_channel) leaves every existing (frame, channel) sample unchanged and gives new samples the fill value (or the supplied data); channels are found by their label; shrinking, reusing a label and frames of the wrong length are rejected with an exception.", "quantifier": "all shapes, all contents, all sequences of reshaping operations", "why_tests_cant": "The row-major buffer is re-laid-out in place; overlap errors depend on the particular sizes.", "anchors": ["xo/container/storage.h: storage::resize, add_channel, add_frame, find_or_add_channel, get_channel, find_channel, operator()"]}
{"id": "C09", "title": "storage frame lookup by time returns the nearest frame", "statement": "For a storage whose searched channel is non-decreasing over the frames, find_frame_index(channel, value) returns a frame whose value is at minimal distance to the given value.", "quantifier": "all strictly increasing time channels and all query times", "why_tests_cant": "An off-by-one in the neighbour comparison only shows for queries near one particular frame.", "anchors": ["xo/container/storage_tools.h: find_frame_index"]}
{"id": "C10", "title": "table keeps cells when rows or columns are added", "statement": "add_row and add_column keep every existing cell reachable under the same (row,column) labels and initialise the new ones; resize to a larger shape keeps existing cells and makes all rows*cols cells accessible.", "quantifier": "all table shapes and contents, all sequences of add_row / add_column / resize", "why_tests_cant": "In-place moves of a row-major buffer; correctness depends on all shapes.", "anchors": ["xo/container/table.h: table::add_row, add_column, resize, operator()"]}
{"id": "C11", "title": "circular_deque is a deque", "statement": "Under any sequence of push_back, push_front, pop_front, pop_back, clear and reserve, size, front, back (const or not), operator[] and iteration show exactly the elements a double-ended queue would hold, the buffer grows when it is full, popping an empty deque throws, and no access outside the buffer happens.", "quantifier": "every operation sequence and every capacity", "why_tests_cant": "Wrap-around positions are reached only by specific push/pop mixes; tests drive a single pattern.", "anchors": ["xo/container/circular_deque.h: circular_deque::push_back, push_front, pop_front, pop_back, front, back, operator[], reserve"]}
{"id": "C12", "title": "circular_buffer keeps the most recent frames", "statement": "For a circular_buffer with n frames, after any sequence of set and advance calls back() shows the channel values of the newest frame, front() those of the oldest frame still kept (the (n-1)-th before the newest, or the first one), empty() tells whether nothing has been advanced, and reset() restores the initial state.", "quantifier": "every interleaving of writes and reads, every frame capacity and channel count", "why_tests_cant": "The in/out offsets wrap independently; only all interleavings settle full/empty confusion.", "anchors": ["xo/container/circular_buffer.h: circular_buffer::set, get, front, back, advance, empty, reset, resize"]}
{"id": "C13", "title": "flag_set operations act on single bits", "statement": "set, set-to-value, clear, toggle (single flag or list) on a flag_set change exactly the named flags and leave every other flag as it was; get, any, any-of, count and data() observe exactly the flags currently set, and two flag sets with the same flags have the same data(). The constructors from a flag or list are the same as setting those flags.", "quantifier": "all flag values below the 64-bit storage width, all stored values, all operation sequences", "why_tests_cant": "2^width states times width flags; frame conditions are universally quantified.", "anchors": ["xo/container/flag_set.h: flag_set::set, clear, toggle, get, any, count, data"]}
{"id": "C14", "title": "prop_node: reading back what was set by query", "statement": "After set_query(q, v), try_get_query(q) returns a node equal to v, and a query addressing a node that is neither on the path of q nor below it gives the same result as before.", "quantifier": "every prop_node tree, every query string and delimiter, every value", "why_tests_cant": "Trees with duplicate or empty keys and arbitrary path depth; the frame condition ranges over all other queries.", "anchors": ["xo/container/prop_node.cpp: prop_node::get_or_add_query, try_get_query", "xo/container/prop_node.h: prop_node::set_query"]}
{"id": "C15", "title": "prop_node: erase removes only its target", "statement": "erase(key) removes exactly the first child with that key and keeps the order and contents of all others; erase_query(q, delim) makes the addressed node disappear and leaves every other node as it was, returning whether anything was erased.", "quantifier": "every tree, key, query and delimiter", "why_tests_cant": "Delimiter handling at each level of an arbitrarily deep path cannot be enumerated.", "anchors": ["xo/container/prop_node.cpp: prop_node::erase, erase_query"]}
{"id": "C16", "title": "prop_node: merge semantics", "statement": "merge(other, overwrite) keeps every key of both trees; where both define a value for the same path the result has other's value iff overwrite is set, and keys only in other are appended in other's order after the existing ones; merging a tree into itself or an empty tree changes nothing.", "quantifier": "all pairs of trees and both overwrite modes", "why_tests_cant": "Recursive structure, arbitrary depth and key collisions.", "anchors": ["xo/container/prop_node.cpp: prop_node::merge", "xo/container/prop_node.h: prop_node::append"]}
{"id": "C17", "title": "prop_node: unaccessed-key report is exact", "statement": "A value node is reported as unaccessed exactly when it has a value and neither it was read since construction nor was marked by set_accessed_recursively; count_unaccessed equals the number of such nodes in the subtree, and copying or comparing trees does not change it.", "quantifier": "every tree and every sequence of reads", "why_tests_cant": "The flag is updated through const getters all over the API; the count must be right after every read history.", "anchors": ["xo/container/prop_node.h: prop_node::access, is_accessed, get, try_get, get_child", "xo/container/prop_node.cpp: count_unaccessed, set_accessed_recursively"]}
{"id": "C18", "title": "prop_node: recursive search is pre-order", "statement": "try_find_child_recursively(key) returns the first node with that key in depth-first pre-order, and nothing exactly when no descendant has the key; find_query_to_node / try_find_parent are consistent with it.", "quantifier": "every tree and key", "why_tests_cant": "Arbitrary tree shapes and repeated keys.", "anchors": ["xo/container/prop_node.cpp: try_find_child_recursively, try_find_parent, count_layers, count_children", "xo/container/prop_node_tools.cpp: find_query_to_node"]}
{"id": "C19", "title": "Quoting strings round-trips", "statement": "try_unquoted(quoted(s)) == s and try_unquoted(try_quoted(s)) == s for every string s; decoding never reads past the end of the string; quoted text contains no control characters.", "quantifier": "every byte string", "why_tests_cant": "All byte strings including control characters, quotes, backslashes, NUL and bytes above 127.", "anchors": ["xo/string/string_tools.cpp: encode_char, decode_char, quoted, try_quoted, try_unquoted, needs_quotes"]}
{"id": "C20", "title": "Tokenizer terminates and partitions its input", "statement": "With operators, delimiters and quotes that contain no NUL, char_stream::get_token on text that does not end in a backslash always returns, never reads beyond the end, only moves forward, and the token it returns is the longest operator at that point, or a maximal run of characters that are no delimiter, quote or operator start, or such runs joined with the decoded contents of quoted sections. A history of any stream operations on such text is likewise defined and only moves forward; repeated get_token reaches the end.", "quantifier": "every text not ending in a backslash, every operator / delimiter / quote configuration without NUL, every sequence of stream operations", "why_tests_cant": "Unterminated quotes and trailing escapes are exactly the inputs tests leave out; termination is not testable.", "anchors": ["xo/serialization/char_stream.cpp: char_stream::get_token", "xo/serialization/char_stream.h: char_stream"]}
{"id": "C21", "title": "ZML write/read round-trip", "statement": "Every prop_node tree whose names and values ZML can represent is written by the ZML serializer without an error, and reading back the written text yields an equal tree; likewise for the concise form when no value is empty. Representable: 7-bit strings; a root without value whose children all have names; names non-empty, starting with a printable character that is not $ and not an operator; values that are no reference (@), macro ($) or comment sign and, if written without quotes, contain no = or single quote and do not end in a colon; array elements non-empty and with either a value or children.", "quantifier": "every representable prop_node tree (keys, values, arrays, nesting of any depth)", "why_tests_cant": "Layout decisions (one-line or multi-line, quoting, array form) depend on content and size; test trees cover a handful.", "anchors": ["xo/serialization/prop_node_serializer_zml.cpp: read_zml_layer, write_zml_kvp, write_zml_layer", "xo/serialization/prop_node_serializer_zml.h"]}
{"id": "C22", "title": "ZML reader is insensitive to layout and comments", "statement": "Two ZML documents that consist of the same tokens give the same result (tree or error), whatever blanks, newlines and # // /* */ comments stand around the tokens. In particular, inserting blanks and comments, beginning with a blank, between two tokens changes nothing, except for a space directly after a colon.", "quantifier": "every document, every token sequence, every layout and every insertion between tokens", "why_tests_cant": "All positions and all comment contents.", "anchors": ["xo/serialization/prop_node_serializer_zml.cpp: read_zml_layer, get_zml_token"]}
{"id": "C23", "title": "INI write/read round-trip", "statement": "For a two-level prop_node whose top-level values come before its groups, whose keys are unique among the top-level values and within each group, and whose keys and values are single-line, trimmed, unambiguous and fit a 1023-character line, reading back the text the INI serializer writes yields an equal prop_node. Empty lines and lines starting with ';' never change what is read, wherever they stand, and the last line does not need a line break. Outside that class (a value after a group, longer lines, outer blanks, repeated keys, deeper levels, values of groups) the tree does not survive.", "quantifier": "every two-level tree in the class, every list of lines of at most 1023 characters", "why_tests_cant": "Line-based splitting on '=' and ';', trimming and fixed line buffer interact with arbitrary contents.", "anchors": ["xo/serialization/prop_node_serializer_ini.cpp: prop_node_serializer_ini::read_stream, write_stream"]}
{"id": "C24", "title": "Include resolution terminates and replaces each directive by the included root node", "statement": "Loading a file with include directives ends with a tree or an exception for every, possibly circular, set of files. In the tree each directive is replaced, in place and keeping the order of its siblings, by the root node of the file it names relative to the including file; with merge_children the contents of that root node are merged into the parent, whose own values win. No directive is left at any depth. Files that include each other in a circle are rejected, as are chains of more than 100 nested files; a file without directives loads unchanged.", "quantifier": "every map from file names to trees, every directive name, every nesting and cycle", "why_tests_cant": "Cycles of every length; a test only has finitely many files.", "anchors": ["xo/serialization/serialize.cpp: resolve_include_files, load_file_with_include"]}
{"id": "C25", "title": "String search helpers agree with their definitions", "statement": "str_begins_with, str_ends_with, str_contains, find_nth_str, left_str, mid_str, right_str return what their names say for every pair of strings and every position, and reject out-of-range positions.", "quantifier": "every pair of strings and every index", "why_tests_cant": "Boundary positions (0, length, beyond) and overlapping occurrences.", "anchors": ["xo/string/string_tools.cpp: find_nth_str, left_str, mid_str, right_str", "xo/string/string_tools.h: str_begins_with, str_ends_with, str_contains"]}
{"id": "C26", "title": "replace_str replaces all non-overlapping occurrences, left to right", "statement": "replace_str(s, from, to) terminates for every non-empty from, the result is s with the leftmost non-overlapping occurrences of from replaced by to, and replaced text is not scanned again (so to may contain from).", "quantifier": "all strings s, to and all non-empty from", "why_tests_cant": "Termination when 'to' contains 'from' and overlap handling are universal claims.", "anchors": ["xo/string/string_tools.cpp: replace_str, replace_char"]}
{"id": "C27", "title": "split_str yields the maximal separator-free pieces", "statement": "split_str(s, seps) returns, in order, exactly the maximal non-empty substrings of s containing no separator; joining with any separator and splitting again gives the same list; trim_str removes exactly the leading and trailing space characters.", "quantifier": "all strings and separator sets", "why_tests_cant": "All positions and runs of separators, empty and all-separator strings.", "anchors": ["xo/string/string_tools.h: split_str", "xo/string/string_tools.cpp: trim_str, trim_left_str, trim_right_str, split_str_at_first, split_str_at_last"]}
{"id": "C28", "title": "Path algebra", "statement": "parent_path() and filename() split a path at its last separator, so parent_path()/filename() is the same path up to the kind of separator (if the parent ends in a name); stem()+extension() equals filename() and replace_extension() changes nothing but the extension whenever the file name has a dot or the directory has none; a / b has file name b and parent a for a single component b; joining is associative; replace_filename, replace_stem and concat_stem keep the other parts; make_preferred only changes separators.", "quantifier": "every path string", "why_tests_cant": "Dots in directory names, hidden files, both kinds of separators, missing components.", "anchors": ["xo/filesystem/path.cpp: parent_path, filename, stem, extension, replace_extension, operator/=, remove_filename"]}
{"id": "C29", "title": "Integer and boolean text conversion round-trips", "statement": "from_str(to_str(x)) succeeds and gives back x for every value of int, unsigned, long, unsigned long, long long, unsigned long long and bool; any blanks-sign-digits text denoting a value of the type is read as that value; from_str reports failure exactly when the text does not begin with a number; and from_str either reports failure or assigns the value denoted by the whole text.", "quantifier": "every value of each integer type, every bool, every input string", "why_tests_cant": "2^32 values and all strings, including out-of-range numbers.", "anchors": ["xo/string/string_cast.h: to_str, from_str", "xo/string/string_cast.cpp: from_str"]}
{"id": "C30", "title": "version comparison is a consistent order", "statement": "The version comparison operators are mutually consistent (<, >, <=, >=, ==, != agree), antisymmetric and transitive, so versions can be sorted, and is_at_least / is_below are complements.", "quantifier": "all pairs and triples of versions, including zero build numbers", "why_tests_cant": "Transitivity is over all triples; the special role of build 0 is easy to miss.", "anchors": ["xo/system/version.h: version_compare, operator<, operator==, version::is_at_least, version::is_below"]}
{"id": "C31", "title": "Memoized functions compute each key once, in every schedule", "statement": "For any number of threads and any interleaving, every call of a memoize_thread_safe object that returns gives a value the wrapped function produced for its arguments, all calls with the same arguments give the same value, the wrapped function is not evaluated again for arguments it once succeeded on, each failed evaluation is reported to exactly one caller and not cached, size() counts the successes, no thread accesses the stored values while another may write them, and calls neither deadlock nor livelock. A memoize object around a recursive function returns what the function itself returns and evaluates each argument at most once.", "quantifier": "every number of threads, every schedule, every call sequence per thread", "why_tests_cant": "Race windows between the shared and the unique lock are schedule-dependent.", "anchors": ["xo/utility/memoize.h: memoize_thread_safe::operator()", "xo/utility/memoize.h: memoize::operator()"]}
{"id": "C32", "title": "file_resource_cache serves data at most its check interval old, in every schedule", "statement": "For any number of threads and any interleaving with the clock and with changes to the files: while files are only replaced by versions with a later modification time and a resource can be made from every version, each call returns a copy of a resource made from contents the file had at most 3 seconds before the call began (or during the call, if the call looked at the file). A call fails only if the file was missing during it, no call touches an invalid item, writers exclude all other threads, and calls never deadlock and finish in a bounded number of steps. Without those conditions stale data can be served for ever: after a version that cannot be loaded, and after two changes within one second.", "quantifier": "every number of threads, list of calls, schedule, sequence of clock readings and file changes", "why_tests_cant": "Needs all schedules and all load-failure points.", "anchors": ["xo/utility/file_resource_cache.h: file_resource_cache::operator()"]}
{"id": "C33", "title": "Log messages reach exactly the interested sinks", "statement": "After any history of creating, destroying, adding and removing sinks and changing their levels and modes, a message of level l issued by a thread is delivered exactly once to each registered sink whose level is at most l and (in current_thread mode) is owned by that thread, in order, and to no other sink; error and critical messages flush all registered sinks; the global early-out never suppresses a message some sink wants. With threads: each log_string call offers its message exactly once to each sink registered at that time and the list of sinks does not change meanwhile; the early-out is exact whenever no thread is changing the registry. (While another thread registers a sink, a wanted message can be lost; formatted messages are cut off at 1023 bytes.)", "quantifier": "every history of sink operations, all levels, all threads, every schedule", "why_tests_cant": "The cached global minimum level must be right after every history.", "anchors": ["xo/system/log.cpp: add_sink, remove_sink, test_log_level, log_string", "xo/system/log_sink.cpp: sink::test_log_level, set_log_level, set_sink_mode"]}
{"id": "C34", "title": "timer measures running time across pause and resume", "statement": "For any history of pause, resume, restart and set at any clock readings, operator() returns the time accumulated while running since the last restart/set; pausing twice or resuming twice has no further effect.", "quantifier": "every finite history of timer operations and every monotone clock", "why_tests_cant": "Quantifies over histories and clock readings.", "anchors": ["xo/time/timer.cpp: timer::operator(), pause, resume, restart, set"]}
{"id": "C35", "title": "stopwatch splits add up", "statement": "For any rounds of splits, each begun by restart: there is one entry per split position, holding the sum over all rounds of the times of the splits made at that position; the sum of all entries is the sum over the rounds of the time from restart to the round's last split; if all rounds make their splits in the same order the names are those of the splits; the report lists every split and that total. (Splits made in another order are added to a different name, and a split named TOTAL is overwritten by the total.)", "quantifier": "every sequence of split/restart and every monotone clock", "why_tests_cant": "Accumulation over arbitrarily many rounds.", "anchors": ["xo/time/stopwatch.h: stopwatch::split, restart", "xo/time/stopwatch.cpp: stopwatch::get_report"]}
{"id": "C36", "title": "profiler accounting is exact for nested sections", "statement": "For every properly nested history of sections, including recursion, the time attributed to a section is the sum of the durations of its activations at that call path, the call counts are exact, the exclusive times of all sections sum up to the root's total time, and no exclusive time is negative.", "quantifier": "every properly nested call history and monotone clock", "why_tests_cant": "Arbitrary nesting, recursion, and vector reallocation points.", "anchors": ["xo/system/profiler.cpp: start, stop, start_section, end_section, find_section, exclusive_time"]}
{"id": "C37", "title": "settings stay within their schema", "statement": "For a schema in which no setting lies inside another: after any sequence of set and load calls that name settings by key, everything stored is on the way to or inside a setting of the schema; a setting that is stored differs from its default, has its declared type and is one of the allowed values, or, when it has a range, is the text of a number in that range (NaN excepted). set returns true exactly when the value is the default, empty, or of the declared type and allowed; when it returns false nothing changes; when it returns true get gives the default, the value, or the value restricted to the range, and no other setting changes. load does for each setting in the file what set would do.", "quantifier": "every schema, every sequence of set / load calls with every value", "why_tests_cant": "Invariant over histories and arbitrary input files.", "anchors": ["xo/system/settings.cpp: settings::try_set, set_recursive, load", "xo/system/settings.h: settings::get, set"]}
{"id": "C38", "title": "factory registration", "statement": "After any sequence of register_type and unregister_type, create returns an instance made by the creator registered for that name and throws for unregistered names; registering a taken name or unregistering an unknown one throws and changes nothing; try_create returns null exactly for unregistered names.", "quantifier": "every history of registrations and all names", "why_tests_cant": "History-quantified.", "anchors": ["xo/utility/factory.h: factory::register_type, unregister_type, create, try_create, has_type"]}
{"id": "C39", "title": "arg_parser finds flags and values", "statement": "For a name that does not itself begin with a dash: has_flag(f) holds exactly when some argument is one or more dashes followed by f; get(f, default) returns the reading of the argument following the first such flag, and the default when the flag is absent or that argument is missing or begins with a dash; positional get(i) sees only the arguments before the first one that begins with a dash. Names beginning with a dash are never found.", "quantifier": "every argument vector and flag name", "why_tests_cant": "All argument lists incl. empty ones.", "anchors": ["xo/utility/arg_parser.h: arg_parser::find_flag, has_flag, get"]}
{"id": "C40", "title": "clamp and bounds", "statement": "clamp/clamped return the value of [lower,upper] nearest to the argument, leave values inside unchanged, are idempotent and monotone, for any ordered number type (doubles except NaN); bounds::is_within agrees with clamp being the identity; extend yields the smallest bounds containing the old bounds and the value; get_violation is zero exactly inside the bounds and is the signed distance outside; soft_clamp and smooth_clamp stay strictly inside the limits, change nothing away from the boundary and are strictly increasing.", "quantifier": "all values and all bounds with lower <= upper", "why_tests_cant": "Universal over an ordered field.", "anchors": ["xo/numerical/math.h: clamp, clamped, soft_clamped, smooth_clamped", "xo/numerical/bounds.h: bounds::is_within, clamp, extend, get_violation, check"]}
{"id": "C41", "title": "Integer helper functions", "statement": "greatest_common_divisor returns the greatest common divisor of its arguments, is_power_of_two recognises exactly the powers of two, is_even/is_odd recognise parity, power(b,n) is b^n also for negative n, count_digits gives the number of digits of its argument in the given base, midpoint is half the sum rounded towards the first argument, sign/signum/same_sign agree with the sign of the number.", "quantifier": "all integers / bases", "why_tests_cant": "Infinite domains, zero and boundary cases.", "anchors": ["xo/numerical/math.h: greatest_common_divisor, power, is_power_of_two, is_even, is_odd, count_digits, midpoint, sign, signum"]}
{"id": "C42", "title": "Periodic helpers", "statement": "wrap(x, lo, hi) returns a value in [lo,hi) that differs from x by a multiple of hi-lo; pos_mod(x,y) returns the representative of x modulo y in [0,y); square_wave and triangle_wave are periodic and bounded, the triangle wave piecewise linear.", "quantifier": "all reals x and all intervals", "why_tests_cant": "Negative multiples of the period are measure-zero inputs.", "anchors": ["xo/numerical/math.h: wrap, pos_mod, square_wave, triangle_wave"]}
{"id": "C43", "title": "Interpolation passes through its data", "statement": "lerp(a,b,0)=a, lerp(a,b,1)=b and lerp is between a and b for t in [0,1], also lerp_precise; a piecewise linear function takes the last value given for each abscissa, lies on the line between neighbouring points and extrapolates the outer segments; a piecewise constant function holds the value of the last abscissa not after the argument; lerp_map is exact at keys, linear in between and constant outside; interpolation in a sequence and on a regular grid likewise.", "quantifier": "all data sets (any order, with duplicates) and all arguments", "why_tests_cant": "All segment boundaries and data sizes.", "anchors": ["xo/numerical/interpolation.h: lerp, lerp_precise, lerp_map, lerp", "xo/numerical/piecewise_linear_function.h", "xo/numerical/piecewise_constant_function.h", "xo/numerical/regular_piecewise_linear_function.h"]}
{"id": "C44", "title": "delayer reproduces its input after the delay", "statement": "Before the delay has elapsed a delayer returns its initial value; afterwards the input value from exactly delay seconds ago, interpolated between the samples (delayer) or window means (smooth_delayer) that it keeps.", "quantifier": "all input sequences, delays and step sizes", "why_tests_cant": "Time-history quantified.", "anchors": ["xo/numerical/delayer.h: delayer::add_sample, delayed_value, smooth_delayer"]}
{"id": "C45", "title": "Quaternion rotation laws", "statement": "For unit quaternions, q*v is a rotation (linear, keeps dot and cross products), p*q is the composition, associative, with the identity neutral, conjugate and inverse undo q, the axes from axes_from_quat / local_x_axis etc. are the rotated unit vectors, and two unit quaternions are the same rotation exactly when equal or opposite. inverse also inverts quaternions that are not of unit length.", "quantifier": "all unit quaternions and all vectors over the reals", "why_tests_cant": "Continuous domain, identities must hold everywhere.", "anchors": ["xo/geometry/quat.h: operator*, conjugate, local_x_axis, axes_from_quat, inverse", "xo/geometry/vec3.h: cross_product, dot_product"]}
{"id": "C46", "title": "Transforms form a group action", "statement": "Composition of transforms is associative and agrees with applying one after the other, identity is neutral, inv() is a two-sided inverse, inv_trans undoes trans, for points, orientations and transforms. The same for transforms with a scale.", "quantifier": "all transforms with unit orientation, all vectors", "why_tests_cant": "Continuous domain.", "anchors": ["xo/geometry/transform.h: transform_::operator*, inv, inv_trans, trans"]}
{"id": "C47", "title": "Rotation matrix / quaternion conversion", "statement": "quat_from_mat33 of any right-handed orthonormal frame is a unit quaternion that turns the main axes into that frame; for the matrix of a unit quaternion q it is q or -q, in every branch of the algorithm.", "quantifier": "all unit quaternions", "why_tests_cant": "Branch boundaries near 180 degrees rotations.", "anchors": ["xo/geometry/mat33.h: quat_from_mat33, mat33_from_axes", "xo/geometry/quat.h: axes_from_quat"]}
{"id": "C48", "title": "Euler angle conversion", "statement": "For every Euler order, quat_from_euler is the rotation about the last axis, then the middle, then the first; euler_from_quat(quat_from_euler(e)) gives back e when the middle angle is in (-90,90) degrees and the outer angles in (-180,180]; and quat_from_euler(euler_from_quat(q)) is the rotation q for every unit quaternion.", "quantifier": "all angles in the stated range, all unit quaternions and all six orders", "why_tests_cant": "Continuous domain times six sign conventions.", "anchors": ["xo/geometry/quat.h: quat_from_euler_*, euler_*_from_quat"]}
{"id": "C49", "title": "Mirroring is an involution compatible with transforms", "statement": "Mirroring is the reflection in the plane z = 0: mirroring twice is the identity for vectors, axes, quaternions, bounds, limits and transforms; mirroring a product equals the product of the mirrored quaternions or transforms; mirrored(q)*mirrored(v) = mirrored(q*v); the mirrored rotation is the rotation by the same angle about the mirrored axis; mirrored bounds hold exactly the negated values.", "quantifier": "all transforms, vectors, quaternions, angles, bounds", "why_tests_cant": "Continuous domain / all strings.", "anchors": ["xo/geometry/mirror_tools.h: mirror, mirrored"]}
{"id": "C50", "title": "aabb contains what was added", "statement": "The aabb obtained by adding points/boxes contains exactly the hull: every added point is inside, and the box is the smallest such; the aabb of a transformed box or sphere contains every transformed point of it and is the smallest such.", "quantifier": "all point sequences, boxes and transforms", "why_tests_cant": "Continuous domain; sequence length unbounded.", "anchors": ["xo/shape/aabb.h: aabb_::operator+=", "xo/shape/box.cpp: aabb, corners", "xo/shape/sphere.h: aabb"]}
{"id": "C51", "title": "Distance to a segment / between lines is the minimum", "statement": "distance(point, segment) is the minimum distance from the point to any point of the segment. closest_points of two lines returns points on the two lines at minimum distance, whatever the (nonzero) lengths of their direction vectors.", "quantifier": "all points, segments, lines", "why_tests_cant": "Minimum over a continuum.", "anchors": ["xo/geometry/segment.h: distance", "xo/geometry/line.h: closest_points, distance"]}
{"id": "C52", "title": "Regression lines are optimal or robust", "statement": "linear_regression (both versions) returns the line with a smaller sum of squared residuals than every other line; linear_median_regression returns the line of equidistant points that lie on one; repeated_median_regression returns the line on which a majority of the points lie, wherever the others are. Invalid data throws; all-equal x values divide by zero.", "quantifier": "all data sets (any size), all competing lines, all sets of outliers", "why_tests_cant": "Optimality is a universal statement over all lines.", "anchors": ["xo/numerical/regression.h: linear_regression, linear_median_regression, repeated_median_regression"]}
{"id": "C53", "title": "Order statistics", "statement": "median and median_slow return the middle element (mean of the two middle elements for even sizes) of the sorted data; sorted_indices is a permutation that sorts the data; min/max give the first extreme element; average, mean_var and mean_std give mean, mean squared deviation and its root; top_average averages the lowest elements.", "quantifier": "all non-empty data sets", "why_tests_cant": "All sizes, ties and permutations.", "anchors": ["xo/container/container_algorithms.h: median, median_slow, sorted_indices, top_average, average, mean_var, mean_std, min_element, max_element"]}
{"id": "C54", "title": "Hash: compile-time and run-time variants agree", "statement": "hash(s) at run time equals \"s\"_hash for every C string; for strings of 7-bit characters both are the 64-bit FNV-1a hash, and characters above 127 enter it sign-extended (so the result is then not FNV-1a of the octets). Two strings that differ in exactly one character never have the same hash.", "quantifier": "every NUL-free byte string", "why_tests_cant": "Signedness of characters above 127 enters the xor.", "anchors": ["xo/utility/hash.h: hash, hash_constexpr, operator\"\"_hash"]}
{"id": "C55", "title": "enum and date text round-trips", "statement": "For a smart enum whose enumerators have no explicit values, to_str(e) is the name of e, from_str(to_str(e)) = e for each enumerator and from_str fails for every other string (enumerators with explicit values are converted wrongly). from_str(to_str(d)) = d for every date with non-negative fields, and from_str accepts exactly three parts separated by '-', '.' or '/' that each start with an integer.", "quantifier": "all enumerator lists, all strings, all dates", "why_tests_cant": "Prefix names and separators.", "anchors": ["xo/utility/smart_enum.h: to_str, from_str", "xo/time/date.h: to_str, from_str"]}
{"id": "C56", "title": "optional with sentinel", "statement": "After any sequence of assignments, resets and writes through *o, an xo::optional behaves like an optional value: it reports whether it has one, value() throws exactly when it is empty, value_or gives the default exactly when it is empty, == and != with a value are complementary and == of two optionals compares content - provided the blank value (sentinel, NaN) is never stored. != of two optionals never returns.", "quantifier": "all values and operation sequences", "why_tests_cant": "The sentinel is one value in 2^32 / 2^64.", "anchors": ["xo/utility/optional.h: optional"]}
{"id": "C57", "title": "Filters are linear and have unit DC gain", "statement": "The output of an IIR filter satisfies its difference equation; it is linear and time-invariant in its input. The Butterworth low-pass filter converges to a constant input, and has the gain 1/sqrt(1+(tan(pi f)/tan(pi fc))^4) for a sinusoid of frequency f, which is 1/sqrt 2 at the cutoff.", "quantifier": "all coefficient sets, all input sequences, all cutoff ratios in (0, 1/2) and frequencies", "why_tests_cant": "Sequences of unbounded length.", "anchors": ["xo/numerical/filter.h: iir_filter, make_lowpass_butterworth_2nd_order"]}
{"id": "C58", "title": "Path points insertion preserves the path", "statement": "insert_path_point(path, s) returns the index of a point at arc length s (clamped to the path) and leaves the geometry of the path (its total length and all original points in order) unchanged.", "quantifier": "all polylines with at least two points and all lengths", "why_tests_cant": "Continuous domain and unbounded number of points.", "anchors": ["xo/geometry/path_alg.h: path_length, insert_path_point"]}
{"id": "C59", "title": "Unique directory creation", "statement": "create_unique_directory returns one of the candidates \"name\", \"name (1)\", ..., which did not exist before and is a directory afterwards, keeps all existing directories and throws only if every candidate is taken or cannot be created; callers running at the same time never get the same directory; create_directories creates all missing parents; find_unique_directory returns the first candidate that is not a directory.", "quantifier": "every file system state", "why_tests_cant": "All file system states.", "anchors": ["xo/filesystem/filesystem.cpp: create_directories, create_unique_directory, find_unique_directory, try_find_file, find_file"]}
{"id": "C60", "title": "cached_var recomputes exactly when the time stamp changes; interval_checker is rate-limited", "statement": "cached_var evaluates its function exactly when the time stamp of a query differs from that of the previous query and otherwise returns the previous result; interval_checker::check returns true exactly if at least the interval has passed since it last did (or since time 0), hence at most once per interval.", "quantifier": "every sequence of queries", "why_tests_cant": "History-quantified.", "anchors": ["xo/utility/cached_var.h: cached_var::operator()", "xo/time/interval_checker.h: interval_checker::check"]}
{"id": "C61", "title": "Stop requests are never lost", "statement": "After any sequence of making, copying, moving and assigning stop sources and tokens and requesting stops, a token or source reports stop_requested exactly if a stop was requested through a source that goes back to the same original source; default and moved-from tokens never report one, and a reported stop stays reported.", "quantifier": "every history of sources, copies, tokens and requests", "why_tests_cant": "History-quantified; sharing of state across copies.", "anchors": ["xo/thread/stop_token.h: stop_source, stop_token"]}
{"id": "C62", "title": "Handles keep denoting their element", "statement": "handle_vector::push_back returns a handle that gives access to the new element and keeps all earlier handles valid; after erasing a span of handles, update_moved_handle applied to the handle of any element that was not erased gives a handle denoting the same element, and invalid handles stay invalid.", "quantifier": "all vectors shorter than the handle range, all spans, all handles", "why_tests_cant": "all positions relative to the erased span, and unsigned wrap-around in the index arithmetic", "anchors": ["xo/utility/handle.h: update_moved_handle, handle_span", "xo/container/handle_vector.h: push_back, erase, operator[]"]}
{"id": "C63", "title": "Rejected container calls have no effect", "statement": "When add_channel on a storage, add_column/add_row on a table, add/set on a label_vector or get_or_add on an indexed_set throws, the container is afterwards as it was before the call.", "quantifier": "every container state and every rejected call", "why_tests_cant": "A test shows one rejected call leaving one container intact; the claim is about every reachable state, and rejections happen after partial updates.", "anchors": ["xo/container/storage.h: storage::add_channel", "xo/container/table.h: table::add_column, add_row", "xo/container/indexed_set.h: indexed_set::get_or_add"]}
{"id": "C64", "title": "Joining strings skips empty parts and undoes splitting", "statement": "concat_str(list, delim) is the non-empty elements in order with exactly one delim between neighbours; splitting the result on the delimiter characters gives the non-empty elements back; append_str puts exactly one delimiter between existing text and the appended text unless the text is empty or already ends with the delimiter.", "quantifier": "all lists of strings and delimiters", "why_tests_cant": "All positions of empty elements, and all texts that already end in the delimiter.", "anchors": ["xo/string/string_tools.cpp: concat_str, append_str"]}
{"id": "C65", "title": "make_key_value_str splits at the first separator", "statement": "For text with a separator, make_key_value_str returns the trimmed text before the first separator and the trimmed text after it; for text without separator the whole text and an empty value.", "quantifier": "all strings and separator sets", "why_tests_cant": "Later separators inside the value and arbitrary surrounding whitespace.", "anchors": ["xo/string/string_tools.cpp: make_key_value_str"]}
{"id": "C66", "title": "File-name helpers decompose the path text", "statement": "get_filename_ext returns the text after the last dot if that text has no slash (otherwise nothing) and get_filename_without_ext the text before that dot; get_filename_folder and get_filename_without_folder split the text after the last slash, so that together they give the original.", "quantifier": "all strings", "why_tests_cant": "Dots in folder names, no dot, no slash, trailing dot or slash.", "anchors": ["xo/string/string_tools.cpp: get_filename_ext, get_filename_without_ext, get_filename_folder, get_filename_without_folder"]}
{"id": "C67", "title": "version text round-trips", "statement": "from_str(to_str(v)) into any existing version succeeds and yields v.", "quantifier": "every version with int fields, every previous content of the variable read into", "why_tests_cant": "All combinations of the five fields with all previous contents; the interesting cases are zero build numbers and postfixes.", "anchors": ["xo/string/string_cast.cpp: to_str(const version&), from_str(const string&, version&)"]}
{"id": "C68", "title": "prop_node: equality is structural", "statement": "operator== holds for two property trees exactly when they have the same values, the same keys and the same order of children at every level; it ignores which nodes have been accessed and is an equivalence relation.", "quantifier": "all pairs and triples of trees", "why_tests_cant": "Arbitrary depth, repeated and empty keys.", "anchors": ["xo/container/prop_node.cpp: prop_node::operator=="]}
{"id": "C69", "title": "prop_node: the query made for a node leads back to it", "statement": "For every proper descendant of a tree, find_query_to_node and make_prop_node_query give a query with which try_get_query returns that same node.", "quantifier": "every tree and every node in it", "why_tests_cant": "Every node of every tree shape, including arrays and repeated keys.", "anchors": ["xo/container/prop_node_tools.cpp: find_query_to_node, make_prop_node_query", "xo/container/prop_node.cpp: try_get_query"]}
{"id": "C70", "title": "prop_node: typed access", "statement": "set(key, x) followed by get<T>(key) returns x and affects no other key; get with a default returns the default exactly when the key is absent, and throws on an unreadable value; get_any uses the first listed key that exists; get_all returns the values of all children with the key in order; a vector stored in a node is read back unchanged.", "quantifier": "every tree, key, value type with invertible text form, and value", "why_tests_cant": "Trees with repeated keys and all key lists cannot be enumerated.", "anchors": ["xo/container/prop_node.h: prop_node::set, get, get_any, get_all, prop_node_cast"]}
{"id": "C71", "title": "prop_node from command line", "statement": "prop_node_from_arg turns options '-key' or '-key value' into children in the given order with the value, or an empty value, and keeps every argument.", "quantifier": "every argument list", "why_tests_cant": "All interleavings of keys, values and positional arguments.", "anchors": ["xo/container/prop_node_tools.cpp: prop_node_from_arg"]}
{"id": "C72", "title": "File search order", "statement": "find_file returns the first existing file among, for each given path in order, the path itself if absolute and then the path under the current search folder, and throws exactly when none of them exists; try_find_file does the same without trying absolute paths under the search folder and returns nothing instead of throwing.", "quantifier": "every list of paths, search folder and set of existing files", "why_tests_cant": "Tests cover single files in one folder; precedence for every combination of existing files, absolute and relative paths is not sampled.", "anchors": ["xo/filesystem/filesystem.cpp: find_file, try_find_file, current_find_file_path"]}
{"id": "C73", "title": "File search in folders ends", "statement": "try_find_file( file, folders ) returns an existing absolute file itself, else the first existing folder/file (folder/filename for an absolute path), and always returns.", "quantifier": "every file path, list of folders and set of existing files", "why_tests_cant": "The recursion on the file name does not end for missing files whose bare name counts as absolute; a test would hang rather than report.", "anchors": ["xo/filesystem/filesystem.cpp: try_find_file", "xo/filesystem/path.cpp: is_absolute, filename"]}
{"id": "C74", "title": "time values convert and divide exactly", "statement": "Dividing a time by a count gives the quotient in nanoseconds, time_from_seconds of a whole number of seconds is that number times 10^9, and distance is the absolute difference, for positive and negative times alike.", "quantifier": "all times, counts and whole numbers of seconds", "why_tests_cant": "Wrong only for negative values (mixed signed/unsigned division, truncation after adding 0.5).", "anchors": ["xo/time/time.h: operator/( size_t ), time_from_seconds, distance"]}
{"id": "C75", "title": "settings survive saving and reloading", "statement": "After any sequence of set and load calls, writing the settings and loading the written file into a fresh settings object with the same schema gives every setting the value it had.", "quantifier": "every schema, every history of set and load calls, every version written", "why_tests_cant": "Depends on every value being accepted again by the checks in set after it was restricted to a range and printed with limited precision; that is an argument about all values and all ranges.", "anchors": ["xo/system/settings.cpp: settings::save, load, try_set", "xo/string/string_cast.cpp: to_str(double)"]}
{"id": "C76", "title": "Side suffixes of names", "statement": "Every name is in exactly one way a base with side suffix _l, _r or none. str_get_side reads that side, str_remove_side gives the base, str_mirror_side and str_mirrored_side swap the suffix (twice gives the name back), str_set_side gives the base with the new suffix, str_append_before_side inserts before the suffix. (Setting the side of a name with two suffixes to none leaves a name that has a side.)", "quantifier": "all strings, all sides", "why_tests_cant": "Unbounded strings; short names, names that consist of a suffix only, stacked suffixes.", "anchors": ["xo/utility/side.h: str_get_side, str_remove_side, str_set_side, str_mirror_side, str_mirrored_side, str_append_before_side"]}
{"id": "C77", "title": "Integer ranges", "statement": "Iterating make_irange(b, e) visits b, b+1, ..., e-1 in that order; make_irange(b, e, s) visits b, b+s, ... up to but excluding e when e is reached. When e lies before b, or the steps jump over e, the loop never ends.", "quantifier": "all integers b, e and steps s <> 0", "why_tests_cant": "Unbounded; whether a loop ends cannot be tested.", "anchors": ["xo/utility/irange.h: irange, irange_step, make_irange"]}
{"id": "C78", "title": "result holds what was assigned last", "statement": "After any sequence of assignments of values and errors, a result reports success with the value if a value was assigned last, and failure with the message if an error with a non-empty message was assigned last. (An error with an empty message counts as success.)", "quantifier": "all values, messages and sequences", "why_tests_cant": "History-quantified; the empty message.", "anchors": ["xo/utility/result.h: result, error_message"]}
{"id": "C79", "title": "Approximate comparison", "statement": "equal(a,b,eps) is true exactly if a and b differ by at most the relative tolerance; it is reflexive and symmetric, numbers of different sign are never equal, and the ordered comparisons are each other's complements.", "quantifier": "all real a, b and tolerances", "why_tests_cant": "Universal over the reals; asymmetry shows only at the boundary of the tolerance.", "anchors": ["xo/numerical/compare.h"]}
{"id": "C80", "title": "Value with compile-time bounds", "statement": "Assigning to a bounded<T,L,U> stores the value if it is within bounds and throws otherwise, so the stored value is always within bounds.", "quantifier": "all assigned values", "why_tests_cant": "A missing return is undefined behaviour: tests may pass by accident of the compiler.", "anchors": ["xo/numerical/bounded.h"]}
{"id": "C81", "title": "First-order filter", "statement": "update_accurate of filter_1st_order does not depend on how time is divided into steps, decays exponentially towards the input and never overshoots; update_fast has the same fixed point and does not overshoot.", "quantifier": "all rates, values and time steps", "why_tests_cant": "Independence of all step sequences is a universal statement.", "anchors": ["xo/numerical/filter_1st_order.h"]}
{"id": "C82", "title": "Difference and average accumulators", "statement": "The results of delta add up to the last value minus the initial one; average_ returns the weighted mean of what was added, which lies between the smallest and the largest value.", "quantifier": "all sequences of values and weights", "why_tests_cant": "All lengths and weights.", "anchors": ["xo/numerical/delta.h", "xo/numerical/average.h"]}
{"id": "C83", "title": "Polynomials and minimum jerk", "statement": "A polynomial evaluates to the sum of c_i x^i, intersect_y solves the linear one; the minimum jerk curve goes from 0 to 1, is strictly increasing, and its velocity and acceleration vanish at both ends.", "quantifier": "all coefficients and arguments", "why_tests_cant": "Universal over the reals; derivatives.", "anchors": ["xo/numerical/polynomial.h", "xo/numerical/functions.h: minimum_jerk"]}
{"id": "C84", "title": "Channel means and covariance", "statement": "compute_channel_means and compute_covariance return the mean of every channel and a symmetric positive semidefinite matrix with variances on its diagonal and the mean product minus the product of means elsewhere.", "quantifier": "all non-empty storages, all channels, all weight vectors", "why_tests_cant": "Semidefiniteness quantifies over all data and all weight vectors.", "anchors": ["xo/utility/data_algorithms.h: compute_channel_means, compute_covariance"]}
{"id": "C85", "title": "Normalisation", "statement": "normalize gives unit length in the same direction for every quaternion but zero (division by zero); normalize_fast keeps the direction, never exceeds length one and leaves at most the square of the previous length error; normalize_try_fast is within the square of its tolerance; a vector longer than epsilon becomes the unit vector in its direction, a shorter one is left alone.", "quantifier": "all quaternions and vectors over the reals, all tolerances", "why_tests_cant": "An error bound over a continuous domain.", "anchors": ["xo/geometry/quat.h: normalize, normalize_fast, normalize_try_fast", "xo/geometry/vec3.h: normalize, normalized"]}
{"id": "C86", "title": "Distance and projection", "statement": "distance is a metric (symmetric, zero only for equal points, triangle inequality), dot_product is bounded by the product of the lengths, and projection gives the multiple of the second vector nearest to the first.", "quantifier": "all vectors over the reals", "why_tests_cant": "Optimality over all multiples and all vectors.", "anchors": ["xo/geometry/vec3.h: distance, dot_product, projection, length"]}
{"id": "C87", "title": "Axis, angle and rotation vector", "statement": "quat_from_axis_angle turns vectors about the axis by the angle; axis_angle_from_quat and rotation_vector_from_quat give back a unit axis and an angle up to a full turn that make up the quaternion, and the zero rotation for a vector part no longer than the tolerance; rotation vectors shorter than a full turn survive the round trip.", "quantifier": "all unit axes, angles, unit quaternions, rotation vectors and tolerances", "why_tests_cant": "Trigonometric identities on a continuous domain.", "anchors": ["xo/geometry/quat.h: quat_from_axis_angle, axis_angle_from_quat, quat_from_rotation_vector, rotation_vector_from_quat"]}
{"id": "C88", "title": "Rotation between directions", "statement": "quat_from_directions gives a unit quaternion that turns the first direction into the second, about an axis perpendicular to both.", "quantifier": "all pairs of unit vectors", "why_tests_cant": "Continuous domain with a singularity at opposite directions.", "anchors": ["xo/geometry/quat.h: quat_from_directions"]}
{"id": "C89", "title": "Rotation about an axis: swing and twist", "statement": "rotation_around_axis (and quat_angle_around_axis, rotation_around_x/y/z) gives the angle of the twist: the quaternion is a rotation with axis perpendicular to the given axis after a rotation by that angle about the axis; the angle of a pure rotation about the axis is recovered for angles in (-2 pi, 2 pi].", "quantifier": "all unit quaternions and unit axes", "why_tests_cant": "Continuous domain; sign conventions.", "anchors": ["xo/geometry/quat.h: rotation_around_axis, quat_angle_around_axis, rotation_around_x, rotation_around_y, rotation_around_z"]}
{"id": "C90", "title": "Headings, polar coordinates and angle units", "statement": "pitch, yaw and roll are the directions of the turned y, z and x axis in the yz, zx and xy plane, so the angle of a rotation about x, y or z; vec3_from_polar has the given radius, inclination and azimuth; degrees and radians convert by PI/180 up to one in 10^16 and back and forth up to one in 10^18.", "quantifier": "all unit quaternions, angles and radii over the reals", "why_tests_cant": "Continuous domain; the precision of the constants is beyond that of the test's own arithmetic.", "anchors": ["xo/geometry/quat.h: pitch, yaw, roll, quat_from_x_angle, quat_from_y_angle, quat_from_z_angle", "xo/geometry/angle.h: vec3_from_polar", "xo/geometry/angle_type.h: rad_to_deg, deg_to_rad"]}
{"id": "C91", "title": "Volume and inertia of shapes", "statement": "volume(shape) is the volume of the solid it describes and inertia(shape, density) holds its moments of inertia about the x, y and z axes (the integrals of density times squared distance to the axis), for sphere, box, cylinder, capsule and (volume only) cone; the inertia is proportional to the density.", "quantifier": "all shapes, sizes and densities", "why_tests_cant": "The reference is an integral over a continuum; a wrong factor goes unnoticed for particular sizes.", "anchors": ["xo/shape/sphere.h: volume, inertia", "xo/shape/box.cpp: volume, inertia", "xo/shape/cylinder.h: volume, inertia", "xo/shape/capsule.h: volume, inertia", "xo/shape/cone.h: volume"]}
{"id": "C92", "title": "Scaling shapes", "statement": "scale(shape, f) multiplies the volume by f^3 and the inertia by f^5; scale(shape, v) multiplies the volume by v.x*v.y*v.z, and scaling by (f,f,f) is the same as scaling by f.", "quantifier": "all shapes, scale factors and scale vectors", "why_tests_cant": "Continuous domain; a law between results rather than a value.", "anchors": ["xo/shape/sphere.h: scale", "xo/shape/box.cpp: scale", "xo/shape/cylinder.h: scale", "xo/shape/capsule.h: scale", "xo/shape/cone.h: scale"]}
{"id": "C93", "title": "Extents of shapes", "statement": "dim(shape) is the size of the smallest axis-aligned box around the shape; distance_from_center(shape, dir) is the distance at which a ray from the centre in unit direction dir leaves the shape; center_positions of a capsule are the centres of its two caps; operations that a shape does not support raise an error.", "quantifier": "all shapes, sizes and directions", "why_tests_cant": "Continuous domain of directions; correctness means a statement about all points of the solid.", "anchors": ["xo/shape/sphere.h: dim", "xo/shape/box.cpp: dim", "xo/shape/cylinder.h: dim", "xo/shape/capsule.h: dim, center_positions", "xo/shape/shape_tools.h: distance_from_center, intersection_from_center"]}
{"id": "C94", "title": "Intersection of a line with a plane", "statement": "intersection(line, plane, transform) is the unique point that lies on the line and in the transformed plane, whenever the line is not parallel to the plane.", "quantifier": "all lines, planes and transforms", "why_tests_cant": "Continuous domain; uniqueness.", "anchors": ["xo/shape/shape_tools.h: intersection"]}
{"id": "C95", "title": "Catmull-Rom splines interpolate", "statement": "A Catmull-Rom segment runs from its second to its third control point; consecutive segments join with equal position and velocity; a spline through points with increasing times passes through each inner point at its time, evaluates the segment around any other time, and rejects point and time lists of the wrong size. The variant with times from the distances between the points does the same if neighbouring points differ; its segments join with equal velocity per unit of time, and with equal times it is the plain segment. (A repeated point makes it undefined, and velocities by the segments' own parameters differ when the distances do.)", "quantifier": "all control points, times and parameters", "why_tests_cant": "Continuous domain, unbounded number of points; smoothness is a statement about limits.", "anchors": ["xo/geometry/catmull_rom.h: catmull_rom_segment, catmull_rom_segment_alpha, catmull_rom"]}
{"id": "C96", "title": "Length of a spline", "statement": "compute_spline_length is the length of the polyline through the sampled points: at least the distance between the end points, exact for straight lines, and never smaller when the steps are subdivided.", "quantifier": "all curves, intervals and numbers of steps", "why_tests_cant": "Quantifies over all curves.", "anchors": ["xo/geometry/catmull_rom.h: compute_spline_length"]}
{"id": "C97", "title": "Generic searches and tests on containers", "statement": "find, find_if, find_index, find_index_if, find_ref_if return the first match (from the given index on), and the end / no_index / an exception when there is none; any_of, none_of, contains, contains_if and count agree with the elements; for_each visits all in order.", "quantifier": "all containers, predicates, elements and start indices", "why_tests_cant": "Quantifies over all containers and predicates.", "anchors": ["xo/container/container_tools.h: for_each, find, find_if, find_index, find_index_if, find_ref_if, count, count_if, any_of, none_of, contains, contains_if, back_index"]}
{"id": "C98", "title": "Copying between containers", "statement": "Copy functions give each target element its source's old value and touch nothing else, also when ranges overlap; container copies throw when the target is too small.", "quantifier": "all memory contents, ranges and positions", "why_tests_cant": "Overlap and frame conditions range over all positions.", "anchors": ["xo/container/container_tools.h: copy, copy_to_range, copy_cast, copy_container"]}
{"id": "C99", "title": "Filtered views and zipping", "statement": "Iterating a view_if terminates and visits exactly the elements that satisfy the predicate, in order; zip pairs the elements at equal positions and stops at the end of the shorter container.", "quantifier": "all containers and predicates", "why_tests_cant": "Termination and completeness over all containers.", "anchors": ["xo/container/view_if.h: view_if", "xo/container/zip.h: zipper, zip"]}
{"id": "C100", "title": "dynarray variables are values", "statement": "Any program over dynarray variables behaves as if they held plain lists: copies are independent, assignment (also to itself) keeps the value, moved-from arrays are valid and empty, no memory is leaked, used after being freed or freed twice.", "quantifier": "all programs of constructions, copies, moves, assignments, writes, resizes and destructions", "why_tests_cant": "Quantifies over all operation sequences and memory states.", "anchors": ["xo/container/dynarray.h: dynarray"]}
{"id": "C101", "title": "Vectors of any size", "statement": "dynvec arithmetic works component by component and rejects different sizes; dot product, length and distance are Euclidean, so Cauchy-Schwarz and the triangle inequality hold; normalising gives unit length.", "quantifier": "all sizes and real components", "why_tests_cant": "Unbounded dimension, continuous domain.", "anchors": ["xo/geometry/dynvec.h: operator+, operator-, operator*, operator/, distance, normalize, dot_product"]}
{"id": "C102", "title": "Matrices of any size", "statement": "A dynmat is a table addressed by column and row; resizing keeps the common elements; matrix times vector sums over each row.", "quantifier": "all shapes, elements and vectors", "why_tests_cant": "Unbounded shapes.", "anchors": ["xo/geometry/dynmat.h: dynmat, operator*"]}
{"id": "C103", "title": "Vectors of four", "statement": "vec4 arithmetic acts on all four components: negation gives the opposite, subtraction undoes addition, scaling scales the length.", "quantifier": "all vectors and factors", "why_tests_cant": "Algebraic laws over a continuous domain.", "anchors": ["xo/geometry/vec4.h: operator+, operator-=, operator-, operator*, operator/"]}
{"id": "C104", "title": "Scales", "statement": "scale3 acts on vectors component by component: one is neutral, scales compose, uniform scales are scalar multiplication, division undoes multiplication.", "quantifier": "all scales and vectors", "why_tests_cant": "Algebraic laws over a continuous domain.", "anchors": ["xo/geometry/scale3.h: scale3_, operator*, operator/"]}
{"id": "C105", "title": "Vectors and scales are read from every documented form, and only those", "statement": "Reading a vec3 from a prop_node succeeds exactly for a list of three numbers, a group with exactly x, y and z in any order, or a text of three numbers separated by blanks; anything else is refused (error with three children, false otherwise). What to_prop_node or to_str wrote reads back as the same vector. A scale3 additionally accepts one number for all directions.", "quantifier": "all trees, all vectors, any number type whose own text form round trips", "why_tests_cant": "the set of trees is infinite and the refusal half is a statement about every tree not of the three forms", "anchors": ["xo/geometry/vec3.h: to_str, from_prop_node, to_prop_node", "xo/geometry/scale3.h: from_prop_node"]}
{"id": "C106", "title": "Quaternions are read from w/x/y/z or from Euler angles with a chosen order", "statement": "Reading a quat from a prop_node accepts a group w, x, y, z, or angles in any form a vec3 has together with an optional entry 'order' choosing the Euler order; a written quaternion reads back unchanged.", "quantifier": "all trees, all quaternions, any number type whose own text form round trips", "why_tests_cant": "that no tree with an order entry can ever be accepted is a statement about all trees", "anchors": ["xo/geometry/quat.h: from_prop_node, to_prop_node"]}
{"id": "C107", "title": "Transforms survive conversion to a property tree and back", "statement": "Converting a transform to prop_node and reading it back gives the same position and orientation; reading a tree with p and q gives exactly the vector and quaternion those entries describe.", "quantifier": "all transforms, all trees", "why_tests_cant": "ranges over all positions and orientations; a test sees single instances", "anchors": ["xo/geometry/transform.h: operator prop_node, from_prop_node", "xo/container/prop_node.h: set(key, value)"]}
{"id": "C108", "title": "Bounds survive text form; named bounds are honoured", "statement": "Writing bounds as lower..upper and reading them back gives the same bounds, for every integer type and value. From a group, bounds are read from min/lower and max/upper or else from the first two entries.", "quantifier": "all pairs of values of each integer type; all trees", "why_tests_cant": "2^128 pairs per type and all trees", "anchors": ["xo/numerical/bounds.h: to_str, from_str, from_prop_node"]}
{"id": "C109", "title": "Shapes survive conversion to a property tree and back", "statement": "Every sphere, box, cylinder, capsule, cone or plane written with to_prop_node reads back as the same shape. Reading depends only on the entries documented for the kind: box from full dimensions, capsule from height or from total_length minus both caps, plane with default normal. A tree without type is an error and one with an unknown type is refused.", "quantifier": "all shapes and all trees, any number type whose own text form round trips", "why_tests_cant": "ranges over all trees including entries in any order and additional entries", "anchors": ["xo/shape/shape.cpp: from_prop_node, to_prop_node", "xo/utility/hash.h"]}
{"id": "C110", "title": "Lists and arrays of convertible things are convertible", "statement": "For any type with a conversion that round trips, lists of it (also nested) round trip. Reading a list gives one element per child, in order, or fails if any child fails. Reading a fixed-size array fills the leading elements, keeps the remaining ones and ignores surplus children.", "quantifier": "all element types and conversions, all trees, all array lengths", "why_tests_cant": "quantifies over element types and conversions", "anchors": ["xo/container/prop_node.h: to_prop_node(vector), from_prop_node(vector), from_prop_node(std::array)"]}
{"id": "C111", "title": "Hexadecimal colours survive", "statement": "Converting a 24-bit RGB or 32-bit RGBA number to a colour and back gives the same number, in single precision arithmetic as the code uses it; channels are byte/255 up to rounding and 255 becomes exactly 1. Any finite channel value is converted to a byte nearest to it after clamping to [0,1]; infinities are clamped; NaN is undefined.", "quantifier": "all 2^24 RGB and 2^32 RGBA numbers; all single precision channel values", "why_tests_cant": "2^32 colours and every rounding of every channel", "anchors": ["xo/utility/color.h: color, clamp", "xo/utility/color.cpp: color_from_hex_rgb, color_from_hex_rgba, hex_rgb_from_color, hex_rgba_from_color", "xo/numerical/math.h: round_cast"]}
{"id": "C112", "title": "Hue, saturation and value determine the colour", "statement": "For hue ≥ 0 and saturation, value in [0,1], the colour has the channels defined by the HSV model: largest channel is the value, smallest is value*(1-saturation), channels within [0,1], hue is periodic with 360 degrees, and different (hue, saturation, value) with positive saturation and value give different colours. The named colours are HSV colours at 0, 30, 60, 120, 180, 240 and 300 degrees. (False for negative hue.)", "quantifier": "all real hues, saturations, values", "why_tests_cant": "continuum of inputs, six sectors and their borders", "anchors": ["xo/utility/color.cpp: color_from_hsv", "xo/utility/color.h: color::red, orange, yellow, green, cyan, blue, magenta, white"]}
{"id": "C113", "title": "Colours are ordered and clamped channel by channel", "statement": "Comparison of colours is a strict total order, lexicographic by r, g, b, a and consistent with == and !=, so colours can be keys; clamping puts every channel between the bounds and changes no channel that already is.", "quantifier": "all colours over any totally ordered channel type", "why_tests_cant": "transitivity and totality range over all triples", "anchors": ["xo/utility/color.h: operator<, operator==, operator!=, clamp"]}
{"id": "C114", "title": "Colour arithmetic is vector arithmetic", "statement": "Addition is commutative and associative, subtraction undoes addition, and scaling by a single precision factor scales every channel, is associative with multiplication and distributes. (Scaling by a double factor puts blue into alpha.)", "quantifier": "all colours and factors over the reals", "why_tests_cant": "algebraic laws over a continuum", "anchors": ["xo/utility/color.h: operator+, operator-, operator*"]}
{"id": "C115", "title": "Colours are read from text and property trees as written", "statement": "1 to 8 hexadecimal digits, optionally after 0x, are read as RGBA if 8 digits and RGB otherwise; rgb(...) and hsv(...) texts in any case are read exactly if they have three numbers; trees with any of h, s, v are HSV with defaults; other trees need at least three children and use names r, g, b, a, or positions; reading never throws and, for texts and HSV trees, failure leaves the colour unchanged. (False for lists.)", "quantifier": "all texts, all property trees, all number readers", "why_tests_cant": "unbounded set of texts and trees", "anchors": ["xo/utility/color.cpp: from_prop_node(color)", "xo/string/string_tools.h: to_lower, split_str"]}
{"id": "C116", "title": "Colour gradients interpolate between neighbouring stops", "statement": "The gradient gives exactly a stop's colour at the stop, the first (last) stop's colour before (after) all stops, and the linear mix of the two neighbouring stops in between, whatever the order in which stops were given; it throws exactly if there are no stops.", "quantifier": "all lists of stops with different positions, all values", "why_tests_cant": "unbounded numbers of stops and a continuum of positions", "anchors": ["xo/utility/color_gradient.h: color_gradient"]}
{"id": "C117", "title": "Unique colours differ and have the asked brightness", "statement": "Unique colours of different index differ, are valid saturated HSV colours, and have the requested perceived brightness unless the hue at full value is darker than that, in which case value is 1. Perceived brightness is the weighted root mean square of the channels, lies in [0,1] for valid colours and of a grey is its level.", "quantifier": "all indices, all brightness values in (0,1]", "why_tests_cant": "all pairs of an unbounded number of indices", "anchors": ["xo/utility/color.cpp: make_unique_color, perceived_brightness, standard_hue"]}
{"id": "C118", "title": "Ranges reach both ends with equal steps", "statement": "A range made with n ≥ 2 steps visits exactly n values, evenly spaced, the first being the lower and the last exactly the upper bound; made with an increment it visits one more than the nearest whole number of increments, spaced by exactly the increment when it divides the range. (False: a single step gives not-a-number, an increment in the wrong direction never ends, size() is one too small, it++ does not give the old position.)", "quantifier": "all bounds, increments and step counts", "why_tests_cant": "continuum of bounds, unbounded numbers of steps", "anchors": ["xo/utility/frange.h: frange, frange::iterator, size"]}
{"id": "C119", "title": "Single precision ranges end and do not accumulate errors", "statement": "In single precision, up to 2^24 steps, iterating a range visits exactly the requested number of values, each computed from its number with four roundings, not from its predecessor. (False beyond 2^24 steps: the loop never ends.)", "quantifier": "all single precision bounds, all step counts", "why_tests_cant": "2^64 pairs of bounds, 2^31 step counts; non-termination is not observable", "anchors": ["xo/utility/frange.h: frange<float>"]}
{"id": "C120", "title": "Function tables contain the function's values at the range's points", "statement": "Evaluating a function on a range gives its values at the evenly spaced points, in order, one for each.", "quantifier": "all functions and ranges", "why_tests_cant": "quantifies over functions", "anchors": ["xo/numerical/function_tools.h: evaluate_function"]}
{"id": "C121", "title": "Console plots show the functions and stay inside the picture", "statement": "A plot has the requested size; each function's symbol is in the row nearest to its value in every column, later functions covering earlier ones; other cells show the frame and the axes through zero; nothing outside the picture is written. (False for constant positive functions and for functions far from zero: undefined conversions.)", "quantifier": "all lists of functions, all intervals, all picture sizes", "why_tests_cant": "quantifies over functions; memory errors need not show", "anchors": ["xo/numerical/console_plot.h: console_plot"]}
{"id": "C122", "title": "Typed indices refer to the position they are made from", "statement": "A default-constructed index refers to nothing. An index made from an unsigned or signed number refers to that position, or to nothing if the number is negative or too large to represent; it converts to true exactly when it refers to something. Moving from an index leaves the source referring to nothing. ++, + and - move the position by the given amount, incrementing the last representable position gives an index that refers to nothing, and an index that refers to nothing keeps doing so when incremented. zero/end/back of a container refer to its first position, one past its last and its last position (nothing for an empty container), for containers of any size.", "quantifier": "every 32-bit index value, every number it is made from, every offset, every container size", "why_tests_cant": "The interesting values are the ends of the 32-bit range and the wrap-around there, far beyond containers a test builds.", "anchors": ["xo/utility/index.h: index_class"]}
{"id": "C123", "title": "A loop over an index span visits every index in it once, in order", "statement": "A range-based for loop over an index_span from b to e visits b, b+1, ..., e-1, each once and in order; size() is the number of visited indices and empty() says whether there are none. A span whose begin lies beyond its end is empty.", "quantifier": "every pair of 32-bit index values", "why_tests_cant": "Loops compare for inequality, so whether they stop depends on the pair of ends; only a proof covers all pairs.", "anchors": ["xo/utility/index.h: index_span, index_class::operator++, operator!="]}
{"id": "C124", "title": "Collections of several types keep their indices valid", "statement": "push_back on a collection (index or handle based) returns an index that refers to the new element, keeps every index handed out before referring to the same element, and leaves elements of other types alone; pop_back removes the last element of its type only; erase by handle removes exactly that element, moves later ones down by one, and leaves other types alone; get_index of an element refers to it; clear empties every type; looping over the index span of a type visits its elements in order.", "quantifier": "every collection state, every element type among the listed ones, every element and index", "why_tests_cant": "Whether earlier indices survive depends on all states the collection can be in, and one missing return makes erase undefined for every input without a compile error.", "anchors": ["xo/container/collection_ic.h: collection_ic", "xo/container/collection.h: collection", "xo/container/handle_vector.h: handle_vector"]}
{"id": "C125", "title": "Test results count what the checks did", "statement": "For a freshly added test case, run() records as many checks as were executed, split into those that held and those that did not (an expression that throws counts as one that did not); the description of a std::exception that leaves the test function is kept, whatever else is thrown leaves run(); the test succeeds exactly when every executed check held and no exception left the test function, also when it is run again; a PASSED message appears exactly for successful tests with at least one check; run_tests returns the number of tests that did not succeed, 0 exactly if all did, and reports all clear exactly then, with the total number of checks.", "quantifier": "every list of test cases and every sequence of checks and exceptions in each", "why_tests_cant": "It is the test framework itself: its tests pass through the code under question, and corner cases such as an exception without description are silently counted as success.", "anchors": ["xo/system/test_case.h: test_result, XO_CHECK", "xo/system/test_case.cpp: test_case::check, test_case::run, run_tests"]}
{"id": "C126", "title": "Running tests in parallel gives the sequential results", "statement": "For test functions that only act on their own test case and let no exception but std::exception escape, run_tests_async never gets stuck, ends after boundedly many steps, and whatever the scheduling every test case has the result it has after run_tests, the number of failed tests and the totals are the same, and the log contains the same lines in some order.", "quantifier": "every list of such test cases and every interleaving of their threads", "why_tests_cant": "The number of schedules is unbounded and lost updates or deadlocks would show up only in some.", "anchors": ["xo/system/test_case.cpp: run_tests_async, test_case::check, test_case::run, g_log_mutex"]}
{"id": "C127", "title": "Dictionaries and lookup tables", "statement": "A dictionary gives the name of an element and the element of a name from the first entry that has it; a missing element or name throws, or yields the given default. If neither elements nor names repeat, the two lookups are inverse to each other. lookup(value, table) gives the value of the first entry whose key equals value and throws if there is none.", "quantifier": "every dictionary, element, name, default and table", "why_tests_cant": "Tests check a few entries; the claim is about every table, including duplicates and missing entries.", "anchors": ["xo/string/dictionary.h: dictionary::operator(), lookup"]}
{"id": "C128", "title": "stack_string is the concatenation of its parts", "statement": "After any sequence of set, push_back and pop_back calls in which no part is popped that is not there, str() is the concatenation of the parts pushed and not popped since the last set, with the argument of set as first part unless empty.", "quantifier": "every sequence of operations and every strings", "why_tests_cant": "Histories are unbounded, and popping after set or after empty parts depends on the recorded sizes of the whole history.", "anchors": ["xo/string/stack_string.h: stack_string"]}
{"id": "C129", "title": "pattern_matcher accepts what one of its patterns accepts", "statement": "A pattern_matcher built from a text and delimiters holds the maximal pieces between delimiters, matches a string exactly when one of the pieces matches it, is empty exactly when there are no pieces, and constructing a matcher from its str() gives the same patterns. is_pattern says whether a string contains * or ?.", "quantifier": "every text, every set of delimiters, every string, every behaviour of the underlying match function", "why_tests_cant": "Depends on all ways of splitting a text; tests cover a few.", "anchors": ["xo/string/pattern_matcher.h: pattern_matcher, is_pattern", "xo/string/string_tools.cpp: split_str, concat_str, pattern_match"]}
{"id": "C130", "title": "Tidied names", "statement": "tidy_identifier(id) is the part of id after the last dot or colon, without its leading and trailing underscores. tidy_type_name of a mangled type name is the demangled name without scopes and without template arguments.", "quantifier": "every identifier and every type name", "why_tests_cant": "Unsigned subtraction of positions could wrap for some inputs; only a proof covers all strings, and names without scope take a different path.", "anchors": ["xo/system/system_tools.cpp: tidy_identifier, tidy_type_name"]}
{"id": "C131", "title": "Values streamed into a sequence can be streamed back", "statement": "Writing numbers, vectors (x y z) and quaternions (w x y z) through an output iterator stream stores their elements one after the other from the stream's position on and changes nothing else in the sequence; reading values of the same kinds from the same position returns exactly the values written. A push-back stream appends the converted values in order.", "quantifier": "all sequences, positions, lists of values and element conversions that can be undone", "why_tests_cant": "Every mix of value kinds, every position and every buffer content cannot be enumerated.", "anchors": ["xo/container/stream_wrapper.h: output_iterator_stream, input_iterator_stream, push_back_stream, operator<<, operator>>"]}
{"id": "C132", "title": "A data file is read completely or an error is reported", "statement": "read_data on a file of values separated by white space returns all values of the file in order; text that is no value is reported as 'not all data read' and a file that cannot be opened as such, through the error code or an exception when none is given. (False for a file that does not end in white space: its last value is dropped without any report.)", "quantifier": "all files made of words and white space, all element readers, with and without error code", "why_tests_cant": "File contents are unbounded; tests happen to use files with or without a final newline.", "anchors": ["xo/serialization/container_io.h: read_data, operator>>", "xo/system/error_code.cpp: set_error_or_throw"]}
{"id": "C133", "title": "Debug recordings group values into frames", "statement": "After any sequence of write_debug calls, the recording has one column for every label used and one row for each group of values, where a value starts a new row exactly when the last row already has a value for its label; each cell is the value written or the marker for 'no value'. (Fails if the marker itself is written.)", "quantifier": "all sequences of labelled values other than the marker", "why_tests_cant": "Order and mixing of labels is unbounded; late labels widen the rows recorded before.", "anchors": ["xo/system/debug_storage.cpp: auto_storage_writer::write, write_debug", "xo/container/storage.h: find_or_add_channel, add_frame"]}
{"id": "C134", "title": "Reading any text as XML ends in a tree or a parse error", "statement": "For every text, reading it as XML finishes with a property tree or reports a parse error; the parser never moves past the end of the text and never loops.", "quantifier": "all texts, including unfinished tags, comments, quotes, references, declarations and doctypes", "why_tests_cant": "Malformed input is unbounded; a single missing end check is a buffer overrun on some text only.", "anchors": ["xo/serialization/prop_node_serializer_xml.cpp: read_stream", "contrib/rapidxml-1.13/rapidxml.hpp: parse, parse_node, parse_node_contents, parse_node_attributes, skip_and_expand_character_refs"]}
{"id": "C135", "title": "An XML document is read as the tree of its first element", "statement": "Reading a printed XML document adds one child to the property tree: the first element under its name, with its text as value, and a child for each attribute followed by a child for each element inside, in order; text and attribute values come back exactly, whatever special characters or quotes they contain.", "quantifier": "all documents of elements with names made of name characters, any attributes, and text or elements inside", "why_tests_cant": "Depth, order, and mix of quotes and special characters are unbounded.", "anchors": ["xo/serialization/prop_node_serializer_xml.cpp: get_rapid_xml_node, read_stream", "contrib/rapidxml-1.13/rapidxml_print.hpp: print_node, print_element_node, print_attributes, copy_and_expand_chars"]}
{"id": "C136", "title": "A property tree written as XML is read back unchanged", "statement": "Writing a property tree as XML and reading it back gives the same names, values and order of children. (True for the first child of the root when values are at leaves only, are not just white space, and names are XML names; values of inner nodes, further roots, white space values and empty names are lost, and names with spaces make the text unreadable.)", "quantifier": "all property trees", "why_tests_cant": "Trees are unbounded; tests use trees that happen to have a single root and no inner values.", "anchors": ["xo/serialization/prop_node_serializer_xml.cpp: set_rapid_xml_node, write_stream, read_stream"]}
{"id": "C137", "title": "Characters referred to by number are read as UTF-8", "statement": "A reference &#n; or &#xn; in text or attributes is replaced by the UTF-8 bytes of code point n, and reading goes on behind it. (Hexadecimal letters are also accepted in decimal references, and the name in a closing tag is not compared with the opening one.)", "quantifier": "all code points below 0x110000, with any number of leading zeros, in any surrounding text", "why_tests_cant": "There are over a million code points, with boundaries at 1, 2, 3 and 4 bytes.", "anchors": ["contrib/rapidxml-1.13/rapidxml.hpp: skip_and_expand_character_refs, insert_coded_character", "xo/serialization/prop_node_serializer_xml.cpp: read_stream"]}
{"id": "C138", "title": "Text is read as the nearest floating-point number", "statement": "Converting text to float or double gives the number of that type nearest to the decimal or hexadecimal number at the start of the text (ties to even, infinity when too large), skipping spaces and ignoring what follows; inf and nan are understood in any case; exactly the texts that do not start with a number are refused, and then the result is 0.", "quantifier": "all texts, for float and double", "why_tests_cant": "The texts are unbounded, and rounding errors show only for particular digits.", "anchors": ["xo/string/string_cast.cpp: from_str (float, double)"]}
{"id": "C139", "title": "Floating-point numbers are written with six correct digits", "statement": "Converting a float or double to text gives the nearest number of at most six significant digits (ties to even), without needless zeros, with an exponent only below 0.0001 and from a million, in at most 13 characters; whole numbers below a million are written as integers.", "quantifier": "all floats and doubles", "why_tests_cant": "There are 2^64 doubles; a wrong digit or a cut-off exponent shows for few of them.", "anchors": ["xo/string/string_cast.cpp: to_str (float, double)"]}
{"id": "C140", "title": "A number written and read again is nearly the same", "statement": "Writing a number and reading the text gives a finite number of the same sign, at most a relative 1e-5 away, in any surrounding text; numbers of at most six digits, zeros, infinities and NaN come back unchanged. (Other numbers do change.)", "quantifier": "all floats and doubles", "why_tests_cant": "There are 2^64 doubles; overflow near the largest number cannot be found by sampling.", "anchors": ["xo/string/string_cast.cpp: from_str (float, double)", "xo/string/string_cast.cpp: to_str (float, double)"]}
{"id": "C141", "title": "Writing and reading numbers keeps their order", "statement": "If x <= y then what is read back for x is <= what is read back for y. (Different numbers can be written the same.)", "quantifier": "all pairs of finite floats or doubles", "why_tests_cant": "There are 2^128 pairs.", "anchors": ["xo/string/string_cast.cpp: from_str (float, double)", "xo/string/string_cast.cpp: to_str (float, double)"]}
{"id": "C142", "title": "Text that was written once does not change again", "statement": "Reading a written number and writing it again gives the same text, so saving a loaded file changes nothing; a number typed with at most six digits is written with the same digits. (True for normal numbers; subnormal numbers can change.)", "quantifier": "all floats and doubles, all typed numbers", "why_tests_cant": "Double rounding goes wrong for few numbers, here only for subnormal ones.", "anchors": ["xo/string/string_cast.cpp: from_str (float, double)", "xo/string/string_cast.cpp: to_str (float, double)"]}
{"id": "C143", "title": "A storage survives being saved as text", "statement": "Writing a storage as text and reading it into an empty storage gives the same channels in the same order, the same number of frames, and every sample up to the sixth digit with infinities and NaN unchanged, if the labels are different single words. (Labels with spaces, channels without label and carriage returns in the header are not read back.)", "quantifier": "all storages of floats or doubles with at least one channel", "why_tests_cant": "Sizes, labels and values are unbounded.", "anchors": ["xo/container/storage.h: operator<<, operator>>"]}
{"id": "C144", "title": "Reading any text as a storage", "statement": "The words of the first line are the channels and every further line is one frame, holding the numbers at its beginning and 0 from the first word that is no number on; a label that occurs twice is an exception, and no text leads to undefined behaviour.", "quantifier": "all texts, all channels and lines", "why_tests_cant": "The texts are unbounded.", "anchors": ["xo/container/storage.h: operator<<, operator>>"]}
{"id": "C145", "title": "A table survives being saved as text", "statement": "Writing a table of finite numbers and reading it back gives the same row and column labels and every value up to the sixth digit, if the labels are different single words. (An infinite value ends the reading silently.)", "quantifier": "all tables of finite floats or doubles", "why_tests_cant": "Sizes, labels and values are unbounded.", "anchors": ["xo/container/table.h: operator<<, operator>>"]}
{"id": "C146", "title": "Vectors and quaternions in a frame", "statement": "Writing a vector or quaternion to a frame adds the missing channels and reading it from that frame gives the same components; no other sample changes, and new channels hold the default in the other frames. (A frame handle made before channels were added reads other samples, and so does a label that does not exist.)", "quantifier": "all reachable storages, frames, names and values", "why_tests_cant": "The storage can have any history of channels and frames.", "anchors": ["xo/container/storage_tools.h: write, read", "xo/container/storage.h: frame, const_frame"]}
{"id": "C147", "title": "Values between frames", "statement": "The value at a fractional frame index lies on the straight line between the two frames around it, and is the sample at a whole index. (The last frame is refused with an exception.)", "quantifier": "all storages, channels and indices from 0 on", "why_tests_cant": "There is a continuum of indices.", "anchors": ["xo/container/storage.h: get_interpolated_value"]}
{"id": "C148", "title": "Loading with an error code gives the same tree as loading with exceptions", "statement": "For every file that load_file( name ) loads, load_file( name, &ec ) returns the same tree and leaves ec as it was. When load_file( name ) throws, load_file( name, &ec ) either throws as well or sets ec to an error; so if ec is still good afterwards, the returned tree is the one load_file( name ) returns. The same holds when the format is named by the caller. Exception: the message in ec is not always that of the first error in the file.", "quantifier": "all states of the file system, file names, formats, texts and included files, and all error codes", "why_tests_cant": "the two ways of calling share code paths only partly: after an error the reader with an error code goes on reading; that no refused text slips through as a good tree concerns every text", "anchors": ["xo/serialization/serialize.cpp:load_file", "xo/serialization/prop_node_serializer_zml.cpp:read_zml_layer", "xo/serialization/prop_node_serializer_ini.cpp:read_stream", "xo/system/error_code.cpp:set_error_or_throw"]}
{"id": "C149", "title": "With an error code, loading reports failure without exceptions", "statement": "Called with an error code, load_file does not throw: for a file that cannot be opened or whose extension is not a known format it returns an empty tree and sets the error code; for every ZML document without '<', '$' and a final backslash it returns, with an error set or not. Exceptions: malformed XML, an INI line without '=', and a ZML include of a missing file throw in spite of the error code.", "quantifier": "all file names, states of the file system and texts", "why_tests_cant": "that no text makes the reader throw, run past the end or loop concerns every text", "anchors": ["xo/serialization/serialize.cpp:load_file", "xo/serialization/prop_node_serializer.cpp:load_file", "xo/serialization/prop_node_serializer_zml.cpp:zml_error"]}
{"id": "C150", "title": "A tree saved to a file and loaded again is the same tree", "statement": "After save_file( tree, name ) to a writable .zml, .ini or .xml file, for a tree that format can hold, load_file( name ) returns the same labels, values and order, and no other file has changed.", "quantifier": "all trees the format can hold, names, states of the file system and error codes", "why_tests_cant": "concerns every tree and every content of the file system before the call", "anchors": ["xo/serialization/serialize.cpp:save_file", "xo/serialization/prop_node_serializer.cpp:save_file"]}
{"id": "C151", "title": "What the result of save_file means", "statement": "If save_file returns true the file holds the text of the tree in the format its extension names, and no other file has changed. If it returns false and the error code was good before, no file has changed and the error code is set. A file that cannot be created or an unknown format throws without an error code and returns false with one, and leaves all files as they were. Exceptions: an error code that holds an old error makes the result false although the file was written; a tree the ZML writer refuses throws after the old file has been emptied.", "quantifier": "all trees, names, states of the file system and error codes", "why_tests_cant": "concerns every state of the file system and every earlier history of the error code", "anchors": ["xo/serialization/serialize.cpp:save_file", "xo/serialization/prop_node_serializer.cpp:save_file"]}
{"id": "C152", "title": "Files included in ZML documents", "statement": "A ZML document that consists of an include of a file, named relative to the folder of the document, loads as the children of the tree that was saved in that file, and the result does not depend on how deep files may include each other once it is deep enough. Exceptions: a document that includes itself is not refused but exhausts the stack, and the list of included files has only those the document itself includes.", "quantifier": "all trees the format can hold, names, folders and contents of the file system", "why_tests_cant": "includes nest to any depth, and folders and names are arbitrary", "anchors": ["xo/serialization/prop_node_serializer_zml.cpp:load_zml", "xo/serialization/prop_node_serializer_zml.cpp:read_zml_layer"]}
{"id": "C153", "title": "What a ZML document with macros, references and includes means", "statement": "Every document made of items key = value, key = { ... }, key = [ ... ], elements of arrays, blocks added to the last item, macro definitions, uses of macros as $name or inside a quoted value as ${name}, references @path and includes, nested to any depth, is read as the tree an inductive definition of its meaning gives, whatever the blanks and comments between its tokens; and it is refused if the definition gives none (an unknown macro, an unknown reference, a block with no item before it, an include that fails).", "quantifier": "all documents of any length and depth, all layouts of blanks and comments, all contents of the included files", "why_tests_cant": "documents, their nesting and their layout are unbounded", "anchors": ["xo/serialization/prop_node_serializer_zml.cpp:read_zml_layer", "xo/serialization/prop_node_serializer_zml.cpp:prop_node_serializer_zml"]}
{"id": "C154", "title": "Macros of ZML documents are local to their block and the last definition counts", "statement": "A macro is known from its definition to the end of the block it is defined in: a use before the definition, or outside the block, is refused, whatever else the document contains. A use directly after a definition gives what was defined, whatever the macro stood for before. Exception: in its own definition a macro is already known, and empty, so that $a = \"${a}2\" does not extend an earlier $a.", "quantifier": "all documents, names and values", "why_tests_cant": "any items of any depth may precede the use", "anchors": ["xo/serialization/prop_node_serializer_zml.cpp:read_zml_layer"]}
{"id": "C155", "title": "References in ZML documents copy the node read so far", "statement": "An item key = @path copies the node that try_get_query( path ) finds in the tree read so far, with its value and its children.", "quantifier": "all documents, paths and keys that do not begin with # or $", "why_tests_cant": "any document may precede the reference", "anchors": ["xo/serialization/prop_node_serializer_zml.cpp:read_zml_layer"]}
{"id": "C156", "title": "A block after an item adds to its children", "statement": "A block { ... } that follows an item adds its items, in order, after the children the item already has (from an earlier block, a macro or a reference), and leaves its value and all other items alone.", "quantifier": "all documents and all keys and values of the added items", "why_tests_cant": "any document may precede the block", "anchors": ["xo/serialization/prop_node_serializer_zml.cpp:read_zml_layer"]}
{"id": "C157", "title": "A ZML text without macros is either read or refused", "statement": "Reading any text that contains no '$' and does not end in a backslash gives a tree or throws, whatever brackets, quotes, comments, references and includes it contains and however malformed it is, when the included files themselves are read or refused. Exceptions: a backslash at the very end of a text is read past the end, and a macro defined in the body of another macro may move the node being read.", "quantifier": "all texts with no '$' and no final backslash, all contents of included files", "why_tests_cant": "any malformed text may be given", "anchors": ["xo/serialization/prop_node_serializer_zml.cpp:read_zml_layer", "xo/serialization/prop_node_serializer_zml.cpp:get_zml_token"]}
{"id": "C158", "title": "Log sinks write every message they receive, in order", "statement": "A stream or file sink writes, for every message it receives, the time, the message and a newline, in order and nothing else. A console sink writes every non-empty line of every message on a line of its own, after the time, the level, both or none, as its format says; of the text only the line breaks are dropped. A file sink of some level ends up with exactly the messages of that level or more from all threads. Exceptions: stream and file sinks ignore the format; a message without text leaves no trace on the console.", "quantifier": "all histories of messages, levels, texts and times", "why_tests_cant": "messages and histories are unbounded", "anchors": ["xo/system/log_sink.cpp:stream_sink", "xo/system/log_sink.cpp:console_sink", "xo/system/log_sink.cpp:file_sink", "xo/system/log_format.h:get_log_prefix"]}
{"id": "C159", "title": "Logging to a full or unopened file never throws and keeps the beginning", "statement": "When the device takes only n bytes, a sink keeps exactly the first n bytes of what it would have written, then stays silent; a file that could not be opened takes nothing. Logging calls return normally in all cases.", "quantifier": "all histories of messages, all points at which the device is full", "why_tests_cant": "the device can fill up at any byte", "anchors": ["xo/system/log_sink.cpp:file_sink", "xo/system/log_sink.cpp:stream_sink"]}
{"id": "C160", "title": "Console sinks of several threads write whole messages", "statement": "At every point of every execution, what console sinks have written is a sequence of whole messages, each thread's in its own order, followed by the beginning of at most one more; when all threads are done nothing is missing. No two threads write at a time and no thread waits for ever. Exception: stream and file sinks do not take this lock, and messages of several threads can be mixed.", "quantifier": "all numbers of threads, messages and lines, all schedules", "why_tests_cant": "schedules cannot be enumerated by tests", "anchors": ["xo/system/log_sink.cpp:console_sink", "xo/system/log_sink.cpp:stream_sink", "xo/system/log.cpp:log_string"]}
{"id": "C161", "title": "Files hold what was saved and appended", "statement": "After any sequence of saves and appends in which no call threw, with enough space, every file holds the text last saved and the texts appended after that, and loading it returns exactly this text. Missing folders are made. If a file cannot be opened its contents stay the same and the error is reported, by exception without an error code and never by exception with one. Files that are not named are not changed. Exception: when the device is full the text is cut off and nothing is reported.", "quantifier": "all histories of calls, paths, texts and states of the file system", "why_tests_cant": "texts, paths and histories are unbounded", "anchors": ["xo/filesystem/filesystem.cpp:load_string", "xo/filesystem/filesystem.cpp:save_string", "xo/filesystem/filesystem.cpp:append_string"]}
{"id": "C162", "title": "A program stopped while appending loses nothing that was there", "statement": "A program that is stopped at any point of an append leaves the file with its former contents followed by a beginning of the new text. A program stopped while saving leaves the former contents or a beginning of the new text. Exception to what a user may expect: stopped while saving, it can leave an empty file, with neither the old nor the new text.", "quantifier": "all points at which the program can stop, all texts and states of the file system", "why_tests_cant": "the program can stop between any two bytes", "anchors": ["xo/filesystem/filesystem.cpp:save_string", "xo/filesystem/filesystem.cpp:append_string"]}
{"id": "C163", "title": "find_files finds every matching entry once", "statement": "find_files returns every entry of the directory whose name is included and not excluded, each exactly once; if recursive, also those in directories below, down to the given number of levels, or without limit if this is negative. Exception: directories whose name matches are returned as well.", "quantifier": "all trees of directories, patterns and numbers of levels", "why_tests_cant": "trees have no bound on depth or size", "anchors": ["xo/filesystem/filesystem.cpp:find_files"]}
{"id": "C164", "title": "Times survive double precision", "statement": "Every time from zero up to 2^50 nanoseconds (13 days) that is turned into a double number of seconds or milliseconds and back is the same time, to the nanosecond. The seconds and milliseconds of any time are within one part in 2^51 of the exact quotient, and later times never give smaller numbers. Any number of seconds or milliseconds, not negative and up to 2^50 nanoseconds, gives a time less than one nanosecond away, and a whole number gives exactly that time. Exceptions: from 26 days on a nanosecond can be lost, times before zero are off by one, and numbers too large for a time are undefined.", "quantifier": "all times and all doubles", "why_tests_cant": "rounding errors depend on the bits of every time", "anchors": ["xo/time/time.h: time::seconds, time::milliseconds", "xo/time/time.h: time_from_seconds", "xo/time/time.h: time_from_milliseconds"]}
{"id": "C165", "title": "The text of a time shows the time", "statement": "The text of a time is, from one minute on, or without decimals, or from the given number of seconds on, a clock h:mm:ss or m:ss of the whole seconds that have passed, never one too many; otherwise the number of seconds with the decimals asked for that is nearest to the time. A text with decimals is read back as exactly the number it shows: the default text of a time below ten seconds gives the nearest millisecond, nine decimals give the time itself. Exceptions: a clock text is read back wrongly and without complaint (1:05 as one second), a time just below ten seconds is shown as 10.000, and times before zero have strange texts.", "quantifier": "all times from zero up to 2^22 seconds, all numbers of decimals up to nine", "why_tests_cant": "rounding of a double at every boundary of a second or a decimal", "anchors": ["xo/string/string_cast.cpp: to_str( time )", "xo/string/string_cast.cpp: from_str( time )"]}
{"id": "C166", "title": "Reports of a stopwatch show the times to the millisecond", "statement": "The report of a stopwatch, for times that together stay below ten seconds, shows every interval and their sum, each to the nearest millisecond. Exception: the number of decimals asked for changes nothing.", "quantifier": "all lists of intervals", "why_tests_cant": "lists and times are unbounded", "anchors": ["xo/time/stopwatch.cpp: stopwatch::get_report", "xo/string/string_tools.cpp: set_to_str_precision"]}
{"id": "C167", "title": "Clamping and bounds of float and double", "statement": "For float, double or any other binary precision: a number that is not NaN, infinities included, is clamped to a number between the bounds and left alone when it is inside; extended bounds contain the old ones and the new number, and are the least that do; get_violation is zero exactly inside the bounds, has the right sign outside even for the smallest distances and is right to half a unit in the last place, and check() agrees with is_within(); the midpoint of two numbers and the center of bounds lie between the ends. Exceptions: NaN passes through clamping and check() takes it to be inside, and the center of bounds above half of the largest number is infinite.", "quantifier": "all numbers of any precision, all bounds", "why_tests_cant": "the numbers cannot be enumerated and rounding errors are rare", "anchors": ["xo/numerical/math.h: clamped, midpoint", "xo/numerical/bounds.h: bounds"]}
{"id": "C168", "title": "Wrapped numbers stay in range in floating point", "statement": "For float, double or any other binary precision: the remainder fmod is exact, smaller than the divisor and has the sign of the dividend; wrapping any number gives a number from the lower to the upper bound that differs from it by a whole number of ranges, up to a relative rounding error of the quantities involved. Exception: the upper bound itself can be the result, for a number just below the lower bound.", "quantifier": "all numbers up to a quarter of the largest power of two, all ranges", "why_tests_cant": "the numbers cannot be enumerated and rounding errors are rare", "anchors": ["xo/numerical/math.h: wrapped, wrap"]}
{"id": "C169", "title": "Interpolation in floating point", "statement": "For float, double or any other binary precision: lerp from a to b at t in [0,1] is exactly a at 0, never moves against t, is exactly a when a equals b and is within (|a| + 4|b-a|) units of rounding of the exact number. Interpolation in a map is exact at every key, constant outside the keys, on the straight line between neighbouring keys up to rounding and monotone between two keys. A piecewise linear function is on the straight line between neighbouring points up to rounding, exact at the first point and within rounding at the others. Exceptions: lerp at 1 can be larger than b, so a piecewise linear function can miss its points, and a map of increasing numbers can give more just before a key than at the key.", "quantifier": "all numbers, all increasing lists of points", "why_tests_cant": "points and numbers are unbounded and rounding errors are rare", "anchors": ["xo/numerical/interpolation.h: lerp, lerp_map", "xo/numerical/piecewise_linear_function.h: piecewise_linear_function"]}
{"id": "C170", "title": "Averages in floating point", "statement": "For float, double or any other binary precision: the average of n numbers with weight one differs from the exact mean by at most (2n+2) units of rounding of the mean of the absolute values, the weights add up to exactly n, and the average of no numbers is zero. Exception: the average of ten equal numbers can be smaller than all of them.", "quantifier": "all lists of up to 2^(p-1) numbers whose absolute values add up to at most an eighth of the range", "why_tests_cant": "lists are unbounded and rounding errors accumulate", "anchors": ["xo/numerical/average.h: average"]}
{"id": "C171", "title": "The text of a property tree", "statement": "to_str() of any property tree succeeds and has one line for every node below the root, parents before their children, indented by depth, with the name, and the value unless the node only has children; the equals signs are in one column, right after the longest indented name. Trees with plain names and values of one line that have the same text have the same children. Afterwards every value below the root counts as read and nothing else has changed. Exceptions: the value of the root is not shown, a value of several lines can look like further nodes, and an explicit column that is too small throws.", "quantifier": "all property trees", "why_tests_cant": "trees are unbounded in depth and size, and keys and values are arbitrary strings", "anchors": ["xo/container/prop_node.cpp: to_stream, to_str", "xo/container/prop_node_tools.cpp: prop_node_align_width"]}
{"id": "C172", "title": "Reports of unread values", "statement": "to_str_unaccessed() and log_unaccessed() list, in order, exactly the nodes below the root that have, or have somewhere below them, a value that was never asked for, and show the value and a star exactly where it is the node's own; both give the same lines, and there are none exactly when every value below the root was asked for. Exception: the unread value of the root itself is not reported, although count_unaccessed() counts it.", "quantifier": "all property trees and all histories of reading them", "why_tests_cant": "trees and histories of access are unbounded", "anchors": ["xo/container/prop_node_tools.cpp: log_unaccessed, to_str_unaccessed", "xo/container/prop_node.h: count_unaccessed, is_accessed"]}
{"id": "C173", "title": "Logging a property tree", "statement": "log_prop_node() of any tree succeeds and sends one message for every node below the root, in the order and form of to_str(); the level is the digit d of a key that begins with @d, which is left out of the name, and info for keys that do not begin with @. Exception: any other key that begins with @ loses two characters and is sent at a level that does not exist.", "quantifier": "all property trees", "why_tests_cant": "trees are unbounded in depth and size, and keys are arbitrary strings", "anchors": ["xo/container/prop_node_tools.cpp: log_prop_node, prop_node_align_width"]}
{"id": "C174", "title": "make_str_from_prop_node is ZML for words", "statement": "When the keys and values are words of letters, digits and _ - + . and array elements have either a value or children, the text of make_str_from_prop_node(), put behind a key and an equals sign, is read by the ZML reader as that key with the same tree. Exceptions: values are not put in quotes, so those with spaces or operators can be read as a different tree, different trees can have the same text, and an empty value loses its node.", "quantifier": "all trees of words, all keys that are words", "why_tests_cant": "trees are unbounded in depth and size", "anchors": ["xo/container/prop_node_tools.cpp: make_str_from_prop_node", "xo/serialization/prop_node_serializer_zml.cpp: prop_node_serializer_zml"]}
{"id": "C175", "title": "The lines of a profiler report", "statement": "report() of a finished measurement has one line for the whole and, below every line whose total time is at least the given percentage of the whole, one line for each thing called from there, those that took longest first; lines below the percentage have none below them. The percentages compared are the exact ones within one part in 2^48, and never in the wrong order. With the tag asked for, a key is @2, @3, @4 or @5, for less than 1, 5, 15 percent of the whole spent in the section itself, or more, followed by the name. A report without stopping first is the report after stopping. Exception: when the whole measurement took no time at all, only the line of the whole is reported.", "quantifier": "all properly nested histories of calls on a clock that does not run backwards, all minimum percentages", "why_tests_cant": "histories are unbounded in length and depth, and times are arbitrary", "anchors": ["xo/system/profiler.cpp: report, report_section, get_children, exclusive_time, start, stop"]}
{"id": "C176", "title": "The figures of a profiler report", "statement": "Every line of report() shows, at fixed widths, the milliseconds spent on its call path rounded to a whole number, the percentage of the whole with and without what was called from there, rounded to two decimals, the number of calls, the nanoseconds per call spent in the section itself, at most 999999, and the overhead of all calls inside as a percentage of its time, at most 99. Each is within half a unit of its last digit from the exact figure, plus one part in 2^48. This is for fewer than 2^31 calls, and for sections that took some time or a clock overhead above zero.", "quantifier": "all properly nested histories of calls on a clock that does not run backwards, all overhead estimates", "why_tests_cant": "histories are unbounded, and times range over 64-bit integers converted to double precision", "anchors": ["xo/system/profiler.cpp: report_section, total_overhead, exclusive_time", "xo/string/string_tools.cpp: stringf", "xo/time/time.h: milliseconds"]}
{"id": "C177", "title": "Logging a profiler report", "statement": "log_results() of a finished measurement sends exactly one message for every line of the report, in that order, at level 2 to 5 as tagged; the message has the name without the tag and the text of the line, aligned in one column.", "quantifier": "all properly nested histories of calls, all minimum percentages", "why_tests_cant": "histories are unbounded in length and depth", "anchors": ["xo/system/profiler.cpp: log_results, report_section", "xo/container/prop_node_tools.cpp: log_prop_node"]}
{"id": "C178", "title": "Length and normalization of vectors in floating point", "statement": "For every vector with finite components whose squares do not overflow, length() is the exact length up to 3.02 rounding errors, provided its square does not underflow; normalize() of a vector longer than twice the machine epsilon gives components within 5.1 rounding errors of the exact ones, a vector that is_normalized() accepts, and returns the length; a vector shorter than half the machine epsilon is left as it is. Exception: when squares overflow, the length is infinite and the normalized vector is zero; when they underflow, the length is 0.", "quantifier": "all vectors of float or double numbers, components up to 2^(emax/2-3), that is 2^509 for double and 2^61 for float", "why_tests_cant": "each component ranges over 2^64 numbers and every operation rounds", "anchors": ["xo/geometry/vec3.h: length, squared_length, normalize, normalized, is_normalized, operator*, operator/", "xo/numerical/compare.h: equal", "xo/numerical/constants.h: epsilon, ample_epsilon"]}
{"id": "C179", "title": "Normalization of quaternions in floating point", "statement": "For every quaternion with finite components whose squares neither overflow nor underflow altogether, normalized() gives components within 5.1 rounding errors of the exact ones, the squared length is 1 up to 10.2 rounding errors, and is_normalized() accepts the result. The same holds for normalize_try_fast(), with 5.75 and 11.5 rounding errors, for every tolerance up to the square root of 4.5 rounding errors, which the default is. Whatever is_normalized() accepts has finite components and a squared length of 1 up to 21.5 rounding errors. Exception: the zero quaternion becomes NaN, and a quaternion whose squares overflow becomes zero.", "quantifier": "all quaternions of float or double numbers, components up to 2^(emax/2-3), that is 2^509 for double and 2^61 for float; all tolerances up to the stated one", "why_tests_cant": "each component ranges over 2^64 numbers and every operation rounds", "anchors": ["xo/geometry/quat.h: length, squared_length, is_normalized, normalize, normalized, normalize_try_fast"]}
{"id": "C180", "title": "Products of quaternions in floating point", "statement": "Each component of the product of two quaternions is the one of Hamilton's product up to 4.005 rounding errors of the mean of their squared lengths. If is_normalized() accepts both, then the squared length of the product is 1 up to 64 rounding errors, and is_normalized() accepts the product once it is normalized. Exception: it may refuse the product itself.", "quantifier": "all pairs of quaternions of float or double numbers with squared lengths below 2^(emax-3) together", "why_tests_cant": "each component ranges over 2^64 numbers and every operation rounds", "anchors": ["xo/geometry/quat.h: operator*, is_normalized, normalized"]}
{"id": "C181", "title": "Rotating vectors in floating point", "statement": "Rotating a vector by a quaternion that is_normalized() accepts gives, in each component, the rotation by the quaternion of length exactly 1 in the same direction, up to 192 rounding errors of the largest component of the vector, and the length of the vector is kept up to 384 such errors.", "quantifier": "all quaternions accepted by is_normalized() and all vectors of float or double numbers up to 2^(emax-10)", "why_tests_cant": "each component ranges over 2^64 numbers and every operation rounds", "anchors": ["xo/geometry/quat.h: operator*, is_normalized", "xo/geometry/vec3.h: cross_product"]}
{"id": "C182", "title": "Comparing floating-point numbers with a tolerance", "statement": "equal(a, b, e) is true whenever the difference is at most e times the magnitude of a, and when it is true the difference is at most that much up to three rounding errors; every finite number equals itself. Exception: the order of the arguments matters, infinity does not equal itself, and only zero equals zero as the first argument.", "quantifier": "all finite float or double numbers a, b whose difference does not overflow, all tolerances that are not negative", "why_tests_cant": "each number ranges over 2^64 values and every operation rounds", "anchors": ["xo/numerical/compare.h: equal", "xo/numerical/math.h: abs"]}
{"id": "C183", "title": "Finding the frame of a value in floating point", "statement": "For a channel whose samples never decrease, find_frame_index( storage, value, channel ) returns a frame whose sample is as near to the value as any other, up to three rounding errors of the distance; if a sample equals the value, it returns the first frame that has it; an empty storage gives no_index. Exceptions: a value between the first two frames is always given the second; of two frames that are nearly as near the farther one may be chosen; NaN is found at the first frame.", "quantifier": "all storages, channels and finite float or double values up to a quarter of the largest power of two", "why_tests_cant": "samples range over 2^64 numbers, their number is unbounded, and the differences are rounded", "anchors": ["xo/container/storage_tools.h: find_frame_index", "xo/container/storage.h: operator()"]}
{"id": "C184", "title": "Values between frames in floating point", "statement": "get_interpolated_value( index, channel ) is on the straight line between the samples of the two frames around the index, up to four rounding errors of the larger sample, and is the sample itself at a whole index; from the last frame on it throws. Exceptions: the value may lie outside the two samples, even if they are equal, and may go back as the index grows; an infinite sample spoils the frame before it; a negative or infinite index or NaN is undefined behaviour.", "quantifier": "all storages with fewer than 2^63 frames, all samples up to a quarter of the largest power of two, all indices", "why_tests_cant": "samples and indices range over 2^64 numbers and every operation rounds", "anchors": ["xo/container/storage.h: get_interpolated_value"]}
{"id": "C185", "title": "Positions in a sequence in floating point", "statement": "lerp_vec( sequence, index ) and lerp_span() give the element at a whole index, the first and last element before and after the sequence, and between two elements a value on the straight line up to rounding that is the elements' value when they are equal and moves in one direction. Exception: an index of 2^31 or more is undefined behaviour.", "quantifier": "all sequences of fewer than 2^31 numbers up to a quarter of the largest power of two, all indices", "why_tests_cant": "elements and indices range over 2^64 numbers and every operation rounds", "anchors": ["xo/numerical/interpolation.h: lerp_span, lerp_vec, lerp"]}
{"id": "C186", "title": "Waves in floating point", "statement": "triangle_wave( v ) is between 0 and 1 and is the distance of v to the nearest even number up to one rounding error of 1; square_wave( v ) is 1 in the first half of each period and 0 in the second, for v that are not negative; is_whole( v ) is true exactly for whole numbers. Exceptions: for |v| of 2^53 (double) or more the triangle wave may be 2, the smallest numbers give 0, and the square wave of a negative number is always 1.", "quantifier": "all finite float or double numbers, for the triangle wave those below 2^(prec-1) - 2 that are not subnormal", "why_tests_cant": "numbers range over 2^64 values and every operation rounds", "anchors": ["xo/numerical/math.h: triangle_wave, square_wave, is_whole"]}
{"id": "C187", "title": "Vectors, rotations and lists of numbers survive as text", "statement": "A vec3, quat or vector of float or double that is written to a property tree and read back, and a vec3 written as text, has the same number of entries, each with the same sign and at most a hundred-thousandth off; entries of at most six digits, infinities and NaN are unchanged. Exception: other entries can change.", "quantifier": "all vectors, quaternions and lists of any length of float or double", "why_tests_cant": "each coordinate ranges over 2^32 or 2^64 values; lists are unbounded", "anchors": ["xo/geometry/vec3.h: to_str, to_prop_node, from_prop_node", "xo/geometry/quat.h: to_prop_node, from_prop_node", "xo/container/prop_node.h: to_prop_node, from_prop_node", "xo/string/string_cast.cpp: to_str, from_str"]}
{"id": "C188", "title": "Bounds of floating-point numbers survive as text", "statement": "Bounds of float or double written with to_str and read with from_str have both numbers kept to a hundred-thousandth, although the points of \"..\" follow the first number; numbers keep their order, so that a number within the bounds that is written and read as well is still within them; typed bounds \"a..b\" are read as the nearest numbers. Exceptions: the number itself may fall out of the bounds read, and a first number that ends in a point takes the point of the second.", "quantifier": "all pairs of float or double, all decimal texts", "why_tests_cant": "numbers range over 2^64 values, texts are unbounded", "anchors": ["xo/numerical/bounds.h: to_str, from_str", "xo/string/string_cast.cpp: to_str, from_str"]}
{"id": "C189", "title": "Shapes survive in property trees", "statement": "A shape written with to_prop_node and read with from_prop_node is of the same kind and has the same dimensions up to a hundred-thousandth (for a box also half of the smallest float); dimensions of six digits are unchanged. Exception: a box with a size above the largest float is read as infinite.", "quantifier": "all shapes with float dimensions", "why_tests_cant": "dimensions range over 2^32 values each", "anchors": ["xo/shape/shape.cpp: to_prop_node, from_prop_node"]}
{"id": "C190", "title": "Numbers survive in ZML files", "statement": "A vec3, a shape, or a list of numbers under any key that ZML can represent, saved as a ZML file: the file is written, no other file changes, and from every later load the same value is read up to six digits.", "quantifier": "all values, file systems and names with write permission", "why_tests_cant": "values and file systems are unbounded", "anchors": ["xo/serialization/serialize.cpp: save_file, load_file", "xo/serialization/prop_node_serializer_zml.cpp: write_zml_node, read_zml_layer", "xo/geometry/vec3.h: from_prop_node", "xo/shape/shape.cpp: from_prop_node"]}
{"id": "C191", "title": "Sums and averages in floating point", "statement": "In floating point of any precision, the sum of n finite numbers that stays well inside the range is off by at most 2n unit errors of the sum of their sizes, and the average by (2n+2) of the mean size. Whole numbers are added exactly and their average is the mean rounded once. No numbers throw an exception. Exceptions: the average of equal numbers may lie above all of them, sums of large numbers are infinite, and small numbers next to large ones get lost.", "quantifier": "all precisions, all lists of up to 2^(precision-1) numbers", "why_tests_cant": "numbers range over 2^32 or 2^64 values and lists are unbounded; rounding errors add up", "anchors": ["xo/container/container_algorithms.h: accumulate, average"]}
{"id": "C192", "title": "Variances and deviations in floating point", "statement": "mean_var and mean_std give the average; a variance off by at most (3n+7) unit errors of the true variance and four times the squared error of the average, never negative for whatever numbers; and a deviation that is its root, correctly rounded, and a number whenever the variance is one. Exceptions: equal numbers can have a variance that is not 0, and of numbers far apart it is infinite.", "quantifier": "all precisions, all lists of up to 2^(precision-1) numbers; non-negativity: all numbers, infinities and NaN included", "why_tests_cant": "numbers range over 2^64 values and lists are unbounded", "anchors": ["xo/container/container_algorithms.h: mean_var, mean_std"]}
{"id": "C193", "title": "Channel means and covariances in floating point", "statement": "compute_channel_means gives the average of every channel; compute_covariance is exactly symmetric for whatever numbers, has on its diagonal exactly the variance given by mean_var for the channel, and is off by a bound in the spread of the channels.", "quantifier": "all precisions, all frames and channels", "why_tests_cant": "storages are unbounded and numbers range over 2^64 values", "anchors": ["xo/container/data_algorithms.h: compute_channel_means, compute_covariance"]}
{"id": "C194", "title": "Medians and extremes in floating point", "statement": "Of an odd number of ordinary numbers the median is the middle one itself; of an even number the mean of the two in the middle, off by at most 3 unit errors, never outside the numbers; both ways to compute it give the same. The extremes are the first smallest and largest ones. Exceptions: the median of two large numbers is infinite; NaN at the start is taken for an extreme.", "quantifier": "all precisions, all non-empty lists, all implementations of the standard algorithms that keep their contracts", "why_tests_cant": "lists are unbounded and numbers range over 2^64 values", "anchors": ["xo/container/container_algorithms.h: median, median_slow, min_element, max_element, min_value, max_value"]}
{"id": "C195", "title": "Polynomials in floating point", "statement": "A polynomial of degree d is evaluated with an error of at most (6d+2) unit errors of the sum of the sizes of its terms, exactly for whole numbers in range and at 0. A line reaches a height at the computed place up to 3 unit errors. Exceptions: a polynomial with coefficients 0 is NaN at large arguments; near a multiple root the result can have the wrong sign.", "quantifier": "all precisions, degrees, coefficients and arguments", "why_tests_cant": "coefficients and arguments range over 2^64 values, degrees are unbounded", "anchors": ["xo/numerical/polynomial.h: operator(), intersect_y"]}
{"id": "C196", "title": "Differences of successive values in floating point", "statement": "For every history of inputs, each result of delta is the difference of the last two inputs, correctly rounded: it has its sign and is 0 just if they are equal, and it is exact if they are within a factor of two or whole numbers in range. Earlier inputs have no influence, and the first result of a new object is the input. Exception: the results need not add up to the total change.", "quantifier": "all precisions, all histories", "why_tests_cant": "histories are unbounded, numbers range over 2^64 values", "anchors": ["xo/numerical/delta.h: delta"]}
{"id": "C197", "title": "First-order filter by fast updates in floating point", "statement": "For every history of inputs up to M and time steps with k <= dt * rate <= 1, the value of update_fast stays finite and differs from that of the same steps with real numbers by at most about 15 unit errors of M over k: rounding errors do not add up over time. A constant input is approached geometrically up to that error, and kept exactly once reached. Exceptions: it may never be reached, a step may go slightly past the input, and with dt * rate = 4 the value becomes infinite.", "quantifier": "all precisions, rates, histories of any length, inputs and time steps", "why_tests_cant": "histories are unbounded; rounding errors could accumulate", "anchors": ["xo/numerical/filter_1st_order.h: update_fast"]}
{"id": "C198", "title": "First-order filter by accurate updates in floating point", "statement": "The same for update_accurate, compared to the exact solution: for every history the value differs by at most the error of one step over the smallest loss per step, given std::exp up to an error. A constant input is approached geometrically and kept exactly; after so long a step that std::exp gives 0 the value is the input itself.", "quantifier": "all precisions, rates, histories of any length, inputs and time steps, all accuracies of std::exp", "why_tests_cant": "histories are unbounded; rounding errors could accumulate", "anchors": ["xo/numerical/filter_1st_order.h: update_accurate"]}
{"id": "C199", "title": "Numbers in settings keep six digits", "statement": "For every schema and every history of set and load calls with double, strtod and %g as they are: an accepted value of a setting with a range is afterwards read as the number closest to it in the range, up to a relative error of 1/100000, and exactly if six digits suffice; what is stored is always such a number; saving and loading gives every setting the value it had. Exceptions: the number read can lie outside the range by the error of the six digits, and a subnormal number changes when saved and loaded.", "quantifier": "every schema, every history of set and load calls, every text of a value, every range", "why_tests_cant": "Which texts give themselves again after being clamped, printed with six digits and read depends on rounding to decimal and to binary for all doubles.", "anchors": ["xo/system/settings.cpp: settings::try_set, load, save", "xo/string/string_cast.cpp: from_str(double), to_str(double)", "xo/container/prop_node.h: prop_node::get", "xo/utility/optional.h: optional"]}
{"id": "C200", "title": "Colours from hues keep their range with real floats", "statement": "With float as it is: for every finite hue from 0 on and saturation and value in [0,1], the colour is opaque, its largest channel is the value itself, its smallest channel is value·(1−saturation) to one millionth, all channels lie between these two, and each channel is the one defined by the HSV model to one millionth. Whole turns of the hue make no difference at all, and without saturation all channels are exactly the value. Exception: a hue between −360 and −1 gives transparent black.", "quantifier": "every finite float hue from 0 on, every float saturation and value in [0,1]", "why_tests_cant": "Billions of hues, each with its own rounding in fmod, division, floor and three products, must each hit one of six sectors and stay within range.", "anchors": ["xo/utility/color.cpp: color_from_hsv", "xo/utility/color.h: color"]}
{"id": "C201", "title": "Unique colours with real floats", "statement": "With float as it is: for every index and every brightness in (0,1] the unique colour is opaque with channels in [0,1], its largest channel is at least the asked brightness, and its perceived brightness is the asked one to 1/100000, unless its largest channel is 1, in which case it is not brighter. The first three colours are pure red, green and blue. The first 4800 colours differ from each other for all brightnesses from 0.1 to 1. Exception: later colours need not differ; those of index 49680 and 49692 are the same at brightness 1.", "quantifier": "every 64-bit index, every float brightness in (0,1], every pair of indices below 4800", "why_tests_cant": "Whether two of millions of pairs of colours collide, or one of billions of brightnesses misses, depends on the rounding of some twenty operations each.", "anchors": ["xo/utility/color.cpp: make_unique_color, perceived_brightness, color_from_hsv", "xo/numerical/math.h: clamped"]}
{"id": "C202", "title": "A circular frame buffer keeps the last frames", "statement": "After any history of adding frames and assigning values, each of the last frames, as many as the capacity, has in each channel the value last assigned to it, or that of the frame it replaced if none was; access by number, from the end and to the most recent frame agree. The accessor with a check gives exactly the kept frames and interpolation uses two successive frames. Adding a channel gives it the next index. Exceptions: until the buffer is full the checked accessor rejects every frame; interpolating after the most recent frame uses the oldest; adding a channel before any frame leaves a buffer in which every access is undefined.", "quantifier": "every capacity, number of channels and history of calls", "why_tests_cant": "Each frame has its own place modulo the capacity, and which frame a place belongs to depends on the whole history.", "anchors": ["xo/container/deprecated/circular_frame_buffer.h: circular_frame_buffer, add_frame, add_channel, operator(), operator[], reverse, at, get_interpolated_value", "xo/container/label_vector.h: label_vector"]}
{"id": "C203", "title": "A function tabulated at regular points is accurate in floating point", "statement": "The table has the values of the function at points that are regular up to a few roundings, the first one exactly. Evaluating it at any point up to 2^30 steps away gives, up to eight roundings, the line through two neighbouring samples (the ones around the point, or the first or last two beyond the ends), at a position that is right up to two roundings. A point a whole number of steps from the first gives that sample exactly if the distance is a number. Exceptions: the value at a point where a sample was taken can differ from the sample; from 2^32 steps away the evaluation is undefined.", "quantifier": "every precision of at least 3 bits (so float and double), table size, table and point", "why_tests_cant": "Each evaluation rounds several times, and the position can round to the other side of a sample.", "anchors": ["xo/numerical/regular_piecewise_linear_function.h: regular_piecewise_linear_function, operator()"]}
{"id": "C204", "title": "Weighted averages in floating point", "statement": "After any calls of add and reset, get gives the weighted mean of what was added since the last reset, off by at most (6n+5) units of rounding of the weighted mean of the sizes (and a multiple of the smallest number divided by the sum of the weights); empty tells exactly whether all weights since then are zero, and then get gives zero. The weights must not be negative: one value with weight -1 has the average zero though it is not empty.", "quantifier": "every precision of at least 3 bits (so float and double), every history of calls with finite values and weights, up to a number of values that depends on the precision", "why_tests_cant": "Every addition rounds, in the values and in the weights, and the errors add up over the history.", "anchors": ["xo/numerical/average.h: average_, add, get, empty, reset"]}
{"id": "C205", "title": "Recursive filters in floating point", "statement": "A run of a recursive filter reads and writes only elements of its arrays, and every output is what its recurrence gives from the inputs and outputs before it, off by at most 2(N+1) units of rounding of the sizes of its terms. If the coefficients on the earlier outputs do not amplify, the outputs of every run, however long, stay bounded and within one fixed distance of the exact outputs. They need not die out after an impulse, although the exact outputs do.", "quantifier": "every precision of at least 3 bits (so float and double), every order, every finite coefficients and every list of finite inputs for which no sum of sizes reaches a quarter of the range", "why_tests_cant": "Rounding errors are fed back into the filter, so a test of some length says nothing about longer runs.", "anchors": ["xo/numerical/filter.h: iir_filter::operator()"]}
