{
"C01": [
"vector of pairs with binary-search lower_bound",
"refinement to a function from keys to values, induction over operation lists"
],
"C02": [
"flat_set as a sorted vector",
"refinement to a set, induction over operation lists"
],
"C03": [
"the initializer-list constructors",
"witness against; induction for sorted lists"
],
"C04": [
"upper_bound insertion, removal of an equal run",
"sortedness and multiset invariants by induction"
],
"C05": [
"association list with first-match lookup",
"refinement by induction"
],
"C06": [
"value vector with an index map of bounded index type",
"invariant by induction; witness for exhaustion"
],
"C07": [
"labels with an index map",
"invariant for add-only histories; witness for relabelling"
],
"C08": [
"row-major buffer as a list, in-place loops written as loops",
"index arithmetic, induction on the loops"
],
"C09": [
"`find_frame_index` over the time column",
"witness against; order reasoning for what holds"
],
"C10": [
"table with row and column labels",
"index arithmetic; witness for `resize`"
],
"C11": [
"ring buffer as list with offsets",
"abstraction function to a list, refinement by induction over operations"
],
"C12": [
"overwriting ring buffer",
"abstraction function to the last elements, induction over operations"
],
"C13": [
"64-bit `N` with bit operations",
"extensionality of `N.testbit`"
],
"C14": [
"rose tree with ordered labelled children",
"structural induction"
],
"C15": [
"erasing from the tree",
"structural induction"
],
"C16": [
"merging of trees",
"structural induction"
],
"C17": [
"accessed flags",
"structural induction, history invariant"
],
"C18": [
"pre-order traversals",
"structural induction on the tree"
],
"C19": [
"byte-level encoder and decoder with a position, UB past the end",
"induction on strings; witnesses for bytes from 128"
],
"C20": [
"`char_stream` as a state machine",
"lexer lemmas, induction on the text"
],
"C21": [
"ZML writer and reader",
"lexer lemma, then induction on the tree; witnesses for special texts"
],
"C22": [
"ZML reader on two texts with the same tokens",
"token-sequence equality, fuel induction"
],
"C23": [
"line-based INI reader and writer",
"induction on lines"
],
"C24": [
"file map as parameter, depth-limited include resolver",
"induction on depth"
],
"C25": [
"search helpers on strings",
"induction on the text"
],
"C26": [
"find-and-replace loop",
"induction on the text"
],
"C27": [
"splitting with skipping of separators",
"induction on the text"
],
"C28": [
"paths as text with last-separator search",
"string lemmas; witness for dots in directories"
],
"C29": [
"decimal printer and strtol",
"induction on digits"
],
"C30": [
"versions as four integers",
"case analysis; witness against transitivity"
],
"C31": [
"threads with shared map and reader-writer lock",
"invariant over all reachable states"
],
"C32": [
"threads with shared cache, files that change",
"invariant over all reachable states"
],
"C33": [
"sink registry, sequential and with threads",
"invariant over histories and over schedules"
],
"C34": [
"clock-driven timer and stopwatch",
"invariant by induction over events"
],
"C35": [
"stopwatch over a clock",
"sums by induction over splits"
],
"C36": [
"profiler sections as a tree",
"invariant by induction over nested calls"
],
"C37": [
"settings over the tree model",
"invariant by induction over operations"
],
"C38": [
"registry of factories and proxies",
"refinement by induction"
],
"C39": [
"argument list",
"list lemmas"
],
"C40": [
"clamping and real intervals, any order for the comparisons",
"case analysis"
],
"C41": [
"integers with their widths",
"number theory lemmas"
],
"C42": [
"wrapping of angles and phases with fmod by contract",
"real arithmetic"
],
"C43": [
"piecewise linear and constant functions over sorted points, lerp",
"induction on points, algebra"
],
"C44": [
"delay line over samples",
"invariant over sequences of samples"
],
"C45": [
"quaternions and vectors",
"ring, field"
],
"C46": [
"transforms",
"ring"
],
"C47": [
"rotation matrices and quaternions",
"ring, field, case analysis on the largest component"
],
"C48": [
"Euler angles",
"trigonometry"
],
"C49": [
"mirrored vectors, quaternions, transforms",
"ring"
],
"C50": [
"bounding boxes",
"order reasoning, induction on points"
],
"C51": [
"segments and lines",
"order reasoning, nra"
],
"C52": [
"regression lines",
"algebra of sums, median by contract"
],
"C53": [
"median, mean, top elements, sorting by contract",
"permutations, order reasoning"
],
"C54": [
"64-bit modular arithmetic, two recurrences",
"induction on the text"
],
"C55": [
"enum text table, dates",
"induction on the text, digit lemmas"
],
"C56": [
"optional values with a sentinel",
"case analysis over operations"
],
"C57": [
"second-order and Butterworth filters",
"linear recurrences, induction on samples"
],
"C58": [
"insertion of points in a path",
"induction on the path"
],
"C59": [
"directories and system calls as interaction tree",
"invariant of the trace for every answer of the system"
],
"C60": [
"time-stamped caches and interval checkers",
"invariant by induction over events"
],
"C61": [
"stop tokens",
"history invariant"
],
"C62": [
"handles over a handle_vector",
"index lemmas, induction over histories"
],
"C63": [
"containers after a rejected call",
"state comparison; witnesses"
],
"C64": [
"joining of strings",
"induction on the parts"
],
"C65": [
"key=value text",
"induction on the text"
],
"C66": [
"file-name helpers",
"string lemmas; witness"
],
"C67": [
"version printer and reader",
"digit lemmas; witnesses"
],
"C68": [
"equality of trees",
"structural induction"
],
"C69": [
"query text of a node",
"induction on the path; witness for arrays"
],
"C70": [
"typed get and set",
"tree lemmas, conversion as parameter"
],
"C71": [
"argv to tree",
"induction on the arguments; witnesses"
],
"C72": [
"search through a list of folders",
"induction on the list"
],
"C73": [
"recursive search in folders",
"case analysis and fuel induction; witness for the endless recursion"
],
"C74": [
"times as integers",
"division lemmas; witnesses for negative times"
],
"C75": [
"saving and reloading of settings",
"induction over the schema; witnesses"
],
"C76": [
"side suffixes",
"string lemmas"
],
"C77": [
"integer ranges as iterators",
"induction on the number of steps"
],
"C78": [
"result values",
"case analysis over assignments"
],
"C79": [
"approximate comparison over the reals",
"order reasoning; witness against symmetry"
],
"C80": [
"bounded values, missing return as UB",
"case analysis"
],
"C81": [
"first-order filter",
"exponentials and linear recurrences; witness for overshoot"
],
"C82": [
"accumulators",
"induction on samples"
],
"C83": [
"polynomials, minimum jerk",
"ring, induction on coefficients"
],
"C84": [
"means and covariance of channels",
"sums, permutations"
],
"C85": [
"normalisation",
"field, square roots"
],
"C86": [
"distances and projections",
"Cauchy-Schwarz, nra"
],
"C87": [
"axis, angle and rotation vectors",
"trigonometry"
],
"C88": [
"rotation between directions",
"field, nra; witness for opposite directions"
],
"C89": [
"swing and twist",
"field, trigonometry"
],
"C90": [
"headings and polar coordinates",
"trigonometry, atan2 by contract"
],
"C91": [
"volumes and inertias",
"integrals (`RiemannInt` of the standard library) of the bodies"
],
"C92": [
"scaling of shapes",
"field; witnesses for capsules"
],
"C93": [
"extents of shapes",
"order reasoning; witnesses"
],
"C94": [
"line and plane",
"field"
],
"C95": [
"Catmull-Rom segments",
"ring, derivatives as limits"
],
"C96": [
"length of a polyline on a spline",
"triangle inequality, induction on steps"
],
"C97": [
"searches in lists",
"induction on the list"
],
"C98": [
"element-wise copy in a memory",
"induction on the length; witness for overlap"
],
"C99": [
"filtered views, zip",
"induction on the list; witness"
],
"C100": [
"heap of blocks, programs over array variables",
"simulation between heap states and values, induction over programs"
],
"C101": [
"vectors as lists",
"induction on the length"
],
"C102": [
"matrices as lists with a stride",
"index arithmetic; witness for the product"
],
"C103": [
"vectors of four",
"ring; witnesses"
],
"C104": [
"scales",
"field"
],
"C105": [
"tree to vector and back",
"case analysis over forms of trees"
],
"C106": [
"tree to quaternion",
"case analysis; witness"
],
"C107": [
"tree to transform",
"case analysis; witness"
],
"C108": [
"bounds as text",
"string lemmas; witnesses"
],
"C109": [
"tree to shape",
"case analysis over shapes"
],
"C110": [
"tree to lists and arrays",
"induction on the list"
],
"C111": [
"hexadecimal colours in binary32",
"Flocq rounding lemmas for every 32-bit value"
],
"C112": [
"hue, saturation, value",
"case analysis over sextants, lra"
],
"C113": [
"order and clamping by channel",
"order reasoning"
],
"C114": [
"colour arithmetic",
"ring; witness"
],
"C115": [
"colour from text and tree",
"string lemmas, case analysis"
],
"C116": [
"gradient as sorted stops",
"induction on stops"
],
"C117": [
"unique colours",
"real arithmetic, irrational step"
],
"C118": [
"real ranges",
"induction on the number of steps"
],
"C119": [
"binary32 ranges",
"Flocq rounding bounds; witness of an endless loop"
],
"C120": [
"function tables",
"induction on the points"
],
"C121": [
"picture as rows of characters",
"bounds on rows and columns; witnesses"
],
"C122": [
"typed indices modulo 2^32",
"case analysis, modular arithmetic"
],
"C123": [
"index spans",
"induction on the length; witness"
],
"C124": [
"collections by type",
"list lemmas"
],
"C125": [
"test case counters",
"induction over events; witnesses"
],
"C126": [
"threads that run tests",
"simulation between every schedule and the sequential run"
],
"C127": [
"dictionaries",
"induction on the entries"
],
"C128": [
"stack_string",
"induction over operations"
],
"C129": [
"patterns, fnmatch as parameter",
"list and string lemmas; witness"
],
"C130": [
"tidied names",
"induction on the text; witnesses"
],
"C131": [
"stream wrapper over a sequence",
"induction on the values"
],
"C132": [
"text data file",
"induction on the text; witness"
],
"C133": [
"debug recordings",
"induction over values; witness"
],
"C134": [
"rapidxml parser with position and fuel",
"measure on the remaining text"
],
"C135": [
"printed documents",
"induction on the element tree"
],
"C136": [
"tree to XML to tree",
"induction on the tree; witnesses"
],
"C137": [
"numeric character references",
"arithmetic of UTF-8; witnesses"
],
"C138": [
"strtod and strtof on characters, with exact rational rounding",
"the rounding is shown to be Flocq's round to nearest even; induction on the digits"
],
"C139": [
"the %g conversion on exact fractions",
"six digits are Flocq's rounding in radix ten; digits by induction"
],
"C140": [
"both conversions",
"relative error of rounding; nearest numbers; monotonicity at the largest number"
],
"C141": [
"both conversions",
"monotonicity of rounding; witness"
],
"C142": [
"both conversions",
"midpoints of the six-digit numbers against the error of the binary rounding; witness"
],
"C143": [
"the stream operators on characters, with the numbers of `Flt`",
"induction on the rows and labels; the accuracy is C140"
],
"C144": [
"the read operator on characters",
"induction on the lines and their numbers; the numbers are C138"
],
"C145": [
"the stream operators on characters, with istream's number format",
"induction on rows and columns; the accuracy is C140"
],
"C146": [
"fields of frames on the storage of `Grid`",
"invariant of reachable storages; induction on the fields"
],
"C147": [
"the interpolation on real numbers",
"case distinction on the whole part of the index"
],
"C148": [
"load_file with and without error code over an abstract file system",
"simulation between the reader with and without error code, by induction on the text and the depth of inclusion"
],
"C149": [
"the readers with an error code",
"case analysis; totality of the reader by induction on the remaining text"
],
"C150": [
"save_file and load_file over an abstract file system",
"composition of the round trips of the formats with a model of the file system"
],
"C151": [
"save_file over an abstract file system",
"case analysis of every outcome of a save"
],
"C152": [
"the include directive of ZML over an abstract file system",
"simulation between stack depths, then composition with C150"
],
"C153": [
"the ZML reader on documents with macros, references, includes and nested blocks",
"inductive meaning of documents; induction on the document with the position of the block being read in the tree or in the macros"
],
"C154": [
"the meaning of documents",
"induction on the items before the use"
],
"C155": [
"the meaning of documents",
"addressing is not changed by an item added at the end"
],
"C156": [
"the meaning of documents",
"induction on the items of the block"
],
"C157": [
"the ZML reader on arbitrary texts",
"invariant on the text left and on the address of the block being read; induction on the fuel, which is shown to suffice"
],
"C158": [
"stream_sink, console_sink, file_sink and get_log_prefix over a stream",
"induction on the events told to the sink; the lines are the maximal pieces without line breaks (C27); C33 for what the sink is told"
],
"C159": [
"the same with a stream that has room for n bytes",
"invariant between the two streams: the limited one holds a prefix of the other"
],
"C160": [
"threads writing under g_console_mutex, one step per text handed to the stream",
"invariant: whole messages by thread, and the part of the one being written; race freedom and progress from the lock"
],
"C161": [
"load_string, save_string and append_string as programs of system calls over an arbitrary operating system that keeps file contents",
"the run is making folders (which touches no file), opening, and one call per byte; induction on the text and on the history"
],
"C162": [
"the same programs, run for n system calls",
"invariant of the rest of the program together with the state of the file"
],
"C163": [
"find_files over trees of directories",
"induction on trees with nested lists; the paths found are characterised by an inductive relation"
],
"C164": [
"seconds(), milliseconds() and back with Flocq doubles",
"relative error of each operation; exact grids of doubles as bounds of the rounded sum"
],
"C165": [
"time_to_str and time_from_str, printf with a fixed number of decimals",
"the double stays within the second by monotony of rounding; reading by the decimal theorems of Flt"
],
"C166": [
"the texts of get_report",
"induction on the list of times"
],
"C167": [
"clamping, bounds and midpoint with Flocq numbers of any precision",
"order of floating-point numbers with infinities; differences have relative error below u, also when subnormal"
],
"C168": [
"fmod as exact remainder of mantissas; wrapped",
"the remainder fits the format; rounding is monotone, so the bounds are not crossed; errors added up"
],
"C169": [
"lerp, lerp_map and the piecewise linear function",
"monotony of rounding; relative error of each operation; induction on the points"
],
"C170": [
"average with weight one",
"induction on the list from the right with an invariant for the error"
],
"C171": [
"to_stream, to_str and prop_node_align_width over strings of any length",
"the column is the maximum over the preorder of nodes; lines and the preorder with depths determine the tree, by induction"
],
"C172": [
"log_unaccessed and to_str_unaccessed",
"both are the preorder filtered by a positive count; the count is positive exactly when something is unread"
],
"C173": [
"log_prop_node as list of messages",
"as C171, with the name and level taken from the key"
],
"C174": [
"make_str_from_prop_node, read by the model of the ZML reader",
"the text emits the tokens of a document whose meaning is the tree, by induction on trees"
],
"C175": [
"report and report_section over the sections of the profiler, in binary64",
"sections and call paths correspond (C36); the tree is built by recursion over them; rounding errors are bounded operation by operation, and rounding is monotone"
],
"C176": [
"the format string of report_section, %f with Flocq binary64",
"relative errors of at most 16 units through conversions, products and quotients; printing rounds exactly"
],
"C177": [
"log_results through the model of log_prop_node",
"the lines of C175 through C173"
],
"C178": [
"vectors of Flocq numbers of any precision of at least 11 bits with 4 prec <= emax",
"running errors of sums of products; the square root halves relative errors; rounding is monotone"
],
"C179": [
"quaternions of Flocq numbers of any precision of at least 11 bits with 4 prec <= emax",
"as C178; the quotient 2/(1+s) against 1/sqrt(s) by (1-sqrt s)^2; acceptance by monotone rounding of 16 units"
],
"C180": [
"quat operator*",
"running errors of four signed products; Hamilton products multiply lengths"
],
"C181": [
"the two cross products of quat operator* on vectors",
"acceptance gives finite components and bounds; errors through both cross products; the rotation by the unit quaternion differs by the error in the squared length"
],
"C182": [
"equal()",
"monotone rounding one way, error bounds the other"
],
"C183": [
"the search on storages of Flocq numbers of any precision of at least 3 bits",
"the search ends at the border between smaller and other samples; rounding is monotone and differences have relative errors"
],
"C184": [
"get_interpolated_value with the cast to an unsigned index",
"the fraction of the index is exact because a remainder is; running errors of the two products and their sum"
],
"C185": [
"lerp_span with the cast to int",
"the fraction is exact; errors and monotonicity of lerp from C169"
],
"C186": [
"triangle_wave, square_wave, is_whole with floor and remainder",
"adding one half rounds up to a whole number only just below 1/2, where the tie goes to the even number; remainders are exact"
],
"C187": [
"the conversions of C105-C110 with numbers as IEEE numbers and their texts as in C138-C142",
"the general reading theorems with the accuracy of the texts"
],
"C188": [
"bounds with the same texts",
"a decimal text followed by two points is scanned to the same number; a written number never ends in a point, so the first two points are the separator"
],
"C189": [
"shapes with the same texts, halving and doubling as IEEE products",
"doubling is exact, halving errs by at most half of the smallest number"
],
"C190": [
"save_file and load_file of C148-C152",
"number texts consist of characters that ZML writes without quotes; reading depends only on keys and values"
],
"C191": [
"accumulate and average on IEEE numbers of any precision",
"induction over the list with the relative error of each addition; whole numbers below 2^precision are added without rounding"
],
"C192": [
"mean_var and mean_std on the same numbers",
"errors of differences, products and their sum; signs of sums, squares and quotients for all numbers"
],
"C193": [
"the loops over frames and channels",
"the same loops as average and mean_var; multiplication is commutative"
],
"C194": [
"the loops and the contracts of nth_element and partial_sort_copy",
"order statistics of the values, and the error of one addition and one exact halving"
],
"C195": [
"the loop with powers",
"induction over the coefficients with the errors of powers, products and sums"
],
"C196": [
"the object as its state on IEEE numbers of any precision",
"induction over the history with the relative error of a difference; the lemma of Sterbenz"
],
"C197": [
"the update as written, folded over the history",
"error of one step; the filter contracts errors by 1 - k per step, so that they stay below the error of one step over k"
],
"C198": [
"the update as written with std::exp as a parameter",
"the same, with the exponential function being 1-Lipschitz below 0"
],
"C199": [
"settings with binary64 numbers, strtod and %g",
"texts between equal texts are equal, since rounding to six digits is monotone; reading in a wide format shows that a text determines the six digits; then the theorems about settings"
],
"C200": [
"color_from_hsv with binary32 numbers",
"fmod and the fractional part are exact and the quotient stays below 6; rounding is monotone and keeps numbers of the format, which bounds the channels; the shares of red, green and blue have slope at most 1, which carries the error of the hue over"
],
"C201": [
"make_unique_color and perceived_brightness with binary32 numbers",
"errors of all operations are added up; perceived brightness is a norm, so it moves no more than the channels; equal colours have equal largest and smallest channels, hence close saturations, hence the same one, and then close hues"
],
"C202": [
"the buffer with its frame count, capacity, data and labels; size_t subtraction wraps around",
"an invariant relates every place in the data to the recording; two kept frames never share a place, since they are less than the capacity apart"
],
"C203": [
"the table and its evaluation with correctly rounded operations, floor and the conversion to int",
"error bounds for each rounding, combined; the computed position stays below 2^31, so the conversion is defined and the clamped index has a next sample"
],
"C204": [
"the two sums with correctly rounded operations, after any list of calls",
"induction over the history: relative error bounds for both sums, and monotonicity of rounding for the weights; then one division"
],
"C205": [
"the filter with correctly rounded operations, called for any list of inputs",
"one call: induction over the taps with a rounding error for each operation; runs: the state holds the last inputs and outputs; an invariant that relates the state to that of the exact filter"
]
}