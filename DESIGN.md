# Formal model of pdftotext++ in Rocq (Coq 8.16.1)

The model lives in `rocq/theories/`. Model files contain definitions (each citing file and lines in
`/repo`), `*Proofs.v` files contain lemmas, `*Spec.v` files contain the vocabulary
in which the properties are stated, and `Props*.v` files contain the property theorems (named after the property they
belong to), each followed by `Print Assumptions`, plus the non-vacuity `Example`s. A theorem whose name ends in `_refuted`
shows that the unguarded version of a claim is false of the code (with the witness in its statement or its proof).

## Modelling conventions

* **doubles** are IEEE-754 binary64 values: Flocq's `binary_float 53 1024` (one NaN), round to nearest even.
  Comparisons, `+`, `-`, `*`, `/`, `fabs` are the exact IEEE operations, so rounding, infinities,
  signed zeros and NaN are part of every statement.
* **strings** are lists of bytes (`list ascii`).
* **undefined behaviour and exceptions** are explicit outcomes: `Ok x | UB why | Throw why`.
* **`std::sort`** is an arbitrary function satisfying the standard's contract: if the comparator is a strict
  weak order on the input it returns a sorted permutation; otherwise the behaviour is undefined. Theorems
  quantify over every such function.
* **hash maps** are association lists in an arbitrary order; theorems hold for every order.
* **`rand()`** is an arbitrary stream. **Pointers** are identifiers/indices.
* **loops** are structural recursions or fuelled with a proof that the fuel suffices.

## Trusted base

* Coq 8.16.1's kernel (and its VM, used by `vm_compute` in witnesses).
* Axioms: only the standard library's real-number axioms that Flocq's construction of rounded operations uses
  (`ClassicalDedekindReals.sig_not_dec`, `ClassicalDedekindReals.sig_forall_dec`,
  `FunctionalExtensionality.functional_extensionality_dep`, `Classical_Prop.classic`).
  `Print Assumptions` under each theorem lists them when used.
* The reading of the C++ code: every definition cites the lines it models.
* The contracts listed above (sort, hash-map iteration, rand, Poppler callbacks as arbitrary events,
  TensorFlow output as an arbitrary vector).

## Per-property plan

| id | property | what is modelled and how it is proved |
|---|---|---|
| C01 | Tolerant comparisons form a consistent order | MathUtils over IEEE binary64 (Flocq binary_float 53 1024). Order lemmas by case analysis on the float classes + monotonicity of rounded addition. |
| C02 | minimum/maximum select a bounding argument | same model; case analysis on the comparison. |
| C03 | Position comparators vs. std::sort's contract | comparators as boolean functions on elements; refutation witness by vm_compute; positive part on lists whose keys are exactly equal or further apart than the tolerance. |
| C04 | Overlap ratios are well-behaved | computeOverlapRatios over binary64; bounds via Flocq rounding monotonicity (x<=y, y>0 -> round(x/y)<=1). |
| C05 | Gaps between elements | gap functions over binary64; symmetric by case split; sign via monotone subtraction. |
| C06 | Rotation-aware extents | position record + accessors; case split on rotation. |
| C07 | Bounding boxes cover their members | fold of minimum/maximum from (DBL_MAX, DBL_MAX, DBL_MIN, DBL_MIN); induction on the member list. |
| C08 | mostFreq returns a most frequent key | counter = association list in arbitrary order, count mod 2^32; induction over the list; all permutations. |
| C09 | DoubleCounter::max | same; induction with the running value as invariant. |
| C10 | FixedCapacityPriorityQueue never exceeds its capacity | queue as multiset + comparator; contract of std::priority_queue (top is a maximum); invariant over pushes. |
| C11 | splitIntoWords tokenises without loss | strings = list ascii; induction. |
| C12 | join, shorten, strip | same. |
| C13 | createRandomString | rand() = arbitrary stream of naturals; %0 = UB outcome. |
| C14 | wrap terminates and loses no text | fuelled loop, fuel = length; termination + text preservation. |
| C15 | JSON escaping round-trips | escapeJson + independent JSON string decoder; induction. |
| C16 | JSONL records are well-formed | record printer + independent JSON object recogniser; number printing is an oracle returning a JSON number. |
| C17 | Plain-text output is exactly the selected blocks | serializer as function doc -> string; independent spec by filter/intercalate. |
| C18 | Extended plain-text output | same. |
| C19 | Dehyphenation merges exactly the hyphenated line ends | state machine over the flattened line list; independent spec. |
| C20 | No word text is lost by dehyphenation + plain-text output | corollary + vm_compute refutation. |
| C21 | Diacritical marks are merged into their base | model of the merging loop over the page's characters; refutations by vm_compute. |
| C22 | Words partition the characters of a page | word loop as fold; invariant: words ++ active = processed prefix. |
| C23 | Words are homogeneous | same, invariant on active word. |
| C24 | Stacked math symbols | model of the left/right scanning loops. |
| C25 | Text lines partition the words of a segment | cluster + merge model, permutation invariant; termination by number of lines. |
| C26 | Line hierarchy is acyclic and sibling links agree | stack algorithm as fold over lines; invariants on links; for lines in columns: the stack holds exactly the open lines (declarative), which determines all links. |
| C27 | A character is never both subscript and superscript | if/else-if chain model. |
| C28 | XY-cut terminates and partitions | xyCut with fuel = number of elements, arbitrary chooser; std::sort by its contract; permutation by induction. |
| C29 | Cuts split the sorted elements at the chosen positions | xCut/yCut model; loop invariant on candidate positions. |
| C30 | Page segmentation partitions the page content | instantiate C28 with the module's choosers. |
| C31 | Page segmentation's cut choice | model of chooseXCuts/chooseYCuts. |
| C32 | Reading order is a permutation | instantiate C28 + final sort. |
| C33 | Text blocks partition the lines | two-pass grouping; list-flatten invariants. |
| C34 | Block-break rules | trool rule chains. |
| C35 | Byte-pair encoding has the requested length | encode model; length by cases. |
| C36 | Byte-pair merging terminates, is lossless and cache-transparent | merge loop on token list; measure token count; cache invariant over histories. |
| C37 | Predicted role is the arg-max | Float.v (binary32) + Roles.v: the arg-max loop with explicit bounds checks (UB); induction over role numbers and blocks; the network is an arbitrary function of the two tensors. |
| C38 | Command-line names round-trip | finite tables + string quantification. |
| C39 | Every accepted output format produces output | main as a function from parsed occurrences, engine and file system to exit code and actions; invariant of the option store. |
| C40 | Logging filter | finite cases over Z levels/pages. |
| C41 | Pipeline stops on unreadable input and honours disabled modules | process as list of (flag, module) over an abstract document; traces. |
| C42 | Options without effect | simulation between the runs with and without the switch: the flags are never read. |
| C43 | No drawn character is lost or duplicated by parsing | Parsing.v: the output device as a state machine over Poppler's callbacks (an arbitrary event list); each event's contribution specified by `adds` in ParsingSpec.v, page/figure membership as invariant over the log of contributions; progress for orderly streams; witnesses for invalid UTF-8 and infinite clip boxes. |
| C44 | Shapes and graphics lie within their clip box | Parsing.v/ParsingBoxes.v: fold of the path points with clipping, exact on binary64; necessary and sufficient condition for images; witnesses for the exceptions. |
| C45 | Type-1 decryption inverts Type-1 encryption | Fonts.v: decrypt over Z, standard (overflow = UB) and wrap-around arithmetic; induction over the text against the published encryption. |
| C46 | Charstring interpretation: safety, termination and its complete list of errors | Fonts.v: charstring interpreter with fuel = call depth; simulation of the abstract Type-1 machine (FontsSpec.exec); fuel monotonicity; error list by induction over the bytes. |
| C47 | The box of a glyph is the bounding box of its outline | simulation with the abstract machine that records points and pieces; convexity of lines and Bezier curves over the reals. |
| C48 | Encrypted font section is decoded within the buffer | Fonts.v: buffer of optional bytes (unwritten = undefined) with bounds checks; hexadecimal branch: element 1 is never written. |
| C49 | Font matrix of an embedded font | Fonts.v: line loop, number scanner; strtod is an oracle; refutation for more than six numbers. |
| C50 | Font names are normalised | Fonts.v: string functions; frame of the whole parser. |
| C51 | Document statistics reflect the document | counters fed from the document. |
| C52 | End-to-end text preservation | Pipeline.v composes the models of all modules (the state is the document, the modules run in the order of PdfToTextPlusPlus.cpp, each can be switched off); proof by an invariant per stage (PipelineProofs.v, PipelineWords.v, PipelineWhole.v), from C21, C22, C24, C30, C32, C33, the conservation of words by the line detection (PipelineLines.v, for all coordinates), and the frames of the script detection and the dehyphenation. Two refutations run the whole model on small documents. |
| C53 | Output destination | file-system oracle. |
| C54 | Rounding never inverts a box | rounding = std::round(x * 10^n) / 10^n on IEEE doubles; monotonicity of each rounded operation. |
| C55 | Exit status | case analysis of main over all outcomes of parsing, storing and the engine. |
| C56 | The reading order respects the geometry | generic lemma: relations between the groups of each cut lift to the groups of the recursion; separation from the candidate specification (C29) and exactness of the tolerant comparisons on tenths. |
| C57 | The y-cuts of the reading order | specification of the three searches; induction over the pair loop. |
| C59 | Trim box | double-counter lemma (C08) + real-number estimate of count / number of lines. |
| C60 | Attributes of text blocks | attributes computed in createTextBlock; declarative predicates over consecutive lines and margins (BlocksSpec.v). |
| C61 | Potential footnote labels | maximal runs; equivalence of the scanning function with a declarative description. |
| C58 | Numbers in the output | operator<<(double) (default %g, precision 6) modelled with exact integer arithmetic; the value of a numeral is specified in NumberSpec.v; error bound by real arithmetic, exactness on the 0.1 grid by the distance of grid points. |
| C62 | The role predictor sees the document | Roles.v: both tensor constructions over binary32/binary64 with the implicit conversions; error analysis with Flocq (relative error lemmas), counting lemmas for the shares; cache transparency from C36 for the ids; from_bytes is an arbitrary partial function, <cwctype> is the C locale. |
| C63 | Vocabulary files are read as written | Roles.v: getline/stoi loop with the stream state (eof, bad); induction over the lines; non-termination shown as None for every fuel. |
| C64 | Glyph boxes of an embedded Type-1 font | Fonts.v: regex tables, decryption, interpreter, file segments composed; tables specified independently of the matchers; concrete font as witness. |
| C65 | Weight and slope from the clear text of an embedded font | Fonts.v: line loop with found-flags; frame of the encrypted part. |
| C66 | Style derived from font name and flags | Fonts.v: basic_font. |
| C67 | The box of a character is where the PDF draws it | Parsing.v/ImagingProofs.v: the matrix arithmetic of drawChar on binary64 against exact reals (ImagingSpec.v), by error propagation. |
| C68 | The rotation of a character | Parsing.v: sign tests on the products of matrix entries; real-number specification with margins; witnesses for Type 3 and tiny text. |
| C69 | Fonts are told apart by their names | Parsing.v: font map keyed by name; induction over the event list. |
| C70 | Figures are created on demand | Parsing.v: find-or-create of figures; same invariant as C43. |
| C71 | The text of a character | Parsing.v + CharMap.v (the table, generated from CharMap.h); table checked entry by entry by the kernel. |
| C72 | Ordinary documents are processed to the end | an invariant per stage over Pipeline.v (TotalPos.v, TotalLines.v, TotalWhole.v) that says the boxes are on the page with stored coordinates, the ids are in range and the counts small; each module is total on it by its own definedness theorem (C21, C22, C30, C32, C51, C37, C62, ...). std::sort is total because the comparators are strict weak orderings on stored coordinates (C03), which include the infinite coordinates of invisible shapes. LegibleProofs.v pushes decodability through the stages: the texts of words, lines and blocks are concatenations of composed character texts and blanks, and no page has more than n(n+1) of them, so the roles predictor never meets a text it cannot decode (C72_characters, C76_legible); the font names of the characters are those that PdfFontInfoParser (Fonts.v) gave to the fonts of the document; TextlessProofs.v shows that no block is made if one of the modules that extract text is skipped. |
| C73 | The parts of the result fit together | invariants of Pipeline.v carried through all stages (PipelineContent.v, PipelineStages.v) - each word is made from its characters, each line and each block from its words - on top of C23, C30 and C58; read off the final document. |
| C74 | Roles and reading order of the result | decomposition of the run at the reading order detection (PipelineStages.v); the prediction's input is stated independently in ContentSpec.v; C32 and C56 per page. |
| C75 | Dehyphenation and plain text of the result | the same decomposition at the dehyphenation; C19, C20 and C17 applied to the final document, whose words are duplicate-free by C52. |
| C76 | The program as a whole | Program.v puts Cli.v, Pipeline.v and Serialization.v together (the engine of Cli.v is no longer arbitrary); the theorem composes C39/C40/C55 with C17, C20, C52, C72, C73, C74 and C75; a printed word is located by its place in the sequence of words, which is duplicate-free. PropsEvery.v: totality for every command line, from C72_characters, the option map's invariant (stored roles are in range) and the definedness of both formats. |
| C77 | Visualised boxes | Visualization.v models src/PdfDocumentVisualization.cpp as the list of annotations handed to Poppler (kind, page, rectangle, colour, contents); page heights are an oracle. Induction over pages and elements; rounding errors of the coordinates are bounded with the near calculus of ImagingSpec.v. |
| C78 | Visualised reading order | Same model; induction over the blocks, annotations sorted by kind (lines, circles, labels). |
| C79 | Visualised cuts | Same model; induction over the cuts, with the number of chosen cuts so far. |
| C80 | Labels and order of the visualisation | convertToUtf16 with the table of pdfDocEncoding as an oracle; totality of every drawing function from the existence of the pages. |
| C81 | Statistics, segments, lines and blocks of the result | all intermediate documents of the run (PipelineStats.v); every later stage keeps the words, figures, segments and statistics that a calculation has read; C51 applied at the stage; the places of lines (segment, parent, siblings, margins) are followed through all later stages (PipelineWired.v), so that the inputs of the detection of lines and of blocks can be read off the result. |
| C82 | Every part of the result lies on its page; drawing it never fails | page numbers as an invariant of the parser (PipelinePages.v), of the cutting (here/cuts_here) and of the line detection; pictured (PagesSpec.v) says which visualization belongs to a result; C80 does the rest. |
| C83 | Random identifiers and uninitialised memory never influence the output | noninterference by erasure: every module commutes with removing the ids (IdsStages.v, IdsStages2.v; the XY-cut for any function on the elements that preserves positions, IdsXY.v, IdsOrder.v), so a run depends on the random strings only through the ids of the result; the serializers and the rest of main do not look at them (IdsProgram.v). Memory: the roles that the reading order detection overwrites. Specification: IdsSpec.v. Hypothesis: std::sort and std::priority_queue see elements only through the comparator (blind_sort, blind_top; met by insertion sort). |
| C84 | Enumeration item labels | model of std::regex (the constructs used): a backtracking matcher on an abstract syntax of the nine patterns of Config.h (ItemLabels.v). Its soundness and completeness w.r.t. the language of an expression by induction over the expression; the languages are then computed pattern by pattern and compared with an inductive definition of labels in terms of bytes (ItemLabelsSpec.v). The other theorems about blocks (C34, C60) hold for any set of patterns, in particular for this one. |
| C85 | Sub- and superscripts of the result | the whole pipeline (Pipeline.v). The flags set by script detection (Scripts.v, C21 ff.) are followed through the later stages, which keep the characters; the baselines of the lines are followed from the line detection (PipelineContent.v, fifth part of the line invariant), and the line numbering gives that the lines of a page are those of its segments and blocks (PipelineScripts.v). Vocabulary in ScriptedSpec.v, theorems in PropsScripted.v; example: a document with a superscript and a subscript in one word. |
| C86 | What is extracted does not depend on how it is shown | the whole program (Program.v, C76). The extracted blocks are a function of the file and of the skip switches (C76 with the log and visualisation parts projected away); the texts of both formats are specified as functions of a list of pages of blocks (SelectionSpec.v); selecting by role is an order-preserving sublist. Theorems in PropsSelection.v; example: four runs on one document with two blocks. |
| C87 | Accents of the result | the whole pipeline (Pipeline.v). C21 gives what merging does to the parsed characters; the later stages keep position, text and the merge links of characters (PipelineAccents.v), C52 gives the words. Theorems in PropsAccents.v; example: a document with an accent over a letter, with merging and without. |
| C88 | Destroying a document frees every object exactly once | Destruction.v models the destructors of src/Types.cpp as the list of deleted objects, on the document of the whole pipeline (Pipeline.v). Characters, shapes and graphics are told apart by the number that parsing gives them (C71), words and lines by their number in the document, blocks by page and rank. Theorems in PropsOwnership.v. Left out: positions and cuts (each is owned by exactly one object), the intermediate objects that the program drops without deleting (words and lines that were merged into another one, preliminary blocks) and the blank characters that parsing deletes itself (PdfParsing.cpp:243). |
| C89 | Running times are reported truthfully | Timings.v: the list of timings, the sum, the percentages in binary64 (Flocq), libstdc++'s digit grouping and fixed notation with one digit. Measured times are arbitrary integers, the locale is a record, the text for NaN a parameter. Specification in TimingsSpec.v (numerals, digit groups counted from the right, filling with blanks); error bound by the rounding lemmas of ImagingProofs.v and GridProofs.v; which steps are listed is compared with the trace of the pipeline (C41). Theorems in PropsTimings.v. Left out: buffering of the stream. |
| C90 | Log messages tell when and how serious | Logging.v: the prefix of a message (timestamp, color, level) and what a sequence of calls leaves on standard output, with the stream selection of Cli.v. The broken-down time is a record of numbers; strftime and setfill are zero-filled numerals. Specification in LoggingSpec.v: the timestamp read field by field at fixed positions, order of texts byte by byte, order of moments part by part. Proof: fixed-width numerals compare like numbers. Theorems in PropsLogging.v. Left out: the wording of the messages of the modules, the clock. |

## What is modelled, file by file

| source | modelled in | what is left out |
|---|---|---|
| src/utils/MathUtils.{h,cpp}, Trool.h | MathUtils.v | - |
| src/utils/Counter.{h,cpp} | Counter.v | hashing; iteration order is arbitrary |
| src/utils/FixedCapacityPriorityQueue.h, XYCut.{h,cpp} | XYCut.v | debug log messages |
| src/utils/Comparators.h, PdfElementsUtils.{h,cpp} | Elements.v, Lines.v, Blocks.v | `createRandomString` uses an arbitrary stream for `rand()` |
| src/utils/TextUtils.{h,cpp} | TextUtils.v | - |
| src/utils/BytePairEncoder.{h,cpp} | Bpe.v | hash of the cache (a finite map) |
| src/utils/CharMap.h | CharMap.v | - (generated from the header, entry by entry) |
| src/utils/Log.{h,cpp} | Cli.v (levels), Logging.v | the wording of the messages |
| src/utils/PdfFontInfoParser.{h,cpp} | Fonts.v, Charstring in Fonts.v | Poppler's access to the embedded font file (an arbitrary byte string) |
| src/PdfParsing.{h,cpp} | Parsing.v, CharMap.v | Poppler itself: its callbacks are an arbitrary event list |
| src/GlyphsStatisticsCalculation, WordsStatisticsCalculation, TextLinesStatisticsCalculation | Statistics.v | log messages |
| src/DiacriticalMarksMerging.{h,cpp} | Diacritics.v | log messages |
| src/WordsDetection, utils/WordsDetectionUtils | Words.v | log messages |
| src/PageSegmentation, utils/PageSegmentationUtils | PageSegmentation.v | log messages |
| src/TextLinesDetection, utils/TextLinesDetectionUtils | Lines.v | log messages |
| src/SubSuperScriptsDetection.{h,cpp} | Scripts.v | log messages |
| src/TextBlocksDetection, utils/TextBlocksDetectionUtils | Blocks.v; the patterns for item labels: ItemLabels.v | log messages; capture groups |
| src/ReadingOrderDetection.{h,cpp} | ReadingOrder.v | log messages |
| src/SemanticRolesPrediction.{h,cpp} | Roles.v | TensorFlow: an arbitrary function from the two input tensors to a vector |
| src/WordsDehyphenation.{h,cpp} | Dehyphenation.v | - |
| src/serializers/*, PdfDocumentSerialization | Serialization.v | - |
| src/PdfDocumentVisualization.{h,cpp} | Visualization.v | Poppler's rendering of the annotations; saving the file |
| src/PdfToTextPlusPlus.{h,cpp} | Pipeline.v, Cli.v; the names of the timings: Timings.v | the clock: the measured milliseconds are arbitrary |
| src/pdftotext++.cpp, Validators.{h,cpp} | Cli.v, Program.v; the report of the running times: Timings.v | the wording of the help text |
| src/Config.h | the constants in the model files, each citing its line | - |
| src/Types.{h,cpp} | the records of Document.v and the model files; the destructors: Destruction.v | `toString()` functions (used only in log messages) |

The names above are the model files; a definition's own comment is authoritative for the lines it models.

## Assumed behaviour of the environment

* Boost.Program_options: the documented behaviour of `command_line_parser`, positional options, `store` and `notify` (Cli.v).
* `std::sort`, `std::priority_queue`, `std::unordered_map`: any implementation that satisfies the standard's contract
  (`sort_ok`, `top_ok`, arbitrary iteration order). `std::nth_element`/`max_element` as specified.
* Unicode functions (`UnicodeMap::mapUnicode`, `utf8proc` decomposition, `std::wstring_convert` with `codecvt_utf8_utf16`,
  `iswspace`, `strtod`): arbitrary functions (oracles); where a theorem needs something of them, it is a hypothesis of the theorem.
* `<cctype>` functions behave as in the C locale. `abs` on doubles is `std::abs` (the integer overload, where the
  code could pick it up, is covered by an arbitrary function).
* The compiler does not contract `a*b+c` to a fused operation, uses binary64 for `double` and binary32 for `float`, and
  evaluates the operands of the two-read expressions in PdfFontInfoParser left to right.
* Memory is sufficient; `std::regex` does not run out of stack; integers are 32-bit `int` and 64-bit `size_t`.
* Poppler calls the output device from one thread; the program has no other threads.

## What `Print Assumptions` lists for each theorem

S = `ClassicalDedekindReals.sig_forall_dec`, N = `ClassicalDedekindReals.sig_not_dec`, C = `Classical_Prop.classic`, F = `FunctionalExtensionality.functional_extensionality_dep` (all of Coq's standard library); 'none' = closed under the global context.

| theorem | file | axioms |
|---|---|---|
| C01_equal_between_meaning | PropsGeometry.v | S N C F |
| C01_exact_on_rounded_coordinates | PropsGeometry.v | S N C F |
| C01_meaning | PropsGeometry.v | S N C F |
| C01_tolerant_order | PropsGeometry.v | S N C F |
| C01_trichotomy_on_rounded_coordinates | PropsGeometry.v | S N C F |
| C01_trichotomy_refuted | PropsGeometry.v | S N C F |
| C02_min_max | PropsGeometry.v | S N C F |
| C02_nan_refuted | PropsGeometry.v | none |
| C03_comparators_are_partial_orders | PropsGeometry.v | S N C F |
| C03_comparators_meaning | PropsGeometry.v | S N C F |
| C03_contract_refuted | PropsGeometry.v | S N C F |
| C03_sort_well_defined | PropsGeometry.v | S N C F |
| C04_max_overlap_of_elements | PropsGeometry.v | S N C F |
| C04_overflow_refuted | PropsGeometry.v | S N C F |
| C04_overlap_ratios | PropsGeometry.v | S N C F |
| C05_gaps | PropsGeometry.v | S N C F |
| C05_guards_refuted | PropsGeometry.v | S N C F |
| C06_rotated_extents | PropsGeometry.v | S N C F |
| C06_rotation_is_cyclic | PropsGeometry.v | none |
| C07_bounding_box_covers | PropsGeometry.v | S N C F |
| C07_bounding_box_tight | PropsGeometry.v | S N C F |
| C07_line_and_block_box | PropsGeometry.v | S N C F |
| C07_tight_refuted | PropsGeometry.v | S N C F |
| C08_any_counter | PropsUtils.v | none |
| C08_double_counter | PropsUtils.v | S N C F |
| C08_string_counter | PropsUtils.v | none |
| C08_sum_overflow_refuted | PropsUtils.v | none |
| C09_counter_max | PropsUtils.v | S N C F |
| C09_order_dependent_refuted | PropsUtils.v | S N C F |
| C09_small_keys_refuted | PropsUtils.v | S N C F |
| C10_capacity_zero_refuted | PropsUtils.v | none |
| C10_keeps_best_refuted | PropsUtils.v | none |
| C10_queue_content | PropsUtils.v | none |
| C10_sort | PropsUtils.v | none |
| C11_huge_text_diverges_refuted | PropsUtils.v | none |
| C11_split_into_words | PropsUtils.v | none |
| C12_join | PropsUtils.v | none |
| C12_join_leading_empty_refuted | PropsUtils.v | none |
| C12_sentence_predicates | PropsUtils.v | none |
| C12_shorten | PropsUtils.v | none |
| C12_strip | PropsUtils.v | none |
| C13_random_string | PropsUtils.v | none |
| C13_small_alphabet_refuted | PropsUtils.v | none |
| C14_last_line_refuted | PropsUtils.v | none |
| C14_wrap | PropsUtils.v | none |
| C15_escape_json | PropsUtils.v | none |
| C16_font_name_refuted | PropsOutput.v | S N C F |
| C16_lines_unit | PropsOutput.v | none |
| C16_nan_refuted | PropsOutput.v | S N C F |
| C16_numbers | PropsOutput.v | none |
| C16_records | PropsOutput.v | none |
| C16_unknown_font_refuted | PropsOutput.v | S N C F |
| C17_plain_text | PropsOutput.v | none |
| C18_extended | PropsOutput.v | none |
| C18_same_words | PropsOutput.v | none |
| C18_trailing_form_feed_refuted | PropsOutput.v | S N C F |
| C18_unknown_role_refuted | PropsOutput.v | S N C F |
| C19_frame | PropsOutput.v | none |
| C19_marks | PropsOutput.v | none |
| C20_chain_refuted | PropsOutput.v | S N C F |
| C20_no_chain | PropsOutput.v | none |
| C20_no_loss | PropsOutput.v | none |
| C20_role_filter_refuted | PropsOutput.v | S N C F |
| C21_all_marks_kept_refuted | PropsWords.v | S N C F |
| C21_always_defined_refuted | PropsWords.v | S N C F |
| C21_boxes | PropsWords.v | S N C F |
| C21_defined | PropsWords.v | S N C F |
| C21_frame | PropsWords.v | S N C F |
| C21_isolated_marks | PropsWords.v | S N C F |
| C22_text_preserved | PropsWords.v | S N C F |
| C22_words_partition | PropsWords.v | S N C F |
| C23_configuration | PropsWords.v | S N C F |
| C23_word_breaks | PropsWords.v | S N C F |
| C24_acyclic | PropsWords.v | S N C F |
| C24_bases_are_not_parts_refuted | PropsWords.v | S N C F |
| C24_parts_disjoint_refuted | PropsWords.v | S N C F |
| C24_relation | PropsWords.v | S N C F |
| C25_always_defined_refuted | PropsLines.v | S N C F |
| C25_defined | PropsLines.v | S N C F |
| C25_lines | PropsLines.v | S N C F |
| C25_partition | PropsLines.v | S N C F |
| C25_partition_without_separation_refuted | PropsLines.v | S N C F |
| C25_ranks | PropsLines.v | S N C F |
| C25_terminates | PropsLines.v | S N C F |
| C26_columns | PropsLines.v | S N C F |
| C26_links | PropsLines.v | S N C F |
| C26_no_line_further_left_refuted | PropsLines.v | S N C F |
| C27_base_box | PropsScripts.v | S N C F |
| C27_exclusive | PropsScripts.v | S N C F |
| C27_exclusive_across_lines_refuted | PropsScripts.v | S N C F |
| C27_flags | PropsScripts.v | S N C F |
| C28_defined | PropsXYCut.v | S N C F |
| C28_exhaustive_refuted | PropsXYCut.v | S N C F |
| C28_partition | PropsXYCut.v | S N C F |
| C28_terminates | PropsXYCut.v | S N C F |
| C29_all_candidates_refuted | PropsXYCut.v | S N C F |
| C29_negative_limit_refuted | PropsXYCut.v | S N C F |
| C29_xcut_candidates | PropsXYCut.v | S N C F |
| C29_xcut_groups | PropsXYCut.v | S N C F |
| C29_xcut_overlap | PropsXYCut.v | S N C F |
| C29_xcut_place | PropsXYCut.v | S N C F |
| C29_ycut_candidates | PropsXYCut.v | S N C F |
| C29_ycut_groups | PropsXYCut.v | S N C F |
| C29_ycut_place | PropsXYCut.v | S N C F |
| C30_bounding_box | PropsSegmentation.v | S N C F |
| C30_defined | PropsSegmentation.v | S N C F |
| C30_partition | PropsSegmentation.v | S N C F |
| C30_terminates | PropsSegmentation.v | S N C F |
| C31_configuration | PropsConfiguration.v | S N C F |
| C31_x_cuts | PropsSegmentation.v | S N C F |
| C31_y_cuts | PropsSegmentation.v | S N C F |
| C31_y_partner | PropsSegmentation.v | S N C F |
| C32_defined | PropsSegmentation.v | S N C F |
| C32_pagewise | PropsSegmentation.v | S N C F |
| C32_permutation | PropsSegmentation.v | S N C F |
| C32_terminates | PropsSegmentation.v | S N C F |
| C33_blocks | PropsBlocks.v | S N C F |
| C33_defined | PropsBlocks.v | S N C F |
| C33_lines | PropsBlocks.v | S N C F |
| C33_partition | PropsBlocks.v | S N C F |
| C34_blocks | PropsBlocks.v | S N C F |
| C34_preliminary | PropsBlocks.v | S N C F |
| C34_rotation | PropsBlocks.v | S N C F |
| C35_encode | PropsBpe.v | none |
| C35_ids_in_vocabulary | PropsBpe.v | none |
| C35_meta_collision_refuted | PropsBpe.v | none |
| C35_meta_ids | PropsBpe.v | none |
| C36_cache_transparent | PropsBpe.v | none |
| C36_merge_loop | PropsBpe.v | none |
| C36_word_encoding | PropsBpe.v | none |
| C37_argmax | PropsRoles.v | S N C F |
| C37_predict | PropsRoles.v | S N C F |
| C37_short_output_refuted | PropsRoles.v | none |
| C37_too_many_classes_refuted | PropsRoles.v | S N C F |
| C37_unique | PropsRoles.v | none |
| C38_distinct | PropsCli.v | none |
| C38_format | PropsCli.v | none |
| C38_jsonl_refuted | PropsCli.v | none |
| C38_repeated | PropsCli.v | none |
| C38_role | PropsCli.v | none |
| C38_type | PropsCli.v | none |
| C39_output | PropsCli.v | none |
| C40_debug_refuted | PropsCli.v | none |
| C40_quiet | PropsCli.v | none |
| C40_stdout_refuted | PropsCli.v | none |
| C40_stream | PropsCli.v | none |
| C40_visible | PropsCli.v | none |
| C41_order | PropsCli.v | none |
| C41_skip | PropsCli.v | none |
| C41_trace | PropsCli.v | none |
| C41_unreadable | PropsCli.v | none |
| C42_no_effect | PropsCli.v | F |
| C43_infinite_clip_refuted | PropsParsing.v | S N C F |
| C43_invalid_utf8_refuted | PropsParsing.v | S N C F |
| C43_ranks | PropsParsing.v | S N C F |
| C43_stored | PropsParsing.v | S N C F |
| C43_total | PropsParsing.v | S N C F |
| C44_dropped_image_refuted | PropsParsing.v | S N C F |
| C44_graphics | PropsParsing.v | S N C F |
| C44_invisible_refuted | PropsParsing.v | S N C F |
| C44_negative_refuted | PropsParsing.v | S N C F |
| C44_shapes | PropsParsing.v | S N C F |
| C45_eexec_refuted | PropsFonts.v | none |
| C45_inverse | PropsFonts.v | none |
| C45_standard | PropsFonts.v | none |
| C45_total | PropsFonts.v | none |
| C46_bytes | PropsFonts.v | none |
| C46_errors | PropsFonts.v | none |
| C46_errors_refuted | PropsFonts.v | none |
| C46_recursion_refuted | PropsFonts.v | none |
| C46_safe | PropsFonts.v | none |
| C46_terminates | PropsFonts.v | none |
| C47_box | PropsFonts.v | S F |
| C47_div_refuted | PropsFonts.v | none |
| C47_endchar_refuted | PropsFonts.v | none |
| C47_no_sidebearing_refuted | PropsFonts.v | none |
| C47_seac_refuted | PropsFonts.v | none |
| C48_binary | PropsFonts.v | none |
| C48_header | PropsFonts.v | none |
| C48_hex_refuted | PropsFonts.v | none |
| C48_short | PropsFonts.v | none |
| C48_truncated | PropsFonts.v | none |
| C49_matrix | PropsFonts.v | S N C F |
| C49_not_embedded | PropsFonts.v | S N C F |
| C49_overflow_refuted | PropsFonts.v | S N C F |
| C50_names | PropsFonts.v | S N C F |
| C51_glyphs | PropsStatistics.v | S N C F |
| C51_lines | PropsStatistics.v | S N C F |
| C51_words | PropsStatistics.v | S N C F |
| C52_overlapping_symbols_refuted | PropsPipeline.v | S N C F |
| C52_text | PropsPipeline.v | S N C F |
| C52_without_symbols | PropsPipeline.v | S N C F |
| C52_words | PropsPipeline.v | S N C F |
| C53_destination | PropsOutput.v | none |
| C53_shell_refuted | PropsOutput.v | none |
| C54_rounding_error | PropsGeometry.v | S N C F |
| C54_rounding_is_monotone | PropsGeometry.v | S N C F |
| C55_exit | PropsCli.v | none |
| C55_negative_refuted | PropsCli.v | S N C F |
| C55_unwritable_refuted | PropsCli.v | S N C F |
| C56_order | PropsSegmentation.v | S N C F |
| C57_primary_cuts | PropsSegmentation.v | S N C F |
| C57_y_cuts | PropsSegmentation.v | S N C F |
| C57_y_cuts_exact | PropsSegmentation.v | S N C F |
| C58_accuracy | PropsNumbers.v | S N C F |
| C58_coordinates_exact | PropsNumbers.v | S N C F |
| C58_integers | PropsNumbers.v | S F |
| C58_large_refuted | PropsNumbers.v | S N C F |
| C59_defined | PropsLines.v | S N C F |
| C59_trim_box | PropsLines.v | S N C F |
| C60_emphasis_and_centering | PropsBlocks.v | S N C F |
| C60_hanging_indent | PropsBlocks.v | S N C F |
| C61_labels | PropsBlocks.v | none |
| C61_only_label_characters_refuted | PropsBlocks.v | S N C F |
| C62_clip_origin_refuted | PropsRoles.v | S N C F |
| C62_isupper_refuted | PropsRoles.v | S N C F |
| C62_layout | PropsRoles.v | S N C F |
| C62_non_ascii_refuted | PropsRoles.v | S N C F |
| C62_undecodable | PropsRoles.v | S N C F |
| C62_unknown_font_refuted | PropsRoles.v | S N C F |
| C62_words | PropsRoles.v | none |
| C63_bad_line | PropsRoles.v | none |
| C63_failed_load_forgotten_refuted | PropsRoles.v | S N C F |
| C63_load | PropsRoles.v | none |
| C63_undecodable | PropsRoles.v | none |
| C64_boxes | PropsFonts.v | S N C F |
| C64_cut_refuted | PropsFonts.v | none |
| C64_names_refuted | PropsFonts.v | none |
| C64_segments | PropsFonts.v | S N C F |
| C65_angle_refuted | PropsFonts.v | S N C F |
| C65_style | PropsFonts.v | S N C F |
| C66_flags | PropsFonts.v | S N C F |
| C66_prefix_refuted | PropsFonts.v | S N C F |
| C66_style | PropsFonts.v | S N C F |
| C67_box | PropsParsing.v | S N C F |
| C67_proper | PropsParsing.v | S N C F |
| C67_upside_down_refuted | PropsParsing.v | S N C F |
| C68_rotation | PropsParsing.v | S N C F |
| C68_tiny_refuted | PropsParsing.v | S N C F |
| C68_type3_refuted | PropsParsing.v | S N C F |
| C69_character | PropsParsing.v | S N C F |
| C69_fonts | PropsParsing.v | S N C F |
| C69_same_name_refuted | PropsParsing.v | S N C F |
| C70_figures | PropsParsing.v | S N C F |
| C70_not_empty | PropsParsing.v | S N C F |
| C71_table | PropsParsing.v | none |
| C71_table_refuted | PropsParsing.v | none |
| C71_text | PropsParsing.v | S N C F |
| C72_characters | PropsLegible.v | S N C F |
| C72_no_size_refuted | PropsTotal.v | S N C F |
| C72_roles | PropsTotal.v | S N C F |
| C72_total | PropsTotal.v | S N C F |
| C73_blocks | PropsContent.v | S N C F |
| C73_fonts | PropsContent.v | S N C F |
| C73_pages | PropsContent.v | S N C F |
| C73_words | PropsContent.v | S N C F |
| C74_order | PropsContent.v | S N C F |
| C74_roles | PropsContent.v | S N C F |
| C75_marks | PropsContent.v | S N C F |
| C75_text | PropsContent.v | S N C F |
| C76_clipped_refuted | PropsProgram.v | S N C F |
| C76_default | PropsProgram.v | S N C F |
| C76_every_command_line | PropsEvery.v | S N C F |
| C76_legible | PropsLegible.v | S N C F |
| C76_no_model_refuted | PropsProgram.v | S N C F |
| C76_ordinary | PropsProgram.v | S N C F |
| C76_text | PropsProgram.v | S N C F |
| C77_blocks | PropsVisualization.v | S N C F |
| C77_frames | PropsVisualization.v | S N C F |
| C77_segments | PropsVisualization.v | S N C F |
| C78_order | PropsVisualization.v | S N C F |
| C78_single_refuted | PropsVisualization.v | S N C F |
| C79_cuts | PropsVisualization.v | S N C F |
| C80_all | PropsVisualization.v | S N C F |
| C80_ascii | PropsVisualization.v | none |
| C80_bytes | PropsVisualization.v | none |
| C80_no_page_refuted | PropsVisualization.v | S N C F |
| C80_utf8_refuted | PropsVisualization.v | none |
| C81_block_detection | PropsWired.v | S N C F |
| C81_emphasis | PropsWiring.v | S N C F |
| C81_glyphs | PropsWiring.v | S N C F |
| C81_line_detection | PropsWired.v | S N C F |
| C81_lines | PropsWiring.v | S N C F |
| C81_page_lines | PropsWired.v | S N C F |
| C81_segments | PropsWiring.v | S N C F |
| C81_words | PropsWiring.v | S N C F |
| C82_boxes | PropsPages.v | S N C F |
| C82_cuts | PropsPages.v | S N C F |
| C82_lines | PropsPages.v | S N C F |
| C82_picture | PropsPages.v | S N C F |
| C82_visualised | PropsPages.v | S N C F |
| C83_identifiers | PropsIds.v | S N C F |
| C83_memory | PropsIds.v | S N C F |
| C83_memory_refuted | PropsIds.v | S N C F |
| C83_program_ids | PropsIds.v | S N C F |
| C83_program_memory | PropsIds.v | S N C F |
| C84_item_label | PropsItemLabels.v | none |
| C84_nonempty_refuted | PropsItemLabels.v | none |
| C84_patterns | PropsItemLabels.v | none |
| C85_base_box | PropsScripted.v | S N C F |
| C85_disabled | PropsScripted.v | S N C F |
| C85_exclusive | PropsScripted.v | S N C F |
| C85_flags | PropsScripted.v | S N C F |
| C85_lines | PropsScripted.v | S N C F |
| C86_complementary | PropsSelection.v | S N C F |
| C86_same_extraction | PropsSelection.v | S N C F |
| C87_characters | PropsAccents.v | S N C F |
| C87_disabled | PropsAccents.v | S N C F |
| C87_isolated | PropsAccents.v | S N C F |
| C87_words | PropsAccents.v | S N C F |
| C88_all | PropsOwnership.v | S N C F |
| C88_once | PropsOwnership.v | S N C F |
| C88_references | PropsOwnership.v | S N C F |
| C89_columns_refuted | PropsTimings.v | none |
| C89_hundred | PropsTimings.v | S F |
| C89_integers | PropsTimings.v | none |
| C89_locale_refuted | PropsTimings.v | none |
| C89_printed | PropsTimings.v | none |
| C89_report | PropsTimings.v | S N C F |
| C89_skipped | PropsTimings.v | none |
| C89_steps | PropsTimings.v | none |
| C89_whole_run | PropsTimings.v | S N C F |
| C89_zero_refuted | PropsTimings.v | S N C F |
| C90_column | PropsLogging.v | none |
| C90_logged | PropsLogging.v | none |
| C90_order | PropsLogging.v | none |
| C90_order_refuted | PropsLogging.v | none |
| C90_timestamps | PropsLogging.v | none |
| C90_unambiguous | PropsLogging.v | none |
