{"id": "C01", "title": "Tolerant comparisons form a consistent order", "statement": "For any tolerance t >= 0, larger(a,b,t) and smaller(a,b,t) are irreflexive, asymmetric and transitive and never hold together for the same pair; for non-NaN arguments equalOrSmaller(a,b,t) is exactly the negation of larger(a,b,t) and equalOrLarger(a,b,t) the negation of smaller(a,b,t); equal(a,b,t) says that a and b are within t of each other up to one rounding, and between(a,b,c,t) that a lies in [b,c] up to the tolerance. On coordinates rounded to one decimal, with the default tolerance, all of them coincide with the exact comparisons of the numbers.", "quantifier": "all IEEE-754 doubles a, b, c (incl. NaN, infinities, signed zeros) and all tolerances t >= 0", "why_tests_cant": "Unit tests sample a handful of literals; the claim ranges over all triples of doubles, including rounding and NaN corner cases.", "anchors": ["src/utils/MathUtils.h: equal, equalOrSmaller, smaller, equalOrLarger, larger", "src/utils/MathUtils.cpp"]}
{"id": "C02", "title": "minimum/maximum select a bounding argument", "statement": "minimum(...) and maximum(...) with 2, 3 or 4 non-NaN arguments return one of the arguments, and that result is <= (resp. >=) every argument; in particular the running minimum/maximum used to compute bounding boxes never loses an extremal value.", "quantifier": "all non-NaN doubles (resp. ints), all arities the code uses", "why_tests_cant": "Unit tests sample a handful of literals; the claim ranges over all tuples of doubles.", "anchors": ["src/utils/MathUtils.h: minimum, maximum"]}
{"id": "C03", "title": "Position comparators vs. std::sort's contract", "statement": "The seven position comparators (by left, right, upper edge and by rotated left/lower edge, ascending or descending) compare exactly the edge they name, are irreflexive, asymmetric and transitive, and on elements whose coordinates were rounded to one decimal by the parser (or are the infinite ones of invisible shapes) they are strict weak orderings, so that sorting with them is well-defined and yields an ordered permutation; on arbitrary coordinates they are not (three elements suffice), which makes std::sort undefined.", "quantifier": "all lists of page elements with arbitrary double coordinates", "why_tests_cant": "Unit tests sample a handful of literals; the claim ranges over all lists of elements; undefined behaviour of std::sort may look fine on any sample.", "anchors": ["src/utils/Comparators.h", "src/utils/XYCut.cpp: xCut, yCut"]}
{"id": "C04", "title": "Overlap ratios are well-behaved", "statement": "computeOverlapRatios returns a pair in [0,1]x[0,1] for any two intervals with s<=e whose lengths do not overflow; the pair swaps when the intervals are swapped; it is (0,0) when the intervals are disjoint; computeMaximumXOverlap/computeMaximumYOverlap inherit these bounds.", "quantifier": "all pairs of finite double intervals (and rotations of the elements)", "why_tests_cant": "Unit tests sample a handful of literals; the claim ranges over all intervals; rounding of subtraction and division must not push a ratio above 1.", "anchors": ["src/utils/PdfElementsUtils.cpp: computeOverlapRatios, computeMaxXOverlapRatio, computeMaxYOverlapRatio"]}
{"id": "C05", "title": "Gaps between elements", "statement": "computeHorizontalGap(a,b) does not depend on the argument order whenever the left edges of a and b are further apart than the tolerance (same for computeVerticalGap and the upper edges), and its sign is positive only if the extents of the two elements do not overlap in that direction, for elements of rotation 0 or 1.", "quantifier": "all pairs of elements of all rotations and double coordinates", "why_tests_cant": "Unit tests sample a handful of literals; the claim ranges over all coordinates and rotations; the sign depends on rounding and on a rotation switch.", "anchors": ["src/utils/PdfElementsUtils.cpp: computeHorizontalGap, computeVerticalGap"]}
{"id": "C06", "title": "Rotation-aware extents", "statement": "For each rotation the rotated width/height/left/right/upper/lower accessors describe the same rectangle: getRotWidth is the unrotated width for rotations 0 and 2 and the unrotated height for 1 and 3 (and dually for getRotHeight), the four rotated sides are a cyclic rearrangement of the four sides, and the extents are non-negative for every well-formed rectangle.", "quantifier": "all positions with finite coordinates and all rotations", "why_tests_cant": "Unit tests sample a handful of literals; the claim ranges over all rectangles in every rotation.", "anchors": ["src/Types.cpp: PdfPosition::getWidth, getHeight, getRotWidth, getRotHeight, getRotLeftX, getRotUpperY, getRotRightX, getRotLowerY"]}
{"id": "C07", "title": "Bounding boxes cover their members", "statement": "The bounding box computed for a word, page segment, text line, text block or figure contains the bounding boxes of all of its members; it is tight (each side equals that side of some member) provided the members have a right/lower coordinate >= DBL_MIN, and need not be tight otherwise.", "quantifier": "all non-empty lists of members with non-NaN coordinates", "why_tests_cant": "Unit tests sample a handful of literals; the claim ranges over all lists of rectangles; the initial value DBL_MIN matters only for non-positive coordinates.", "anchors": ["src/WordsDetection.cpp: createWord", "src/PageSegmentation.cpp: createPageSegment", "src/TextLinesDetection.cpp: computeTextLineProperties", "src/TextBlocksDetection.cpp: process", "src/PdfParsing.cpp: drawChar, stroke, drawGraphic"]}
{"id": "C08", "title": "mostFreq returns a most frequent key", "statement": "DoubleCounter::mostFreq and StringCounter::mostFreq return a key whose count is maximal among all keys, whatever the iteration order of the hash map, and throw exactly when no key has a positive count; mostFreqCount is that count, sumCounts is the sum of the counts modulo 2^32.", "quantifier": "all sequences of additions and all hash-map iteration orders", "why_tests_cant": "Unit tests sample a handful of literals; the claim ranges over all count tables and every iteration order the library may choose.", "anchors": ["src/utils/Counter.cpp: DoubleCounter::mostFreq, mostFreqCount, sumCounts, StringCounter::mostFreq, mostFreqCount, sumCounts"]}
{"id": "C09", "title": "DoubleCounter::max", "statement": "DoubleCounter::max returns a key k of the counter such that no key exceeds k by more than the comparison tolerance, for every iteration order, provided some key exceeds DBL_MIN by more than the tolerance; if no key does (e.g. all font sizes <= 0.0001) it throws although the counter is not empty.", "quantifier": "all counters and all iteration orders", "why_tests_cant": "Unit tests sample a handful of literals; the claim ranges over all key sets and iteration orders.", "anchors": ["src/utils/Counter.cpp: DoubleCounter::max", "src/TextLinesDetection.cpp: computeTextLineProperties"]}
{"id": "C10", "title": "FixedCapacityPriorityQueue never exceeds its capacity", "statement": "After any sequence of pushes into a queue of capacity n >= 1 the queue holds min(n, number of pushes) elements; kept and discarded elements together are exactly the pushed ones; the element pushed last is always kept, and no discarded element ranks before any other kept one; sort() delivers the kept elements in order. It does not keep the n best elements (a full queue drops its top before looking at the new value), and pushing into a queue of capacity 0 is undefined.", "quantifier": "all capacities >= 1, all push sequences, all strict weak orders as comparator", "why_tests_cant": "Unit tests sample a handful of literals; the claim ranges over all histories of pushes.", "anchors": ["src/utils/FixedCapacityPriorityQueue.h"]}
{"id": "C11", "title": "splitIntoWords tokenises without loss", "statement": "splitIntoWords yields non-empty, delimiter-free words whose concatenation is the text with the delimiters removed, in order, and a word is never split in the middle of a run of non-delimiter characters.", "quantifier": "all byte strings", "why_tests_cant": "Unit tests sample a handful of literals; the claim ranges over all strings.", "anchors": ["src/utils/TextUtils.cpp: splitIntoWords"]}
{"id": "C12", "title": "join, shorten, strip", "statement": "join(strings, sep) is the sep-separated concatenation provided no leading string is empty; shorten never returns more than maxLength+3 bytes, returns the text unchanged if it fits, and otherwise a prefix followed by '...'; strip removes exactly the leading and trailing whitespace of a string that contains a non-whitespace character; a text ends with a sentence delimiter iff it is non-empty and its last byte is one of the delimiters, and starts with an upper-case letter iff its first byte is one.", "quantifier": "all byte strings, lists of strings, lengths", "why_tests_cant": "Unit tests sample a handful of literals; the claim ranges over all strings.", "anchors": ["src/utils/TextUtils.cpp: join, shorten, strip"]}
{"id": "C13", "title": "createRandomString", "statement": "createRandomString(len, prefix) returns prefix followed by exactly len characters, each drawn from the alphabet, for every stream of random numbers; the last character of the alphabet is never drawn and an alphabet of one character is a division by zero.", "quantifier": "all lengths, prefixes and random streams", "why_tests_cant": "Unit tests sample a handful of literals; the claim ranges over all random streams.", "anchors": ["src/utils/TextUtils.cpp: createRandomString"]}
{"id": "C14", "title": "wrap terminates and loses no text", "statement": "wrap(text, width, indent) terminates; its output is the text cut into chunks at single blanks or newlines, each chunk on its own line behind the indent; every chunk but the last has at most width-indent bytes and the last one at most width unless it cannot be broken (so that, with its indent, the last line may exceed the width).", "quantifier": "all texts, widths, indents", "why_tests_cant": "Unit tests sample a handful of literals; the claim ranges over all strings; termination of the window loop.", "anchors": ["src/utils/TextUtils.cpp: wrap"]}
{"id": "C15", "title": "JSON escaping round-trips", "statement": "Decoding (as a JSON string literal) the output of escapeJson gives back the original bytes, and the output contains no raw control characters, no unescaped quotes and no dangling backslash.", "quantifier": "all byte strings", "why_tests_cant": "Unit tests sample a handful of literals; the claim ranges over all byte strings.", "anchors": ["src/utils/TextUtils.cpp: escapeJson"]}
{"id": "C16", "title": "JSONL records are well-formed", "statement": "For every document, role filter and list of units, every line emitted by the JSONL serializer is one JSON object with the documented fields, and the strings decode to the element's id, font and text; this holds when ids and font names contain no quote, backslash or control byte, all numbers are finite, the roles are roles of the enum and the fonts of all written characters are known. It fails otherwise: font names are written unescaped, NaN is written as nan, an unknown font throws. The unit 'text lines' writes nothing.", "quantifier": "all documents", "why_tests_cant": "Unit tests sample a handful of literals; the claim ranges over all documents, in particular all PDF-supplied font names.", "anchors": ["src/serializers/JsonlSerializer.cpp"]}
{"id": "C17", "title": "Plain-text output is exactly the selected blocks", "statement": "The plain-text serializer writes, for the blocks whose role is selected in document order, their words joined by single blanks, blocks separated by one empty line, followed by a newline; nothing else is written.", "quantifier": "all documents, all role filters", "why_tests_cant": "Unit tests sample a handful of literals; the claim ranges over all documents and role sets.", "anchors": ["src/serializers/PlainTextSerializer.cpp"]}
{"id": "C18", "title": "Extended plain-text output", "statement": "The extended serializer writes the same blocks and words as the plain-text serializer, each block preceded by its upper-case role name in brackets and, exactly for emphasized blocks, a ^A character; after every page (also the last one and pages without selected blocks) it writes a newline and a form feed; a block whose role is outside the enum is undefined behaviour.", "quantifier": "all documents, all role filters", "why_tests_cant": "Unit tests sample a handful of literals; the claim ranges over all documents and role sets.", "anchors": ["src/serializers/PlainTextExtendedSerializer.cpp"]}
{"id": "C19", "title": "Dehyphenation merges exactly the hyphenated line ends", "statement": "After dehyphenation a word is marked as first part iff it is the last word of a line, its text is longer than one byte and ends with '-', and a later line with words exists; its merged text is its text without the hyphen followed by the text of the first word of the next non-empty line, which is marked as second part; no other word changes.", "quantifier": "all documents", "why_tests_cant": "Unit tests sample a handful of literals; the claim ranges over all sequences of lines incl. empty lines, block and page boundaries.", "anchors": ["src/WordsDehyphenation.cpp: process"]}
{"id": "C20", "title": "No word text is lost by dehyphenation + plain-text output", "statement": "With all blocks selected and no word being both the second part of one merge and the first part of another, the concatenated words of the output are the concatenated word texts in document order, minus the hyphens of merged words; in chains of merges exactly the third and later words are lost. With a role filter, a merge across blocks leaks text of unselected blocks and drops text of selected ones.", "quantifier": "all documents", "why_tests_cant": "Unit tests sample a handful of literals; the claim ranges over all chains of hyphenated lines.", "anchors": ["src/WordsDehyphenation.cpp", "src/serializers/PlainTextSerializer.cpp"]}
{"id": "C21", "title": "Diacritical marks are merged into their base", "statement": "Each diacritical mark that overlaps a neighbour is attached to the neighbour it overlaps more and nothing else changes: only marks get attached, a base shows its own code points composed with its mark and its box covers both, a character without mark keeps its text and box. For isolated marks the outcome is determined exactly; with parsed coordinates merging is always defined. (Refuted companions: two marks on one base lose the text of the first; overflowing coordinates crash.)", "quantifier": "all character sequences", "why_tests_cant": "Unit tests sample a handful of literals; the claim ranges over all sequences of characters and geometries.", "anchors": ["src/DiacriticalMarksMerging.cpp", "src/WordsDetection.cpp"]}
{"id": "C22", "title": "Words partition the characters of a page", "statement": "Word detection always succeeds; the characters of the detected words, concatenated in order, are exactly the page's characters that are not merged into another one, in extraction order; no word is empty; every word's text, box, rotation, writing mode and most frequent font are those of its characters; ranks are consecutive.", "quantifier": "all pages", "why_tests_cant": "Unit tests sample a handful of literals; the claim ranges over all pages.", "anchors": ["src/WordsDetection.cpp: detectWords, createWord"]}
{"id": "C23", "title": "Words are homogeneous", "statement": "All characters of a word share its rotation and writing mode, and the words are exactly the greedy grouping of the characters under the documented word-break rules (rotation, writing mode, y-overlap, horizontal gaps), which determines them uniquely.", "quantifier": "all pages", "why_tests_cant": "Unit tests sample a handful of literals; the claim ranges over all character sequences.", "anchors": ["src/WordsDetection.cpp: startsWord"]}
{"id": "C24", "title": "Stacked math symbols", "statement": "The parts of a word are exactly the words that belong to it (the word is a symbol; they and all words in between overlap it and have a smaller font), ordered outwards, and a word is 'part of' the last symbol it belongs to; parts have strictly smaller fonts, so the relation is acyclic. (Refuted companions: a word can be part of two symbols; a symbol can itself be a part.)", "quantifier": "all pages", "why_tests_cant": "Unit tests sample a handful of literals; the claim ranges over all arrangements of words.", "anchors": ["src/WordsDetection.cpp: mergeStackedMathSymbols"]}
{"id": "C25", "title": "Text lines partition the words of a segment", "statement": "Within a page segment, words (with the parts of stacked math symbols) are grouped by rotation and baseline, each group becomes one line with the words in reading order, the blank-separated text, the smallest enclosing box and the most frequent font; lines are ordered top to bottom and consecutive lines that overlap enough vertically are merged until none can be. The merging ends; lines of the document have consecutive ranks and consistent previous/next references. If the stacked symbols do not overlap, every word of the segment is in exactly one line; if they overlap, a word may be in two lines or in none. With coordinates as the parser stores them and font sizes of at least 0.1 the detection raises neither an exception nor undefined behaviour; a font size of zero makes it throw.", "quantifier": "all segments, word geometries, sort implementations and hash map iteration orders", "why_tests_cant": "Unit tests sample a handful of literals; the claim ranges over all segments, all cluster iteration orders.", "anchors": ["src/TextLinesDetection.cpp: process"]}
{"id": "C26", "title": "Line hierarchy is acyclic and sibling links agree", "statement": "The parent and the previous sibling of a line are earlier lines of the same page; b is the next sibling of a iff a is the previous sibling of b; siblings share their parent, are left-aligned within one average character width and lie below each other; a first sibling is indented compared to its parent and lies below it; no vertical gap above 10 lies between linked lines. So every traversal along these links ends. If the left sides form columns, the links are completely determined by the documented rules; without columns the documented rule that no line between siblings starts further left can fail, because tolerances accumulate.", "quantifier": "all pages", "why_tests_cant": "Unit tests sample a handful of literals; the claim ranges over all line sequences with arbitrary geometry.", "anchors": ["src/utils/TextLinesDetectionUtils.cpp: computeTextLineHierarchy"]}
{"id": "C27", "title": "A character is never both subscript and superscript", "statement": "A character is flagged as superscript (subscript) exactly if its font size is smaller than the document's most frequent font size by more than 0.9 and its baseline is above (below) the baseline of a line containing its word by more than 0.1; nothing else about characters changes. If every word is in one line only, no character is flagged as both; a word shared by two lines can be. The base bounding box of a line is the smallest box around its characters that are neither.", "quantifier": "all lines", "why_tests_cant": "Unit tests sample a handful of literals; the claim ranges over all geometries.", "anchors": ["src/SubSuperScriptsDetection.cpp"]}
{"id": "C28", "title": "XY-cut terminates and partitions", "statement": "For every choice of cuts the recursive XY-cut terminates and the groups it returns are non-empty and contain each input element exactly once.", "quantifier": "all element lists and all cut-choosing callbacks that choose among the offered candidates", "why_tests_cant": "Unit tests sample a handful of literals; the claim ranges over all element lists and all strategies.", "anchors": ["src/utils/XYCut.cpp: xyCut, xCut, yCut"]}
{"id": "C29", "title": "Cuts split the sorted elements at the chosen positions", "statement": "xCut (yCut) returns true iff a candidate was chosen, produces one group more than chosen cuts, the groups are the contiguous pieces of the elements sorted by left (upper) edge between the chosen positions, and candidate positions are strictly increasing in 1..n-1. A reported x-cut overlaps at most maxNumOverlappingElements recorded elements; no other element in front of it extends farther right than elementBefore, none behind it starts left of elementAfter, the gap is at least the minimum, and the cut lies in the middle of the gap, spanning the whole height (width) of the elements. Without overlaps (and for y-cuts) every position with a wide enough gap is offered.", "quantifier": "all element lists and strategies", "why_tests_cant": "Unit tests sample a handful of literals; the claim ranges over all element lists and strategies.", "anchors": ["src/utils/XYCut.cpp: xCut, yCut"]}
{"id": "C30", "title": "Page segmentation partitions the page content", "statement": "The segments of a page contain every word, figure, graphic and shape of the page exactly once; no segment is empty; the bounding box of a segment covers its elements and its page number is that of its first element. Segmenting terminates for every page and, on stored coordinates (parsed ones and those of invisible shapes), never reaches undefined behaviour.", "quantifier": "all pages", "why_tests_cant": "Unit tests sample a handful of literals; the claim ranges over all page contents.", "anchors": ["src/PageSegmentation.cpp: segment"]}
{"id": "C31", "title": "Page segmentation's cut choice", "statement": "A y-cut is chosen only together with a partner so that the stripe between them can be divided by an x-cut; x-cut candidates violating a rule (too small gap, slim groups, contiguous words, overlapping elements) are never chosen. In the shipped configuration the thresholds of these rules are the documented multiples of the document's usual word distance and average character size.", "quantifier": "all candidate lists", "why_tests_cant": "Unit tests sample a handful of literals; the claim ranges over all candidate lists.", "anchors": ["src/PageSegmentation.cpp: chooseXCuts, chooseYCuts"]}
{"id": "C32", "title": "Reading order is a permutation", "statement": "Reading-order detection reorders the text blocks of each page and neither drops nor duplicates a block; blocks never move to another page and nothing else of a page changes; it terminates for every document and is defined on parsed coordinates.", "quantifier": "all pages, all block geometries", "why_tests_cant": "Unit tests sample a handful of literals; the claim ranges over all block sets.", "anchors": ["src/ReadingOrderDetection.cpp"]}
{"id": "C33", "title": "Text blocks partition the lines", "statement": "After block detection, the blocks of a page contain every text line of its segments exactly once and in order, no block is empty, no block crosses a segment or preliminary block; blocks are ranked from 0 and linked to their neighbours; page, rotation, text (words joined by blanks), box, trim box and most frequent font of a block are those of its lines; of the lines only the links and margins change and they agree with the final blocks; detection is defined for all lines whose page exists and that have a word, if parents form no cycle.", "quantifier": "all pages and outcomes of the block-break rules", "why_tests_cant": "Unit tests sample a handful of literals; the claim ranges over all line sequences.", "anchors": ["src/TextBlocksDetection.cpp: process, startsPreliminaryBlock, startsBlock"]}
{"id": "C34", "title": "Block-break rules", "statement": "Of two consecutive lines of a segment (of a preliminary block), the second begins a new preliminary block (block) exactly if the first applicable rule of the documented rule table says so; consecutive lines of a block have the same rotation and writing mode unless they are in the same figure.", "quantifier": "all pairs of adjacent lines", "why_tests_cant": "Unit tests sample a handful of literals; the claim ranges over all geometries.", "anchors": ["src/utils/TextBlocksDetectionUtils.cpp", "src/TextBlocksDetection.cpp: startsPreliminaryBlock, startsBlock"]}
{"id": "C35", "title": "Byte-pair encoding has the requested length", "statement": "encode(text, n) returns for every text shorter than 2^32-1 characters; the result vector is its previous content followed by the encodings of the words of the text, cut to or padded to exactly n entries if n > 0; every id belongs to the vocabulary or is the unknown/padding id; the meta symbols have ids of their own iff the given vocabulary uses the ids 0..size-1 and does not contain them.", "quantifier": "all vocabularies, all histories of calls, all texts and lengths", "why_tests_cant": "Unit tests sample a handful of literals; the claim ranges over all texts and vocabularies.", "anchors": ["src/utils/BytePairEncoder.cpp: encode"]}
{"id": "C36", "title": "Byte-pair merging terminates, is lossless and cache-transparent", "statement": "The tokens of a word always concatenate to the word; the merge loop terminates with no mergeable adjacent pair left; encoding gives the same ids whatever was encoded before.", "quantifier": "all words, vocabularies and call histories", "why_tests_cant": "Unit tests sample a handful of literals; the claim ranges over all call histories of the cache.", "anchors": ["src/utils/BytePairEncoder.cpp: encodeWord"]}
{"id": "C37", "title": "Predicted role is the arg-max", "statement": "If the network returns one row of values per block, every block gets the first index with the maximal value of its row, or 0 if no value is positive (comparisons as in C++, so NaN never wins); with 1 to 14 classes this is a valid semantic role. More classes than roles give a number without a name, and too few values make the prediction read out of bounds.", "quantifier": "all documents, networks and outputs", "why_tests_cant": "Unit tests sample a handful of literals; the claim ranges over all model outputs.", "anchors": ["src/SemanticRolesPrediction.cpp"]}
{"id": "C38", "title": "Command-line names round-trip", "statement": "A --role, --type or --format value is accepted iff it is the canonical name of a role, element type or of a format with a serializer (txt, txt-extended), and then stands for the enum value of that name; any other value, a second --format, or several values in one occurrence of --format are rejected with an exception; repeated --role/--type values are collected in order. The format name 'jsonl' is rejected although it is in the table of format names.", "quantifier": "all strings", "why_tests_cant": "Unit tests sample a handful of literals; the claim ranges over all strings.", "anchors": ["src/Validators.cpp", "src/utils/PdfElementsUtils.cpp: getSemanticRoleName, getPdfElementTypeName, getSerializationFormatName"]}
{"id": "C39", "title": "Every accepted output format produces output", "statement": "Every format accepted by --format has a serializer: whenever the program exits with 0 without having printed help or version info, the text of the requested format, restricted to the requested roles, was sent to the requested output, and nothing else was written besides visible log messages, a visualisation and running times.", "quantifier": "all accepted formats", "why_tests_cant": "Unit tests sample a handful of literals; the claim ranges over all accepted formats crossed with all documents.", "anchors": ["src/PdfDocumentSerialization.h: SERIALIZERS", "src/PdfDocumentSerialization.cpp: getSerializer", "src/pdftotext++.cpp: main"]}
{"id": "C40", "title": "Logging filter", "statement": "A log message is written (to standard output) iff its level is at least the configured level and the page filter is unset, the message has no page, or its page is the filter's page; the level of a module is DEBUG if its --debug-* switch is given and otherwise the one named by --verbosity (error for unknown names). Without these options standard output is exactly the serialised text if the modules log at level info or below only; with them, messages are mixed into the text.", "quantifier": "all levels, filters, pages", "why_tests_cant": "Unit tests sample a handful of literals; the claim ranges over all combinations of levels and pages (incl. the any-page filter).", "anchors": ["src/utils/Log.cpp"]}
{"id": "C41", "title": "Pipeline stops on unreadable input and honours disabled modules", "statement": "process() runs each module at most once, in the documented order, skips exactly the disabled ones, and returns the parser's error code without running any module if the PDF cannot be opened.", "quantifier": "all configurations", "why_tests_cant": "Unit tests sample a handful of literals; the claim ranges over all 2^k combinations of disabled modules.", "anchors": ["src/PdfToTextPlusPlus.cpp: process"]}
{"id": "C42", "title": "Options without effect", "statement": "--no-dehyphenation, --no-scripts, --control-characters and --semantic-roles are accepted but never have any effect: for every command line, engine and file system, the run with such a switch has the same exit code, the same engine configuration and the same output as the run without it (contrary to their documentation).", "quantifier": "all option combinations and documents", "why_tests_cant": "Unit tests sample a handful of literals; the claim ranges over all option combinations.", "anchors": ["src/pdftotext++.cpp: main"]}
{"id": "C43", "title": "No drawn character is lost or duplicated by parsing", "statement": "Each character-drawing event with a selected font and a text that is not all whitespace stores exactly one character on the page started last, directly (clip box agrees with the page's within 0.1) or in the first figure with an agreeing clip box; blank characters and characters without font are dropped; each stroke or fill stores exactly one shape, each image at most one graphic; the document holds nothing else, and extraction ranks are consecutive over all elements. Parsing succeeds on every orderly event stream, but a text that isn't valid UTF-8 aborts it with an exception.", "quantifier": "all event streams with finite clip boxes (for infinite ones figures are duplicated)", "why_tests_cant": "Unit tests sample a handful of literals; the claim ranges over all event streams.", "anchors": ["src/PdfParsing.cpp: drawChar, stroke, drawGraphic, startPage, updateFont"]}
{"id": "C44", "title": "Shapes and graphics lie within their clip box", "statement": "The box of a shape with a visible point (clearly inside the clip box) lies within the clip box, covers every visible point and is the smallest such box (right/lower side only if a visible point has a positive coordinate); an image is stored exactly if its first corner lies right of and below the left/upper side of the clip box and its second one left of and above the right/lower side, and its box is the part of the image inside the clip box. Shapes without visible point are stored with an infinite box; images covering the page exactly are dropped.", "quantifier": "all event streams, paths, matrices and clip boxes of moderate magnitude", "why_tests_cant": "Unit tests sample a handful of literals; the claim ranges over all paths.", "anchors": ["src/PdfParsing.cpp: stroke, drawGraphic"]}
{"id": "C45", "title": "Type-1 decryption inverts Type-1 encryption", "statement": "decrypt(bytes, r, n) on an implementation with wrap-around int arithmetic recovers the plaintext of any byte string encrypted with the Adobe Type-1 cipher under the same key, minus the first n bytes, and is defined for every byte string; under the C++ standard's arithmetic it does so exactly if no step of the key schedule overflows int, and otherwise (in particular for every non-empty encrypted part of a font, key 55665) the behaviour is undefined.", "quantifier": "all byte strings, keys and lenIV", "why_tests_cant": "Unit tests sample a handful of literals; the claim ranges over all byte strings; overflow depends on the key state.", "anchors": ["src/utils/PdfFontInfoParser.cpp: Type1FontFileParser::decrypt"]}
{"id": "C46", "title": "Charstring interpretation: safety, termination and its complete list of errors", "statement": "Interpreting a charstring that the Type-1 format can execute (operands present, no division by zero, 32-bit numbers, existing and returning subroutines) is free of undefined behaviour. For arbitrary bytes: it ends whenever no subroutine contains the byte of callsubr, it is additionally free of undefined behaviour when there are no escape bytes and five-byte numbers, it never throws, and the only errors are division by zero (or INT_MIN/-1), callothersubr with too few operands, a truncated number and (standard arithmetic) int overflow - all of which do occur - and unbounded recursion through a self-calling subroutine.", "quantifier": "all byte strings and subroutine tables", "why_tests_cant": "Unit tests sample a handful of literals; the claim ranges over all (malicious) font programs.", "anchors": ["src/utils/PdfFontInfoParser.cpp: Type1FontFileParser::parseCharString"]}
{"id": "C47", "title": "The box of a glyph is the bounding box of its outline", "statement": "For every glyph program that the Type-1 format can execute and that begins with its side bearing, the box computed is the smallest box around all points and control points it goes through, and contains every point of every line and Bezier curve of the outline. (Not so without side bearing, for components of accented characters, and with exact quotients; code behind endchar counts.)", "quantifier": "all well-formed charstrings", "why_tests_cant": "Unit tests sample a handful of literals; the claim ranges over all charstrings.", "anchors": ["src/utils/PdfFontInfoParser.cpp: Type1FontFileParser::parseCharString"]}
{"id": "C48", "title": "Encrypted font section is decoded within the buffer", "statement": "The encrypted part of a font in binary form (with or without a PFB segment header) is decoded to exactly its bytes if they fit into the length given in the font's dictionary; a segment longer than that, or a length below 4, writes behind the end of the buffer; a part in hexadecimal form is never decoded - the behaviour is undefined whatever it contains.", "quantifier": "all streams and declared lengths", "why_tests_cant": "Unit tests sample a handful of literals; the claim ranges over all streams and (attacker-controlled) lengths.", "anchors": ["src/utils/PdfFontInfoParser.cpp: Type1FontFileParser::parseEncryptedPart"]}
{"id": "C49", "title": "Font matrix of an embedded font", "statement": "If the '/FontMatrix [...]' entries of the clear text have at most six numbers each, a successfully parsed font has Poppler's matrix with the leading elements replaced by these numbers, in order; fonts that aren't embedded keep Poppler's matrix; an entry with more than six numbers always writes behind the end of the matrix.", "quantifier": "all font files", "why_tests_cant": "Unit tests sample a handful of literals; the claim ranges over all font files.", "anchors": ["src/utils/PdfFontInfoParser.cpp: Type1FontFileParser::parseAsciiPart"]}
{"id": "C50", "title": "Font names are normalised", "statement": "The normalised font name is the lower-cased name without the subset prefix up to the first '+', and the base name is the normalised name cut at the first '-' with digits removed.", "quantifier": "all font names", "why_tests_cant": "Unit tests sample a handful of literals; the claim ranges over all strings.", "anchors": ["src/utils/PdfFontInfoParser.cpp: PdfFontInfoParser::parse"]}
{"id": "C51", "title": "Document statistics reflect the document", "statement": "The statistics the pipeline stores on the document summarise it: the most frequent font name and font size are those of a character and no other occurs more often; the average character width and height are within 0.001 of the true averages (at most 2^24 characters of moderate size); the most frequent word height, the most frequent gap between neighbouring words and the estimated line distance are most frequent among the words not smaller than the text body; the most frequent line distance is most frequent among consecutive lines of a segment, and the per-font-size table has exactly one entry per font size of such lines, holding a most frequent distance of lines of that size. Every statistic keeps its previous value when the document has nothing to measure, and calculating one group leaves the others untouched.", "quantifier": "all documents with fewer than 2^31 characters, all iteration orders of the hash maps", "why_tests_cant": "Unit tests sample a handful of literals; the claim ranges over all documents and iteration orders.", "anchors": ["src/GlyphsStatisticsCalculation.cpp", "src/WordsStatisticsCalculation.cpp", "src/TextLinesStatisticsCalculation.cpp"]}
{"id": "C52", "title": "End-to-end text preservation", "statement": "If the detection of words, segments, lines and blocks is not switched off and processing runs to its end, the result has exactly the parsed pages in order, with their characters, figures, shapes and graphics; and on every page on which no word belongs to two stacked math symbols and no symbol that is part of another one has parts of its own, the characters of the text blocks are exactly the characters of the page (not in figures) that were not merged into a base character, each exactly once (only their sub-/superscript marks may differ). The lines of a page are those of its blocks, in order. (Where stacked symbols overlap, the program duplicates or loses words: refuted with two documents. In all cases the words of the blocks are the words that are no part of a symbol, each followed by its parts.)", "quantifier": "all sequences of Poppler callbacks, coordinates, fonts, options of the other modules, iteration orders of hash maps, sort implementations, network outputs", "why_tests_cant": "Unit tests sample a handful of literals; the claim ranges over all documents; it composes all modules.", "anchors": ["src/PdfToTextPlusPlus.cpp: process"]}
{"id": "C53", "title": "Output destination", "statement": "Serialising to '-' writes exactly the serialised text to standard output; otherwise 'mkdir -p <directory of the path>' is run in the shell with the path unquoted, and then the file gets exactly the serialised text, or, if the command fails or the file can't be opened, only an error message is written (and the exit code does not change).", "quantifier": "all paths and file-system outcomes", "why_tests_cant": "Unit tests sample a handful of literals; the claim ranges over all paths and failure points.", "anchors": ["src/serializers/Serializer.cpp: serialize"]}
{"id": "C54", "title": "Rounding never inverts a box", "statement": "Rounding coordinates to n decimals is monotone (a <= b implies round(a) <= round(b)), so rounding the sides of a box never inverts it, and rounding to one decimal moves a coordinate of magnitude at most 1e8 by at most 0.05 (plus the error of one division).", "quantifier": "all doubles and all n <= 300", "why_tests_cant": "Unit tests sample a handful of literals; the claim ranges over all pairs of doubles.", "anchors": ["src/utils/MathUtils.cpp: round", "src/PdfParsing.cpp: drawChar"]}
{"id": "C55", "title": "Exit status", "statement": "The program exits with 0 after printing help or version info (only if such a switch was given), with 1 and an error message if the command line is rejected, with 3 if the engine throws std::invalid_argument, with the engine's status if that is positive, and with 0 otherwise - also if the engine's status is negative or the output file could not be written; without help switches the engine is run exactly once, with the configuration the command line asks for.", "quantifier": "all command lines, engine results and file-system outcomes", "why_tests_cant": "Unit tests sample a handful of literals; the claim ranges over all command lines and failure modes.", "anchors": ["src/pdftotext++.cpp: main"]}
{"id": "C56", "title": "The reading order respects the geometry", "statement": "After reading-order detection, if a text block comes before another one on a page, then it lies entirely to the left of it or does not start below it - a block never precedes a block that starts higher on the page unless it is entirely left of it (for pages whose blocks, figures and shapes are upright boxes of positive extents with parsed coordinates).", "quantifier": "all pages and block geometries, all implementations of std::sort", "why_tests_cant": "Unit tests sample a handful of literals; the claim ranges over all block layouts; the order results from a recursion over sorted and re-sorted groups.", "anchors": ["src/ReadingOrderDetection.cpp: detectReadingOrder", "src/utils/XYCut.cpp"]}
{"id": "C57", "title": "The y-cuts of the reading order", "statement": "The y-cuts chosen by the reading order detection are exactly these: the primary cuts are determined from top to bottom by whether the elements below (between) candidates can be divided by an x-cut; a cut is chosen only if the elements below it, the elements above it, or the elements between it and another chosen y-cut can be divided by an x-cut; the topmost y-cut below which the elements can be divided is always chosen.", "quantifier": "all candidate lists and element lists", "why_tests_cant": "Unit tests sample a handful of literals; the claim ranges over all element lists; three nested search loops interact.", "anchors": ["src/ReadingOrderDetection.cpp: chooseYCuts"]}
{"id": "C59", "title": "Trim box", "statement": "The trim box of a page segment equals its bounding box except for the right side, which is the most frequent (rounded) right side of its lines if at least half of the lines share it, and that of the segment otherwise; computing it never fails.", "quantifier": "all segments with fewer than 2^31 lines, all hash map iteration orders", "why_tests_cant": "Unit tests sample a handful of literals; the claim ranges over all line geometries and iteration orders.", "anchors": ["src/utils/TextLinesDetectionUtils.cpp: computeTrimBox", "src/Config.h: minPrecLinesSameRightX"]}
{"id": "C60", "title": "Attributes of text blocks", "statement": "A text block is marked as emphasized exactly if its most frequent font is clearly larger than the document's, or about as large or larger and bolder or italic, or if its text is in capitals; it is marked as centered exactly if all consecutive lines are centered with respect to each other, some visibly so and at most five not; its hanging indent is the most frequent large left margin if the documented conditions hold, and 0 otherwise.", "quantifier": "all blocks of fewer than 2^32 lines, all hash map iteration orders", "why_tests_cant": "Unit tests sample a handful of literals; the claim ranges over all line geometries and texts.", "anchors": ["src/utils/TextBlocksDetectionUtils.cpp: computeIsEmphasized, computeIsTextLinesCentered, computeHangingIndent"]}
{"id": "C61", "title": "Potential footnote labels", "statement": "The footnote labels collected from a line are, for each word, the maximal sequences of label characters behind the first character that is neither sub- nor superscript, where a label character is a superscript beginning with an ASCII letter or digit or any character whose first byte is a byte of the label alphabet (hence also characters such as the en dash that are not in the alphabet).", "quantifier": "all words and flags", "why_tests_cant": "Unit tests sample a handful of literals; the claim ranges over all words; sequences may be interrupted by characters without text.", "anchors": ["src/utils/TextBlocksDetectionUtils.cpp: computePotentialFootnoteLabels", "src/Config.h: specialFootnoteLabelsAlphabet"]}
{"id": "C58", "title": "Numbers in the output", "statement": "Every finite number in the output is printed as a decimal numeral that differs from it relatively by at most 5*10^-6 (six significant digits); integers are printed exactly; coordinates rounded to one decimal place are printed exactly as long as they are below 100000 in absolute value (larger ones lose their decimal place).", "quantifier": "all finite doubles and all integers", "why_tests_cant": "Unit tests sample a handful of literals; the claim ranges over all doubles.", "anchors": ["src/serializers/JsonlSerializer.cpp: serialize"]}
{"id": "C62", "title": "The role predictor sees the document", "statement": "For every document whose fonts are known and whose texts decode, the layout tensor holds 15 features per block in page/block order: relative page number, the box on the page's scale with the origin at the lower left (within 2^-20 for blocks near their page), the font size between the document's smallest and largest (within 0.002), bold (weight above 500), italic, contains '@', starts with a digit, and the shares of digits, of characters whose low byte is above 127, of punctuation, of words starting with an ASCII capital and of ASCII capitals (within 2^-24). The words tensor holds 100 ids per block: the byte pair encoding of its text, cut or padded, whatever the other blocks contain. The share of non-ASCII characters misses characters such as U+0101, positions ignore the origin of the clip box, and words starting above U+00FF are undefined behaviour. If the text of a block cannot be decoded, no tensor is made.", "quantifier": "all documents (guards named), all vocabularies", "why_tests_cant": "Unit tests sample a handful of literals; the claim ranges over all documents and vocabularies.", "anchors": ["src/SemanticRolesPrediction.cpp: createLayoutInputTensor, createWordsInputTensor"]}
{"id": "C63", "title": "Vocabulary files are read as written", "statement": "Loading two readable vocabulary files whose newline-terminated lines are '<token>TAB<int>' or contain no tab gives every token the id of its first line and every number the role of its last line, ignoring lines without a tab and anything behind the last newline. A terminated line with a tab but no int behind it makes the load throw; a file that cannot be decoded to its end is never loaded (the loop does not end). A failed load is reported only once.", "quantifier": "all file contents", "why_tests_cant": "Unit tests sample a handful of literals; the claim ranges over all file contents.", "anchors": ["src/SemanticRolesPrediction.cpp: readModel"]}
{"id": "C64", "title": "Glyph boxes of an embedded Type-1 font", "statement": "For an embedded Type-1 font file (clear text + encrypted private part, with or without PFB segment headers) whose tables use the operator names RD/ND and whose glyph programs can be executed and begin with a side bearing, parsing succeeds and yields for each glyph name the bounding box of its outline, no box for other names, the matrix of the clear text, and unchanged names. (Fonts using '-|' and '|-' get no boxes; the letters ND within subroutine data make it read out of bounds.)", "quantifier": "all font files of this form, glyphs, outlines, subroutines, lenIV values", "why_tests_cant": "Unit tests sample a handful of literals; the claim ranges over all font files; every byte of the cipher text matters.", "anchors": ["src/utils/PdfFontInfoParser.cpp: PdfFontInfoParser::parse, Type1FontFileParser::parse, parseEncryptedPart"]}
{"id": "C65", "title": "Weight and slope from the clear text of an embedded font", "statement": "In a successfully parsed embedded font, the first '/Weight (word)' entry sets the weight to 400/500/700 for Regular/Medium/Bold and leaves it alone for other words; the first line beginning with '/ItalicAngle' makes the font italic unless it is literally '/ItalicAngle 0 def'; fonts without these entries keep the values derived from name and flags.", "quantifier": "all clear texts, whatever the rest of the file is", "why_tests_cant": "Unit tests sample a handful of literals; the claim ranges over all font files.", "anchors": ["src/utils/PdfFontInfoParser.cpp: Type1FontFileParser::parseAsciiPart"]}
{"id": "C66", "title": "Style derived from font name and flags", "statement": "A font without embedded file is italic exactly if its flag says so or its name contains 'italic' in any case; its weight is 800 if the name contains 'black', else 700 if it contains 'bold' or the flag is set, else the weight stated by the PDF if positive, else 400; the fixed-width/serif/symbolic flags are the bits 0/1/2. (The random subset prefix of the name counts, too.)", "quantifier": "all fonts", "why_tests_cant": "Unit tests sample a handful of literals; the claim ranges over all names and flags.", "anchors": ["src/utils/PdfFontInfoParser.cpp: PdfFontInfoParser::parse"]}
{"id": "C67", "title": "The box of a character is where the PDF draws it", "statement": "For text of moderate size and coordinates, the box and base line stored for a character lie within a tenth of a point of the exact ones of the PDF imaging model: the rectangle spanned by origin, advance width, font ascent and descent (by quarter turns and writing mode), or - if the embedded font has a glyph box that reaches above or below it by more than 0.2 - the glyph box mapped through font, text and transformation matrix. Upside-down text gets an inverted box (left edge right of the right edge).", "quantifier": "all event streams, graphic states and fonts of moderate magnitude", "why_tests_cant": "Unit tests sample a handful of literals; the claim ranges over all matrices, fonts and coordinates.", "anchors": ["src/PdfParsing.cpp: drawChar, concat"]}
{"id": "C68", "title": "The rotation of a character", "statement": "Text that clearly runs to the right, downwards, to the left or upwards (axes beyond 0.01) is reported with 0, 1, 2 or 3 quarter turns, and one more in vertical writing mode. (Type-3 fonts are measured through their font matrix, so upright 9 pt text of a font with matrix 0.001 is reported as rotated by three quarters; so is any text smaller than 0.01.)", "quantifier": "all event streams and matrices of moderate magnitude", "why_tests_cant": "Unit tests sample a handful of literals; the claim ranges over all matrices.", "anchors": ["src/PdfParsing.cpp: drawChar"]}
{"id": "C69", "title": "Fonts are told apart by their names", "statement": "The document knows exactly one font per selected font name (or address, for nameless fonts), with the properties of the first font that was selected under this name; each character refers to the font of the name selected when it was drawn. Two different fonts of the same name are taken for one.", "quantifier": "all event streams", "why_tests_cant": "Unit tests sample a handful of literals; the claim ranges over all histories of font changes.", "anchors": ["src/PdfParsing.cpp: updateFont, drawChar"]}
{"id": "C70", "title": "Figures are created on demand", "statement": "Every figure has the clip box of its first element, which agrees (within 0.1) neither with the clip box of the page nor with that of another figure of the page; no figure is empty; its box is the smallest one around its elements; it lies on its page.", "quantifier": "all event streams with finite clip boxes", "why_tests_cant": "Unit tests sample a handful of literals; the claim ranges over all histories of drawing events.", "anchors": ["src/PdfParsing.cpp: drawChar, stroke, drawGraphic"]}
{"id": "C71", "title": "The text of a character", "statement": "The text of a character is the table entry for its glyph name if there is one and the character stands for one code point, and otherwise its code points mapped to UTF-8; its name, colour, opacity and rounded font size are those of the graphic state. The texts of the table (134 entries) are the UTF-8 encodings of its code points, except for controlNULL (empty) and the four thumbs_* entries.", "quantifier": "all event streams, all entries of the table", "why_tests_cant": "Unit tests sample a handful of literals; the claim ranges over all glyphs and the whole table.", "anchors": ["src/PdfParsing.cpp: drawChar", "src/utils/CharMap.h"]}
{"id": "C72", "title": "Ordinary documents are processed to the end", "statement": "If what the parser stored is ordinary (fewer than 2^31 characters; every character has coordinates rounded to one decimal, reaches into the page, is at least a tenth of a point high and carries the number of a page of the document; figures, shapes and graphics, invisible shapes included, have stored coordinates), the program gets to its end with exit code 0, whichever modules are skipped: no exception, no undefined behaviour (std::sort and array accesses included), no endless loop, whatever the iteration orders of the hash maps, std::sort and the priority queues do. With the detection of roles and reading order this needs in addition a readable model, a network that returns as many rows as it is given, and legible pages: the texts of the characters, also with the diacritical marks of their page added, can be decoded (to at most k code units, the first below U+0100; the decoder works piece by piece), their base lines are numbers, and a page holds n characters with n(n+1)(k+2) < 2^32-1. (If a module that extraction of text needs is skipped, there are no blocks at all.) A single character of font size 0 suffices to end the program with an exception.", "quantifier": "all event streams that are parsed to an ordinary document, all options, all library behaviours allowed by the C++ standard", "why_tests_cant": "Unit tests sample a handful of literals; the claim ranges over all documents and all library implementations; it composes the definedness of all modules.", "anchors": ["src/PdfToTextPlusPlus.cpp: process", "src/utils/Comparators.h", "src/utils/Counter.cpp: DoubleCounter::max", "src/utils/XYCut.cpp"]}
{"id": "C73", "title": "The parts of the result fit together", "statement": "After a whole run (modules from page parsing to text block detection enabled): every word of the document is on exactly one page; its text is the concatenation of the texts of its characters (with a merged accent instead of its base letter), its characters are visible characters of that page, its page number, rotation and writing mode are those of its first character and its box is the smallest one around its characters. Every block has at least one line; its text is the texts of its words separated by blanks; its words are words of its page; and if the coordinates of the characters of the page are numbers, none of its lines is empty, in no line a word stands, in the direction of the text, before one preceding it, its page number is that of its page and its box is the smallest one around its words. The font name and size of a block are the most frequent among its characters. The pages are those of the PDF, with the numbers, sizes, figures and shapes that were parsed, and the fonts of the document are the parsed ones, with the same weight and style.", "quantifier": "all sequences of drawing operations that are processed without error, all options, all iteration orders and sort implementations", "why_tests_cant": "Unit tests sample a handful of literals; the claim ranges over each module is correct only together with what the modules before it produced, over all documents.", "anchors": ["src/PdfToTextPlusPlus.cpp: process", "src/WordsDetection.cpp: process", "src/utils/WordsDetectionUtils.cpp: createWord", "src/TextLinesDetection.cpp: createTextLine, computeTextLineProperties", "src/TextBlocksDetection.cpp: process"]}
{"id": "C74", "title": "Roles and reading order of the result", "statement": "If the reading order detection runs, the roles are predicted from exactly the blocks found by the modules before it (of each page its clip box, of each block its box, text, font, font size and the texts of its words; of a font its weight and slope); the i-th prediction goes to the i-th block in page order; apart from its role and its place on its page no block is changed, added or lost. On a page whose blocks, figures and shapes have proper boxes (finite, left < right, upper < lower), of two blocks the one that comes first is left of the other or starts above it (or at the same height).", "quantifier": "all sequences of drawing operations that are processed without error, all models (network outputs), all page layouts", "why_tests_cant": "Unit tests sample a handful of literals; the claim ranges over the network's output and the layout are arbitrary.", "anchors": ["src/PdfToTextPlusPlus.cpp: process", "src/SemanticRolesPrediction.cpp: predict", "src/ReadingOrderDetection.cpp: detect"]}
{"id": "C75", "title": "Dehyphenation and plain text of the result", "statement": "After a whole run with dehyphenation: a word is marked as first part of a hyphenated word, with the text t, exactly if it is the last word of a line of the resulting document, its text is longer than one byte and ends with a hyphen, a later line with words exists (possibly in another block or on another page), and t is its text without the hyphen followed by that of the first word of the next non-empty line; likewise for second parts. Without the module, no word is marked. The plain text is the texts of the words of the selected blocks, hyphenated words joined; every word of the document contributes exactly once, except the last part of a word broken over three lines, which is lost.", "quantifier": "all sequences of drawing operations that are processed without error (documents whose stacked math symbols don't interleave), all role selections", "why_tests_cant": "Unit tests sample a handful of literals; the claim ranges over the words depend on the whole chain of modules.", "anchors": ["src/PdfToTextPlusPlus.cpp: process", "src/WordsDehyphenation.cpp: process", "src/serializers/PlainTextSerializer.cpp: serialize"]}
{"id": "C76", "title": "The program as a whole", "statement": "Run as `pdftotext++ file.pdf`: if Poppler cannot open the file, the exit code is Poppler's (positive) error code and nothing is written; if the file is opened and all modules succeed, the exit code is 0 and exactly one thing is written, to standard output: the blocks of the document, separated by empty lines, their words separated by blanks. With text extraction not skipped, no --format, --role and --output-file, no --verbosity and --debug switches, and a model with at most 14 classes, that text contains every character that was drawn on a page with the page's own clip box (merged accents with their letter) exactly once (characters drawn under another clip box belong to figures and are not printed at all), except for hyphens at the end of a word that is continued in the next line and for a word that follows two such hyphenated words; with --skip-words-dehyphenation without any exception. For an ordinary, legible document (C72) and well-formed vocabulary files this is guaranteed to happen (total correctness). If a vocabulary file of the model is missing, nothing is converted: the exit code is 3. And whatever the command line is (understood or not, with any switches, formats, roles and log levels), and whichever file it names: if every file is either unreadable or an ordinary, legible document, the program always ends by itself with exit code 0, 1 (command line not understood) or Poppler's error code.", "quantifier": "all command lines of this kind, all PDFs (event streams), all library behaviours; documents whose stacked math symbols don't interleave", "why_tests_cant": "Unit tests sample a handful of literals; the claim ranges over it composes the command line, all modules and the serialisation over all documents.", "anchors": ["src/pdftotext++.cpp: main", "src/PdfToTextPlusPlus.cpp: process", "src/serializers/PlainTextSerializer.cpp: serialize"]}
{"id": "C77", "title": "Visualised boxes", "statement": "With --visualize-characters, -figures, -shapes, -graphics, -words, -text-lines: every element of that kind gets exactly one rectangle, in the order of the document, on the page the element is on, with the y axis turned over (PDF counts from the bottom): its sides are those of the element, except that a box thinner than 1 in one direction is extended by 1 there (to the right, or upwards on the page). --visualize-segments draws the same for each segment, each followed by red rectangles for its preliminary blocks; --visualize-text-blocks draws one rectangle and one label per block, the label being the name of the block's semantic role, at its upper left corner.", "quantifier": "All documents whose elements lie on pages of the PDF with coordinates up to 10^6, all page heights.", "why_tests_cant": "Unit tests sample a handful of literals; the claim ranges over all documents and coordinates (floating-point rounding included) are covered.", "anchors": ["src/PdfDocumentVisualization.cpp: drawBoundingBox, drawPageSegmentBoundingBoxes, drawTextBlockSemanticRoles, visualizeCharacters, visualizeWords, visualizePageSegments", "src/pdftotext++.cpp: main"]}
{"id": "C78", "title": "Visualised reading order", "statement": "--visualize-reading-order draws, besides boxes and roles of the blocks, for n >= 2 blocks on a page exactly n-1 lines, the i-th joining the centres of the i-th and the (i+1)-th block, and n circles with the numbers 1 to n at the centres, in the order of the blocks. A page with a single block gets no number at all.", "quantifier": "All documents, any number of blocks per page.", "why_tests_cant": "Unit tests sample a handful of literals; the claim ranges over the claim is about every number of blocks and every place.", "anchors": ["src/PdfDocumentVisualization.cpp: visualizeReadingOrder, drawReadingOrder, drawReadingOrderIndexCircle"]}
{"id": "C79", "title": "Visualised cuts", "statement": "--visualize-segment-cuts and --visualize-reading-order-cuts draw one line per considered cut, along the cut, gray if the cut was not chosen; the chosen cuts, and only they, are numbered 1, 2, ... per page in the order they were made, with the number in a filled square; the id of each cut is shown beside the line.", "quantifier": "All lists of cuts on all pages.", "why_tests_cant": "Unit tests sample a handful of literals; the claim ranges over the numbering is a property of the whole list of cuts, of any length.", "anchors": ["src/PdfDocumentVisualization.cpp: visualizeSegmentCuts, visualizeReadingOrderCuts, drawCuts"]}
{"id": "C80", "title": "Labels and order of the visualisation", "statement": "A label of printable ASCII characters is shown exactly; any other label is converted byte by byte (each byte shown as one character), so UTF-8 text is garbled. If all page numbers exist and all roles are among the 14 names, drawing never fails; the requested visualisations are drawn in a fixed order, text blocks in red and everything else in blue. An element with a page number the PDF does not have (such as the initial -1) is undefined behaviour.", "quantifier": "All labels, all sets of requested visualisations, all documents.", "why_tests_cant": "Unit tests sample a handful of literals; the claim ranges over all strings and all subsets of requests are covered.", "anchors": ["src/PdfDocumentVisualization.cpp: convertToUtf16, drawText, drawCuts", "src/pdftotext++.cpp: main"]}
{"id": "C81", "title": "Statistics, segments, lines and blocks of the result", "statement": "After a whole run, the statistics stored in the document are those of its own content: the most frequent font name and font size and the average width and height of the extracted characters; the most frequent height, gap and leading of the words of the result; the most frequent distance of the lines of the result, overall and per font size. A statistics calculation that was skipped leaves 0 or nothing. The segments of each page are, box by box and word by word, those that the page segmentation finds on the words, figures, graphics and shapes of the resulting page with the statistics of the result. A text block of the result is marked as emphasized exactly if it stands out from that most frequent font: larger by more than 1, or of about the same size or larger and bolder or italic, or in capital letters only. The lines of the result, the segments they stand in, their parents and siblings and the trim boxes of the segments are those that the detection of lines finds for the segments and words of the result with its average character width; the blocks of the result (up to the reading order and their roles) and the margins of the lines are those that the detection of blocks finds for the lines of the result, with its fonts, figures and statistics, in the order that the reading order detection finds for these blocks and the figures and shapes of the page. The list of text lines of a page is that of the lines of its blocks.", "quantifier": "all sequences of drawing operations that are processed without error, all options, all iteration orders and sort implementations", "why_tests_cant": "Unit tests sample a handful of literals; the claim ranges over a statistic taken at the wrong place of the run, or overwritten by a later module, shows up only on particular documents.", "anchors": ["src/PdfToTextPlusPlus.cpp: process", "src/GlyphsStatisticsCalculation.cpp: process", "src/WordsStatisticsCalculation.cpp: process", "src/TextLinesStatisticsCalculation.cpp: process", "src/PageSegmentation.cpp: process"]}
{"id": "C82", "title": "Every part of the result lies on its page; drawing it never fails", "statement": "After a whole run, every character, figure, shape, graphic, word and segment of a page carries the number of that page; so do the text lines if the coordinates of the characters are numbers, and the cuts of the page segmentation and of the reading order detection. Each text line consists of words of its page, its box is the smallest box around them and its words are in reading direction. Hence drawing the visualization of the result of a successful run never fails, whatever is requested, if every page exists in the visualized PDF, the network knows at most 14 roles and the reading order detection was not skipped.", "quantifier": "all sequences of drawing operations, all configurations that extract text, all fonts, networks and sorting implementations, all requested visualizations", "why_tests_cant": "Unit tests sample a handful of literals; the claim ranges over the page number is copied from element to element through eleven modules, and a missing page number is a null pointer in the drawing module for just that input", "anchors": ["src/PdfParsing.cpp: startPage, drawChar, stroke, fill, drawGraphic", "src/utils/PageSegmentationUtils.cpp: createPageSegment", "src/utils/XYCut.cpp: xCut, yCut", "src/utils/TextLinesDetectionUtils.cpp: createTextLine", "src/utils/TextBlocksDetectionUtils.cpp: createTextBlock", "src/PdfDocumentVisualization.cpp", "src/pdftotext++.cpp: main"]}
{"id": "C83", "title": "Random identifiers and uninitialised memory never influence the output", "statement": "Two runs on the same file with the same options print the same text and do the same things, whatever random strings createRandomString delivers: either both runs fail in the same way, or both documents are the same except for the identifiers in them, and the program writes the same output and returns the same status. The same holds for the contents of uninitialised memory (the role of a new text block is not initialised), unless --skip-reading-order-detection is given; then the text of a block is printed or not depending on what the memory contains.", "quantifier": "all files (sequences of drawing operations), all options and configurations, all pairs of families of random strings, all memory contents, all sorting implementations that see elements only through the comparator", "why_tests_cant": "Unit tests sample a handful of literals; the claim ranges over it relates pairs of runs; a test sees one family of random strings and one memory content", "anchors": ["src/utils/StringUtils.cpp:createRandomString", "src/PdfParsing.cpp", "src/WordsDetection.cpp", "src/TextBlocksDetection.cpp", "src/ReadingOrderDetection.cpp", "src/utils/XYCut.cpp", "src/Types.h:PdfTextBlock", "src/pdftotext++.cpp:main"]}
{"id": "C84", "title": "Enumeration item labels", "statement": "A line counts as prefixed by an item label exactly if its first word has a character and either this character is a superscript whose text is part of the alphabet of superscripted labels, or the text of the line begins with a label followed by white space: a bullet, hyphen, en dash or plus sign; a Roman numeral up to XIX in any case, followed by a period or in parentheses; a lower-case letter or a number followed by a period; one letter or digit and up to two digits in parentheses or brackets; a capital letter and up to five letters or digits in brackets; a letter or digit and up to one digit before a closing parenthesis; PACS in any case. Labels elsewhere in the line do not count. (The numeral may be empty: a line that begins with a lone period is taken for an item.)", "quantifier": "all lines of text: all byte strings and all first words", "why_tests_cant": "Unit tests sample a handful of literals; the claim ranges over the texts that nine regular expressions match form an infinite set", "anchors": ["src/Config.h:itemLabelRegexes", "src/Config.h:superItemLabelAlphabet", "src/utils/TextBlocksDetectionUtils.cpp:computeIsPrefixedByItemLabel"]}
{"id": "C85", "title": "Sub- and superscripts of the result", "statement": "With script detection enabled, a character of a word of the extracted document is flagged superscript (subscript) exactly if its font size is more than 0.9 below the font size most frequent in the document and its baseline is more than 0.1 above (below) the baseline of a text line that contains its word; the text lines of a page are exactly the lines of its text blocks, and the baseline of a line is one that is most frequent among its characters. With script detection disabled no character is flagged. Where the stacked symbols of a page lie apart, every word belongs to exactly one line and no character is both a super- and a subscript. The base box of a line is the smallest box around its characters that are neither.", "quantifier": "all PDF files (event sequences of the parser), all command lines with text output enabled, all machines (sort, hash order, memory), all words and characters", "why_tests_cant": "the flag of a character depends on the statistics of the whole document and on the line its word ended up in after words, lines and blocks were formed; a test sees a handful of documents", "anchors": ["src/SubSuperScriptsDetection.cpp", "src/TextLinesDetection.cpp", "src/PdfToTextPlusPlus.cpp"]}
{"id": "C86", "title": "What is extracted does not depend on how it is shown", "statement": "Two successful runs of the program on the same file with the same switches for skipping steps extract the same blocks, page by page. Roles, format, destination, log levels, visualisations and running times only decide which of these blocks are shown, how they are written and where the text goes; a run shows exactly the blocks of the roles that were asked for, in their order. Consequently the blocks shown by two runs that ask for complementary sets of roles make up, page by page, exactly the blocks of a run that asks for all roles.", "quantifier": "all files, all command lines with the same skip switches, all selections of roles, both formats, all destinations and log levels, all machines", "why_tests_cant": "the property compares arbitrary pairs and triples of runs, and the options combine freely", "anchors": ["src/pdftotext++.cpp", "src/PdfToTextPlusPlus.cpp", "src/serializers/PlainTextSerializer.cpp", "src/serializers/PlainTextExtendedSerializer.cpp", "src/serializers/Serializer.cpp"]}
{"id": "C87", "title": "Accents of the result", "statement": "With the merging of diacritical marks enabled, the characters of each page of the extracted document are the parsed ones, one by one: only marks are attached, each to a direct neighbour, which is then printed as the composition of its own code points and the mark's; every other character keeps its box and text. The words of a page consist of exactly the characters that are not attached to another one, in order. If no two marks of a page are within distance two, the outcome is determined by the parsed positions: exactly the marks that overlap a neighbour are attached, to the one they overlap more. With merging disabled the characters are exactly as parsed.", "quantifier": "all PDF files (event sequences of the parser), all command lines with text output enabled, all machines, all composition functions, all pages and characters", "why_tests_cant": "whether a mark merges depends on the neighbouring characters of each page; all later stages have to keep the outcome", "anchors": ["src/DiacriticalMarksMerging.cpp", "src/WordsDetection.cpp", "src/PdfToTextPlusPlus.cpp"]}
{"id": "C88", "title": "Destroying a document frees every object exactly once", "statement": "When the document that a run returns is destroyed, no object is deleted twice, and nothing that the document holds is forgotten: every character, shape and graphic that was parsed (also those inside figures), every word, every text line, every text block, page segment, figure and page, and every font is deleted. Everything reachable from a page (the words of its blocks and text lines, the characters of its words) is among the objects that are deleted with the document, so no object outlives or loses what it refers to.", "quantifier": "all PDF files (event sequences of the parser), all command lines with text output enabled, all machines", "why_tests_cant": "ownership is spread over several lists that later stages rearrange, split and merge; a double deletion or a leak shows only for particular page structures", "anchors": ["src/Types.cpp", "src/PdfParsing.cpp", "src/PdfToTextPlusPlus.cpp", "src/TextLinesDetection.cpp", "src/TextBlocksDetection.cpp", "src/ReadingOrderDetection.cpp"]}
{"id": "C89", "title": "Running times are reported truthfully", "statement": "With --print-running-times, and only then, a successful run ends with one report, after everything else. The report has one line for loading, for parsing, for each step of the pipeline that was not skipped, for writing the output and, if there were any, for the visualisations, in the order in which they were done. The first line gives the sum of the times; each line gives the name of the step, its time, and its share of the total in percent with one decimal, correct up to rounding (so the shares add up to 100 up to rounding). Numbers are written with the digit groups of the locale. The columns line up unless a name is longer than its column - which the names of some steps are; and if everything took less than a millisecond the shares are NaN, and if the locale of the environment is not installed the program dies with an uncaught exception (stated as refutations).", "quantifier": "all command lines, all measured times with a positive sum below 2^53, all locales (decimal point, separator, sizes of groups)", "why_tests_cant": "the shares go through four roundings of floating-point arithmetic; digit groups depend on an arbitrary locale; which lines appear depends on eleven independent switches", "anchors": ["src/pdftotext++.cpp", "src/PdfToTextPlusPlus.cpp", "src/Types.h", "src/utils/MathUtils.cpp", "src/utils/Log.h"]}
{"id": "C90", "title": "Log messages tell when and how serious", "statement": "Each message that passes the level and the page filter (C40) is written as one text: the local time as YYYY-MM-DD hh:mm:ss.mmm, a tab, a dash, the name of its level in the color of the level, and the text of the message; nothing else is written by the loggers, and the order is the order of the calls. Time, level and text can be recovered from a message; the text of every message starts at byte 46; sorting messages as texts sorts them by (displayed) time. All this for years of four digits; the order breaks between the years 9999 and 10000.", "quantifier": "all sequences of calls of a logger: all levels, pages, texts and moments", "why_tests_cant": "A unit test compares one message with a pattern; that no two moments, levels or texts lead to the same message, and that messages sort by time, ranges over all pairs of moments.", "anchors": ["src/utils/Log.cpp", "src/utils/Log.h"]}
