{"id": "C01", "title": "Well-formed documents are read as the tree they denote", "statement": "For every text of the JSON grammar (RFC 8259 without exponents, integers within 64 bits, numbers spelled with a digit before the dot, distinct keys per object), with any amount of white space, StreamConsumer::read() succeeds without warnings and getRoot() is exactly the tree the text denotes (strings decoded, object members ordered by key or kept in order as requested).", "quantifier": "every JSON value, every spelling of it (white space, escapes), every option set, every following text at a token boundary", "why_tests_cant": "infinitely many documents of unbounded depth and size; tests try four literals", "anchors": ["src/streamConsumer.cpp:StreamConsumer::read,readNext,readObject,readArray,consumeToken,consumeString,consumeNumber,consumeBool,consumeNull"]}
{"id": "C02", "title": "Reading always terminates", "statement": "read() returns (root, null root, exception, abort or undefined behaviour) for every byte sequence: no input makes the reader loop for ever, and it never needs more recursive steps than there are input bytes.", "quantifier": "every finite byte sequence and every option set", "why_tests_cant": "a non-terminating input cannot be excluded by sampling", "anchors": ["src/streamConsumer.cpp:readNext,readObject,readArray,consumeToken"]}
{"id": "C03", "title": "No input crashes the reader", "statement": "For every byte sequence, read() either yields a root, a null root (end of input) or throws a JsonException; it never dereferences null, reads out of bounds, or lets a foreign std exception escape.", "quantifier": "every byte sequence and every option set", "why_tests_cant": "the space of malformed inputs cannot be enumerated", "anchors": ["src/streamConsumer.cpp:readObject line 94-95,consumeNumber line 295-302,consumeEscapedChar line 181-189", "src/jsonObjectEntry.cpp:JSonObjectEntry", "src/linearHistory.cpp:put"]}
{"id": "C04", "title": "Keys of every object read are pairwise distinct", "statement": "In the tree returned by read(), no object (at any depth) has two entries with the same key, in strict and in -W mode.", "quantifier": "every byte sequence that is read successfully, every option set, every object of the tree", "why_tests_cant": "needs an invariant through arbitrary nesting and arbitrary duplicate patterns", "anchors": ["src/streamConsumer.cpp:readObject", "src/jsonObject.cpp:contains,erase,push"]}
{"id": "C05", "title": "Objects are sorted by key unless --keep-order", "statement": "Without --keep-order, the entries of every object of the returned tree are in strictly increasing byte order of their keys.", "quantifier": "every byte sequence that is read successfully, every object of the tree", "why_tests_cant": "order must hold for every insertion history", "anchors": ["src/jsonObject.cpp:JSonSortedObject::push", "src/jsonObjectEntry.cpp:operator<", "src/streamConsumer.cpp:readObject"]}
{"id": "C06", "title": "--keep-order only changes the order of entries", "statement": "Reading the same bytes with and without --keep-order has the same outcome (success, warnings, error, position), and the sorted tree is the keep-order tree with the entries of every object stably sorted by key; with --keep-order entries appear in input order, a repeated key counting at its last occurrence.", "quantifier": "every byte sequence, every other option", "why_tests_cant": "relates two runs on every input", "anchors": ["src/streamConsumer.cpp:readObject", "src/jsonObject.cpp:push"]}
{"id": "C07", "title": "-W never changes the meaning of an accepted document", "statement": "If read() succeeds in strict mode, then with -W it succeeds with the same tree, the same amount of input consumed and no warnings.", "quantifier": "every byte sequence accepted in strict mode", "why_tests_cant": "relates two runs on every input", "anchors": ["src/streamConsumer.cpp:readObject,consumeEscapedChar,consumeBool,consumeNull"]}
{"id": "C08", "title": "Strict mode has no warnings", "statement": "A successful strict read has an empty getMessages(); conversely a -W read that emits no warning is accepted by strict mode with the same tree.", "quantifier": "every byte sequence", "why_tests_cant": "relates two runs on every input", "anchors": ["src/streamConsumer.cpp:getMessages,warnings"]}
{"id": "C09", "title": "Malformed text is rejected", "statement": "If read() succeeds then the consumed text is a JSON text: between two object members there is a comma, an object ends with '}', no garbage follows the root.", "quantifier": "every byte sequence", "why_tests_cant": "soundness of a recognizer ranges over all strings", "anchors": ["src/streamConsumer.cpp:readObject line 98,ignoreChar line 399,read"]}
{"id": "C10", "title": "--ascii leaves unicode escapes untouched", "statement": "With --ascii every \\uXXXX escape of a string is kept verbatim in the value and no hex error is raised by it; texts without \\u are read identically with and without --ascii.", "quantifier": "every byte sequence", "why_tests_cant": "relates two runs on every input", "anchors": ["src/streamConsumer.cpp:consumeEscapedChar"]}
{"id": "C11", "title": "Unicode escapes decode to UTF-8", "statement": "A \\uXXXX escape with four hex digits of either case contributes the UTF-8 encoding of that code unit (1, 2 or 3 bytes) to the string, decoding that encoding gives the code unit back, and any non-hex digit is an error.", "quantifier": "all 65536 code units, all digit spellings, all four-byte sequences", "why_tests_cant": "tests try one code point", "anchors": ["src/unicode.cpp:hexbyte", "include/unicode.hpp:hexbyte", "src/streamConsumer.cpp:appendUnicode"]}
{"id": "C12", "title": "Integers are read exactly", "statement": "An optional minus sign followed by decimal digits is read as that integer: JSonPrimitive<int> when it fits 32 bits, JSonPrimitive<long long> when it fits 64 bits, and stringify() prints the canonical decimal that denotes the same integer; larger literals are reported as an error.", "quantifier": "every digit string", "why_tests_cant": "unbounded integers", "anchors": ["src/streamConsumer.cpp:consumeNumber", "src/jsonPrimitive.cpp:toString"]}
{"id": "C13", "title": "Reported line is the line of the error", "statement": "currentLine() of an exception or warning is one plus the number of line ends consumed before the offending byte.", "quantifier": "every byte sequence that raises an exception or a warning", "why_tests_cant": "depends on every possible prefix", "anchors": ["src/linearHistory.cpp:put", "src/streamConsumer.cpp:consumeNumber line 284,consumeBool line 240", "src/jsonException.cpp:currentLine"]}
{"id": "C14", "title": "Reported column is the column of the error", "statement": "currentCol() is the number of bytes consumed on the current line.", "quantifier": "every byte sequence that raises an exception or a warning", "why_tests_cant": "depends on every possible prefix, and on uninitialised memory", "anchors": ["include/wrappedBuffer.hpp:totalSize,WrappedBuffer", "src/jsonException.cpp:currentCol"]}
{"id": "C15", "title": "Error excerpt is the tail of the current line", "statement": "getHistory() is the last (at most 45) bytes consumed on the current line.", "quantifier": "every byte sequence that raises an exception or a warning", "why_tests_cant": "ring buffer contents after arbitrarily long histories", "anchors": ["src/linearHistory.cpp", "include/wrappedBuffer.hpp:toString", "src/jsonException.cpp:getHistory"]}
{"id": "C16", "title": "Ring buffer holds the most recent items", "statement": "After any sequence of put(item), put(items,count), pop_back() and reset(), toString() is the window of most recent items (at most SIZE) that a list implementing the same operations would hold.", "quantifier": "every history of operations, every SIZE > 1", "why_tests_cant": "the state space of (read, write, content) under all histories is unbounded; the shipped tests cover SIZE 3 and 5", "anchors": ["include/wrappedBuffer.hpp:put,pop_back,reset,size,toString"]}
{"id": "C17", "title": "Ring buffer never exceeds its capacity", "statement": "size() <= SIZE, every array access is in bounds, and size() is the length of toString(), after any history of operations.", "quantifier": "every history of operations, every SIZE > 1", "why_tests_cant": "needs an invariant over all histories", "anchors": ["include/wrappedBuffer.hpp:put,pop_back,size,toString"]}
{"id": "C18", "title": "Redirected output reads back as the same document", "statement": "Reading what SimpleOutput::display() prints for a document (pretty or --compress) gives the same document.", "quantifier": "every document, pretty or compressed", "why_tests_cant": "round trip over all trees", "anchors": ["src/simpleOutput.cpp:display,write,writeObjectEntry,writePrimitive,writeContainer", "src/streamConsumer.cpp"]}
{"id": "C19", "title": "--compress only removes layout", "statement": "The compressed output is the pretty output with indentation and line feeds removed; both read back to the same outcome.", "quantifier": "every document", "why_tests_cant": "relates two outputs for all trees", "anchors": ["src/simpleOutput.cpp"]}
{"id": "C20", "title": "Pretty output is one item per line, indented by depth", "statement": "Pretty output is a sequence of lines, each made of 4*depth spaces and exactly one token group (bracket, primitive, or key with its scalar), in document order, with balanced brackets.", "quantifier": "every document of every depth", "why_tests_cant": "unbounded depth and size", "anchors": ["src/simpleOutput.cpp:writeContainer,getIndent"]}
{"id": "C21", "title": "Text distance is the edit distance", "statement": "levenshtein(a,b) is the least number of single-character insertions, deletions and substitutions turning a into b.", "quantifier": "all pairs of strings (shorter than 2^31)", "why_tests_cant": "minimality quantifies over all edit scripts of all pairs", "anchors": ["src/levenshtein.cpp:levenshtein"]}
{"id": "C22", "title": "Text distance is a metric", "statement": "levenshtein is zero exactly on equal strings, symmetric, satisfies the triangle inequality, is at least the length difference and at most the longer length.", "quantifier": "all strings", "why_tests_cant": "universal over triples", "anchors": ["src/levenshtein.cpp:levenshtein"]}
{"id": "C23", "title": "Similarity threshold", "statement": "Two scalars are treated as unchanged exactly when less than 30% of the longer text must be edited; the score is in [0,1] and 1 exactly on equal texts.", "quantifier": "all pairs of strings", "why_tests_cant": "float rounding over all length pairs", "anchors": ["src/levenshtein.cpp:levenshteinPercent,LevenshteinMatriceWithScore", "include/levenshtein.hpp:LEVENSHTEIN_SENSIBILITY"]}
{"id": "C24", "title": "A document compared with itself shows no difference", "statement": "Builder::build(a, a') on two copies of one document marks every node of both '=' and pairs every node with its copy.", "quantifier": "every document", "why_tests_cant": "all trees, including widths where the matrix cell type wraps", "anchors": ["src/levenshtein.cpp:Builder::build", "include/levenshteinMatrice.hpp:build,shortestPath,addRoot"]}
{"id": "C25", "title": "A diff never crashes", "statement": "Builder::build terminates and performs no undefined operation on any two documents.", "quantifier": "all pairs of documents", "why_tests_cant": "all pairs of trees", "anchors": ["include/levenshteinMatrice.hpp:build line 116", "src/levenshtein.cpp:Builder::build"]}
{"id": "C26", "title": "Nodes marked equal are equal", "statement": "If the diff marks a scalar '=' then its counterpart has the same text; if it marks the roots '=' the documents are equal.", "quantifier": "all pairs of documents", "why_tests_cant": "all pairs of trees", "anchors": ["src/levenshtein.cpp:LevenshteinMatriceWithScore", "include/levenshteinMatrice.hpp:addRoot"]}
{"id": "C27", "title": "Diff pairing is one-to-one and order preserving", "statement": "getEquivalence pairs nodes of one document with nodes of the other: it is symmetric, no node has two partners, partners are at the same depth, parents of partners are partners, and among the children of two paired containers pairing preserves order.", "quantifier": "all pairs of documents without crash", "why_tests_cant": "structural property of all alignments", "anchors": ["include/levenshteinMatrice.hpp:shortestPath,addRoot", "src/levenshtein.cpp:getEquivalence"]}
{"id": "C28", "title": "Distance of containers is bounded by their sizes", "statement": "result() of two containers is at most the sum of their sizes, and at least the difference of their sizes.", "quantifier": "all pairs of containers, all widths", "why_tests_cant": "cell type unsigned char/short wraps for large inputs only", "anchors": ["include/levenshteinMatrice.hpp:build", "src/levenshtein.cpp:Builder::build"]}
{"id": "C29", "title": "Plain search is substring search", "statement": "A pattern without type or mode flags matches an element exactly when the pattern occurs in its text, tab in the text counting as space; with /i case is ignored; with /f the whole text must match.", "quantifier": "all patterns and texts", "why_tests_cant": "all strings", "anchors": ["src/searchPattern.cpp:SearchPattern,evalFlags,match,operator()"]}
{"id": "C30", "title": "Whole-word search finds words", "statement": "With /w a pattern matches exactly when it occurs in the text delimited by blanks or the text's ends.", "quantifier": "all patterns and texts", "why_tests_cant": "all strings", "anchors": ["src/searchPattern.cpp:match line 113-117"]}
{"id": "C31", "title": "Type flags restrict, their absence does not", "statement": "With /b /n /s /o only booleans / numbers / strings / keys match; without a type flag the type of an element is irrelevant.", "quantifier": "all patterns, all elements, all contents of uninitialised memory", "why_tests_cant": "depends on uninitialised memory", "anchors": ["src/searchPattern.cpp:SearchPattern line 9,match", "include/searchPattern.hh:typeFlag"]}
{"id": "C32", "title": "Search pattern syntax", "statement": "Leading blanks are dropped, an unescaped '/' ends the pattern and starts flags, '\\/' stands for '/', any other escaped character keeps its backslash; every pattern text can be spelled.", "quantifier": "all input strings", "why_tests_cant": "all strings", "anchors": ["src/searchPattern.cpp:SearchPattern"]}
{"id": "C33", "title": "Unicode escapes typed in a search are replaced in place", "statement": "extractUnicode replaces every \\uXXXX by its UTF-8 bytes and leaves everything else unchanged, within the bounds of its argument.", "quantifier": "all input strings", "why_tests_cant": "all strings", "anchors": ["src/streamConsumer.cpp:extractUnicode", "src/curseOutput.cpp:inputSearch"]}
{"id": "C34", "title": "Search collects exactly the matching elements in document order", "statement": "After a search the result list holds, in document order, every scalar and key whose text matches (an object value counting as its entry) and nothing else.", "quantifier": "all documents and patterns", "why_tests_cant": "all trees", "anchors": ["src/curseSimpleOutput.cpp:search"]}
{"id": "C35", "title": "Next-result visits every result and wraps", "statement": "Pressing n selects the first result after the selection in document order, or the first result when there is none; repeating it visits every result.", "quantifier": "all documents, result lists and selections", "why_tests_cant": "all trees and selections", "anchors": ["src/curseSimpleOutput.cpp:jumpToNextSearch,nextResult"]}
{"id": "C36", "title": "Selection always designates a row of the shown document", "statement": "Whatever keys are pressed, the selection is the root, an array element or an object entry of the document on display, and it is never hidden inside a collapsed container.", "quantifier": "all documents, all finite key sequences, all window sizes", "why_tests_cant": "all histories of keys", "anchors": ["src/curseSimpleOutput.cpp:selectUp,selectDown,selectPUp,selectPDown,expandSelection,collapseSelection,jumpToNextSearch"]}
{"id": "C37", "title": "Drawing terminates", "statement": "while(!redraw()) ends for every document, selection, collapse state, scroll position and window of at least 3 columns.", "quantifier": "all documents, states and window sizes", "why_tests_cant": "non-termination cannot be sampled away", "anchors": ["src/curseSimpleOutput.cpp:redraw,checkSelection,writeContent", "src/curseOutput.cpp:loop"]}
{"id": "C38", "title": "Up and down move to the adjacent visible row", "statement": "After a redraw, up selects the visible row immediately before the selection (itself if first); down selects the visible row immediately after it, or scrolls when the selection is the last row that fits.", "quantifier": "all documents and states", "why_tests_cant": "all trees and scroll positions", "anchors": ["src/curseSimpleOutput.cpp:redraw,checkSelection,selectUp,selectDown"]}
{"id": "C39", "title": "The selected row is on screen after drawing", "statement": "After while(!redraw()), the selected row has been written on a screen line between 1 and height-1.", "quantifier": "all documents, states, window heights >= 2", "why_tests_cant": "all trees and scroll positions", "anchors": ["src/curseSimpleOutput.cpp:redraw,checkSelection,hasReachedBottom"]}
{"id": "C40", "title": "Collapse and expand are inverse", "statement": "Collapsing an expanded non-empty container and expanding it restores the same collapse state and selection; collapsing hides exactly its descendants.", "quantifier": "all documents and states", "why_tests_cant": "all trees", "anchors": ["src/curseSimpleOutput.cpp:expandSelection,collapseSelection,writeContainer"]}
{"id": "C41", "title": "Sibling navigation follows document order", "statement": "findNext() is the first row after the whole subtree of the element in document order; findPrev() is the previous sibling.", "quantifier": "all documents and elements", "why_tests_cant": "all trees", "anchors": ["src/jsonElement.cpp:findNext,findPrev"]}
{"id": "C42", "title": "Parents are consistent after reading", "statement": "In the tree returned by read() every element's getParent() is the element that contains it, the root has none, and getLevel() is its depth.", "quantifier": "every byte sequence that is read successfully", "why_tests_cant": "construction order differs per nesting pattern (late allocation and setParent)", "anchors": ["src/streamConsumer.cpp:readArray,readObject", "src/jsonElement.cpp:setParent,getLevel", "src/jsonObjectEntry.cpp"]}
{"id": "C43", "title": "Viewing several files keeps them apart", "statement": "Navigation state (collapsed set, search results, selection) of a previous file has no effect on the next one.", "quantifier": "all lists of documents and key sequences", "why_tests_cant": "all histories across files", "anchors": ["src/curseSimpleOutput.cpp:run", "src/main.cpp:run"]}
{"id": "C44", "title": "Option parsing", "statement": "Options take effect independently of their order, the last of conflicting options wins, unknown options and unreadable or repeated files are errors, --help/--version stop at once, text after -- is the input with single blanks between arguments, and no input means standard input.", "quantifier": "all argument vectors and file systems", "why_tests_cant": "all argument vectors", "anchors": ["src/params.cpp:read,getInputs", "include/fifoMap.hpp"]}
{"id": "C45", "title": "Diff mode needs two or three inputs and supports them", "statement": "--diff is refused unless 2 or 3 inputs are given; an accepted diff is carried out.", "quantifier": "all argument vectors", "why_tests_cant": "all argument vectors", "anchors": ["src/params.cpp:read line 124-138", "src/curseSplitOutput.cpp:computeDiff"]}
{"id": "C46", "title": "External diff command line", "statement": "computeArgv replaces each '{}' by all prettified file names in order, keeps every other argument, is null terminated, and a second call returns the same vector.", "quantifier": "all argument lists and file lists", "why_tests_cant": "all lists", "anchors": ["src/diffCmd.cpp:computeArgv"]}
{"id": "C47", "title": "Temporary files are distinct per input", "statement": "Two inputs with different names are prettified into different temporary files.", "quantifier": "all pairs of input names", "why_tests_cant": "hash collisions", "anchors": ["src/diffCmd.cpp:hashString", "src/main.cpp:getOutputFile"]}
{"id": "C48", "title": "Temporary files are removed", "statement": "Every temporary file created by --diff-cmd is unlinked when the program returns, whether reading, forking or the command failed.", "quantifier": "all inputs, all failures, all crash points of the command", "why_tests_cant": "all failure points", "anchors": ["src/main.cpp:doRunExternalDiff,runExternalDiff,getOutputFile"]}
{"id": "C49", "title": "External diff waits for the command and then ends", "statement": "When the command ends, normally or by a signal, the program ends.", "quantifier": "all ways a child process can end", "why_tests_cant": "needs all wait statuses", "anchors": ["src/main.cpp:doRunExternalDiff line 115-122"]}
{"id": "C50", "title": "Redirected output stops at the first unreadable input", "statement": "runStdout prints the documents before the first failing input, in order, and nothing after; all warnings of the inputs read are reported.", "quantifier": "all lists of inputs", "why_tests_cant": "all lists", "anchors": ["src/main.cpp:runStdout,readOneFile"]}
{"id": "C51", "title": "Key sequences", "statement": "A key read is the names of the keys pressed joined by '-', ending with the first one that is not a control prefix; timeouts are invisible.", "quantifier": "all infinite input streams", "why_tests_cant": "all streams", "anchors": ["src/inputSequence.cpp:read"]}
{"id": "C52", "title": "Signals end the viewer", "statement": "After SIGINT or SIGTERM the viewer leaves its loop and evaluates at most one more key.", "quantifier": "all interleavings of keys and signals", "why_tests_cant": "all interleavings", "anchors": ["src/curseOutput.cpp:loop,readInput,onsig", "src/inputSequence.cpp:read"]}
{"id": "C53", "title": "Line count of wrapped text", "statement": "getNbLines(n, w) is n/w rounded up for every w > 0.", "quantifier": "all n < 2^32 and 0 < w < 2^32", "why_tests_cant": "double rounding", "anchors": ["src/curseOutput.cpp:getNbLines"]}
{"id": "C54", "title": "Display width computation stays in bounds", "statement": "strlen()/lazystrlen() of an element returns its number of displayed characters without writing outside its buffer.", "quantifier": "all texts", "why_tests_cant": "depends on every byte sequence", "anchors": ["src/jsonElement.cpp:lazystrlen,strlen"]}
{"id": "C55", "title": "Split view: active window is always valid", "statement": "Whatever window keys are pressed the active window index is below the number of inputs, and the active window always has a selection.", "quantifier": "all sequences of window and selection keys", "why_tests_cant": "all histories", "anchors": ["src/curseSplitOutput.cpp:changeWindow,setSelection"]}
{"id": "C56", "title": "Split view: search stays in its document", "statement": "In the split view a search result selected in a window belongs to that window's document.", "quantifier": "all pairs of documents and patterns", "why_tests_cant": "all trees", "anchors": ["src/curseSplitOutput.cpp:search,jumpToNextSearch"]}
{"id": "C57", "title": "Insertion-ordered map", "statement": "fifoMap keeps one value per key, operator[] returns the stored value or appends a fresh one, contains() tells whether a key was inserted, iteration is in insertion order.", "quantifier": "all operation histories", "why_tests_cant": "all histories", "anchors": ["include/fifoMap.hpp"]}
{"id": "C58", "title": "Error report can always be printed", "statement": "displayException prints the excerpt underlined up to the offending column for every exception; the message names the expected token.", "quantifier": "every exception raised by the reader", "why_tests_cant": "depends on every possible prefix", "anchors": ["src/main.cpp:displayException", "src/jsonException.cpp"]}
{"id": "C59", "title": "Split view: selections mirror each other", "statement": "At all times the inactive window selects the counterpart of what the active window selects, and nothing when there is no counterpart.", "quantifier": "all pairs of documents and all event sequences", "why_tests_cant": "all histories of keys, searches, resizes and window changes", "anchors": ["src/curseSplitOutput.cpp:setSelection,changeWindow"]}
{"id": "C60", "title": "Split view: folds mirror each other", "statement": "After every sequence of events, of two counterparts either both are collapsed or neither is.", "quantifier": "all pairs of documents and all event sequences", "why_tests_cant": "all histories of collapsing, unfolding and searching", "anchors": ["src/curseSplitOutput.cpp:collapseSelection,expandSelection,unfold"]}
{"id": "C61", "title": "Split view: counterparts are level", "statement": "Two counterparts that are both drawn are on the same line of the screen.", "quantifier": "all pairs of documents and all event sequences", "why_tests_cant": "depends on every possible shape of the two documents", "anchors": ["src/curseSplitOutput.cpp:redraw"]}
{"id": "C62", "title": "Split view: marks are on the lines they are about", "statement": "An element drawn on screen that the comparison marks has its mark in the margin of its own line.", "quantifier": "all states of the view and window sizes", "why_tests_cant": "depends on how far each window is scrolled", "anchors": ["src/curseSplitOutput.cpp:write,displayDiffOp"]}
{"id": "C63", "title": "Split view: the selection is on screen", "statement": "After every redraw the selection of the active window is drawn within the window.", "quantifier": "all pairs of documents and all event sequences", "why_tests_cant": "depends on all shapes, histories and window sizes", "anchors": ["src/curseSplitOutput.cpp:redrawOneItemToWorkingWin,checkSelection"]}
{"id": "C64", "title": "Split view: redrawing ends", "statement": "From every state whose selections are rows on display, the loop that redraws until the selection has been reached ends, and Up and Down then lead to rows on display.", "quantifier": "all pairs of documents, pairings, folds, scroll positions and window sizes of at least 5 by 2", "why_tests_cant": "no bound on the number of redraws", "anchors": ["src/curseOutput.cpp:loop,onsig", "src/curseSplitOutput.cpp:redraw"]}
{"id": "C65", "title": "What each key does in the view of one document", "statement": "When the viewer waits for a key: Up selects the row above, Down the row below, PageUp the previous sibling or the row of the container, PageDown the next sibling or what follows the container, Left folds the container shown or goes to the row that holds it, Right unfolds it or goes to the first row inside, q leaves, an empty search pattern forgets the results, a change of size keeps the selection, any other key changes nothing; and the viewer is drawn, the selection on screen, whenever it waits.", "quantifier": "all documents, folds, window sizes and sequences of keys without searches", "why_tests_cant": "depends on all shapes, folds and window sizes", "anchors": ["src/curseOutput.cpp:evalKey,loop,onsig", "src/curseSimpleOutput.cpp:selectUp,selectDown,selectPUp,selectPDown,expandSelection,collapseSelection,initSearch"]}
{"id": "C66", "title": "What each key does in the comparison of two documents", "statement": "When the comparison waits for a key: Up selects the row above in the active window, Down the row below, PageUp and PageDown the previous and next sibling as in the view of one document, Left folds the container selected and its counterpart or goes to the row that holds it, Right unfolds both or goes to the first row inside, the other window following to the counterpart; ^W and a direction goes to that window, which takes up its last selection, and stays when there is none there; a change of size keeps the selections; SIGINT ends at the next key; any other key changes nothing. A window draws a first part of its rows, in order.", "quantifier": "all pairs of documents, folds, window sizes and sequences of keys without searches", "why_tests_cant": "depends on all pairs of documents, folds and window sizes", "anchors": ["src/curseSplitOutput.cpp:selectUp,selectDown,selectPUp,selectPDown,expandSelection,collapseSelection,changeWindow,redraw", "src/curseOutput.cpp:evalKey,loop"]}
{"id": "C67", "title": "What is on screen", "statement": "After a redraw that succeeds the screen holds consecutive parts of the document's page (brackets, names, scalars, indentation by four columns per level, folded containers as \"{ ... }\"), from the line below the top one on, as many lines left out above as are scrolled; every part starts on a line of the window, and parts are missing at the end only when the window is full. Exactly the parts of the selected row are in reverse; names, scalars and search results have the colours of their kind.", "quantifier": "all documents, folds, search results, scroll positions and window sizes of at least 3 by 2", "why_tests_cant": "the drawing code interleaves layout, scrolling and looking for the selection; tests of the view need a terminal", "anchors": ["src/curseSimpleOutput.cpp:redraw,writeContainer,writeContent,writeKey,write,getFlag", "src/outputFlag.cpp", "include/outputFlag.hh"]}
{"id": "C68", "title": "The screen tells documents apart", "statement": "Two documents that look the same on screen are the same.", "quantifier": "all pairs of documents shown whole", "why_tests_cant": "pairs of documents", "anchors": ["src/curseSimpleOutput.cpp:writeContainer,writeContent,writeKey,write", "include/jsonPrimitive.hh:stringify"]}
{"id": "C69", "title": "The search prompt", "statement": "Typing a text at the search prompt and Enter searches for that text: the results are the rows of the names and scalars that contain it, tabs counting as blanks. Backspace takes back the last character and does nothing on an empty prompt; Escape gives up the search.", "quantifier": "all texts, all sequences of keys, all documents", "why_tests_cant": "the prompt reads from the terminal; tests do not reach it", "anchors": ["src/curseOutput.cpp:inputSearch", "src/streamConsumer.cpp:extractUnicode", "src/searchPattern.cpp:SearchPattern"]}
{"id": "C70", "title": "What is on screen in the comparison", "statement": "Whenever the comparison waits, each window has drawn consecutive parts of its document's page (brackets, names, scalars, four columns per level, the value of a name below it, folded containers as \"{ ... }\") from the first one on, none beginning before the one above it ends; it shows those below its scroll position, each at its line and column, and stops at the end of the document or at the first part that reaches the end of the window. Exactly the parts of the selected row are in reverse; names, scalars and search results have the colours of their kind.", "quantifier": "all pairs of documents, folds, window sizes and sequences of keys without searches", "why_tests_cant": "two windows are drawn in turns with gaps, scrolling and looking for the selection interleaved; tests do not reach the terminal", "anchors": ["src/curseSplitOutput.cpp:redraw,redrawOneItemToWorkingWin,writeContainer,writeContent,writeKey,write,getFlag"]}
{"id": "C71", "title": "Nothing is written below a window", "statement": "Whenever the comparison waits, everything written is on a line of its window.", "quantifier": "all pairs of documents, folds, window sizes and sequences of keys without searches", "why_tests_cant": "needs lines of different heights, or without counterpart, at the end of the window", "anchors": ["src/curseSplitOutput.cpp:redraw,write,redrawOneItemToWorkingWin"]}
{"id": "C72", "title": "The two windows share the lines", "statement": "Whenever the comparison waits, the rows and ends of containers that have a counterpart, drawn in the two windows, begin on the same lines: the first beside the first, the second beside the second, and so on. What has no counterpart is beside nothing: no line of it is used in the other window. Nothing else than two rows with counterparts shares a line, and no line above the last one drawn is empty in both windows.", "quantifier": "all pairs of documents, folds, window sizes and sequences of keys without searches", "why_tests_cant": "the windows wait for each other in a loop over all rows; tests do not reach the terminal", "anchors": ["src/curseSplitOutput.cpp:redraw,redrawOneItemToWorkingWin"]}
{"id": "C73", "title": "Counterparts are drawn beside each other", "statement": "Whenever the comparison waits, a row and its counterpart that are both drawn begin on the same line (counted before scrolling), and so do the ends of two containers that are counterparts.", "quantifier": "all pairs of documents, folds, window sizes and sequences of keys without searches", "why_tests_cant": "a loop that lets either window wait, over all shapes of documents; tests do not reach the terminal", "anchors": ["src/curseSplitOutput.cpp:redraw,redrawOneItemToWorkingWin", "include/levenshteinMatrice.hpp:build"]}
{"id": "C74", "title": "The top and the bottom line", "statement": "Writing a text on the top line (the name of the document) or the bottom line (a message, the search prompt) shows the beginning of the text as far as the line goes, then blanks up to the end of the line, and changes nothing on any other line.", "quantifier": "all window sizes, texts and contents of the screen", "why_tests_cant": "tests do not reach the terminal; the width passed to printf is the difference of an unsigned and a size_t read as an int", "anchors": ["src/curseOutput.cpp:writeTopLine,writeBottomLine", "src/curseSplitOutput.cpp:writeTopLine,writeBottomLine"]}
{"id": "C75", "title": "Messages of the search are true", "statement": "Asking for the next result writes \"Pattern not found\" on the bottom line when there are no results, \"Search hit BOTTOM, continuing at TOP\" when none follows the selected row in document order, and nothing otherwise. While a message is on the bottom line it is true: there are no results, or the first result is selected. What was typed at the prompt does not stay.", "quantifier": "all documents, window sizes and sequences of keys, searches and resizes; for the view of one document and for the comparison", "why_tests_cant": "the message stays on screen across keys; tests do not reach the terminal", "anchors": ["src/curseSimpleOutput.cpp:nextResult,jumpToNextSearch,redraw", "src/curseSplitOutput.cpp:nextResult,jumpToNextSearch,redraw,writeBottomLine", "src/curseOutput.cpp:redraw"]}
{"id": "C76", "title": "The cells of the screen", "statement": "When the viewer waits, the terminal shows the name on its first line, and below it every row of the page from the scroll position on, each character of it in its place: at the indentation of the row, wrapped at the right edge, up to the end of the screen. No text is overwritten by another and all other cells are blank.", "quantifier": "all documents of printable ASCII text, window sizes, names and reachable states of the view", "why_tests_cant": "needs a terminal; the places depend on widths, wrapping, folds and scrolling together", "anchors": ["src/curseSimpleOutput.cpp:redraw,write,writeKey,writeContainer,writeTopLine"]}
{"id": "C77", "title": "Every row can be reached with Up and Down", "statement": "From any row on display, pressing Down often enough selects any row further below, and pressing Up often enough any row further above. Folds are kept.", "quantifier": "all documents, window sizes, folds and states in which the viewer waits for a key", "why_tests_cant": "liveness: Down may only scroll, and the number of presses needed depends on layout and window size", "anchors": ["src/curseSimpleOutput.cpp:selectUp,selectDown,redraw,checkSelection"]}
{"id": "C78", "title": "The terminal is given back", "statement": "However the program ends, the terminal is in its normal mode afterwards: whenever a viewer has opened it (curses mode), it has been closed again. It is never opened twice at a time, and documents are shown only while it is open.", "quantifier": "all command lines, file contents, terminals (openable or not) and ways in which the interactive part ends", "why_tests_cant": "depends on which of many failures happens between opening and closing", "anchors": ["src/main.cpp:main,run,runDiff", "src/curseOutput.cpp:init", "src/curseSimpleOutput.cpp:shutdown", "src/curseSplitOutput.cpp:shutdown"]}
{"id": "C79", "title": "Messages are written when the terminal is in its normal mode", "statement": "Errors and warnings about the inputs are written to standard error while the terminal is not in curses mode, so that they are readable and do not disturb what is shown.", "quantifier": "all command lines, file contents, terminals and ways in which the interactive part ends", "why_tests_cant": "an order of effects over all combinations of inputs; output during curses mode looks right in a captured stream", "anchors": ["src/main.cpp:main,run,runDiff"]}
{"id": "C80", "title": "The windows of the comparison share the terminal", "statement": "The windows of the comparison lie within the terminal, each inner window is what the frame of its outer window surrounds, windows of different inputs have only a line of their frames in common, and the bottom line is apart from them. After a change of size they are as if created at that size.", "quantifier": "all numbers of inputs, sizes of the terminal (three columns per input and three lines at least) and previous sizes", "why_tests_cant": "arithmetic with rounding over all sizes", "anchors": ["src/curseSplitOutput.cpp:run,onResizeHandler,getScreenSize,redraw"]}
{"id": "C81", "title": "What a file looks like when it is opened", "statement": "A file whose contents are a JSON text is read without warnings, the viewer then waits for a key, and the screen shows the document from its first line on: one line per bracket, element and entry in the order of the text (or of the names when sorting), indented by depth, names and values as the text gives them, the outermost brackets in reverse.", "quantifier": "all texts of the grammar with distinct names, white space around them, options of the reader, sizes of the screen and documents nested less than 2^27 deep", "why_tests_cant": "composes reader and viewer over all texts and screen sizes", "anchors": ["src/streamConsumer.cpp", "src/curseSimpleOutput.cpp:run,redraw,writeContent,writeKey", "src/curseOutput.cpp:loop"]}
{"id": "C82", "title": "A document compared with a copy of itself shows no marks", "statement": "While a document is compared with a copy of itself, neither window shows a mark in its margin, whatever keys have been pressed, whatever has been searched for and however the terminal has been resized.", "quantifier": "all documents, sizes of the terminal and sequences of events", "why_tests_cant": "all documents and all sequences of keys, including searches which unfold only one side", "anchors": ["src/curseSplitOutput.cpp:displayDiffOp,redraw,isAdded", "src/levenshteinMatrice.cpp"]}
{"id": "C83", "title": "Typing a text at the search prompt leads to it", "statement": "Typing a plain text at the search prompt and pressing Enter selects the nearest row below the selected one whose value or name contains the text, or the first such row of the document when there is none below; the containers around it are opened, no other is closed, and it is on the screen. If no row contains the text, nothing moves.", "quantifier": "all documents, screens wide enough, states of the viewer at rest, texts of printable characters without slash or backslash", "why_tests_cant": "composes prompt, matcher, navigation and drawing over all documents and states", "anchors": ["src/curseOutput.cpp:inputSearch,initSearch", "src/curseSimpleOutput.cpp:nextResult,redraw", "src/searchPattern.cpp"]}
{"id": "C84", "title": "Reading and deleting a document frees every element once", "statement": "Every element allocated while a document is read is either part of the document or has been deleted by the reader, and deleting the document deletes each of its parts exactly once: nothing is deleted twice, nothing of the document is deleted before it, and nothing is forgotten.", "quantifier": "all inputs, options and nestings", "why_tests_cant": "ownership over every path of a mutually recursive reader; a test sees a leak only with a leak checker and only on the inputs it has", "anchors": ["src/streamConsumer.cpp:readNext,readObject,readArray", "src/jsonObject.cpp:~JSonObject,erase", "src/jsonArray.cpp:~JSonArray", "src/jsonObjectEntry.cpp:~JSonObjectEntry"]}
{"id": "C85", "title": "The stream of every input is deleted once, after its last use", "statement": "In every run, the stream that holds an input is created once, its document is displayed, compared or written only between the creation and the deletion of the stream, and when the program returns every stream has been deleted exactly once.", "quantifier": "all command lines, file contents, behaviours of the viewers, and orders of the address-sorted set", "why_tests_cant": "life times across every exit path of main; a use after free or a leak does not show in the output", "anchors": ["src/main.cpp:readFile,runDiff,runExternalDiff,run,main"]}
{"id": "C86", "title": "Resizing the terminal is safe at every moment", "statement": "Whenever the terminal is resized, at any moment of a run, either no viewer exists and nothing happens or the viewer redraws documents that exist.", "quantifier": "all runs, all moments between two steps of the program", "why_tests_cant": "an asynchronous signal at every point of every run", "anchors": ["src/curseOutput.cpp:onsig,_resizeFnc,init", "src/curseSimpleOutput.cpp:run,redraw", "src/curseSplitOutput.cpp:run,redraw", "src/main.cpp:run,runDiff"]}
{"id": "C87", "title": "The comparison uses its memory safely and gives it back", "statement": "Comparing two documents never touches an element outside of an array, never reads a value that was not set, and never uses or deletes a block after its deletion; of all the arrays and matrices it makes, one matrix is left when it ends, which tells the result, and the comparing viewer deletes it: nothing leaks.", "quantifier": "all documents of less than 2^31 values per container, all memories", "why_tests_cant": "memory errors show only for some shapes of documents, and leaks not at all in a test's verdict", "anchors": ["src/levenshtein.cpp:levenshtein,LevenshteinMatrice_base::Builder::build", "include/levenshteinMatrice.hpp:build,cleanMatrice,shortestPath,addRoot", "src/curseSplitOutput.cpp:computeDiff,~CurseSplitOutput"]}
{"id": "C88", "title": "The memory a comparison takes is at most quadratic", "statement": "The arrays and matrices a comparison makes and the elements of these arrays are together at most eight times as many as the product of the sizes of both documents, however deep they are nested, where the size of a document counts its values and the bytes of its scalars.", "quantifier": "all documents", "why_tests_cant": "a bound for all sizes; tests measure a few", "anchors": ["src/levenshtein.cpp:levenshtein,LevenshteinMatrice_base::Builder::build", "include/levenshteinMatrice.hpp:build"]}
{"id": "C89", "title": "What is made for the options is freed once", "statement": "Whatever the arguments, main never uses a stream, the command or its argument vector before it is made or after its deletion, deletes nothing twice, and when it returns all of it was deleted; the argument vector given to execvp points to copies of the arguments of --diff-cmd, with the files in the place of each {}, each ended by a zero, and ends with the null pointer.", "quantifier": "all argument lists, all sets of files that open, any number of inputs read, any files for the command, all memories", "why_tests_cant": "leaks and double deletions do not show in a test's verdict, and the order of options that causes one is rare", "anchors": ["src/params.cpp:read,~Params", "src/diffCmd.cpp:computeArgv,~DiffCmd", "src/main.cpp:main"]}
{"id": "C90", "title": "Every row can be reached with the keys", "statement": "From whatever state the viewer waits in, some sequence of Up, Down, Right and PageDown selects any given row on display and folds or unfolds nothing on the way, in the view of one document and in the active window of the comparison.", "quantifier": "all documents (pairs of documents), all states in which the viewer waits for a key, all folds, all rows, any width and height of the window with room for a line of text", "why_tests_cant": "which keys lead on depends on what was drawn, which depends on the texts and the window's size; tests use a window in which everything fits", "anchors": ["src/curseSimpleOutput.cpp:redraw,selectUp,selectDown,expandSelection,selectPDown", "src/curseSplitOutput.cpp:selectUp,selectDown,expandSelection,selectPDown"]}
{"id": "C91", "title": "The cells of the windows of a comparison", "statement": "When the comparison waits, each of its windows shows the name of its file on the first line, and below it every row of its document from the scroll position on, each character in its place and wrapped at the right edge of the window, and the marks of the comparison in the first two columns. No text is overwritten by another text and all other cells are blank.", "quantifier": "all pairs of documents of printable ASCII text, window sizes, names, reachable states of the comparison, and every order in which texts and marks may be printed", "why_tests_cant": "needs a terminal; the places depend on widths, wrapping, folds, scrolling and on the other document together", "anchors": ["src/curseSplitOutput.cpp:redraw,write,writeKey,writeContainer,writeTopLine,displayDiffOp"]}
{"id": "C92", "title": "What two files look like when their comparison is opened", "statement": "Two files that hold JSON are read without warnings. Once they have been compared and the program first waits for a key, nothing is scrolled, and each window shows the first lines of its document, in order, at the right columns and in the right colours, until the document or the window ends. The first document is selected, and so is the second if it is the counterpart of the first. Both documents begin on the first line below the names of the files.", "quantifier": "all pairs of JSON texts, options of reading, terminal sizes from 10 by 4 on, measures of text and regular expression engines", "why_tests_cant": "two texts of arbitrary shape and a terminal; whether the documents begin side by side depends on the result of comparing them", "anchors": ["src/streamConsumer.cpp:read", "src/curseSplitOutput.cpp:run,redraw,setSelection", "src/levenshtein.cpp:build"]}
{"id": "C93", "title": "Reading takes memory in proportion to its input", "statement": "Reading an input makes at most one element (value, container, key or entry) for every byte it takes from the stream, whether it succeeds or fails; so a document has at most as many elements as its text has bytes.", "quantifier": "all byte strings, options and environments, all outcomes of reading", "why_tests_cant": "the bound is over every input, the malformed ones included, and elements of a failed reading cannot be observed from outside", "anchors": ["src/streamConsumer.cpp:readObject,readArray,readNext,consumeToken"]}
{"id": "C94", "title": "A reading that fails gives back what it made", "statement": "When reading ends with an exception, every element made until then has been deleted.", "quantifier": "all byte strings that cannot be read, options and environments", "why_tests_cant": "memory that nothing points to is not observable in a test's result; each malformed input stops at another point", "anchors": ["src/streamConsumer.cpp:readObject,readArray"]}
{"id": "C95", "title": "What was found can be told from what was not", "statement": "On the terminal a text looks like a search result exactly when its element is one of the results, in the view of one document and in both windows of a comparison; and no text has the colour of its background.", "quantifier": "all documents, window sizes, states of the viewer and of the comparison, with and without colours", "why_tests_cant": "the tests never open a terminal; colours depend on a table, on the flags of each of many writes and on an option", "anchors": ["src/curseOutput.cpp:308-329", "src/curseSimpleOutput.cpp:353-401", "src/curseSplitOutput.cpp:718-735, 787-805", "src/outputFlag.cpp:9-26"]}
{"id": "C96", "title": "Printing reads only strings that exist", "statement": "While a document is printed, no string is read after it was destroyed, and every string made is destroyed once.", "quantifier": "all documents, compressed or not, whatever memory holds once it is given up", "why_tests_cant": "the memory of a destroyed temporary mostly still holds its bytes, so that the output of a test looks right", "anchors": ["src/simpleOutput.cpp:13-88", "src/jsonObject.cpp:86-89", "src/jsonArray.cpp:32-35"]}
{"id": "C97", "title": "The active window of a comparison can be told", "statement": "Whenever the comparison waits for a key, what is on the terminal tells which of both windows is the active one: the name of its file has colours of its own.", "quantifier": "all pairs of documents, window sizes and sequences of keys, with and without colours", "why_tests_cant": "the tests never open a terminal, and what changes with the active window is an attribute of one line", "anchors": ["src/curseSplitOutput.cpp:426-445", "src/curseSplitOutput.cpp:826-840", "src/curseOutput.cpp:308-329"]}
{"id": "C98", "title": "A view that waits is drawn completely", "statement": "Whenever the view of one document, or of a comparison of two, waits for a key, drawing it again changes nothing: a change of size to the same size changes nothing of what follows. A viewer of one document that was stopped and goes on shows it for the size the terminal has then.", "quantifier": "all documents, window sizes of at least two lines, and sequences of keys, sizes and signals", "why_tests_cant": "the drawing moves the window while it is under way and counts lines above the window differently from lines in it; that it ends where it would begin depends on every row drawn before the selected one", "anchors": ["src/curseSimpleOutput.cpp:35-76", "src/curseSimpleOutput.cpp:503-524", "src/curseOutput.cpp:56-89", "src/curseSplitOutput.cpp:250-265", "src/curseSplitOutput.cpp:426-520"]}
{"id": "C99", "title": "Windows, screen and terminal file are used while they exist and given back once", "statement": "From its constructor to the end of its destructor a viewer uses each curses window, the screen and /dev/tty only after it was made and before it was deleted, makes each once, deletes each once (windows before the screen, the screen before the file), and in the end has none left, also when windows cannot be made and when the size of the terminal changes. Afterwards the terminal is in its normal mode.", "quantifier": "all numbers of inputs, choices of windows that cannot be made, sequences of drawings, keys, prompts, messages and resizings, and moments of a signal within shutdown()", "why_tests_cant": "a use after deletion shows only when a signal comes between two statements, and a window that is never deleted shows nowhere", "anchors": ["src/curseSplitOutput.cpp:26-71", "src/curseSplitOutput.cpp:406-424", "src/curseSplitOutput.cpp:807-824", "src/curseSplitOutput.cpp:848-860", "src/curseOutput.cpp:30-37", "src/curseOutput.cpp:287-299", "src/curseSimpleOutput.cpp:526-536"]}
{"id": "C100", "title": "Patterns of searches are deleted once and used only before", "statement": "Every pattern a prompt makes, and its regular expression, is deleted exactly once, is not used afterwards, and none is left after any number of searches.", "quantifier": "all sequences of prompts, texts typed, values of the uninitialised member and elements searched", "why_tests_cant": "memory that is lost shows in no output", "anchors": ["src/curseSimpleOutput.cpp:165-176", "src/curseSplitOutput.cpp:199-212", "src/searchPattern.cpp:9-78"]}
{"id": "C101", "title": "The usage text mentions the options that are accepted", "statement": "An argument that begins with a dash, outside of --diff-cmd and before \"--\", is accepted as an option if and only if the text printed by --help mentions it.", "quantifier": "all arguments, settings read so far and file systems", "why_tests_cant": "that no other argument is accepted is a statement about infinitely many", "anchors": ["src/params.cpp:34-101", "src/params.cpp:151-179"]}
