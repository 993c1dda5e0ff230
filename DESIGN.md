# Formal model of jsonStroller in Rocq/Coq 8.16

## Layout

* `rocq/theories/Model/*.v`: executable Gallina model of the C++ code, function by function. No proofs. Each definition cites file and lines.
* `rocq/theories/Spec/*.v`: small specifications, independent of the model's helpers (grammar, edit scripts, windows, document order, pages, ...).
* `rocq/theories/Proofs/*.v`: lemmas.
* `rocq/theories/Properties/*.v`: only the property theorems (closed by a lemma), examples that their hypotheses are met, `Print Assumptions`.
* `properties.jsonl`: the properties in English; `MANIFEST.json`: theorems per property; `seeded/LOG.jsonl`: mutation tests of the theorems.

Names: `Cnn_refuted` proves that the property as stated is false of the model (a witness, or a whole family); `Cnn_…_partial` proves what remains, with the full statement quoted in the comment above it. Helper definitions in Properties files are concrete documents, windows and key sequences.

## Conventions of the model

* `char` is an 8-bit signed byte (x86-64 Linux, gcc), represented by `ascii`; strings are `list ascii`.
* Undefined behaviour (null dereference, out-of-bounds access, division by zero, reading uninitialised memory) is a distinct outcome (`UB`, `Undef`, `Uninitialised`, `None` where a comment says so); a foreign `std::` exception that nobody catches is the outcome `Abort`; a `JsonException` is `Throw`. Contents of uninitialised members that are only read (not trapped) are parameters of the model (`junk`).
* Loops that are not structural are recursion on fuel with a distinct outcome that theorems exclude (`OutOfFuel`, `Fuel`). Where the fuel is a parameter the theorems hold for all large enough fuel; where the model fixes it, a theorem shows it is enough.
* Unbounded integers are used for sizes unless a property is about wrap-around; wraps that matter (hash, matrix cells, indentation, unsigned subtractions, argument counter) are written out.
* Pointers to elements are element numbers; a document in memory is the list of its elements with their parent numbers (`in_memory`: numbers distinct, parents consistent; what the reader builds satisfies it, C42).
* File system, terminal, child processes, regex engine and locale are oracles or event traces; theorems quantify over them.

## Trusted base

1. **Coq's kernel** (8.16.1), including `vm_compute`, which some examples and refutations use. No native_compute, no plugin, no kernel check switched off.
2. **Assumptions of the theorems**, listed below per theorem. No axiom is declared in this development; there is no `Admitted`, no open obligation, no section-less `Variable` or `Hypothesis`.
3. **The model**: that `Model/*.v` says what the C++ says. It was written by reading the source, function by function; nothing was compiled or run. The section "What is modelled" says which parts of the code are covered, and the comments of the model state each simplification.
4. **The library and the platform** as described in `Model/Numbers.v` (number conversions, printing of doubles with six decimals), `Model/NbLines.v` and `Model/Levenshtein.v` (IEEE single and double precision, round to nearest even, by `Coq.Floats.SpecFloat`, which is plain integer arithmetic), `Model/SearchPattern.v` (`tolower` of glibc on negative `char`), `Model/InputSequence.v` (`keyname`, `toupper`), `Model/DisplayWidth.v` (decoding of one character as a parameter).
5. **The statements**: the specifications in `Spec/*.v` and the theorem statements have to be read to know what is proved.

### What Print Assumptions lists

* **Closed under the global context** (265 theorems): all theorems of `Properties/` but those below.
* `ClassicalDedekindReals.sig_forall_dec`, `ClassicalDedekindReals.sig_not_dec`, `Classical_Prop.classic`, `FunctionalExtensionality.functional_extensionality_dep` (70 theorems): C23_partial, C24_partial, C26_partial, C35_next_result, C35_visits_all, C36_partial, C37_redraw_terminates, C53_partial, C55_partial, C56_partial, C60_partial, C61_copies_partial, C61_partial, C64_redraw_ends, C65_down_partial, C65_left, C65_others, C65_page_down, C65_page_up, C65_rest, C65_right_partial, C65_up, C66_down_partial, C66_down_refuted, C66_left, C66_others, C66_page_down, C66_page_up, C66_rest, C66_right_partial, C66_skip_refuted, C66_switch, C66_up, C67_screen, C67_waiting, C68_partial, C68_seen_partial, C70_results, C70_waiting, C70_windows, C71_partial, C72_beside, C72_waiting, C73_partial, C76_partial, C76_waiting_partial, C77_far, C77_near, C77_partial, C77_refuted, C77_up, C81_opened, C82_partial, C83_partial, C83_refuted, C90_partial, C90_refuted, C90_split, C90_split_partial, C90_split_refuted, C91_partial, C91_same_shape, C92_opened, C92_top_partial, C95_legible, C95_never, C95_partial, C95_windows_partial, C98_windows, C98_windows_same_size_partial.

The axioms are those of the standard library's real numbers. They enter only through Flocq's correctness theorems for floating point division, addition and comparison (similarity of texts, number of lines of a wrapped text).

## What is modelled

| Source | Model | Not modelled |
|---|---|---|
| `streamConsumer.cpp/.hh` | `StreamConsumer.v`: every function; `Memory.v`: what readObject, readArray and readNext delete; `Failed.v`: the same when an exception ends them | |
| `unicode.cpp/.hpp` | `Unicode.v` | |
| `linearHistory.cpp/.hh`, `wrappedBuffer.hpp` | `LinearHistory.v`, `WrappedBuffer.v` | |
| `jsonElement.cpp`, `jsonContainer.cpp`, `jsonArray.cpp`, `jsonObject.cpp`, `jsonObjectEntry.cpp`, `jsonPrimitive.cpp/.hh` | `Json.v`, `Element.v`, `Navigation.v`, `DisplayWidth.v`, `Memory.v` (destructors) | `JSonContainer::operator==` (nothing calls it) |
| `jsonException.cpp/.hh`, `warning.cpp/.hh`, `except.cpp` | messages and positions in `StreamConsumer.v` and `Main.v` | class hierarchy, copying of exceptions; a warning is its exception |
| `fifoMap.hpp` | `FifoMap.v` | |
| `optional.hpp` | as `option` | its copying and `get` of an absent value (not reached) |
| `levenshtein.cpp/.hpp`, `levenshteinMatrice.hpp` | `Levenshtein.v`, `Diff.v`; `DiffMem.v` over `Heap.v`: the same with arrays, matrices and iterators in memory | `std::map`s are association lists; exhaustion of memory |
| `searchPattern.cpp/.hh` | `SearchPattern.v`, `PatternMem.v` (memory) | the regex engine (a parameter) |
| `simpleOutput.cpp` | `SimpleOutput.v` (the dangling `c_str()` is taken to hold its bytes), `PrintMem.v` (the same with strings that are made and destroyed) | |
| `params.cpp/.hh` | `Params.v`, `Usage.v` (texts of --help and --version); `ParamsMem.v` over `Heap.v`: what is made and deleted | |
| `diffCmd.cpp/.hh` | `DiffCmd.v`; `ParamsMem.v` over `Heap.v` with the array of arguments in memory | |
| `main.cpp` | `Main.v`, `Session.v` (with opening and closing the terminal), `Life.v` (streams) | printing of usage; the viewers are entered through their models |
| `inputSequence.cpp` | `InputSequence.v` | |
| `curseOutput.cpp/.hh` | `SimpleView.v`, `SplitView.v`, `NbLines.v`, `Prompt.v`, `Lines.v` (top and bottom lines), `Session.v` (curses start and end), `Colours.v` (colour set-up), `Titles.v` (colours of titles, messages and marks), `Signals.v` (SIGCONT), `Life.v` (what SIGWINCH finds between two steps) | SIGCONT/SIGTSTP, signal handlers running concurrently with drawing: SIGINT and SIGWINCH are events between keys |
| `curseSimpleOutput.cpp/.hh` | `SimpleView.v` (state, keys, layout), `SimpleText.v` (texts, colours), `Terminal.v` (cells of the terminal) | how the terminal renders control characters and characters that take two columns |
| `curseSplitOutput.cpp/.hh` | `SplitView.v` (state, keys, layout, margin marks), `SplitText.v` (texts and colours), `Lines.v`, `WindowCells.v` (cells of the windows; the order of texts and marks is left open), `Windows.v` (creation and resizing of the windows), `Handles.v` (when windows, screen and file are made, used and deleted) | how the terminal renders control characters and characters that take two columns, destruction of windows |
| `outputFlag.cpp/.hh` | in `SimpleText.v` and `Colours.v` | |

Simplifications worth knowing, beside those stated at the definitions:

* scrollTop and cursors of the viewers are unbounded integers; screen sizes and text widths are bounded in the theorems that need it (windows of at least 3 columns, texts below 2^30, nesting below 2^27).
* The display width of an element's text is a parameter of the window (`slen`), so the viewer theorems hold whatever `lazystrlen` answers; C54 is about `lazystrlen` itself.
* A key press reaches the viewers as the sequence of bytes `InputSequence` builds (C51 models how); the prompt opened by `/` answers a pattern or none as part of the event. C69 models the prompt itself.
* In the split view, the reference to a popped stack element (line 643) is taken to hold its value.

### Lines cited by the model

Union of the line ranges in the comments of `Model/*.v`, per source file (headers hold declarations of the same functions):

* `config.h`: 10-12, 17-19
* `curseOutput.cpp`: 23, 30-37, 39-49, 56-69, 71-77, 91-96, 117-156, 158-165, 171-177, 179-182, 184-193, 195-202, 204-285, 287-339
* `curseOutput.hh`: 25-31
* `curseSimpleOutput.cpp`: 17-33, 35-76, 78-82, 84-93, 95-115, 117-127, 129-144, 146-163, 165-176, 178-185, 187-191, 193-208, 210-235, 249-300, 314-383, 385-401, 403-485, 487-501, 503-524, 526-536, 538-541
* `curseSplitOutput.cpp`: 26-31, 33-41, 43-98, 100-116, 118-138, 140-150, 152-171, 173-197, 199-212, 214-221, 223-248, 250-276, 278-309, 354, 362-404, 406-424, 426-550, 552-594, 596-617, 619-633, 635-647, 649-668, 670-739, 741-785, 787-805, 807-824, 826-840, 842-846, 848-860, 862-898
* `curseSplitOutput.hh`: 12-24
* `diffCmd.cpp`: 4-5, 7-20, 22-23, 25-26, 31-56, 58-66
* `diffCmd.hh`: 37-38
* `fifoMap.hpp`: 16-22, 25-33
* `inputSequence.cpp`: 13-32
* `jsonArray.cpp`: 12-16, 32-35
* `jsonContainer.hh`: 11
* `jsonElement.cpp`: 19-22, 24-34, 36-46, 48-54, 66-104, 106-109
* `jsonElement.hh`: 62-66
* `jsonException.cpp`: 31-33, 35-36
* `jsonException.hh`: 33-36
* `jsonObject.cpp`: 15-19, 21-24, 26-33, 35-45, 47-55, 57-60, 62-68, 86-89, 91-98
* `jsonObjectEntry.cpp`: 15-18, 32-35, 42-45, 47-57
* `jsonPrimitive.cpp`: 12-22, 25-47, 49-65
* `jsonPrimitive.hh`: 11-58, 68-70
* `levenshtein.cpp`: 6-211
* `levenshteinMatrice.hpp`: 33, 36-42, 44, 59-60, 62-213, 218-220
* `linearHistory.cpp`: 9-10, 15-16, 18-30, 32-58
* `main.cpp`: 21-27, 29-65, 67-81, 86-130, 132-168, 170-188, 190-211, 213-248
* `outputFlag.cpp`: 9-26, 61-62
* `outputFlag.hh`: 9-15, 47-55
* `params.cpp`: 16, 26-32, 34-140, 142-149, 151-192, 194-204
* `params.hh`: 21-40, 101-113
* `searchPattern.cpp`: 9-38, 40-44, 46-78, 80-81, 83-90, 92-119, 121-124, 126-129
* `searchPattern.hh`: 25-28
* `simpleOutput.cpp`: 13-15, 23-28, 31-41, 43-51, 62-65, 67-75, 77-82, 84-88
* `simpleOutput.hh`: 29
* `streamConsumer.cpp`: 15-16, 18-22, 30-36, 38-135, 137-367, 369-375, 377-397, 399-402
* `unicode.cpp`: 5-14
* `unicode.hpp`: 5-12
* `wrappedBuffer.hpp`: 62-64, 70-76, 78-80, 82-106, 108-140, 142-158, 160-166, 168-192

## Properties: plan and outcome

The first sentence of each item is the plan written before the proofs. *Outcome* is what was proved; theorem names are in MANIFEST.json.

* **C01 Well-formed documents are read as the tree they denote.** Parser model (Model/StreamConsumer.v) against an independent inductive grammar with denotation (Spec/JsonGrammar.v); induction on the derivation. *Outcome (partial):* RFC denotation of control escapes is not what the code computes (C01_refuted). Proved for every text of the grammar without such escapes, and for every text when they denote their spelling; any white space, any options.
* **C02 Reading always terminates.** Parser recursion is on explicit fuel with an OutOfFuel outcome; prove fuel = 1 + input length is always enough (every recursive call consumes a byte). *Outcome (proved):* All byte sequences and option sets.
* **C03 No input crashes the reader.** Outcomes Abort and UB are distinct in the model. Expected to be refuted (`{"a":}`); prove the refutation, and a _partial theorem that delimits where crashes can come from. *Outcome (partial):* False as stated (null dereference on {"a":}, escaping std exceptions, out of bounds read). Proved for every byte sequence, well-formed or not, holding none of seven patterns; each pattern is shown to crash.
* **C04 Keys of every object read are pairwise distinct.** Invariant through the parser (NoDup of keys in every object). *Outcome (proved):* All inputs, options, objects at any depth.
* **C05 Objects are sorted by key unless --keep-order.** Invariant through the parser (StronglySorted byte order). *Outcome (proved):* All inputs, options but --keep-order.
* **C06 --keep-order only changes the order of entries.** Simulation between two parser runs differing in the sort flag. *Outcome (proved):* All inputs for the outcome and the tree up to entry order (C05: sorted); text order for every text of the grammar.
* **C07 -W never changes the meaning of an accepted document.** Simulation between two parser runs differing in the strict flag. *Outcome (proved):* All inputs; the second theorem also relates failures.
* **C08 Strict mode has no warnings.** Same simulation, both directions. *Outcome (proved):* All inputs.
* **C09 Malformed text is rejected.** Expected refuted (`{"a":1["b":2}`); _partial: exact shape of what is accepted. *Outcome (partial):* For every input, what is read has a precise structure (nesting, commas of arrays, members as string/colon/value); objects are loose: any token separates members, any scalar ends the object, text after the root is ignored (refuted, even with --strict). Without '{' the text has the structure of JSON.
* **C10 --ascii leaves unicode escapes untouched.** Simulation between two parser runs differing in the ascii flag. *Outcome (proved):* All inputs; verbatim value for every text of the grammar.
* **C11 Unicode escapes decode to UTF-8.** Unicode model, UTF-8 spec, finite sweep of the 65536 code units lifted to a theorem, and hex digit lemma. *Outcome (proved):* All four-character escapes.
* **C12 Integers are read exactly.** Decimal spec on digit lists; theorem on consumeNumber; overflow refuted (abort). *Outcome (partial):* All digit strings; literals beyond 64 bits end the program instead of being reported.
* **C13 Reported line is the line of the error.** LinearHistory model with line counter; expected refuted (number followed by newline counts twice). *Outcome (partial):* Proved for texts without carriage returns in which no line ends with a number, true or false (at end of file: the line, or the next one after a final line feed). False otherwise: such a line end is counted twice, so is CR LF.
* **C14 Reported column is the column of the error.** `written` is uninitialised: model it as option; refuted on line 1, proved after the first line reset. *Outcome (partial):* Proved from line 2 on for the texts of C13 whose null and \u words are not broken by a line feed, when the stream has not failed. False on line 1: the counter is uninitialised.
* **C15 Error excerpt is the tail of the current line.** Refinement of the ring to a list window, composed with the parser's use of it. *Outcome (partial):* Proved for the texts of C14: the last 45 bytes of the current line, or the last 44 directly after a pop_back. False after a number that ends its line, and at end of file (a byte 255 that was never read).
* **C16 Ring buffer holds the most recent items.** Refinement to a list window; expected refuted for pop_back twice then put; proved for histories in which every pop follows a put. *Outcome (partial):* False of the code in general (witnesses: two pops then a put; a batch larger than the buffer); proved for all histories where each pop follows a put and batches fit.
* **C17 Ring buffer never exceeds its capacity.** Invariant over all histories. *Outcome (proved):* All histories, every SIZE > 0.
* **C18 Redirected output reads back as the same document.** Printer model composed with the parser model. Refuted (object string values are printed without quotes); _partial for documents whose object values are not strings and whose texts need no escaping. *Outcome (partial):* False of the code: string values of object entries are printed unquoted and doubles are cut to six decimals (both refuted with witnesses). Proved for every document whose strings are array elements (or the document) and spelled without quotes/control characters, and whose doubles six decimals determine, in both layouts and with every reader setting.
* **C19 --compress only removes layout.** Relation between the two printers by induction on the tree. *Outcome (partial):* The layout half is proved for every document of every depth (C19_layout). 'Same outcome when read back' is false (C19_refuted) and proved for printable documents (C19_partial).
* **C20 Pretty output is one item per line, indented by depth.** Independent line-list specification of the pretty layout; equality by induction. *Outcome (partial):* Proved for every document nested less than 65536 deep: lines, order, bracket nesting, indentation. Refuted at depth 65536 (16-bit indent counter).
* **C21 Text distance is the edit distance.** Matrix model (row by row, as in the code) against an inductive edit-script specification. *Outcome (proved):* All pairs of texts; cells are unbounded integers (exact below 2^31 bytes).
* **C22 Text distance is a metric.** From C21 and properties of edit scripts. *Outcome (proved):* All texts.
* **C23 Similarity threshold.** IEEE single precision from Coq.Floats.SpecFloat (pure Z arithmetic); threshold theorem. *Outcome (partial):* IEEE single precision. Proved for texts of at most 2^24 bytes; false by rounding beyond.
* **C24 A document compared with itself shows no difference.** Diff model; induction on the tree; empty containers excluded (they crash: C25). *Outcome (partial):* False of the code: a document with an empty array or object, compared with its copy, divides by zero (C24_refuted: all of them). Proved for every document without one: every element of both is marked '=' and paired with its copy.
* **C25 A diff never crashes.** Division by zero is a distinct outcome; refuted by two empty containers; _partial for the others. *Outcome (partial):* False of the code: comparing two empty containers divides by zero. Proved exactly when: containers of fewer than 2^31 children, crash iff the comparison meets two empty containers.
* **C26 Nodes marked equal are equal.** Refuted by witnesses; what '=' does mean is proved as _partial. *Outcome (partial):* False of the code: scalars differing in less than 30% and differing containers are marked '='. Proved: a scalar marked '=' has a partner of the same type with the same text or less than 30% changed (texts up to 2^24 bytes); the mark of two containers as a function of their distance.
* **C27 Diff pairing is one-to-one and order preserving.** Invariant of shortestPath on matrices. *Outcome (proved):* All pairs of documents that fit in memory; the value of an entry pairs only with the value of an entry.
* **C28 Distance of containers is bounded by their sizes.** Refuted by wrap-around/by container costs; _partial under a width bound. *Outcome (partial):* Upper bound proved. Lower bound false when a cost wraps around in the 8 bit cells (C28_refuted); proved when the sizes and twice those of the containers below fit the cells.
* **C29 Plain search is substring search.** Substring specification; std::search modelled as first-occurrence search. *Outcome (partial):* All patterns and texts. With /i a pattern holding non-ASCII bytes matches nothing (tolower of a negative char, glibc); an empty text matches nothing, not even the empty pattern.
* **C30 Whole-word search finds words.** Refuted by witness; what is matched is proved. *Outcome (partial):* A word at one end of a longer text is not found. Proved: found iff it is the whole text or stands between blanks.
* **C31 Type flags restrict, their absence does not.** typeFlag's initial content is a model parameter; refuted for some content, proved for 0. *Outcome (partial):* First half proved. typeFlag is never initialised: without type flag the answer depends on it (refuted for contents 1..4, proved otherwise).
* **C32 Search pattern syntax.** Pattern scanner model; independent specification by splitting at the first unescaped slash. *Outcome (partial):* Syntax proved for all inputs. Texts with a leading blank and a lone backslash cannot be spelled.
* **C33 Unicode escapes typed in a search are replaced in place.** Refuted (one byte too many skipped, read past the end); _partial without escapes. *Outcome (partial):* The byte after an escape is swallowed, at the end the terminator. Exact behaviour characterised.
* **C34 Search collects exactly the matching elements in document order.** Search model over node paths; specification by pre-order listing. *Outcome (proved):* All documents, patterns and views. An entry whose key and value both match is listed twice.
* **C35 Next-result visits every result and wraps.** Same, specification: first result after the selection in pre-order. *Outcome (proved):* All documents, windows of at least 3 columns (and texts below 2^30, nesting below 2^27), all result lists made of searchable rows.
* **C36 Selection always designates a row of the shown document.** UI state machine over key lists; invariant. *Outcome (partial):* False of the code: Down after a search that wrapped around to a result outside the window selects the null pointer (C36_refuted). Proved for every sequence without search keys, and for every sequence in which the viewer never waits without a row below; windows of at least 3 columns.
* **C37 Drawing terminates.** redraw modelled with cursor/scroll; measure on scroll position. *Outcome (proved):* All documents (nesting below 2^27, texts below 2^30), windows of at least 3 columns, states. scrollTop as an unbounded integer.
* **C38 Up and down move to the adjacent visible row.** redraw's up/down pointers against the list of visible rows. *Outcome (proved):* All documents and states.
* **C39 The selected row is on screen after drawing.** redraw's write events. *Outcome (proved):* All documents, states, heights from 2.
* **C40 Collapse and expand are inverse.** UI operations on the collapse set. *Outcome (proved):* All documents and states.
* **C41 Sibling navigation follows document order.** findNext/findPrev on paths; refuted for objects nested in entries; _partial for arrays. *Outcome (partial):* findPrev proved. findNext never leaves the value of an object entry (C41_refuted); its answer is characterised for every row (C41_partial).
* **C42 Parents are consistent after reading.** Parser with object identities and parent fields. *Outcome (proved):* All inputs; getLevel walks a heap of metas.
* **C43 Viewing several files keeps them apart.** Refuted: run() over several documents in one session. *Outcome (partial):* False of the code: search results and collapsed addresses survive the deletion of the document (C43_refuted, two witnesses). Proved when no results are left and no collapsed address is reused, for every event sequence.
* **C44 Option parsing.** Argument scanner model with a file-system oracle. *Outcome (partial):* Every argument vector is classified (C44_kinds) and its outcome determined. The inputs clause is false when a file is named ARGS and text follows -- (C44_refuted).
* **C45 Diff mode needs two or three inputs and supports them.** Same; three inputs refuted (runtime_error). *Outcome (partial):* Refusal outside 2..3 inputs and the comparison of two readable inputs proved; three inputs are accepted then die on an uncaught exception (C45_refuted).
* **C46 External diff command line.** computeArgv model against flat_map. *Outcome (partial):* Proved for expansions below 2^32 arguments; beyond, the unsigned counter wraps and the array is overrun (C46_refuted).
* **C47 Temporary files are distinct per input.** hash modulo 2^64; refuted for every pair with a common 13-byte suffix. *Outcome (partial):* Only the last 13 bytes count (C47_suffix), so it is false (C47_refuted); proved for names of at most 12 bytes within one block of 32 codes.
* **C48 Temporary files are removed.** Program model with an effect trace (create, unlink). *Outcome (partial):* Proved for every run that returns; an uncaught library exception while reading a later input leaves earlier files (C48_refuted).
* **C49 External diff waits for the command and then ends.** wait loop model; refuted for a signalled child. *Outcome (partial):* Proved when the command exits; a command killed by a signal makes the wait loop endless (C49_refuted).
* **C50 Redirected output stops at the first unreadable input.** Program model with an effect trace. *Outcome (partial):* The printed documents are proved for every list of inputs and every ending. Warnings are reported when they have a message and an excerpt; otherwise not (C50_refuted).
* **C51 Key sequences.** Input loop on streams of key codes. *Outcome (partial):* Proved for every naming of keys, 'control prefix' meaning a name starting with '^'. The key '^' itself is taken for a prefix (C51_refuted); a key without name is a null pointer (C51_null_refuted).
* **C52 Signals end the viewer.** Event loop model with signals. *Outcome (partial):* At most one more key proved for every interleaving; leaving the loop without a further key refuted, and a signal only ends the current document.
* **C53 Line count of wrapped text.** SpecFloat double division against integer ceiling. *Outcome (partial):* IEEE double precision. Proved below 2^51 bytes when the count fits unsigned int; false beyond.
* **C54 Display width computation stays in bounds.** Buffer write count model; refuted for every ASCII text. *Outcome (partial):* Proved for texts with a multibyte character or a null byte. False for every text of one-byte characters (terminator written out of bounds), for texts invalid in the locale, and for strlen().
* **C55 Split view: active window is always valid.** Window state machine; invariant. *Outcome (partial):* The index never leaves the two windows and subWindows.at never throws, for all sequences of events. The selection can be lost: Down after a search that wrapped around dereferences null. Without the search keys nothing undefined happens and the active window always has a selection, a row on display.
* **C56 Split view: search stays in its document.** Refuted by witness. *Outcome (partial):* False: results of both documents are given to the active window. Without the search keys every selection belongs to its window's document.
* **C57 Insertion-ordered map.** fifoMap model against association lists. *Outcome (proved):* All histories.
* **C58 Error report can always be printed.** displayException model; refuted (empty excerpt; message built by pointer arithmetic). *Outcome (partial):* Proved for every exception with an excerpt and a defined message; false otherwise: an empty excerpt terminates the program, the message of JsonUnexpectedException is undefined.
* **C59 Split view: selections mirror each other.** Invariant over events: the other window selects getEquivalence of the selection. *Outcome (proved):* All pairs of documents that fit in memory, all event sequences including searches and window changes.
* **C60 Split view: folds mirror each other.** Invariant: a container is folded iff its counterpart is; refuted with a search. *Outcome (partial):* False: a search unfolds only the document of its result. Holds for all sequences without the search keys.
* **C61 Split view: counterparts are level.** Refuted by a witness at the start. *Outcome (partial):* False already at the start for documents of different shapes. Proved: documents of the same shape, each element paired with the one at its place (copies without empty containers in particular), on windows where no row takes a second line, without searches: after every sequence of events both windows are scrolled alike and counterparts are on the same lines.
* **C62 Split view: marks are on the lines they are about.** Log of what is drawn and of the margin marks; refuted when scrolled. *Outcome (partial):* False once a window is scrolled: the marks of texts are not shifted. Holds for windows that are not scrolled, of which no other line is marked but by '-'. In all windows every mark is that of an element drawn or stands for elements without counterpart.
* **C63 Split view: the selection is on screen.** Log of what is drawn; refuted by gap lines. *Outcome (partial):* False: what only the other document has pushes the selection out at the bottom. It is always drawn and never above the window.
* **C64 Split view: redrawing ends.** Measure: each failed redraw scrolls one window by a line. *Outcome (proved):* Explicit bound on the number of redraws.
* **C65 What each key does in the view of one document.** Every key of the single view as a function on the rows shown; refuted for Down and Right at the bottom of the window. *Outcome (partial):* False of the program: Down never gets past more closing brackets than the window has lines; Right on an entry on the last line of the window goes past its contents. Everything else is proved; Down and Right as far as a row below is drawn.
* **C66 What each key does in the comparison of two documents.** The same for the split view, for the active window. *Outcome (partial):* False of the program: Down can stay forever at the bottom of the window although rows follow, and Down and Right on an entry that is the last row drawn pass over its contents. Everything else is proved; Down and Right as far as a row below is drawn.
* **C67 What is on screen.** Drawing with texts (Model/SimpleText.v) against a page specification (Spec/PageSpec.v). *Outcome (proved):* The page, the lines strips take and the colours are specified separately from the drawing (Spec/PageSpec.v).
* **C68 The screen tells documents apart.** Injectivity of the page; refuted without colours. *Outcome (partial):* False of the program: strings are shown without quotes, so that without colours [1] and ["1"] look alike. Proved with colours, for documents shown whole: same structure, names and scalars, up to NUL bytes and to the type of numbers. C68_seen_partial: also by the colours of the terminal, where some pairs look alike.
* **C69 The search prompt.** Prompt model (Model/Prompt.v) composed with the search pattern and the search. *Outcome (partial):* False of the program: Enter or Escape with nothing typed reads uninitialised memory, the bytes of a non-ASCII character are taken for characters (C69_keys: what is searched for then; C69_unset: when memory nobody wrote is read), an escape at the end of the text reads past it, and KEY_BACKSPACE is appended. Proved for printable ASCII texts, up to the rows found in the document; backspace (8, 127) for all keys.
* **C70 What is on screen in the comparison.** Texts in the split model (Model/SplitText.v) against a page specification (Spec/SplitPage.v); one invariant per window, the cursor only moving down. *Outcome (proved):* Texts, columns, lines, colours and the selection of both windows, for all pairs of documents, folds and sizes (5 columns and 2 lines at least per window). Where gaps are is C61. Searches that unfold one side only (C60) are excluded.
* **C71 Nothing is written below a window.** Refuted by a witness; for documents of the same shape from C61's simulation (lines without a gap) and C70. *Outcome (partial):* False of the program: what has no counterpart, or takes more lines than what is beside it, moves the other window on, which then writes one thing below its end (there the text appears after the last one written: "short7"). Proved for documents of the same shape, as C61.
* **C72 The two windows share the lines.** An inductive description of all layouts redraw() can produce (Proofs/SplitShow.v, laid), kept step by step; specification in Spec/SplitLay.v. *Outcome (proved):* How the two windows share lines, whatever the documents. Which rows are beside each other when both have counterparts is decided by their order, not by whose counterpart they are (C61 is false for that reason).
* **C73 Counterparts are drawn beside each other.** From C72 and a lemma on the comparison: paired rows and ends come in the same order in both documents (Proofs/SplitPair.v, steps_match); a value that is an empty container is never paired with one that is not. *Outcome (partial):* False when a container is paired with a scalar (two elements of arrays): the end of the container is drawn beside what follows the scalar. Proved for all documents of which counterparts are of the same kind (scalar, container, entry), whatever their sizes, line breaks, folds and unpaired rows; C61 also asks for the same scroll position.
* **C74 The top and the bottom line.** printf's %*c and the cells of a window (Model/Lines.v); refuted for long names. *Outcome (partial):* False of the top line of the view of one document when the name is as long as the line: a blank is printed on the line below (which is coloured as the top line). Proved otherwise, texts longer than the line included, where the width given to printf is negative.
* **C75 Messages of the search are true.** The loop of the viewers with the bottom line beside it (Model/Lines.v), shown to be the same loop; invariant over events. *Outcome (proved):* Proved of the view of one document and of the comparison, where the results of both documents count and the bottom line is hidden by every redraw (C80_hidden).
* **C76 The cells of the screen.** A curses window as cells and a cursor (Model/Terminal.v); the texts printed (C67) drawn one after another, with the invariant that cells beyond the lines used so far are blank (Proofs/CellProofs.v). *Outcome (partial):* False of texts whose indentation is as wide as the screen (move fails: they are printed behind the text before, brackets not at all) and of the last cell of the screen (what follows a text that is cut off is printed over its last character). Proved when every row begins on the screen, without the last cell if a text goes beyond it.
* **C77 Every row can be reached with Up and Down.** Exact effect of a redraw on scrollTop (minimum of what it was and the place of the selection on the page), then induction on the distance between both (Proofs/ReachProofs.v). *Outcome (partial):* False when there are more lines between the beginnings of two consecutive rows (closing brackets, a long text) than fit below the top line: Down then stays on the upper one for ever. Proved: that is the only obstacle; Down leads to the row below if and only if it is near enough (C77_near, C77_far).
* **C78 The terminal is given back.** main.cpp once more with the opening and closing of the terminal among its effects (Model/Session.v), shown to tell what Main.v tells; the order of effects by cases. *Outcome (partial):* False when reading an input ends the program (an exception nothing catches, e.g. of a number out of range) after run() has opened the terminal: curses mode stays on. Proved: whenever main returns, the terminal is closed; when it is left open, reading or the viewer itself ended the program (C78_left_open). How the interactive part ends is a parameter.
* **C79 Messages are written when the terminal is in its normal mode.** Same model as C78; refuted by an unreadable second input. *Outcome (partial):* False of the view of one document: run() opens the terminal before it reads the input, so that the error for an unreadable input is written in curses mode. Proved: nothing else is (warnings, the comparison, external commands).
* **C80 The windows of the comparison share the terminal.** newwin's arguments with unsigned arithmetic (Model/Windows.v) against sets of cells (Spec/WindowSpec.v). *Outcome (partial):* False of the bottom line: the frames take the last line of the terminal too, so that every redraw hides it up to its last one or two columns (C80_hidden). False before run(): the constructor divides by an input count that nothing has set. Proved otherwise.
* **C81 What a file looks like when it is opened.** C01 composed with C42, C50, C73 and the first redraws; the expected lines are a function of the tree alone (Spec/OpenSpec.v). *Outcome (proved):* Escapes of control characters (and, with --ascii, of others) are shown as the text spells them (C01, C10). The lines are told for lines no longer than the screen is wide; for longer ones, which lines of the document are shown and where they begin.
* **C82 A document compared with a copy of itself shows no marks.** C24 composed with an invariant of drawing: every mark has a cause (Proofs/SplitCause.v). *Outcome (partial):* False of documents that hold an empty array or object: the comparison divides by zero (C24). Proved of all others, searches included.
* **C83 Typing a text at the search prompt leads to it.** C69 (prompt), C34, C35 and C37 composed; the expected row is a function of the document and the text alone (Spec/FindSpec.v). *Outcome (partial):* Refuted for the case in which the search starts over at the top: the screen is drawn once only then (nextResult returns NextInput), and the row selected may be off the screen. Everything else of the claim is proved, in that case too.
* **C84 Reading and deleting a document frees every element once.** The reader again with an account of deletions (Model/Memory.v), erasure to the reader, and permutations of identities (Proofs/MemoryProofs.v); grammar induction for the texts (Proofs/MemoryGrammar.v). *Outcome (partial):* For all inputs: an element made is in the document, deleted, or lost, in one of these only and once; nothing is deleted twice. Nothing is lost for the texts of JSON's grammar. Refuted beyond it: a scalar where an object's comma or brace is expected ends the object and is never deleted.
* **C85 The stream of every input is deleted once, after its last use.** main again with creations, uses and deletions (Model/Life.v), erasure to C78's sessions, and an automaton every run follows (Proofs/LifeProofs.v). *Outcome (partial):* Order of creation, use and deletion is proved for all runs, and that exactly the streams of the inputs read are deleted when main returns. Refuted for the rest: the stream of an input that cannot be read (readFile returns no stream) is never deleted.
* **C86 Resizing the terminal is safe at every moment.** The viewer's pointers as a function of the events so far (resize_at, Model/Life.v), by the automaton of C85. *Outcome (partial):* Proved for every moment of every run: the signal is ignored exactly while the terminal is closed, and while it is open the redraw is safe exactly when a document is in view. Refuted otherwise: the viewer redraws an unset or deleted document when resized while an input is read; the comparison redraws without its table while it is computed.
* **C87 The comparison uses its memory safely and gives it back.** The comparison again over a heap with faults (Model/Heap.v, Model/DiffMem.v); every loop against its invariant with ownership of blocks (Proofs/HeapProofs.v, DiffMemProofs.v, DiffMemMatrix.v, DiffMemPath.v), then refinement of Model/Diff.v by induction (Proofs/DiffMemBuild.v). *Outcome (proved):* Model/DiffMem.v computes loop by loop over a heap of blocks (Model/Heap.v); faults are outcomes, excluded for all documents. The crash of C25 (division by zero) is the only other end. Moving a list iterator before begin() is no fault of the model; identities of elements stand for their addresses.
* **C88 The memory a comparison takes is at most quadratic.** A count of the blocks and elements each function makes, summed over the pairs of children; the places of a pair in the arrays of its parents are charged to the pair, so that sums of products stay below the product of the sums (Proofs/DiffMemCost.v). *Outcome (proved):* Counts the blocks of Model/DiffMem.v that are made and their elements, deleted or not; the nodes of std::map and the bytes of std::string are not counted.
* **C89 What is made for the options is freed once.** The loop over the arguments, computeArgv and the destructors again over a heap (Model/ParamsMem.v); an invariant ties the pointers in the map of inputs and the command to blocks that are owned, with a list of lost ones that stays below two (Proofs/ParamsMemProofs.v). *Outcome (partial):* Refuted in one respect: with a file named ARGS among the inputs, a later "--" overwrites its entry of the map (params.cpp:46-50) and the ifstream leaks. Everything else holds: no fault, no double deletion, at most that one stream left (C89_safe), and nothing left if no argument is "ARGS" (C89_partial). The bound 2^32 on the expanded arguments is that of C46.
* **C90 Every row can be reached with the keys.** From the theorems about single keys (C65, C66, C77): Up leads to all rows above, Right into a container that is no entry, PageDown to the next row of the level. An induction on the document (Proofs/RowReach.v) shows that this suffices except for the last entry. The refutations list all states the keys lead to. *Outcome (partial):* Refuted when the document ends inside of an entry whose key leaves no room for the first row inside (C90_refuted: no key other than those of a search leads there; C90_split_refuted for the comparison). All rows are reached otherwise: in the view of one document if the first row inside of such a last entry is at most height - 2 lines below it (C90_partial), in the comparison unless the keys lead to such an entry with nothing inside of it drawn and Down without effect (C90_split_partial), in particular if the rows do not end inside of an entry (C90_split).
* **C91 The cells of the windows of a comparison.** The strips drawn (C70) do not overlap and fit their lines, and marks are below the title and two cells wide. After any sequence of texts and marks that are inside the window a cell shows what the things printed there agree on, and what was there before if there are none (Proofs/HalfCells.v); so their order does not matter. *Outcome (partial):* Refuted: a row that begins below the end of the window is printed behind the last text instead (C91_refuted, the documents of C71_refuted). Proved when all that is printed begins inside the window (C91_partial), which is so for documents of the same shape that need no second lines (C91_same_shape, by C71). Where a mark meets a text that was wrapped, and in the last cell when a text goes beyond it, what is shown is left open.
* **C92 What two files look like when their comparison is opened.** Reading is C03. The first item drawn in a window is its root, which is the last selection; from then on the selection is found and no redraw is repeated, so that nothing is scrolled (Proofs/BesideFirst.v). The counterpart of a root is a root (from the pairing of C27). C70 gives the strips, an induction on the document their texts (Proofs/BesideOpen.v). If the roots are counterparts, no lines are left free before either (Proofs/BesideTop.v). *Outcome (partial):* Refuted in its last sentence: when the roots are not counterparts (two arrays without anything in common), the second document is drawn below the last line of the first and can be out of the screen altogether (C92_refuted). Proved when the roots are counterparts (C92_top_partial); everything else for all pairs (C92_opened). Elements are numbered afresh between reading and comparing, so that those of the two documents differ.
* **C93 Reading takes memory in proportion to its input.** A reader that keeps its counts when it stops (Model/Failed.v), shown to be the reader of C84 step by step (Proofs/FailedSame.v). Potential: elements made plus bytes unread never grow, an opening bracket being a credit for its container and a colon for its entry (Proofs/FailedProofs.v). *Outcome (proved):* For every outcome of reading. C93_reading: the account is of the same reading as that of C01-C15 and C84. Memory of std::string and of exceptions is not counted.
* **C94 A reading that fails gives back what it made.** The same induction keeps the range of what is deleted: the container being filled, or the first value of an array, is outside it. *Outcome (partial):* False of the program: readObject and readArray hold what they make in plain pointers and delete nothing when an exception passes (C94_refuted: the number and the array of "[1,"). Proved: a failed reading has deleted everything exactly when it had made nothing (C94_partial), and nothing is deleted twice (C94_once); what is left is bounded by C93.
* **C95 What was found can be told from what was not.** The table of colour pairs as a list (Model/Colours.v); what is printed is known from C67 and C70, so each text is looked up in the table. Without colours: the strips shown are determined by folding, selection and scrolling (Proofs/ColoursProofs.v: cut_same). *Outcome (partial):* False of the program without colours (--color=never): the pair of search results is used but never set up, so that results look like everything else (C95_refuted; C95_never: always). Proved with colours. C95_legible and C95_legible_lines: with and without, in the view of one document, for titles, messages and marks. C95_marks: marks of different kinds look different.
* **C96 Printing reads only strings that exist.** Printing with the strings it makes (Model/PrintMem.v): a read of a destroyed one is a fault and gives an arbitrary byte. Induction on the document: a write leaves the strings in use as they were and adds two faults for each container (Proofs/PrintMemProofs.v). *Outcome (partial):* False of the program: writeContainer keeps stringify().c_str() of a temporary (simpleOutput.cpp:46) and reads it after the temporary is gone. Proved: this happens twice for every array and object and never otherwise, every string is destroyed once, scalars are printed without it, and the output is that of C18-C20 if the bytes are still there.
* **C97 The active window of a comparison can be told.** Titles and marks in their colours (Model/Titles.v) beside the texts of C70; the index of the active window is 0 or 1 (C55). *Outcome (partial):* False of the program without colours (--color=never): nothing on the terminal changes when the other window becomes active (C97_refuted; C97_never: as long as nothing was found). Proved with colours, for every run.
* **C98 A view that waits is drawn completely.** The drawing as a sequence of rows (C37): started from the scrollTop it ends with, it goes through the same states, because a row above the selected one is skipped by both (Proofs/AgainProofs.v); invariant of the loop (Proofs/AgainRuns.v); SIGCONT in Model/Signals.v. Comparison: one window from a lower scrollTop (Proofs/AgainSplit.v), both windows and runs (Proofs/AgainBoth.v). *Outcome (partial):* False of the program after a search that started over at the top: the screen is drawn once only, and the next signal moves the window (C98_refuted). Proved for every run without search keys, and for every run that ends with a row known below the selection. C98_again: any drawing that succeeds, done again. C98_windows, C98_windows_same_size_partial: the same for the two windows of a comparison, for every run without search keys and signals to stop.
* **C99 Windows, screen and terminal file are used while they exist and given back once.** Traces of the calls of curses and stdio (Model/Handles.v) against a transition relation on what is alive (Spec/HandleSpec.v); invariant: the pointers of the object lead to exactly the windows that are alive (Proofs/HandleProofs.v). /dev/tty is taken to open; curses does nothing to a null window. *Outcome (partial):* False when SIGWINCH comes while the comparison ends: shutdown() deletes the bottom line but keeps the pointer, and until the base class's destructor the handler resizes it (C99_late, C99_refuted). Proved for every run without such a signal, and with one before the bottom line is deleted (C99_partial). C99_screenless: resize_term in the destructor comes after delscreen and never has an effect. Likewise the viewer of one document: it leaves the terminal in its normal mode (C99_mode), except with SIGWINCH just after endwin(), when the handler enters curses mode again (C99_mode_after_endwin, C99_mode_refuted). The comparison touches no window after endwin() (C99_comparison_mode), also with a signal before endwin().
* **C100 Patterns of searches are deleted once and used only before.** Traces of new, use and delete (Model/PatternMem.v) against a transition relation on the objects there are (Spec/PatternMemSpec.v, which also says which texts are no pattern); induction on the searches (Proofs/PatternMemProofs.v). *Outcome (partial):* False of patterns without text: initSearch returns before the delete, so that the pattern and its regular expression are lost (C100_refuted). Proved for all other searches; C100_lost says exactly what is left after any sequence of searches, C100_unique that the calls determine it. The constructor of std::regex is taken not to throw.
* **C101 The usage text mentions the options that are accepted.** The text piece by piece (Model/Usage.v), its words (Spec/UsageSpec.v), and a case analysis of read() for an arbitrary argument (Proofs/UsageProofs.v). *Outcome (partial):* False of two options: the text says -version and --helph, the program accepts --version and --help only (C101_refuted, C101_refused, C101_mentioned_refuted). Proved for all other arguments in both directions.

## Where the code disagrees with the properties

Found by reading while modelling, and proved of the model where a theorem is named.

Reader:
* `{"a":}` dereferences a null pointer; numbers beyond 64 bits, malformed escapes and lone surrogates end the program by an uncaught library exception (C03, C12).
* Objects are loose: any token separates members, a scalar after a value ends the object, text after the root is ignored, also with `--strict` (C09).
* The control escapes `\b \f \n \r \t` stay as two characters (C01).
* A line that ends with a number, `true` or `false`, and CR LF, is counted twice; the column counter is uninitialised on line 1; the excerpt ends with byte 255 at end of file (C13-C15).
* The ring buffer loses or invents items after two pops and a put, and for a batch larger than the buffer (C16).
* An error with an empty excerpt, as for `{` newline `1` newline `}`, terminates the program while printing the report; the message of JsonUnexpectedException is pointer arithmetic on a literal (C58).

Output:
* String values of object entries are printed without quotes, doubles with six decimals, the indentation counter has 16 bits (C18-C20).

Comparison:
* Two empty containers: division by zero, so a document with an empty container cannot be compared with itself (C24, C25). Matrix cells of 8 bits wrap (C28). Texts that differ by less than 30%, and containers that differ, are marked `=` (C26). Similarity is wrong by rounding beyond 2^24 bytes (C23).

Command line:
* The usage text mentions -version and --helph, which are refused; --version and --help are not mentioned (C101).

Search:
* `/i` never matches a pattern with non-ASCII bytes (C29); `/w` misses words at an end of a text (C30); typeFlag is uninitialised (C31); some texts cannot be spelled (C32); an escape swallows the byte after it or the terminator (C33).
* The prompt: Enter or Escape with nothing typed reads a zero-length array; bytes of a non-ASCII character become characters; KEY_BACKSPACE is appended (C69).
* An entry whose key and value both match is listed twice (C34).
* A pattern without text is never deleted, nor is its regular expression (C100).

Single view:
* Down after a search that wrapped around selects the null pointer (C36); findNext never leaves the value of an entry (C41); search results and folds outlive their document (C43); SIGINT needs a further key and ends only the current document (C52); a key without name is a null pointer, `^` is taken for a prefix (C51); the width of an ASCII text writes past its buffer (C54); Down is stuck before more closing brackets than lines, Right passes over contents at the bottom (C65); strings are shown without quotes and cut at NUL (C68).
* Down cannot leave a row that is followed by more closing brackets than the window has lines (C65, C77).
* A name as long as the top line makes a blank of the line below (C74).
* A row whose indentation is as wide as the screen is printed behind the row before it, its brackets are not printed; a text cut off at the end of the screen loses its last character to what follows it (C76).
* A search that starts over at the top draws once only: the row it selects may be off the screen (C83), until the next key or signal (C98).
* Not modelled, seen in the code: an interrupt while an input is read is lost (loop resets breakLoop); wgetch answering -1 for ever is a busy loop.

Split view:
* Search results of all documents go to the active window (C56); a search unfolds one side only (C60); counterparts are not level (C61); marks of texts are not shifted by scrollTop (C62); the selection can be pushed off the window (C63); Down can be stuck, Down and Right pass over contents (C66); a text can be written below the end of its window, where it appears after the last one written (C71); a wrapped search loses the selection (C55).
* The frames take the last line of the terminal too: every redraw hides the bottom line, messages and prompt, up to its last columns; the constructor divides by an uninitialised number of inputs (C80).
* A terminal resized while the comparison ends makes the handler resize the deleted bottom line; resize_term in the destructor comes after delscreen; in the viewer of one document a signal just after endwin() leaves the terminal in curses mode (C99).
* Without colours, search results are drawn with a colour pair that was never set up and cannot be told from anything else (C95), and nothing tells which window is active (C97).
* Not modelled, seen in the code: a popped stack element is read (dangling at certain depths); window width 4 divides by zero.

Program:
* The brackets of arrays and objects are printed from a string that was destroyed (C96).
* A scalar that ends an object is never deleted (C84), nor is anything a failed reading has made (C94), nor is the stream of an input that cannot be read (C85). A terminal resized while an input is read for the viewer, or while the comparison is computed, makes the signal handler draw what is not there (C86).
* An exception nothing catches, thrown while an input is read for the viewer, leaves the terminal in curses mode (C78); the error for an unreadable input is written in that mode (C79).
* Option scanning: `getOutputFile` never advances; a file named ARGS and text after `--` clash (C44). Three inputs for a diff are accepted and die (C45). The argument counter of the external command wraps (C46). Temporary names depend on the last 13 bytes only (C47) and files are left behind by an uncaught exception (C48). A command killed by a signal is waited for without end (C49). Warnings without excerpt are not reported (C50). getNbLines is wrong by rounding beyond 2^51 bytes (C53).

## Mutation tests

`seeded/LOG.jsonl` has one line per attempt: a realistic wrong program (an edit of one definition of the model), the claim it breaks, the theorems that no longer prove, and the theorems that were tightened or added because of it. A mutant counts as caught when a theorem whose English claim is false of the mutant fails; lemmas in between were admitted in the scratch copy so that every theorem got its chance. Mutants that change nothing a property speaks about are logged with the note that no claim covers them.
