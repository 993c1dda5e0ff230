{
 "claims": [
  {
   "property": "C01",
   "status": "partial",
   "theorems": [
    "C01_partial",
    "C01_escapes_kept",
    "C01_refuted"
   ],
   "note": "RFC denotation of control escapes is not what the code computes (C01_refuted). Proved for every text of the grammar without such escapes, and for every text when they denote their spelling; any white space, any options."
  },
  {
   "property": "C02",
   "status": "proved",
   "theorems": [
    "C02_read_terminates"
   ],
   "note": "All byte sequences and option sets."
  },
  {
   "property": "C03",
   "status": "partial",
   "theorems": [
    "C03_partial",
    "C03_refuted",
    "C03_kinds"
   ],
   "note": "False as stated (null dereference on {\"a\":}, escaping std exceptions, out of bounds read). Proved for every byte sequence, well-formed or not, holding none of seven patterns; each pattern is shown to crash."
  },
  {
   "property": "C04",
   "status": "proved",
   "theorems": [
    "C04_keys_distinct"
   ],
   "note": "All inputs, options, objects at any depth."
  },
  {
   "property": "C05",
   "status": "proved",
   "theorems": [
    "C05_keys_sorted"
   ],
   "note": "All inputs, options but --keep-order."
  },
  {
   "property": "C06",
   "status": "proved",
   "theorems": [
    "C06_keep_order_outcome",
    "C06_input_order"
   ],
   "note": "All inputs for the outcome and the tree up to entry order (C05: sorted); text order for every text of the grammar."
  },
  {
   "property": "C07",
   "status": "proved",
   "theorems": [
    "C07_lax_conservative",
    "C07_lax_errors"
   ],
   "note": "All inputs; the second theorem also relates failures."
  },
  {
   "property": "C08",
   "status": "proved",
   "theorems": [
    "C08_strict_silent"
   ],
   "note": "All inputs."
  },
  {
   "property": "C09",
   "status": "partial",
   "theorems": [
    "C09_structure",
    "C09_partial",
    "C09_refuted"
   ],
   "note": "For every input, what is read has a precise structure (nesting, commas of arrays, members as string/colon/value); objects are loose: any token separates members, any scalar ends the object, text after the root is ignored (refuted, even with --strict). Without '{' the text has the structure of JSON."
  },
  {
   "property": "C10",
   "status": "proved",
   "theorems": [
    "C10_ascii_no_hex_error",
    "C10_ascii_same",
    "C10_ascii_verbatim"
   ],
   "note": "All inputs; verbatim value for every text of the grammar."
  },
  {
   "property": "C100",
   "status": "partial",
   "theorems": [
    "C100_partial",
    "C100_lost",
    "C100_unique",
    "C100_refuted"
   ],
   "note": "False of patterns without text: initSearch returns before the delete, so that the pattern and its regular expression are lost (C100_refuted). Proved for all other searches; C100_lost says exactly what is left after any sequence of searches, C100_unique that the calls determine it. The constructor of std::regex is taken not to throw."
  },
  {
   "property": "C101",
   "status": "partial",
   "theorems": [
    "C101_partial",
    "C101_refused",
    "C101_refuted",
    "C101_mentioned_partial",
    "C101_mentioned_refuted"
   ],
   "note": "False of two options: the text says -version and --helph, the program accepts --version and --help only (C101_refuted, C101_refused, C101_mentioned_refuted). Proved for all other arguments in both directions."
  },
  {
   "property": "C11",
   "status": "proved",
   "theorems": [
    "C11_unicode_escape",
    "C11_decodes_back",
    "C11_accepts"
   ],
   "note": "All four-character escapes."
  },
  {
   "property": "C12",
   "status": "partial",
   "theorems": [
    "C12_integer_read",
    "C12_integer_printed",
    "C12_overflow_refuted"
   ],
   "note": "All digit strings; literals beyond 64 bits end the program instead of being reported."
  },
  {
   "property": "C13",
   "status": "partial",
   "theorems": [
    "C13_partial",
    "C13_refuted",
    "C13_crlf_refuted"
   ],
   "note": "Proved for texts without carriage returns in which no line ends with a number, true or false (at end of file: the line, or the next one after a final line feed). False otherwise: such a line end is counted twice, so is CR LF."
  },
  {
   "property": "C14",
   "status": "partial",
   "theorems": [
    "C14_partial",
    "C14_refuted"
   ],
   "note": "Proved from line 2 on for the texts of C13 whose null and \\u words are not broken by a line feed, when the stream has not failed. False on line 1: the counter is uninitialised."
  },
  {
   "property": "C15",
   "status": "partial",
   "theorems": [
    "C15_partial",
    "C15_refuted",
    "C15_eof_refuted"
   ],
   "note": "Proved for the texts of C14: the last 45 bytes of the current line, or the last 44 directly after a pop_back. False after a number that ends its line, and at end of file (a byte 255 that was never read)."
  },
  {
   "property": "C16",
   "status": "partial",
   "theorems": [
    "C16_ring_window_refuted",
    "C16_ring_window_batch_refuted",
    "C16_ring_window_partial"
   ],
   "note": "False of the code in general (witnesses: two pops then a put; a batch larger than the buffer); proved for all histories where each pop follows a put and batches fit."
  },
  {
   "property": "C17",
   "status": "proved",
   "theorems": [
    "C17_ring_capacity"
   ],
   "note": "All histories, every SIZE > 0."
  },
  {
   "property": "C18",
   "status": "partial",
   "theorems": [
    "C18_partial",
    "C18_refuted",
    "C18_double_refuted"
   ],
   "note": "False of the code: string values of object entries are printed unquoted and doubles are cut to six decimals (both refuted with witnesses). Proved for every document whose strings are array elements (or the document) and spelled without quotes/control characters, and whose doubles six decimals determine, in both layouts and with every reader setting."
  },
  {
   "property": "C19",
   "status": "partial",
   "theorems": [
    "C19_layout",
    "C19_partial",
    "C19_refuted"
   ],
   "note": "The layout half is proved for every document of every depth (C19_layout). 'Same outcome when read back' is false (C19_refuted) and proved for printable documents (C19_partial)."
  },
  {
   "property": "C20",
   "status": "partial",
   "theorems": [
    "C20_partial",
    "C20_refuted",
    "C20_determined"
   ],
   "note": "Proved for every document nested less than 65536 deep: lines, order, bracket nesting, indentation. Refuted at depth 65536 (16-bit indent counter)."
  },
  {
   "property": "C21",
   "status": "proved",
   "theorems": [
    "C21_edit_distance"
   ],
   "note": "All pairs of texts; cells are unbounded integers (exact below 2^31 bytes)."
  },
  {
   "property": "C22",
   "status": "proved",
   "theorems": [
    "C22_zero",
    "C22_symmetric",
    "C22_triangle",
    "C22_bounds"
   ],
   "note": "All texts."
  },
  {
   "property": "C23",
   "status": "partial",
   "theorems": [
    "C23_partial",
    "C23_refuted"
   ],
   "note": "IEEE single precision. Proved for texts of at most 2^24 bytes; false by rounding beyond."
  },
  {
   "property": "C24",
   "status": "partial",
   "theorems": [
    "C24_partial",
    "C24_refuted"
   ],
   "note": "False of the code: a document with an empty array or object, compared with its copy, divides by zero (C24_refuted: all of them). Proved for every document without one: every element of both is marked '=' and paired with its copy."
  },
  {
   "property": "C25",
   "status": "partial",
   "theorems": [
    "C25_partial",
    "C25_refuted"
   ],
   "note": "False of the code: comparing two empty containers divides by zero. Proved exactly when: containers of fewer than 2^31 children, crash iff the comparison meets two empty containers."
  },
  {
   "property": "C26",
   "status": "partial",
   "theorems": [
    "C26_partial",
    "C26_roots_partial",
    "C26_refuted"
   ],
   "note": "False of the code: scalars differing in less than 30% and differing containers are marked '='. Proved: a scalar marked '=' has a partner of the same type with the same text or less than 30% changed (texts up to 2^24 bytes); the mark of two containers as a function of their distance."
  },
  {
   "property": "C27",
   "status": "proved",
   "theorems": [
    "C27_pairing",
    "C27_rows"
   ],
   "note": "All pairs of documents that fit in memory; the value of an entry pairs only with the value of an entry."
  },
  {
   "property": "C28",
   "status": "partial",
   "theorems": [
    "C28_upper",
    "C28_partial",
    "C28_refuted"
   ],
   "note": "Upper bound proved. Lower bound false when a cost wraps around in the 8 bit cells (C28_refuted); proved when the sizes and twice those of the containers below fit the cells."
  },
  {
   "property": "C29",
   "status": "partial",
   "theorems": [
    "C29_partial",
    "C29_refuted"
   ],
   "note": "All patterns and texts. With /i a pattern holding non-ASCII bytes matches nothing (tolower of a negative char, glibc); an empty text matches nothing, not even the empty pattern."
  },
  {
   "property": "C30",
   "status": "partial",
   "theorems": [
    "C30_partial",
    "C30_sound_partial",
    "C30_refuted"
   ],
   "note": "A word at one end of a longer text is not found. Proved: found iff it is the whole text or stands between blanks."
  },
  {
   "property": "C31",
   "status": "partial",
   "theorems": [
    "C31_typed",
    "C31_restricts",
    "C31_untyped_partial",
    "C31_refuted"
   ],
   "note": "First half proved. typeFlag is never initialised: without type flag the answer depends on it (refuted for contents 1..4, proved otherwise)."
  },
  {
   "property": "C32",
   "status": "partial",
   "theorems": [
    "C32_syntax",
    "C32_regex",
    "C32_all_inputs",
    "C32_spelling_partial",
    "C32_refuted"
   ],
   "note": "Syntax proved for all inputs. Texts with a leading blank and a lone backslash cannot be spelled."
  },
  {
   "property": "C33",
   "status": "partial",
   "theorems": [
    "C33_partial",
    "C33_unchanged_partial",
    "C33_refuted"
   ],
   "note": "The byte after an escape is swallowed, at the end the terminator. Exact behaviour characterised."
  },
  {
   "property": "C34",
   "status": "proved",
   "theorems": [
    "C34_search_results"
   ],
   "note": "All documents, patterns and views. An entry whose key and value both match is listed twice."
  },
  {
   "property": "C35",
   "status": "proved",
   "theorems": [
    "C35_next_result",
    "C35_visits_all"
   ],
   "note": "All documents, windows of at least 3 columns (and texts below 2^30, nesting below 2^27), all result lists made of searchable rows."
  },
  {
   "property": "C36",
   "status": "partial",
   "theorems": [
    "C36_partial",
    "C36_refuted"
   ],
   "note": "False of the code: Down after a search that wrapped around to a result outside the window selects the null pointer (C36_refuted). Proved for every sequence without search keys, and for every sequence in which the viewer never waits without a row below; windows of at least 3 columns."
  },
  {
   "property": "C37",
   "status": "proved",
   "theorems": [
    "C37_redraw_terminates"
   ],
   "note": "All documents (nesting below 2^27, texts below 2^30), windows of at least 3 columns, states. scrollTop as an unbounded integer."
  },
  {
   "property": "C38",
   "status": "proved",
   "theorems": [
    "C38_adjacent_rows"
   ],
   "note": "All documents and states."
  },
  {
   "property": "C39",
   "status": "proved",
   "theorems": [
    "C39_selection_shown"
   ],
   "note": "All documents, states, heights from 2."
  },
  {
   "property": "C40",
   "status": "proved",
   "theorems": [
    "C40_collapse_expand"
   ],
   "note": "All documents and states."
  },
  {
   "property": "C41",
   "status": "partial",
   "theorems": [
    "C41_partial",
    "C41_find_prev",
    "C41_refuted"
   ],
   "note": "findPrev proved. findNext never leaves the value of an object entry (C41_refuted); its answer is characterised for every row (C41_partial)."
  },
  {
   "property": "C42",
   "status": "proved",
   "theorems": [
    "C42_parents_consistent"
   ],
   "note": "All inputs; getLevel walks a heap of metas."
  },
  {
   "property": "C43",
   "status": "partial",
   "theorems": [
    "C43_partial",
    "C43_refuted"
   ],
   "note": "False of the code: search results and collapsed addresses survive the deletion of the document (C43_refuted, two witnesses). Proved when no results are left and no collapsed address is reused, for every event sequence."
  },
  {
   "property": "C44",
   "status": "partial",
   "theorems": [
    "C44_kinds",
    "C44_accepts",
    "C44_stops",
    "C44_rejects",
    "C44_colour",
    "C44_unterminated",
    "C44_refuted"
   ],
   "note": "Every argument vector is classified (C44_kinds) and its outcome determined. The inputs clause is false when a file is named ARGS and text follows -- (C44_refuted)."
  },
  {
   "property": "C45",
   "status": "partial",
   "theorems": [
    "C45_refused",
    "C45_partial",
    "C45_refuted"
   ],
   "note": "Refusal outside 2..3 inputs and the comparison of two readable inputs proved; three inputs are accepted then die on an uncaught exception (C45_refuted)."
  },
  {
   "property": "C46",
   "status": "partial",
   "theorems": [
    "C46_partial",
    "C46_total",
    "C46_refuted"
   ],
   "note": "Proved for expansions below 2^32 arguments; beyond, the unsigned counter wraps and the array is overrun (C46_refuted)."
  },
  {
   "property": "C47",
   "status": "partial",
   "theorems": [
    "C47_partial",
    "C47_suffix",
    "C47_refuted"
   ],
   "note": "Only the last 13 bytes count (C47_suffix), so it is false (C47_refuted); proved for names of at most 12 bytes within one block of 32 codes."
  },
  {
   "property": "C48",
   "status": "partial",
   "theorems": [
    "C48_partial",
    "C48_refuted"
   ],
   "note": "Proved for every run that returns; an uncaught library exception while reading a later input leaves earlier files (C48_refuted)."
  },
  {
   "property": "C49",
   "status": "partial",
   "theorems": [
    "C49_partial",
    "C49_refuted"
   ],
   "note": "Proved when the command exits; a command killed by a signal makes the wait loop endless (C49_refuted)."
  },
  {
   "property": "C50",
   "status": "partial",
   "theorems": [
    "C50_prints",
    "C50_warnings_partial",
    "C50_refuted"
   ],
   "note": "The printed documents are proved for every list of inputs and every ending. Warnings are reported when they have a message and an excerpt; otherwise not (C50_refuted)."
  },
  {
   "property": "C51",
   "status": "partial",
   "theorems": [
    "C51_partial",
    "C51_waits",
    "C51_refuted",
    "C51_null_refuted"
   ],
   "note": "Proved for every naming of keys, 'control prefix' meaning a name starting with '^'. The key '^' itself is taken for a prefix (C51_refuted); a key without name is a null pointer (C51_null_refuted)."
  },
  {
   "property": "C52",
   "status": "partial",
   "theorems": [
    "C52_partial",
    "C52_refuted"
   ],
   "note": "At most one more key proved for every interleaving; leaving the loop without a further key refuted, and a signal only ends the current document."
  },
  {
   "property": "C53",
   "status": "partial",
   "theorems": [
    "C53_partial",
    "C53_refuted"
   ],
   "note": "IEEE double precision. Proved below 2^51 bytes when the count fits unsigned int; false beyond."
  },
  {
   "property": "C54",
   "status": "partial",
   "theorems": [
    "C54_partial",
    "C54_null_byte",
    "C54_refuted",
    "C54_invalid_refuted",
    "C54_strlen_refuted"
   ],
   "note": "Proved for texts with a multibyte character or a null byte. False for every text of one-byte characters (terminator written out of bounds), for texts invalid in the locale, and for strlen()."
  },
  {
   "property": "C55",
   "status": "partial",
   "theorems": [
    "C55_index",
    "C55_refuted",
    "C55_partial"
   ],
   "note": "The index never leaves the two windows and subWindows.at never throws, for all sequences of events. The selection can be lost: Down after a search that wrapped around dereferences null. Without the search keys nothing undefined happens and the active window always has a selection, a row on display."
  },
  {
   "property": "C56",
   "status": "partial",
   "theorems": [
    "C56_refuted",
    "C56_partial"
   ],
   "note": "False: results of both documents are given to the active window. Without the search keys every selection belongs to its window's document."
  },
  {
   "property": "C57",
   "status": "proved",
   "theorems": [
    "C57_order",
    "C57_contains",
    "C57_value"
   ],
   "note": ""
  },
  {
   "property": "C58",
   "status": "partial",
   "theorems": [
    "C58_partial",
    "C58_refuted",
    "C58_message_refuted"
   ],
   "note": "Proved for every exception with an excerpt and a defined message; false otherwise: an empty excerpt terminates the program, the message of JsonUnexpectedException is undefined."
  },
  {
   "property": "C59",
   "status": "proved",
   "theorems": [
    "C59_mirrored"
   ],
   "note": "All pairs of documents that fit in memory, all event sequences including searches and window changes."
  },
  {
   "property": "C60",
   "status": "partial",
   "theorems": [
    "C60_refuted",
    "C60_partial"
   ],
   "note": "False: a search unfolds only the document of its result. Holds for all sequences without the search keys."
  },
  {
   "property": "C61",
   "status": "partial",
   "theorems": [
    "C61_refuted",
    "C61_partial",
    "C61_copies_partial"
   ],
   "note": "False already at the start for documents of different shapes. Proved: documents of the same shape, each element paired with the one at its place (copies without empty containers in particular), on windows where no row takes a second line, without searches: after every sequence of events both windows are scrolled alike and counterparts are on the same lines."
  },
  {
   "property": "C62",
   "status": "partial",
   "theorems": [
    "C62_refuted",
    "C62_partial",
    "C62_sound_partial",
    "C62_cause"
   ],
   "note": "False once a window is scrolled: the marks of texts are not shifted. Holds for windows that are not scrolled, of which no other line is marked but by '-'. In all windows every mark is that of an element drawn or stands for elements without counterpart."
  },
  {
   "property": "C63",
   "status": "partial",
   "theorems": [
    "C63_refuted",
    "C63_partial"
   ],
   "note": "False: what only the other document has pushes the selection out at the bottom. It is always drawn and never above the window."
  },
  {
   "property": "C64",
   "status": "proved",
   "theorems": [
    "C64_redraw_ends"
   ],
   "note": "Explicit bound on the number of redraws."
  },
  {
   "property": "C65",
   "status": "partial",
   "theorems": [
    "C65_rest",
    "C65_on_screen",
    "C65_up",
    "C65_down_partial",
    "C65_page_up",
    "C65_page_down",
    "C65_left",
    "C65_right_partial",
    "C65_others",
    "C65_down_refuted",
    "C65_right_refuted"
   ],
   "note": "False of the program: Down never gets past more closing brackets than the window has lines; Right on an entry on the last line of the window goes past its contents. Everything else is proved; Down and Right as far as a row below is drawn."
  },
  {
   "property": "C66",
   "status": "partial",
   "theorems": [
    "C66_rest",
    "C66_in_order",
    "C66_up",
    "C66_down_partial",
    "C66_page_up",
    "C66_page_down",
    "C66_left",
    "C66_right_partial",
    "C66_switch",
    "C66_others",
    "C66_down_refuted",
    "C66_skip_refuted"
   ],
   "note": "False of the program: Down can stay forever at the bottom of the window although rows follow, and Down and Right on an entry that is the last row drawn pass over its contents. Everything else is proved; Down and Right as far as a row below is drawn."
  },
  {
   "property": "C67",
   "status": "proved",
   "theorems": [
    "C67_screen",
    "C67_waiting",
    "C67_rows"
   ],
   "note": "The page, the lines strips take and the colours are specified separately from the drawing (Spec/PageSpec.v)."
  },
  {
   "property": "C68",
   "status": "partial",
   "theorems": [
    "C68_partial",
    "C68_seen_partial",
    "C68_refuted"
   ],
   "note": "False of the program: strings are shown without quotes, so that without colours [1] and [\"1\"] look alike. Proved with colours, for documents shown whole: same structure, names and scalars, up to NUL bytes and to the type of numbers. C68_seen_partial: also by the colours of the terminal, where some pairs look alike."
  },
  {
   "property": "C69",
   "status": "partial",
   "theorems": [
    "C69_text_partial",
    "C69_escape_partial",
    "C69_keys",
    "C69_unset",
    "C69_backspace",
    "C69_backspace_empty",
    "C69_search_partial",
    "C69_refuted"
   ],
   "note": "False of the program: Enter or Escape with nothing typed reads uninitialised memory, the bytes of a non-ASCII character are taken for characters (C69_keys: what is searched for then; C69_unset: when memory nobody wrote is read), an escape at the end of the text reads past it, and KEY_BACKSPACE is appended. Proved for printable ASCII texts, up to the rows found in the document; backspace (8, 127) for all keys."
  },
  {
   "property": "C70",
   "status": "proved",
   "theorems": [
    "C70_windows",
    "C70_waiting",
    "C70_results"
   ],
   "note": "Texts, columns, lines, colours and the selection of both windows, for all pairs of documents, folds and sizes (5 columns and 2 lines at least per window). Where gaps are is C61. Searches that unfold one side only (C60) are excluded."
  },
  {
   "property": "C71",
   "status": "partial",
   "theorems": [
    "C71_partial",
    "C71_refuted"
   ],
   "note": "False of the program: what has no counterpart, or takes more lines than what is beside it, moves the other window on, which then writes one thing below its end (there the text appears after the last one written: \"short7\"). Proved for documents of the same shape, as C61."
  },
  {
   "property": "C72",
   "status": "proved",
   "theorems": [
    "C72_beside",
    "C72_waiting"
   ],
   "note": "How the two windows share lines, whatever the documents. Which rows are beside each other when both have counterparts is decided by their order, not by whose counterpart they are (C61 is false for that reason)."
  },
  {
   "property": "C73",
   "status": "partial",
   "theorems": [
    "C73_partial",
    "C73_refuted"
   ],
   "note": "False when a container is paired with a scalar (two elements of arrays): the end of the container is drawn beside what follows the scalar. Proved for all documents of which counterparts are of the same kind (scalar, container, entry), whatever their sizes, line breaks, folds and unpaired rows; C61 also asks for the same scroll position."
  },
  {
   "property": "C74",
   "status": "partial",
   "theorems": [
    "C74_bottom",
    "C74_split_bottom",
    "C74_split_top",
    "C74_top_partial",
    "C74_top_long",
    "C74_refuted"
   ],
   "note": "False of the top line of the view of one document when the name is as long as the line: a blank is printed on the line below (which is coloured as the top line). Proved otherwise, texts longer than the line included, where the width given to printf is negative."
  },
  {
   "property": "C75",
   "status": "proved",
   "theorems": [
    "C75_same",
    "C75_true",
    "C75_next",
    "C75_search",
    "C75_other",
    "C75_split_same",
    "C75_split_true",
    "C75_split_next",
    "C75_split_search",
    "C75_split_other"
   ],
   "note": "Proved of the view of one document and of the comparison, where the results of both documents count and the bottom line is hidden by every redraw (C80_hidden)."
  },
  {
   "property": "C76",
   "status": "partial",
   "theorems": [
    "C76_partial",
    "C76_waiting_partial",
    "C76_refuted",
    "C76_last_refuted"
   ],
   "note": "False of texts whose indentation is as wide as the screen (move fails: they are printed behind the text before, brackets not at all) and of the last cell of the screen (what follows a text that is cut off is printed over its last character). Proved when every row begins on the screen, without the last cell if a text goes beyond it."
  },
  {
   "property": "C77",
   "status": "partial",
   "theorems": [
    "C77_partial",
    "C77_up",
    "C77_apart",
    "C77_near",
    "C77_far",
    "C77_refuted"
   ],
   "note": "False when there are more lines between the beginnings of two consecutive rows (closing brackets, a long text) than fit below the top line: Down then stays on the upper one for ever. Proved: that is the only obstacle; Down leads to the row below if and only if it is near enough (C77_near, C77_far)."
  },
  {
   "property": "C78",
   "status": "partial",
   "theorems": [
    "C78_same",
    "C78_partial",
    "C78_once",
    "C78_shown",
    "C78_left_open",
    "C78_refuted"
   ],
   "note": "False when reading an input ends the program (an exception nothing catches, e.g. of a number out of range) after run() has opened the terminal: curses mode stays on. Proved: whenever main returns, the terminal is closed; when it is left open, reading or the viewer itself ended the program (C78_left_open). How the interactive part ends is a parameter."
  },
  {
   "property": "C79",
   "status": "partial",
   "theorems": [
    "C79_partial",
    "C79_refuted"
   ],
   "note": "False of the view of one document: run() opens the terminal before it reads the input, so that the error for an unreadable input is written in curses mode. Proved: nothing else is (warnings, the comparison, external commands)."
  },
  {
   "property": "C80",
   "status": "partial",
   "theorems": [
    "C80_inside",
    "C80_count",
    "C80_framed",
    "C80_apart",
    "C80_touch",
    "C80_bottom_partial",
    "C80_resized",
    "C80_hidden",
    "C80_bottom_refuted",
    "C80_refuted"
   ],
   "note": "False of the bottom line: the frames take the last line of the terminal too, so that every redraw hides it up to its last one or two columns (C80_hidden). False before run(): the constructor divides by an input count that nothing has set. Proved otherwise."
  },
  {
   "property": "C81",
   "status": "proved",
   "theorems": [
    "C81_opened"
   ],
   "note": "Escapes of control characters (and, with --ascii, of others) are shown as the text spells them (C01, C10). The lines are told for lines no longer than the screen is wide; for longer ones, which lines of the document are shown and where they begin."
  },
  {
   "property": "C82",
   "status": "partial",
   "theorems": [
    "C82_partial",
    "C82_refuted"
   ],
   "note": "False of documents that hold an empty array or object: the comparison divides by zero (C24). Proved of all others, searches included."
  },
  {
   "property": "C83",
   "status": "partial",
   "theorems": [
    "C83_partial",
    "C83_refuted"
   ],
   "note": "Refuted for the case in which the search starts over at the top: the screen is drawn once only then (nextResult returns NextInput), and the row selected may be off the screen. Everything else of the claim is proved, in that case too."
  },
  {
   "property": "C84",
   "status": "partial",
   "theorems": [
    "C84_account",
    "C84_once",
    "C84_destructor",
    "C84_partial",
    "C84_refuted"
   ],
   "note": "For all inputs: an element made is in the document, deleted, or lost, in one of these only and once; nothing is deleted twice. Nothing is lost for the texts of JSON's grammar. Refuted beyond it: a scalar where an object's comma or brace is expected ends the object and is never deleted."
  },
  {
   "property": "C85",
   "status": "partial",
   "theorems": [
    "C85_same",
    "C85_once",
    "C85_displayed",
    "C85_partial",
    "C85_refuted"
   ],
   "note": "Order of creation, use and deletion is proved for all runs, and that exactly the streams of the inputs read are deleted when main returns. Refuted for the rest: the stream of an input that cannot be read (readFile returns no stream) is never deleted."
  },
  {
   "property": "C86",
   "status": "partial",
   "theorems": [
    "C86_closed",
    "C86_partial",
    "C86_refuted",
    "C86_compare_refuted"
   ],
   "note": "Proved for every moment of every run: the signal is ignored exactly while the terminal is closed, and while it is open the redraw is safe exactly when a document is in view. Refuted otherwise: the viewer redraws an unset or deleted document when resized while an input is read; the comparison redraws without its table while it is computed."
  },
  {
   "property": "C87",
   "status": "proved",
   "theorems": [
    "C87_safe",
    "C87_text",
    "C87_freed"
   ],
   "note": "Model/DiffMem.v computes loop by loop over a heap of blocks (Model/Heap.v); faults are outcomes, excluded for all documents. The crash of C25 (division by zero) is the only other end. Moving a list iterator before begin() is no fault of the model; identities of elements stand for their addresses."
  },
  {
   "property": "C88",
   "status": "proved",
   "theorems": [
    "C88_quadratic"
   ],
   "note": "Counts the blocks of Model/DiffMem.v that are made and their elements, deleted or not; the nodes of std::map and the bytes of std::string are not counted."
  },
  {
   "property": "C89",
   "status": "partial",
   "theorems": [
    "C89_safe",
    "C89_partial",
    "C89_refuted",
    "C89_argv"
   ],
   "note": "Refuted in one respect: with a file named ARGS among the inputs, a later \"--\" overwrites its entry of the map (params.cpp:46-50) and the ifstream leaks. Everything else holds: no fault, no double deletion, at most that one stream left (C89_safe), and nothing left if no argument is \"ARGS\" (C89_partial). The bound 2^32 on the expanded arguments is that of C46."
  },
  {
   "property": "C90",
   "status": "partial",
   "theorems": [
    "C90_partial",
    "C90_refuted",
    "C90_split_partial",
    "C90_split",
    "C90_split_refuted"
   ],
   "note": "Refuted when the document ends inside of an entry whose key leaves no room for the first row inside (C90_refuted: no key other than those of a search leads there; C90_split_refuted for the comparison). All rows are reached otherwise: in the view of one document if the first row inside of such a last entry is at most height - 2 lines below it (C90_partial), in the comparison unless the keys lead to such an entry with nothing inside of it drawn and Down without effect (C90_split_partial), in particular if the rows do not end inside of an entry (C90_split)."
  },
  {
   "property": "C91",
   "status": "partial",
   "theorems": [
    "C91_partial",
    "C91_same_shape",
    "C91_refuted"
   ],
   "note": "Refuted: a row that begins below the end of the window is printed behind the last text instead (C91_refuted, the documents of C71_refuted). Proved when all that is printed begins inside the window (C91_partial), which is so for documents of the same shape that need no second lines (C91_same_shape, by C71). Where a mark meets a text that was wrapped, and in the last cell when a text goes beyond it, what is shown is left open."
  },
  {
   "property": "C92",
   "status": "partial",
   "theorems": [
    "C92_opened",
    "C92_top_partial",
    "C92_refuted"
   ],
   "note": "Refuted in its last sentence: when the roots are not counterparts (two arrays without anything in common), the second document is drawn below the last line of the first and can be out of the screen altogether (C92_refuted). Proved when the roots are counterparts (C92_top_partial); everything else for all pairs (C92_opened). Elements are numbered afresh between reading and comparing, so that those of the two documents differ."
  },
  {
   "property": "C93",
   "status": "proved",
   "theorems": [
    "C93_linear",
    "C93_document",
    "C93_reading"
   ],
   "note": "For every outcome of reading. C93_reading: the account is of the same reading as that of C01-C15 and C84. Memory of std::string and of exceptions is not counted."
  },
  {
   "property": "C94",
   "status": "partial",
   "theorems": [
    "C94_partial",
    "C94_once",
    "C94_refuted"
   ],
   "note": "False of the program: readObject and readArray hold what they make in plain pointers and delete nothing when an exception passes (C94_refuted: the number and the array of \"[1,\"). Proved: a failed reading has deleted everything exactly when it had made nothing (C94_partial), and nothing is deleted twice (C94_once); what is left is bounded by C93."
  },
  {
   "property": "C95",
   "status": "partial",
   "theorems": [
    "C95_partial",
    "C95_windows_partial",
    "C95_legible",
    "C95_legible_lines",
    "C95_marks",
    "C95_never",
    "C95_refuted"
   ],
   "note": "False of the program without colours (--color=never): the pair of search results is used but never set up, so that results look like everything else (C95_refuted; C95_never: always). Proved with colours. C95_legible and C95_legible_lines: with and without, in the view of one document, for titles, messages and marks. C95_marks: marks of different kinds look different."
  },
  {
   "property": "C96",
   "status": "partial",
   "theorems": [
    "C96_partial",
    "C96_sound_partial",
    "C96_output_partial",
    "C96_refuted"
   ],
   "note": "False of the program: writeContainer keeps stringify().c_str() of a temporary (simpleOutput.cpp:46) and reads it after the temporary is gone. Proved: this happens twice for every array and object and never otherwise, every string is destroyed once, scalars are printed without it, and the output is that of C18-C20 if the bytes are still there."
  },
  {
   "property": "C97",
   "status": "partial",
   "theorems": [
    "C97_partial",
    "C97_never",
    "C97_refuted"
   ],
   "note": "False of the program without colours (--color=never): nothing on the terminal changes when the other window becomes active (C97_refuted; C97_never: as long as nothing was found). Proved with colours, for every run."
  },
  {
   "property": "C98",
   "status": "partial",
   "theorems": [
    "C98_partial",
    "C98_again",
    "C98_same_size_partial",
    "C98_continued_partial",
    "C98_windows",
    "C98_windows_same_size_partial",
    "C98_refuted"
   ],
   "note": "False of the program after a search that started over at the top: the screen is drawn once only, and the next signal moves the window (C98_refuted). Proved for every run without search keys, and for every run that ends with a row known below the selection. C98_again: any drawing that succeeds, done again. C98_windows, C98_windows_same_size_partial: the same for the two windows of a comparison, for every run without search keys and signals to stop."
  },
  {
   "property": "C99",
   "status": "partial",
   "theorems": [
    "C99_given_back",
    "C99_viewer",
    "C99_orderly",
    "C99_partial",
    "C99_late",
    "C99_refuted",
    "C99_screenless",
    "C99_mode",
    "C99_mode_partial",
    "C99_mode_after_endwin",
    "C99_mode_refuted",
    "C99_comparison_mode",
    "C99_comparison_mode_partial"
   ],
   "note": "False when SIGWINCH comes while the comparison ends: shutdown() deletes the bottom line but keeps the pointer, and until the base class's destructor the handler resizes it (C99_late, C99_refuted). Proved for every run without such a signal, and with one before the bottom line is deleted (C99_partial). C99_screenless: resize_term in the destructor comes after delscreen and never has an effect. Likewise the viewer of one document: it leaves the terminal in its normal mode (C99_mode), except with SIGWINCH just after endwin(), when the handler enters curses mode again (C99_mode_after_endwin, C99_mode_refuted). The comparison touches no window after endwin() (C99_comparison_mode), also with a signal before endwin()."
  }
 ]
}