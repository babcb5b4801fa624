{
 "C05": {
  "status": "proved",
  "note": "Equal final limits are a precondition (as in all callers); without it the loop reads out of range (C05_unequal_ends_refuted)."
 },
 "C06": {
  "status": "partial",
  "note": "The iterators follow lookups below the final limit; advancing to the final limit is undefined for every table (C06_advance_to_end_refuted)."
 },
 "C10": {
  "status": "partial",
  "note": "argb and rgba hold for all 2^32 words; abgr holds for zero alpha and is refuted otherwise (C10_abgr_round_trip_refuted, C10_abgr_red_refuted)."
 },
 "C11": {
  "status": "proved",
  "note": "For texts without the two attribute shapes of C15 that overrun a buffer."
 },
 "C15": {
  "status": "partial",
  "note": "Refuted as stated: a weight attribute longer than 16 bytes and a three-digit rgb() channel overrun a buffer (C15_*_refuted). Every other text is safe."
 },
 "C17": {
  "status": "proved",
  "note": "For every start position below the text length; constructing the iterator at the text length itself is undefined (C17_start_at_end_refuted)."
 },
 "C18": {
  "status": "partial",
  "note": "The exact event sequence is proved (C18_events_exact) and balance holds when no line style starts at a colour change; refuted in general (C18_end_without_begin_refuted)."
 },
 "C20": {
  "status": "partial",
  "note": "Proved for every well-formed UTF-8 text; refuted for ill-formed text (C20_ill_formed_refuted)."
 },
 "C52": {
  "status": "proved",
  "note": "The depth bound is sharp (C52_too_deep_refuted)."
 },
 "C31": {
  "status": "proved",
  "note": "Exact rationals instead of floats. Findings: past the last line the line count is returned, the vertical start is not taken into account by the line search, clear keeps it (C31_*_refuted)."
 },
 "C32": {
  "status": "partial",
  "note": "Proved for every position strictly inside a run in any document, and for every position and affinity when runs are stored in text order without a direction change at a line start; refuted otherwise (C32_*_refuted)."
 },
 "C34": {
  "status": "proved",
  "note": "The intersection test is for non-empty ranges; an empty range inside a run counts as intersecting (C34_empty_range_refuted)."
 },
 "C35": {
  "status": "partial",
  "note": "Terminates for every forward iterator; legal when glyphs begin at caret stops; nearest and round trip when each group of characters has one glyph; shown on the clicked line for left-to-right text. Each hypothesis is needed (C35_*_refuted)."
 },
 "C36": {
  "status": "partial",
  "note": "Holds for left-to-right extreme runs; for right-to-left ones start and end are swapped (C36_rtl_refuted)."
 },
 "C51": {
  "status": "partial",
  "note": "draw_text without formatting is proved; with formatting it is proved for documents in which the iterator of each run is made inside the text. A right-to-left run at the end of the text and an empty last line read past the colour table (C51_rtl_at_end_refuted, C51_final_newline_refuted)."
 },
 "C53": {
  "status": "partial",
  "note": "Proved for runs in which no line begins where the colour changes; refuted otherwise (C53_spurious_underline_refuted)."
 },
 "C22": {
  "status": "proved",
  "note": "For each line in isolation and for every line of every layout built under can_build (C22_every_line)."
 },
 "C23": {
  "status": "partial",
  "note": "Positions are running sums on both axes and the width of a horizontal line is the total; get_line_width of a vertical line reads the coordinate across it (C23_vertical_width_refuted). Exact rationals instead of floats."
 },
 "C24": {
  "status": "proved",
  "note": "For every width, limit and bounded answer of the break iterator, on paragraphs whose tabs have a defined width (else undefined, see C54)."
 },
 "C25": {
  "status": "partial",
  "note": "Lines fit up to hanging white space and break at opportunities; literally refuted by white space at line ends and by glyphs without width (C25_*_refuted)."
 },
 "C26": {
  "status": "partial",
  "note": "Proved in logical order without wrapping, and with wrapping for pixel widths before hanging white space; refuted with wrapping in units of spaces, for hanging tabs and beside right-to-left text (C26_*_refuted)."
 },
 "C27": {
  "status": "proved",
  "note": "Under can_build: contracts of the engines, tables and readable memory after the text."
 },
 "C28": {
  "status": "partial",
  "note": "Holds in the first paragraph and in paragraphs of one script; refuted for later paragraphs (C28_later_paragraph_refuted)."
 },
 "C29": {
  "status": "partial",
  "note": "Merged segments agree on face and size; styles, script and level may differ and the stored run then has the styles of its first segment (C29_styles_refuted)."
 },
 "C54": {
  "status": "partial",
  "note": "Defined when there is readable memory after the tables or a final separator, a single byte (no lead byte) after the text, and tabs of defined width; each is needed (C54_*_refuted)."
 },
 "C55": {
  "status": "proved",
  "note": "Under can_build; scripts are C28."
 },
 "C37": {
  "status": "partial",
  "note": "All of it when a byte after the text is readable; otherwise the end cannot be reached by words (C37_end_of_text_refuted)."
 },
 "C56": {
  "status": "partial",
  "note": "Line and stop for every point measured from the first line; the start of the text is ignored (C56_vertical_start_refuted)."
 },
 "C57": {
  "status": "partial",
  "note": "Ownership in every defined history; move construction is always undefined and assignment leaves the text behind (C57_*_refuted)."
 },
 "C38": {
  "status": "partial",
  "note": "Stability, ALREADY_LOADED and distinctness for every history below 65535 names; reserved families have a valid handle against the documentation, and more names wrap (C38_*_refuted)."
 },
 "C39": {
  "status": "proved",
  "note": "For every history: the answering description, and the face behind it as first described; an empty face array reports success (C39_empty_faces_refuted)."
 },
 "C40": {
  "status": "partial",
  "note": "Definedness, progress, choice, coverage and tiling for every history of documented registrations, coverage relation and text; false when the base face does not load, or a fallback family has no faces (C40_*_refuted)."
 },
 "C41": {
  "status": "partial",
  "note": "FreeType size and advances for every history; the first request has a stale HarfBuzz scale, an effective size of zero is ignored, the space advance is never refreshed (C41_*_refuted)."
 },
 "C58": {
  "status": "partial",
  "note": "Holds for missing faces; a script code out of range leaves earlier codes behind (C58_threw_refuted)."
 },
 "C60": {
  "status": "partial",
  "note": "The case run is right; the segment returned may go beyond it (C60_mixed_refuted)."
 },
 "C45": {
  "status": "partial",
  "note": "Proved for every history that attaches unparented objects and moves or removes only children, never below themselves: each object is once in its parent's list in both directions and nowhere else, in order, and the calls end. For other histories the statement is false: removing the last child and adding another loses the first (lost), a moved object takes its later siblings along (duplicate), a removed one is still met backwards (backwards), and moving below an own child never ends (cycle)."
 },
 "C61": {
  "status": "partial",
  "note": "Proved for the same histories as C45, for any addition of positions. A child lost as in C45_lost_refuted does not move with its parent."
 },
 "C62": {
  "status": "proved",
  "note": "Over rationals for the stored metrics. Ascents below zero and descents above zero count as zero, as in the code."
 },
 "C50": {
  "status": "proved",
  "note": "Exact binary32 semantics (SpecFloat). Also: below 2^20 the size is exactly the rounded-down percentage; monotone over all 32-bit sizes; with a modifier defined and at most nominal for all 32-bit sizes. Outside the stated range: 2^24+3 grows and 2^32-1 is undefined."
 },
 "C48": {
  "status": "partial",
  "note": "Proved without restriction for the stdio version, for Linux if only open fails and for Windows if CreateFileMappingW does not fail. The rest is false: on Linux a descriptor leaks when fstat or mmap fails (an empty file is enough); on Windows a failed CreateFileMappingW is not noticed and a null handle is closed, and sizes of 4 GB and more are wrong; the stdio version ignores a failed read."
 },
 "C42": {
  "status": "proved",
  "note": "Full for all request histories and all upload histories of both atlases (padding 1 and 2) with pictures up to the page size; a wider picture leaves the page (refuted). The OpenGL texture is modelled as a map of pixels; uninitialised texels are None."
 },
 "C43": {
  "status": "partial",
  "note": "Proved for all histories in which each face is declared with one source weight and style and its strokes use one weight and style. Refuted otherwise: stroke keys omit weight and style; glyph keys omit the source weight and style. Also refuted: second request of a blank glyph (member of a null page) and coloured glyphs with transparent pixels (0/0 converted to an integer). The MSDF atlas's cache is C80."
 },
 "C47": {
  "status": "partial",
  "note": "blit_alpha proved for every position; fill_rect and blit proved for corners inside or below the bitmap; for negative corners they shift instead of clipping and right of the bitmap they write outside (refuted)."
 },
 "C46": {
  "status": "partial",
  "note": "Exact arithmetic in place of float. Pieces tile, texture columns and colours proved for every rectangle and range (C46_tiles). The white part is not exactly the range when less than a pixel sticks out (C46_sliver_refuted). The range equals the highlight box only for lines at offset 0 (C46_box_partial); it is wrong for every other line (C46_box_refuted)."
 },
 "C63": {
  "status": "proved",
  "note": "Hypothesis: a texture created while drawing is a new object and is the one returned for that request (C42)."
 },
 "C64": {
  "status": "proved",
  "note": "Objects are identified by numbers; which object takes a press is an input. The notification handlers do not call back into the container, as in the code."
 },
 "C65": {
  "status": "proved",
  "note": "Times are exact rationals given by the clock; cursor positions are valid ones."
 },
 "C66": {
  "status": "partial",
  "note": "Holds while the mouse is never exactly on the line shared by two menus and the bar is as wide as its menus; on that line two menus can be open (C66_edge_refuted)."
 },
 "C44": {
  "status": "partial",
  "note": "C44_history_partial covers a plain text box and every history whose events meet the stated conditions: moves and clicks need text, edits must not find an empty selection, pasting needs a clipboard with text, text set by the program must hold the cursor. Each of these conditions is needed (the _refuted theorems). C44_rich_partial covers editable boxes of rich text while they have the focus; the click that gives it to them is refuted (C44_rich_refuted)."
 },
 "C67": {
  "status": "partial",
  "note": "Proved for every event except Backspace, Delete, Enter and Tab; those four do change the text of a read-only box (C67_keys_refuted)."
 },
 "C49": {
  "status": "partial",
  "note": "Everything that does not describe a family registers nothing; it is refused with INVALID_JSON except for a negative script code (exception, C49_negative_refuted) and the name of a script that does not exist (undefined behaviour, C49_unknown_script_refuted). Fields \"scripts\", \"linked_families\", \"fallback_families\" of another type than array are ignored (C49_scripts_type_refuted)."
 },
 "C59": {
  "status": "partial",
  "note": "No race and serial answers are proved without assertions compiled; with them there is a race (C59_assertions_refuted). Absence of deadlock and of locking twice is proved when get_sub_font finds all faces in the cache of its thread; otherwise both happen (C59_deadlock_refuted)."
 },
 "C69": {
  "status": "partial",
  "note": "Proved up to the first character whose upper-case form takes another number of bytes, and for whole runs of such characters (then the run meets the contract the builder puts on a shaper). The code asks icu::Edits for the source index where it has a destination index, so the rest is false: C69_shorter_refuted (dotless i), C69_longer_refuted (U+0149, index behind the run), C69_undefined_refuted (U+0390, out-of-bounds read)."
 },
 "C70": {
  "status": "partial",
  "note": "Trees made by the histories of C45_tree_partial; handlers that decline an event change neither the tree nor visibility; the container itself is visible (it is: nothing hides it)."
 },
 "C71": {
  "status": "partial",
  "note": "Trees made by the histories of C45_tree_partial. Typed characters: as stated. Keys: only while the mouse is inside the box; refuted otherwise (C71_mouse_elsewhere_refuted)."
 },
 "C72": {
  "status": "partial",
  "note": "What one move tells whom is proved for trees made by the histories of C45_tree_partial. Refuted: once only (C72_enter_again_refuted, C72_leave_again_refuted), shown objects only (C72_hidden_refuted)."
 },
 "C73": {
  "status": "proved",
  "note": "Proved over all histories: nearest below 256 pixels, exact for whole 64ths up to 32767 pixels, within 3/4 of a 64th otherwise. Refuted: nearest rounding of long fractional advances; 32768 pixels and more is undefined behaviour. HarfBuzz's cache template is transcribed from its header, which is not in the repository."
 },
 "C74": {
  "status": "proved",
  "note": "FreeType's lookup, the font page and HarfBuzz's Arabic tables are oracles."
 },
 "C75": {
  "status": "proved",
  "note": "Up to 262144 pixels; beyond that refuted by an example. Synthetic strength and slant of a HarfBuzz font are never set by the program and left out."
 },
 "C76": {
  "status": "partial",
  "note": "Proved for terminated names, and for names with a length that are in the font. Refuted: a length with a beginning of glyph 0's name, fonts without names, names over 127 bytes."
 },
 "C77": {
  "status": "proved",
  "note": "Bounds are part of the statement; outside them C77_far_refuted, C77_width_refuted and C77_narrow_refuted show what happens."
 },
 "C78": {
  "status": "partial",
  "note": "edges proved for all outlines; separate contours only for outlines with one ring, refuted for more"
 },
 "C79": {
  "status": "proved",
  "note": "bounds and field values are those of msdfgen, taken as oracles; the frame is in exact arithmetic instead of doubles"
 },
 "C80": {
  "status": "partial",
  "note": "proved for glyphs in the weight and style of their face; four refutations"
 },
 "C81": {
  "status": "partial",
  "note": "FT_Outline_EmboldenXY is an oracle; strokes of imitated weights, the source weight and curves in font units refuted"
 },
 "C82": {
  "status": "partial",
  "note": "Who takes an event is proved with the mouse off the lines between menus; the border of an open tray lets presses through (refuted)."
 },
 "C83": {
  "status": "partial",
  "note": "Proved for releases not over a menu or item; refuted for those."
 },
 "C84": {
  "status": "partial",
  "note": "All but the bottom of the text box, which is refuted."
 },
 "C85": {
  "status": "partial",
  "note": "For trees reachable without the defects of C45; a lost child is not found (refuted)."
 },
 "C86": {
  "status": "partial",
  "note": "Everything but moves of objects declared without initialiser, which are undefined (refuted)."
 },
 "C87": {
  "status": "partial",
  "note": "Everything but HarfBuzz's faces and the glyphs under strokes, which are left behind (refuted, with the exact number)."
 },
 "C88": {
  "status": "partial",
  "note": "Everything for fonts with units per em; the two exceptions are refuted."
 },
 "C89": {
  "status": "partial",
  "note": "Everything but the surroundings of imitated small capitals, which is refuted."
 },
 "C90": {
  "status": "partial",
  "note": "Everything but the text blocks and the use of builders moved from, which are refuted."
 },
 "C91": {
  "status": "partial",
  "note": "Boxes, places and pictures hold for every text and alignment, the colours of selected text only for lines that start at the left of the area and up to parts narrower than a pixel; the code does differently otherwise (see the refuted theorems). Drawing with formatting wants the character the iterator is made at to be in the text, as in C51."
 },
 "C92": {
  "status": "partial",
  "note": "C92_blink is for every box and every event that puts the cursor somewhere. C92_place_partial is for the histories of C44 that end with text in the box; with all text deleted drawing fails (C92_erased_refuted). Typing does not restart the blinking (C92_typing_refuted)."
 },
 "C93": {
  "status": "partial",
  "note": "Plain text and the histories of C44 (C93_settings_partial). C93_selectable_refuted and C93_single_line_refuted show two settings that do not do what they promise."
 },
 "C94": {
  "status": "partial",
  "note": "Proved: nothing in use is destroyed and nothing unused lives after any history; exactly the right objects live in histories that put each object somewhere at most once. The full claim is false: see the refuted theorems."
 },
 "C95": {
  "status": "partial",
  "note": "Proved: the exact number of computations for every descendant. That each is computed once is false below the children."
 },
 "C96": {
  "status": "partial",
  "note": "Proved for rectangles and their parts. For distance field rectangles a pixel whose centre is exactly on the border is left to OpenGL."
 },
 "C97": {
  "status": "partial",
  "note": "Proved for whole pictures. For a picture cut by a highlight it is false."
 },
 "C98": {
  "status": "partial",
  "note": "Proved: the border is closed and drawn once. That it stays on the rectangle is false."
 },
 "C99": {
  "status": "partial",
  "note": "Proved where the distance changes. In flat areas the result is undefined."
 },
 "C100": {
  "status": "partial",
  "note": "proved with the mouse off the lines between menus; refuted on them and on the lines between items"
 },
 "C101": {
  "status": "partial",
  "note": "proved with the mouse off the lines between menus; that texts stay in the tray refuted"
 },
 "C102": {
  "status": "proved",
  "note": "The C++ standard's description of unordered_map, and that std::hash agrees on strings and views, are assumed."
 },
 "C103": {
  "status": "partial",
  "note": "Ordinary files; short reads, unknown sizes and empty files are refuted."
 },
 "C104": {
  "status": "partial",
  "note": "Needs memory that can be read after the font table (as the code does) and no tab of zero width; table end, spill and shift refuted."
 },
 "C105": {
  "status": "partial",
  "note": "Frames, pictures, events and the caret's time are proved for all runs; the order of GLFW and OpenGL calls only if the window can be made. Refuted: a failed glfwCreateWindow; the mouse on screens with several pixels per unit."
 },
 "C106": {
  "status": "partial",
  "note": "For left-to-right text without tabs that does not end with a paragraph separator, when memory behind the tables of the builder can be read (C54); lines under and through the text for runs where none begins at a change of colour (C53). Markup that displays nothing is C106_nothing_refuted."
 },
 "C107": {
  "status": "partial",
  "note": "Files and directories are proved for texts without zero bytes; texts in memory only when they end with a zero byte and at least 63 bytes more (C107_data_partial). The rest of the statement is refuted."
 },
 "C108": {
  "status": "partial",
  "note": "Proved for rows without gaps from the top, opaque enough colours and C43's assumptions; padded and bottom-up rows, failed renderings and failed strokes are refuted."
 },
 "C109": {
  "status": "partial",
  "note": "Proved up to one part in 4194304; refuted: exactly the nearest (rounded distances can tie). Round trip in right-aligned or centred text is for glyph edges and 26.6 widths. Fused multiply-add is not modelled."
 },
 "C110": {
  "status": "partial",
  "note": "Off the grid of 128ths, for instance with a start of 0.1, the top of a box and the top of the caret of the same line can differ in the last bits (C110_top_refuted). The bound on the difference is not proved there."
 },
 "C111": {
  "status": "partial",
  "note": "Refuted: lengths are cut to 32 bits, so a table of more than 4 GiB is seen as its first bytes and a font file of 2 GiB as empty; names that do not fit are cut without notice."
 },
 "C112": {
  "status": "proved",
  "note": "C112_text composes the atlas (C43) with the upload and the shaders (C97). A fully transparent pixel in a picture in colours is excluded by the hypothesis that the atlas can draw the picture (C43_transparent_refuted). Byte order of memory and OpenGL's default row alignment are assumptions of the model."
 },
 "C113": {
  "status": "partial",
  "note": "Proved for documents whose runs are stored in text order and whose lines end left-to-right without two successive right-to-left runs, or are paragraphs of one run; the counterexample shows a line that ends right-to-left. Exact arithmetic (C109 and C110 treat the rounding)."
 },
 "C114": {
  "status": "partial",
  "note": "Proved for the documents of C113; the counterexamples show a line that ends right-to-left and a broken right-to-left paragraph. Exact arithmetic."
 },
 "C115": {
  "status": "proved",
  "note": "The reading order in ReadOrderSpec.  Text with right-to-left runs is left out: there Right follows the text and so may move the caret left."
 },
 "C116": {
  "status": "partial",
  "note": "Proved for words clicked after their first caret, for lines as in C114 and for all text.  Refuted: a double click on the left half of the first letter of a word selects the word before; a double click on a box without focus selects nothing."
 },
 "C117": {
  "status": "partial",
  "note": "Proved for all histories of C44; Backspace for characters the caret can stop before.  Refuted for characters that join the one before: Backspace takes both."
 },
 "C118": {
  "status": "partial",
  "note": "Proved for boxes with the focus (first click of a series) and for the press that gives a plain box the focus, in text as in C114.  Missing: rich text in a box without focus, where C44_rich_refuted shows the cursor is looked up in other text, and lines where C113 fails."
 },
 "C119": {
  "status": "partial",
  "note": "Proved when the font chosen for the piece has all the characters.  Refuted: a letter and its accent are split although a fallback font has both; a variation selector is split from its character when the font has no glyph for the selector itself, so its variant does not appear.  HarfBuzz is not modelled."
 },
 "C120": {
  "status": "partial",
  "note": "Proved for text every character of which some font of the family or its fallbacks has, without small capitals.  Refuted: a character no font has changes its font when a character only a fallback has is typed after it."
 }
}