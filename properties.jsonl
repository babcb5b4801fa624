{"id": "C01", "title": "Partition-point search is correct", "statement": "binary_search(first, count, cond) terminates, only evaluates cond at indices in [first, first+count), and, when cond is true on a prefix and false afterwards, returns the first index in [first, first+count] at which cond is not true.", "quantifier": "every first, count and every predicate monotone on the range (and, for the range/termination part, every predicate whatsoever)", "why_tests_cant": "The input space is unbounded; a test samples finitely many inputs, while the claim must hold for every one.", "anchors": ["src/binary_search.hpp: binary_search"]}
{"id": "C02", "title": "Run lookup returns the run that covers the index", "statement": "For a value-run table with non-decreasing limits, get_run_containing_index(i) is the number of runs whose limit is <= i, and get_value(i) is the value of the first run whose limit exceeds i; for i below the last limit no out-of-range element is read. For i at or past the last limit get_value reads past the end of the table.", "quantifier": "every run table with non-decreasing limits (including zero-length runs) and every index", "why_tests_cant": "The input space is unbounded; a test samples finitely many inputs, while the claim must hold for every one.", "anchors": ["src/value_runs.hpp: ValueRunsMixin::get_run_containing_index, ValueRunsMixin::get_value"]}
{"id": "C03", "title": "Extracting a sub-range of runs commutes with lookup", "statement": "After get_runs_subset(offset, length, out) into an empty table, for every 0 <= j < length, out.get_value(j) == in.get_value(offset + j); the limits of out are those of in shifted by offset, clipped to length, and out ends exactly at length whenever the source covers offset+length.", "quantifier": "every sorted run table and every sub-range inside it", "why_tests_cant": "The input space is unbounded; a test samples finitely many inputs, while the claim must hold for every one.", "anchors": ["src/value_runs.hpp: for_each_run_in_range, get_runs_subset"]}
{"id": "C04", "title": "Packed boolean runs behave like ordinary runs", "statement": "ValueRuns<bool> (limit in 31 bits, value in bit 31) returns from get_run_limit, get_run_value and get_value exactly what the unpacked table of (limit, value) pairs returns, for all limits in [0, 2^31).", "quantifier": "every sequence of add calls with limits in [0, 2^31) and every lookup", "why_tests_cant": "2^32 encodings times unbounded sequences.", "anchors": ["src/value_runs.hpp: ValueRuns<bool>::encode, get_run_value, get_run_limit"]}
{"id": "C05", "title": "Run intersection visits maximal common segments with the right values", "statement": "iterate_run_intersections over several tables that end at the same limit calls back with strictly increasing limits, ending at the common limit; for the segment [previous limit, limit) each reported value is the value each table has at every index of the segment; nothing is read out of range.", "quantifier": "every number of tables, every strictly increasing limit sequence in each, same final limit", "why_tests_cant": "The input space is unbounded; a test samples finitely many inputs, while the claim must hold for every one.", "anchors": ["src/value_run_utils.hpp: iterate_run_intersections (table version and iterator version)"]}
{"id": "C06", "title": "Run iterators follow lookups and stay in range", "statement": "ValueRunsIterator / MaybeDefaultRunsIterator after advance_to(i) report the value at i and the limit of the run covering i, for any forward sequence of i below the final limit; a null run pointer yields the default value. Advancing to the final limit itself (which the layout builder does when the last paragraph has no trailing separator) reads past the end.", "quantifier": "every run table and every non-decreasing sequence of advance_to calls", "why_tests_cant": "The input space is unbounded; a test samples finitely many inputs, while the claim must hold for every one.", "anchors": ["src/value_runs_iterator.hpp: ValueRunsIterator::advance_to, MaybeDefaultRunsIterator::advance_to"]}
{"id": "C07", "title": "Run builder yields the innermost enclosing value", "statement": "For any well-nested sequence of push(limit, v)/pop(limit) with non-decreasing limits closed by a final pop, the produced table ends at the final limit, has non-decreasing limits and is never empty, and its value at index i is the value of the innermost push whose interval contains i (the base value if none).", "quantifier": "every well-nested history of push/pop", "why_tests_cant": "Histories of unbounded length and nesting depth.", "anchors": ["src/value_run_builder.hpp: ValueRunBuilder::push, pop, get"]}
{"id": "C08", "title": "Cursor position packing", "statement": "Setting position and affinity of a CursorPosition in any order reads back the same position (0 <= p < 2^31) and affinity; setting one never changes the other; two positions compare equal exactly when both components agree; is_valid() is false only for the single reserved encoding.", "quantifier": "every 32-bit state, every position in [0,2^31), every affinity", "why_tests_cant": "2^32 states times all operation orders.", "anchors": ["src/cursor_position.hpp: CursorPosition"]}
{"id": "C09", "title": "Font face handle packing", "statement": "FontFace(family, weight, style) returns the same family, weight and style from its getters, is valid exactly when the family handle is not 0xFFFF, and distinct triples give distinct handles.", "quantifier": "every family handle in [0,2^16), weight in [0,16), style in {0,1}", "why_tests_cant": "Universal over the full handle space.", "anchors": ["src/font.hpp: FontFace::make_handle, get_family, get_weight, get_style"]}
{"id": "C10", "title": "Colour integer conversions round-trip", "statement": "Converting a packed 32-bit colour to a floating colour and back in the same channel order (argb, rgba, abgr) gives the original integer, under IEEE single-precision rounding, and every channel produced lies in [0,1].", "quantifier": "every 32-bit colour", "why_tests_cant": "The float rounding argument has to hold for all 2^32 inputs; the abgr reader misbehaves only for some alpha values.", "anchors": ["src/color.hpp: from_abgr_uint, from_argb_uint, from_rgba_uint, to_abgr, to_argb, to_rgba"]}
{"id": "C11", "title": "Rejected markup is displayed verbatim with default formatting", "statement": "If the markup does not parse, parse_inline_formatting returns a FormattingRuns whose displayed text is exactly the input text and in which every attribute has a single run with the default value, ending at the text length.", "quantifier": "every byte string", "why_tests_cant": "The input space is unbounded; a test samples finitely many inputs, while the claim must hold for every one.", "anchors": ["src/formatting.cpp: parse_inline_formatting, make_default_formatting_runs"]}
{"id": "C12", "title": "Accepted markup: all attribute tables cover exactly the displayed text", "statement": "If the markup parses, each of the eight attribute tables (font, colour, stroke, strikethrough, underline, smallcaps, subscript, superscript) is non-empty, has non-decreasing limits in [0, length of displayed text] and its last limit is the length of the displayed text.", "quantifier": "every byte string that parses", "why_tests_cant": "The input space is unbounded; a test samples finitely many inputs, while the claim must hold for every one.", "anchors": ["src/formatting.cpp: FormattingParser, parse_inline_formatting"]}
{"id": "C13", "title": "Displayed text is the input minus markup", "statement": "If the markup parses, the displayed text is the input with exactly the tags and comments removed: it is a subsequence of the input, contains no '<', and a text without '<' and without byte 0xFF is displayed unchanged.", "quantifier": "every byte string", "why_tests_cant": "The input space is unbounded; a test samples finitely many inputs, while the claim must hold for every one.", "anchors": ["src/formatting.cpp: FormattingParser::parse_content"]}
{"id": "C14", "title": "Innermost tag wins", "statement": "In an accepted markup text the value of each attribute at each displayed character is the one set by the innermost enclosing tag that sets this attribute, or the default given by the caller if there is none.", "quantifier": "every document tree of nested tags, every character in it", "why_tests_cant": "Nesting depth, tag mix and document length are unbounded.", "anchors": ["src/formatting.cpp: parse_open_bracket and the parse_*_open / pop handlers"]}
{"id": "C15", "title": "Markup parsing is memory safe", "statement": "parse_inline_formatting never reads or writes outside its buffers, whatever the bytes of the markup.", "quantifier": "every byte string, every attribute value length", "why_tests_cant": "Overflow needs specific attribute lengths; tests cannot exclude them all.", "anchors": ["src/formatting.cpp: parse_attributes, parse_color_rgb, font weight attribute buffer"]}
{"id": "C16", "title": "Markup parsing terminates and consumes the input", "statement": "parse_inline_formatting terminates for every input, and each step of the parser moves forward in the input or stops.", "quantifier": "every byte string", "why_tests_cant": "Non-termination on some input cannot be excluded by finitely many runs.", "anchors": ["src/formatting.cpp: FormattingParser main loop, comment and attribute loops"]}
{"id": "C17", "title": "Formatting iterator tracks attributes in both directions", "statement": "After moving a FormattingIterator to character i by advance_run / get_prev_run calls from any earlier position, colour, stroke, underline and strikethrough reported are those of the attribute tables at i.", "quantifier": "every set of attribute tables of equal length and every sequence of target indices inside the text", "why_tests_cant": "Histories of moves in both directions.", "anchors": ["src/formatting_iterator.cpp: FormattingIterator::advance_run"]}
{"id": "C18", "title": "Underline and strikethrough events are balanced", "statement": "Walking the characters of a run in order, an END event is reported only when a line is open, a BEGIN event only when none is open, and a line is open exactly over underlined characters.", "quantifier": "every attribute tables and every monotone walk", "why_tests_cant": "Combination of colour changes and line attributes at arbitrary places.", "anchors": ["src/formatting_iterator.cpp: FormattingIterator::advance_run", "src/text_draw_util.hpp: draw_text"]}
{"id": "C19", "title": "Script runs tile the text", "statement": "Repeated ScriptRunIterator::next produces runs [start, limit) that are non-empty, contiguous, start at 0 and end at the text length, and the iteration terminates with at most one run per code point.", "quantifier": "every UTF-8 text and every assignment of script codes to code points", "why_tests_cant": "The input space is unbounded; a test samples finitely many inputs, while the claim must hold for every one.", "anchors": ["src/script_run_iterator.cpp: ScriptRunIterator::next"]}
{"id": "C20", "title": "Script runs are homogeneous", "statement": "Inside one script run every code point that has its own script (not common/inherited and not a paired bracket) has the script of the run; a run reported with a common script contains no such code point.", "quantifier": "every text and every script assignment, bracket nesting of any depth", "why_tests_cant": "Bracket stack wrap-around needs more than 32 nested brackets mixed with scripts.", "anchors": ["src/script_run_iterator.cpp: ScriptRunIterator::next, push, pop, fixup"]}
{"id": "C21", "title": "Bracket stack of the script iterator stays in range", "statement": "All accesses to the 32-entry circular bracket stack are in range and only entries pushed during the current iterator's life are read, for every nesting depth and every interleaving of scripts; bracket table lookup finds an entry exactly when the code point is in the table.", "quantifier": "every text", "why_tests_cant": "Depth beyond 32 wraps around; unbounded histories.", "anchors": ["src/script_run_iterator.cpp: push, pop, fixup, get_pair_index"]}
{"id": "C22", "title": "Every glyph of a line is emitted exactly once, in visual order", "statement": "Given bidi runs that partition a line, the visual runs appended for the line cover each character of the line exactly once; each shaped glyph of the line is emitted exactly once, left-to-right runs in logical and right-to-left runs in reverse order, with its own character index.", "quantifier": "every shaped paragraph, every line in it, every partition of the line into bidi runs in any visual order", "why_tests_cant": "The input space is unbounded; a test samples finitely many inputs, while the claim must hold for every one.", "anchors": ["src/layout_builder.cpp: compute_line_visual_runs, append_visual_run"]}
{"id": "C23", "title": "Glyph positions are running sums and line widths agree", "statement": "Within each visual run, glyph i's pen position is the sum of the widths of the glyphs emitted before it in the line, each run stores one more position than glyphs, and the line's width equals the last stored position.", "quantifier": "every line and run", "why_tests_cant": "The input space is unbounded; a test samples finitely many inputs, while the claim must hold for every one.", "anchors": ["src/layout_builder.cpp: append_visual_run", "src/layout_info.cpp: get_line_width, get_glyph_position_data"]}
{"id": "C24", "title": "Line breaking partitions the paragraph, always progresses", "statement": "Breaking a paragraph at a width limit terminates and gives consecutive non-empty lines that tile the paragraph's characters exactly, for every width (including zero or negative room) and every answer of the break iterator.", "quantifier": "every paragraph, glyph widths, area width and break-iterator behaviour", "why_tests_cant": "Adversarial break positions and widths are unbounded.", "anchors": ["src/layout_builder.cpp: compute_paragraph_layout (line breaking part), find_previous_line_break"]}
{"id": "C25", "title": "Lines fit the width and break only at opportunities unless forced", "statement": "Each line produced under a width limit is either no wider than the limit or consists of a single glyph cluster that does not fit; a line that is not ended by an opportunity is one in which no opportunity lies after its first character.", "quantifier": "every paragraph, widths and break opportunities", "why_tests_cant": "The input space is unbounded; a test samples finitely many inputs, while the claim must hold for every one.", "anchors": ["src/layout_builder.cpp: compute_paragraph_layout, find_previous_line_break"]}
{"id": "C26", "title": "Tab stops", "statement": "A tab character advances the pen to the next multiple of the tab width on its line.", "quantifier": "every mix of tabs and glyphs, every tab width, with and without line wrapping", "why_tests_cant": "The input space is unbounded; a test samples finitely many inputs, while the claim must hold for every one.", "anchors": ["src/layout_builder.cpp: apply_tab_widths_no_line_break, compute_paragraph_layout"]}
{"id": "C27", "title": "Paragraphs tile the text", "statement": "Building a layout splits the text at paragraph separators so that paragraph contents and separators tile the text exactly; a text ending in a separator gets one extra empty line; an empty text gives an empty layout.", "quantifier": "every text", "why_tests_cant": "The input space is unbounded; a test samples finitely many inputs, while the claim must hold for every one.", "anchors": ["src/layout_builder.cpp: build_layout_info"]}
{"id": "C28", "title": "Each character is shaped with the script of its own script run", "statement": "For every character of every paragraph, the script handed to the shaper is the script the script iterator assigned to that character.", "quantifier": "every text with any number of paragraphs", "why_tests_cant": "The failing case needs a second paragraph that mixes scripts.", "anchors": ["src/layout_builder.cpp: ScriptRunValueIterator, compute_itemized runs"]}
{"id": "C29", "title": "Merging runs keeps formatting", "statement": "Adjacent segments are merged into one shaped run only if they agree on face, size and on subscript/superscript/smallcaps rendering, script and level.", "quantifier": "every pair of adjacent segments", "why_tests_cant": "The input space is unbounded; a test samples finitely many inputs, while the claim must hold for every one.", "anchors": ["src/font.hpp: SingleScriptFont::operator==", "src/layout_builder.cpp: logical run merge"]}
{"id": "C30", "title": "Layout index tables stay consistent under every build history", "statement": "After any sequence of append/commit operations, each run's glyph range and each line's run range are contiguous, non-overlapping and cover all glyphs/runs; get_first_glyph_index, get_first_run_index, get_first_position_index and the line iteration agree with this partition.", "quantifier": "every sequence of builder operations", "why_tests_cant": "Histories of unbounded length.", "anchors": ["src/layout_info.cpp: append_glyph, append_run, append_line, get_first_run_index, for_each_line"]}
{"id": "C31", "title": "Line geometry sums", "statement": "Line heights are non-negative for non-negative ascent/descent, sum to the total text height, the vertical start of each line is the sum of the previous heights, text width is the maximum line width, and horizontal/vertical alignment offsets place the text at the start, centre or end of the area.", "quantifier": "every list of lines and every area size", "why_tests_cant": "The input space is unbounded; a test samples finitely many inputs, while the claim must hold for every one.", "anchors": ["src/layout_info.cpp: get_line_height, get_text_height, get_text_width, get_line_x_start, get_closest_line_to_height"]}
{"id": "C32", "title": "Every cursor position belongs to the run that contains it", "statement": "For each character position of the text and either affinity, the run and line reported for the cursor contain that position.", "quantifier": "every layout, every cursor position and affinity", "why_tests_cant": "Combinations of run directions at line boundaries.", "anchors": ["src/layout_info.cpp: get_run_containing_cursor, calc_cursor_pixel_pos"]}
{"id": "C33", "title": "Caret x offset lies inside its run and is monotone", "statement": "For a cursor inside a run, the caret offset lies between the run's first and last glyph positions, equals the glyph boundary positions at cluster boundaries, and moves monotonically (increasing for left-to-right, decreasing for right-to-left) as the cursor advances.", "quantifier": "every run with non-negative glyph widths and every cursor in it", "why_tests_cant": "The input space is unbounded; a test samples finitely many inputs, while the claim must hold for every one.", "anchors": ["src/layout_info.cpp: get_glyph_offset_ltr, get_glyph_offset_rtl, get_glyph_offset_in_run"]}
{"id": "C34", "title": "Selection ranges lie inside the run", "statement": "For every character range intersecting a run, get_position_range_in_run returns min <= max, both within the run's extent; run_contains_char_range is true exactly when the intervals intersect.", "quantifier": "every run and every character range", "why_tests_cant": "The input space is unbounded; a test samples finitely many inputs, while the claim must hold for every one.", "anchors": ["src/layout_info.cpp: get_position_range_in_run, run_contains_char_range"]}
{"id": "C35", "title": "Hit testing returns a position of the clicked line", "statement": "find_closest_cursor_position returns, for every pixel position, a cursor that is a legal caret stop on the requested line, and terminates for every caret iterator; clicking exactly at a caret's pixel position gives back that caret's position.", "quantifier": "every layout line and every x,y", "why_tests_cant": "The input space is unbounded; a test samples finitely many inputs, while the claim must hold for every one.", "anchors": ["src/layout_info.cpp: find_closest_cursor_position, get_closest_line_to_height"]}
{"id": "C36", "title": "Line start and end positions bound the line", "statement": "get_line_start_position / get_line_end_position return the smallest/largest caret position of the line.", "quantifier": "every line of any mix of run directions", "why_tests_cant": "Mixed direction lines of any length.", "anchors": ["src/layout_info.cpp: get_line_start_position, get_line_end_position"]}
{"id": "C37", "title": "Cursor movement is monotone and stays on legal stops", "statement": "next/prev character and next/prev word move strictly forward/backward to a boundary inside [0, length], stay put at the text ends, and prev undoes next on character boundaries.", "quantifier": "every text, every position, every boundary set of the break iterator", "why_tests_cant": "The input space is unbounded; a test samples finitely many inputs, while the claim must hold for every one.", "anchors": ["src/cursor_controller.cpp: next_character, prev_character, next_word, prev_word"]}
{"id": "C38", "title": "Font registry handles are stable", "statement": "Once a family or face name has a handle, no later registration changes it; registering the same family twice reports ALREADY_LOADED and changes nothing; equal names give equal handles and different names different handles (below 65535 entries).", "quantifier": "every history of registrations and look-ups", "why_tests_cant": "Histories of unbounded length.", "anchors": ["src/font_registry.cpp: register_family, get_family, get_or_add_family, get_or_add_face"]}
{"id": "C39", "title": "Every registered family serves every weight and style", "statement": "After a successful registration with at least one valid face every (weight, style) request resolves to a valid face: the one explicitly given for it if any (the last such), otherwise the default face.", "quantifier": "every list of faces", "why_tests_cant": "The input space is unbounded; a test samples finitely many inputs, while the claim must hold for every one.", "anchors": ["src/font_registry.cpp: register_family, get_face"]}
{"id": "C40", "title": "Font fallback segments text completely", "statement": "get_sub_font always advances the offset by at least one code point and never past the limit, and the font returned supports all code points it was chosen for whenever some candidate does; repeated calls tile the text.", "quantifier": "every text, coverage relation and fallback graph", "why_tests_cant": "The input space is unbounded; a test samples finitely many inputs, while the claim must hold for every one.", "anchors": ["src/font_registry.cpp: get_sub_font, find_compatible_font, get_font_for_script"]}
{"id": "C41", "title": "Font data is served at the requested size", "statement": "get_font_data(font) returns data whose FreeType face and HarfBuzz font are set to the font's effective size, in any order of requests of different sizes, and the cached space advance is that of the current size.", "quantifier": "every history of get_font_data requests", "why_tests_cant": "Cache state depends on the history.", "anchors": ["src/font_registry.cpp: get_font_data", "src/font_data.cpp"]}
{"id": "C42", "title": "Glyph atlas never overlaps glyphs", "statement": "For every sequence of glyph and stroke requests (or bitmap uploads) whose pictures are no larger than a page, every rectangle handed out lies inside a page, two different rectangles on one page have the padding between them, and every uploaded bitmap is still on its page, unharmed, at the end.", "quantifier": "every upload history", "why_tests_cant": "Histories of unbounded length.", "anchors": ["sample/text_atlas.cpp: upload_glyph, get_or_create_target_page, page_can_fit_glyph"]}
{"id": "C43", "title": "Glyph and stroke caches return the bitmap asked for", "statement": "For every history of requests, each answer has the size, offset and colour flag of the picture rasterised for the requested face, effective size, synthetic slant and weight, glyph, thickness and join, and the page shows exactly that picture at the rectangle answered, also after all later requests.", "quantifier": "every history of requests", "why_tests_cant": "Histories of unbounded length.", "anchors": ["sample/text_atlas.cpp: GlyphKey, StrokeKey, get_glyph_info, get_stroke_info"]}
{"id": "C44", "title": "Text box editing keeps the cursor in the text and edits what the user sees", "statement": "Under every sequence of typing, deletion, cursor movement and selection commands, the cursor and selection stay inside the text, typed text is inserted at the cursor (replacing a non-empty selection) and nothing else is changed.", "quantifier": "every history of editor commands", "why_tests_cant": "Histories of unbounded length.", "anchors": ["sample/text_box.cpp: handle_key_press, insert_typed_character, remove_highlighted_text"]}
{"id": "C45", "title": "UI tree keeps its children", "statement": "Under every sequence of set_parent calls each object occurs exactly once in its parent's child list and nowhere else; re-parenting one object never removes another.", "quantifier": "every history of set_parent calls", "why_tests_cant": "Histories of unbounded length.", "anchors": ["sample/ui_object.cpp: UIObject::set_parent, for_each_child"]}
{"id": "C46", "title": "Clipped rectangles tile the original", "statement": "Drawing a textured rectangle under a highlight range produces pieces that do not overlap, cover exactly the rectangle and show the same part of the texture at every column; columns inside the range are white and columns outside keep the rectangle's colour, except that a remainder narrower than one pixel is drawn white with the rest. The range used for the glyphs of a run is where the run's highlight box is drawn.", "quantifier": "every rectangle, texture range and highlight range, in exact arithmetic", "why_tests_cant": "The input space is unbounded; a test samples finitely many inputs, while the claim must hold for every one.", "anchors": ["sample/ui_container.cpp: UIContainer::emit_rect, UIContainer::draw_text"]}
{"id": "C47", "title": "Bitmap writes stay inside the bitmap", "statement": "Bitmap blit, alpha blit and fill never touch memory outside the target and change exactly the pixels of the rectangle that lie in the bitmap: to the fill colour, the source pixel at that place, or the blend of the two.", "quantifier": "every size and offset, including negative", "why_tests_cant": "The input space is unbounded; a test samples finitely many inputs, while the claim must hold for every one.", "anchors": ["sample/bitmap.cpp: blit, blit_alpha, fill"]}
{"id": "C48", "title": "Mapping a file loses nothing", "statement": "Every path through map_file_default either returns a mapping with the size of the file that owns what was acquired, or releases everything it acquired; unmap_file_default releases exactly what the mapping owns. After every history of mapping and unmapping the process holds only what the live mappings own.", "quantifier": "every history of mapping and unmapping and every outcome of the system calls, on each platform", "why_tests_cant": "Every system call can fail at every point of every history.", "anchors": ["src/file_mapping.cpp: map_file_default, unmap_file_default"]}
{"id": "C49", "title": "Family description validation", "statement": "register_family_from_json accepts a description only if all weights are one of 100..900 in steps of 100, styles are normal or italic, and script codes are in range; otherwise it registers nothing and returns INVALID_JSON.", "quantifier": "every JSON description", "why_tests_cant": "The input space is unbounded; a test samples finitely many inputs, while the claim must hold for every one.", "anchors": ["src/font_registry_json.cpp: register_family_from_json_data"]}
{"id": "C50", "title": "Effective font size shrinks monotonically", "statement": "The effective size of a font is at most its nominal size, is monotone in the nominal size, and is the nominal size when no synthetic modifier applies (nominal size below 2^24), under IEEE single rounding.", "quantifier": "every nominal size below 2^24 and every flag combination", "why_tests_cant": "All sizes must be covered; float truncation can be off by one.", "anchors": ["src/font_common.hpp: calc_effective_font_size"]}
{"id": "C51", "title": "Drawing visits every glyph once with its stored position", "statement": "draw_text visits each line, each run and each glyph exactly once in order, and the index it uses into the position array is the one the layout stored for that glyph.", "quantifier": "every layout", "why_tests_cant": "The input space is unbounded; a test samples finitely many inputs, while the claim must hold for every one.", "anchors": ["src/text_draw_util.hpp: draw_text"]}
{"id": "C52", "title": "Matching brackets share a script", "statement": "In well-formed text, a closing bracket is placed in a run with the same script as the run of the opening bracket it matches, whatever scripts occur between them, as long as the brackets in between are matched and nested no more than 31 deep.", "quantifier": "every text, every script assignment giving brackets no script of their own, every matched pair of brackets", "why_tests_cant": "It depends on the circular stack surviving pushes, pops, run breaks and late script resolution in every interleaving.", "anchors": ["src/script_run_iterator.cpp: ScriptRunIterator::next, push, pop, fixup"]}
{"id": "C53", "title": "Underlines and strikethroughs cover exactly their glyphs", "statement": "When a formatted text is drawn, the underline (strikethrough) rectangles drawn for a run cover exactly the glyphs whose character is underlined (struck through), each from the left edge of its first glyph to the right edge of its last, in the colour of those glyphs, and no rectangle covers other glyphs.", "quantifier": "every layout, every set of formatting tables for its text, every run", "why_tests_cant": "It depends on every pattern of colour and line changes across the glyphs of a run in visual order.", "anchors": ["src/text_draw_util.hpp: draw_text", "src/formatting_iterator.cpp: FormattingIterator::advance_to"]}
{"id": "C54", "title": "Building a layout is always defined", "statement": "Building a layout for any text with font and style tables that cover exactly that text terminates and reads neither outside the text nor outside the tables.", "quantifier": "every text, table of fonts and styles, tab width, area and every answer of the bidi, shaping and break engines within their contracts", "why_tests_cant": "Out-of-range reads usually go unnoticed in a test, and the inputs are unbounded.", "anchors": ["src/layout_builder.cpp: build_layout_info, compute_paragraph_layout, find_previous_line_break, mul_fixed", "src/value_runs_iterator.hpp"]}
{"id": "C55", "title": "Each character is shaped in its own font, level and styles", "statement": "For every character of every paragraph, the font, direction and small-capital, subscript and superscript styles used for shaping are those of the character's own run in the tables given by the caller and of its bidi level.", "quantifier": "every text, tables with any runs, any levels, any number of paragraphs", "why_tests_cant": "The overlaps of six independent sets of runs are unbounded.", "anchors": ["src/layout_builder.cpp: compute_paragraph_layout, iterator intersection", "src/font_registry.cpp: get_sub_font"]}
{"id": "C56", "title": "Hit testing picks a caret stop on the line under the point", "statement": "A click at a height picks the line it falls on (the last line below the text), and on it a caret stop of that line; the height is measured from where the text is placed.", "quantifier": "every built layout, every point, width and alignment", "why_tests_cant": "The input space is unbounded and errors show only at particular line boundaries.", "anchors": ["src/cursor_controller.cpp: closest_to_position", "src/layout_info.cpp: get_closest_line_to_height, find_closest_cursor_position"]}
{"id": "C57", "title": "Every cursor controller owns one live iterator for its own text", "statement": "In every history of constructing, moving, assigning, giving text to and destroying cursor controllers, each live controller owns exactly one break iterator that walks its own text, and each iterator is deleted exactly once.", "quantifier": "every history of operations on any number of controllers", "why_tests_cant": "Ownership errors need particular orders of moves and destructions, and usually do not show in a test.", "anchors": ["src/cursor_controller.hpp", "src/cursor_controller.cpp: CursorController, operator=, set_text, ~CursorController"]}
{"id": "C58", "title": "A failed registration leaves nothing behind", "statement": "When register_family reports an error (or throws), no family or face content is added: the name stays unregistered, and a later registration under it gets exactly the scripts, faces and links it asks for.", "quantifier": "every history of registrations, with every mix of failures", "why_tests_cant": "Histories of unbounded length.", "anchors": ["src/font_registry.cpp: register_family"]}
{"id": "C59", "title": "The registry may be used by several threads", "statement": "When any number of threads call get_family, get_face_data_handle, get_font_data, get_sub_font and register_family at the same time, no two of them touch the registry's tables at once with one changing them, every answer is that of a registry in which the registrations ended so far were made one after the other and none is half done, one get_sub_font call sees one such registry throughout, and no thread waits forever or takes a lock it already holds.", "quantifier": "every number of threads, every list of calls for each, every schedule, every division of a registration into steps, and either policy of the lock", "why_tests_cant": "Schedules are unbounded in number and a race or deadlock shows in few of them.", "anchors": ["src/font_registry.cpp: g_mutex, get_family, get_face_data_handle, get_font_data, get_sub_font, register_family"]}
{"id": "C60", "title": "Synthesised small capitals apply to one case", "statement": "With small capitals on, each segment that get_sub_font returns holds letters of one case (combining marks aside), and synthesis is switched on exactly for the segments of lower case letters.", "quantifier": "every text, case property and coverage relation", "why_tests_cant": "The input space is unbounded; a test samples finitely many inputs, while the claim must hold for every one.", "anchors": ["src/font_registry.cpp: calc_case_run_limit, get_sub_font"]}
{"id": "C61", "title": "UI objects move with their parents", "statement": "After every sequence of set_parent and set_position calls the absolute position of each object is its parent's absolute position plus its own position, or its own position if it has no parent.", "quantifier": "every history of set_parent and set_position calls on any number of objects", "why_tests_cant": "Trees of unbounded depth and histories of unbounded length; a stale position shows only after particular re-parenting orders.", "anchors": ["sample/ui_object.cpp: UIObject::set_position, UIObject::set_parent, UIObject::recalc_absolute_dimensions"]}
{"id": "C62", "title": "Lines are as high as their fonts", "statement": "In every layout that is built, the ascent of a line is the highest ascent of the fonts of its runs and its height reaches down to their lowest descent; an empty line has the height of its font.", "quantifier": "every text, font table, shaping result and line breaking", "why_tests_cant": "The set of fonts that meet on one line depends on font fallback and on where lines break, which are unbounded.", "anchors": ["src/layout_builder.cpp: compute_line_visual_runs", "src/layout_info.cpp: append_line, append_empty_line, get_line_height, get_line_ascent"]}
{"id": "C63", "title": "Rectangles are drawn with their own texture", "statement": "In every frame each rectangle that has a texture is drawn once, in the order of the requests, with its own texture and pipeline and with the container's current size, whatever was bound before the frame and whichever textures are created while it is drawn.", "quantifier": "every OpenGL state before the frame and every sequence of drawing requests", "why_tests_cant": "The container skips bindings it believes are in place; a stale belief shows only for particular orders of requests and texture creations.", "anchors": ["sample/ui_container.cpp: UIContainer::draw_rect_internal, UIContainer::render", "sample/image.cpp: Image::Image, Image::bind"]}
{"id": "C64", "title": "One object has the focus", "statement": "After every history of presses, focus losses and destructions, is_focused is true for exactly the object that was last given the focus and did not lose it, and every change is announced: first handle_focus_lost to the object that had the focus, if it still exists, then handle_focused to the new one.", "quantifier": "every history of container events over any number of objects", "why_tests_cant": "Histories are unbounded, and objects may be destroyed at any point of them.", "anchors": ["sample/ui_container.cpp: UIContainer::focus_object, UIContainer::release_focused_object, UIContainer::handle_mouse_button"]}
{"id": "C65", "title": "Clicks are counted per series", "statement": "Each click in a text box is answered with the number of clicks directly before it at the same cursor position, each at most half a second before the next, with no change of focus in between (modulo 2^32).", "quantifier": "every history of clicks, times and focus changes", "why_tests_cant": "Histories and times are unbounded.", "anchors": ["sample/ui_container.cpp: UIContainer::text_box_click, UIContainer::release_focused_object"]}
{"id": "C66", "title": "One menu is open, the one pressed or moved to", "statement": "At most one menu of a tool bar is open at any time, and one is open exactly when the bar's menus are open. Pressing a menu opens it when none is open and closes it otherwise; while one is open, moving onto another opens that one instead.", "quantifier": "every list of menu names and every history of mouse moves and presses", "why_tests_cant": "Histories are unbounded, and the claim depends on which of two neighbouring menus the mouse is taken to be in.", "anchors": ["sample/tool_bar.cpp: ToolBar::handle_mouse_move, ToolBar::add_menu", "sample/tool_bar_menu.cpp: ToolBarMenu::handle_mouse_button"]}
{"id": "C67", "title": "A read-only text box keeps its text", "statement": "While a text box is not editable, no key, typed character, click, cut, paste or change of focus changes its text.", "quantifier": "every history of input events", "why_tests_cant": "Histories are unbounded, and every event that reaches the box has to check the flag.", "anchors": ["sample/text_box.cpp: TextBox::handle_key_press, TextBox::handle_text_input, TextBox::clipboard_paste_text"]}
{"id": "C68", "title": "Loading a directory of families", "statement": "register_families_from_path succeeds exactly when every .json file directly in the directory describes a family and registering these families in the order of the directory succeeds, with the same effect; otherwise it returns the error of the first file that fails, after registering exactly the files before it.", "quantifier": "every list of directory entries and every content of the files", "why_tests_cant": "The directory and the files are arbitrary; the claim is an equivalence over all of them.", "anchors": ["src/font_registry_json.cpp: register_families_from_path, register_family_from_json_file"]}
{"id": "C69", "title": "Small capitals keep the character indices", "statement": "When a run is shown in synthesised small capitals, every glyph the layout stores carries the index of the source character its upper-case form was made from, so that the indices stay inside the run and in order, whatever lengths the upper-case forms have.", "quantifier": "every text, every run of it, every upper-case mapping and every glyph of the shaped run", "why_tests_cant": "Case mappings change lengths in many ways (shorter, longer, several characters); each run may mix them arbitrarily.", "anchors": ["src/layout_builder.cpp: LayoutBuilder::shape_logical_run, remap_char_index"]}
{"id": "C70", "title": "A press reaches the topmost object", "statement": "The container draws every visible object whose ancestors are visible, each once and before whatever lies over it (its descendants, and later siblings with theirs). A mouse press is offered to the objects in the reverse of that order, and to no other, until one takes it; that one is the only one that takes it.", "quantifier": "every tree of objects, every visibility, every set of objects that would take the press", "why_tests_cant": "Trees have any depth and breadth and any visibility; drawing and event delivery are different traversals that must agree on all of them.", "anchors": ["sample/ui_container.cpp: UIContainer::render, UIContainer::handle_mouse_button", "sample/ui_object.hpp: for_each_descendant_bottom_up", "sample/ui_object.cpp: render_internal, is_visible_from_ancestors"]}
{"id": "C71", "title": "Keys and typed characters reach the focused box", "statement": "While a text box has the focus, every key that is pressed and, if the box can be edited, every typed character reaches that box and no other object, wherever it is in the tree and wherever the mouse is.", "quantifier": "every tree of objects, every focused box in it, every position of the mouse", "why_tests_cant": "The tree, the place of the box in it and the position of the mouse are arbitrary.", "anchors": ["sample/ui_container.cpp: UIContainer::handle_key_press, UIContainer::handle_text_input", "sample/text_box.cpp: TextBox::handle_key_press, TextBox::handle_text_input"]}
{"id": "C72", "title": "Objects are told when the mouse enters and leaves", "statement": "As the mouse moves, the topmost shown object under it is told once that the mouse entered, and once that it left before another is entered or when the mouse is over none; no other object is told.", "quantifier": "every tree of objects and every sequence of mouse positions", "why_tests_cant": "It is a claim about every history of moves over every tree.", "anchors": ["sample/ui_container.cpp: UIContainer::handle_mouse_move"]}
{"id": "C73", "title": "Glyph advances are right whatever was asked before", "statement": "Every advance a font gives for a glyph is the advance of that glyph at the current size, to the nearest 64th of a pixel (exactly, when it is a whole number of 64ths), whatever glyphs were asked for before, in whatever order and batches, and however often the size was changed in between.", "quantifier": "all fonts (every function from size and glyph to advance), all sequences of batches of glyphs and size changes, both directions of the axis", "why_tests_cant": "The advances go through a cache of 256 places shared by 65536 glyphs and through 24-bit floats: a collision or a rounding error shows only for particular pairs of glyphs, orders and sizes.", "anchors": ["src/harfbuzz_font.cpp: hb_ft_get_glyph_h_advances, hb_ft_get_glyph_v_advance, harfbuzz_font_mark_changed", "src/font_data.cpp: FontData::get_glyph_advance_x, get_glyph_advance_y"]}
{"id": "C74", "title": "A code point has the same glyph however it is asked for", "statement": "A font reports a code point as present exactly when it maps it to a glyph other than glyph 0. Shaping gets that same glyph whether it asks for code points one by one or many at once. In a symbol font the codes 0 to 255 stand for the private page U+F000 unless the font has them.", "quantifier": "all character maps, all texts, all ways of splitting the requests", "why_tests_cant": "Font fallback chooses a font with one function and shaping uses another; that they agree has to hold for every font, code point and way of asking.", "anchors": ["src/harfbuzz_font.cpp: hb_ft_get_nominal_glyph, hb_ft_get_nominal_glyphs", "src/font_data.cpp: FontData::has_codepoint, map_codepoint_to_glyph"]}
{"id": "C75", "title": "Glyph and line metrics are those of the font", "statement": "The box, vertical origin and outline points of a glyph, and the ascender, descender and line gap of a font, are the ones FreeType has for the current size, although they pass through single precision floats; ascender, descender and gap make up the line height. No point outside an outline is read.", "quantifier": "all glyph and face metrics up to 262144 pixels, all point indices, both directions of the axes", "why_tests_cant": "Rounding and conversion errors appear only for some values; tests try a few fonts.", "anchors": ["src/harfbuzz_font.cpp: hb_ft_get_glyph_extents, hb_ft_get_glyph_v_origin, hb_ft_get_glyph_contour_point, hb_ft_get_font_h_extents"]}
{"id": "C76", "title": "Glyphs are found by exactly their names", "statement": "Asked for a glyph by name, with or without a length, a font finds the glyph with exactly that name, and nothing for any other name.", "quantifier": "all tables of glyph names, all names and lengths", "why_tests_cant": "A wrong answer shows only for names in a particular relation to the names in the font, or for fonts without names.", "anchors": ["src/harfbuzz_font.cpp: hb_ft_get_glyph_from_name"]}
{"id": "C77", "title": "Single precision does not disturb the geometry of a layout", "statement": "On lines of up to 262144 pixels glyph positions are stored exactly. Carets computed in single precision stay inside their run, are exact at glyph edges, are within 3/2^(25-k) pixels of the exact place on runs of 2^k pixels, and never move against the reading direction as the cursor advances, also after alignment. Alignment of widths in 64ths of a pixel is exact. The bottoms of lines never decrease, however many there are, so the line found for a height is the first whose bottom reaches it; heights in 64ths add up exactly. The width of the text area is cut to a 64th of a pixel.", "quantifier": "all documents, runs, cursor positions, alignments, all lists of line heights from 0 to 2^30 pixels, all text areas of less than 2^25 pixels", "why_tests_cant": "Rounding errors depend on the exact numbers; an inversion of two carets or a line search that misses would appear for a few of the many possible widths and counts.", "anchors": ["src/layout_info.cpp: LayoutInfo::get_glyph_offset_ltr, get_glyph_offset_rtl, get_line_x_start, calc_cursor_pixel_pos, append_line, get_closest_line_to_height", "src/layout_builder.cpp: LayoutBuilder::append_visual_run, build_layout_info"]}
{"id": "C78", "title": "The outline given to the distance field generator is the outline of the glyph", "statement": "Every straight or curved edge of the glyph, in order, becomes an edge of the shape; only straight edges of length zero are dropped and nothing is added. Every ring of the glyph becomes a contour of its own whose edges join all around (refuted for glyphs with more than one ring: all rings after the first are appended to the first contour).", "quantifier": "all glyph outlines: any number of rings, of edges, any coordinates", "why_tests_cant": "Outlines come from fonts; empty rings, edges of length zero and several rings meet in more ways than a test font shows.", "anchors": ["sample/msdf_text_atlas.cpp: load_msdf_shape, msdf_move_to, msdf_line_to, msdf_conic_to, msdf_cubic_to"]}
{"id": "C79", "title": "A distance field picture has room for its glyph and is placed where the glyph is", "statement": "The picture of a glyph has between one and a half and two pixels around the glyph on all sides (at 32 pixels per em) and exists unless it is larger than the program can count. Drawn at any size with its corner at the answered offset from the pen, every point of the glyph is where the font has it. Every pixel stores the clamped value of the field at its place.", "quantifier": "all glyph bounds, all units per em, all fields without NaN, all pixels", "why_tests_cant": "An error of one pixel in the frame or in the offset depends on the fractional part of the bounds and shows for some glyphs only.", "anchors": ["sample/msdf_text_atlas.cpp: load_msdf_shape, msdf_make_color, saturate", "sample/bitmap.cpp: Bitmap::set_pixel"]}
{"id": "C80", "title": "Distance field pictures belong to the glyph asked for", "statement": "Whatever was asked before, a glyph is answered with the rectangle holding its own picture, with lengths scaled to the size of the font; strokes with theirs. Rectangles of different glyphs stay apart. (Refuted for glyphs in imitated weights and styles, for the scale of strokes, for subscripts and superscripts, and for blank glyphs asked for twice.)", "quantifier": "all histories of requests, fonts, sizes, glyphs, strokes, outlines and fields", "why_tests_cant": "The answer depends on the whole history of the cache; a key that forgets part of the request is seen only if two requests differ in just that part.", "anchors": ["sample/msdf_text_atlas.cpp: MSDFTextAtlas::get_glyph_info, get_stroke_info, handle_rasterization, GlyphKey, StrokeKey"]}
{"id": "C81", "title": "Imitated weights and styles change the outline as asked", "statement": "A glyph in the weight and style of its face is drawn as it is in the font. In another style it leans by the sine of 12 degrees, heights unchanged, and leaning back undoes it to the unit. In another weight it is emboldened, more for heavier weights, not at all for regular, by at most an eighth of the em, and recentred in fixed-width faces. (Refuted: strokes of imitated weights, the weight the face already has, and curves in font units.)", "quantifier": "all outlines, faces with ems of up to 2^24 units, pairs of weights and styles", "why_tests_cant": "Fixed point and float roundings depend on every coordinate; the claims are about all pairs of weights and all outlines.", "anchors": ["src/font_data.cpp: FontData::rasterize_glyph_internal, rasterize_outline_internal, load_glyph_curve_internal, load_outline_curve_internal, try_apply_synthetics, apply_synthetic_bold, apply_synthetic_italic"]}
{"id": "C82", "title": "Menu items switch their settings", "statement": "Each setting and the check mark of its item are on exactly when the item was pressed an odd number of times. A press or release goes to the item of the open menu under the mouse, else to the menu under it, else to the text box; items and text box do not disturb which menu is open; items lie inside their tray and share at most a line. (Refuted: a press on the border of an open tray goes to the text box behind it.)", "quantifier": "all histories of mouse moves, presses, releases and losses of focus, any number of menus and items", "why_tests_cant": "Which object takes an event depends on the order of objects and on which menu the whole history left open.", "anchors": ["sample/tool_bar_menu.cpp: ToolBarMenu::add_item, handle_mouse_button", "sample/tool_bar_menu_item.cpp: handle_mouse_button", "sample/ui_container.cpp: UIContainer::handle_mouse_button", "sample/main.cpp: set_up_toolbar"]}
{"id": "C83", "title": "The text box selects only while the mouse button is down", "statement": "The text box selects with the mouse from a press inside it until the button is released, something else is pressed or the window loses the focus. (Refuted: a release over a menu or item is taken there and the text box goes on selecting.)", "quantifier": "all histories of mouse events and losses of focus", "why_tests_cant": "The defect needs a press and a release over different objects; what must hold is that no history leaves the box selecting.", "anchors": ["sample/text_box.cpp: TextBox::handle_mouse_button, handle_focus_lost", "sample/ui_container.cpp: UIContainer::handle_mouse_button, handle_focus_lost"]}
{"id": "C84", "title": "The window is laid out after every resize", "statement": "After any resizes the container and viewport have the size of the window, the tool bar spans its top and the text box begins under the bar, 10 pixels from both sides, and ends inside the window. (Refuted for the bottom: the text box ends 10 pixels below the window.)", "quantifier": "all histories of resizes to any sizes", "why_tests_cant": "The layout is updated step by step from the old one, so an error may depend on the history.", "anchors": ["sample/main.cpp: on_resize, main", "sample/ui_object.cpp: find_first_child"]}
{"id": "C85", "title": "Objects are found by their names", "statement": "Searching an object finds its first child of exactly the name asked for, or nothing if it has none. The full name of an object is the names from the root down to it joined by dots, and leads back to it if siblings have different names and no name has a dot. (Refuted for children lost by the defect of C45.)", "quantifier": "all trees that calls can build, all names", "why_tests_cant": "The walks follow links that histories of insertions and removals left; order and completeness must hold for all of them.", "anchors": ["sample/ui_object.cpp: UIObject::find_first_child, get_full_name", "sample/ui_object.hpp: for_each_child, for_each_ancestor"]}
{"id": "C86", "title": "OpenGL objects have one owner and are deleted once", "statement": "Whatever a program does with images and pipelines (making, moving, assigning, using, ending them; shaders compiling or not, programs linking or not), only OpenGL objects that exist are used or deleted, every existing one belongs to exactly one image or pipeline, moving and assigning hand them on, shaders are never left behind, and none is left when all images and pipelines are gone; the three pipelines of the program are made and unmade without rest. (Refuted: moving an image or pipeline declared without an initialiser reads members never written.)", "quantifier": "all sequences of operations on any number of images and pipelines, all answers of OpenGL that keep its rule about new names", "why_tests_cant": "A double deletion or leak needs one particular order of moves, ends and failures and has no visible effect when it happens.", "anchors": ["sample/image.cpp: Image::Image, ~Image, operator=, write, bind", "sample/pipeline.cpp: Pipeline::Pipeline, ~Pipeline, operator=, try_compile_program, try_compile_shader, init_pipelines, deinit_pipelines"]}
{"id": "C87", "title": "Font objects live as long as the thread and are released once", "statement": "Whatever fonts a thread asks for and draws with, only existing FreeType and HarfBuzz objects are used or released, fonts answered earlier stay usable, a face is loaded once, strokes leave no stroker, outline or memory behind, and at the end of the thread every face and font is released before the library. (Refuted: every loaded face leaves its HarfBuzz face behind and every stroke the glyph it was made from.)", "quantifier": "all histories of a thread, all orders of clearing its cache, all names and failures of the two libraries", "why_tests_cant": "Leaks and double releases are invisible in results; a use after release needs one particular order.", "anchors": ["src/font_registry.cpp: FontDataOwner, FontContext, FontRegistry::get_font_data", "src/harfbuzz_font.cpp: harfbuzz_font_create, harfbuzz_face_create, set_font_funcs, harfbuzz_font_destroy", "src/font_data.cpp: FontData::rasterize_outline_internal, rasterize_outline_finish, load_outline_curve_internal, outline_curve_finish"]}
{"id": "C88", "title": "Font measures and decoration lines are where the font says", "statement": "For every scalable font, ascent, descent, em size and scale, and the position and thickness of underline and strike-out, are finite and equal to what the font file says at the size in use, up to one part in four million; lowered and raised text reports the reach it would have unlowered; descent never exceeds ascent after rounding; larger sizes never give thinner lines. (Refuted for bitmap fonts, which have no units per em, and for the lowest strike-out position.)", "quantifier": "all units per em, sizes, ascenders and descenders up to 2^24 64ths of a pixel, all sixteen-bit positions and thicknesses", "why_tests_cant": "Rounding errors depend on every pair of size and units; tests use a few fonts.", "anchors": ["src/font_data.cpp: FontData::get_ascent, get_descent, get_ppem_x, get_ppem_y, get_scale_x, get_scale_y, get_underline_position, get_underline_thickness, get_strikethrough_position, get_strikethrough_thickness", "src/font_registry.cpp: FontRegistry::get_font_data", "src/text_draw_util.hpp: draw_text"]}
{"id": "C89", "title": "The shaper is asked for the right letters of the right text", "statement": "For every run of a paragraph the shaper gets exactly the run's characters with their places, up to five characters of the paragraph on either side, direction, script, language and whether the run starts or ends the paragraph; the font's own small capitals, lowered or raised letters are asked for over the whole run exactly when wanted and not imitated, so each wanted kind is provided in exactly one way; runs do not influence each other through the shared buffer. (Refuted: imitated small capitals are shaped without their surroundings.)", "quantifier": "all paragraphs of well-formed text, all runs in them, all fonts and directions, all sequences of runs, all states the shaper leaves its buffer in", "why_tests_cant": "The shaping library hides what it is told; a wrong range or missing context only shows with particular fonts and letters.", "anchors": ["src/layout_builder.cpp: LayoutBuilder::shape_logical_run, maybe_add_tag_runs", "src/font_registry.cpp: get_sub_font"]}
{"id": "C90", "title": "A layout builder works with proper memory and leaves none behind", "statement": "Over any program that creates, moves, assigns, uses and ends layout builders, only existing objects are used or released, everything made for bidirectional analysis is released by the end of the call, line iterator and buffer are held by exactly one builder and released with it. (Refuted: every run and every broken paragraph leaves the text block opened for ICU behind; moves read an unwritten number; a builder moved from cannot be used.)", "quantifier": "all programs with any number of builders, all texts with any number of paragraphs, runs and lines", "why_tests_cant": "Leaks and double releases do not show in results, and depend on the numbers of paragraphs, runs and lines.", "anchors": ["src/layout_builder.cpp: LayoutBuilder::LayoutBuilder, ~LayoutBuilder, operator=, build_layout_info, build_paragraph, compute_line_visual_runs", "src/font_registry.cpp: FontRegistry::get_sub_font"]}
{"id": "C91", "title": "The screen shows the text and its selection in the right places", "statement": "Drawing a laid out text puts one box behind each run with selected characters, reaching from the caret at the start of the selection to the caret at its end and from the top to the bottom of the line, and nothing visible behind other runs. Over the boxes every glyph, stroke and line the library asks for is shown at its place, every column of it exactly once with the right part of its picture; it is white over the box and in its own colour elsewhere, strokes keep their colour, glyphs with colours of their own keep them. Without selection or formatting all is in its own colour. (Refuted: in centred and right-aligned text the white part is not over the box; an empty selection turns thin letters white; parts narrower than a pixel beside the box are white.)", "quantifier": "all documents with any number of lines, runs and glyphs, all formattings, selections, alignments, positions on the screen, pictures and settings of the drawing aids", "why_tests_cant": "Colours and positions depend on where each glyph picture meets the ends of the selection, for every combination of direction, alignment and picture offset.", "anchors": ["sample/ui_container.cpp: UIContainer::draw_text, UIContainer::emit_rect, UIContainer::draw_rect_internal", "src/text_draw_util.hpp: draw_text", "src/layout_info.cpp: LayoutInfo::run_contains_char_range, LayoutInfo::get_position_range_in_run"]}
{"id": "C92", "title": "The caret blinks where the cursor is", "statement": "In the picture of a text box that has the focus the caret is a black bar one pixel wide, exactly where the layout has the caret of the cursor; in an empty box it is at the top left and as high as the font. Without focus there is none. Each time a key or the mouse puts the cursor somewhere it is seen at once, for half a second; then it is hidden and seen in turn for half a second each, and after five seconds it stays. The times are kept to within 1/16777216 of a second for each frame and each second. Drawing never fails. (Refuted: typing does not bring a hidden caret back; when all text has been deleted the next frame reads behind the end of the formatting.)", "quantifier": "all histories of events, all texts and layouts, all sequences of frames of up to 2^20 seconds each", "why_tests_cant": "Frame times vary; rounding adds up over any number of frames, and the place must be right after every history of edits.", "anchors": ["sample/text_box.cpp: TextBox::update, TextBox::render, TextBox::set_cursor_position_internal, TextBox::recalc_text", "sample/text_box.hpp: TextBox"]}
{"id": "C93", "title": "A text box always shows its text under its present settings", "statement": "From its creation, through every history of events and of calls of set_font, set_text, set_text_x_alignment, set_text_y_alignment, set_text_wrapped, set_size, set_editable and set_multi_line, a text box shows its present text laid out with its present font, size, wrapping and alignments, with the caret of its present cursor. Each setter changes its own setting and neither text, cursor, selection nor focus; every event does what it should (C44) under the settings of that moment. Without wrapping no line is broken at the box's width. (Refuted: set_selectable(false) does not keep text from being selected, a box for a single line takes line feeds from the clipboard.)", "quantifier": "all histories of setter calls and events in any order, before and after a font is set; all fonts, sizes and alignments", "why_tests_cant": "A setter that forgets to lay the text out again shows only in certain orders of calls.", "anchors": ["sample/text_box.cpp: TextBox::recalc_text, TextBox::set_font, TextBox::set_text, TextBox::set_text_x_alignment, TextBox::set_text_y_alignment, TextBox::set_text_wrapped, TextBox::set_multi_line, TextBox::set_editable, TextBox::set_selectable, TextBox::set_size"]}
{"id": "C94", "title": "UI objects live exactly as long as someone has them", "statement": "A UI object exists as long as the program holds it, its parent exists, or an object exists that was put under the same parent before it; when none of this holds any more it is destroyed at once, with all that only it kept. Nothing that is in use is ever destroyed: a call of set_parent on an object and a new parent that the program holds never touches a destroyed object, after any history. A program that lets all its objects go leaves none behind. (Refuted: taking away an object that only its parent holds uses it after its destruction; an object taken away keeps its former sibling alive; taken away and put back it is never destroyed; taking the last child away and adding another destroys the children before it.)", "quantifier": "all histories of creating, holding, letting go and re-parenting any number of objects", "why_tests_cant": "Which pointer is the last one to an object depends on the whole history; a use after destruction often goes unnoticed.", "anchors": ["sample/ui_object.cpp: UIObject::set_parent", "sample/ui_object.hpp: UIObject"]}
{"id": "C95", "title": "Moving an object is as much work as it has descendants", "statement": "Moving an object computes the positions of the object and its descendants and of nothing else, its own and those of its children exactly once. (Refuted below that: every descendant is computed twice as often as its parent, so the work is a power of two of the depth.)", "quantifier": "all trees of objects that allowed histories lead to, all objects and positions", "why_tests_cant": "The cost is a law over trees of every shape and depth; small trees do not show it.", "anchors": ["sample/ui_object.cpp: UIObject::recalc_absolute_dimensions, UIObject::set_position", "sample/ui_object.hpp: UIObject::for_each_descendant, UIObject::for_each_child"]}
{"id": "C96", "title": "A rectangle colours exactly its pixels, each once", "statement": "A rectangle drawn with the rectangle pipeline at any fractional position colours exactly the pixels from the whole pixel at its upper left corner up to that of its lower right corner, in rows counted from the top of the window, and each of them exactly once: there is no seam, gap or double blending along its diagonal. Under a highlight the parts it is cut into have together exactly the same pixels, each once. A plain rectangle lays its own colour over them. Distance field rectangles are not moved to whole pixels and colour the pixels whose centre is inside.", "quantifier": "all rectangles, window sizes, pixels, highlights, frame contents and every choice OpenGL may take for pixels on edges", "why_tests_cant": "It must hold at every fractional position and for every way a driver may break ties; a picture test shows one position on one driver.", "anchors": ["sample/rect_shader.hpp: RectShader", "sample/msdf_shader.hpp: MSDFShader", "sample/ui_container.cpp: UIContainer::emit_rect, UIContainer::draw_rect_internal", "sample/pipeline.cpp: init_pipelines"]}
{"id": "C97", "title": "Glyph pictures appear texel for texel", "statement": "The picture of a glyph appears in its own size wherever it is put: each pixel shows exactly one texel of the picture, unfiltered, multiplied with the colour and laid over what was there. In an opaque colour a pixel becomes the mixture of background and text colour by the coverage the font has for it. (Refuted for a glyph cut by the end of a highlight: its pixels show mixtures of neighbouring texels.)", "quantifier": "all pictures, places in a texture, fractional positions, colours, frame contents and window sizes", "why_tests_cant": "Exact agreement of pixel centres with texel centres has to hold at every position and for every size.", "anchors": ["sample/rect_shader.hpp: RectShader", "sample/image.cpp: Image::Image", "sample/text_atlas.cpp: TextAtlas::upload_glyph", "sample/ui_container.cpp: UIContainer::emit_rect"]}
{"id": "C98", "title": "Outlines are closed lines drawn once", "statement": "The outline of a rectangle is the complete border of the block of pixels from its upper left to its lower right corner, without gaps, and each pixel of it is drawn once; one that is narrower than a pixel is still a whole line. (Refuted: that it stays on the rectangle; its right column and bottom row are beside it.)", "quantifier": "all rectangles and window sizes", "why_tests_cant": "The corners of the four lines have to fit at every fractional position and size.", "anchors": ["sample/outline_shader.hpp: OutlineShader", "sample/pipeline.cpp: init_pipelines"]}
{"id": "C99", "title": "Distance field text has soft edges and nothing else", "statement": "The distance a pixel of distance field text is judged by is the middle one of the three channels. Its opacity is between 0 and 1, one half on the edge of the glyph, 0 outside and 1 inside the width of a pixel, and never falls as the distance rises. (Refuted where the distance does not change between pixels, as deep inside and outside of a glyph: the shader asks for a step of width zero, which GLSL leaves undefined.)", "quantifier": "all distances, derivatives, textures and texture coordinates", "why_tests_cant": "The law is about all real distances; what is undefined often happens to look right on the driver at hand.", "anchors": ["sample/msdf_shader.hpp: MSDFShader"]}
{"id": "C100", "title": "The tool bar highlights what is under the mouse", "statement": "From the first movement of the mouse on, the open menu of the tool bar is shown as open; while no menu is open, the menu under the mouse is highlighted; no other menu is. An item of a menu is highlighted exactly while the mouse is in its row. (Refuted on the line between two menus, where both are highlighted and one of them may stay so while the mouse is elsewhere, and on the line between two items, where both are highlighted although a press goes to one.)", "quantifier": "all menus and items, starting points and sequences of mouse movements, presses and releases", "why_tests_cant": "What is highlighted depends on the whole history of movements and presses; a highlight left behind shows only after particular sequences.", "anchors": ["sample/tool_bar.cpp: ToolBar::handle_mouse_move", "sample/tool_bar_menu.cpp: ToolBarMenu::handle_mouse_button", "sample/tool_bar_menu_item.cpp: ToolBarMenuItem::handle_mouse_move"]}
{"id": "C101", "title": "The tool bar looks as designed, pixel by pixel", "statement": "After any history of mouse events the tool bar colours these pixels and no others: a line of two pixels along its lower end; each button once with its colour and its border; below the open menu a grey tray with a border, the row of the item under the mouse, and a darker square in it if the item is on. The names of the menus, the texts of the items of the open menu, and a check mark for each item switched on an odd number of times are put on their buttons and rows, and nothing drawn later covers them. (Refuted: the area of the text of an item stays inside the tray; it reaches 29 pixels beyond.)", "quantifier": "all menus with nonempty names, window sizes, histories of mouse events, frame contents and rasterisers that obey the rules of OpenGL", "why_tests_cant": "Every pixel of every state of the bar has to be right, on every conforming rasteriser; translucent colours show it when a pixel is drawn twice.", "anchors": ["sample/tool_bar.cpp: ToolBar::render", "sample/tool_bar_menu.cpp: ToolBarMenu::render", "sample/tool_bar_menu_item.cpp: ToolBarMenuItem::render", "sample/frame.cpp: Frame::render", "sample/ui_object.cpp: UIObject::render_internal"]}
{"id": "C102", "title": "Hash tables are dictionaries", "statement": "Whatever was stored and looked up before and however the tables grow, a lookup of a glyph, a stroke, or the name of a face or family finds the first value stored under an equal key, and nothing when there is none. Names are found by their characters whether asked for by string, view or pointer. No two glyphs of the distance field atlas have the same hash value.", "quantifier": "all histories of insertions and lookups, all keys, all policies by which the standard library chooses the number of buckets, all std::hash functions that agree on strings and views", "why_tests_cant": "A hash function that disagrees with equality loses an entry only for particular keys at particular table sizes.", "anchors": ["src/string_hash.hpp: StringHash", "sample/text_atlas.cpp: TextAtlas::GlyphKeyHash, TextAtlas::StrokeKeyHash", "sample/msdf_text_atlas.cpp: MSDFTextAtlas::GlyphKeyHash, MSDFTextAtlas::StrokeKeyHash"]}
{"id": "C103", "title": "Files are read whole", "statement": "Reading a file returns every byte of it, zeros and line ends included, and nothing if it cannot be opened; the stream is closed. The sample program starts with the text of its file or with a message that there is none. (Refuted: a read that stops early is padded with zeros; where the size is unknown an exception leaves the stream open; an empty file is reported as missing.)", "quantifier": "all files, contents and answers of the C library", "why_tests_cant": "The failures of the C library cannot be provoked one by one, and contents are unbounded.", "anchors": ["src/file_read_bytes.hpp: file_read_bytes", "sample/main.cpp: main"]}
{"id": "C104", "title": "Labels are drawn where they are put", "statement": "A text drawn at once (the names of menus, the texts and check marks of items) is laid out in lines for the width of its area and every glyph of it is drawn exactly once, in the given colour, on its line: lines below each other, each aligned in the width, the block of lines aligned in the height, so that it lies inside the area if it fits and centred text leaves equal space on both sides. An empty text draws nothing. (Refuted: the table of fonts is read past its end for every text without a final line break; a text wider than its area is broken into lines that leave the area above and below; the space at such a break shifts centred lines.)", "quantifier": "all texts, fonts, colours, areas and alignments, all answers of the text libraries within their contracts", "why_tests_cant": "Positions depend on the widths of all glyphs, on the breaks and on the heights of all lines of an unbounded text.", "anchors": ["sample/ui_container.cpp: UIContainer::draw_text_immediate, UIContainer::draw_text", "src/layout_builder.cpp: LayoutBuilder::build_layout_info"]}
{"id": "C105", "title": "Frames, events and the clock", "statement": "The program shows one picture per frame until the user presses Escape or closes the window, and none after. The user interface is told every other event exactly once and in order; each picture is drawn on white after all events of earlier frames and none of later ones, and after the time of its frame has been told. Over any number of frames the blinking caret keeps to the clock, up to an eight-millionth of a second per frame and per second. GLFW and OpenGL are used in the order they require from start to end. (Refuted: a window that cannot be made, as where there is no OpenGL 4.6, is used all the same; on screens with several pixels per unit the mouse acts elsewhere than where it points.)", "quantifier": "all sequences of frames, events of each poll and readings of the clock", "why_tests_cant": "Runs are unbounded, and what arrives in which poll is up to the system; errors of rounding add up over frames.", "anchors": ["sample/main.cpp: main, on_key_event, on_mouse_button_event, on_mouse_move_event, on_text_event, on_focus_event, on_resize, render", "sample/text_box.cpp: TextBox::update"]}
{"id": "C106", "title": "Markup appears on the screen as its tags say", "statement": "A text box with rich text shows exactly the characters that its markup displays, each on its line, in the colour and with the outline of the innermost tag around it that sets one and in the face and size the font registry chooses for the font and the styles of its tags, underlined and struck through where a tag says so and nowhere else. (Refuted: markup that displays nothing leaves the old layout, and drawing it reads outside the tables.)", "quantifier": "all markup documents, base fonts and colours, areas, alignments and answers of the libraries within their contracts", "why_tests_cant": "The markup, its nesting and the text are unbounded, and parsing, layout and drawing must agree about every byte.", "anchors": ["sample/text_box.cpp: TextBox::recalc_text, TextBox::render", "src/formatting.cpp: parse_inline_formatting", "src/layout_builder.cpp: LayoutBuilder::build_layout_info", "src/text_draw_util.hpp: draw_text", "sample/ui_container.cpp: UIContainer::draw_text"]}
{"id": "C107", "title": "Families are read from the bytes of their files", "statement": "Registering a family from a file reads the whole text of the file and nothing else, and closes it; a file that cannot be opened is refused and registers nothing. Loading a directory reads exactly the files whose names are something followed by .json. A text given in memory is read from its first to its last byte. (Refuted for texts in memory: a string literal is always refused, a part of a longer text is read to the end of the longer one, and memory behind a text without a zero byte is read; and what follows a zero byte in a file is ignored.)", "quantifier": "all files, names, contents and answers of the C library, all texts in memory and all bytes behind them", "why_tests_cant": "Names and contents are unbounded, and what lies behind a text in memory differs from run to run.", "anchors": ["src/font_registry_json.cpp: register_families_from_path, register_family_from_json_file, register_family_from_json_data", "src/file_read_bytes.hpp: file_read_bytes"]}
{"id": "C108", "title": "Pages of the glyph atlas show the pixels FreeType rendered", "statement": "Ask a new glyph atlas for any sequence of filled and stroked glyphs.  Each answer has the width, height and offset that FreeType gave the glyph's picture, and its rectangle of the page shows FreeType's pixels, row by row: a grey level as the opacity of white; a coloured pixel with its opacity unchanged and each colour divided by the opacity, correct to one step of 255.  Nothing is read outside FreeType's buffer.", "quantifier": "for all sequences of requests and all pictures FreeType may produce: sizes, row distances (padded or bottom-up), pixel formats, bytes, failed renderings", "why_tests_cant": "every byte pattern, size and row layout must come through, including those no font at hand produces, and failures for lack of memory", "anchors": ["src/font_data.cpp: rasterize_glyph_internal, rasterize_outline_internal", "src/font_data.hpp: FontRasterizeInfo", "sample/text_atlas.cpp: handle_rasterization, get_glyph_info, get_stroke_info"]}
{"id": "C109", "title": "Clicking lands on the nearest caret in single precision", "statement": "With every number kept as the program keeps it, in single precision: a click always gives an answer, whatever floats are in the layout tables, the widths and the click, infinities and not-a-number among them. The answer is a caret stop of the line that was clicked. For ordinary coordinates no caret stop of the line is nearer to the click than the one returned, up to one part in four million, and clicking exactly where a caret is drawn gives a position whose caret is exactly there. When all numbers are 26.6 fixed point up to 32768, the click is on a half of a 64th and every glyph is one caret stop, the answer is the very cursor that exact arithmetic gives.", "quantifier": "every text layout (lines, runs in both directions, clusters of several characters), every break iterator, every alignment, all single precision click coordinates and widths", "why_tests_cant": "Whether rounding makes two comparisons disagree depends on the exact bit patterns of positions, widths and click; a wrong result needs a coincidence that examples do not hit.", "anchors": ["src/layout_info.cpp: LayoutInfo::find_closest_cursor_position, LayoutInfo::get_line_x_start", "src/cursor_controller.cpp: CursorController::closest_to_position"]}
{"id": "C110", "title": "Selection boxes and glyphs in single precision", "statement": "For a laid out text with 26.6 metrics in which nothing is beyond 2^k pixels (k at most 15), drawn at a place and with a start on the grid of 1/128 pixel, the floats the program computes for the boxes of a selection are: one box for each run that meets the selection, in the order of the runs; its top and its height exactly those of the run's line; its width not negative; its left edge and width within 7/2^(25-k) pixels of the exact ones, and exact when the ends of the selection are where glyphs begin. Up to 2^14 pixels every glyph's origin is exact. Whatever the numbers are, selections that meet in a run share the same edge to the last bit.", "quantifier": "every document of lines, runs and glyphs, every selection, every alignment, every text area, position and vertical start on the grid", "why_tests_cant": "The claim is about rounding in sums over arbitrarily many lines and glyphs; a test sees a few documents and cannot exclude a drift in others.", "anchors": ["src/layout_info.cpp: LayoutInfo::get_position_range_in_run, get_line_height", "src/layout_info.hpp: for_each_line, for_each_run", "src/text_draw_util.hpp: draw_text", "sample/ui_container.cpp: UIContainer::draw_text"]}
{"id": "C111", "title": "HarfBuzz gets the font's tables, glyph names and kerning unchanged, and buffers are neither lost nor freed twice", "statement": "For every sequence of requests for font tables and releases, and for every failure of FreeType, of the allocator or of HarfBuzz: no buffer is freed twice, every buffer in use belongs to exactly one blob HarfBuzz still has, and when all are released none is left. Every blob holds the bytes of the table it was asked for, or is empty. A glyph's name, asked with enough room, is given whole, and asking for the glyph with that name gives the glyph back. Kerning is FreeType's unfitted value, 0 when there is none.", "quantifier": "every font (tables, names, kerning), every sequence of table requests and releases, every pattern of failures, every buffer size", "why_tests_cant": "Leaks and double frees depend on which of several calls fails and on the order in which HarfBuzz gives blobs back; tests do not inject these failures.", "anchors": ["src/harfbuzz_font.cpp: face_reference_table, harfbuzz_face_create, hb_ft_get_glyph_name, hb_ft_get_glyph_h_kerning"]}
{"id": "C112", "title": "Glyphs appear on the screen in the font engine's own shades and colours", "statement": "From the font engine's bytes to the pixels of the window: after any history of requests to the text atlas for pictures it can draw, drawing the rectangle an answer names from the texture of the page it names colours each pixel of the picture. A picture in grey levels gives the text's colour with exactly the opacity the engine gave that pixel; a picture in colours drawn in white gives the engine's colours, red as red and blue as blue, within 1.01/255. Bitmaps are read row by row without padding or shear. The pages of the field atlas are uploaded with red and blue exchanged, and no pixel on the screen depends on that. The default texture is white.", "quantifier": "all font engines (pictures), all histories of requests, all sequences of uploads, all windows, positions, text colours, backgrounds and pixels, whatever undefined contents a new texture has", "why_tests_cant": "The colour of a pixel is the end of a chain through a division and a packing in single precision, memory order, an upload format and a shader; a swapped channel shows neither in black-and-white text nor in distance fields, and the rounding of the division is to be bounded for every pair of bytes.", "anchors": ["sample/image.cpp:Image::write", "sample/image.cpp:Image::Image", "sample/text_atlas.cpp:handle_rasterization", "sample/text_atlas.cpp:upload_glyph", "sample/text_atlas.cpp:get_or_create_target_page", "sample/msdf_text_atlas.cpp:get_or_create_target_page", "sample/bitmap.cpp:set_pixel", "src/color.hpp:to_argb", "sample/msdf_shader.hpp", "sample/rect_shader.hpp"]}
{"id": "C113", "title": "The caret appears where the text was clicked", "statement": "After a click on the text the caret is drawn in the clicked line, at a place of that line where the cursor can stop, and no such place of the line is nearer to the click. This holds at every boundary between runs and lines, where one text position has two carets: the cursor remembers which one was meant. Known defect: in a left-to-right line that ends with a right-to-left word, a click at the line's right end draws the caret on the left of that word.", "quantifier": "every stored document of left-to-right lines with single right-to-left words, and of one-line paragraphs of one run of either direction; every width, alignment, click point and set of cursor stops", "why_tests_cant": "the result depends on how two searches (point to cursor, cursor to place) agree at every combination of run directions, run boundaries, soft and hard line ends, and empty lines", "anchors": ["src/layout_info.cpp:96-109 LayoutInfo::calc_cursor_pixel_pos", "src/layout_info.cpp:207-318 LayoutInfo::find_closest_cursor_position", "src/layout_info.cpp LayoutInfo::get_run_containing_cursor", "src/cursor_controller.cpp:123-132 CursorController::closest_to_position"]}
{"id": "C114", "title": "Up, Down, Home and End move the caret where the eye expects", "statement": "Down draws the caret in the next line and Up in the line before, at the place of that line nearest to where the caret was; in the last or first line the cursor stays. Home draws it at the left edge of its line and End at the right edge, in the same line. The text stays, and with Shift the selection begins where it began or where the cursor was. Known defects: End in a left-to-right line that ends with a right-to-left word draws the caret on the left of that word; Home in a right-to-left paragraph broken into lines jumps to the next line.", "quantifier": "every text box whose layout is a document as in C113, every cursor line and caret place, width, alignment and set of cursor stops, with and without Shift", "why_tests_cant": "the result depends on the agreement of the search for a place in a line with the search for a cursor's line and run, at all combinations of directions, soft and hard line ends and empty lines", "anchors": ["sample/text_box.cpp:229-251 TextBox::cursor_move_to_next_line, cursor_move_to_prev_line, cursor_move_to_line_start, cursor_move_to_line_end", "sample/text_box.cpp:267-283 TextBox::set_cursor_position_internal", "src/layout_info.cpp:152-190 LayoutInfo::get_line_start_position, get_line_end_position", "src/layout_info.cpp:96-144 LayoutInfo::calc_cursor_pixel_pos, get_run_containing_cursor"]}
{"id": "C115", "title": "In left-to-right text the carets stand in reading order", "statement": "In a text of left-to-right runs, a cursor further on in the text is drawn in a lower line, or in the same line and not further left, whatever affinity the two cursors have.  So Right and Ctrl+Right never draw the caret before the place where it was, Left and Ctrl+Left never after it, with Shift or without; each moves the cursor unless it is at the end (start) of the text already, where it stays.", "quantifier": "every text of left-to-right runs that lie beside each other in their lines (any number of lines, runs and glyphs, ligatures, soft and hard line breaks), every width and alignment, every pair of cursors outside of line separators, every set of caret stops", "why_tests_cant": "a caret that jumps back shows only where a ligature, a run boundary or a soft break meets a particular affinity", "anchors": ["src/layout_info.cpp: LayoutInfo::calc_cursor_pixel_pos, get_run_containing_cursor, get_glyph_offset_ltr", "src/cursor_controller.cpp: CursorController::next_character, prev_character, next_word, prev_word", "sample/text_box.cpp: TextBox::handle_key_press, cursor_move_to_next_character, cursor_move_to_prev_character, set_cursor_position_internal"]}
{"id": "C116", "title": "Double, triple and quadruple clicks select the word, the line, everything", "statement": "In a text box that has the focus, the second click in a row selects the clicked word with the white space after it in the same line, the third the clicked line from its left to its right edge, the fourth all text.  The text stays as it is.", "quantifier": "every text, layout, width, alignment and set of caret stops; every clicked point; every number of clicks in a row; every classification of characters as white space", "why_tests_cant": "words are found by two searches, backwards and forwards, from a position that itself depends on rounding to the nearest caret; every place in every text matters", "anchors": ["sample/text_box.cpp: TextBox::handle_mouse_button, cursor_move_to_prev_word, cursor_move_to_next_word, cursor_move_to_line_start, cursor_move_to_line_end", "sample/ui_container.cpp: UIContainer::text_box_click", "src/cursor_controller.cpp: CursorController::prev_word, next_word"]}
{"id": "C117", "title": "Edits take each other back", "statement": "In an editable text box with the focus: cutting a selection and pasting gives the same text again, and so does copying a selection and pasting over it; the clipboard then has what was selected and the cursor is after it.  Without a selection, Backspace directly after typing a character, Enter or Tab gives back the text and the place of the cursor as they were.", "quantifier": "every text and every history of events as in C44 before the two edits; every character; every break iterator and layout engine that meets their contracts", "why_tests_cant": "the two edits have to agree on byte offsets for every text, cursor, direction of selection and character length", "anchors": ["sample/text_box.cpp: TextBox::handle_key_press, handle_key_backspace, insert_typed_character, insert_text, remove_text, remove_highlighted_text, clipboard_cut_text, clipboard_copy_text, clipboard_paste_text"]}
{"id": "C118", "title": "Dragging selects from the caret nearest to the press to the caret nearest to the mouse", "statement": "In a text box that has the focus, pressing the mouse button and moving the mouse selects the text from the caret nearest to the pressed point to the caret nearest to the mouse, whichever way the mouse went in between.  The text stays as it is, and once the button is up moving the mouse changes nothing.", "quantifier": "every text, layout, width, alignment and set of caret stops; every pressed point; every sequence of mouse movements before and after the button is let go", "why_tests_cant": "the start of the selection must survive any number of movements, and both ends depend on rounding to the nearest caret at every point", "anchors": ["sample/text_box.cpp: TextBox::handle_mouse_button, handle_mouse_move, cursor_move_to_mouse, set_cursor_position_internal"]}
{"id": "C119", "title": "Characters that belong together are shaped together", "statement": "A character and the combining marks, joiners or variation selectors after it go to the shaper in one piece, with one font, whenever one font of the family and its fallbacks can show them together.  A variation sequence the font has a glyph for gets that glyph.", "quantifier": "every history of registrations, family, weight, style, script and text; every coverage of the fonts; every position in the text", "why_tests_cant": "the text is cut where the chosen font lacks a character, which depends on the coverage of every font and on where the piece began", "anchors": ["src/font_registry.cpp: get_sub_font, find_compatible_font", "src/layout_builder.cpp: LayoutBuilder::build_paragraph", "src/harfbuzz_font.cpp: hb_ft_get_variation_glyph"]}
{"id": "C120", "title": "Typing at the end of a text leaves the fonts before it alone", "statement": "When characters are added at the end of a run of one script and style, every piece of the text before keeps the font chosen for it; at most the last piece becomes longer.", "quantifier": "every history of registrations, family, weight, style and script; every coverage of the fonts; every text and every text added to it", "why_tests_cant": "the choice of a font looks ahead in the text, so any later character could change any earlier choice", "anchors": ["src/font_registry.cpp: get_sub_font, find_compatible_font", "src/layout_builder.cpp: LayoutBuilder::build_paragraph"]}
