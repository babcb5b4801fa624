{
 "claims": [
  {
   "property": "C01",
   "status": "proved",
   "theorems": [
    "Verif.BinarySearchProps.C01_partition_point",
    "Verif.BinarySearchProps.C01_terminates_in_range"
   ],
   "note": ""
  },
  {
   "property": "C02",
   "status": "proved",
   "theorems": [
    "Verif.ValueRunsProps.C02_lookup",
    "Verif.ValueRunsProps.C02_run_index",
    "Verif.ValueRunsProps.C02_past_the_end_is_undefined"
   ],
   "note": ""
  },
  {
   "property": "C03",
   "status": "proved",
   "theorems": [
    "Verif.ValueRunsProps.C03_subset"
   ],
   "note": ""
  },
  {
   "property": "C04",
   "status": "proved",
   "theorems": [
    "Verif.ValueRunsProps.C04_packed_bool_runs",
    "Verif.ValueRunsProps.C04_packed_subset"
   ],
   "note": ""
  },
  {
   "property": "C05",
   "status": "proved",
   "theorems": [
    "Verif.ValueRunsProps.C05_intersections",
    "Verif.ValueRunsProps.C05_unequal_ends_refuted"
   ],
   "note": "Equal final limits are a precondition (as in all callers); without it the loop reads out of range (C05_unequal_ends_refuted)."
  },
  {
   "property": "C06",
   "status": "partial",
   "theorems": [
    "Verif.ValueRunsProps.C06_iterator",
    "Verif.ValueRunsProps.C06_advance_to_end_refuted",
    "Verif.ValueRunsProps.C06_maybe_default"
   ],
   "note": "The iterators follow lookups below the final limit; advancing to the final limit is undefined for every table (C06_advance_to_end_refuted)."
  },
  {
   "property": "C07",
   "status": "proved",
   "theorems": [
    "Verif.RunBuilderProps.C07_innermost_value",
    "Verif.RunBuilderProps.C07_current_value"
   ],
   "note": ""
  },
  {
   "property": "C08",
   "status": "proved",
   "theorems": [
    "Verif.PackingProps.C08_cursor_history",
    "Verif.PackingProps.C08_cursor_equality",
    "Verif.PackingProps.C08_cursor_validity",
    "Verif.PackingProps.C08_invalid_cursor"
   ],
   "note": ""
  },
  {
   "property": "C09",
   "status": "proved",
   "theorems": [
    "Verif.PackingProps.C09_font_face_round_trip",
    "Verif.PackingProps.C09_font_face_distinct"
   ],
   "note": ""
  },
  {
   "property": "C10",
   "status": "partial",
   "theorems": [
    "Verif.ColorProps.C10_round_trips",
    "Verif.ColorProps.C10_abgr_round_trip_refuted",
    "Verif.ColorProps.C10_channels_in_unit_range",
    "Verif.ColorProps.C10_abgr_red_refuted"
   ],
   "note": "argb and rgba hold for all 2^32 words; abgr holds for zero alpha and is refuted otherwise (C10_abgr_round_trip_refuted, C10_abgr_red_refuted)."
  },
  {
   "property": "C11",
   "status": "proved",
   "theorems": [
    "Verif.FormattingProps.C11_rejected_markup_verbatim"
   ],
   "note": "For texts without the two attribute shapes of C15 that overrun a buffer."
  },
  {
   "property": "C12",
   "status": "proved",
   "theorems": [
    "Verif.FormattingProps.C12_tables_cover_text"
   ],
   "note": ""
  },
  {
   "property": "C13",
   "status": "proved",
   "theorems": [
    "Verif.FormattingProps.C13_displayed_text",
    "Verif.FormattingProps.C13_subsequence",
    "Verif.FormattingProps.C13_plain_text_unchanged"
   ],
   "note": ""
  },
  {
   "property": "C14",
   "status": "proved",
   "theorems": [
    "Verif.FormattingProps.C14_innermost_tag_wins",
    "Verif.FormattingProps.C14_accepts_only_documents"
   ],
   "note": ""
  },
  {
   "property": "C15",
   "status": "partial",
   "theorems": [
    "Verif.FormattingProps.C15_memory_safe_partial",
    "Verif.FormattingProps.C15_documents_safe",
    "Verif.FormattingProps.C15_weight_overflow_refuted",
    "Verif.FormattingProps.C15_rgb_overflow_refuted"
   ],
   "note": "Refuted as stated: a weight attribute longer than 16 bytes and a three-digit rgb() channel overrun a buffer (C15_*_refuted). Every other text is safe."
  },
  {
   "property": "C16",
   "status": "proved",
   "theorems": [
    "Verif.FormattingProps.C16_terminates"
   ],
   "note": ""
  },
  {
   "property": "C17",
   "status": "proved",
   "theorems": [
    "Verif.FormattingIterProps.C17_iterator_tracks_tables",
    "Verif.FormattingIterProps.C17_start_at_end_refuted"
   ],
   "note": "For every start position below the text length; constructing the iterator at the text length itself is undefined (C17_start_at_end_refuted)."
  },
  {
   "property": "C18",
   "status": "partial",
   "theorems": [
    "Verif.FormattingIterProps.C18_events_balanced_partial",
    "Verif.FormattingIterProps.C18_events_exact",
    "Verif.FormattingIterProps.C18_end_without_begin_refuted"
   ],
   "note": "The exact event sequence is proved (C18_events_exact) and balance holds when no line style starts at a colour change; refuted in general (C18_end_without_begin_refuted)."
  },
  {
   "property": "C19",
   "status": "proved",
   "theorems": [
    "Verif.ScriptRunProps.C19_runs_tile"
   ],
   "note": ""
  },
  {
   "property": "C20",
   "status": "partial",
   "theorems": [
    "Verif.ScriptRunProps.C20_runs_homogeneous",
    "Verif.ScriptRunProps.C20_ill_formed_refuted"
   ],
   "note": "Proved for every well-formed UTF-8 text; refuted for ill-formed text (C20_ill_formed_refuted)."
  },
  {
   "property": "C21",
   "status": "proved",
   "theorems": [
    "Verif.ScriptRunProps.C21_bracket_stack",
    "Verif.ScriptRunProps.C21_bracket_lookup"
   ],
   "note": ""
  },
  {
   "property": "C22",
   "status": "proved",
   "theorems": [
    "Verif.BuilderProps.C22_line_runs",
    "Verif.BuilderProps.C22_every_line"
   ],
   "note": "For each line in isolation and for every line of every layout built under can_build (C22_every_line)."
  },
  {
   "property": "C23",
   "status": "partial",
   "theorems": [
    "Verif.BuilderProps.C23_line_positions",
    "Verif.BuilderProps.C23_every_line",
    "Verif.BuilderProps.C23_vertical_width_refuted"
   ],
   "note": "Positions are running sums on both axes and the width of a horizontal line is the total; get_line_width of a vertical line reads the coordinate across it (C23_vertical_width_refuted). Exact rationals instead of floats."
  },
  {
   "property": "C24",
   "status": "proved",
   "theorems": [
    "Verif.BuilderProps.C24_lines_tile"
   ],
   "note": "For every width, limit and bounded answer of the break iterator, on paragraphs whose tabs have a defined width (else undefined, see C54)."
  },
  {
   "property": "C25",
   "status": "partial",
   "theorems": [
    "Verif.BuilderProps.C25_lines_fit_partial",
    "Verif.BuilderProps.C25_white_space_refuted",
    "Verif.BuilderProps.C25_no_width_refuted"
   ],
   "note": "Lines fit up to hanging white space and break at opportunities; literally refuted by white space at line ends and by glyphs without width (C25_*_refuted)."
  },
  {
   "property": "C26",
   "status": "partial",
   "theorems": [
    "Verif.BuilderProps.C26_unwrapped_partial",
    "Verif.BuilderProps.C26_wrapped_pixels_partial",
    "Verif.BuilderProps.C26_wrapped_spaces_refuted",
    "Verif.BuilderProps.C26_hanging_refuted",
    "Verif.BuilderProps.C26_right_to_left_refuted"
   ],
   "note": "Proved in logical order without wrapping, and with wrapping for pixel widths before hanging white space; refuted with wrapping in units of spaces, for hanging tabs and beside right-to-left text (C26_*_refuted)."
  },
  {
   "property": "C27",
   "status": "proved",
   "theorems": [
    "Verif.BuilderProps.C27_paragraphs_tile",
    "Verif.BuilderProps.C27_empty_text"
   ],
   "note": "Under can_build: contracts of the engines, tables and readable memory after the text."
  },
  {
   "property": "C28",
   "status": "partial",
   "theorems": [
    "Verif.BuilderProps.C28_scripts_partial",
    "Verif.BuilderProps.C28_later_paragraph_refuted"
   ],
   "note": "Holds in the first paragraph and in paragraphs of one script; refuted for later paragraphs (C28_later_paragraph_refuted)."
  },
  {
   "property": "C29",
   "status": "partial",
   "theorems": [
    "Verif.BuilderProps.C29_merge_partial",
    "Verif.BuilderProps.C29_styles_refuted"
   ],
   "note": "Merged segments agree on face and size; styles, script and level may differ and the stored run then has the styles of its first segment (C29_styles_refuted)."
  },
  {
   "property": "C30",
   "status": "proved",
   "theorems": [
    "Verif.LayoutProps.C30_tables_exact",
    "Verif.LayoutProps.C30_empty_line",
    "Verif.LayoutProps.C30_any_history"
   ],
   "note": ""
  },
  {
   "property": "C31",
   "status": "proved",
   "theorems": [
    "Verif.LayoutProps.C31_line_geometry",
    "Verif.LayoutProps.C31_heights_nonnegative",
    "Verif.LayoutProps.C31_text_width",
    "Verif.LayoutProps.C31_vertical_alignment",
    "Verif.LayoutProps.C31_closest_line",
    "Verif.LayoutProps.C31_past_end_refuted",
    "Verif.LayoutProps.C31_start_ignored_refuted",
    "Verif.LayoutProps.C31_clear_keeps_start_refuted"
   ],
   "note": "Exact rationals instead of floats. Findings: past the last line the line count is returned, the vertical start is not taken into account by the line search, clear keeps it (C31_*_refuted)."
  },
  {
   "property": "C32",
   "status": "partial",
   "theorems": [
    "Verif.BuiltProps.C32_built",
    "Verif.LayoutProps.C32_interior",
    "Verif.LayoutProps.C32_every_position",
    "Verif.LayoutProps.C32_boundary_policy",
    "Verif.LayoutProps.C32_line_start_refuted",
    "Verif.LayoutProps.C32_visual_order_refuted",
    "Verif.LayoutProps.C32_documented_policy_refuted",
    "Verif.LayoutProps.C32_empty_layout_refuted",
    "Verif.TextBoxProps.C32_caret_defined"
   ],
   "note": "Proved for every position strictly inside a run in any document, and for every position and affinity when runs are stored in text order without a direction change at a line start; refuted otherwise (C32_*_refuted)."
  },
  {
   "property": "C33",
   "status": "proved",
   "theorems": [
    "Verif.BuiltProps.C33_built",
    "Verif.LayoutProps.C33_caret",
    "Verif.LayoutProps.C33_interpolation",
    "Verif.LayoutProps.C33_empty_run"
   ],
   "note": ""
  },
  {
   "property": "C34",
   "status": "proved",
   "theorems": [
    "Verif.BuiltProps.C34_built",
    "Verif.LayoutProps.C34_position_range",
    "Verif.LayoutProps.C34_contains_range",
    "Verif.LayoutProps.C34_empty_range_refuted"
   ],
   "note": "The intersection test is for non-empty ranges; an empty range inside a run counts as intersecting (C34_empty_range_refuted)."
  },
  {
   "property": "C35",
   "status": "partial",
   "theorems": [
    "Verif.BuiltProps.C35_built_legal",
    "Verif.BuiltProps.C35_built_nearest",
    "Verif.BuiltProps.C35_built_on_line",
    "Verif.LayoutProps.C35_terminates",
    "Verif.LayoutProps.C35_legal",
    "Verif.LayoutProps.C35_nearest",
    "Verif.LayoutProps.C35_round_trip",
    "Verif.LayoutProps.C35_on_line",
    "Verif.LayoutProps.C35_rtl_soft_break_refuted",
    "Verif.LayoutProps.C35_straddling_refuted",
    "Verif.LayoutProps.C35_two_glyphs_refuted"
   ],
   "note": "Terminates for every forward iterator; legal when glyphs begin at caret stops; nearest and round trip when each group of characters has one glyph; shown on the clicked line for left-to-right text. Each hypothesis is needed (C35_*_refuted)."
  },
  {
   "property": "C36",
   "status": "partial",
   "theorems": [
    "Verif.BuiltProps.C36_built_partial",
    "Verif.BuiltProps.C36_built_left_to_right",
    "Verif.LayoutProps.C36_line_start_partial",
    "Verif.LayoutProps.C36_line_end_partial",
    "Verif.LayoutProps.C36_on_line",
    "Verif.LayoutProps.C36_rtl_refuted"
   ],
   "note": "Holds for left-to-right extreme runs; for right-to-left ones start and end are swapped (C36_rtl_refuted)."
  },
  {
   "property": "C37",
   "status": "partial",
   "theorems": [
    "Verif.CursorProps.C37_next_character",
    "Verif.CursorProps.C37_prev_character",
    "Verif.CursorProps.C37_prev_undoes_next",
    "Verif.CursorProps.C37_next_undoes_prev",
    "Verif.CursorProps.C37_next_word_partial",
    "Verif.CursorProps.C37_prev_word",
    "Verif.CursorProps.C37_end_of_text_refuted"
   ],
   "note": "All of it when a byte after the text is readable; otherwise the end cannot be reached by words (C37_end_of_text_refuted)."
  },
  {
   "property": "C38",
   "status": "partial",
   "theorems": [
    "Verif.FontProps.C38_stable",
    "Verif.FontProps.C38_already",
    "Verif.FontProps.C38_already_only_if",
    "Verif.FontProps.C38_distinct",
    "Verif.FontProps.C38_reserved_refuted",
    "Verif.FontProps.C38_wrap_refuted"
   ],
   "note": "Stability, ALREADY_LOADED and distinctness for every history below 65535 names; reserved families have a valid handle against the documentation, and more names wrap (C38_*_refuted)."
  },
  {
   "property": "C39",
   "status": "proved",
   "theorems": [
    "Verif.FontProps.C39_serves",
    "Verif.FontProps.C39_defined",
    "Verif.FontProps.C39_empty_faces_refuted"
   ],
   "note": "For every history: the answering description, and the face behind it as first described; an empty face array reports success (C39_empty_faces_refuted)."
  },
  {
   "property": "C40",
   "status": "partial",
   "theorems": [
    "Verif.FontProps.C40_advances",
    "Verif.FontProps.C40_covered",
    "Verif.FontProps.C40_choice",
    "Verif.FontProps.C40_base",
    "Verif.FontProps.C40_tiles",
    "Verif.FontProps.C40_builder",
    "Verif.FontProps.C40_base_unloadable_refuted",
    "Verif.FontProps.C40_empty_fallback_refuted"
   ],
   "note": "Definedness, progress, choice, coverage and tiling for every history of documented registrations, coverage relation and text; false when the base face does not load, or a fallback family has no faces (C40_*_refuted)."
  },
  {
   "property": "C41",
   "status": "partial",
   "theorems": [
    "Verif.FontProps.C41_size_partial",
    "Verif.FontProps.C41_advances",
    "Verif.FontProps.C41_first_scale_refuted",
    "Verif.FontProps.C41_zero_size_refuted",
    "Verif.FontProps.C41_space_refuted"
   ],
   "note": "FreeType size and advances for every history; the first request has a stale HarfBuzz scale, an effective size of zero is ignored, the space advance is never refreshed (C41_*_refuted)."
  },
  {
   "property": "C42",
   "status": "proved",
   "theorems": [
    "Verif.AtlasProps.C42_requests",
    "Verif.AtlasProps.C42_uploads",
    "Verif.AtlasProps.C42_wide_refuted"
   ],
   "note": "Full for all request histories and all upload histories of both atlases (padding 1 and 2) with pictures up to the page size; a wider picture leaves the page (refuted). The OpenGL texture is modelled as a map of pixels; uninitialised texels are None."
  },
  {
   "property": "C43",
   "status": "partial",
   "theorems": [
    "Verif.AtlasProps.C43_answers_partial",
    "Verif.AtlasProps.C43_stroke_weight_refuted",
    "Verif.AtlasProps.C43_source_weight_refuted",
    "Verif.AtlasProps.C43_blank_refuted",
    "Verif.AtlasProps.C43_transparent_refuted"
   ],
   "note": "Proved for all histories in which each face is declared with one source weight and style and its strokes use one weight and style. Refuted otherwise: stroke keys omit weight and style; glyph keys omit the source weight and style. Also refuted: second request of a blank glyph (member of a null page) and coloured glyphs with transparent pixels (0/0 converted to an integer). The MSDF atlas's cache is C80."
  },
  {
   "property": "C44",
   "status": "partial",
   "theorems": [
    "Verif.BuiltProps.C44_built_partial",
    "Verif.RichBoxProps.C44_rich_partial",
    "Verif.TextBoxProps.C44_history_partial",
    "Verif.TextBoxProps.C44_empty_selection_refuted",
    "Verif.TextBoxProps.C44_stale_layout_refuted",
    "Verif.TextBoxProps.C44_empty_box_refuted",
    "Verif.TextBoxProps.C44_empty_clipboard_refuted",
    "Verif.TextBoxProps.C44_set_text_refuted",
    "Verif.TextBoxProps.C44_rich_refuted"
   ],
   "note": "C44_history_partial covers a plain text box and every history whose events meet the stated conditions: moves and clicks need text, edits must not find an empty selection, pasting needs a clipboard with text, text set by the program must hold the cursor. Each of these conditions is needed (the _refuted theorems). C44_rich_partial covers editable boxes of rich text while they have the focus; the click that gives it to them is refuted (C44_rich_refuted)."
  },
  {
   "property": "C45",
   "status": "partial",
   "theorems": [
    "Verif.TreeProps.C45_tree_partial",
    "Verif.TreeProps.C45_children_partial",
    "Verif.TreeProps.C45_ends_partial",
    "Verif.TreeProps.C45_lost_refuted",
    "Verif.TreeProps.C45_duplicate_refuted",
    "Verif.TreeProps.C45_backwards_refuted",
    "Verif.TreeProps.C45_cycle_refuted"
   ],
   "note": "Proved for every history that attaches unparented objects and moves or removes only children, never below themselves: each object is once in its parent's list in both directions and nowhere else, in order, and the calls end. For other histories the statement is false: removing the last child and adding another loses the first (lost), a moved object takes its later siblings along (duplicate), a removed one is still met backwards (backwards), and moving below an own child never ends (cycle)."
  },
  {
   "property": "C46",
   "status": "partial",
   "theorems": [
    "Verif.ClipProps.C46_tiles",
    "Verif.ClipProps.C46_sliver_refuted",
    "Verif.ClipProps.C46_box_partial",
    "Verif.ClipProps.C46_box_refuted"
   ],
   "note": "Exact arithmetic in place of float. Pieces tile, texture columns and colours proved for every rectangle and range (C46_tiles). The white part is not exactly the range when less than a pixel sticks out (C46_sliver_refuted). The range equals the highlight box only for lines at offset 0 (C46_box_partial); it is wrong for every other line (C46_box_refuted)."
  },
  {
   "property": "C47",
   "status": "partial",
   "theorems": [
    "Verif.BitmapProps.C47_fill_partial",
    "Verif.BitmapProps.C47_blit_partial",
    "Verif.BitmapProps.C47_alpha",
    "Verif.BitmapProps.C47_fill_left_refuted",
    "Verif.BitmapProps.C47_fill_right_refuted",
    "Verif.BitmapProps.C47_blit_left_refuted",
    "Verif.BitmapProps.C47_blit_right_refuted"
   ],
   "note": "blit_alpha proved for every position; fill_rect and blit proved for corners inside or below the bitmap; for negative corners they shift instead of clipping and right of the bitmap they write outside (refuted)."
  },
  {
   "property": "C48",
   "status": "partial",
   "theorems": [
    "Verif.FileProps.C48_stdio",
    "Verif.FileProps.C48_linux_partial",
    "Verif.FileProps.C48_windows_partial",
    "Verif.FileProps.C48_nothing_left",
    "Verif.FileProps.C48_linux_leak_refuted",
    "Verif.FileProps.C48_linux_stat_refuted",
    "Verif.FileProps.C48_windows_null_refuted",
    "Verif.FileProps.C48_windows_size_refuted",
    "Verif.FileProps.C48_short_read_refuted",
    "Verif.FileProps.C48_linux_size"
   ],
   "note": "Proved without restriction for the stdio version, for Linux if only open fails and for Windows if CreateFileMappingW does not fail. The rest is false: on Linux a descriptor leaks when fstat or mmap fails (an empty file is enough); on Windows a failed CreateFileMappingW is not noticed and a null handle is closed, and sizes of 4 GB and more are wrong; the stdio version ignores a failed read."
  },
  {
   "property": "C49",
   "status": "partial",
   "theorems": [
    "Verif.JsonProps.C49_accepts",
    "Verif.JsonProps.C49_registers_nothing",
    "Verif.JsonProps.C49_rejects_partial",
    "Verif.JsonProps.C49_valid",
    "Verif.JsonProps.C49_negative_refuted",
    "Verif.JsonProps.C49_unknown_script_refuted",
    "Verif.JsonProps.C49_scripts_type_refuted"
   ],
   "note": "Everything that does not describe a family registers nothing; it is refused with INVALID_JSON except for a negative script code (exception, C49_negative_refuted) and the name of a script that does not exist (undefined behaviour, C49_unknown_script_refuted). Fields \"scripts\", \"linked_families\", \"fallback_families\" of another type than array are ignored (C49_scripts_type_refuted)."
  },
  {
   "property": "C50",
   "status": "proved",
   "theorems": [
    "Verif.FontSizeProps.C50_exact",
    "Verif.FontSizeProps.C50_at_most",
    "Verif.FontSizeProps.C50_unmodified",
    "Verif.FontSizeProps.C50_monotone",
    "Verif.FontSizeProps.C50_modified",
    "Verif.FontSizeProps.C50_large_refuted",
    "Verif.FontSizeProps.C50_share_refuted"
   ],
   "note": "Exact binary32 semantics (SpecFloat). Also: below 2^20 the size is exactly the rounded-down percentage; monotone over all 32-bit sizes; with a modifier defined and at most nominal for all 32-bit sizes. Outside the stated range: 2^24+3 grows and 2^32-1 is undefined."
  },
  {
   "property": "C51",
   "status": "partial",
   "theorems": [
    "Verif.BuiltProps.C51_built_partial",
    "Verif.DrawProps.C51_plain",
    "Verif.DrawProps.C51_formatted_partial",
    "Verif.DrawProps.C51_rtl_at_end_refuted",
    "Verif.DrawProps.C51_final_newline_refuted"
   ],
   "note": "draw_text without formatting is proved; with formatting it is proved for documents in which the iterator of each run is made inside the text. A right-to-left run at the end of the text and an empty last line read past the colour table (C51_rtl_at_end_refuted, C51_final_newline_refuted)."
  },
  {
   "property": "C52",
   "status": "proved",
   "theorems": [
    "Verif.ScriptRunProps.C52_matching_brackets",
    "Verif.ScriptRunProps.C52_too_deep_refuted"
   ],
   "note": "The depth bound is sharp (C52_too_deep_refuted)."
  },
  {
   "property": "C53",
   "status": "partial",
   "theorems": [
    "Verif.DrawProps.C53_lines_partial",
    "Verif.DrawProps.C53_spurious_underline_refuted"
   ],
   "note": "Proved for runs in which no line begins where the colour changes; refuted otherwise (C53_spurious_underline_refuted)."
  },
  {
   "property": "C54",
   "status": "partial",
   "theorems": [
    "Verif.BuilderProps.C54_defined_partial",
    "Verif.BuilderProps.C54_table_end_refuted",
    "Verif.BuilderProps.C54_byte_after_refuted",
    "Verif.BuilderProps.C54_lead_after_refuted",
    "Verif.BuilderProps.C54_zero_tab_refuted"
   ],
   "note": "Defined when there is readable memory after the tables or a final separator, a single byte (no lead byte) after the text, and tabs of defined width; each is needed (C54_*_refuted)."
  },
  {
   "property": "C55",
   "status": "proved",
   "theorems": [
    "Verif.BuilderProps.C55_attributes"
   ],
   "note": "Under can_build; scripts are C28."
  },
  {
   "property": "C56",
   "status": "partial",
   "theorems": [
    "Verif.CursorProps.C56_hit",
    "Verif.CursorProps.C56_vertical_start_refuted"
   ],
   "note": "Line and stop for every point measured from the first line; the start of the text is ignored (C56_vertical_start_refuted)."
  },
  {
   "property": "C57",
   "status": "partial",
   "theorems": [
    "Verif.CursorProps.C57_owners_partial",
    "Verif.CursorProps.C57_move_construct_refuted",
    "Verif.CursorProps.C57_move_text_refuted"
   ],
   "note": "Ownership in every defined history; move construction is always undefined and assignment leaves the text behind (C57_*_refuted)."
  },
  {
   "property": "C58",
   "status": "partial",
   "theorems": [
    "Verif.FontProps.C58_no_faces",
    "Verif.FontProps.C58_failed_partial",
    "Verif.FontProps.C58_threw_refuted"
   ],
   "note": "Holds for missing faces; a script code out of range leaves earlier codes behind (C58_threw_refuted)."
  },
  {
   "property": "C59",
   "status": "partial",
   "theorems": [
    "Verif.LockProps.C59_no_race",
    "Verif.LockProps.C59_serial",
    "Verif.LockProps.C59_registry",
    "Verif.LockProps.C59_no_deadlock_partial",
    "Verif.LockProps.C59_deadlock_refuted",
    "Verif.LockProps.C59_assertions_refuted"
   ],
   "note": "No race and serial answers are proved without assertions compiled; with them there is a race (C59_assertions_refuted). Absence of deadlock and of locking twice is proved when get_sub_font finds all faces in the cache of its thread; otherwise both happen (C59_deadlock_refuted)."
  },
  {
   "property": "C60",
   "status": "partial",
   "theorems": [
    "Verif.FontProps.C60_case_run",
    "Verif.FontProps.C60_mixed_refuted"
   ],
   "note": "The case run is right; the segment returned may go beyond it (C60_mixed_refuted)."
  },
  {
   "property": "C61",
   "status": "partial",
   "theorems": [
    "Verif.TreeProps.C61_placed_partial",
    "Verif.TreeProps.C61_position_partial",
    "Verif.TreeProps.C61_lost_refuted"
   ],
   "note": "Proved for the same histories as C45, for any addition of positions. A child lost as in C45_lost_refuted does not move with its parent."
  },
  {
   "property": "C62",
   "status": "proved",
   "theorems": [
    "Verif.BuilderProps.C62_every_line"
   ],
   "note": "Over rationals for the stored metrics. Ascents below zero and descents above zero count as zero, as in the code."
  },
  {
   "property": "C63",
   "status": "proved",
   "theorems": [
    "Verif.UiProps.C63_draws"
   ],
   "note": "Hypothesis: a texture created while drawing is a new object and is the one returned for that request (C42)."
  },
  {
   "property": "C64",
   "status": "proved",
   "theorems": [
    "Verif.UiProps.C64_focus"
   ],
   "note": "Objects are identified by numbers; which object takes a press is an input. The notification handlers do not call back into the container, as in the code."
  },
  {
   "property": "C65",
   "status": "proved",
   "theorems": [
    "Verif.UiProps.C65_clicks"
   ],
   "note": "Times are exact rationals given by the clock; cursor positions are valid ones."
  },
  {
   "property": "C66",
   "status": "partial",
   "theorems": [
    "Verif.UiProps.C66_one_open_partial",
    "Verif.UiProps.C66_which_partial",
    "Verif.UiProps.C66_edge_refuted"
   ],
   "note": "Holds while the mouse is never exactly on the line shared by two menus and the bar is as wide as its menus; on that line two menus can be open (C66_edge_refuted)."
  },
  {
   "property": "C67",
   "status": "partial",
   "theorems": [
    "Verif.TextBoxProps.C67_read_only_partial",
    "Verif.TextBoxProps.C67_keys_refuted"
   ],
   "note": "Proved for every event except Backspace, Delete, Enter and Tab; those four do change the text of a read-only box (C67_keys_refuted)."
  },
  {
   "property": "C68",
   "status": "proved",
   "theorems": [
    "Verif.JsonProps.C68_success",
    "Verif.JsonProps.C68_failure"
   ],
   "note": ""
  },
  {
   "property": "C69",
   "status": "partial",
   "theorems": [
    "Verif.CaseMapProps.C69_characters_partial",
    "Verif.CaseMapProps.C69_run_partial",
    "Verif.CaseMapProps.C69_shorter_refuted",
    "Verif.CaseMapProps.C69_longer_refuted",
    "Verif.CaseMapProps.C69_undefined_refuted"
   ],
   "note": "Proved up to the first character whose upper-case form takes another number of bytes, and for whole runs of such characters (then the run meets the contract the builder puts on a shaper). The code asks icu::Edits for the source index where it has a destination index, so the rest is false: C69_shorter_refuted (dotless i), C69_longer_refuted (U+0149, index behind the run), C69_undefined_refuted (U+0390, out-of-bounds read)."
  },
  {
   "property": "C70",
   "status": "partial",
   "theorems": [
    "Verif.EventProps.C70_topmost_partial",
    "Verif.EventProps.C70_over_partial"
   ],
   "note": "Trees made by the histories of C45_tree_partial; handlers that decline an event change neither the tree nor visibility; the container itself is visible (it is: nothing hides it)."
  },
  {
   "property": "C71",
   "status": "partial",
   "theorems": [
    "Verif.EventProps.C71_typed_partial",
    "Verif.EventProps.C71_keys_partial",
    "Verif.EventProps.C71_mouse_elsewhere_refuted"
   ],
   "note": "Trees made by the histories of C45_tree_partial. Typed characters: as stated. Keys: only while the mouse is inside the box; refuted otherwise (C71_mouse_elsewhere_refuted)."
  },
  {
   "property": "C72",
   "status": "partial",
   "theorems": [
    "Verif.EventProps.C72_enter_partial",
    "Verif.EventProps.C72_leave_partial",
    "Verif.EventProps.C72_cases_partial",
    "Verif.EventProps.C72_enter_again_refuted",
    "Verif.EventProps.C72_leave_again_refuted",
    "Verif.EventProps.C72_hidden_refuted"
   ],
   "note": "What one move tells whom is proved for trees made by the histories of C45_tree_partial. Refuted: once only (C72_enter_again_refuted, C72_leave_again_refuted), shown objects only (C72_hidden_refuted)."
  },
  {
   "property": "C73",
   "status": "proved",
   "theorems": [
    "Verif.HbFontProps.C73_advances",
    "Verif.HbFontProps.C73_whole",
    "Verif.HbFontProps.C73_near",
    "Verif.HbFontProps.C73_vertical",
    "Verif.HbFontProps.C73_scale",
    "Verif.HbFontProps.C73_nearest_refuted",
    "Verif.HbFontProps.C73_wide_refuted"
   ],
   "note": "Proved over all histories: nearest below 256 pixels, exact for whole 64ths up to 32767 pixels, within 3/4 of a 64th otherwise. Refuted: nearest rounding of long fractional advances; 32768 pixels and more is undefined behaviour. HarfBuzz's cache template is transcribed from its header, which is not in the repository."
  },
  {
   "property": "C74",
   "status": "proved",
   "theorems": [
    "Verif.HbFontProps.C74_has_glyph",
    "Verif.HbFontProps.C74_any_way",
    "Verif.HbFontProps.C74_batch",
    "Verif.HbFontProps.C74_symbol",
    "Verif.HbFontProps.C74_found"
   ],
   "note": "FreeType's lookup, the font page and HarfBuzz's Arabic tables are oracles."
  },
  {
   "property": "C75",
   "status": "proved",
   "theorems": [
    "Verif.HbFontProps.C75_extents",
    "Verif.HbFontProps.C75_origin",
    "Verif.HbFontProps.C75_line",
    "Verif.HbFontProps.C75_line_bitmap",
    "Verif.HbFontProps.C75_points",
    "Verif.HbFontProps.C75_large_refuted"
   ],
   "note": "Up to 262144 pixels; beyond that refuted by an example. Synthetic strength and slant of a HarfBuzz font are never set by the program and left out."
  },
  {
   "property": "C76",
   "status": "partial",
   "theorems": [
    "Verif.HbFontProps.C76_terminated_partial",
    "Verif.HbFontProps.C76_known_partial",
    "Verif.HbFontProps.C76_prefix_refuted",
    "Verif.HbFontProps.C76_unnamed_refuted",
    "Verif.HbFontProps.C76_long_refuted"
   ],
   "note": "Proved for terminated names, and for names with a length that are in the font. Refuted: a length with a beginning of glyph 0's name, fonts without names, names over 127 bytes."
  },
  {
   "property": "C77",
   "status": "proved",
   "theorems": [
    "Verif.FloatLayoutProps.C77_positions",
    "Verif.FloatLayoutProps.C77_order",
    "Verif.FloatLayoutProps.C77_caret",
    "Verif.FloatLayoutProps.C77_near",
    "Verif.FloatLayoutProps.C77_screen",
    "Verif.FloatLayoutProps.C77_alignment",
    "Verif.FloatLayoutProps.C77_closest_line",
    "Verif.FloatLayoutProps.C77_lines",
    "Verif.FloatLayoutProps.C77_width",
    "Verif.FloatLayoutProps.C77_far_refuted",
    "Verif.FloatLayoutProps.C77_width_refuted",
    "Verif.FloatLayoutProps.C77_narrow_refuted"
   ],
   "note": "Bounds are part of the statement; outside them C77_far_refuted, C77_width_refuted and C77_narrow_refuted show what happens."
  },
  {
   "property": "C78",
   "status": "partial",
   "theorems": [
    "Verif.MsdfProps.C78_edges",
    "Verif.MsdfProps.C78_contours_partial",
    "Verif.MsdfProps.C78_rings_refuted"
   ],
   "note": "edges proved for all outlines; separate contours only for outlines with one ring, refuted for more"
  },
  {
   "property": "C79",
   "status": "proved",
   "theorems": [
    "Verif.MsdfProps.C79_place",
    "Verif.MsdfProps.C79_exists",
    "Verif.MsdfProps.C79_pixels"
   ],
   "note": "bounds and field values are those of msdfgen, taken as oracles; the frame is in exact arithmetic instead of doubles"
  },
  {
   "property": "C80",
   "status": "partial",
   "theorems": [
    "Verif.MsdfProps.C80_answers_partial",
    "Verif.MsdfProps.C80_style_refuted",
    "Verif.MsdfProps.C80_stroke_refuted",
    "Verif.MsdfProps.C80_lowered_refuted",
    "Verif.MsdfProps.C80_blank_refuted"
   ],
   "note": "proved for glyphs in the weight and style of their face; four refutations"
  },
  {
   "property": "C81",
   "status": "partial",
   "theorems": [
    "Verif.StyleProps.C81_own",
    "Verif.StyleProps.C81_slant",
    "Verif.StyleProps.C81_back",
    "Verif.StyleProps.C81_weight",
    "Verif.StyleProps.C81_stroke_refuted",
    "Verif.StyleProps.C81_lighter_refuted",
    "Verif.StyleProps.C81_units_refuted"
   ],
   "note": "FT_Outline_EmboldenXY is an oracle; strokes of imitated weights, the source weight and curves in font units refuted"
  },
  {
   "property": "C82",
   "status": "partial",
   "theorems": [
    "Verif.WindowProps.C82_settings",
    "Verif.WindowProps.C82_takes_partial",
    "Verif.WindowProps.C82_menus_undisturbed",
    "Verif.WindowProps.C82_tray_holds_items",
    "Verif.WindowProps.C82_border_refuted"
   ],
   "note": "Who takes an event is proved with the mouse off the lines between menus; the border of an open tray lets presses through (refuted)."
  },
  {
   "property": "C83",
   "status": "partial",
   "theorems": [
    "Verif.WindowProps.C83_selecting_partial",
    "Verif.WindowProps.C83_release_refuted"
   ],
   "note": "Proved for releases not over a menu or item; refuted for those."
  },
  {
   "property": "C84",
   "status": "partial",
   "theorems": [
    "Verif.WindowProps.C84_layout_partial",
    "Verif.WindowProps.C84_bottom_refuted"
   ],
   "note": "All but the bottom of the text box, which is refuted."
  },
  {
   "property": "C85",
   "status": "partial",
   "theorems": [
    "Verif.NameProps.C85_find_partial",
    "Verif.NameProps.C85_full_name_partial",
    "Verif.NameProps.C85_resolves_partial",
    "Verif.NameProps.C85_lost_refuted"
   ],
   "note": "For trees reachable without the defects of C45; a lost child is not found (refuted)."
  },
  {
   "property": "C86",
   "status": "partial",
   "theorems": [
    "Verif.GpuProps.C86_owned_once",
    "Verif.GpuProps.C86_none_left",
    "Verif.GpuProps.C86_moves",
    "Verif.GpuProps.C86_defined_partial",
    "Verif.GpuProps.C86_start_to_end",
    "Verif.GpuProps.C86_blank_refuted"
   ],
   "note": "Everything but moves of objects declared without initialiser, which are undefined (refuted)."
  },
  {
   "property": "C87",
   "status": "partial",
   "theorems": [
    "Verif.FtProps.C87_alive",
    "Verif.FtProps.C87_end_partial",
    "Verif.FtProps.C87_leaks_refuted",
    "Verif.FtProps.C87_defined",
    "Verif.FtProps.C87_same"
   ],
   "note": "Everything but HarfBuzz's faces and the glyphs under strokes, which are left behind (refuted, with the exact number)."
  },
  {
   "property": "C88",
   "status": "partial",
   "theorems": [
    "Verif.MetricsProps.C88_reach",
    "Verif.MetricsProps.C88_order",
    "Verif.MetricsProps.C88_scale_partial",
    "Verif.MetricsProps.C88_lines_partial",
    "Verif.MetricsProps.C88_strike_partial",
    "Verif.MetricsProps.C88_thickness_partial",
    "Verif.MetricsProps.C88_no_units_refuted",
    "Verif.MetricsProps.C88_lowest_refuted"
   ],
   "note": "Everything for fonts with units per em; the two exceptions are refuted."
  },
  {
   "property": "C89",
   "status": "partial",
   "theorems": [
    "Verif.RequestProps.C89_features",
    "Verif.RequestProps.C89_one_way",
    "Verif.RequestProps.C89_text_partial",
    "Verif.RequestProps.C89_said",
    "Verif.RequestProps.C89_alone",
    "Verif.RequestProps.C89_surroundings_refuted"
   ],
   "note": "Everything but the surroundings of imitated small capitals, which is refuted."
  },
  {
   "property": "C90",
   "status": "partial",
   "theorems": [
    "Verif.WorkProps.C90_owned",
    "Verif.WorkProps.C90_end_partial",
    "Verif.WorkProps.C90_defined_partial",
    "Verif.WorkProps.C90_blocks",
    "Verif.WorkProps.C90_leak_refuted",
    "Verif.WorkProps.C90_move_refuted",
    "Verif.WorkProps.C90_moved_refuted"
   ],
   "note": "Everything but the text blocks and the use of builders moved from, which are refuted."
  },
  {
   "property": "C91",
   "status": "partial",
   "theorems": [
    "Verif.ScreenProps.C91_screen_partial",
    "Verif.ScreenProps.C91_aligned_refuted",
    "Verif.ScreenProps.C91_nothing_selected_refuted",
    "Verif.ScreenProps.C91_plain"
   ],
   "note": "Boxes, places and pictures hold for every text and alignment, the colours of selected text only for lines that start at the left of the area and up to parts narrower than a pixel; the code does differently otherwise (see the refuted theorems). Drawing with formatting wants the character the iterator is made at to be in the text, as in C51."
  },
  {
   "property": "C92",
   "status": "partial",
   "theorems": [
    "Verif.BlinkProps.C92_blink",
    "Verif.BlinkProps.C92_place_partial",
    "Verif.BlinkProps.C92_typing_refuted",
    "Verif.BlinkProps.C92_erased_refuted"
   ],
   "note": "C92_blink is for every box and every event that puts the cursor somewhere. C92_place_partial is for the histories of C44 that end with text in the box; with all text deleted drawing fails (C92_erased_refuted). Typing does not restart the blinking (C92_typing_refuted)."
  },
  {
   "property": "C93",
   "status": "partial",
   "theorems": [
    "Verif.SettingsProps.C93_settings_partial",
    "Verif.SettingsProps.C93_selectable_refuted",
    "Verif.SettingsProps.C93_single_line_refuted"
   ],
   "note": "Plain text and the histories of C44 (C93_settings_partial). C93_selectable_refuted and C93_single_line_refuted show two settings that do not do what they promise."
  },
  {
   "property": "C94",
   "status": "partial",
   "theorems": [
    "Verif.LifeProps.C94_held_partial",
    "Verif.LifeProps.C94_lives_partial",
    "Verif.LifeProps.C94_end_partial",
    "Verif.LifeProps.C94_taken_refuted",
    "Verif.LifeProps.C94_sibling_refuted",
    "Verif.LifeProps.C94_leak_refuted",
    "Verif.LifeProps.C94_lost_refuted"
   ],
   "note": "Proved: nothing in use is destroyed and nothing unused lives after any history; exactly the right objects live in histories that put each object somewhere at most once. The full claim is false: see the refuted theorems."
  },
  {
   "property": "C95",
   "status": "partial",
   "theorems": [
    "Verif.CostProps.C95_cost_partial",
    "Verif.CostProps.C95_time_refuted"
   ],
   "note": "Proved: the exact number of computations for every descendant. That each is computed once is false below the children."
  },
  {
   "property": "C96",
   "status": "partial",
   "theorems": [
    "Verif.ShaderProps.C96_pixels",
    "Verif.ShaderProps.C96_solid",
    "Verif.ShaderProps.C96_parts",
    "Verif.ShaderProps.C96_highlight",
    "Verif.ShaderProps.C96_fields_partial"
   ],
   "note": "Proved for rectangles and their parts. For distance field rectangles a pixel whose centre is exactly on the border is left to OpenGL."
  },
  {
   "property": "C97",
   "status": "partial",
   "theorems": [
    "Verif.ShaderProps.C97_picture",
    "Verif.ShaderProps.C97_text",
    "Verif.ShaderProps.C97_split_refuted"
   ],
   "note": "Proved for whole pictures. For a picture cut by a highlight it is false."
  },
  {
   "property": "C98",
   "status": "partial",
   "theorems": [
    "Verif.ShaderProps.C98_outline",
    "Verif.ShaderProps.C98_thin",
    "Verif.ShaderProps.C98_outside_refuted"
   ],
   "note": "Proved: the border is closed and drawn once. That it stays on the rectangle is false."
  },
  {
   "property": "C99",
   "status": "partial",
   "theorems": [
    "Verif.ShaderProps.C99_median",
    "Verif.ShaderProps.C99_opacity_partial",
    "Verif.ShaderProps.C99_flat_refuted"
   ],
   "note": "Proved where the distance changes. In flat areas the result is undefined."
  },
  {
   "property": "C100",
   "status": "partial",
   "theorems": [
    "Verif.ToolProps.C100_menus_partial",
    "Verif.ToolProps.C100_items",
    "Verif.ToolProps.C100_line_refuted",
    "Verif.ToolProps.C100_edge_refuted",
    "Verif.ToolProps.C100_stale_refuted"
   ],
   "note": "proved with the mouse off the lines between menus; refuted on them and on the lines between items"
  },
  {
   "property": "C101",
   "status": "partial",
   "theorems": [
    "Verif.ToolProps.C101_picture_partial",
    "Verif.ToolProps.C101_texts_partial",
    "Verif.ToolProps.C101_texts_on_top_partial",
    "Verif.ToolProps.C101_overhang_refuted"
   ],
   "note": "proved with the mouse off the lines between menus; that texts stay in the tray refuted"
  },
  {
   "property": "C102",
   "status": "proved",
   "theorems": [
    "Verif.HashProps.C102_glyphs",
    "Verif.HashProps.C102_fields",
    "Verif.HashProps.C102_keys",
    "Verif.HashProps.C102_names",
    "Verif.HashProps.C102_apart"
   ],
   "note": "The C++ standard's description of unordered_map, and that std::hash agrees on strings and views, are assumed."
  },
  {
   "property": "C103",
   "status": "partial",
   "theorems": [
    "Verif.ReadProps.C103_bytes_partial",
    "Verif.ReadProps.C103_safe",
    "Verif.ReadProps.C103_start_partial",
    "Verif.ReadProps.C103_short_refuted",
    "Verif.ReadProps.C103_pipe_refuted",
    "Verif.ReadProps.C103_empty_refuted"
   ],
   "note": "Ordinary files; short reads, unknown sizes and empty files are refuted."
  },
  {
   "property": "C104",
   "status": "partial",
   "theorems": [
    "Verif.ImmediateProps.C104_drawn_partial",
    "Verif.ImmediateProps.C104_inside_partial",
    "Verif.ImmediateProps.C104_empty",
    "Verif.ImmediateProps.C104_table_end_refuted",
    "Verif.ImmediateProps.C104_spill_refuted",
    "Verif.ImmediateProps.C104_space_refuted"
   ],
   "note": "Needs memory that can be read after the font table (as the code does) and no tab of zero width; table end, spill and shift refuted."
  },
  {
   "property": "C105",
   "status": "partial",
   "theorems": [
    "Verif.MainProps.C105_frames",
    "Verif.MainProps.C105_picture",
    "Verif.MainProps.C105_order_partial",
    "Verif.MainProps.C105_no_window_refuted",
    "Verif.MainProps.C105_caret",
    "Verif.MainProps.C105_scale_refuted"
   ],
   "note": "Frames, pictures, events and the caret's time are proved for all runs; the order of GLFW and OpenGL calls only if the window can be made. Refuted: a failed glfwCreateWindow; the mouse on screens with several pixels per unit."
  },
  {
   "property": "C106",
   "status": "partial",
   "theorems": [
    "Verif.RichProps.C106_markup_partial",
    "Verif.RichProps.C106_nothing_refuted"
   ],
   "note": "For left-to-right text without tabs that does not end with a paragraph separator, when memory behind the tables of the builder can be read (C54); lines under and through the text for runs where none begins at a change of colour (C53). Markup that displays nothing is C106_nothing_refuted."
  },
  {
   "property": "C107",
   "status": "partial",
   "theorems": [
    "Verif.JsonTextProps.C107_file",
    "Verif.JsonTextProps.C107_missing",
    "Verif.JsonTextProps.C107_threw",
    "Verif.JsonTextProps.C107_directory",
    "Verif.JsonTextProps.C107_data_partial",
    "Verif.JsonTextProps.C107_literal_refuted",
    "Verif.JsonTextProps.C107_part_refuted",
    "Verif.JsonTextProps.C107_unterminated_refuted",
    "Verif.JsonTextProps.C107_zero_refuted"
   ],
   "note": "Files and directories are proved for texts without zero bytes; texts in memory only when they end with a zero byte and at least 63 bytes more (C107_data_partial). The rest of the statement is refuted."
  },
  {
   "property": "C108",
   "status": "partial",
   "theorems": [
    "Verif.RasterProps.C108_pages_partial",
    "Verif.RasterProps.C108_padding_refuted",
    "Verif.RasterProps.C108_upside_down_refuted",
    "Verif.RasterProps.C108_memory_refuted",
    "Verif.RasterProps.C108_stroke_refuted"
   ],
   "note": "Proved for rows without gaps from the top, opaque enough colours and C43's assumptions; padded and bottom-up rows, failed renderings and failed strokes are refuted."
  },
  {
   "property": "C109",
   "status": "partial",
   "theorems": [
    "Verif.FloatAgreeProps.C109_agrees",
    "Verif.FloatHitProps.C109_ends",
    "Verif.FloatHitProps.C109_legal",
    "Verif.FloatHitProps.C109_click",
    "Verif.FloatHitProps.C109_point",
    "Verif.FloatHitProps.C109_nearest",
    "Verif.FloatHitProps.C109_round_trip",
    "Verif.FloatHitProps.C109_exactly_refuted"
   ],
   "note": "Proved up to one part in 4194304; refuted: exactly the nearest (rounded distances can tie). Round trip in right-aligned or centred text is for glyph edges and 26.6 widths. Fused multiply-add is not modelled."
  },
  {
   "property": "C110",
   "status": "partial",
   "theorems": [
    "Verif.FloatSelectProps.C110_boxes",
    "Verif.FloatSelectProps.C110_glyphs",
    "Verif.FloatSelectProps.C110_seam",
    "Verif.FloatSelectProps.C110_top_refuted"
   ],
   "note": "Off the grid of 128ths, for instance with a start of 0.1, the top of a box and the top of the caret of the same line can differ in the last bits (C110_top_refuted). The bound on the difference is not proved there."
  },
  {
   "property": "C111",
   "status": "partial",
   "theorems": [
    "Verif.TableProps.C111_owned",
    "Verif.TableProps.C111_no_leak",
    "Verif.TableProps.C111_contents_partial",
    "Verif.TableProps.C111_given",
    "Verif.TableProps.C111_large_refuted",
    "Verif.TableProps.C111_whole_partial",
    "Verif.TableProps.C111_whole_refuted",
    "Verif.TableProps.C111_names",
    "Verif.TableProps.C111_cut_refuted",
    "Verif.TableProps.C111_kerning"
   ],
   "note": "Refuted: lengths are cut to 32 bits, so a table of more than 4 GiB is seen as its first bytes and a font file of 2 GiB as empty; names that do not fit are cut without notice."
  },
  {
   "property": "C112",
   "status": "proved",
   "theorems": [
    "Verif.TextureProps.C112_uploads",
    "Verif.TextureProps.C112_packed",
    "Verif.TextureProps.C112_text",
    "Verif.TextureProps.C112_fields",
    "Verif.TextureProps.C112_default"
   ],
   "note": "C112_text composes the atlas (C43) with the upload and the shaders (C97). A fully transparent pixel in a picture in colours is excluded by the hypothesis that the atlas can draw the picture (C43_transparent_refuted). Byte order of memory and OpenGL's default row alignment are assumptions of the model."
  },
  {
   "property": "C113",
   "status": "partial",
   "theorems": [
    "Verif.ClickProps.C113_click",
    "Verif.ClickProps.C113_rtl_at_the_end_refuted"
   ],
   "note": "Proved for documents whose runs are stored in text order and whose lines end left-to-right without two successive right-to-left runs, or are paragraphs of one run; the counterexample shows a line that ends right-to-left. Exact arithmetic (C109 and C110 treat the rounding)."
  },
  {
   "property": "C114",
   "status": "partial",
   "theorems": [
    "Verif.KeyCaretProps.C114_up_down",
    "Verif.KeyCaretProps.C114_home_end",
    "Verif.KeyCaretProps.C114_end_refuted",
    "Verif.KeyCaretProps.C114_home_refuted"
   ],
   "note": "Proved for the documents of C113; the counterexamples show a line that ends right-to-left and a broken right-to-left paragraph. Exact arithmetic."
  },
  {
   "property": "C115",
   "status": "proved",
   "theorems": [
    "Verif.ReadOrderProps.C115_reading_order",
    "Verif.ReadOrderProps.C115_right_left"
   ],
   "note": "The reading order in ReadOrderSpec.  Text with right-to-left runs is left out: there Right follows the text and so may move the caret left."
  },
  {
   "property": "C116",
   "status": "partial",
   "theorems": [
    "Verif.MultiClickProps.C116_word",
    "Verif.MultiClickProps.C116_line",
    "Verif.MultiClickProps.C116_all",
    "Verif.MultiClickProps.C116_first_letter_refuted",
    "Verif.MultiClickProps.C116_unfocused_refuted"
   ],
   "note": "Proved for words clicked after their first caret, for lines as in C114 and for all text.  Refuted: a double click on the left half of the first letter of a word selects the word before; a double click on a box without focus selects nothing."
  },
  {
   "property": "C117",
   "status": "partial",
   "theorems": [
    "Verif.UndoProps.C117_cut_paste",
    "Verif.UndoProps.C117_backspace",
    "Verif.UndoProps.C117_accent_refuted"
   ],
   "note": "Proved for all histories of C44; Backspace for characters the caret can stop before.  Refuted for characters that join the one before: Backspace takes both."
  },
  {
   "property": "C118",
   "status": "partial",
   "theorems": [
    "Verif.DragProps.C118_drag_partial",
    "Verif.DragProps.C118_first_press_partial"
   ],
   "note": "Proved for boxes with the focus (first click of a series) and for the press that gives a plain box the focus, in text as in C114.  Missing: rich text in a box without focus, where C44_rich_refuted shows the cursor is looked up in other text, and lines where C113 fails."
  },
  {
   "property": "C119",
   "status": "partial",
   "theorems": [
    "Verif.VariantProps.C119_together_partial",
    "Verif.VariantProps.C119_variant",
    "Verif.VariantProps.C119_mark_refuted",
    "Verif.VariantProps.C119_selector_refuted"
   ],
   "note": "Proved when the font chosen for the piece has all the characters.  Refuted: a letter and its accent are split although a fallback font has both; a variation selector is split from its character when the font has no glyph for the selector itself, so its variant does not appear.  HarfBuzz is not modelled."
  },
  {
   "property": "C120",
   "status": "partial",
   "theorems": [
    "Verif.GrowProps.C120_typing_partial",
    "Verif.GrowProps.C120_missing_refuted"
   ],
   "note": "Proved for text every character of which some font of the family or its fallbacks has, without small capitals.  Refuted: a character no font has changes its font when a character only a fallback has is typed after it."
  }
 ]
}