# Formal model of forenoonwatch/rich-text

## 1. Approach

The model is a function-by-function Gallina transcription of the C++ in `/repo/src` and of the stateful parts of
`/repo/sample`.  Every definition cites the file and lines it models and says what it simplifies.

* Undefined behaviour (a read or write out of range, division by zero, an uninitialised variable, a conversion out of
  range) is the distinct outcome `UB` of the model, never a default value.  A thrown exception is a distinct result too.
* Loops are structural or run on explicit fuel.  Exhausted fuel is the distinct outcome `OutOfFuel`, which the theorems
  exclude.
* `int32_t`, `uint32_t` and `size_t` values are `Z` or `nat`.  Wrap-around is modelled where it can happen and matters:
  packed runs, cursor positions, font handles, colours, unsigned differences, bitmap coordinates, 16-bit face indices.
* Layout coordinates (`float`) are exact: 26.6 fixed point in `Z` before, `Q` after the division by 64.  Where IEEE rounding
  is the point (colours, effective font sizes, baseline offsets, blending, font metrics, carets and line heights) binary32 of `Coq.Floats.SpecFloat` is used.
* ICU, HarfBuzz, SheenBidi, FreeType, OpenGL, simdjson, msdfgen, the clock and the operating system are oracles: arguments of the
  model functions.  One template of HarfBuzz (`hb_cache_t`, the advance cache in `HbFontModel.v`) is transcribed from its
  published header, which is not in the repository.  `RequestModel.v` takes the effect of `hb_buffer_add_utf8` and
  `WorkModel.v` the duty to close what `utext_openUTF8` opened from the libraries' documentation.  What a theorem assumes of an oracle is a visible hypothesis of the theorem (section 2).

Files: `XModel.v` holds definitions only, `XSpec.v` an independent specification, `XProofs.v` (also `XyProofs.v`) the
proofs, `XDemo.v` concrete libraries for examples, `XProps.v` the theorems, an example for each that meets its hypotheses,
and `Print Assumptions`.  `Built*.v` composes the model of the builder with the models of the queries, of drawing and of the
text box.  `tools/gen.py` derives `_CoqProject` and `MANIFEST.json` from the theorems, `tools/design.py` this file.

## 2. Trusted base

* The kernel of Coq 8.16.1 and its standard library.  `vm_compute` is used in some examples and finite sweeps.
* `Print Assumptions` reports "Closed under the global context" for every theorem except those about rounding that go through the
  real numbers: C77_positions, C77_order, C77_caret, C77_near, C77_screen, C77_alignment, C77_closest_line, C77_lines, C77_width,
  C79_pixels, C81_weight, C81_stroke_refuted, C81_lighter_refuted, all of C88, C92_blink, C105_caret, C108_pages_partial, C109_click, C109_point, C109_nearest, C109_round_trip, C109_agrees, C110_boxes, C110_glyphs and C112_text.  These depend on the axioms of the standard
  library behind its real numbers, and on no others: `ClassicalDedekindReals.sig_forall_dec`,
  `ClassicalDedekindReals.sig_not_dec`, `FunctionalExtensionality.functional_extensionality_dep`, `Classical_Prop.classic`
  (C88_no_units_refuted and C88_lowest_refuted on the first and third only).
  Flocq is used there for its proofs about rounding; it adds no axioms.  No axioms are added.  The list
  that `vcheck` prints also names `Coq.ssr.ssrunder.Under_rel.*` (`Under_rel`, `Under_relE`, `Under_rel_from_rel`,
  `Over_rel`, `over_rel`, `over_rel_done`, `under_rel_done`): opaque constants of the standard library's ssreflect plugin
  that come with loading it; no theorem depends on them.
* The reading of C++ in the models: evaluation order as written, containers of the standard library as lists and finite
  maps, `std::unordered_map` as a map without an order, `std::from_chars` as decimal digits, exceptions as results.
* The contracts of the libraries, each a hypothesis where it is used:
  * the layout engines (`engine_ok` in `BuilderSpec.v`): a shaper gives each glyph a cluster inside the text it was given,
    in text order; `get_sub_font` advances and stays below its limit (proved of the registry in `C40_builder`); paragraph
    bounds advance; the bidi runs of a line partition it; decoding a character advances; the line break iterator answers the
    last opportunity before a position; levels and decoded characters cover the paragraph;
  * the tables given to the builder (`sources_ok`) end at the text length, and memory after them is readable (`padded`) or
    the text ends with a separator (both in `can_build`; needed, see C54);
  * for the queries of built layouts (`BuiltSpec.v`): `whole_clusters` (opportunities and bidi runs begin where glyphs do),
    `pen_forward` (no glyph moves the pen back), `single_glyphs`, `left_to_right`, `stops_at_glyphs`;
  * ICU break iterators (`follows_stops`, `precedes_stops`, `good_stops`): they answer the next and previous boundary of a
    set that contains both ends of the text;
  * fonts: which faces can be loaded, which characters and variation sequences they cover, the unscaled advances, which characters are combining
    or lower case, the pictures FreeType rasterises (`RasterSpec.v`: buffers, pitches);
  * the system calls of file mapping: what each may answer when it succeeds or fails (`linux_valid`, `windows_valid`,
    `stdio_valid`);
  * simdjson: the tree of values of a document; `padded_string_view(text, capacity)` takes the text up to its first zero byte, `iterate`
    refuses less than 64 bytes behind it and otherwise reads them; `uscript_getCode`: its answers; the list of files of a directory;
  * HarfBuzz's blobs: when the function that ends a buffer is called (`TableModel.v`); `FT_Load_Sfnt_Table` and `FT_Get_Glyph_Name`
    answer from the font or fail (`TableSpec.v`);
  * ICU case mapping: the edits of each piece of text (`CaseMapSpec.v`);
  * OpenGL: a texture is a map of pixels, `glTexSubImage2D` outside it writes nothing, the texture last bound is drawn; `GlModel.v`: the
    viewport, which pixels triangles and lines have (any rule that colours shared edges once), interpolation, linear filtering, blending;
    `TextureModel.v`: the order of bytes in the two upload formats, row alignment 4, a little-endian machine;
  * `std::unordered_map`: buckets by hash value, any number of buckets (`HashModel.v`); `std::hash` of strings and views agree;
  * mutexes: `std::shared_mutex` with any policy of admission that lets a waiting writer stop new readers, sequentially
    consistent memory; a registration is divided into parts that may interleave with the parts of unlocked code.
* The clock of double clicks is a list of rational times.

## 3. What is modelled

| Source | Model | Not modelled |
|---|---|---|
| `src/binary_search.hpp` | `BinarySearchModel.v`, all | |
| `src/value_runs.hpp`, `value_runs_iterator.hpp`, `value_run_utils.hpp` | `ValueRunsModel.v`, all | |
| `src/value_run_builder.hpp` | `RunBuilderModel.v`, all | |
| `src/cursor_position.hpp`, `src/font.hpp` | `PackingModel.v`, `BuilderModel.v` | |
| `src/color.hpp` | `ColorModel.v`, `FormattingIterModel.v` (`==`), all | |
| `src/formatting.hpp`, `formatting.cpp` | `FormattingModel.v`, all | lookup of a family name is an oracle |
| `src/formatting_iterator.*` | `FormattingIterModel.v`, all | |
| `src/script_run_iterator.*` | `ScriptRunModel.v`, all; bytes are decoded by an oracle | |
| `src/layout_builder.*` | `BuilderModel.v`, `CaseMapModel.v` (small capitals), `RequestModel.v` (what HarfBuzz is told), `WorkModel.v` (memory, moves) | `reserve_runs` |
| `src/layout_info.*` | `LayoutModel.v`, all but trivial getters; `FloatLayoutModel.v` (carets, alignment, line heights in floats); `FloatHitModel.v` (clicks in floats); `FloatSelectModel.v` (selections and the iteration over lines in floats) | float rounding of line edges; `for_each_glyph`, which names a member `pFont` that runs do not have and so compiles only while unused |
| `src/cursor_controller.*` | `CursorModel.v`, `LayoutModel.v` (`closest_to_position`), all | |
| `src/text_draw_util.hpp` | `DrawModel.v`, all; `FloatSelectModel.v` (places of glyphs in floats) | |
| `src/font_registry.*` | `FontModel.v` (one thread), `LockModel.v` (mutexes) | UTF-16 text (same code), custom file mapping functions |
| `src/font_registry_json.cpp` | `JsonModel.v`, `JsonTextModel.v` (files and bytes) | the parser itself (simdjson) |
| `src/font_common.hpp` | `FontSizeModel.v`, `AtlasModel.v` (baselines) | |
| `src/file_mapping.*` | `FileModel.v`, three platforms | |
| `src/harfbuzz_font.cpp` | `FontModel.v` (`mark_changed`), `HbFontModel.v` (callbacks, advance cache), `TableModel.v` (tables, names, kerning), `VariantModel.v` (variation selectors) | synthetic strength and slant (never set) |
| `src/font_data.*` | `HbFontModel.v` (code points, advances), `StyleModel.v` (imitated weights and styles), `FtModel.v` (FreeType's and HarfBuzz's objects), `MetricsModel.v` (the measures), `RasterModel.v` (from FreeType's bitmaps to pictures); pictures as oracles in `AtlasModel.v`, `DrawModel.v` | `get_upem` |
| `src/string_hash.hpp`, `file_read_bytes.hpp` | `HashModel.v`, `ReadModel.v` | |
| `src/pair.hpp`, `common.hpp` (macros) | | not modelled |
| `sample/text_atlas.*` | `AtlasModel.v`, `RasterModel.v` (with FreeType's buffers), `HashModel.v` (hash functions) | |
| `sample/msdf_text_atlas.*` | `AtlasModel.v` (packing), `MsdfModel.v` (outlines, frame, pixels, cache), `HashModel.v` | the field itself (msdfgen), rounding of doubles |
| `sample/bitmap.*` | `BitmapModel.v`, all | |
| `sample/image.*` | `GpuModel.v`; writes and binding also in `AtlasModel.v`, `UiModel.v`; `TextureModel.v` (formats, bytes) | |
| `sample/pipeline.*` | `GpuModel.v`; binding and the screen size in `UiModel.v` | drawing calls, other uniforms |
| `sample/ui_container.*` | `UiModel.v`, `ClipModel.v`, `EventModel.v`, `ScreenModel.v` (drawing of text), `ImmediateModel.v` (`draw_text_immediate`) | |
| `sample/ui_object.*` | `TreeModel.v`, `NameModel.v`, `UiModel.v`, `EventModel.v`, `LifeModel.v` (shared pointers), `CostModel.v` | |
| `sample/tool_bar*.{hpp,cpp}`, `sample/frame.cpp` | `UiModel.v` (bar, menus), `WindowModel.v` (items), `ToolModel.v` (highlights, drawing), `ImmediateModel.v` (texts) | – |
| `sample/text_box.*` | `TextBoxModel.v`, `BlinkModel.v` (drawing, of plain text), `RichModel.v` (from markup to the screen, without focus), `SettingsModel.v` (setters) | |
| `sample/main.cpp` | `WindowModel.v` (menus, settings, resizing, mouse), `ReadModel.v` (the first text), `MainModel.v` (set-up, main loop, callbacks) | loading of fonts at start, the window's own moving and scaling |
| `sample/rect_shader.hpp`, `outline_shader.hpp`, `msdf_shader.hpp` | `ShaderModel.v`, all; OpenGL in `GlModel.v` | rounding of GLSL floats and of the frame buffer |
| `sample/fullscreen_triangle_shader.hpp` (unused), `test/` | | not modelled |

## 4. Properties

For each property: what is modelled, how it is proved, the theorems (all in `rocq/theories/*Props.v`) and, where
the property is only proved in part, what is missing and why.

* **C01** Partition-point search is correct (proved). `BinarySearch*`: the loop on fuel, the condition may be undefined; loop invariant; fuel and undefined probes excluded.
  Theorems: `C01_partition_point`, `C01_terminates_in_range`.
* **C02** Run lookup returns the run that covers the index (proved). `ValueRuns*`: a table is a list of (limit, value); reading out of range is UB. Refinement to the first run whose limit exceeds the index.
  Theorems: `C02_lookup`, `C02_run_index`, `C02_past_the_end_is_undefined`.
* **C03** Extracting a sub-range of runs commutes with lookup (proved). `ValueRuns*`: both loops of the extraction; pointwise equality with the independent lookup.
  Theorems: `C03_subset`.
* **C04** Packed boolean runs behave like ordinary runs (proved). `ValueRuns*`: packed 32-bit words; simulation with the unpacked table.
  Theorems: `C04_packed_bool_runs`, `C04_packed_subset`.
* **C05** Run intersection visits maximal common segments with the right values (proved). `ValueRuns*`: the loop over several tables with one index each; invariant on the current position.
  Theorems: `C05_intersections`, `C05_unequal_ends_refuted`.
  Equal final limits are a precondition (as in all callers); without it the loop reads out of range (C05_unequal_ends_refuted).
* **C06** Run iterators follow lookups and stay in range (partial). `ValueRuns*`: the steps of both iterators; induction over the list of targets.
  Theorems: `C06_iterator`, `C06_advance_to_end_refuted`, `C06_maybe_default`.
  The iterators follow lookups below the final limit; advancing to the final limit is undefined for every table (C06_advance_to_end_refuted).
* **C07** Run builder yields the innermost enclosing value (proved). `RunBuilder*`: push and pop as a state machine; the spec is a tree of nested spans; induction over trees.
  Theorems: `C07_innermost_value`, `C07_current_value`.
* **C08** Cursor position packing (proved). `Packing*`: 32-bit words with bit operations; induction over histories of setters.
  Theorems: `C08_cursor_history`, `C08_cursor_equality`, `C08_cursor_validity`, `C08_invalid_cursor`.
* **C09** Font face handle packing (proved). `Packing*`: the same for font faces.
  Theorems: `C09_font_face_round_trip`, `C09_font_face_distinct`.
* **C10** Colour integer conversions round-trip (partial). `Color*`, `Float*`: binary32 arithmetic; sweep over the 256 values of a channel lifted to all words.
  Theorems: `C10_round_trips`, `C10_abgr_round_trip_refuted`, `C10_channels_in_unit_range`, `C10_abgr_red_refuted`.
  argb and rgba hold for all 2^32 words; abgr holds for zero alpha and is refuted otherwise (C10_abgr_round_trip_refuted, C10_abgr_red_refuted).
* **C11** Rejected markup is displayed verbatim with default formatting (proved). `Formatting*`: byte-level model of the whole parser; case analysis on its result.
  Theorems: `C11_rejected_markup_verbatim`.
  For texts without the two attribute shapes of C15 that overrun a buffer.
* **C12** Accepted markup: all attribute tables cover exactly the displayed text (proved). `Formatting*`: invariant over the parser's steps with the lemmas of the run builder.
  Theorems: `C12_tables_cover_text`.
* **C13** Displayed text is the input minus markup (proved). `Formatting*`: invariant relating displayed text and consumed input.
  Theorems: `C13_displayed_text`, `C13_subsequence`, `C13_plain_text_unchanged`.
* **C14** Innermost tag wins (proved). `Formatting*`: documents are trees; parsing accepts only printed documents and gives their meaning; induction over trees of any size.
  Theorems: `C14_innermost_tag_wins`, `C14_accepts_only_documents`.
* **C15** Markup parsing is memory safe (partial). `Formatting*`: fixed buffers are ranges, leaving them is UB.
  Theorems: `C15_memory_safe_partial`, `C15_documents_safe`, `C15_weight_overflow_refuted`, `C15_rgb_overflow_refuted`.
  Refuted as stated: a weight attribute longer than 16 bytes and a three-digit rgb() channel overrun a buffer (C15_*_refuted). Every other text is safe.
* **C16** Markup parsing terminates and consumes the input (proved). `Formatting*`: fuel bounded by the length of the input is enough.
  Theorems: `C16_terminates`.
* **C17** Formatting iterator tracks attributes in both directions (proved). `FormattingIter*`: the iterator's steps; induction over the list of targets.
  Theorems: `C17_iterator_tracks_tables`, `C17_start_at_end_refuted`.
  For every start position below the text length; constructing the iterator at the text length itself is undefined (C17_start_at_end_refuted).
* **C18** Underline and strikethrough events are balanced (partial). `FormattingIter*`: the events of a walk over the characters.
  Theorems: `C18_events_balanced_partial`, `C18_events_exact`, `C18_end_without_begin_refuted`.
  The exact event sequence is proved (C18_events_exact) and balance holds when no line style starts at a colour change; refuted in general (C18_end_without_begin_refuted).
* **C19** Script runs tile the text (proved). `ScriptRun*`: `next` over the decoded text with a script oracle; induction over calls.
  Theorems: `C19_runs_tile`.
* **C20** Script runs are homogeneous (partial). `ScriptRun*`: invariant of the scan.
  Theorems: `C20_runs_homogeneous`, `C20_ill_formed_refuted`.
  Proved for every well-formed UTF-8 text; refuted for ill-formed text (C20_ill_formed_refuted).
* **C21** Bracket stack of the script iterator stays in range (proved). `ScriptRun*`: the circular stack as a map with undefined entries; invariant over pushes and pops; table search by computation lifted to all code points.
  Theorems: `C21_bracket_stack`, `C21_bracket_lookup`.
* **C22** Every glyph of a line is emitted exactly once, in visual order (proved). `Builder*`: runs of a line, glyphs and positions appended; induction over the runs, then over paragraphs and lines (`RunsProofs`).
  Theorems: `C22_line_runs`, `C22_every_line`.
  For each line in isolation and for every line of every layout built under can_build (C22_every_line).
* **C23** Glyph positions are running sums and line widths agree (partial). `Builder*`: positions as exact rationals; as C22.
  Theorems: `C23_line_positions`, `C23_every_line`, `C23_vertical_width_refuted`.
  Positions are running sums on both axes and the width of a horizontal line is the total; get_line_width of a vertical line reads the coordinate across it (C23_vertical_width_refuted). Exact rationals instead of floats.
* **C24** Line breaking partitions the paragraph, always progresses (proved). `Builder*`: the line breaking loops with a break oracle; induction on the remaining characters.
  Theorems: `C24_lines_tile`.
  For every width, limit and bounded answer of the break iterator, on paragraphs whose tabs have a defined width (else undefined, see C54).
* **C25** Lines fit the width and break only at opportunities unless forced (partial). `Builder*`: the same, with the widths of prefixes.
  Theorems: `C25_lines_fit_partial`, `C25_white_space_refuted`, `C25_no_width_refuted`.
  Lines fit up to hanging white space and break at opportunities; literally refuted by white space at line ends and by glyphs without width (C25_*_refuted).
* **C26** Tab stops (partial). `Builder*`: the tab arithmetic; with and without wrapping.
  Theorems: `C26_unwrapped_partial`, `C26_wrapped_pixels_partial`, `C26_wrapped_spaces_refuted`, `C26_hanging_refuted`, `C26_right_to_left_refuted`.
  Proved in logical order without wrapping, and with wrapping for pixel widths before hanging white space; refuted with wrapping in units of spaces, for hanging tabs and beside right-to-left text (C26_*_refuted).
* **C27** Paragraphs tile the text (proved). `Builder*`: the paragraph loop; induction over paragraphs.
  Theorems: `C27_paragraphs_tile`, `C27_empty_text`.
  Under can_build: contracts of the engines, tables and readable memory after the text.
* **C28** Each character is shaped with the script of its own script run (partial). `Builder*`: itemisation with the script iterator of C19.
  Theorems: `C28_scripts_partial`, `C28_later_paragraph_refuted`.
  Holds in the first paragraph and in paragraphs of one script; refuted for later paragraphs (C28_later_paragraph_refuted).
* **C29** Merging runs keeps formatting (partial). `Builder*`: the merging of segments.
  Theorems: `C29_merge_partial`, `C29_styles_refuted`.
  Merged segments agree on face and size; styles, script and level may differ and the stored run then has the styles of its first segment (C29_styles_refuted).
* **C30** Layout index tables stay consistent under every build history (proved). `Layout*`: the append operations as a state machine; invariant by induction over histories.
  Theorems: `C30_tables_exact`, `C30_empty_line`, `C30_any_history`.
* **C31** Line geometry sums (proved). `Layout*`: exact rationals; induction over lines.
  Theorems: `C31_line_geometry`, `C31_heights_nonnegative`, `C31_text_width`, `C31_vertical_alignment`, `C31_closest_line`, `C31_past_end_refuted`, `C31_start_ignored_refuted`, `C31_clear_keeps_start_refuted`.
  Exact rationals instead of floats. Findings: past the last line the line count is returned, the vertical start is not taken into account by the line search, clear keeps it (C31_*_refuted).
* **C32** Every cursor position belongs to the run that contains it (partial). `Layout*`: the run search; `Built*` for every layout of the builder.
  Theorems: `C32_built`, `C32_interior`, `C32_every_position`, `C32_boundary_policy`, `C32_line_start_refuted`, `C32_visual_order_refuted`, `C32_documented_policy_refuted`, `C32_empty_layout_refuted`, `C32_caret_defined`.
  Proved for every position strictly inside a run in any document, and for every position and affinity when runs are stored in text order without a direction change at a line start; refuted otherwise (C32_*_refuted).
* **C33** Caret x offset lies inside its run and is monotone (proved). `Layout*`: interpolation over rationals; `Built*` for every layout of the builder.
  Theorems: `C33_built`, `C33_caret`, `C33_interpolation`, `C33_empty_run`.
* **C34** Selection ranges lie inside the run (proved). `Layout*`, `Built*`: as C33.
  Theorems: `C34_built`, `C34_position_range`, `C34_contains_range`, `C34_empty_range_refuted`.
  The intersection test is for non-empty ranges; an empty range inside a run counts as intersecting (C34_empty_range_refuted).
* **C35** Hit testing returns a position of the clicked line (partial). `Layout*`, `Cursor*`, `Built*`: the search over glyphs and caret stops, with an ICU iterator as oracle.
  Theorems: `C35_built_legal`, `C35_built_nearest`, `C35_built_on_line`, `C35_terminates`, `C35_legal`, `C35_nearest`, `C35_round_trip`, `C35_on_line`, `C35_rtl_soft_break_refuted`, `C35_straddling_refuted`, `C35_two_glyphs_refuted`.
  Terminates for every forward iterator; legal when glyphs begin at caret stops; nearest and round trip when each group of characters has one glyph; shown on the clicked line for left-to-right text. Each hypothesis is needed (C35_*_refuted).
* **C36** Line start and end positions bound the line (partial). `Layout*`, `Built*`.
  Theorems: `C36_built_partial`, `C36_built_left_to_right`, `C36_line_start_partial`, `C36_line_end_partial`, `C36_on_line`, `C36_rtl_refuted`.
  Holds for left-to-right extreme runs; for right-to-left ones start and end are swapped (C36_rtl_refuted).
* **C37** Cursor movement is monotone and stays on legal stops (partial). `Cursor*`: break iterators answer from a set of boundaries.
  Theorems: `C37_next_character`, `C37_prev_character`, `C37_prev_undoes_next`, `C37_next_undoes_prev`, `C37_next_word_partial`, `C37_prev_word`, `C37_end_of_text_refuted`.
  All of it when a byte after the text is readable; otherwise the end cannot be reached by words (C37_end_of_text_refuted).
* **C38** Font registry handles are stable (partial). `Font*`: the registry as a state machine; invariant over histories of registrations.
  Theorems: `C38_stable`, `C38_already`, `C38_already_only_if`, `C38_distinct`, `C38_reserved_refuted`, `C38_wrap_refuted`.
  Stability, ALREADY_LOADED and distinctness for every history below 65535 names; reserved families have a valid handle against the documentation, and more names wrap (C38_*_refuted).
* **C39** Every registered family serves every weight and style (proved). `Font*`: the same.
  Theorems: `C39_serves`, `C39_defined`, `C39_empty_faces_refuted`.
  For every history: the answering description, and the face behind it as first described; an empty face array reports success (C39_empty_faces_refuted).
* **C40** Font fallback segments text completely (partial). `Font*`: the segmentation with a coverage oracle; induction over the text.
  Theorems: `C40_advances`, `C40_covered`, `C40_choice`, `C40_base`, `C40_tiles`, `C40_builder`, `C40_base_unloadable_refuted`, `C40_empty_fallback_refuted`.
  Definedness, progress, choice, coverage and tiling for every history of documented registrations, coverage relation and text; false when the base face does not load, or a fallback family has no faces (C40_*_refuted).
* **C41** Font data is served at the requested size (partial). `Font*`: the cache of faces as a state machine over histories of requests.
  Theorems: `C41_size_partial`, `C41_advances`, `C41_first_scale_refuted`, `C41_zero_size_refuted`, `C41_space_refuted`.
  FreeType size and advances for every history; the first request has a stale HarfBuzz scale, an effective size of zero is ignored, the space advance is never refreshed (C41_*_refuted).
* **C42** Glyph atlas never overlaps glyphs (proved). `Atlas*`: the shelf packer over a pixel map; invariant over histories.
  Theorems: `C42_requests`, `C42_uploads`, `C42_wide_refuted`.
  Full for all request histories and all upload histories of both atlases (padding 1 and 2) with pictures up to the page size; a wider picture leaves the page (refuted). The OpenGL texture is modelled as a map of pixels; uninitialised texels are None.
* **C43** Glyph and stroke caches return the bitmap asked for (partial). `Atlas*`: the caches with rasterising oracles; invariant over histories.
  Theorems: `C43_answers_partial`, `C43_stroke_weight_refuted`, `C43_source_weight_refuted`, `C43_blank_refuted`, `C43_transparent_refuted`.
  Proved for all histories in which each face is declared with one source weight and style and its strokes use one weight and style. Refuted otherwise: stroke keys omit weight and style; glyph keys omit the source weight and style. Also refuted: second request of a blank glyph (member of a null page) and coloured glyphs with transparent pixels (0/0 converted to an integer). The MSDF atlas's cache is C80.
* **C44** Text box editing keeps the cursor in the text and edits what the user sees (partial). `TextBox*`: the editor as a state machine over events, with layout as an oracle; `Built*` puts the builder in its place.
  Theorems: `C44_built_partial`, `C44_rich_partial`, `C44_history_partial`, `C44_empty_selection_refuted`, `C44_stale_layout_refuted`, `C44_empty_box_refuted`, `C44_empty_clipboard_refuted`, `C44_set_text_refuted`, `C44_rich_refuted`.
  C44_history_partial covers a plain text box and every history whose events meet the stated conditions: moves and clicks need text, edits must not find an empty selection, pasting needs a clipboard with text, text set by the program must hold the cursor. Each of these conditions is needed (the _refuted theorems). C44_rich_partial covers editable boxes of rich text while they have the focus; the click that gives it to them is refuted (C44_rich_refuted).
* **C45** UI tree keeps its children (partial). `Tree*`: a heap of objects with links; invariant over histories.
  Theorems: `C45_tree_partial`, `C45_children_partial`, `C45_ends_partial`, `C45_lost_refuted`, `C45_duplicate_refuted`, `C45_backwards_refuted`, `C45_cycle_refuted`.
  Proved for every history that attaches unparented objects and moves or removes only children, never below themselves: each object is once in its parent's list in both directions and nowhere else, in order, and the calls end. For other histories the statement is false: removing the last child and adding another loses the first (lost), a moved object takes its later siblings along (duplicate), a removed one is still met backwards (backwards), and moving below an own child never ends (cycle).
* **C46** Clipped rectangles tile the original (partial). `Clip*`: rectangles over Q, columns of the texture.
  Theorems: `C46_tiles`, `C46_sliver_refuted`, `C46_box_partial`, `C46_box_refuted`.
  Exact arithmetic in place of float. Pieces tile, texture columns and colours proved for every rectangle and range (C46_tiles). The white part is not exactly the range when less than a pixel sticks out (C46_sliver_refuted). The range equals the highlight box only for lines at offset 0 (C46_box_partial); it is wrong for every other line (C46_box_refuted).
* **C47** Bitmap writes stay inside the bitmap (partial). `Bitmap*`: a map of pixels with 32-bit coordinates.
  Theorems: `C47_fill_partial`, `C47_blit_partial`, `C47_alpha`, `C47_fill_left_refuted`, `C47_fill_right_refuted`, `C47_blit_left_refuted`, `C47_blit_right_refuted`.
  blit_alpha proved for every position; fill_rect and blit proved for corners inside or below the bitmap; for negative corners they shift instead of clipping and right of the bitmap they write outside (refuted).
* **C48** Mapping a file loses nothing (partial). `File*`: system calls answer arbitrarily within their contract; what is held is a list.
  Theorems: `C48_stdio`, `C48_linux_partial`, `C48_windows_partial`, `C48_nothing_left`, `C48_linux_leak_refuted`, `C48_linux_stat_refuted`, `C48_windows_null_refuted`, `C48_windows_size_refuted`, `C48_short_read_refuted`, `C48_linux_size`.
  Proved without restriction for the stdio version, for Linux if only open fails and for Windows if CreateFileMappingW does not fail. The rest is false: on Linux a descriptor leaks when fstat or mmap fails (an empty file is enough); on Windows a failed CreateFileMappingW is not noticed and a null handle is closed, and sizes of 4 GB and more are wrong; the stdio version ignores a failed read.
* **C49** Family description validation (partial). `Json*`: a tree of JSON values.
  Theorems: `C49_accepts`, `C49_registers_nothing`, `C49_rejects_partial`, `C49_valid`, `C49_negative_refuted`, `C49_unknown_script_refuted`, `C49_scripts_type_refuted`.
  Everything that does not describe a family registers nothing; it is refused with INVALID_JSON except for a negative script code (exception, C49_negative_refuted) and the name of a script that does not exist (undefined behaviour, C49_unknown_script_refuted). Fields "scripts", "linked_families", "fallback_families" of another type than array are ignored (C49_scripts_type_refuted).
* **C50** Effective font size shrinks monotonically (proved). `FontSize*`, `FloatProofs`: binary32; analytic proof of the rounding.
  Theorems: `C50_exact`, `C50_at_most`, `C50_unmodified`, `C50_monotone`, `C50_modified`, `C50_large_refuted`, `C50_share_refuted`.
  Exact binary32 semantics (SpecFloat). Also: below 2^20 the size is exactly the rounded-down percentage; monotone over all 32-bit sizes; with a modifier defined and at most nominal for all 32-bit sizes. Outside the stated range: 2^24+3 grows and 2^32-1 is undefined.
* **C51** Drawing visits every glyph once with its stored position (partial). `Draw*`: the calls of the visitor as a list; `Built*` for every layout of the builder.
  Theorems: `C51_built_partial`, `C51_plain`, `C51_formatted_partial`, `C51_rtl_at_end_refuted`, `C51_final_newline_refuted`.
  draw_text without formatting is proved; with formatting it is proved for documents in which the iterator of each run is made inside the text. A right-to-left run at the end of the text and an empty last line read past the colour table (C51_rtl_at_end_refuted, C51_final_newline_refuted).
* **C52** Matching brackets share a script (proved). `ScriptRun*`: invariant of the bracket stack between the two brackets.
  Theorems: `C52_matching_brackets`, `C52_too_deep_refuted`.
  The depth bound is sharp (C52_too_deep_refuted).
* **C53** Underlines and strikethroughs cover exactly their glyphs (partial). `Draw*`: the rectangles of a run against a spec by glyphs.
  Theorems: `C53_lines_partial`, `C53_spurious_underline_refuted`.
  Proved for runs in which no line begins where the colour changes; refuted otherwise (C53_spurious_underline_refuted).
* **C54** Building a layout is always defined (partial). `Builder*`: no outcome but `Ok` under the stated conditions.
  Theorems: `C54_defined_partial`, `C54_table_end_refuted`, `C54_byte_after_refuted`, `C54_lead_after_refuted`, `C54_zero_tab_refuted`.
  Defined when there is readable memory after the tables or a final separator, a single byte (no lead byte) after the text, and tabs of defined width; each is needed (C54_*_refuted).
* **C55** Each character is shaped in its own font, level and styles (proved). `Builder*`: the segments against the tables.
  Theorems: `C55_attributes`.
  Under can_build; scripts are C28.
* **C56** Hit testing picks a caret stop on the line under the point (partial). `TextBox*`, `Layout*`: the search of the line and of the stop.
  Theorems: `C56_hit`, `C56_vertical_start_refuted`.
  Line and stop for every point measured from the first line; the start of the text is ignored (C56_vertical_start_refuted).
* **C57** Every cursor controller owns one live iterator for its own text (partial). `Cursor*`: controllers as a state machine over iterators that are alive.
  Theorems: `C57_owners_partial`, `C57_move_construct_refuted`, `C57_move_text_refuted`.
  Ownership in every defined history; move construction is always undefined and assignment leaves the text behind (C57_*_refuted).
* **C58** A failed registration leaves nothing behind (partial). `Font*`: the registry after each error.
  Theorems: `C58_no_faces`, `C58_failed_partial`, `C58_threw_refuted`.
  Holds for missing faces; a script code out of range leaves earlier codes behind (C58_threw_refuted).
* **C59** The registry may be used by several threads (partial). `Lock*`: threads and mutexes as a transition system; invariant over executions, commutation to a serial one.
  Theorems: `C59_no_race`, `C59_serial`, `C59_registry`, `C59_no_deadlock_partial`, `C59_deadlock_refuted`, `C59_assertions_refuted`.
  No race and serial answers are proved without assertions compiled; with them there is a race (C59_assertions_refuted). Absence of deadlock and of locking twice is proved when get_sub_font finds all faces in the cache of its thread; otherwise both happen (C59_deadlock_refuted).
* **C60** Synthesised small capitals apply to one case (partial). `Font*`: the case runs of the segmentation.
  Theorems: `C60_case_run`, `C60_mixed_refuted`.
  The case run is right; the segment returned may go beyond it (C60_mixed_refuted).
* **C61** UI objects move with their parents (partial). `Tree*`: the recalculation of positions.
  Theorems: `C61_placed_partial`, `C61_position_partial`, `C61_lost_refuted`.
  Proved for the same histories as C45, for any addition of positions. A child lost as in C45_lost_refuted does not move with its parent.
* **C62** Lines are as high as their fonts (proved). `Builder*`: the metrics of the lines against those of their runs.
  Theorems: `C62_every_line`.
  Over rationals for the stored metrics. Ascents below zero and descents above zero count as zero, as in the code.
* **C63** Rectangles are drawn with their own texture (proved). `Ui*`: the OpenGL state and the container's record of it; invariant over a frame.
  Theorems: `C63_draws`.
  Hypothesis: a texture created while drawing is a new object and is the one returned for that request (C42).
* **C64** One object has the focus (proved). `Ui*`: focus as a state machine.
  Theorems: `C64_focus`.
  Objects are identified by numbers; which object takes a press is an input. The notification handlers do not call back into the container, as in the code.
* **C65** Clicks are counted per series (proved). `Ui*`: the counter over a list of timed clicks.
  Theorems: `C65_clicks`.
  Times are exact rationals given by the clock; cursor positions are valid ones.
* **C66** One menu is open, the one pressed or moved to (partial). `Ui*`: the menus of a bar as a state machine over mouse events.
  Theorems: `C66_one_open_partial`, `C66_which_partial`, `C66_edge_refuted`.
  Holds while the mouse is never exactly on the line shared by two menus and the bar is as wide as its menus; on that line two menus can be open (C66_edge_refuted).
* **C67** A read-only text box keeps its text (partial). `TextBox*`: each event.
  Theorems: `C67_read_only_partial`, `C67_keys_refuted`.
  Proved for every event except Backspace, Delete, Enter and Tab; those four do change the text of a read-only box (C67_keys_refuted).
* **C68** Loading a directory of families (proved). `Json*`: the loop over the files of a directory.
  Theorems: `C68_success`, `C68_failure`.
* **C69** Small capitals keep the character indices (partial). `CaseMap*`: ICU's edits and the remapping of indices.
  Theorems: `C69_characters_partial`, `C69_run_partial`, `C69_shorter_refuted`, `C69_longer_refuted`, `C69_undefined_refuted`.
  Proved up to the first character whose upper-case form takes another number of bytes, and for whole runs of such characters (then the run meets the contract the builder puts on a shaper). The code asks icu::Edits for the source index where it has a destination index, so the rest is false: C69_shorter_refuted (dotless i), C69_longer_refuted (U+0149, index behind the run), C69_undefined_refuted (U+0390, out-of-bounds read).
* **C70** A press reaches the topmost object (partial). `Event*`: both traversals over the heap of `TreeModel.v`; a common tagged preorder shows that the press goes through the drawing order backwards.
  Theorems: `C70_topmost_partial`, `C70_over_partial`.
  Trees made by the histories of C45_tree_partial; handlers that decline an event change neither the tree nor visibility; the container itself is visible (it is: nothing hides it).
* **C71** Keys and typed characters reach the focused box (partial). `Event*`: the two traversals with the answers of text boxes.
  Theorems: `C71_typed_partial`, `C71_keys_partial`, `C71_mouse_elsewhere_refuted`.
  Trees made by the histories of C45_tree_partial. Typed characters: as stated. Keys: only while the mouse is inside the box; refuted otherwise (C71_mouse_elsewhere_refuted).
* **C72** Objects are told when the mouse enters and leaves (partial). `Event*`: `handle_mouse_move` as a step on the hovered object.
  Theorems: `C72_enter_partial`, `C72_leave_partial`, `C72_cases_partial`, `C72_enter_again_refuted`, `C72_leave_again_refuted`, `C72_hidden_refuted`.
  What one move tells whom is proved for trees made by the histories of C45_tree_partial. Refuted: once only (C72_enter_again_refuted, C72_leave_again_refuted), shown objects only (C72_hidden_refuted).
* **C73** Glyph advances are right whatever was asked before (proved). `HbFont*`: the cache words and the float rounding; invariant of the cache over histories.
  Theorems: `C73_advances`, `C73_whole`, `C73_near`, `C73_vertical`, `C73_scale`, `C73_nearest_refuted`, `C73_wide_refuted`.
  Proved over all histories: nearest below 256 pixels, exact for whole 64ths up to 32767 pixels, within 3/4 of a 64th otherwise. Refuted: nearest rounding of long fractional advances; 32768 pixels and more is undefined behaviour. HarfBuzz's cache template is transcribed from its header, which is not in the repository.
* **C74** A code point has the same glyph however it is asked for (proved). `HbFont*`: lookup functions; a relation for every way HarfBuzz can ask.
  Theorems: `C74_has_glyph`, `C74_any_way`, `C74_batch`, `C74_symbol`, `C74_found`.
  FreeType's lookup, the font page and HarfBuzz's Arabic tables are oracles.
* **C75** Glyph and line metrics are those of the font (proved). `HbFont*` on `FloatInt*`: integer valued floats are exact below 2^24.
  Theorems: `C75_extents`, `C75_origin`, `C75_line`, `C75_line_bitmap`, `C75_points`, `C75_large_refuted`.
  Up to 262144 pixels; beyond that refuted by an example. Synthetic strength and slant of a HarfBuzz font are never set by the program and left out.
* **C76** Glyphs are found by exactly their names (partial). `HbFont*`: byte strings; the precedence of `&&` and `?:` as C++ has it.
  Theorems: `C76_terminated_partial`, `C76_known_partial`, `C76_prefix_refuted`, `C76_unnamed_refuted`, `C76_long_refuted`.
  Proved for terminated names, and for names with a length that are in the font. Refuted: a length with a beginning of glyph 0's name, fonts without names, names over 127 bytes.
* **C77** Single precision does not disturb the geometry of a layout (proved). `FloatLayout*` on `FloatReal*`: float copies of the caret functions; rounding as a monotone function on the reals (Flocq).
  Theorems: `C77_positions`, `C77_order`, `C77_caret`, `C77_near`, `C77_screen`, `C77_alignment`, `C77_closest_line`, `C77_lines`, `C77_width`, `C77_far_refuted`, `C77_width_refuted`, `C77_narrow_refuted`.
  Bounds are part of the statement; outside them C77_far_refuted, C77_width_refuted and C77_narrow_refuted show what happens.
* **C78** The outline given to the distance field generator is the outline of the glyph (partial). `Msdf*`: the four callbacks over a list of rings; induction over rings and their pieces.
  Theorems: `C78_edges`, `C78_contours_partial`, `C78_rings_refuted`.
  edges proved for all outlines; separate contours only for outlines with one ring, refuted for more
* **C79** A distance field picture has room for its glyph and is placed where the glyph is (proved). `Msdf*`: the frame in exact rationals; pixels in single precision on `Bitmap*`.
  Theorems: `C79_place`, `C79_exists`, `C79_pixels`.
  bounds and field values are those of msdfgen, taken as oracles; the frame is in exact arithmetic instead of doubles
* **C80** Distance field pictures belong to the glyph asked for (partial). `Msdf*` on `Atlas*`: histories of requests with any field generator; invariant of the cache.
  Theorems: `C80_answers_partial`, `C80_style_refuted`, `C80_stroke_refuted`, `C80_lowered_refuted`, `C80_blank_refuted`.
  proved for glyphs in the weight and style of their face; four refutations
* **C81** Imitated weights and styles change the outline as asked (partial). `Style*` on `FloatReal*`: fixed-point shear by arithmetic, emboldening amounts by monotone rounding.
  Theorems: `C81_own`, `C81_slant`, `C81_back`, `C81_weight`, `C81_stroke_refuted`, `C81_lighter_refuted`, `C81_units_refuted`.
  FT_Outline_EmboldenXY is an oracle; strokes of imitated weights, the source weight and curves in font units refuted
* **C82** Menu items switch their settings (partial). `Window*` on `Ui*`: events to a window with any menus and items; log of who took each event; invariant of the items by induction over histories.
  Theorems: `C82_settings`, `C82_takes_partial`, `C82_menus_undisturbed`, `C82_tray_holds_items`, `C82_border_refuted`.
  Who takes an event is proved with the mouse off the lines between menus; the border of an open tray lets presses through (refuted).
* **C83** The text box selects only while the mouse button is down (partial). `Window*`: the state of selecting as a function of the log.
  Theorems: `C83_selecting_partial`, `C83_release_refuted`.
  Proved for releases not over a menu or item; refuted for those.
* **C84** The window is laid out after every resize (partial). `Window*`: fold over resizes from the layout first shown.
  Theorems: `C84_layout_partial`, `C84_bottom_refuted`.
  All but the bottom of the text box, which is refuted.
* **C85** Objects are found by their names (partial). `Name*` on `Tree*`: the walks over reachable trees; splitting of joined names.
  Theorems: `C85_find_partial`, `C85_full_name_partial`, `C85_resolves_partial`, `C85_lost_refuted`.
  For trees reachable without the defects of C45; a lost child is not found (refuted).
* **C86** OpenGL objects have one owner and are deleted once (partial). `Gpu*`: everything OpenGL is told, in order; invariant relating what exists to who holds it, over all programs and all answers of OpenGL.
  Theorems: `C86_owned_once`, `C86_none_left`, `C86_moves`, `C86_defined_partial`, `C86_start_to_end`, `C86_blank_refuted`.
  Everything but moves of objects declared without initialiser, which are undefined (refuted).
* **C87** Font objects live as long as the thread and are released once (partial). `Ft*`: everything the two libraries are told, with counted references; invariant as a multiset of what exists, over all histories of a thread.
  Theorems: `C87_alive`, `C87_end_partial`, `C87_leaks_refuted`, `C87_defined`, `C87_same`.
  Everything but HarfBuzz's faces and the glyphs under strokes, which are left behind (refuted, with the exact number).
* **C88** Font measures and decoration lines are where the font says (partial). `Metrics*`: the getters on binary32 numbers; relative error of each operation by Flocq, composed.
  Theorems: `C88_reach`, `C88_order`, `C88_scale_partial`, `C88_lines_partial`, `C88_strike_partial`, `C88_thickness_partial`, `C88_no_units_refuted`, `C88_lowest_refuted`.
  Everything for fonts with units per em; the two exceptions are refuted.
* **C89** The shaper is asked for the right letters of the right text (partial). `Request*`: the calls to HarfBuzz up to `hb_shape`, with the buffer after HarfBuzz's documentation; each call's effect on characters, surroundings and features computed for every run.
  Theorems: `C89_features`, `C89_one_way`, `C89_text_partial`, `C89_said`, `C89_alone`, `C89_surroundings_refuted`.
  Everything but the surroundings of imitated small capitals, which is refuted.
* **C90** A layout builder works with proper memory and leaves none behind (partial). `Work*`: everything made, used and released, in order; frame lemmas for each function, composed over paragraphs, runs and lines; invariant over all programs.
  Theorems: `C90_owned`, `C90_end_partial`, `C90_defined_partial`, `C90_blocks`, `C90_leak_refuted`, `C90_move_refuted`, `C90_moved_refuted`.
  Everything but the text blocks and the use of builders moved from, which are refuted.
* **C91** The screen shows the text and its selection in the right places (partial). `Screen*`: the list of rectangles drawn by both `draw_text` of the sample program, on top of `DrawModel`'s calls and `ClipModel`'s clipping; boxes by induction over the runs visited, pictures by induction over the calls with the run announced last.
  Theorems: `C91_screen_partial`, `C91_aligned_refuted`, `C91_nothing_selected_refuted`, `C91_plain`.
  Boxes, places and pictures hold for every text and alignment, the colours of selected text only for lines that start at the left of the area and up to parts narrower than a pixel; the code does differently otherwise (see the refuted theorems). Drawing with formatting wants the character the iterator is made at to be in the text, as in C51.
* **C92** The caret blinks where the cursor is (partial). `Blink*`: `TextBoxModel`'s timer in binary32 and `ScreenModel`'s drawing of a box; the rhythm by an invariant over frames that bounds the rounding (Flocq), the place by the invariant of C44 and the drawing of C91.
  Theorems: `C92_blink`, `C92_place_partial`, `C92_typing_refuted`, `C92_erased_refuted`.
  C92_blink is for every box and every event that puts the cursor somewhere. C92_place_partial is for the histories of C44 that end with text in the box; with all text deleted drawing fails (C92_erased_refuted). Typing does not restart the blinking (C92_typing_refuted).
* **C93** A text box always shows its text under its present settings (partial). `Settings*`: setters as events beside those of `TextBoxModel`, the layout builder as a function of all settings; the invariant of C44 holds under the settings of the moment.
  Theorems: `C93_settings_partial`, `C93_selectable_refuted`, `C93_single_line_refuted`.
  Plain text and the histories of C44 (C93_settings_partial). C93_selectable_refuted and C93_single_line_refuted show two settings that do not do what they promise.
* **C94** UI objects live exactly as long as someone has them (partial). `Life*`: objects with shared and weak pointers, use counts, destruction at zero. Invariant over all histories; for histories that put every object somewhere once, the living objects are the least set the English rule describes.
  Theorems: `C94_held_partial`, `C94_lives_partial`, `C94_end_partial`, `C94_taken_refuted`, `C94_sibling_refuted`, `C94_leak_refuted`, `C94_lost_refuted`.
  Proved: nothing in use is destroyed and nothing unused lives after any history; exactly the right objects live in histories that put each object somewhere at most once. The full claim is false: see the refuted theorems.
* **C95** Moving an object is as much work as it has descendants (partial). `Cost*`: `TreeModel` with a log of computed positions; by induction on the tree each descendant occurs 2^(depth-1) times.
  Theorems: `C95_cost_partial`, `C95_time_refuted`.
  Proved: the exact number of computations for every descendant. That each is computed once is false below the children.
* **C96** A rectangle colours exactly its pixels, each once (partial). `Gl*`, `Shader*`: the vertex shaders over rationals; OpenGL's choice of pixels is any function that colours inside, not outside, and shared edges once. The sides of both triangles are computed, the diagonal goes by the edge rule; the parts of `emit_rect` meet at equal columns.
  Theorems: `C96_pixels`, `C96_solid`, `C96_parts`, `C96_highlight`, `C96_fields_partial`.
  Proved for rectangles and their parts. For distance field rectangles a pixel whose centre is exactly on the border is left to OpenGL.
* **C97** Glyph pictures appear texel for texel (partial). `Shader*`: interpolation inside either triangle gives the same linear map; with whole sizes a pixel centre meets a texel centre, where linear filtering is exact.
  Theorems: `C97_picture`, `C97_text`, `C97_split_refuted`.
  Proved for whole pictures. For a picture cut by a highlight it is false.
* **C98** Outlines are closed lines drawn once (partial). `Shader*`: the corners are pixel centres; the four half-open lines are disjoint and make up the border.
  Theorems: `C98_outline`, `C98_thin`, `C98_outside_refuted`.
  Proved: the border is closed and drawn once. That it stays on the rectangle is false.
* **C99** Distance field text has soft edges and nothing else (partial). `Shader*`: case analysis for the median, the polynomial of `smoothstep` on the unit interval.
  Theorems: `C99_median`, `C99_opacity_partial`, `C99_flat_refuted`.
  Proved where the distance changes. In flat areas the result is undefined.
* **C100** The tool bar highlights what is under the mouse (partial). `Tool*`: highlight flags beside the window of C82; invariant over all events, with the open menu of C66 and the mouse as abstract state.
  Theorems: `C100_menus_partial`, `C100_items`, `C100_line_refuted`, `C100_edge_refuted`, `C100_stale_refuted`.
  proved with the mouse off the lines between menus; refuted on them and on the lines between items
* **C101** The tool bar looks as designed, pixel by pixel (partial). `Tool*`: drawn shapes to pixels by the rasteriser and the outlines of C96/C98; induction over menus and items to a picture given pixel by pixel.
  Theorems: `C101_picture_partial`, `C101_texts_partial`, `C101_texts_on_top_partial`, `C101_overhang_refuted`.
  proved with the mouse off the lines between menus; that texts stay in the tray refuted
* **C102** Hash tables are dictionaries (proved). `Hash*`: the hash functions in 64-bit arithmetic over a table of buckets with any growth; invariant that every entry is in the bucket of its hash, refinement to the list of insertions.
  Theorems: `C102_glyphs`, `C102_fields`, `C102_keys`, `C102_names`, `C102_apart`.
  The C++ standard's description of unordered_map, and that std::hash agrees on strings and views, are assumed.
* **C103** Files are read whole (partial). `Read*`: the C library's answers as arguments; case analysis.
  Theorems: `C103_bytes_partial`, `C103_safe`, `C103_start_partial`, `C103_short_refuted`, `C103_pipe_refuted`, `C103_empty_refuted`.
  Ordinary files; short reads, unknown sizes and empty files are refuted.
* **C104** Labels are drawn where they are put (partial). `Immediate*`: the builder of C54 followed by the drawing of C91; the stored document, its vertical start and the calls of C51 composed into one list of glyphs, then induction over lines.
  Theorems: `C104_drawn_partial`, `C104_inside_partial`, `C104_empty`, `C104_table_end_refuted`, `C104_spill_refuted`, `C104_space_refuted`.
  Needs memory that can be read after the font table (as the code does) and no tab of zero width; table end, spill and shift refuted.
* **C105** Frames, events and the clock (partial). `Main*`: the program as the list of what it does for the frames and events GLFW gives; induction over frames, a small automaton for the rules of GLFW and OpenGL, and Flocq's error bounds for the readings of the clock composed with C92.
  Theorems: `C105_frames`, `C105_picture`, `C105_order_partial`, `C105_no_window_refuted`, `C105_caret`, `C105_scale_refuted`.
  Frames, pictures, events and the caret's time are proved for all runs; the order of GLFW and OpenGL calls only if the window can be made. Refuted: a failed glfwCreateWindow; the mouse on screens with several pixels per unit.
* **C106** Markup appears on the screen as its tags say (partial). `Rich*`: recalc_text and render for a box without focus, from the text to the rectangles; the tables of the parser (C12-C14) are shown to be the ones the builder (C54, C55, C29) and the drawing code (C51, C53, C91) need, so that their theorems compose to one about the document tree.
  Theorems: `C106_markup_partial`, `C106_nothing_refuted`.
  For left-to-right text without tabs that does not end with a paragraph separator, when memory behind the tables of the builder can be read (C54); lines under and through the text for runs where none begins at a change of colour (C53). Markup that displays nothing is C106_nothing_refuted.
* **C107** Families are read from the bytes of their files (partial). `JsonText*`: the string view as memory and a size, simdjson's padded_string_view and iterate as documented, file names and extensions; composed with C103 and C68.
  Theorems: `C107_file`, `C107_missing`, `C107_threw`, `C107_directory`, `C107_data_partial`, `C107_literal_refuted`, `C107_part_refuted`, `C107_unterminated_refuted`, `C107_zero_refuted`.
  Files and directories are proved for texts without zero bytes; texts in memory only when they end with a zero byte and at least 63 bytes more (C107_data_partial). The rest of the statement is refuted.
* **C108** Pages of the glyph atlas show the pixels FreeType rendered (partial). Model FreeType's bitmaps with their pitch, mode and buffer, the two rasterising functions and drawing with bounds on the buffer (RasterModel.v); specify a pixel of a picture from FreeType's documentation and what a page has to show (RasterSpec.v).  Prove that tight pictures come through by composing the packing theorem C43 with a rounding proof of the division of colours in real numbers (RasterProofs.v); refute padded rows, rows from the bottom, lack of memory and strokes that cannot be drawn.
  Theorems: `C108_pages_partial`, `C108_padding_refuted`, `C108_upside_down_refuted`, `C108_memory_refuted`, `C108_stroke_refuted`.
  Proved for rows without gaps from the top, opaque enough colours and C43's assumptions; padded and bottom-up rows, failed renderings and failed strokes are refuted.
* **C109** Clicking lands on the nearest caret in single precision (partial). FloatHitModel repeats the hit test of LayoutModel with the program's float operations in their order, on the tables of C77. The structure of the result and its legality are proved for arbitrary floats. For the distance Flocq's theorems give the real value of every operation: the stops the walk computes are the carets that are drawn, differences of floats have relative error 2^-24, and the choice is compared with every other stop as in C35. C109_agrees runs both hit tests in lockstep: on the grid of 128ths every sum, difference and comparison is exact.
  Theorems: `C109_agrees`, `C109_ends`, `C109_legal`, `C109_click`, `C109_point`, `C109_nearest`, `C109_round_trip`, `C109_exactly_refuted`.
  Proved up to one part in 4194304; refuted: exactly the nearest (rounded distances can tie). Round trip in right-aligned or centred text is for glyph edges and 26.6 widths. Fused multiply-add is not modelled.
* **C110** Selection boxes and glyphs in single precision (partial). FloatSelectModel.v redoes the range of a selection in a run, the iteration over lines and runs, the boxes of UIContainer::draw_text and the origins of glyphs with the program's float operations. FloatSelectSpec.v says on_grid, at_glyph, within and what a box must be next to the exact places of C91. Sums on the grid of 128ths below 2^17 pixels are exact; carets inside a cluster are near (C77) and one rounding of the sum is added. Refuted off the grid: the caret and the box of the same line begin at different floats.
  Theorems: `C110_boxes`, `C110_glyphs`, `C110_seam`, `C110_top_refuted`.
  Off the grid of 128ths, for instance with a start of 0.1, the top of a box and the top of the caret of the same line can differ in the last bits (C110_top_refuted). The bound on the difference is not proved there.
* **C111** HarfBuzz gets the font's tables, glyph names and kerning unchanged, and buffers are neither lost nor freed twice (partial). TableModel has a memory of live buffers (freeing a dead one is undefined), the calls of FreeType, allocator and HarfBuzz as oracles, and runs of requests and releases. An invariant over runs ties live buffers to the blobs one to one and to the bytes of the tables. Names are composed with the model of C76.
  Theorems: `C111_owned`, `C111_no_leak`, `C111_contents_partial`, `C111_given`, `C111_large_refuted`, `C111_whole_partial`, `C111_whole_refuted`, `C111_names`, `C111_cut_refuted`, `C111_kerning`.
  Refuted: lengths are cut to 32 bits, so a table of more than 4 GiB is seen as its first bytes and a font file of 2 GiB as empty; names that do not fit are cut without notice.
* **C112** Glyphs appear on the screen in the font engine's own shades and colours (proved). TextureModel.v: bitmaps as bytes in memory (little endian), the two upload formats, row alignment, Image construction and write, pages as sequences of uploads. Proved: uploads refine the word textures of AtlasModel.v; every page of every history comes from uploads; the composition with C43 (answers) and C97 (pixels); the rounding of colour divided by opacity bounded through Flocq; the field shader is invariant under exchanging red and blue because the median is symmetric.
  Theorems: `C112_uploads`, `C112_packed`, `C112_text`, `C112_fields`, `C112_default`.
  C112_text composes the atlas (C43) with the upload and the shaders (C97). A fully transparent pixel in a picture in colours is excluded by the hypothesis that the atlas can draw the picture (C43_transparent_refuted). Byte order of memory and OpenGL's default row alignment are assumptions of the model.
* **C113** The caret appears where the text was clicked (partial). Compose the models of the two searches (LayoutModel, CursorModel). ClickSpec.v says where the carets of a run are, from its glyphs alone, and which lines are meant. ClickProofs.v determines the affinity of what the first search finds at each end of each run (LayoutHitProofs.hit_nearest_found), and shows by cases on the directions of neighbouring runs that the second search goes to the same run, or to the next one at the same place. ClickProps.v has the theorem and the counterexample for lines that end right-to-left.
  Theorems: `C113_click`, `C113_rtl_at_the_end_refuted`.
  Proved for documents whose runs are stored in text order and whose lines end left-to-right without two successive right-to-left runs, or are paragraphs of one run; the counterexample shows a line that ends right-to-left. Exact arithmetic (C109 and C110 treat the rounding).
* **C114** Up, Down, Home and End move the caret where the eye expects (partial). KeyCaretSpec.v says what stays, where the caret is and what nearest means. Up and Down follow from the lemma of C113 for a line and a horizontal place. For Home and End, KeyCaretProofs.v shows that in text order the run that ends first (last) is the first (last) run of the line, that the cursor falls to that run, and that its caret is the run's edge.
  Theorems: `C114_up_down`, `C114_home_end`, `C114_end_refuted`, `C114_home_refuted`.
  Proved for the documents of C113; the counterexamples show a line that ends right-to-left and a broken right-to-left paragraph. Exact arithmetic.
* **C115** In left-to-right text the carets stand in reading order (proved). Layouts, cursors and boxes as in C32-C37 and C114.  The run of a cursor is the one whose text holds it (C32), so a cursor further on is in the same run or a later one; within a run the caret moves on with the text (C33), and runs of one line lie beside each other.  The keys move the cursor to a stop after (before) it or leave it (C37).
  Theorems: `C115_reading_order`, `C115_right_left`.
  The reading order in ReadOrderSpec.  Text with right-to-left runs is left out: there Right follows the text and so may move the caret left.
* **C116** Double, triple and quadruple clicks select the word, the line, everything (partial). Boxes as in C44, words by MultiClickSpec.  The word is found with C37 (a word back, a word on), the line with C113 and C114.  The count of clicks is C65.
  Theorems: `C116_word`, `C116_line`, `C116_all`, `C116_first_letter_refuted`, `C116_unfocused_refuted`.
  Proved for words clicked after their first caret, for lines as in C114 and for all text.  Refuted: a double click on the left half of the first letter of a word selects the word before; a double click on a box without focus selects nothing.
* **C117** Edits take each other back (partial). Text boxes and their views as in C44.  The two edits are steps of a history; what each does to the view is C44, and the pieces of the text put together again are the text.
  Theorems: `C117_cut_paste`, `C117_backspace`, `C117_accent_refuted`.
  Proved for all histories of C44; Backspace for characters the caret can stop before.  Refuted for characters that join the one before: Backspace takes both.
* **C118** Dragging selects from the caret nearest to the press to the caret nearest to the mouse (partial). Boxes as in C44, the nearest caret as in C113 (DragSpec restates it for one point).  An invariant over the movements: the selection begins at the cursor of the press.
  Theorems: `C118_drag_partial`, `C118_first_press_partial`.
  Proved for boxes with the focus (first click of a series) and for the press that gives a plain box the focus, in text as in C114.  Missing: rich text in a box without focus, where C44_rich_refuted shows the cursor is looked up in other text, and lines where C113 fails.
* **C119** Characters that belong together are shaped together (partial). Pieces are those of C40; FT_Face_GetCharVariantIndex is an oracle.  From C40's description of where a piece ends.
  Theorems: `C119_together_partial`, `C119_variant`, `C119_mark_refuted`, `C119_selector_refuted`.
  Proved when the font chosen for the piece has all the characters.  Refuted: a letter and its accent are split although a fallback font has both; a variation selector is split from its character when the font has no glyph for the selector itself, so its variant does not appear.  HarfBuzz is not modelled.
* **C120** Typing at the end of a text leaves the fonts before it alone (partial). GrowSpec says what a grown text is.  Both texts are cut side by side with C40's description of each piece; the first character a font lacks is the same in both.
  Theorems: `C120_typing_partial`, `C120_missing_refuted`.
  Proved for text every character of which some font of the family or its fallbacks has, without small capitals.  Refuted: a character no font has changes its font when a character only a fallback has is typed after it.

## 5. Findings

Statements that are false of the code, each proved as a theorem with the suffix `_refuted` about the same model.

* `C43_stroke_weight_refuted`: The stroke of a bold glyph is answered with the stroke of the regular one.
* `C43_source_weight_refuted`: A face declared both as regular and as bold: the bold glyph is answered with the emboldened one, or the other way round.
* `C43_blank_refuted`: Asking twice for a glyph without pixels (a space) takes the address of a member of a page that does not exist.
* `C43_transparent_refuted`: A coloured glyph with a transparent pixel: its colour is divided by zero and the result converted to an integer.
* `C42_wide_refuted`: A picture wider than a page is answered with a rectangle that leaves it.
* `C47_fill_left_refuted`: A rectangle that begins left of the bitmap is moved right instead of clipped: two pixels from column -1 fill columns 0 and 1.
* `C47_fill_right_refuted`: A rectangle that begins right of the bitmap makes the program write outside.
* `C47_blit_left_refuted`: A copy placed left of the bitmap shows the wrong columns of its source.
* `C47_blit_right_refuted`: A copy placed right of the bitmap makes the program write outside.
* `C92_typing_refuted`: Typing does not bring the caret back: the letter typed while it is hidden is on the screen, and the caret is not.
* `C92_erased_refuted`: When the last character is deleted the layout stays and the formatting is that of no text: drawing the next frame reads behind the end of the table of colours.
* `C54_table_end_refuted`: A text that does not end with a separator has no defined layout when the font table ends with its last run: the run after it is always read.
* `C54_byte_after_refuted`: Wrapping reads the byte after the text.
* `C54_lead_after_refuted`: One byte is not enough when it starts a sequence, as it may when the text is a part of a longer one: the next bytes are then read too.
* `C54_zero_tab_refuted`: A tab width of zero divides by zero.
* `C23_vertical_width_refuted`: In vertical layouts the width of a line is read across it.
* `C25_white_space_refuted`: White space at the end makes a line wider than the limit.
* `C25_no_width_refuted`: A glyph that does not fit is added to glyphs without width, although there is an opportunity before it.
* `C26_wrapped_spaces_refuted`: A tab moved to the next line takes its width of the line before for the width of a space: its stops are no multiples of four spaces, here by a factor.
* `C26_hanging_refuted`: Hanging tabs stay as wide as spaces.
* `C26_right_to_left_refuted`: Stops are computed in the order of the text: beside right to left text a tab does not end at one, here at 3200 where 2560 is four spaces.
* `C28_later_paragraph_refuted`: In a later paragraph a character is shaped in the script of the run after its own: the glyph of character 3 is that of script 8 instead of 25.
* `C29_styles_refuted`: Small capitals are merged with normal text: a run said to be small capitals has a character that is not.
* `C69_shorter_refuted`: Dotless i loses a byte: the "A" that follows it is taken for a part of it.
* `C69_longer_refuted`: U+0149 becomes an apostrophe and "N", one byte more: the "N" is given an index behind the run, whatever follows.
* `C69_undefined_refuted`: U+0390 becomes three characters. A glyph for the second of them makes the code read four gigabytes behind the text when another letter follows.
* `C113_rtl_at_the_end_refuted`: A left-to-right line that ends with a right-to-left word: a click at its right end, or right of it, puts the cursor before the word's first letter, which is there, but with the affinity that draws the caret at the end of the text before, on the left of the word. The sample is "abc" and "DEF" in one line of width 60: the click at 60 shows the caret at 30, although there is a place for it at 60.
* `C46_sliver_refuted`: The white part is not exactly the highlighted part.
* `C46_box_refuted`: For every other line the two differ: the white part misses the line's offset.
* `C10_abgr_round_trip_refuted`: The abgr pair does not round-trip in general: 0x03FF0000 comes back changed, because the reader leaves the alpha bits in the red channel and the product with 255 then rounds down.
* `C10_abgr_red_refuted`: The abgr reader does not mask the red channel: whenever the alpha byte is non-zero the red component exceeds 1.
* `C95_time_refuted`: The time to move an object grows as a power of two of the depth below it: with [S n] objects one below the other, the lowest is computed [2 ^ n] times.
* `C37_end_of_text_refuted`: A word to the right reads the byte after the text whenever it gets to the end: when that byte is not readable, the end is never reached.
* `C56_vertical_start_refuted`: The height is measured from the first line, not from where the text is placed: with the text placed at 100, a click on its first line goes to the last.
* `C57_move_construct_refuted`: Constructing a controller from another is always undefined: the pointer that is swapped has no value.
* `C57_move_text_refuted`: Assignment moves the iterator but not the text: the two no longer agree.
* `C51_rtl_at_end_refuted`: A right-to-left run at the end of the text: the iterator is made past the last character and the colour table is read past its end.
* `C51_final_newline_refuted`: A text that ends with a line separator: the run of its last, empty line starts at the text length and the iterator is made there.
* `C53_spurious_underline_refuted`: Where an underline begins at a change of colour, plain glyphs before it are underlined too: a rectangle is drawn over them.
* `C71_mouse_elsewhere_refuted`: A key does not reach the box that has the focus while the mouse is elsewhere.
* `C72_enter_again_refuted`: While the mouse moves inside an object, the object is told again and again that it entered.
* `C72_leave_again_refuted`: While the mouse moves outside all objects, the one it left is told again and again that it left.
* `C72_hidden_refuted`: An object that is not shown, and lies over what is, is told of the mouse, and what is shown is not.
* `C48_linux_leak_refuted`: A Linux file that can be opened but not mapped, such as an empty one, leaves its descriptor open, and nobody can close it.
* `C48_linux_stat_refuted`: on Linux the descriptor leaks when `fstat` fails.
* `C48_windows_null_refuted`: A failed `CreateFileMappingW` is not noticed: the null handle is closed.
* `C48_windows_size_refuted`: The size of a file of four gigabytes and more is wrong on Windows.
* `C48_short_read_refuted`: Without memory mapping a failed read is not noticed: the mapping given out does not have the file's bytes.
* `C109_exactly_refuted`: 
* `C77_far_refuted`: Past 262144 pixels carets that are a 64th of a pixel apart coincide.
* `C77_width_refuted`: A text area of 33554432 pixels or more, or of infinite width, cannot be converted: the behaviour is undefined. A caller who wants no wrapping has to give the width 0.
* `C77_narrow_refuted`: A text area narrower than a 64th of a pixel counts as width 0, which means no wrapping (src/layout_builder.cpp:291).
* `C110_top_refuted`: The start of the text is not on the grid: 0.1. The caret on the first line begins at 0.1, the box behind the same line a little lower, because the ascent was added and taken away again: edges that should be equal differ in the last bits.
* `C38_reserved_refuted`: The documentation of `get_family` promises an invalid handle for a family that has not been initialised; one that was only mentioned has a valid handle.
* `C38_wrap_refuted`: after 65536 other names a handle comes round again and is shared by two families.
* `C39_empty_faces_refuted`: A registration with an empty array of faces reports success.
* `C58_threw_refuted`: A script code out of range throws after the codes before it were stored: the family registered afterwards under that name has them too.
* `C40_base_unloadable_refuted`: If the face of the family itself does not load, the fallback families are not asked.
* `C40_empty_fallback_refuted`: A fallback family that was registered without faces: the face array is read out of bounds.
* `C60_mixed_refuted`: A segment chosen for synthesised small capitals may hold upper case letters: the search for the end of the face does not stop at the end of the case run.
* `C41_first_scale_refuted`: The first request: HarfBuzz took its scale before the size was set.
* `C41_zero_size_refuted`: An effective size of zero (size 1, subscript): the size of the first request stays.
* `C41_space_refuted`: The stored advance of the space stays that of the first request.
* `C50_large_refuted`: From 2^24 on an unmodified size may grow, and the largest ones leave the range of the conversion back to an integer.
* `C50_share_refuted`: From 2^20 on the share is not always exact.
* `C17_start_at_end_refuted`: Starting an iterator at the text length, as `draw_text` does for a right-to-left run at the end of the text, reads past the colour table.
* `C18_end_without_begin_refuted`: When an underlined text of another colour follows plain text, the end of an underline is reported although none was begun.
* `C15_weight_overflow_refuted`: A weight attribute of 17 bytes writes past a 16-byte array.
* `C15_rgb_overflow_refuted`: So does an ordinary three-digit colour channel.
* `C87_leaks_refuted`: Defect: HarfBuzz's face of a font is created with a reference of its creator that nobody gives back, and the glyph a stroke is made from is not released. So every face that was loaded and, as long as FreeType succeeds, every stroke leaves an object behind for good.
* `C86_blank_refuted`: Defect: [Image x;] and [Pipeline x;] leave members unwritten, and moving such an object reads them.
* `C120_missing_refuted`: 
* `C73_nearest_refuted`: Long advances pass through a float with 24 bits: at 16384 pixels an advance can be off by more than half a 64th of a pixel.
* `C73_wide_refuted`: A glyph 32768 pixels wide: the conversion to `int` is undefined.
* `C75_large_refuted`: Beyond 262144 pixels the box of a glyph is rounded: a bearing of 2^24 + 1 becomes 2^24.
* `C76_prefix_refuted`: With a length, [!FT_Get_Glyph_Name(...) && len < 0 ? a : b] is read as [(... && len < 0) ? a : b]: every beginning of the name of glyph 0 is taken for its name.
* `C76_unnamed_refuted`: In a font without glyph names every name of which the length is given is compared with a buffer that was never written.
* `C76_long_refuted`: A name longer than 127 bytes is cut, and a glyph that has the cut name is found for it.
* `C104_table_end_refuted`: The table of fonts that `draw_text_immediate` makes ends with its only run, and the run after it is always read: no text without a separator at its end is drawn in a defined way.
* `C104_spill_refuted`: A name that is wider than its area is broken into lines, here two, which are higher than a button: part of the text is drawn above the area.
* `C104_space_refuted`: The space at which such a line is broken counts for its width: the letters "ab" of the centred line "ab " are ten pixels nearer to the left edge than to the right.
* `C49_negative_refuted`: A negative script code is an exception, not an error.
* `C49_unknown_script_refuted`: The name of a script that does not exist makes the program use a variable that has no value.
* `C49_scripts_type_refuted`: "scripts" that is not an array is not refused: the family then serves every script.
* `C107_literal_refuted`: A text that is given as it is, as a string literal for example, is refused, whatever family it describes.
* `C107_part_refuted`: A part of a longer text is not read to its own end but to the end of the longer one.
* `C107_unterminated_refuted`: Without a zero byte behind it, memory beyond what may be read is read.
* `C107_zero_refuted`: Whatever follows a zero byte in a file is ignored: the file is accepted although it is no JSON.
* `C114_end_refuted`: 
* `C114_home_refuted`: 
* `C31_past_end_refuted`: Documented (layout_info.hpp:87-90): past the last line the last line's index is returned. It is the number of lines.
* `C31_start_ignored_refuted`: The vertical start of the text is left out of the search: with the sample placed at 100, the height of the middle of its first line is beyond the last line.
* `C31_clear_keeps_start_refuted`: `clear` is documented to clear all layout information; the vertical start stays.
* `C32_line_start_refuted`: Where the direction changes at a line start, the position is lost: the second line begins at 7, the cursor 7 is reported on the third.
* `C32_visual_order_refuted`: A right-to-left line with a left-to-right run in the middle, in visual order: position 3, where that run begins, is reported on the next line.
* `C32_documented_policy_refuted`: Documented (layout_info.hpp:73-79): by default left-to-right before right-to-left gives the end of the current run. It gives the next run.
* `C32_empty_layout_refuted`: On an empty layout the run is [size_t(-1)], which the caller indexes with.
* `C34_empty_range_refuted`: An empty range strictly inside a run counts as intersecting it.
* `C35_rtl_soft_break_refuted`: In right-to-left text the edges of a soft break have the wrong affinity: a click left of the first line gives a cursor shown on the second, a click right of the second a cursor shown on the first.
* `C35_straddling_refuted`: When a caret stop group straddles the end of a line (no stop at 2), a click near the end of the first line gives position 3, which is on the second.
* `C35_two_glyphs_refuted`: When a group of characters has two glyphs, a farther caret may win: carets at 0 and 20, the click at 12 gives the caret at 0.
* `C36_rtl_refuted`: In a right-to-left line the start is the largest position and the end the smallest.
* `C94_taken_refuted`: An object that only its parent holds cannot be taken away or put elsewhere: the parent lets it go in the middle of `set_parent`, which then goes on with the destroyed object.
* `C94_sibling_refuted`: An object that was taken away still holds the sibling that followed it: the sibling lives on although neither the program nor a parent has it.
* `C94_leak_refuted`: An object taken away and put back makes a ring of siblings that nobody holds and that is never destroyed.
* `C94_lost_refuted`: Taking the last child away and adding another destroys the children before it.
* `C59_deadlock_refuted`: `get_sub_font` asks for the mutex it holds when it loads a face; if a registration waits by then, neither goes on.
* `C59_assertions_refuted`: With assertions compiled, `get_font_data` and `get_default_single_script_font` look at the tables without the mutex.
* `C105_no_window_refuted`: The window asks for OpenGL 4.6. Where there is none (as on macOS) `glfwCreateWindow` answers with a null pointer; the program does not look and hands it on to GLFW.
* `C105_scale_refuted`: On a screen with two pixels for each unit of the window the mouse is at half the numbers of the pixel it points at. The program takes pixels for units: pointing at the menu View, one presses Format.
* `C88_no_units_refuted`: A font that only has bitmaps has no designer's units: FreeType reports zero of them per em. Its scale is infinite or not a number, and the line under its text is placed at no number at all: the measures of such a font must not be drawn with.
* `C88_lowest_refuted`: The strike-out position is negated into sixteen bits: the lowest position there is comes out as itself, on the wrong side of the line of writing.
* `C78_rings_refuted`: A glyph with a hole: two closed rings become one contour, whose edges do not join where the first ring ends and the second starts.
* `C80_style_refuted`: A bold glyph, after the regular one of the same face and size, is answered with the regular picture, though its own is larger.
* `C80_stroke_refuted`: At twice the size a glyph is twice as large, its stroke is not.
* `C80_lowered_refuted`: A subscript whose effective size is that of another font is put at the same height as that font's glyph: it is not lowered (the other atlas lowers it).
* `C80_blank_refuted`: Asking twice for a blank glyph takes the address of a member of a page that does not exist.
* `C116_first_letter_refuted`: A double click on the left half of the first letter of a word selects the word before: in "ab cd" at 31, one pixel into the "c", it selects "ab ".
* `C116_unfocused_refuted`: 
* `C85_lost_refuted`: A child lost as in `C45_lost_refuted` is not found by its name.
* `C108_padding_refuted`: Rows are padded: the distance of the rows is not looked at, and every row but the first is shown shifted.
* `C108_upside_down_refuted`: Rows stored from the lowest on: the glyph is shown upside down.
* `C108_memory_refuted`: FreeType sets the size of a picture before it asks for memory for it. If there is none the picture has a size and a null address; the error is not looked at and the address is read.
* `C108_stroke_refuted`: A stroke FreeType cannot draw is read as a picture.
* `C103_short_refuted`: A read that stops early is not noticed: zeros stand for what is missing.
* `C103_pipe_refuted`: Where the position is not known (a pipe; a directory has a huge one) the function ends with an exception instead of nothing, and the stream stays open.
* `C103_empty_refuted`: An empty file is reported as missing.
* `C89_surroundings_refuted`: Imitated small capitals are shaped without the characters around them: the shaper is told of no characters on either side although there are some, and that the text neither starts nor ends here, so letters that join or kern across the boundary are given the wrong forms.
* `C106_nothing_refuted`: Markup that displays nothing: the layout of the text before it stays, and drawing it reads behind the end of the table of colours.
* `C91_aligned_refuted`: Text that does not start at the left: a selected letter is black on its box.
* `C91_nothing_selected_refuted`: A selection of no characters, as left by shift and an arrow key that cannot move: a thin letter at the caret turns white and no box is behind it.
* `C20_ill_formed_refuted`: Ill-formed text breaks it: an invalid byte makes the rest of the text part of one run whatever the scripts are. "a", an invalid byte, "β": one Latin run.
* `C52_too_deep_refuted`: One level deeper the oldest bracket is forgotten: after "a(β" and 32 nested pairs, the closing bracket of the Latin parenthesis is reported as Greek.
* `C93_selectable_refuted`: A box that is not selectable lets its text be selected.
* `C93_single_line_refuted`: A box for a single line takes more lines from the clipboard.
* `C97_split_refuted`: Under a highlight that ends inside a glyph the parts are moved to whole pixels but the texture is still cut at the highlight's end: the pixels show mixtures of neighbouring texels. Here the one solid texel of a picture is drawn at three quarters and an eighth of its strength.
* `C98_outside_refuted`: The outline does not stay on the rectangle: its right column and its bottom row are pixels next to it.
* `C99_flat_refuted`: Where the distance does not change, as it does not deep inside or far outside a glyph, the shader asks for a step of width zero, which GLSL leaves undefined.
* `C81_stroke_refuted`: The stroke of a glyph imitating bold is the stroke of the regular one, whatever emboldening does.
* `C81_lighter_refuted`: The weight of the face does not count: bold asked of a black face makes it heavier still, regular asked of a black face leaves it black.
* `C81_units_refuted`: A curve in font units is emboldened by an amount in pixels: the same curve comes out different at different sizes.
* `C111_large_refuted`: The length of a table of more than 4 GiB is cut to 32 bits, and so HarfBuzz sees its first bytes as the whole.
* `C111_whole_refuted`: A font file of 2 GiB looks empty.
* `C111_cut_refuted`: In a buffer that is too small the name is cut without notice, and two glyphs get the same.
* `C44_empty_selection_refuted`: A selection of nothing is kept while typing, so the next character replaces the one before: Shift+Right, Shift+Left, "a", "b" in front of "xy" gives "bxy".
* `C44_stale_layout_refuted`: Once all text is deleted the layout of the old text is still used: End puts the cursor outside the text, and Backspace then leaves the program by an exception.
* `C44_empty_box_refuted`: A click into a box without text reads outside the empty layout, whatever the other components do.
* `C44_empty_clipboard_refuted`: Pasting from a clipboard without text makes a string of a null pointer.
* `C44_set_text_refuted`: A shorter text set by the program leaves the cursor outside.
* `C44_rich_refuted`: in a rich text box positions in the displayed text are used as positions in the markup: copying "hi" copies a tag, typing after "hi" goes into the tag.
* `C67_keys_refuted`: Backspace, Delete, Enter and Tab change the text of a read-only box.
* `C100_line_refuted`: On the line between two items both are lit, although a press there goes to the lower one only.
* `C100_edge_refuted`: On the line between two menus both are marked.
* `C100_stale_refuted`: Opening a menu on the line between two leaves the other one marked as if the mouse were over it, wherever the mouse goes as long as it stays off the bar: two menus are marked.
* `C101_overhang_refuted`: The text of an item is given the full width of the item although it begins 32 pixels further right: its area, and a text long enough to fill it, reaches 29 pixels beyond the tray.
* `C45_lost_refuted`: The last child leaves, another object joins: the first child is in no list any more, although it still has its parent.
* `C45_duplicate_refuted`: An object that moves takes its later sibling along: the sibling is in the new parent's list too.
* `C45_backwards_refuted`: An object that left is still met on the way backwards.
* `C45_cycle_refuted`: Moving an object below its own child never ends.
* `C61_lost_refuted`: An object lost as in `C45_lost_refuted` does not move with its parent.
* `C66_edge_refuted`: On the line between them, moving picks the first and pressing the second: two menus end up open.
* `C117_accent_refuted`: 
* `C05_unequal_ends_refuted`: Without the equal-end precondition the loop reads past the shorter table.
* `C06_advance_to_end_refuted`: Advancing to the final limit (or past it) reads past the table, whatever the table.
* `C119_mark_refuted`: 
* `C119_selector_refuted`: 
* `C82_border_refuted`: A press on the border of an open tray, where it is drawn over the text box, goes to the text box: the cursor is set behind the menu.
* `C83_release_refuted`: When the button is released over a menu, the menu takes the event and the text box goes on selecting with no button down.
* `C84_bottom_refuted`: From the first frame on the text box ends 10 pixels below the bottom of the window instead of 10 above it: the height set on resizing leaves out the bar's.
* `C90_leak_refuted`: Laying out a text leaves memory behind that is never released: the text ICU was given to look at is opened for every run and for every broken paragraph, and never closed. A program that lays out the same text on and on takes more and more memory.
* `C90_move_refuted`: Moving a builder always reads a number that was never written: the new builder's own, which the assignment swaps.
* `C90_moved_refuted`: A builder that was moved from has nothing to lay out with: any text but line breaks makes it use null pointers.

## 6. Wrong programs

`tools/seed.py` applies an edit to a scratch copy of the model, rebuilds it with every broken proof admitted, and reads off
`Print Assumptions` which theorems fall.  `seeded/LOG.jsonl` has one line per edit.  Theorems that survived an edit that made
their English claim false were tightened; the log names them.
