# Formal model of forenoonwatch/rich-text

## 1. Approach

The model is a function-by-function Gallina transcription of the C++ in `/repo/src` and of the stateful parts of
`/repo/sample`.  Every definition cites the file and lines it models and says what it simplifies.

* Undefined behaviour (a read or write out of range, division by zero, an uninitialised variable, a conversion out of
  range) is the distinct outcome `UB` of the model, never a default value.  A thrown exception is a distinct result too.
* Loops are structural or run on explicit fuel.  Exhausted fuel is the distinct outcome `OutOfFuel`, which the theorems
  exclude.
* `int32_t`, `uint32_t` and `size_t` values are `Z` or `nat`.  Wrap-around is modelled where it can happen and matters:
  packed runs, cursor positions, font handles, colours, unsigned differences, bitmap coordinates, 16-bit face indices.
* Layout coordinates (`float`) are exact: 26.6 fixed point in `Z` before, `Q` after the division by 64.  Where IEEE rounding
  is the point (colours, effective font sizes, baseline offsets, blending, font metrics, carets and line heights) binary32 of `Coq.Floats.SpecFloat` is used.
* ICU, HarfBuzz, SheenBidi, FreeType, OpenGL, simdjson, msdfgen, the clock and the operating system are oracles: arguments of the
  model functions.  One template of HarfBuzz (`hb_cache_t`, the advance cache in `HbFontModel.v`) is transcribed from its
  published header, which is not in the repository.  `RequestModel.v` takes the effect of `hb_buffer_add_utf8` and
  `WorkModel.v` the duty to close what `utext_openUTF8` opened from the libraries' documentation.  What a theorem assumes of an oracle is a visible hypothesis of the theorem (section 2).

Files: `XModel.v` holds definitions only, `XSpec.v` an independent specification, `XProofs.v` (also `XyProofs.v`) the
proofs, `XDemo.v` concrete libraries for examples, `XProps.v` the theorems, an example for each that meets its hypotheses,
and `Print Assumptions`.  `Built*.v` composes the model of the builder with the models of the queries, of drawing and of the
text box.  `tools/gen.py` derives `_CoqProject` and `MANIFEST.json` from the theorems, `tools/design.py` this file.

## 2. Trusted base

* The kernel of Coq 8.16.1 and its standard library.  `vm_compute` is used in some examples and finite sweeps.
* `Print Assumptions` reports "Closed under the global context" for every theorem except those about rounding that go through the
  real numbers: C77_positions, C77_order, C77_caret, C77_near, C77_screen, C77_alignment, C77_closest_line, C77_lines, C77_width,
  C79_pixels, C81_weight, C81_stroke_refuted, C81_lighter_refuted, all of C88, C92_blink, C105_caret, C108_pages_partial, C109_click, C109_point, C109_nearest, C109_round_trip, C109_agrees, C110_boxes, C110_glyphs and C112_text.  These depend on the axioms of the standard
  library behind its real numbers, and on no others: `ClassicalDedekindReals.sig_forall_dec`,
  `ClassicalDedekindReals.sig_not_dec`, `FunctionalExtensionality.functional_extensionality_dep`, `Classical_Prop.classic`
  (C88_no_units_refuted and C88_lowest_refuted on the first and third only).
  Flocq is used there for its proofs about rounding; it adds no axioms.  No axioms are added.  The list
  that `vcheck` prints also names `Coq.ssr.ssrunder.Under_rel.*` (`Under_rel`, `Under_relE`, `Under_rel_from_rel`,
  `Over_rel`, `over_rel`, `over_rel_done`, `under_rel_done`): opaque constants of the standard library's ssreflect plugin
  that come with loading it; no theorem depends on them.
* The reading of C++ in the models: evaluation order as written, containers of the standard library as lists and finite
  maps, `std::unordered_map` as a map without an order, `std::from_chars` as decimal digits, exceptions as results.
* The contracts of the libraries, each a hypothesis where it is used:
  * the layout engines (`engine_ok` in `BuilderSpec.v`): a shaper gives each glyph a cluster inside the text it was given,
    in text order; `get_sub_font` advances and stays below its limit (proved of the registry in `C40_builder`); paragraph
    bounds advance; the bidi runs of a line partition it; decoding a character advances; the line break iterator answers the
    last opportunity before a position; levels and decoded characters cover the paragraph;
  * the tables given to the builder (`sources_ok`) end at the text length, and memory after them is readable (`padded`) or
    the text ends with a separator (both in `can_build`; needed, see C54);
  * for the queries of built layouts (`BuiltSpec.v`): `whole_clusters` (opportunities and bidi runs begin where glyphs do),
    `pen_forward` (no glyph moves the pen back), `single_glyphs`, `left_to_right`, `stops_at_glyphs`;
  * ICU break iterators (`follows_stops`, `precedes_stops`, `good_stops`): they answer the next and previous boundary of a
    set that contains both ends of the text;
  * fonts: which faces can be loaded, which characters and variation sequences they cover, the unscaled advances, which characters are combining
    or lower case, the pictures FreeType rasterises (`RasterSpec.v`: buffers, pitches);
  * the system calls of file mapping: what each may answer when it succeeds or fails (`linux_valid`, `windows_valid`,
    `stdio_valid`);
  * simdjson: the tree of values of a document; `padded_string_view(text, capacity)` takes the text up to its first zero byte, `iterate`
    refuses less than 64 bytes behind it and otherwise reads them; `uscript_getCode`: its answers; the list of files of a directory;
  * HarfBuzz's blobs: when the function that ends a buffer is called (`TableModel.v`); `FT_Load_Sfnt_Table` and `FT_Get_Glyph_Name`
    answer from the font or fail (`TableSpec.v`);
  * ICU case mapping: the edits of each piece of text (`CaseMapSpec.v`);
  * OpenGL: a texture is a map of pixels, `glTexSubImage2D` outside it writes nothing, the texture last bound is drawn; `GlModel.v`: the
    viewport, which pixels triangles and lines have (any rule that colours shared edges once), interpolation, linear filtering, blending;
    `TextureModel.v`: the order of bytes in the two upload formats, row alignment 4, a little-endian machine;
  * `std::unordered_map`: buckets by hash value, any number of buckets (`HashModel.v`); `std::hash` of strings and views agree;
  * mutexes: `std::shared_mutex` with any policy of admission that lets a waiting writer stop new readers, sequentially
    consistent memory; a registration is divided into parts that may interleave with the parts of unlocked code.
* The clock of double clicks is a list of rational times.

## 3. What is modelled

| Source | Model | Not modelled |
|---|---|---|
| `src/binary_search.hpp` | `BinarySearchModel.v`, all | |
| `src/value_runs.hpp`, `value_runs_iterator.hpp`, `value_run_utils.hpp` | `ValueRunsModel.v`, all | |
| `src/value_run_builder.hpp` | `RunBuilderModel.v`, all | |
| `src/cursor_position.hpp`, `src/font.hpp` | `PackingModel.v`, `BuilderModel.v` | |
| `src/color.hpp` | `ColorModel.v`, `FormattingIterModel.v` (`==`), all | |
| `src/formatting.hpp`, `formatting.cpp` | `FormattingModel.v`, all | lookup of a family name is an oracle |
| `src/formatting_iterator.*` | `FormattingIterModel.v`, all | |
| `src/script_run_iterator.*` | `ScriptRunModel.v`, all; bytes are decoded by an oracle | |
| `src/layout_builder.*` | `BuilderModel.v`, `CaseMapModel.v` (small capitals), `RequestModel.v` (what HarfBuzz is told), `WorkModel.v` (memory, moves) | `reserve_runs` |
| `src/layout_info.*` | `LayoutModel.v`, all but trivial getters; `FloatLayoutModel.v` (carets, alignment, line heights in floats); `FloatHitModel.v` (clicks in floats); `FloatSelectModel.v` (selections and the iteration over lines in floats) | float rounding of line edges; `for_each_glyph`, which names a member `pFont` that runs do not have and so compiles only while unused |
| `src/cursor_controller.*` | `CursorModel.v`, `LayoutModel.v` (`closest_to_position`), all | |
| `src/text_draw_util.hpp` | `DrawModel.v`, all; `FloatSelectModel.v` (places of glyphs in floats) | |
| `src/font_registry.*` | `FontModel.v` (one thread), `LockModel.v` (mutexes) | UTF-16 text (same code), custom file mapping functions |
| `src/font_registry_json.cpp` | `JsonModel.v`, `JsonTextModel.v` (files and bytes) | the parser itself (simdjson) |
| `src/font_common.hpp` | `FontSizeModel.v`, `AtlasModel.v` (baselines) | |
| `src/file_mapping.*` | `FileModel.v`, three platforms | |
| `src/harfbuzz_font.cpp` | `FontModel.v` (`mark_changed`), `HbFontModel.v` (callbacks, advance cache), `TableModel.v` (tables, names, kerning), `VariantModel.v` (variation selectors) | synthetic strength and slant (never set) |
| `src/font_data.*` | `HbFontModel.v` (code points, advances), `StyleModel.v` (imitated weights and styles), `FtModel.v` (FreeType's and HarfBuzz's objects), `MetricsModel.v` (the measures), `RasterModel.v` (from FreeType's bitmaps to pictures); pictures as oracles in `AtlasModel.v`, `DrawModel.v` | `get_upem` |
| `src/string_hash.hpp`, `file_read_bytes.hpp` | `HashModel.v`, `ReadModel.v` | |
| `src/pair.hpp`, `common.hpp` (macros) | | not modelled |
| `sample/text_atlas.*` | `AtlasModel.v`, `RasterModel.v` (with FreeType's buffers), `HashModel.v` (hash functions) | |
| `sample/msdf_text_atlas.*` | `AtlasModel.v` (packing), `MsdfModel.v` (outlines, frame, pixels, cache), `HashModel.v` | the field itself (msdfgen), rounding of doubles |
| `sample/bitmap.*` | `BitmapModel.v`, all | |
| `sample/image.*` | `GpuModel.v`; writes and binding also in `AtlasModel.v`, `UiModel.v`; `TextureModel.v` (formats, bytes) | |
| `sample/pipeline.*` | `GpuModel.v`; binding and the screen size in `UiModel.v` | drawing calls, other uniforms |
| `sample/ui_container.*` | `UiModel.v`, `ClipModel.v`, `EventModel.v`, `ScreenModel.v` (drawing of text), `ImmediateModel.v` (`draw_text_immediate`) | |
| `sample/ui_object.*` | `TreeModel.v`, `NameModel.v`, `UiModel.v`, `EventModel.v`, `LifeModel.v` (shared pointers), `CostModel.v` | |
| `sample/tool_bar*.{hpp,cpp}`, `sample/frame.cpp` | `UiModel.v` (bar, menus), `WindowModel.v` (items), `ToolModel.v` (highlights, drawing), `ImmediateModel.v` (texts) | – |
| `sample/text_box.*` | `TextBoxModel.v`, `BlinkModel.v` (drawing, of plain text), `RichModel.v` (from markup to the screen, without focus), `SettingsModel.v` (setters) | |
| `sample/main.cpp` | `WindowModel.v` (menus, settings, resizing, mouse), `ReadModel.v` (the first text), `MainModel.v` (set-up, main loop, callbacks) | loading of fonts at start, the window's own moving and scaling |
| `sample/rect_shader.hpp`, `outline_shader.hpp`, `msdf_shader.hpp` | `ShaderModel.v`, all; OpenGL in `GlModel.v` | rounding of GLSL floats and of the frame buffer |
| `sample/fullscreen_triangle_shader.hpp` (unused), `test/` | | not modelled |
