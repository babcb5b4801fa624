{
 "C01": "`BinarySearch*`: the loop on fuel, the condition may be undefined; loop invariant; fuel and undefined probes excluded.",
 "C02": "`ValueRuns*`: a table is a list of (limit, value); reading out of range is UB. Refinement to the first run whose limit exceeds the index.",
 "C03": "`ValueRuns*`: both loops of the extraction; pointwise equality with the independent lookup.",
 "C04": "`ValueRuns*`: packed 32-bit words; simulation with the unpacked table.",
 "C05": "`ValueRuns*`: the loop over several tables with one index each; invariant on the current position.",
 "C06": "`ValueRuns*`: the steps of both iterators; induction over the list of targets.",
 "C07": "`RunBuilder*`: push and pop as a state machine; the spec is a tree of nested spans; induction over trees.",
 "C08": "`Packing*`: 32-bit words with bit operations; induction over histories of setters.",
 "C09": "`Packing*`: the same for font faces.",
 "C10": "`Color*`, `Float*`: binary32 arithmetic; sweep over the 256 values of a channel lifted to all words.",
 "C11": "`Formatting*`: byte-level model of the whole parser; case analysis on its result.",
 "C12": "`Formatting*`: invariant over the parser's steps with the lemmas of the run builder.",
 "C13": "`Formatting*`: invariant relating displayed text and consumed input.",
 "C14": "`Formatting*`: documents are trees; parsing accepts only printed documents and gives their meaning; induction over trees of any size.",
 "C15": "`Formatting*`: fixed buffers are ranges, leaving them is UB.",
 "C16": "`Formatting*`: fuel bounded by the length of the input is enough.",
 "C17": "`FormattingIter*`: the iterator's steps; induction over the list of targets.",
 "C18": "`FormattingIter*`: the events of a walk over the characters.",
 "C19": "`ScriptRun*`: `next` over the decoded text with a script oracle; induction over calls.",
 "C20": "`ScriptRun*`: invariant of the scan.",
 "C21": "`ScriptRun*`: the circular stack as a map with undefined entries; invariant over pushes and pops; table search by computation lifted to all code points.",
 "C22": "`Builder*`: runs of a line, glyphs and positions appended; induction over the runs, then over paragraphs and lines (`RunsProofs`).",
 "C23": "`Builder*`: positions as exact rationals; as C22.",
 "C24": "`Builder*`: the line breaking loops with a break oracle; induction on the remaining characters.",
 "C25": "`Builder*`: the same, with the widths of prefixes.",
 "C26": "`Builder*`: the tab arithmetic; with and without wrapping.",
 "C27": "`Builder*`: the paragraph loop; induction over paragraphs.",
 "C28": "`Builder*`: itemisation with the script iterator of C19.",
 "C29": "`Builder*`: the merging of segments.",
 "C30": "`Layout*`: the append operations as a state machine; invariant by induction over histories.",
 "C31": "`Layout*`: exact rationals; induction over lines.",
 "C32": "`Layout*`: the run search; `Built*` for every layout of the builder.",
 "C33": "`Layout*`: interpolation over rationals; `Built*` for every layout of the builder.",
 "C34": "`Layout*`, `Built*`: as C33.",
 "C35": "`Layout*`, `Cursor*`, `Built*`: the search over glyphs and caret stops, with an ICU iterator as oracle.",
 "C36": "`Layout*`, `Built*`.",
 "C37": "`Cursor*`: break iterators answer from a set of boundaries.",
 "C38": "`Font*`: the registry as a state machine; invariant over histories of registrations.",
 "C39": "`Font*`: the same.",
 "C40": "`Font*`: the segmentation with a coverage oracle; induction over the text.",
 "C41": "`Font*`: the cache of faces as a state machine over histories of requests.",
 "C42": "`Atlas*`: the shelf packer over a pixel map; invariant over histories.",
 "C43": "`Atlas*`: the caches with rasterising oracles; invariant over histories.",
 "C44": "`TextBox*`: the editor as a state machine over events, with layout as an oracle; `Built*` puts the builder in its place.",
 "C45": "`Tree*`: a heap of objects with links; invariant over histories.",
 "C46": "`Clip*`: rectangles over Q, columns of the texture.",
 "C47": "`Bitmap*`: a map of pixels with 32-bit coordinates.",
 "C48": "`File*`: system calls answer arbitrarily within their contract; what is held is a list.",
 "C49": "`Json*`: a tree of JSON values.",
 "C50": "`FontSize*`, `FloatProofs`: binary32; analytic proof of the rounding.",
 "C51": "`Draw*`: the calls of the visitor as a list; `Built*` for every layout of the builder.",
 "C52": "`ScriptRun*`: invariant of the bracket stack between the two brackets.",
 "C53": "`Draw*`: the rectangles of a run against a spec by glyphs.",
 "C54": "`Builder*`: no outcome but `Ok` under the stated conditions.",
 "C55": "`Builder*`: the segments against the tables.",
 "C56": "`TextBox*`, `Layout*`: the search of the line and of the stop.",
 "C57": "`Cursor*`: controllers as a state machine over iterators that are alive.",
 "C58": "`Font*`: the registry after each error.",
 "C59": "`Lock*`: threads and mutexes as a transition system; invariant over executions, commutation to a serial one.",
 "C60": "`Font*`: the case runs of the segmentation.",
 "C61": "`Tree*`: the recalculation of positions.",
 "C62": "`Builder*`: the metrics of the lines against those of their runs.",
 "C63": "`Ui*`: the OpenGL state and the container's record of it; invariant over a frame.",
 "C64": "`Ui*`: focus as a state machine.",
 "C65": "`Ui*`: the counter over a list of timed clicks.",
 "C66": "`Ui*`: the menus of a bar as a state machine over mouse events.",
 "C67": "`TextBox*`: each event.",
 "C68": "`Json*`: the loop over the files of a directory.",
 "C69": "`CaseMap*`: ICU's edits and the remapping of indices.",
 "findings": {
  "C38_wrap_refuted": "after 65536 other names a handle comes round again and is shared by two families.",
  "C44_rich_refuted": "in a rich text box positions in the displayed text are used as positions in the markup: copying \"hi\" copies a tag, typing after \"hi\" goes into the tag.",
  "C48_linux_stat_refuted": "on Linux the descriptor leaks when `fstat` fails."
 },
 "C70": "`Event*`: both traversals over the heap of `TreeModel.v`; a common tagged preorder shows that the press goes through the drawing order backwards.",
 "C71": "`Event*`: the two traversals with the answers of text boxes.",
 "C72": "`Event*`: `handle_mouse_move` as a step on the hovered object.",
 "C73": "`HbFont*`: the cache words and the float rounding; invariant of the cache over histories.",
 "C74": "`HbFont*`: lookup functions; a relation for every way HarfBuzz can ask.",
 "C75": "`HbFont*` on `FloatInt*`: integer valued floats are exact below 2^24.",
 "C76": "`HbFont*`: byte strings; the precedence of `&&` and `?:` as C++ has it.",
 "C77": "`FloatLayout*` on `FloatReal*`: float copies of the caret functions; rounding as a monotone function on the reals (Flocq).",
 "C78": "`Msdf*`: the four callbacks over a list of rings; induction over rings and their pieces.",
 "C79": "`Msdf*`: the frame in exact rationals; pixels in single precision on `Bitmap*`.",
 "C80": "`Msdf*` on `Atlas*`: histories of requests with any field generator; invariant of the cache.",
 "C81": "`Style*` on `FloatReal*`: fixed-point shear by arithmetic, emboldening amounts by monotone rounding.",
 "C82": "`Window*` on `Ui*`: events to a window with any menus and items; log of who took each event; invariant of the items by induction over histories.",
 "C83": "`Window*`: the state of selecting as a function of the log.",
 "C84": "`Window*`: fold over resizes from the layout first shown.",
 "C85": "`Name*` on `Tree*`: the walks over reachable trees; splitting of joined names.",
 "C86": "`Gpu*`: everything OpenGL is told, in order; invariant relating what exists to who holds it, over all programs and all answers of OpenGL.",
 "C87": "`Ft*`: everything the two libraries are told, with counted references; invariant as a multiset of what exists, over all histories of a thread.",
 "C88": "`Metrics*`: the getters on binary32 numbers; relative error of each operation by Flocq, composed.",
 "C89": "`Request*`: the calls to HarfBuzz up to `hb_shape`, with the buffer after HarfBuzz's documentation; each call's effect on characters, surroundings and features computed for every run.",
 "C90": "`Work*`: everything made, used and released, in order; frame lemmas for each function, composed over paragraphs, runs and lines; invariant over all programs.",
 "C91": "`Screen*`: the list of rectangles drawn by both `draw_text` of the sample program, on top of `DrawModel`'s calls and `ClipModel`'s clipping; boxes by induction over the runs visited, pictures by induction over the calls with the run announced last.",
 "C92": "`Blink*`: `TextBoxModel`'s timer in binary32 and `ScreenModel`'s drawing of a box; the rhythm by an invariant over frames that bounds the rounding (Flocq), the place by the invariant of C44 and the drawing of C91.",
 "C93": "`Settings*`: setters as events beside those of `TextBoxModel`, the layout builder as a function of all settings; the invariant of C44 holds under the settings of the moment.",
 "C94": "`Life*`: objects with shared and weak pointers, use counts, destruction at zero. Invariant over all histories; for histories that put every object somewhere once, the living objects are the least set the English rule describes.",
 "C95": "`Cost*`: `TreeModel` with a log of computed positions; by induction on the tree each descendant occurs 2^(depth-1) times.",
 "C96": "`Gl*`, `Shader*`: the vertex shaders over rationals; OpenGL's choice of pixels is any function that colours inside, not outside, and shared edges once. The sides of both triangles are computed, the diagonal goes by the edge rule; the parts of `emit_rect` meet at equal columns.",
 "C97": "`Shader*`: interpolation inside either triangle gives the same linear map; with whole sizes a pixel centre meets a texel centre, where linear filtering is exact.",
 "C98": "`Shader*`: the corners are pixel centres; the four half-open lines are disjoint and make up the border.",
 "C99": "`Shader*`: case analysis for the median, the polynomial of `smoothstep` on the unit interval.",
 "C100": "`Tool*`: highlight flags beside the window of C82; invariant over all events, with the open menu of C66 and the mouse as abstract state.",
 "C101": "`Tool*`: drawn shapes to pixels by the rasteriser and the outlines of C96/C98; induction over menus and items to a picture given pixel by pixel.",
 "C102": "`Hash*`: the hash functions in 64-bit arithmetic over a table of buckets with any growth; invariant that every entry is in the bucket of its hash, refinement to the list of insertions.",
 "C103": "`Read*`: the C library's answers as arguments; case analysis.",
 "C104": "`Immediate*`: the builder of C54 followed by the drawing of C91; the stored document, its vertical start and the calls of C51 composed into one list of glyphs, then induction over lines.",
 "C105": "`Main*`: the program as the list of what it does for the frames and events GLFW gives; induction over frames, a small automaton for the rules of GLFW and OpenGL, and Flocq's error bounds for the readings of the clock composed with C92.",
 "C106": "`Rich*`: recalc_text and render for a box without focus, from the text to the rectangles; the tables of the parser (C12-C14) are shown to be the ones the builder (C54, C55, C29) and the drawing code (C51, C53, C91) need, so that their theorems compose to one about the document tree.",
 "C107": "`JsonText*`: the string view as memory and a size, simdjson's padded_string_view and iterate as documented, file names and extensions; composed with C103 and C68.",
 "C108": "Model FreeType's bitmaps with their pitch, mode and buffer, the two rasterising functions and drawing with bounds on the buffer (RasterModel.v); specify a pixel of a picture from FreeType's documentation and what a page has to show (RasterSpec.v).  Prove that tight pictures come through by composing the packing theorem C43 with a rounding proof of the division of colours in real numbers (RasterProofs.v); refute padded rows, rows from the bottom, lack of memory and strokes that cannot be drawn.",
 "C109": "FloatHitModel repeats the hit test of LayoutModel with the program's float operations in their order, on the tables of C77. The structure of the result and its legality are proved for arbitrary floats. For the distance Flocq's theorems give the real value of every operation: the stops the walk computes are the carets that are drawn, differences of floats have relative error 2^-24, and the choice is compared with every other stop as in C35. C109_agrees runs both hit tests in lockstep: on the grid of 128ths every sum, difference and comparison is exact.",
 "C110": "FloatSelectModel.v redoes the range of a selection in a run, the iteration over lines and runs, the boxes of UIContainer::draw_text and the origins of glyphs with the program's float operations. FloatSelectSpec.v says on_grid, at_glyph, within and what a box must be next to the exact places of C91. Sums on the grid of 128ths below 2^17 pixels are exact; carets inside a cluster are near (C77) and one rounding of the sum is added. Refuted off the grid: the caret and the box of the same line begin at different floats.",
 "C111": "TableModel has a memory of live buffers (freeing a dead one is undefined), the calls of FreeType, allocator and HarfBuzz as oracles, and runs of requests and releases. An invariant over runs ties live buffers to the blobs one to one and to the bytes of the tables. Names are composed with the model of C76.",
 "C112": "TextureModel.v: bitmaps as bytes in memory (little endian), the two upload formats, row alignment, Image construction and write, pages as sequences of uploads. Proved: uploads refine the word textures of AtlasModel.v; every page of every history comes from uploads; the composition with C43 (answers) and C97 (pixels); the rounding of colour divided by opacity bounded through Flocq; the field shader is invariant under exchanging red and blue because the median is symmetric.",
 "C113": "Compose the models of the two searches (LayoutModel, CursorModel). ClickSpec.v says where the carets of a run are, from its glyphs alone, and which lines are meant. ClickProofs.v determines the affinity of what the first search finds at each end of each run (LayoutHitProofs.hit_nearest_found), and shows by cases on the directions of neighbouring runs that the second search goes to the same run, or to the next one at the same place. ClickProps.v has the theorem and the counterexample for lines that end right-to-left.",
 "C114": "KeyCaretSpec.v says what stays, where the caret is and what nearest means. Up and Down follow from the lemma of C113 for a line and a horizontal place. For Home and End, KeyCaretProofs.v shows that in text order the run that ends first (last) is the first (last) run of the line, that the cursor falls to that run, and that its caret is the run's edge.",
 "C115": "Layouts, cursors and boxes as in C32-C37 and C114.  The run of a cursor is the one whose text holds it (C32), so a cursor further on is in the same run or a later one; within a run the caret moves on with the text (C33), and runs of one line lie beside each other.  The keys move the cursor to a stop after (before) it or leave it (C37).",
 "C116": "Boxes as in C44, words by MultiClickSpec.  The word is found with C37 (a word back, a word on), the line with C113 and C114.  The count of clicks is C65.",
 "C117": "Text boxes and their views as in C44.  The two edits are steps of a history; what each does to the view is C44, and the pieces of the text put together again are the text.",
 "C118": "Boxes as in C44, the nearest caret as in C113 (DragSpec restates it for one point).  An invariant over the movements: the selection begins at the cursor of the press.",
 "C119": "Pieces are those of C40; FT_Face_GetCharVariantIndex is an oracle.  From C40's description of where a piece ends.",
 "C120": "GrowSpec says what a grown text is.  Both texts are cut side by side with C40's description of each piece; the first character a font lacks is the same in both."
}