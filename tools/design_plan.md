## Plan per property
| id | what is modelled | proof |
|----|------------------|-------|
| C01 | append, render_layer, trace of sink calls | induction on recursion budget; Dyck predicate on traces |
| C02 | renderer state threaded through appends | batch and mask buffer empty after every layer; induction over history |
| C03 | every sink call records the renderer state at the call, so a crash leaves that state | refutation witness (mask clip) + positive theorem for all other crash points |
| C04-C07, C21 | same | equational characterisation of traces |
| C08, C09 | compute_transform with the hop counter | induction on chains; pigeonhole for acyclic chains |
| C10-C12 | budgeted recursion | accessibility induction; refutation by self matte |
| C13 | all Batch operations with explicit bounds checks | batch invariant |
| C14-C16 | denotational specification of shape trees | refinement for settled trees, refutation in general |
| C17-C19 | repeat, apply_trim | list algebra; refutations; exact condition for C19 by simulation of two batches that become alike at the first event behind the trim (`PropTrimmed.v`) |
| C20 | Trim::normalized on binary64 incl. rem_euclid | Flocq real-valued reasoning |
| C22 | erasure of the ignored fields | equality of traces under erasure |
| C23-C27, C32 | value.rs, binary_search_by | search contract, Flocq |
| C28 | animated/fixed duality | case analysis + frame independence |
| C29 | spline evaluation | refutation at the last keyframe; finiteness elsewhere |
| C30, C31, C33 | spline.rs, ColorStops, Star | induction |
| C34-C41, C44, C53, C54 | importer | induction over lists; refutations for C41, C44 |
| C42, C43 | conv_stops | induction; refutation for C43 |
| C45-C48 | reading and writing JSON values | dispatch lemmas, inversion of readers, round trips by induction on JSON; refutation for C48 |
| C49 | vello adapter | trace homomorphism |
| C50-C52, C55, C56 | importer composed with evaluation: the document over time | `follows` relation of `TimelineSpec.v`; refutations for C51, C52 |
| C57 | two documents that differ only in what the importer ignores | congruence of the importer |
| C58, C59 | JSON objects with added members | relation `padded` of `SerdeSpec.v`; each reader ignores padding, by induction on JSON; refutation for C59 |
| C60 | layer styles and text constants (`Styles.v`) | as C47 and C48 |
| C61 | one equivalence per schema type: object accepted iff its members can be read | inversion of the reader, generated from the serde attributes |
| C62 | `from_json` end to end | C61 composed with C34, C38, C45 |
| C63 | rendering of layers without content | case analysis of `render_layer`; refutation |
| C64, C65, C66 | `map_layers`: the same document with the settings removed; `accounted` events | congruence of importer and renderer up to erased fields (C22); trace invariant by induction on the depth; refutations |
| C67 | a frame as mutually inductive rules (`FrameSpec.v`): absent and present layers, mattes, contents | both directions by induction on the budget and on the rules; refinement of `Batch.v` for shapes (C15) |
| C68 | conditions on the source (`tidy`, `stars_fit`, `src_refers`) | mutual induction on `imports`/`becomes`: imported geometry is sound, tidy lists do not clash; then C38, C10, C13, C67 |
| C69 | the parts of segments between two distances (`TrimSpec.v`), independent of the loop that cuts them | loop invariant over the accumulated length; uniqueness of the parts; reading the drawn elements back as segments; counterexample with two sub-paths; equivalence with the kept segments meeting (`PropTrim2.v`) |
| C70 | the hit-testing sink as a fold over sink calls (`Picking.v`); outermost groups, bounding boxes and the top-most rectangle (`PickSpec.v`) | induction on the nesting derivation; the paint order is strictly increasing; with C05 and C01 for whole frames |
| C71 | the clock expression on floats (`Player.v`) | exactness of the float remainder; rounding is monotone; counterexample by computation |
| C72 | samples and resets as operations with overflow checks (`Stats.v`) | invariant over histories; bounds on rounded quotients; counterexamples by computation |
| C73 | touch events and frames as a history, fingers read off the history (`Viewer.v`, `PropTouch.v`) | the sorted map of fingers is the history's fingers; invariants of the gesture state; counterexamples by computation |
| C74 | the viewer's state and events (`Viewer.v`) | invariant over histories: indices modulo the number of scenes, no saturation below 2^31, statistics by C72 |
| C75 | as C74 | simulation of the history without the finger; counterexample by computation |
| C76 | files, servers and answers as data (`Download.v`) | case analysis of one download, induction on the list; string lemmas; counterexample by computation; exact conditions by case analysis (`PropDownload2.v`) |
| C77 | turning, slanting and stretching points of the real plane (`GeometrySpec.v`) | rounding-error calculus: each matrix entry is the real one up to an error; 20 digits of pi; Lipschitz bounds for sin, cos, tan |
| C78 | corners and control points of the real plane (`GeometrySpec.v`) | induction on the corners with an error bound for the accumulated angle; reading the drawn elements as edges |
| C79 | the cubic curve of the real plane (`EasingSpec.v`) | rounding-error calculus for coefficients, height and progress; the fallback at the ends; intermediate value theorem and monotonicity of the curve |
| C80 | a layer with its parents in the real plane (`FamilySpec.v`) | the real matrices bring no two points further apart, so the error at most doubles with each parent |
| C81 | straight line between two opacity stops | the easing lemmas of C79 with the straight easing; scan of the segments; witnesses of the refuted parts |
| C82 | an item with its groups, layers and precompositions in the real plane (`NestSpec.v`) | error calculus in terms of the length of the columns of the matrices, whose error grows with the square of the depth and the enlargement; invariant of the pictures of shape lists (sound and complete); mutual induction on frames; induction on the showing layers |
| C83 | outlines part of the way between two outlines of the document (`MorphSpec.v`) | selection of keyframes as in C79; rounding-error calculus for the vertices; a witness with a slow start |
| C84 | stops of two keyframes and the easing curve between them (`MorphSpec.v`) | the easing lemma of C79 for every number of a stop; induction on the stops |
| C85 | averages, extremes and bars in real numbers (in `PropFigures.v`) | a calculus of relative errors over the window facts of C72 |
| C86 | means and distances of finger positions in real numbers; how a gesture began (in `PropPinch.v`) | rounding errors of sums by induction; the gesture facts of C73; induction on the history for the kind |
| C87 | shifting, enlarging and turning points of the screen (in `PropCamera.v`) | products of matrices with errors, as in C77; pointer and button read off the history by induction |
| C88 | counting key presses of the history (in `PropSwitch.v`) | induction on the history |
| C89 | boxes and the upper-most of them in the real plane (in `PropCursor.v`, model `Cursor.v`) | rounding-error calculus for the inverse matrix; corners of a box bound its image; C70 for the order |
| C90 | files, directories and names as data (`Scenes.v`); what is offered as inductive rules (in `PropScenes.v`) | induction on paths and entries; a stable sort is determined by order and stability; witness with two names |
| C91 | glyphs of a text (`Text.v`), widths of lines in real numbers (in `PropText.v`) | induction on the text; relative errors of 32-bit sums |
| C92 | events (paths and draws) of a tree in document order and what continues across the start of a group (in `PropMerge.v`) | invariant of the batch walk: which recorded paths are frozen by a draw; induction on trees |
| C03, C11, C14, C23, C26, C29, C43, C48, C72 exactly | `PropCrash.v`, `PropDepth.v`, `PropMerge.v`, `PropLast.v`, `PropTrip.v`, `PropHeld.v`, `PropBars.v` | if-and-only-if: where the statement fails and what happens there |
| C73, C75 in the viewer, C93 | the touch gestures as the viewer's history gives them | simulation of histories with and without a finger; complex numbers for similarities; error bounds over C87 |
| C94, C17 for any shapes | steps of a repeater in real numbers (in `PropRepeat.v`) | the batch as a picture without conditions; error bounds of products of matrices, logarithms for powers |
| C51, C59, C71, C73, C74 exactly; C28 for the questions | `PropVerge.v`, `PropNull.v` | the facts behind the partial theorems, read as if-and-only-if; null members by congruence of the readers in every position of the document |
| C95 | paths with their endings replaced, the table of default downloads (`Store.v`) | names as strings around their last dot; C76 and C90 joined for the defaults; distinctness of the table by computation |
| C96 | documents as records of their layers and figures, their JSON and the calls they should give | composition of the parser, importer, frame rules and sink on symbolic documents; induction on layers and figures |
| C97 | the rules of a frame over an arbitrary painting of shape layers (`LookSpec.v`) | induction on the number of calls one way, mutual induction on the rules the other way and for uniqueness |
| C98 | the panel as a list of boxes, texts, bars and lines with their transforms (`Panel.v`); what is to be seen in real numbers (`panel` in `PropPanel.v`) | error bounds through every product of transforms; relative errors for the bars' heights; C72 for the histories |
| C99 | the event loop with the panel drawn at every redraw (`Session.v`) | induction on the events from the end, with the invariants of C74 and the switches' parity; C98 for the frame |
| C100 | documents with keyframes (`FilmSpec.v`), read, imported and rendered by the model | computation of reading and importing for any lists; values by C50 and C79; painting by C67; places by C96 |
| C101 | serde_json's reader on strings of bytes (`JsonText.v`), the grammar of JSON text as relations with numbers in real arithmetic (`TextSpec.v`) | the reader accepts exactly the texts of the grammar (induction on the budget and on the derivation); rounding of digits times or over a power of ten with Flocq; a computed witness for a neighbour |
| C102 | serde_json's compact writer (`TextWrite.v`) after `ser_animation`; how doubles are written is any function with `shows` | the text written is a text of the grammar (induction on the value), C101 for reading it, C48 for the document; `SerdeProper.v`: what is written has distinct names and integers of 64 bits |
| C103 | the readers of `Serde.v`; other orders of members as a relation on JSON values (`OrderSpec.v`) | every reader sees the same members (`OrderFacts.v`, one instance per reader, induction for nested groups); C101 for texts |
| C104 | C100's films and C101's texts; integers for doubles as a relation (`AlikeSpec.v`) | the readers on films with integers (`FileFacts.v`, `FileFacts2.v`), then C103, C58, C101 and C100 |
| C105 | `conv_stops`, `normalize_to_range` with equal offsets | the value of a segment of no length, then C81's fold over the segments (`PropEdge.v`, exact result in `PropEdges.v`) |
| C106 | `conv_transform` with both forms of position | keyframes paired up by induction: same times, values zipped; then the interpolation of points coordinate by coordinate (`PropSplit.v`) |
| C107 | `conv_keyframes`, `conv_scalar`, `frames_and_weight` with a missing handle | keyframe by keyframe; filling in the default handles commutes with import and evaluation; the witness by C79's bounds on the curve (`PropLone.v`) |
