# A Rocq model of linebender/velato

The model covers the library in `/repo/src`: reading a Lottie document from a JSON value, importing it into a runtime
composition, evaluating animated values, and rendering a frame into a `RenderSink` (and, through it, a vello scene).
`properties.jsonl` lists the properties, `MANIFEST.json` says what is proved of each.

## Layout of `rocq/theories`

| model (what the code does) | source |
|---|---|
| `F64.v` | binary64 / binary32 numbers with Rust's operators (Flocq `BinarySingleNaN`) |
| `Kurbo.v` | the kurbo / peniko data types and the affine algebra velato computes with; the record `Ext` of external functions |
| `Value.v` | `runtime/model/value.rs` |
| `Animated.v` | `runtime/model/{fixed,animated,spline,mod}.rs` |
| `Batch.v` | `runtime/render.rs`: `DrawData`, `GeometryData`, `Batch` |
| `Render.v` | `runtime/render.rs`: `Renderer`; `runtime/vello.rs` |
| `Schema.v` | the data types of `schema/**` |
| `Import.v` | `import/{converters,builders,defaults}.rs` |
| `Serde.v` | the `Deserialize`/`Serialize` implementations of `schema/**`; `Composition::from_json` |
| `Picking.v`, `Cursor.v`, `Player.v`, `Scenes.v`, `Text.v`, `Download.v`, `Store.v` | `examples/scenes/src/{picking,lottie,simple_text,download}.rs`, `download/default_downloads.rs`: hit-testing, the pointer, playback clock, choice of scenes, glyphs of a text, downloads and where they are stored |
| `Stats.v`, `Viewer.v`, `Panel.v`, `Session.v` | `examples/with_winit/src/{stats,multi_touch,lib}.rs`: frame statistics, gestures, the viewer's state, the statistics panel, sessions with it |
| `Styles.v` | `schema/styles` and the text constants of `schema/constants`, with reading and writing |

Specifications, readable on their own and independent of the helpers of the model:
`RenderSpec.v` (balanced traces, active layers, parent chains, what a layer draws), `BatchSpec.v` (what a tree of shapes
draws), `FrameSpec.v`, `LookSpec.v` (what a frame shows), `TextSpec.v` (JSON text and the value it stands for), `FilmSpec.v` (documents of moving shapes, their JSON, and what they show at a moment), `TrimSpec.v` (which parts of an outline a trim keeps), `GeometrySpec.v` (where points of the plane go, in real numbers), `EasingSpec.v` (how a value moves from one keyframe to the next, in real numbers), `FamilySpec.v` (a layer with its parents, in real numbers), `NestSpec.v` (an item with its groups, layers and precompositions, in real numbers), `MorphSpec.v` (paths and gradients that change, in real numbers), `PickSpec.v` (what is under the cursor), `ValueSpec.v` (keyframes, holds, trims, outlines, stops), `ImportSpec.v` (what a document says: ids, mattes,
supported features, stops), `DocAgree.v` (documents that may be distinguished), `TimelineSpec.v` (what a document means over time),
`SerdeSpec.v` (JSON values, codes, names).

`*Facts*.v`, `BatchRefine.v` are proofs. `Prop*.v` state the theorems named in the manifest, with examples that
meet their hypotheses (`Examples.v`, `DocExamples.v` hold the shared ones). `Audit.v` is generated (`tools/mkaudit.py`) and prints the assumptions
of every theorem of the manifest. `RepoTests.v` states the repository's own fifteen unit tests as examples about the model:
they hold of it. They are tests of the model, not theorems of the manifest.

## Conventions
* `&mut` becomes a returned value. The outcome of code that can fail is `res`: a value, `Panic` (any Rust panic, including
  arithmetic overflow of the debug profile, `todo!` and `unimplemented!`), or `Oof` (recursion budget exhausted; non-termination
  is `Oof` for every budget).
* Calls of the sink are a trace. A crash point is a call at which the sink panics; the renderer's state at each call is recorded.
* Floats are exact IEEE values incl. NaN, infinities and signed zeros, rounding to nearest even. NaN payloads are not represented.
* libm (`sin cos tan powf hypot`) and kurbo algorithms (cubic solver, arc length, inverse arc length, subsegment, rounded
  rectangle and ellipse flattening, alpha multiplication) are fields of a record `Ext`; every theorem quantifies over every `Ext`, and any assumption about
  one is an explicit hypothesis.
* `usize` is `nat` (unbounded) or `Z`; conversions from `f64` saturate as in Rust; allocation failure is modelled only for
  `Vec::with_capacity` in the polystar code.
* A `HashMap` is an association list; iteration order is never observed by the code.
* A property that the code does not have gets a theorem `Cxx_refuted` with a concrete witness, and what does hold is proved under the
  suffix `_partial`; the manifest says "partial" and what is missing.

## Trusted base
* Coq 8.16.1's kernel (with its `vm_compute`), and Flocq's definitions of IEEE arithmetic.
* The axioms listed below, all from Coq's standard library. They come with the real numbers, which occur in the types of
  Flocq's floats; no theorem uses an axiom of ours or of another library.
* The correspondence between model and code, which is by reading: every definition cites the lines it models.

### Modelled
All functions of `runtime/model/*.rs`, `runtime/render.rs`, `runtime/vello.rs`, `import/*.rs` (except their unit tests);
all types of `schema/**` reachable from `Animation` with their `Deserialize` and `Serialize` implementations;
`Composition::from_json`.

### Modelled from knowledge, not from source in `/repo`
* `kurbo` 0.13 / `peniko` 0.6: `Affine` algebra, `Point::lerp`, `CubicBez::eval`, `BezPath::segments`, `Stroke::new` and defaults.
* Rust's `slice::binary_search_by` (1.82 and later), `f64::rem_euclid`, `min`/`max`/`clamp`, float-to-integer casts.
* serde 1.0.228 and serde_json: how derived implementations read and write a `serde_json::Value` (see the head of `Serde.v`).
* serde_json 1.0.150's reader of JSON text (`de.rs`, `read.rs`; see the head of `JsonText.v`): strings and escapes, numbers and how they are rounded, depth, members of the same name; and its compact writer (`ser.rs`; see `TextWrite.v`), where the digits of a double (ryu) are a parameter: any decimal number of which it is the closest double.

### Not modelled
* JSON text that is not UTF-8 (`Composition::from_slice`; `from_str` and UTF-8 bytes are in `JsonText.v`), what is skipped in unknown members of markers and "meta", error messages (`error.rs`).
* `Debug` output, `Clone`, threads (the code has none), allocation failure, stack overflow (an infinite recursion is `Oof`).
* What a vello `Scene` does with the operations it is given.
* `helpers/color.rs` (a type alias that nothing uses).
* `examples/` other than the parts in the table above (windows, GPU rendering, fonts, hot reload, parsing of the command line), tests.

