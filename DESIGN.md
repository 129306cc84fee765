# A Rocq model of linebender/velato

The model covers the library in `/repo/src`: reading a Lottie document from a JSON value, importing it into a runtime
composition, evaluating animated values, and rendering a frame into a `RenderSink` (and, through it, a vello scene).
`properties.jsonl` lists the properties, `MANIFEST.json` says what is proved of each.

## Layout of `rocq/theories`

| model (what the code does) | source |
|---|---|
| `F64.v` | binary64 / binary32 numbers with Rust's operators (Flocq `BinarySingleNaN`) |
| `Kurbo.v` | the kurbo / peniko data types and the affine algebra velato computes with; the record `Ext` of external functions |
| `Value.v` | `runtime/model/value.rs` |
| `Animated.v` | `runtime/model/{fixed,animated,spline,mod}.rs` |
| `Batch.v` | `runtime/render.rs`: `DrawData`, `GeometryData`, `Batch` |
| `Render.v` | `runtime/render.rs`: `Renderer`; `runtime/vello.rs` |
| `Schema.v` | the data types of `schema/**` |
| `Import.v` | `import/{converters,builders,defaults}.rs` |
| `Serde.v` | the `Deserialize`/`Serialize` implementations of `schema/**`; `Composition::from_json` |
| `Picking.v`, `Cursor.v`, `Player.v`, `Scenes.v`, `Text.v`, `Download.v`, `Store.v` | `examples/scenes/src/{picking,lottie,simple_text,download}.rs`, `download/default_downloads.rs`: hit-testing, the pointer, playback clock, choice of scenes, glyphs of a text, downloads and where they are stored |
| `Stats.v`, `Viewer.v`, `Panel.v`, `Session.v` | `examples/with_winit/src/{stats,multi_touch,lib}.rs`: frame statistics, gestures, the viewer's state, the statistics panel, sessions with it |
| `Styles.v` | `schema/styles` and the text constants of `schema/constants`, with reading and writing |

Specifications, readable on their own and independent of the helpers of the model:
`RenderSpec.v` (balanced traces, active layers, parent chains, what a layer draws), `BatchSpec.v` (what a tree of shapes
draws), `FrameSpec.v`, `LookSpec.v` (what a frame shows), `TextSpec.v` (JSON text and the value it stands for), `FilmSpec.v` (documents of moving shapes, their JSON, and what they show at a moment), `TrimSpec.v` (which parts of an outline a trim keeps), `GeometrySpec.v` (where points of the plane go, in real numbers), `EasingSpec.v` (how a value moves from one keyframe to the next, in real numbers), `FamilySpec.v` (a layer with its parents, in real numbers), `NestSpec.v` (an item with its groups, layers and precompositions, in real numbers), `MorphSpec.v` (paths and gradients that change, in real numbers), `PickSpec.v` (what is under the cursor), `ValueSpec.v` (keyframes, holds, trims, outlines, stops), `ImportSpec.v` (what a document says: ids, mattes,
supported features, stops), `DocAgree.v` (documents that may be distinguished), `TimelineSpec.v` (what a document means over time),
`SerdeSpec.v` (JSON values, codes, names).

`*Facts*.v`, `BatchRefine.v` are proofs. `Prop*.v` state the theorems named in the manifest, with examples that
meet their hypotheses (`Examples.v`, `DocExamples.v` hold the shared ones). `Audit.v` is generated (`tools/mkaudit.py`) and prints the assumptions
of every theorem of the manifest. `RepoTests.v` states the repository's own fifteen unit tests as examples about the model:
they hold of it. They are tests of the model, not theorems of the manifest.

## Conventions
* `&mut` becomes a returned value. The outcome of code that can fail is `res`: a value, `Panic` (any Rust panic, including
  arithmetic overflow of the debug profile, `todo!` and `unimplemented!`), or `Oof` (recursion budget exhausted; non-termination
  is `Oof` for every budget).
* Calls of the sink are a trace. A crash point is a call at which the sink panics; the renderer's state at each call is recorded.
* Floats are exact IEEE values incl. NaN, infinities and signed zeros, rounding to nearest even. NaN payloads are not represented.
* libm (`sin cos tan powf hypot`) and kurbo algorithms (cubic solver, arc length, inverse arc length, subsegment, rounded
  rectangle and ellipse flattening, alpha multiplication) are fields of a record `Ext`; every theorem quantifies over every `Ext`, and any assumption about
  one is an explicit hypothesis.
* `usize` is `nat` (unbounded) or `Z`; conversions from `f64` saturate as in Rust; allocation failure is modelled only for
  `Vec::with_capacity` in the polystar code.
* A `HashMap` is an association list; iteration order is never observed by the code.
* A property that the code does not have gets a theorem `Cxx_refuted` with a concrete witness, and what does hold is proved under the
  suffix `_partial`; the manifest says "partial" and what is missing.

## Trusted base
* Coq 8.16.1's kernel (with its `vm_compute`), and Flocq's definitions of IEEE arithmetic.
* The axioms listed below, all from Coq's standard library. They come with the real numbers, which occur in the types of
  Flocq's floats; no theorem uses an axiom of ours or of another library.
* The correspondence between model and code, which is by reading: every definition cites the lines it models.

### Modelled
All functions of `runtime/model/*.rs`, `runtime/render.rs`, `runtime/vello.rs`, `import/*.rs` (except their unit tests);
all types of `schema/**` reachable from `Animation` with their `Deserialize` and `Serialize` implementations;
`Composition::from_json`.

### Modelled from knowledge, not from source in `/repo`
* `kurbo` 0.13 / `peniko` 0.6: `Affine` algebra, `Point::lerp`, `CubicBez::eval`, `BezPath::segments`, `Stroke::new` and defaults.
* Rust's `slice::binary_search_by` (1.82 and later), `f64::rem_euclid`, `min`/`max`/`clamp`, float-to-integer casts.
* serde 1.0.228 and serde_json: how derived implementations read and write a `serde_json::Value` (see the head of `Serde.v`).
* serde_json 1.0.150's reader of JSON text (`de.rs`, `read.rs`; see the head of `JsonText.v`): strings and escapes, numbers and how they are rounded, depth, members of the same name; and its compact writer (`ser.rs`; see `TextWrite.v`), where the digits of a double (ryu) are a parameter: any decimal number of which it is the closest double.

### Not modelled
* JSON text that is not UTF-8 (`Composition::from_slice`; `from_str` and UTF-8 bytes are in `JsonText.v`), what is skipped in unknown members of markers and "meta", error messages (`error.rs`).
* `Debug` output, `Clone`, threads (the code has none), allocation failure, stack overflow (an infinite recursion is `Oof`).
* What a vello `Scene` does with the operations it is given.
* `helpers/color.rs` (a type alias that nothing uses).
* `examples/` other than the parts in the table above (windows, GPU rendering, fonts, hot reload, parsing of the command line), tests.

### What `Print Assumptions` lists
* none (closed under the global context): `enumerate_spec`, `C08_acyclic_chain`, `C27_scalar`, `C28_fixed`, `C30_empty`, `C40_bezier`, `C40_surplus`, `C43_two_stops_partial`, `C47_bool_int`, `C47_blend`, `C47_matte_mode`, `C47_line_cap`, `C47_line_join`, `C47_fill_rule`, `C47_gradient_type`, `C47_star_type`, `C47_shape_direction`, `C47_merge_mode`, `C47_composite`, `C47_trim_multiple`, `C47_mask_mode`, `C47_dash_type`, `C47_font_path_origin`, `C47_text_grouping`, `C47_text_range_units`, `C47_text_shape`, `C47_text_caps`, `C47_text_justify`, `C47_text_based`, `C47_style_type`, `C60_members_base`, `C61_string`, `C61_boolean`, `C61_unsigned`, `C61_sizes`, `C61_array`, `C61_visual_object`, `C61_slottable_object`, `C61_asset`, `C61_file_asset`, `C61_meta`, `C69_joined`, `C70_outermost`, `C70_forward`, `C72_window`, `C76_named`, `C76_last_part`, `C76_never_overwrites`, `C76_counts`, `C76_limit`, `C76_success_partial`, `C76_complete`, `C76_announced`, `C76_defaults`, `C76_refuted`, `C76_exact`, `C76_leaves`, `C76_repairs`, `C90_exact`, `C90_order_partial`, `C95_exact`, `C95_own_file_partial`, `C95_address`, `C95_default_names`, `C95_shown`, `C95_refuted`, `put_lookup`
* `ClassicalDedekindReals.sig_forall_dec`, `FunctionalExtensionality.functional_extensionality_dep`: `C79_no_overshoot`, `C98_reads`
* `ClassicalDedekindReals.sig_forall_dec`, `ClassicalDedekindReals.sig_not_dec`, `FunctionalExtensionality.functional_extensionality_dep`: `C77_rigid`, `C79_one_height`
* `ClassicalDedekindReals.sig_forall_dec`, `ClassicalDedekindReals.sig_not_dec`, `Classical_Prop.classic`, `FunctionalExtensionality.functional_extensionality_dep`: `C01_balanced`, `C01_prefix`, `C02_reuse`, `C03_refuted`, `C03_panic_safe_partial`, `C03_stale`, `C03_exact`, `C04_window`, `C04_inactive`, `C04_window_reals`, `C04_nan`, `C05_back_to_front`, `C05_groups`, `C06_matte`, `C07_masks`, `C08_parent_chain`, `C09_cycles`, `C10_terminates`, `C10_depth`, `C10_budget_irrelevant`, `C11_refuted`, `C11_partial`, `C11_depth`, `C11_exact`, `C11_deep`, `C12_implicit_mattes`, `C12_precomps`, `C13_no_panic`, `C13_fixed`, `C13_spline`, `C13_star`, `C13_rect`, `C13_ellipse`, `C13_star_limit`, `C14_refuted`, `C14_draws_geometry_above_partial`, `C14_refinement_partial`, `C14_exact`, `C15_reverse_order`, `C15_document_order`, `C16_layer_opacity`, `C16_shape_layer`, `C17_refuted`, `C17_count_partial`, `C17_zero_copies`, `C17_copies_partial`, `C17_copies`, `C18_trim_own_group`, `C18_trim_alone`, `C18_group_isolated`, `C19_refuted`, `C19_erased_partial`, `C19_erased_then_draws`, `C19_full_trim`, `C19_full_trim_percent`, `C19_exact`, `C19_stays`, `C19_returns`, `C19_wide`, `C19_nearly`, `C20_ranges`, `C20_symmetric`, `C21_precomp`, `C21_missing_asset`, `C22_ignored_fields`, `C23_refuted`, `C23_bracket_partial`, `C23_weight_partial`, `C23_exact`, `C24_at_keyframe`, `C24_at_last_keyframe`, `C25_before_first`, `C25_after_last`, `C26_hold`, `C26_spline_partial`, `C26_spline_refuted`, `C26_gradient_colors_partial`, `C26_gradient_refuted`, `C26_spline_exact`, `C26_gradient_exact`, `C27_well_formed`, `C27_no_default`, `C28_transform`, `C28_stroke`, `C28_repeater`, `C28_trim`, `C28_brush`, `C28_star`, `C28_same`, `C29_refuted`, `C29_finite_partial`, `C29_exact`, `C30_static`, `C30_interpolated`, `C30_animated_total`, `C31_count`, `C31_complete`, `C32_endpoints`, `C33_outline`, `C33_empty`, `C34_layer_list`, `C35_parents`, `C35_no_parent`, `C36_mattes`, `C37_hidden`, `C37_draws_nothing`, `C38_supported`, `C38_independent`, `C39_shapes`, `C39_count`, `C41_omitted_partial`, `C41_refuted`, `C42_static_stops`, `C42_imported`, `C42_animated_count`, `C43_on_stop_partial`, `C43_refuted`, `C43_exact`, `C44_flag_ignored`, `C44_refuted`, `C45_dispatch`, `C45_otherwise_error`, `C45_not_an_object`, `C46_no_failure`, `C46_spline`, `C46_read`, `C46_read_no_failure`, `C48_document_partial`, `C48_layer`, `C48_shape`, `C48_refuted`, `C48_exact`, `C49_vello_balanced`, `C49_vello_draws`, `C49_vello_transcribes`, `C53_scopes_independent`, `C54_layer_contents`, `C50_layer`, `C50_group`, `C50_fill`, `C50_stroke`, `C50_trim`, `C50_mask_opacity`, `C50_time_remap`, `C51_last_component_partial`, `C51_refuted`, `C51_exact`, `C52_solid_partial`, `C52_gradient`, `C52_refuted`, `C55_layer`, `C55_scale_about_anchor`, `C56_rectangle`, `C56_ellipse`, `C56_gradient`, `C57_agree`, `C57_supported`, `C57_reflexive`, `C58_unknown_members`, `C58_layer`, `C58_shape`, `C58_known_part`, `C59_null_partial`, `C59_refuted`, `C59_null`, `C59_asset_exact`, `C60_styles`, `C60_type_required`, `C60_members_color_overlay`, `C60_members_gradient_overlay`, `C60_members_outer_glow`, `C60_members_satin`, `C61_number`, `C61_vertex`, `C61_property_value`, `C61_position_value`, `C61_position_or_split`, `C61_rotation_or_split`, `C61_handle_component`, `C61_path_keyframes`, `C61_path_value`, `C61_simple_values`, `C61_color_values`, `C61_keyframe_bezier_handle`, `C61_keyframe_base`, `C61_keyframe`, `C61_animated_property`, `C61_multi_dimensional`, `C61_gradient_colors`, `C61_position_keyframe`, `C61_position`, `C61_split_vector`, `C61_bezier`, `C61_shape_keyframe`, `C61_shape_property`, `C61_marker`, `C61_transform`, `C61_mask`, `C61_graphic_element_shape`, `C61_shape`, `C61_shape_style_shape`, `C61_stroke_dash_shape`, `C61_base_stroke_shape`, `C61_base_gradient_shape`, `C61_transform_shape`, `C61_repeater_transform_shape`, `C61_layer`, `C61_visual_layer`, `C61_animation`, `C61_group_shape`, `C61_rectangle_shape`, `C61_ellipse_shape`, `C61_stroke_shape`, `C61_pucker_bloat_shape`, `C61_merge_shape`, `C61_repeater_shape`, `C61_offset_path_shape`, `C61_fill_shape`, `C61_trim_path_shape`, `C61_path_shape`, `C61_gradient_fill_shape`, `C61_gradient_stroke_shape`, `C61_twist_shape`, `C61_rounded_corners_shape`, `C61_poly_star_shape`, `C61_transform_item`, `C61_precomposition_layer`, `C61_solid_layer`, `C61_image_layer`, `C61_null_layer`, `C61_shape_layer`, `C61_image`, `C61_precomposition`, `C61_other_assets`, `C61_by_position`, `C61_only_objects`, `C62_outcome`, `C62_header`, `C62_required`, `C62_layers`, `C62_precompositions`, `C63_draws_nothing`, `C63_refuted`, `C64_ignored`, `C64_refuted`, `C65_only_mattes`, `C65_opaque`, `C65_ignored`, `C65_refuted`, `C66_clips`, `C66_ignored`, `C66_refuted`, `C67_reference`, `C67_unique`, `C67_total`, `C68_never_crashes`, `C68_every_frame`, `C69_kept`, `C69_unique`, `C69_inside`, `C69_only_parts_partial`, `C69_refuted`, `C69_exact`, `C70_hits`, `C70_layers`, `C70_topmost`, `C71_loops`, `C71_from_zero_partial`, `C71_refuted`, `C71_close`, `C72_bars_partial`, `C72_refuted`, `C72_crash`, `C72_heights`, `C73_fingers`, `C73_no_jump`, `C73_movement`, `C73_refuted`, `C73_viewer`, `C73_zoom`, `C74_runs`, `C74_shown`, `C74_start`, `C74_first`, `C74_refuted`, `C74_exact`, `C75_not_in_gestures`, `C75_independent_partial`, `C75_refuted`, `C75_exact`, `C77_layer`, `C77_group`, `C78_outline`, `C79_number`, `C79_pair`, `C79_point`, `C79_color`, `C79_opacity`, `C79_linear`, `C80_family`, `C80_deep`, `C81_between_partial`, `C81_two_stops_partial`, `C81_ends_partial`, `C81_refuted`, `C81_exact`, `C81_outside`, `C82_painted`, `C82_clipped`, `C82_complete`, `C82_masks`, `C82_painted_clear`, `C82_clipped_any`, `C82_complete_layer`, `C82_masks_any`, `C83_refuted`, `C83_linear`, `C83_held`, `C83_before`, `C83_after`, `C83_straight_partial`, `C83_exact`, `C84_between`, `C84_before`, `C84_after`, `C85_snapshot`, `C85_bars`, `C86_centre`, `C86_translation`, `C86_zoom`, `C86_axes`, `C87_drag`, `C87_wheel`, `C87_turn`, `C87_gesture`, `C87_still`, `C87_reset`, `C88_switches`, `C89_box`, `C89_layer`, `C89_fits`, `C89_overlay`, `C89_labels`, `C90_refuted`, `C91_glyphs`, `C91_place`, `C91_starts`, `C92_paints`, `C93_two_fingers`, `C93_stays_partial`, `C93_one_finger`, `C93_refuted`, `C94_placed`, `C94_shaded`, `C96_poster`, `C96_figure`, `C97_rules`, `C97_frame`, `C97_unique`, `C97_document`, `C98_panel`, `C98_run`, `C98_bars`, `C98_fits`, `C99_crash`, `C99_frame`, `C99_refuted`, `C100_film`, `C100_place`, `C100_steady`, `C101_reads`, `C101_accepts`, `C101_only`, `C101_one`, `C101_twice`, `C101_neighbour`, `C102_back`, `C102_exact`, `C102_short`, `C102_deep`, `C102_document`, `C102_names`, `C102_refuted`, `C102_proper`, `C103_order`, `C103_layer`, `C103_shape`, `C103_text`, `C103_backwards`, `C103_refuted`, `C104_file`, `C104_same`, `C105_first`, `C105_caps`, `C105_second_unused`, `C105_refuted`, `C105_exact`, `C106_same`, `C107_lost`, `C107_number`, `C107_refuted`

## Plan per property
| id | what is modelled | proof |
|----|------------------|-------|
| C01 | append, render_layer, trace of sink calls | induction on recursion budget; Dyck predicate on traces |
| C02 | renderer state threaded through appends | batch and mask buffer empty after every layer; induction over history |
| C03 | every sink call records the renderer state at the call, so a crash leaves that state | refutation witness (mask clip) + positive theorem for all other crash points |
| C04-C07, C21 | same | equational characterisation of traces |
| C08, C09 | compute_transform with the hop counter | induction on chains; pigeonhole for acyclic chains |
| C10-C12 | budgeted recursion | accessibility induction; refutation by self matte |
| C13 | all Batch operations with explicit bounds checks | batch invariant |
| C14-C16 | denotational specification of shape trees | refinement for settled trees, refutation in general |
| C17-C19 | repeat, apply_trim | list algebra; refutations; exact condition for C19 by simulation of two batches that become alike at the first event behind the trim (`PropTrimmed.v`) |
| C20 | Trim::normalized on binary64 incl. rem_euclid | Flocq real-valued reasoning |
| C22 | erasure of the ignored fields | equality of traces under erasure |
| C23-C27, C32 | value.rs, binary_search_by | search contract, Flocq |
| C28 | animated/fixed duality | case analysis + frame independence |
| C29 | spline evaluation | refutation at the last keyframe; finiteness elsewhere |
| C30, C31, C33 | spline.rs, ColorStops, Star | induction |
| C34-C41, C44, C53, C54 | importer | induction over lists; refutations for C41, C44 |
| C42, C43 | conv_stops | induction; refutation for C43 |
| C45-C48 | reading and writing JSON values | dispatch lemmas, inversion of readers, round trips by induction on JSON; refutation for C48 |
| C49 | vello adapter | trace homomorphism |
| C50-C52, C55, C56 | importer composed with evaluation: the document over time | `follows` relation of `TimelineSpec.v`; refutations for C51, C52 |
| C57 | two documents that differ only in what the importer ignores | congruence of the importer |
| C58, C59 | JSON objects with added members | relation `padded` of `SerdeSpec.v`; each reader ignores padding, by induction on JSON; refutation for C59 |
| C60 | layer styles and text constants (`Styles.v`) | as C47 and C48 |
| C61 | one equivalence per schema type: object accepted iff its members can be read | inversion of the reader, generated from the serde attributes |
| C62 | `from_json` end to end | C61 composed with C34, C38, C45 |
| C63 | rendering of layers without content | case analysis of `render_layer`; refutation |
| C64, C65, C66 | `map_layers`: the same document with the settings removed; `accounted` events | congruence of importer and renderer up to erased fields (C22); trace invariant by induction on the depth; refutations |
| C67 | a frame as mutually inductive rules (`FrameSpec.v`): absent and present layers, mattes, contents | both directions by induction on the budget and on the rules; refinement of `Batch.v` for shapes (C15) |
| C68 | conditions on the source (`tidy`, `stars_fit`, `src_refers`) | mutual induction on `imports`/`becomes`: imported geometry is sound, tidy lists do not clash; then C38, C10, C13, C67 |
| C69 | the parts of segments between two distances (`TrimSpec.v`), independent of the loop that cuts them | loop invariant over the accumulated length; uniqueness of the parts; reading the drawn elements back as segments; counterexample with two sub-paths; equivalence with the kept segments meeting (`PropTrim2.v`) |
| C70 | the hit-testing sink as a fold over sink calls (`Picking.v`); outermost groups, bounding boxes and the top-most rectangle (`PickSpec.v`) | induction on the nesting derivation; the paint order is strictly increasing; with C05 and C01 for whole frames |
| C71 | the clock expression on floats (`Player.v`) | exactness of the float remainder; rounding is monotone; counterexample by computation |
| C72 | samples and resets as operations with overflow checks (`Stats.v`) | invariant over histories; bounds on rounded quotients; counterexamples by computation |
| C73 | touch events and frames as a history, fingers read off the history (`Viewer.v`, `PropTouch.v`) | the sorted map of fingers is the history's fingers; invariants of the gesture state; counterexamples by computation |
| C74 | the viewer's state and events (`Viewer.v`) | invariant over histories: indices modulo the number of scenes, no saturation below 2^31, statistics by C72 |
| C75 | as C74 | simulation of the history without the finger; counterexample by computation |
| C76 | files, servers and answers as data (`Download.v`) | case analysis of one download, induction on the list; string lemmas; counterexample by computation; exact conditions by case analysis (`PropDownload2.v`) |
| C77 | turning, slanting and stretching points of the real plane (`GeometrySpec.v`) | rounding-error calculus: each matrix entry is the real one up to an error; 20 digits of pi; Lipschitz bounds for sin, cos, tan |
| C78 | corners and control points of the real plane (`GeometrySpec.v`) | induction on the corners with an error bound for the accumulated angle; reading the drawn elements as edges |
| C79 | the cubic curve of the real plane (`EasingSpec.v`) | rounding-error calculus for coefficients, height and progress; the fallback at the ends; intermediate value theorem and monotonicity of the curve |
| C80 | a layer with its parents in the real plane (`FamilySpec.v`) | the real matrices bring no two points further apart, so the error at most doubles with each parent |
| C81 | straight line between two opacity stops | the easing lemmas of C79 with the straight easing; scan of the segments; witnesses of the refuted parts |
| C82 | an item with its groups, layers and precompositions in the real plane (`NestSpec.v`) | error calculus in terms of the length of the columns of the matrices, whose error grows with the square of the depth and the enlargement; invariant of the pictures of shape lists (sound and complete); mutual induction on frames; induction on the showing layers |
| C83 | outlines part of the way between two outlines of the document (`MorphSpec.v`) | selection of keyframes as in C79; rounding-error calculus for the vertices; a witness with a slow start |
| C84 | stops of two keyframes and the easing curve between them (`MorphSpec.v`) | the easing lemma of C79 for every number of a stop; induction on the stops |
| C85 | averages, extremes and bars in real numbers (in `PropFigures.v`) | a calculus of relative errors over the window facts of C72 |
| C86 | means and distances of finger positions in real numbers; how a gesture began (in `PropPinch.v`) | rounding errors of sums by induction; the gesture facts of C73; induction on the history for the kind |
| C87 | shifting, enlarging and turning points of the screen (in `PropCamera.v`) | products of matrices with errors, as in C77; pointer and button read off the history by induction |
| C88 | counting key presses of the history (in `PropSwitch.v`) | induction on the history |
| C89 | boxes and the upper-most of them in the real plane (in `PropCursor.v`, model `Cursor.v`) | rounding-error calculus for the inverse matrix; corners of a box bound its image; C70 for the order |
| C90 | files, directories and names as data (`Scenes.v`); what is offered as inductive rules (in `PropScenes.v`) | induction on paths and entries; a stable sort is determined by order and stability; witness with two names |
| C91 | glyphs of a text (`Text.v`), widths of lines in real numbers (in `PropText.v`) | induction on the text; relative errors of 32-bit sums |
| C92 | events (paths and draws) of a tree in document order and what continues across the start of a group (in `PropMerge.v`) | invariant of the batch walk: which recorded paths are frozen by a draw; induction on trees |
| C03, C11, C14, C23, C26, C29, C43, C48, C72 exactly | `PropCrash.v`, `PropDepth.v`, `PropMerge.v`, `PropLast.v`, `PropTrip.v`, `PropHeld.v`, `PropBars.v` | if-and-only-if: where the statement fails and what happens there |
| C73, C75 in the viewer, C93 | the touch gestures as the viewer's history gives them | simulation of histories with and without a finger; complex numbers for similarities; error bounds over C87 |
| C94, C17 for any shapes | steps of a repeater in real numbers (in `PropRepeat.v`) | the batch as a picture without conditions; error bounds of products of matrices, logarithms for powers |
| C51, C59, C71, C73, C74 exactly; C28 for the questions | `PropVerge.v`, `PropNull.v` | the facts behind the partial theorems, read as if-and-only-if; null members by congruence of the readers in every position of the document |
| C95 | paths with their endings replaced, the table of default downloads (`Store.v`) | names as strings around their last dot; C76 and C90 joined for the defaults; distinctness of the table by computation |
| C96 | documents as records of their layers and figures, their JSON and the calls they should give | composition of the parser, importer, frame rules and sink on symbolic documents; induction on layers and figures |
| C97 | the rules of a frame over an arbitrary painting of shape layers (`LookSpec.v`) | induction on the number of calls one way, mutual induction on the rules the other way and for uniqueness |
| C98 | the panel as a list of boxes, texts, bars and lines with their transforms (`Panel.v`); what is to be seen in real numbers (`panel` in `PropPanel.v`) | error bounds through every product of transforms; relative errors for the bars' heights; C72 for the histories |
| C99 | the event loop with the panel drawn at every redraw (`Session.v`) | induction on the events from the end, with the invariants of C74 and the switches' parity; C98 for the frame |
| C100 | documents with keyframes (`FilmSpec.v`), read, imported and rendered by the model | computation of reading and importing for any lists; values by C50 and C79; painting by C67; places by C96 |
| C101 | serde_json's reader on strings of bytes (`JsonText.v`), the grammar of JSON text as relations with numbers in real arithmetic (`TextSpec.v`) | the reader accepts exactly the texts of the grammar (induction on the budget and on the derivation); rounding of digits times or over a power of ten with Flocq; a computed witness for a neighbour |
| C102 | serde_json's compact writer (`TextWrite.v`) after `ser_animation`; how doubles are written is any function with `shows` | the text written is a text of the grammar (induction on the value), C101 for reading it, C48 for the document; `SerdeProper.v`: what is written has distinct names and integers of 64 bits |
| C103 | the readers of `Serde.v`; other orders of members as a relation on JSON values (`OrderSpec.v`) | every reader sees the same members (`OrderFacts.v`, one instance per reader, induction for nested groups); C101 for texts |
| C104 | C100's films and C101's texts; integers for doubles as a relation (`AlikeSpec.v`) | the readers on films with integers (`FileFacts.v`, `FileFacts2.v`), then C103, C58, C101 and C100 |
| C105 | `conv_stops`, `normalize_to_range` with equal offsets | the value of a segment of no length, then C81's fold over the segments (`PropEdge.v`, exact result in `PropEdges.v`) |
| C106 | `conv_transform` with both forms of position | keyframes paired up by induction: same times, values zipped; then the interpolation of points coordinate by coordinate (`PropSplit.v`) |
| C107 | `conv_keyframes`, `conv_scalar`, `frames_and_weight` with a missing handle | keyframe by keyframe; filling in the default handles commutes with import and evaluation; the witness by C79's bounds on the curve (`PropLone.v`) |
