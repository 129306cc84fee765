{"id": "C01", "title": "Sink calls are balanced and properly nested", "statement": "Whenever Renderer::append returns, the sequence of calls it made on the RenderSink is a well-nested bracket word: every push_layer/push_clip_layer is closed by exactly one pop_layer, every begin_layer_group by exactly one end_layer_group, the two kinds never interleave, the first call clips to the rectangle (0,0,width,height) under the caller's transform and the last call pops exactly that clip.", "quantifier": "every composition (any layer tree, mattes, masks, precomps), frame, transform, alpha, and every prior renderer state", "why_tests_cant": "the number and nesting of brackets depends on arbitrary recursion through mattes, precomps and masks; tests only see a few files", "anchors": ["src/runtime/render.rs: Renderer::append, Renderer::render_layer"]}
{"id": "C02", "title": "Re-using a renderer is invisible", "statement": "The sink calls made by append depend only on (composition, frame, transform, alpha): after any sequence of earlier completed appends of any compositions, a renderer produces exactly what a freshly created Renderer produces, and an append that panics or diverges does so for both.", "quantifier": "every finite history of completed appends followed by every append", "why_tests_cant": "state left behind (batch buffers, mask buffer) after unusual histories", "anchors": ["src/runtime/render.rs: Renderer (batch, mask_elements), Batch::clear, Renderer::append"]}
{"id": "C03", "title": "A renderer survives a sink that panics", "statement": "If a RenderSink call panics during append and the caller catches the unwind, a later append on the same Renderer still produces exactly what a fresh Renderer produces.", "quantifier": "every crash point (each sink call of each append) in every history", "why_tests_cant": "every crash point of every composition", "anchors": ["src/runtime/render.rs: Renderer::append, Renderer::render_layer (mask_elements)"]}
{"id": "C04", "title": "Layers are visible exactly in the half-open frame window", "statement": "A layer evaluated at frame f makes sink calls iff in <= f < out; outside the window (and for a NaN frame) it makes none, whether it is a top-level layer, a matte source or a precomp child.", "quantifier": "every layer, composition and frame incl. NaN/infinities", "why_tests_cant": "all frames and all nesting positions", "anchors": ["src/runtime/render.rs: render_layer (layer.frames.contains)"]}
{"id": "C05", "title": "Layers are painted back to front, each once, matte sources skipped", "statement": "The calls of append are: the clip, then for the top-level layers from the last in the array to the first, skipping layers flagged as matte sources, that layer's own calls, then the pop. The begin_layer_group calls at nesting depth one carry exactly the names and array positions of the active non-matte layers in that order.", "quantifier": "every composition and frame", "why_tests_cant": "order must hold for every length of layer list and every activity pattern", "anchors": ["src/runtime/render.rs: Renderer::append"]}
{"id": "C06", "title": "Matte bracketing", "statement": "A layer with a matte is drawn as: isolate group (normal blend, full composition rect, parent transform), the matte source layer's calls rendered under the parent transform and the inherited alpha, then a group with the matte's blend mode, then the layer's content, then both groups are popped. A matte index outside the layer list contributes no calls but keeps the groups.", "quantifier": "every layer set, every matte index (in or out of range), every frame", "why_tests_cant": "every shape of layer set", "anchors": ["src/runtime/render.rs: render_layer (mask_layer)"]}
{"id": "C07", "title": "Masks clip exactly with their own geometry", "statement": "Each mask of a layer yields one clip, in list order, whose path is precisely that mask's geometry at the current frame (no elements from other masks or previous renders) under the layer's transform, and all are popped after the content.", "quantifier": "every list of masks, every frame, every renderer history", "why_tests_cant": "buffer reuse between masks", "anchors": ["src/runtime/render.rs: render_layer (masks, mask_elements)"]}
{"id": "C08", "title": "Layer transform is the product of the whole parent chain", "statement": "For a layer whose parent chain is acyclic, the transform used is caller transform * root ancestor * ... * parent * own, each evaluated at the frame, with no ancestor dropped or repeated; the chain stops at a missing parent index.", "quantifier": "every layer set with acyclic parent chains of any length", "why_tests_cant": "chains of any length incl. exactly as long as the layer set", "anchors": ["src/runtime/render.rs: Renderer::compute_transform"]}
{"id": "C09", "title": "Parent cycles cannot hang the renderer", "statement": "Transform evaluation terminates for every parent graph, including self-parents and cycles, applying at most as many ancestors as there are layers in the set.", "quantifier": "every parent function on every layer set", "why_tests_cant": "all cyclic graphs", "anchors": ["src/runtime/render.rs: Renderer::compute_transform"]}
{"id": "C10", "title": "append terminates on acyclic reference graphs", "statement": "If no layer (transitively) refers to itself through mattes or precomp instances, append returns; the result does not depend on recursion budget.", "quantifier": "every composition with an acyclic matte/precomp reference graph, every frame", "why_tests_cant": "termination cannot be tested", "anchors": ["src/runtime/render.rs: render_layer"]}
{"id": "C11", "title": "append terminates on every imported file", "statement": "For every animation the importer accepts, append returns for every frame.", "quantifier": "every importable animation and frame", "why_tests_cant": "termination over all inputs", "anchors": ["src/runtime/render.rs: render_layer", "src/import/converters.rs: process_layers"]}
{"id": "C12", "title": "Files without explicit matte targets and precomps always terminate", "statement": "An imported animation in which no layer uses an explicit matte index (tp) and no layer instances a precomp renders in finitely many steps at every frame; implicit mattes always point to an earlier layer.", "quantifier": "every such animation, every frame", "why_tests_cant": "termination", "anchors": ["src/import/converters.rs: process_layers", "src/runtime/render.rs: render_layer"]}
{"id": "C13", "title": "Rendering never indexes out of bounds", "statement": "Rendering any shape tree (arbitrarily nested groups, draws, repeaters, trims in any order), including user-constructed ones, never panics by out-of-range slicing or integer underflow, provided path data starts with a move-to and star point counts are below the allocation limit.", "quantifier": "every shape tree, frame, transform", "why_tests_cant": "ranges are rewritten by groups, repeaters and trims in arbitrary interleavings", "anchors": ["src/runtime/render.rs: Batch::{push_geometry,push_draw,repeat,apply_trim,render}, render_shapes"]}
{"id": "C14", "title": "A fill or stroke paints exactly the geometry above it in its group", "statement": "Every draw paints, under each geometry's accumulated transform, exactly the geometry elements that precede it in its own group (including those in nested groups), in order; geometry outside the group is not painted by it and none of its own geometry is lost.", "quantifier": "every shape tree without repeaters/trims, every frame", "why_tests_cant": "merging of adjacent geometries depends on transforms and history", "anchors": ["src/runtime/render.rs: Batch::push_geometry, push_draw, render, render_shapes"]}
{"id": "C15", "title": "Draws are emitted in reverse document order", "statement": "Within a shape layer the draw calls are emitted so that an element earlier in the document is painted later (on top).", "quantifier": "every shape tree", "why_tests_cant": "all trees", "anchors": ["src/runtime/render.rs: Batch::render"]}
{"id": "C16", "title": "Opacity is the product along the ancestry", "statement": "The alpha a draw is painted with is caller alpha * layer opacity/100 * (each enclosing group's opacity/100) * draw opacity/100 * (repeater alphas); if that product is exactly 1.0 the brush is passed unchanged, otherwise it is multiplied by it (as f32).", "quantifier": "every composition, nesting and frame", "why_tests_cant": "all nestings", "anchors": ["src/runtime/render.rs: render_layer, render_shapes, DrawData::new, Batch::render"]}
{"id": "C17", "title": "Repeater copies", "statement": "A repeater with n copies replaces the group's geometry by n transformed copies and paints each copy once with its own interpolated opacity; with n = 0 nothing of the group so far is painted; everything outside the group is untouched.", "quantifier": "every n, group content and surroundings", "why_tests_cant": "all n and contents", "anchors": ["src/runtime/render.rs: Batch::repeat", "src/runtime/model/fixed.rs: Repeater::transform"]}
{"id": "C18", "title": "A trim only affects its own group", "statement": "Applying a trim leaves the path, the transform and the number of all geometry collected before the group unchanged, and keeps every draw's geometry selection.", "quantifier": "every batch state reachable by rendering, every trim", "why_tests_cant": "offset rewriting over all states", "anchors": ["src/runtime/render.rs: Batch::apply_trim"]}
{"id": "C19", "title": "Trimmed-away geometry stays trimmed", "statement": "If a trim removes the whole path (start = end), the geometry it applied to contributes no path elements to anything painted; a 0-100% trim changes nothing.", "quantifier": "every shape list with a trim at any position", "why_tests_cant": "interleavings of trims, geometry and draws", "anchors": ["src/runtime/render.rs: Batch::apply_trim, push_geometry"]}
{"id": "C20", "title": "Trim normalisation yields valid fractions", "statement": "For finite start, end, offset, the normalised trim is absent iff |end-start| is below 1e-9, symmetric in start/end, and otherwise consists of one or two ranges inside [0,1] with lower <= upper, the second present only as a wrap-around starting at 0 while the first ends at 1, and not overlapping the first.", "quantifier": "all finite f64 triples", "why_tests_cant": "all doubles", "anchors": ["src/runtime/model/fixed.rs: Trim::normalized"]}
{"id": "C21", "title": "Precomp time mapping and missing assets", "statement": "A precomp instance renders the referenced asset's layers last-to-first at frame f/stretch + (-start/stretch) with the instance's transform and alpha; an unknown asset id renders an empty layer and nothing else changes.", "quantifier": "every composition, instance and frame", "why_tests_cant": "nesting", "anchors": ["src/runtime/render.rs: render_layer (Content::Instance)"]}
{"id": "C22", "title": "Unsupported fields have no effect on rendering", "statement": "time_remap, layer blend_mode, mask mode, mask opacity, layer width/height and the matte-index name do not influence any sink call.", "quantifier": "all values of those fields", "why_tests_cant": "all values", "anchors": ["src/runtime/render.rs: render_layer"]}
{"id": "C23", "title": "Keyframe bracket selection", "statement": "For strictly increasing keyframe times and any frame, the two selected keyframes are the ones surrounding the frame (clamped at both ends) and the weight lies in [0,1].", "quantifier": "all lengths, all increasing finite times, all finite frames", "why_tests_cant": "all arrays", "anchors": ["src/runtime/model/value.rs: Time::frames_and_weight"]}
{"id": "C24", "title": "Interpolation is exact at keyframes", "statement": "Evaluating an animated value at the time of keyframe i yields exactly the i-th value (at the last keyframe: a numerically equal value, given finite components and easing handles of moderate size).", "quantifier": "all animated values with strictly increasing finite times", "why_tests_cant": "all arrays and all i incl. first and last", "anchors": ["src/runtime/model/value.rs: Animated::evaluate_inner, Tween"]}
{"id": "C25", "title": "Values are clamped outside the keyframe range", "statement": "Before the first keyframe the first value, after the last keyframe the last value is returned, exactly.", "quantifier": "all animated values, all frames outside the range", "why_tests_cant": "all doubles", "anchors": ["src/runtime/model/value.rs: frames_and_weight, evaluate_inner"]}
{"id": "C26", "title": "Hold keyframes hold", "statement": "From a hold keyframe's time until just before the next keyframe the evaluated value is exactly that keyframe's value (for scalars, points, sizes, colours, splines and gradients).", "quantifier": "all animated values, all frames in the segment", "why_tests_cant": "all frames", "anchors": ["src/runtime/model/value.rs: evaluate_inner", "src/runtime/model/animated.rs: ColorStops::evaluate_inner, Spline::evaluate"]}
{"id": "C27", "title": "An animated value always has a value", "statement": "Values produced by the importer with at least one keyframe never fall back to the type's default: times and values have the same length, and evaluation returns an interpolation of two of its values.", "quantifier": "all imported properties and frames", "why_tests_cant": "all keyframe arrays", "anchors": ["src/import/converters.rs: conv_scalar, conv_keyframes", "src/runtime/model/value.rs: evaluate_inner"]}
{"id": "C28", "title": "Collapsing unanimated properties does not change the picture", "statement": "For every transform, stroke, brush, repeater, trim and star, converting to the model representation (which precomputes non-animated values at frame 0) evaluates at every frame to the same result as the original (brushes at the opacity 1.0 the renderer passes).", "quantifier": "all property values, all frames", "why_tests_cant": "all frames and values", "anchors": ["src/runtime/model/animated.rs: into_model (Transform, Stroke, Brush, Repeater, Trim, Star)", "src/runtime/model/mod.rs: evaluate"]}
{"id": "C29", "title": "Animated paths stay finite", "statement": "If all keyframe points and times of an animated path are finite (and moderately sized), the path evaluated at any finite frame contains only finite points.", "quantifier": "all splines, all frames", "why_tests_cant": "a single exceptional frame suffices to break it", "anchors": ["src/runtime/model/animated.rs: Spline::evaluate", "src/runtime/model/value.rs: frames_and_weight", "src/runtime/model/spline.rs"]}
{"id": "C30", "title": "Spline conversion is total and passes through its vertices", "statement": "Converting n>=1 vertices (each vertex, in-tangent, out-tangent) yields a move-to at vertex 0, one segment ending at each following vertex, plus (if closed) one segment back to vertex 0 and a close; it never indexes out of range; a segment is a line iff both its control points coincide with its end points.", "quantifier": "all point arrays incl. lengths that are not multiples of three, mismatched keyframe lengths", "why_tests_cant": "all lengths", "anchors": ["src/runtime/model/spline.rs: SplineToPath::to_path", "src/import/converters.rs: conv_spline"]}
{"id": "C31", "title": "Gradient stop count", "statement": "Evaluating an animated gradient yields either exactly the declared number of stops or none at all; it never panics.", "quantifier": "all keyframe data and counts", "why_tests_cant": "all lengths", "anchors": ["src/runtime/model/animated.rs: ColorStops::evaluate"]}
{"id": "C32", "title": "Tween endpoints", "statement": "For scalars, points, vectors, sizes and colours, tweening with weight <= 0 gives exactly the first value and with weight >= 1 exactly the second, whatever the easing.", "quantifier": "all values, weights and easings", "why_tests_cant": "all doubles", "anchors": ["src/runtime/model/value.rs: Tween impls"]}
{"id": "C33", "title": "Polystar outline structure", "statement": "An n-point polygon (star) evaluates to a closed outline that starts with a move-to, has one segment per following vertex (n resp. 2n vertices) and ends with a close; zero or negative or NaN point counts give an empty path; existing path content is preserved.", "quantifier": "all animated polystars and frames", "why_tests_cant": "all n", "anchors": ["src/runtime/model/animated.rs: Star::evaluate"]}
{"id": "C34", "title": "Import preserves the layer list", "statement": "The imported layer list has one entry per source layer, in source order, with the source's name and frame window.", "quantifier": "all animations", "why_tests_cant": "all lists", "anchors": ["src/import/converters.rs: process_layers, conv_layer", "src/import/builders.rs"]}
{"id": "C35", "title": "Parent references resolve within their composition", "statement": "A layer's imported parent is the position of the (last) layer in the same composition whose index equals the source's parent id, or none if there is no such layer; it is always a valid position, and never depends on other compositions or assets.", "quantifier": "all animations", "why_tests_cant": "all id assignments incl. duplicates", "anchors": ["src/import/converters.rs: process_layers (idmap)"]}
{"id": "C36", "title": "Matte references resolve correctly", "statement": "A layer gets a matte iff its source has a matte mode and a source is found: the explicit target id resolved in the same composition, otherwise the nearest preceding visible matte-source layer not already followed by a matte consumer. The index is always a valid position and the blend mode is source-in for alpha/luma, source-out for inverted, normal for mode 0.", "quantifier": "all layer lists", "why_tests_cant": "all lists", "anchors": ["src/import/converters.rs: process_layers", "src/import/builders.rs: matte_mode mapping"]}
{"id": "C37", "title": "Hidden layers keep their transform but draw nothing", "statement": "A hidden source layer is imported with empty content and not as a matte source, while its transform, parent and position are as if visible.", "quantifier": "all layers", "why_tests_cant": "all layers", "anchors": ["src/import/converters.rs: conv_layer, is_layer_hidden"]}
{"id": "C38", "title": "Import succeeds exactly on supported animations", "statement": "Importing a parsed animation either returns a composition or panics; it panics exactly when the animation contains an image asset, a layer with absent or split rotation, a layer with blend mode add/hard-mix, a group with split rotation or split position, an animated scalar keyframe without value, a scalar/gradient/shape keyframe handle that is an array of length other than one, or an oversized fixed star.", "quantifier": "all parsed animations", "why_tests_cant": "exact set of rejected inputs", "anchors": ["src/import/converters.rs: conv_animation, conv_transform, conv_shape_transform, conv_keyframe_handle, conv_scalar", "src/import/builders.rs"]}
{"id": "C39", "title": "Shape conversion preserves order and structure", "statement": "Shapes are converted in order; unsupported shapes and groups without convertible content disappear; a group's transform is its last transform item; nothing else is added, dropped or reordered.", "quantifier": "all shape trees", "why_tests_cant": "all trees", "anchors": ["src/import/converters.rs: conv_shape, conv_layer"]}
{"id": "C40", "title": "Bezier import is faithful", "statement": "A bezier with n vertices becomes 3n points (vertex, in-tangent, out-tangent), missing tangents are zero, surplus ones ignored.", "quantifier": "all beziers", "why_tests_cant": "all lengths", "anchors": ["src/import/converters.rs: conv_spline"]}
{"id": "C41", "title": "Omitted transform parts mean identity", "statement": "Omitting anchor, scale, skew or opacity in a layer or group transform is the same as anchor 0, scale 100%, skew 0, opacity 100%.", "quantifier": "all transforms", "why_tests_cant": "The set of transforms with omitted parts is unbounded; a sample cannot show that every omission is neutral.", "anchors": ["src/import/converters.rs: conv_transform, conv_shape_transform", "src/import/defaults.rs: MULTIDIM_ONE"]}
{"id": "C42", "title": "Gradient stop import", "statement": "The imported number of colour stops is min(count, available quadruples) (for count >= 1), colours and offsets are taken unchanged, alpha never exceeds 1 and is 1 when there is no opacity data.", "quantifier": "all raw arrays and counts", "why_tests_cant": "all lengths", "anchors": ["src/import/converters.rs: conv_stops"]}
{"id": "C43", "title": "A gradient stop placed on an opacity stop takes that opacity", "statement": "If a colour stop's offset equals the offset of an opacity stop then its imported alpha is that opacity.", "quantifier": "all gradients", "why_tests_cant": "Gradients have any number of colour and opacity stops at any offsets.", "anchors": ["src/import/converters.rs: conv_stops"]}
{"id": "C44", "title": "Hidden shapes are not painted", "statement": "A shape element marked hidden contributes nothing to the rendering.", "quantifier": "all shapes", "why_tests_cant": "Shapes nest to any depth and any subset may be hidden.", "anchors": ["src/import/converters.rs: conv_shape", "src/schema/shapes/graphic_element.rs"]}
{"id": "C45", "title": "Layer JSON dispatch", "statement": "A layer object deserialises into the variant named by its integer ty (0 precomp, 1 solid, 2 image, 3 null, 4 shape) and any other or missing ty is an error.", "quantifier": "all JSON values", "why_tests_cant": "all JSON", "anchors": ["src/schema/layers/mod.rs: Deserialize for AnyLayer"]}
{"id": "C46", "title": "Validated shape keyframes cannot break import", "statement": "Any animated path accepted by the deserialiser (every keyframe but the last has a start, a sole keyframe has one) is imported without integer underflow, and is imported to a spline with one value per keyframe whenever its start/end arrays are non-empty.", "quantifier": "all keyframe arrays", "why_tests_cant": "all lengths", "anchors": ["src/schema/animated_properties/shape_property.rs: deserialize_keyframes", "src/import/converters.rs: conv_shape_geometry"]}
{"id": "C47", "title": "Integer-coded enums round-trip", "statement": "Every integer-coded constant (BoolInt, blend mode, matte mode, line cap/join, fill rule, gradient type, star type, merge mode, ...) decodes exactly from the documented codes and decode(encode(x)) = x.", "quantifier": "all codes", "why_tests_cant": "The decoder must reject every other JSON value, an infinite set.", "anchors": ["src/schema/constants/*.rs", "src/schema/helpers/int_boolean.rs"]}
{"id": "C48", "title": "Schema round-trip", "statement": "Deserialising (Animation::from_json of a serde_json::Value) what serde_json::to_value gives for any schema value that was deserialised yields the same value.", "quantifier": "all JSON documents accepted by the schema", "why_tests_cant": "all documents", "anchors": ["src/schema/**"]}
{"id": "C49", "title": "Vello adapter", "statement": "Rendering into a vello scene issues exactly one scene operation per push, clip, pop and draw call (and none for group markers), in order, a stroke when a stroke style is given and a fill otherwise, with the same transform, blend, alpha, brush and geometry; pushes and pops on the scene therefore balance.", "quantifier": "all compositions, frames, transforms and alphas", "why_tests_cant": "The set of call sequences a composition can produce is unbounded.", "anchors": ["src/runtime/vello.rs: RenderSink for vello::Scene", "src/runtime/render.rs: Renderer::append"]}
{"id": "C53", "title": "Layer lists are imported independently", "statement": "What a layer list (main composition or precomp asset) becomes depends on that list alone: not on other assets, on the document's size or frame range, or on where the list is used.", "quantifier": "all pairs of documents that contain the same layer list", "why_tests_cant": "Pairs of documents are unbounded, and layer ids may clash across compositions in any pattern.", "anchors": ["src/import/converters.rs: conv_animation, process_layers"]}
{"id": "C54", "title": "Layer properties are imported unchanged", "statement": "Every imported layer has the transform, opacity, blend mode, masks and (if visible) content its source describes, property by property, keyframe by keyframe.", "quantifier": "all documents and all layers in them", "why_tests_cant": "Every property may be static or animated with any number of keyframes.", "anchors": ["src/import/converters.rs: conv_layer, setup_layer_base, conv_transform, conv_mask"]}
{"id": "C50", "title": "Properties follow their keyframes", "statement": "Over time, every transform, opacity, colour, stroke width, trim, mask opacity and time remap of an imported document has the value its keyframes describe: constant before the first and after the last keyframe, exactly the keyframe's value at a keyframe, held or eased with the keyframe's handles in between.", "quantifier": "all documents, all properties, all finite frames (keyframes in order)", "why_tests_cant": "Keyframe lists have any length and frames are arbitrary floating-point numbers.", "anchors": ["src/import/converters.rs: conv_scalar, conv_keyframe, conv_transform, conv_shape", "src/runtime/model/value.rs: Time::frames_and_weight"]}
{"id": "C51", "title": "Each component is eased by its own handles", "statement": "If the handles of a keyframe of a two-component property are arrays then component i of the value is eased with entry i of the arrays.", "quantifier": "all keyframed vector properties and frames", "why_tests_cant": "Keyframe lists have any length and frames are arbitrary floating-point numbers.", "anchors": ["src/import/converters.rs: keyframes conversion of multi-dimensional properties"]}
{"id": "C52", "title": "Style opacity is honoured", "statement": "A fill or stroke (solid or gradient) is painted with the opacity its style gives.", "quantifier": "all fills and strokes", "why_tests_cant": "The opacity may be animated with any keyframes.", "anchors": ["src/import/converters.rs: conv_draw"]}
{"id": "C55", "title": "Transforms scale about the anchor, then skew, rotate and move", "statement": "The matrix of a layer or group at a frame is the product translate(position) rotate skew scale/100 translate(-anchor) of the property values at that frame; without rotation and skew a point x goes to s*x + (p - s*a) with one rounding per operation.", "quantifier": "all transforms and frames", "why_tests_cant": "Values are arbitrary floating-point numbers and may be animated.", "anchors": ["src/runtime/model/animated.rs: Transform::evaluate", "src/import/converters.rs: conv_transform"]}
{"id": "C56", "title": "Rectangles, ellipses and gradients are placed by their properties", "statement": "A rectangle is centred on its position, an ellipse has radii of half its size, a linear gradient runs from start to end point and a radial one is centred on the start point and reaches to the end point, at every frame with the property values of that frame.", "quantifier": "all such shapes and frames", "why_tests_cant": "Properties may be animated with any keyframes.", "anchors": ["src/runtime/model/animated.rs: Rect, Ellipse, Gradient", "src/import/converters.rs: conv_geometry, conv_gradient"]}
{"id": "C57", "title": "Only documented fields matter", "statement": "Two documents that agree on the fields velato supports (up to omitted defaults and unsupported shapes) are imported to the same composition, and one is importable iff the other is.", "quantifier": "all pairs of documents", "why_tests_cant": "Pairs of documents are unbounded.", "anchors": ["src/import/converters.rs: conv_animation"]}
{"id": "C58", "title": "Unknown members are ignored", "statement": "Adding members whose names velato does not know to any objects of a document, at any depth, changes neither whether the document is accepted nor the composition it is imported to.", "quantifier": "all documents, all added names, values and places", "why_tests_cant": "Any subset of objects can carry extra members with arbitrary nested values.", "anchors": ["src/schema: derived Deserialize implementations", "src/runtime/mod.rs: Composition::from_json"]}
{"id": "C59", "title": "A null member is the same as an absent one", "statement": "Adding a member with the value null to an object that lacks it changes neither whether the document is accepted nor what it is imported to.", "quantifier": "all documents, all members and places", "why_tests_cant": "Every member of every object at every depth.", "anchors": ["src/schema: derived Deserialize implementations", "src/schema/assets/mod.rs", "src/runtime/mod.rs: Composition::from_json"]}
{"id": "C60", "title": "Layer styles are read from their members and survive writing", "statement": "Each layer style type (base, colour overlay, gradient overlay, outer glow, satin) needs a style type code from 0 to 8, reads each field from its Lottie member (absent or null means none), and a style that was read is read back unchanged from what it is written to.", "quantifier": "all JSON values", "why_tests_cant": "all JSON values and all combinations of optional members", "anchors": ["src/schema/styles: LayerStyle, ColorOverlayStyle, GradientOverlayStyle, OuterGlowStyle, SatinStyle, StyleType"]}
{"id": "C61", "title": "Every field is read from its Lottie member", "statement": "For every type of the schema, an object is accepted exactly if each required member is present and readable and each optional member is absent, null or readable; each field is then the value of the member with its Lottie name, and nothing else of the object matters.", "quantifier": "all JSON values, for every schema type", "why_tests_cant": "Every combination of present, absent, null and ill-typed members of every object.", "anchors": ["src/schema: all Deserialize implementations"]}
{"id": "C62", "title": "A composition reflects the JSON it was made from", "statement": "Composition::from_json fails exactly if the document cannot be read, panics exactly if it uses an unsupported feature and otherwise succeeds; the composition then has the document's w, h, fr, ip and op, one layer per element of layers in order, and one layer list per precomposition asset (the last one with an id), each layer with the name, window, stretch, start and size its JSON object gives.", "quantifier": "all JSON values", "why_tests_cant": "Documents are unbounded JSON trees.", "anchors": ["src/runtime/mod.rs: Composition::from_json", "src/import/converters.rs: conv_animation, setup_layer_base"]}
{"id": "C63", "title": "A solid layer paints its rectangle", "statement": "A visible solid layer paints a rectangle of its width, height and colour.", "quantifier": "all documents with solid layers, all frames", "why_tests_cant": "Any layer of any precomposition may be a solid, at any frame, with any size.", "anchors": ["src/import/converters.rs: conv_layer", "src/schema/layers/solid.rs", "src/runtime/render.rs: render_layer"]}
{"id": "C64", "title": "Masks honour mode, inversion and opacity", "statement": "The mode (none, add, subtract, ...), inversion, opacity and expansion of a layer's masks are honoured: a mask with mode none does not clip, an inverted mask clips to its complement.", "quantifier": "all documents, all masks, all frames", "why_tests_cant": "The settings of any number of masks on any layers combine freely.", "anchors": ["src/import/builders.rs", "src/runtime/render.rs: render_layer", "src/schema/helpers/mask.rs"]}
{"id": "C65", "title": "A layer's blend mode is honoured", "statement": "A layer with a blend mode other than normal is composited with it: its drawing is wrapped in a push_layer with that mode. push_layer is otherwise only used for mattes.", "quantifier": "all documents, all layers, all blend modes, all frames", "why_tests_cant": "Any layer at any nesting depth may have any of eighteen modes.", "anchors": ["src/import/builders.rs", "src/runtime/render.rs: render_layer", "src/runtime/model/mod.rs: Layer"]}
{"id": "C66", "title": "A precomposition is clipped to its size", "statement": "The contents of a precomposition layer are clipped to the layer's width and height. Clips are otherwise the rectangle of the composition and the outlines of masks.", "quantifier": "all documents, all precomposition layers, all frames", "why_tests_cant": "Precompositions nest to any depth, with any sizes.", "anchors": ["src/import/builders.rs: setup_precomp_layer", "src/runtime/render.rs: render_layer"]}
{"id": "C67", "title": "A frame is the picture the layer rules describe", "statement": "What append records is exactly the picture given by the rules of the format: visible layers from last to first, each inside its window, placed by its chain of parents, dimmed by its opacity, with mattes and masks around its content, precompositions at their own time, shapes as nested pictures; the rules determine one picture per frame.", "quantifier": "all compositions with well-formed geometry in which outlines of different groups are not merged, all frames, transforms, opacities and used renderers", "why_tests_cant": "Parent chains, mattes and precompositions combine to any depth, at every frame.", "anchors": ["src/runtime/render.rs: Renderer::append, render_layer, compute_transform", "src/runtime/model/mod.rs: Composition, Layer"]}
{"id": "C68", "title": "Every frame of an ordinary document is painted", "statement": "A supported document without self-references, with stars of a fixed reasonable size, is imported, and every frame of it is painted by any renderer without a crash. If its shape lists are tidy (no group starts between geometry and its style, no geometry follows a trim before the style) each frame is the picture the layer rules describe.", "quantifier": "all documents satisfying these conditions on the source, all frames, transforms, opacities and used renderers", "why_tests_cant": "All documents, all frames; nesting is unbounded.", "anchors": ["src/import/converters.rs: conv_animation, conv_shape", "src/runtime/mod.rs: Composition::from_json", "src/runtime/render.rs: Renderer::append"]}
{"id": "C69", "title": "A trim keeps exactly the parts of the outline between two distances", "statement": "For each range of the trim, the outline drawn consists of the parts of its segments between the range's start and end distance: segments wholly between are drawn whole, the first and last are cut at the parameters for the remaining distance, nothing else is drawn, and every range starts a new sub-path. An outline with no length draws nothing.", "quantifier": "all outlines, trims and arc-length measures satisfying the stated laws", "why_tests_cant": "All outlines of any number of segments and all trims.", "anchors": ["src/runtime/render.rs: trim_path, trim_segments_range, append_segment", "src/runtime/model/value.rs: Trim::normalized"]}
{"id": "C70", "title": "The layer under the cursor is the top-most one drawn there", "statement": "In the hit-testing sink of the examples every outermost layer of the composition that draws something in a frame gets one rectangle, the bounding box of everything drawn in it, in paint order; the layer picked for a cursor position is the one painted last among those whose rectangle contains it, or none; and hit-testing does not change the picture that is drawn.", "quantifier": "all compositions, frames, transforms, opacities, used renderers, cursor positions, bounding box functions", "why_tests_cant": "Layers nest to any depth, and any sequence of draw calls may occur inside them.", "anchors": ["examples/scenes/src/picking.rs: PickingScene, LayerBoundsTracker, pick_layer"]}
{"id": "C71", "title": "Playback loops inside the composition's frame range", "statement": "At every moment after the start the player shows the frame that is left of the elapsed frames after whole rounds through the frame range, counted from the start of the range; that frame lies in the range, before its end.", "quantifier": "all compositions with a non-empty frame range and positive frame rate, all elapsed times", "why_tests_cant": "Every elapsed time; rounding depends on all of them.", "anchors": ["examples/scenes/src/lottie.rs: display_lottie", "examples/scenes/src/picking.rs: picking_scene"]}
{"id": "C72", "title": "Frame statistics describe the last hundred frames and can always be drawn", "statement": "The viewer's frame statistics always hold the last hundred samples, with their number and sum, and the extremes since the last reset; no sequence of samples and resets crashes; and the bars of the graph can always be drawn, with heights between none and all of the graph.", "quantifier": "all sequences of samples and resets, for samples of up to about two years", "why_tests_cant": "All histories; sums and extremes depend on all samples.", "anchors": ["examples/with_winit/src/stats.rs: Stats::add_sample, clear_min_and_max, snapshot, Snapshot::draw_layer, round_up"]}
{"id": "C73", "title": "Touch gestures follow the fingers without jumps", "statement": "At the end of every frame the viewer reports a gesture exactly if at least two fingers are down, with their number and centre; the movement, zoom and rotation reported compare the fingers now with the fingers at the end of the last frame, are finite, and are neutral in a frame in which a finger was put down or lifted and in a frame in which nothing happened.", "quantifier": "all histories of touch events and frames, any number of fingers, any hypotenuse and arc tangent functions", "why_tests_cant": "All interleavings of events of any number of fingers with frames.", "anchors": ["examples/with_winit/src/multi_touch.rs: TouchState::add_event, end_frame, info, MultiTouchInfo"]}
{"id": "C74", "title": "The viewer always shows an existing scene, the one navigated to", "statement": "Whatever keys, touches, mouse events and frames occur, the viewer does not crash, every frame shows an existing scene and kind of antialiasing, namely the first one moved by the steps to the right minus the steps to the left around the list, and the view is reset exactly when another scene is shown.", "quantifier": "all event histories (shorter than 2^31), all numbers of scenes and first scenes", "why_tests_cant": "All histories of events.", "anchors": ["examples/with_winit/src/lib.rs: run"]}
{"id": "C75", "title": "Touches that navigate do not take part in gestures", "statement": "A finger put down in the navigation zone at the bottom of the window is never part of a gesture, and gestures of other fingers are the same as without it.", "quantifier": "all event histories, any number of fingers", "why_tests_cant": "All interleavings of navigation with gestures.", "anchors": ["examples/with_winit/src/lib.rs: run", "examples/with_winit/src/multi_touch.rs"]}
{"id": "C76", "title": "Downloads never damage files and can be repeated", "statement": "Downloading never changes a file that is there, stores at most the size limit, counts every download as completed, failed or skipped, and reports success only if the file is what the server sent, with the expected size; a failed download leaves nothing behind, so that running again repairs it. A download given as name@address is stored under that name, otherwise under the last part of the address without .json.", "quantifier": "all lists of downloads, servers, answers and existing files, connections breaking anywhere", "why_tests_cant": "A connection may break at any byte of any file, in any run.", "anchors": ["examples/scenes/src/download.rs: Download::action, parse_download, LottieDownload::fetch"]}
{"id": "C77", "title": "Transforms put things where the document says", "statement": "A layer or group whose transform has a position, anchor, scale, rotation, skew and skew axis puts a point p of its content at: p relative to the anchor, stretched by the scale (in percent), slanted by the skew along the axis, turned by the rotation (in degrees, clockwise on the screen), and moved so that the anchor is at the position; the result is exact up to a thousandth of a pixel. The anchor itself goes to the position; without scaling and skewing, distances are kept.", "quantifier": "all imported layer and group transforms, frames, points and values in ordinary ranges", "why_tests_cant": "The matrix is a product of up to seven rounded matrices, of which tests check a few; the error has to be bounded for all angles, scales and skews.", "anchors": ["src/runtime/model/animated.rs: Transform::evaluate", "src/import/converters.rs: conv_transform, conv_shape_transform"]}
{"id": "C78", "title": "Stars and polygons have the corners the document says", "statement": "The outline of a star or polygon with n points is a closed chain of as many edges as corners (n, or 2n for a star); corner k lies at the outer radius, or in a star alternately at the outer and inner radius, from the position, at an angle of rotation - 90 degrees plus k of the n (or 2n) equal parts of a full turn; the edges are straight without roundness, and otherwise curves whose control points are as long as the roundness says, at right angles to the radius; up to a thousandth of a pixel (a fiftieth for control points).", "quantifier": "all imported stars and polygons, all frames, point counts, radii, roundnesses and rotations in ordinary ranges", "why_tests_cant": "Angles are accumulated step by step, with alternating rounding; any number of points may be drawn.", "anchors": ["src/runtime/model/animated.rs: Star::evaluate", "src/import/converters.rs: conv_polystar_geometry, conv_shape_geometry"]}
{"id": "C79", "title": "Between two keyframes a value follows the easing curve", "statement": "Between two keyframes that are not held, a value moves along the cubic curve from (0,0) to (1,1) whose control points are the out-handle and in-handle of the first keyframe: at a time t of the way, the value is a + (b - a) y with y the height of the curve at t, up to a rounding error. Without handles it moves at a steady pace; it leaves the range between the two values only if the handles do; for handles with first coordinates from 0 to 1 the height is unique.", "quantifier": "all animated numbers, pairs, positions and colours of all documents, all keyframes, frames and handles in ordinary ranges", "why_tests_cant": "The curve is solved numerically, with special treatment of the ends; the error has to be bounded for all handles and times.", "anchors": ["src/runtime/model/value.rs: Tween for f64, Animated::evaluate_inner, Time::frames_and_weight"]}
{"id": "C80", "title": "A layer is placed relative to its parent, and that to its own", "statement": "A point of a layer is painted where you get by applying the layer's own position, anchor, scale, skew and rotation, then those of its parent (the layer of the document whose index it names), then those of the parent's parent and so on, each as it is at that frame, and finally the caller's map; up to a hundredth of a pixel.", "quantifier": "all imported documents, layers and frames, chains of n parents with n^2 times the total enlargement at most 2000, all points up to 8192", "why_tests_cant": "Errors of matrix products add up along the chain; the order of the products matters; parents are resolved by index, not by place.", "anchors": ["src/runtime/render.rs: compute_transform", "src/import/builders.rs: setup_layer_base", "src/import/converters.rs: conv_layer"]}
{"id": "C81", "title": "Between two opacity stops a gradient is blended", "statement": "A colour stop that lies between two neighbouring opacity stops is imported with the opacity on the straight line between theirs.", "quantifier": "all gradients with fixed colours, any number of colour and opacity stops", "why_tests_cant": "Stops may be anywhere and in any number; the blending goes through the keyframe easing code.", "anchors": ["src/import/converters.rs: conv_stops, normalize_to_range"]}
{"id": "C82", "title": "Everything is painted where its groups, layers and precompositions put it", "statement": "Every path a frame paints belongs to a layer that is shown (in the main list or in a precomposition shown by layers that are shown, each at its own time), and lies where an outline of that layer is put by its groups, then the layer, its parents, and the layers that show the precomposition with their parents, and the caller's map, up to a hundredth of a pixel; it has the style (fill or stroke) of an item that follows the outline, faded by the product of the opacities of that style, its groups, the layer and the showing layers; mask outlines lie where their layer does. In a layer without trims every piece of the path is a piece of such an outline; and nothing is missing: every outline that is followed by a style is painted like that in every layer that is shown (including mattes of layers that are shown), and every mask of such a layer is pushed.", "quantifier": "all importable documents whose shape lists are tidy (see C68) and whose parent links end, all frames, caller's maps and opacities, nesting of any depth n with n^2 times the total enlargement at most 2000, points up to 8192, opacities from 0 to 100", "why_tests_cant": "Errors of matrix products and opacities add up with the nesting, which may be arbitrarily deep; paths of several items are merged in batches; the picture is a product of the importer and the renderer.", "anchors": ["src/runtime/render.rs: Renderer::render_layer, render_shapes, compute_transform, Batch", "src/import/builders.rs: setup_shape_layer, setup_precomp_layer, setup_layer_base", "src/import/converters.rs: conv_animation, conv_layer, conv_shape"]}
{"id": "C83", "title": "A path that changes shape moves from one shape to the next as its keyframes say", "statement": "A path or mask outline with keyframes has, before the first keyframe and at every keyframe, the outline of that keyframe, and after the last the outline that one ends with; while a keyframe is held its outline stays; between two keyframes every vertex and tangent moves along the straight line from one outline to the next, following the easing curve of the first keyframe.", "quantifier": "all imported paths and masks with keyframes in order, all frames, vertices and tangents up to 2^20, outlines with different numbers of vertices included", "why_tests_cant": "Any number of keyframes, vertices and handles; the two outlines may differ in length.", "anchors": ["src/runtime/model/animated.rs: Spline::evaluate", "src/import/converters.rs: conv_shape_geometry", "src/runtime/model/spline.rs"]}
{"id": "C84", "title": "A gradient that changes follows the easing of its keyframes, stop by stop", "statement": "A gradient with keyframes has as many stops as its document says; before the first keyframe and after the last they are the stops of that keyframe, and between two keyframes the offset, red, green, blue and opacity of every stop follow the easing curve of the first keyframe from its value at one to its value at the other.", "quantifier": "all imported gradient fills and strokes with keyframes in order that are not held there (held: C26), all numbers of stops, frames and handles in ordinary ranges", "why_tests_cant": "Any number of stops and keyframes; colours and opacities are kept in separate lists of the document and merged at import.", "anchors": ["src/runtime/model/value.rs: ColorStops::evaluate", "src/import/converters.rs: conv_gradient_colors, conv_stops"]}
{"id": "C85", "title": "The figures and the bars of the viewer's statistics are right", "statement": "The average frame time shown is the sum of the last (up to 100) frame times divided by their number, the frame rate is its reciprocal, and the shortest and longest times are the least and greatest since the last reset, each in milliseconds to one part in 10^12; the bars of the graph are the frame times, oldest first, in proportion to a common scale and cut off at the top, and that scale is the longest time unless it is more than three times the average, and then a multiple of 5 ms about a third above the average.", "quantifier": "all sequences of frame times and resets (times below 2^46 microseconds, an average of at least 1 ms for the bars)", "why_tests_cant": "Any number of frames and resets, with the window sliding; sums and quotients of floating-point numbers.", "anchors": ["examples/with_winit/src/stats.rs: Stats::add_sample, Stats::snapshot, Snapshot::draw_layer"]}
{"id": "C86", "title": "The centre, the drag, the zoom and the stretch of a touch gesture are those of the fingers", "statement": "The centre a gesture reports is the mean of the positions of the fingers that are down; while they only move, the translation between two frames is the movement of that centre, the zoom is the quotient of the mean distances of the fingers from it, and the two-dimensional zoom is the quotient of the mean distances along one axis only if the gesture began with two fingers side by side (by more than three to one) or one above the other, and the plain zoom along both axes otherwise.", "quantifier": "all histories of touches of up to 32 fingers at coordinates up to 2^20 and of frames", "why_tests_cant": "Any order of touches, moves, lifts and frames; the kind of gesture depends on how it began.", "anchors": ["examples/with_winit/src/multi_touch.rs: TouchState::end_frame, TouchState::info, TouchState::update_gesture, TouchState::calc_dynamic_state, PinchType::classify"]}
{"id": "C87", "title": "The view follows the pointer, the wheel, the keys and the fingers", "statement": "In the viewer, moving the pointer with the button held moves the picture by what the pointer moved; turning the wheel enlarges it 1.05-fold per notch about the pointer; q and e turn it by a twentieth of a radian about the pointer; a touch gesture turns and enlarges it about the centre of the fingers and moves it by their translation; space puts it back; and nothing else moves it.", "quantifier": "all histories of events, all views with entries up to 64 and translations up to 65536, all points of the picture up to 8192, to a thousandth of a pixel", "why_tests_cant": "Any history; products of matrices of floating-point numbers.", "anchors": ["examples/with_winit/src/lib.rs: run (CursorMoved, MouseWheel, KeyboardInput, AboutToWait)"]}
{"id": "C88", "title": "Keys of the viewer switch what they say, every time", "statement": "In the viewer, the statistics are shown at first and each press of s switches them; the complexity is not shown at first and each press of d switches it; vertical synchronisation is on at first and each press of v switches it; arrow up and down change the complexity by one, not below zero; the window is open until escape is pressed or it is closed; and nothing else changes any of these.", "quantifier": "all histories of events", "why_tests_cant": "Any number of presses in any order among other events.", "anchors": ["examples/with_winit/src/lib.rs: run (KeyboardInput, CloseRequested)"]}
{"id": "C89", "title": "The layer under the pointer is the upper-most one whose box is there on screen", "statement": "The scene is fitted into the window touching it in one direction and not exceeding it in the other; the box of a layer bounds the image of what was drawn, tightly; and the layer reported under the pointer is the upper-most one whose box contains the point of the scene that is shown, to a thousandth of a pixel, where the pointer is, and none is reported only if no box contains it; that layer, and no other, is drawn bright and named at the pointer, and every layer is marked with its box and its name.", "quantifier": "all compositions, frames, windows, cameras of ordinary sizes that do not flatten the scene, and pointers", "why_tests_cant": "Any number of layers; inverse of a floating-point matrix.", "anchors": ["examples/scenes/src/picking.rs: PickingState, cursor_to_scene, transform_rect_bbox", "examples/with_winit/src/lib.rs: run (RedrawRequested)"]}
{"id": "C90", "title": "The viewer offers the scenes it is given, in an order that does not depend on the system", "statement": "For paths on the command line the viewer offers one scene for each file, named like the file without its ending, and for each directory one for every entry with the ending .json, in the order of their names regardless of case; nothing is offered if any of them cannot be read; and the order does not depend on the order in which the system lists a directory.", "quantifier": "all file systems, lists of paths and contents of directories", "why_tests_cant": "Any number of paths and entries, read in an order the program does not control.", "anchors": ["examples/scenes/src/lottie.rs: scene_from_files, scene_from_files_inner, example_scene_of"]}
{"id": "C91", "title": "Text is set glyph by glyph, line by line", "statement": "Every character of a text that is not a new line is drawn as one glyph, in order; it is as far right as the characters before it in its line are wide together and as far down as the lines before it are high together, to one part in 2^23 per summand, and every line starts exactly at the left.", "quantifier": "all texts with lines of up to 2^20 characters and up to 2^20 lines, all fonts with advances and line heights up to 2^20", "why_tests_cant": "Any number of characters and lines; sums of 32-bit floating-point numbers.", "anchors": ["examples/scenes/src/simple_text.rs: RobotoText::add_var_run"]}
{"id": "C92", "title": "A fill or stroke paints nothing of another group, and what it misses is what went to an undrawn path in front", "statement": "Every fill or stroke of a layer is painted once, back to front, with the geometry in front of it in its own group and in the groups there, placed by the groups around; it misses exactly the geometry at the start of its group that continues a path in front of the group which is not drawn yet and is placed equally, and it paints nothing else.", "quantifier": "all trees of groups, geometry, fills and strokes without repeaters and trims, at all frames and transforms", "why_tests_cant": "Any depth and order of groups, geometry and draws, with transforms that happen to be equal or not.", "anchors": ["src/runtime/render.rs: Renderer::render_shapes, Batch::push_geometry, Batch::push_draw"]}
{"id": "C93", "title": "The picture stays under the fingers", "statement": "When one or two fingers that do not navigate move, and none is put down or lifted, the viewer moves, enlarges and turns the picture so that what was under each finger stays under it.", "quantifier": "all histories of the viewer, all positions of one or two fingers on the screen, before and after, and all ordinary views", "why_tests_cant": "Positions, distances and turns are real quantities, and the view is the result of any history before.", "anchors": ["examples/with_winit/src/lib.rs: run (AboutToWait, Touch)", "examples/with_winit/src/multi_touch.rs: TouchState::info, end_frame"]}
{"id": "C94", "title": "Copy i of a repeater is offset + i steps from the original, and as opaque as its share", "statement": "A repeater with n copies paints what is in front of it in its group at n places and nowhere else: copy i (0 to n - 1) is turned by offset + i times the rotation and stretched by the (offset + i)-th power of the scale, about the anchor, and moved by offset + i times the position, all before the placement of the group; and it is painted with the opacity of the fill or stroke times a share that goes from the start opacity in steps of 1/n of the difference to the end opacity.", "quantifier": "all shapes in front of the repeater, all frames, opacities and placements of ordinary size; up to 100 steps away, scales from 25 to 400 percent with powers up to 4, to a thousandth of a pixel and 10^-10 of opacity", "why_tests_cant": "Positions are real quantities reached through powers, sines and products of floating-point matrices, for any number of copies.", "anchors": ["src/runtime/model/fixed.rs: Repeater::transform", "src/runtime/render.rs: Batch::repeat"]}
{"id": "C95", "title": "Every download has a file of its own, and the viewer offers it under its name", "statement": "A download named n is stored as n.json in the download directory; downloads with different names are stored in different files; and the viewer, given the directory, offers what was downloaded under the name n. The default downloads are 344 files of this kind.", "quantifier": "all names, addresses and directories; all servers, file systems and orders of listing a directory", "why_tests_cant": "Any name or address a user types; any order in which the system lists the files.", "anchors": ["examples/scenes/src/download.rs: LottieDownload::file_path, Download::action, parse_download", "examples/scenes/src/download/default_downloads.rs: default_downloads", "examples/scenes/src/lottie.rs: scene_from_files"]}
{"id": "C96", "title": "A document of coloured rectangles and ellipses is painted as it reads, from the JSON to the scene", "statement": "A JSON document whose shape layers hold rectangles and ellipses, each in a group with a colour, an opacity and a transform, is accepted, and drawn into a scene it gives exactly: a clip to the size of the document, one fill per figure of each layer on show, lowest first, and the end of the clip. Each fill has the colour and outline the document gives, is placed by the transforms of its group, its layer and the view, and is faded by the product of the opacities.", "quantifier": "all such documents, of any number of layers and figures and any numbers in them; all frames, views, opacities and used renderers", "why_tests_cant": "Documents, frames and views are unbounded; the path from JSON to scene crosses parsing, import, batching and the sink.", "anchors": ["src/runtime/mod.rs: Composition::from_json", "src/import/mod.rs: import_composition", "src/import/converters.rs: conv_shape_group, conv_transform, conv_draw, conv_geometry", "src/runtime/render.rs: Renderer::append, Renderer::render_layer", "src/runtime/vello.rs: render_to_vello_scene"]}
{"id": "C97", "title": "Every frame of every document is painted by the rules of the format, whatever its shapes are", "statement": "A frame consists of the layers on show, lowest first, each in its place, with its opacity, inside its masks and matte, at the time of its precomposition. Inside a shape layer without trims each draw paints the geometry in front of it in its group (except for what continues an undrawn path in front of the group), the first draw on top. Up to the distribution of outlines over calls this determines what is painted.", "quantifier": "all compositions and all supported documents without self-references; all frames, views, opacities and used renderers", "why_tests_cant": "Layer trees of any depth, shape trees of any depth, any times.", "anchors": ["src/runtime/render.rs: Renderer::append, Renderer::render_layer, Renderer::render_shapes", "src/import/mod.rs: import_composition"]}
{"id": "C98", "title": "The statistics panel shows the figures and the bars where they belong", "statement": "The panel is a box in the lower right corner of the window, two fifths of its width but between 200 and 600 pixels, seven tenths as high as wide; it is inside the window exactly if that is at least 200 wide and seven tenths of the panel's width high. Its upper half holds one line of text per figure, evenly spaced, and the frame rate; its lower half one bar for each of the last hundred frames, oldest first, standing on the window's lower edge, side by side, as high as the frame's share of the scale and coloured by its time, and a line with its time for each of 8.33, 16.66 and 33.33 ms below the scale. A bar reaches a line exactly if the frame took that long.", "quantifier": "all histories of samples and resets, all windows up to 65536 pixels, with and without memory figures", "why_tests_cant": "All window sizes, all histories, rounding in every coordinate.", "anchors": ["examples/with_winit/src/stats.rs: Snapshot::draw_layer", "examples/with_winit/src/lib.rs: run"]}
{"id": "C99", "title": "The statistics panel in a session of the viewer", "statement": "Every frame carries the statistics panel unless its key was pressed an odd number of times; the panel tells of the frames before, with memory figures only if their key was pressed an odd number of times and the kind of antialiasing and synchronisation chosen by then. Drawing the panel changes nothing else, and it never crashes the viewer.", "quantifier": "all event histories (shorter than 2^31), all numbers of scenes, all window sizes up to 65536", "why_tests_cant": "All histories of events and frame times.", "anchors": ["examples/with_winit/src/lib.rs: run", "examples/with_winit/src/stats.rs: Snapshot::draw_layer"]}
{"id": "C100", "title": "A document of moving shapes shows, at every frame, the shapes as they are at that moment", "statement": "A document of layers with coloured rectangles and ellipses, of which position, anchor, scale, rotation, opacity, centre and size may each have any number of keyframes, is read from its JSON, imported and painted without failure at every frame. The scene of a frame is that of C96 for the values of that moment: each value is the first one before its keyframes, the last one after them, and between two of them held or where the easing curve says; layers appear and disappear at their times. On the screen every shape is where these values put it, to a hundredth of a pixel.", "quantifier": "all such documents with any number of layers, shapes and keyframes in order (times and values below 2^20, handles at most 4 and 16); all frames, fractional ones included; all views and opacities; all renderers that were used before", "why_tests_cant": "All documents, keyframes and frames; the chain from the JSON over import and interpolation to the scene.", "anchors": ["src/import/converters.rs: conv_animation, conv_keyframes, conv_scalar, conv_pos", "src/runtime/model/value.rs: Value::evaluate, Animated, Easing, Tween", "src/runtime/render.rs: Renderer::append", "src/schema: Animation, AnimatedProperty, Keyframe"]}
{"id": "C101", "title": "A document's text is read as the JSON it stands for", "statement": "Composition::from_str (and from_slice on UTF-8) accepts only texts that follow JSON's grammar with at most 127 levels, and reads such a text as the value it stands for: whatever white space lies between the tokens, however the characters of strings are escaped (also pairs of surrogates), whatever the order of the members. Whole numbers that fit 64 bits and numbers of up to 53 binary digits with a power of ten up to 22 are read exactly as the closest double; other numbers of up to 19 digits to within 2^-51 of their size, and not always as the closest double. A member of the document that occurs twice is an error; in layers and assets the last one counts.", "quantifier": "every text, of any length; every value up to 127 levels; every number", "why_tests_cant": "Tests read some files; texts, escapes and numbers are without end, and a reader that goes wrong for one of them goes wrong silently.", "anchors": ["src/runtime/mod.rs: Composition::from_str, Composition::from_slice", "src/schema/animation/animation.rs: Animation::from_slice, FromStr for Animation"]}
{"id": "C102", "title": "A document written as text is read back as the same document", "statement": "The text that Display writes of a document that was read (with a width or height for every image) is accepted by from_str and gives the same composition; in no object of the text is a name written twice.", "quantifier": "every document that can be read, of any size and depth; every double; every way of writing doubles as decimal numbers to which they are the closest double", "why_tests_cant": "A test writes some documents; whether every string, number and nesting survives is a statement about all of them, and fails for some.", "anchors": ["src/schema/animation/animation.rs: Display for Animation, FromStr for Animation", "src/runtime/mod.rs: Composition::from_str"]}
{"id": "C103", "title": "The order of the members of an object does not matter", "statement": "Two documents, as JSON values or as texts, that differ only in the order of the members of their objects, at any depth, are either both rejected or both read, as the same composition; as long as no object has two members of the same name (then the last one counts, in a layer).", "quantifier": "every document of any size and depth, accepted or not; every reordering of the members of any of its objects", "why_tests_cant": "Exporters write members in their own order, and serde handles tagged, untagged and flattened types differently; tests read files in the order they happen to have.", "anchors": ["src/schema/animation/animation.rs: Animation", "src/schema/layers/mod.rs: AnyLayer", "src/schema/shapes/mod.rs: AnyShape", "src/schema/assets/mod.rs: AnyAsset", "src/runtime/mod.rs: Composition::from_str"]}
{"id": "C104", "title": "From the text of a file to every frame", "statement": "A text that is a file of a film (layers of ellipses and rectangles with solid fills, whose placement, size, opacity and transforms may be keyframed with easing and holds), however its white space, its escapes, the order of its members and its numbers (100 or 100.0) are written and whatever members with unknown names it has, is accepted by from_str, and every frame is drawn as the picture with the values of that moment; all files of a film give the same composition.", "quantifier": "every such film with any number of layers, shapes and keyframes; every text of it; every frame, view and opacity; every renderer that was used before", "why_tests_cant": "It joins the parser, the schema, the import, the interpolation and the renderer for all films and all their texts; a test has one file and some frames.", "anchors": ["src/runtime/mod.rs: Composition::from_str", "src/import/mod.rs: conv_animation", "src/runtime/render.rs: Renderer::render"]}
{"id": "C105", "title": "A hard edge in the opacity of a gradient", "statement": "Two opacity stops at one offset make a hard edge: a colour stop before it is imported with the opacity of the first, a colour stop behind it with that of the second.", "quantifier": "all gradients with fixed colours, any number of colour and opacity stops", "why_tests_cant": "The two may be anywhere in a list of any length, and so may the colour stops.", "anchors": ["src/import/converters.rs: conv_stops, normalize_to_range"]}
{"id": "C106", "title": "A position given coordinate by coordinate is the same position", "statement": "A layer whose position is written as two coordinates, each fixed or with keyframes, can be imported exactly when it can with the position written as pairs that say the same; its opacity is then the same and its transform is the same in every frame.", "quantifier": "all layer transforms, any number of keyframes with any times, values, holds and easing, every frame", "why_tests_cant": "The two forms are read by different code (one with index arithmetic over handles, one that may panic) and must agree for all keyframe lists and all frames between them.", "anchors": ["src/import/converters.rs: conv_transform, conv_scalar, conv_keyframes", "src/runtime/model/animated.rs: Position, Transform::evaluate"]}
{"id": "C107", "title": "A keyframe with one handle is eased by it", "statement": "A keyframe that gives only one of its two handles is eased by that one, and by the handle of a steady pace in place of the missing one.", "quantifier": "all numbers, positions, points, sizes, scales and colours with any number of keyframes, every frame", "why_tests_cant": "Any keyframe in a list of any length may lack either handle; numbers and vectors are imported by different code.", "anchors": ["src/import/converters.rs: conv_keyframes, conv_scalar", "src/runtime/model/value.rs: Time::frames_and_weight"]}
