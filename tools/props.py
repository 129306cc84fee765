import json
P=[]
def p(id,title,statement,quant,why,anchors):
    P.append(dict(id=id,title=title,statement=statement,quantifier=quant,why_tests_cant=why,anchors=anchors))
R="src/runtime/render.rs"; V="src/runtime/model/value.rs"; A="src/runtime/model/animated.rs"; F="src/runtime/model/fixed.rs"; S="src/runtime/model/spline.rs"; M="src/runtime/model/mod.rs"; C="src/import/converters.rs"; B="src/import/builders.rs"; D="src/import/defaults.rs"

p("C01","Sink calls are balanced and properly nested",
 "Whenever Renderer::append returns, the sequence of calls it made on the RenderSink is a well-nested bracket word: every push_layer/push_clip_layer is closed by exactly one pop_layer, every begin_layer_group by exactly one end_layer_group, the two kinds never interleave, the first call clips to the rectangle (0,0,width,height) under the caller's transform and the last call pops exactly that clip.",
 "every composition (any layer tree, mattes, masks, precomps), frame, transform, alpha, and every prior renderer state",
 "the number and nesting of brackets depends on arbitrary recursion through mattes, precomps and masks; tests only see a few files",
 [R+": Renderer::append, Renderer::render_layer"])
p("C02","Re-using a renderer is invisible",
 "The sink calls made by append depend only on (composition, frame, transform, alpha): after any sequence of earlier completed appends of any compositions, a renderer produces exactly what a freshly created Renderer produces, and an append that panics or diverges does so for both.",
 "every finite history of completed appends followed by every append",
 "state left behind (batch buffers, mask buffer) after unusual histories",
 [R+": Renderer (batch, mask_elements), Batch::clear, Renderer::append"])
p("C03","A renderer survives a sink that panics",
 "If a RenderSink call panics during append and the caller catches the unwind, a later append on the same Renderer still produces exactly what a fresh Renderer produces.",
 "every crash point (each sink call of each append) in every history",
 "every crash point of every composition",
 [R+": Renderer::append, Renderer::render_layer (mask_elements)"])
p("C04","Layers are visible exactly in the half-open frame window",
 "A layer evaluated at frame f makes sink calls iff in <= f < out; outside the window (and for a NaN frame) it makes none, whether it is a top-level layer, a matte source or a precomp child.",
 "every layer, composition and frame incl. NaN/infinities",
 "all frames and all nesting positions",
 [R+": render_layer (layer.frames.contains)"])
p("C05","Layers are painted back to front, each once, matte sources skipped",
 "The calls of append are: the clip, then for the top-level layers from the last in the array to the first, skipping layers flagged as matte sources, that layer's own calls, then the pop. The begin_layer_group calls at nesting depth one carry exactly the names and array positions of the active non-matte layers in that order.",
 "every composition and frame","order must hold for every length of layer list and every activity pattern",
 [R+": Renderer::append"])
p("C06","Matte bracketing",
 "A layer with a matte is drawn as: isolate group (normal blend, full composition rect, parent transform), the matte source layer's calls rendered under the parent transform and the inherited alpha, then a group with the matte's blend mode, then the layer's content, then both groups are popped. A matte index outside the layer list contributes no calls but keeps the groups.",
 "every layer set, every matte index (in or out of range), every frame","every shape of layer set",
 [R+": render_layer (mask_layer)"])
p("C07","Masks clip exactly with their own geometry",
 "Each mask of a layer yields one clip, in list order, whose path is precisely that mask's geometry at the current frame (no elements from other masks or previous renders) under the layer's transform, and all are popped after the content.",
 "every list of masks, every frame, every renderer history","buffer reuse between masks",
 [R+": render_layer (masks, mask_elements)"])
p("C08","Layer transform is the product of the whole parent chain",
 "For a layer whose parent chain is acyclic, the transform used is caller transform * root ancestor * ... * parent * own, each evaluated at the frame, with no ancestor dropped or repeated; the chain stops at a missing parent index.",
 "every layer set with acyclic parent chains of any length","chains of any length incl. exactly as long as the layer set",
 [R+": Renderer::compute_transform"])
p("C09","Parent cycles cannot hang the renderer",
 "Transform evaluation terminates for every parent graph, including self-parents and cycles, applying at most as many ancestors as there are layers in the set.",
 "every parent function on every layer set","all cyclic graphs",
 [R+": Renderer::compute_transform"])
p("C10","append terminates on acyclic reference graphs",
 "If no layer (transitively) refers to itself through mattes or precomp instances, append returns; the result does not depend on recursion budget.",
 "every composition with an acyclic matte/precomp reference graph, every frame","termination cannot be tested",
 [R+": render_layer"])
p("C11","append terminates on every imported file",
 "For every animation the importer accepts, append returns for every frame.",
 "every importable animation and frame","termination over all inputs",
 [R+": render_layer", C+": process_layers"])
p("C12","Files without explicit matte targets and precomps always terminate",
 "An imported animation in which no layer uses an explicit matte index (tp) and no layer instances a precomp renders in finitely many steps at every frame; implicit mattes always point to an earlier layer.",
 "every such animation, every frame","termination",
 [C+": process_layers", R+": render_layer"])
p("C13","Rendering never indexes out of bounds",
 "Rendering any shape tree (arbitrarily nested groups, draws, repeaters, trims in any order), including user-constructed ones, never panics by out-of-range slicing or integer underflow, provided path data starts with a move-to and star point counts are below the allocation limit.",
 "every shape tree, frame, transform","ranges are rewritten by groups, repeaters and trims in arbitrary interleavings",
 [R+": Batch::{push_geometry,push_draw,repeat,apply_trim,render}, render_shapes"])
p("C14","A fill or stroke paints exactly the geometry above it in its group",
 "Every draw paints, under each geometry's accumulated transform, exactly the geometry elements that precede it in its own group (including those in nested groups), in order; geometry outside the group is not painted by it and none of its own geometry is lost.",
 "every shape tree without repeaters/trims, every frame","merging of adjacent geometries depends on transforms and history",
 [R+": Batch::push_geometry, push_draw, render, render_shapes"])
p("C15","Draws are emitted in reverse document order",
 "Within a shape layer the draw calls are emitted so that an element earlier in the document is painted later (on top).",
 "every shape tree","all trees",[R+": Batch::render"])
p("C16","Opacity is the product along the ancestry",
 "The alpha a draw is painted with is caller alpha * layer opacity/100 * (each enclosing group's opacity/100) * draw opacity/100 * (repeater alphas); if that product is exactly 1.0 the brush is passed unchanged, otherwise it is multiplied by it (as f32).",
 "every composition, nesting and frame","all nestings",
 [R+": render_layer, render_shapes, DrawData::new, Batch::render"])
p("C17","Repeater copies",
 "A repeater with n copies replaces the group's geometry by n transformed copies and paints each copy once with its own interpolated opacity; with n = 0 nothing of the group so far is painted; everything outside the group is untouched.",
 "every n, group content and surroundings","all n and contents",
 [R+": Batch::repeat", F+": Repeater::transform"])
p("C18","A trim only affects its own group",
 "Applying a trim leaves the path, the transform and the number of all geometry collected before the group unchanged, and keeps every draw's geometry selection.",
 "every batch state reachable by rendering, every trim","offset rewriting over all states",
 [R+": Batch::apply_trim"])
p("C19","Trimmed-away geometry stays trimmed",
 "If a trim removes the whole path (start = end), the geometry it applied to contributes no path elements to anything painted; a 0-100% trim changes nothing.",
 "every shape list with a trim at any position","interleavings of trims, geometry and draws",
 [R+": Batch::apply_trim, push_geometry"])
p("C20","Trim normalisation yields valid fractions",
 "For finite start, end, offset, the normalised trim is absent iff |end-start| is below 1e-9, symmetric in start/end, and otherwise consists of one or two ranges inside [0,1] with lower <= upper, the second present only as a wrap-around starting at 0 while the first ends at 1, and not overlapping the first.",
 "all finite f64 triples","all doubles",[F+": Trim::normalized"])
p("C21","Precomp time mapping and missing assets",
 "A precomp instance renders the referenced asset's layers last-to-first at frame f/stretch + (-start/stretch) with the instance's transform and alpha; an unknown asset id renders an empty layer and nothing else changes.",
 "every composition, instance and frame","nesting",
 [R+": render_layer (Content::Instance)"])
p("C22","Unsupported fields have no effect on rendering",
 "time_remap, layer blend_mode, mask mode, mask opacity, layer width/height and the matte-index name do not influence any sink call.",
 "all values of those fields","all values",[R+": render_layer"])
p("C23","Keyframe bracket selection",
 "For strictly increasing keyframe times and any frame, the two selected keyframes are the ones surrounding the frame (clamped at both ends) and the weight lies in [0,1].",
 "all lengths, all increasing finite times, all finite frames","all arrays",
 [V+": Time::frames_and_weight"])
p("C24","Interpolation is exact at keyframes",
 "Evaluating an animated value at the time of keyframe i yields exactly the i-th value (at the last keyframe: a numerically equal value, given finite components and easing handles of moderate size).",
 "all animated values with strictly increasing finite times","all arrays and all i incl. first and last",
 [V+": Animated::evaluate_inner, Tween"])
p("C25","Values are clamped outside the keyframe range",
 "Before the first keyframe the first value, after the last keyframe the last value is returned, exactly.",
 "all animated values, all frames outside the range","all doubles",
 [V+": frames_and_weight, evaluate_inner"])
p("C26","Hold keyframes hold",
 "From a hold keyframe's time until just before the next keyframe the evaluated value is exactly that keyframe's value (for scalars, points, sizes, colours, splines and gradients).",
 "all animated values, all frames in the segment","all frames",
 [V+": evaluate_inner", A+": ColorStops::evaluate_inner, Spline::evaluate"])
p("C27","An animated value always has a value",
 "Values produced by the importer with at least one keyframe never fall back to the type's default: times and values have the same length, and evaluation returns an interpolation of two of its values.",
 "all imported properties and frames","all keyframe arrays",
 [C+": conv_scalar, conv_keyframes", V+": evaluate_inner"])
p("C28","Collapsing unanimated properties does not change the picture",
 "For every transform, stroke, brush, repeater, trim and star, converting to the model representation (which precomputes non-animated values at frame 0) evaluates at every frame to the same result as the original (brushes at the opacity 1.0 the renderer passes).",
 "all property values, all frames","all frames and values",
 [A+": into_model (Transform, Stroke, Brush, Repeater, Trim, Star)", M+": evaluate"])
p("C29","Animated paths stay finite",
 "If all keyframe points and times of an animated path are finite (and moderately sized), the path evaluated at any finite frame contains only finite points.",
 "all splines, all frames","a single exceptional frame suffices to break it",
 [A+": Spline::evaluate", V+": frames_and_weight", S])
p("C30","Spline conversion is total and passes through its vertices",
 "Converting n>=1 vertices (each vertex, in-tangent, out-tangent) yields a move-to at vertex 0, one segment ending at each following vertex, plus (if closed) one segment back to vertex 0 and a close; it never indexes out of range; a segment is a line iff both its control points coincide with its end points.",
 "all point arrays incl. lengths that are not multiples of three, mismatched keyframe lengths","all lengths",
 [S+": SplineToPath::to_path", C+": conv_spline"])
p("C31","Gradient stop count",
 "Evaluating an animated gradient yields either exactly the declared number of stops or none at all; it never panics.",
 "all keyframe data and counts","all lengths",[A+": ColorStops::evaluate"])
p("C32","Tween endpoints",
 "For scalars, points, vectors, sizes and colours, tweening with weight <= 0 gives exactly the first value and with weight >= 1 exactly the second, whatever the easing.",
 "all values, weights and easings","all doubles",[V+": Tween impls"])
p("C33","Polystar outline structure",
 "An n-point polygon (star) evaluates to a closed outline that starts with a move-to, has one segment per following vertex (n resp. 2n vertices) and ends with a close; zero or negative or NaN point counts give an empty path; existing path content is preserved.",
 "all animated polystars and frames","all n",[A+": Star::evaluate"])
p("C34","Import preserves the layer list",
 "The imported layer list has one entry per source layer, in source order, with the source's name and frame window.",
 "all animations","all lists",[C+": process_layers, conv_layer", B])
p("C35","Parent references resolve within their composition",
 "A layer's imported parent is the position of the (last) layer in the same composition whose index equals the source's parent id, or none if there is no such layer; it is always a valid position, and never depends on other compositions or assets.",
 "all animations","all id assignments incl. duplicates",[C+": process_layers (idmap)"])
p("C36","Matte references resolve correctly",
 "A layer gets a matte iff its source has a matte mode and a source is found: the explicit target id resolved in the same composition, otherwise the nearest preceding visible matte-source layer not already followed by a matte consumer. The index is always a valid position and the blend mode is source-in for alpha/luma, source-out for inverted, normal for mode 0.",
 "all layer lists","all lists",[C+": process_layers", B+": matte_mode mapping"])
p("C37","Hidden layers keep their transform but draw nothing",
 "A hidden source layer is imported with empty content and not as a matte source, while its transform, parent and position are as if visible.",
 "all layers","all layers",[C+": conv_layer, is_layer_hidden"])
p("C38","Import succeeds exactly on supported animations",
 "Importing a parsed animation either returns a composition or panics; it panics exactly when the animation contains an image asset, a layer with absent or split rotation, a layer with blend mode add/hard-mix, a group with split rotation or split position, an animated scalar keyframe without value, a scalar/gradient/shape keyframe handle that is an array of length other than one, or an oversized fixed star.",
 "all parsed animations","exact set of rejected inputs",
 [C+": conv_animation, conv_transform, conv_shape_transform, conv_keyframe_handle, conv_scalar", B])
p("C39","Shape conversion preserves order and structure",
 "Shapes are converted in order; unsupported shapes and groups without convertible content disappear; a group's transform is its last transform item; nothing else is added, dropped or reordered.",
 "all shape trees","all trees",[C+": conv_shape, conv_layer"])
p("C40","Bezier import is faithful",
 "A bezier with n vertices becomes 3n points (vertex, in-tangent, out-tangent), missing tangents are zero, surplus ones ignored.",
 "all beziers","all lengths",[C+": conv_spline"])
p("C41","Omitted transform parts mean identity",
 "Omitting anchor, scale, skew or opacity in a layer or group transform is the same as anchor 0, scale 100%, skew 0, opacity 100%.",
 "all transforms","The set of transforms with omitted parts is unbounded; a sample cannot show that every omission is neutral.",[C+": conv_transform, conv_shape_transform", D+": MULTIDIM_ONE"])
p("C42","Gradient stop import",
 "The imported number of colour stops is min(count, available quadruples) (for count >= 1), colours and offsets are taken unchanged, alpha never exceeds 1 and is 1 when there is no opacity data.",
 "all raw arrays and counts","all lengths",[C+": conv_stops"])
p("C43","A gradient stop placed on an opacity stop takes that opacity",
 "If a colour stop's offset equals the offset of an opacity stop then its imported alpha is that opacity.",
 "all gradients","Gradients have any number of colour and opacity stops at any offsets.",[C+": conv_stops"])
p("C44","Hidden shapes are not painted",
 "A shape element marked hidden contributes nothing to the rendering.",
 "all shapes","Shapes nest to any depth and any subset may be hidden.",[C+": conv_shape", "src/schema/shapes/graphic_element.rs"])
p("C45","Layer JSON dispatch",
 "A layer object deserialises into the variant named by its integer ty (0 precomp, 1 solid, 2 image, 3 null, 4 shape) and any other or missing ty is an error.",
 "all JSON values","all JSON",["src/schema/layers/mod.rs: Deserialize for AnyLayer"])
p("C46","Validated shape keyframes cannot break import",
 "Any animated path accepted by the deserialiser (every keyframe but the last has a start, a sole keyframe has one) is imported without integer underflow, and is imported to a spline with one value per keyframe whenever its start/end arrays are non-empty.",
 "all keyframe arrays","all lengths",["src/schema/animated_properties/shape_property.rs: deserialize_keyframes", C+": conv_shape_geometry"])
p("C47","Integer-coded enums round-trip",
 "Every integer-coded constant (BoolInt, blend mode, matte mode, line cap/join, fill rule, gradient type, star type, merge mode, ...) decodes exactly from the documented codes and decode(encode(x)) = x.",
 "all codes","The decoder must reject every other JSON value, an infinite set.",["src/schema/constants/*.rs","src/schema/helpers/int_boolean.rs"])
p("C48","Schema round-trip",
 "Deserialising (Animation::from_json of a serde_json::Value) what serde_json::to_value gives for any schema value that was deserialised yields the same value.",
 "all JSON documents accepted by the schema","all documents",["src/schema/**"])
p("C49","Vello adapter",
 "Rendering into a vello scene issues exactly one scene operation per push, clip, pop and draw call (and none for group markers), in order, a stroke when a stroke style is given and a fill otherwise, with the same transform, blend, alpha, brush and geometry; pushes and pops on the scene therefore balance.",
 "all compositions, frames, transforms and alphas","The set of call sequences a composition can produce is unbounded.",["src/runtime/vello.rs: RenderSink for vello::Scene","src/runtime/render.rs: Renderer::append"])
p("C53","Layer lists are imported independently",
 "What a layer list (main composition or precomp asset) becomes depends on that list alone: not on other assets, on the document's size or frame range, or on where the list is used.",
 "all pairs of documents that contain the same layer list","Pairs of documents are unbounded, and layer ids may clash across compositions in any pattern.",[C+": conv_animation, process_layers"])
p("C54","Layer properties are imported unchanged",
 "Every imported layer has the transform, opacity, blend mode, masks and (if visible) content its source describes, property by property, keyframe by keyframe.",
 "all documents and all layers in them","Every property may be static or animated with any number of keyframes.",[C+": conv_layer, setup_layer_base, conv_transform, conv_mask"])
p("C50","Properties follow their keyframes",
 "Over time, every transform, opacity, colour, stroke width, trim, mask opacity and time remap of an imported document has the value its keyframes describe: constant before the first and after the last keyframe, exactly the keyframe's value at a keyframe, held or eased with the keyframe's handles in between.",
 "all documents, all properties, all finite frames (keyframes in order)","Keyframe lists have any length and frames are arbitrary floating-point numbers.",[C+": conv_scalar, conv_keyframe, conv_transform, conv_shape", "src/runtime/model/value.rs: Time::frames_and_weight"])
p("C51","Each component is eased by its own handles",
 "If the handles of a keyframe of a two-component property are arrays then component i of the value is eased with entry i of the arrays.",
 "all keyframed vector properties and frames","Keyframe lists have any length and frames are arbitrary floating-point numbers.",[C+": keyframes conversion of multi-dimensional properties"])
p("C52","Style opacity is honoured",
 "A fill or stroke (solid or gradient) is painted with the opacity its style gives.",
 "all fills and strokes","The opacity may be animated with any keyframes.",[C+": conv_draw"])
p("C55","Transforms scale about the anchor, then skew, rotate and move",
 "The matrix of a layer or group at a frame is the product translate(position) rotate skew scale/100 translate(-anchor) of the property values at that frame; without rotation and skew a point x goes to s*x + (p - s*a) with one rounding per operation.",
 "all transforms and frames","Values are arbitrary floating-point numbers and may be animated.",["src/runtime/model/animated.rs: Transform::evaluate", C+": conv_transform"])
p("C56","Rectangles, ellipses and gradients are placed by their properties",
 "A rectangle is centred on its position, an ellipse has radii of half its size, a linear gradient runs from start to end point and a radial one is centred on the start point and reaches to the end point, at every frame with the property values of that frame.",
 "all such shapes and frames","Properties may be animated with any keyframes.",["src/runtime/model/animated.rs: Rect, Ellipse, Gradient", C+": conv_geometry, conv_gradient"])
p("C57","Only documented fields matter",
 "Two documents that agree on the fields velato supports (up to omitted defaults and unsupported shapes) are imported to the same composition, and one is importable iff the other is.",
 "all pairs of documents","Pairs of documents are unbounded.",[C+": conv_animation"])
p("C58","Unknown members are ignored",
 "Adding members whose names velato does not know to any objects of a document, at any depth, changes neither whether the document is accepted nor the composition it is imported to.",
 "all documents, all added names, values and places","Any subset of objects can carry extra members with arbitrary nested values.",["src/schema: derived Deserialize implementations","src/runtime/mod.rs: Composition::from_json"])
p("C59","A null member is the same as an absent one",
 "Adding a member with the value null to an object that lacks it changes neither whether the document is accepted nor what it is imported to.",
 "all documents, all members and places","Every member of every object at every depth.",["src/schema: derived Deserialize implementations","src/schema/assets/mod.rs","src/runtime/mod.rs: Composition::from_json"])
p("C60","Layer styles are read from their members and survive writing",
 "Each layer style type (base, colour overlay, gradient overlay, outer glow, satin) needs a style type code from 0 to 8, reads each field from its Lottie member (absent or null means none), and a style that was read is read back unchanged from what it is written to.",
 "all JSON values","all JSON values and all combinations of optional members",["src/schema/styles: LayerStyle, ColorOverlayStyle, GradientOverlayStyle, OuterGlowStyle, SatinStyle, StyleType"])
p("C61","Every field is read from its Lottie member",
 "For every type of the schema, an object is accepted exactly if each required member is present and readable and each optional member is absent, null or readable; each field is then the value of the member with its Lottie name, and nothing else of the object matters.",
 "all JSON values, for every schema type","Every combination of present, absent, null and ill-typed members of every object.",["src/schema: all Deserialize implementations"])
p("C62","A composition reflects the JSON it was made from",
 "Composition::from_json fails exactly if the document cannot be read, panics exactly if it uses an unsupported feature and otherwise succeeds; the composition then has the document's w, h, fr, ip and op, one layer per element of layers in order, and one layer list per precomposition asset (the last one with an id), each layer with the name, window, stretch, start and size its JSON object gives.",
 "all JSON values","Documents are unbounded JSON trees.",["src/runtime/mod.rs: Composition::from_json","src/import/converters.rs: conv_animation, setup_layer_base"])

p("C63","A solid layer paints its rectangle",
 "A visible solid layer paints a rectangle of its width, height and colour.",
 "all documents with solid layers, all frames","Any layer of any precomposition may be a solid, at any frame, with any size.",
 [C+": conv_layer","src/schema/layers/solid.rs","src/runtime/render.rs: render_layer"])
p("C64","Masks honour mode, inversion and opacity",
 "The mode (none, add, subtract, ...), inversion, opacity and expansion of a layer's masks are honoured: a mask with mode none does not clip, an inverted mask clips to its complement.",
 "all documents, all masks, all frames","The settings of any number of masks on any layers combine freely.",
 ["src/import/builders.rs","src/runtime/render.rs: render_layer","src/schema/helpers/mask.rs"])
p("C65","A layer's blend mode is honoured",
 "A layer with a blend mode other than normal is composited with it: its drawing is wrapped in a push_layer with that mode. push_layer is otherwise only used for mattes.",
 "all documents, all layers, all blend modes, all frames","Any layer at any nesting depth may have any of eighteen modes.",
 ["src/import/builders.rs","src/runtime/render.rs: render_layer","src/runtime/model/mod.rs: Layer"])
p("C66","A precomposition is clipped to its size",
 "The contents of a precomposition layer are clipped to the layer's width and height. Clips are otherwise the rectangle of the composition and the outlines of masks.",
 "all documents, all precomposition layers, all frames","Precompositions nest to any depth, with any sizes.",
 ["src/import/builders.rs: setup_precomp_layer","src/runtime/render.rs: render_layer"])
p("C67","A frame is the picture the layer rules describe",
 "What append records is exactly the picture given by the rules of the format: visible layers from last to first, each inside its window, placed by its chain of parents, dimmed by its opacity, with mattes and masks around its content, precompositions at their own time, shapes as nested pictures; the rules determine one picture per frame.",
 "all compositions with well-formed geometry in which outlines of different groups are not merged, all frames, transforms, opacities and used renderers","Parent chains, mattes and precompositions combine to any depth, at every frame.",
 ["src/runtime/render.rs: Renderer::append, render_layer, compute_transform","src/runtime/model/mod.rs: Composition, Layer"])
p("C68","Every frame of an ordinary document is painted",
 "A supported document without self-references, with stars of a fixed reasonable size, is imported, and every frame of it is painted by any renderer without a crash. If its shape lists are tidy (no group starts between geometry and its style, no geometry follows a trim before the style) each frame is the picture the layer rules describe.",
 "all documents satisfying these conditions on the source, all frames, transforms, opacities and used renderers","All documents, all frames; nesting is unbounded.",
 [C+": conv_animation, conv_shape","src/runtime/mod.rs: Composition::from_json","src/runtime/render.rs: Renderer::append"])
p("C69","A trim keeps exactly the parts of the outline between two distances",
 "For each range of the trim, the outline drawn consists of the parts of its segments between the range's start and end distance: segments wholly between are drawn whole, the first and last are cut at the parameters for the remaining distance, nothing else is drawn, and every range starts a new sub-path. An outline with no length draws nothing.",
 "all outlines, trims and arc-length measures satisfying the stated laws","All outlines of any number of segments and all trims.",
 ["src/runtime/render.rs: trim_path, trim_segments_range, append_segment","src/runtime/model/value.rs: Trim::normalized"])
p("C70","The layer under the cursor is the top-most one drawn there",
 "In the hit-testing sink of the examples every outermost layer of the composition that draws something in a frame gets one rectangle, the bounding box of everything drawn in it, in paint order; the layer picked for a cursor position is the one painted last among those whose rectangle contains it, or none; and hit-testing does not change the picture that is drawn.",
 "all compositions, frames, transforms, opacities, used renderers, cursor positions, bounding box functions","Layers nest to any depth, and any sequence of draw calls may occur inside them.",
 ["examples/scenes/src/picking.rs: PickingScene, LayerBoundsTracker, pick_layer"])
p("C71","Playback loops inside the composition's frame range",
 "At every moment after the start the player shows the frame that is left of the elapsed frames after whole rounds through the frame range, counted from the start of the range; that frame lies in the range, before its end.",
 "all compositions with a non-empty frame range and positive frame rate, all elapsed times","Every elapsed time; rounding depends on all of them.",
 ["examples/scenes/src/lottie.rs: display_lottie","examples/scenes/src/picking.rs: picking_scene"])
p("C72","Frame statistics describe the last hundred frames and can always be drawn",
 "The viewer's frame statistics always hold the last hundred samples, with their number and sum, and the extremes since the last reset; no sequence of samples and resets crashes; and the bars of the graph can always be drawn, with heights between none and all of the graph.",
 "all sequences of samples and resets, for samples of up to about two years","All histories; sums and extremes depend on all samples.",
 ["examples/with_winit/src/stats.rs: Stats::add_sample, clear_min_and_max, snapshot, Snapshot::draw_layer, round_up"])
p("C73","Touch gestures follow the fingers without jumps",
 "At the end of every frame the viewer reports a gesture exactly if at least two fingers are down, with their number and centre; the movement, zoom and rotation reported compare the fingers now with the fingers at the end of the last frame, are finite, and are neutral in a frame in which a finger was put down or lifted and in a frame in which nothing happened.",
 "all histories of touch events and frames, any number of fingers, any hypotenuse and arc tangent functions","All interleavings of events of any number of fingers with frames.",
 ["examples/with_winit/src/multi_touch.rs: TouchState::add_event, end_frame, info, MultiTouchInfo"])
p("C74","The viewer always shows an existing scene, the one navigated to",
 "Whatever keys, touches, mouse events and frames occur, the viewer does not crash, every frame shows an existing scene and kind of antialiasing, namely the first one moved by the steps to the right minus the steps to the left around the list, and the view is reset exactly when another scene is shown.",
 "all event histories (shorter than 2^31), all numbers of scenes and first scenes","All histories of events.",
 ["examples/with_winit/src/lib.rs: run"])
p("C75","Touches that navigate do not take part in gestures",
 "A finger put down in the navigation zone at the bottom of the window is never part of a gesture, and gestures of other fingers are the same as without it.",
 "all event histories, any number of fingers","All interleavings of navigation with gestures.",
 ["examples/with_winit/src/lib.rs: run","examples/with_winit/src/multi_touch.rs"])
p("C76","Downloads never damage files and can be repeated",
 "Downloading never changes a file that is there, stores at most the size limit, counts every download as completed, failed or skipped, and reports success only if the file is what the server sent, with the expected size; a failed download leaves nothing behind, so that running again repairs it. A download given as name@address is stored under that name, otherwise under the last part of the address without .json.",
 "all lists of downloads, servers, answers and existing files, connections breaking anywhere","A connection may break at any byte of any file, in any run.",
 ["examples/scenes/src/download.rs: Download::action, parse_download, LottieDownload::fetch"])
p("C77","Transforms put things where the document says",
 "A layer or group whose transform has a position, anchor, scale, rotation, skew and skew axis puts a point p of its content at: p relative to the anchor, stretched by the scale (in percent), slanted by the skew along the axis, turned by the rotation (in degrees, clockwise on the screen), and moved so that the anchor is at the position; the result is exact up to a thousandth of a pixel. The anchor itself goes to the position; without scaling and skewing, distances are kept.",
 "all imported layer and group transforms, frames, points and values in ordinary ranges","The matrix is a product of up to seven rounded matrices, of which tests check a few; the error has to be bounded for all angles, scales and skews.",
 ["src/runtime/model/animated.rs: Transform::evaluate","src/import/converters.rs: conv_transform, conv_shape_transform"])
p("C78","Stars and polygons have the corners the document says",
 "The outline of a star or polygon with n points is a closed chain of as many edges as corners (n, or 2n for a star); corner k lies at the outer radius, or in a star alternately at the outer and inner radius, from the position, at an angle of rotation - 90 degrees plus k of the n (or 2n) equal parts of a full turn; the edges are straight without roundness, and otherwise curves whose control points are as long as the roundness says, at right angles to the radius; up to a thousandth of a pixel (a fiftieth for control points).",
 "all imported stars and polygons, all frames, point counts, radii, roundnesses and rotations in ordinary ranges","Angles are accumulated step by step, with alternating rounding; any number of points may be drawn.",
 ["src/runtime/model/animated.rs: Star::evaluate","src/import/converters.rs: conv_polystar_geometry, conv_shape_geometry"])
p("C79","Between two keyframes a value follows the easing curve",
 "Between two keyframes that are not held, a value moves along the cubic curve from (0,0) to (1,1) whose control points are the out-handle and in-handle of the first keyframe: at a time t of the way, the value is a + (b - a) y with y the height of the curve at t, up to a rounding error. Without handles it moves at a steady pace; it leaves the range between the two values only if the handles do; for handles with first coordinates from 0 to 1 the height is unique.",
 "all animated numbers, pairs, positions and colours of all documents, all keyframes, frames and handles in ordinary ranges","The curve is solved numerically, with special treatment of the ends; the error has to be bounded for all handles and times.",
 ["src/runtime/model/value.rs: Tween for f64, Animated::evaluate_inner, Time::frames_and_weight"])
p("C80","A layer is placed relative to its parent, and that to its own",
 "A point of a layer is painted where you get by applying the layer's own position, anchor, scale, skew and rotation, then those of its parent (the layer of the document whose index it names), then those of the parent's parent and so on, each as it is at that frame, and finally the caller's map; up to a hundredth of a pixel.",
 "all imported documents, layers and frames, chains of n parents with n^2 times the total enlargement at most 2000, all points up to 8192","Errors of matrix products add up along the chain; the order of the products matters; parents are resolved by index, not by place.",
 ["src/runtime/render.rs: compute_transform","src/import/builders.rs: setup_layer_base","src/import/converters.rs: conv_layer"])
p("C81","Between two opacity stops a gradient is blended",
 "A colour stop that lies between two neighbouring opacity stops is imported with the opacity on the straight line between theirs.",
 "all gradients with fixed colours, any number of colour and opacity stops","Stops may be anywhere and in any number; the blending goes through the keyframe easing code.",
 ["src/import/converters.rs: conv_stops, normalize_to_range"])
p("C82","Everything is painted where its groups, layers and precompositions put it",
 "Every path a frame paints belongs to a layer that is shown (in the main list or in a precomposition shown by layers that are shown, each at its own time), and lies where an outline of that layer is put by its groups, then the layer, its parents, and the layers that show the precomposition with their parents, and the caller's map, up to a hundredth of a pixel; it has the style (fill or stroke) of an item that follows the outline, faded by the product of the opacities of that style, its groups, the layer and the showing layers; mask outlines lie where their layer does. In a layer without trims every piece of the path is a piece of such an outline; and nothing is missing: every outline that is followed by a style is painted like that in every layer that is shown (including mattes of layers that are shown), and every mask of such a layer is pushed.",
 "all importable documents whose shape lists are tidy (see C68) and whose parent links end, all frames, caller's maps and opacities, nesting of any depth n with n^2 times the total enlargement at most 2000, points up to 8192, opacities from 0 to 100","Errors of matrix products and opacities add up with the nesting, which may be arbitrarily deep; paths of several items are merged in batches; the picture is a product of the importer and the renderer.",
 ["src/runtime/render.rs: Renderer::render_layer, render_shapes, compute_transform, Batch","src/import/builders.rs: setup_shape_layer, setup_precomp_layer, setup_layer_base","src/import/converters.rs: conv_animation, conv_layer, conv_shape"])
p("C83","A path that changes shape moves from one shape to the next as its keyframes say",
 "A path or mask outline with keyframes has, before the first keyframe and at every keyframe, the outline of that keyframe, and after the last the outline that one ends with; while a keyframe is held its outline stays; between two keyframes every vertex and tangent moves along the straight line from one outline to the next, following the easing curve of the first keyframe.",
 "all imported paths and masks with keyframes in order, all frames, vertices and tangents up to 2^20, outlines with different numbers of vertices included","Any number of keyframes, vertices and handles; the two outlines may differ in length.",
 ["src/runtime/model/animated.rs: Spline::evaluate","src/import/converters.rs: conv_shape_geometry","src/runtime/model/spline.rs"])
p("C84","A gradient that changes follows the easing of its keyframes, stop by stop",
 "A gradient with keyframes has as many stops as its document says; before the first keyframe and after the last they are the stops of that keyframe, and between two keyframes the offset, red, green, blue and opacity of every stop follow the easing curve of the first keyframe from its value at one to its value at the other.",
 "all imported gradient fills and strokes with keyframes in order that are not held there (held: C26), all numbers of stops, frames and handles in ordinary ranges","Any number of stops and keyframes; colours and opacities are kept in separate lists of the document and merged at import.",
 ["src/runtime/model/value.rs: ColorStops::evaluate","src/import/converters.rs: conv_gradient_colors, conv_stops"])
p("C85","The figures and the bars of the viewer's statistics are right",
 "The average frame time shown is the sum of the last (up to 100) frame times divided by their number, the frame rate is its reciprocal, and the shortest and longest times are the least and greatest since the last reset, each in milliseconds to one part in 10^12; the bars of the graph are the frame times, oldest first, in proportion to a common scale and cut off at the top, and that scale is the longest time unless it is more than three times the average, and then a multiple of 5 ms about a third above the average.",
 "all sequences of frame times and resets (times below 2^46 microseconds, an average of at least 1 ms for the bars)","Any number of frames and resets, with the window sliding; sums and quotients of floating-point numbers.",
 ["examples/with_winit/src/stats.rs: Stats::add_sample, Stats::snapshot, Snapshot::draw_layer"])
p("C86","The centre, the drag, the zoom and the stretch of a touch gesture are those of the fingers",
 "The centre a gesture reports is the mean of the positions of the fingers that are down; while they only move, the translation between two frames is the movement of that centre, the zoom is the quotient of the mean distances of the fingers from it, and the two-dimensional zoom is the quotient of the mean distances along one axis only if the gesture began with two fingers side by side (by more than three to one) or one above the other, and the plain zoom along both axes otherwise.",
 "all histories of touches of up to 32 fingers at coordinates up to 2^20 and of frames","Any order of touches, moves, lifts and frames; the kind of gesture depends on how it began.",
 ["examples/with_winit/src/multi_touch.rs: TouchState::end_frame, TouchState::info, TouchState::update_gesture, TouchState::calc_dynamic_state, PinchType::classify"])
p("C87","The view follows the pointer, the wheel, the keys and the fingers",
 "In the viewer, moving the pointer with the button held moves the picture by what the pointer moved; turning the wheel enlarges it 1.05-fold per notch about the pointer; q and e turn it by a twentieth of a radian about the pointer; a touch gesture turns and enlarges it about the centre of the fingers and moves it by their translation; space puts it back; and nothing else moves it.",
 "all histories of events, all views with entries up to 64 and translations up to 65536, all points of the picture up to 8192, to a thousandth of a pixel","Any history; products of matrices of floating-point numbers.",
 ["examples/with_winit/src/lib.rs: run (CursorMoved, MouseWheel, KeyboardInput, AboutToWait)"])
p("C88","Keys of the viewer switch what they say, every time",
 "In the viewer, the statistics are shown at first and each press of s switches them; the complexity is not shown at first and each press of d switches it; vertical synchronisation is on at first and each press of v switches it; arrow up and down change the complexity by one, not below zero; the window is open until escape is pressed or it is closed; and nothing else changes any of these.",
 "all histories of events","Any number of presses in any order among other events.",
 ["examples/with_winit/src/lib.rs: run (KeyboardInput, CloseRequested)"])
p("C89","The layer under the pointer is the upper-most one whose box is there on screen",
 "The scene is fitted into the window touching it in one direction and not exceeding it in the other; the box of a layer bounds the image of what was drawn, tightly; and the layer reported under the pointer is the upper-most one whose box contains the point of the scene that is shown, to a thousandth of a pixel, where the pointer is, and none is reported only if no box contains it; that layer, and no other, is drawn bright and named at the pointer, and every layer is marked with its box and its name.",
 "all compositions, frames, windows, cameras of ordinary sizes that do not flatten the scene, and pointers","Any number of layers; inverse of a floating-point matrix.",
 ["examples/scenes/src/picking.rs: PickingState, cursor_to_scene, transform_rect_bbox","examples/with_winit/src/lib.rs: run (RedrawRequested)"])
p("C90","The viewer offers the scenes it is given, in an order that does not depend on the system",
 "For paths on the command line the viewer offers one scene for each file, named like the file without its ending, and for each directory one for every entry with the ending .json, in the order of their names regardless of case; nothing is offered if any of them cannot be read; and the order does not depend on the order in which the system lists a directory.",
 "all file systems, lists of paths and contents of directories","Any number of paths and entries, read in an order the program does not control.",
 ["examples/scenes/src/lottie.rs: scene_from_files, scene_from_files_inner, example_scene_of"])
p("C91","Text is set glyph by glyph, line by line",
 "Every character of a text that is not a new line is drawn as one glyph, in order; it is as far right as the characters before it in its line are wide together and as far down as the lines before it are high together, to one part in 2^23 per summand, and every line starts exactly at the left.",
 "all texts with lines of up to 2^20 characters and up to 2^20 lines, all fonts with advances and line heights up to 2^20","Any number of characters and lines; sums of 32-bit floating-point numbers.",
 ["examples/scenes/src/simple_text.rs: RobotoText::add_var_run"])
p("C92","A fill or stroke paints nothing of another group, and what it misses is what went to an undrawn path in front",
 "Every fill or stroke of a layer is painted once, back to front, with the geometry in front of it in its own group and in the groups there, placed by the groups around; it misses exactly the geometry at the start of its group that continues a path in front of the group which is not drawn yet and is placed equally, and it paints nothing else.",
 "all trees of groups, geometry, fills and strokes without repeaters and trims, at all frames and transforms","Any depth and order of groups, geometry and draws, with transforms that happen to be equal or not.",
 ["src/runtime/render.rs: Renderer::render_shapes, Batch::push_geometry, Batch::push_draw"])
p("C93","The picture stays under the fingers",
 "When one or two fingers that do not navigate move, and none is put down or lifted, the viewer moves, enlarges and turns the picture so that what was under each finger stays under it.",
 "all histories of the viewer, all positions of one or two fingers on the screen, before and after, and all ordinary views","Positions, distances and turns are real quantities, and the view is the result of any history before.",
 ["examples/with_winit/src/lib.rs: run (AboutToWait, Touch)","examples/with_winit/src/multi_touch.rs: TouchState::info, end_frame"])
p("C94","Copy i of a repeater is offset + i steps from the original, and as opaque as its share",
 "A repeater with n copies paints what is in front of it in its group at n places and nowhere else: copy i (0 to n - 1) is turned by offset + i times the rotation and stretched by the (offset + i)-th power of the scale, about the anchor, and moved by offset + i times the position, all before the placement of the group; and it is painted with the opacity of the fill or stroke times a share that goes from the start opacity in steps of 1/n of the difference to the end opacity.",
 "all shapes in front of the repeater, all frames, opacities and placements of ordinary size; up to 100 steps away, scales from 25 to 400 percent with powers up to 4, to a thousandth of a pixel and 10^-10 of opacity","Positions are real quantities reached through powers, sines and products of floating-point matrices, for any number of copies.",
 ["src/runtime/model/fixed.rs: Repeater::transform","src/runtime/render.rs: Batch::repeat"])
p("C95","Every download has a file of its own, and the viewer offers it under its name",
 "A download named n is stored as n.json in the download directory; downloads with different names are stored in different files; and the viewer, given the directory, offers what was downloaded under the name n. The default downloads are 344 files of this kind.",
 "all names, addresses and directories; all servers, file systems and orders of listing a directory","Any name or address a user types; any order in which the system lists the files.",
 ["examples/scenes/src/download.rs: LottieDownload::file_path, Download::action, parse_download","examples/scenes/src/download/default_downloads.rs: default_downloads","examples/scenes/src/lottie.rs: scene_from_files"])
p("C96","A document of coloured rectangles and ellipses is painted as it reads, from the JSON to the scene",
 "A JSON document whose shape layers hold rectangles and ellipses, each in a group with a colour, an opacity and a transform, is accepted, and drawn into a scene it gives exactly: a clip to the size of the document, one fill per figure of each layer on show, lowest first, and the end of the clip. Each fill has the colour and outline the document gives, is placed by the transforms of its group, its layer and the view, and is faded by the product of the opacities.",
 "all such documents, of any number of layers and figures and any numbers in them; all frames, views, opacities and used renderers","Documents, frames and views are unbounded; the path from JSON to scene crosses parsing, import, batching and the sink.",
 ["src/runtime/mod.rs: Composition::from_json","src/import/mod.rs: import_composition","src/import/converters.rs: conv_shape_group, conv_transform, conv_draw, conv_geometry","src/runtime/render.rs: Renderer::append, Renderer::render_layer","src/runtime/vello.rs: render_to_vello_scene"])
p("C97","Every frame of every document is painted by the rules of the format, whatever its shapes are",
 "A frame consists of the layers on show, lowest first, each in its place, with its opacity, inside its masks and matte, at the time of its precomposition. Inside a shape layer without trims each draw paints the geometry in front of it in its group (except for what continues an undrawn path in front of the group), the first draw on top. Up to the distribution of outlines over calls this determines what is painted.",
 "all compositions and all supported documents without self-references; all frames, views, opacities and used renderers","Layer trees of any depth, shape trees of any depth, any times.",
 ["src/runtime/render.rs: Renderer::append, Renderer::render_layer, Renderer::render_shapes","src/import/mod.rs: import_composition"])
p("C98","The statistics panel shows the figures and the bars where they belong",
 "The panel is a box in the lower right corner of the window, two fifths of its width but between 200 and 600 pixels, seven tenths as high as wide; it is inside the window exactly if that is at least 200 wide and seven tenths of the panel's width high. Its upper half holds one line of text per figure, evenly spaced, and the frame rate; its lower half one bar for each of the last hundred frames, oldest first, standing on the window's lower edge, side by side, as high as the frame's share of the scale and coloured by its time, and a line with its time for each of 8.33, 16.66 and 33.33 ms below the scale. A bar reaches a line exactly if the frame took that long.",
 "all histories of samples and resets, all windows up to 65536 pixels, with and without memory figures","All window sizes, all histories, rounding in every coordinate.",
 ["examples/with_winit/src/stats.rs: Snapshot::draw_layer","examples/with_winit/src/lib.rs: run"])
p("C99","The statistics panel in a session of the viewer",
 "Every frame carries the statistics panel unless its key was pressed an odd number of times; the panel tells of the frames before, with memory figures only if their key was pressed an odd number of times and the kind of antialiasing and synchronisation chosen by then. Drawing the panel changes nothing else, and it never crashes the viewer.",
 "all event histories (shorter than 2^31), all numbers of scenes, all window sizes up to 65536","All histories of events and frame times.",
 ["examples/with_winit/src/lib.rs: run","examples/with_winit/src/stats.rs: Snapshot::draw_layer"])
p("C100","A document of moving shapes shows, at every frame, the shapes as they are at that moment",
 "A document of layers with coloured rectangles and ellipses, of which position, anchor, scale, rotation, opacity, centre and size may each have any number of keyframes, is read from its JSON, imported and painted without failure at every frame. The scene of a frame is that of C96 for the values of that moment: each value is the first one before its keyframes, the last one after them, and between two of them held or where the easing curve says; layers appear and disappear at their times. On the screen every shape is where these values put it, to a hundredth of a pixel.",
 "all such documents with any number of layers, shapes and keyframes in order (times and values below 2^20, handles at most 4 and 16); all frames, fractional ones included; all views and opacities; all renderers that were used before","All documents, keyframes and frames; the chain from the JSON over import and interpolation to the scene.",
 ["src/import/converters.rs: conv_animation, conv_keyframes, conv_scalar, conv_pos","src/runtime/model/value.rs: Value::evaluate, Animated, Easing, Tween","src/runtime/render.rs: Renderer::append","src/schema: Animation, AnimatedProperty, Keyframe"])
p("C101","A document's text is read as the JSON it stands for",
  "Composition::from_str (and from_slice on UTF-8) accepts only texts that follow JSON's grammar with at most 127 levels, and reads such a text as the value it stands for: whatever white space lies between the tokens, however the characters of strings are escaped (also pairs of surrogates), whatever the order of the members. Whole numbers that fit 64 bits and numbers of up to 53 binary digits with a power of ten up to 22 are read exactly as the closest double; other numbers of up to 19 digits to within 2^-51 of their size, and not always as the closest double. A member of the document that occurs twice is an error; in layers and assets the last one counts.",
  "every text, of any length; every value up to 127 levels; every number",
  "Tests read some files; texts, escapes and numbers are without end, and a reader that goes wrong for one of them goes wrong silently.",
  ["src/runtime/mod.rs: Composition::from_str, Composition::from_slice","src/schema/animation/animation.rs: Animation::from_slice, FromStr for Animation"])

p("C102","A document written as text is read back as the same document",
  "The text that Display writes of a document that was read (with a width or height for every image) is accepted by from_str and gives the same composition; in no object of the text is a name written twice.",
  "every document that can be read, of any size and depth; every double; every way of writing doubles as decimal numbers to which they are the closest double",
  "A test writes some documents; whether every string, number and nesting survives is a statement about all of them, and fails for some.",
  ["src/schema/animation/animation.rs: Display for Animation, FromStr for Animation","src/runtime/mod.rs: Composition::from_str"])
p("C103","The order of the members of an object does not matter",
  "Two documents, as JSON values or as texts, that differ only in the order of the members of their objects, at any depth, are either both rejected or both read, as the same composition; as long as no object has two members of the same name (then the last one counts, in a layer).",
  "every document of any size and depth, accepted or not; every reordering of the members of any of its objects",
  "Exporters write members in their own order, and serde handles tagged, untagged and flattened types differently; tests read files in the order they happen to have.",
  ["src/schema/animation/animation.rs: Animation","src/schema/layers/mod.rs: AnyLayer","src/schema/shapes/mod.rs: AnyShape","src/schema/assets/mod.rs: AnyAsset","src/runtime/mod.rs: Composition::from_str"])
p("C104","From the text of a file to every frame",
  "A text that is a file of a film (layers of ellipses and rectangles with solid fills, whose placement, size, opacity and transforms may be keyframed with easing and holds), however its white space, its escapes, the order of its members and its numbers (100 or 100.0) are written and whatever members with unknown names it has, is accepted by from_str, and every frame is drawn as the picture with the values of that moment; all files of a film give the same composition.",
  "every such film with any number of layers, shapes and keyframes; every text of it; every frame, view and opacity; every renderer that was used before",
  "It joins the parser, the schema, the import, the interpolation and the renderer for all films and all their texts; a test has one file and some frames.",
  ["src/runtime/mod.rs: Composition::from_str","src/import/mod.rs: conv_animation","src/runtime/render.rs: Renderer::render"])

p("C105","A hard edge in the opacity of a gradient",
 "Two opacity stops at one offset make a hard edge: a colour stop before it is imported with the opacity of the first, a colour stop behind it with that of the second.",
 "all gradients with fixed colours, any number of colour and opacity stops","The two may be anywhere in a list of any length, and so may the colour stops.",
 ["src/import/converters.rs: conv_stops, normalize_to_range"])

p("C106","A position given coordinate by coordinate is the same position",
 "A layer whose position is written as two coordinates, each fixed or with keyframes, can be imported exactly when it can with the position written as pairs that say the same; its opacity is then the same and its transform is the same in every frame.",
 "all layer transforms, any number of keyframes with any times, values, holds and easing, every frame","The two forms are read by different code (one with index arithmetic over handles, one that may panic) and must agree for all keyframe lists and all frames between them.",
 ["src/import/converters.rs: conv_transform, conv_scalar, conv_keyframes","src/runtime/model/animated.rs: Position, Transform::evaluate"])

p("C107","A keyframe with one handle is eased by it",
 "A keyframe that gives only one of its two handles is eased by that one, and by the handle of a steady pace in place of the missing one.",
 "all numbers, positions, points, sizes, scales and colours with any number of keyframes, every frame","Any keyframe in a list of any length may lack either handle; numbers and vectors are imported by different code.",
 ["src/import/converters.rs: conv_keyframes, conv_scalar","src/runtime/model/value.rs: Time::frames_and_weight"])

with open('/verif/properties.jsonl','w') as f:
    for x in P: f.write(json.dumps(x)+"\n")
print(len(P))
