{
 "claims": [
  {
   "property": "C01",
   "status": "proved",
   "theorems": [
    "C01_balanced",
    "C01_prefix"
   ],
   "note": ""
  },
  {
   "property": "C02",
   "status": "proved",
   "theorems": [
    "C02_reuse"
   ],
   "note": ""
  },
  {
   "property": "C03",
   "status": "partial",
   "theorems": [
    "C03_refuted",
    "C03_panic_safe_partial",
    "C03_stale",
    "C03_exact"
   ],
   "note": "REFUTED as stated: a panic of the sink in the clip of a layer mask leaves stale mask elements behind (witness). Proved for all crash points except that call, and for panics inside velato. Exactly: after a panic in the clip of a mask, the next frame is that of a fresh renderer if and only if the stale path is empty or no mask is drawn next; otherwise it is the fresh one with the stale path in front of the first mask."
  },
  {
   "property": "C04",
   "status": "proved",
   "theorems": [
    "C04_window",
    "C04_inactive",
    "C04_window_reals",
    "C04_nan"
   ],
   "note": ""
  },
  {
   "property": "C05",
   "status": "proved",
   "theorems": [
    "C05_back_to_front",
    "C05_groups",
    "enumerate_spec"
   ],
   "note": ""
  },
  {
   "property": "C06",
   "status": "proved",
   "theorems": [
    "C06_matte"
   ],
   "note": ""
  },
  {
   "property": "C07",
   "status": "proved",
   "theorems": [
    "C07_masks"
   ],
   "note": ""
  },
  {
   "property": "C08",
   "status": "proved",
   "theorems": [
    "C08_parent_chain",
    "C08_acyclic_chain"
   ],
   "note": ""
  },
  {
   "property": "C09",
   "status": "proved",
   "theorems": [
    "C09_cycles"
   ],
   "note": ""
  },
  {
   "property": "C10",
   "status": "proved",
   "theorems": [
    "C10_terminates",
    "C10_depth",
    "C10_budget_irrelevant"
   ],
   "note": ""
  },
  {
   "property": "C11",
   "status": "partial",
   "theorems": [
    "C11_refuted",
    "C11_partial",
    "C11_depth",
    "C11_exact",
    "C11_deep"
   ],
   "note": "REFUTED as stated: the importer accepts a layer that is its own matte and a precomp that instances itself, and on both rendering never returns (witness documents). Proved: termination whenever the reference graph of the source document has no cycle. Exactly: rendering returns if and only if the chains of layers needed by layers shown at that frame are bounded, and the depth of the recursion is the longest chain; no fixed depth is enough for all compositions."
  },
  {
   "property": "C12",
   "status": "proved",
   "theorems": [
    "C12_implicit_mattes",
    "C12_precomps"
   ],
   "note": "C12_precomps extends the claim to documents whose precomps can be ranked."
  },
  {
   "property": "C13",
   "status": "proved",
   "theorems": [
    "C13_no_panic",
    "C13_fixed",
    "C13_spline",
    "C13_star",
    "C13_rect",
    "C13_ellipse",
    "C13_star_limit"
   ],
   "note": "Hypothesis sound_comp is exactly the proviso of the property; the other theorems say which geometry satisfies it. Rectangles and ellipses: assuming kurbo starts their paths with a move-to."
  },
  {
   "property": "C14",
   "status": "partial",
   "theorems": [
    "C14_refuted",
    "C14_draws_geometry_above_partial",
    "C14_refinement_partial",
    "C14_exact"
   ],
   "note": "REFUTED as stated: geometry at the start of a group is merged into undrawn geometry in front of the group when the transforms are equal, and the group's draws then miss it (witness). Proved for all trees without such a clash. Exactly: the statement holds of a tree if and only if no group with a draw of its own starts by continuing an undrawn path in front of it at an equal place (what is painted otherwise is C92)."
  },
  {
   "property": "C15",
   "status": "proved",
   "theorems": [
    "C15_reverse_order",
    "C15_document_order"
   ],
   "note": ""
  },
  {
   "property": "C16",
   "status": "proved",
   "theorems": [
    "C16_layer_opacity",
    "C16_shape_layer"
   ],
   "note": "styles of the specification is the product along the groups (see C15_document_order); precomps: C21_precomp passes the product on."
  },
  {
   "property": "C17",
   "status": "partial",
   "theorems": [
    "C17_refuted",
    "C17_count_partial",
    "C17_zero_copies",
    "C17_copies_partial",
    "C17_copies"
   ],
   "note": "REFUTED as stated: every one of the n repeated draws covers all n copies, so each copy is painted n times (witness n = 3). Proved: exactly what is painted, for any shapes in front of the repeater (C17_copies). Shapes outside the group: C18_group_isolated. Where the copies are and how opaque: C94."
  },
  {
   "property": "C18",
   "status": "proved",
   "theorems": [
    "C18_trim_own_group",
    "C18_trim_alone",
    "C18_group_isolated"
   ],
   "note": ""
  },
  {
   "property": "C19",
   "status": "partial",
   "theorems": [
    "C19_refuted",
    "C19_erased_partial",
    "C19_erased_then_draws",
    "C19_full_trim",
    "C19_full_trim_percent",
    "C19_exact",
    "C19_stays",
    "C19_returns",
    "C19_wide",
    "C19_nearly"
   ],
   "note": "REFUTED as stated: geometry that follows a removing trim under the same transform brings the removed path back (witness). Proved without such a clash; the 0-100% part is proved in full. Exactly (C19_exact, trees without other trims): the removed path comes back if and only if the last path in front of the trim is not drawn yet and what comes first behind the trim is a path at an equal place; then all path elements in front of the trim are painted again at that place (C19_returns), otherwise what is behind is painted as if nothing were in front (C19_stays). C19_wide and C19_nearly give the bounds of a trim that keeps everything as real inequalities, with any offset and direction."
  },
  {
   "property": "C20",
   "status": "proved",
   "theorems": [
    "C20_ranges",
    "C20_symmetric"
   ],
   "note": ""
  },
  {
   "property": "C21",
   "status": "proved",
   "theorems": [
    "C21_precomp",
    "C21_missing_asset"
   ],
   "note": ""
  },
  {
   "property": "C22",
   "status": "proved",
   "theorems": [
    "C22_ignored_fields"
   ],
   "note": ""
  },
  {
   "property": "C23",
   "status": "partial",
   "theorems": [
    "C23_refuted",
    "C23_bracket_partial",
    "C23_weight_partial",
    "C23_exact"
   ],
   "note": "REFUTED as stated: exactly at the time of the last keyframe the weight is 0/0 = NaN (witness). Bracket proved for all finite increasing times; weight in [0,1] proved for all other frames (times below 2^1000). Exactly: the weight is in [0,1] if and only if the frame is not the time of the last keyframe."
  },
  {
   "property": "C24",
   "status": "proved",
   "theorems": [
    "C24_at_keyframe",
    "C24_at_last_keyframe"
   ],
   "note": "All interpolated types (f64, point, vec2, size, colour). At the last keyframe equality up to the sign of zero."
  },
  {
   "property": "C25",
   "status": "proved",
   "theorems": [
    "C25_before_first",
    "C25_after_last"
   ],
   "note": "Before the first keyframe the keyframe times are assumed below 2^1000 in magnitude."
  },
  {
   "property": "C26",
   "status": "partial",
   "theorems": [
    "C26_hold",
    "C26_spline_partial",
    "C26_spline_refuted",
    "C26_gradient_colors_partial",
    "C26_gradient_refuted",
    "C26_spline_exact",
    "C26_gradient_exact"
   ],
   "note": "Proved for scalars, points, vectors, sizes, colours. REFUTED for splines whose next keyframe has fewer points (truncated path) and for gradient offsets (they move during hold); proved for splines with equally many points and for gradient colours. Exactly: a held path is its own path cut to the number of points of the next one, so whole iff that has as many or more; a held gradient has its own colours and opacities, and offsets that move on with the easing."
  },
  {
   "property": "C27",
   "status": "proved",
   "theorems": [
    "C27_well_formed",
    "C27_no_default",
    "C27_scalar"
   ],
   "note": ""
  },
  {
   "property": "C28",
   "status": "proved",
   "theorems": [
    "C28_transform",
    "C28_stroke",
    "C28_repeater",
    "C28_trim",
    "C28_brush",
    "C28_star",
    "C28_fixed",
    "C28_same"
   ],
   "note": "C28_fixed, C28_same: the is_fixed questions of all eight kinds are answered with yes exactly if no part has keyframes, and what is fixed evaluates to the same in every frame."
  },
  {
   "property": "C29",
   "status": "partial",
   "theorems": [
    "C29_refuted",
    "C29_finite_partial",
    "C29_exact"
   ],
   "note": "REFUTED as stated: at the time of the last (non-hold) keyframe all points are NaN (witness). Proved at every other frame. Exactly: the path is finite if and only if the frame is not the time of the last keyframe or that keyframe is held."
  },
  {
   "property": "C30",
   "status": "proved",
   "theorems": [
    "C30_static",
    "C30_empty",
    "C30_interpolated",
    "C30_animated_total"
   ],
   "note": ""
  },
  {
   "property": "C31",
   "status": "proved",
   "theorems": [
    "C31_count",
    "C31_complete"
   ],
   "note": ""
  },
  {
   "property": "C32",
   "status": "proved",
   "theorems": [
    "C32_endpoints"
   ],
   "note": ""
  },
  {
   "property": "C33",
   "status": "proved",
   "theorems": [
    "C33_outline",
    "C33_empty"
   ],
   "note": "The model returns the appended elements, so preservation of existing path content is by construction."
  },
  {
   "property": "C34",
   "status": "proved",
   "theorems": [
    "C34_layer_list"
   ],
   "note": ""
  },
  {
   "property": "C35",
   "status": "proved",
   "theorems": [
    "C35_parents",
    "C35_no_parent"
   ],
   "note": ""
  },
  {
   "property": "C36",
   "status": "proved",
   "theorems": [
    "C36_mattes"
   ],
   "note": ""
  },
  {
   "property": "C37",
   "status": "proved",
   "theorems": [
    "C37_hidden",
    "C37_draws_nothing"
   ],
   "note": ""
  },
  {
   "property": "C38",
   "status": "proved",
   "theorems": [
    "C38_supported",
    "C38_independent"
   ],
   "note": ""
  },
  {
   "property": "C39",
   "status": "proved",
   "theorems": [
    "C39_shapes",
    "C39_count"
   ],
   "note": ""
  },
  {
   "property": "C40",
   "status": "proved",
   "theorems": [
    "C40_bezier",
    "C40_surplus"
   ],
   "note": ""
  },
  {
   "property": "C41",
   "status": "partial",
   "theorems": [
    "C41_omitted_partial",
    "C41_refuted"
   ],
   "note": "REFUTED as stated: an omitted scale is read as [1,1,1] percent, so the layer or group shrinks to 1 % (witness documents). Proved: omitted anchor, skew, skew axis and opacity are neutral, and an omitted scale equals an explicit [1,1,1]."
  },
  {
   "property": "C42",
   "status": "proved",
   "theorems": [
    "C42_static_stops",
    "C42_imported",
    "C42_animated_count"
   ],
   "note": ""
  },
  {
   "property": "C43",
   "status": "partial",
   "theorems": [
    "C43_on_stop_partial",
    "C43_two_stops_partial",
    "C43_refuted",
    "C43_exact"
   ],
   "note": "REFUTED as stated: with opacity stops 1, 0, 1 a colour stop on the last one gets opacity 0. Proved: it holds unless an inner opacity stop has a smaller opacity, in particular for two opacity stops. Exactly: the opacity is the least of that stop's and those of all inner opacity stops, so as stated iff none of these is smaller."
  },
  {
   "property": "C44",
   "status": "partial",
   "theorems": [
    "C44_flag_ignored",
    "C44_refuted"
   ],
   "note": "REFUTED: a shape marked hidden is drawn (witness document); proved that the flag is ignored on every shape at every depth. Hidden layers do draw nothing, see C37."
  },
  {
   "property": "C45",
   "status": "proved",
   "theorems": [
    "C45_dispatch",
    "C45_otherwise_error",
    "C45_not_an_object"
   ],
   "note": "Reading side of serde modelled in Serde.v; the remaining fields of a layer may still be rejected."
  },
  {
   "property": "C46",
   "status": "proved",
   "theorems": [
    "C46_no_failure",
    "C46_spline",
    "C46_read",
    "C46_read_no_failure"
   ],
   "note": "Easing handles must be of the supported form (C38). C46_read: the validation holds of every animated path (in a shape, group or mask, of the document or an asset) of every document that is read."
  },
  {
   "property": "C47",
   "status": "proved",
   "theorems": [
    "C47_bool_int",
    "C47_blend",
    "C47_matte_mode",
    "C47_line_cap",
    "C47_line_join",
    "C47_fill_rule",
    "C47_gradient_type",
    "C47_star_type",
    "C47_shape_direction",
    "C47_merge_mode",
    "C47_composite",
    "C47_trim_multiple",
    "C47_mask_mode",
    "C47_dash_type",
    "C47_font_path_origin",
    "C47_text_grouping",
    "C47_text_range_units",
    "C47_text_shape",
    "C47_text_caps",
    "C47_text_justify",
    "C47_text_based",
    "C47_style_type"
   ],
   "note": "Exact in both directions for the integer codes. The string-named constants also read from a one-member object, as serde does for unit variants."
  },
  {
   "property": "C48",
   "status": "partial",
   "theorems": [
    "C48_document_partial",
    "C48_layer",
    "C48_shape",
    "C48_refuted",
    "C48_exact"
   ],
   "note": "REFUTED for a document with an image asset whose w/h is present but null (it is read, but what it is written to is rejected). Proved for every layer and shape, and for every document whose image assets have a width or height. Values are serde_json::Value, not text: float parsing and printing are not modelled. Exactly: a document read is read back the same if and only if each image asset has a width or height, and is otherwise rejected."
  },
  {
   "property": "C49",
   "status": "proved",
   "theorems": [
    "C49_vello_balanced",
    "C49_vello_draws",
    "C49_vello_transcribes"
   ],
   "note": ""
  },
  {
   "property": "C53",
   "status": "proved",
   "theorems": [
    "C53_scopes_independent"
   ],
   "note": ""
  },
  {
   "property": "C54",
   "status": "proved",
   "theorems": [
    "C54_layer_contents"
   ],
   "note": ""
  },
  {
   "property": "C50",
   "status": "proved",
   "theorems": [
    "C50_layer",
    "C50_group",
    "C50_fill",
    "C50_stroke",
    "C50_trim",
    "C50_mask_opacity",
    "C50_time_remap"
   ],
   "note": ""
  },
  {
   "property": "C51",
   "status": "partial",
   "theorems": [
    "C51_last_component_partial",
    "C51_refuted",
    "C51_exact"
   ],
   "note": "REFUTED as stated: both components are eased with the last component's handles (witness). Proved for the last component and for keyframes with one or no easing. Exactly: with two easings both components follow the second one, so the first is as stated if and only if the two easings give it the same value."
  },
  {
   "property": "C52",
   "status": "partial",
   "theorems": [
    "C52_solid_partial",
    "C52_gradient",
    "C52_refuted"
   ],
   "note": "REFUTED for gradients: they are always painted at 100 %. Proved for solid fills and strokes."
  },
  {
   "property": "C55",
   "status": "proved",
   "theorems": [
    "C55_layer",
    "C55_scale_about_anchor"
   ],
   "note": "Groups: C50_group, with the same product (definition placement in TimelineSpec.v)."
  },
  {
   "property": "C56",
   "status": "proved",
   "theorems": [
    "C56_rectangle",
    "C56_ellipse",
    "C56_gradient"
   ],
   "note": ""
  },
  {
   "property": "C57",
   "status": "proved",
   "theorems": [
    "C57_agree",
    "C57_supported",
    "C57_reflexive"
   ],
   "note": ""
  },
  {
   "property": "C58",
   "status": "proved",
   "theorems": [
    "C58_unknown_members",
    "C58_layer",
    "C58_shape",
    "C58_known_part"
   ],
   "note": "Objects that could be taken for a string-named constant written as a one-member object are excluded (adding a member to such an object makes it a different value); the exclusion is in the definition of padded, and as a hypothesis of C58_known_part."
  },
  {
   "property": "C59",
   "status": "partial",
   "theorems": [
    "C59_null_partial",
    "C59_refuted",
    "C59_null",
    "C59_asset_exact"
   ],
   "note": "REFUTED for w, h and t of assets, whose presence alone decides between asset kinds: a null w makes an asset acceptable, a null t makes it unacceptable. Proved for every member not named layers, w, h or t (C59_null_partial); C59_null: for every member anywhere in the document except layers, w, h and t directly in an asset; C59_asset_exact: exactly what a null member of these four names does to an asset. Under the same exclusion as C58."
  },
  {
   "property": "C60",
   "status": "proved",
   "theorems": [
    "C60_styles",
    "C60_type_required",
    "C60_members_base",
    "C60_members_color_overlay",
    "C60_members_gradient_overlay",
    "C60_members_outer_glow",
    "C60_members_satin"
   ],
   "note": "Values are serde_json::Value. No document type refers to styles, so this concerns the public types alone."
  },
  {
   "property": "C61",
   "status": "proved",
   "theorems": [
    "C61_number",
    "C61_string",
    "C61_boolean",
    "C61_unsigned",
    "C61_sizes",
    "C61_array",
    "C61_vertex",
    "C61_property_value",
    "C61_position_value",
    "C61_position_or_split",
    "C61_rotation_or_split",
    "C61_handle_component",
    "C61_path_keyframes",
    "C61_path_value",
    "C61_simple_values",
    "C61_color_values",
    "C61_keyframe_bezier_handle",
    "C61_keyframe_base",
    "C61_keyframe",
    "C61_animated_property",
    "C61_multi_dimensional",
    "C61_gradient_colors",
    "C61_position_keyframe",
    "C61_position",
    "C61_split_vector",
    "C61_bezier",
    "C61_shape_keyframe",
    "C61_shape_property",
    "C61_visual_object",
    "C61_slottable_object",
    "C61_marker",
    "C61_transform",
    "C61_mask",
    "C61_graphic_element_shape",
    "C61_shape",
    "C61_shape_style_shape",
    "C61_stroke_dash_shape",
    "C61_base_stroke_shape",
    "C61_base_gradient_shape",
    "C61_transform_shape",
    "C61_repeater_transform_shape",
    "C61_layer",
    "C61_visual_layer",
    "C61_asset",
    "C61_file_asset",
    "C61_meta",
    "C61_animation",
    "C61_group_shape",
    "C61_rectangle_shape",
    "C61_ellipse_shape",
    "C61_stroke_shape",
    "C61_pucker_bloat_shape",
    "C61_merge_shape",
    "C61_repeater_shape",
    "C61_offset_path_shape",
    "C61_fill_shape",
    "C61_trim_path_shape",
    "C61_path_shape",
    "C61_gradient_fill_shape",
    "C61_gradient_stroke_shape",
    "C61_twist_shape",
    "C61_rounded_corners_shape",
    "C61_poly_star_shape",
    "C61_transform_item",
    "C61_precomposition_layer",
    "C61_solid_layer",
    "C61_image_layer",
    "C61_null_layer",
    "C61_shape_layer",
    "C61_image",
    "C61_precomposition",
    "C61_other_assets",
    "C61_by_position",
    "C61_only_objects"
   ],
   "note": "One equivalence per type. Objects are association lists with the first member of a name counting (serde_json maps have unique names). Member names and optionality were extracted from the serde attributes of the source by script."
  },
  {
   "property": "C62",
   "status": "proved",
   "theorems": [
    "C62_outcome",
    "C62_header",
    "C62_required",
    "C62_layers",
    "C62_precompositions"
   ],
   "note": "Supported features are defined in ImportSpec.v (see C38); the rest of a layer is covered by C35-C57 from the parsed document."
  },
  {
   "property": "C63",
   "status": "partial",
   "theorems": [
    "C63_draws_nothing",
    "C63_refuted"
   ],
   "note": "REFUTED: a document with one visible solid layer is imported and rendered without any draw call (the README does not list solids as missing). Proved that solid, null and image layers never make a draw call of their own."
  },
  {
   "property": "C64",
   "status": "partial",
   "theorems": [
    "C64_ignored",
    "C64_refuted"
   ],
   "note": "REFUTED: a mask with mode none still clips (witness). Proved that documents which differ only in mode, inversion, opacity and expansion of masks are rendered alike at every frame."
  },
  {
   "property": "C65",
   "status": "partial",
   "theorems": [
    "C65_only_mattes",
    "C65_opaque",
    "C65_ignored",
    "C65_refuted"
   ],
   "note": "REFUTED: a layer set to multiply is imported with that mode but painted without a blend layer (witness). Proved: push_layer is called for mattes only, opaque, over the whole composition, with the normal or the matte's mode; and documents which differ only in layer blend modes are rendered alike."
  },
  {
   "property": "C66",
   "status": "partial",
   "theorems": [
    "C66_clips",
    "C66_ignored",
    "C66_refuted"
   ],
   "note": "REFUTED: a 1x1 precomposition draws a 10x10 rectangle under the composition's clip only (witness). Proved: every clip is the composition's rectangle or the outline of a mask; and documents which differ only in precomposition sizes are rendered alike."
  },
  {
   "property": "C67",
   "status": "proved",
   "theorems": [
    "C67_reference",
    "C67_unique",
    "C67_total"
   ],
   "note": "FrameSpec.v gives the rules as inductive relations, without the batches, stacks and budgets of the renderer. Hypotheses: geometry evaluates to paths starting with a move-to, and outlines of different groups do not merge (C17 is refuted without this)."
  },
  {
   "property": "C68",
   "status": "proved",
   "theorems": [
    "C68_never_crashes",
    "C68_every_frame"
   ],
   "note": "Conditions are on the source document. kurbo_paths: kurbo starts rectangles and ellipses with a move-to (kurbo is not modelled)."
  },
  {
   "property": "C69",
   "status": "partial",
   "theorems": [
    "C69_kept",
    "C69_unique",
    "C69_inside",
    "C69_joined",
    "C69_only_parts_partial",
    "C69_refuted",
    "C69_exact"
   ],
   "note": "REFUTED for outlines of several sub-paths: trimming two separate lines to 75% draws a connecting line which is part of neither (witness), because a new sub-path is started once per range only. Proved: the elements drawn are those of the unique list of parts kept for each range (TrimSpec.v); whole segments between the distances are kept whole; read back, every part is one segment that begins where the part in front of it in the same range ends; and for an outline in one connected piece, cut exactly at its ends, the segments drawn are exactly the kept parts. Arc length and its inverse are the curve library's: their laws (arc_laws, end_laws) are hypotheses, met by straight lines. Exactly (C69_exact): the segments drawn are the parts kept if and only if segments kept one after the other in a range meet."
  },
  {
   "property": "C70",
   "status": "proved",
   "theorems": [
    "C70_hits",
    "C70_outermost",
    "C70_layers",
    "C70_topmost",
    "C70_forward"
   ],
   "note": "Bounding boxes of outlines are kurbo's (any function). Layers with the same name as a layer of the composition but inside a precomposition count to the layer around them. Not modelled: the conversion of the cursor position to scene coordinates and the overlays."
  },
  {
   "property": "C71",
   "status": "partial",
   "theorems": [
    "C71_loops",
    "C71_from_zero_partial",
    "C71_refuted",
    "C71_close"
   ],
   "note": "REFUTED when the range does not start at 0: at 25 frames per second, frames 10 to 39, after 1.16 s the frame is rounded up to the end of the range and nothing is drawn (witness). Proved: the frame is the remainder of whole rounds plus the start, within the closed range; before the end if the range starts at 0. C71_close: the end is shown exactly if the remainder plus the start rounds to it, which takes a distance of less than 2^-52 of its size (plus one)."
  },
  {
   "property": "C72",
   "status": "partial",
   "theorems": [
    "C72_window",
    "C72_bars_partial",
    "C72_refuted",
    "C72_crash",
    "C72_heights"
   ],
   "note": "REFUTED for the graph: an average below 0.75 ms with one sample more than three times as long crashes (99 x 0.1 ms, then 10 ms), and right after a reset the bars have height NaN (witnesses). Proved: window, sum, number and extremes for all histories without a crash; the bars outside of these cases. Exactly: the graph crashes if the average is below 0.75 ms and a frame since the reset took more than three times the average, and only if one took at least that; without a crash all bars have heights in [0,1] if a frame since the reset took any time, otherwise all are NaN."
  },
  {
   "property": "C73",
   "status": "partial",
   "theorems": [
    "C73_fingers",
    "C73_no_jump",
    "C73_movement",
    "C73_refuted",
    "C73_viewer",
    "C73_zoom"
   ],
   "note": "REFUTED in two points: a single finger is reported too although the documentation says at least two, and two fingers at the same place have a NaN zoom factor (witnesses). Proved: reports exactly if any finger is down, number and centre, comparison with the last frame, neutral values (or NaN) when fingers change or rest. C73_viewer: in the viewer, the fingers that do not navigate are those reported. C73_zoom: of two fingers that are at the same place or at least 16 pixels apart, the zoom is finite exactly if they were apart in the last frame, infinite exactly if they part, and NaN exactly if they stay at the same place."
  },
  {
   "property": "C74",
   "status": "partial",
   "theorems": [
    "C74_runs",
    "C74_shown",
    "C74_start",
    "C74_first",
    "C74_refuted",
    "C74_exact"
   ],
   "note": "REFUTED without any scenes (an empty directory on the command line) and for the least i32 as first scene: crash (witnesses). Proved for all histories with at least one scene and fewer events than there are i32 numbers. C74_exact: without scenes a session crashes exactly if it has a redraw. The statistics panel, drawn in the same redraw and shown from the start, is not part of this: it can crash the viewer, exactly as C99 says."
  },
  {
   "property": "C75",
   "status": "partial",
   "theorems": [
    "C75_not_in_gestures",
    "C75_independent_partial",
    "C75_refuted",
    "C75_exact"
   ],
   "note": "REFUTED: lifting a navigation finger is forwarded to the gesture code and makes the movement of other fingers in that frame disappear (witness). Proved: it is never part of a gesture; gestures are unchanged as long as it is not lifted. Exactly: with and without a finger that navigates the same is reported in every frame, except in a frame in which it is lifted, where the fingers and their centre are the same and no movement is reported (C75_exact)."
  },
  {
   "property": "C76",
   "status": "partial",
   "theorems": [
    "C76_named",
    "C76_last_part",
    "C76_never_overwrites",
    "C76_counts",
    "C76_limit",
    "C76_success_partial",
    "C76_complete",
    "C76_announced",
    "C76_defaults",
    "C76_refuted",
    "C76_exact",
    "C76_leaves",
    "C76_repairs"
   ],
   "note": "REFUTED: a download that fails leaves a cut-off file, which is never repaired because default files that exist are not downloaded again (witness). The rest is proved; a broken connection is also taken for success if it breaks exactly at the size limit. C76_complete and C76_defaults: with a server that has the files, all missing ones are downloaded. Exactly: C76_exact says when a download succeeds, C76_leaves what a failed one leaves behind (a file if and only if it got as far as creating one), C76_repairs that with such a file no later download succeeds."
  },
  {
   "property": "C77",
   "status": "proved",
   "theorems": [
    "C77_layer",
    "C77_group",
    "C77_rigid"
   ],
   "note": "For positions and anchors up to 8192, scales up to 1600 %, angles up to 16384 degrees and skews up to 60 degrees; sin, cos and tan assumed accurate to 2^-45 (`accurate`)."
  },
  {
   "property": "C78",
   "status": "proved",
   "theorems": [
    "C78_outline"
   ],
   "note": "For ordinary ranges (stated in the theorem), with sin and cos assumed accurate to 2^-45."
  },
  {
   "property": "C79",
   "status": "proved",
   "theorems": [
    "C79_number",
    "C79_pair",
    "C79_point",
    "C79_color",
    "C79_opacity",
    "C79_one_height",
    "C79_linear",
    "C79_no_overshoot"
   ],
   "note": "Curve within 10^-8, values within 10^-6 for values up to 2^20, handles up to 4 (first coordinate) and 16 (second). The cubic solver of kurbo is assumed to find a zero when there is a sign change, and zeros up to 10^-9 (`solves`)."
  },
  {
   "property": "C80",
   "status": "proved",
   "theorems": [
    "C80_family",
    "C80_deep"
   ],
   "note": "C80_deep: chains of any length n with n^2 times the total enlargement at most 2000, slants up to 60 degrees (`plain_posture`). C80_family: the case of up to eight ancestors, none slanted, each stretched by at most 100 %; anchors and positions up to 4096, the caller's map with entries up to 4: within a hundredth of a pixel. Sine and cosine of the mathematical library are assumed accurate to 2^-45 (`accurate`). Chains of any length, as exact products of matrices: C08."
  },
  {
   "property": "C81",
   "status": "partial",
   "theorems": [
    "C81_between_partial",
    "C81_two_stops_partial",
    "C81_ends_partial",
    "C81_refuted",
    "C81_exact",
    "C81_outside"
   ],
   "note": "REFUTED twice: with three opacity stops the least inner opacity wins everywhere (1, 0, 1 gives 0 at 1/4), and below 10 % or above 90 % of the gradient the opacity is not blended in the outer quarters (witnesses for every solver). Proved: with two opacity stops and between 11 % and 89 % the imported opacity is the blended one up to 1/10000; with more it is the least of the blended one and the inner opacities; at both ends it is the opacity of the nearer stop. Exactly, at every offset: between two opacity stops the imported opacity is the least of all inner opacities and of a ramp that is the straight line except that it is flat in its first quarter below 10 % and in its last quarter above 90 % (C81_exact; not within 10^-12 of the corners); outside of the opacity stops it is the least of the nearest and the inner ones, and a single opacity stop is ignored (C81_outside)."
  },
  {
   "property": "C82",
   "status": "proved",
   "theorems": [
    "C82_painted",
    "C82_clipped",
    "C82_complete",
    "C82_masks",
    "C82_painted_clear",
    "C82_clipped_any",
    "C82_complete_layer",
    "C82_masks_any"
   ],
   "note": "Quantifies over oracles whose sine, cosine and tangent are off by at most 2^-45 (accurate) and whose rounded rectangles and ellipses are proper paths (kurbo_paths). Tidy shape lists are needed because of the merging of paths refuted in C14; the opacity of gradient styles is 100, as the importer does not read it (C52). Values of properties with keyframes out of order are left open, as in C55. The theorems ending in _clear, _any and _layer drop that condition as far as possible: what is painted is described for layers that are tidy or have no trims, clips and masks for all layers, and completeness needs only the layer itself to be tidy and without trims."
  },
  {
   "property": "C83",
   "status": "partial",
   "theorems": [
    "C83_refuted",
    "C83_linear",
    "C83_held",
    "C83_before",
    "C83_after",
    "C83_straight_partial",
    "C83_exact"
   ],
   "note": "REFUTED as stated: the easing of the keyframes of a path is ignored; the outline always moves at a steady pace (a point going from 0 to 100 with a slow start is at 25 after a quarter of the time, where the curve is below 19). Proved for every path and mask with keyframes: steady pace between two keyframes, hold, before the first and after the last keyframe; with straight easing that is the easing curve (C83_straight_partial). After the last keyframe, if that is held, its own start is shown. Exactly (C83_exact): each vertex misses the place where any other progress y would put it by |y - elapsed time| of its way, so it follows the easing where that equals the elapsed time, or where the vertex rests."
  },
  {
   "property": "C84",
   "status": "proved",
   "theorems": [
    "C84_between",
    "C84_before",
    "C84_after"
   ],
   "note": "C84_between needs a cubic solver that finds roots (solves). The opacity of a stop at a keyframe is that of C43 and C81 (stop_opacity). Held gradients are C26."
  },
  {
   "property": "C85",
   "status": "proved",
   "theorems": [
    "C85_snapshot",
    "C85_bars"
   ],
   "note": "The counts behind the figures are C72's. Within one part in 10^11 of three times the average, either scale may be chosen."
  },
  {
   "property": "C86",
   "status": "proved",
   "theorems": [
    "C86_centre",
    "C86_translation",
    "C86_zoom",
    "C86_axes"
   ],
   "note": "C86_zoom and C86_axes need a hypotenuse correct to 10^-7 (pythagoras; E_pythagoras is one). Quotients are claimed when the fingers were at least one pixel from their middle; a gesture that began with two fingers within a thousandth of a pixel of three to one may be of either kind. A gesture begins at the first frame with any finger down: one that begins with a single finger is never one-sided. Rotation is not claimed."
  },
  {
   "property": "C87",
   "status": "proved",
   "theorems": [
    "C87_drag",
    "C87_wheel",
    "C87_turn",
    "C87_gesture",
    "C87_still",
    "C87_reset"
   ],
   "note": "C87_wheel needs powers of 1.05 correct to 10^-12 (powers; E_powers is such), C87_turn and C87_gesture a sine and cosine correct to 10^-12 (accurate). Wheel enlargements up to 16, gesture zooms up to 4 between two frames. The figures of the gesture are C86's."
  },
  {
   "property": "C88",
   "status": "proved",
   "theorems": [
    "C88_switches"
   ],
   "note": ""
  },
  {
   "property": "C89",
   "status": "proved",
   "theorems": [
    "C89_box",
    "C89_layer",
    "C89_fits",
    "C89_overlay",
    "C89_labels"
   ],
   "note": "C89_layer: entries of the whole map up to 32, translation up to 32768, areas enlarged at least 1/64-fold."
  },
  {
   "property": "C90",
   "status": "partial",
   "theorems": [
    "C90_exact",
    "C90_order_partial",
    "C90_refuted"
   ],
   "note": "REFUTED: two json files of a directory whose names differ only in case come in the order the system lists them (witness). C90_exact says which scenes are offered and in which order, in both directions; C90_order_partial that the order does not depend on the system when no two names are the same in lower case. Lower-casing is any function; paths end in a plain name."
  },
  {
   "property": "C91",
   "status": "proved",
   "theorems": [
    "C91_glyphs",
    "C91_place",
    "C91_starts"
   ],
   "note": "The font (character map, advances, line height) is given."
  },
  {
   "property": "C92",
   "status": "proved",
   "theorems": [
    "C92_paints"
   ],
   "note": "For all trees of groups, geometry and draws, with no condition about clashes (compare C14)."
  },
  {
   "property": "C93",
   "status": "partial",
   "theorems": [
    "C93_two_fingers",
    "C93_stays_partial",
    "C93_one_finger",
    "C93_refuted"
   ],
   "note": "REFUTED: the viewer enlarges and turns about the new middle of the fingers instead of the old one, so the picture slips when two fingers move apart and along at once (witness: 150 pixels). Proved to 1/500 of a pixel: exactly where the picture goes for any movement of two fingers (C93_two_fingers, with the slip as a formula); it stays under them if their middle rests or they move alike; it stays under a single finger. The library's lengths and directions are assumed good to 10^-11 (keen; an instance is given)."
  },
  {
   "property": "C94",
   "status": "proved",
   "theorems": [
    "C94_placed",
    "C94_shaded"
   ],
   "note": "C94_placed: everything in front of the repeater is painted where each copy belongs and nowhere else (real numbers, to 1/1000 of a pixel, for placements with entries up to 64 and translations up to 65536). C94_shaded: fills and strokes directly followed by the repeater; each pass over the copies has the brush at the opacity of the draw times that of the copy, to 10^-10, and a pass is left out only if that copy is transparent. The library's sine, cosine and powers are assumed accurate (accurate, raises; an instance is given). That every pass covers all copies is C17."
  },
  {
   "property": "C95",
   "status": "partial",
   "theorems": [
    "C95_exact",
    "C95_own_file_partial",
    "C95_address",
    "C95_default_names",
    "C95_shown",
    "C95_refuted"
   ],
   "note": "REFUTED: names that differ only after a dot share a file (v1.2 and v1.3 are both stored as v1.json and offered as v1), and an address that ends in a slash has an empty name, whose file is next to the directory (witnesses). C95_exact says which file a name gets and when two share one; C95_own_file_partial is the statement for names without dots and slashes; C95_shown follows the 344 default downloads from the server to the list of the viewer. The table of default downloads is copied from the source (Store.v)."
  },
  {
   "property": "C96",
   "status": "proved",
   "theorems": [
    "C96_poster",
    "C96_figure"
   ],
   "note": "The whole path from a JSON value to the calls of vello's scene, for a family of documents (static properties, one figure per group). kurbo_paths: kurbo starts rectangles and ellipses with a move-to. Numbers to 10^-10 and 1/100 of a pixel for an accurate sine and cosine. C41's default scale does not matter: the documents give every member of a transform."
  },
  {
   "property": "C97",
   "status": "proved",
   "theorems": [
    "C97_rules",
    "C97_frame",
    "C97_unique",
    "C97_document"
   ],
   "note": "LookSpec.v: the rules of FrameSpec.v with the painting of shape layers left open. C97_rules holds of every composition. C97_frame and C97_document do not assume what C67 and C68_every_frame do (that the outlines of different groups do not meet); layers with trims are described when they have no such clash (C19)."
  },
  {
   "property": "C98",
   "status": "proved",
   "theorems": [
    "C98_panel",
    "C98_run",
    "C98_bars",
    "C98_reads",
    "C98_fits"
   ],
   "note": "Places up to a millionth of a pixel, text sizes up to 1/10000. Assumes that the scale is not within 10^-9 ms of one of the three lines. The texts are kept as kind and figure: their wording is not modelled. Right after a reset of the extremes the scale is 0 and the bars have no height (C72_heights)."
  },
  {
   "property": "C99",
   "status": "partial",
   "theorems": [
    "C99_crash",
    "C99_frame",
    "C99_refuted"
   ],
   "note": "REFUTED for crashes: the panel is shown from the start, and 99 frames of 0.1 ms, one of 10 ms and one more frame crash the viewer (C99_refuted, witness). C99_crash is exact: a session crashes if and only if at some redraw the panel is shown and its graph has no scale (C72_crash says when in milliseconds); otherwise it is the session of C74, frame for frame. The rest is proved as stated (C99_frame). Sizes of the window and memory figures are inputs."
  },
  {
   "property": "C100",
   "status": "proved",
   "theorems": [
    "C100_film",
    "C100_place",
    "C100_steady"
   ],
   "note": "C100_film: from the JSON to the scene of every frame, for every cubic solver that solves (solves, an instance is E_solves) and kurbo outlines that are paths (kurbo_paths). The values of a moment are the relation moment of FilmSpec.v (to 10^-6 between keyframes). C100_place: where shapes are on the screen (values up to 8191, handles without overshoot, sine and cosine good to 10^-12). C100_steady: straight handles mean a steady pace. Colours do not move here (see C79_color)."
  },
  {
   "property": "C101",
   "status": "proved",
   "theorems": [
    "C101_reads",
    "C101_accepts",
    "C101_only",
    "C101_one",
    "C101_twice",
    "C101_neighbour",
    "put_lookup"
   ],
   "note": "C101_reads: text whose numbers have digits below 2^53 and powers of ten up to 22 either way (or are whole and fit 64 bits) is read as exactly the value it stands for. C101_accepts: any digits of a u64 and powers up to 280 are read, to within 2^-51 of their size. C101_only: nothing but JSON text of at most 127 levels is accepted. C101_twice: members of the document that occur twice are an error; elsewhere the last one counts (put_lookup, distinct_names in the other theorems). C101_neighbour: serde_json without float_roundtrip does not read 0.9728340843400927 as the closest double. The reader is modelled from knowledge of serde_json 1.0.150; unknown members of markers and \"meta\" are read like all others (the program skips them more leniently)."
  },
  {
   "property": "C102",
   "status": "partial",
   "theorems": [
    "C102_back",
    "C102_exact",
    "C102_short",
    "C102_deep",
    "C102_document",
    "C102_names",
    "C102_refuted",
    "C102_proper"
   ],
   "note": "Refuted as it stands (C102_refuted): a document of more than 127 levels is written but cannot be read, and a double whose shortest digits are read as its neighbour comes back changed. C102_exact says exactly when a value is read back (127 levels, every double survives); C102_short: doubles of few digits survive. C102_document: from the document that was read to the composition of the text that was written. How doubles are written is a parameter (shows: a decimal number of which it is the closest double; instances plain_shows, neat_shows). C102_proper, C102_names: no name is written twice."
  },
  {
   "property": "C103",
   "status": "proved",
   "theorems": [
    "C103_order",
    "C103_layer",
    "C103_shape",
    "C103_text",
    "C103_backwards",
    "C103_refuted"
   ],
   "note": "OrderSpec.shuffled: other orders of members at any depth, no name twice. C103_backwards: for instance all objects written backwards. C103_refuted: without the condition on names it is false, shown with two texts."
  },
  {
   "property": "C104",
   "status": "proved",
   "theorems": [
    "C104_file",
    "C104_same"
   ],
   "note": "PropFile.file_of says which texts are files of a film: alike (AlikeSpec.v, integers for doubles), shuffled (OrderSpec.v), padded with unknown members (SerdeSpec.v), text of the grammar with numbers of few digits (TextSpec.v). What is drawn is FilmSpec.film_now and poster_scene, as in C100. Example C104_applies: a file of 1182 characters."
  },
  {
   "property": "C105",
   "status": "partial",
   "theorems": [
    "C105_first",
    "C105_caps",
    "C105_second_unused",
    "C105_refuted",
    "C105_exact"
   ],
   "note": "REFUTED: with two opacity stops at one offset the first counts on both sides of the edge (C105_refuted: a colour stop behind the edge is imported with opacity 0 though the second says 1). Proved, for every gradient with fixed colours: when they are the only two, every colour stop has exactly the first's opacity (C105_first); wherever they are, no colour stop has more (C105_caps); when they are the last two the second has no influence (C105_second_unused). Exactly, for opacity stops in any weak order (C105_exact, covering C81 as well): the imported opacity is the least of 1 and of what each two neighbouring opacity stops say, up to 1/50000: the first's opacity at an edge and in front of both, the second's behind both, the ramp of C81 in between."
  },
  {
   "property": "C106",
   "status": "proved",
   "theorems": [
    "C106_same"
   ],
   "note": "PropSplit.says_same: both fixed, or keyframes at the same times with the same holds and easing (one value per handle, as number or list of one; both handles or none). Layers only: in groups a split position is refused (C38)."
  },
  {
   "property": "C107",
   "status": "partial",
   "theorems": [
    "C107_lost",
    "C107_number",
    "C107_refuted"
   ],
   "note": "REFUTED for positions, points, sizes, scales and colours: a handle without the other one has no effect, whatever it is (C107_lost), so with any cubic solver that solves a position is visibly not where it is with the missing handles filled in (C107_refuted). Proved for all numbers (rotation, opacity, widths, coordinates of split positions, ...): C107_number."
  }
 ]
}