(** Generated by tools/mkaudit.py: the assumptions of every theorem named in
    MANIFEST.json. *)
From Verif Require Import PropAlpha PropBars PropBatch PropCamera PropCrash PropCursor PropDepth PropDocument PropDownload PropDownload2 PropEase PropEasing PropEdge PropEdges PropFamily PropFigures PropFile PropFilm PropFingers PropFrame PropGaps PropGeometry PropGrip PropHeld PropImport PropImport2 PropJson PropJsonText PropLabels PropLast PropLone PropLook PropMembers PropMerge PropMorph PropNav PropNest PropNest2 PropNull PropOrder PropPanel PropPick PropPinch PropPlayer PropPoster PropRender PropRepeat PropScenes PropSerde PropSerde2 PropSession PropSpan PropSplit PropStar PropStats PropStore PropStyles PropSwitch PropText PropTouch PropTrim PropTrim2 PropTrimmed PropTrip PropValue PropVerge PropViewer PropWritten.
Print Assumptions C01_balanced.
Print Assumptions C01_prefix.
Print Assumptions C02_reuse.
Print Assumptions C03_refuted.
Print Assumptions C03_panic_safe_partial.
Print Assumptions C03_stale.
Print Assumptions C03_exact.
Print Assumptions C04_window.
Print Assumptions C04_inactive.
Print Assumptions C04_window_reals.
Print Assumptions C04_nan.
Print Assumptions C05_back_to_front.
Print Assumptions C05_groups.
Print Assumptions enumerate_spec.
Print Assumptions C06_matte.
Print Assumptions C07_masks.
Print Assumptions C08_parent_chain.
Print Assumptions C08_acyclic_chain.
Print Assumptions C09_cycles.
Print Assumptions C10_terminates.
Print Assumptions C10_depth.
Print Assumptions C10_budget_irrelevant.
Print Assumptions C11_refuted.
Print Assumptions C11_partial.
Print Assumptions C11_depth.
Print Assumptions C11_exact.
Print Assumptions C11_deep.
Print Assumptions C12_implicit_mattes.
Print Assumptions C12_precomps.
Print Assumptions C13_no_panic.
Print Assumptions C13_fixed.
Print Assumptions C13_spline.
Print Assumptions C13_star.
Print Assumptions C13_rect.
Print Assumptions C13_ellipse.
Print Assumptions C13_star_limit.
Print Assumptions C14_refuted.
Print Assumptions C14_draws_geometry_above_partial.
Print Assumptions C14_refinement_partial.
Print Assumptions C14_exact.
Print Assumptions C15_reverse_order.
Print Assumptions C15_document_order.
Print Assumptions C16_layer_opacity.
Print Assumptions C16_shape_layer.
Print Assumptions C17_refuted.
Print Assumptions C17_count_partial.
Print Assumptions C17_zero_copies.
Print Assumptions C17_copies_partial.
Print Assumptions C17_copies.
Print Assumptions C18_trim_own_group.
Print Assumptions C18_trim_alone.
Print Assumptions C18_group_isolated.
Print Assumptions C19_refuted.
Print Assumptions C19_erased_partial.
Print Assumptions C19_erased_then_draws.
Print Assumptions C19_full_trim.
Print Assumptions C19_full_trim_percent.
Print Assumptions C19_exact.
Print Assumptions C19_stays.
Print Assumptions C19_returns.
Print Assumptions C19_wide.
Print Assumptions C19_nearly.
Print Assumptions C20_ranges.
Print Assumptions C20_symmetric.
Print Assumptions C21_precomp.
Print Assumptions C21_missing_asset.
Print Assumptions C22_ignored_fields.
Print Assumptions C23_refuted.
Print Assumptions C23_bracket_partial.
Print Assumptions C23_weight_partial.
Print Assumptions C23_exact.
Print Assumptions C24_at_keyframe.
Print Assumptions C24_at_last_keyframe.
Print Assumptions C25_before_first.
Print Assumptions C25_after_last.
Print Assumptions C26_hold.
Print Assumptions C26_spline_partial.
Print Assumptions C26_spline_refuted.
Print Assumptions C26_gradient_colors_partial.
Print Assumptions C26_gradient_refuted.
Print Assumptions C26_spline_exact.
Print Assumptions C26_gradient_exact.
Print Assumptions C27_well_formed.
Print Assumptions C27_no_default.
Print Assumptions C27_scalar.
Print Assumptions C28_transform.
Print Assumptions C28_stroke.
Print Assumptions C28_repeater.
Print Assumptions C28_trim.
Print Assumptions C28_brush.
Print Assumptions C28_star.
Print Assumptions C28_fixed.
Print Assumptions C28_same.
Print Assumptions C29_refuted.
Print Assumptions C29_finite_partial.
Print Assumptions C29_exact.
Print Assumptions C30_static.
Print Assumptions C30_empty.
Print Assumptions C30_interpolated.
Print Assumptions C30_animated_total.
Print Assumptions C31_count.
Print Assumptions C31_complete.
Print Assumptions C32_endpoints.
Print Assumptions C33_outline.
Print Assumptions C33_empty.
Print Assumptions C34_layer_list.
Print Assumptions C35_parents.
Print Assumptions C35_no_parent.
Print Assumptions C36_mattes.
Print Assumptions C37_hidden.
Print Assumptions C37_draws_nothing.
Print Assumptions C38_supported.
Print Assumptions C38_independent.
Print Assumptions C39_shapes.
Print Assumptions C39_count.
Print Assumptions C40_bezier.
Print Assumptions C40_surplus.
Print Assumptions C41_omitted_partial.
Print Assumptions C41_refuted.
Print Assumptions C42_static_stops.
Print Assumptions C42_imported.
Print Assumptions C42_animated_count.
Print Assumptions C43_on_stop_partial.
Print Assumptions C43_two_stops_partial.
Print Assumptions C43_refuted.
Print Assumptions C43_exact.
Print Assumptions C44_flag_ignored.
Print Assumptions C44_refuted.
Print Assumptions C45_dispatch.
Print Assumptions C45_otherwise_error.
Print Assumptions C45_not_an_object.
Print Assumptions C46_no_failure.
Print Assumptions C46_spline.
Print Assumptions C46_read.
Print Assumptions C46_read_no_failure.
Print Assumptions C47_bool_int.
Print Assumptions C47_blend.
Print Assumptions C47_matte_mode.
Print Assumptions C47_line_cap.
Print Assumptions C47_line_join.
Print Assumptions C47_fill_rule.
Print Assumptions C47_gradient_type.
Print Assumptions C47_star_type.
Print Assumptions C47_shape_direction.
Print Assumptions C47_merge_mode.
Print Assumptions C47_composite.
Print Assumptions C47_trim_multiple.
Print Assumptions C47_mask_mode.
Print Assumptions C47_dash_type.
Print Assumptions C47_font_path_origin.
Print Assumptions C47_text_grouping.
Print Assumptions C47_text_range_units.
Print Assumptions C47_text_shape.
Print Assumptions C47_text_caps.
Print Assumptions C47_text_justify.
Print Assumptions C47_text_based.
Print Assumptions C47_style_type.
Print Assumptions C48_document_partial.
Print Assumptions C48_layer.
Print Assumptions C48_shape.
Print Assumptions C48_refuted.
Print Assumptions C48_exact.
Print Assumptions C49_vello_balanced.
Print Assumptions C49_vello_draws.
Print Assumptions C49_vello_transcribes.
Print Assumptions C53_scopes_independent.
Print Assumptions C54_layer_contents.
Print Assumptions C50_layer.
Print Assumptions C50_group.
Print Assumptions C50_fill.
Print Assumptions C50_stroke.
Print Assumptions C50_trim.
Print Assumptions C50_mask_opacity.
Print Assumptions C50_time_remap.
Print Assumptions C51_last_component_partial.
Print Assumptions C51_refuted.
Print Assumptions C51_exact.
Print Assumptions C52_solid_partial.
Print Assumptions C52_gradient.
Print Assumptions C52_refuted.
Print Assumptions C55_layer.
Print Assumptions C55_scale_about_anchor.
Print Assumptions C56_rectangle.
Print Assumptions C56_ellipse.
Print Assumptions C56_gradient.
Print Assumptions C57_agree.
Print Assumptions C57_supported.
Print Assumptions C57_reflexive.
Print Assumptions C58_unknown_members.
Print Assumptions C58_layer.
Print Assumptions C58_shape.
Print Assumptions C58_known_part.
Print Assumptions C59_null_partial.
Print Assumptions C59_refuted.
Print Assumptions C59_null.
Print Assumptions C59_asset_exact.
Print Assumptions C60_styles.
Print Assumptions C60_type_required.
Print Assumptions C60_members_base.
Print Assumptions C60_members_color_overlay.
Print Assumptions C60_members_gradient_overlay.
Print Assumptions C60_members_outer_glow.
Print Assumptions C60_members_satin.
Print Assumptions C61_number.
Print Assumptions C61_string.
Print Assumptions C61_boolean.
Print Assumptions C61_unsigned.
Print Assumptions C61_sizes.
Print Assumptions C61_array.
Print Assumptions C61_vertex.
Print Assumptions C61_property_value.
Print Assumptions C61_position_value.
Print Assumptions C61_position_or_split.
Print Assumptions C61_rotation_or_split.
Print Assumptions C61_handle_component.
Print Assumptions C61_path_keyframes.
Print Assumptions C61_path_value.
Print Assumptions C61_simple_values.
Print Assumptions C61_color_values.
Print Assumptions C61_keyframe_bezier_handle.
Print Assumptions C61_keyframe_base.
Print Assumptions C61_keyframe.
Print Assumptions C61_animated_property.
Print Assumptions C61_multi_dimensional.
Print Assumptions C61_gradient_colors.
Print Assumptions C61_position_keyframe.
Print Assumptions C61_position.
Print Assumptions C61_split_vector.
Print Assumptions C61_bezier.
Print Assumptions C61_shape_keyframe.
Print Assumptions C61_shape_property.
Print Assumptions C61_visual_object.
Print Assumptions C61_slottable_object.
Print Assumptions C61_marker.
Print Assumptions C61_transform.
Print Assumptions C61_mask.
Print Assumptions C61_graphic_element_shape.
Print Assumptions C61_shape.
Print Assumptions C61_shape_style_shape.
Print Assumptions C61_stroke_dash_shape.
Print Assumptions C61_base_stroke_shape.
Print Assumptions C61_base_gradient_shape.
Print Assumptions C61_transform_shape.
Print Assumptions C61_repeater_transform_shape.
Print Assumptions C61_layer.
Print Assumptions C61_visual_layer.
Print Assumptions C61_asset.
Print Assumptions C61_file_asset.
Print Assumptions C61_meta.
Print Assumptions C61_animation.
Print Assumptions C61_group_shape.
Print Assumptions C61_rectangle_shape.
Print Assumptions C61_ellipse_shape.
Print Assumptions C61_stroke_shape.
Print Assumptions C61_pucker_bloat_shape.
Print Assumptions C61_merge_shape.
Print Assumptions C61_repeater_shape.
Print Assumptions C61_offset_path_shape.
Print Assumptions C61_fill_shape.
Print Assumptions C61_trim_path_shape.
Print Assumptions C61_path_shape.
Print Assumptions C61_gradient_fill_shape.
Print Assumptions C61_gradient_stroke_shape.
Print Assumptions C61_twist_shape.
Print Assumptions C61_rounded_corners_shape.
Print Assumptions C61_poly_star_shape.
Print Assumptions C61_transform_item.
Print Assumptions C61_precomposition_layer.
Print Assumptions C61_solid_layer.
Print Assumptions C61_image_layer.
Print Assumptions C61_null_layer.
Print Assumptions C61_shape_layer.
Print Assumptions C61_image.
Print Assumptions C61_precomposition.
Print Assumptions C61_other_assets.
Print Assumptions C61_by_position.
Print Assumptions C61_only_objects.
Print Assumptions C62_outcome.
Print Assumptions C62_header.
Print Assumptions C62_required.
Print Assumptions C62_layers.
Print Assumptions C62_precompositions.
Print Assumptions C63_draws_nothing.
Print Assumptions C63_refuted.
Print Assumptions C64_ignored.
Print Assumptions C64_refuted.
Print Assumptions C65_only_mattes.
Print Assumptions C65_opaque.
Print Assumptions C65_ignored.
Print Assumptions C65_refuted.
Print Assumptions C66_clips.
Print Assumptions C66_ignored.
Print Assumptions C66_refuted.
Print Assumptions C67_reference.
Print Assumptions C67_unique.
Print Assumptions C67_total.
Print Assumptions C68_never_crashes.
Print Assumptions C68_every_frame.
Print Assumptions C69_kept.
Print Assumptions C69_unique.
Print Assumptions C69_inside.
Print Assumptions C69_joined.
Print Assumptions C69_only_parts_partial.
Print Assumptions C69_refuted.
Print Assumptions C69_exact.
Print Assumptions C70_hits.
Print Assumptions C70_outermost.
Print Assumptions C70_layers.
Print Assumptions C70_topmost.
Print Assumptions C70_forward.
Print Assumptions C71_loops.
Print Assumptions C71_from_zero_partial.
Print Assumptions C71_refuted.
Print Assumptions C71_close.
Print Assumptions C72_window.
Print Assumptions C72_bars_partial.
Print Assumptions C72_refuted.
Print Assumptions C72_crash.
Print Assumptions C72_heights.
Print Assumptions C73_fingers.
Print Assumptions C73_no_jump.
Print Assumptions C73_movement.
Print Assumptions C73_refuted.
Print Assumptions C73_viewer.
Print Assumptions C73_zoom.
Print Assumptions C74_runs.
Print Assumptions C74_shown.
Print Assumptions C74_start.
Print Assumptions C74_first.
Print Assumptions C74_refuted.
Print Assumptions C74_exact.
Print Assumptions C75_not_in_gestures.
Print Assumptions C75_independent_partial.
Print Assumptions C75_refuted.
Print Assumptions C75_exact.
Print Assumptions C76_named.
Print Assumptions C76_last_part.
Print Assumptions C76_never_overwrites.
Print Assumptions C76_counts.
Print Assumptions C76_limit.
Print Assumptions C76_success_partial.
Print Assumptions C76_complete.
Print Assumptions C76_announced.
Print Assumptions C76_defaults.
Print Assumptions C76_refuted.
Print Assumptions C76_exact.
Print Assumptions C76_leaves.
Print Assumptions C76_repairs.
Print Assumptions C77_layer.
Print Assumptions C77_group.
Print Assumptions C77_rigid.
Print Assumptions C78_outline.
Print Assumptions C79_number.
Print Assumptions C79_pair.
Print Assumptions C79_point.
Print Assumptions C79_color.
Print Assumptions C79_opacity.
Print Assumptions C79_one_height.
Print Assumptions C79_linear.
Print Assumptions C79_no_overshoot.
Print Assumptions C80_family.
Print Assumptions C80_deep.
Print Assumptions C81_between_partial.
Print Assumptions C81_two_stops_partial.
Print Assumptions C81_ends_partial.
Print Assumptions C81_refuted.
Print Assumptions C81_exact.
Print Assumptions C81_outside.
Print Assumptions C82_painted.
Print Assumptions C82_clipped.
Print Assumptions C82_complete.
Print Assumptions C82_masks.
Print Assumptions C82_painted_clear.
Print Assumptions C82_clipped_any.
Print Assumptions C82_complete_layer.
Print Assumptions C82_masks_any.
Print Assumptions C83_refuted.
Print Assumptions C83_linear.
Print Assumptions C83_held.
Print Assumptions C83_before.
Print Assumptions C83_after.
Print Assumptions C83_straight_partial.
Print Assumptions C83_exact.
Print Assumptions C84_between.
Print Assumptions C84_before.
Print Assumptions C84_after.
Print Assumptions C85_snapshot.
Print Assumptions C85_bars.
Print Assumptions C86_centre.
Print Assumptions C86_translation.
Print Assumptions C86_zoom.
Print Assumptions C86_axes.
Print Assumptions C87_drag.
Print Assumptions C87_wheel.
Print Assumptions C87_turn.
Print Assumptions C87_gesture.
Print Assumptions C87_still.
Print Assumptions C87_reset.
Print Assumptions C88_switches.
Print Assumptions C89_box.
Print Assumptions C89_layer.
Print Assumptions C89_fits.
Print Assumptions C89_overlay.
Print Assumptions C89_labels.
Print Assumptions C90_exact.
Print Assumptions C90_order_partial.
Print Assumptions C90_refuted.
Print Assumptions C91_glyphs.
Print Assumptions C91_place.
Print Assumptions C91_starts.
Print Assumptions C92_paints.
Print Assumptions C93_two_fingers.
Print Assumptions C93_stays_partial.
Print Assumptions C93_one_finger.
Print Assumptions C93_refuted.
Print Assumptions C94_placed.
Print Assumptions C94_shaded.
Print Assumptions C95_exact.
Print Assumptions C95_own_file_partial.
Print Assumptions C95_address.
Print Assumptions C95_default_names.
Print Assumptions C95_shown.
Print Assumptions C95_refuted.
Print Assumptions C96_poster.
Print Assumptions C96_figure.
Print Assumptions C97_rules.
Print Assumptions C97_frame.
Print Assumptions C97_unique.
Print Assumptions C97_document.
Print Assumptions C98_panel.
Print Assumptions C98_run.
Print Assumptions C98_bars.
Print Assumptions C98_reads.
Print Assumptions C98_fits.
Print Assumptions C99_crash.
Print Assumptions C99_frame.
Print Assumptions C99_refuted.
Print Assumptions C100_film.
Print Assumptions C100_place.
Print Assumptions C100_steady.
Print Assumptions C101_reads.
Print Assumptions C101_accepts.
Print Assumptions C101_only.
Print Assumptions C101_one.
Print Assumptions C101_twice.
Print Assumptions C101_neighbour.
Print Assumptions put_lookup.
Print Assumptions C102_back.
Print Assumptions C102_exact.
Print Assumptions C102_short.
Print Assumptions C102_deep.
Print Assumptions C102_document.
Print Assumptions C102_names.
Print Assumptions C102_refuted.
Print Assumptions C102_proper.
Print Assumptions C103_order.
Print Assumptions C103_layer.
Print Assumptions C103_shape.
Print Assumptions C103_text.
Print Assumptions C103_backwards.
Print Assumptions C103_refuted.
Print Assumptions C104_file.
Print Assumptions C104_same.
Print Assumptions C105_first.
Print Assumptions C105_caps.
Print Assumptions C105_second_unused.
Print Assumptions C105_refuted.
Print Assumptions C105_exact.
Print Assumptions C106_same.
Print Assumptions C107_lost.
Print Assumptions C107_number.
Print Assumptions C107_refuted.
