(** Model of the Lottie document types in /repo/src/schema.

    Every field of every struct reachable from [Animation] is present, under
    a short prefixed name; comments give the Rust name and the JSON key where
    it is not obvious.  [usize] is an unbounded [nat], except the width and
    height of an animation, which are [Z] as in [Animated.composition].
    [serde_json::Value] is [json] below. *)
From Coq Require Import ZArith Bool List String.
From Verif Require Import F64.
Import ListNotations.

(** [serde_json::Value] and [Number] (without the [arbitrary_precision] and
    [preserve_order] features).  A [JInt] is an integer literal in the range
    of [u64] or [i64]; a [JFloat] is any other (finite) number.  An object is
    an association list; lookup takes the first entry.  *)
Inductive json :=
| JNull
| JBool (b : bool)
| JInt (n : Z)
| JFloat (x : f64)
| JStr (s : string)
| JArr (l : list json)
| JObj (fields : list (string * json)).

(** * Constants *)

(** helpers/int_boolean.rs:9-15 *)
Inductive bool_int := BIFalse | BITrue.
(** constants/blend_mode.rs:9-28 *)
Inductive s_blend :=
| SbNormal | SbMultiply | SbScreen | SbOverlay | SbDarken | SbLighten | SbColorDodge | SbColorBurn
| SbHardLight | SbSoftLight | SbDifference | SbExclusion | SbHue | SbSaturation | SbColor
| SbLuminosity | SbAdd | SbHardMix.
(** constants/matte_mode.rs:9-15 *)
Inductive matte_mode := MmNormal | MmAlpha | MmInvertedAlpha | MmLuma | MmInvertedLuma.
(** constants/mask_mode.rs:8-24 *)
Inductive mask_mode :=
| MkNone | MkAdd | MkSubtract | MkIntersect | MkLighten | MkDarken | MkDifference.
(** constants/line_cap.rs:9-16, line_join.rs:9-13 *)
Inductive line_cap := LcButt | LcRound | LcSquare.
(** constants/line_join.rs:9-13 *)
Inductive line_join := LjMiter | LjRound | LjBevel.
(** constants/fill_rule.rs:9-15, gradient_type.rs:9-12, star_type.rs:9-12 *)
Inductive fill_rule := FrNonZero | FrEvenOdd.
(** constants/gradient_type.rs:9-12 *)
Inductive gradient_type := GtLinear | GtRadial.
(** constants/star_type.rs:9-12 *)
Inductive star_type := StStar | StPolygon.
(** constants/shape_direction.rs:9-14, merge_mode.rs:9-15, composite.rs:9-12,
    trim_multiple_shapes.rs:9-14, stroke_dash_type.rs:8-15 *)
Inductive shape_direction := SdNormal | SdReversed.
(** constants/merge_mode.rs:9-15 *)
Inductive merge_mode := MgNormal | MgAdd | MgSubtract | MgIntersect | MgExclude.
(** constants/composite.rs:9-12 *)
Inductive composite := CpAbove | CpBelow.
(** constants/trim_multiple_shapes.rs:9-14 *)
Inductive trim_multiple := TmIndividually | TmSimultaneously.
(** constants/stroke_dash_type.rs:9-15 *)
Inductive dash_type := DtDash | DtGap | DtOffset.

(** * Animated properties *)

(** animated_properties/keyframe_bezier_handle.rs:8-29 *)
Inductive kf_component := KcArray (l : list f64) | KcSingle (x : f64).
(** animated_properties/keyframe_bezier_handle.rs:8-19 *)
Record kf_handle := mkKfHandle { kh_x : kf_component; kh_y : kf_component }.
(** animated_properties/keyframe_base.rs:11-29 *)
Record kf_base := mkKfBase {
  kb_time : f64;                    (* t *)
  kb_hold : option bool_int;        (* h *)
  kb_in : option kf_handle;         (* i *)
  kb_out : option kf_handle }.      (* o *)
(** animated_properties/keyframe.rs:10-22 *)
Record keyframe := mkKeyframe {
  kf_b : kf_base;                   (* base, flattened *)
  kf_value : list f64;              (* s *)
  kf_end : option (list f64) }.     (* e *)
(** animated_properties/animated_property.rs:11-41 *)
Inductive anim_k (T : Type) := AkAnimated (l : list keyframe) | AkStatic (v : T).
Arguments AkAnimated {T}. Arguments AkStatic {T}.
(** animated_properties/animated_property.rs:11-31 *)
Record anim_prop (T : Type) := mkAnimProp {
  ap_ix : option f64;               (* property_index *)
  ap_a : option bool_int;           (* animated *)
  ap_x : option string;             (* expression *)
  ap_sid : option string;           (* slot_id *)
  ap_k : anim_k T }.                (* value *)
Arguments mkAnimProp {T}. Arguments ap_ix {T}. Arguments ap_a {T}. Arguments ap_x {T}.
Arguments ap_sid {T}. Arguments ap_k {T}.
(** animated_properties/value.rs:11-14 [FloatValue], color_value.rs:10-13
    [ColorValue]: a single flattened field *)
Definition float_value := anim_prop f64.
(** animated_properties/color_value.rs:10-13 *)
Definition color_value := anim_prop (list f64).
(** animated_properties/multi_dimensional.rs:9-19 *)
Record multi_dim := mkMultiDim { md_p : anim_prop (list f64); md_l : option f64 }.
(** animated_properties/gradient_colors.rs:15-22 *)
Record gradient_colors := mkGradientColors { gc_k : multi_dim; gc_p : nat }.
(** animated_properties/position_keyframe.rs:9-20 *)
Record pos_keyframe := mkPosKeyframe {
  pk_kf : keyframe;                 (* keyframe, flattened *)
  pk_ti : option (list f64);
  pk_to : option (list f64) }.
(** animated_properties/position.rs:10-39 *)
Inductive position_k := PkAnimated (l : list pos_keyframe) | PkStatic (l : list f64).
(** animated_properties/position.rs:10-31 *)
Record s_position := mkSPosition {
  po_ix : option f64;
  po_a : option bool_int;
  po_x : option string;
  po_l : option f64;
  po_k : position_k }.
(** animated_properties/split_vector.rs:9-27 *)
Record split_vector := mkSplitVector {
  spv_s : bool; spv_x : float_value; spv_y : float_value; spv_z : option float_value }.
(** helpers/bezier.rs:10-27; a vertex [[f64; 2]] is a pair *)
Record bezier := mkBezier {
  bz_closed : option bool;          (* c *)
  bz_v : list (f64 * f64);
  bz_i : list (f64 * f64);
  bz_o : list (f64 * f64) }.
(** animated_properties/shape_keyframe.rs:10-25 *)
Record shape_keyframe := mkShapeKf {
  skf_b : kf_base;                  (* base, flattened *)
  skf_s : option (list bezier);     (* start *)
  skf_e : option (list bezier) }.   (* end *)
(** animated_properties/shape_property.rs:13-39 *)
Inductive shape_k := SkAnimated (l : list shape_keyframe) | SkStatic (b : bezier).
(** animated_properties/shape_property.rs:13-29 *)
Record shape_prop := mkShapeProp {
  sp_ix : option f64; sp_a : option bool_int; sp_x : option string; sp_k : shape_k }.

(** * Helpers *)

(** helpers/visual_object.rs:7-16 *)
Record visual_object := mkVisualObject { vo_nm : option string; vo_mn : option string }.
(** helpers/slottable_object.rs:8-13 *)
Record slottable := mkSlottable { slo_sid : option string }.
(** helpers/marker.rs:9-24 *)
Record marker := mkMarker { mr_cm : option string; mr_tm : option f64; mr_dr : option f64 }.
(** helpers/transform.rs:13-78 *)
Inductive any_p := ApPosition (p : s_position) | ApSplit (v : split_vector).
(** helpers/transform.rs:57-78 *)
Inductive any_r := ArRotation (v : float_value) | ArSplit (x y z : float_value) (o : multi_dim).
(** helpers/transform.rs:13-44 *)
Record s_transform := mkSTransform {
  tf_a : option s_position;         (* anchor_point *)
  tf_p : any_p;                     (* position *)
  tf_s : option multi_dim;          (* scale *)
  tf_r : option any_r;              (* rotation *)
  tf_sk : option float_value;       (* skew *)
  tf_sa : option float_value;       (* skew_axis *)
  tf_o : option float_value }.      (* opacity *)
(** helpers/mask.rs:17-52 *)
Record s_mask := mkSMask {
  mas_nm : option string;
  mas_mn : option string;
  mas_inv : option bool;
  mas_pt : option shape_prop;       (* shape *)
  mas_o : option float_value;       (* opacity *)
  mas_mode : option mask_mode;
  mas_x : option float_value }.     (* expand *)

(** * Shapes *)

(** shapes/graphic_element.rs:10-43 *)
Record graphic_element := mkGE {
  ge_vo : visual_object;
  ge_hd : option bool;              (* hidden *)
  ge_bm : option s_blend;
  ge_ix : option f64;
  ge_cl : option string;
  ge_ln : option string;
  ge_ind : option f64 }.
(** shapes/shape.rs:10-18, shape_style.rs:11-18, modifier.rs:9-12 *)
Record s_shape := mkSShape { ss_ge : graphic_element; ss_d : option shape_direction }.
(** shapes/shape_style.rs:11-18 *)
Record shape_style := mkStyle { sst_ge : graphic_element; sst_o : float_value }.
(** shapes/modifier.rs:9-12 *)
Definition modifier := graphic_element.
(** shapes/stroke_dash.rs:11-24 *)
Record stroke_dash := mkDash { da_vo : visual_object; da_n : option dash_type; da_v : option float_value }.
(** shapes/base_stroke.rs:13-37 *)
Record base_stroke := mkBaseStroke {
  bs_lc : option line_cap;
  bs_lj : option line_join;
  bs_ml : option f64;
  bs_ml2 : option float_value;
  bs_w : float_value;
  bs_d : option (list stroke_dash) }.
(** shapes/base_gradient.rs:13-39 *)
Record base_gradient := mkBaseGradient {
  bg_g : gradient_colors;
  bg_s : multi_dim;
  bg_e : multi_dim;
  bg_t : option gradient_type;
  bg_h : option float_value;
  bg_a : option float_value }.
(** shapes/transform.rs:10-15 *)
Record transform_shape := mkTransformShape { trs_ge : graphic_element; trs_t : s_transform }.
(** shapes/repeater_transform.rs:9-23 *)
Record repeater_transform_shape := mkRepTr {
  rtr_t : transform_shape; rtr_so : option float_value; rtr_eo : option float_value }.

(** shapes/mod.rs:61-103 [AnyShape] with the fields of the structs
    group.rs, rectangle.rs, ellipse.rs, transform.rs, stroke.rs,
    pucker_bloat.rs, merge.rs, repeater.rs, offset_path.rs, fill.rs,
    trim_path.rs, path.rs, gradient_fill.rs, gradient_stroke.rs, twist.rs,
    rounded_corners.rs, polystar.rs (in this order) inlined. *)
Inductive any_shape :=
| AsGroup (ge : graphic_element) (np : option f64) (it : list any_shape) (cix : option nat)
| AsRectangle (sh : s_shape) (p : s_position) (s : multi_dim) (r : float_value)
| AsEllipse (sh : s_shape) (p : s_position) (s : multi_dim)
| AsTransform (t : transform_shape)
| AsStroke (st : shape_style) (bs : base_stroke) (c : color_value)
| AsPuckerBloat (m : modifier) (a : option float_value)
| AsMerge (ge : graphic_element) (mm : option merge_mode)
| AsRepeater (m : modifier) (c : float_value) (o : option float_value) (mm : option composite)
             (tr : repeater_transform_shape)
| AsOffsetPath (m : modifier) (a : option float_value) (lj : option line_join)
               (ml : option float_value)
| AsFill (st : shape_style) (c : color_value) (r : option fill_rule)
| AsTrim (m : modifier) (s e o : float_value) (mm : option trim_multiple)
| AsPath (sh : s_shape) (ks : shape_prop)
| AsGradientFill (st : shape_style) (g : base_gradient) (r : option fill_rule)
| AsGradientStroke (st : shape_style) (bs : base_stroke) (g : base_gradient)
| AsTwist (m : modifier) (a : float_value) (p : s_position)
| AsRoundedCorners (m : modifier) (r : float_value)
| AsPolyStar (sh : s_shape) (p : s_position) (or os r pt : float_value) (sy : star_type)
             (ir is : option float_value).

(** * Layers *)

(** layers/layer.rs:15-53 *)
Record s_layer := mkSLayer {
  sl_vo : visual_object;
  sl_ddd : option bool_int;
  sl_hd : option bool;              (* hidden *)
  sl_ty : nat;                      (* layer_type : u8 *)
  sl_ind : option nat;              (* index *)
  sl_parent : option nat;           (* parent_index *)
  sl_sr : option f64;               (* time_stretch *)
  sl_ip : f64;
  sl_op : f64;
  sl_st : option f64 }.             (* start_time *)
(** layers/visual.rs:13-85 *)
Record visual_layer := mkVisualLayer {
  vl_layer : s_layer;
  vl_tt : option matte_mode;        (* matte_mode *)
  vl_td : option bool_int;          (* matte_target *)
  vl_masks : option (list s_mask);  (* masksProperties *)
  vl_ks : s_transform;
  vl_ao : option bool_int;
  vl_tp : option f64;               (* matte_layer_index *)
  vl_has_mask : option bool;        (* hasMask *)
  vl_mb : option bool;
  vl_bm : option s_blend;
  vl_cl : option string;
  vl_ln : option string;
  vl_tg : option string;
  vl_cp : option string;
  vl_ct : option bool_int }.
(** layers/mod.rs:24-45 [AnyLayer] with the structs precomposition.rs:12-32,
    solid.rs, shape.rs, null.rs, image.rs inlined *)
Inductive any_layer :=
| AlPrecomp (vl : visual_layer) (ref_id : string) (w h st : f64) (tm : option float_value)
| AlSolid (vl : visual_layer) (sw sh : f64) (sc : string)
| AlShape (vl : visual_layer) (shapes : list any_shape)
| AlNull (vl : visual_layer)
| AlImage (vl : visual_layer) (ref_id : string).
(** the [visual_layer] field of every variant *)
Definition visual_of (l : any_layer) : visual_layer :=
  match l with
  | AlPrecomp vl _ _ _ _ _ | AlSolid vl _ _ _ | AlShape vl _ | AlNull vl | AlImage vl _ => vl
  end.

(** * Assets, animation *)

(** assets/asset.rs:10-16 *)
Record asset := mkAsset { ass_id : string; ass_vo : visual_object }.
(** assets/file_asset.rs:10-24 *)
Record file_asset := mkFileAsset {
  fa_asset : asset; fa_u : option string; fa_p : string; fa_e : option bool_int }.
(** assets/mod.rs:15-20 with image.rs:12-36 and precomposition.rs:11-24 *)
Inductive any_asset :=
| AaImage (fa : file_asset) (sl : slottable) (w h : option f64) (t : option bool)
| AaPrecomp (a : asset) (layers : list any_layer) (fr : option f64) (xt : option bool_int).
(** animation/meta.rs:8-26 *)
Record meta := mkMeta {
  me_a : option string; me_d : option string; me_tc : option string; me_g : option string;
  me_k : option json }.
(** animation/animation.rs:15-76, composition.rs:9-13 *)
Record animation := mkAnimation {
  ani_vo : visual_object;
  ani_layers : list any_layer;
  ani_v : option string;
  ani_ver : option nat;             (* u32 *)
  ani_fr : f64;
  ani_ip : f64;
  ani_op : f64;
  ani_w : Z;
  ani_h : Z;
  ani_ddd : option bool_int;
  ani_assets : option (list any_asset);
  ani_markers : option (list marker);
  ani_meta : option meta;
  ani_metadata : option json }.
