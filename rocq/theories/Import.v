(** Model of the importer: /repo/src/import/{converters,builders,defaults}.rs.

    [Panic] stands for every [todo!], [unimplemented!], failed [assert!],
    slice index out of range and (debug profile) arithmetic overflow.  The
    external functions [E] occur because the importer evaluates constant
    properties ([into_model]) and opacity ramps ([Tween]). *)
From Coq Require Import ZArith Bool List Arith String.
From Flocq Require Import Core BinarySingleNaN.
From Verif Require Import F64 Kurbo Value Animated Schema.
Import ListNotations.

(** [Option::map] with a function that may panic *)
Definition mapO {A B} (f : A -> res B) (o : option A) : res (option B) :=
  match o with None => Ok None | Some a => let! b := f a in Ok (Some b) end.
(** [Option::unwrap_or] *)
Definition unwrap_or {A} (o : option A) (d : A) : A := match o with Some a => a | None => d end.

(** * Defaults *)

(** defaults.rs:12-49 *)
Definition static_prop {T} (v : T) : anim_prop T :=
  mkAnimProp None (Some BIFalse) None None (AkStatic v).
(** defaults.rs:12-20 [FLOAT_VALUE_ZERO] *)
Definition float_value_zero : float_value := static_prop f0.
(** defaults.rs:22-30 [FLOAT_VALUE_ONE_HUNDRED] *)
Definition float_value_one_hundred : float_value := static_prop f100.
(** defaults.rs:32-41 [MULTIDIM_ONE] *)
Definition multidim_one : multi_dim := mkMultiDim (static_prop [f1; f1; f1]) None.
(** defaults.rs:43-49 [POSITION_ZERO] *)
Definition position_zero : s_position :=
  mkSPosition None (Some BIFalse) None None (PkStatic [f0; f0]).

(** * Keyframes *)

(** converters.rs:325-330, 412-417, 709-714, 820-825 *)
Definition hold_of (b : kf_base) : bool :=
  match kb_hold b with Some BITrue => true | _ => false end.

(** converters.rs:298-322, the closure [collect_tangents] *)
Definition collect_tangents (h : option kf_handle) : list handle :=
  match h with
  | None => []
  | Some h =>
      match kh_x h, kh_y h with
      | KcArray xs, KcArray ys =>
          map (fun p => mkHandle (fst p) (snd p)) (combine (firstn 2 xs) (firstn 2 ys))
      | KcArray xs, KcSingle y => map (fun x => mkHandle x y) (firstn 2 xs)
      | KcSingle x, KcArray ys => map (fun y => mkHandle x y) (firstn 2 ys)
      | KcSingle x, KcSingle y => [mkHandle x y]
      end
  end.

(** converters.rs:324-353: the times and values one keyframe contributes *)
Definition conv_keyframe {T} (f : list f64 -> T) (k : keyframe) : list (time * T) :=
  let b := kf_b k in
  let tangents := combine (collect_tangents (kb_in b)) (collect_tangents (kb_out b)) in
  match tangents with
  | [] => [(mkTime (kb_time b) None None (hold_of b), f (kf_value k))]
  | _ => map (fun p => (mkTime (kb_time b) (Some (fst p)) (Some (snd p)) (hold_of b),
                        f (kf_value k))) tangents
  end.
(** converters.rs:291-358 [conv_keyframes] *)
Definition conv_keyframes {T} (f : list f64 -> T) (ks : list keyframe) : value T :=
  let l := flat_map (conv_keyframe f) ks in
  VAnimated (mkAnim (map fst l) (map snd l)).

(** converters.rs:365-371, 372-378 *)
Definition conv_component (c : kf_component) : res f64 :=
  match c with
  | KcArray [x] => Ok x
  | KcArray _ => Panic
  | KcSingle x => Ok x
  end.
(** converters.rs:360-380 [conv_keyframe_handle] *)
Definition conv_keyframe_handle (h : kf_handle) : res handle :=
  let! x := conv_component (kh_x h) in
  let! y := conv_component (kh_y h) in
  Ok (mkHandle x y).
(** converters.rs:418-423, 716-721, 826-831 *)
Definition conv_time (b : kf_base) : res time :=
  let! i := mapO conv_keyframe_handle (kb_in b) in
  let! o := mapO conv_keyframe_handle (kb_out b) in
  Ok (mkTime (kb_time b) i o (hold_of b)).

(** converters.rs:817-835: one keyframe; [keyframe.value[0]] *)
Definition conv_scalar_kf (k : keyframe) : res (time * f64) :=
  let! data := index (kf_value k) 0 in
  let! t := conv_time (kf_b k) in
  Ok (t, data).
(** converters.rs:810-842 [conv_scalar] *)
Definition conv_scalar (v : float_value) : res (value f64) :=
  match ap_k v with
  | AkStatic number => Ok (VFixed number)
  | AkAnimated ks =>
      let! l := mapM conv_scalar_kf ks in
      Ok (VAnimated (mkAnim (map fst l) (map snd l)))
  end.

(** converters.rs:844-882 [conv_multi], [conv_multi_color], [conv_pos] *)
Definition conv_multi {T} (v : multi_dim) (f : list f64 -> T) : value T :=
  match ap_k (md_p v) with
  | AkStatic l => VFixed (f l)
  | AkAnimated ks => conv_keyframes f ks
  end.
(** converters.rs:856-866 [conv_multi_color] *)
Definition conv_multi_color {T} (v : color_value) (f : list f64 -> T) : value T :=
  match ap_k v with
  | AkStatic l => VFixed (f l)
  | AkAnimated ks => conv_keyframes f ks
  end.
(** converters.rs:868-882 [conv_pos] *)
Definition conv_pos {T} (v : s_position) (f : list f64 -> T) : value T :=
  match po_k v with
  | PkStatic l => VFixed (f l)
  | PkAnimated ks => conv_keyframes f (map pk_kf ks)
  end.

(** converters.rs:886-889, 898-901, 918-921, 928-931: [x.get(0..=1)] *)
Definition first2 (l : list f64) : f64 * f64 :=
  match l with x0 :: x1 :: _ => (x0, x1) | _ => (f0, f0) end.
(** converters.rs:908-911 *)
Definition first3 (l : list f64) : f64 * f64 * f64 :=
  match l with x0 :: x1 :: x2 :: _ => (x0, x1, x2) | _ => (f0, f0, f0) end.
(** converters.rs:884-934 [conv_pos_point], [conv_multi_point], [conv_color],
    [conv_vec2], [conv_size] *)
Definition to_point (l : list f64) : point := let '(x, y) := first2 l in mkPoint x y.
(** converters.rs:917-923: the closure *)
Definition to_vec2 (l : list f64) : vec2 := let '(x, y) := first2 l in mkVec2 x y.
(** converters.rs:927-933: the closure *)
Definition to_size (l : list f64) : size := let '(x, y) := first2 l in mkSize x y.
(** converters.rs:907-913: the closure *)
Definition to_color (l : list f64) : color :=
  let '(r, g, b) := first3 l in
  mkColor (f64_to_f32 r) (f64_to_f32 g) (f64_to_f32 b) (f64_to_f32 f1).
(** converters.rs:884-892 [conv_pos_point] *)
Definition conv_pos_point (v : s_position) : value point := conv_pos v to_point.
(** converters.rs:894-904 [conv_multi_point] *)
Definition conv_multi_point (v : multi_dim) : value point := conv_multi v to_point.
(** converters.rs:906-914 [conv_color] *)
Definition conv_color (v : color_value) : value color := conv_multi_color v to_color.
(** converters.rs:916-924 [conv_vec2] *)
Definition conv_vec2 (v : multi_dim) : value vec2 := conv_multi v to_vec2.
(** converters.rs:926-934 [conv_size] *)
Definition conv_size (v : multi_dim) : value size := conv_multi v to_size.

(** * Gradients *)

(** [slice::chunks_exact(4)], [chunks_exact(2)] *)
Fixpoint chunks4 (l : list f64) : list (f64 * f64 * f64 * f64) :=
  match l with a :: b :: c :: d :: l => (a, b, c, d) :: chunks4 l | _ => [] end.
(** [chunks_exact(2)], converters.rs:944 *)
Fixpoint chunks2 (l : list f64) : list (f64 * f64) :=
  match l with a :: b :: l => (a, b) :: chunks2 l | _ => [] end.

(** an element of the [Vec<[f64; 5]>] *)
Record stop5 := mkStop5 { s5_offset : f64; s5_r : f64; s5_g : f64; s5_b : f64; s5_a : f64 }.

(** converters.rs:984-992 [normalize_to_range] *)
Definition normalize_to_range (a b x : f64) : f64 :=
  if feqb a b then f0 else fdiv (fsub x a) (fsub b a).

(** converters.rs:954-970: the opacity of the segment from [(a, alpha_a)] to
    [(b, alpha_b)] at offset [x] *)
Definition segment_alpha (E : Ext) (a alpha_a b alpha_b x : f64) : f64 :=
  let t := normalize_to_range a b x in
  let alpha_interp := tween_f64 E alpha_a alpha_b t easing_lerp in
  let alpha_interp :=
    if (fleb a x && fleb x b) && fleb t (flit 1 4) && fleb x (flit 1 10)
    then alpha_a else alpha_interp in
  if (fleb a x && fleb x b) && fleb (flit 3 4) t && fleb (flit 9 10) x
  then alpha_b else alpha_interp.
(** converters.rs:951-975 *)
Fixpoint alpha_scan (E : Ext) (x : f64) (last : option (f64 * f64)) (l : list (f64 * f64))
  (acc : f64) : f64 :=
  match l with
  | [] => acc
  | (b, alpha_b) :: l =>
      let acc := match last with
                 | Some (a, alpha_a) => fmin acc (segment_alpha E a alpha_a b alpha_b x)
                 | None => acc
                 end in
      alpha_scan E x (Some (b, alpha_b)) l acc
  end.
(** converters.rs:950-976: one turn of the loop over the stops *)
Definition apply_alpha (E : Ext) (alpha_stops : list (f64 * f64)) (s : stop5) : stop5 :=
  mkStop5 (s5_offset s) (s5_r s) (s5_g s) (s5_b s)
          (alpha_scan E (s5_offset s) None alpha_stops (s5_a s)).
(** converters.rs:939-979: the loop over the quadruples *)
Fixpoint stops_loop (E : Ext) (value : list f64) (count : nat)
  (chunks : list (f64 * f64 * f64 * f64)) (stops : list stop5) : list stop5 :=
  match chunks with
  | [] => stops
  | (o, r, g, b) :: chunks =>
      let stops := stops ++ [mkStop5 o r g b f1] in
      if count <=? List.length stops
      then map (apply_alpha E (skipn (count * 2) (chunks2 value))) stops
      else stops_loop E value count chunks stops
  end.
(** converters.rs:936-982 [conv_stops] *)
Definition conv_stops (E : Ext) (value : list f64) (count : nat) : list stop5 :=
  stops_loop E value count (chunks4 value) [].

(** converters.rs:392-405 *)
Definition stop5_to_stop (s : stop5) : color_stop :=
  mkStop (f64_to_f32 (s5_offset s))
         (mkColor (f64_to_f32 (s5_r s)) (f64_to_f32 (s5_g s)) (f64_to_f32 (s5_b s))
                  (f64_to_f32 (s5_a s))).
(** converters.rs:425-428 [.flatten()] *)
Definition stop5_list (s : stop5) : list f64 :=
  [s5_offset s; s5_r s; s5_g s; s5_b s; s5_a s].
(** converters.rs:382-439 [conv_gradient_colors] *)
Definition conv_gradient_colors (E : Ext) (v : gradient_colors) : res stops_v :=
  let count := gc_p v in
  match ap_k (md_p (gc_k v)) with
  | AkStatic l => Ok (CsFixed (map stop5_to_stop (conv_stops E l count)))
  | AkAnimated ks =>
      let! frames := mapM (fun k => conv_time (kf_b k)) ks in
      Ok (CsAnimated (mkAStops frames
            (map (fun k => flat_map stop5_list (conv_stops E (kf_value k) count)) ks) count))
  end.

(** * Drawing operations *)

(** converters.rs:460-469, 511-520 and 471-480, 522-531 *)
Definition conv_join (j : line_join) : join :=
  match j with LjBevel => JoinBevel | LjRound => JoinRound | LjMiter => JoinMiter end.
(** converters.rs:471-480, 522-531 *)
Definition conv_cap (c : line_cap) : cap :=
  match c with LcButt => CapButt | LcRound => CapRound | LcSquare => CapSquare end.
(** converters.rs:492, 533-540 *)
Definition is_radial (t : option gradient_type) : bool :=
  match t with Some GtRadial => true | _ => false end.
(** converters.rs:495-500, 543-548 *)
Definition conv_gradient (E : Ext) (g : base_gradient) : res a_gradient :=
  let! stops := conv_gradient_colors E (bg_g g) in
  Ok (mkAGradient (is_radial (bg_t g)) (conv_multi_point (bg_s g)) (conv_multi_point (bg_e g))
                  stops).
(** converters.rs:441-558 [conv_draw] *)
Definition conv_draw (E : Ext) (v : any_shape) : res (option draw) :=
  match v with
  | AsFill st c _ =>
      let brush := a_brush_into_model E (ABSolid (conv_color c)) in
      let! opacity := conv_scalar (sst_o st) in
      Ok (Some (mkDraw None brush opacity))
  | AsStroke st bs c =>
      let! w := conv_scalar (bs_w bs) in
      let stroke := mkAStroke w (conv_join (unwrap_or (bs_lj bs) LjBevel)) (bs_ml bs)
                              (conv_cap (unwrap_or (bs_lc bs) LcButt)) in
      let brush := a_brush_into_model E (ABSolid (conv_color c)) in
      let! opacity := conv_scalar (sst_o st) in
      Ok (Some (mkDraw (Some (a_stroke_into_model E stroke)) brush opacity))
  | AsGradientFill _ g _ =>
      let! gradient := conv_gradient E g in
      Ok (Some (mkDraw None (a_brush_into_model E (ABGradient gradient)) (VFixed f100)))
  | AsGradientStroke _ bs g =>
      let! w := conv_scalar (bs_w bs) in
      let stroke := mkAStroke w (conv_join (unwrap_or (bs_lj bs) LjRound)) (bs_ml bs)
                              (conv_cap (unwrap_or (bs_lc bs) LcRound)) in
      let! gradient := conv_gradient E g in
      Ok (Some (mkDraw (Some (a_stroke_into_model E stroke))
                       (a_brush_into_model E (ABGradient gradient)) (VFixed f100)))
  | _ => Ok None
  end.

(** * Geometry *)

(** converters.rs:773-774: [.chain(repeat(&[0.0, 0.0]))] then [zip] *)
Fixpoint zip_tangents (vs is os : list (f64 * f64)) : list point :=
  match vs with
  | [] => []
  | v :: vs =>
      let i := match is with [] => (f0, f0) | i :: _ => i end in
      let o := match os with [] => (f0, f0) | o :: _ => o end in
      mkPoint (fst v) (snd v) :: mkPoint (fst i) (snd i) :: mkPoint (fst o) (snd o)
      :: zip_tangents vs (tl is) (tl os)
  end.
(** converters.rs:765-781 [conv_spline] *)
Definition conv_spline (b : bezier) : list point * bool :=
  (zip_tangents (bz_v b) (bz_i b) (bz_o b), unwrap_or (bz_closed b) false).

(** converters.rs:723-740: the start of a keyframe.  [prev] is the keyframe
    before it; [animated.get(idx - 1)] with [idx = 0] underflows. *)
Definition start_bezier (prev : option shape_keyframe) (k : shape_keyframe) : res (option bezier) :=
  match skf_s k with
  | Some start => Ok (hd_error start)
  | None =>
      match prev with
      | None => Panic
      | Some prev =>
          match skf_e prev with
          | Some (b :: _) => Ok (Some b)
          | _ => Ok (match skf_s prev with Some s => hd_error s | None => None end)
          end
      end
  end.
(** converters.rs:707-755: the loop over the keyframes.  A result [None] is
    the early return through [?]. *)
Fixpoint conv_shape_kfs (prev : option shape_keyframe) (ks : list shape_keyframe)
  (is_closed : bool) (frames : list time) (values : list spline_kf) : res (option a_spline) :=
  match ks with
  | [] => Ok (Some (mkASpline is_closed frames values))
  | k :: ks =>
      let! t := conv_time (skf_b k) in
      let! s := start_bezier prev k in
      match s with
      | None => Ok None
      | Some s =>
          let '(points, is_frame_closed) := conv_spline s in
          let '(end_points, is_end_frame_closed) :=
            match skf_e k with
            | Some (e :: _) => let '(p, c) := conv_spline e in (Some p, c)
            | _ => (None, false)
            end in
          conv_shape_kfs (Some k) ks
            ((is_closed || is_end_frame_closed) || is_frame_closed)
            (frames ++ [t]) (values ++ [mkSplineKf points end_points])
      end
  end.
(** converters.rs:690-763 [conv_shape_geometry] *)
Definition conv_shape_geometry (v : shape_prop) : res (option geometry) :=
  match sp_k v with
  | SkStatic b =>
      let '(points, is_closed) := conv_spline b in
      let! path := spline_to_path points is_closed in
      Ok (Some (GFixed path))
  | SkAnimated ks =>
      let! s := conv_shape_kfs None ks false [] [] in
      Ok (match s with Some s => Some (GSpline s) | None => None end)
  end.

(** converters.rs:663-672 *)
Definition conv_scalar_or0 (v : option float_value) : res (value f64) :=
  match v with Some v => conv_scalar v | None => Ok (VFixed f0) end.
(** converters.rs:648-688 [conv_polystar_geometry] *)
Definition conv_polystar_geometry (E : Ext) (p : s_position)
  (or os r pt : float_value) (sy : star_type) (ir is : option float_value)
  : res (option geometry) :=
  let is_polygon := match sy with StPolygon => true | StStar => false end in
  let position := conv_pos_point p in
  let! outer_radius := conv_scalar or in
  let! outer_roundness := conv_scalar os in
  let! rotation := conv_scalar r in
  let! points := conv_scalar pt in
  let! inner :=
    (if is_polygon then Ok (VFixed f0, VFixed f0)
     else let! ir := conv_scalar_or0 ir in
          let! is := conv_scalar_or0 is in
          Ok (ir, is)) in
  let! g := a_star_into_model E
      (mkAStar is_polygon f1 position (fst inner) (snd inner) outer_radius outer_roundness
               rotation points) in
  Ok (Some g).
(** converters.rs:620-646 [conv_geometry] *)
Definition conv_geometry (E : Ext) (v : any_shape) : res (option geometry) :=
  match v with
  | AsEllipse _ p s => Ok (Some (GEllipse (mkAEllipse false (conv_pos_point p) (conv_size s))))
  | AsRectangle _ p s r =>
      let! r := conv_scalar r in
      Ok (Some (GRect (mkARect false (conv_pos_point p) (conv_size s) r)))
  | AsPath _ ks => conv_shape_geometry ks
  | AsPolyStar _ p or os r pt sy ir is => conv_polystar_geometry E p or os r pt sy ir is
  | _ => Ok None
  end.

(** * Transforms *)

(** converters.rs:204-235 [conv_transform] *)
Definition conv_transform (E : Ext) (v : s_transform) : res (transform * value f64) :=
  let! rotation_in := match tf_r v with
                      | Some (ArRotation r) => Ok r
                      | Some (ArSplit _ _ _ _) => Panic (* todo!() *)
                      | None => Panic (* todo!("split rotation") *)
                      end in
  let! position := match tf_p v with
                   | ApPosition p => Ok (PosValue (conv_pos_point p))
                   | ApSplit s => let! x := conv_scalar (spv_x s) in
                                  let! y := conv_scalar (spv_y s) in
                                  Ok (PosSplit x y)
                   end in
  let! rotation := conv_scalar rotation_in in
  let! skew := conv_scalar (unwrap_or (tf_sk v) float_value_zero) in
  let! skew_angle := conv_scalar (unwrap_or (tf_sa v) float_value_zero) in
  let t := mkATransform (conv_pos_point (unwrap_or (tf_a v) position_zero)) position rotation
                        (conv_vec2 (unwrap_or (tf_s v) multidim_one)) skew skew_angle in
  let! opacity := conv_scalar (unwrap_or (tf_o v) float_value_one_hundred) in
  Ok (a_transform_into_model E t, opacity).

(** converters.rs:237-289 [conv_shape_transform] *)
Definition conv_shape_transform (E : Ext) (v : transform_shape) : res group_transform :=
  let v := trs_t v in
  let! rotation_in := match tf_r v with
                      | Some (ArRotation r) => Ok r
                      | Some (ArSplit _ _ _ _) => Panic (* todo!("split rotation") *)
                      | None => Ok float_value_zero
                      end in
  let! position_in := match tf_p v with
                      | ApPosition p => Ok p
                      | ApSplit _ => Panic (* todo!("split position") *)
                      end in
  let! rotation := conv_scalar rotation_in in
  let! skew := conv_scalar (unwrap_or (tf_sk v) float_value_zero) in
  let! skew_angle := conv_scalar (unwrap_or (tf_sa v) float_value_zero) in
  let t := mkATransform (conv_pos_point (unwrap_or (tf_a v) position_zero))
                        (PosValue (conv_pos_point position_in)) rotation
                        (conv_vec2 (unwrap_or (tf_s v) multidim_one)) skew skew_angle in
  let! opacity := conv_scalar (unwrap_or (tf_o v) float_value_one_hundred) in
  Ok (mkGT (a_transform_into_model E t) opacity).

(** * Shapes *)

(** converters.rs:560-618 [conv_shape] *)
Fixpoint conv_shape (E : Ext) (v : any_shape) {struct v} : res (option shape) :=
  let! d := conv_draw E v in
  match d with
  | Some d => Ok (Some (ShDraw d))
  | None =>
      let! g := conv_geometry E v in
      match g with
      | Some g => Ok (Some (ShGeometry g))
      | None =>
          match v with
          | AsGroup _ _ it _ =>
              let! r :=
                (fix items (l : list any_shape) (shapes : list shape)
                     (gt : option group_transform) {struct l}
                   : res (list shape * option group_transform) :=
                   match l with
                   | [] => Ok (shapes, gt)
                   | item :: l =>
                       match item with
                       | AsTransform t =>
                           let! g := conv_shape_transform E t in items l shapes (Some g)
                       | _ =>
                           let! o := conv_shape E item in
                           items l (match o with Some s => shapes ++ [s] | None => shapes end) gt
                       end
                   end) it [] None in
              match fst r with
              | [] => Ok None
              | _ => Ok (Some (ShGroup (fst r) (snd r)))
              end
          | AsTrim _ s e o _ =>
              let! s := conv_scalar s in
              let! e := conv_scalar e in
              let! o := conv_scalar o in
              Ok (Some (ShTrim (a_trim_into_model E (mkATrim s e o))))
          | _ => Ok None
          end
      end
  end.
(** converters.rs:162-167 *)
Fixpoint conv_shapes (E : Ext) (l : list any_shape) : res (list shape) :=
  match l with
  | [] => Ok []
  | v :: l =>
      let! o := conv_shape E v in
      let! rest := conv_shapes E l in
      Ok (match o with Some s => s :: rest | None => rest end)
  end.

(** * Layers *)

(** converters.rs:783-808 [conv_blend_mode] *)
Definition conv_blend_mode (b : s_blend) : res (option blend_mode) :=
  match b with
  | SbNormal => Ok None
  | SbMultiply => Ok (Some (blend_of_mix MixMultiply))
  | SbScreen => Ok (Some (blend_of_mix MixScreen))
  | SbOverlay => Ok (Some (blend_of_mix MixOverlay))
  | SbDarken => Ok (Some (blend_of_mix MixDarken))
  | SbLighten => Ok (Some (blend_of_mix MixLighten))
  | SbColorDodge => Ok (Some (blend_of_mix MixColorDodge))
  | SbColorBurn => Ok (Some (blend_of_mix MixColorBurn))
  | SbHardLight => Ok (Some (blend_of_mix MixHardLight))
  | SbSoftLight => Ok (Some (blend_of_mix MixSoftLight))
  | SbDifference => Ok (Some (blend_of_mix MixDifference))
  | SbExclusion => Ok (Some (blend_of_mix MixExclusion))
  | SbHue => Ok (Some (blend_of_mix MixHue))
  | SbSaturation => Ok (Some (blend_of_mix MixSaturation))
  | SbColor => Ok (Some (blend_of_mix MixColor))
  | SbLuminosity => Ok (Some (blend_of_mix MixLuminosity))
  | SbAdd => Panic
  | SbHardMix => Panic
  end.
(** builders.rs:60-62, 140-142, 217-219 *)
Definition drop_normal (b : option blend_mode) : option blend_mode :=
  match b with
  | Some b => if blend_eqb b (blend_of_mix MixNormal) then None else Some b
  | None => None
  end.
(** builders.rs:40-46, 120-126, 200-206 *)
Definition conv_matte_mode (m : matte_mode) : blend_mode :=
  match m with
  | MmNormal => blend_of_mix MixNormal
  | MmAlpha | MmLuma => blend_of_compose ComposeSrcIn
  | MmInvertedAlpha | MmInvertedLuma => blend_of_compose ComposeSrcOut
  end.
(** builders.rs:67-90, 147-170, 224-240: the masks of a layer *)
Fixpoint conv_masks (l : list s_mask) : res (list mask) :=
  match l with
  | [] => Ok []
  | m :: l =>
      let! o := match mas_pt m with
                | None => Ok None
                | Some sh =>
                    let! g := conv_shape_geometry sh in
                    match g with
                    | None => Ok None
                    | Some g =>
                        let! opacity := conv_scalar (unwrap_or (mas_o m) float_value_one_hundred) in
                        Ok (Some (mkMask blend_default g opacity))
                    end
                end in
      let! rest := conv_masks l in
      Ok (match o with Some x => x :: rest | None => rest end)
  end.

(** converters.rs:31: the element type of [converted] (also the result of
    [conv_layer], which is never [None]).  [ly_parent cv_layer] is still the
    source's parent id at this point. *)
Record converted := mkConverted {
  cv_layer : layer;
  cv_id : nat;
  cv_matte : option blend_mode;
  cv_matte_ix : option nat }.

(** The common body of builders.rs:17-97 [setup_precomp_layer], 99-177
    [setup_shape_layer] and 179-247 [setup_layer_base].  The three differ
    only in [width], [height] (set only for precomps) and [start_frame]. *)
Definition setup_layer (E : Ext) (vl : visual_layer) (w h start_frame : f64) : res converted :=
  let l := vl_layer vl in
  let! t := conv_transform E (vl_ks vl) in
  let! bm := conv_blend_mode (unwrap_or (vl_bm vl) SbNormal) in
  let! masks := conv_masks (unwrap_or (vl_masks vl) []) in
  Ok (mkConverted
        (mkLayer (unwrap_or (vo_nm (sl_vo l)) EmptyString) (sl_parent l) (fst t) (snd t) w h
                 (drop_normal bm) (sl_ip l) (sl_op l) (unwrap_or (sl_sr l) f1) start_frame masks
                 (match vl_td vl with Some BITrue => true | _ => false end) None CNone)
        (unwrap_or (sl_ind l) 0)
        (match vl_tt vl with Some m => Some (conv_matte_mode m) | None => None end)
        (match vl_tp vl with Some x => Some (Z.to_nat (f_to_usize x)) | None => None end)).
(** builders.rs:17-97 *)
Definition setup_precomp_layer (E : Ext) (vl : visual_layer) (w h st : f64) : res converted :=
  setup_layer E vl w h st.
(** builders.rs:99-177 *)
Definition setup_shape_layer (E : Ext) (vl : visual_layer) : res converted :=
  setup_layer E vl f0 f0 (unwrap_or (sl_st (vl_layer vl)) f0).
(** builders.rs:179-247 *)
Definition setup_layer_base (E : Ext) (vl : visual_layer) : res converted :=
  setup_layer E vl f0 f0 (unwrap_or (sl_st (vl_layer vl)) f0).

(** converters.rs:193-202 [is_layer_hidden] *)
Definition is_layer_hidden (l : any_layer) : bool :=
  match sl_hd (vl_layer (visual_of l)) with Some true => true | _ => false end.

(** [layer.content = c], [layer.is_mask = b] *)
Definition with_content (l : layer) (c : content) : layer :=
  mkLayer (ly_name l) (ly_parent l) (ly_transform l) (ly_opacity l) (ly_width l) (ly_height l)
          (ly_blend_mode l) (ly_in l) (ly_out l) (ly_stretch l) (ly_start_frame l) (ly_masks l)
          (ly_is_mask l) (ly_mask_layer l) c.
(** [layer.is_mask = b], converters.rs:139-191 *)
Definition with_is_mask (l : layer) (b : bool) : layer :=
  mkLayer (ly_name l) (ly_parent l) (ly_transform l) (ly_opacity l) (ly_width l) (ly_height l)
          (ly_blend_mode l) (ly_in l) (ly_out l) (ly_stretch l) (ly_start_frame l) (ly_masks l)
          b (ly_mask_layer l) (ly_content l).
(** [layer.parent = ..], [layer.mask_layer = ..], converters.rs:33-57 *)
Definition with_refs (l : layer) (parent : option nat) (matte : option (blend_mode * nat)) : layer :=
  mkLayer (ly_name l) parent (ly_transform l) (ly_opacity l) (ly_width l) (ly_height l)
          (ly_blend_mode l) (ly_in l) (ly_out l) (ly_stretch l) (ly_start_frame l) (ly_masks l)
          (ly_is_mask l) matte (ly_content l).

(** converters.rs:139-191 [conv_layer] *)
Definition conv_layer (E : Ext) (source : any_layer) : res converted :=
  let hidden := is_layer_hidden source in
  let! cv :=
    match source with
    | AlNull vl => setup_layer_base E vl
    | AlPrecomp vl ref_id w h st tm =>
        let! cv := setup_precomp_layer E vl w h st in
        if hidden then Ok cv else
        let! time_remap := mapO conv_scalar tm in
        Ok (mkConverted (with_content (cv_layer cv) (CInstance ref_id time_remap))
                        (cv_id cv) (cv_matte cv) (cv_matte_ix cv))
    | AlShape vl shapes =>
        let! cv := setup_shape_layer E vl in
        if hidden then Ok cv else
        let! shapes := conv_shapes E shapes in
        Ok (mkConverted (with_content (cv_layer cv) (CShape shapes))
                        (cv_id cv) (cv_matte cv) (cv_matte_ix cv))
    | AlSolid vl _ _ _ => setup_layer_base E vl
    | AlImage vl _ => setup_layer_base E vl
    end in
  Ok (if hidden
      then mkConverted (with_is_mask (cv_layer cv) false) (cv_id cv) (cv_matte cv) (cv_matte_ix cv)
      else cv).

(** [HashMap<usize, usize>]: the newest entry of a key is first *)
Definition idmap := list (nat * nat).
(** [HashMap::insert], converters.rs:33-39 *)
Definition idmap_insert (k v : nat) (m : idmap) : idmap := (k, v) :: m.
(** [HashMap::get], converters.rs:33-57 *)
Definition idmap_get (k : nat) (m : idmap) : option nat :=
  match find (fun p => fst p =? k) m with Some (_, v) => Some v | None => None end.
(** converters.rs:33-39: [idmap.insert(id, index)] for each converted layer *)
Fixpoint build_idmap (index : nat) (l : list converted) (m : idmap) : idmap :=
  match l with
  | [] => m
  | cv :: l => build_idmap (S index) l (idmap_insert (cv_id cv) index m)
  end.
(** converters.rs:51-77: parents and mattes.  [matte_targets]
    (converters.rs:41-46) is never read and omitted. *)
Fixpoint resolve (m : idmap) (idx : nat) (prev_matte_layer : option nat) (l : list converted)
  : list layer :=
  match l with
  | [] => []
  | cv :: l =>
      let ly := cv_layer cv in
      let parent := match ly_parent ly with Some p => idmap_get p m | None => None end in
      let matte :=
        match cv_matte cv with
        | Some mode =>
            match (match cv_matte_ix cv with
                   | Some explicit => idmap_get explicit m
                   | None => prev_matte_layer
                   end) with
            | Some matte_idx => Some (mode, matte_idx)
            | None => ly_mask_layer ly
            end
        | None => ly_mask_layer ly
        end in
      let prev :=
        if ly_is_mask ly then Some idx
        else match cv_matte cv with Some _ => None | None => prev_matte_layer end in
      with_refs ly parent matte :: resolve m (S idx) prev l
  end.
(** converters.rs:25-80 [process_layers]; [idmap.clear()] makes the result
    independent of the map passed in *)
Definition process_layers (E : Ext) (source_layers : list any_layer) : res (list layer) :=
  let! conv := mapM (conv_layer E) source_layers in
  Ok (resolve (build_idmap 0 conv []) 0 None conv).

(** [HashMap<String, Vec<Layer>>::insert] *)
Definition asset_insert (k : string) (v : list layer) (m : list (string * list layer))
  : list (string * list layer) :=
  (k, v) :: filter (fun p => negb (String.eqb (fst p) k)) m.
(** converters.rs:95-107 *)
Fixpoint conv_assets (E : Ext) (l : list any_asset) (m : list (string * list layer))
  : res (list (string * list layer)) :=
  match l with
  | [] => Ok m
  | AaPrecomp a layers _ _ :: l =>
      let! layers := process_layers E layers in
      conv_assets E l (asset_insert (ass_id a) layers m)
  | AaImage _ _ _ _ _ :: _ => Panic (* unimplemented! *)
  end.
(** converters.rs:82-137 [conv_animation] *)
Definition conv_animation (E : Ext) (a : animation) : res composition :=
  let! assets := conv_assets E (unwrap_or (ani_assets a) []) [] in
  let! layers := process_layers E (ani_layers a) in
  Ok (mkComp (ani_ip a) (ani_op a) (ani_fr a) (ani_w a) (ani_h a) assets layers).
