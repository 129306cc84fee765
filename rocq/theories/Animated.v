(** Model of /repo/src/runtime/model/{fixed,animated,spline,mod}.rs:
    fixed and animated parameters of a composition and their evaluation. *)
From Coq Require Import ZArith Bool List Arith String.
From Flocq Require Import Core BinarySingleNaN.
From Verif Require Import F64 Kurbo Value.
Import ListNotations.

(** * Transforms *)

(** animated.rs:12-16 [Position] *)
Inductive position :=
| PosValue (v : value point)
| PosSplit (x y : value f64).

(** animated.rs:18-33 [Transform] *)
Record a_transform := mkATransform {
  at_anchor : value point;
  at_position : position;
  at_rotation : value f64;
  at_scale : value vec2;
  at_skew : value f64;
  at_skew_angle : value f64 }.

(** animated.rs:39-44: the part of [Transform::is_fixed] about the position *)
Definition position_is_fixed (p : position) : bool :=
  match p with PosValue v => is_fixed v | PosSplit x y => is_fixed x && is_fixed y end.
(** animated.rs:54-60 *)
Definition position_eval (E : Ext) (p : position) (frame : f64) : point :=
  match p with
  | PosValue v => eval E v frame
  | PosSplit x y => mkPoint (eval E x frame) (eval E y frame)
  end.

(** animated.rs:37-49 [Transform::is_fixed] *)
Definition a_transform_is_fixed (t : a_transform) : bool :=
  is_fixed (at_anchor t) && position_is_fixed (at_position t) && is_fixed (at_rotation t)
  && is_fixed (at_scale t) && is_fixed (at_skew t) && is_fixed (at_skew_angle t).

(** animated.rs:52-77 [Transform::evaluate] *)
Definition a_transform_eval (E : Ext) (t : a_transform) (frame : f64) : affine :=
  let anchor := eval E (at_anchor t) frame in
  let position := position_eval E (at_position t) frame in
  let rotation := eval E (at_rotation t) frame in
  let scale := eval E (at_scale t) frame in
  let skew := eval E (at_skew t) frame in
  let skew_angle := eval E (at_skew_angle t) frame in
  let skew_matrix :=
    if negb (feqb skew f0) then
      let skew := to_radians skew in
      let angle := to_radians skew_angle in
      affine_mul (affine_mul (affine_rotate E (fneg angle)) (affine_skew (x_tan E skew) f0))
                 (affine_rotate E angle)
    else affine_identity in
  affine_mul
    (affine_mul
       (affine_mul
          (affine_mul (affine_translate (px position) (py position))
                      (affine_rotate E (to_radians rotation)))
          skew_matrix)
       (affine_scale (fdiv (vx scale) f100) (fdiv (vy scale) f100)))
    (affine_translate (fneg (px anchor)) (fneg (py anchor))).

(** mod.rs:26-40 [Transform], [Transform::evaluate]; the borrow/own
    distinction of [ValueRef] (value.rs:49-72) is not observable. *)
Inductive transform := TFixed (a : affine) | TAnimated (t : a_transform).
(** mod.rs:34-39 [Transform::evaluate] *)
Definition transform_eval (E : Ext) (t : transform) (frame : f64) : affine :=
  match t with TFixed a => a | TAnimated t => a_transform_eval E t frame end.
(** mod.rs:125-129 [Default for Transform] *)
Definition transform_default : transform := TFixed affine_identity.

(** animated.rs:80-86 [Transform::into_model] *)
Definition a_transform_into_model (E : Ext) (t : a_transform) : transform :=
  if a_transform_is_fixed t then TFixed (a_transform_eval E t f0) else TAnimated t.

(** * Strokes *)

(** animated.rs:393-403 [Stroke] *)
Record a_stroke := mkAStroke {
  as_width : value f64; as_join : join; as_miter_limit : option f64; as_cap : cap }.
(** animated.rs:412-421 [Stroke::evaluate] *)
Definition a_stroke_eval (E : Ext) (s : a_stroke) (frame : f64) : stroke :=
  let st := stroke_new (eval E (as_width s) frame) in
  mkStroke (st_width st) (as_join s)
           (match as_miter_limit s with Some m => m | None => st_miter st end)
           (as_cap s) (as_cap s).
(** mod.rs:43-57 [Stroke] *)
Inductive stroke_v := StFixed (s : stroke) | StAnimated (s : a_stroke).
(** mod.rs:51-56 [Stroke::evaluate] *)
Definition stroke_eval (E : Ext) (s : stroke_v) (frame : f64) : stroke :=
  match s with StFixed s => s | StAnimated s => a_stroke_eval E s frame end.
(** animated.rs:407-409, 424-430 *)
Definition a_stroke_is_fixed (s : a_stroke) : bool := is_fixed (as_width s).
(** animated.rs:424-430 [Stroke::into_model] *)
Definition a_stroke_into_model (E : Ext) (s : a_stroke) : stroke_v :=
  if a_stroke_is_fixed s then StFixed (a_stroke_eval E s f0) else StAnimated s.

(** * Repeaters *)

(** fixed.rs:28-46 [Repeater].  [copies : usize] is an unbounded [nat]. *)
Record repeater := mkRepeater {
  rp_copies : nat;
  rp_offset : f64;
  rp_anchor : point;
  rp_position : point;
  rp_rotation : f64;
  rp_scale : vec2;
  rp_start_opacity : f64;
  rp_end_opacity : f64 }.
(** fixed.rs:50-61 [Repeater::transform] *)
Definition repeater_transform (E : Ext) (r : repeater) (index : nat) : affine :=
  let t := fadd (rp_offset r) (f_of_Z (Z.of_nat index)) in
  affine_mul
    (affine_mul
       (affine_mul
          (affine_translate (fadd (fmul t (px (rp_position r))) (px (rp_anchor r)))
                            (fadd (fmul t (py (rp_position r))) (py (rp_anchor r))))
          (affine_rotate E (to_radians (fmul t (rp_rotation r)))))
       (affine_scale (x_powf E (fdiv (vx (rp_scale r)) f100) t)
                     (x_powf E (fdiv (vy (rp_scale r)) f100) t)))
    (affine_translate (fneg (px (rp_anchor r))) (fneg (py (rp_anchor r)))).

(** animated.rs:328-345 [Repeater] *)
Record a_repeater := mkARepeater {
  ar_copies : value f64;
  ar_offset : value f64;
  ar_anchor : value point;
  ar_position : value point;
  ar_rotation : value f64;
  ar_scale : value vec2;
  ar_start_opacity : value f64;
  ar_end_opacity : value f64 }.
(** animated.rs:349-358 *)
Definition a_repeater_is_fixed (r : a_repeater) : bool :=
  is_fixed (ar_copies r) && is_fixed (ar_offset r) && is_fixed (ar_anchor r)
  && is_fixed (ar_position r) && is_fixed (ar_rotation r) && is_fixed (ar_scale r)
  && is_fixed (ar_start_opacity r) && is_fixed (ar_end_opacity r).
(** animated.rs:361-380 [Repeater::evaluate] *)
Definition a_repeater_eval (E : Ext) (r : a_repeater) (frame : f64) : repeater :=
  mkRepeater
    (Z.to_nat (f_to_usize (fround (eval E (ar_copies r) frame))))
    (eval E (ar_offset r) frame)
    (eval E (ar_anchor r) frame)
    (eval E (ar_position r) frame)
    (eval E (ar_rotation r) frame)
    (eval E (ar_scale r) frame)
    (eval E (ar_start_opacity r) frame)
    (eval E (ar_end_opacity r) frame).
(** mod.rs:67-81 [Repeater] *)
Inductive repeater_v := RFixed (r : repeater) | RAnimated (r : a_repeater).
(** mod.rs:75-80 [Repeater::evaluate] *)
Definition repeater_eval (E : Ext) (r : repeater_v) (frame : f64) : repeater :=
  match r with RFixed r => r | RAnimated r => a_repeater_eval E r frame end.
(** animated.rs:383-389 *)
Definition a_repeater_into_model (E : Ext) (r : a_repeater) : repeater_v :=
  if a_repeater_is_fixed r then RFixed (a_repeater_eval E r f0) else RAnimated r.

(** * Trims *)

(** fixed.rs:64-72 [Trim] *)
Record trim := mkTrim { tr_start : f64; tr_end : f64; tr_offset : f64 }.
(** fixed.rs:79-106 [Trim::normalized] *)
Definition trim_normalized (t : trim) : option ((f64 * f64) * option (f64 * f64)) :=
  let '(start_pct, end_pct) :=
    if fleb (tr_start t) (tr_end t) then (tr_start t, tr_end t) else (tr_end t, tr_start t) in
  let range_pct := fsub end_pct start_pct in
  if fltb range_pct f_1em9 then None
  else if fleb (fsub f100 f_1em9) range_pct then Some ((f0, f1), None)
  else
    let offset_pct := fmul (tr_offset t) (fdiv f100 (f_of_Z 360)) in
    let start_pct := rem_euclid (fadd start_pct offset_pct) f100 in
    let end_pct := fadd start_pct range_pct in
    if fleb end_pct f100 then Some ((fdiv start_pct f100, fdiv end_pct f100), None)
    else Some ((fdiv start_pct f100, f1), Some (f0, fdiv (fsub end_pct f100) f100)).

(** animated.rs:546-569 [Trim], [Trim::is_fixed], [Trim::evaluate] *)
Record a_trim := mkATrim { atr_start : value f64; atr_end : value f64; atr_offset : value f64 }.
(** animated.rs:558-560 [Trim::is_fixed] *)
Definition a_trim_is_fixed (t : a_trim) : bool :=
  is_fixed (atr_start t) && is_fixed (atr_end t) && is_fixed (atr_offset t).
(** animated.rs:563-569 [Trim::evaluate] *)
Definition a_trim_eval (E : Ext) (t : a_trim) (frame : f64) : trim :=
  mkTrim (eval E (atr_start t) frame) (eval E (atr_end t) frame) (eval E (atr_offset t) frame).
(** mod.rs:265-282 [Trim] *)
Inductive trim_v := TrFixed (t : trim) | TrAnimated (t : a_trim).
(** mod.rs:276-281 [Trim::evaluate] *)
Definition trim_eval (E : Ext) (t : trim_v) (frame : f64) : trim :=
  match t with TrFixed t => t | TrAnimated t => a_trim_eval E t frame end.
(** animated.rs:572-578 *)
Definition a_trim_into_model (E : Ext) (t : a_trim) : trim_v :=
  if a_trim_is_fixed t then TrFixed (a_trim_eval E t f0) else TrAnimated t.

(** * Brushes *)

(** animated.rs:470-475 [ColorStops] *)
Record a_stops := mkAStops { ast_frames : list time; ast_values : list (list f64); ast_count : nat }.

(** the [?] operator on [Option], used in animated.rs:482-504 *)
Definition obind {A B} (o : option A) (k : A -> option B) : option B :=
  match o with Some a => k a | None => None end.

(** animated.rs:491-496, one channel: [v0.get(j)?.tween(v1.get(j)?, t, &easing)] *)
Definition channel (E : Ext) (v0 v1 : list f64) (j : nat) (t : f64) (e : easing) : option f64 :=
  obind (nth_error v0 j) (fun a => obind (nth_error v1 j) (fun b => Some (tween_f64 E a b t e))).

(** animated.rs:489-502, one iteration of the loop.  Note that the offset
    uses the weight before the hold flag is applied. *)
Definition stop_at (E : Ext) (v0 v1 : list f64) (t : f64) (e : easing) (hold : bool) (i : nat)
  : option color_stop :=
  let j := i * 5 in
  obind (channel E v0 v1 j t e) (fun offset =>
  let t := if hold then f0 else t in
  obind (channel E v0 v1 (j + 1) t e) (fun r =>
  obind (channel E v0 v1 (j + 2) t e) (fun g =>
  obind (channel E v0 v1 (j + 3) t e) (fun b =>
  obind (channel E v0 v1 (j + 4) t e) (fun a =>
  Some (mkStop (f64_to_f32 offset)
               (mkColor (f64_to_f32 r) (f64_to_f32 g) (f64_to_f32 b) (f64_to_f32 a)))))))).
(** animated.rs:489: [for i in 0..self.count], starting at [i] *)
Fixpoint stops_from (E : Ext) (v0 v1 : list f64) (t : f64) (e : easing) (hold : bool)
  (i n : nat) : option (list color_stop) :=
  match n with
  | O => Some []
  | S n => obind (stop_at E v0 v1 t e hold i) (fun s =>
           obind (stops_from E v0 v1 t e hold (S i) n) (fun ss => Some (s :: ss)))
  end.
(** animated.rs:478-504 [ColorStops::evaluate], [evaluate_inner] *)
Definition a_stops_eval_inner (E : Ext) (s : a_stops) (frame : f64) : option (list color_stop) :=
  obind (frames_and_weight (ast_frames s) frame) (fun '((ix0, ix1), t, e, hold) =>
  obind (nth_error (ast_values s) ix0) (fun v0 =>
  obind (nth_error (ast_values s) ix1) (fun v1 =>
  stops_from E v0 v1 t e hold 0 (ast_count s)))).
(** animated.rs:478-480 [ColorStops::evaluate] *)
Definition a_stops_eval (E : Ext) (s : a_stops) (frame : f64) : list color_stop :=
  match a_stops_eval_inner E s frame with Some l => l | None => [] end.
(** mod.rs:83-98 [ColorStops] *)
Inductive stops_v := CsFixed (s : list color_stop) | CsAnimated (s : a_stops).
(** mod.rs:92-97 [ColorStops::evaluate] *)
Definition stops_eval (E : Ext) (s : stops_v) (frame : f64) : list color_stop :=
  match s with CsFixed s => s | CsAnimated s => a_stops_eval E s frame end.
(** mod.rs:89-91 [ColorStops::is_fixed] *)
Definition stops_is_fixed (s : stops_v) : bool :=
  match s with CsFixed _ => true | CsAnimated _ => false end.

(** animated.rs:435-468 [Gradient], [is_fixed], [evaluate].  The remaining
    fields of [peniko::Gradient] keep their defaults and are omitted. *)
Record a_gradient := mkAGradient {
  ag_radial : bool; ag_start : value point; ag_end : value point; ag_stops : stops_v }.
(** animated.rs:448-450 [Gradient::is_fixed] *)
Definition a_gradient_is_fixed (g : a_gradient) : bool :=
  is_fixed (ag_start g) && is_fixed (ag_end g) && stops_is_fixed (ag_stops g).
(** animated.rs:453-467 [Gradient::evaluate] *)
Definition a_gradient_eval (E : Ext) (g : a_gradient) (frame : f64) : brush :=
  let s := eval E (ag_start g) frame in
  let e := eval E (ag_end g) frame in
  let stops := stops_eval E (ag_stops g) frame in
  if ag_radial g then
    let radius := x_hypot E (fsub (px e) (px s)) (fsub (py e) (py s)) in
    BGradient (mkGradient (GRadial s (f64_to_f32 radius)) stops)
  else BGradient (mkGradient (GLinear s e) stops).

(** animated.rs:509-534 [Brush], [is_fixed], [evaluate] *)
Inductive a_brush := ABSolid (c : value color) | ABGradient (g : a_gradient).
(** animated.rs:518-523 [Brush::is_fixed] *)
Definition a_brush_is_fixed (b : a_brush) : bool :=
  match b with ABSolid c => is_fixed c | ABGradient g => a_gradient_is_fixed g end.
(** animated.rs:526-534 [Brush::evaluate] *)
Definition a_brush_eval (E : Ext) (b : a_brush) (alpha frame : f64) : brush :=
  match b with
  | ABSolid c => BSolid (x_color_mul_alpha E (eval_or E c frame color_transparent) (f64_to_f32 alpha))
  | ABGradient g => a_gradient_eval E g frame
  end.
(** mod.rs:100-123 [Brush], [Brush::evaluate] *)
Inductive brush_v := BrFixed (b : brush) | BrAnimated (b : a_brush).
(** mod.rs:111-122 [Brush::evaluate] *)
Definition brush_eval (E : Ext) (b : brush_v) (alpha frame : f64) : brush :=
  match b with
  | BrFixed b => if feqb alpha f1 then b else x_brush_mul_alpha E b (f64_to_f32 alpha)
  | BrAnimated b => a_brush_eval E b alpha frame
  end.
(** animated.rs:537-543 [Brush::into_model] *)
Definition a_brush_into_model (E : Ext) (b : a_brush) : brush_v :=
  if a_brush_is_fixed b then BrFixed (a_brush_eval E b f1 f0) else BrAnimated b.

(** * Geometry *)

(** spline.rs:7-44 [SplineToPath::to_path] over an abstract [get]/[len].
    [get] may panic (slice indexing). *)
Section ToPath.
  Variable get : nat -> res point.
  Variable len : nat.
  (** spline.rs:18-34 the closure [add_element] *)
  Definition add_element (from_vertex to_vertex : nat) : res path_el :=
    let from_index := 3 * from_vertex in
    let to_index := 3 * to_vertex in
    let! p0 := get from_index in
    let! p1 := get to_index in
    let! c0 := get (from_index + 2) in
    let c0 := mkPoint (fadd (px c0) (px p0)) (fadd (py c0) (py p0)) in
    let! c1 := get (to_index + 1) in
    let c1 := mkPoint (fadd (px c1) (px p1)) (fadd (py c1) (py p1)) in
    Ok (if point_eqb c0 p0 && point_eqb c1 p1 then LineTo p1 else CurveTo c0 c1 p1).
  (** spline.rs:11-43; returns the pushed elements *)
  Definition to_path (is_closed : bool) : res (list path_el) :=
    if len =? 0 then Ok [] else
    let! p := get 0 in
    let n_vertices := len / 3 in
    let! body := mapM (fun i => add_element (i - 1) i) (seq 1 (n_vertices - 1)) in
    let! tail :=
      (if is_closed && negb (n_vertices =? 0) then
         let! e := add_element (n_vertices - 1) 0 in Ok [e; ClosePath]
       else Ok []) in
    Ok (MoveTo p :: body ++ tail).
End ToPath.

(** slice indexing [v[i]] *)
Definition index {A} (l : list A) (i : nat) : res A := of_option (nth_error l i).

(** spline.rs:46-55: static spline *)
Definition spline_to_path (pts : list point) (is_closed : bool) : res (list path_el) :=
  to_path (index pts) (List.length pts) is_closed.
(** spline.rs:57-67: lerp of two splines *)
Definition spline_lerp_to_path (a b : list point) (t : f64) (is_closed : bool) : res (list path_el) :=
  to_path (fun i => let! p := index a i in let! q := index b i in Ok (point_lerp p q t))
          (Nat.min (List.length a) (List.length b)) is_closed.

(** animated.rs:284-300 [Spline], [SplineKeyframeValues] *)
Record spline_kf := mkSplineKf { sk_start : list point; sk_end : option (list point) }.
(** animated.rs:284-293 [Spline] *)
Record a_spline := mkASpline { asp_closed : bool; asp_times : list time; asp_values : list spline_kf }.
(** animated.rs:305-323 [Spline::evaluate]; returns the pushed elements, the
    boolean result is ignored by the only caller (mod.rs:153). *)
Definition a_spline_eval (E : Ext) (s : a_spline) (frame : f64) : res (list path_el) :=
  match frames_and_weight (asp_times s) frame with
  | None => Ok []
  | Some ((ix0, ix1), t, _, hold) =>
      let t := if hold then f0 else t in
      match nth_error (asp_values s) ix0, nth_error (asp_values s) ix1 with
      | Some from, Some to =>
          let to_slice := match sk_end from with Some e => e | None => sk_start to end in
          spline_lerp_to_path (sk_start from) to_slice t (asp_closed s)
      | _, _ => Ok []
      end
  end.

(** animated.rs:90-111 [Ellipse] *)
Record a_ellipse := mkAEllipse { ael_ccw : bool; ael_position : value point; ael_size : value size }.
(** animated.rs:101-103 [Ellipse::is_fixed] *)
Definition a_ellipse_is_fixed (e : a_ellipse) : bool :=
  is_fixed (ael_position e) && is_fixed (ael_size e).
(** animated.rs:105-110 followed by [path_elements(0.1)] (mod.rs:149-151) *)
Definition a_ellipse_eval (E : Ext) (e : a_ellipse) (frame : f64) : list path_el :=
  let p := eval E (ael_position e) frame in
  let s := eval E (ael_size e) frame in
  x_ellipse_path E p (fmul (width s) f_half) (fmul (height s) f_half).

(** animated.rs:114-149 [Rect] *)
Record a_rect := mkARect {
  arc_ccw : bool; arc_position : value point; arc_size : value size; arc_radius : value f64 }.
(** animated.rs:128-130 [Rect::is_fixed] *)
Definition a_rect_is_fixed (r : a_rect) : bool :=
  is_fixed (arc_position r) && is_fixed (arc_size r) && is_fixed (arc_radius r).
(** animated.rs:133-148 followed by [path_elements(0.1)] (mod.rs:146-148) *)
Definition a_rect_eval (E : Ext) (r : a_rect) (frame : f64) : list path_el :=
  let p := eval E (arc_position r) frame in
  let s := eval E (arc_size r) frame in
  let x := fsub (px p) (fmul (width s) f_half) in
  let y := fsub (py p) (fmul (height s) f_half) in
  let radius := eval E (arc_radius r) frame in
  x_rrect_path E x y (fadd x (width s)) (fadd y (height s)) radius.

(** animated.rs:152-163 [Star] *)
Record a_star := mkAStar {
  asr_polygon : bool;
  asr_direction : f64;
  asr_position : value point;
  asr_inner_radius : value f64;
  asr_inner_roundness : value f64;
  asr_outer_radius : value f64;
  asr_outer_roundness : value f64;
  asr_rotation : value f64;
  asr_points : value f64 }.
(** animated.rs:166-174 *)
Definition a_star_is_fixed (s : a_star) : bool :=
  is_fixed (asr_position s) && is_fixed (asr_inner_radius s) && is_fixed (asr_inner_roundness s)
  && is_fixed (asr_outer_radius s) && is_fixed (asr_outer_roundness s)
  && is_fixed (asr_rotation s) && is_fixed (asr_points s).

(** animated.rs:207, 232: the triples in [vertices] *)
Record star_vertex := mkSV { sv_pt : point; sv_in : point; sv_out : point }.

(** animated.rs:217-232: one vertex *)
Definition star_vertex_at (E : Ext) (center : point) (radius roundness step angle : f64)
  : star_vertex :=
  let x := fadd (px center) (fmul radius (x_cos E angle)) in
  let y := fadd (py center) (fmul radius (x_sin E angle)) in
  if fltb f_1em6 (fabs roundness) then
    let tangent_len :=
      fdiv (fmul (fmul (fmul radius (x_tan E (fdiv step (f_of_Z 2)))) roundness) (f_of_Z 4))
           (f_of_Z 3) in
    let perp_x := fneg (x_sin E angle) in
    let perp_y := x_cos E angle in
    mkSV (mkPoint x y)
         (mkPoint (fsub x (fmul tangent_len perp_x)) (fsub y (fmul tangent_len perp_y)))
         (mkPoint (fadd x (fmul tangent_len perp_x)) (fadd y (fmul tangent_len perp_y)))
  else mkSV (mkPoint x y) (mkPoint x y) (mkPoint x y).

(** animated.rs:210-234: vertices [i .. i+n) *)
Fixpoint star_vertices (E : Ext) (is_star : bool) (center : point)
  (outer_radius outer_roundness inner_radius inner_roundness step : f64)
  (angle : f64) (i n : nat) : list star_vertex :=
  match n with
  | O => []
  | S n =>
      let '(radius, roundness) :=
        if negb is_star || Nat.even i then (outer_radius, outer_roundness)
        else (inner_radius, inner_roundness) in
      star_vertex_at E center radius roundness step angle
      :: star_vertices E is_star center outer_radius outer_roundness inner_radius inner_roundness
           step (fadd angle step) (S i) n
  end.

(** animated.rs:247-250, 259-262: both tangents are negligible *)
Definition near (a b : point) : bool :=
  fltb (fabs (fsub (px a) (px b))) f_1em6 && fltb (fabs (fsub (py a) (py b))) f_1em6.
(** animated.rs:247-250, 259-262: the four comparisons *)
Definition straight (from to : star_vertex) : bool :=
  near (sv_out from) (sv_pt from) && near (sv_in to) (sv_pt to).
(** animated.rs:242-256 *)
Fixpoint star_edges (prev : star_vertex) (rest : list star_vertex) : list path_el :=
  match rest with
  | [] => []
  | v :: rest =>
      (if straight prev v then LineTo (sv_pt v) else CurveTo (sv_out prev) (sv_in v) (sv_pt v))
      :: star_edges v rest
  end.
(** animated.rs:257-268 *)
Definition star_close (final first : star_vertex) : list path_el :=
  if straight final first then [ClosePath]
  else [CurveTo (sv_out final) (sv_in first) (sv_pt first); ClosePath].

(** [Vec::<(Point,Point,Point)>::with_capacity(n)] panics when [48 n] exceeds
    [isize::MAX] (animated.rs:207). *)
Definition isize_max : Z := 9223372036854775807.
(** animated.rs:207: the capacity is one [Vec] can have *)
Definition star_cap_ok (total : Z) : bool := (total * 48 <=? isize_max)%Z.

(** animated.rs:178-269 [Star::evaluate]; returns the pushed elements.
    [num_points * 2] overflow is a panic (debug profile); it is subsumed by
    the capacity check. *)
Definition a_star_eval (E : Ext) (s : a_star) (frame : f64) : res (list path_el) :=
  let center := eval E (asr_position s) frame in
  let num_points := f_to_usize (fround (eval E (asr_points s) frame)) in
  if (num_points =? 0)%Z then Ok [] else
  let rotation_deg := eval E (asr_rotation s) frame in
  let outer_radius := eval E (asr_outer_radius s) frame in
  let outer_roundness := fdiv (eval E (asr_outer_roundness s) frame) f100 in
  let is_star := negb (asr_polygon s) in
  let '(inner_radius, inner_roundness) :=
    if is_star then (eval E (asr_inner_radius s) frame,
                     fdiv (eval E (asr_inner_roundness s) frame) f100)
    else (outer_radius, f0) in
  let angle_per_point := fdiv f_tau (f_of_Z num_points) in
  let half_angle := fdiv angle_per_point (f_of_Z 2) in
  let rotation_rad := fsub (to_radians rotation_deg) f_frac_pi_2 in
  let total_vertices := if is_star then (num_points * 2)%Z else num_points in
  let step := if is_star then half_angle else angle_per_point in
  if negb (star_cap_ok total_vertices) then Panic else
  match star_vertices E is_star center outer_radius outer_roundness inner_radius inner_roundness
          step rotation_rad 0 (Z.to_nat total_vertices) with
  | [] => Ok []
  | v0 :: vs =>
      Ok (MoveTo (sv_pt v0) :: star_edges v0 vs ++ star_close (last vs v0) v0)
  end.

(** mod.rs:131-160 [Geometry], [Geometry::evaluate]; returns the elements
    appended to [path]. *)
Inductive geometry :=
| GFixed (els : list path_el)
| GRect (r : a_rect)
| GEllipse (e : a_ellipse)
| GSpline (s : a_spline)
| GStar (s : a_star).
(** mod.rs:141-159 [Geometry::evaluate] *)
Definition geometry_eval (E : Ext) (g : geometry) (frame : f64) : res (list path_el) :=
  match g with
  | GFixed els => Ok els
  | GRect r => Ok (a_rect_eval E r frame)
  | GEllipse e => Ok (a_ellipse_eval E e frame)
  | GSpline s => a_spline_eval E s frame
  | GStar s => a_star_eval E s frame
  end.
(** animated.rs:272-280 [Star::into_model] (may panic through [evaluate]) *)
Definition a_star_into_model (E : Ext) (s : a_star) : res geometry :=
  if a_star_is_fixed s then let! p := a_star_eval E s f0 in Ok (GFixed p) else Ok (GStar s).

(** * Shapes, layers, compositions *)

(** mod.rs:162-170 [Draw] *)
Record draw := mkDraw { dr_stroke : option stroke_v; dr_brush : brush_v; dr_opacity : value f64 }.
(** mod.rs:188-192 [GroupTransform] *)
Record group_transform := mkGT { gt_transform : transform; gt_opacity : value f64 }.
(** mod.rs:174-185 [Shape] *)
Inductive shape :=
| ShGroup (shapes : list shape) (t : option group_transform)
| ShGeometry (g : geometry)
| ShDraw (d : draw)
| ShRepeater (r : repeater_v)
| ShTrim (t : trim_v).

(** mod.rs:241-248 [Mask] *)
Record mask := mkMask { mk_mode : blend_mode; mk_geometry : geometry; mk_opacity : value f64 }.
(** mod.rs:252-263 [Content] *)
Inductive content :=
| CNone
| CInstance (name : string) (time_remap : option (value f64))
| CShape (shapes : list shape).
(** mod.rs:196-225 [Layer] *)
Record layer := mkLayer {
  ly_name : string;
  ly_parent : option nat;
  ly_transform : transform;
  ly_opacity : value f64;
  ly_width : f64;
  ly_height : f64;
  ly_blend_mode : option blend_mode;
  ly_in : f64;   (* frames.start *)
  ly_out : f64;  (* frames.end *)
  ly_stretch : f64;
  ly_start_frame : f64;
  ly_masks : list mask;
  ly_is_mask : bool;
  ly_mask_layer : option (blend_mode * nat);
  ly_content : content }.
(** [Layer::default()] (derived) *)
Definition layer_default : layer :=
  mkLayer EmptyString None transform_default (VFixed f0) f0 f0 None f0 f0 f0 f0 [] false None CNone.

(** runtime/mod.rs:21-34 [Composition].  The asset map is an association list
    with unique keys (a HashMap); [find_asset] is [HashMap::get]. *)
Record composition := mkComp {
  co_in : f64;
  co_out : f64;
  co_frame_rate : f64;
  co_width : Z;
  co_height : Z;
  co_assets : list (string * list layer);
  co_layers : list layer }.
(** [HashMap::get] on runtime/mod.rs:21-34 [Composition::assets], as in render.rs:145 *)
Definition find_asset (c : composition) (name : string) : option (list layer) :=
  match find (fun p => String.eqb (fst p) name) (co_assets c) with
  | Some (_, l) => Some l
  | None => None
  end.
