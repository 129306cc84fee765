(** Model of the viewer in /repo/examples/with_winit/src: multi-touch gestures
    (multi_touch.rs) and the part of the event loop that keeps the viewer's
    state (lib.rs:125-156, 158-341, 363, 477-500).  Not modelled: windows, surfaces, GPU
    rendering, printing; [RedrawRequested] is modelled up to the choice of the
    scene and its transform. *)
From Coq Require Import ZArith Bool List.
From Verif Require Import F64 Kurbo Value Stats.
Import ListNotations.
Open Scope list_scope.
Open Scope Z_scope.

(** multi_touch.rs:60, 87-93: [BTreeMap<u64, ActiveTouch>] as a list in order
    of the keys *)
Definition touches := list (Z * point).
(** [BTreeMap::insert] *)
Fixpoint touch_insert (id : Z) (p : point) (l : touches) : touches :=
  match l with
  | [] => [(id, p)]
  | (k, q) :: l' =>
      if id <? k then (id, p) :: l
      else if id =? k then (id, p) :: l'
      else (k, q) :: touch_insert id p l'
  end.
(** [BTreeMap::remove] *)
Definition touch_remove (id : Z) (l : touches) : touches := filter (fun e => negb (fst e =? id)) l.
(** [BTreeMap::get] *)
Fixpoint touch_get (id : Z) (l : touches) : option point :=
  match l with [] => None | (k, q) :: l => if k =? id then Some q else touch_get id l end.

(** multi_touch.rs:76-85 *)
Record dyn_gesture := mkDyn { dg_distance : f64; dg_abs : vec2; dg_pos : point; dg_heading : f64 }.
(** multi_touch.rs:257-262 *)
Inductive pinch_type := PinchHorizontal | PinchVertical | PinchProportional.
(** multi_touch.rs:69-74 *)
Record gesture := mkGesture { ge_pinch : pinch_type; ge_previous : option dyn_gesture; ge_current : dyn_gesture }.
(** multi_touch.rs:51-67 *)
Record touch_state := mkTouch { ts_active : touches; ts_gesture : option gesture; ts_changed : bool }.
(** multi_touch.rs:96-102 *)
Definition touch_new : touch_state := mkTouch [] None false.

(** winit [TouchPhase] and [Touch] *)
Inductive phase := Started | Moved | Ended | Cancelled.
(** winit [Touch] *)
Record touch := mkTouchEv { te_phase : phase; te_id : Z; te_pos : point }.
(** multi_touch.rs:104-121 *)
Definition touch_event (s : touch_state) (e : touch) : touch_state :=
  match te_phase e with
  | Started => mkTouch (touch_insert (te_id e) (te_pos e) (ts_active s)) (ts_gesture s) true
  | Moved =>
      match touch_get (te_id e) (ts_active s) with
      | Some _ => mkTouch (touch_insert (te_id e) (te_pos e) (ts_active s)) (ts_gesture s) (ts_changed s)
      | None => s
      end
  | Ended | Cancelled => mkTouch (touch_remove (te_id e) (ts_active s)) (ts_gesture s) true
  end.

(** multi_touch.rs:265-291 *)
Definition classify (l : touches) : pinch_type :=
  match l with
  | [(_, t0); (_, t1)] =>
      let dx := fabs (fsub (px t0) (px t1)) in
      let dy := fabs (fsub (py t0) (py t1)) in
      if fltb (fmul (f_of_Z 3) dy) dx then PinchHorizontal
      else if fltb (fmul (f_of_Z 3) dx) dy then PinchVertical
      else PinchProportional
  | _ => PinchProportional
  end.

Section Gesture.
Context (E : Ext) (atan2 : f64 -> f64 -> f64).

(** multi_touch.rs:204-242; [Vec2::atan2] is [atan2(y, x)], [Point::distance] the
    hypotenuse of the difference *)
Definition dyn_state (l : touches) (first : point) : dyn_gesture :=
  let recip := fdiv f1 (f_of_Z (Z.of_nat (List.length l))) in
  let ax := fmul (fold_left (fun a e => fadd a (px (snd e))) l f0) recip in
  let ay := fmul (fold_left (fun a e => fadd a (py (snd e))) l f0) recip in
  let d := fold_left (fun a e => fadd a (x_hypot E (fsub ax (px (snd e))) (fsub ay (py (snd e))))) l f0 in
  let dx := fold_left (fun a e => fadd a (fabs (fsub ax (px (snd e))))) l f0 in
  let dy := fold_left (fun a e => fadd a (fabs (fsub ay (py (snd e))))) l f0 in
  mkDyn (fmul d recip) (mkVec2 (fmul dx recip) (fmul dy recip)) (mkPoint ax ay)
    (atan2 (fsub ay (py first)) (fsub ax (px first))).
(** multi_touch.rs:198-203, 239 *)
Definition calc_dynamic_state (l : touches) : option dyn_gesture :=
  match l with [] => None | (_, first) :: _ => Some (dyn_state l first) end.
(** multi_touch.rs:178-196 *)
Definition update_gesture (s : touch_state) : touch_state :=
  mkTouch (ts_active s)
    (match calc_dynamic_state (ts_active s) with
     | Some d =>
         Some (match ts_gesture s with
               | Some g => mkGesture (ge_pinch g) (Some (ge_current g)) d
               | None => mkGesture (classify (ts_active s)) None d
               end)
     | None => None
     end) (ts_changed s).
(** multi_touch.rs:123-136 *)
Definition end_frame (s : touch_state) : touch_state :=
  let s := update_gesture s in
  mkTouch (ts_active s)
    (if ts_changed s
     then match ts_gesture s with Some g => Some (mkGesture (ge_pinch g) None (ge_current g)) | None => None end
     else ts_gesture s) false.

(** multi_touch.rs:10-49 *)
Record touch_info := mkInfo {
  mi_touches : nat; mi_zoom : f64; mi_zoom_2d : vec2; mi_rotation : f64; mi_translation : vec2; mi_centre : point }.
(** multi_touch.rs:138-176 *)
Definition info (s : touch_state) : option touch_info :=
  match ts_gesture s with
  | None => None
  | Some g =>
      let cur := ge_current g in
      let prev := match ge_previous g with Some p => p | None => cur end in
      let many := (1 <? List.length (ts_active s))%nat in
      let zoom := if many then fdiv (dg_distance cur) (dg_distance prev) else f1 in
      let zoom2 :=
        if many then
          match ge_pinch g with
          | PinchHorizontal => mkVec2 (fdiv (vx (dg_abs cur)) (vx (dg_abs prev))) f1
          | PinchVertical => mkVec2 f1 (fdiv (vy (dg_abs cur)) (vy (dg_abs prev)))
          | PinchProportional => mkVec2 zoom zoom
          end
        else mkVec2 f1 f1 in
      Some (mkInfo (List.length (ts_active s)) zoom zoom2 (fsub (dg_heading cur) (dg_heading prev))
              (mkVec2 (fsub (px (dg_pos cur)) (px (dg_pos prev))) (fsub (py (dg_pos cur)) (py (dg_pos prev)))) (dg_pos cur))
  end.

(** lib.rs:125-156: the state of the viewer; the indices are [i32] *)
Record viewer := mkViewer {
  vw_stats : stats; vw_stats_shown : bool; vw_complexity_shown : bool; vw_vsync : bool; vw_aa : Z;
  vw_touch : touch_state; vw_nav : list Z; vw_transform : affine; vw_mouse : bool; vw_prior : option point;
  vw_scene : Z; vw_complexity : Z; vw_prev : Z; vw_shift : bool; vw_open : bool }.
(** [i32::MIN] *)
Definition i32_min : Z := -2147483648.
(** [i32::MAX] *)
Definition i32_max : Z := 2147483647.
(** [i32::saturating_add], [saturating_sub] *)
Definition i32_sat (z : Z) : Z := Z.max i32_min (Z.min i32_max z).
(** lib.rs:125-156; [scene_ix - 1] overflows for the least index *)
Definition viewer_new (scene : option Z) : res viewer :=
  let ix := match scene with Some z => z | None => 0 end in
  if ix - 1 <? i32_min then Panic
  else Ok (mkViewer stats_new true false true 0 touch_new [] affine_identity false None ix 0 (ix - 1) false true).

(** What happens to the viewer. *)
Inductive key := KLeft | KRight | KUp | KDown | KSpace | KEscape | KRotate (clockwise : bool) | KStats | KComplexity | KClear | KAa | KVsync | KOther.
(** The events of lib.rs:158-501. *)
Inductive viewer_event :=
| VeClose | VeShift (down : bool) | VeKey (k : key) | VeTouch (width height : f64) (t : touch)
| VeMouse (down : bool) | VeWheel (exponent : f64) | VeCursorLeft | VeCursor (p : point)
| VeRedraw (micros : Z) | VeWait | VeOther.

(** [Affine::translate(v) * m * Affine::translate(-v) * t] *)
Definition about (v : point) (m t : affine) : affine :=
  affine_mul (affine_mul (affine_mul (affine_translate (px v) (py v)) m) (affine_translate (fneg (px v)) (fneg (py v)))) t.

(** [scene_ix = z] *)
Definition set_scene (v : viewer) (z : Z) : viewer :=
  mkViewer (vw_stats v) (vw_stats_shown v) (vw_complexity_shown v) (vw_vsync v) (vw_aa v) (vw_touch v) (vw_nav v)
    (vw_transform v) (vw_mouse v) (vw_prior v) z (vw_complexity v) (vw_prev v) (vw_shift v) (vw_open v).
(** [transform = t] *)
Definition set_transform (v : viewer) (t : affine) : viewer :=
  mkViewer (vw_stats v) (vw_stats_shown v) (vw_complexity_shown v) (vw_vsync v) (vw_aa v) (vw_touch v) (vw_nav v)
    t (vw_mouse v) (vw_prior v) (vw_scene v) (vw_complexity v) (vw_prev v) (vw_shift v) (vw_open v).
(** [touch_state = s], [navigation_fingers = nav] *)
Definition set_touch (v : viewer) (s : touch_state) (nav : list Z) : viewer :=
  mkViewer (vw_stats v) (vw_stats_shown v) (vw_complexity_shown v) (vw_vsync v) (vw_aa v) s nav
    (vw_transform v) (vw_mouse v) (vw_prior v) (vw_scene v) (vw_complexity v) (vw_prev v) (vw_shift v) (vw_open v).
(** [mouse_down = mouse], [prior_position = prior] *)
Definition set_pointer (v : viewer) (mouse : bool) (prior : option point) : viewer :=
  mkViewer (vw_stats v) (vw_stats_shown v) (vw_complexity_shown v) (vw_vsync v) (vw_aa v) (vw_touch v) (vw_nav v)
    (vw_transform v) mouse prior (vw_scene v) (vw_complexity v) (vw_prev v) (vw_shift v) (vw_open v).
(** The switches and numbers that the keys change, lib.rs:172-237. *)
Definition set_flags (v : viewer) (st : stats) (shown cshown vsync : bool) (aa complexity : Z) (shift open : bool) : viewer :=
  mkViewer st shown cshown vsync aa (vw_touch v) (vw_nav v)
    (vw_transform v) (vw_mouse v) (vw_prior v) (vw_scene v) complexity (vw_prev v) shift open.

(** lib.rs:172-237; 0.05 is [flit 1 20]; an [usize] overflow panics *)
Definition on_key (v : viewer) (k : key) : res viewer :=
  let fl := set_flags v in
  match k with
  | KLeft => Ok (set_scene v (i32_sat (vw_scene v - 1)))
  | KRight => Ok (set_scene v (i32_sat (vw_scene v + 1)))
  | KUp => let! c := u64_add (vw_complexity v) 1 in
           Ok (fl (vw_stats v) (vw_stats_shown v) (vw_complexity_shown v) (vw_vsync v) (vw_aa v) c (vw_shift v) (vw_open v))
  | KDown => Ok (fl (vw_stats v) (vw_stats_shown v) (vw_complexity_shown v) (vw_vsync v) (vw_aa v) (Z.max 0 (vw_complexity v - 1)) (vw_shift v) (vw_open v))
  | KSpace => Ok (set_transform v affine_identity)
  | KRotate clockwise =>
      match vw_prior v with
      | Some p => Ok (set_transform v (about p (affine_rotate E (if clockwise then fneg (flit 1 20) else flit 1 20)) (vw_transform v)))
      | None => Ok v
      end
  | KStats => Ok (fl (vw_stats v) (negb (vw_stats_shown v)) (vw_complexity_shown v) (vw_vsync v) (vw_aa v) (vw_complexity v) (vw_shift v) (vw_open v))
  | KComplexity => Ok (fl (vw_stats v) (vw_stats_shown v) (negb (vw_complexity_shown v)) (vw_vsync v) (vw_aa v) (vw_complexity v) (vw_shift v) (vw_open v))
  | KClear => Ok (fl (clear_min_and_max (vw_stats v)) (vw_stats_shown v) (vw_complexity_shown v) (vw_vsync v) (vw_aa v) (vw_complexity v) (vw_shift v) (vw_open v))
  | KAa => Ok (fl (vw_stats v) (vw_stats_shown v) (vw_complexity_shown v) (vw_vsync v)
                  (i32_sat (if vw_shift v then vw_aa v - 1 else vw_aa v + 1)) (vw_complexity v) (vw_shift v) (vw_open v))
  | KVsync => Ok (fl (vw_stats v) (vw_stats_shown v) (vw_complexity_shown v) (negb (vw_vsync v)) (vw_aa v) (vw_complexity v) (vw_shift v) (vw_open v))
  | KEscape => Ok (fl (vw_stats v) (vw_stats_shown v) (vw_complexity_shown v) (vw_vsync v) (vw_aa v) (vw_complexity v) (vw_shift v) false)
  | KOther => Ok v
  end.
(** lib.rs:238-276; [HashSet] as a list *)
Definition in_zone (height : f64) (t : touch) : bool := fltb (fdiv (fmul height (f_of_Z 2)) (f_of_Z 3)) (py (te_pos t)).
(** lib.rs:238-276: [WindowEvent::Touch] *)
Definition on_touch (v : viewer) (width height : f64) (t : touch) : viewer :=
  let starts := match te_phase t with Started => in_zone height t | _ => false end in
  let nav := match te_phase t with
             | Started => if starts then te_id t :: vw_nav v else vw_nav v
             | Moved => vw_nav v
             | Ended | Cancelled => filter (fun i => negb (i =? te_id t)) (vw_nav v)
             end in
  let v := if starts
           then if fltb (px (te_pos t)) (fdiv width (f_of_Z 3)) then set_scene v (i32_sat (vw_scene v - 1))
                else if fltb (fdiv (fmul (f_of_Z 2) width) (f_of_Z 3)) (px (te_pos t)) then set_scene v (i32_sat (vw_scene v + 1))
                else v
           else v in
  set_touch v (if existsb (Z.eqb (te_id t)) nav then vw_touch v else touch_event (vw_touch v) t) nav.
(** lib.rs:290-311; 1.05 is [flit 105 100] *)
Definition on_wheel (v : viewer) (exponent : f64) : viewer :=
  match vw_prior v with
  | Some p => let z := x_powf E (flit 105 100) exponent in set_transform v (about p (affine_scale z z) (vw_transform v))
  | None => v
  end.
(** lib.rs:315-321 *)
Definition on_cursor (v : viewer) (p : point) : viewer :=
  let v' := match vw_prior v with
            | Some q => if vw_mouse v
                        then set_transform v (affine_mul (affine_translate (fsub (px p) (px q)) (fsub (py p) (py q))) (vw_transform v))
                        else v
            | None => v
            end in
  set_pointer v' (vw_mouse v) (Some p).
(** [i32::rem_euclid] panics for 0 *)
Definition rem_i32 (z n : Z) : res Z := if n =? 0 then Panic else Ok (z mod n).
(** lib.rs:322-341, 363, 477-480: the scene drawn, by its index, and the sample taken
    after the frame; then which scene, with what transform and antialiasing *)
Record shown := mkShown { sh_scene : Z; sh_transform : affine; sh_aa : Z }.
(** lib.rs:322-341, 363, 477-480: [WindowEvent::RedrawRequested] *)
Definition on_redraw (scenes : Z) (v : viewer) (micros : Z) : res (viewer * shown) :=
  let! ix := rem_i32 (vw_scene v) scenes in
  let! aa := rem_i32 (vw_aa v) 3 in
  let! _ := if (0 <=? ix) && (ix <? scenes) then Ok tt else Panic in
  let t := if vw_prev v =? ix then vw_transform v else affine_identity in
  let! _ := if (0 <=? aa) && (aa <? 3) then Ok tt else Panic in
  let! st := add_sample (vw_stats v) micros in
  Ok (mkViewer st (vw_stats_shown v) (vw_complexity_shown v) (vw_vsync v) aa (vw_touch v) (vw_nav v)
        t (vw_mouse v) (vw_prior v) ix (vw_complexity v) ix (vw_shift v) (vw_open v),
      mkShown ix t aa).
(** lib.rs:485-497 *)
Definition on_wait (v : viewer) : viewer :=
  let s := end_frame (vw_touch v) in
  let v := set_touch v s (vw_nav v) in
  match info s with
  | Some i =>
      let c := mi_centre i in
      set_transform v
        (affine_mul (affine_mul (affine_mul (affine_mul (affine_mul
           (affine_translate (vx (mi_translation i)) (vy (mi_translation i))) (affine_translate (px c) (py c)))
           (affine_scale (mi_zoom i) (mi_zoom i))) (affine_rotate E (mi_rotation i)))
           (affine_translate (fneg (px c)) (fneg (py c)))) (vw_transform v))
  | None => v
  end.
(** lib.rs:158-501 without the parts named above *)
Definition viewer_step (scenes : Z) (v : viewer) (e : viewer_event) : res (viewer * option shown) :=
  match e with
  | VeClose => let! v := on_key v KEscape in Ok (v, None)
  | VeShift b => Ok (set_flags v (vw_stats v) (vw_stats_shown v) (vw_complexity_shown v) (vw_vsync v) (vw_aa v) (vw_complexity v) b (vw_open v), None)
  | VeKey k => let! v := on_key v k in Ok (v, None)
  | VeTouch w h t => Ok (on_touch v w h t, None)
  | VeMouse b => Ok (set_pointer v b (vw_prior v), None)
  | VeWheel x => Ok (on_wheel v x, None)
  | VeCursorLeft => Ok (set_pointer v (vw_mouse v) None, None)
  | VeCursor p => Ok (on_cursor v p, None)
  | VeRedraw m => let! (v, s) := on_redraw scenes v m in Ok (v, Some s)
  | VeWait => Ok (on_wait v, None)
  | VeOther => Ok (v, None)
  end.
(** lib.rs:158-501: the events one after the other, and what was shown *)
Fixpoint viewer_run (scenes : Z) (v : viewer) (es : list viewer_event) : res (viewer * list shown) :=
  match es with
  | [] => Ok (v, [])
  | e :: es =>
      let! (v, s) := viewer_step scenes v e in
      let! (v, ss) := viewer_run scenes v es in
      Ok (v, match s with Some s => s :: ss | None => ss end)
  end.
End Gesture.
