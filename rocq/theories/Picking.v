(** Model of the hit-testing sink in /repo/examples/scenes/src/picking.rs:131-296.
    [cursor_to_scene] and the overlays (60-129) are in Cursor.v. *)
From Coq Require Import ZArith Bool List Arith String.
From Verif Require Import F64 Kurbo Value Animated Batch Render.
Import ListNotations.
Open Scope list_scope.
Open Scope nat_scope.

(** kurbo::Rect *)
Record rect := mkRect { rx0 : f64; ry0 : f64; rx1 : f64; ry1 : f64 }.
(** kurbo [Rect::union] *)
Definition rect_union (a b : rect) : rect :=
  mkRect (fmin (rx0 a) (rx0 b)) (fmin (ry0 a) (ry0 b)) (fmax (rx1 a) (rx1 b)) (fmax (ry1 a) (ry1 b)).
(** kurbo [Rect::contains] *)
Definition rect_contains (r : rect) (p : point) : bool :=
  fleb (rx0 r) (px p) && fltb (px p) (rx1 r) && fleb (ry0 r) (py p) && fltb (py p) (ry1 r).
(** kurbo [Rect::from_points] *)
Definition rect_of_points (p q : point) : rect :=
  mkRect (fmin (px p) (px q)) (fmin (py p) (py q)) (fmax (px p) (px q)) (fmax (py p) (py q)).
(** kurbo [Affine * Point] *)
Definition affine_point (t : affine) (p : point) : point :=
  mkPoint (fadd (fadd (fmul (aa t) (px p)) (fmul (ac t) (py p))) (ae t))
          (fadd (fadd (fmul (ab t) (px p)) (fmul (ad t) (py p))) (af t)).
(** kurbo [Affine::transform_rect_bbox] *)
Definition transform_rect_bbox (t : affine) (r : rect) : rect :=
  rect_union (rect_of_points (affine_point t (mkPoint (rx0 r) (ry0 r))) (affine_point t (mkPoint (rx0 r) (ry1 r))))
             (rect_of_points (affine_point t (mkPoint (rx1 r) (ry0 r))) (affine_point t (mkPoint (rx1 r) (ry1 r)))).

(** picking.rs:210-214 [LayerHit] *)
Record layer_hit := mkHit { lh_name : string; lh_rect : rect; lh_order : nat }.
(** picking.rs:223-232 [LayerBoundsTracker]; the [HashSet] of names is a list.
    Simplification: [usize] is unbounded. *)
Record tracker := mkTracker {
  tk_interactive : list string; tk_layer : option string; tk_order : nat; tk_bounds : option rect;
  tk_nesting : nat; tk_counter : nat; tk_collected : list layer_hit }.
(** picking.rs:29 *)
Definition depth_band : nat := 1000.
(** picking.rs:235-245 *)
Definition tracker_new (interactive : list string) : tracker := mkTracker interactive None 0 None 0 0 [].
(** picking.rs:247-249 *)
Definition is_inside (t : tracker) : bool := match tk_layer t with Some _ => true | None => false end.
(** [HashSet::contains] *)
Definition name_in (n : string) (l : list string) : bool := existsb (String.eqb n) l.
(** picking.rs:251-263 *)
Definition tracker_begin (t : tracker) (name : string) : tracker :=
  let counter := tk_counter t + depth_band in
  match tk_layer t with
  | Some _ => mkTracker (tk_interactive t) (tk_layer t) (tk_order t) (tk_bounds t) (tk_nesting t + 1) counter (tk_collected t)
  | None =>
      if name_in name (tk_interactive t)
      then mkTracker (tk_interactive t) (Some name) counter None 0 counter (tk_collected t)
      else mkTracker (tk_interactive t) None (tk_order t) (tk_bounds t) (tk_nesting t) counter (tk_collected t)
  end.
(** picking.rs:265-272 *)
Definition accumulate (t : tracker) (r : rect) : tracker :=
  match tk_layer t with
  | Some _ =>
      mkTracker (tk_interactive t) (tk_layer t) (tk_order t)
        (Some (match tk_bounds t with Some existing => rect_union existing r | None => r end))
        (tk_nesting t) (tk_counter t) (tk_collected t)
  | None => t
  end.
(** picking.rs:274-291; [take] empties the two options, the second only if
    the first was not empty *)
Definition tracker_end (t : tracker) : tracker :=
  match tk_layer t with
  | None => t
  | Some name =>
      if 0 <? tk_nesting t
      then mkTracker (tk_interactive t) (tk_layer t) (tk_order t) (tk_bounds t) (tk_nesting t - 1) (tk_counter t) (tk_collected t)
      else mkTracker (tk_interactive t) None (tk_order t) None (tk_nesting t) (tk_counter t)
             (match tk_bounds t with
              | Some r => tk_collected t ++ [mkHit name r (tk_order t)]
              | None => tk_collected t
              end)
  end.
(** picking.rs:160-208 [impl RenderSink for PickingScene]: the tracker ... *)
Definition tracker_event (bbox : list path_el -> rect) (t : tracker) (e : event) : tracker :=
  match e with
  | EvBegin name _ => tracker_begin t name
  | EvEnd => tracker_end t
  | EvDraw p => if is_inside t then accumulate t (transform_rect_bbox (pt_transform p) (bbox (pt_path p))) else t
  | EvPushLayer _ _ _ _ | EvPushClip _ _ | EvPop => t
  end.
(** picking.rs:160-208: the calls of a frame, one after the other *)
Definition tracker_run (bbox : list path_el -> rect) (t : tracker) (es : list event) : tracker :=
  fold_left (tracker_event bbox) es t.
(** ... and the wrapped scene *)
Definition picking_op (e : event) : list scene_op :=
  match e with
  | EvPushLayer blend alpha t s => [OpPushLayer blend alpha t s]
  | EvPushClip t s => [OpPushClip t s]
  | EvPop => [OpPop]
  | EvDraw p =>
      match pt_stroke p with
      | Some st => [OpStroke st (pt_transform p) (pt_brush p) (pt_path p)]
      | None => [OpFill (pt_transform p) (pt_brush p) (pt_path p)]
      end
  | EvBegin _ _ | EvEnd => []
  end.

(** [Iterator::max_by_key]: of several maximal elements the last *)
Definition max_by_key {A} (key : A -> nat) (l : list A) : option A :=
  match l with
  | [] => None
  | x :: l => Some (fold_left (fun m y => if key y <? key m then m else y) l x)
  end.
(** picking.rs:131-137 [pick_layer] *)
Definition pick_layer (hits : list layer_hit) (cursor : point) : option nat :=
  option_map fst (max_by_key (fun p => lh_order (snd p))
                    (filter (fun p => rect_contains (lh_rect (snd p)) cursor) (enumerate hits))).

(** picking.rs:42, 56-58: the hits of a frame; all layers of the composition
    are interactive *)
Definition interactive_of (c : composition) : list string := map ly_name (co_layers c).
(** picking.rs:42-58: what is collected in a frame *)
Definition frame_hits (bbox : list path_el -> rect) (c : composition) (es : list event) : list layer_hit :=
  tk_collected (tracker_run bbox (tracker_new (interactive_of c)) es).
