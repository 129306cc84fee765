(** Model of where the viewer puts a scene on the screen
    (/repo/examples/with_winit/src/lib.rs:371-378), of how the pointer is taken
    back into it and of what marks the layer there
    (/repo/examples/scenes/src/picking.rs:60-129). *)
From Coq Require Import ZArith Bool List Arith String.
From Verif Require Import F64 Kurbo Picking.
Import ListNotations.
Open Scope list_scope.

(** lib.rs:372-376: the scene of size [resolution] fills as much of the window as it can *)
Definition fit (window resolution : vec2) : f64 := fmin (fdiv (vx window) (vx resolution)) (fdiv (vy window) (vy resolution)).
(** lib.rs:371-378 [transform *= Affine::scale(scale_factor)] *)
Definition on_window (window resolution : vec2) (camera : affine) : affine :=
  let s := fit window resolution in affine_mul camera (affine_scale s s).
(** kurbo [Affine::determinant] *)
Definition determinant (t : affine) : f64 := fsub (fmul (aa t) (ad t)) (fmul (ab t) (ac t)).
(** kurbo [Affine::inverse]; [f64::recip] is [1 / x] *)
Definition affine_inverse (t : affine) : affine :=
  let i := fdiv f1 (determinant t) in
  mkAffine (fmul i (ad t)) (fmul (fneg i) (ab t)) (fmul (fneg i) (ac t)) (fmul i (aa t))
    (fmul i (fsub (fmul (ac t) (af t)) (fmul (ad t) (ae t)))) (fmul i (fsub (fmul (ab t) (ae t)) (fmul (aa t) (af t)))).
(** picking.rs:124-129 *)
Definition cursor_to_scene (cursor : point) (viewport resolution : vec2) (camera : affine) : point :=
  let scale := fmin (fdiv (vx viewport) (vx resolution)) (fdiv (vy viewport) (vy resolution)) in
  affine_point (affine_inverse (affine_mul camera (affine_scale scale scale))) cursor.
(** picking.rs:60-71: the layer under the pointer; without a pointer or a
    viewport there is none *)
Definition hovered (hits : list layer_hit) (cursor : option point) (viewport : option vec2) (resolution : vec2) (camera : affine) : option nat :=
  match cursor, viewport with
  | Some c, Some w => pick_layer hits (cursor_to_scene c w resolution camera)
  | _, _ => None
  end.
(** picking.rs:73-109: what is drawn over the frame for a layer: its box,
    brighter for the layer under the pointer, and its name.  The colours are
    left out; [bright] chooses them, and the widths of the lines. *)
Record mark := mkMark { mk_rect : rect; mk_bright : bool; mk_name : string; mk_size : f64; mk_at : point }.
(** picking.rs:79-107: the box, the size and the place of the label of one layer *)
Definition mark_of (bright : bool) (h : layer_hit) : mark :=
  let size := if bright then f_of_Z 16 else f_of_Z 12 in
  mkMark (lh_rect h) bright (lh_name h) size (mkPoint (fadd (rx0 (lh_rect h)) (f_of_Z 4)) (fadd (fadd (ry0 (lh_rect h)) size) (f_of_Z 2))).
(** picking.rs:76-77 [hits.iter().enumerate()] from [i] on *)
Fixpoint marks (over : option nat) (i : nat) (hits : list layer_hit) : list mark :=
  match hits with
  | [] => []
  | h :: hits => mark_of (match over with Some j => Nat.eqb j i | None => false end) h :: marks over (S i) hits
  end.
(** picking.rs:111-120: the name at the pointer *)
Definition tooltip (hits : list layer_hit) (over : option nat) (scene_cursor : option point) : res (option (string * point)) :=
  match over, scene_cursor with
  | Some i, Some c => match nth_error hits i with
                      | Some h => Ok (Some (append "-> " (lh_name h), mkPoint (fadd (px c) (f_of_Z 16)) (fsub (py c) (f_of_Z 8))))
                      | None => Panic
                      end
  | _, _ => Ok None
  end.
(** picking.rs:60-120 *)
Definition overlay (hits : list layer_hit) (cursor : option point) (viewport : option vec2) (resolution : vec2) (camera : affine) : res (list mark * option (string * point)) :=
  let over := hovered hits cursor viewport resolution camera in
  let scene_cursor := match cursor, viewport with Some c, Some w => Some (cursor_to_scene c w resolution camera) | _, _ => None end in
  bind (tooltip hits over scene_cursor) (fun t => Ok (marks over 0 hits, t)).
