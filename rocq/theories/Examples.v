(** Concrete data used to show that hypotheses are satisfiable and to refute
    expectations the code does not meet.  [E0] is one arbitrary choice of the
    external functions. *)
From Coq Require Import ZArith Bool List Arith String.
From Flocq Require Import Core BinarySingleNaN.
From Verif Require Import F64 Kurbo Value Animated Batch Render.
Import ListNotations.
Open Scope string_scope.

Definition E0 : Ext := {|
  x_sin := fun _ => f0;
  x_cos := fun _ => f1;
  x_tan := fun _ => f0;
  x_powf := fun _ _ => f1;
  x_hypot := fun x y => fadd (fabs x) (fabs y);
  x_solve_cubic := fun c0 _ _ _ => [fneg c0];
  x_rrect_path := fun x0 y0 x1 y1 _ =>
    [MoveTo (mkPoint x0 y0); LineTo (mkPoint x1 y0); LineTo (mkPoint x1 y1); ClosePath];
  x_ellipse_path := fun c _ _ => [MoveTo c; ClosePath];
  x_arclen := fun _ => f1;
  x_inv_arclen := fun _ l => l;
  x_subsegment := fun s _ _ => s;
  x_color_mul_alpha := fun c _ => c;
  x_brush_mul_alpha := fun b _ => b |}.

Definition zp (x y : Z) : point := mkPoint (f_of_Z x) (f_of_Z y).
Definition tri (x : Z) : list path_el := [MoveTo (zp x 0); LineTo (zp (x + 1) 0); LineTo (zp x 1); ClosePath].
Definition red : brush := BSolid (mkColor f32_one f32_one f32_one f32_one).
Definition fill_draw : draw := mkDraw None (BrFixed red) (VFixed f100).
Definition fill : shape := ShDraw fill_draw.
Definition geo (x : Z) : shape := ShGeometry (GFixed (tri x)).

Definition mk_layer (name : string) (parent : option nat) (masks : list mask) (is_mask : bool)
  (matte : option (blend_mode * nat)) (c : content) : layer :=
  mkLayer name parent transform_default (VFixed f100) f0 f0 None f0 (f_of_Z 10) f1 f0
          masks is_mask matte c.
Definition a_mask (x : Z) : mask := mkMask blend_default (GFixed (tri x)) (VFixed f100).

(** A matte, masks, a precomp with two layers, a parent and a group. *)
Definition comp1 : composition :=
  mkComp f0 (f_of_Z 10) (f_of_Z 30) 100 50
    [("pre", [mk_layer "p0" None [] false None (CShape [geo 1; fill]);
              mk_layer "p1" (Some 0) [] false None (CShape [geo 2; fill])])]
    [mk_layer "matte" None [] true None (CShape [geo 3; fill]);
     mk_layer "content" None [a_mask 4; a_mask 5] false
       (Some (blend_of_compose ComposeSrcIn, 0)) (CShape [ShGroup [geo 6; fill] None]);
     mk_layer "inst" (Some 1) [] false None (CInstance "pre" None)].

Example comp1_renders :
  r_out (append E0 5 comp1 (f_of_Z 3) affine_identity f1 renderer_new) = Ok tt /\
  List.length (events (append E0 5 comp1 (f_of_Z 3) affine_identity f1 renderer_new)) = 24.
Proof. vm_compute. auto. Qed.
