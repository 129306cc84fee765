(** A layer with its parents, in real numbers: nothing here mentions how the
    program multiplies its matrices. *)
From Coq Require Import Reals List Arith.
From Flocq Require Import Core BinarySingleNaN.
From Verif Require Import F64 F64Facts Kurbo GeometrySpec Schema TimelineSpec ImportSpec.
Import ListNotations.
Open Scope R_scope.
(** How a layer stands in its parent: [pl_scale] in percent, [pl_rotation] in degrees. *)
Record place := mkPlace { pl_position : vec; pl_anchor : vec; pl_scale : vec; pl_rotation : R }.
Definition stand (p : place) (v : vec) : vec := lands (pl_position p) (pl_anchor p) (pl_scale p) (pl_rotation p) 0 0 v.
(** Where a point of a layer is in the end: a layer, its parent, the parent
    of that, and so on. *)
Fixpoint world (l : list place) (v : vec) : vec := match l with nil => v | p :: l => world l (stand p v) end.
Definition plain_place (p : place) : Prop :=
  bounded_by 4096 (pl_position p) /\ bounded_by 4096 (pl_anchor p) /\ bounded_by 100 (pl_scale p) /\ Rabs (pl_rotation p) <= 16384.

(** [parents] are the parent of the layer [l] of the document, the parent of
    that and so on, up to a layer that names no parent (or one that is not there). *)
Inductive family (srcs : list any_layer) : any_layer -> list any_layer -> Prop :=
| fam_top : forall l, (forall p, sl_parent (base_of l) = Some p -> forall m, In m srcs -> src_id m <> p) -> family srcs l []
| fam_child : forall l p k m parents, sl_parent (base_of l) = Some p -> last_with_id srcs p k ->
    nth_error srcs k = Some m -> family srcs m parents -> family srcs l (m :: parents).
(** What the transform [t] of the document says at a frame. *)
Record posture := mkPosture { po_position : point; po_anchor : point; po_scale : vec2; po_rotation : f64; po_skew : f64; po_axis : f64 }.
Definition posture_at (E : Ext) (t : s_transform) (frame : f64) (x : posture) : Prop :=
  exists position anchor scale rotation skew axis,
    any_p_means E (tf_p t) position /\ or_means (pos_means E) (tf_a t) (mkPoint f0 f0) anchor /\
    or_means (fun v => vector_means E vec2_of (md_p v)) (tf_s t) (vec2_of [f1; f1; f1]) scale /\
    or_means (fun r g => exists v, r = ArRotation v /\ scalar_means E v g) (tf_r t) f0 rotation /\
    or_means (scalar_means E) (tf_sk t) f0 skew /\ or_means (scalar_means E) (tf_sa t) f0 axis /\
    x = mkPosture (position frame) (anchor frame) (scale frame) (rotation frame) (skew frame) (axis frame).
(** Ordinary numbers, not slanted. *)
Definition has_place (x : posture) (p : place) : Prop :=
  fin (px (po_position x)) /\ fin (py (po_position x)) /\ fin (px (po_anchor x)) /\ fin (py (po_anchor x)) /\
  fin (vx (po_scale x)) /\ fin (vy (po_scale x)) /\ fin (po_rotation x) /\ feqb (po_skew x) f0 = true /\
  p = mkPlace (real_point (po_position x)) (real_point (po_anchor x)) (real_vec2 (po_scale x)) (B2R (po_rotation x)).
(** The map given by the caller of the renderer. *)
Definition plain_view (m : affine) : Prop :=
  finite_map m /\ Rabs (B2R (aa m)) <= 4 /\ Rabs (B2R (ab m)) <= 4 /\ Rabs (B2R (ac m)) <= 4 /\ Rabs (B2R (ad m)) <= 4 /\
  Rabs (B2R (ae m)) <= 8192 /\ Rabs (B2R (af m)) <= 8192.
