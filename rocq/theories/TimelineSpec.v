(** What an animated property of a document means: the vocabulary for
    properties about values over time, stated on the document's keyframes. *)
From Coq Require Import ZArith Bool List Arith.
From Flocq Require Import BinarySingleNaN.
From Verif Require Import F64 Kurbo Value Animated ValueSpec Schema ImportSpec.
Import ListNotations.

Definition kf_time (k : keyframe) : f64 := kb_time (kf_b k).
(** Keyframes in order, at different times. *)
Definition in_order (ks : list keyframe) : Prop :=
  forall i j k l, i < j -> nth_error ks i = Some k -> nth_error ks j = Some l ->
    fltb (kf_time k) (kf_time l) = true.
Definition moderate_keyframes (ks : list keyframe) : Prop := Forall (fun k => moderate (kf_time k)) ks.
Definition held (k : keyframe) : Prop := kb_hold (kf_b k) = Some BITrue.
(** How far [frame] is between two keyframes: a number from 0 to 1. *)
Definition progress (k l : keyframe) (frame : f64) : f64 :=
  fclamp f0 f1 (fdiv (fsub frame (kf_time k)) (fsub (kf_time l) (kf_time k))).
(** [frame] is from [k] on and before [l]. *)
Definition between (k l : keyframe) (frame : f64) : Prop :=
  fleb (kf_time k) frame = true /\ fltb frame (kf_time l) = true.

(** The easing curve for component [j]: out-handle (default (0,0)) and
    in-handle (default (1,1)). *)
Definition handle_or (d : handle) (o : option kf_handle) (j : nat) (h : handle) : Prop :=
  match o with Some k => handle_at k j h | None => h = d end.
Definition easing_at (b : kf_base) (j : nat) (e : easing) : Prop :=
  handle_or (mkHandle f0 f0) (kb_out b) j (eo e) /\ handle_or (mkHandle f1 f1) (kb_in b) j (ei e).
Definition linear : easing := mkEasing (mkHandle f0 f0) (mkHandle f1 f1).
(** The easing used for a vector property: linear without a full pair of
    handles, else that of the last of at most two components. *)
Definition vector_easing (k : keyframe) (e : easing) : Prop :=
  if easings k =? 0 then e = linear else easing_at (kf_b k) (easings k - 1) e.
(** A scalar property: first number and only easing of a keyframe. *)
Definition first_number (k : keyframe) : f64 := hd f0 (kf_value k).
Definition scalar_easing (k : keyframe) (e : easing) : Prop := easing_at (kf_b k) 0 e.
(** Handles as in every Lottie file. *)
Definition sane_handles (b : kf_base) : Prop :=
  forall j h, (exists k, kb_in b = Some k /\ handle_at k j h) \/ (exists k, kb_out b = Some k /\ handle_at k j h) ->
    sane_handle h.

(** [v] is the value over time of keyframes [ks] with values [val]: constant
    before the first and after the last keyframe, and interpolated with the
    keyframe's easing, or held, between two. *)
Record follows {T} `{Tween T} `{Numbers T} (E : Ext) (ks : list keyframe) (val : keyframe -> T)
  (eases : keyframe -> easing -> Prop) (v : f64 -> T) : Prop := mkFollows {
  fo_before : forall k rest frame, is_finite frame = true -> ks = k :: rest ->
    fltb frame (kf_time k) = true -> v frame = val k;
  fo_held : forall i k l frame, is_finite frame = true -> nth_error ks i = Some k -> nth_error ks (S i) = Some l ->
    between k l frame -> held k -> v frame = val k;
  fo_between : forall i k l frame, is_finite frame = true -> nth_error ks i = Some k -> nth_error ks (S i) = Some l ->
    between k l frame -> ~ held k ->
    exists e, eases k e /\ v frame = tween E (val k) (val l) (progress k l frame) e;
  fo_at : forall i k l frame, is_finite frame = true -> nth_error ks i = Some k -> nth_error ks (S i) = Some l ->
    feqb frame (kf_time k) = true -> v frame = val k;
  fo_after : forall k rest frame, is_finite frame = true -> ks = rest ++ [k] ->
    fltb (kf_time k) frame = true -> v frame = val k;
  fo_last : forall k rest frame, is_finite frame = true -> ks = rest ++ [k] ->
    feqb frame (kf_time k) = true -> sane_handles (kf_b k) -> finite_value (val k) -> same_value (v frame) (val k) }.

(** * Properties of a document over time *)

(** [g] is the value over time of a property: constant, or following its
    keyframes (if those are in order). *)
Definition scalar_means (E : Ext) (v : float_value) (g : f64 -> f64) : Prop :=
  match ap_k v with
  | AkStatic n => forall frame, g frame = n
  | AkAnimated ks => in_order ks -> moderate_keyframes ks -> follows E ks first_number scalar_easing g
  end.
Definition vector_means {T} `{Tween T} `{Numbers T} (E : Ext) (f : list f64 -> T) (v : anim_prop (list f64))
  (g : f64 -> T) : Prop :=
  match ap_k v with
  | AkStatic l => forall frame, g frame = f l
  | AkAnimated ks => in_order ks -> moderate_keyframes ks ->
      follows E ks (fun k => f (kf_value k)) vector_easing g
  end.
Definition pos_means (E : Ext) (v : s_position) (g : f64 -> point) : Prop :=
  match po_k v with
  | PkStatic l => forall frame, g frame = point_of l
  | PkAnimated ks => in_order (map pk_kf ks) -> moderate_keyframes (map pk_kf ks) ->
      follows E (map pk_kf ks) (fun k => point_of (kf_value k)) vector_easing g
  end.
Definition any_p_means (E : Ext) (p : any_p) (g : f64 -> point) : Prop :=
  match p with
  | ApPosition p => pos_means E p g
  | ApSplit s => exists x y, scalar_means E (spv_x s) x /\ scalar_means E (spv_y s) y /\
                             forall frame, g frame = mkPoint (x frame) (y frame)
  end.
(** An optional property with a default. *)
Definition or_means {A T} (means : A -> (f64 -> T) -> Prop) (o : option A) (d : T) (g : f64 -> T) : Prop :=
  match o with Some v => means v g | None => forall frame, g frame = d end.

(** Where a transform puts things: about the anchor, scale, then skew along
    an axis, then rotate, then move the anchor to the position. *)
Definition skewing (E : Ext) (skew axis : f64) : list affine :=
  if feqb skew f0 then [affine_identity]
  else [affine_mul (affine_mul (affine_rotate E (fneg (to_radians axis))) (affine_skew (x_tan E (to_radians skew)) f0))
                   (affine_rotate E (to_radians axis))].
Fixpoint product (acc : affine) (l : list affine) : affine :=
  match l with [] => acc | m :: l => product (affine_mul acc m) l end.
Definition placement (E : Ext) (position anchor : point) (scale : vec2) (rotation skew axis : f64) : affine :=
  product (affine_translate (px position) (py position))
    (affine_rotate E (to_radians rotation) :: skewing E skew axis ++
     [affine_scale (fdiv (vx scale) f100) (fdiv (vy scale) f100);
      affine_translate (fneg (px anchor)) (fneg (py anchor))]).
(** [m] and [op] are matrix and opacity over time of the transform [t];
    [scale0] is the scale assumed when none is given. *)
Definition transform_means (E : Ext) (scale0 : list f64) (t : s_transform) (m : f64 -> affine) (op : f64 -> f64) : Prop :=
  (exists position anchor scale rotation skew axis,
     any_p_means E (tf_p t) position /\
     or_means (pos_means E) (tf_a t) (mkPoint f0 f0) anchor /\
     or_means (fun v => vector_means E vec2_of (md_p v)) (tf_s t) (vec2_of scale0) scale /\
     or_means (fun r g => exists v, r = ArRotation v /\ scalar_means E v g) (tf_r t) f0 rotation /\
     or_means (scalar_means E) (tf_sk t) f0 skew /\
     or_means (scalar_means E) (tf_sa t) f0 axis /\
     forall frame, m frame = placement E (position frame) (anchor frame) (scale frame) (rotation frame)
                               (skew frame) (axis frame)) /\
  or_means (scalar_means E) (tf_o t) f100 op.
(** What a stroke style looks like over time. *)
Definition stroke_means (E : Ext) (j0 : line_join) (c0 : line_cap) (bs : base_stroke) (s : f64 -> stroke) : Prop :=
  exists w, scalar_means E (bs_w bs) w /\
  forall frame, s frame = mkStroke (w frame) (join_of j0 (bs_lj bs))
    (match bs_ml bs with Some m => m | None => f_of_Z 4 end) (cap_of c0 (bs_lc bs)) (cap_of c0 (bs_lc bs)).
