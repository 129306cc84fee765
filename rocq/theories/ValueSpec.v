(** Vocabulary for properties of animated values. *)
From Coq Require Import ZArith Reals Bool List Arith.
From Flocq Require Import Core BinarySingleNaN.
From Verif Require Import F64 Kurbo Value Animated.
Import ListNotations.

(** Time of keyframe [i]. *)
Definition time_at (times : list time) (i : nat) : f64 := t_frame (nth i times time_dflt).
(** Strictly increasing keyframe times. *)
Definition increasing (times : list time) : Prop :=
  forall i j, i < j < List.length times -> fltb (time_at times i) (time_at times j) = true.
(** Non-decreasing keyframe times (several keyframes may share a time). *)
Definition sorted_times (times : list time) : Prop :=
  forall i j, i < j < List.length times -> fleb (time_at times i) (time_at times j) = true.
(** Finite and not astronomically large (below 2^1000 in magnitude). *)
Definition moderate (x : f64) : Prop :=
  is_finite x = true /\ (Rabs (B2R x) <= bpow radix2 1000)%R.
Definition moderate_times (times : list time) : Prop := Forall (fun t => moderate (t_frame t)) times.
Definition finite_times (times : list time) : Prop := Forall (fun t => is_finite (t_frame t) = true) times.

(** Keyframe [i] is the last one not after [frame], or the first one. *)
Definition surrounds (times : list time) (frame : f64) (i : nat) : Prop :=
  i < List.length times /\
  (i = 0 \/ fleb (time_at times i) frame = true) /\
  (S i < List.length times -> fltb frame (time_at times (S i)) = true).
(** The keyframe after [i], or the last one. *)
Definition next_key (times : list time) (i : nat) : nat := Nat.min (S i) (List.length times - 1).
(** The easing of the segment that starts at a keyframe. *)
Definition segment_easing (t : time) : easing :=
  mkEasing (match t_out t with Some o => o | None => mkHandle f0 f0 end)
           (match t_in t with Some i => i | None => mkHandle f1 f1 end).

(** Easing handles as in every Lottie file: moderate y, x below 2^20. *)
Definition sane_handle (h : handle) : Prop :=
  is_finite (hx h) = true /\ (Rabs (B2R (hx h)) <= bpow radix2 20)%R /\ moderate (hy h).
Definition sane_time (t : time) : Prop :=
  match t_out t with Some o => sane_handle o | None => True end /\
  match t_in t with Some i => sane_handle i | None => True end.

(** Equal numbers (the sign of a zero is ignored). *)
Definition same_number (x y : f64) : Prop := feqb x y = true.
Definition same_point (p q : point) : Prop := same_number (px p) (px q) /\ same_number (py p) (py q).
Definition same_element (a b : path_el) : Prop :=
  match a, b with
  | MoveTo p, MoveTo q => same_point p q
  | LineTo p, LineTo q => same_point p q
  | QuadTo p1 p2, QuadTo q1 q2 => same_point p1 q1 /\ same_point p2 q2
  | CurveTo p1 p2 p3, CurveTo q1 q2 q3 => same_point p1 q1 /\ same_point p2 q2 /\ same_point p3 q3
  | ClosePath, ClosePath => True
  | _, _ => False
  end.
Definition moderate_point (p : point) : Prop := moderate (px p) /\ moderate (py p).
Definition finite_point (p : point) : Prop := is_finite (px p) = true /\ is_finite (py p) = true.
Definition finite_element (e : path_el) : Prop :=
  match e with
  | MoveTo p | LineTo p => finite_point p
  | QuadTo p q => finite_point p /\ finite_point q
  | CurveTo p q r => finite_point p /\ finite_point q /\ finite_point r
  | ClosePath => True
  end.

(** ** Splines: vertex, in-tangent and out-tangent per triple *)
Definition pt_dflt : point := mkPoint f0 f0.
Definition vertex (pts : list point) (i : nat) : point := nth (3 * i) pts pt_dflt.
Definition in_control (pts : list point) (i : nat) : point :=
  let v := vertex pts i in let d := nth (3 * i + 1) pts pt_dflt in
  mkPoint (fadd (px d) (px v)) (fadd (py d) (py v)).
Definition out_control (pts : list point) (i : nat) : point :=
  let v := vertex pts i in let d := nth (3 * i + 2) pts pt_dflt in
  mkPoint (fadd (px d) (px v)) (fadd (py d) (py v)).
(** [e] leads from vertex [i] to vertex [j]: a line iff both control points
    coincide with their vertices. *)
Definition connects (pts : list point) (i j : nat) (e : path_el) : Prop :=
  (same_point (out_control pts i) (vertex pts i) /\ same_point (in_control pts j) (vertex pts j) /\
   e = LineTo (vertex pts j)) \/
  (~ (same_point (out_control pts i) (vertex pts i) /\ same_point (in_control pts j) (vertex pts j)) /\
   e = CurveTo (out_control pts i) (in_control pts j) (vertex pts j)).
(** The path of a spline with [n] vertices. *)
Definition spline_path (pts : list point) (closed : bool) (els : list path_el) : Prop :=
  let n := List.length pts / 3 in
  exists body, List.length body = n - 1 /\
    (forall i, i < n - 1 -> connects pts i (S i) (nth i body ClosePath)) /\
    if closed && (0 <? n) then
      exists e, connects pts (n - 1) 0 e /\ els = MoveTo (vertex pts 0) :: body ++ [e; ClosePath]
    else els = MoveTo (vertex pts 0) :: body.

(** ** Interpolated types *)
(** The numbers a value consists of ([f32] components widened). *)
Class Numbers (T : Type) := numbers : T -> list f64.
#[global] Instance numbers_f64 : Numbers f64 := fun x => [x].
#[global] Instance numbers_point : Numbers point := fun p => [px p; py p].
#[global] Instance numbers_vec2 : Numbers vec2 := fun p => [vx p; vy p].
#[global] Instance numbers_size : Numbers size := fun p => [width p; height p].
#[global] Instance numbers_color : Numbers color := fun c =>
  [f32_to_f64 (cr c); f32_to_f64 (cg c); f32_to_f64 (cb c); f32_to_f64 (ca c)].
Definition same_value {T} `{Numbers T} (a b : T) : Prop := Forall2 same_number (numbers a) (numbers b).
Definition finite_value {T} `{Numbers T} (a : T) : Prop := Forall (fun x => is_finite x = true) (numbers a).

(** The types that the crate interpolates (value.rs:174-269): instances for
    [f64], [point], [vec2], [size] and [color] are in ValueFacts2.v. *)
Class TweenLaws (T : Type) `{Tween T} `{Numbers T} : Prop := {
  tl_low : forall E (a b : T) t e, fleb t f0 = true -> tween E a b t e = a;
  tl_high : forall E (a b : T) t e, fleb f1 t = true -> tween E a b t e = b;
  tl_self : forall E (a : T) t h, sane_time h -> finite_value a ->
    same_value (tween E a a t (segment_easing h)) a }.
