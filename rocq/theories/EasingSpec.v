(** How a value moves from one keyframe to the next, in real numbers. *)
From Coq Require Import Reals List.
From Flocq Require Import Core BinarySingleNaN.
From Verif Require Import F64 F64Facts Kurbo.
Import ListNotations.
Open Scope R_scope.

(** A coordinate of the cubic curve from 0 to 1 with control values [p] and [q]. *)
Definition cubic (p q u : R) : R := 3 * u * (1 - u) ^ 2 * p + 3 * u ^ 2 * (1 - u) * q + u ^ 3.
(** [y] is the height of the curve (0,0), (x1,y1), (x2,y2), (1,1) at [t], both up to [e]. *)
Definition on_curve (x1 y1 x2 y2 e t y : R) : Prop :=
  exists u, 0 <= u <= 1 /\ Rabs (cubic x1 x2 u - t) <= e /\ Rabs (cubic y1 y2 u - y) <= e.
Definition polynomial (c0 c1 c2 c3 : f64) (x : R) : R := B2R c0 + B2R c1 * x + B2R c2 * x ^ 2 + B2R c3 * x ^ 3.
(** A cubic solver that finds a zero between 0 and 1 if there is a sign
    change, and whose zeros are zeros up to 10^-9. *)
Record solves (E : Ext) : Prop := mkSolves {
  so_sound : forall c0 c1 c2 c3 r, fin c0 -> fin c1 -> fin c2 -> fin c3 ->
    Rabs (B2R c0) <= 100 -> Rabs (B2R c1) <= 100 -> Rabs (B2R c2) <= 100 -> Rabs (B2R c3) <= 100 ->
    In r (x_solve_cubic E c0 c1 c2 c3) -> fin r -> -1 <= B2R r <= 2 ->
    Rabs (polynomial c0 c1 c2 c3 (B2R r)) <= / 1000000000;
  so_complete : forall c0 c1 c2 c3, fin c0 -> fin c1 -> fin c2 -> fin c3 ->
    Rabs (B2R c0) <= 100 -> Rabs (B2R c1) <= 100 -> Rabs (B2R c2) <= 100 -> Rabs (B2R c3) <= 100 ->
    polynomial c0 c1 c2 c3 0 < 0 -> 0 < polynomial c0 c1 c2 c3 1 ->
    exists r, In r (x_solve_cubic E c0 c1 c2 c3) /\ fin r /\ - / 10000000000000 <= B2R r <= 1 + / 10000000000000 }.

From Verif Require Import Value Schema ImportSpec TimelineSpec.
(** Handles of which the first coordinates are at most 4 and the second at
    most 16 in size. (The format asks for first coordinates from 0 to 1.) *)
Definition ordinary_easing (e : easing) : Prop :=
  (fin (hx (eo e)) /\ Rabs (B2R (hx (eo e))) <= 4) /\ (fin (hx (ei e)) /\ Rabs (B2R (hx (ei e))) <= 4) /\
  (fin (hy (eo e)) /\ Rabs (B2R (hy (eo e))) <= 16) /\ (fin (hy (ei e)) /\ Rabs (B2R (hy (ei e))) <= 16).
Definition ordinary_number (x : f64) : Prop := fin x /\ Rabs (B2R x) <= 1048576.
(** How far [frame] is from [k] to [l]. *)
Definition elapsed (k l : keyframe) (frame : f64) : R :=
  (B2R frame - B2R (kf_time k)) / (B2R (kf_time l) - B2R (kf_time k)).
(** [v] is where the easing [e] puts [frame] between [a] (at [k]) and [b] (at [l]). *)
Definition eased (k l : keyframe) (e : easing) (frame a b v : f64) : Prop :=
  fin v /\
  exists y, on_curve (B2R (hx (eo e))) (B2R (hy (eo e))) (B2R (hx (ei e))) (B2R (hy (ei e))) (/ 100000000)
              (elapsed k l frame) y /\
            Rabs (B2R v - (B2R a + (B2R b - B2R a) * y)) <= / 1000000.
(** The same for a channel of a colour (from 0 to 1), which is a number of
    less precision. *)
Definition eased_channel (k l : keyframe) (e : easing) (frame a b : f64) (v : f32) : Prop :=
  fin v /\
  exists y, on_curve (B2R (hx (eo e))) (B2R (hy (eo e))) (B2R (hx (ei e))) (B2R (hy (ei e))) (/ 100000000)
              (elapsed k l frame) y /\
            Rabs (B2R v - (B2R a + (B2R b - B2R a) * y)) <= / 10000.
Definition unit_number (x : f64) : Prop := fin x /\ 0 <= B2R x <= 1.
