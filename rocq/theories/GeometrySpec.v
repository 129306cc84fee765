(** Where a transform puts a point of the plane, in real numbers: nothing
    here mentions the program. *)
From Coq Require Import Reals List.
From Flocq Require Import Core BinarySingleNaN.
From Verif Require Import F64 F64Facts Kurbo.
Import ListNotations.
Open Scope R_scope.

Definition vec := (R * R)%type.
Definition vplus (v w : vec) : vec := (fst v + fst w, snd v + snd w).
Definition vminus (v w : vec) : vec := (fst v - fst w, snd v - snd w).
(** Turned by [deg] degrees about the origin, from the first axis towards the
    second (clockwise on a screen whose second axis points down). *)
Definition turn (deg : R) (v : vec) : vec :=
  let t := deg * PI / 180 in (fst v * cos t - snd v * sin t, fst v * sin t + snd v * cos t).
(** Slanted along the first axis. *)
Definition shear (k : R) (v : vec) : vec := (fst v + k * snd v, snd v).
(** Slanted by [deg] degrees along the axis at [axis] degrees. *)
Definition slant (deg axis : R) (v : vec) : vec := turn (- axis) (shear (tan (deg * PI / 180)) (turn axis v)).
(** Stretched by percentages. *)
Definition stretch (s v : vec) : vec := (fst s / 100 * fst v, snd s / 100 * snd v).
(** About the anchor: stretch, then slant, then turn; then put the anchor on the position. *)
Definition lands (position anchor scale : vec) (rotation skew axis : R) (v : vec) : vec :=
  vplus position (turn rotation (slant skew axis (stretch scale (vminus v anchor)))).
(** Two points at most [e] apart in each direction. *)
Definition within (e : R) (v w : vec) : Prop := Rabs (fst v - fst w) <= e /\ Rabs (snd v - snd w) <= e.
Definition bounded_by (b : R) (v : vec) : Prop := Rabs (fst v) <= b /\ Rabs (snd v) <= b.

(** What the values of the program stand for. *)
Definition real_point (p : point) : vec := (B2R (px p), B2R (py p)).
Definition real_vec2 (p : vec2) : vec := (B2R (vx p), B2R (vy p)).
(** Where the affine map [m] puts [v]. *)
Definition moved (m : affine) (v : vec) : vec :=
  (B2R (aa m) * fst v + B2R (ac m) * snd v + B2R (ae m), B2R (ab m) * fst v + B2R (ad m) * snd v + B2R (af m)).
Definition finite_map (m : affine) : Prop :=
  fin (aa m) /\ fin (ab m) /\ fin (ac m) /\ fin (ad m) /\ fin (ae m) /\ fin (af m).

(** A mathematical library whose sine, cosine and tangent are off by at most
    2^-45 where a transform uses them. *)
Record accurate (E : Ext) : Prop := mkAccurate {
  ac_sin : forall z : f64, fin z -> Rabs (B2R z) <= 1000 ->
    fin (x_sin E z) /\ Rabs (B2R (x_sin E z) - sin (B2R z)) <= bpow radix2 (-45);
  ac_cos : forall z : f64, fin z -> Rabs (B2R z) <= 1000 ->
    fin (x_cos E z) /\ Rabs (B2R (x_cos E z) - cos (B2R z)) <= bpow radix2 (-45);
  ac_tan : forall z : f64, fin z -> Rabs (B2R z) <= 11 / 10 ->
    fin (x_tan E z) /\ Rabs (B2R (x_tan E z) - tan (B2R z)) <= bpow radix2 (-45) }.

(** * Stars and polygons *)
(** Corner at distance [r] from [c] in direction [deg]. *)
Definition corner (c : vec) (r deg : R) : vec := vplus c (turn deg (r, 0)).
(** Control point of a corner rounded by [pct] percent, on one side ([side] =
    1: towards the next corner) or the other (-1): at right angles to the
    spoke, at a distance given by the angle between spokes, 360 / n. *)
Definition handle (c : vec) (r pct : R) (n : nat) (deg side : R) : vec :=
  vplus (corner c r deg) (turn deg (0, side * (r * tan (PI / INR n) * (pct / 100) * (4 / 3)))).

(** A piece of an outline: from [e_from] to [e_to] with two control points. *)
Record edge := mkEdge { e_from : point; e_c0 : point; e_c1 : point; e_to : point }.
Definition line_edge (e : edge) : Prop := e_c0 e = e_from e /\ e_c1 e = e_to e.
(** Path elements that draw these edges and close the outline. *)
Inductive drawn : list edge -> list path_el -> Prop :=
| drawn_line e l els : line_edge e -> drawn l els -> drawn (e :: l) (LineTo (e_to e) :: els)
| drawn_curve e l els : drawn l els -> drawn (e :: l) (CurveTo (e_c0 e) (e_c1 e) (e_to e) :: els)
| drawn_end : drawn nil (ClosePath :: nil)
| drawn_close e : line_edge e -> drawn (e :: nil) (ClosePath :: nil).
(** Each edge starts where the one before ended, the last ends at [p]. *)
Fixpoint chained (p : point) (l : list edge) : Prop :=
  match l with
  | nil => True
  | e :: nil => e_to e = p
  | e :: ((e' :: _) as l') => e_to e = e_from e' /\ chained p l'
  end.
Definition starts_at (p : point) (l : list edge) : Prop := match l with e :: _ => e_from e = p | nil => False end.
