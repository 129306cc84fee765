(** Paths and gradients that change over time, in real numbers. *)
From Coq Require Import Reals List Arith.
From Flocq Require Import Core BinarySingleNaN.
From Verif Require Import F64 F64Facts Kurbo Value Animated ValueSpec Schema ImportSpec TimelineSpec EasingSpec.
Import ListNotations.
Open Scope R_scope.

(** * Paths *)
(** Time, easing and hold flag of a keyframe of a path. *)
Definition stamp (k : shape_keyframe) : keyframe := mkKeyframe (skf_b k) [] None.
Definition path_times (ks : list shape_keyframe) : list keyframe := map stamp ks.
(** The path that keyframe [i] leads to: its own end, or the start of the next
    keyframe, or (of the last one) its own start. *)
Definition end_of (ks : list shape_keyframe) (i : nat) : option bezier :=
  match nth_error ks i with
  | None => None
  | Some k =>
      match first_of (skf_e k) with
      | Some b => Some b
      | None => if S i =? List.length ks then start_of ks i else start_of ks (S i)
      end
  end.
(** [p] is [y] of the way from [a] to [b] (in both coordinates, up to 10^-6). *)
Definition on_the_way (y a b : R) (x : f64) : Prop := fin x /\ Rabs (B2R x - (a + (b - a) * y)) <= / 1000000.
Definition part_way (y : R) (a b p : point) : Prop :=
  on_the_way y (B2R (px a)) (B2R (px b)) (px p) /\ on_the_way y (B2R (py a)) (B2R (py b)) (py p).
(** So are all points of a list; if one list is longer, its last points are left out. *)
Inductive all_part_way (y : R) : list point -> list point -> list point -> Prop :=
| apw_left b : all_part_way y [] b []
| apw_right a : all_part_way y a [] []
| apw_cons a b p la lb lp : part_way y a b p -> all_part_way y la lb lp -> all_part_way y (a :: la) (b :: lb) (p :: lp).
(** One of the paths of the keyframes is closed. *)
Definition some_closed (ks : list shape_keyframe) : Prop :=
  exists i k b, nth_error ks i = Some k /\ bezier_closed b = true /\ (start_of ks i = Some b \/ first_of (skf_e k) = Some b).
(** The outline [els] is [y] of the way from the path of keyframe [i] to the
    path it leads to: vertices, and in- and out-tangents of the vertices. *)
Definition morphed (ks : list shape_keyframe) (i : nat) (y : R) (els : list path_el) : Prop :=
  exists b1 b2 pts1 pts2 pts closed, start_of ks i = Some b1 /\ end_of ks i = Some b2 /\
    bezier_points b1 pts1 /\ bezier_points b2 pts2 /\ all_part_way y pts1 pts2 pts /\
    (closed = true <-> some_closed ks) /\ spline_path pts closed els.
(** A path with at least one vertex, all numbers at most 2^20. *)
Definition ordinary_pair (v : f64 * f64) : Prop := ordinary_number (fst v) /\ ordinary_number (snd v).
Definition ordinary_path (b : bezier) : Prop :=
  bz_v b <> [] /\ Forall ordinary_pair (bz_v b) /\ Forall ordinary_pair (bz_i b) /\ Forall ordinary_pair (bz_o b).

(** * Gradients *)
(** [v] (with the precision of colours) is where the easing [e] puts [frame]
    between the numbers [a] and [b] of stop [j] of the keyframes. *)
Definition stop_numbers (k : keyframe) (j : nat) (o r g b : f64) : Prop :=
  nums (kf_value k) (4 * j) [o; r; g; b] /\ unit_number o /\ unit_number r /\ unit_number g /\ unit_number b.
(** Stop [j] at [frame] between the keyframes [k] and [l] of a gradient of [count] stops. *)
Definition eased_stop (k l : keyframe) (e : easing) (count : nat) (frame : f64) (j : nat) (s : color_stop) : Prop :=
  forall o1 r1 g1 b1 o2 r2 g2 b2, stop_numbers k j o1 r1 g1 b1 -> stop_numbers l j o2 r2 g2 b2 ->
    eased_channel k l e frame o1 o2 (cs_offset s) /\ eased_channel k l e frame r1 r2 (cr (cs_color s)) /\
    eased_channel k l e frame g1 g2 (cg (cs_color s)) /\ eased_channel k l e frame b1 b2 (cb (cs_color s)) /\
    exists a1 a2, stop_opacity (kf_value k) count o1 a1 /\ stop_opacity (kf_value l) count o2 a2 /\
      (unit_number a1 -> unit_number a2 -> eased_channel k l e frame a1 a2 (ca (cs_color s))).
