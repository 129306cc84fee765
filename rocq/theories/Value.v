(** Model of /repo/src/runtime/model/value.rs *)
From Coq Require Import ZArith Bool List Arith.
From Flocq Require Import Core BinarySingleNaN.
From Verif Require Import F64 Kurbo.
Import ListNotations.

(** value.rs:74-91 [Easing], [EasingHandle], [Easing::LERP] *)
Record handle := mkHandle { hx : f64; hy : f64 }.
(** value.rs:74-78 [Easing] *)
Record easing := mkEasing { eo : handle; ei : handle }.
(** value.rs:80-85 [Easing::LERP] *)
Definition easing_lerp : easing := mkEasing (mkHandle f0 f0) (mkHandle f1 f1).

(** value.rs:93-104 [Time] *)
Record time := mkTime {
  t_frame : f64;
  t_in : option handle;
  t_out : option handle;
  t_hold : bool }.

(** [slice::binary_search_by] of the Rust standard library (1.82 and later),
    used at value.rs:117.  [f i] compares the i-th element with the target. *)
Inductive search := Found (ix : nat) | Insert (ix : nat).
(** [binary_search_by]: the loop that halves the range *)
Fixpoint bs_loop (fuel : nat) (f : nat -> comparison) (base size : nat) : nat :=
  match fuel with
  | O => base
  | S fuel =>
      if 1 <? size then
        let half := size / 2 in
        let mid := base + half in
        bs_loop fuel f (match f mid with Gt => base | _ => mid end) (size - half)
      else base
  end.
(** [binary_search_by]: the loop and the last comparison *)
Definition binary_search (f : nat -> comparison) (len : nat) : search :=
  if len =? 0 then Insert 0
  else let base := bs_loop len f 0 len in
       match f base with
       | Eq => Found base
       | Lt => Insert (base + 1)
       | Gt => Insert base
       end.

(** value.rs:117-125, the comparison closure *)
Definition cmp_frame (x frame : f64) : comparison :=
  if fltb x frame then Lt else if fltb frame x then Gt else Eq.

(** No [Time] in particular (an index out of range; never read, see [frames_and_weight]). *)
Definition time_dflt : time := mkTime f0 None None false.

(** value.rs:106-144 [Time::frames_and_weight].  The two slice accesses
    [times[ix0]], [times[ix1]] are [nth] with a default; lemma
    [frames_and_weight_in_bounds] shows both indices are in range. *)
Definition frames_and_weight (times : list time) (frame : f64)
  : option ((nat * nat) * f64 * easing * bool) :=
  if List.length times =? 0 then None else
  let ix := match binary_search (fun i => cmp_frame (t_frame (nth i times time_dflt)) frame)
                                (List.length times) with
            | Found ix => ix
            | Insert ix => ix - 1
            end in
  let ix0 := Nat.min ix (List.length times - 1) in
  let ix1 := Nat.min (ix0 + 1) (List.length times - 1) in
  let t0 := nth ix0 times time_dflt in
  let t1 := nth ix1 times time_dflt in
  let o := match t_out t0 with Some o => o | None => mkHandle f0 f0 end in
  let i := match t_in t0 with Some i => i | None => mkHandle f1 f1 end in
  let t := fdiv (fsub frame (t_frame t0)) (fsub (t_frame t1) (t_frame t0)) in
  Some ((ix0, ix1), fclamp f0 f1 t, mkEasing o i, t_hold t0).

(** value.rs:169-172 trait [Tween] *)
Class Tween (T : Type) := tween : Ext -> T -> T -> f64 -> easing -> T.

(** value.rs:201-204: Bezier coefficients of the easing curve in x *)
Definition tween_c1 (x1 : f64) : f64 := fmul (f_of_Z 3) (fsub x1 f0).
(** value.rs:203 *)
Definition tween_c2 (x1 x2 : f64) : f64 :=
  fmul (f_of_Z 3) (fadd (fsub x2 (fmul (f_of_Z 2) x1)) f0).
(** value.rs:204 *)
Definition tween_c3 (x1 x2 : f64) : f64 :=
  fsub (fadd (fsub f1 (fmul (f_of_Z 3) x2)) (fmul (f_of_Z 3) x1)) f0.

(** value.rs:206-223: the curve parameter for normalised time [t] *)
Definition tween_param (E : Ext) (x1 x2 t : f64) : f64 :=
  let c0 := f0 in
  let c1 := tween_c1 x1 in
  let c2 := tween_c2 x1 x2 in
  let c3 := tween_c3 x1 x2 in
  let max_coeff := fmax (fmax (fmax (fabs c0) (fabs c1)) (fabs c2)) (fabs c3) in
  let eps := fmul f_1em12 (fmax max_coeff f1) in
  let roots := x_solve_cubic E (fsub c0 t) c1 c2 c3 in
  match find (fun r => fleb (fneg eps) r && fleb r (fadd f1 eps)) roots with
  | Some r => r
  | None =>
      let val_at_0 := fabs (fsub c0 t) in
      let val_at_1 := fabs (fsub (fadd (fadd (fadd c0 c1) c2) c3) t) in
      if fleb val_at_0 val_at_1 then f0 else f1
  end.

(** value.rs:174-230 [impl Tween for f64] *)
#[global] Instance tween_f64 : Tween f64 := fun E a b t e =>
  if fleb t f0 then a
  else if fleb f1 t then b
  else
    let u := tween_param E (hx (eo e)) (hx (ei e)) t in
    let eased_y := cubic_eval1 f0 (hy (eo e)) (hy (ei e)) f1 u in
    fadd a (fmul (fsub b a) eased_y).

(** value.rs:232-257 [Point], [Vec2], [Size] *)
#[global] Instance tween_point : Tween point := fun E a b t e =>
  mkPoint (tween_f64 E (px a) (px b) t e) (tween_f64 E (py a) (py b) t e).
#[global] Instance tween_vec2 : Tween vec2 := fun E a b t e =>
  mkVec2 (tween_f64 E (vx a) (vx b) t e) (tween_f64 E (vy a) (vy b) t e).
#[global] Instance tween_size : Tween size := fun E a b t e =>
  mkSize (tween_f64 E (width a) (width b) t e) (tween_f64 E (height a) (height b) t e).

(** value.rs:259-269 [peniko::Color] *)
Definition tween_f32 (E : Ext) (a b : f32) (t : f64) (e : easing) : f32 :=
  f64_to_f32 (tween_f64 E (f32_to_f64 a) (f32_to_f64 b) t e).
#[global] Instance tween_color : Tween color := fun E a b t e =>
  mkColor (tween_f32 E (cr a) (cr b) t e) (tween_f32 E (cg a) (cg b) t e)
          (tween_f32 E (cb a) (cb b) t e) (tween_f32 E (ca a) (ca b) t e).

(** value.rs:146-150 [Animated], value.rs:9-16 [Value] *)
Record anim (T : Type) := mkAnim { an_times : list time; an_values : list T }.
Arguments mkAnim {T}. Arguments an_times {T}. Arguments an_values {T}.
(** value.rs:9-16 [Value] *)
Inductive value (T : Type) :=
| VFixed (v : T)
| VAnimated (a : anim T).
Arguments VFixed {T}. Arguments VAnimated {T}.

(** value.rs:158-166 [Animated::evaluate_inner] *)
Definition anim_eval_inner {T} `{Tween T} (E : Ext) (a : anim T) (frame : f64) : option T :=
  match frames_and_weight (an_times a) frame with
  | None => None
  | Some ((ix0, ix1), t, e, hold) =>
      let t := if hold then f0 else t in
      match nth_error (an_values a) ix0, nth_error (an_values a) ix1 with
      | Some v1, Some v2 => Some (tween E v1 v2 t e)
      | _, _ => None
      end
  end.
(** value.rs:153-156 [Animated::evaluate_or] *)
Definition anim_eval_or {T} `{Tween T} (E : Ext) (a : anim T) (frame : f64) (d : T) : T :=
  match anim_eval_inner E a frame with Some v => v | None => d end.

(** value.rs:29-41 [Value::is_fixed], [Value::evaluate_or] *)
Definition is_fixed {T} (v : value T) : bool :=
  match v with VFixed _ => true | VAnimated _ => false end.
(** value.rs:34-41 [Value::evaluate_or] *)
Definition eval_or {T} `{Tween T} (E : Ext) (v : value T) (frame : f64) (d : T) : T :=
  match v with VFixed v => v | VAnimated a => anim_eval_or E a frame d end.

(** [Default] of the value types ([f64], kurbo types: all zero) *)
Class Dflt (T : Type) := dflt : T.
#[global] Instance dflt_f64 : Dflt f64 := f0.
#[global] Instance dflt_point : Dflt point := mkPoint f0 f0.
#[global] Instance dflt_vec2 : Dflt vec2 := mkVec2 f0 f0.
#[global] Instance dflt_size : Dflt size := mkSize f0 f0.

(** value.rs:18-26 [Value::evaluate] *)
Definition eval {T} `{Tween T} `{Dflt T} (E : Ext) (v : value T) (frame : f64) : T :=
  match v with VFixed v => v | VAnimated a => anim_eval_or E a frame dflt end.
