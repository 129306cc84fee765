(** Model of [DrawData], [GeometryData] and [Batch] in
    /repo/src/runtime/render.rs:253-501. *)
From Coq Require Import ZArith Bool List Arith String.
From Flocq Require Import Core BinarySingleNaN.
From Verif Require Import F64 Kurbo Value Animated.
Import ListNotations.

(** render.rs:276-281 [GeometryData] *)
Record geom_data := mkGeom { gd_start : nat; gd_end : nat; gd_transform : affine }.
(** render.rs:253-260 [DrawData] *)
Record draw_data := mkDD {
  dd_stroke : option stroke; dd_brush : brush; dd_alpha : f64; dd_start : nat; dd_end : nat }.
(** render.rs:283-294 [Batch] *)
Record batch := mkBatch {
  b_elements : list path_el;
  b_geoms : list geom_data;
  b_draws : list draw_data;
  b_rep_geoms : list geom_data;
  b_rep_draws : list draw_data;
  b_drawn : nat;
  b_trim : list path_el }.
(** [Batch::default()], render.rs:283 *)
Definition batch_empty : batch := mkBatch [] [] [] [] [] 0 [].
(** render.rs:492-500 [Batch::clear] *)
Definition batch_clear (b : batch) : batch := mkBatch [] [] [] [] [] 0 [].

(** Slicing [&v[a..b]]: panics unless [a <= b <= len]. *)
Definition slice {A} (l : list A) (a b : nat) : res (list A) :=
  if (a <=? b) && (b <=? List.length l) then Ok (firstn (b - a) (skipn a l)) else Panic.
(** [&v[a..]] (and [drain(a..)]): panics unless [a <= len]. *)
Definition slice_from {A} (l : list A) (a : nat) : res (list A) :=
  if a <=? List.length l then Ok (skipn a l) else Panic.
(** [&v[..b]] *)
Definition slice_to {A} (l : list A) (b : nat) : res (list A) :=
  if b <=? List.length l then Ok (firstn b l) else Panic.
(** usize subtraction, panics on underflow (debug profile) *)
Definition usub (a b : nat) : res nat := if b <=? a then Ok (a - b) else Panic.

(** render.rs:262-274 [DrawData::new] *)
Definition draw_new (E : Ext) (d : draw) (alpha : f64) (gs ge : nat) (frame : f64) : draw_data :=
  mkDD (option_map (fun s => stroke_eval E s frame) (dr_stroke d))
       (brush_eval E (dr_brush d) f1 frame)
       (fdiv (fmul alpha (eval E (dr_opacity d) frame)) f100)
       gs ge.

(** [Vec::last], as an option *)
Definition last_opt {A} (l : list A) : option A := nth_error l (List.length l - 1).

(** render.rs:302-304: the merge condition of [push_geometry] *)
Definition can_merge (b : batch) (tf : affine) : bool :=
  (b_drawn b <? List.length (b_geoms b)) &&
  match last_opt (b_geoms b) with Some g => affine_eqb (gd_transform g) tf | None => false end.
(** render.rs:306: set the end of the last geometry *)
Fixpoint set_last_end (l : list geom_data) (e : nat) : list geom_data :=
  match l with
  | [] => []
  | [g] => [mkGeom (gd_start g) e (gd_transform g)]
  | g :: l => g :: set_last_end l e
  end.
(** render.rs:297-316 [Batch::push_geometry] *)
Definition push_geometry (E : Ext) (b : batch) (g : geometry) (tf : affine) (frame : f64)
  : res batch :=
  let! els := geometry_eval E g frame in
  let elements := b_elements b ++ els in
  let geoms :=
    if can_merge b tf then set_last_end (b_geoms b) (List.length elements)
    else b_geoms b ++ [mkGeom (List.length (b_elements b)) (List.length elements) tf] in
  Ok (mkBatch elements geoms (b_draws b) (b_rep_geoms b) (b_rep_draws b) (b_drawn b) (b_trim b)).

(** render.rs:318-326 [Batch::push_draw] *)
Definition push_draw (E : Ext) (b : batch) (d : draw) (alpha : f64) (gs : nat) (frame : f64) : batch :=
  mkBatch (b_elements b) (b_geoms b)
          (b_draws b ++ [draw_new E d alpha gs (List.length (b_geoms b)) frame])
          (b_rep_geoms b) (b_rep_draws b) (List.length (b_geoms b)) (b_trim b).

(** render.rs:336-341: the copies of one geometry *)
Definition repeat_geom (E : Ext) (r : repeater) (g : geom_data) : list geom_data :=
  map (fun i => mkGeom (gd_start g) (gd_end g)
                       (affine_mul (gd_transform g) (repeater_transform E r i)))
      (seq 0 (rp_copies r)).
(** render.rs:345-352 *)
Definition repeat_start_alpha (r : repeater) : f64 := fdiv (rp_start_opacity r) f100.
(** render.rs:347-352 *)
Definition repeat_delta_alpha (r : repeater) : f64 :=
  if 1 <? rp_copies r then
    fdiv (fsub (fdiv (rp_end_opacity r) f100) (repeat_start_alpha r))
         (f_of_Z (Z.of_nat (rp_copies r)))
  else f0.
(** render.rs:354 *)
Definition repeat_alpha (r : repeater) (i : nat) : f64 :=
  fadd (repeat_start_alpha r) (fmul (repeat_delta_alpha r) (f_of_Z (Z.of_nat i))).
(** render.rs:358-365: one repeated draw *)
Definition repeat_draw (r : repeater) (gs : nat) (alpha : f64) (d : draw_data) : res draw_data :=
  let! count := usub (dd_end d) (dd_start d) in
  let! rel := usub (dd_start d) gs in
  let start := gs + rel * rp_copies r in
  Ok (mkDD (dd_stroke d) (dd_brush d) (fmul (dd_alpha d) alpha) start (start + count * rp_copies r)).
(** render.rs:353-366: the draws of copy [i] *)
Definition repeat_draws_at (r : repeater) (gs : nat) (ds : list draw_data) (i : nat)
  : res (list draw_data) :=
  let alpha := repeat_alpha r i in
  if fleb alpha f0 then Ok [] else mapM (repeat_draw r gs alpha) ds.
(** render.rs:328-372 [Batch::repeat] *)
Definition batch_repeat (E : Ext) (b : batch) (r : repeater) (gs ds : nat) : res batch :=
  let! tail := slice_from (b_geoms b) gs in
  let rep_geoms := b_rep_geoms b ++ tail in
  let! dtail := slice_from (b_draws b) ds in
  let rep_draws := b_rep_draws b ++ dtail in
  let geoms := firstn gs (b_geoms b) ++ flat_map (repeat_geom E r) rep_geoms in
  let! new_draws := mapM (repeat_draws_at r gs rep_draws) (seq 0 (rp_copies r)) in
  Ok (mkBatch (b_elements b) geoms (firstn ds (b_draws b) ++ List.concat new_draws)
              [] [] (List.length geoms) (b_trim b)).

(** [iter().collect::<BezPath>()] (render.rs:394-397): panics (debug
    assertion in kurbo) unless empty or starting with a move-to. *)
Definition bezpath_ok (els : list path_el) : bool :=
  match els with [] => true | MoveTo _ :: _ => true | _ => false end.
(** render.rs:394-398 *)
Definition collect_segments (els : list path_el) : res (list path_seg) :=
  if bezpath_ok els then path_segments els else Panic.

(** render.rs:399 [segs.iter().map(arclen).sum()]; Rust sums from [-0.0]. *)
Definition total_length (E : Ext) (segs : list path_seg) : f64 :=
  fold_left (fun acc s => fadd acc (x_arclen E s)) segs (B754_zero true).

(** render.rs:447-451 *)
Definition seg_el (s : path_seg) : path_el :=
  match s with SLine _ p1 => LineTo p1 | SQuad _ p1 p2 => QuadTo p1 p2
          | SCubic _ p1 p2 p3 => CurveTo p1 p2 p3 end.

(** render.rs:416-454: the loop over segments for one range *)
Fixpoint trim_segs (E : Ext) (start_len end_len current_len : f64) (need_move : bool)
  (segs : list path_seg) : list path_el :=
  match segs with
  | [] => []
  | seg :: segs =>
      let seg_end := fadd current_len (x_arclen E seg) in
      if fltb seg_end (fsub start_len f_1em9) then
        trim_segs E start_len end_len seg_end need_move segs
      else if fltb (fadd end_len f_1em9) current_len then []
      else
        let t_start :=
          if fltb current_len start_len
          then fclamp f0 f1 (x_inv_arclen E seg (fsub start_len current_len)) else f0 in
        let t_end :=
          if fltb end_len seg_end
          then fclamp f0 f1 (x_inv_arclen E seg (fsub end_len current_len)) else f1 in
        if fltb (fadd t_start f_1em9) t_end then
          let sub := x_subsegment E seg t_start t_end in
          (if need_move then [MoveTo (seg_start sub)] else [])
          ++ seg_el sub :: trim_segs E start_len end_len seg_end false segs
        else trim_segs E start_len end_len seg_end need_move segs
  end.
(** render.rs:409-415 *)
Definition trim_range (E : Ext) (segs : list path_seg) (total : f64) (range : f64 * f64)
  : list path_el :=
  trim_segs E (fmul (fst range) total) (fmul (snd range) total) f0 true segs.

(** [Option::into_iter] in [iter::once(..).chain(..)], render.rs:409-415 *)
Definition opt_list {A} (o : option A) : list A := match o with Some a => [a] | None => [] end.

(** render.rs:394-455: the trimmed path of one geometry; [None] when the
    path has no length (render.rs:401-405). *)
Definition trim_path (E : Ext) (first : f64 * f64) (second : option (f64 * f64))
  (els : list path_el) : res (list path_el) :=
  let! segs := collect_segments els in
  let total := total_length E segs in
  if fleb total f0 || (List.length segs =? 0) then Ok []
  else Ok (flat_map (trim_range E segs total) (first :: opt_list second)).

(** render.rs:393-461: geometries of the group, appending to [trim_elements] *)
Fixpoint trim_geoms (E : Ext) (first : f64 * f64) (second : option (f64 * f64))
  (elements : list path_el) (gs : list geom_data) (trim_elements : list path_el)
  : res (list geom_data * list path_el) :=
  match gs with
  | [] => Ok ([], trim_elements)
  | g :: gs =>
      let! path := slice elements (gd_start g) (gd_end g) in
      let! trimmed := trim_path E first second path in
      let start := List.length trim_elements in
      let trim_elements := trim_elements ++ trimmed in
      let g := mkGeom start (List.length trim_elements) (gd_transform g) in
      let! (gs, trim_elements) := trim_geoms E first second elements gs trim_elements in
      Ok (g :: gs, trim_elements)
  end.

(** render.rs:386-389 *)
Fixpoint copy_prefix (elements : list path_el) (gs : list geom_data) (trim_elements : list path_el)
  : res (list path_el) :=
  match gs with
  | [] => Ok trim_elements
  | g :: gs =>
      let! path := slice elements (gd_start g) (gd_end g) in
      copy_prefix elements gs (trim_elements ++ path)
  end.
(** render.rs:463-468 *)
Fixpoint reoffset (offset : nat) (gs : list geom_data) : list geom_data :=
  match gs with
  | [] => []
  | g :: gs =>
      let len := gd_end g - gd_start g in
      mkGeom offset (offset + len) (gd_transform g) :: reoffset (offset + len) gs
  end.
(** render.rs:382 *)
Definition trim_is_full (first : f64 * f64) (second : option (f64 * f64)) : bool :=
  fleb (fst first) f_1em9 && fleb (fsub f1 f_1em9) (snd first) &&
  match second with None => true | Some _ => false end.

(** render.rs:374-472 [Batch::apply_trim] *)
Definition apply_trim (E : Ext) (b : batch) (t : trim) (gs : nat) : res batch :=
  match trim_normalized t with
  | None =>
      let! tail := slice_from (b_geoms b) gs in
      Ok (mkBatch (b_elements b)
                  (firstn gs (b_geoms b) ++ map (fun g => mkGeom 0 0 (gd_transform g)) tail)
                  (b_draws b) (b_rep_geoms b) (b_rep_draws b) (b_drawn b) (b_trim b))
  | Some (first, second) =>
      if trim_is_full first second then Ok b
      else
        let! prefix := slice_to (b_geoms b) gs in
        let! trim_elements := copy_prefix (b_elements b) prefix (b_trim b) in
        let! tail := slice_from (b_geoms b) gs in
        let! (tail, trim_elements) :=
          trim_geoms E first second (b_elements b) tail trim_elements in
        Ok (mkBatch trim_elements (reoffset 0 prefix ++ tail)
                    (b_draws b) (b_rep_geoms b) (b_rep_draws b) (b_drawn b) [])
  end.

(** One call of [RenderSink::draw]. *)
Record paint := mkPaint {
  pt_stroke : option stroke; pt_transform : affine; pt_brush : brush; pt_path : list path_el }.

(** render.rs:478-483 *)
Definition draw_brush (E : Ext) (d : draw_data) : brush :=
  if negb (feqb (dd_alpha d) f1) then x_brush_mul_alpha E (dd_brush d) (f64_to_f32 (dd_alpha d))
  else dd_brush d.
(** render.rs:484-488: the calls of one draw *)
Definition render_draw (E : Ext) (b : batch) (d : draw_data) : res (list paint) :=
  let! gs := slice (b_geoms b) (dd_start d) (dd_end d) in
  mapM (fun g =>
          let! path := slice (b_elements b) (gd_start g) (gd_end g) in
          Ok (mkPaint (dd_stroke d) (gd_transform g) (draw_brush E d) path)) gs.
(** render.rs:474-490 [Batch::render].  Simplification: if some slice is out
    of range, the calls made before the panic are not reported (the
    no-out-of-bounds theorem shows this does not happen). *)
Definition batch_render (E : Ext) (b : batch) : res (list paint) :=
  let! ps := mapM (render_draw E b) (rev (b_draws b)) in
  Ok (List.concat ps).
