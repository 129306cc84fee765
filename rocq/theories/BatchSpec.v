(** What a shape tree should paint, without batches, ranges or indices.

    A group is evaluated on its own: it collects outlines (paths with the
    transform they are placed by) and draws.  A draw remembers the outlines
    in front of it in its group, nested groups included. *)
From Coq Require Import ZArith Bool List Arith String.
From Verif Require Import F64 Kurbo Value Animated Batch Render.
Import ListNotations.

(** A path and its placement. *)
Definition outline : Type := list path_el * affine.

(** How a draw paints: stroke style (none for a fill), brush, opacity. *)
Record style := mkStyle { sy_stroke : option stroke; sy_brush : brush; sy_alpha : f64 }.
(** Style of a fill or stroke under accumulated opacity [alpha] (0 to 1). *)
Definition style_of (E : Ext) (d : draw) (alpha frame : f64) : style :=
  mkStyle (match dr_stroke d with Some s => Some (stroke_eval E s frame) | None => None end)
          (brush_eval E (dr_brush d) f1 frame)
          (fdiv (fmul alpha (eval E (dr_opacity d) frame)) f100).

(** The picture of a group so far. *)
Record pic := mkPic {
  pc_outlines : list outline;
  pc_draws : list (style * list outline);
  (** the last outline can still be extended by a path that follows it *)
  pc_open : bool;
  (** something in the group was drawn or repeated *)
  pc_used : bool }.
Definition pic_empty : pic := mkPic [] [] false false.

(** Adding a path: paths that follow each other under the same transform form
    one compound path until they are drawn or repeated. *)
Fixpoint join_last (l : list outline) (els : list path_el) : list outline :=
  match l with
  | [] => []
  | [(p, t)] => [(p ++ els, t)]
  | o :: l => o :: join_last l els
  end.
Definition last_transform (l : list outline) : option affine :=
  match rev l with [] => None | (_, t) :: _ => Some t end.
Definition joins (p : pic) (tf : affine) : bool :=
  pc_open p && match last_transform (pc_outlines p) with
               | Some t => affine_eqb t tf
               | None => false
               end.
Definition add_path (p : pic) (tf : affine) (els : list path_el) : pic :=
  mkPic (if joins p tf then join_last (pc_outlines p) els else pc_outlines p ++ [(els, tf)])
        (pc_draws p) true (pc_used p).

(** Where copy [i] of a repeater goes.  Copy [i] is moved [t = offset + i]
    times: by [t] times the position, and about the anchor point turned by [t]
    times the rotation (in degrees) and scaled by the [t]-th power of the scale
    (in percent).  A list of maps is applied from right to left. *)
Fixpoint compose (acc : affine) (l : list affine) : affine :=
  match l with [] => acc | m :: l => compose (affine_mul acc m) l end.
Definition copy_transform (E : Ext) (r : repeater) (i : nat) : affine :=
  let t := fadd (rp_offset r) (f_of_Z (Z.of_nat i)) in
  let a := rp_anchor r in
  compose (affine_translate (fadd (fmul t (px (rp_position r))) (px a)) (fadd (fmul t (py (rp_position r))) (py a)))
    [affine_rotate E (to_radians (fmul t (rp_rotation r)));
     affine_scale (x_powf E (fdiv (vx (rp_scale r)) f100) t) (x_powf E (fdiv (vy (rp_scale r)) f100) t);
     affine_translate (fneg (px a)) (fneg (py a))].
(** The [n] copies of an outline. *)
Definition copies (E : Ext) (r : repeater) (o : outline) : list outline :=
  map (fun i => (fst o, affine_mul (snd o) (copy_transform E r i))) (seq 0 (rp_copies r)).
(** Opacity of copy [i]: from start to end opacity in steps of 1/n. *)
Definition copy_alpha (r : repeater) (i : nat) : f64 :=
  let start := fdiv (rp_start_opacity r) f100 in
  let stop := fdiv (rp_end_opacity r) f100 in
  let step := if 1 <? rp_copies r then fdiv (fsub stop start) (f_of_Z (Z.of_nat (rp_copies r))) else f0 in
  fadd start (fmul step (f_of_Z (Z.of_nat i))).
(** Every copy with positive opacity repaints all copies of what the draw
    painted. *)
Definition repeat_pic (E : Ext) (r : repeater) (p : pic) : pic :=
  mkPic (flat_map (copies E r) (pc_outlines p))
        (flat_map (fun i =>
           if fleb (copy_alpha r i) f0 then [] else
           map (fun d => (mkStyle (sy_stroke (fst d)) (sy_brush (fst d))
                                  (fmul (sy_alpha (fst d)) (copy_alpha r i)),
                          flat_map (copies E r) (snd d))) (pc_draws p))
           (seq 0 (rp_copies r)))
        false true.

(** A trim acts on every outline of the group, drawn already or not. *)
Definition trim_outline (E : Ext) (t : trim) (o : outline) : res outline :=
  match trim_normalized t with
  | None => Ok ([], snd o)
  | Some (first, second) =>
      if trim_is_full first second then Ok o
      else let! p := trim_path E first second (fst o) in Ok (p, snd o)
  end.
Definition trim_pic (E : Ext) (t : trim) (p : pic) : res pic :=
  let! os := mapM (trim_outline E t) (pc_outlines p) in
  let! ds := mapM (fun d => let! os := mapM (trim_outline E t) (snd d) in Ok (fst d, os)) (pc_draws p) in
  Ok (mkPic os ds (pc_open p) (pc_used p)).

(** A finished group becomes part of the enclosing one. *)
Definition include (p child : pic) : pic :=
  mkPic (pc_outlines p ++ pc_outlines child) (pc_draws p ++ pc_draws child)
        (pc_open child || (pc_open p && negb (pc_used child))) (pc_used p || pc_used child).

Definition group_tf (E : Ext) (t : option group_transform) (frame : f64) : affine :=
  match t with Some g => transform_eval E (gt_transform g) frame | None => affine_identity end.
Definition group_alpha (E : Ext) (t : option group_transform) (frame : f64) : f64 :=
  match t with Some g => fdiv (eval E (gt_opacity g) frame) f100 | None => f1 end.

(** Meaning of one shape placed by [tf] under opacity [alpha], in a group
    whose picture so far is [p]. *)
Fixpoint shape_pic (E : Ext) (tf : affine) (alpha frame : f64) (sh : shape) (p : pic) {struct sh} : res pic :=
  match sh with
  | ShGroup shs t =>
      let! child := fold_shapes (shape_pic E (affine_mul tf (group_tf E t frame))
                                           (fmul alpha (group_alpha E t frame)) frame) shs pic_empty in
      Ok (include p child)
  | ShGeometry g => let! els := geometry_eval E g frame in Ok (add_path p tf els)
  | ShDraw d => Ok (mkPic (pc_outlines p) (pc_draws p ++ [(style_of E d alpha frame, pc_outlines p)]) false true)
  | ShRepeater r => Ok (repeat_pic E (repeater_eval E r frame) p)
  | ShTrim t => trim_pic E (trim_eval E t frame) p
  end.
Definition shapes_pic (E : Ext) (tf : affine) (alpha frame : f64) (shs : list shape) : res pic :=
  fold_shapes (shape_pic E tf alpha frame) shs pic_empty.

(** The sink calls of a picture: last draw first, one call per outline; the
    brush is attenuated unless the opacity is exactly one. *)
Definition style_brush (E : Ext) (s : style) : brush :=
  if feqb (sy_alpha s) f1 then sy_brush s else x_brush_mul_alpha E (sy_brush s) (f64_to_f32 (sy_alpha s)).
Definition paints_of (E : Ext) (d : style * list outline) : list paint :=
  map (fun o => mkPaint (sy_stroke (fst d)) (snd o) (style_brush E (fst d)) (fst o)) (snd d).
Definition pic_paints (E : Ext) (p : pic) : list paint :=
  List.concat (map (paints_of E) (rev (pc_draws p))).

(** ** Where the code departs from the above
    Paths of different groups are merged when one directly follows the other
    under an equal transform; and a path following one that was trimmed away
    brings the latter back.  [clash] detects both on the sequence of events
    in a tree. *)
Inductive token :=
| TEnter | TLeave            (* a group starts, ends *)
| TPath (tf : affine)        (* geometry placed by [tf] *)
| TUse                       (* a draw or a repeater *)
| TErase                     (* a trim removing everything *)
| TTrim.                     (* a trim removing some part *)
Fixpoint tokens (E : Ext) (frame : f64) (tf : affine) (sh : shape) : list token :=
  match sh with
  | ShGroup shs t => TEnter :: flat_map (tokens E frame (affine_mul tf (group_tf E t frame))) shs ++ [TLeave]
  | ShGeometry _ => [TPath tf]
  | ShDraw _ | ShRepeater _ => [TUse]
  | ShTrim t => match trim_normalized (trim_eval E t frame) with
                | None => [TErase]
                | Some (first, second) => if trim_is_full first second then [] else [TTrim]
                end
  end.
(** The most recent path, if not used yet: its transform, the number of
    groups around the current position that do not contain it, and whether
    it was erased. *)
Definition pending : Type := option (affine * nat * bool).
(** [None]: clash. *)
Definition advance (s : pending) (t : token) : option pending :=
  match t, s with
  | TEnter, Some (a, d, c) => Some (Some (a, S d, c))
  | TLeave, Some (a, d, c) => Some (Some (a, pred d, c))
  | TPath tf, Some (a, d, c) =>
      if affine_eqb a tf then
        if (0 <? d) || c then None else Some (Some (a, 0, false))
      else Some (Some (tf, 0, false))
  | TPath tf, None => Some (Some (tf, 0, false))
  | TUse, _ => Some None
  | TErase, Some (a, 0, _) => Some (Some (a, 0, true))
  | TTrim, Some (a, d, _) => Some (Some (a, d, false))
  | _, s => Some s
  end.
Fixpoint advance_all (s : pending) (ts : list token) : option pending :=
  match ts with
  | [] => Some s
  | t :: ts => match advance s t with Some s => advance_all s ts | None => None end
  end.
Definition no_clash (E : Ext) (frame : f64) (tf : affine) (shs : list shape) : Prop :=
  advance_all None (flat_map (tokens E frame tf) shs) <> None.

(** ** Well-formed geometry *)
(** Every geometry in the tree evaluates, at every frame, to a path that is
    empty or starts with a move-to. *)
Definition sound_geometry (E : Ext) (g : geometry) : Prop :=
  forall frame, exists els, geometry_eval E g frame = Ok els /\ bezpath_ok els = true.
Fixpoint all_geometry (P : geometry -> Prop) (sh : shape) : Prop :=
  match sh with
  | ShGroup shs _ => (fix go l := match l with [] => True | s :: l => all_geometry P s /\ go l end) shs
  | ShGeometry g => P g
  | _ => True
  end.
(** ... in every layer of a composition, masks included. *)
Definition sound_layer (E : Ext) (ly : layer) : Prop :=
  Forall (fun m => forall frame, geometry_eval E (mk_geometry m) frame <> Panic) (ly_masks ly) /\
  match ly_content ly with
  | CShape shs => Forall (all_geometry (sound_geometry E)) shs
  | _ => True
  end.
Definition sound_comp (E : Ext) (c : composition) : Prop :=
  Forall (sound_layer E) (co_layers c) /\
  Forall (fun a => Forall (sound_layer E) (snd a)) (co_assets c).

(** ** What a shape layer draws *)
Definition layer_paints (E : Ext) (tf : affine) (alpha frame : f64) (shs : list shape) : res (list paint) :=
  let! b := render_shapes E shs tf alpha frame batch_empty in batch_render E b.

(** ** Trees of groups, geometry and draws only *)
Fixpoint plain (sh : shape) : Prop :=
  match sh with
  | ShGroup shs _ => (fix go l := match l with [] => True | s :: l => plain s /\ go l end) shs
  | ShRepeater _ | ShTrim _ => False
  | _ => True
  end.
(** Path elements with their placement. *)
Definition marks : Type := list (path_el * affine).
Definition place (tf : affine) (els : list path_el) : marks := map (fun e => (e, tf)) els.
Definition path_at (E : Ext) (g : geometry) (frame : f64) : list path_el :=
  match geometry_eval E g frame with Ok els => els | _ => [] end.
(** All the geometry in a shape. *)
Fixpoint geometry_in (E : Ext) (frame : f64) (tf : affine) (sh : shape) : marks :=
  match sh with
  | ShGroup shs t => flat_map (geometry_in E frame (affine_mul tf (group_tf E t frame))) shs
  | ShGeometry g => place tf (path_at E g frame)
  | _ => []
  end.
(** The draws of a shape in document order, each with the geometry in front
    of it in its group; [above]: the geometry in front of the shape. *)
Section DrawsAmong.
  Variable draws_of : marks -> shape -> list (style * marks).
  Variable geometry_of : shape -> marks.
  Fixpoint draws_among (above : marks) (shs : list shape) : list (style * marks) :=
    match shs with
    | [] => []
    | s :: shs => draws_of above s ++ draws_among (above ++ geometry_of s) shs
    end.
End DrawsAmong.
Fixpoint draws_in (E : Ext) (frame : f64) (tf : affine) (alpha : f64) (above : marks) (sh : shape)
  : list (style * marks) :=
  match sh with
  | ShGroup shs t =>
      let tf := affine_mul tf (group_tf E t frame) in
      let alpha := fmul alpha (group_alpha E t frame) in
      draws_among (draws_in E frame tf alpha) (geometry_in E frame tf) [] shs
  | ShDraw d => [(style_of E d alpha frame, above)]
  | _ => []
  end.
(** The calls [ps] paint the marks [ms] in style [s]. *)
Definition same_place (t u : affine) : Prop := t = u \/ affine_eqb t u = true.
Definition in_style (E : Ext) (s : style) (p : paint) : Prop :=
  pt_stroke p = sy_stroke s /\ pt_brush p = style_brush E s.
Definition paints_marks (E : Ext) (d : style * marks) (ps : list paint) : Prop :=
  Forall (in_style E (fst d)) ps /\
  Forall2 (fun m n => fst m = fst n /\ same_place (snd m) (snd n))
          (flat_map (fun p => place (pt_transform p) (pt_path p)) ps) (snd d).

(** ** The styles alone, for all trees: what happens to the draws of a group *)
Fixpoint shape_styles (E : Ext) (alpha frame : f64) (sh : shape) (acc : list style) : list style :=
  match sh with
  | ShGroup shs t =>
      acc ++ fold_left (fun acc s => shape_styles E (fmul alpha (group_alpha E t frame)) frame s acc) shs []
  | ShDraw d => acc ++ [style_of E d alpha frame]
  | ShRepeater r =>
      let r := repeater_eval E r frame in
      flat_map (fun i => if fleb (copy_alpha r i) f0 then [] else
                         map (fun s => mkStyle (sy_stroke s) (sy_brush s) (fmul (sy_alpha s) (copy_alpha r i))) acc)
               (seq 0 (rp_copies r))
  | ShGeometry _ | ShTrim _ => acc
  end.
Definition styles (E : Ext) (alpha frame : f64) (shs : list shape) : list style :=
  fold_left (fun acc s => shape_styles E alpha frame s acc) shs [].

(** ** Batches as they occur while rendering
    [reach E frame gs ds b]: [b] is the state in the middle of some group of a
    shape layer whose first geometry is [gs] and whose first draw is [ds]. *)
Inductive reach (E : Ext) (frame : f64) : nat -> nat -> batch -> Prop :=
| reach_start : reach E frame 0 0 batch_empty
| reach_shape gs ds b tf alpha sh b' :
    reach E frame gs ds b -> all_geometry (sound_geometry E) sh ->
    render_shape E tf alpha frame gs ds sh b = Ok b' -> reach E frame gs ds b'
| reach_enter gs ds b :
    reach E frame gs ds b -> reach E frame (List.length (b_geoms b)) (List.length (b_draws b)) b.
(** The outlines collected so far. *)
Definition outlines (b : batch) : res (list outline) :=
  mapM (fun g => let! p := slice (b_elements b) (gd_start g) (gd_end g) in Ok (p, gd_transform g)) (b_geoms b).
(** Number of copies of a repeater that are painted at all. *)
Definition visible_copies (r : repeater) : nat :=
  List.length (filter (fun i => negb (fleb (copy_alpha r i) f0)) (seq 0 (rp_copies r))).
Definition is_draw (sh : shape) : Prop := match sh with ShDraw _ => True | _ => False end.
