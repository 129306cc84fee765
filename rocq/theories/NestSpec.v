(** Where a shape of a document belongs on the canvas: through its groups, its
    layer, the parents of that, and the layers that show the precomposition it
    is in.  Real numbers; nothing here mentions how the program multiplies its
    matrices. *)
From Coq Require Import Reals List Bool Arith String.
From Flocq Require Import Core BinarySingleNaN.
From Verif Require Import F64 F64Facts Kurbo Value Animated Batch Render RenderSpec BatchSpec GeometrySpec Schema TimelineSpec ImportSpec FamilySpec.
Import ListNotations.
Open Scope R_scope.

(** * One transform at a frame *)
Definition lies (x : posture) (v : vec) : vec :=
  lands (real_point (po_position x)) (real_point (po_anchor x)) (real_vec2 (po_scale x))
    (B2R (po_rotation x)) (B2R (po_skew x)) (B2R (po_axis x)) v.
(** Ordinary numbers. *)
Definition plain_posture (x : posture) : Prop :=
  (fin (px (po_position x)) /\ fin (py (po_position x)) /\ bounded_by 8192 (real_point (po_position x))) /\
  (fin (px (po_anchor x)) /\ fin (py (po_anchor x)) /\ bounded_by 8192 (real_point (po_anchor x))) /\
  (fin (vx (po_scale x)) /\ fin (vy (po_scale x)) /\ bounded_by 1600 (real_vec2 (po_scale x))) /\
  (fin (po_rotation x) /\ Rabs (B2R (po_rotation x)) <= 16384) /\
  (fin (po_skew x) /\ Rabs (B2R (po_skew x)) <= 60) /\ (fin (po_axis x) /\ Rabs (B2R (po_axis x)) <= 16384).
(** By how much it enlarges, at most (1 if it does not). *)
Definition zoom (x : posture) : R :=
  Rmax 1 (Rmax (Rabs (B2R (vx (po_scale x)))) (Rabs (B2R (vy (po_scale x)))) / 100)
  * (1 + Rabs (tan (B2R (po_skew x) * PI / 180))).

(** * Several, from the inside out *)
Fixpoint through (l : list posture) (v : vec) : vec := match l with nil => v | x :: l => through l (lies x v) end.
Fixpoint total_zoom (l : list posture) : R := match l with nil => 1 | x :: l => zoom x * total_zoom l end.

(** * The document *)
(** A transform and the time at which it is read; groups may have none. *)
Definition level : Type := option s_transform * f64.
Definition upright : posture := mkPosture (mkPoint f0 f0) (mkPoint f0 f0) (mkVec2 f100 f100) f0 f0 f0.
Definition level_posture (E : Ext) (l : level) (x : posture) : Prop :=
  match fst l with Some t => posture_at E t (snd l) x | None => x = upright end.
(** [item_in items groups x]: [x] is among the items or in a group among them
    and so on; [groups] are the transforms of these groups, innermost first. *)
Inductive item_in : list any_shape -> list (option s_transform) -> any_shape -> Prop :=
| item_here l x : In x l -> item_in l [] x
| item_group l ge np it cix t groups x : In (AsGroup ge np it cix) l -> ImportSpec.last_transform it t ->
    item_in it groups x -> item_in l (groups ++ [option_map trs_t t]) x.
Definition items (l : any_layer) : list any_shape := match l with AlShape _ shs => shs | _ => [] end.
(** The time is in the window of the layer. *)
Definition in_window (l : any_layer) (t : f64) : Prop := fleb (sl_ip (base_of l)) t = true /\ fltb t (sl_op (base_of l)) = true.
(** Time inside the precomposition shown by the layer: [t / stretch - start / stretch]. *)
Definition time_inside (l : any_layer) (t : f64) : f64 :=
  fadd (fdiv t (src_stretch l)) (fdiv (fneg (src_start l)) (src_stretch l)).
Definition layer_levels (t : f64) (ls : list any_layer) : list level := map (fun l => (Some (vl_ks (visual_of l)), t)) ls.
(** [scene a frame s t outside shades]: at [frame] the layer list [s] of [a] (the
    main one, or a precomposition) is shown at its own time [t]; [outside] are
    the transforms it is shown through, [shades] those of them whose opacity
    counts (not those of parents).
    [performs a frame s t outside shades i]: layer [i] of that list is shown: it is
    no matte source, or it is the matte of a layer that is shown. *)
Inductive scene (a : animation) (frame : f64) : option string -> f64 -> list level -> list level -> Prop :=
| scene_main : scene a frame None frame [] []
| scene_precomp s t outside shades i l parents vl name w h st tm : performs a frame s t outside shades i ->
    nth_error (source_layers a s) i = Some l -> family (source_layers a s) l parents -> ~ src_hidden l -> l = AlPrecomp vl name w h st tm ->
    scene a frame (Some name) (time_inside l t) (layer_levels t (l :: parents) ++ outside) (layer_levels t [l] ++ shades)
with performs (a : animation) (frame : f64) : option string -> f64 -> list level -> list level -> nat -> Prop :=
| performs_itself s t outside shades i l : scene a frame s t outside shades -> nth_error (source_layers a s) i = Some l ->
    ~ matte_source l -> in_window l t -> performs a frame s t outside shades i
| performs_matte s t outside shades i l mode k m : performs a frame s t outside shades i -> nth_error (source_layers a s) i = Some l ->
    vl_tt (visual_of l) = Some mode -> matte_for (source_layers a s) i l k -> nth_error (source_layers a s) k = Some m -> in_window m t ->
    performs a frame s t outside shades k.
(** The layer [l] is shown at its time [t] through [levels], shaded by [shades]. *)
Definition layer_shown (a : animation) (frame : f64) (l : any_layer) (t : f64) (levels shades : list level) : Prop :=
  exists s outside shades' i parents, performs a frame s t outside shades' i /\ nth_error (source_layers a s) i = Some l /\
    family (source_layers a s) l parents /\
    levels = layer_levels t (l :: parents) ++ outside /\ shades = layer_levels t [l] ++ shades'.
(** The map [m] puts points where [levels] say, under the map [view] given
    by the caller, up to [e]. *)
Definition sits_through (E : Ext) (e : R) (view : affine) (levels : list level) (m : affine) : Prop :=
  exists xs, Forall2 (level_posture E) levels xs /\
    (Forall plain_posture xs -> INR (List.length levels) * INR (List.length levels) * total_zoom xs <= 2000 ->
     finite_map m /\ forall v, bounded_by 8192 v -> within e (moved m v) (moved view (through xs v))).
(** Parent links end. *)
Definition parents_end (a : animation) : Prop :=
  forall s l, In l (source_layers a s) -> exists parents, family (source_layers a s) l parents.
(** No trims. *)
Inductive untrimmed : any_shape -> Prop :=
| un_group ge np it cix : (forall x, In x it -> untrimmed x) -> untrimmed (AsGroup ge np it cix)
| un_leaf x : match x with AsGroup _ _ _ _ | AsTrim _ _ _ _ _ => False | _ => True end -> untrimmed x.
Definition outline_item (x : any_shape) : Prop :=
  match x with AsRectangle _ _ _ _ | AsEllipse _ _ _ | AsPolyStar _ _ _ _ _ _ _ _ _ | AsPath _ _ => True | _ => False end.
(** [e] is part of the outline of the item [x] at time [t]. *)
Definition piece_of (E : Ext) (x : any_shape) (t : f64) (e : path_el) : Prop :=
  exists g, becomes E x (ShGeometry g) /\ In e (path_at E g t).
Definition group_levels (t : f64) (groups : list (option s_transform)) : list level := map (fun g => (g, t)) groups.


(** * Styles *)
Definition style_item (x : any_shape) : Prop :=
  match x with AsFill _ _ _ | AsStroke _ _ _ | AsGradientFill _ _ _ | AsGradientStroke _ _ _ => True | _ => False end.
(** [inks items groups x sgroups y]: the style [y] (in the groups [sgroups])
    applies to [x] (in the groups [groups]): it comes after [x], or after a
    group that contains [x]. *)
Inductive inks : list any_shape -> list (option s_transform) -> any_shape -> list (option s_transform) -> any_shape -> Prop :=
| inks_here l1 l2 y groups x : style_item y -> item_in l1 groups x -> inks (l1 ++ y :: l2) groups x [] y
| inks_group l ge np it cix t groups x sgroups y : In (AsGroup ge np it cix) l -> ImportSpec.last_transform it t ->
    inks it groups x sgroups y -> inks l (groups ++ [option_map trs_t t]) x (sgroups ++ [option_map trs_t t]) y.
(** Opacities, in percent.  That of a gradient style is not read (see C52). *)
Definition level_opacity (E : Ext) (l : level) (o : f64) : Prop :=
  match fst l with Some t => exists g, or_means (scalar_means E) (tf_o t) f100 g /\ o = g (snd l) | None => o = f100 end.
Definition style_opacity (E : Ext) (y : any_shape) (t : f64) (o : f64) : Prop :=
  match y with AsFill st _ _ | AsStroke st _ _ => exists g, scalar_means E (sst_o st) g /\ o = g t | _ => o = f100 end.
Definition percent (o : f64) : Prop := fin o /\ 0 <= B2R o <= 100.
Fixpoint veil (os : list f64) : R := match os with nil => 1 | o :: os => B2R o / 100 * veil os end.
(** [x] is the product of the opacity [alpha] given by the caller, those of
    [shades] and that of the style [y]. *)
Definition shines (E : Ext) (alpha : f64) (shades : list level) (y : any_shape) (t : f64) (x : f64) : Prop :=
  exists o os, style_opacity E y t o /\ Forall2 (level_opacity E) shades os /\
    (Forall percent (o :: os) -> fin alpha -> 0 <= B2R alpha <= 1 -> INR (List.length shades) <= 500000 ->
     fin x /\ Rabs (B2R x - B2R alpha * veil (o :: os)) <= (INR (List.length shades) + 1) / 562949953421312).
(** [p] is painted in the style [y], read at time [t] and faded to [x]. *)
Definition in_ink (E : Ext) (y : any_shape) (t : f64) (x : f64) (p : paint) : Prop :=
  exists d, becomes E y (ShDraw d) /\
    pt_stroke p = match dr_stroke d with Some s => Some (stroke_eval E s t) | None => None end /\
    pt_brush p = (let b := brush_eval E (dr_brush d) f1 t in if feqb x f1 then b else x_brush_mul_alpha E b (f64_to_f32 x)).

(** * What is painted *)
(** A painted path: it is in a layer that is shown, in a style of the layer, and
    placed as an item of that layer is to which the style applies; without
    trims, every piece of the path is a piece of an item placed like that. *)
Definition painted (E : Ext) (a : animation) (frame : f64) (view : affine) (alpha : f64) (p : paint) : Prop :=
  exists l t levels shades sgroups y x, layer_shown a frame l t levels shades /\ ~ src_hidden l /\
    shines E alpha (group_levels t sgroups ++ shades) y t x /\ in_ink E y t x p /\
    (exists groups z, inks (items l) groups z sgroups y /\ outline_item z /\
       sits_through E (1 / 100) view (group_levels t groups ++ levels) (pt_transform p)) /\
    ((forall z, In z (items l) -> untrimmed z) -> forall e, In e (pt_path p) ->
     exists groups z, inks (items l) groups z sgroups y /\ piece_of E z t e /\
       sits_through E (1 / 100) view (group_levels t groups ++ levels) (pt_transform p)).
(** The item [z] with the style [y] is painted by [p]. *)
Definition paints_item (E : Ext) (view : affine) (alpha : f64) (t : f64) (levels shades : list level)
  (groups : list (option s_transform)) (z : any_shape) (sgroups : list (option s_transform)) (y : any_shape) (p : paint) : Prop :=
  exists g x before after, becomes E z (ShGeometry g) /\ pt_path p = before ++ path_at E g t ++ after /\
    sits_through E (1 / 100) view (group_levels t groups ++ levels) (pt_transform p) /\
    shines E alpha (group_levels t sgroups ++ shades) y t x /\ in_ink E y t x p.
(** A clip path placed by [m]: a mask of a layer that is shown, placed as the layer is. *)
Definition clipped (E : Ext) (a : animation) (frame : f64) (view : affine) (m : affine) (els : list path_el) : Prop :=
  exists l t levels shades mask k, layer_shown a frame l t levels shades /\ In mask (src_masks l) /\ mask_reads mask k /\
    geometry_eval E (mk_geometry k) t = Ok els /\ sits_through E (1 / 100) view levels m.
