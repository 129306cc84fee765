(** C96: a document of coloured shapes, from its JSON to the scene. *)
From Coq Require Import ZArith Bool List Arith String Lia.
From Verif Require Import F64 Kurbo Value Animated Batch Render RenderSpec BatchSpec FrameSpec Schema Import Serde PropFrame PropDocument.
Import ListNotations.
Open Scope string_scope.
Open Scope list_scope.

(** ** Documents *)
(** Where something is put: anchor, position, scale in percent, rotation in
    degrees, opacity in percent. *)
Record spot := mkSpot { sp_ax : f64; sp_ay : f64; sp_px : f64; sp_py : f64; sp_sx : f64; sp_sy : f64; sp_rot : f64; sp_opacity : f64 }.
(** A rectangle or ellipse with its centre and size, a colour with its opacity
    in percent, and where it is put in its layer. *)
Record figure := mkFigure { fg_round : bool; fg_x : f64; fg_y : f64; fg_w : f64; fg_h : f64;
  fg_r : f64; fg_g : f64; fg_b : f64; fg_opacity : f64; fg_spot : spot }.
(** A layer: when it is shown, where, and its figures, the upper ones first. *)
Record sheet := mkSheet { se_ip : f64; se_op : f64; se_spot : spot; se_figures : list figure }.
(** A document: its range and speed, its size in pixels, its layers, the upper
    ones first. *)
Record poster := mkPoster { po_in : f64; po_out : f64; po_rate : f64; po_wide : Z; po_high : Z; po_sheets : list sheet }.

(** Their JSON *)
Definition number_json (x : f64) : json := JObj [("k", JFloat x)].
Definition pair_json (x y : f64) : json := JObj [("k", JArr [JFloat x; JFloat y])].
Definition spot_members (p : spot) : list (string * json) :=
  [("a", pair_json (sp_ax p) (sp_ay p)); ("p", pair_json (sp_px p) (sp_py p)); ("s", pair_json (sp_sx p) (sp_sy p));
   ("r", number_json (sp_rot p)); ("o", number_json (sp_opacity p))].
Definition outline_json (i : figure) : json :=
  if fg_round i then JObj [("ty", JStr "el"); ("p", pair_json (fg_x i) (fg_y i)); ("s", pair_json (fg_w i) (fg_h i))]
  else JObj [("ty", JStr "rc"); ("p", pair_json (fg_x i) (fg_y i)); ("s", pair_json (fg_w i) (fg_h i)); ("r", number_json f0)].
Definition fill_json (i : figure) : json :=
  JObj [("ty", JStr "fl"); ("c", JObj [("k", JArr [JFloat (fg_r i); JFloat (fg_g i); JFloat (fg_b i)])]); ("o", number_json (fg_opacity i))].
Definition figure_json (i : figure) : json :=
  JObj [("ty", JStr "gr"); ("it", JArr [outline_json i; fill_json i; JObj (("ty", JStr "tr") :: spot_members (fg_spot i))])].
Definition sheet_json (s : sheet) : json :=
  JObj [("ty", JInt 4); ("ip", JFloat (se_ip s)); ("op", JFloat (se_op s)); ("ks", JObj (spot_members (se_spot s)));
        ("shapes", JArr (map figure_json (se_figures s)))].
Definition poster_json (p : poster) : json :=
  JObj [("fr", JFloat (po_rate p)); ("ip", JFloat (po_in p)); ("op", JFloat (po_out p)); ("w", JInt (po_wide p)); ("h", JInt (po_high p));
        ("layers", JArr (map sheet_json (po_sheets p)))].

(** ** The scene *)
(** Move by minus the anchor, scale, turn, move by the position. *)
Definition put (E : Ext) (p : spot) : affine :=
  affine_mul (affine_mul (affine_mul (affine_mul (affine_translate (sp_px p) (sp_py p)) (affine_rotate E (to_radians (sp_rot p)))) affine_identity)
    (affine_scale (fdiv (sp_sx p) f100) (fdiv (sp_sy p) f100))) (affine_translate (fneg (sp_ax p)) (fneg (sp_ay p))).
(** The outline of a figure in its own coordinates. *)
Definition outline_of (E : Ext) (i : figure) : list path_el :=
  if fg_round i then x_ellipse_path E (mkPoint (fg_x i) (fg_y i)) (fmul (fg_w i) f_half) (fmul (fg_h i) f_half)
  else let x := fsub (fg_x i) (fmul (fg_w i) f_half) in let y := fsub (fg_y i) (fmul (fg_h i) f_half) in
       x_rrect_path E x y (fadd x (fg_w i)) (fadd y (fg_h i)) f0.
(** Its paint under the opacity [alpha] (0 to 1) of what is around the layer. *)
Definition ink (E : Ext) (alpha : f64) (s : sheet) (i : figure) : brush :=
  let a1 := fdiv (fmul alpha (sp_opacity (se_spot s))) f100 in
  let a2 := fmul a1 (fdiv (sp_opacity (fg_spot i)) f100) in
  let a3 := fdiv (fmul a2 (fg_opacity i)) f100 in
  let b := BSolid (x_color_mul_alpha E (mkColor (f64_to_f32 (fg_r i)) (f64_to_f32 (fg_g i)) (f64_to_f32 (fg_b i)) (f64_to_f32 f1)) (f64_to_f32 f1)) in
  if feqb a3 f1 then b else x_brush_mul_alpha E b (f64_to_f32 a3).
Definition figure_op (E : Ext) (view : affine) (alpha : f64) (s : sheet) (i : figure) : scene_op :=
  OpFill (affine_mul (affine_mul view (put E (se_spot s))) (put E (fg_spot i))) (ink E alpha s i) (outline_of E i).
Definition on_show (s : sheet) (frame : f64) : bool := fleb (se_ip s) frame && fltb frame (se_op s).
(** The figures of the layers on show, lowest first, clipped to the size. *)
Definition poster_scene (E : Ext) (p : poster) (frame : f64) (view : affine) (alpha : f64) : list scene_op :=
  OpPushClip view (SkRect f0 f0 (f_of_Z (po_wide p)) (f_of_Z (po_high p))) ::
  flat_map (fun s => if on_show s frame then map (figure_op E view alpha s) (rev (se_figures s)) else []) (rev (po_sheets p)) ++ [OpPop].

(** ** Reading *)
Definition no_vo : visual_object := mkVisualObject None None.
Definition no_ge : graphic_element := mkGE no_vo None None None None None None.
Definition st {T} (v : T) : anim_prop T := mkAnimProp None None None None (AkStatic v).
Definition src_pair (x y : f64) : s_position := mkSPosition None None None None (PkStatic [x; y]).
Definition src_spot (p : spot) : s_transform :=
  mkSTransform (Some (src_pair (sp_ax p) (sp_ay p))) (ApPosition (src_pair (sp_px p) (sp_py p)))
    (Some (mkMultiDim (st [sp_sx p; sp_sy p]) None)) (Some (ArRotation (st (sp_rot p)))) None None (Some (st (sp_opacity p))).
Definition src_outline (i : figure) : any_shape :=
  if fg_round i then AsEllipse (mkSShape no_ge None) (src_pair (fg_x i) (fg_y i)) (mkMultiDim (st [fg_w i; fg_h i]) None)
  else AsRectangle (mkSShape no_ge None) (src_pair (fg_x i) (fg_y i)) (mkMultiDim (st [fg_w i; fg_h i]) None) (st f0).
Definition src_figure (i : figure) : any_shape :=
  AsGroup no_ge None [src_outline i; AsFill (mkStyle no_ge (st (fg_opacity i))) (st [fg_r i; fg_g i; fg_b i]) None;
    AsTransform (mkTransformShape no_ge (src_spot (fg_spot i)))] None.
Definition src_sheet (s : sheet) : any_layer :=
  AlShape (mkVisualLayer (mkSLayer no_vo None None 4 None None None (se_ip s) (se_op s) None) None None None (src_spot (se_spot s))
     None None None None None None None None None None) (map src_figure (se_figures s)).
Lemma figure_read i : de_shape false (figure_json i) = Some (src_figure i).
Proof. destruct i as [[|] x y w h r g b o [ax ay px py sx sy rot op]]; lazy - [f0]; reflexivity. Qed.
Lemma map_read {A B C} (f : A -> B) (d : B -> option C) (g : A -> C) l : (forall x, d (f x) = Some (g x)) -> Serde.mapO d (map f l) = Some (map g l).
Proof. intros H. induction l as [|x l IH]; [reflexivity|]. cbn [map Serde.mapO]. rewrite H. cbn [map Serde.mapO] in IH. now rewrite IH. Qed.
Lemma sheet_read s : de_layer (sheet_json s) = Some (src_sheet s).
Proof.
  destruct s as [ip op [ax ay px py sx sy rot o] l].
  assert (H : de_list (de_shape false) (JArr (map figure_json l)) = Some (map src_figure l)) by (apply map_read, figure_read).
  unfold de_layer, sheet_json. cbn [as_map se_ip se_op se_spot se_figures].
  set (j := JArr (map figure_json l)) in *. 
  set (d := de_list (de_shape false)) in *. clearbody j d.
  lazy - [f0] in H |- *. rewrite H. reflexivity.
Qed.
Definition src_poster (p : poster) : animation :=
  mkAnimation no_vo (map src_sheet (po_sheets p)) None None (po_rate p) (po_in p) (po_out p) (po_wide p) (po_high p) None None None None None.
Lemma poster_read p : (0 <= po_wide p <= usize_max)%Z -> (0 <= po_high p <= usize_max)%Z -> de_animation (poster_json p) = Some (src_poster p).
Proof.
  intros Hw Hh.
  assert (H : de_list de_layer (JArr (map sheet_json (po_sheets p))) = Some (map src_sheet (po_sheets p))) by (apply map_read, sheet_read).
  assert (U : forall z, (0 <= z <= usize_max)%Z -> de_uint usize_max (JInt z) = Some z).
  { intros z Hz. unfold de_uint. destruct (Z.leb_spec 0 z), (Z.leb_spec z usize_max); try lia. reflexivity. }
  apply U in Hw. apply U in Hh. clear U. unfold de_animation, poster_json, src_poster. set (j := JArr (map sheet_json (po_sheets p))) in *.
  subst j. cbn [de_list] in H. unfold de_uint in Hw, Hh. cbn. rewrite H, Hw, Hh. reflexivity.
Qed.

(** ** Importing *)
Definition geometry_of (i : figure) : geometry :=
  if fg_round i then GEllipse (mkAEllipse false (VFixed (mkPoint (fg_x i) (fg_y i))) (VFixed (mkSize (fg_w i) (fg_h i))))
  else GRect (mkARect false (VFixed (mkPoint (fg_x i) (fg_y i))) (VFixed (mkSize (fg_w i) (fg_h i))) (VFixed f0)).
Definition draw_of (E : Ext) (i : figure) : draw :=
  mkDraw None (BrFixed (BSolid (x_color_mul_alpha E (mkColor (f64_to_f32 (fg_r i)) (f64_to_f32 (fg_g i)) (f64_to_f32 (fg_b i)) (f64_to_f32 f1)) (f64_to_f32 f1))))
    (VFixed (fg_opacity i)).
Definition shape_of (E : Ext) (i : figure) : shape :=
  ShGroup [ShGeometry (geometry_of i); ShDraw (draw_of E i)] (Some (mkGT (TFixed (put E (fg_spot i))) (VFixed (sp_opacity (fg_spot i))))).
Definition layer_of (E : Ext) (s : sheet) : layer :=
  mkLayer "" None (TFixed (put E (se_spot s))) (VFixed (sp_opacity (se_spot s))) f0 f0 None (se_ip s) (se_op s) f1 f0 [] false None
    (CShape (map (shape_of E) (se_figures s))).
Ltac run := lazy - [f1 f100 f_half fmul fadd fsub fdiv fneg f64_to_f32 affine_mul affine_translate affine_rotate affine_scale affine_identity to_radians put].
Lemma spot_into E p : a_transform_eval E (mkATransform (VFixed (mkPoint (sp_ax p) (sp_ay p))) (PosValue (VFixed (mkPoint (sp_px p) (sp_py p)))) (VFixed (sp_rot p))
    (VFixed (mkVec2 (sp_sx p) (sp_sy p))) (VFixed f0) (VFixed f0)) f0 = put E p.
Proof. reflexivity. Qed.
Lemma spot_conv E p : conv_transform E (src_spot p) = Ok (TFixed (put E p), VFixed (sp_opacity p)).
Proof. unfold conv_transform, src_spot. cbn [tf_r tf_p bind]. rewrite <- spot_into. reflexivity. Qed.
Lemma figure_conv E i : conv_shape E (src_figure i) = Ok (Some (shape_of E i)).
Proof. destruct i as [[|] x y w h r g b o [ax ay px py sx sy rot op]]; reflexivity. Qed.
Lemma figures_conv E l : conv_shapes E (map src_figure l) = Ok (map (shape_of E) l).
Proof. induction l as [|i l IH]; [reflexivity|]. cbn [map]. cbn [conv_shapes]. rewrite figure_conv. cbn [bind]. rewrite IH. reflexivity. Qed.
Lemma sheet_conv E s : conv_layer E (src_sheet s) = Ok (mkConverted (layer_of E s) 0 None None).
Proof.
  unfold conv_layer, src_sheet, setup_shape_layer, setup_layer. cbn [is_layer_hidden visual_of vl_layer sl_hd vl_ks vl_bm vl_masks].
  rewrite spot_conv. cbn [bind unwrap_or]. cbn [conv_blend_mode bind conv_masks]. rewrite figures_conv. reflexivity.
Qed.
Lemma sheets_resolve E m l : forall idx, resolve m idx None (map (fun s => mkConverted (layer_of E s) 0 None None) l) = map (layer_of E) l.
Proof. induction l as [|s l IH]; intros idx; [reflexivity|]. cbn [map]. cbn [resolve]. cbn [cv_layer cv_matte layer_of ly_is_mask]. rewrite IH. reflexivity. Qed.
Definition comp_of (E : Ext) (p : poster) : composition :=
  mkComp (po_in p) (po_out p) (po_rate p) (po_wide p) (po_high p) [] (map (layer_of E) (po_sheets p)).
Lemma poster_conv E p : conv_animation E (src_poster p) = Ok (comp_of E p).
Proof.
  unfold conv_animation, src_poster. cbn [ani_assets unwrap_or conv_assets bind ani_layers]. unfold process_layers.
  assert (M : mapM (conv_layer E) (map src_sheet (po_sheets p)) = Ok (map (fun s => mkConverted (layer_of E s) 0 None None) (po_sheets p))).
  { induction (po_sheets p) as [|s l IH]; [reflexivity|]. cbn [map mapM]. rewrite sheet_conv. cbn [bind]. rewrite IH. reflexivity. }
  rewrite M. cbn [bind]. rewrite sheets_resolve. reflexivity.
Qed.

(** ** Painting *)
Lemma geometry_of_eval E i frame : geometry_eval E (geometry_of i) frame = Ok (outline_of E i).
Proof. destruct i as [[|] x y w h r g b o sp]; reflexivity. Qed.
Lemma outline_ok E i : kurbo_paths E -> bezpath_ok (outline_of E i) = true.
Proof. intros [K1 K2]. unfold outline_of. destruct (fg_round i); [apply K2|apply K1]. Qed.
Lemma comp_layer E p q ly : layer_at (comp_of E p) q = Some ly -> exists s, In s (po_sheets p) /\ ly = layer_of E s.
Proof.
  destruct q as [[n|] i]; unfold layer_at, scope_layers.
  - intros H. exfalso. cbn in H. destruct i; discriminate H.
  - cbn [fst snd comp_of co_layers]. intros H. apply nth_error_In, in_map_iff in H as (s & <- & Hs). eauto.
Qed.
Lemma comp_sound E p : kurbo_paths E -> sound_comp E (comp_of E p).
Proof.
  intros K. split; [|constructor]. cbn [comp_of co_layers]. apply Forall_forall. intros ly H. apply in_map_iff in H as (s & <- & _). split; [constructor|].
  cbn [ly_content layer_of]. apply Forall_forall. intros sh H. apply in_map_iff in H as (i & <- & _). cbn. split; [|split; exact I].
  intros frame. exists (outline_of E i). split; [apply geometry_of_eval|now apply outline_ok].
Qed.
Lemma comp_clash E p : never_clash E (comp_of E p).
Proof.
  intros q ly shs H C frame tf. apply comp_layer in H as (s & _ & ->). injection C as <-. unfold no_clash.
  assert (X : advance_all None (flat_map (tokens E frame tf) (map (shape_of E) (se_figures s))) = Some None).
  { induction (se_figures s) as [|i l IH]; [reflexivity|]. exact IH. }
  rewrite X. discriminate.
Qed.
Definition figure_outline (E : Ext) (tf : affine) (i : figure) : outline := (outline_of E i, affine_mul tf (put E (fg_spot i))).
Definition figure_style (E : Ext) (alpha : f64) (i : figure) : style :=
  style_of E (draw_of E i) (fmul alpha (fdiv (sp_opacity (fg_spot i)) f100)) f0.
Lemma figure_pic E tf alpha frame i p : shape_pic E tf alpha frame (shape_of E i) p =
  Ok (include p (mkPic [figure_outline E tf i] [(figure_style E alpha i, [figure_outline E tf i])] false true)).
Proof. unfold shape_of. cbn [shape_pic fold_shapes]. rewrite geometry_of_eval. reflexivity. Qed.
Lemma figures_pic E tf alpha frame l : forall p, exists q, fold_shapes (shape_pic E tf alpha frame) (map (shape_of E) l) p = Ok q /\
  pc_draws q = pc_draws p ++ map (fun i => (figure_style E alpha i, [figure_outline E tf i])) l.
Proof.
  induction l as [|i l IH]; intros p.
  - exists p. split; [reflexivity|]. cbn [map]. now rewrite app_nil_r.
  - cbn [map fold_shapes]. rewrite figure_pic. cbn [bind]. destruct (IH (include p (mkPic [figure_outline E tf i] [(figure_style E alpha i, [figure_outline E tf i])] false true))) as (q & Hq & Dq).
    exists q. split; [exact Hq|]. rewrite Dq. unfold include. cbn [pc_draws]. now rewrite <- app_assoc.
Qed.
Lemma figure_paint E view alpha s i : 
  flat_map vello_op (map EvDraw (paints_of E (figure_style E (fdiv (fmul alpha (sp_opacity (se_spot s))) f100) i, [figure_outline E (affine_mul view (put E (se_spot s))) i]))) =
  [figure_op E view alpha s i].
Proof. reflexivity. Qed.
(** The calls of a layer *)
Definition sheet_events (E : Ext) (view : affine) (alpha frame : f64) (idx : nat) (s : sheet) : list event :=
  if on_show s frame then [EvBegin "" idx] ++ flat_map (fun i => map EvDraw (paints_of E (figure_style E (fdiv (fmul alpha (sp_opacity (se_spot s))) f100) i,
     [figure_outline E (affine_mul view (put E (se_spot s))) i]))) (rev (se_figures s)) ++ [EvEnd] else [].
Lemma sheet_frame E p set view alpha frame idx s : frame_layer E (comp_of E p) set (layer_of E s) idx view alpha frame (sheet_events E view alpha frame idx s).
Proof.
  unfold sheet_events. destruct (on_show s frame) eqn:V; apply andb_true_iff in V || apply andb_false_iff in V.
  - destruct (figures_pic E (affine_mul view (put E (se_spot s))) (fdiv (fmul alpha (sp_opacity (se_spot s))) f100) frame (se_figures s) pic_empty) as (q & Hq & Dq).
    pose proof (fl_present E (comp_of E p) set (layer_of E s) idx view alpha frame (affine_mul view (put E (se_spot s))) [] [] (map EvDraw (pic_paints E q))) as F.
    cbn [map app ly_mask_layer layer_of ly_name] in F.
    replace (flat_map _ (rev (se_figures s))) with (map EvDraw (pic_paints E q)); [apply F|].
    + exact V.
    + exists []. split; [left; constructor|]. reflexivity.
    + constructor. reflexivity.
    + constructor.
    + constructor. exact Hq.
    + unfold pic_paints. rewrite Dq. cbn [pc_draws pic_empty app]. rewrite <- map_rev, map_map. induction (rev (se_figures s)) as [|i l IH]; [reflexivity|].
      cbn [map List.concat flat_map]. rewrite map_app, IH. reflexivity.
  - apply fl_absent. unfold active. intros [A B]. cbn [layer_of ly_in ly_out] in A, B. destruct V; congruence.
Qed.
Lemma sheets_frame E p set view alpha frame l : frame_layers E (comp_of E p) set (map (fun x => (fst x, layer_of E (snd x))) l) view alpha frame
  (flat_map (fun x => sheet_events E view alpha frame (fst x) (snd x)) l).
Proof. induction l as [|[i s] l IH]; [constructor|]. cbn [map flat_map fst snd]. constructor; [apply sheet_frame|exact IH]. Qed.
Lemma shown_sheets E l : forall k, shown (combine (seq k (List.length (map (layer_of E) l))) (map (layer_of E) l)) =
  map (fun x => (fst x, layer_of E (snd x))) (rev (combine (seq k (List.length l)) l)).
Proof.
  intros k. unfold shown. rewrite map_rev. rewrite map_length.
  assert (X : combine (seq k (List.length l)) (map (layer_of E) l) = map (fun x => (fst x, layer_of E (snd x))) (combine (seq k (List.length l)) l)).
  { revert k. induction l as [|s l IH]; intros k; [reflexivity|]. cbn [List.length seq map combine fst snd]. now rewrite IH. }
  rewrite X, <- map_rev. induction (rev (combine (seq k (List.length l)) l)) as [|x r IH]; [reflexivity|]. cbn [map filter snd layer_of ly_is_mask negb]. now rewrite IH.
Qed.
Lemma figures_ops E view alpha s l :
  flat_map vello_op (flat_map (fun i => map EvDraw (paints_of E (figure_style E (fdiv (fmul alpha (sp_opacity (se_spot s))) f100) i,
     [figure_outline E (affine_mul view (put E (se_spot s))) i]))) l) = map (figure_op E view alpha s) l.
Proof. induction l as [|i l IH]; [reflexivity|]. cbn [flat_map map]. rewrite flat_map_app, IH, figure_paint. reflexivity. Qed.
Lemma sheets_ops E view alpha frame l : forall k, flat_map vello_op (flat_map (fun x => sheet_events E view alpha frame (fst x) (snd x)) (rev (combine (seq k (List.length l)) l))) =
  flat_map (fun s => if on_show s frame then map (figure_op E view alpha s) (rev (se_figures s)) else []) (rev l).
Proof.
  induction l as [|s l IH]; intros k; [reflexivity|]. cbn [List.length seq combine rev]. rewrite !flat_map_app, IH. f_equal. cbn [flat_map fst snd]. rewrite !app_nil_r.
  unfold sheet_events. destruct (on_show s frame); [|reflexivity]. rewrite !flat_map_app, figures_ops. cbn. now rewrite app_nil_r.
Qed.

(** ** C96 *)
Theorem C96_poster : forall E p, kurbo_paths E -> (0 <= po_wide p <= usize_max)%Z -> (0 <= po_high p <= usize_max)%Z ->
  exists c, from_json E (poster_json p) = Some (Ok c) /\
    forall frame view alpha r, used r -> exists fuel r', render_to_vello_scene E fuel c frame view alpha r = (Ok (poster_scene E p frame view alpha), r').
Proof.
  intros E p K Hw Hh. exists (comp_of E p). split.
  { unfold from_json. rewrite (poster_read p Hw Hh). now rewrite poster_conv. }
  intros frame view alpha r U.
  assert (F : frame_picture E (comp_of E p) frame view alpha ([EvPushClip view (canvas (comp_of E p))] ++
     flat_map (fun x => sheet_events E view alpha frame (fst x) (snd x)) (rev (combine (seq 0 (List.length (po_sheets p))) (po_sheets p))) ++ [EvPop])).
  { eexists. split; [|reflexivity]. change (co_layers (comp_of E p)) with (map (layer_of E) (po_sheets p)). rewrite shown_sheets. apply sheets_frame. }
  apply (C67_reference E (comp_of E p) frame view alpha r _ (comp_sound E p K) (comp_clash E p) U) in F as (fuel & Ho & He).
  exists fuel, (r_st (append E fuel (comp_of E p) frame view alpha r)). unfold render_to_vello_scene. rewrite Ho, He. cbn [bind]. f_equal. f_equal.
  rewrite flat_map_app, flat_map_app, sheets_ops. reflexivity.
Qed.

(** ** In real numbers *)
From Coq Require Import Reals Lra.
From Flocq Require Import Core BinarySingleNaN.
From Verif Require Import F64Facts GeometrySpec PropGeometry TimelineSpec FamilySpec NestSpec NestFacts PropNest PropStar.
Open Scope R_scope.
(** The anchor goes to the position; about it, stretch and turn. *)
Definition rests (p : spot) (v : vec) : vec :=
  vplus (B2R (sp_px p), B2R (sp_py p)) (turn (B2R (sp_rot p)) (stretch (B2R (sp_sx p), B2R (sp_sy p)) (vminus v (B2R (sp_ax p), B2R (sp_ay p))))).
Definition usual (b : R) (x : f64) : Prop := fin x /\ Rabs (B2R x) <= b.
Definition usual_spot (p : spot) : Prop :=
  usual 8192 (sp_ax p) /\ usual 8192 (sp_ay p) /\ usual 8192 (sp_px p) /\ usual 8192 (sp_py p) /\
  usual 1600 (sp_sx p) /\ usual 1600 (sp_sy p) /\ usual 16384 (sp_rot p).
(** The sides of a rectangle and the half axes of an ellipse, to 10^-10. *)
Definition drawn (E : Ext) (i : figure) (els : list path_el) : Prop :=
  let x := B2R (fg_x i) in let y := B2R (fg_y i) in let w := B2R (fg_w i) in let h := B2R (fg_h i) in let e := / 10000000000 in
  if fg_round i then exists a b, els = x_ellipse_path E (mkPoint (fg_x i) (fg_y i)) a b /\ approx a (w / 2) e /\ approx b (h / 2) e
  else exists x0 y0 x1 y1, els = x_rrect_path E x0 y0 x1 y1 f0 /\
    approx x0 (x - w / 2) e /\ approx y0 (y - h / 2) e /\ approx x1 (x + w / 2) e /\ approx y1 (y + h / 2) e.
Definition pose (p : spot) : posture := mkPosture (mkPoint (sp_px p) (sp_py p)) (mkPoint (sp_ax p) (sp_ay p)) (mkVec2 (sp_sx p) (sp_sy p)) (sp_rot p) f0 f0.
Lemma put_map E p : put E p = map_of E (pose p). Proof. reflexivity. Qed.
Lemma pose_plain p : usual_spot p -> plain_posture (pose p).
Proof.
  intros ((A1 & A2) & (B1 & B2) & (C1 & C2) & (D1 & D2) & (F1 & F2) & (G1 & G2) & (H1 & H2)). unfold plain_posture, pose.
  cbn [po_position po_anchor po_scale po_rotation po_skew po_axis px py vx vy]. unfold bounded_by, real_point, real_vec2. cbn [px py vx vy fst snd].
  assert (Z : Rabs (B2R f0) = 0) by (cbn; apply Rabs_R0). rewrite Z. repeat split; auto; lra.
Qed.
Lemma pose_zoom p : usual_spot p -> 1 <= zoom (pose p) <= 16.
Proof.
  intros (_ & _ & _ & _ & (F1 & F2) & (G1 & G2) & _). split; [apply zoom_1|]. unfold zoom, pose. cbn [po_scale po_skew vx vy].
  replace (B2R f0 * PI / 180) with 0 by (cbn; lra). rewrite tan_0, Rabs_R0. replace (1 + 0) with 1 by ring. rewrite Rmult_1_r. apply Rmax_lub; [lra|].
  assert (Rmax (Rabs (B2R (sp_sx p))) (Rabs (B2R (sp_sy p))) <= 1600) by now apply Rmax_lub. lra.
Qed.
Lemma pose_lies p v : lies (pose p) v = rests p v.
Proof. unfold lies, lands, rests, pose. cbn [po_position po_anchor po_scale po_rotation po_skew po_axis]. change (B2R f0) with 0. now rewrite slant_0. Qed.
Lemma two_puts E view p q v : accurate E -> plain_view view -> usual_spot p -> usual_spot q -> bounded_by 8192 v ->
  finite_map (affine_mul (affine_mul view (put E p)) (put E q)) /\ within (1 / 100) (moved (affine_mul (affine_mul view (put E p)) (put E q)) v) (moved view (rests p (rests q v))).
Proof.
  intros A V P Q B. rewrite !put_map. pose proof (pose_zoom p P) as Zp. pose proof (pose_zoom q Q) as Zq.
  pose proof (viewed_view view V) as V0. pose proof (deep_posture E (pose p) A (pose_plain p P)) as D1. pose proof (deep_posture E (pose q) A (pose_plain q Q)) as D2.
  assert (V1 : viewed (0 + 1) (1 * zoom (pose p)) (affine_mul view (map_of E (pose p))) (rmul (view_matrix view) (pmat (pose p)))) by (apply viewed_mul; auto; lra).
  assert (Zz : 1 <= zoom (pose p) * zoom (pose q) <= 256).
  { split; [rewrite <- (Rmult_1_l 1); apply Rmult_le_compat; lra|]. replace 256 with (16 * 16) by lra. apply Rmult_le_compat; lra. }
  assert (V2 : viewed (0 + 1 + 1) (1 * zoom (pose p) * zoom (pose q)) (affine_mul (affine_mul view (map_of E (pose p))) (map_of E (pose q))) (rmul (rmul (view_matrix view) (pmat (pose p))) (pmat (pose q)))).
  { apply viewed_mul; auto; lra. }
  destruct (viewed_point _ _ _ _ v V2) as [F W]; auto; try lra. split; [exact F|]. rewrite rmul_assoc, rapply_mul in W.
  replace (rapply (rmul (pmat (pose p)) (pmat (pose q))) v) with (rests p (rests q v)) in W; [exact W|].
  rewrite <- (pose_lies p), <- (pose_lies q). 
  pose proof (rmats_through [pose q; pose p] v) as T. cbn [rmats through] in T. rewrite rmul_id_l in T. now rewrite T.
Qed.
Lemma half_R0 : B2R f_half = 1 / 2.
Proof.
  unfold f_half, flit. destruct (f_of_Z_R 1 ltac:(lia)) as [R1 F1]. destruct (f_of_Z_R 2 ltac:(lia)) as [R4 F4].
  destruct (fdiv_R (f_of_Z 1) (f_of_Z 2) F1) as [Ed _]; rewrite ?R1, ?R4; [lra|pose proof big_range; rewrite Rabs_pos_eq; lra|].
  rewrite Ed, R1, R4. replace (1 / 2) with (bpow radix2 (-1)) by (cbn; lra).
  unfold rnd. apply round_generic; [apply valid_rnd_N|]. apply generic_format_bpow. unfold FLT_exp, SpecFloat.fexp, SpecFloat.emin. lia.
Qed.
Lemma half_of w : usual 8192 w -> approx (fmul w f_half) (B2R w / 2) (4097 * u52).
Proof.
  intros [F B]. replace (B2R w / 2) with (B2R w * (1 / 2)) by lra.
  assert (H : fin f_half /\ B2R f_half = 1 / 2) by (split; [reflexivity|exact half_R0]). destruct H as [Fh Rh].
  eapply (near_mul w f_half _ _ 0 0 8192 (1 / 2)); [now apply approx_exact|now apply near_exact|exact B|rewrite Rabs_pos_eq; lra|lra|lra|]. unfold u52. lra.
Qed.
Lemma low_side x w : usual 8192 x -> usual 8192 w -> approx (fsub x (fmul w f_half)) (B2R x - B2R w / 2) (20000 * u52).
Proof.
  intros [Fx Bx] W. pose proof (half_of w W) as H. destruct W as [_ Bw].
  eapply (approx_sub _ _ _ _ 0 (4097 * u52) 12288); [now apply approx_exact|exact H| |unfold u52; lra|unfold u52; lra].
  assert (Rabs (B2R w / 2) <= 4096) by (unfold Rdiv; rewrite Rabs_mult, (Rabs_pos_eq (/ 2)); lra). lra.
Qed.
Lemma high_side x w : usual 8192 x -> usual 8192 w -> approx (fadd (fsub x (fmul w f_half)) w) (B2R x + B2R w / 2) (50000 * u52).
Proof.
  intros X W. pose proof (low_side x w X W) as L. destruct X as [Fx Bx], W as [Fw Bw]. replace (B2R x + B2R w / 2) with (B2R x - B2R w / 2 + B2R w) by lra.
  eapply (near_add _ _ _ _ (20000 * u52) 0 20480); [exact L|now apply approx_exact| |unfold u52; lra|unfold u52; lra].
  assert (Rabs (B2R x - B2R w / 2) <= 12288).
  { apply Rle_trans with (Rabs (B2R x) + Rabs (B2R w / 2)); [unfold Rminus; apply Rle_trans with (1 := Rabs_triang _ _); rewrite Rabs_Ropp; lra|]. unfold Rdiv. rewrite Rabs_mult, (Rabs_pos_eq (/ 2)); lra. }
  lra.
Qed.
(** Every figure is drawn with its sides and put into its layer, that into the
    view, to a hundredth of a pixel; it is faded by the product of the opacities. *)
Theorem C96_figure : forall E view alpha s i, accurate E -> plain_view view -> usual_spot (se_spot s) -> usual_spot (fg_spot i) ->
  usual 8192 (fg_x i) -> usual 8192 (fg_y i) -> usual 8192 (fg_w i) -> usual 8192 (fg_h i) ->
  percent (sp_opacity (se_spot s)) -> percent (sp_opacity (fg_spot i)) -> percent (fg_opacity i) -> fin alpha -> 0 <= B2R alpha <= 1 ->
  exists m els x, figure_op E view alpha s i = OpFill m
      (let b := BSolid (x_color_mul_alpha E (mkColor (f64_to_f32 (fg_r i)) (f64_to_f32 (fg_g i)) (f64_to_f32 (fg_b i)) (f64_to_f32 f1)) (f64_to_f32 f1)) in
       if feqb x f1 then b else x_brush_mul_alpha E b (f64_to_f32 x)) els /\
    drawn E i els /\ finite_map m /\ (forall v, bounded_by 8192 v -> within (1 / 100) (moved m v) (moved view (rests (se_spot s) (rests (fg_spot i) v)))) /\
    approx x (B2R alpha * (B2R (sp_opacity (se_spot s)) / 100) * (B2R (sp_opacity (fg_spot i)) / 100) * (B2R (fg_opacity i) / 100)) (/ 100000000000000).
Proof.
  intros E view alpha s i A V Ps Pi X Y W H O1 O2 O3 Fa Ra.
  exists (affine_mul (affine_mul view (put E (se_spot s))) (put E (fg_spot i))), (outline_of E i).
  eexists. split; [reflexivity|]. split; [|split; [|split]].
  - unfold drawn, outline_of. destruct (fg_round i).
    + eexists _, _. split; [reflexivity|]. split; (eapply near_weaken; [now apply half_of|unfold u52; lra]).
    + eexists _, _, _, _. split; [reflexivity|].
      split; [|split; [|split]]; (eapply near_weaken; [(now apply low_side) || (now apply high_side)|unfold u52; lra]).
  - apply (two_puts E view (se_spot s) (fg_spot i) (0, 0) A V Ps Pi). split; cbn [fst snd]; rewrite Rabs_R0; lra.
  - intros v B. now apply two_puts.
  - assert (P : forall o, percent o -> 0 <= B2R o / 100 <= 1) by (intros o [_ ?]; lra). pose proof (P _ O1) as Q1. pose proof (P _ O2) as Q2. clear P.
    set (q1 := B2R (sp_opacity (se_spot s)) / 100) in *. set (q2 := B2R (sp_opacity (fg_spot i)) / 100) in *.
    assert (R1 : 0 <= B2R alpha * q1 <= 1) by (split; [apply Rmult_le_pos; lra|rewrite <- (Rmult_1_l 1); apply Rmult_le_compat; lra]).
    assert (R2 : 0 <= B2R alpha * q1 * q2 <= 1) by (split; [apply Rmult_le_pos; lra|rewrite <- (Rmult_1_l 1); apply Rmult_le_compat; lra]).
    assert (S1 : approx (fdiv (fmul alpha (sp_opacity (se_spot s))) f100) (B2R alpha * q1) (0 + 8 * u52)) by (apply fade_layer; [exact O1|now apply approx_exact|rewrite Rabs_pos_eq; lra|lra]).
    assert (S2 : approx (fmul (fdiv (fmul alpha (sp_opacity (se_spot s))) f100) (fdiv (sp_opacity (fg_spot i)) f100)) (B2R alpha * q1 * q2) (0 + 8 * u52 + 8 * u52))
      by (apply fade_group; [exact O2|exact S1|rewrite Rabs_pos_eq; lra|unfold u52; lra]).
    eapply near_weaken; [apply fade_layer; [exact O3|exact S2|rewrite Rabs_pos_eq; lra|unfold u52; lra]|unfold u52; lra].
Qed.
From Verif Require Import Examples.
Close Scope string_scope.
Open Scope list_scope.
Open Scope R_scope.
(** A red disc in front of a green square, and a layer that comes later. *)
Definition spot_at (x y s r : Z) : spot := mkSpot f0 f0 (f_of_Z x) (f_of_Z y) (f_of_Z s) (f_of_Z s) (f_of_Z r) f100.
Definition disc : figure := mkFigure true f0 f0 (f_of_Z 20) (f_of_Z 20) f1 f0 f0 f100 (spot_at 10 0 100 0).
Definition square : figure := mkFigure false f0 f0 (f_of_Z 40) (f_of_Z 40) f0 f1 f0 (f_of_Z 50) (spot_at 0 0 100 45).
Definition early : sheet := mkSheet f0 (f_of_Z 60) (spot_at 100 100 200 0) [disc; square].
Definition late : sheet := mkSheet (f_of_Z 30) (f_of_Z 60) (spot_at 0 0 100 0) [disc].
Definition poster1 : poster := mkPoster f0 (f_of_Z 60) (f_of_Z 30) 200 200 [late; early].
Lemma usual_Z b z : (Z.abs z <= 2 ^ 53)%Z -> IZR (Z.abs z) <= b -> usual b (f_of_Z z).
Proof. intros H1 H2. destruct (f_of_Z_R z H1) as [R1 F1]. split; [exact F1|]. rewrite R1, <- abs_IZR. exact H2. Qed.
Lemma usual_0 b : 0 <= b -> usual b f0.
Proof. intros H. split; [reflexivity|]. cbn. now rewrite Rabs_R0. Qed.
Example C96_applies : (0 <= po_wide poster1 <= usize_max)%Z /\ usual_spot (se_spot early) /\ usual_spot (fg_spot square) /\
  percent (fg_opacity square) /\
  forall E, poster_scene E poster1 (f_of_Z 10) affine_identity f1 =
    [OpPushClip affine_identity (SkRect f0 f0 (f_of_Z 200) (f_of_Z 200));
     figure_op E affine_identity f1 early square; figure_op E affine_identity f1 early disc; OpPop].
Proof.
  split; [cbn [po_wide poster1]; unfold usize_max; lia|].
  assert (U : forall x y s r, (Z.abs x <= 8192)%Z -> (Z.abs y <= 8192)%Z -> (Z.abs s <= 1600)%Z -> (Z.abs r <= 16384)%Z -> usual_spot (spot_at x y s r)).
  { intros x y s r Hx Hy Hs Hr. unfold usual_spot, spot_at. cbn [sp_ax sp_ay sp_px sp_py sp_sx sp_sy sp_rot].
    split; [apply usual_0; lra|]. split; [apply usual_0; lra|].
    do 4 (split; [apply usual_Z; [lia|apply IZR_le; lia]|]). apply usual_Z; [lia|apply IZR_le; lia]. }
  split; [apply U; cbn; lia|]. split; [apply U; cbn; lia|]. split.
  { destruct (f_of_Z_R 50 ltac:(lia)) as [R1 F1]. split; [exact F1|]. cbn [fg_opacity square]. rewrite R1. lra. }
  intros E. unfold poster_scene, poster1. cbn [po_sheets po_wide po_high rev app flat_map].
  replace (on_show early (f_of_Z 10)) with true by (vm_compute; reflexivity). replace (on_show late (f_of_Z 10)) with false by (vm_compute; reflexivity). reflexivity.
Qed.
