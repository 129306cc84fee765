(** What importing a document should give, stated on the document types of
    Schema.v.  Nothing here refers to how the importer works, except that the
    data types of a composition (Animated.v) are its result. *)
From Coq Require Import ZArith Bool List Arith String.
From Flocq Require Import BinarySingleNaN.
From Verif Require Import F64 Kurbo Value Animated Render RenderSpec ValueSpec Schema.
Import ListNotations.

Definition on_some {A} (P : A -> Prop) (o : option A) : Prop := forall x, o = Some x -> P x.

(** * The layers of a document *)

(** A document has a main layer list ([None]) and one layer list per precomp
    asset id; of several precomps with the same id the last one counts. *)
Fixpoint asset_layers (l : list any_asset) (name : string) : option (list any_layer) :=
  match l with
  | [] => None
  | AaPrecomp a layers _ _ :: l =>
      match asset_layers l name with
      | Some r => Some r
      | None => if String.eqb (ass_id a) name then Some layers else None
      end
  | AaImage _ _ _ _ _ :: l => asset_layers l name
  end.
Definition assets_of (a : animation) : list any_asset :=
  match ani_assets a with Some l => l | None => [] end.
Definition source_layers (a : animation) (s : option string) : list any_layer :=
  match s with
  | None => ani_layers a
  | Some name => match asset_layers (assets_of a) name with Some l => l | None => [] end
  end.

(** Fields of a source layer. *)
Definition base_of (l : any_layer) : s_layer := vl_layer (visual_of l).
Definition src_name (l : any_layer) : string :=
  match vo_nm (sl_vo (base_of l)) with Some n => n | None => EmptyString end.
Definition src_id (l : any_layer) : nat := match sl_ind (base_of l) with Some i => i | None => 0 end.
Definition src_stretch (l : any_layer) : f64 := match sl_sr (base_of l) with Some x => x | None => f1 end.
Definition src_start (l : any_layer) : f64 :=
  match l with
  | AlPrecomp _ _ _ _ st _ => st
  | _ => match sl_st (base_of l) with Some x => x | None => f0 end
  end.
Definition src_hidden (l : any_layer) : Prop := sl_hd (base_of l) = Some true.
(** A visible layer marked as a matte source ([td]: 1). *)
Definition matte_source (l : any_layer) : Prop :=
  vl_td (visual_of l) = Some BITrue /\ ~ src_hidden l.

(** Position [k] holds the last layer with the given id. *)
Definition last_with_id (srcs : list any_layer) (id k : nat) : Prop :=
  (exists l, nth_error srcs k = Some l /\ src_id l = id) /\
  forall j l, k < j -> nth_error srcs j = Some l -> src_id l <> id.

(** [k] is the nearest matte source above layer [i], and no layer in between
    already consumed it. *)
Definition nearest_matte (srcs : list any_layer) (i k : nat) : Prop :=
  k < i /\ (exists l, nth_error srcs k = Some l /\ matte_source l) /\
  forall j l, k < j < i -> nth_error srcs j = Some l ->
    ~ matte_source l /\ vl_tt (visual_of l) = None.

(** How the content is composited with its matte. *)
Definition matte_blend (m : matte_mode) : blend_mode :=
  match m with
  | MmNormal => blend_of_mix MixNormal
  | MmAlpha | MmLuma => blend_of_compose ComposeSrcIn
  | MmInvertedAlpha | MmInvertedLuma => blend_of_compose ComposeSrcOut
  end.

(** The same layer, not hidden. *)
Definition unhide_base (l : s_layer) : s_layer :=
  mkSLayer (sl_vo l) (sl_ddd l) None (sl_ty l) (sl_ind l) (sl_parent l) (sl_sr l) (sl_ip l)
           (sl_op l) (sl_st l).
Definition unhide_visual (v : visual_layer) : visual_layer :=
  mkVisualLayer (unhide_base (vl_layer v)) (vl_tt v) (vl_td v) (vl_masks v) (vl_ks v) (vl_ao v)
    (vl_tp v) (vl_has_mask v) (vl_mb v) (vl_bm v) (vl_cl v) (vl_ln v) (vl_tg v) (vl_cp v) (vl_ct v).
Definition unhide (l : any_layer) : any_layer :=
  match l with
  | AlPrecomp vl a b c d e => AlPrecomp (unhide_visual vl) a b c d e
  | AlSolid vl a b c => AlSolid (unhide_visual vl) a b c
  | AlShape vl a => AlShape (unhide_visual vl) a
  | AlNull vl => AlNull (unhide_visual vl)
  | AlImage vl a => AlImage (unhide_visual vl) a
  end.

(** * What the importer supports *)

(** An easing handle whose coordinates are numbers or arrays of one number. *)
Definition single (c : kf_component) : Prop :=
  match c with KcArray l => List.length l = 1 | KcSingle _ => True end.
Definition handle_supported (h : kf_handle) : Prop := single (kh_x h) /\ single (kh_y h).
Definition base_supported (b : kf_base) : Prop :=
  on_some handle_supported (kb_in b) /\ on_some handle_supported (kb_out b).
Definition scalar_supported (v : float_value) : Prop :=
  match ap_k v with
  | AkStatic _ => True
  | AkAnimated ks => forall k, In k ks -> kf_value k <> [] /\ base_supported (kf_b k)
  end.
Definition gradient_supported (g : base_gradient) : Prop :=
  match ap_k (md_p (gc_k (bg_g g))) with
  | AkStatic _ => True
  | AkAnimated ks => forall k, In k ks -> base_supported (kf_b k)
  end.

(** The outline keyframe [i] of an animated path starts from: its own start,
    or else the end of the previous keyframe, or else the previous start. *)
Definition first_of (o : option (list bezier)) : option bezier :=
  match o with Some (b :: _) => Some b | _ => None end.
Definition start_of (ks : list shape_keyframe) (i : nat) : option bezier :=
  match nth_error ks i with
  | None => None
  | Some k =>
      match skf_s k, i with
      | Some _, _ => first_of (skf_s k)
      | None, 0 => None
      | None, S j =>
          match nth_error ks j with
          | Some p => match first_of (skf_e p) with Some b => Some b | None => first_of (skf_s p) end
          | None => None
          end
      end
  end.
(** A path that gives a shape: static, or every keyframe has an outline. *)
Definition path_imports (p : shape_prop) : Prop :=
  match sp_k p with
  | SkStatic _ => True
  | SkAnimated ks => forall i, i < List.length ks -> start_of ks i <> None
  end.
(** Handles must be supported up to and including the first keyframe without
    an outline, and the first keyframe must have a start. *)
Definition path_supported (p : shape_prop) : Prop :=
  match sp_k p with
  | SkStatic _ => True
  | SkAnimated ks =>
      forall i k, nth_error ks i = Some k -> (forall j, j < i -> start_of ks j <> None) ->
        base_supported (skf_b k) /\ (i = 0 -> skf_s k <> None)
  end.

Definition is_static {T} (v : anim_prop T) : Prop := exists x, ap_k v = AkStatic x.
Definition is_static_pos (p : s_position) : Prop := exists l, po_k p = PkStatic l.
(** Number of vertices of a star with [n] points. *)
Definition vertex_count (sy : star_type) (n : f64) : Z :=
  let z := f_to_usize (fround n) in match sy with StStar => z * 2 | StPolygon => z end.
(** A constant star with so many vertices that they cannot be allocated
    (48 bytes each, at most [isize::MAX] bytes). *)
Definition oversized (p : s_position) (or os r pt : float_value) (sy : star_type)
  (ir is : option float_value) : Prop :=
  is_static_pos p /\ is_static or /\ is_static os /\ is_static r /\
  (sy = StStar -> on_some is_static ir /\ on_some is_static is) /\
  exists n, ap_k pt = AkStatic n /\ (vertex_count sy n * 48 > 9223372036854775807)%Z.
Definition star_supported (p : s_position) (or os r pt : float_value) (sy : star_type)
  (ir is : option float_value) : Prop :=
  scalar_supported or /\ scalar_supported os /\ scalar_supported r /\ scalar_supported pt /\
  (sy = StStar -> on_some scalar_supported ir /\ on_some scalar_supported is) /\
  ~ oversized p or os r pt sy ir is.

Definition rest_supported (t : s_transform) : Prop :=
  on_some scalar_supported (tf_sk t) /\ on_some scalar_supported (tf_sa t) /\
  on_some scalar_supported (tf_o t).
Definition group_transform_supported (t : s_transform) : Prop :=
  (forall r, tf_r t = Some r -> exists v, r = ArRotation v /\ scalar_supported v) /\
  (exists p, tf_p t = ApPosition p) /\ rest_supported t.
Definition layer_transform_supported (t : s_transform) : Prop :=
  (exists v, tf_r t = Some (ArRotation v) /\ scalar_supported v) /\
  (forall s, tf_p t = ApSplit s -> scalar_supported (spv_x s) /\ scalar_supported (spv_y s)) /\
  rest_supported t.

Inductive shape_supported : any_shape -> Prop :=
| sup_group ge np it cix :
    (forall t, In (AsTransform t) it -> group_transform_supported (trs_t t)) ->
    (forall x, In x it -> shape_supported x) -> shape_supported (AsGroup ge np it cix)
| sup_rect sh p s r : scalar_supported r -> shape_supported (AsRectangle sh p s r)
| sup_ellipse sh p s : shape_supported (AsEllipse sh p s)
| sup_transform t : shape_supported (AsTransform t)
| sup_stroke st bs c : scalar_supported (bs_w bs) -> scalar_supported (sst_o st) ->
    shape_supported (AsStroke st bs c)
| sup_pucker m a : shape_supported (AsPuckerBloat m a)
| sup_merge ge mm : shape_supported (AsMerge ge mm)
| sup_repeater m c o mm tr : shape_supported (AsRepeater m c o mm tr)
| sup_offset m a lj ml : shape_supported (AsOffsetPath m a lj ml)
| sup_fill st c r : scalar_supported (sst_o st) -> shape_supported (AsFill st c r)
| sup_trim m s e o mm : scalar_supported s -> scalar_supported e -> scalar_supported o ->
    shape_supported (AsTrim m s e o mm)
| sup_path sh ks : path_supported ks -> shape_supported (AsPath sh ks)
| sup_gfill st g r : gradient_supported g -> shape_supported (AsGradientFill st g r)
| sup_gstroke st bs g : scalar_supported (bs_w bs) -> gradient_supported g ->
    shape_supported (AsGradientStroke st bs g)
| sup_twist m a p : shape_supported (AsTwist m a p)
| sup_corners m r : shape_supported (AsRoundedCorners m r)
| sup_star sh p or os r pt sy ir is : star_supported p or os r pt sy ir is ->
    shape_supported (AsPolyStar sh p or os r pt sy ir is).

Definition mask_supported (m : s_mask) : Prop :=
  forall p, mas_pt m = Some p ->
    path_supported p /\ (path_imports p -> on_some scalar_supported (mas_o m)).
Definition visual_supported (v : visual_layer) : Prop :=
  layer_transform_supported (vl_ks v) /\
  vl_bm v <> Some SbAdd /\ vl_bm v <> Some SbHardMix /\
  forall ms m, vl_masks v = Some ms -> In m ms -> mask_supported m.
(** Content of a hidden layer is not looked at. *)
Definition layer_supported (l : any_layer) : Prop :=
  visual_supported (visual_of l) /\
  (src_hidden l \/
   match l with
   | AlPrecomp _ _ _ _ _ tm => on_some scalar_supported tm
   | AlShape _ shapes => forall x, In x shapes -> shape_supported x
   | _ => True
   end).
Definition asset_supported (x : any_asset) : Prop :=
  match x with
  | AaPrecomp _ layers _ _ => forall l, In l layers -> layer_supported l
  | AaImage _ _ _ _ _ => False
  end.
Definition animation_supported (a : animation) : Prop :=
  (forall x, In x (assets_of a) -> asset_supported x) /\
  (forall l, In l (ani_layers a) -> layer_supported l).

(** * Values *)

(** A scalar property and its imported form: one time and value per keyframe,
    in order. *)
Definition component_reads (c : kf_component) (x : f64) : Prop :=
  match c with KcArray l => l = [x] | KcSingle y => y = x end.
Definition handle_reads (h : option kf_handle) (h' : option handle) : Prop :=
  match h, h' with
  | None, None => True
  | Some h, Some h' => component_reads (kh_x h) (hx h') /\ component_reads (kh_y h) (hy h')
  | _, _ => False
  end.
Definition time_reads (b : kf_base) (t : time) : Prop :=
  t_frame t = kb_time b /\ (t_hold t = true <-> kb_hold b = Some BITrue) /\
  handle_reads (kb_in b) (t_in t) /\ handle_reads (kb_out b) (t_out t).
Definition scalar_reads (v : float_value) (w : value f64) : Prop :=
  match ap_k v with
  | AkStatic n => w = VFixed n
  | AkAnimated ks => exists a, w = VAnimated a /\
      Forall2 (fun k t => time_reads (kf_b k) t) ks (an_times a) /\
      Forall2 (fun k x => hd_error (kf_value k) = Some x) ks (an_values a)
  end.

(** A vector property: every keyframe becomes one entry, or one entry per
    pair of easing handle components when the handles are arrays (at most
    two), all with the keyframe's time, hold flag and value. *)
Definition component_at (c : kf_component) (j : nat) (x : f64) : Prop :=
  match c with KcArray l => nth_error l j = Some x | KcSingle y => y = x end.
Definition handle_at (h : kf_handle) (j : nat) (h' : handle) : Prop :=
  component_at (kh_x h) j (hx h') /\ component_at (kh_y h) j (hy h').
(** Number of handles a pair of coordinates describes, at most two. *)
Definition handle_width (o : option kf_handle) : nat :=
  match o with
  | None => 0
  | Some h => match kh_x h, kh_y h with
              | KcSingle _, KcSingle _ => 1
              | KcArray xs, KcSingle _ => Nat.min 2 (List.length xs)
              | KcSingle _, KcArray ys => Nat.min 2 (List.length ys)
              | KcArray xs, KcArray ys => Nat.min 2 (Nat.min (List.length xs) (List.length ys))
              end
  end.
Definition easings (k : keyframe) : nat :=
  Nat.min (handle_width (kb_in (kf_b k))) (handle_width (kb_out (kf_b k))).
Definition entry_reads {T} (f : list f64 -> T) (k : keyframe) (j : nat) (e : time * T) : Prop :=
  t_frame (fst e) = kb_time (kf_b k) /\ (t_hold (fst e) = true <-> kb_hold (kf_b k) = Some BITrue) /\
  snd e = f (kf_value k) /\
  match t_in (fst e), t_out (fst e) with
  | None, None => easings k = 0
  | Some i, Some o => exists hi ho, kb_in (kf_b k) = Some hi /\ kb_out (kf_b k) = Some ho /\
                                    handle_at hi j i /\ handle_at ho j o
  | _, _ => False
  end.
Definition group_reads {T} (f : list f64 -> T) (k : keyframe) (g : list (time * T)) : Prop :=
  List.length g = Nat.max 1 (easings k) /\ forall j e, nth_error g j = Some e -> entry_reads f k j e.
Definition keyframes_read {T} (f : list f64 -> T) (ks : list keyframe) (w : value T) : Prop :=
  exists groups, Forall2 (group_reads f) ks groups /\
    w = VAnimated (mkAnim (map fst (List.concat groups)) (map snd (List.concat groups))).
Definition vector_reads {T} (f : list f64 -> T) (v : anim_prop (list f64)) (w : value T) : Prop :=
  match ap_k v with AkStatic l => w = VFixed (f l) | AkAnimated ks => keyframes_read f ks w end.
Definition pos_reads {T} (f : list f64 -> T) (v : s_position) (w : value T) : Prop :=
  match po_k v with
  | PkStatic l => w = VFixed (f l)
  | PkAnimated ks => keyframes_read f (map pk_kf ks) w
  end.
(** Two (three) leading components, all zero if there are fewer. *)
Definition point_of (l : list f64) : point :=
  match l with x :: y :: _ => mkPoint x y | _ => mkPoint f0 f0 end.
Definition vec2_of (l : list f64) : vec2 :=
  match l with x :: y :: _ => mkVec2 x y | _ => mkVec2 f0 f0 end.
Definition size_of (l : list f64) : size :=
  match l with x :: y :: _ => mkSize x y | _ => mkSize f0 f0 end.
Definition color_of (l : list f64) : color :=
  let opaque := f64_to_f32 f1 in
  match l with
  | r :: g :: b :: _ => mkColor (f64_to_f32 r) (f64_to_f32 g) (f64_to_f32 b) opaque
  | _ => mkColor (f64_to_f32 f0) (f64_to_f32 f0) (f64_to_f32 f0) opaque
  end.

(** Same number of times and values. *)
Definition value_wf {T} (v : value T) : Prop :=
  match v with VFixed _ => True | VAnimated a => List.length (an_times a) = List.length (an_values a) end.

(** * Beziers *)

(** Vertex, in-tangent and out-tangent of every vertex, missing tangents zero. *)
Definition bezier_points (b : bezier) (pts : list point) : Prop :=
  List.length pts = 3 * List.length (bz_v b) /\
  forall n v, nth_error (bz_v b) n = Some v ->
    let i := nth n (bz_i b) (f0, f0) in
    let o := nth n (bz_o b) (f0, f0) in
    nth_error pts (3 * n) = Some (mkPoint (fst v) (snd v)) /\
    nth_error pts (3 * n + 1) = Some (mkPoint (fst i) (snd i)) /\
    nth_error pts (3 * n + 2) = Some (mkPoint (fst o) (snd o)).
Definition bezier_closed (b : bezier) : bool := match bz_closed b with Some true => true | _ => false end.

(** * Shapes *)

(** Shapes that leave a trace in the composition. *)
Inductive yields : any_shape -> Prop :=
| y_fill st c r : yields (AsFill st c r)
| y_stroke st bs c : yields (AsStroke st bs c)
| y_gfill st g r : yields (AsGradientFill st g r)
| y_gstroke st bs g : yields (AsGradientStroke st bs g)
| y_rect sh p s r : yields (AsRectangle sh p s r)
| y_ellipse sh p s : yields (AsEllipse sh p s)
| y_star sh p or os r pt sy ir is : yields (AsPolyStar sh p or os r pt sy ir is)
| y_trim m s e o mm : yields (AsTrim m s e o mm)
| y_path sh ks : path_imports ks -> yields (AsPath sh ks)
| y_group ge np it cix x : In x it -> yields x -> yields (AsGroup ge np it cix).

(** A transform property and its imported form. *)
Definition or_static {T} (o : option (anim_prop T)) (d : T) : anim_prop T :=
  match o with Some v => v | None => mkAnimProp None None None None (AkStatic d) end.
Definition position_reads (p : any_p) (q : position) : Prop :=
  match p, q with
  | ApPosition p, PosValue v => pos_reads point_of p v
  | ApSplit s, PosSplit x y => scalar_reads (spv_x s) x /\ scalar_reads (spv_y s) y
  | _, _ => False
  end.
(** [scale0] is the scale assumed when none is given. *)
Definition transform_reads (scale0 : list f64) (t : s_transform) (u : a_transform) (op : value f64) : Prop :=
  match tf_a t with
  | Some p => pos_reads point_of p (at_anchor u)
  | None => at_anchor u = VFixed (mkPoint f0 f0)
  end /\
  position_reads (tf_p t) (at_position u) /\
  match tf_s t with
  | Some v => vector_reads vec2_of (md_p v) (at_scale u)
  | None => at_scale u = VFixed (vec2_of scale0)
  end /\
  match tf_r t with
  | Some (ArRotation v) => scalar_reads v (at_rotation u)
  | Some _ => False
  | None => at_rotation u = VFixed f0
  end /\
  scalar_reads (or_static (tf_sk t) f0) (at_skew u) /\
  scalar_reads (or_static (tf_sa t) f0) (at_skew_angle u) /\
  scalar_reads (or_static (tf_o t) f100) op.
(** The transform [u] in the form stored in a composition: evaluating it at
    any frame evaluates [u] (see C28). *)
Definition stored_transform (E : Ext) (u : a_transform) (t : transform) : Prop :=
  forall frame, transform_eval E t frame = a_transform_eval E u frame.

(** The last transform item of a group. *)
Definition last_transform (it : list any_shape) (t : option transform_shape) : Prop :=
  match t with
  | None => forall u, ~ In (AsTransform u) it
  | Some t => exists l r, it = l ++ AsTransform t :: r /\ forall u, ~ In (AsTransform u) r
  end.

Definition join_of (d : line_join) (j : option line_join) : join :=
  match match j with Some j => j | None => d end with
  | LjMiter => JoinMiter | LjRound => JoinRound | LjBevel => JoinBevel
  end.
Definition cap_of (d : line_cap) (c : option line_cap) : cap :=
  match match c with Some c => c | None => d end with
  | LcButt => CapButt | LcRound => CapRound | LcSquare => CapSquare
  end.
Definition stroke_reads (E : Ext) (j0 : line_join) (c0 : line_cap) (bs : base_stroke) (s : stroke_v) : Prop :=
  exists w, scalar_reads (bs_w bs) w /\
  forall frame, stroke_eval E s frame =
    mkStroke (eval E w frame) (join_of j0 (bs_lj bs))
             (match bs_ml bs with Some m => m | None => f_of_Z 4 end)
             (cap_of c0 (bs_lc bs)) (cap_of c0 (bs_lc bs)).
(** Black, fully transparent: the colour of a keyframe list without keyframes. *)
Definition see_through : color := mkColor (f64_to_f32 f0) (f64_to_f32 f0) (f64_to_f32 f0) (f64_to_f32 f0).
Definition solid_reads (E : Ext) (c : color_value) (b : brush_v) : Prop :=
  exists cv, vector_reads color_of c cv /\
  forall frame, brush_eval E b f1 frame =
    BSolid (x_color_mul_alpha E (eval_or E cv frame see_through) (f64_to_f32 f1)).
(** A flat stop array [offset, r, g, b, ...] holds [count] colour stops,
    followed by [offset, opacity] pairs.  (A declared count of 0 still reads
    one stop.) *)
Definition stop_total (l : list f64) (count : nat) : nat :=
  Nat.min (Nat.max 1 count) (List.length l / 4).
Definition nums (l : list f64) (i : nat) (xs : list f64) : Prop :=
  firstn (List.length xs) (skipn i l) = xs.
(** The opacity stops that follow the colour stops. *)
Fixpoint pairs_of (l : list f64) : list (f64 * f64) :=
  match l with o :: a :: l => (o, a) :: pairs_of l | _ => [] end.
Definition opacity_stops (l : list f64) (count : nat) : list (f64 * f64) := pairs_of (skipn (4 * count) l).
(** Opacity stops as in every Lottie file: finite, offsets increasing. *)
Definition sane_opacities (ops : list (f64 * f64)) : Prop :=
  Forall (fun p => moderate (fst p) /\ is_finite (snd p) = true) ops /\
  forall i j p q, i < j -> nth_error ops i = Some p -> nth_error ops j = Some q -> fltb (fst p) (fst q) = true.
(** [a] is the opacity of opacity stop [k], unless an opacity stop other than
    the first and the last has a smaller one; and at most 1. *)
Definition least_opacity (ops : list (f64 * f64)) (k : nat) (a : f64) : Prop :=
  let candidate j := j = k \/ 0 < j < List.length ops - 1 in
  (forall j p, candidate j -> nth_error ops j = Some p -> fleb a (snd p) = true) /\
  (a = f1 \/ exists j p, candidate j /\ nth_error ops j = Some p /\ a = snd p).
(** The opacity [a] of a colour stop at offset [x]. *)
Definition stop_opacity (l : list f64) (count : nat) (x a : f64) : Prop :=
  fleb a f1 = true /\
  (List.length (opacity_stops l count) < 2 -> a = f1) /\
  (1 <= count -> 4 * count <= List.length l -> 2 <= List.length (opacity_stops l count) ->
   sane_opacities (opacity_stops l count) ->
   forall k p, nth_error (opacity_stops l count) k = Some p -> is_finite x = true -> feqb x (fst p) = true ->
     least_opacity (opacity_stops l count) k a).
Definition stops_read (l : list f64) (count : nat) (out : list color_stop) : Prop :=
  List.length out = stop_total l count /\
  forall i s, nth_error out i = Some s -> exists o r g b a,
    nums l (4 * i) [o; r; g; b] /\ cs_offset s = f64_to_f32 o /\
    cr (cs_color s) = f64_to_f32 r /\ cg (cs_color s) = f64_to_f32 g /\ cb (cs_color s) = f64_to_f32 b /\
    ca (cs_color s) = f64_to_f32 a /\ stop_opacity l count o a.
(** The same as a flat array [offset, r, g, b, a, ...]. *)
Definition stops_read_flat (l : list f64) (count : nat) (out : list f64) : Prop :=
  List.length out = 5 * stop_total l count /\
  forall i, i < stop_total l count -> exists o r g b a,
    nums l (4 * i) [o; r; g; b] /\ nums out (5 * i) [o; r; g; b; a] /\ stop_opacity l count o a.
Definition gradient_stops_read (g : gradient_colors) (s : stops_v) : Prop :=
  match ap_k (md_p (gc_k g)) with
  | AkStatic l => exists out, s = CsFixed out /\ stops_read l (gc_p g) out
  | AkAnimated ks => exists a, s = CsAnimated a /\ ast_count a = gc_p g /\
      Forall2 (fun k t => time_reads (kf_b k) t) ks (ast_frames a) /\
      Forall2 (fun k v => stops_read_flat (kf_value k) (gc_p g) v) ks (ast_values a)
  end.
Definition gradient_reads (E : Ext) (g : base_gradient) (b : brush_v) : Prop :=
  exists s e stops, vector_reads point_of (md_p (bg_s g)) s /\ vector_reads point_of (md_p (bg_e g)) e /\
  gradient_stops_read (bg_g g) stops /\
  forall frame, exists k, brush_eval E b f1 frame = BGradient (mkGradient k (stops_eval E stops frame)) /\
    match bg_t g with
    | Some GtRadial =>
        let p := eval E s frame in let q := eval E e frame in
        k = GRadial p (f64_to_f32 (x_hypot E (fsub (px q) (px p)) (fsub (py q) (py p))))
    | _ => k = GLinear (eval E s frame) (eval E e frame)
    end.

Definition spline_reads (ks : list shape_keyframe) (s : a_spline) : Prop :=
  Forall2 (fun k t => time_reads (skf_b k) t) ks (asp_times s) /\
  List.length (asp_values s) = List.length ks /\
  (forall i v k, nth_error (asp_values s) i = Some v -> nth_error ks i = Some k ->
     (exists b, start_of ks i = Some b /\ bezier_points b (sk_start v)) /\
     match first_of (skf_e k), sk_end v with
     | Some b, Some pts => bezier_points b pts
     | None, None => True
     | _, _ => False
     end) /\
  (asp_closed s = true <->
   exists i k b, nth_error ks i = Some k /\ bezier_closed b = true /\
     (start_of ks i = Some b \/ first_of (skf_e k) = Some b)).
Definition path_reads (p : shape_prop) (g : geometry) : Prop :=
  match sp_k p with
  | SkStatic b => exists pts els, g = GFixed els /\ bezier_points b pts /\
      match bz_v b with [] => els = [] | _ => spline_path pts (bezier_closed b) els end
  | SkAnimated ks => exists s, g = GSpline s /\ spline_reads ks s
  end.
(** The imported inner radius and roundness of a star (a polygon has none). *)
Definition inner_reads (sy : star_type) (o : option float_value) (v : value f64) : Prop :=
  match sy, o with
  | StStar, Some x => scalar_reads x v
  | _, _ => v = VFixed f0
  end.
Definition star_reads (E : Ext) (p : s_position) (or os r pt : float_value) (sy : star_type)
  (ir is : option float_value) (g : geometry) : Prop :=
  exists s, asr_polygon s = match sy with StPolygon => true | StStar => false end /\
    pos_reads point_of p (asr_position s) /\
    scalar_reads or (asr_outer_radius s) /\ scalar_reads os (asr_outer_roundness s) /\
    scalar_reads r (asr_rotation s) /\ scalar_reads pt (asr_points s) /\
    inner_reads sy ir (asr_inner_radius s) /\ inner_reads sy is (asr_inner_roundness s) /\
    forall frame, geometry_eval E g frame = a_star_eval E s frame.

(** [imports E l out]: the shape list [l] becomes [out]: same order, shapes
    that yield nothing disappear, nothing is added. *)
Inductive imports (E : Ext) : list any_shape -> list shape -> Prop :=
| imp_nil : imports E [] []
| imp_drop x l out : ~ yields x -> imports E l out -> imports E (x :: l) out
| imp_keep x s l out : yields x -> becomes E x s -> imports E l out -> imports E (x :: l) (s :: out)
with becomes (E : Ext) : any_shape -> shape -> Prop :=
| bec_group ge np it cix shapes t gt :
    imports E it shapes -> last_transform it t ->
    match t, gt with
    | None, None => True
    | Some t, Some g => exists u, transform_reads [f1; f1; f1] (trs_t t) u (gt_opacity g) /\
                                  stored_transform E u (gt_transform g)
    | _, _ => False
    end ->
    becomes E (AsGroup ge np it cix) (ShGroup shapes gt)
| bec_fill st c r d : dr_stroke d = None -> solid_reads E c (dr_brush d) ->
    scalar_reads (sst_o st) (dr_opacity d) -> becomes E (AsFill st c r) (ShDraw d)
| bec_stroke st bs c d s : dr_stroke d = Some s -> stroke_reads E LjBevel LcButt bs s ->
    solid_reads E c (dr_brush d) -> scalar_reads (sst_o st) (dr_opacity d) ->
    becomes E (AsStroke st bs c) (ShDraw d)
| bec_gfill st g r d : dr_stroke d = None -> gradient_reads E g (dr_brush d) ->
    dr_opacity d = VFixed f100 -> becomes E (AsGradientFill st g r) (ShDraw d)
| bec_gstroke st bs g d s : dr_stroke d = Some s -> stroke_reads E LjRound LcRound bs s ->
    gradient_reads E g (dr_brush d) -> dr_opacity d = VFixed f100 ->
    becomes E (AsGradientStroke st bs g) (ShDraw d)
| bec_rect sh p s r g : pos_reads point_of p (arc_position g) -> vector_reads size_of (md_p s) (arc_size g) ->
    scalar_reads r (arc_radius g) -> becomes E (AsRectangle sh p s r) (ShGeometry (GRect g))
| bec_ellipse sh p s g : pos_reads point_of p (ael_position g) -> vector_reads size_of (md_p s) (ael_size g) ->
    becomes E (AsEllipse sh p s) (ShGeometry (GEllipse g))
| bec_star sh p or os r pt sy ir is g : star_reads E p or os r pt sy ir is g ->
    becomes E (AsPolyStar sh p or os r pt sy ir is) (ShGeometry g)
| bec_path sh ks g : path_reads ks g -> becomes E (AsPath sh ks) (ShGeometry g)
| bec_trim m s e o mm t vs ve vo : scalar_reads s vs -> scalar_reads e ve -> scalar_reads o vo ->
    (forall frame, trim_eval E t frame = mkTrim (eval E vs frame) (eval E ve frame) (eval E vo frame)) ->
    becomes E (AsTrim m s e o mm) (ShTrim t).

(** * Layers *)

(** Blend mode of a layer: nothing for normal, else the mix of that name. *)
Definition mix_of (b : s_blend) : option mix :=
  match b with
  | SbNormal | SbAdd | SbHardMix => None
  | SbMultiply => Some MixMultiply | SbScreen => Some MixScreen | SbOverlay => Some MixOverlay
  | SbDarken => Some MixDarken | SbLighten => Some MixLighten | SbColorDodge => Some MixColorDodge
  | SbColorBurn => Some MixColorBurn | SbHardLight => Some MixHardLight | SbSoftLight => Some MixSoftLight
  | SbDifference => Some MixDifference | SbExclusion => Some MixExclusion | SbHue => Some MixHue
  | SbSaturation => Some MixSaturation | SbColor => Some MixColor | SbLuminosity => Some MixLuminosity
  end.
Definition src_blend (l : any_layer) : option blend_mode :=
  match vl_bm (visual_of l) with
  | Some b => match mix_of b with Some m => Some (blend_of_mix m) | None => None end
  | None => None
  end.
(** Masks: those with an importable path, in order; opacity 100 if absent. *)
Definition mask_imports (m : s_mask) : Prop := exists p, mas_pt m = Some p /\ path_imports p.
Definition mask_reads (m : s_mask) (k : mask) : Prop :=
  (exists p, mas_pt m = Some p /\ path_reads p (mk_geometry k)) /\
  scalar_reads (or_static (mas_o m) f100) (mk_opacity k).
Inductive masks_read : list s_mask -> list mask -> Prop :=
| mr_nil : masks_read [] []
| mr_drop m l out : ~ mask_imports m -> masks_read l out -> masks_read (m :: l) out
| mr_keep m k l out : mask_imports m -> mask_reads m k -> masks_read l out ->
    masks_read (m :: l) (k :: out).
Definition src_masks (l : any_layer) : list s_mask :=
  match vl_masks (visual_of l) with Some m => m | None => [] end.
(** What the layer shows. *)
Definition content_reads (E : Ext) (l : any_layer) (x : content) : Prop :=
  match l with
  | AlPrecomp _ name _ _ _ tm => exists r, x = CInstance name r /\
      match tm, r with
      | None, None => True | Some v, Some w => scalar_reads v w | _, _ => False
      end
  | AlShape _ shapes => exists out, x = CShape out /\ imports E shapes out
  | _ => x = CNone
  end.

(** * Well-formed values everywhere in a composition *)
Definition position_wf (p : position) : Prop :=
  match p with PosValue v => value_wf v | PosSplit x y => value_wf x /\ value_wf y end.
Definition transform_wf (t : transform) : Prop :=
  match t with
  | TFixed _ => True
  | TAnimated t => value_wf (at_anchor t) /\ position_wf (at_position t) /\ value_wf (at_rotation t) /\
                   value_wf (at_scale t) /\ value_wf (at_skew t) /\ value_wf (at_skew_angle t)
  end.
Definition stroke_wf (s : stroke_v) : Prop :=
  match s with StFixed _ => True | StAnimated s => value_wf (as_width s) end.
Definition brush_wf (b : brush_v) : Prop :=
  match b with
  | BrFixed _ => True
  | BrAnimated (ABSolid c) => value_wf c
  | BrAnimated (ABGradient g) => value_wf (ag_start g) /\ value_wf (ag_end g) /\
      match ag_stops g with
      | CsFixed _ => True
      | CsAnimated s => List.length (ast_frames s) = List.length (ast_values s)
      end
  end.
Definition geometry_wf (g : geometry) : Prop :=
  match g with
  | GFixed _ => True
  | GRect r => value_wf (arc_position r) /\ value_wf (arc_size r) /\ value_wf (arc_radius r)
  | GEllipse e => value_wf (ael_position e) /\ value_wf (ael_size e)
  | GSpline s => List.length (asp_times s) = List.length (asp_values s)
  | GStar s => value_wf (asr_position s) /\ value_wf (asr_inner_radius s) /\
      value_wf (asr_inner_roundness s) /\ value_wf (asr_outer_radius s) /\
      value_wf (asr_outer_roundness s) /\ value_wf (asr_rotation s) /\ value_wf (asr_points s)
  end.
(** (Imported shapes contain no repeaters.) *)
Inductive shape_wf : shape -> Prop :=
| swf_group l t : (forall x, In x l -> shape_wf x) ->
    on_some (fun t => transform_wf (gt_transform t) /\ value_wf (gt_opacity t)) t ->
    shape_wf (ShGroup l t)
| swf_geometry g : geometry_wf g -> shape_wf (ShGeometry g)
| swf_draw d : on_some stroke_wf (dr_stroke d) -> brush_wf (dr_brush d) -> value_wf (dr_opacity d) ->
    shape_wf (ShDraw d)
| swf_trim_fixed t : shape_wf (ShTrim (TrFixed t))
| swf_trim t : value_wf (atr_start t) -> value_wf (atr_end t) -> value_wf (atr_offset t) ->
    shape_wf (ShTrim (TrAnimated t)).
Definition layer_wf (l : layer) : Prop :=
  transform_wf (ly_transform l) /\ value_wf (ly_opacity l) /\
  (forall m, In m (ly_masks l) -> geometry_wf (mk_geometry m) /\ value_wf (mk_opacity m)) /\
  match ly_content l with
  | CNone => True
  | CInstance _ r => on_some value_wf r
  | CShape shapes => forall x, In x shapes -> shape_wf x
  end.

(** * References *)

(** The id an explicit matte reference names ([tp] as an unsigned integer). *)
Definition matte_target (l : any_layer) : option nat :=
  match vl_tp (visual_of l) with Some x => Some (Z.to_nat (f_to_usize x)) | None => None end.
(** [k] is the layer that serves as matte for layer [i], [src]. *)
Definition matte_for (srcs : list any_layer) (i : nat) (src : any_layer) (k : nat) : Prop :=
  match matte_target src with
  | Some id => last_with_id srcs id k
  | None => nearest_matte srcs i k
  end.
(** The same layer without content and not a matte source. *)
Definition blank (l : layer) : layer :=
  mkLayer (ly_name l) (ly_parent l) (ly_transform l) (ly_opacity l) (ly_width l) (ly_height l)
          (ly_blend_mode l) (ly_in l) (ly_out l) (ly_stretch l) (ly_start_frame l) (ly_masks l)
          false (ly_mask_layer l) CNone.
