(** When two documents say the same.

    The relations below compare documents on the fields that have a meaning
    for the picture velato paints, with omitted transform parts read as their
    neutral values.  Everything they do not mention (names, hidden flags and
    blend modes of shapes, expressions, slots, property indices, fill rules,
    path directions, dashes, spatial tangents of position keyframes, legacy end
    values of keyframes, mask modes, merge and trim modes, markers, metadata,
    ...) may differ. *)
From Coq Require Import ZArith Bool List Arith String.
From Verif Require Import F64 Kurbo Value Animated Render Schema ImportSpec.
Import ListNotations.

Definition both {A} (R : A -> A -> Prop) (x y : option A) : Prop :=
  match x, y with None, None => True | Some a, Some b => R a b | _, _ => False end.

(** ** Properties *)
Definition kf_agree (k l : keyframe) : Prop := kf_b k = kf_b l /\ kf_value k = kf_value l.
Definition prop_agree {T} (v w : anim_prop T) : Prop :=
  match ap_k v, ap_k w with
  | AkStatic a, AkStatic b => a = b
  | AkAnimated l, AkAnimated m => Forall2 kf_agree l m
  | _, _ => False
  end.
Definition pos_agree (v w : s_position) : Prop :=
  match po_k v, po_k w with
  | PkStatic a, PkStatic b => a = b
  | PkAnimated l, PkAnimated m => Forall2 (fun k l => kf_agree (pk_kf k) (pk_kf l)) l m
  | _, _ => False
  end.
Definition multi_agree (v w : multi_dim) : Prop := prop_agree (md_p v) (md_p w).
Definition path_agree (v w : shape_prop) : Prop := sp_k v = sp_k w.

(** ** Transforms *)
Definition static_value {T} (x : T) : anim_prop T := mkAnimProp None None None None (AkStatic x).
Definition origin : s_position := mkSPosition None None None None (PkStatic [f0; f0]).
Definition or_else {A} (o : option A) (d : A) : A := match o with Some a => a | None => d end.
Definition any_p_agree (p q : any_p) : Prop :=
  match p, q with
  | ApPosition p, ApPosition q => pos_agree p q
  | ApSplit s, ApSplit t => prop_agree (spv_x s) (spv_x t) /\ prop_agree (spv_y s) (spv_y t)
  | _, _ => False
  end.
Definition any_r_agree (r s : any_r) : Prop :=
  match r, s with ArRotation v, ArRotation w => prop_agree v w | ArSplit _ _ _ _, ArSplit _ _ _ _ => True | _, _ => False end.
(** [scale0]: what an omitted scale means. *)
Definition parts_agree (scale0 : list f64) (t u : s_transform) : Prop :=
  pos_agree (or_else (tf_a t) origin) (or_else (tf_a u) origin) /\
  any_p_agree (tf_p t) (tf_p u) /\
  multi_agree (or_else (tf_s t) (mkMultiDim (static_value scale0) None))
              (or_else (tf_s u) (mkMultiDim (static_value scale0) None)) /\
  prop_agree (or_else (tf_sk t) (static_value f0)) (or_else (tf_sk u) (static_value f0)) /\
  prop_agree (or_else (tf_sa t) (static_value f0)) (or_else (tf_sa u) (static_value f0)) /\
  prop_agree (or_else (tf_o t) (static_value f100)) (or_else (tf_o u) (static_value f100)).
Definition layer_tf_agree (scale0 : list f64) (t u : s_transform) : Prop :=
  both any_r_agree (tf_r t) (tf_r u) /\ parts_agree scale0 t u.
Definition group_tf_agree (scale0 : list f64) (t u : s_transform) : Prop :=
  any_r_agree (or_else (tf_r t) (ArRotation (static_value f0))) (or_else (tf_r u) (ArRotation (static_value f0))) /\
  parts_agree scale0 t u.

(** ** Shapes *)
Definition stroke_agree (b c : base_stroke) : Prop :=
  bs_lc b = bs_lc c /\ bs_lj b = bs_lj c /\ bs_ml b = bs_ml c /\ prop_agree (bs_w b) (bs_w c).
Definition radial (o : option gradient_type) : bool := match o with Some GtRadial => true | _ => false end.
Definition gradient_agree (g h : base_gradient) : Prop :=
  multi_agree (gc_k (bg_g g)) (gc_k (bg_g h)) /\ gc_p (bg_g g) = gc_p (bg_g h) /\
  multi_agree (bg_s g) (bg_s h) /\ multi_agree (bg_e g) (bg_e h) /\ radial (bg_t g) = radial (bg_t h).
(** Inner radius and roundness count for stars only. *)
Definition inner_agree (sy : star_type) (o p : option float_value) : Prop :=
  sy = StStar -> prop_agree (or_else o (static_value f0)) (or_else p (static_value f0)).
(** Shapes velato does not support. *)
Definition ignored (x : any_shape) : Prop :=
  match x with
  | AsPuckerBloat _ _ | AsMerge _ _ | AsRepeater _ _ _ _ _ | AsOffsetPath _ _ _ _ | AsTwist _ _ _
  | AsRoundedCorners _ _ => True
  | _ => False
  end.
Section Scale.
  Variable scale0 : list f64.
  Inductive shape_agree : any_shape -> any_shape -> Prop :=
  | ag_group ge np it cix ge' np' it' cix' : items_agree it it' ->
      shape_agree (AsGroup ge np it cix) (AsGroup ge' np' it' cix')
  | ag_rect sh p s r sh' p' s' r' : pos_agree p p' -> multi_agree s s' -> prop_agree r r' ->
      shape_agree (AsRectangle sh p s r) (AsRectangle sh' p' s' r')
  | ag_ellipse sh p s sh' p' s' : pos_agree p p' -> multi_agree s s' ->
      shape_agree (AsEllipse sh p s) (AsEllipse sh' p' s')
  | ag_transform t t' : group_tf_agree scale0 (trs_t t) (trs_t t') ->
      shape_agree (AsTransform t) (AsTransform t')
  | ag_stroke st bs c st' bs' c' : prop_agree (sst_o st) (sst_o st') -> stroke_agree bs bs' ->
      prop_agree c c' -> shape_agree (AsStroke st bs c) (AsStroke st' bs' c')
  | ag_fill st c r st' c' r' : prop_agree (sst_o st) (sst_o st') -> prop_agree c c' ->
      shape_agree (AsFill st c r) (AsFill st' c' r')
  | ag_trim m s e o mm m' s' e' o' mm' : prop_agree s s' -> prop_agree e e' -> prop_agree o o' ->
      shape_agree (AsTrim m s e o mm) (AsTrim m' s' e' o' mm')
  | ag_path sh ks sh' ks' : path_agree ks ks' -> shape_agree (AsPath sh ks) (AsPath sh' ks')
  | ag_gfill st g r st' g' r' : gradient_agree g g' ->
      shape_agree (AsGradientFill st g r) (AsGradientFill st' g' r')
  | ag_gstroke st bs g st' bs' g' : stroke_agree bs bs' -> gradient_agree g g' ->
      shape_agree (AsGradientStroke st bs g) (AsGradientStroke st' bs' g')
  | ag_star sh p or os r pt sy ir is sh' p' or' os' r' pt' ir' is' :
      pos_agree p p' -> prop_agree or or' -> prop_agree os os' -> prop_agree r r' -> prop_agree pt pt' ->
      inner_agree sy ir ir' -> inner_agree sy is is' ->
      shape_agree (AsPolyStar sh p or os r pt sy ir is) (AsPolyStar sh' p' or' os' r' pt' sy ir' is')
  | ag_ignored x y : ignored x -> ignored y -> shape_agree x y
  with items_agree : list any_shape -> list any_shape -> Prop :=
  | ags_nil : items_agree [] []
  | ags_cons x y l m : shape_agree x y -> items_agree l m -> items_agree (x :: l) (y :: m)
  (** unsupported shapes may be absent *)
  | ags_left x l m : ignored x -> items_agree l m -> items_agree (x :: l) m
  | ags_right y l m : ignored y -> items_agree l m -> items_agree l (y :: m).

  (** ** Layers *)
  Definition mask_agree (m n : s_mask) : Prop :=
    both path_agree (mas_pt m) (mas_pt n) /\
    prop_agree (or_else (mas_o m) (static_value f100)) (or_else (mas_o n) (static_value f100)).
  Definition layer_base_agree (l m : s_layer) : Prop :=
    or_else (vo_nm (sl_vo l)) EmptyString = or_else (vo_nm (sl_vo m)) EmptyString /\
    (sl_hd l = Some true <-> sl_hd m = Some true) /\
    or_else (sl_ind l) 0 = or_else (sl_ind m) 0 /\ sl_parent l = sl_parent m /\
    or_else (sl_sr l) f1 = or_else (sl_sr m) f1 /\ sl_ip l = sl_ip m /\ sl_op l = sl_op m.
  Definition visual_agree (v w : visual_layer) : Prop :=
    layer_base_agree (vl_layer v) (vl_layer w) /\
    vl_tt v = vl_tt w /\ (vl_td v = Some BITrue <-> vl_td w = Some BITrue) /\ vl_tp v = vl_tp w /\
    Forall2 mask_agree (or_else (vl_masks v) []) (or_else (vl_masks w) []) /\
    layer_tf_agree scale0 (vl_ks v) (vl_ks w) /\
    or_else (vl_bm v) SbNormal = or_else (vl_bm w) SbNormal.
  Definition start_agree (v w : visual_layer) : Prop :=
    or_else (sl_st (vl_layer v)) f0 = or_else (sl_st (vl_layer w)) f0.
  (** Null, solid and image layers draw nothing, so they all agree. *)
  Definition blank_layer (l : any_layer) : Prop :=
    match l with AlNull _ | AlSolid _ _ _ _ | AlImage _ _ => True | _ => False end.
  Inductive any_layer_agree : any_layer -> any_layer -> Prop :=
  | al_precomp v r w h st tm v' tm' : visual_agree v v' -> both prop_agree tm tm' ->
      any_layer_agree (AlPrecomp v r w h st tm) (AlPrecomp v' r w h st tm')
  | al_shape v s v' s' : visual_agree v v' -> start_agree v v' -> items_agree s s' ->
      any_layer_agree (AlShape v s) (AlShape v' s')
  | al_blank l m : blank_layer l -> blank_layer m -> visual_agree (visual_of l) (visual_of m) ->
      start_agree (visual_of l) (visual_of m) -> any_layer_agree l m.
  Inductive any_asset_agree : any_asset -> any_asset -> Prop :=
  | aa_precomp a l fr xt a' l' fr' xt' : ass_id a = ass_id a' -> Forall2 any_layer_agree l l' ->
      any_asset_agree (AaPrecomp a l fr xt) (AaPrecomp a' l' fr' xt')
  | aa_image f s w h t f' s' w' h' t' : any_asset_agree (AaImage f s w h t) (AaImage f' s' w' h' t').
  Definition document_agree (a b : animation) : Prop :=
    ani_fr a = ani_fr b /\ ani_ip a = ani_ip b /\ ani_op a = ani_op b /\ ani_w a = ani_w b /\ ani_h a = ani_h b /\
    Forall2 any_asset_agree (assets_of a) (assets_of b) /\
    Forall2 any_layer_agree (ani_layers a) (ani_layers b).
End Scale.
