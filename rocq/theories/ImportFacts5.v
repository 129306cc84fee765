(** Facts about the importer, part 5: documents that agree import alike. *)
From Coq Require Import ZArith Bool List Arith String Lia.
From Verif Require Import F64 Kurbo Value Animated Render Schema Import ImportSpec ImportFacts ImportFacts2
  ImportFacts3 ImportFacts4 DocAgree.
Import ListNotations.
Open Scope list_scope.
Open Scope nat_scope.

Definition scale1 : list f64 := [f1; f1; f1].

Lemma conv_scalar_kf_agree k l : kf_agree k l -> conv_scalar_kf k = conv_scalar_kf l.
Proof. intros [A B]. unfold conv_scalar_kf. now rewrite A, B. Qed.
Lemma conv_scalar_agree v w : prop_agree v w -> conv_scalar v = conv_scalar w.
Proof.
  unfold prop_agree, conv_scalar. destruct (ap_k v) as [l|a], (ap_k w) as [m|b]; try tauto.
  - intros F. replace (mapM conv_scalar_kf m) with (mapM conv_scalar_kf l); [reflexivity|].
    induction F as [|k k' l m K F IH]; [reflexivity|]. cbn [mapM]. now rewrite (conv_scalar_kf_agree _ _ K), IH.
  - now intros ->.
Qed.
Lemma conv_keyframes_agree {T} (f : list f64 -> T) l m : Forall2 kf_agree l m ->
  conv_keyframes f l = conv_keyframes f m.
Proof.
  intros F. unfold conv_keyframes. replace (flat_map (conv_keyframe f) m) with (flat_map (conv_keyframe f) l); [reflexivity|].
  induction F as [|k k' l m [A B] F IH]; [reflexivity|]. cbn [flat_map]. rewrite IH. f_equal.
  unfold conv_keyframe. now rewrite A, B.
Qed.
Lemma conv_multi_agree {T} (f : list f64 -> T) v w : multi_agree v w -> conv_multi v f = conv_multi w f.
Proof.
  unfold multi_agree, prop_agree, conv_multi. destruct (ap_k (md_p v)), (ap_k (md_p w)); try tauto.
  - apply conv_keyframes_agree.
  - now intros ->.
Qed.
Lemma conv_multi_color_agree {T} (f : list f64 -> T) v w : prop_agree v w -> conv_multi_color v f = conv_multi_color w f.
Proof.
  unfold prop_agree, conv_multi_color. destruct (ap_k v), (ap_k w); try tauto.
  - apply conv_keyframes_agree.
  - now intros ->.
Qed.
Lemma conv_pos_agree {T} (f : list f64 -> T) v w : pos_agree v w -> conv_pos v f = conv_pos w f.
Proof.
  unfold pos_agree, conv_pos. destruct (po_k v) as [l|], (po_k w) as [m|]; try tauto.
  - intros F. apply conv_keyframes_agree. induction F; cbn [map]; constructor; auto.
  - now intros ->.
Qed.
Lemma conv_path_agree v w : path_agree v w -> conv_shape_geometry v = conv_shape_geometry w.
Proof. unfold path_agree, conv_shape_geometry. now intros ->. Qed.

(** importer default vs. specification default *)
Lemma scalar_default o d : conv_scalar (unwrap_or o (static_prop d)) = conv_scalar (or_else o (static_value d)).
Proof. now destruct o. Qed.
Lemma scalar_default_agree o p d : prop_agree (or_else o (static_value d)) (or_else p (static_value d)) ->
  conv_scalar (unwrap_or o (static_prop d)) = conv_scalar (unwrap_or p (static_prop d)).
Proof. intros A. rewrite !scalar_default. now apply conv_scalar_agree. Qed.
Lemma pos_default_agree o p : pos_agree (or_else o origin) (or_else p origin) ->
  conv_pos_point (unwrap_or o position_zero) = conv_pos_point (unwrap_or p position_zero).
Proof.
  intros A. unfold conv_pos_point.
  assert (D : forall o, conv_pos (unwrap_or o position_zero) to_point = conv_pos (or_else o origin) to_point) by (now intros []).
  rewrite !D. now apply conv_pos_agree.
Qed.
Lemma scale_default_agree o p :
  multi_agree (or_else o (mkMultiDim (static_value scale1) None)) (or_else p (mkMultiDim (static_value scale1) None)) ->
  conv_vec2 (unwrap_or o multidim_one) = conv_vec2 (unwrap_or p multidim_one).
Proof.
  intros A. unfold conv_vec2.
  assert (D : forall o, conv_multi (unwrap_or o multidim_one) to_vec2 =
                        conv_multi (or_else o (mkMultiDim (static_value scale1) None)) to_vec2) by (now intros []).
  rewrite !D. now apply conv_multi_agree.
Qed.
Lemma conv_transform_agree E t u : layer_tf_agree scale1 t u -> conv_transform E t = conv_transform E u.
Proof.
  intros (R & A & P & S1 & K & L & O). unfold conv_transform.
  rewrite (pos_default_agree _ _ A), (scale_default_agree _ _ S1).
  unfold float_value_zero, float_value_one_hundred, float_value in *.
  rewrite (scalar_default_agree _ _ _ K), (scalar_default_agree _ _ _ L), (scalar_default_agree _ _ _ O).
  assert (Eq : match tf_p t with
                   | ApPosition p => Ok (PosValue (conv_pos_point p))
                   | ApSplit s => let! x := conv_scalar (spv_x s) in
                                  let! y := conv_scalar (spv_y s) in
                                  Ok (PosSplit x y)
                   end =
               match tf_p u with
                   | ApPosition p => Ok (PosValue (conv_pos_point p))
                   | ApSplit s => let! x := conv_scalar (spv_x s) in
                                  let! y := conv_scalar (spv_y s) in
                                  Ok (PosSplit x y)
                   end).
  { unfold any_p_agree in P. destruct (tf_p t), (tf_p u); try tauto.
    - unfold conv_pos_point. now rewrite (conv_pos_agree _ _ _ P).
    - destruct P as [P1 P2]. now rewrite (conv_scalar_agree _ _ P1), (conv_scalar_agree _ _ P2). }
  rewrite Eq. unfold both, any_r_agree in R.
  destruct (tf_r t) as [[r|]|], (tf_r u) as [[r'|]|]; try tauto; cbn [bind].
  destruct (match tf_p u with ApPosition _ => _ | ApSplit _ => _ end); cbn [bind]; auto.
  now rewrite (conv_scalar_agree _ _ R).
Qed.
Lemma conv_shape_transform_agree E t u : group_tf_agree scale1 (trs_t t) (trs_t u) ->
  conv_shape_transform E t = conv_shape_transform E u.
Proof.
  intros (R & A & P & S1 & K & L & O). unfold conv_shape_transform.
  rewrite (pos_default_agree _ _ A), (scale_default_agree _ _ S1).
  unfold float_value_zero, float_value_one_hundred, float_value in *.
  rewrite (scalar_default_agree _ _ _ K), (scalar_default_agree _ _ _ L), (scalar_default_agree _ _ _ O).
  unfold any_p_agree in P. unfold any_r_agree in R.
  assert (Rot : forall r s, prop_agree r s -> conv_scalar r = conv_scalar s) by (intros; now apply conv_scalar_agree).
  destruct (tf_r (trs_t t)) as [[r|]|], (tf_r (trs_t u)) as [[r'|]|]; cbn [or_else] in R; try tauto; cbn [bind]; auto;
    destruct (tf_p (trs_t t)), (tf_p (trs_t u)); try tauto; cbn [bind]; auto; unfold conv_pos_point;
    rewrite (conv_pos_agree _ _ _ P); try rewrite (Rot _ _ R); try reflexivity.
  - change (conv_scalar (static_prop f0)) with (conv_scalar (static_value f0)). now rewrite (Rot _ _ R).
Qed.
Lemma conv_gradient_agree E g h : gradient_agree g h -> conv_gradient E g = conv_gradient E h.
Proof.
  intros (A & B & C & D & F). unfold conv_gradient, conv_gradient_colors, conv_multi_point.
  rewrite (conv_multi_agree _ _ _ C), (conv_multi_agree _ _ _ D), B.
  change (is_radial (bg_t g)) with (radial (bg_t g)). rewrite F.
  unfold multi_agree, prop_agree in A.
  destruct (ap_k (md_p (gc_k (bg_g g)))) as [l|a], (ap_k (md_p (gc_k (bg_g h)))) as [m|b]; try tauto.
  - assert (Q1 : mapM (fun k => conv_time (kf_b k)) l = mapM (fun k => conv_time (kf_b k)) m).
    { clear - A. induction A as [|k k' l m [X Y] F IH]; [reflexivity|]. cbn [mapM]. now rewrite X, IH. }
    rewrite Q1.
    assert (Q2 : map (fun k => flat_map stop5_list (conv_stops E (kf_value k) (gc_p (bg_g h)))) l =
                 map (fun k => flat_map stop5_list (conv_stops E (kf_value k) (gc_p (bg_g h)))) m).
    { clear - A. induction A as [|k k' l m [X Y] F IH]; [reflexivity|]. cbn [map]. now rewrite Y, IH. }
    now rewrite Q2.
  - now rewrite A.
Qed.
Lemma stroke_agree_w b c : stroke_agree b c -> conv_scalar (bs_w b) = conv_scalar (bs_w c).
Proof. intros (_ & _ & _ & A). now apply conv_scalar_agree. Qed.
Lemma conv_ignored E x : ignored x -> conv_shape E x = Ok None.
Proof. destruct x; cbn [ignored]; tauto. Qed.

Scheme shape_agree_ind2 := Induction for shape_agree Sort Prop
  with items_agree_ind2 := Induction for items_agree Sort Prop.

Lemma conv_items_ignored E x l shapes gt : ignored x -> conv_items E (x :: l) shapes gt = conv_items E l shapes gt.
Proof.
  intros I. rewrite conv_items_cons by (intros t ->; exact I). rewrite (conv_ignored E x I). reflexivity.
Qed.
Lemma agree_transform x y : shape_agree scale1 x y ->
  (forall t, x <> AsTransform t) -> forall t, y <> AsTransform t.
Proof. intros A N t ->. inversion A; subst; try discriminate; [eapply N; reflexivity|]. contradiction. Qed.
Lemma conv_shape_agree E : forall x y, shape_agree scale1 x y -> conv_shape E x = conv_shape E y.
Proof.
  apply (shape_agree_ind2 scale1 (fun x y _ => conv_shape E x = conv_shape E y)
           (fun l m _ => forall shapes gt, conv_items E l shapes gt = conv_items E m shapes gt)).
  - intros. rewrite !conv_group. now rewrite H.
  - intros. cbn [conv_shape conv_draw conv_geometry bind]. unfold conv_pos_point, conv_size.
    now rewrite (conv_pos_agree _ _ _ p0), (conv_multi_agree _ _ _ m), (conv_scalar_agree _ _ p1).
  - intros. cbn [conv_shape conv_draw conv_geometry bind]. unfold conv_pos_point, conv_size.
    now rewrite (conv_pos_agree _ _ _ p0), (conv_multi_agree _ _ _ m).
  - reflexivity.
  - intros st bs c st' bs' c' O B C. cbn [conv_shape conv_draw]. rewrite (stroke_agree_w _ _ B), (conv_scalar_agree _ _ O).
    unfold conv_color. rewrite (conv_multi_color_agree _ _ _ C). destruct B as (-> & -> & -> & _). reflexivity.
  - intros st c r st' c' r' O C. cbn [conv_shape conv_draw]. rewrite (conv_scalar_agree _ _ O).
    unfold conv_color. now rewrite (conv_multi_color_agree _ _ _ C).
  - intros m s e o mm m' s' e' o' mm' A B C. cbn [conv_shape conv_draw conv_geometry bind].
    now rewrite (conv_scalar_agree _ _ A), (conv_scalar_agree _ _ B), (conv_scalar_agree _ _ C).
  - intros. cbn [conv_shape conv_draw conv_geometry bind]. now rewrite (conv_path_agree _ _ p).
  - intros st g r st' g' r' G. cbn [conv_shape conv_draw]. now rewrite (conv_gradient_agree E _ _ G).
  - intros st bs g st' bs' g' B G. cbn [conv_shape conv_draw]. rewrite (stroke_agree_w _ _ B), (conv_gradient_agree E _ _ G).
    destruct B as (-> & -> & -> & _). reflexivity.
  - intros sh p or os r pt sy ir is sh' p' or' os' r' pt' ir' is' P1 P2 P3 P4 P5 I1 I2.
    cbn [conv_shape conv_draw conv_geometry bind]. unfold conv_polystar_geometry, conv_pos_point.
    rewrite (conv_pos_agree _ _ _ P1), (conv_scalar_agree _ _ P2), (conv_scalar_agree _ _ P3),
      (conv_scalar_agree _ _ P4), (conv_scalar_agree _ _ P5).
    assert (D : forall o, conv_scalar_or0 o = conv_scalar (or_else o (static_value f0))) by (now intros []).
    rewrite !D. destruct sy; [|reflexivity].
    now rewrite (conv_scalar_agree _ _ (I1 eq_refl)), (conv_scalar_agree _ _ (I2 eq_refl)).
  - intros x y I J. now rewrite !conv_ignored.
  - reflexivity.
  - intros x y l m A IHx B IHl shapes gt. destruct (item_dec x) as [(t & ->)|N].
    + inversion A; subst.
      * cbn [conv_items]. rewrite (conv_shape_transform_agree E _ _ H0).
        destruct (conv_shape_transform E t'); cbn [bind]; auto.
      * contradiction.
    + rewrite (conv_items_cons E x) by exact N.
      rewrite (conv_items_cons E y) by (eapply agree_transform; eauto). rewrite IHx.
      destruct (conv_shape E y); cbn [bind]; auto.
  - intros x l m I A IH shapes gt. now rewrite conv_items_ignored.
  - intros y l m I A IH shapes gt. now rewrite conv_items_ignored.
Qed.
Lemma conv_shapes_ignored E x l : ignored x -> conv_shapes E (x :: l) = conv_shapes E l.
Proof. intros I. cbn [conv_shapes]. rewrite (conv_ignored E x I). cbn [bind]. now destruct (conv_shapes E l). Qed.
Lemma conv_shapes_agree E l m : items_agree scale1 l m -> conv_shapes E l = conv_shapes E m.
Proof.
  induction 1 as [|x y l m A B IH|x l m I A IH|y l m I A IH].
  - reflexivity.
  - cbn [conv_shapes]. now rewrite (conv_shape_agree E _ _ A), IH.
  - now rewrite conv_shapes_ignored.
  - now rewrite conv_shapes_ignored.
Qed.
Lemma conv_masks_agree l m : Forall2 mask_agree l m -> conv_masks l = conv_masks m.
Proof.
  induction 1 as [|x y l m [A B] F IH]; [reflexivity|]. cbn [conv_masks]. rewrite IH.
  unfold float_value_one_hundred, float_value in *. rewrite (scalar_default_agree _ _ _ B).
  unfold both in A. destruct (mas_pt x), (mas_pt y); try tauto. now rewrite (conv_path_agree _ _ A).
Qed.
Lemma some_true (o p : option bool) : (o = Some true <-> p = Some true) ->
  match o with Some true => true | _ => false end = match p with Some true => true | _ => false end.
Proof. destruct o as [[]|], p as [[]|]; intros [A B]; auto; try (now discriminate A); try (now discriminate B). Qed.
Lemma some_bitrue (o p : option bool_int) : (o = Some BITrue <-> p = Some BITrue) ->
  match o with Some BITrue => true | _ => false end = match p with Some BITrue => true | _ => false end.
Proof. destruct o as [[]|], p as [[]|]; intros [A B]; auto; try (now discriminate A); try (now discriminate B). Qed.
Lemma setup_agree E v u w h s : visual_agree scale1 v u -> setup_layer E v w h s = setup_layer E u w h s.
Proof.
  intros ((N & Hd & Ix & Pa & Sr & Ip & Op) & Tt & Td & Tp & Ms & Tf & Bm). unfold setup_layer.
  rewrite (conv_transform_agree E _ _ Tf). change (@unwrap_or) with (@or_else).
  rewrite Bm, (conv_masks_agree _ _ Ms).
  rewrite N, Ix, Pa, Sr, Ip, Op, Tt, Tp, (some_bitrue _ _ Td). reflexivity.
Qed.
Lemma hidden_agree l m : visual_agree scale1 (visual_of l) (visual_of m) -> is_layer_hidden l = is_layer_hidden m.
Proof. intros ((_ & Hd & _) & _). unfold is_layer_hidden. now apply some_true. Qed.
Lemma conv_layer_agree E l m : any_layer_agree scale1 l m -> conv_layer E l = conv_layer E m.
Proof.
  intros A. unfold conv_layer.
  assert (V : visual_agree scale1 (visual_of l) (visual_of m)) by (destruct A; auto).
  rewrite (hidden_agree _ _ V). set (hid := is_layer_hidden m). clearbody hid.
  destruct A as [v r w h st tm v' tm' A T|v s v' s' A T I|l m B C A T].
  - unfold setup_precomp_layer. rewrite (setup_agree E _ _ _ _ _ A).
    replace (mapO conv_scalar tm') with (mapO conv_scalar tm); [reflexivity|].
    unfold both in T. destruct tm, tm'; try tauto. cbn. now rewrite (conv_scalar_agree _ _ T).
  - unfold setup_shape_layer. rewrite (setup_agree E _ _ _ _ _ A). change (@unwrap_or) with (@or_else).
    unfold start_agree in T. now rewrite T, (conv_shapes_agree E _ _ I).
  - assert (Q : setup_layer_base E (visual_of l) = setup_layer_base E (visual_of m)).
    { unfold setup_layer_base. rewrite (setup_agree E _ _ _ _ _ A). change (@unwrap_or) with (@or_else). unfold start_agree in T. now rewrite T. }
    destruct l, m; cbn [blank_layer] in B, C; try contradiction; cbn [visual_of] in Q; now rewrite Q.
Qed.
Lemma process_agree E l m : Forall2 (any_layer_agree scale1) l m -> process_layers E l = process_layers E m.
Proof.
  intros F. unfold process_layers. replace (mapM (conv_layer E) m) with (mapM (conv_layer E) l); [reflexivity|].
  induction F as [|x y l m A F IH]; [reflexivity|]. cbn [mapM]. now rewrite (conv_layer_agree E _ _ A), IH.
Qed.
Lemma conv_assets_agree E : forall l l', Forall2 (any_asset_agree scale1) l l' -> forall m, conv_assets E l m = conv_assets E l' m.
Proof.
  induction 1 as [|x y l l' A F IH]; intros m; [reflexivity|]. destruct A as [a la fr xt a' la' fr' xt' I A|].
  - cbn [conv_assets]. rewrite (process_agree E _ _ A), I. destruct (process_layers E la'); cbn [bind]; auto.
  - reflexivity.
Qed.
Lemma conv_animation_agree E a b : document_agree scale1 a b -> conv_animation E a = conv_animation E b.
Proof.
  intros (A & B & C & D & F & G & H). unfold conv_animation. rewrite !unwrap_assets.
  now rewrite A, B, C, D, F, (conv_assets_agree E _ _ G), (process_agree E _ _ H).
Qed.

(** ** Agreement is reflexive *)
Lemma kf_agree_refl k : kf_agree k k. Proof. split; reflexivity. Qed.
Lemma Forall2_refl {A} (R : A -> A -> Prop) : (forall x, R x x) -> forall l, Forall2 R l l.
Proof. intros H l. induction l; constructor; auto. Qed.
Lemma prop_agree_refl {T} (v : anim_prop T) : prop_agree v v.
Proof. unfold prop_agree. destruct (ap_k v); auto using Forall2_refl, kf_agree_refl. Qed.
Lemma pos_agree_refl v : pos_agree v v.
Proof. unfold pos_agree. destruct (po_k v); [|reflexivity]. apply Forall2_refl. intros. apply kf_agree_refl. Qed.
Lemma multi_agree_refl v : multi_agree v v. Proof. apply prop_agree_refl. Qed.
Lemma path_agree_refl v : path_agree v v. Proof. reflexivity. Qed.
Lemma both_refl {A} (R : A -> A -> Prop) : (forall x, R x x) -> forall o, both R o o.
Proof. intros H [x|]; cbn; auto. Qed.
Lemma any_p_agree_refl p : any_p_agree p p.
Proof. destruct p; cbn; auto using pos_agree_refl, prop_agree_refl. Qed.
Lemma any_r_agree_refl r : any_r_agree r r. Proof. destruct r; cbn; auto using prop_agree_refl. Qed.
Lemma parts_agree_refl s t : parts_agree s t t.
Proof. unfold parts_agree. auto 10 using pos_agree_refl, prop_agree_refl, multi_agree_refl, any_p_agree_refl. Qed.
Lemma layer_tf_agree_refl s t : layer_tf_agree s t t.
Proof. split; [|apply parts_agree_refl]. apply both_refl, any_r_agree_refl. Qed.
Lemma group_tf_agree_refl s t : group_tf_agree s t t.
Proof. split; [apply any_r_agree_refl|apply parts_agree_refl]. Qed.
Lemma stroke_agree_refl b : stroke_agree b b. Proof. repeat split. apply prop_agree_refl. Qed.
Lemma gradient_agree_refl g : gradient_agree g g. Proof. unfold gradient_agree. auto using multi_agree_refl. Qed.
Lemma shape_agree_refl s : forall x, shape_agree s x x.
Proof.
  apply any_shape_ind2.
  - intros ge np it cix F. apply ag_group. induction F; [apply ags_nil|apply ags_cons; auto].
  - intros x N. destruct x; try (now apply ag_ignored);
      try (constructor; auto using pos_agree_refl, prop_agree_refl, multi_agree_refl, any_p_agree_refl, path_agree_refl,
           stroke_agree_refl, gradient_agree_refl, group_tf_agree_refl; fail).
    + now destruct (N ge np it cix).
    + apply ag_star; auto using pos_agree_refl, prop_agree_refl; intros _; apply prop_agree_refl.
Qed.
Lemma items_agree_refl s l : items_agree s l l.
Proof. induction l; [apply ags_nil|apply ags_cons; auto using shape_agree_refl]. Qed.
Lemma mask_agree_refl m : mask_agree m m.
Proof. split; [apply both_refl, path_agree_refl|apply prop_agree_refl]. Qed.
Lemma visual_agree_refl s v : visual_agree s v v.
Proof.
  unfold visual_agree, layer_base_agree. repeat match goal with |- _ /\ _ => split end; try reflexivity.
  - apply Forall2_refl, mask_agree_refl.
  - apply layer_tf_agree_refl.
Qed.
Lemma layer_agree_refl s l : any_layer_agree s l l.
Proof.
  destruct l.
  - apply al_precomp; [apply visual_agree_refl|apply both_refl, prop_agree_refl].
  - apply al_blank; try exact I; [apply visual_agree_refl|reflexivity].
  - apply al_shape; [apply visual_agree_refl|reflexivity|apply items_agree_refl].
  - apply al_blank; try exact I; [apply visual_agree_refl|reflexivity].
  - apply al_blank; try exact I; [apply visual_agree_refl|reflexivity].
Qed.
Lemma document_agree_refl s a : document_agree s a a.
Proof.
  unfold document_agree. do 5 (split; [reflexivity|]). split; apply Forall2_refl; [|apply layer_agree_refl].
  intros []; constructor; auto. apply Forall2_refl, layer_agree_refl.
Qed.
