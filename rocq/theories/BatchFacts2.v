(** Consequences of the batch invariant and of the refinement. *)
From Coq Require Import ZArith Bool List Arith String Lia.
From Flocq Require Import Core BinarySingleNaN.
From Verif Require Import F64 Kurbo Value Animated Batch Render RenderSpec RenderFacts RenderFacts2
  BatchSpec BatchFacts BatchRefine.
Import ListNotations.

(** ** No panics in whole renders *)
Definition np (m : M unit) : Prop := good m /\ r_out (m renderer_new) <> Panic.
Lemma np_bind m1 m2 : np m1 -> np m2 -> np (m1 ;; m2).
Proof.
  intros [G1 N1] [G2 N2]. split; [now apply good_bind|]. unfold mbind.
  destruct (r_out (m1 renderer_new)) as [[]| |] eqn:E; simpl; try congruence.
  rewrite (good_st m1 G1 E). exact N2.
Qed.
Lemma np_ret : np (ret tt). Proof. split; [apply good_ret|discriminate]. Qed.
Lemma np_emit e : np (emit e). Proof. split; [apply good_emit|discriminate]. Qed.
Lemma np_emits e : np (emits e). Proof. split; [apply good_emits|discriminate]. Qed.
Lemma np_forM {A} (l : list A) f : (forall x, In x l -> np (f x)) -> np (forM l f).
Proof. induction l as [|x l IH]; intros H; simpl; [apply np_ret|]. apply np_bind; auto with datatypes. Qed.
Lemma np_render_layer E fuel c : sound_comp E c -> forall set ly idx tf alpha frame,
  Forall (sound_layer E) set -> sound_layer E ly ->
  np (render_layer E fuel c set ly idx tf alpha frame).
Proof.
  intros Hc. induction fuel as [|fuel IH]; intros set ly idx tf alpha frame Hset [Hm Hs]; simpl.
  { split; [apply good_oof|discriminate]. }
  destruct (negb (in_window ly frame)); [apply np_ret|].
  apply np_bind; [apply np_emit|].
  apply np_bind.
  { destruct (ly_mask_layer ly) as [[mode mi]|]; [|apply np_ret].
    apply np_bind; [apply np_emit|]. apply np_bind; [|apply np_emit].
    destruct (nth_error set mi) eqn:En; [|apply np_ret]. apply IH; auto.
    rewrite Forall_forall in Hset. apply Hset. eapply nth_error_In; eauto. }
  apply np_bind.
  { apply np_forM. intros m Hin. split; [apply good_mask_clip|]. unfold render_mask.
    rewrite Forall_forall in Hm. specialize (Hm m Hin frame).
    destruct (geometry_eval E (mk_geometry m) frame); simpl; congruence. }
  apply np_bind; [|apply np_bind; [apply np_emits|apply np_emit]].
  destruct (ly_content ly) as [|name remap|shs]; [apply np_ret| |].
  - destruct (find_asset c name) as [ls|] eqn:Ef; [|apply np_ret].
    assert (Hls : Forall (sound_layer E) ls).
    { unfold find_asset in Ef. destruct (find _ (co_assets c)) as [[k l']|] eqn:E2; [|discriminate].
      injection Ef as ->. apply find_some in E2 as [Hin _]. destruct Hc as [_ Ha].
      rewrite Forall_forall in Ha. apply (Ha _ Hin). }
    apply np_forM. intros al Hin. destruct (ly_is_mask al); [apply np_ret|]. apply IH; auto.
    rewrite Forall_forall in Hls. apply Hls. now apply in_rev.
  - split; [apply good_content|]. unfold render_content_shapes.
    match goal with |- context [render_shapes E shs ?t ?a frame _] =>
      destruct (render_shapes_inv E shs t a frame Hs) as (b & H1 & I1) end.
    cbn [rn_batch renderer_new]. rewrite H1. rewrite (batch_render_eq E 0 0 b I1). discriminate.
Qed.
Lemma append_no_panic E fuel c frame tf alpha :
  sound_comp E c -> r_out (append E fuel c frame tf alpha renderer_new) <> Panic.
Proof.
  intros Hc.
  assert (N : np (append_m E fuel c frame tf alpha)).
  { apply np_bind; [apply np_emit|]. apply np_bind; [|apply np_emit].
    apply np_forM. intros [i ly] Hin. destruct (ly_is_mask ly); [apply np_ret|].
    destruct Hc as [H1 H2]. apply np_render_layer; auto; [now split|].
    rewrite Forall_forall in H1. apply H1. apply in_rev in Hin. unfold enumerate in Hin.
    eapply in_combine_r; eauto. }
  apply N.
Qed.

(** ** Which geometry is sound *)
Lemma to_path_ok get len closed :
  (forall i, i < len -> exists p, get i = Ok p) ->
  exists els, to_path get len closed = Ok els /\ bezpath_ok els = true.
Proof.
  intros H. unfold to_path. destruct (Nat.eqb_spec len 0) as [|Hl]; [exists []; auto|].
  destruct (H 0) as (p & ->); [lia|]. cbn [bind].
  assert (A : forall i j, i < len / 3 -> j < len / 3 -> exists e, add_element get i j = Ok e).
  { intros i j Hi Hj. unfold add_element.
    assert (3 * (len / 3) <= len) by (apply Nat.mul_div_le; lia).
    destruct (H (3 * i)) as (p0 & ->); [lia|]. destruct (H (3 * j)) as (p1 & ->); [lia|].
    destruct (H (3 * i + 2)) as (c0 & ->); [lia|]. destruct (H (3 * j + 1)) as (c1 & ->); [lia|].
    cbn [bind]. eauto. }
  destruct (mapM_forall _ _ (fun i => add_element get (i - 1) i) (fun _ => True) (seq 1 (len / 3 - 1)))
    as (body & -> & _).
  { intros i Hi. apply in_seq in Hi. destruct (A (i - 1) i) as (e & ->); [lia|lia|eauto]. }
  cbn [bind]. destruct (closed && negb (len / 3 =? 0)) eqn:Ec.
  - apply andb_prop in Ec as [_ Ec]. apply negb_true_iff, Nat.eqb_neq in Ec.
    destruct (A (len / 3 - 1) 0) as (e & ->); [lia|lia|]. cbn [bind]. eexists. split; reflexivity.
  - cbn [bind]. eexists. split; reflexivity.
Qed.
Lemma index_ok A (l : list A) i : i < List.length l -> exists x, index l i = Ok x.
Proof.
  intros H. unfold index. destruct (nth_error l i) eqn:E; [eexists; reflexivity|].
  apply nth_error_None in E. lia.
Qed.
Lemma spline_lerp_ok a b t closed :
  exists els, spline_lerp_to_path a b t closed = Ok els /\ bezpath_ok els = true.
Proof.
  apply to_path_ok. intros i Hi. destruct (index_ok _ a i) as (p & ->); [lia|].
  destruct (index_ok _ b i) as (q & ->); [lia|]. cbn [bind]. eauto.
Qed.
Lemma spline_sound E s : sound_geometry E (GSpline s).
Proof.
  intros frame. simpl. unfold a_spline_eval.
  destruct (frames_and_weight _ _) as [[[[[ix0 ix1] t] e] hold]|]; [|exists []; auto].
  destruct (nth_error _ ix0); [|exists []; auto]. destruct (nth_error _ ix1); [|exists []; auto].
  apply spline_lerp_ok.
Qed.

(** ** Styles: order and opacity of the draws, for every tree *)
Definition styled (E : Ext) (sh : shape) : Prop :=
  forall tf alpha frame gs ds b b', binv gs ds b ->
  render_shape E tf alpha frame gs ds sh b = Ok b' ->
  map style_dd (skipn ds (b_draws b')) = shape_styles E alpha frame sh (map style_dd (skipn ds (b_draws b))).
Lemma styled_list E shs :
  Forall (all_geometry (sound_geometry E)) shs -> Forall (styled E) shs ->
  forall tf alpha frame gs ds b b', binv gs ds b ->
  fold_shapes (render_shape E tf alpha frame gs ds) shs b = Ok b' ->
  map style_dd (skipn ds (b_draws b')) =
  fold_left (fun acc s => shape_styles E alpha frame s acc) shs (map style_dd (skipn ds (b_draws b))).
Proof.
  intros Hg Hs. induction Hs as [|sh shs H _ IH]; intros tf alpha frame gs ds b b' I Hr; simpl in *.
  - now injection Hr as <-.
  - inversion Hg; subst.
    destruct (render_shape_inv E sh H2 tf alpha frame gs ds b I) as (b1 & E1 & I1 & _).
    rewrite E1 in Hr. cbn [bind] in Hr. rewrite (IH H3 _ _ _ _ _ _ _ I1 Hr).
    now rewrite (H _ _ _ _ _ _ _ I E1).
Qed.
Lemma render_styled E sh : all_geometry (sound_geometry E) sh -> styled E sh.
Proof.
  induction sh using shape_ind'; intros Hs tf alpha frame gs ds b b' I Hr.
  - pose proof (proj1 (all_geometry_group _ _ _) Hs) as Hs'.
    destruct (render_shape_inv E (ShGroup shs t) Hs tf alpha frame gs ds b I) as (b1 & E1 & I1 & F1).
    rewrite E1 in Hr. injection Hr as ->. simpl in E1.
    replace (snd (group_params E t frame)) with (group_alpha E t frame) in E1 by (destruct t; reflexivity).
    assert (HF : Forall (styled E) shs).
    { rewrite Forall_forall in *. auto. }
    pose proof (styled_list E shs Hs' HF _ _ _ _ _ _ _ (binv_enter _ _ _ I) E1) as S.
    rewrite skipn_all in S. cbn [map] in S. cbn [shape_styles].
    (* draws in front of the group are unchanged *)
    destruct (fold_shapes_inv (render_shape E (affine_mul tf (fst (group_params E t frame)))
        (fmul alpha (group_alpha E t frame)) frame (List.length (b_geoms b)) (List.length (b_draws b)))
        (List.length (b_geoms b)) (List.length (b_draws b)) shs) with (b := b) as (b2 & E2 & I2 & F2).
    { intros s b0 Hin Hb0. rewrite Forall_forall in Hs'. apply render_shape_inv; auto. }
    { eapply binv_enter; eauto. }
    rewrite E1 in E2. injection E2 as <-. rewrite firstn_all in F2.
    rewrite <- S, <- map_app. f_equal.
    rewrite <- (firstn_skipn (List.length (b_draws b)) (b_draws b')) at 1. rewrite F2, skipn_app.
    replace (ds - List.length (b_draws b)) with 0 by (destruct I; lia). reflexivity.
  - destruct (Hs frame) as (els & H1 & H2).
    destruct (push_geometry_inv E gs ds b g tf frame els H1 H2 I) as (b1 & E1 & _ & D1 & _).
    simpl in Hr. rewrite E1 in Hr. injection Hr as ->. simpl. now rewrite D1.
  - simpl in Hr. injection Hr as <-. simpl. rewrite skipn_app.
    replace (ds - List.length (b_draws b)) with 0 by (destruct I; lia). rewrite map_app. reflexivity.
  - simpl in Hr. rewrite (batch_repeat_eq E gs ds b _ I) in Hr. injection Hr as <-. cbn [b_draws].
    rewrite skipn_len_app by (rewrite firstn_length; destruct I; lia).
    cbn [shape_styles]. unfold repeated_draws.
    induction (seq 0 (rp_copies (repeater_eval E r frame))) as [|i l IH]; [reflexivity|].
    cbn [flat_map]. rewrite map_app, IH. f_equal.
    change (copy_alpha (repeater_eval E r frame) i) with (repeat_alpha (repeater_eval E r frame) i).
    destruct (fleb _ _); [reflexivity|]. rewrite !map_map. reflexivity.
  - simpl in Hr. destruct (apply_trim_inv E gs ds b (trim_eval E t frame) I) as (b1 & E1 & _ & D1).
    rewrite E1 in Hr. injection Hr as ->. simpl. now rewrite D1.
Qed.
Lemma draw_brush_style E d : draw_brush E d = style_brush E (style_dd d).
Proof. unfold draw_brush, style_brush, style_dd. cbn [sy_alpha sy_brush]. now destruct (feqb (dd_alpha d) f1). Qed.
Lemma layer_paints_styles E tf alpha frame shs :
  Forall (all_geometry (sound_geometry E)) shs ->
  exists calls, layer_paints E tf alpha frame shs = Ok (List.concat (rev calls)) /\
    Forall2 (fun s ps => Forall (in_style E s) ps) (styles E alpha frame shs) calls.
Proof.
  intros Hs. destruct (render_shapes_inv E shs tf alpha frame Hs) as (b & H1 & I1).
  exists (map (draw_paints E b) (b_draws b)). unfold layer_paints. rewrite H1. cbn [bind].
  rewrite (batch_render_eq E 0 0 b I1), map_rev. split; [reflexivity|].
  assert (S : map style_dd (b_draws b) = styles E alpha frame shs).
  { apply (styled_list E shs Hs (Forall_impl _ (render_styled E) Hs) tf alpha frame 0 0 batch_empty b
             binv_empty H1). }
  rewrite <- S. clear. induction (b_draws b) as [|d l IH]; [constructor|]. cbn [map]. constructor; auto.
  unfold draw_paints. apply Forall_map. apply Forall_forall. intros g _. split; [reflexivity|].
  cbn [pt_brush]. apply draw_brush_style.
Qed.

(** ** Plain trees *)
Definition flatten (os : list outline) : marks := flat_map (fun o => place (snd o) (fst o)) os.
Definition sim (a b : marks) : Prop :=
  Forall2 (fun m n => fst m = fst n /\ same_place (snd m) (snd n)) a b.
Lemma sim_refl a : sim a a.
Proof. induction a; constructor; auto. split; auto. now left. Qed.
Lemma sim_app a b c d : sim a b -> sim c d -> sim (a ++ c) (b ++ d).
Proof. apply Forall2_app. Qed.
Lemma sim_place t u els : same_place t u -> sim (place t els) (place u els).
Proof. intros H. induction els; constructor; auto. Qed.
Lemma place_app t a b : place t (a ++ b) = place t a ++ place t b.
Proof. apply map_app. Qed.
Lemma flatten_app a b : flatten (a ++ b) = flatten a ++ flatten b.
Proof. apply flat_map_app. Qed.
Lemma last_transform_some os t : last_transform os = Some t -> exists l p, os = l ++ [(p, t)].
Proof.
  unfold last_transform. destruct os as [|[p u] os] using rev_ind; [discriminate|].
  rewrite rev_app_distr. simpl. intros [= ->]. eauto.
Qed.
Definition draw_sim (sd : style * list outline) (s : style * marks) : Prop :=
  fst sd = fst s /\ sim (flatten (snd sd)) (snd s).
Definition plain_ok (E : Ext) (sh : shape) : Prop :=
  forall tf alpha frame p p' above,
  shape_pic E tf alpha frame sh p = Ok p' -> sim (flatten (pc_outlines p)) above ->
  sim (flatten (pc_outlines p')) (above ++ geometry_in E frame tf sh) /\
  exists new, pc_draws p' = pc_draws p ++ new /\
    Forall2 draw_sim new (draws_in E frame tf alpha above sh).
Lemma plain_group shs t : plain (ShGroup shs t) <-> Forall plain shs.
Proof.
  simpl. induction shs as [|s shs IH]; [split; auto|]. split.
  - intros [H1 H2]. constructor; auto. now apply IH.
  - intros H. inversion H; subst. split; auto. now apply IH.
Qed.
Lemma plain_list E shs : Forall (plain_ok E) shs ->
  forall tf alpha frame p p' above,
  fold_shapes (shape_pic E tf alpha frame) shs p = Ok p' -> sim (flatten (pc_outlines p)) above ->
  sim (flatten (pc_outlines p')) (above ++ flat_map (geometry_in E frame tf) shs) /\
  exists new, pc_draws p' = pc_draws p ++ new /\
    Forall2 draw_sim new (draws_among (draws_in E frame tf alpha) (geometry_in E frame tf) above shs).
Proof.
  induction 1 as [|sh shs H _ IH]; intros tf alpha frame p p' above Hp Ha; simpl in *.
  - injection Hp as <-. rewrite app_nil_r. split; auto. exists []. rewrite app_nil_r. auto.
  - destruct (shape_pic E tf alpha frame sh p) as [p1| |] eqn:E1; try discriminate. cbn [bind] in Hp.
    destruct (H tf alpha frame p p1 above E1 Ha) as (S1 & n1 & D1 & F1).
    destruct (IH tf alpha frame p1 p' _ Hp S1) as (S2 & n2 & D2 & F2).
    split; [now rewrite app_assoc|]. exists (n1 ++ n2). split; [now rewrite D2, D1, app_assoc|].
    now apply Forall2_app.
Qed.
Lemma plain_all E sh : plain sh -> plain_ok E sh.
Proof.
  induction sh using shape_ind'; intros Hp tf alpha frame p p' above Hr Ha; try contradiction.
  - apply plain_group in Hp. simpl in Hr.
    destruct (fold_shapes _ shs pic_empty) as [child| |] eqn:E1; try discriminate. injection Hr as <-.
    assert (HF : Forall (plain_ok E) shs) by (rewrite Forall_forall in *; auto).
    destruct (plain_list E shs HF _ _ _ _ _ [] E1 (Forall2_nil _)) as (S & new & D & F).
    cbn [include pc_outlines pc_draws]. split.
    + rewrite flatten_app. apply sim_app; [exact Ha|exact S].
    + exists (pc_draws child). split; [reflexivity|]. rewrite D. exact F.
  - simpl in Hr. cbn [geometry_in draws_in]. unfold path_at. destruct (geometry_eval E g frame) as [els| |]; try discriminate.
    injection Hr as <-. split; [|exists []; cbn [add_path pc_draws]; rewrite app_nil_r; auto].
    unfold add_path. cbn [pc_outlines]. unfold joins.
    destruct (pc_open p) eqn:Eo; cbn [andb].
    + destruct (last_transform (pc_outlines p)) as [t|] eqn:El.
      * destruct (affine_eqb t tf) eqn:Ea.
        -- apply last_transform_some in El as (l & q & El). rewrite El in *.
           rewrite join_last_app, flatten_app in *. simpl in *. rewrite app_nil_r in *.
           rewrite place_app, app_assoc. apply sim_app; [exact Ha|]. apply sim_place. now right.
        -- rewrite flatten_app. apply sim_app; [exact Ha|]. simpl. rewrite app_nil_r. apply sim_refl.
      * rewrite flatten_app. apply sim_app; [exact Ha|]. simpl. rewrite app_nil_r. apply sim_refl.
    + rewrite flatten_app. apply sim_app; [exact Ha|]. simpl. rewrite app_nil_r. apply sim_refl.
  - simpl in Hr. injection Hr as <-. cbn [pc_outlines pc_draws geometry_in draws_in].
    rewrite app_nil_r. split; [exact Ha|]. eexists. split; [reflexivity|].
    constructor; [|constructor]. split; auto.
Qed.
Lemma layer_paints_plain E tf alpha frame shs :
  Forall plain shs -> Forall (all_geometry (sound_geometry E)) shs -> no_clash E frame tf shs ->
  exists calls, layer_paints E tf alpha frame shs = Ok (List.concat (rev calls)) /\
    Forall2 (paints_marks E)
      (draws_among (draws_in E frame tf alpha) (geometry_in E frame tf) [] shs) calls.
Proof.
  intros Hp Hs Hc. destruct (render_refines E shs tf alpha frame Hs Hc) as (b & p & H1 & H2 & H3).
  exists (map (paints_of E) (pc_draws p)). unfold layer_paints. rewrite H1. cbn [bind]. rewrite H3.
  unfold pic_paints. rewrite map_rev. split; [reflexivity|].
  destruct (plain_list E shs (Forall_impl _ (plain_all E) Hp) tf alpha frame pic_empty p [] H2 (Forall2_nil _))
    as (_ & new & D & F). simpl in D. rewrite D. clear - F.
  induction F as [|sd s l l' [Q1 Q2] _ IH]; [constructor|]. cbn [map]. constructor; auto.
  split.
  - unfold paints_of. apply Forall_map. apply Forall_forall. intros o _. rewrite Q1. split; reflexivity.
  - unfold paints_of. rewrite flat_map_concat_map, map_map. cbn [pt_transform pt_path].
    rewrite <- flat_map_concat_map. exact Q2.
Qed.

(** ** Groups are isolated *)
Lemma pic_include_draws p child : pc_draws (include p child) = pc_draws p ++ pc_draws child.
Proof. reflexivity. Qed.
Lemma layer_paints_pic E tf alpha frame shs :
  Forall (all_geometry (sound_geometry E)) shs -> no_clash E frame tf shs ->
  exists p, shapes_pic E tf alpha frame shs = Ok p /\ layer_paints E tf alpha frame shs = Ok (pic_paints E p).
Proof.
  intros Hs Hc. destruct (render_refines E shs tf alpha frame Hs Hc) as (b & p & H1 & H2 & H3).
  exists p. unfold layer_paints. rewrite H1. auto.
Qed.
(** Entering a group with nothing pending never creates a clash. *)
Definition weaker_ok (ts : list token) : Prop :=
  forall s' r', advance_all s' ts = Some r' ->
  forall a d c, s' = Some (a, S d, c) ->
  exists r, advance_all None ts = Some r /\
    (r = r' \/ (r = None /\ exists c', r' = Some (a, S d, c'))).
Lemma weaker_list l : Forall weaker_ok l -> weaker_ok (List.concat l).
Proof.
  induction 1 as [|ts l H _ IH]; intros s' r' A a d c ->; simpl in *.
  - injection A as <-. exists None. eauto.
  - rewrite advance_all_app in A. destruct (advance_all (Some (a, S d, c)) ts) as [s1|] eqn:A1; [|discriminate].
    destruct (H _ _ A1 a d c eq_refl) as (r & Hr & [->|(-> & c' & ->)]); rewrite advance_all_app, Hr; eauto.
Qed.
Lemma weaker_tokens E frame sh : forall tf, weaker_ok (tokens E frame tf sh).
Proof.
  induction sh using shape_ind'; intros tf s' r' A a dd c0 ->.
  - cbn [tokens advance_all advance] in *. rewrite advance_all_app in *.
    assert (HF : weaker_ok (List.concat (map (tokens E frame (affine_mul tf (group_tf E t frame))) shs))).
    { apply weaker_list. apply Forall_map. eapply Forall_impl; [|exact H]. auto. }
    rewrite <- flat_map_concat_map in HF.
    destruct (advance_all (Some (a, S (S dd), c0)) _) as [s1|] eqn:A1; [|discriminate].
    destruct (HF _ _ A1 a (S dd) c0 eq_refl) as (r & -> & [->|(-> & c' & ->)]); eauto.
    cbn in *. injection A as <-. exists None. eauto.
  - cbn in *. destruct (affine_eqb a tf); [discriminate|]. injection A as <-. eauto.
  - cbn in *. injection A as <-. eauto.
  - cbn in *. injection A as <-. eauto.
  - cbn [tokens] in *. destruct (trim_normalized _) as [[f s]|].
    + destruct (trim_is_full f s); cbn in *; injection A as <-; eauto 6.
    + cbn in *. injection A as <-. eauto 6.
Qed.
Lemma no_clash_group E frame tf shs inner t :
  no_clash E frame tf (shs ++ [ShGroup inner t]) ->
  no_clash E frame tf shs /\ no_clash E frame (affine_mul tf (group_tf E t frame)) inner.
Proof.
  unfold no_clash. rewrite flat_map_app, advance_all_app.
  destruct (advance_all None (flat_map (tokens E frame tf) shs)) as [s|]; [|congruence].
  intros H. split; [discriminate|].
  cbn [flat_map] in H. rewrite app_nil_r in H. cbn [tokens advance_all] in H.
  destruct (advance s TEnter) as [s1|] eqn:A1; [|congruence]. rewrite advance_all_app in H.
  destruct (advance_all s1 _) as [s2|] eqn:A2 in H; [|congruence].
  destruct s as [[[a d] c]|]; cbn in A1; injection A1 as <-; [|congruence].
  assert (HF : weaker_ok (List.concat (map (tokens E frame (affine_mul tf (group_tf E t frame))) inner))).
  { apply weaker_list. apply Forall_map. apply Forall_forall. intros; apply weaker_tokens. }
  rewrite <- flat_map_concat_map in HF.
  destruct (HF _ _ A2 a d c eq_refl) as (r & -> & _). discriminate.
Qed.
Lemma fold_shapes_app {S} (f : shape -> S -> res S) l1 l2 b :
  fold_shapes f (l1 ++ l2) b = bind (fold_shapes f l1 b) (fold_shapes f l2).
Proof.
  revert b. induction l1 as [|s l1 IH]; intros b; simpl; [reflexivity|].
  destruct (f s b); simpl; auto.
Qed.
Lemma group_isolated E tf alpha frame pre inner t :
  Forall (all_geometry (sound_geometry E)) pre -> Forall (all_geometry (sound_geometry E)) inner ->
  no_clash E frame tf (pre ++ [ShGroup inner t]) ->
  exists ps_pre ps_group,
    layer_paints E tf alpha frame pre = Ok ps_pre /\
    layer_paints E (affine_mul tf (group_tf E t frame)) (fmul alpha (group_alpha E t frame)) frame inner = Ok ps_group /\
    layer_paints E tf alpha frame (pre ++ [ShGroup inner t]) = Ok (ps_group ++ ps_pre).
Proof.
  intros H1 H2 Hc. destruct (no_clash_group _ _ _ _ _ _ Hc) as [C1 C2].
  destruct (layer_paints_pic E tf alpha frame pre H1 C1) as (p1 & P1 & L1).
  destruct (layer_paints_pic E _ (fmul alpha (group_alpha E t frame)) frame inner H2 C2) as (p2 & P2 & L2).
  assert (H3 : Forall (all_geometry (sound_geometry E)) (pre ++ [ShGroup inner t])).
  { apply Forall_app. split; auto. constructor; [|constructor]. now apply all_geometry_group. }
  destruct (layer_paints_pic E tf alpha frame _ H3 Hc) as (p3 & P3 & L3).
  exists (pic_paints E p1), (pic_paints E p2). split; [exact L1|]. split; [exact L2|]. rewrite L3. f_equal.
  unfold shapes_pic in *. rewrite fold_shapes_app, P1 in P3. simpl in P3. rewrite P2 in P3. simpl in P3.
  injection P3 as <-. unfold pic_paints. cbn [include pc_draws].
  now rewrite rev_app_distr, map_app, concat_app.
Qed.

(** ** Trims *)
Lemma batch_render_geo E gs ds b b' : binv gs ds b -> binv gs ds b' -> b_draws b' = b_draws b ->
  map (geo_of (b_elements b')) (b_geoms b') = map (geo_of (b_elements b)) (b_geoms b) ->
  batch_render E b' = batch_render E b.
Proof.
  intros I I' D G. rewrite (batch_render_eq E _ _ _ I), (batch_render_eq E _ _ _ I'), D. do 2 f_equal.
  apply map_ext. intros d. unfold draw_paints.
  assert (X : forall bb, map (fun g => mkPaint (dd_stroke d) (gd_transform g) (draw_brush E d) (path_of (b_elements bb) g))
      (firstn (dd_end d - dd_start d) (skipn (dd_start d) (b_geoms bb))) =
      map (fun o => mkPaint (dd_stroke d) (snd o) (draw_brush E d) (fst o))
      (firstn (dd_end d - dd_start d) (skipn (dd_start d) (map (geo_of (b_elements bb)) (b_geoms bb))))).
  { intros bb. rewrite skipn_map, firstn_map, map_map. reflexivity. }
  rewrite !X, G. reflexivity.
Qed.
Lemma trim_alone E tf alpha frame pre t gt :
  Forall (all_geometry (sound_geometry E)) pre ->
  layer_paints E tf alpha frame (pre ++ [ShGroup [ShTrim t] gt]) = layer_paints E tf alpha frame pre.
Proof.
  intros H. destruct (render_shapes_inv E pre tf alpha frame H) as (b & H1 & I1).
  unfold layer_paints, render_shapes in *. cbn [b_geoms b_draws batch_empty List.length] in *.
  rewrite fold_shapes_app, H1. cbn [bind]. cbn [fold_shapes render_shape].
  pose proof (binv_enter _ _ _ I1) as I2.
  assert (X : exists b', apply_trim E b (trim_eval E t frame) (List.length (b_geoms b)) = Ok b' /\
    batch_render E b' = batch_render E b).
  { destruct (trim_normalized (trim_eval E t frame)) as [[f s]|] eqn:En.
    - destruct (trim_is_full f s) eqn:Ef.
      + exists b. split; [eapply apply_trim_full; eauto|reflexivity].
      + destruct (apply_trim_partial E _ _ b _ f s En Ef I2) as (ps & b' & Hm & Ha & I' & D & _ & _ & G & _).
        exists b'. split; [exact Ha|]. eapply batch_render_geo; eauto. rewrite G.
        rewrite skipn_all, firstn_all. cbn [map]. destruct ps; cbn [combine]; apply app_nil_r.
    - destruct (apply_trim_none E _ _ b _ En I2) as (b' & Ha & I' & D & _ & El & G).
      exists b'. split; [exact Ha|]. eapply batch_render_geo; eauto. rewrite G, El.
      rewrite skipn_all, firstn_all. cbn [map]. now rewrite app_nil_r. }
  destruct X as (b' & -> & X). cbn [bind]. exact X.
Qed.
Lemma trim_full E tf alpha frame pre t post :
  (exists f, trim_normalized (trim_eval E t frame) = Some (f, None) /\ trim_is_full f None = true) ->
  layer_paints E tf alpha frame (pre ++ ShTrim t :: post) = layer_paints E tf alpha frame (pre ++ post).
Proof.
  intros (f & Hn & Hf). unfold layer_paints, render_shapes. cbn [b_geoms b_draws batch_empty List.length].
  rewrite !fold_shapes_app. destruct (fold_shapes _ pre batch_empty); try reflexivity. cbn [bind fold_shapes render_shape].
  rewrite (apply_trim_full E a _ 0 f None Hn Hf). reflexivity.
Qed.
Lemma trim_empty E tf alpha frame pre t post :
  Forall (all_geometry (sound_geometry E)) pre -> trim_normalized (trim_eval E t frame) = None ->
  Forall is_draw post ->
  exists ps, layer_paints E tf alpha frame (pre ++ ShTrim t :: post) = Ok ps /\
    Forall (fun p => pt_path p = []) ps.
Proof.
  intros H Hn Hpost. destruct (render_shapes_inv E pre tf alpha frame H) as (b & H1 & I1).
  unfold layer_paints, render_shapes in *. cbn [b_geoms b_draws batch_empty List.length] in *.
  rewrite fold_shapes_app, H1. cbn [bind fold_shapes render_shape].
  destruct (apply_trim_none E 0 0 b _ Hn I1) as (b' & -> & I' & D & Dn & El & G). cbn [bind].
  assert (Hz : Forall (fun g => gd_start g = 0 /\ gd_end g = 0) (b_geoms b')).
  { rewrite G. simpl. apply Forall_map. apply Forall_forall. auto. }
  clear - Hpost I' Hz. revert b' I' Hz. induction Hpost as [|sh post Hsh _ IH]; intros b I Hz; simpl.
  - rewrite (batch_render_eq E 0 0 b I). eexists. split; [reflexivity|].
    apply Forall_concat, Forall_map, Forall_forall. intros d _. unfold draw_paints.
    apply Forall_map, Forall_forall. intros g Hg. cbn [pt_path].
    apply in_firstn, in_skipn in Hg. rewrite Forall_forall in Hz. destruct (Hz g Hg) as [Z1 Z2].
    unfold path_of. rewrite Z1, Z2. reflexivity.
  - destruct sh; try contradiction. cbn [render_shape bind]. apply IH; [now apply push_draw_inv|exact Hz].
Qed.

(** ** The calls of a shape layer *)
Lemma layer_draws_shapes E c set ly idx ptf alpha frame shs es :
  active ly frame -> ly_mask_layer ly = None -> ly_masks ly = [] -> ly_content ly = CShape shs ->
  (layer_draws E c set ly idx ptf alpha frame es <->
   exists ps,
     layer_paints E (compute_transform E set ly ptf frame)
       (fdiv (fmul alpha (eval E (ly_opacity ly) frame)) f100) frame shs = Ok ps /\
     es = EvBegin (ly_name ly) idx :: map EvDraw ps ++ [EvEnd]).
Proof.
  intros Ha H1 H2 H3. rewrite (layer_draws_active E c set ly idx ptf alpha frame es Ha).
  unfold matte_draws, mask_clips, content_draws. rewrite H1, H2, H3. cbn [List.length].
  unfold layer_paints. split.
  - intros (matte & clips & inner & -> & Hc & Hi & ->).
    destruct Hc as (ps & F & ->). inversion F; subst.
    destruct Hi as (b & ps' & Hb & Hr & ->).
    exists ps'. rewrite Hb. auto.
  - intros (ps & Hp & ->). destruct (render_shapes _ _ _ _ _ _) as [b| |] eqn:Hb; try discriminate.
    exists [], [], (map EvDraw ps). split; [reflexivity|]. split; [exists []; auto|].
    split; [|reflexivity].
    exists b, ps. auto.
Qed.

(** ** Masked shape layers *)
Lemma layer_draws_masked E c set ly idx ptf alpha frame shs es :
  active ly frame -> ly_mask_layer ly = None -> ly_content ly = CShape shs ->
  layer_draws E c set ly idx ptf alpha frame es ->
  exists clips ps,
    layer_paints E (compute_transform E set ly ptf frame)
       (fdiv (fmul alpha (eval E (ly_opacity ly) frame)) f100) frame shs = Ok ps /\
    Forall is_mask_clip clips /\ List.length clips = List.length (ly_masks ly) /\
    es = EvBegin (ly_name ly) idx :: clips ++ map EvDraw ps
         ++ repeat EvPop (List.length (ly_masks ly)) ++ [EvEnd].
Proof.
  intros Ha H1 H3 H. apply (layer_draws_active E c set ly idx ptf alpha frame es Ha) in H
    as (matte & clips & inner & Hm & Hc & Hi & ->).
  unfold matte_draws in Hm. rewrite H1 in *. subst matte. unfold content_draws in Hi. rewrite H3 in Hi.
  destruct Hi as (b & ps & Hb & Hr & ->). exists clips, ps. unfold layer_paints. rewrite Hb.
  split; [exact Hr|]. destruct Hc as (paths & F & ->). split; [|split].
  - apply Forall_map, Forall_forall. intros p _. cbn. eauto.
  - rewrite map_length. clear - F. induction F; simpl; congruence.
  - rewrite Nat.add_0_r. reflexivity.
Qed.

(** ** Stars *)
Lemma star_sound E s :
  (forall frame, (f_to_usize (fround (eval E (asr_points s) frame)) <= 96076792050570581)%Z) ->
  sound_geometry E (GStar s).
Proof.
  intros H frame. specialize (H frame). cbn [geometry_eval]. unfold a_star_eval.
  set (n := f_to_usize _) in *. destruct (n =? 0)%Z; [exists []; auto|].
  destruct (if negb (asr_polygon s) then _ else _) as [ir iro].
  match goal with |- context [star_cap_ok ?t] => assert (C : star_cap_ok t = true) end.
  { unfold star_cap_ok, isize_max. apply Z.leb_le. destruct (negb (asr_polygon s)); lia. }
  rewrite C. cbn [negb]. destruct (star_vertices _ _ _ _ _ _ _ _ _ _ _) as [|v0 vs]; [exists []; auto|].
  eexists. split; reflexivity.
Qed.
Lemma fixed_sound E els : bezpath_ok els = true -> sound_geometry E (GFixed els).
Proof. intros H frame. exists els. auto. Qed.
Lemma rect_sound E r : (forall x0 y0 x1 y1 q, bezpath_ok (x_rrect_path E x0 y0 x1 y1 q) = true) ->
  sound_geometry E (GRect r).
Proof. intros H frame. eexists. split; [reflexivity|apply H]. Qed.
Lemma ellipse_sound E e : (forall c rx ry, bezpath_ok (x_ellipse_path E c rx ry) = true) ->
  sound_geometry E (GEllipse e).
Proof. intros H frame. eexists. split; [reflexivity|apply H]. Qed.

(** ** Reachable batches *)
Lemma reach_inv E frame gs ds b : reach E frame gs ds b -> binv gs ds b.
Proof.
  induction 1 as [|gs ds b tf alpha sh b' _ IH Hs Hr|gs ds b _ IH].
  - apply binv_empty.
  - destruct (render_shape_inv E sh Hs tf alpha frame gs ds b IH) as (b1 & E1 & I1 & _). congruence.
  - eapply binv_enter; eauto.
Qed.
Lemma outlines_eq gs ds b : binv gs ds b -> outlines b = Ok (map (geo_of (b_elements b)) (b_geoms b)).
Proof.
  intros I. unfold outlines. apply mapM_ok. intros g Hg. rewrite geom_ok_slice; [reflexivity|].
  destruct I. rewrite Forall_forall in bi_geoms. auto.
Qed.
Lemma trim_reach E frame gs ds b t : reach E frame gs ds b ->
  exists b' os os' tail,
    apply_trim E b t gs = Ok b' /\ outlines b = Ok os /\ outlines b' = Ok os' /\
    mapM (trim_outline E t) (skipn gs os) = Ok tail /\
    os' = firstn gs os ++ tail /\ b_draws b' = b_draws b.
Proof.
  intros R. pose proof (reach_inv _ _ _ _ _ R) as I.
  set (os := map (geo_of (b_elements b)) (b_geoms b)).
  assert (Ho : outlines b = Ok os) by (eapply outlines_eq; eauto).
  destruct (trim_normalized t) as [[f s]|] eqn:En.
  - destruct (trim_is_full f s) eqn:Ef.
    + exists b, os, os, (skipn gs os). rewrite (apply_trim_full E b t gs f s En Ef). do 3 (split; [auto|]).
      split; [|split; [now rewrite firstn_skipn|reflexivity]].
      rewrite (mapM_ok _ _ _ (fun o => o)); [now rewrite map_id|].
      intros o _. unfold trim_outline. now rewrite En, Ef.
    + destruct (apply_trim_partial E _ _ b _ f s En Ef I) as (ps & b' & Hm & Ha & I' & D & _ & _ & G & _).
      exists b', os, (map (geo_of (b_elements b')) (b_geoms b')), (combine ps (map gd_transform (skipn gs (b_geoms b)))).
      split; [exact Ha|]. split; [exact Ho|]. split; [eapply outlines_eq; eauto|].
      split; [|split; [rewrite G; unfold os; now rewrite firstn_map|exact D]].
      unfold os. rewrite skipn_map. eapply trim_outline_combine; eauto.
  - destruct (apply_trim_none E _ _ b _ En I) as (b' & Ha & I' & D & _ & El & G).
    exists b', os, (map (geo_of (b_elements b')) (b_geoms b')),
      (map (fun g => ([], gd_transform g)) (skipn gs (b_geoms b))).
    split; [exact Ha|]. split; [exact Ho|]. split; [eapply outlines_eq; eauto|].
    split; [|split; [|exact D]].
    + unfold os. rewrite skipn_map. generalize (skipn gs (b_geoms b)).
      intros l. rewrite (mapM_ok outline outline _ (fun o => ([], snd o))); [now rewrite map_map|].
      intros o _. unfold trim_outline. now rewrite En.
    + rewrite G, El, map_app, map_map. unfold os. now rewrite firstn_map.
Qed.

(** ** Repeaters *)
Definition sum (l : list nat) : nat := fold_right plus 0 l.
Lemma sum_app a b : sum (a ++ b) = sum a + sum b.
Proof. unfold sum. induction a; simpl; lia. Qed.
Lemma sum_rev a : sum (rev a) = sum a.
Proof. induction a; simpl; [reflexivity|]. rewrite sum_app, IHa. simpl. lia. Qed.
Lemma length_concat A (l : list (list A)) : List.length (List.concat l) = sum (map (@List.length A) l).
Proof. induction l; simpl; [reflexivity|]. now rewrite app_length, IHl. Qed.
Lemma batch_render_count E gs ds b ps : binv gs ds b -> batch_render E b = Ok ps ->
  List.length ps = sum (map (fun d => dd_end d - dd_start d) (b_draws b)).
Proof.
  intros I. rewrite (batch_render_eq E _ _ _ I). intros [= <-]. rewrite length_concat, map_map, map_rev, sum_rev.
  f_equal. apply map_ext_in. intros d Hd. unfold draw_paints. rewrite map_length, firstn_length, skipn_length.
  destruct I. rewrite Forall_forall in bi_draws. specialize (bi_draws d Hd). lia.
Qed.
Lemma repeat_count E tf alpha frame shs r ps :
  Forall (all_geometry (sound_geometry E)) shs -> layer_paints E tf alpha frame shs = Ok ps ->
  exists ps', layer_paints E tf alpha frame (shs ++ [ShRepeater r]) = Ok ps' /\
    List.length ps' = visible_copies (repeater_eval E r frame) * (rp_copies (repeater_eval E r frame) * List.length ps).
Proof.
  intros Hs Hp. destruct (render_shapes_inv E shs tf alpha frame Hs) as (b & H1 & I1).
  unfold layer_paints in *. rewrite H1 in Hp. cbn [bind] in Hp.
  pose proof (batch_render_count E 0 0 b ps I1 Hp) as L.
  unfold render_shapes in *. cbn [b_geoms b_draws batch_empty List.length] in *.
  rewrite fold_shapes_app, H1. cbn [bind fold_shapes render_shape].
  set (q := repeater_eval E r frame). pose proof (batch_repeat_eq E 0 0 b q I1) as Hq.
  destruct (batch_repeat_inv E 0 0 b q _ I1 Hq) as [I2 _]. rewrite Hq. cbn [bind].
  pose proof (batch_render_eq E 0 0 _ I2) as R2. rewrite R2. eexists. split; [reflexivity|].
  rewrite (batch_render_count E 0 0 _ _ I2 R2), L. cbn [b_draws firstn skipn app].
  unfold repeated_draws, visible_copies.
  change (copy_alpha q) with (repeat_alpha q). clear.
  induction (seq 0 (rp_copies q)) as [|i l IH]; [reflexivity|].
  cbn [flat_map filter]. rewrite map_app, sum_app, IH. destruct (fleb (repeat_alpha q i) f0); cbn [negb].
  - reflexivity.
  - cbn [List.length Nat.mul]. f_equal. clear. rewrite map_map. induction (b_draws b) as [|d ds IH]; [cbn; lia|].
    cbn [map sum fold_right] in *. unfold sum in *. cbn [fold_right]. rewrite IH. cbn [repeated_draw dd_end dd_start]. nia.
Qed.
Lemma repeat_paints E tf alpha frame shs r :
  Forall (all_geometry (sound_geometry E)) shs -> no_clash E frame tf shs ->
  exists p, layer_paints E tf alpha frame shs = Ok (pic_paints E p) /\
    layer_paints E tf alpha frame (shs ++ [ShRepeater r]) =
    Ok (pic_paints E (repeat_pic E (repeater_eval E r frame) p)).
Proof.
  intros Hs Hc. destruct (layer_paints_pic E tf alpha frame shs Hs Hc) as (p & P1 & L1).
  exists p. split; [exact L1|].
  destruct (layer_paints_pic E tf alpha frame (shs ++ [ShRepeater r])) as (p2 & P2 & L2).
  - apply Forall_app. split; auto. constructor; [exact I|constructor].
  - unfold no_clash in *. rewrite flat_map_app, advance_all_app.
    destruct (advance_all None _) as [s|]; [|congruence]. destruct s as [[[]]|]; simpl; discriminate.
  - rewrite L2. unfold shapes_pic in *. rewrite fold_shapes_app, P1 in P2. simpl in P2. injection P2 as <-. reflexivity.
Qed.

(** ** Erasing trims *)
Lemma trim_erases E tf alpha frame pre t post :
  Forall (all_geometry (sound_geometry E)) pre -> Forall (all_geometry (sound_geometry E)) post ->
  Forall plain post -> no_clash E frame tf (pre ++ ShTrim t :: post) ->
  trim_normalized (trim_eval E t frame) = None ->
  exists calls ps0,
    layer_paints E tf alpha frame (pre ++ ShTrim t :: post) = Ok (List.concat (rev calls) ++ ps0) /\
    Forall (fun p => pt_path p = []) ps0 /\
    Forall2 (paints_marks E)
      (draws_among (draws_in E frame tf alpha) (geometry_in E frame tf) [] post) calls.
Proof.
  intros H1 H2 Hp Hc Hn.
  destruct (layer_paints_pic E tf alpha frame (pre ++ ShTrim t :: post)) as (p & P & L).
  { apply Forall_app. split; auto. constructor; auto. exact I. }
  { exact Hc. }
  unfold shapes_pic in P. rewrite fold_shapes_app in P.
  destruct (fold_shapes _ pre pic_empty) as [p1| |] eqn:P1; try discriminate. cbn [bind fold_shapes] in P.
  cbn [shape_pic] in P. unfold trim_pic in P.
  assert (T : forall os, mapM (trim_outline E (trim_eval E t frame)) os = Ok (map (fun o => ([], snd o)) os)).
  { intros os. apply mapM_ok. intros o _. unfold trim_outline. now rewrite Hn. }
  rewrite T in P. cbn [bind] in P.
  rewrite (mapM_ok (style * list outline) (style * list outline) _ (fun d => (fst d, map (fun o => ([], snd o)) (snd d)))) in P.
  2: { intros d _. rewrite T. reflexivity. }
  cbn [bind] in P.
  assert (Z : forall os : list outline, flatten (map (fun o => ([], snd o)) os) = []).
  { intros os. unfold flatten. induction os; simpl; auto. }
  destruct (plain_list E post (Forall_impl _ (plain_all E) Hp) tf alpha frame _ p [] P) as (_ & new & D & F).
  { cbn [pc_outlines]. rewrite Z. constructor. }
  cbn [pc_draws] in D.
  exists (map (paints_of E) new), (List.concat (map (paints_of E)
     (rev (map (fun d => (fst d, map (fun o : outline => ([], snd o)) (snd d))) (pc_draws p1))))).
  split; [|split].
  - rewrite L. unfold pic_paints. rewrite D, rev_app_distr, map_app, concat_app, map_rev. reflexivity.
  - apply Forall_concat, Forall_map, Forall_forall. intros d Hd. apply in_rev in Hd.
    apply in_map_iff in Hd as (d0 & <- & _). unfold paints_of. apply Forall_map, Forall_map, Forall_forall.
    intros o _. reflexivity.
  - clear - F. induction F as [|sd s l l' [Q1 Q2] _ IH]; [constructor|]. cbn [map]. constructor; auto.
    split.
    + unfold paints_of. apply Forall_map. apply Forall_forall. intros o _. rewrite Q1. split; reflexivity.
    + unfold paints_of. rewrite flat_map_concat_map, map_map. cbn [pt_transform pt_path].
      rewrite <- flat_map_concat_map. exact Q2.
Qed.
