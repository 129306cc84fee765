(** What the renderer leaves out: solid layers, mask modes, layer blend modes
    and the size of precompositions.  Statements use Schema.v, Render.v,
    RenderSpec.v and the definitions below. *)
From Coq Require Import ZArith Bool List Arith String Lia.
From Verif Require Import F64 Kurbo Value Animated Batch Render RenderSpec RenderFacts RenderFacts2
  RenderFacts3 Examples PropRender ValueSpec Schema Import ImportSpec ImportFacts ImportFacts3 ImportFacts4
  DocExamples PropImport.
Import ListNotations.
Open Scope list_scope.
Open Scope nat_scope.

(** * Every push of a rendering is accounted for *)
(** A layer is pushed only for a matte, with the matte's blend mode or normally;
    a clip is the composition's rectangle or the outline of a mask. *)
Definition accounted (E : Ext) (c : composition) (e : event) : Prop :=
  match e with
  | EvPushLayer b alpha _ sh =>
      alpha = f32_one /\ sh = full_rect c /\
      exists p ly mode k, layer_at c p = Some ly /\ ly_mask_layer ly = Some (mode, k) /\
        (b = blend_of_mix MixNormal \/ b = mode)
  | EvPushClip _ sh =>
      sh = full_rect c \/
      exists p ly m frame els, layer_at c p = Some ly /\ In m (ly_masks ly) /\
        geometry_eval E (mk_geometry m) frame = Ok els /\ sh = SkPath els
  | _ => True
  end.

Definition all_calls (P : event -> Prop) (m : M unit) : Prop :=
  good m /\ Forall (fun x => P (fst x)) (r_trace (m renderer_new)).
Lemma all_bind P m1 m2 : all_calls P m1 -> all_calls P m2 -> all_calls P (m1 ;; m2).
Proof.
  intros [G1 F1] [G2 F2]. split; [now apply good_bind|]. pose proof (good_st _ G1) as S1.
  unfold mbind. destruct (m1 renderer_new) as [o s tr]; cbn [r_out r_st r_trace] in *.
  destruct o as [[]| |]; cbn [r_trace]; auto. rewrite S1 by reflexivity. apply Forall_app. auto.
Qed.
Lemma all_ret P : all_calls P (ret tt).
Proof. split; [apply good_ret|constructor]. Qed.
Lemma all_emit (P : event -> Prop) e : P e -> all_calls P (emit e).
Proof. split; [apply good_emit|]. constructor; auto. Qed.
Lemma all_emits (P : event -> Prop) es : Forall P es -> all_calls P (emits es).
Proof. split; [apply good_emits|]. cbn. apply Forall_map. exact H. Qed.
Lemma all_forM {A} P (l : list A) (f : A -> M unit) :
  (forall x, In x l -> all_calls P (f x)) -> all_calls P (forM l f).
Proof.
  induction l as [|x l IH]; intros H; cbn [forM]; [apply all_ret|].
  apply all_bind; [apply H; now left|apply IH; intros; apply H; now right].
Qed.
Lemma all_content (P : event -> Prop) E shapes tf alpha frame : (forall p, P (EvDraw p)) ->
  all_calls P (render_content_shapes E shapes tf alpha frame).
Proof.
  intros H. split; [apply good_content|]. unfold render_content_shapes.
  destruct (render_shapes E shapes tf alpha frame (rn_batch renderer_new)); cbn [r_trace]; auto.
  destruct (batch_render E a); cbn [r_trace]; auto.
  apply Forall_map. apply Forall_forall. intros p _. apply H.
Qed.
Lemma accounted_layer E fuel c : forall s ly idx tf alpha frame,
  In ly (scope_layers c s) ->
  all_calls (accounted E c) (render_layer E fuel c (scope_layers c s) ly idx tf alpha frame).
Proof.
  induction fuel as [|fuel IH]; intros s ly idx tf alpha frame Hin; cbn [render_layer].
  { split; [apply good_oof|constructor]. }
  destruct (negb (in_window ly frame)); [apply all_ret|].
  apply In_nth_error in Hin as (i & Hi).
  apply all_bind; [now apply all_emit|].
  apply all_bind.
  { destruct (ly_mask_layer ly) as [[mode mi]|] eqn:Em; [|apply all_ret].
    apply all_bind.
    { apply all_emit. repeat split. exists (s, i), ly, mode, mi. auto. }
    apply all_bind.
    { destruct (nth_error (scope_layers c s) mi) eqn:En; [|apply all_ret].
      apply IH. eapply nth_error_In; eauto. }
    apply all_emit. repeat split. exists (s, i), ly, mode, mi. auto. }
  apply all_bind.
  { apply all_forM. intros m Hm. split; [apply good_mask_clip|]. unfold render_mask.
    destruct (geometry_eval E (mk_geometry m) frame) as [els| |] eqn:Eg; cbn [r_trace]; auto.
    constructor; auto. cbn. right. exists (s, i), ly, m, frame, els. auto. }
  apply all_bind.
  { destruct (ly_content ly) as [|name remap|shapes]; [apply all_ret| |now apply all_content].
    destruct (find_asset c name) as [ls|] eqn:Ea; [|apply all_ret]. cbv zeta.
    apply all_forM. intros x Hx. destruct (ly_is_mask x); [apply all_ret|].
    replace ls with (scope_layers c (Some name)) by (cbn; now rewrite Ea).
    apply IH. cbn. rewrite Ea. now apply in_rev. }
  apply all_bind; [|now apply all_emit].
  apply all_emits. apply Forall_forall. intros e He. apply repeat_spec in He. now subst e.
Qed.
Lemma enumerate_in {A} (l : list A) i x : In (i, x) (enumerate l) -> In x l.
Proof. unfold enumerate. apply in_combine_r. Qed.
Lemma accounted_append E fuel c frame tf alpha r : rn_mask r = [] ->
  Forall (accounted E c) (events (append E fuel c frame tf alpha r)).
Proof.
  intros Hr. rewrite append_clean by exact Hr.
  assert (A : all_calls (accounted E c) (append_m E fuel c frame tf alpha)).
  { unfold append_m. apply all_bind; [apply all_emit; now left|]. apply all_bind; [|now apply all_emit].
    apply all_forM. intros [i ly] Hin. destruct (ly_is_mask ly); [apply all_ret|].
    apply (accounted_layer E fuel c None). apply (enumerate_in _ i). now apply in_rev. }
  unfold events. apply Forall_map. apply A.
Qed.

(** * Editing every layer of a document *)
Definition map_layers (f : any_layer -> any_layer) (a : animation) : animation :=
  mkAnimation (ani_vo a) (map f (ani_layers a)) (ani_v a) (ani_ver a) (ani_fr a) (ani_ip a) (ani_op a)
    (ani_w a) (ani_h a) (ani_ddd a)
    (option_map (map (fun x => match x with
                               | AaPrecomp y ls fr xt => AaPrecomp y (map f ls) fr xt
                               | AaImage fa sl w h t => AaImage fa sl w h t
                               end)) (ani_assets a))
    (ani_markers a) (ani_meta a) (ani_metadata a).

(** The two documents are rendered alike: on every frame, with every
    transform and opacity, by every renderer. *)
Definition rendered_alike (E : Ext) (c d : composition) : Prop :=
  forall fuel frame tf alpha r,
    r_out (append E fuel c frame tf alpha r) = r_out (append E fuel d frame tf alpha r) /\
    events (append E fuel c frame tf alpha r) = events (append E fuel d frame tf alpha r).

Definition cv_alike (x y : converted) : Prop :=
  erase_layer (cv_layer x) = erase_layer (cv_layer y) /\
  cv_id x = cv_id y /\ cv_matte x = cv_matte y /\ cv_matte_ix x = cv_matte_ix y.
Definition harmless (E : Ext) (f : any_layer -> any_layer) : Prop :=
  forall l x, conv_layer E l = Ok x -> exists y, conv_layer E (f l) = Ok y /\ cv_alike x y.
Lemma idmap_alike l l' : Forall2 cv_alike l l' -> forall i m, build_idmap i l m = build_idmap i l' m.
Proof.
  induction 1 as [|x y l l' (_ & A & _) F IH]; intros i m; cbn [build_idmap]; [reflexivity|].
  now rewrite A, IH.
Qed.
Lemma resolve_alike m l l' : Forall2 cv_alike l l' -> forall i prev,
  map erase_layer (resolve m i prev l) = map erase_layer (resolve m i prev l').
Proof.
  induction 1 as [|x y l l' (A & B & C & D) F IH]; intros i prev; cbn [resolve map]; [reflexivity|].
  rewrite C, D. destruct x as [lx ix mx ex], y as [ly iy my ey]; cbn [cv_layer cv_id cv_matte cv_matte_ix] in *.
  destruct lx, ly; unfold erase_layer in A; cbn in A. injection A; intros; subst.
  cbn [ly_is_mask ly_parent ly_mask_layer]. rewrite IH. f_equal.
  unfold erase_layer, with_refs; cbn. now f_equal.
Qed.
Lemma process_alike E f : harmless E f -> forall srcs lys, process_layers E srcs = Ok lys ->
  exists lys', process_layers E (map f srcs) = Ok lys' /\ map erase_layer lys = map erase_layer lys'.
Proof.
  intros H srcs lys P. unfold process_layers in *.
  assert (Q : forall conv, mapM (conv_layer E) srcs = Ok conv ->
    exists conv', mapM (conv_layer E) (map f srcs) = Ok conv' /\ Forall2 cv_alike conv conv').
  { clear P. induction srcs as [|src srcs IH]; intros conv; cbn [mapM map].
    - intros [= <-]. exists []. auto.
    - destruct (conv_layer E src) as [x| |] eqn:Ex; try discriminate. cbn [bind].
      destruct (mapM (conv_layer E) srcs) as [xs| |]; try discriminate. cbn [bind]. intros [= <-].
      destruct (H _ _ Ex) as (y & Ey & Ay). destruct (IH _ eq_refl) as (ys & Eys & Ays).
      rewrite Ey. cbn [bind]. rewrite Eys. cbn [bind]. eexists. split; [reflexivity|]. now constructor. }
  destruct (mapM (conv_layer E) srcs) as [conv| |]; try discriminate. cbn [bind] in P. injection P as <-.
  destruct (Q _ eq_refl) as (conv' & Ec & Fc). rewrite Ec. cbn [bind]. eexists. split; [reflexivity|].
  rewrite <- (idmap_alike _ _ Fc). now apply resolve_alike.
Qed.
Definition erase_assets (m : list (string * list layer)) := map (fun p => (fst p, map erase_layer (snd p))) m.
Lemma insert_erase k v m : erase_assets (asset_insert k v m) = asset_insert k (map erase_layer v) (erase_assets m).
Proof.
  unfold asset_insert, erase_assets. cbn [map fst snd]. f_equal.
  induction m as [|[k' v'] m IH]; [reflexivity|]. cbn [filter map fst snd].
  destruct (negb (String.eqb k' k)); cbn [map fst snd]; now rewrite IH.
Qed.
Lemma assets_alike E f : harmless E f -> forall l m m' r, erase_assets m = erase_assets m' ->
  conv_assets E l m = Ok r -> exists r',
  conv_assets E (map (fun x => match x with
                               | AaPrecomp y ls fr xt => AaPrecomp y (map f ls) fr xt
                               | AaImage fa sl w h t => AaImage fa sl w h t
                               end) l) m' = Ok r' /\ erase_assets r = erase_assets r'.
Proof.
  intros H. induction l as [|x l IH]; intros m m' r Em P; cbn [conv_assets map] in *.
  - injection P as <-. exists m'. auto.
  - destruct x as [|y ls fr xt]; [discriminate|].
    destruct (process_layers E ls) as [lys| |] eqn:Ep; try discriminate. cbn [bind] in P.
    destruct (process_alike E f H _ _ Ep) as (lys' & Ep' & Al). rewrite Ep'. cbn [bind].
    eapply IH; [|exact P]. now rewrite !insert_erase, Em, Al.
Qed.
Lemma document_alike E f a c : harmless E f -> conv_animation E a = Ok c ->
  exists d, conv_animation E (map_layers f a) = Ok d /\ rendered_alike E c d.
Proof.
  intros H P. unfold conv_animation in *. cbn [map_layers ani_assets ani_layers ani_ip ani_op ani_fr ani_w ani_h].
  destruct (conv_assets E (unwrap_or (ani_assets a) []) []) as [r| |] eqn:Ea; try discriminate. cbn [bind] in P.
  destruct (process_layers E (ani_layers a)) as [lys| |] eqn:El; try discriminate. cbn [bind] in P.
  injection P as <-.
  destruct (assets_alike E f H _ [] [] _ eq_refl Ea) as (r' & Ea' & Ar).
  destruct (process_alike E f H _ _ El) as (lys' & El' & Al).
  eexists. split.
  - replace (unwrap_or (option_map _ (ani_assets a)) []) with
      (map (fun x => match x with
                               | AaPrecomp y ls fr xt => AaPrecomp y (map f ls) fr xt
                               | AaImage fa sl w h t => AaImage fa sl w h t
                               end) (unwrap_or (ani_assets a) [])).
    + rewrite Ea'. cbn [bind]. rewrite El'. cbn [bind]. reflexivity.
    + destruct (ani_assets a); reflexivity.
  - intros fuel frame tf alpha rr. apply C22_ignored_fields. unfold erase_comp; cbn.
    unfold erase_assets in Ar. now rewrite Ar, Al.
Qed.

(** [f] changes the common part of a layer only. *)
Definition on_visual (f : visual_layer -> visual_layer) (l : any_layer) : any_layer :=
  match l with
  | AlPrecomp v r w h st tm => AlPrecomp (f v) r w h st tm
  | AlSolid v sw sh sc => AlSolid (f v) sw sh sc
  | AlShape v s => AlShape (f v) s
  | AlNull v => AlNull (f v)
  | AlImage v r => AlImage (f v) r
  end.
Lemma visual_harmless E f :
  (forall v, vl_layer (f v) = vl_layer v) ->
  (forall v w h s x, setup_layer E v w h s = Ok x -> exists y, setup_layer E (f v) w h s = Ok y /\ cv_alike x y) ->
  harmless E (on_visual f).
Proof.
  intros Hl Hs l x. unfold conv_layer.
  assert (Hd : is_layer_hidden (on_visual f l) = is_layer_hidden l).
  { unfold is_layer_hidden. destruct l; cbn [on_visual visual_of]; now rewrite Hl. }
  rewrite Hd. set (hid := is_layer_hidden l). clearbody hid.
  assert (Fin : forall u u', cv_alike u u' ->
    cv_alike (if hid then mkConverted (with_is_mask (cv_layer u) false) (cv_id u) (cv_matte u) (cv_matte_ix u) else u)
             (if hid then mkConverted (with_is_mask (cv_layer u') false) (cv_id u') (cv_matte u') (cv_matte_ix u') else u')).
  { intros u u' (A & B & C & D). destruct hid; [|repeat split; assumption].
    repeat split; try assumption. cbn [cv_layer]. destruct (cv_layer u), (cv_layer u').
    unfold erase_layer in *; cbn in *. injection A; intros; subst. now f_equal. }
  assert (Con : forall u u' t, cv_alike u u' ->
    cv_alike (mkConverted (with_content (cv_layer u) t) (cv_id u) (cv_matte u) (cv_matte_ix u))
             (mkConverted (with_content (cv_layer u') t) (cv_id u') (cv_matte u') (cv_matte_ix u'))).
  { intros u u' t (A & B & C & D). repeat split; try assumption. cbn [cv_layer]. destruct (cv_layer u), (cv_layer u').
    unfold erase_layer in *; cbn in *. injection A; intros; subst. now f_equal. }
  destruct l as [v r w h st tm|v sw sh sc|v shs|v|v r]; cbn [on_visual];
    unfold setup_precomp_layer, setup_shape_layer, setup_layer_base; rewrite ?Hl;
    match goal with |- context[setup_layer E v ?w ?h ?s] => specialize (Hs v w h s);
      destruct (setup_layer E v w h s) as [u| |]; cbn [bind]; try discriminate;
      destruct (Hs _ eq_refl) as (u' & Eu & Au); rewrite Eu; cbn [bind] end.
  - destruct hid eqn:Eh; cbn [bind].
    + intros [= <-]. eexists. split; [reflexivity|]. now apply Fin.
    + destruct (mapO conv_scalar tm); cbn [bind]; try discriminate. intros [= <-]. eexists. split; [reflexivity|]. now apply Con.
  - intros [= <-]. eexists. split; [reflexivity|]. now apply Fin.
  - destruct hid eqn:Eh; cbn [bind].
    + intros [= <-]. eexists. split; [reflexivity|]. now apply Fin.
    + destruct (conv_shapes E shs); cbn [bind]; try discriminate. intros [= <-]. eexists. split; [reflexivity|]. now apply Con.
  - intros [= <-]. eexists. split; [reflexivity|]. now apply Fin.
  - intros [= <-]. eexists. split; [reflexivity|]. now apply Fin.
Qed.

(** * C63: solid layers *)
Definition is_solid (l : any_layer) : Prop := match l with AlSolid _ _ _ _ => True | _ => False end.
(** Solid layers, and null and image layers, make no draw call of their own. *)
Theorem C63_draws_nothing : forall E a c s i src ly set idx tf alpha frame es,
  conv_animation E a = Ok c -> nth_error (source_layers a s) i = Some src -> layer_at c (s, i) = Some ly ->
  match src with AlSolid _ _ _ _ | AlNull _ | AlImage _ _ => True | _ => False end ->
  vl_tt (visual_of src) = None ->
  layer_draws E c set ly idx tf alpha frame es -> forall p, ~ In (EvDraw p) es.
Proof.
  intros E a c s i src ly set idx tf alpha frame es H Hs Hl Hk Ht D p Hin.
  destruct (conv_animation_reads _ _ _ H s) as [_ R]. destruct (R i src ly Hs Hl) as [_ _ M _ Hc Hc' _].
  assert (Cn : ly_content ly = CNone).
  { destruct (is_layer_hidden src) eqn:Hh.
    - apply Hc. now apply hidden_iff.
    - assert (X : ~ src_hidden src) by (rewrite <- hidden_iff; congruence).
      specialize (Hc' X). destruct src; cbn in Hc'; try contradiction; exact Hc'. }
  assert (Nm : ly_mask_layer ly = None).
  { destruct (ly_mask_layer ly) as [[mode k]|]; [|reflexivity]. exfalso.
    destruct (proj1 (M mode k) eq_refl) as (t & X & _). congruence. }
  destruct (in_window ly frame) eqn:W.
  2:{ apply layer_draws_inactive in D; [subst es; destruct Hin|]. rewrite active_in_window. congruence. }
  apply active_in_window in W. apply layer_draws_active in D; [|exact W].
  destruct D as (matte & clips & inner & Dm & (paths & _ & ->) & Di & ->).
  unfold matte_draws in Dm. rewrite Nm in Dm. unfold content_draws in Di. rewrite Cn in Di. subst matte inner.
  cbn [app] in Hin. destruct Hin as [X|Hin]; [discriminate|]. apply in_app_or in Hin.
  destruct Hin as [Hin|Hin]; [apply in_map_iff in Hin; destruct Hin as (? & ? & _); discriminate|].
  apply in_app_or in Hin. destruct Hin as [Hin|[X|[]]]; [|discriminate].
  apply repeat_spec in Hin. discriminate.
Qed.
Definition doc_solid : animation :=
  doc [] [AlSolid (visual (base "red" None None None) (tr_pos 0 0) None None None) (f_of_Z 40) (f_of_Z 30) "#ff0000"].
Lemma doc_solid_layers E c : conv_animation E doc_solid = Ok c -> exists ly,
  co_layers c = [ly] /\ layer_at c (None, 0) = Some ly.
Proof.
  intros H. destruct (conv_animation_reads _ _ _ H None) as [L _]. cbn [source_layers doc_solid doc ani_layers List.length] in L.
  cbn [scope_layers] in L. unfold layer_at. cbn [scope_layers fst snd].
  destruct (co_layers c) as [|ly [|]]; try discriminate. exists ly. auto.
Qed.
(** Not so: the document below has one layer, a visible solid, and nothing is
    ever drawn. *)
Theorem C63_refuted : exists l c,
  source_layers doc_solid None = [l] /\ is_solid l /\ ~ src_hidden l /\
  conv_animation E0 doc_solid = Ok c /\
  (exists ly, co_layers c = [ly] /\ active ly f0) /\
  (exists es, append_draws E0 c f0 affine_identity f1 renderer_new es) /\
  forall frame tf alpha es, append_draws E0 c frame tf alpha renderer_new es -> forall p, ~ In (EvDraw p) es.
Proof.
  eexists. destruct (conv_animation E0 doc_solid) as [c| |] eqn:C.
  2,3: assert (X : is_ok (conv_animation E0 doc_solid) = true) by (vm_compute; reflexivity); rewrite C in X; discriminate.
  exists c. split; [reflexivity|]. split; [exact I|]. split; [intros X; discriminate X|]. split; [reflexivity|].
  destruct (doc_solid_layers _ _ C) as (ly & Ly & At). split; [|split].
  - exists ly. split; [exact Ly|].
    assert (W : match conv_animation E0 doc_solid with
                | Ok c => forallb (fun ly => in_window ly f0) (co_layers c) | _ => false end = true) by (vm_compute; reflexivity).
    rewrite C, Ly in W. cbn in W. rewrite andb_true_r in W. now apply active_in_window.
  - exists (events (append E0 3 c f0 affine_identity f1 renderer_new)). exists 3. split; [|reflexivity].
    assert (W : match conv_animation E0 doc_solid with
                | Ok c => is_ok (r_out (append E0 3 c f0 affine_identity f1 renderer_new)) | _ => false end = true)
      by (vm_compute; reflexivity).
    rewrite C in W. destruct (r_out (append E0 3 c f0 affine_identity f1 renderer_new)) as [[]| |]; try discriminate. reflexivity.
  - intros frame tf alpha es D p Hin. apply append_draws_iff in D; [|reflexivity].
    destruct D as (ess & F & ->). destruct Hin as [X|Hin]; [discriminate|]. apply in_app_or in Hin.
    destruct Hin as [Hin|[X|[]]]; [|discriminate]. apply in_concat in Hin. destruct Hin as (e & He & Hin).
    rewrite Ly in F. cbn [enumerate combine seq List.length rev app visible filter] in F.
    destruct (negb (ly_is_mask (snd (0, ly)))).
    + inversion F as [|? ? ? ? D F']; subst. inversion F'; subst. destruct He as [<-|[]]. cbn [fst snd] in D.
      refine (C63_draws_nothing E0 doc_solid c None 0 _ ly _ _ _ _ _ _ C eq_refl At I eq_refl D p Hin).
    + inversion F; subst. destruct He.
Qed.

(** * C64: modes, inversion, opacity and expansion of masks *)
Definition plain_mask (m : s_mask) : s_mask := mkSMask (mas_nm m) (mas_mn m) None (mas_pt m) None None None.
Definition plain_masks (v : visual_layer) : visual_layer :=
  mkVisualLayer (vl_layer v) (vl_tt v) (vl_td v) (option_map (map plain_mask) (vl_masks v)) (vl_ks v) (vl_ao v)
    (vl_tp v) (vl_has_mask v) (vl_mb v) (vl_bm v) (vl_cl v) (vl_ln v) (vl_tg v) (vl_cp v) (vl_ct v).
Lemma conv_plain_masks l : forall ms, conv_masks l = Ok ms ->
  exists ms', conv_masks (map plain_mask l) = Ok ms' /\ map erase_mask ms = map erase_mask ms'.
Proof.
  induction l as [|m l IH]; intros ms; cbn [conv_masks map].
  - intros [= <-]. exists []. auto.
  - cbn [plain_mask mas_pt mas_o].
    destruct (mas_pt m) as [sh|]; cbn [bind].
    + destruct (conv_shape_geometry sh) as [[g|]| |]; cbn [bind]; try discriminate.
      * destruct (conv_scalar (unwrap_or (mas_o m) float_value_one_hundred)) as [o| |]; cbn [bind]; try discriminate.
        destruct (conv_masks l) as [rest| |]; cbn [bind]; try discriminate. intros [= <-].
        destruct (IH _ eq_refl) as (ms' & E1 & A). rewrite E1.
        destruct (conv_scalar (unwrap_or None float_value_one_hundred)) as [o'| |] eqn:Eo.
        -- cbn [bind]. eexists. split; [reflexivity|]. cbn [map]. rewrite A. reflexivity.
        -- assert (X : is_ok (conv_scalar (unwrap_or None float_value_one_hundred)) = true) by (vm_compute; reflexivity).
           rewrite Eo in X. discriminate.
        -- assert (X : is_ok (conv_scalar (unwrap_or None float_value_one_hundred)) = true) by (vm_compute; reflexivity).
           rewrite Eo in X. discriminate.
      * destruct (conv_masks l) as [rest| |]; cbn [bind]; try discriminate. intros [= <-].
        destruct (IH _ eq_refl) as (ms' & E1 & A). rewrite E1. cbn [bind]. eauto.
    + destruct (conv_masks l) as [rest| |]; cbn [bind]; try discriminate. intros [= <-].
      destruct (IH _ eq_refl) as (ms' & E1 & A). rewrite E1. cbn [bind]. eauto.
Qed.
Lemma plain_masks_harmless E : harmless E (on_visual plain_masks).
Proof.
  apply visual_harmless; [reflexivity|]. intros v w h s x. unfold setup_layer.
  cbn [plain_masks vl_layer vl_ks vl_bm vl_masks vl_tt vl_td vl_tp].
  destruct (conv_transform E (vl_ks v)) as [t| |]; cbn [bind]; try discriminate.
  destruct (conv_blend_mode (unwrap_or (vl_bm v) SbNormal)) as [b| |]; cbn [bind]; try discriminate.
  replace (unwrap_or (option_map (map plain_mask) (vl_masks v)) []) with (map plain_mask (unwrap_or (vl_masks v) []))
    by (destruct (vl_masks v); reflexivity).
  destruct (conv_masks (unwrap_or (vl_masks v) [])) as [ms| |] eqn:Em; cbn [bind]; try discriminate.
  destruct (conv_plain_masks _ _ Em) as (ms' & E1 & A). rewrite E1. cbn [bind]. intros [= <-].
  eexists. split; [reflexivity|]. repeat split. unfold erase_layer; cbn. now rewrite A.
Qed.
Lemma same_image E f a b c d : harmless E f -> map_layers f a = map_layers f b ->
  conv_animation E a = Ok c -> conv_animation E b = Ok d -> rendered_alike E c d.
Proof.
  intros H Eq A B. destruct (document_alike E f a c H A) as (c' & C1 & C2).
  destruct (document_alike E f b d H B) as (d' & D1 & D2). rewrite Eq in C1. rewrite C1 in D1. injection D1 as <-.
  intros fuel frame tf alpha r. destruct (C2 fuel frame tf alpha r) as [P Q], (D2 fuel frame tf alpha r) as [P' Q'].
  split; congruence.
Qed.
(** Two documents that differ only in mode, inversion, opacity and expansion
    of masks are rendered alike. *)
Theorem C64_ignored : forall E a b c d,
  map_layers (on_visual plain_masks) a = map_layers (on_visual plain_masks) b ->
  conv_animation E a = Ok c -> conv_animation E b = Ok d -> rendered_alike E c d.
Proof. intros E a b c d. apply same_image, plain_masks_harmless. Qed.
(** So a mask with mode "none" still clips. *)
Definition mask_outline : shape_prop :=
  mkShapeProp None None None (SkStatic (mkBezier (Some true)
    [(f0, f0); (f1, f0); (f1, f1)] [(f0, f0); (f0, f0); (f0, f0)] [(f0, f0); (f0, f0); (f0, f0)])).
Definition mask_with (inv : option bool) (o : option float_value) (mode : option mask_mode) : s_mask :=
  mkSMask None None inv (Some mask_outline) o mode None.
Definition masked (ms : list s_mask) : any_layer :=
  AlShape (mkVisualLayer (base "l" None None None) None None (Some ms) (tr_pos 0 0) None None None None None None None None None None)
    [rect_at 1 1; fill_in no_ge].
Definition doc_mask (m : s_mask) : animation := doc [] [masked [m]].

Definition has_mask_clip (es : list event) : bool :=
  existsb (fun e => match e with EvPushClip _ (SkPath _) => true | _ => false end) es.
(** Some rendering of the document at frame 0 returns, and passes the test. *)
Definition rendering_test (a : animation) (f : composition -> list event -> bool) : bool :=
  match conv_animation E0 a with
  | Ok c => is_ok (r_out (append E0 5 c f0 affine_identity f1 renderer_new)) &&
            f c (events (append E0 5 c f0 affine_identity f1 renderer_new))
  | _ => false
  end.
Lemma rendering_tested a f : rendering_test a f = true -> exists c es,
  conv_animation E0 a = Ok c /\ append_draws E0 c f0 affine_identity f1 renderer_new es /\ f c es = true.
Proof.
  unfold rendering_test. destruct (conv_animation E0 a) as [c| |]; try discriminate. intros H.
  apply andb_true_iff in H. destruct H as [H1 H2]. exists c. eexists. split; [reflexivity|]. split; [|exact H2].
  exists 5. split; [|reflexivity]. destruct (r_out (append E0 5 c f0 affine_identity f1 renderer_new)) as [[]| |]; try discriminate.
  reflexivity.
Qed.
Theorem C64_refuted : exists c es t path,
  conv_animation E0 (doc_mask (mask_with None None (Some MkNone))) = Ok c /\
  append_draws E0 c f0 affine_identity f1 renderer_new es /\ In (EvPushClip t (SkPath path)) es.
Proof.
  destruct (rendering_tested (doc_mask (mask_with None None (Some MkNone))) (fun _ => has_mask_clip)) as (c & es & C & D & T).
  { vm_compute. reflexivity. }
  apply existsb_exists in T. destruct T as ([| t [|path] | | | |] & Hin & X); try discriminate.
  exists c, es, t, path. auto.
Qed.
Example C64_witness : let a := doc_mask (mask_with None None (Some MkAdd)) in
  let b := doc_mask (mask_with (Some true) (Some (st f0)) (Some MkSubtract)) in
  a <> b /\ map_layers (on_visual plain_masks) a = map_layers (on_visual plain_masks) b /\
  is_ok (conv_animation E0 a) = true /\ is_ok (conv_animation E0 b) = true.
Proof. split; [discriminate|]. split; [reflexivity|]. split; vm_compute; reflexivity. Qed.

(** * C65: blend modes of layers *)
Definition plain_blend (v : visual_layer) : visual_layer :=
  mkVisualLayer (vl_layer v) (vl_tt v) (vl_td v) (vl_masks v) (vl_ks v) (vl_ao v) (vl_tp v) (vl_has_mask v) (vl_mb v)
    None (vl_cl v) (vl_ln v) (vl_tg v) (vl_cp v) (vl_ct v).
Lemma plain_blend_harmless E : harmless E (on_visual plain_blend).
Proof.
  apply visual_harmless; [reflexivity|]. intros v w h s x. unfold setup_layer.
  cbn [plain_blend vl_layer vl_ks vl_bm vl_masks vl_tt vl_td vl_tp unwrap_or].
  destruct (conv_transform E (vl_ks v)) as [t| |]; cbn [bind]; try discriminate.
  destruct (conv_blend_mode (unwrap_or (vl_bm v) SbNormal)) as [b| |]; cbn [bind]; try discriminate.
  cbn [conv_blend_mode bind].
  destruct (conv_masks (unwrap_or (vl_masks v) [])) as [ms| |]; cbn [bind]; try discriminate. intros [= <-].
  eexists. split; [reflexivity|]. repeat split.
Qed.
(** Two documents that differ only in blend modes of layers are rendered alike. *)
Theorem C65_ignored : forall E a b c d,
  map_layers (on_visual plain_blend) a = map_layers (on_visual plain_blend) b ->
  conv_animation E a = Ok c -> conv_animation E b = Ok d -> rendered_alike E c d.
Proof. intros E a b c d. apply same_image, plain_blend_harmless. Qed.
(** Whatever is rendered, a blend layer is pushed for mattes only: it is opaque,
    covers the composition, and has the normal mode or the mode of the matte. *)
Theorem C65_only_mattes : forall E fuel c frame tf alpha b al t sh,
  In (EvPushLayer b al t sh) (events (append E fuel c frame tf alpha renderer_new)) ->
  al = f32_one /\ sh = full_rect c /\
  exists p ly mode k, layer_at c p = Some ly /\ ly_mask_layer ly = Some (mode, k) /\
    (b = blend_of_mix MixNormal \/ b = mode).
Proof.
  intros E fuel c frame tf alpha b al t sh H.
  pose proof (accounted_append E fuel c frame tf alpha renderer_new eq_refl) as F.
  rewrite Forall_forall in F. exact (F _ H).
Qed.
Example C65_only_mattes_witness :
  existsb (fun e => match e with EvPushLayer _ _ _ _ => true | _ => false end)
    (events (append E0 5 comp1 (f_of_Z 3) affine_identity f1 renderer_new)) = true.
Proof. vm_compute. reflexivity. Qed.
Definition blended (b : option s_blend) : any_layer :=
  AlShape (mkVisualLayer (base "l" None None None) None None None (tr_pos 0 0) None None None None b None None None None None)
    [rect_at 1 1; fill_in no_ge].
Definition doc_blend (b : option s_blend) : animation := doc [] [blended b].
Definition no_blend_layer (es : list event) : bool :=
  forallb (fun e => match e with EvPushLayer _ _ _ _ => false | _ => true end) es.
(** So a layer set to multiply is painted without any blend layer. *)
Theorem C65_refuted : exists c es,
  conv_animation E0 (doc_blend (Some SbMultiply)) = Ok c /\
  map ly_blend_mode (co_layers c) = [Some (blend_of_mix MixMultiply)] /\
  append_draws E0 c f0 affine_identity f1 renderer_new es /\ (exists p, In (EvDraw p) es) /\
  forall b al t sh, ~ In (EvPushLayer b al t sh) es.
Proof.
  destruct (rendering_tested (doc_blend (Some SbMultiply)) (fun c es => no_blend_layer es &&
    existsb (fun e => match e with EvDraw _ => true | _ => false end) es &&
    match map ly_blend_mode (co_layers c) with [Some b] => blend_eqb b (blend_of_mix MixMultiply) | _ => false end))
    as (c & es & C & D & T).
  { vm_compute. reflexivity. }
  apply andb_true_iff in T. destruct T as [T T3]. apply andb_true_iff in T. destruct T as [T1 T2].
  exists c, es. split; [exact C|]. split.
  - assert (W : match conv_animation E0 (doc_blend (Some SbMultiply)) with
                | Ok c => map ly_blend_mode (co_layers c) | _ => [] end = [Some (blend_of_mix MixMultiply)])
      by (vm_compute; reflexivity).
    rewrite C in W. exact W.
  - split; [exact D|]. split.
    + apply existsb_exists in T2. destruct T2 as ([| | |p| |] & Hin & X); try discriminate. eauto.
    + intros b al t sh Hin. unfold no_blend_layer in T1. rewrite forallb_forall in T1. specialize (T1 _ Hin). discriminate.
Qed.
Example C65_witness : doc_blend None <> doc_blend (Some SbScreen) /\
  map_layers (on_visual plain_blend) (doc_blend None) = map_layers (on_visual plain_blend) (doc_blend (Some SbScreen)) /\
  is_ok (conv_animation E0 (doc_blend (Some SbScreen))) = true.
Proof. split; [discriminate|]. split; [reflexivity|]. vm_compute. reflexivity. Qed.

(** * C66: the size of a precomposition *)
Definition plain_size (l : any_layer) : any_layer :=
  match l with AlPrecomp v r _ _ st tm => AlPrecomp v r f0 f0 st tm | l => l end.
Lemma plain_size_harmless E : harmless E plain_size.
Proof.
  intros l x. destruct l as [v r w h st tm| | | |]; cbn [plain_size]; eauto using conj; try (intros; eexists; repeat split; eassumption).
  unfold conv_layer. change (is_layer_hidden (AlPrecomp v r f0 f0 st tm)) with (is_layer_hidden (AlPrecomp v r w h st tm)).
  set (hid := is_layer_hidden (AlPrecomp v r w h st tm)). clearbody hid.
  unfold setup_precomp_layer, setup_layer.
  destruct (conv_transform E (vl_ks v)) as [t| |]; cbn [bind]; try discriminate.
  destruct (conv_blend_mode (unwrap_or (vl_bm v) SbNormal)) as [b| |]; cbn [bind]; try discriminate.
  destruct (conv_masks (unwrap_or (vl_masks v) [])) as [ms| |]; cbn [bind]; try discriminate.
  destruct hid; cbn [bind].
  - intros [= <-]. eexists. split; [reflexivity|]. repeat split.
  - destruct (mapO conv_scalar tm); cbn [bind]; try discriminate. intros [= <-]. eexists. split; [reflexivity|]. repeat split.
Qed.
(** Two documents that differ only in the sizes of precomposition layers are
    rendered alike. *)
Theorem C66_ignored : forall E a b c d,
  map_layers plain_size a = map_layers plain_size b ->
  conv_animation E a = Ok c -> conv_animation E b = Ok d -> rendered_alike E c d.
Proof. intros E a b c d. apply same_image, plain_size_harmless. Qed.
(** Whatever is rendered, a clip is the rectangle of the whole composition or
    the outline of some layer's mask. *)
Theorem C66_clips : forall E fuel c frame tf alpha t sh,
  In (EvPushClip t sh) (events (append E fuel c frame tf alpha renderer_new)) ->
  sh = full_rect c \/
  exists p ly m fr els, layer_at c p = Some ly /\ In m (ly_masks ly) /\
    geometry_eval E (mk_geometry m) fr = Ok els /\ sh = SkPath els.
Proof.
  intros E fuel c frame tf alpha t sh H.
  pose proof (accounted_append E fuel c frame tf alpha renderer_new eq_refl) as F.
  rewrite Forall_forall in F. exact (F _ H).
Qed.
Example C66_clips_witness :
  has_mask_clip (events (append E0 5 comp1 (f_of_Z 3) affine_identity f1 renderer_new)) = true.
Proof. vm_compute. reflexivity. Qed.
Definition doc_size (n : Z) : animation :=
  doc [AaPrecomp (mkAsset "pre" no_vo)
         [AlShape (visual (base "a" None None None) (tr_pos 0 0) None None None) [rect_at 1 1; fill_in no_ge]] None None]
      [AlPrecomp (visual (base "inst" None None None) (tr_pos 0 0) None None None) "pre" (f_of_Z n) (f_of_Z n) f0 None].
Definition clips (es : list event) : list event :=
  filter (fun e => match e with EvPushClip _ _ => true | _ => false end) es.
(** So a precomposition of size 1 x 1 shows more: its contents, 10 x 10, are
    drawn under the clip of the whole composition only. *)
Theorem C66_refuted : exists c es,
  conv_animation E0 (doc_size 1) = Ok c /\
  append_draws E0 c f0 affine_identity f1 renderer_new es /\ (exists p, In (EvDraw p) es) /\
  exists t, clips es = [EvPushClip t (full_rect c)].
Proof.
  destruct (rendering_tested (doc_size 1) (fun c es => (List.length (clips es) =? 1) && negb (has_mask_clip es) &&
    existsb (fun e => match e with EvDraw _ => true | _ => false end) es)) as (c & es & C & D & T).
  { vm_compute. reflexivity. }
  apply andb_true_iff in T. destruct T as [T T3]. apply andb_true_iff in T. destruct T as [T1 T2].
  exists c, es. split; [exact C|]. split; [exact D|]. split.
  - apply existsb_exists in T3. destruct T3 as ([| | |p| |] & Hin & X); try discriminate. eauto.
  - apply append_draws_iff in D; [|reflexivity]. destruct D as (ess & _ & ->). unfold clips in T1 |- *.
    cbn [filter List.length] in T1 |- *. exists affine_identity. f_equal.
    apply Nat.eqb_eq in T1. injection T1 as T1. now apply length_zero_iff_nil.
Qed.
Example C66_witness : doc_size 1 <> doc_size 50 /\
  map_layers plain_size (doc_size 1) = map_layers plain_size (doc_size 50) /\ is_ok (conv_animation E0 (doc_size 50)) = true.
Proof.
  split; [|split; [reflexivity|vm_compute; reflexivity]].
  intros H. apply (f_equal (fun a => match ani_layers a with [AlPrecomp _ _ w _ _ _] => fltb w (f_of_Z 2) | _ => false end)) in H.
  vm_compute in H. discriminate.
Qed.

From Coq Require Import Reals Lra.
From Flocq Require Import Core BinarySingleNaN.
From Verif Require Import F64Facts.
Lemma f32_one_R : B2R f32_one = 1%R.
Proof.
  unfold f32_one. pose proof f1_R as R1. destruct f1 as [?|?| |s m e B] eqn:Q; try (cbn [B2R] in R1; lra).
  cbn [f64_to_f32]. pose proof (binary_normalize_correct 24 128 _ _ mode_NE (cond_Zopp s (Zpos m)) e s) as N. cbv zeta in N.
  cbn [B2R] in R1. rewrite R1 in N. rewrite round_generic in N.
  - rewrite Rlt_bool_true in N; [apply N|]. rewrite Rabs_R1. apply (bpow_lt radix2 0 128). lia.
  - apply valid_rnd_N.
  - change 1%R with (bpow radix2 0). apply generic_format_bpow. unfold SpecFloat.fexp, SpecFloat.emin. lia.
Qed.
(** Opaque means alpha 1, and the composition's rectangle starts at the origin. *)
Theorem C65_opaque : forall E fuel c frame tf alpha b al t sh,
  In (EvPushLayer b al t sh) (events (append E fuel c frame tf alpha renderer_new)) ->
  B2R al = 1%R /\ exists x y w h, sh = SkRect x y w h /\ B2R x = 0%R /\ B2R y = 0%R /\
    w = f_of_Z (co_width c) /\ h = f_of_Z (co_height c).
Proof.
  intros E fuel c frame tf alpha b al t sh H. destruct (C65_only_mattes _ _ _ _ _ _ _ _ _ _ H) as (-> & -> & _). split.
  - apply f32_one_R.
  - exists f0, f0, (f_of_Z (co_width c)), (f_of_Z (co_height c)). repeat split; try reflexivity; apply f0_R.
Qed.
