(** Facts about the importer, part 3: shapes, masks, layers, references. *)
From Coq Require Import ZArith Bool List Arith String Lia.
From Flocq Require Import Core BinarySingleNaN.
From Verif Require Import F64 Kurbo Value Animated Render RenderSpec ValueSpec SplineFacts
  Schema Import ImportSpec ImportFacts ImportFacts2.
Import ListNotations.
Open Scope list_scope.
Open Scope nat_scope.

(** * Drawing operations *)

Lemma brush_wf_solid E c : value_wf (conv_color c) -> brush_wf (a_brush_into_model E (ABSolid (conv_color c))).
Proof. unfold a_brush_into_model. destruct (a_brush_is_fixed _); [intros; exact I|auto]. Qed.
Lemma stroke_wf_model E s : value_wf (as_width s) -> stroke_wf (a_stroke_into_model E s).
Proof. unfold a_stroke_into_model. destruct (a_stroke_is_fixed s); [intros; exact I|auto]. Qed.
Lemma solid_reads_model E c : solid_reads E c (a_brush_into_model E (ABSolid (conv_color c))).
Proof.
  exists (conv_color c). split; [apply conv_color_reads|]. intros frame.
  replace see_through with color_transparent by reflexivity. apply brush_model.
Qed.
Lemma stroke_reads_model E j0 c0 bs w : scalar_reads (bs_w bs) w ->
  stroke_reads E j0 c0 bs (a_stroke_into_model E
    (mkAStroke w (conv_join (unwrap_or (bs_lj bs) j0)) (bs_ml bs) (conv_cap (unwrap_or (bs_lc bs) c0)))).
Proof.
  intros H. exists w. split; [exact H|]. intros frame. rewrite stroke_model.
  unfold a_stroke_eval, join_of, cap_of, unwrap_or, conv_join, conv_cap. cbn.
  destruct (bs_lj bs) as [[]|]; destruct (bs_lc bs) as [[]|]; try reflexivity;
    try (destruct j0; reflexivity); try (destruct c0; reflexivity); destruct j0, c0; reflexivity.
Qed.
Lemma conv_gradient_spec E g : spec (conv_gradient E g) (gradient_supported g)
  (fun a => gradient_reads E g (a_brush_into_model E (ABGradient a)) /\
            brush_wf (a_brush_into_model E (ABGradient a))).
Proof.
  unfold conv_gradient. eapply spec_bind_ok; [apply conv_gradient_colors_spec|]. intros stops _ H.
  apply spec_ret. set (a := mkAGradient _ _ _ _).
  assert (R1 : vector_reads point_of (md_p (bg_s g)) (ag_start a)) by (apply conv_multi_reads, to_point_of).
  assert (R2 : vector_reads point_of (md_p (bg_e g)) (ag_end a)) by (apply conv_multi_reads, to_point_of).
  split.
  - exists (ag_start a), (ag_end a), stops. split; [exact R1|]. split; [exact R2|]. split; [exact H|].
    intros frame. rewrite brush_model. cbn [a_brush_eval]. unfold a_gradient_eval.
    cbn [ag_radial ag_stops a]. unfold is_radial. destruct (bg_t g) as [[]|]; eexists; split; reflexivity.
  - unfold a_brush_into_model. destruct (a_brush_is_fixed _); [exact I|]. cbn.
    split; [exact (vector_reads_wf _ _ _ R1)|]. split; [exact (vector_reads_wf _ _ _ R2)|].
    unfold gradient_stops_read in H. destruct (ap_k (md_p (gc_k (bg_g g)))).
    + destruct H as (a' & -> & _ & F1 & F2). apply Forall2_len in F1, F2. congruence.
    + destruct H as (out & -> & _). exact I.
Qed.

(** * Shapes *)

Section Ind.
  Variable P : any_shape -> Prop.
  Hypothesis Hg : forall ge np it cix, Forall P it -> P (AsGroup ge np it cix).
  Hypothesis Ho : forall x, (forall ge np it cix, x <> AsGroup ge np it cix) -> P x.
  Fixpoint any_shape_ind2 (x : any_shape) : P x.
  Proof.
    destruct x.
    - apply Hg. induction it; constructor; auto.
    - apply Ho; discriminate. - apply Ho; discriminate. - apply Ho; discriminate.
    - apply Ho; discriminate. - apply Ho; discriminate. - apply Ho; discriminate.
    - apply Ho; discriminate. - apply Ho; discriminate. - apply Ho; discriminate.
    - apply Ho; discriminate. - apply Ho; discriminate. - apply Ho; discriminate.
    - apply Ho; discriminate. - apply Ho; discriminate. - apply Ho; discriminate.
    - apply Ho; discriminate.
  Defined.
End Ind.

Fixpoint conv_items (E : Ext) (l : list any_shape) (shapes : list shape) (gt : option group_transform)
  : res (list shape * option group_transform) :=
  match l with
  | [] => Ok (shapes, gt)
  | item :: l =>
      match item with
      | AsTransform t => let! g := conv_shape_transform E t in conv_items E l shapes (Some g)
      | _ => let! o := conv_shape E item in
             conv_items E l (match o with Some s => shapes ++ [s] | None => shapes end) gt
      end
  end.
Lemma conv_group E ge np it cix : conv_shape E (AsGroup ge np it cix) =
  let! r := conv_items E it [] None in
  match fst r with [] => Ok None | _ => Ok (Some (ShGroup (fst r) (snd r))) end.
Proof.
  cbn [conv_shape conv_draw conv_geometry bind].
  match goal with |- bind (?F it [] None) _ = _ => set (G := F) end.
  assert (H : forall l sh gt, G l sh gt = conv_items E l sh gt).
  { induction l as [|x l IH]; intros sh gt; [reflexivity|].
    destruct x; unfold G; cbn [conv_items]; fold G;
      match goal with |- bind ?a _ = bind ?b _ =>
        change a with b; destruct b; cbn [bind]; [apply IH|reflexivity|reflexivity] end. }
  now rewrite H.
Qed.

Definition shape_result (E : Ext) (x : any_shape) (o : option shape) : Prop :=
  match o with Some s => yields x /\ becomes E x s /\ shape_wf s | None => ~ yields x end.
Definition shape_spec (E : Ext) (x : any_shape) : Prop :=
  spec (conv_shape E x) (shape_supported x) (shape_result E x).

Definition items_supported (l : list any_shape) : Prop :=
  (forall t, In (AsTransform t) l -> group_transform_supported (trs_t t)) /\
  (forall x, In x l -> shape_supported x).
Definition gt_reads (E : Ext) (t : option transform_shape) (g : option group_transform) : Prop :=
  match t, g with
  | None, None => True
  | Some t, Some g => transform_result E (trs_t t) (gt_transform g) (gt_opacity g)
  | _, _ => False
  end.

Lemma not_yields_transform t : ~ yields (AsTransform t).
Proof. inversion 1. Qed.

Lemma item_dec (x : any_shape) : (exists t, x = AsTransform t) \/ forall t, x <> AsTransform t.
Proof. destruct x; try (right; discriminate). left. eauto. Qed.
Lemma conv_items_cons E item l shapes gt : (forall t, item <> AsTransform t) ->
  conv_items E (item :: l) shapes gt =
  let! o := conv_shape E item in
  conv_items E l (match o with Some s => shapes ++ [s] | None => shapes end) gt.
Proof. intros H. destruct item; try reflexivity. now destruct (H t). Qed.

Lemma conv_items_spec E : forall l, Forall (shape_spec E) l -> forall shapes gt,
  spec (conv_items E l shapes gt) (items_supported l)
    (fun r => (exists new, fst r = shapes ++ new /\ imports E l new /\ forall x, In x new -> shape_wf x) /\
      exists t, last_transform l t /\ match t with None => snd r = gt | Some _ => gt_reads E t (snd r) end).
Proof.
  induction 1 as [|x l Hx Hl IH]; intros shapes gt.
  - cbn. split; [split; intros ? []|]. split.
    + exists []. rewrite app_nil_r. split; [reflexivity|]. split; [constructor|intros ? []].
    + exists None. cbn. auto.
  - destruct (item_dec x) as [[t ->]|Nt].
    + cbn [conv_items]. eapply spec_iff; [|eapply spec_bind; [apply conv_shape_transform_spec|]].
      2:{ intros g _ Hg. eapply spec_weaken; [|apply IH]. cbn beta.
          intros r [(new & H1 & H2 & H3) (t' & H4 & H5)]. split.
          - exists new. split; [exact H1|]. split; [|exact H3]. constructor; [apply not_yields_transform|exact H2].
          - destruct t' as [t'|].
            + exists (Some t'). split; [|exact H5]. destruct H4 as (a & b & -> & H4).
              exists (AsTransform t :: a), b. auto.
            + exists (Some t). split; [exists [], l; split; [reflexivity|exact H4]|]. rewrite H5. exact Hg. }
      unfold items_supported. split.
      * intros (H1 & H2 & H3). split.
        -- intros t' [[= ->]|H]; auto.
        -- intros y [<-|H]; [constructor|auto].
      * intros [H1 H2]. split; [apply H1; now left|]. split; intros; [apply H1|apply H2]; now right.
    + rewrite conv_items_cons by exact Nt.
      eapply spec_iff; [|eapply spec_bind; [apply Hx|]].
      2:{ intros o _ Ho. eapply spec_weaken; [|apply IH]. cbn beta.
          intros r [(new & H1 & H2 & H3) (t' & H4 & H5)]. split.
          - destruct o as [s|]; cbn in Ho.
            + destruct Ho as (Y & B & W). exists (s :: new). rewrite <- app_assoc in H1. split; [exact H1|].
              split; [apply imp_keep; auto|]. intros y [<-|Hy]; auto.
            + exists new. split; [exact H1|]. split; [apply imp_drop; auto|exact H3].
          - exists t'. split; [|exact H5]. destruct t' as [t'|].
            + destruct H4 as (a & b & -> & H4). exists (x :: a), b. auto.
            + intros u [Hu|Hu]; [now apply (Nt u)|now apply (H4 u)]. }
      unfold items_supported. split.
      * intros (H1 & H2 & H3). split.
        -- intros t' [H|H]; [now destruct (Nt t')|auto].
        -- intros y [<-|H]; auto.
      * intros [H1 H2]. split; [apply H2; now left|]. split; intros; [apply H1|apply H2]; now right.
Qed.
Lemma imports_nil E : forall l, imports E l [] -> forall x, In x l -> ~ yields x.
Proof.
  intros l H. remember [] as out eqn:O. induction H; try discriminate; intros y Hy.
  - destruct Hy.
  - destruct Hy as [<-|Hy]; auto.
Qed.
Lemma imports_cons_yields E : forall l s out, imports E l (s :: out) -> exists x, In x l /\ yields x.
Proof.
  intros l s out H. remember (s :: out) as o eqn:O. revert s out O. induction H; intros s' out' O; try discriminate.
  - destruct (IHimports _ _ O) as (y & Hy & Y). exists y. split; [now right|exact Y].
  - exists x. split; [now left|assumption].
Qed.

Lemma shape_all E : forall x, shape_spec E x.
Proof.
  apply any_shape_ind2.
  - intros ge np it cix H. unfold shape_spec. rewrite conv_group.
    eapply spec_bind_ok.
    + eapply spec_iff; [|apply conv_items_spec; exact H]. split.
      * intros [H1 H2]. constructor; auto.
      * inversion 1; subst. split; auto.
    + intros [shs gt] _ [(new & H1 & H2 & H3) (t & H4 & H5)]. cbn [fst snd app] in *. subst shs.
      destruct new as [|s new].
      * apply spec_ret. intros Y. inversion Y; subst. now apply (imports_nil _ _ H2 x).
      * apply spec_ret. split; [|split].
        -- destruct (imports_cons_yields _ _ _ _ H2) as (y & Hy & Y). econstructor; eauto.
        -- econstructor; [exact H2|exact H4|]. destruct t as [t|]; [|subst gt; exact I].
           destruct gt as [g|]; [|exact H5]. apply H5.
        -- constructor; [exact H3|]. intros g ->. destruct t as [t|]; [|discriminate].
           split; apply H5.
  - intros x Hx. unfold shape_spec.
    assert (ST : forall st, spec (conv_scalar (sst_o st)) (scalar_supported (sst_o st)) (scalar_reads (sst_o st)))
      by (intros; apply conv_scalar_spec).
    destruct x as [ge np it cix|sh p s r|sh p s|t|st bs c|m a|ge mm|m c o mm tr|m a lj ml|st c r|m s e o mm|sh ks
      |st g r|st bs g|m a p|m r|sh p or os r pt sy ir is]; cbn [conv_shape conv_draw conv_geometry].
    + now destruct (Hx ge np it cix).
    + (* rectangle *)
      pose proof (conv_scalar_spec r) as S. destruct (conv_scalar r) as [w| |]; cbn in *.
      * destruct S as [S1 S2]. split; [now constructor|]. split; [constructor|].
        assert (P1 := conv_pos_reads p). assert (P2 : vector_reads size_of (md_p s) (conv_size s))
          by apply conv_multi_reads, to_size_of.
        split; [constructor; assumption|]. constructor. cbn.
        split; [exact (pos_reads_wf _ _ _ P1)|]. split; [exact (vector_reads_wf _ _ _ P2)|].
        exact (scalar_reads_wf _ _ S2).
      * intros Q. inversion Q; auto.
      * exact S.
    + (* ellipse *)
      cbn. split; [constructor|]. split; [constructor|].
      assert (P1 := conv_pos_reads p). assert (P2 : vector_reads size_of (md_p s) (conv_size s))
        by apply conv_multi_reads, to_size_of.
      split; [constructor; assumption|]. constructor. cbn.
      split; [exact (pos_reads_wf _ _ _ P1)|exact (vector_reads_wf _ _ _ P2)].
    + cbn. split; [constructor|inversion 1].
    + (* stroke *)
      pose proof (conv_scalar_spec (bs_w bs)) as S. destruct (conv_scalar (bs_w bs)) as [w| |].
      2:{ cbn in *. intros Q. inversion Q; auto. }
      2:{ exact S. }
      specialize (ST st). destruct (conv_scalar (sst_o st)) as [op| |].
      2:{ cbn in *. intros Q. inversion Q; auto. }
      2:{ exact ST. }
      destruct S as [S1 S2], ST as [T1 T2].
      split; [now constructor|]. split; [constructor|]. split.
      * econstructor; [reflexivity|now apply stroke_reads_model|apply solid_reads_model|exact T2].
      * constructor; cbn.
        -- intros z [= <-]. apply stroke_wf_model. exact (scalar_reads_wf _ _ S2).
        -- apply brush_wf_solid. exact (vector_reads_wf _ _ _ (conv_color_reads c)).
        -- exact (scalar_reads_wf _ _ T2).
    + cbn. split; [constructor|inversion 1].
    + cbn. split; [constructor|inversion 1].
    + cbn. split; [constructor|inversion 1].
    + cbn. split; [constructor|inversion 1].
    + (* fill *)
      specialize (ST st). destruct (conv_scalar (sst_o st)) as [op| |].
      2:{ cbn in *. intros Q. inversion Q; auto. }
      2:{ exact ST. }
      destruct ST as [T1 T2]. split; [now constructor|]. split; [constructor|]. split.
      * constructor; [reflexivity|apply solid_reads_model|exact T2].
      * constructor; cbn.
        -- intros z [=].
        -- apply brush_wf_solid. exact (vector_reads_wf _ _ _ (conv_color_reads c)).
        -- exact (scalar_reads_wf _ _ T2).
    + (* trim *)
      cbn [bind].
      eapply spec_iff with (P := scalar_supported s /\ scalar_supported e /\ scalar_supported o).
      { split; [intros (? & ? & ?); now constructor|inversion 1; auto]. }
      eapply spec_bind; [apply conv_scalar_spec|]. intros vs _ Hs.
      eapply spec_bind; [apply conv_scalar_spec|]. intros ve _ He.
      eapply spec_bind_ok; [apply conv_scalar_spec|]. intros vo _ Ho.
      apply spec_ret. split; [constructor|]. split.
      * eapply bec_trim; try eassumption. intros frame. apply trim_model.
      * unfold a_trim_into_model. destruct (a_trim_is_fixed _); constructor; cbn; eapply scalar_reads_wf; eassumption.
    + (* path *)
      cbn [bind]. pose proof (conv_shape_geometry_spec ks) as S.
      destruct (conv_shape_geometry ks) as [[g|]| |]; cbn in *.
      * destruct S as (S1 & S2 & S3 & S4). split; [now constructor|]. split; [now constructor|].
        split; [now constructor|now constructor].
      * destruct S as (S1 & S2). split; [now constructor|]. inversion 1; auto.
      * inversion 1; auto.
      * exact S.
    + (* gradient fill *)
      pose proof (conv_gradient_spec E g) as S. destruct (conv_gradient E g) as [a| |].
      2:{ cbn in *. intros Q. inversion Q; auto. }
      2:{ exact S. }
      destruct S as (S1 & S2 & S3). split; [now constructor|]. split; [constructor|]. split.
      * constructor; [reflexivity|exact S2|reflexivity].
      * constructor; cbn; [intros z [=]|exact S3|exact I].
    + (* gradient stroke *)
      pose proof (conv_scalar_spec (bs_w bs)) as S. destruct (conv_scalar (bs_w bs)) as [w| |].
      2:{ cbn in *. intros Q. inversion Q; auto. }
      2:{ exact S. }
      pose proof (conv_gradient_spec E g) as G. destruct (conv_gradient E g) as [a| |].
      2:{ cbn in *. intros Q. inversion Q; auto. }
      2:{ exact G. }
      destruct S as [S1 S2], G as (G1 & G2 & G3). split; [now constructor|]. split; [constructor|]. split.
      * econstructor; [reflexivity|now apply stroke_reads_model|exact G2|reflexivity].
      * constructor; cbn.
        -- intros z [= <-]. apply stroke_wf_model. exact (scalar_reads_wf _ _ S2).
        -- exact G3.
        -- exact I.
    + cbn. split; [constructor|inversion 1].
    + cbn. split; [constructor|inversion 1].
    + (* star *)
      cbn [bind]. pose proof (conv_polystar_spec E p or os r pt sy ir is) as S.
      destruct (conv_polystar_geometry E p or os r pt sy ir is) as [o| |].
      * destruct S as (S1 & g & -> & S2 & S3). split; [now constructor|]. split; [constructor|].
        split; [now constructor|now constructor].
      * cbn in *. inversion 1; auto.
      * exact S.
Qed.

Lemma conv_shapes_spec E : forall l, spec (conv_shapes E l) (forall x, In x l -> shape_supported x)
  (fun out => imports E l out /\ forall x, In x out -> shape_wf x).
Proof.
  induction l as [|x l IH]; cbn [conv_shapes].
  - split; [intros ? []|]. split; [constructor|intros ? []].
  - eapply spec_iff; [|eapply spec_bind; [apply shape_all|]; intros o _ Ho;
      eapply spec_bind_ok; [exact IH|]; intros rest _ [H1 H2]; apply spec_ret].
    + split; [intros [? ?] y [<-|Hy]; auto|]. intros H. split; [apply H; now left|intros; apply H; now right].
    + destruct o as [s|]; cbn in Ho.
      * destruct Ho as (Y & B & W). split; [apply imp_keep; auto|]. intros y [<-|Hy]; auto.
      * split; [apply imp_drop; auto|exact H2].
Qed.

(** * Layers *)

Lemma conv_masks_spec : forall l, spec (conv_masks l) (forall m, In m l -> mask_supported m)
  (fun out => masks_read l out /\ forall k, In k out -> geometry_wf (mk_geometry k) /\ value_wf (mk_opacity k)).
Proof.
  induction l as [|m l IH]; cbn [conv_masks].
  - split; [intros ? []|]. split; [constructor|intros ? []].
  - eapply spec_iff; [|eapply spec_bind with (P := mask_supported m)
      (R := fun o => match o with
        | Some k => mask_imports m /\ mask_reads m k /\ geometry_wf (mk_geometry k) /\ value_wf (mk_opacity k)
        | None => ~ mask_imports m end);
      [|intros o _ Ho; eapply spec_bind_ok; [exact IH|]; intros rest _ [H1 H2]; apply spec_ret]].
    + split; [intros [? ?] y [<-|Hy]; auto|]. intros H. split; [apply H; now left|intros; apply H; now right].
    + unfold mask_supported, mask_imports, mask_reads. destruct (mas_pt m) as [p|].
      2:{ cbn. split; [discriminate|]. now intros (? & ? & _). }
      pose proof (conv_shape_geometry_spec p) as S.
      destruct (conv_shape_geometry p) as [[g|]| |]; cbn [spec] in S.
      * destruct S as (S1 & S2 & S3 & S4).
        cbn [bind]. eapply spec_iff; [|eapply spec_bind_ok; [apply conv_scalar_or_spec|]].
        -- split; [intros H p' [= <-]; auto|]. intros H. now apply (H p).
        -- intros op _ Hop. apply spec_ret. cbn. repeat split; eauto. exact (scalar_reads_wf _ _ Hop).
      * destruct S as [S1 S2]. cbn. split.
        -- intros p' [= <-]. split; [exact S1|]. intros; contradiction.
        -- now intros (p' & [= <-] & H).
      * cbn. intros H. apply S, (H p eq_refl).
      * exact S.
    + destruct o as [k|]; cbn in Ho.
      * destruct Ho as (Y & B & W). split; [apply mr_keep; auto|]. intros y [<-|Hy]; auto.
      * split; [apply mr_drop; auto|exact H2].
Qed.

(** everything about a converted layer except references and content *)
Record base_reads (E : Ext) (src : any_layer) (ly : layer) : Prop := {
  br_name : ly_name ly = src_name src;
  br_in : ly_in ly = sl_ip (base_of src);
  br_out : ly_out ly = sl_op (base_of src);
  br_stretch : ly_stretch ly = src_stretch src;
  br_start : ly_start_frame ly = src_start src;
  br_size : (ly_width ly, ly_height ly) = match src with AlPrecomp _ _ w h _ _ => (w, h) | _ => (f0, f0) end;
  br_blend : ly_blend_mode ly = src_blend src;
  br_transform : transform_result E (vl_ks (visual_of src)) (ly_transform ly) (ly_opacity ly);
  br_masks : masks_read (src_masks src) (ly_masks ly);
  br_masks_wf : forall k, In k (ly_masks ly) -> geometry_wf (mk_geometry k) /\ value_wf (mk_opacity k) }.
Definition matte_index (src : any_layer) : option nat :=
  match vl_tp (visual_of src) with Some x => Some (Z.to_nat (f_to_usize x)) | None => None end.
Record conv_reads (E : Ext) (src : any_layer) (cv : converted) : Prop := {
  cr_base : base_reads E src (cv_layer cv);
  cr_id : cv_id cv = src_id src;
  cr_parent : ly_parent (cv_layer cv) = sl_parent (base_of src);
  cr_matte : cv_matte cv = match vl_tt (visual_of src) with Some m => Some (matte_blend m) | None => None end;
  cr_matte_ix : cv_matte_ix cv = matte_index src;
  cr_none : ly_mask_layer (cv_layer cv) = None;
  cr_is_mask : ly_is_mask (cv_layer cv) = true <-> matte_source src;
  cr_hidden : src_hidden src -> ly_content (cv_layer cv) = CNone;
  cr_content : ~ src_hidden src -> content_reads E src (ly_content (cv_layer cv));
  cr_wf : layer_wf (cv_layer cv) }.

Lemma hidden_iff l : is_layer_hidden l = true <-> src_hidden l.
Proof. unfold is_layer_hidden, src_hidden, base_of. destruct (sl_hd _) as [[]|]; split; congruence. Qed.

Lemma blend_spec o : spec (conv_blend_mode (unwrap_or o SbNormal)) (o <> Some SbAdd /\ o <> Some SbHardMix)
  (fun bm => drop_normal bm = match o with
     | Some b => match mix_of b with Some m => Some (blend_of_mix m) | None => None end | None => None end).
Proof.
  destruct o as [[]|]; cbn [conv_blend_mode unwrap_or spec]; try (split; [split; discriminate|reflexivity]).
  - intros [H _]. now apply H.
  - intros [_ H]. now apply H.
Qed.

Lemma setup_spec E src w h st : st = src_start src ->
  (w, h) = match src with AlPrecomp _ _ w h _ _ => (w, h) | _ => (f0, f0) end ->
  spec (setup_layer E (visual_of src) w h st) (visual_supported (visual_of src))
    (fun cv => base_reads E src (cv_layer cv) /\ cv_id cv = src_id src /\
       ly_parent (cv_layer cv) = sl_parent (base_of src) /\
       cv_matte cv = match vl_tt (visual_of src) with Some m => Some (matte_blend m) | None => None end /\
       cv_matte_ix cv = matte_index src /\ ly_mask_layer (cv_layer cv) = None /\
       (ly_is_mask (cv_layer cv) = true <-> vl_td (visual_of src) = Some BITrue) /\
       ly_content (cv_layer cv) = CNone).
Proof.
  intros Hst Hwh. unfold setup_layer, visual_supported. set (vl := visual_of src).
  eapply spec_bind; [apply conv_transform_spec|]. intros [tr op] _ Ht.
  eapply spec_iff; [|eapply spec_bind; [apply (blend_spec (vl_bm vl))|]; intros bm _ Hb;
    eapply spec_bind_ok with (P := forall ms m, vl_masks vl = Some ms -> In m ms -> mask_supported m)
     (R := fun out => masks_read (src_masks src) out /\
             forall k, In k out -> geometry_wf (mk_geometry k) /\ value_wf (mk_opacity k))].
  - tauto.
  - eapply spec_iff; [|unfold src_masks; fold vl; apply conv_masks_spec].
    destruct (vl_masks vl) as [ms|]; cbn.
    + split; [intros H ms' m [= <-] Hm; auto|]. intros H m Hm. now apply (H ms).
    + split; [discriminate|intros _ m []].
  - intros masks _ [Hm1 Hm2]. apply spec_ret. cbn [cv_layer cv_id cv_matte cv_matte_ix].
    split; [|split; [|split; [|split; [|split; [|split; [|split]]]]]].
    + constructor; cbn; try reflexivity; auto.
    + reflexivity.
    + reflexivity.
    + fold vl. destruct (vl_tt vl) as [[]|]; reflexivity.
    + reflexivity.
    + reflexivity.
    + cbn. destruct (vl_td vl) as [[]|]; split; congruence.
    + reflexivity.
Qed.

Lemma base_reads_content E src l c : base_reads E src l -> base_reads E src (with_content l c).
Proof. intros []. constructor; assumption. Qed.
Lemma base_reads_mask E src l b : base_reads E src l -> base_reads E src (with_is_mask l b).
Proof. intros []. constructor; assumption. Qed.
Lemma base_layer_wf E src l : base_reads E src l ->
  match ly_content l with
  | CNone => True | CInstance _ r => on_some value_wf r
  | CShape shapes => forall x, In x shapes -> shape_wf x end -> layer_wf l.
Proof.
  intros [] H. destruct br_transform0 as (_ & W1 & W2). unfold layer_wf. auto.
Qed.

Definition finish (hidden : bool) (cv : converted) : converted :=
  if hidden then mkConverted (with_is_mask (cv_layer cv) false) (cv_id cv) (cv_matte cv) (cv_matte_ix cv)
  else cv.
Lemma conv_layer_spec E src : spec (conv_layer E src) (layer_supported src) (conv_reads E src).
Proof.
  assert (S0 : forall w h st, st = src_start src ->
    (w, h) = match src with AlPrecomp _ _ w h _ _ => (w, h) | _ => (f0, f0) end -> 
    spec (setup_layer E (visual_of src) w h st) (visual_supported (visual_of src)) _) by (intros; now apply setup_spec).
  assert (Fin : forall cv0 c, 
     base_reads E src (cv_layer cv0) /\ cv_id cv0 = src_id src /\
       ly_parent (cv_layer cv0) = sl_parent (base_of src) /\
       cv_matte cv0 = match vl_tt (visual_of src) with Some m => Some (matte_blend m) | None => None end /\
       cv_matte_ix cv0 = matte_index src /\ ly_mask_layer (cv_layer cv0) = None /\
       (ly_is_mask (cv_layer cv0) = true <-> vl_td (visual_of src) = Some BITrue) /\
       ly_content (cv_layer cv0) = CNone ->
     (src_hidden src -> c = CNone) ->
     (~ src_hidden src -> content_reads E src c) ->
     match c with
     | CNone => True | CInstance _ r => on_some value_wf r
     | CShape shapes => forall x, In x shapes -> shape_wf x end ->
     conv_reads E src
       (finish (is_layer_hidden src)
          (mkConverted (with_content (cv_layer cv0) c) (cv_id cv0) (cv_matte cv0) (cv_matte_ix cv0)))).
  { intros cv0 c (H1 & H2 & H3 & H4 & H5 & H6 & H7 & H8) Hh Hc Hw. unfold finish.
    destruct (is_layer_hidden src) eqn:Hd.
    - apply hidden_iff in Hd. constructor; cbn; auto.
      + now apply base_reads_mask, base_reads_content.
      + split; [discriminate|]. intros [_ N]. contradiction.
      + eapply base_layer_wf; [apply base_reads_mask, base_reads_content; exact H1|]. exact Hw.
    - assert (Nh : ~ src_hidden src) by (rewrite <- hidden_iff; congruence). constructor; cbn; auto.
      + now apply base_reads_content.
      + rewrite H7. unfold matte_source. tauto.
      + eapply base_layer_wf; [apply base_reads_content; exact H1|]. exact Hw. }
  assert (Same : forall cv0, ly_content (cv_layer cv0) = CNone ->
     mkConverted (with_content (cv_layer cv0) CNone) (cv_id cv0) (cv_matte cv0) (cv_matte_ix cv0) = cv0).
  { intros [[] ? ? ?] H. cbn in *. subst. reflexivity. }
  unfold conv_layer, layer_supported.
  destruct src as [vl ref w h st tm|vl sw sh sc|vl shapes|vl|vl ref].
  - (* precomp *)
    set (src := AlPrecomp vl ref w h st tm) in *.
    eapply spec_iff with (P := (visual_supported vl /\ (src_hidden src \/ on_some scalar_supported tm))); [tauto|].
    unfold setup_precomp_layer. pose proof (S0 w h st eq_refl eq_refl) as S. change (visual_of src) with vl in S.
    destruct (setup_layer E vl w h st) as [cv0| |]; cbn [spec] in S; [|cbn; tauto|exact S].
    destruct S as [SV SR]. cbv beta iota.
    destruct (is_layer_hidden src) eqn:Hd.
    + cbn [spec]. apply hidden_iff in Hd. split; [auto|].
      specialize (Fin cv0 CNone SR (fun _ => eq_refl) (fun N => False_ind _ (N Hd)) I).
      rewrite (Same cv0) in Fin by apply SR.
      exact Fin.
    + assert (Nh : ~ src_hidden src) by (rewrite <- hidden_iff; congruence).
      pose proof (mapO_spec conv_scalar scalar_supported scalar_reads tm (fun v _ => conv_scalar_spec v)) as M.
      destruct (mapO conv_scalar tm) as [r| |]; cbn [spec] in M; [|cbn; tauto|exact M].
      destruct M as [M1 M2]. cbn [spec]. split; [auto|].
      assert (C : content_reads E src (CInstance ref r)).
      { cbn. exists r. split; [reflexivity|]. destruct tm, r; exact M2. }
      assert (W : on_some value_wf r).
      { intros x ->. destruct tm; [|contradiction]. exact (scalar_reads_wf _ _ M2). }
      specialize (Fin cv0 (CInstance ref r) SR (fun H => False_ind _ (Nh H)) (fun _ => C) W).
      exact Fin.
  - (* solid *)
    set (src := AlSolid vl sw sh sc) in *.
    unfold setup_layer_base. pose proof (S0 f0 f0 (unwrap_or (sl_st (vl_layer vl)) f0) eq_refl eq_refl) as S.
    change (visual_of src) with vl in *.
    destruct (setup_layer E vl f0 f0 _) as [cv0| |]; cbn [spec] in S; [|cbn; tauto|exact S].
    destruct S as [SV SR]. cbn [spec]. split; [auto|].
    specialize (Fin cv0 CNone SR (fun _ => eq_refl) (fun _ => eq_refl) I).
    rewrite (Same cv0) in Fin by apply SR. exact Fin.
  - (* shapes *)
    set (src := AlShape vl shapes) in *.
    eapply spec_iff with (P := (visual_supported vl /\
       (src_hidden src \/ forall x, In x shapes -> shape_supported x))); [tauto|].
    unfold setup_shape_layer. pose proof (S0 f0 f0 (unwrap_or (sl_st (vl_layer vl)) f0) eq_refl eq_refl) as S.
    change (visual_of src) with vl in S.
    destruct (setup_layer E vl f0 f0 _) as [cv0| |]; cbn [spec] in S; [|cbn; tauto|exact S].
    destruct S as [SV SR]. cbv beta iota.
    destruct (is_layer_hidden src) eqn:Hd.
    + cbn [spec]. apply hidden_iff in Hd. split; [auto|].
      specialize (Fin cv0 CNone SR (fun _ => eq_refl) (fun N => False_ind _ (N Hd)) I).
      rewrite (Same cv0) in Fin by apply SR.
      exact Fin.
    + assert (Nh : ~ src_hidden src) by (rewrite <- hidden_iff; congruence).
      pose proof (conv_shapes_spec E shapes) as M.
      destruct (conv_shapes E shapes) as [r| |]; cbn [spec] in M; [|cbn; tauto|exact M].
      destruct M as (M1 & M2 & M3). cbn [spec]. split; [auto|].
      assert (C : content_reads E src (CShape r)) by (cbn; eauto).
      specialize (Fin cv0 (CShape r) SR (fun H => False_ind _ (Nh H)) (fun _ => C) M3).
      exact Fin.
  - (* null *)
    set (src := AlNull vl) in *.
    unfold setup_layer_base. pose proof (S0 f0 f0 (unwrap_or (sl_st (vl_layer vl)) f0) eq_refl eq_refl) as S.
    change (visual_of src) with vl in *.
    destruct (setup_layer E vl f0 f0 _) as [cv0| |]; cbn [spec] in S; [|cbn; tauto|exact S].
    destruct S as [SV SR]. cbn [spec]. split; [auto|].
    specialize (Fin cv0 CNone SR (fun _ => eq_refl) (fun _ => eq_refl) I).
    rewrite (Same cv0) in Fin by apply SR. exact Fin.
  - (* image *)
    set (src := AlImage vl ref) in *.
    unfold setup_layer_base. pose proof (S0 f0 f0 (unwrap_or (sl_st (vl_layer vl)) f0) eq_refl eq_refl) as S.
    change (visual_of src) with vl in *.
    destruct (setup_layer E vl f0 f0 _) as [cv0| |]; cbn [spec] in S; [|cbn; tauto|exact S].
    destruct S as [SV SR]. cbn [spec]. split; [auto|].
    specialize (Fin cv0 CNone SR (fun _ => eq_refl) (fun _ => eq_refl) I).
    rewrite (Same cv0) in Fin by apply SR. exact Fin.
Qed.
