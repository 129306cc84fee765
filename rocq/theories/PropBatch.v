(** Property theorems about shape layers (C13-C19).  Statements refer to the
    model (Batch.v, Render.v) and to the specification BatchSpec.v. *)
From Coq Require Import ZArith Bool List Arith String Lia.
From Flocq Require Import Core BinarySingleNaN.
From Verif Require Import F64 Kurbo Value Animated Batch Render RenderSpec RenderFacts RenderFacts2
  BatchSpec BatchFacts BatchRefine BatchFacts2 Examples.
Import ListNotations.
Open Scope list_scope.

(** Some shape lists used below. *)
Definition fixed_group (shs : list shape) : shape := ShGroup shs None.
Definition faded_group (shs : list shape) : shape :=
  ShGroup shs (Some (mkGT (TFixed (affine_translate (f_of_Z 7) f0)) (VFixed (f_of_Z 50)))).
Definition rep (n : nat) : shape :=
  ShRepeater (RFixed (mkRepeater n f0 (mkPoint f0 f0) (mkPoint (f_of_Z 10) f0) f0 (mkVec2 f100 f100) f100 f100)).
Definition trim_shape (s e o : Z) : shape := ShTrim (TrFixed (mkTrim (f_of_Z s) (f_of_Z e) (f_of_Z o))).
Ltac sound := repeat (constructor || (apply fixed_sound; reflexivity)).

Lemma Forall2_len A B (P : A -> B -> Prop) l l' : Forall2 P l l' -> List.length l = List.length l'.
Proof. induction 1; simpl; congruence. Qed.
Lemma Forall2_heads A B (P : A -> B -> Prop) l y l' : Forall2 P l (y :: l') ->
  match l with x :: _ => P x y | [] => False end.
Proof. inversion 1; subst. assumption. Qed.

Lemma layer_paints_is E tf alpha frame shs : Forall (all_geometry (sound_geometry E)) shs ->
  exists ps, layer_paints E tf alpha frame shs = Ok ps.
Proof. intros H. destruct (layer_paints_styles E tf alpha frame shs H) as (c & -> & _). eauto. Qed.

(** ** C13 *)
Theorem C13_no_panic : forall E fuel c frame tf alpha r,
  used r -> sound_comp E c -> r_out (append E fuel c frame tf alpha r) <> Panic.
Proof.
  intros E fuel c frame tf alpha r Hu Hc. rewrite (used_clean r Hu). now apply append_no_panic.
Qed.
(** Which geometry is sound: paths starting with a move-to, all animated
    splines, stars whose point count stays below the allocation limit, and
    rectangles and ellipses if kurbo starts their paths with a move-to. *)
Theorem C13_fixed : forall E els, bezpath_ok els = true -> sound_geometry E (GFixed els).
Proof. exact fixed_sound. Qed.
Theorem C13_spline : forall E s, sound_geometry E (GSpline s).
Proof. exact spline_sound. Qed.
Theorem C13_star : forall E s,
  (forall frame, (f_to_usize (fround (eval E (asr_points s) frame)) <= 96076792050570581)%Z) ->
  sound_geometry E (GStar s).
Proof. exact star_sound. Qed.
Theorem C13_rect : forall E r,
  (forall x0 y0 x1 y1 q, bezpath_ok (x_rrect_path E x0 y0 x1 y1 q) = true) -> sound_geometry E (GRect r).
Proof. exact rect_sound. Qed.
Theorem C13_ellipse : forall E e,
  (forall c rx ry, bezpath_ok (x_ellipse_path E c rx ry) = true) -> sound_geometry E (GEllipse e).
Proof. exact ellipse_sound. Qed.
(** Beyond the limit the star does panic. *)
Theorem C13_star_limit : exists s, geometry_eval E0 (GStar s) f0 = Panic.
Proof.
  exists (mkAStar false f1 (VFixed (mkPoint f0 f0)) (VFixed f1) (VFixed f0) (VFixed f1) (VFixed f0) (VFixed f0)
            (VFixed (f_of_Z 100000000000000000))). vm_compute. reflexivity.
Qed.
Definition nested_shapes : list shape :=
  [geo 1; faded_group [geo 2; fill; trim_shape 10 60 0; rep 3; fixed_group [geo 3; trim_shape 0 0 0; geo 4; fill]; rep 2]; fill].
Definition nested_comp : composition :=
  mkComp f0 (f_of_Z 10) (f_of_Z 30) 100 50 [] [mk_layer "l" None [a_mask 3] false None (CShape nested_shapes)].
Example C13_applies : sound_comp E0 nested_comp /\
  List.length (events (append E0 5 nested_comp (f_of_Z 3) affine_identity f1 renderer_new)) = 55.
Proof.
  split; [|vm_compute; reflexivity].
  split; [|constructor]. constructor; [|constructor]. split.
  - constructor; [|constructor]. intros frame. discriminate.
  - sound.
Qed.

(** ** C14 *)
(** Full claim: for every tree of groups, geometry and draws, every draw
    paints exactly the geometry in front of it in its group.  False: geometry
    at the start of a group is merged into geometry in front of the group. *)
Theorem C14_refuted :
  ~ (forall E tf alpha frame shs,
       Forall plain shs -> Forall (all_geometry (sound_geometry E)) shs ->
       exists calls, layer_paints E tf alpha frame shs = Ok (List.concat (rev calls)) /\
         Forall2 (paints_marks E)
           (draws_among (draws_in E frame tf alpha) (geometry_in E frame tf) [] shs) calls).
Proof.
  intros H. destruct (H E0 affine_identity f1 f0 [geo 1; fixed_group [geo 2; fill]]) as (calls & L & F).
  - repeat constructor.
  - sound.
  - assert (L0 : layer_paints E0 affine_identity f1 f0 [geo 1; fixed_group [geo 2; fill]] = Ok [])
      by (vm_compute; reflexivity).
    rewrite L0 in L. injection L as L.
    destruct calls as [|c calls]; [inversion F|].
    assert (C : c = []).
    { simpl in L. rewrite concat_app in L. symmetry in L. apply app_eq_nil in L as [_ L]. simpl in L.
      now rewrite app_nil_r in L. }
    subst c. apply Forall2_heads in F as [_ P]. apply Forall2_len in P. vm_compute in P. discriminate P.
Qed.
(** It holds unless geometry directly follows undrawn geometry of an
    enclosing or preceding group under an equal transform. *)
Theorem C14_draws_geometry_above_partial : forall E tf alpha frame shs,
  Forall plain shs -> Forall (all_geometry (sound_geometry E)) shs -> no_clash E frame tf shs ->
  exists calls, layer_paints E tf alpha frame shs = Ok (List.concat (rev calls)) /\
    Forall2 (paints_marks E)
      (draws_among (draws_in E frame tf alpha) (geometry_in E frame tf) [] shs) calls.
Proof. intros. now apply layer_paints_plain. Qed.
(** With repeaters and trims: the calls are those of the picture the tree denotes. *)
Theorem C14_refinement_partial : forall E tf alpha frame shs,
  Forall (all_geometry (sound_geometry E)) shs -> no_clash E frame tf shs ->
  exists p, shapes_pic E tf alpha frame shs = Ok p /\
    layer_paints E tf alpha frame shs = Ok (pic_paints E p).
Proof. intros. now apply layer_paints_pic. Qed.
(** One group per layer level, each ending in a draw, never clashes: *)
Example C14_applies :
  let shs := [faded_group [geo 1; fill; geo 2; faded_group [geo 3; fill]; fill]; geo 4; fill] in
  Forall plain shs /\ no_clash E0 f0 affine_identity shs /\
  match layer_paints E0 affine_identity f1 f0 shs with
  | Ok ps => List.length ps = 9
  | _ => False
  end.
Proof.
  split; [repeat constructor|]. split; [|vm_compute; reflexivity].
  unfold no_clash. vm_compute. discriminate.
Qed.

(** ** C15, C16 *)
(** [styles] lists stroke, brush and opacity of the draws in document order;
    the calls come in blocks in the reverse order, each in that style. *)
Theorem C15_reverse_order : forall E tf alpha frame shs,
  Forall (all_geometry (sound_geometry E)) shs ->
  exists calls, layer_paints E tf alpha frame shs = Ok (List.concat (rev calls)) /\
    Forall2 (fun s ps => Forall (in_style E s) ps) (styles E alpha frame shs) calls.
Proof. exact layer_paints_styles. Qed.
(** Without repeaters, [styles] is: *)
Fixpoint tree_styles (E : Ext) (alpha frame : f64) (sh : shape) : list style :=
  match sh with
  | ShGroup shs t => flat_map (tree_styles E (fmul alpha (group_alpha E t frame)) frame) shs
  | ShDraw d => [style_of E d alpha frame]
  | _ => []
  end.
Fixpoint no_repeater (sh : shape) : Prop :=
  match sh with
  | ShGroup shs _ => (fix go l := match l with [] => True | s :: l => no_repeater s /\ go l end) shs
  | ShRepeater _ => False
  | _ => True
  end.
Lemma no_repeater_group shs t : no_repeater (ShGroup shs t) <-> Forall no_repeater shs.
Proof.
  simpl. induction shs as [|s shs IH]; [split; auto|]. split.
  - intros [H1 H2]. constructor; auto. now apply IH.
  - intros H. inversion H; subst. split; auto. now apply IH.
Qed.
Theorem C15_document_order : forall E alpha frame shs, Forall no_repeater shs ->
  styles E alpha frame shs = flat_map (tree_styles E alpha frame) shs.
Proof.
  assert (G : forall E frame sh, no_repeater sh -> forall alpha acc,
            shape_styles E alpha frame sh acc = acc ++ tree_styles E alpha frame sh).
  { intros E frame. induction sh using shape_ind'; intros Hn alpha acc; simpl in *; try contradiction;
      try now rewrite ?app_nil_r.
    apply (no_repeater_group shs t) in Hn. f_equal.
    change (flat_map (tree_styles E (fmul alpha (group_alpha E t frame)) frame) shs) with
      ([] ++ flat_map (tree_styles E (fmul alpha (group_alpha E t frame)) frame) shs).
    generalize (@nil style). induction Hn as [|s shs Hs Hn IH]; intros l; simpl; [now rewrite app_nil_r|].
    inversion H; subst. rewrite IH by auto. rewrite H2 by auto. now rewrite app_assoc. }
  intros E alpha frame shs H. unfold styles.
  change (flat_map (tree_styles E alpha frame) shs) with ([] ++ flat_map (tree_styles E alpha frame) shs).
  generalize (@nil style). induction H as [|s shs Hs H IH]; intros l; simpl; [now rewrite app_nil_r|].
  rewrite IH, (G E frame s Hs). now rewrite app_assoc.
Qed.
Theorem C16_layer_opacity : forall E c set ly idx ptf alpha frame shs es,
  active ly frame -> ly_mask_layer ly = None -> ly_content ly = CShape shs ->
  Forall (all_geometry (sound_geometry E)) shs ->
  layer_draws E c set ly idx ptf alpha frame es ->
  exists clips calls,
    Forall is_mask_clip clips /\ List.length clips = List.length (ly_masks ly) /\
    es = EvBegin (ly_name ly) idx :: clips ++ map EvDraw (List.concat (rev calls))
         ++ repeat EvPop (List.length (ly_masks ly)) ++ [EvEnd] /\
    Forall2 (fun s ps => Forall (in_style E s) ps)
      (styles E (fdiv (fmul alpha (eval E (ly_opacity ly) frame)) f100) frame shs) calls.
Proof.
  intros E c set ly idx ptf alpha frame shs es Ha Hm Hc Hs H.
  destruct (layer_draws_masked E c set ly idx ptf alpha frame shs es Ha Hm Hc H)
    as (clips & ps & Hp & F & L & ->).
  destruct (layer_paints_styles E (compute_transform E set ly ptf frame)
     (fdiv (fmul alpha (eval E (ly_opacity ly) frame)) f100) frame shs Hs) as (calls & Hq & Fs).
  rewrite Hp in Hq. injection Hq as ->. exists clips, calls. auto.
Qed.
(** The converse: a shape layer without mattes and masks always draws this. *)
Theorem C16_shape_layer : forall E c set ly idx ptf alpha frame shs es,
  active ly frame -> ly_mask_layer ly = None -> ly_masks ly = [] -> ly_content ly = CShape shs ->
  (layer_draws E c set ly idx ptf alpha frame es <->
   exists ps,
     layer_paints E (compute_transform E set ly ptf frame)
       (fdiv (fmul alpha (eval E (ly_opacity ly) frame)) f100) frame shs = Ok ps /\
     es = EvBegin (ly_name ly) idx :: map EvDraw ps ++ [EvEnd]).
Proof. intros. now apply layer_draws_shapes. Qed.
Example C15_applies : Forall (all_geometry (sound_geometry E0)) nested_shapes /\
  map (fun s => feqb (sy_alpha s) f1) (styles E0 f1 f0 nested_shapes)
    = repeat false 8 ++ [true].
Proof. split; [sound|vm_compute; reflexivity]. Qed.
Example C16_applies :
  let ly := mk_layer "l" None [a_mask 3] false None (CShape nested_shapes) in
  active ly (f_of_Z 3) /\ exists es, layer_draws E0 nested_comp [ly] ly 0 affine_identity f1 (f_of_Z 3) es.
Proof.
  split; [split; vm_compute; reflexivity|]. eexists. exists 2. split; [vm_compute; reflexivity|reflexivity].
Qed.

(** ** C17 *)
(** Full claim: a repeater with [n] copies, all of positive opacity, paints
    what the group painted [n] times.  False: [n * n] times. *)
Theorem C17_refuted :
  ~ (forall E tf alpha frame shs r ps,
       Forall (all_geometry (sound_geometry E)) shs ->
       visible_copies (repeater_eval E r frame) = rp_copies (repeater_eval E r frame) ->
       layer_paints E tf alpha frame shs = Ok ps ->
       exists ps', layer_paints E tf alpha frame (shs ++ [ShRepeater r]) = Ok ps' /\
         List.length ps' = rp_copies (repeater_eval E r frame) * List.length ps).
Proof.
  intros H.
  pose (r := RFixed (mkRepeater 3 f0 (mkPoint f0 f0) (mkPoint (f_of_Z 10) f0) f0 (mkVec2 f100 f100) f100 f100)).
  destruct (layer_paints_is E0 affine_identity f1 f0 [geo 1; fill]) as (ps & Hp); [sound|].
  destruct (H E0 affine_identity f1 f0 [geo 1; fill] r ps) as (ps' & L & N).
  - sound.
  - vm_compute. reflexivity.
  - exact Hp.
  - assert (X : match layer_paints E0 affine_identity f1 f0 ([geo 1; fill] ++ [ShRepeater r]) with
                | Ok q => List.length q = 9 | _ => False end) by (vm_compute; reflexivity).
    assert (Y : match layer_paints E0 affine_identity f1 f0 [geo 1; fill] with
                | Ok q => List.length q = 1 | _ => False end) by (vm_compute; reflexivity).
    rewrite L in X. rewrite Hp in Y. rewrite X, Y in N. discriminate.
Qed.
(** What it does paint, for every n (0 included). *)
Theorem C17_count_partial : forall E tf alpha frame shs r ps,
  Forall (all_geometry (sound_geometry E)) shs -> layer_paints E tf alpha frame shs = Ok ps ->
  exists ps', layer_paints E tf alpha frame (shs ++ [ShRepeater r]) = Ok ps' /\
    List.length ps' = visible_copies (repeater_eval E r frame)
                      * (rp_copies (repeater_eval E r frame) * List.length ps).
Proof. exact repeat_count. Qed.
Theorem C17_zero_copies : forall E tf alpha frame shs r,
  Forall (all_geometry (sound_geometry E)) shs -> rp_copies (repeater_eval E r frame) = 0 ->
  layer_paints E tf alpha frame (shs ++ [ShRepeater r]) = Ok [].
Proof.
  intros E tf alpha frame shs r Hs H0.
  destruct (layer_paints_styles E tf alpha frame shs Hs) as (calls & Hp & _).
  destruct (repeat_count E tf alpha frame shs r _ Hs Hp) as (ps' & -> & L).
  rewrite H0, Nat.mul_0_r in L. now destruct ps'.
Qed.
Theorem C17_copies_partial : forall E tf alpha frame shs r,
  Forall (all_geometry (sound_geometry E)) shs -> no_clash E frame tf shs ->
  exists p, layer_paints E tf alpha frame shs = Ok (pic_paints E p) /\
    layer_paints E tf alpha frame (shs ++ [ShRepeater r]) =
    Ok (pic_paints E (repeat_pic E (repeater_eval E r frame) p)).
Proof. exact repeat_paints. Qed.
Example C17_applies :
  Forall (all_geometry (sound_geometry E0)) [geo 1; fill; geo 2; fill] /\
  no_clash E0 f0 affine_identity [geo 1; fill; geo 2; fill] /\
  match layer_paints E0 affine_identity f1 f0 ([geo 1; fill; geo 2; fill] ++ [rep 2]) with
  | Ok ps => List.length ps = 12 | _ => False end.
Proof. split; [sound|]. split; [unfold no_clash; vm_compute; discriminate|vm_compute; reflexivity]. Qed.

(** ** C18 *)
(** A trim in the middle of any group, at any point of the rendering: the
    outlines of everything in front of the group stay, those of the group are
    trimmed one by one, their number and the draws' selections stay. *)
Theorem C18_trim_own_group : forall E frame gs ds b t,
  reach E frame gs ds b ->
  exists b' os os' tail,
    apply_trim E b t gs = Ok b' /\ outlines b = Ok os /\ outlines b' = Ok os' /\
    mapM (trim_outline E t) (skipn gs os) = Ok tail /\
    os' = firstn gs os ++ tail /\ b_draws b' = b_draws b.
Proof. exact trim_reach. Qed.
(** Seen from outside: a group holding only a trim is invisible. *)
Theorem C18_trim_alone : forall E tf alpha frame pre t gt,
  Forall (all_geometry (sound_geometry E)) pre ->
  layer_paints E tf alpha frame (pre ++ [ShGroup [ShTrim t] gt]) = layer_paints E tf alpha frame pre.
Proof. exact trim_alone. Qed.
(** Groups with any content (trims and repeaters included) neither change
    what was painted by the shapes in front nor depend on them. *)
Theorem C18_group_isolated : forall E tf alpha frame pre inner t,
  Forall (all_geometry (sound_geometry E)) pre -> Forall (all_geometry (sound_geometry E)) inner ->
  no_clash E frame tf (pre ++ [ShGroup inner t]) ->
  exists ps_pre ps_group,
    layer_paints E tf alpha frame pre = Ok ps_pre /\
    layer_paints E (affine_mul tf (group_tf E t frame)) (fmul alpha (group_alpha E t frame)) frame inner = Ok ps_group /\
    layer_paints E tf alpha frame (pre ++ [ShGroup inner t]) = Ok (ps_group ++ ps_pre).
Proof. exact group_isolated. Qed.
Lemma reach_list E frame gs ds b shs tf alpha : reach E frame gs ds b ->
  Forall (all_geometry (sound_geometry E)) shs ->
  exists b', fold_shapes (render_shape E tf alpha frame gs ds) shs b = Ok b' /\ reach E frame gs ds b'.
Proof.
  intros R H. revert b R. induction H as [|s shs Hs _ IH]; intros b R; simpl; [eauto|].
  destruct (render_shape_inv E s Hs tf alpha frame gs ds b (reach_inv _ _ _ _ _ R)) as (b1 & E1 & _).
  rewrite E1. apply IH. eapply reach_shape; eauto.
Qed.
Example C18_applies : exists b, reach E0 f0 1 1 b /\ List.length (b_geoms b) = 3 /\
  match apply_trim E0 b (mkTrim (f_of_Z 10) (f_of_Z 60) f0) 1 with
  | Ok b' => List.length (b_elements b) = 12 /\ List.length (b_elements b') = 10 | _ => False end.
Proof.
  destruct (reach_list E0 f0 0 0 batch_empty [geo 1; fill] affine_identity f1) as (b1 & E1 & R1);
    [apply reach_start|sound|]. apply reach_enter in R1.
  destruct (reach_list E0 f0 _ _ b1 [geo 2; fill; geo 3] affine_identity f1 R1) as (b2 & E2 & R2); [sound|].
  assert (L : match fold_shapes (render_shape E0 affine_identity f1 f0 0 0) [geo 1; fill] batch_empty with
              | Ok b1 => List.length (b_geoms b1) = 1 /\ List.length (b_draws b1) = 1 /\
                 match fold_shapes (render_shape E0 affine_identity f1 f0 1 1) [geo 2; fill; geo 3] b1 with
                 | Ok b2 => List.length (b_geoms b2) = 3 /\
                     match apply_trim E0 b2 (mkTrim (f_of_Z 10) (f_of_Z 60) f0) 1 with
                     | Ok b' => List.length (b_elements b2) = 12 /\ List.length (b_elements b') = 10 | _ => False end
                 | _ => False end
              | _ => False end) by (vm_compute; auto).
  rewrite E1 in L. destruct L as (L1 & L2 & L3). rewrite L1, L2 in *. rewrite E2 in L3.
  exists b2. split; [exact R2|exact L3].
Qed.
Example C18_isolated_applies :
  no_clash E0 f0 affine_identity ([geo 1; fill] ++ [faded_group [geo 2; trim_shape 10 60 0; fill; rep 2]]).
Proof. unfold no_clash; vm_compute; discriminate. Qed.

(** ** C19 *)
(** Full claim: what a removing trim was applied to is never painted.  False:
    geometry that follows under the same transform brings it back. *)
Theorem C19_refuted :
  ~ (forall E tf alpha frame pre t post ps,
       Forall (all_geometry (sound_geometry E)) pre -> Forall (all_geometry (sound_geometry E)) post ->
       Forall plain post -> trim_normalized (trim_eval E t frame) = None ->
       layer_paints E tf alpha frame (pre ++ ShTrim t :: post) = Ok ps ->
       forall p e, In p ps -> In e (pt_path p) -> In e (map fst (flat_map (geometry_in E frame tf) post))).
Proof.
  intros H.
  pose (t := TrFixed (mkTrim f0 f0 f0)).
  destruct (layer_paints_is E0 affine_identity f1 f0 ([geo 1] ++ ShTrim t :: [geo 2; fill])) as (ps & Hp); [sound|].
  pose (at_1 e := match e with MoveTo p => feqb (px p) (f_of_Z 1) | _ => false end).
  assert (X : match layer_paints E0 affine_identity f1 f0 ([geo 1] ++ ShTrim t :: [geo 2; fill]) with
              | Ok (p :: _) => match pt_path p with e :: _ => at_1 e = true | _ => False end
              | _ => False end) by (vm_compute; reflexivity).
  rewrite Hp in X. destruct ps as [|p ps]; [destruct X|]. destruct (pt_path p) as [|e els] eqn:Ep; [destruct X|].
  assert (Y : In e (map fst (flat_map (geometry_in E0 f0 affine_identity) [geo 2; fill]))).
  { apply (H E0 affine_identity f1 f0 [geo 1] t [geo 2; fill] (p :: ps)) with (p := p); try now left.
    - sound.
    - sound.
    - repeat constructor.
    - vm_compute. reflexivity.
    - exact Hp.
    - rewrite Ep. now left. }
  assert (Z : forallb (fun e => negb (at_1 e))
     (map fst (flat_map (geometry_in E0 f0 affine_identity) [geo 2; fill])) = true) by (vm_compute; reflexivity).
  rewrite forallb_forall in Z. specialize (Z e Y). rewrite X in Z. discriminate.
Qed.
(** Without such a clash: draws in front of the trim paint empty paths, and
    everything behind it is painted as if nothing were in front. *)
Theorem C19_erased_partial : forall E tf alpha frame pre t post,
  Forall (all_geometry (sound_geometry E)) pre -> Forall (all_geometry (sound_geometry E)) post ->
  Forall plain post -> no_clash E frame tf (pre ++ ShTrim t :: post) ->
  trim_normalized (trim_eval E t frame) = None ->
  exists calls ps0,
    layer_paints E tf alpha frame (pre ++ ShTrim t :: post) = Ok (List.concat (rev calls) ++ ps0) /\
    Forall (fun p => pt_path p = []) ps0 /\
    Forall2 (paints_marks E)
      (draws_among (draws_in E frame tf alpha) (geometry_in E frame tf) [] post) calls.
Proof. exact trim_erases. Qed.
(** Without any condition on clashes, if only draws follow. *)
Theorem C19_erased_then_draws : forall E tf alpha frame pre t post,
  Forall (all_geometry (sound_geometry E)) pre -> trim_normalized (trim_eval E t frame) = None ->
  Forall is_draw post ->
  exists ps, layer_paints E tf alpha frame (pre ++ ShTrim t :: post) = Ok ps /\
    Forall (fun p => pt_path p = []) ps.
Proof. exact trim_empty. Qed.
(** A trim that keeps everything changes nothing. *)
Theorem C19_full_trim : forall E tf alpha frame pre t post,
  (exists f, trim_normalized (trim_eval E t frame) = Some (f, None) /\ trim_is_full f None = true) ->
  layer_paints E tf alpha frame (pre ++ ShTrim t :: post) = layer_paints E tf alpha frame (pre ++ post).
Proof. exact trim_full. Qed.
(** ... in particular from 0% to 100% with any offset. *)
Theorem C19_full_trim_percent : forall E tf alpha frame pre t post off,
  trim_eval E t frame = mkTrim f0 f100 off ->
  layer_paints E tf alpha frame (pre ++ ShTrim t :: post) = layer_paints E tf alpha frame (pre ++ post).
Proof.
  intros E tf alpha frame pre t post off H. apply trim_full. exists (f0, f1). rewrite H.
  split; [|vm_compute; reflexivity]. unfold trim_normalized. cbn [tr_start tr_end tr_offset].
  replace (fleb f0 f100) with true by (vm_compute; reflexivity).
  replace (fltb (fsub f100 f0) f_1em9) with false by (vm_compute; reflexivity).
  replace (fleb (fsub f100 f_1em9) (fsub f100 f0)) with true by (vm_compute; reflexivity).
  reflexivity.
Qed.
Example C19_applies :
  no_clash E0 f0 affine_identity ([geo 1; fill] ++ ShTrim (TrFixed (mkTrim f0 f0 f0)) :: [geo 2; fill]) /\
  trim_normalized (trim_eval E0 (TrFixed (mkTrim f0 f0 f0)) f0) = None.
Proof. split; [unfold no_clash; vm_compute; discriminate|vm_compute; reflexivity]. Qed.
