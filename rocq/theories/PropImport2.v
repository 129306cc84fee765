(** More properties of the importer: omitted parts, gradients, hidden shapes,
    path keyframes, properties over time, geometry.  Statements use
    ImportSpec.v, DocAgree.v and TimelineSpec.v only. *)
From Coq Require Import ZArith Reals Bool List Arith String Lia.
From Flocq Require Import Core BinarySingleNaN.
From Verif Require Import F64 Kurbo Value Animated Batch Render RenderSpec BatchSpec F64Facts Examples ValueSpec ValueFacts
  ValueFacts2 PropValue Schema Import ImportSpec ImportFacts ImportFacts2 ImportFacts3 ImportFacts4 DocAgree ImportFacts5
  TimelineSpec TimelineFacts DocExamples PropImport.
Import ListNotations.
Open Scope list_scope.
Open Scope nat_scope.

(** * C57 *)
(** Documents that agree are imported alike: nothing that [document_agree]
    does not mention has an effect. *)
Theorem C57_agree : forall E a b, document_agree [f1; f1; f1] a b -> conv_animation E a = conv_animation E b.
Proof. exact conv_animation_agree. Qed.
(** In particular two documents that agree are both importable or neither, and
    every document agrees with itself. *)
Theorem C57_supported : forall a b, document_agree [f1; f1; f1] a b -> (animation_supported a <-> animation_supported b).
Proof.
  intros a b A. rewrite <- !(proj1 (C38_supported E0 _)). now rewrite (C57_agree E0 _ _ A).
Qed.
Theorem C57_reflexive : forall s a, document_agree s a a.
Proof. exact document_agree_refl. Qed.

(** * C41 *)
(** Omitted anchor, skew, skew axis and opacity (and rotation, in groups) are
    the same as explicit neutral ones; an omitted scale is the same as an
    explicit scale of [1, 1, 1].
    Missing: the default scale should be 100 %, see [C41_refuted]. *)
Definition fill_neutral (t : s_transform) : s_transform :=
  mkSTransform (Some (or_else (tf_a t) origin)) (tf_p t) (tf_s t) (tf_r t)
    (Some (or_else (tf_sk t) (static_value f0))) (Some (or_else (tf_sa t) (static_value f0)))
    (Some (or_else (tf_o t) (static_value f100))).
Definition with_scale (t : s_transform) (s : list f64) : s_transform :=
  mkSTransform (tf_a t) (tf_p t) (Some (mkMultiDim (static_value s) None)) (tf_r t) (tf_sk t) (tf_sa t) (tf_o t).
Local Ltac agree_parts := repeat match goal with |- _ /\ _ => split end;
  first [apply pos_agree_refl | apply multi_agree_refl | apply any_p_agree_refl | apply prop_agree_refl].
Theorem C41_omitted_partial : forall E t,
  conv_transform E t = conv_transform E (fill_neutral t) /\
  conv_shape_transform E (mkTransformShape no_ge t) = conv_shape_transform E (mkTransformShape no_ge (fill_neutral t)) /\
  (tf_s t = None -> conv_transform E t = conv_transform E (with_scale t [f1; f1; f1]) /\
     conv_shape_transform E (mkTransformShape no_ge t) =
     conv_shape_transform E (mkTransformShape no_ge (with_scale t [f1; f1; f1]))).
Proof.
  intros E t.
  assert (P : parts_agree scale1 t (fill_neutral t)).
  { unfold parts_agree. cbn [tf_a tf_p tf_s tf_r tf_o tf_sk tf_sa fill_neutral or_else].
    agree_parts. }
  split; [|split].
  - apply conv_transform_agree. split; [apply both_refl, any_r_agree_refl|exact P].
  - apply conv_shape_transform_agree. split; [apply any_r_agree_refl|exact P].
  - intros Hs. assert (Q : parts_agree scale1 t (with_scale t [f1; f1; f1])).
    { unfold parts_agree. cbn [tf_a tf_p tf_s tf_r tf_o tf_sk tf_sa with_scale or_else]. rewrite Hs. cbn [or_else].
      agree_parts. }
    split.
    + apply conv_transform_agree. split; [apply both_refl, any_r_agree_refl|exact Q].
    + apply conv_shape_transform_agree. split; [apply any_r_agree_refl|exact Q].
Qed.
(** A layer whose scale is omitted is shrunk to 1 %: it is not imported as
    one whose scale is 100 %. *)
Definition doc_scale (s : option multi_dim) : animation :=
  doc [] [AlNull (visual (base "n" None None None)
    (mkSTransform None (ApPosition (p_static 3 4)) s (Some (ArRotation (st f0))) None None None) None None None)].
Definition scale_of (s : option multi_dim) : option f64 :=
  match conv_animation E0 (doc_scale s) with
  | Ok c => match layer_at c (None, 0) with Some ly => Some (aa (transform_eval E0 (ly_transform ly) f0)) | None => None end
  | _ => None
  end.
Theorem C41_refuted : exists a b c d lc ld,
  document_agree [f100; f100; f100] a b /\ conv_animation E0 a = Ok c /\ conv_animation E0 b = Ok d /\
  layer_at c (None, 0) = Some lc /\ layer_at d (None, 0) = Some ld /\
  affine_eqb (transform_eval E0 (ly_transform lc) f0) (transform_eval E0 (ly_transform ld) f0) = false.
Proof.
  set (b := doc_scale (Some (mkMultiDim (static_value [f100; f100; f100]) None))).
  exists (doc_scale None), b.
  assert (A : document_agree [f100; f100; f100] (doc_scale None) b).
  { unfold document_agree. do 5 (split; [reflexivity|]). split; [constructor|]. constructor; [|constructor].
    apply al_blank; try exact I; [|reflexivity]. unfold visual_agree. split; [unfold layer_base_agree; tauto|].
    do 3 (split; [tauto|]). split; [constructor|]. split; [|reflexivity].
    split; [apply prop_agree_refl|]. unfold parts_agree.
    agree_parts. }
  assert (W : match conv_animation E0 (doc_scale None), conv_animation E0 b with
              | Ok c, Ok d => match layer_at c (None, 0), layer_at d (None, 0) with
                              | Some lc, Some ld => affine_eqb (transform_eval E0 (ly_transform lc) f0)
                                                               (transform_eval E0 (ly_transform ld) f0) = false
                              | _, _ => False end
              | _, _ => False end) by (vm_compute; reflexivity).
  destruct (conv_animation E0 (doc_scale None)) as [c| |]; try contradiction.
  destruct (conv_animation E0 b) as [d| |]; try contradiction.
  destruct (layer_at c (None, 0)) as [lc|] eqn:Lc; [|contradiction].
  destruct (layer_at d (None, 0)) as [ld|] eqn:Ld; [|contradiction].
  exists c, d, lc, ld. auto 10.
Qed.
Example C41_witness : match scale_of None with Some x => feqb x (fdiv f1 f100) = true | None => False end /\
  tf_s (tr_pos 1 2) = None.
Proof. split; [vm_compute|]; reflexivity. Qed.

(** * C42 *)
Definition stops_at (E : Ext) (b : brush_v) (frame : f64) (out : list color_stop) : Prop :=
  exists k, brush_eval E b f1 frame = BGradient (mkGradient k out).
(** What stop [i] of a raw array becomes. *)
Definition stop_from (l : list f64) (count i : nat) (s : color_stop) : Prop :=
  exists o r g b a, nums l (4 * i) [o; r; g; b] /\ cs_offset s = f64_to_f32 o /\
    cs_color s = mkColor (f64_to_f32 r) (f64_to_f32 g) (f64_to_f32 b) (f64_to_f32 a) /\
    fleb a f1 = true /\ (List.length l < 4 * count + 4 -> a = f1).
Lemma pairs_of_length : forall l, List.length (pairs_of l) = List.length l / 2.
Proof.
  fix IH 1. intros [|a [|b l]]; try reflexivity. cbn [pairs_of List.length]. rewrite IH.
  replace (S (S (List.length l))) with (1 * 2 + List.length l) by lia. now rewrite Nat.div_add_l by lia.
Qed.
Lemma few_opacities l count : List.length l < 4 * count + 4 -> List.length (opacity_stops l count) < 2.
Proof.
  intros H. unfold opacity_stops. rewrite pairs_of_length, skipn_length.
  apply Nat.div_lt_upper_bound; lia.
Qed.
Lemma stops_read_from l count out i s : stops_read l count out -> nth_error out i = Some s -> stop_from l count i s.
Proof.
  intros [_ R] H. destruct (R i s H) as (o & r & g & b & a & N & O & Cr & Cg & Cb & Ca & A1 & A2 & _).
  exists o, r, g, b, a. split; [exact N|]. split; [exact O|]. split.
  - destruct (cs_color s) as [c1 c2 c3 c4]. cbn in *. congruence.
  - split; [exact A1|]. intros L. apply A2, few_opacities, L.
Qed.
(** A gradient fill or a gradient stroke. *)
Definition paints_gradient (x : any_shape) (g : base_gradient) : Prop :=
  (exists st r, x = AsGradientFill st g r) \/ (exists st bs, x = AsGradientStroke st bs g).
Lemma gradient_brush E x g d : paints_gradient x g -> conv_shape E x = Ok (Some (ShDraw d)) ->
  gradient_reads E g (dr_brush d).
Proof.
  pose proof (conv_gradient_spec E g) as S1.
  intros [(st & r & ->)|(st & bs & ->)]; cbn [conv_shape conv_draw].
  - destruct (conv_gradient E g) as [a| |]; try discriminate.
    destruct S1 as (_ & R & _). cbn [bind]. intros [= <-]. exact R.
  - destruct (conv_scalar (bs_w bs)) as [w| |]; try discriminate. cbn [bind].
    destruct (conv_gradient E g) as [a| |]; try discriminate.
    destruct S1 as (_ & R & _). cbn [bind]. intros [= <-]. exact R.
Qed.
Theorem C42_static_stops : forall E x g l d, paints_gradient x g -> ap_k (md_p (gc_k (bg_g g))) = AkStatic l ->
  conv_shape E x = Ok (Some (ShDraw d)) ->
  exists out, (forall frame, stops_at E (dr_brush d) frame out) /\
    List.length out = Nat.min (Nat.max 1 (gc_p (bg_g g))) (List.length l / 4) /\
    forall i s, nth_error out i = Some s -> stop_from l (gc_p (bg_g g)) i s.
Proof.
  intros E x g l d Hx Hk H. destruct (gradient_brush _ _ _ _ Hx H) as (p & q & stops & _ & _ & R & Ev).
  unfold gradient_stops_read in R. rewrite Hk in R. destruct R as (out & -> & R). exists out. split; [|split].
  - intros frame. destruct (Ev frame) as (k & Ek & _). exists k. exact Ek.
  - apply R.
  - intros i s Hs. eapply stops_read_from; eauto.
Qed.
(** A gradient with static colours is always imported. *)
Theorem C42_imported : forall E st g r l, ap_k (md_p (gc_k (bg_g g))) = AkStatic l ->
  exists d, conv_shape E (AsGradientFill st g r) = Ok (Some (ShDraw d)).
Proof.
  intros E st g r l Hk. pose proof (conv_gradient_spec E g) as S1. cbn [conv_shape conv_draw].
  destruct (conv_gradient E g) as [a| |]; cbn in S1.
  - cbn [bind]. eauto.
  - exfalso. apply S1. unfold gradient_supported. now rewrite Hk.
  - destruct S1.
Qed.
(** Animated colours: at every frame exactly the declared number of stops, if
    every keyframe has that many. *)
Theorem C42_animated_count : forall E x g ks d, paints_gradient x g -> ap_k (md_p (gc_k (bg_g g))) = AkAnimated ks ->
  ks <> [] -> 1 <= gc_p (bg_g g) -> (forall k, In k ks -> 4 * gc_p (bg_g g) <= List.length (kf_value k)) ->
  conv_shape E x = Ok (Some (ShDraw d)) ->
  forall frame, exists out, stops_at E (dr_brush d) frame out /\ List.length out = gc_p (bg_g g).
Proof.
  intros E x g ks d Hx Hk Ne Hc Hl H frame. destruct (gradient_brush _ _ _ _ Hx H) as (p & q & stops & _ & _ & R & Ev).
  unfold gradient_stops_read in R. rewrite Hk in R. destruct R as (a & -> & Cn & F1 & F2).
  destruct (Ev frame) as (k & Ek & _). eexists. split; [exists k; exact Ek|]. cbn [stops_eval]. rewrite <- Cn.
  apply C31_complete.
  - rewrite <- (Forall2_len _ _ _ F1). symmetry. apply (Forall2_len _ _ _ F2).
  - intros X. rewrite X in F1. inversion F1. congruence.
  - apply Forall_forall. intros v Hv. apply In_nth_error in Hv. destruct Hv as (n & Hv).
    destruct (Forall2_nth_r _ _ _ _ _ F2 Hv) as (kf & Kf & L & _). rewrite L, Cn. unfold stop_total.
    pose proof (Hl kf (nth_error_In _ _ Kf)) as X. rewrite (Nat.mul_comm 4) in X.
    pose proof (Nat.div_le_mono _ _ 4 ltac:(lia) X) as Y. rewrite Nat.div_mul in Y by lia. lia.
Qed.
Definition gradient_doc (count : nat) (l : list f64) : base_gradient :=
  mkBaseGradient (mkGradientColors (mkMultiDim (st l) None) count) (v_static 0 0) (v_static 10 0) None None None.
Definition gradient_fill (count : nat) (l : list f64) : any_shape :=
  AsGradientFill (mkStyle no_ge (st f100)) (gradient_doc count l) None.
Definition stops_of (r : res (option shape)) : list color_stop :=
  match r with
  | Ok (Some (ShDraw d)) => match brush_eval E0 (dr_brush d) f1 f0 with BGradient g => g_stops g | _ => [] end
  | _ => []
  end.
Definition two_stops : list f64 := [f0; f1; f0; f0; f1; f0; f0; f1].
Example C42_witness : List.length (stops_of (conv_shape E0 (gradient_fill 2 two_stops))) = 2 /\
  paints_gradient (gradient_fill 2 two_stops) (gradient_doc 2 two_stops).
Proof. split; [vm_compute; reflexivity|]. left. eexists. eexists. reflexivity. Qed.
Example C42_animated_witness :
  let g := mkBaseGradient (mkGradientColors (mkMultiDim (animated [kf 0 two_stops; kf 10 two_stops]) None) 2)
             (v_static 0 0) (v_static 10 0) (Some GtRadial) None None in
  List.length (stops_of (conv_shape E0 (AsGradientFill (mkStyle no_ge (st f100)) g None))) = 2.
Proof. vm_compute. reflexivity. Qed.

(** * C43 *)
(** The alpha of a colour stop that lies on opacity stop [k] is that opacity
    if no opacity stop strictly between the first and the last has a smaller
    one.  Missing: the last condition, see [C43_refuted]. *)
Definition least_between (ops : list (f64 * f64)) (a : f64) : Prop :=
  forall j p, 0 < j < List.length ops - 1 -> nth_error ops j = Some p -> fleb a (snd p) = true.
Lemma fleb_antisym a b : fleb a b = true -> fleb b a = true -> feqb a b = true.
Proof.
  unfold fleb, feqb, Bleb, Beqb, SpecFloat.SFleb, SpecFloat.SFeqb.
  fold (Bcompare a b). fold (Bcompare b a). rewrite (Bcompare_swap _ _ b a).
  destruct (Bcompare b a) as [[]|]; cbn; congruence.
Qed.
Theorem C43_on_stop_partial : forall E x g l d out i s k p o,
  paints_gradient x g -> ap_k (md_p (gc_k (bg_g g))) = AkStatic l -> 1 <= gc_p (bg_g g) ->
  4 * gc_p (bg_g g) <= List.length l ->
  let ops := opacity_stops l (gc_p (bg_g g)) in
  2 <= List.length ops -> sane_opacities ops ->
  conv_shape E x = Ok (Some (ShDraw d)) -> (forall frame, stops_at E (dr_brush d) frame out) ->
  nth_error out i = Some s -> nth_error l (4 * i) = Some o -> is_finite o = true ->
  nth_error ops k = Some p -> feqb o (fst p) = true -> fleb (snd p) f1 = true -> least_between ops (snd p) ->
  exists a, ca (cs_color s) = f64_to_f32 a /\ same_number a (snd p).
Proof.
  intros E x g l d out i s k p o Hx Hk Hc Hl ops H2 Sane H Hout Hs Ho Fo Hp Heq H1 Lb.
  destruct (gradient_brush _ _ _ _ Hx H) as (sp & ep & stops & _ & _ & R & Ev).
  unfold gradient_stops_read in R. rewrite Hk in R. destruct R as (out' & -> & R).
  assert (out' = out) as ->.
  { destruct (Ev f0) as (k1 & Ek & _). destruct (Hout f0) as (k2 & Ek2). cbn [stops_eval] in Ek. congruence. }
  destruct R as [_ R]. destruct (R i s Hs) as (o' & r & gg & b & a & N & _ & _ & _ & _ & Ca & A1 & _ & A3).
  assert (o' = o) as ->.
  { unfold nums in N. cbn [List.length] in N.
    assert (X : nth_error (firstn 4 (skipn (4 * i) l)) 0 = Some o') by (rewrite N; reflexivity).
    assert (Y : nth_error (firstn 4 (skipn (4 * i) l)) 0 = nth_error l (4 * i)).
    { pose proof (firstn_skipn (4 * i) l) as FS. destruct (skipn (4 * i) l) as [|z zs] eqn:Sk; [discriminate X|].
      cbn. rewrite <- FS. rewrite nth_error_app2; rewrite firstn_length_le; try reflexivity.
      - now rewrite Nat.sub_diag.
      - destruct (Nat.le_gt_cases (4 * i) (List.length l)) as [|G]; [assumption|]. rewrite skipn_all2 in Sk by lia. discriminate.
      - destruct (Nat.le_gt_cases (4 * i) (List.length l)) as [|G]; [assumption|]. rewrite skipn_all2 in Sk by lia. discriminate. }
    congruence. }
  exists a. split; [exact Ca|].
  destruct (A3 Hc Hl H2 Sane k p Hp Fo Heq) as [Lo [->|(j & q & Cj & Hq & ->)]].
  - apply fleb_antisym; [apply (Lo k p); auto|exact H1].
  - apply fleb_antisym; [apply (Lo k p); auto|]. destruct Cj as [->|Cj].
    + assert (q = p) as -> by (unfold ops in Hp; congruence).
      destruct Sane as [Sf _]. rewrite Forall_forall in Sf. destruct (Sf p (nth_error_In _ _ Hp)) as [_ Fp].
      apply fleb_le; auto. apply Rle_refl.
    + apply (Lb j q Cj Hq).
Qed.
(** Two opacity stops, the common case: no further condition. *)
Theorem C43_two_stops_partial : forall ops a, List.length ops = 2 -> least_between ops a.
Proof. intros ops a H j p. lia. Qed.
(** Three opacity stops 1, 0, 1: the colour stop on the last one gets 0. *)
Definition dip : list f64 :=
  [f0; f0; f0; f0; f1; f0; f0; f0;   f0; f1; f_half; f0; f1; f1].
Lemma moderate_small x : is_finite x = true -> fleb (fabs x) (f_of_Z 1000) = true -> moderate x.
Proof.
  intros F H. split; [exact F|]. destruct (f_of_Z_R 1000 ltac:(lia)) as [R1 F1].
  apply fleb_le in H; [|unfold fabs; now rewrite is_finite_Babs|exact F1]. unfold fabs in H. rewrite B2R_Babs, R1 in H.
  apply Rle_trans with (1 := H). apply Rle_trans with (bpow radix2 10); [|apply bpow_le; lia].
  change (bpow radix2 10) with (IZR 1024). apply IZR_le. lia.
Qed.
Lemma dip_sane : sane_opacities (opacity_stops dip 2).
Proof.
  split.
  - repeat (apply Forall_cons; [split; [apply moderate_small|]; vm_compute; reflexivity|]). apply Forall_nil.
  - change (opacity_stops dip 2) with [(f0, f1); (f_half, f0); (f1, f1)].
    intros i j p q L Hp Hq. destruct i as [|[|[|i]]], j as [|[|[|j]]]; try lia; cbn [nth_error] in Hp, Hq;
      try (destruct i; discriminate Hp); try (destruct j; discriminate Hq);
      injection Hp as <-; injection Hq as <-; vm_compute; reflexivity.
Qed.
Theorem C43_refuted : exists g l d out s p,
  ap_k (md_p (gc_k (bg_g g))) = AkStatic l /\ gc_p (bg_g g) = 2 /\ List.length l = 14 /\
  sane_opacities (opacity_stops l 2) /\
  conv_shape E0 (AsGradientFill (mkStyle no_ge (st f100)) g None) = Ok (Some (ShDraw d)) /\
  (forall frame, stops_at E0 (dr_brush d) frame out) /\ nth_error out 1 = Some s /\
  nth_error l 4 = Some f1 /\ nth_error (opacity_stops l 2) 2 = Some p /\ p = (f1, f1) /\
  ca (cs_color s) = f64_to_f32 f0.
Proof.
  destruct (C42_imported E0 (mkStyle no_ge (st f100)) (gradient_doc 2 dip) None dip eq_refl) as [d Hd].
  destruct (C42_static_stops E0 _ (gradient_doc 2 dip) dip d (or_introl (ex_intro _ _ (ex_intro _ _ eq_refl))) eq_refl Hd)
    as (out & Hout & L & _).
  destruct (nth_error out 1) as [s|] eqn:S1; [|apply nth_error_None in S1; cbn in L; lia].
  exists (gradient_doc 2 dip), dip, d, out, s, (f1, f1).
  do 3 (split; [reflexivity|]). split; [exact dip_sane|]. split; [exact Hd|]. split; [exact Hout|].
  split; [exact S1|]. do 3 (split; [reflexivity|]).
  assert (W : match conv_shape E0 (AsGradientFill (mkStyle no_ge (st f100)) (gradient_doc 2 dip) None) with
              | Ok (Some (ShDraw d)) => match brush_eval E0 (dr_brush d) f1 f0 with
                  | BGradient g => match nth_error (g_stops g) 1 with
                                   | Some s => ca (cs_color s) = f64_to_f32 f0 | None => False end
                  | _ => False end
              | _ => False end) by (vm_compute; reflexivity).
  rewrite Hd in W. destruct (Hout f0) as (k & Hk). rewrite Hk in W. cbn [g_stops] in W. now rewrite S1 in W.
Qed.
Example C43_witness : let l := [f0; f0; f0; f0; f1; f0; f0; f0;   f0; f1; f1; f_half] in
  match nth_error (stops_of (conv_shape E0 (gradient_fill 2 l))) 1 with
  | Some s => Beqb (ca (cs_color s)) (f64_to_f32 f_half) = true | None => False end /\
  least_between (opacity_stops l 2) f_half.
Proof. split; [vm_compute; reflexivity|]. apply C43_two_stops_partial. reflexivity. Qed.

(** * C44 *)
(** The hidden flag of a shape has no effect: marking every shape of the
    document hidden, at every depth, changes nothing. *)
Definition hide_ge (g : graphic_element) : graphic_element :=
  mkGE (ge_vo g) (Some true) (ge_bm g) (ge_ix g) (ge_cl g) (ge_ln g) (ge_ind g).
Definition hide_shape (s : s_shape) := mkSShape (hide_ge (ss_ge s)) (ss_d s).
Definition hide_style (s : shape_style) := mkStyle (hide_ge (sst_ge s)) (sst_o s).
Fixpoint hide_all (x : any_shape) : any_shape :=
  match x with
  | AsGroup ge np it cix => AsGroup (hide_ge ge) np (map hide_all it) cix
  | AsRectangle sh p s r => AsRectangle (hide_shape sh) p s r
  | AsEllipse sh p s => AsEllipse (hide_shape sh) p s
  | AsTransform t => AsTransform (mkTransformShape (hide_ge (trs_ge t)) (trs_t t))
  | AsStroke st bs c => AsStroke (hide_style st) bs c
  | AsPuckerBloat m a => AsPuckerBloat (hide_ge m) a
  | AsMerge ge mm => AsMerge (hide_ge ge) mm
  | AsRepeater m c o mm tr => AsRepeater (hide_ge m) c o mm tr
  | AsOffsetPath m a lj ml => AsOffsetPath (hide_ge m) a lj ml
  | AsFill st c r => AsFill (hide_style st) c r
  | AsTrim m s e o mm => AsTrim (hide_ge m) s e o mm
  | AsPath sh ks => AsPath (hide_shape sh) ks
  | AsGradientFill st g r => AsGradientFill (hide_style st) g r
  | AsGradientStroke st bs g => AsGradientStroke (hide_style st) bs g
  | AsTwist m a p => AsTwist (hide_ge m) a p
  | AsRoundedCorners m r => AsRoundedCorners (hide_ge m) r
  | AsPolyStar sh p or os r pt sy ir is => AsPolyStar (hide_shape sh) p or os r pt sy ir is
  end.
Lemma hide_agree s : forall x, shape_agree s x (hide_all x).
Proof.
  apply any_shape_ind2.
  - intros ge np it cix F. cbn [hide_all]. apply ag_group. induction F; [apply ags_nil|apply ags_cons; auto].
  - intros x N. destruct x; cbn [hide_all]; try (now apply ag_ignored);
      try (constructor; auto using pos_agree_refl, prop_agree_refl, multi_agree_refl, any_p_agree_refl, path_agree_refl,
           stroke_agree_refl, gradient_agree_refl, group_tf_agree_refl; fail).
    + now destruct (N ge np it cix).
    + apply ag_star; auto using pos_agree_refl, prop_agree_refl; intros _; apply prop_agree_refl.
Qed.
Theorem C44_flag_ignored : forall E x, conv_shape E (hide_all x) = conv_shape E x.
Proof. intros E x. symmetry. apply conv_shape_agree, hide_agree. Qed.
(** So a shape marked hidden is drawn. *)
Definition doc_hidden_shape : animation :=
  doc [] [AlShape (visual (base "l" None None None) (tr_pos 0 0) None None None)
            [hide_all (rect_at 1 1); hide_all (fill_in no_ge)]].
Definition draws (es : list event) : bool := existsb (fun e => match e with EvDraw _ => true | _ => false end) es.
Theorem C44_refuted : exists c es p, conv_animation E0 doc_hidden_shape = Ok c /\
  append_draws E0 c f0 affine_identity f1 renderer_new es /\ In (EvDraw p) es.
Proof.
  assert (W : match conv_animation E0 doc_hidden_shape with
    | Ok c => r_out (append E0 5 c f0 affine_identity f1 renderer_new) = Ok tt /\
              draws (events (append E0 5 c f0 affine_identity f1 renderer_new)) = true
    | _ => False end) by (vm_compute; auto).
  destruct (conv_animation E0 doc_hidden_shape) as [c| |] eqn:C; try contradiction. destruct W as [W1 W2].
  apply existsb_exists in W2. destruct W2 as ([| | |p| |] & Hin & X); try discriminate.
  exists c, (events (append E0 5 c f0 affine_identity f1 renderer_new)), p. split; [reflexivity|].
  split; [|exact Hin]. exists 5. auto.
Qed.
Example C44_witness : exists x, ge_hd (sst_ge (mkStyle (hide_ge no_ge) (st f100))) = Some true /\
  hide_all (fill_in no_ge) = x /\ x <> fill_in no_ge.
Proof. eexists. split; [reflexivity|]. split; [reflexivity|]. discriminate. Qed.

(** * C46 *)
(** The deserialiser's check: only the last of at least two keyframes may
    lack a start. *)
Definition keyframes_validated (ks : list shape_keyframe) : Prop :=
  forall i k, nth_error ks i = Some k -> skf_s k = None -> 1 <= i /\ S i = List.length ks.
Definition handles_supported (ks : list shape_keyframe) : Prop := Forall (fun k => base_supported (skf_b k)) ks.
Definition outlines_given (ks : list shape_keyframe) : Prop := Forall (fun k => skf_s k <> Some []) ks.
Theorem C46_no_failure : forall E sh p ks, sp_k p = SkAnimated ks -> keyframes_validated ks -> handles_supported ks ->
  exists o, conv_shape E (AsPath sh p) = Ok o.
Proof.
  intros E sh p ks Hk V Hs. cbn [conv_shape conv_draw conv_geometry bind]. pose proof (conv_shape_geometry_spec p) as S1.
  assert (Su : path_supported p).
  { unfold path_supported. rewrite Hk. intros i k Hi _. split.
    - unfold handles_supported in Hs. rewrite Forall_forall in Hs. apply Hs, (nth_error_In _ _ Hi).
    - intros -> N. specialize (V _ _ Hi N). lia. }
  destruct (conv_shape_geometry p) as [[g|]| |].
  - eexists. reflexivity.
  - eexists. reflexivity.
  - exfalso. exact (S1 Su).
  - destruct S1.
Qed.
Theorem C46_spline : forall E sh p ks, sp_k p = SkAnimated ks -> keyframes_validated ks -> handles_supported ks ->
  outlines_given ks ->
  exists s, conv_shape E (AsPath sh p) = Ok (Some (ShGeometry (GSpline s))) /\ spline_reads ks s /\
    List.length (asp_values s) = List.length ks.
Proof.
  intros E sh p ks Hk V Hs Ho. destruct (C46_no_failure E sh p ks Hk V Hs) as [o H]. revert H.
  cbn [conv_shape conv_draw conv_geometry bind]. pose proof (conv_shape_geometry_spec p) as S1.
  assert (Im : path_imports p).
  { unfold path_imports. rewrite Hk. intros i Hi. unfold outlines_given in Ho. rewrite Forall_forall in Ho.
    assert (G : forall j k, nth_error ks j = Some k -> skf_s k <> None -> first_of (skf_s k) <> None).
    { intros j k Hj N. specialize (Ho k (nth_error_In _ _ Hj)). destruct (skf_s k) as [[|b l]|]; cbn [first_of]; congruence. }
    unfold start_of. destruct (nth_error ks i) as [k|] eqn:Ki; [|apply nth_error_None in Ki; lia].
    destruct (skf_s k) as [l|] eqn:Sk.
    - specialize (G i k Ki). rewrite Sk in G. apply G. discriminate.
    - destruct (V i k Ki Sk) as [Li Le]. destruct i as [|j]; [lia|].
      destruct (nth_error ks j) as [q|] eqn:Kj; [|apply nth_error_None in Kj; lia].
      destruct (first_of (skf_e q)); [discriminate|]. apply (G j q Kj). intros N.
      destruct (V j q Kj N). lia. }
  destruct (conv_shape_geometry p) as [[g|]| |]; cbn [bind]; try discriminate.
  2:{ exfalso. now apply S1. }
  intros [= <-]. destruct S1 as (_ & _ & R & _). unfold path_reads in R. rewrite Hk in R.
  destruct R as (s & -> & R). exists s. split; [reflexivity|]. split; [exact R|]. apply R.
Qed.
Definition seg (x : Z) : bezier := mkBezier None [(f_of_Z x, f0); (f1, f1)] [] [].
Definition skf (t : Z) (s e : option (list bezier)) : shape_keyframe :=
  mkShapeKf (mkKfBase (f_of_Z t) None None None) s e.
Example C46_witness : let ks := [skf 0 (Some [seg 0]) None; skf 10 None None] in
  keyframes_validated ks /\ handles_supported ks /\ outlines_given ks.
Proof.
  cbn zeta. split; [|split].
  - intros [|[|[|i]]] k H N; cbn in *; try discriminate; injection H as <-; cbn in N; try discriminate. lia.
  - repeat (apply Forall_cons; [split; intros ? H; discriminate|]). apply Forall_nil.
  - repeat (apply Forall_cons; [discriminate|]). apply Forall_nil.
Qed.

(** * C50: properties over time *)
Lemma scalar_means_reads E v w : scalar_reads v w -> scalar_means E v (fun frame => eval E w frame).
Proof.
  intros R. unfold scalar_means. destruct (ap_k v) as [ks|n] eqn:K.
  - intros O M. pose proof (scalar_follow E v ks w dflt K R O M) as F.
    unfold scalar_reads in R. rewrite K in R. destruct R as (a & -> & _). exact F.
  - unfold scalar_reads in R. rewrite K in R. subst w. reflexivity.
Qed.
Lemma vector_means_reads {T} `{L : TweenLaws T} `{Dflt T} E (f : list f64 -> T) v w d : vector_reads f v w ->
  vector_means E f v (fun frame => eval_or E w frame d).
Proof.
  intros R. unfold vector_means, vector_reads in *. destruct (ap_k v) as [ks|l].
  - intros O M. now apply keyframes_follow.
  - subst w. reflexivity.
Qed.
Lemma eval_eval_or {T} `{Tween T} `{Dflt T} E (w : value T) frame : eval_or E w frame dflt = eval E w frame.
Proof. reflexivity. Qed.
Lemma pos_means_reads E v w : pos_reads point_of v w -> pos_means E v (fun frame => eval E w frame).
Proof.
  intros R. unfold pos_means, pos_reads in *. destruct (po_k v) as [ks|l].
  - intros O M. apply (keyframes_follow E point_of (map pk_kf ks) w dflt R O M).
  - subst w. reflexivity.
Qed.
Lemma position_means_reads E p q : position_reads p q -> any_p_means E p (fun frame => position_eval E q frame).
Proof.
  intros R. destruct p as [p|s], q as [v|x y]; cbn in R; try contradiction.
  - apply (pos_means_reads E p v R).
  - destruct R as [Rx Ry]. exists (fun frame => eval E x frame), (fun frame => eval E y frame).
    split; [now apply scalar_means_reads|]. split; [now apply scalar_means_reads|]. reflexivity.
Qed.
Lemma or_static_means E o d w : scalar_reads (or_static o d) w ->
  or_means (scalar_means E) o d (fun frame => eval E w frame).
Proof.
  destruct o as [v|]; cbn [or_means or_static].
  - apply scalar_means_reads.
  - intros R. cbn in R. subst w. reflexivity.
Qed.
Lemma transform_means_reads E s t u op m : transform_reads s t u op -> stored_transform E u m ->
  transform_means E s t (fun frame => transform_eval E m frame) (fun frame => eval E op frame).
Proof.
  intros (A & P & Sc & R & K & X & O) St. split; [|now apply or_static_means].
  exists (fun frame => position_eval E (at_position u) frame), (fun frame => eval E (at_anchor u) frame),
    (fun frame => eval E (at_scale u) frame), (fun frame => eval E (at_rotation u) frame),
    (fun frame => eval E (at_skew u) frame), (fun frame => eval E (at_skew_angle u) frame).
  split; [now apply position_means_reads|]. split.
  { destruct (tf_a t) as [p|]; cbn; [now apply pos_means_reads|]. rewrite A. reflexivity. }
  split. { destruct (tf_s t) as [v|]; cbn; [now apply (vector_means_reads E vec2_of)|]. rewrite Sc. reflexivity. }
  split. { destruct (tf_r t) as [[v|? ? ? ?]|]; cbn; [|contradiction|].
    - exists v. split; [reflexivity|]. now apply scalar_means_reads.
    - rewrite R. reflexivity. }
  split; [now apply or_static_means|]. split; [now apply or_static_means|].
  intros frame. rewrite (St frame). unfold a_transform_eval, placement, skewing.
  destruct (feqb (eval E (at_skew u) frame) f0); reflexivity.
Qed.
(** Matrix and opacity of every layer over time. *)
Theorem C50_layer : forall E a c s i src ly, conv_animation E a = Ok c ->
  nth_error (source_layers a s) i = Some src -> layer_at c (s, i) = Some ly ->
  transform_means E [f1; f1; f1] (vl_ks (visual_of src))
    (fun frame => transform_eval E (ly_transform ly) frame) (fun frame => eval E (ly_opacity ly) frame).
Proof.
  intros E a c s i src ly H Hs Hl. destruct (C54_layer_contents _ _ _ _ _ _ _ H Hs Hl) as ((u & R & St) & _).
  eapply transform_means_reads; eauto.
Qed.
(** Matrix and opacity of a group. *)
Theorem C50_group : forall E ge np it cix t shapes gt, becomes E (AsGroup ge np it cix) (ShGroup shapes gt) ->
  last_transform it (Some t) ->
  exists g, gt = Some g /\ transform_means E [f1; f1; f1] (trs_t t)
    (fun frame => transform_eval E (gt_transform g) frame) (fun frame => eval E (gt_opacity g) frame).
Proof.
  intros E ge np it cix t shapes gt B L. inversion B as [? ? ? ? ? t' ? _ L' R| | | | | | | | |]; subst.
  assert (t' = Some t) as ->.
  { destruct L as (l & r & -> & N). destruct t' as [t'|]; cbn in L'.
    - destruct L' as (l' & r' & Eq & N'). f_equal.
      assert (G : forall l l', l ++ AsTransform t :: r = l' ++ AsTransform t' :: r' -> t' = t).
      { clear - N N'. induction l as [|x l IH]; intros [|y l'] Eq; cbn in Eq.
        - now injection Eq as -> _.
        - injection Eq as _ Eq. exfalso. apply (N t'). rewrite Eq. apply in_elt.
        - injection Eq as _ Eq. exfalso. apply (N' t). rewrite <- Eq. apply in_elt.
        - injection Eq as _ Eq. eauto. }
      apply (G _ _ Eq).
    - exfalso. apply (L' t). apply in_elt. }
  destruct gt as [g|]; [|contradiction]. exists g. split; [reflexivity|]. destruct R as (u & R & St).
  eapply transform_means_reads; eauto.
Qed.
Lemma solid_means E c b : solid_reads E c b -> exists g, vector_means E color_of c g /\
  forall frame, brush_eval E b f1 frame = BSolid (x_color_mul_alpha E (g frame) (f64_to_f32 f1)).
Proof.
  intros (cv & R & Ev). exists (fun frame => eval_or E cv frame see_through). split; [|exact Ev].
  unfold vector_means, vector_reads in *. destruct (ap_k c) as [ks|l].
  - intros O M. now apply keyframes_follow.
  - subst cv. reflexivity.
Qed.
Lemma stroke_means_reads E j c bs s : stroke_reads E j c bs s -> stroke_means E j c bs (fun frame => stroke_eval E s frame).
Proof.
  intros (w & R & Ev). exists (fun frame => eval E w frame). split; [now apply scalar_means_reads|]. exact Ev.
Qed.
(** Fills and strokes: colour, opacity and stroke style over time. *)
Theorem C50_fill : forall E st c r d, becomes E (AsFill st c r) (ShDraw d) ->
  dr_stroke d = None /\ scalar_means E (sst_o st) (fun frame => eval E (dr_opacity d) frame) /\
  exists g, vector_means E color_of c g /\
    forall frame, brush_eval E (dr_brush d) f1 frame = BSolid (x_color_mul_alpha E (g frame) (f64_to_f32 f1)).
Proof.
  intros E st c r d B. inversion B; subst. split; [assumption|]. split; [now apply scalar_means_reads|now apply solid_means].
Qed.
Theorem C50_stroke : forall E st bs c d, becomes E (AsStroke st bs c) (ShDraw d) ->
  scalar_means E (sst_o st) (fun frame => eval E (dr_opacity d) frame) /\
  (exists s, dr_stroke d = Some s /\ stroke_means E LjBevel LcButt bs (fun frame => stroke_eval E s frame)) /\
  exists g, vector_means E color_of c g /\
    forall frame, brush_eval E (dr_brush d) f1 frame = BSolid (x_color_mul_alpha E (g frame) (f64_to_f32 f1)).
Proof.
  intros E st bs c d B. inversion B; subst. split; [now apply scalar_means_reads|].
  split; [|now apply solid_means]. eexists. split; [eassumption|]. now apply stroke_means_reads.
Qed.
Theorem C50_trim : forall E m s e o mm t, becomes E (AsTrim m s e o mm) (ShTrim t) ->
  exists vs ve vo, scalar_means E s vs /\ scalar_means E e ve /\ scalar_means E o vo /\
    forall frame, trim_eval E t frame = mkTrim (vs frame) (ve frame) (vo frame).
Proof.
  intros E m s e o mm t B. inversion B as [| | | | | | | | |? ? ? ? ? ? vs ve vo Rs Re Ro Ev]; subst.
  exists (fun frame => eval E vs frame), (fun frame => eval E ve frame), (fun frame => eval E vo frame).
  auto using scalar_means_reads.
Qed.
Theorem C50_mask_opacity : forall E m k, mask_reads m k ->
  or_means (scalar_means E) (mas_o m) f100 (fun frame => eval E (mk_opacity k) frame).
Proof. intros E m k [_ R]. now apply or_static_means. Qed.
Theorem C50_time_remap : forall E vl name w h s tm r, content_reads E (AlPrecomp vl name w h s (Some tm)) (CInstance name (Some r)) ->
  scalar_means E tm (fun frame => eval E r frame).
Proof. intros E vl name w h s tm r (r' & [= <-] & R). now apply scalar_means_reads. Qed.
(** A layer whose opacity goes from 0 at frame 0 to 100 at frame 10. *)
Definition doc_fade : animation :=
  doc [] [AlNull (visual (base "n" None None None)
    (mkSTransform None (ApPosition (p_static 3 4)) None (Some (ArRotation (st f0))) None None
       (Some (animated [kf 0 [f0]; kf 10 [f100]]))) None None None)].
Example C50_witness : in_order [kf 0 [f0]; kf 10 [f100]] /\ moderate_keyframes [kf 0 [f0]; kf 10 [f100]] /\
  match conv_animation E0 doc_fade with
  | Ok c => match layer_at c (None, 0) with
            | Some ly => feqb (eval E0 (ly_opacity ly) (f_of_Z 5)) (f_of_Z 50) = true
            | None => False end
  | _ => False end.
Proof.
  split; [|split].
  - intros [|[|i]] [|[|j]] k l L Hk Hl; try lia; cbn [nth_error] in Hk, Hl;
      try (destruct i; discriminate Hk); try (destruct j; discriminate Hl).
    injection Hk as <-. injection Hl as <-. vm_compute. reflexivity.
  - repeat (apply Forall_cons; [apply moderate_small; vm_compute; reflexivity|]). apply Forall_nil.
  - vm_compute. reflexivity.
Qed.

(** * C51 *)
(** Keyframes with one easing per component: the last component follows its
    own easing, and so do all if there is one easing for all.
    Missing: the other components, see [C51_refuted]. *)
Lemma component_at_fun c j x y : component_at c j x -> component_at c j y -> x = y.
Proof. destruct c; cbn; congruence. Qed.
Lemma handle_at_fun k j h h' : handle_at k j h -> handle_at k j h' -> h = h'.
Proof.
  intros [A B] [C D]. destruct h, h'. cbn in *. f_equal; eapply component_at_fun; eauto.
Qed.
Lemma easing_at_fun b j e e' : easing_at b j e -> easing_at b j e' -> e = e'.
Proof.
  intros [A B] [C D]. destruct e as [o i], e' as [o' i']. cbn in *. unfold handle_or in *.
  destruct (kb_out b), (kb_in b); f_equal; try congruence; eapply handle_at_fun; eauto.
Qed.
Theorem C51_last_component_partial : forall E ks w i k l frame e,
  keyframes_read point_of ks w -> in_order ks -> moderate_keyframes ks ->
  nth_error ks i = Some k -> nth_error ks (S i) = Some l -> is_finite frame = true -> between k l frame -> ~ held k ->
  let p := eval E w frame in let a := point_of (kf_value k) in let b := point_of (kf_value l) in
  let t := progress k l frame in
  (easings k = 2 -> easing_at (kf_b k) 1 e -> py p = tween E (py a) (py b) t e) /\
  (easings k = 1 -> easing_at (kf_b k) 0 e -> px p = tween E (px a) (px b) t e /\ py p = tween E (py a) (py b) t e) /\
  (easings k = 0 -> px p = tween E (px a) (px b) t linear /\ py p = tween E (py a) (py b) t linear).
Proof.
  intros E ks w i k l frame e R O M Hk Hl Ff Bt Nh p a b t.
  destruct (fo_between _ _ _ _ _ (keyframes_follow E point_of ks w dflt R O M) i k l frame Ff Hk Hl Bt Nh) as (e' & Ve & Ev).
  change (eval_or E w frame dflt) with p in Ev. unfold vector_easing in Ve.
  split; [|split]; intros He.
  - rewrite He in Ve. cbn in Ve. intros Ee. rewrite (easing_at_fun _ _ _ _ Ee Ve). rewrite Ev. reflexivity.
  - rewrite He in Ve. cbn in Ve. intros Ee. rewrite (easing_at_fun _ _ _ _ Ee Ve). rewrite Ev. split; reflexivity.
  - rewrite He in Ve. cbn in Ve. subst e'. rewrite Ev. split; reflexivity.
Qed.
(** x eased linearly, y quickly: x is eased quickly too. *)
Definition ks_xy : list keyframe :=
  [kf_eased 0 (KcArray [f1; f1], KcArray [f1; f1]) (KcArray [f0; f0], KcArray [f0; f1]) [f0; f0];
   kf 10 [f100; f100]].
Definition doc_xy : s_position :=
  mkSPosition None None None None (PkAnimated (map (fun k => mkPosKeyframe k None None) ks_xy)).
Lemma ks_xy_ok : keyframes_read point_of ks_xy (conv_pos_point doc_xy) /\ in_order ks_xy /\ moderate_keyframes ks_xy.
Proof.
  split; [|split].
  - assert (R : pos_reads point_of doc_xy (conv_pos_point doc_xy)) by apply conv_pos_reads. exact R.
  - intros [|[|i]] [|[|j]] k l L Hk Hl; try lia; cbn [nth_error ks_xy] in Hk, Hl;
      try (destruct i; discriminate Hk); try (destruct j; discriminate Hl).
    injection Hk as <-. injection Hl as <-. vm_compute. reflexivity.
  - repeat (apply Forall_cons; [apply moderate_small; vm_compute; reflexivity|]). apply Forall_nil.
Qed.
Theorem C51_refuted : ~ forall E ks w i k l frame e,
  keyframes_read point_of ks w -> in_order ks -> moderate_keyframes ks ->
  nth_error ks i = Some k -> nth_error ks (S i) = Some l -> is_finite frame = true -> between k l frame -> ~ held k ->
  easings k = 2 -> easing_at (kf_b k) 0 e ->
  px (eval E w frame) = tween E (px (point_of (kf_value k))) (px (point_of (kf_value l))) (progress k l frame) e.
Proof.
  intros H. destruct ks_xy_ok as (R & O & M).
  specialize (H E0 ks_xy (conv_pos_point doc_xy) 0 _ _ (f_of_Z 5) linear R O M eq_refl eq_refl eq_refl).
  assert (B : between (nth 0 ks_xy (kf 0 [])) (nth 1 ks_xy (kf 0 [])) (f_of_Z 5)) by (split; vm_compute; reflexivity).
  specialize (H B ltac:(discriminate) eq_refl).
  assert (Ee : easing_at (kf_b (nth 0 ks_xy (kf 0 []))) 0 linear) by (repeat split).
  specialize (H Ee).
  match type of H with ?x = ?y => assert (N : feqb x y = false) by (vm_compute; reflexivity);
    rewrite H in N; assert (P : feqb y y = true) by (vm_compute; reflexivity); congruence end.
Qed.
Example C51_witness : easings (nth 0 ks_xy (kf 0 [])) = 2 /\
  easing_at (kf_b (nth 0 ks_xy (kf 0 []))) 1 (mkEasing (mkHandle f0 f1) (mkHandle f1 f1)).
Proof. repeat split. Qed.

(** * C52 *)
(** Solid fills and strokes have the opacity the document gives; gradient
    fills and strokes are always painted at 100 %. *)
Definition opacity_honoured (E : Ext) (st : shape_style) (d : draw) : Prop :=
  scalar_means E (sst_o st) (fun frame => eval E (dr_opacity d) frame).
Theorem C52_solid_partial : forall E x st d, becomes E x (ShDraw d) ->
  (exists c r, x = AsFill st c r) \/ (exists bs c, x = AsStroke st bs c) -> opacity_honoured E st d.
Proof.
  intros E x st d B [(c & r & ->)|(bs & c & ->)]; inversion B; subst; now apply scalar_means_reads.
Qed.
Theorem C52_gradient : forall E x g d, becomes E x (ShDraw d) -> paints_gradient x g ->
  forall frame, eval E (dr_opacity d) frame = f100.
Proof.
  intros E x g d B [(st & r & ->)|(st & bs & ->)] frame; inversion B; subst.
  - match goal with H : dr_opacity _ = _ |- _ => now rewrite H end.
  - match goal with H : dr_opacity _ = _ |- _ => now rewrite H end.
Qed.
Theorem C52_refuted : ~ forall E st g r d, becomes E (AsGradientFill st g r) (ShDraw d) -> opacity_honoured E st d.
Proof.
  intros H.
  destruct (C42_imported E0 (mkStyle no_ge (st f0)) (gradient_doc 2 two_stops) None two_stops eq_refl) as [d Hd].
  pose proof (gradient_brush E0 _ (gradient_doc 2 two_stops) d (or_introl (ex_intro _ _ (ex_intro _ _ eq_refl))) Hd) as G.
  assert (O : dr_stroke d = None /\ dr_opacity d = VFixed f100).
  { revert Hd. cbn [conv_shape conv_draw]. destruct (conv_gradient E0 _); try discriminate. cbn [bind]. intros [= <-]. auto. }
  destruct O as [O1 O2].
  specialize (H E0 (mkStyle no_ge (st f0)) (gradient_doc 2 two_stops) None d (bec_gfill _ _ _ _ _ O1 G O2) f0).
  rewrite O2 in H. cbn [eval sst_o st ap_k] in H.
  assert (N : feqb f100 f0 = false) by (vm_compute; reflexivity). rewrite H in N. vm_compute in N. discriminate.
Qed.
Example C52_witness : yields (AsFill (mkStyle no_ge (st f0)) black None) /\
  paints_gradient (gradient_fill 2 two_stops) (gradient_doc 2 two_stops).
Proof. split; [constructor|]. left. eexists. eexists. reflexivity. Qed.

(** * C55 *)
(** The matrix of a layer is the product of its properties' values. *)
Theorem C55_layer : forall E a c s i src ly, conv_animation E a = Ok c ->
  nth_error (source_layers a s) i = Some src -> layer_at c (s, i) = Some ly ->
  let t := vl_ks (visual_of src) in
  exists position anchor scale rotation skew axis,
    any_p_means E (tf_p t) position /\ or_means (pos_means E) (tf_a t) (mkPoint f0 f0) anchor /\
    or_means (fun v => vector_means E vec2_of (md_p v)) (tf_s t) (vec2_of [f1; f1; f1]) scale /\
    or_means (fun r g => exists v, r = ArRotation v /\ scalar_means E v g) (tf_r t) f0 rotation /\
    or_means (scalar_means E) (tf_sk t) f0 skew /\ or_means (scalar_means E) (tf_sa t) f0 axis /\
    forall frame, transform_eval E (ly_transform ly) frame =
      placement E (position frame) (anchor frame) (scale frame) (rotation frame) (skew frame) (axis frame).
Proof.
  intros E a c s i src ly H Hs Hl t. exact (proj1 (C50_layer _ _ _ _ _ _ _ H Hs Hl)).
Qed.
(** A transform without rotation and skew sends [x] to [s * x + (p - s * a)],
    for scale [s], position [p], anchor [a] (first scale about the anchor, then
    move): one rounding per product and per sum. *)
Definition is_num (x : f64) (r : R) : Prop := is_finite x = true /\ B2R x = r.
Lemma num_mul0 x z : is_finite x = true -> is_num z 0 -> is_num (fmul z x) 0 /\ is_num (fmul x z) 0.
Proof.
  intros Fx [Fz Z]. unfold is_num.
  destruct (fmul_R z x Fz Fx) as [E1 F1]. { rewrite Z, Rmult_0_l, Rabs_R0. apply bpow_ge_0. }
  destruct (fmul_R x z Fx Fz) as [E2 F2]. { rewrite Z, Rmult_0_r, Rabs_R0. apply bpow_ge_0. }
  rewrite E1, E2, Z, Rmult_0_l, Rmult_0_r, rnd_0. auto.
Qed.
Lemma num_mul1 x o : moderate x -> is_num o 1 -> is_num (fmul o x) (B2R x) /\ is_num (fmul x o) (B2R x).
Proof.
  intros [Fx B] [Fo O]. unfold is_num.
  assert (B' : (Rabs (B2R x) <= bpow radix2 1023)%R) by (apply Rle_trans with (1 := B); apply bpow_le; lia).
  destruct (fmul_R o x Fo Fx) as [E1 F1]. { now rewrite O, Rmult_1_l. }
  destruct (fmul_R x o Fx Fo) as [E2 F2]. { now rewrite O, Rmult_1_r. }
  rewrite E1, E2, O, Rmult_1_l, Rmult_1_r, rnd_f64. auto.
Qed.
Lemma num_add0 x z : moderate x -> is_num z 0 -> is_num (fadd z x) (B2R x) /\ is_num (fadd x z) (B2R x).
Proof.
  intros [Fx B] [Fz Z]. unfold is_num.
  assert (B' : (Rabs (B2R x) <= bpow radix2 1023)%R) by (apply Rle_trans with (1 := B); apply bpow_le; lia).
  destruct (fadd_R z x Fz Fx) as [E1 F1]. { now rewrite Z, Rplus_0_l. }
  destruct (fadd_R x z Fx Fz) as [E2 F2]. { now rewrite Z, Rplus_0_r. }
  rewrite E1, E2, Z, Rplus_0_l, Rplus_0_r, rnd_f64. auto.
Qed.

Lemma num_add x y : is_num x 0 -> is_num y 0 -> is_num (fadd x y) 0.
Proof.
  intros [Fx X] [Fy Y]. destruct (fadd_R x y Fx Fy) as [E1 F1]; unfold is_num.
  { rewrite X, Y, Rplus_0_l, Rabs_R0. apply bpow_ge_0. }
  rewrite E1, X, Y, Rplus_0_l, rnd_0. auto.
Qed.
Definition is_matrix (m : affine) (a b c d e f : R) : Prop :=
  is_num (aa m) a /\ is_num (ab m) b /\ is_num (ac m) c /\ is_num (ad m) d /\ is_num (ae m) e /\ is_num (af m) f.
(** At most 2^400 in magnitude. *)
Definition small (x : f64) : Prop := is_finite x = true /\ (Rabs (B2R x) <= bpow radix2 400)%R.
Lemma small_moderate x : small x -> moderate x.
Proof. intros [F B]. split; [exact F|]. apply Rle_trans with (1 := B). apply bpow_le. lia. Qed.
Lemma num_moderate x r : is_num x r -> (Rabs r <= bpow radix2 1000)%R -> moderate x.
Proof. intros [F <-] B. split; assumption. Qed.
Lemma r0_b : (Rabs 0 <= bpow radix2 1000)%R. Proof. rewrite Rabs_R0. apply bpow_ge_0. Qed.
Lemma r1_b : (Rabs 1 <= bpow radix2 1000)%R.
Proof. rewrite Rabs_R1. change 1%R with (bpow radix2 0). apply bpow_le. lia. Qed.
(** [1 * x + z] with [z] zero and [x] a number. *)
Lemma dot1 x y u v r : is_num x 1 -> is_num y r -> (Rabs r <= bpow radix2 1000)%R -> is_num u 0 -> is_finite v = true ->
  is_num (fadd (fmul x y) (fmul u v)) r /\ is_num (fadd (fmul y x) (fmul v u)) r /\
  is_num (fadd (fmul u v) (fmul x y)) r /\ is_num (fadd (fmul v u) (fmul y x)) r.
Proof.
  intros X Y B U V. destruct (num_mul1 y x (num_moderate _ _ Y B) X) as [P P'].
  destruct (num_mul0 v u V U) as [Q Q']. destruct Y as [Fy Y]. rewrite Y in P, P'.
  pose proof (num_moderate _ _ P B) as M. pose proof (num_moderate _ _ P' B) as M'.
  destruct (num_add0 _ _ M Q) as [A1 A2]. destruct (num_add0 _ _ M' Q') as [A3 A4].
  destruct P as [_ P], P' as [_ P']. rewrite P in A1, A2. rewrite P' in A3, A4. auto.
Qed.
Lemma dot0 x y u v : is_num x 0 -> is_finite y = true -> is_num u 0 -> is_finite v = true ->
  is_num (fadd (fmul x y) (fmul u v)) 0 /\ is_num (fadd (fmul y x) (fmul u v)) 0 /\
  is_num (fadd (fmul x y) (fmul v u)) 0 /\ is_num (fadd (fmul y x) (fmul v u)) 0.
Proof.
  intros X Y U V. destruct (num_mul0 y x Y X), (num_mul0 v u V U). auto using num_add.
Qed.
Lemma plus0 x y r : is_num x 0 -> is_num y r -> (Rabs r <= bpow radix2 1000)%R -> is_num (fadd x y) r.
Proof. intros X Y B. destruct (num_add0 y x (num_moderate _ _ Y B) X) as [P _]. destruct Y as [_ <-]. exact P. Qed.
Definition bounded (r : R) : Prop := (Rabs r <= bpow radix2 1000)%R.
Lemma matrix_diag m k a d x y : bounded a -> bounded d -> bounded x -> bounded y ->
  is_matrix m 1 0 0 1 x y -> is_matrix k a 0 0 d 0 0 -> is_matrix (affine_mul m k) a 0 0 d x y.
Proof.
  intros Ba Bd Bx By (A & B & C & D & X & Y) (A' & B' & C' & D' & X' & Y').
  unfold is_matrix, affine_mul. cbn [aa ab ac ad ae af].
  pose proof (proj1 A); pose proof (proj1 B); pose proof (proj1 C); pose proof (proj1 D).
  pose proof (proj1 A'); pose proof (proj1 B'); pose proof (proj1 C'); pose proof (proj1 D').
  pose proof (proj1 X'); pose proof (proj1 Y').
  split; [apply (dot1 _ _ _ _ _ A A' Ba C); assumption|].
  split; [apply (dot0 _ (aa k) _ (ad m) B); assumption|].
  split; [apply (dot0 _ (aa m) _ (ad k) C' ltac:(assumption) C); assumption|].
  split; [apply (dot1 _ _ _ _ _ D D' Bd B); assumption|].
  split; apply plus0; try assumption.
  - apply (dot0 _ (aa m) _ (af k) X' ltac:(assumption) C); assumption.
  - apply (dot0 _ (ae k) _ (ad m) B); assumption.
Qed.
Lemma small_mul x y : small x -> small y ->
  is_num (fmul x y) (rnd (B2R x * B2R y)) /\ bounded (rnd (B2R x * B2R y)).
Proof.
  intros [Fx Bx] [Fy By].
  assert (P : (Rabs (B2R x * B2R y) <= bpow radix2 800)%R).
  { rewrite Rabs_mult. replace 800%Z with (400 + 400)%Z by lia. rewrite bpow_plus.
    apply Rmult_le_compat; auto using Rabs_pos. }
  destruct (fmul_R x y Fx Fy) as [E1 F1].
  { apply Rle_trans with (1 := P). apply bpow_le. lia. }
  split; [split; assumption|]. unfold bounded. apply rnd_bpow_le; [lia|].
  apply Rle_trans with (1 := P). apply bpow_le. lia.
Qed.
Lemma small_fneg x : small x -> small (fneg x) /\ B2R (fneg x) = (- B2R x)%R.
Proof.
  intros [F B]. unfold fneg, small. rewrite is_finite_Bopp, B2R_Bopp, Rabs_Ropp. auto.
Qed.
Lemma rnd_neg r : rnd (- r) = (- rnd r)%R.
Proof. apply round_NE_opp. Qed.
(** [s * (- a) + 0] plus [p] is [p - s * a]. *)
Lemma shift s a p p' z u : small s -> small a -> small p -> is_num p' (B2R p) -> is_num z 0 -> is_num u (B2R s) ->
  forall t q, q = fmul u (fneg a) -> (t = fadd q z \/ t = fadd z q) ->
  same_number (fadd t p') (fsub p (fmul s a)).
Proof.
  intros Hs Ha Hp Hp' Z U t q -> Ht.
  assert (Us : small u) by (destruct U as [Fu Eu]; split; [exact Fu|]; rewrite Eu; apply Hs).
  destruct (small_fneg a Ha) as [Na Ea]. destruct (small_mul u (fneg a) Us Na) as [Q BQ].
  rewrite Ea, (proj2 U), Ropp_mult_distr_r_reverse, rnd_neg in Q, BQ.
  destruct (small_mul s a Hs Ha) as [P BP].
  assert (T : is_num t (- rnd (B2R s * B2R a))).
  { pose proof (num_add0 _ _ (num_moderate _ _ Q BQ) Z) as [A1 A2]. rewrite (proj2 Q) in A1, A2. destruct Ht as [-> | ->]; assumption. }
  assert (K : (Rabs (B2R p + - rnd (B2R s * B2R a)) <= bpow radix2 1023)%R).
  { apply Rle_trans with (1 := Rabs_triang _ _). replace 1023%Z with (1022 + 1)%Z by lia. rewrite bpow_S.
    replace (2 * bpow radix2 1022)%R with (bpow radix2 1022 + bpow radix2 1022)%R by ring.
    apply Rplus_le_compat; [apply Rle_trans with (1 := proj2 Hp)|apply Rle_trans with (1 := BQ)]; apply bpow_le; lia. }
  destruct (fadd_R t p' (proj1 T) (proj1 Hp')) as [E1 F1]. { now rewrite (proj2 T), (proj2 Hp'), Rplus_comm. }
  destruct (fsub_R p (fmul s a) (proj1 Hp) (proj1 P)) as [E2 F2]. { rewrite (proj2 P). exact K. }
  apply feqb_eq; auto. rewrite E1, E2, (proj2 T), (proj2 P), (proj2 Hp'). f_equal. ring.
Qed.
(** No rotation at angle 0. *)
Definition flat_rotation (E : Ext) : Prop := forall z, is_num z 0 -> is_num (x_sin E z) 0 /\ is_num (x_cos E z) 1.
Lemma small_bounded x : small x -> bounded (B2R x).
Proof. intros H. apply (small_moderate x H). Qed.
Theorem C55_scale_about_anchor : forall E p a s rot sk sa, flat_rotation E ->
  is_num rot 0 -> is_num sk 0 ->
  small (px p) -> small (py p) -> small (px a) -> small (py a) ->
  let sx := fdiv (vx s) f100 in let sy := fdiv (vy s) f100 in small sx -> small sy ->
  let m := placement E p a s rot sk sa in
  same_number (aa m) sx /\ same_number (ab m) f0 /\ same_number (ac m) f0 /\ same_number (ad m) sy /\
  same_number (ae m) (fsub (px p) (fmul sx (px a))) /\ same_number (af m) (fsub (py p) (fmul sy (py a))).
Proof.
  intros E p a s rot sk sa Fl Hr Hsk Px Py Ax Ay sx sy Sx Sy m. unfold m, placement, skewing.
  assert (feqb sk f0 = true) as -> by (apply feqb_eq; [apply Hsk|reflexivity|]; rewrite (proj2 Hsk); reflexivity).
  cbn [app product]. fold sx sy.
  assert (N1 : is_num f1 1) by (split; [reflexivity|apply f1_R]).
  assert (N0 : is_num f0 0) by (split; reflexivity).
  assert (Rr : is_num (to_radians rot) 0) by (unfold to_radians; refine (proj1 (num_mul0 _ _ _ Hr)); vm_compute; reflexivity).
  destruct (Fl _ Rr) as [Si Co].
  assert (Sn : is_num (fneg (x_sin E (to_radians rot))) 0).
  { destruct Si as [F V]. split; [unfold fneg; now rewrite is_finite_Bopp|]. unfold fneg. rewrite B2R_Bopp, V. apply Ropp_0. }
  assert (Px' := small_bounded _ Px). assert (Py' := small_bounded _ Py).
  assert (B1 : bounded 1) by apply r1_b.
  set (m0 := affine_translate (px p) (py p)).
  assert (M0 : is_matrix m0 1 0 0 1 (B2R (px p)) (B2R (py p))) by
    (unfold is_matrix; cbn; repeat (split; [assumption|]); split; split; try reflexivity; [apply Px|apply Py]).
  set (m1 := affine_mul m0 (affine_rotate E (to_radians rot))).
  assert (M1 : is_matrix m1 1 0 0 1 (B2R (px p)) (B2R (py p)))
    by (apply matrix_diag; auto; unfold is_matrix; cbn; auto 10).
  set (m2 := affine_mul m1 affine_identity).
  assert (M2 : is_matrix m2 1 0 0 1 (B2R (px p)) (B2R (py p)))
    by (apply matrix_diag; auto; unfold is_matrix; cbn; auto 10).
  set (m3 := affine_mul m2 (affine_scale sx sy)).
  assert (M3 : is_matrix m3 (B2R sx) 0 0 (B2R sy) (B2R (px p)) (B2R (py p))).
  { apply matrix_diag; auto using small_bounded. unfold is_matrix; cbn.
    split; [split; [apply Sx|reflexivity]|]. do 2 (split; [assumption|]). split; [split; [apply Sy|reflexivity]|]. auto. }
  clearbody m3. clear m2 M2 m1 M1 m0 M0. destruct M3 as (A & B & C & D & X & Y).
  unfold affine_mul. cbn [aa ab ac ad ae af affine_translate].
  pose proof (proj1 A); pose proof (proj1 B); pose proof (proj1 C); pose proof (proj1 D).
  assert (Nx : is_finite (fneg (px a)) = true) by apply (small_fneg _ Ax).
  assert (Ny : is_finite (fneg (py a)) = true) by apply (small_fneg _ Ay).
  assert (SN : forall x y r, is_num x r -> is_finite y = true -> B2R y = r -> same_number x y).
  { intros x y r [F V] Fy Vy. apply feqb_eq; auto. congruence. }
  split. { apply (SN _ _ (B2R sx)); [|apply Sx|reflexivity]. apply (dot1 f1 (aa m3) f0 (ac m3)); auto using small_bounded; try apply small_bounded, Sx. }
  split. { apply (SN _ _ 0%R); [|reflexivity|reflexivity]. apply (dot0 (ab m3) f1 f0 (ad m3)); auto. }
  split. { apply (SN _ _ 0%R); [|reflexivity|reflexivity]. apply (dot0 f0 (aa m3) (ac m3) f1); auto. }
  split. { apply (SN _ _ (B2R sy)); [|apply Sy|reflexivity]. apply (dot1 f1 (ad m3) f0 (ab m3)); auto using small_bounded; try apply small_bounded, Sy. }
  split.
  - refine (shift sx (px a) (px p) (ae m3) (fmul (ac m3) (fneg (py a))) (aa m3) Sx Ax Px X _ A _ _ eq_refl (or_introl eq_refl)).
    refine (proj1 (num_mul0 _ _ _ C)); assumption.
  - refine (shift sy (py a) (py p) (af m3) (fmul (ab m3) (fneg (px a))) (ad m3) Sy Ay Py Y _ D _ _ eq_refl (or_intror eq_refl)).
    refine (proj1 (num_mul0 _ _ _ B)); assumption.
Qed.
Example C55_witness : flat_rotation E0 /\ is_num f0 0 /\ small (f_of_Z 50) /\ small (fdiv f100 f100) /\
  match conv_animation E0 (doc_scale (Some (mkMultiDim (st [f_of_Z 50; f100]) None))) with
  | Ok c => match layer_at c (None, 0) with
            | Some ly => feqb (aa (transform_eval E0 (ly_transform ly) f0)) f_half = true /\
                         feqb (ae (transform_eval E0 (ly_transform ly) f0)) (f_of_Z 3) = true
            | None => False end
  | _ => False end.
Proof.
  assert (Sm : forall x, is_finite x = true -> fleb (fabs x) (f_of_Z 1000) = true -> small x).
  { intros x F H. split; [exact F|]. destruct (f_of_Z_R 1000 ltac:(lia)) as [R1 F1].
    apply fleb_le in H; [|unfold fabs; now rewrite is_finite_Babs|exact F1]. unfold fabs in H. rewrite B2R_Babs, R1 in H.
    apply Rle_trans with (1 := H). apply Rle_trans with (bpow radix2 10); [|apply bpow_le; lia].
    change (bpow radix2 10) with (IZR 1024). apply IZR_le. lia. }
  split. { intros z _. split; (split; [reflexivity|]); [reflexivity|apply f1_R]. }
  split; [split; reflexivity|]. split; [apply Sm; vm_compute; reflexivity|]. split; [apply Sm; vm_compute; reflexivity|].
  vm_compute. auto.
Qed.

(** * C56: geometry over time *)
(** A rectangle is centred on its position, an ellipse has radii of half its
    size; both follow their properties over time. *)
Theorem C56_rectangle : forall E sh p s r g, becomes E (AsRectangle sh p s r) (ShGeometry g) ->
  exists c size radius, pos_means E p c /\ vector_means E size_of (md_p s) size /\ scalar_means E r radius /\
  forall frame,
    let x0 := fsub (px (c frame)) (fmul (width (size frame)) f_half) in
    let y0 := fsub (py (c frame)) (fmul (height (size frame)) f_half) in
    geometry_eval E g frame =
    Ok (x_rrect_path E x0 y0 (fadd x0 (width (size frame))) (fadd y0 (height (size frame))) (radius frame)).
Proof.
  intros E sh p s r g B. inversion B as [| | | | |? ? ? ? g0 Rp Rs Rr| | | |]; subst.
  exists (fun frame => eval E (arc_position g0) frame), (fun frame => eval E (arc_size g0) frame),
    (fun frame => eval E (arc_radius g0) frame).
  split; [now apply pos_means_reads|]. split; [now apply (vector_means_reads E size_of)|].
  split; [now apply scalar_means_reads|]. reflexivity.
Qed.
Theorem C56_ellipse : forall E sh p s g, becomes E (AsEllipse sh p s) (ShGeometry g) ->
  exists c size, pos_means E p c /\ vector_means E size_of (md_p s) size /\
  forall frame, geometry_eval E g frame =
    Ok (x_ellipse_path E (c frame) (fmul (width (size frame)) f_half) (fmul (height (size frame)) f_half)).
Proof.
  intros E sh p s g B. inversion B as [| | | | | |? ? ? g0 Rp Rs| | |]; subst.
  exists (fun frame => eval E (ael_position g0) frame), (fun frame => eval E (ael_size g0) frame).
  split; [now apply pos_means_reads|]. split; [now apply (vector_means_reads E size_of)|]. reflexivity.
Qed.
(** A gradient runs from its start to its end point; a radial one is centred
    on the start and reaches to the end. *)
Theorem C56_gradient : forall E x g d, becomes E x (ShDraw d) -> paints_gradient x g ->
  exists s e, vector_means E point_of (md_p (bg_s g)) s /\ vector_means E point_of (md_p (bg_e g)) e /\
  forall frame, exists stops, brush_eval E (dr_brush d) f1 frame = BGradient (mkGradient
    (match bg_t g with
     | Some GtRadial => GRadial (s frame)
         (f64_to_f32 (x_hypot E (fsub (px (e frame)) (px (s frame))) (fsub (py (e frame)) (py (s frame)))))
     | _ => GLinear (s frame) (e frame)
     end) stops).
Proof.
  intros E x g d B Hx.
  assert (G : gradient_reads E g (dr_brush d)) by (destruct Hx as [(st & r & ->)|(st & bs & ->)]; inversion B; assumption).
  destruct G as (s & e & stops & Rs & Re & _ & Ev).
  exists (fun frame => eval E s frame), (fun frame => eval E e frame).
  split; [now apply (vector_means_reads E point_of)|]. split; [now apply (vector_means_reads E point_of)|].
  intros frame. destruct (Ev frame) as (k & Ek & Hk). exists (stops_eval E stops frame). rewrite Ek.
  destruct (bg_t g) as [[]|]; rewrite Hk; reflexivity.
Qed.
Example C56_witness : yields (rect_at 3 4) /\ yields (AsEllipse (mkSShape no_ge None) (p_static 3 4) (v_static 10 20)) /\
  match conv_shape E0 (rect_at 3 4) with
  | Ok (Some (ShGeometry g)) => match geometry_eval E0 g f0 with
      | Ok (MoveTo p :: LineTo q :: _) => feqb (px p) (f_of_Z (-2)) && feqb (py p) (f_of_Z (-1)) &&
                                          feqb (px q) (f_of_Z 8) = true
      | _ => False end
  | _ => False end.
Proof. split; [constructor|]. split; [constructor|]. vm_compute. reflexivity. Qed.
