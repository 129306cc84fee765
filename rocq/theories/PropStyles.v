(** Layer styles and text constants: C47 (continued), C60 *)
From Coq Require Import ZArith Bool List String Lia.
From Flocq Require Import Core BinarySingleNaN.
From Verif Require Import F64 Schema Serde SerdeSpec SerdeFacts Styles PropSerde.
Import ListNotations.
Local Open Scope string_scope.
Local Open Scope list_scope.

(** * The constants that no document uses *)
Definition font_path_origin_codes : list (Z * font_path_origin) := [(0, FpoLocal); (1, FpoCssUrl); (2, FpoScriptUrl); (3, FpoFontUrl)]%Z.
Definition text_grouping_codes : list (Z * text_grouping) := [(1, TgrCharacters); (2, TgrWords); (3, TgrLines); (4, TgrAll)]%Z.
Definition text_range_units_codes : list (Z * text_range_units) := [(1, TruPercent); (2, TruIndex)]%Z.
Definition text_shape_codes : list (Z * text_shape) := [(1, TshSquare); (2, TshRampUp); (3, TshRampDown); (4, TshTriangle); (5, TshRound); (6, TshSmooth)]%Z.
Definition text_caps_codes : list (Z * text_caps) := [(0, TcaRegular); (1, TcaAllCaps); (2, TcaSmallCaps)]%Z.
Definition text_justify_codes : list (Z * text_justify) := [(0, TjuLeft); (1, TjuRight); (2, TjuCenter); (3, TjuLastLeft); (4, TjuLastRight); (5, TjuLastCenter); (6, TjuLastFull)]%Z.
Definition text_based_codes : list (Z * text_based) := [(1, TbaCharacters); (2, TbaNoSpaces); (3, TbaWords); (4, TbaLines)]%Z.
Definition style_type_codes : list (Z * style_type) := [(0, StyStroke); (1, StyDropShadow); (2, StyInnerShadow); (3, StyOuterGlow); (4, StyInnerGlow); (5, StyBevelEmboss); (6, StySatin); (7, StyColorOverlay); (8, StyGradientOverlay)]%Z.
Theorem C47_font_path_origin : coded font_path_origin_codes de_font_path_origin ser_font_path_origin. Proof. code. Qed.
Theorem C47_text_grouping : coded text_grouping_codes de_text_grouping ser_text_grouping. Proof. code. Qed.
Theorem C47_text_range_units : coded text_range_units_codes de_text_range_units ser_text_range_units. Proof. code. Qed.
Theorem C47_text_shape : coded text_shape_codes de_text_shape ser_text_shape. Proof. code. Qed.
Theorem C47_text_caps : coded text_caps_codes de_text_caps ser_text_caps. Proof. code. Qed.
Theorem C47_text_justify : coded text_justify_codes de_text_justify ser_text_justify. Proof. code. Qed.
Theorem C47_text_based : coded text_based_codes de_text_based ser_text_based. Proof. code. Qed.
Theorem C47_style_type : coded style_type_codes de_style_type ser_style_type. Proof. code. Qed.
#[export] Instance rt_font_path_origin : RT de_font_path_origin ser_font_path_origin. Proof. rt_code. Qed.
#[export] Instance rt_text_grouping : RT de_text_grouping ser_text_grouping. Proof. rt_code. Qed.
#[export] Instance rt_text_range_units : RT de_text_range_units ser_text_range_units. Proof. rt_code. Qed.
#[export] Instance rt_text_shape : RT de_text_shape ser_text_shape. Proof. rt_code. Qed.
#[export] Instance rt_text_caps : RT de_text_caps ser_text_caps. Proof. rt_code. Qed.
#[export] Instance rt_text_justify : RT de_text_justify ser_text_justify. Proof. rt_code. Qed.
#[export] Instance rt_text_based : RT de_text_based ser_text_based. Proof. rt_code. Qed.
#[export] Instance rt_style_type : RT de_style_type ser_style_type. Proof. rt_code. Qed.
Ltac prjs := cbn [ls_vo ls_ty stco_base stco_bm stco_c stco_so stgo_base stgo_bm stgo_c stgo_o stgo_gf stgo_gs stgo_a stgo_gt stgo_re stgo_al stgo_s stgo_of stog_base stog_bm stog_c stog_o stog_r stog_ch stog_no stog_j stsa_base stsa_bm stsa_c stsa_o stsa_a stsa_d stsa_s stsa_in].
#[export] Instance rt_layer_style : RT de_layer_style ser_layer_style.
Proof.
  start H. unfold de_layer_style, de_layer_style_fs, de_visual_object in H. opened H.
  unfold de_layer_style, de_layer_style_fs, ser_layer_style, ser_layer_style_fs, de_visual_object, ser_visual_object. prj. prjs. build.
Qed.
#[export] Instance rt_color_overlay : RT de_color_overlay_style ser_color_overlay_style.
Proof.
  start H. unfold de_color_overlay_style, de_layer_style_fs, de_visual_object in H. opened H.
  unfold de_color_overlay_style, ser_color_overlay_style, de_layer_style_fs, ser_layer_style_fs, de_visual_object, ser_visual_object. prj. prjs. build.
Qed.
#[export] Instance rt_gradient_overlay : RT de_gradient_overlay_style ser_gradient_overlay_style.
Proof.
  start H. unfold de_gradient_overlay_style, de_layer_style_fs, de_visual_object in H. opened H.
  unfold de_gradient_overlay_style, ser_gradient_overlay_style, de_layer_style_fs, ser_layer_style_fs, de_visual_object, ser_visual_object. prj. prjs. build.
Qed.
#[export] Instance rt_outer_glow : RT de_outer_glow_style ser_outer_glow_style.
Proof.
  start H. unfold de_outer_glow_style, de_layer_style_fs, de_visual_object in H. opened H.
  unfold de_outer_glow_style, ser_outer_glow_style, de_layer_style_fs, ser_layer_style_fs, de_visual_object, ser_visual_object. prj. prjs. build.
Qed.
#[export] Instance rt_satin : RT de_satin_style ser_satin_style.
Proof.
  start H. unfold de_satin_style, de_layer_style_fs, de_visual_object in H. opened H.
  unfold de_satin_style, ser_satin_style, de_layer_style_fs, ser_layer_style_fs, de_visual_object, ser_visual_object. prj. prjs. build.
Qed.

(** * C60: a style that was read is read again from what it is written to *)
Definition round_trips {A} (de : json -> option A) (ser : A -> json) : Prop :=
  forall j s, json_ok j -> de j = Some s -> de (ser s) = Some s.
Theorem C60_styles : round_trips de_layer_style ser_layer_style /\ round_trips de_color_overlay_style ser_color_overlay_style /\
  round_trips de_gradient_overlay_style ser_gradient_overlay_style /\ round_trips de_outer_glow_style ser_outer_glow_style /\
  round_trips de_satin_style ser_satin_style.
Proof. repeat split; intros j s O H; eapply rt; eauto. Qed.
(** the type decides; nothing else is required *)
Theorem C60_type_required : forall fs, (forall n, member "ty" fs = Some (JInt n) -> (n < 0 \/ 8 < n)%Z) ->
  de_layer_style (JObj fs) = None /\ de_color_overlay_style (JObj fs) = None /\ de_gradient_overlay_style (JObj fs) = None /\
  de_outer_glow_style (JObj fs) = None /\ de_satin_style (JObj fs) = None.
Proof.
  intros fs N. assert (L : de_layer_style_fs fs = None).
  { unfold de_layer_style_fs. destruct (de_visual_object fs); auto. rewrite req_member.
    destruct (member "ty" fs) as [jt|] eqn:M; auto. destruct (de_style_type jt) as [t|] eqn:D; auto.
    apply C47_style_type in D. destruct D as (n & -> & I). specialize (N n eq_refl). cbn in I.
    repeat (destruct I as [[= <- _]|I]; [lia|]). destruct I. }
  unfold de_layer_style, de_color_overlay_style, de_gradient_overlay_style, de_outer_glow_style, de_satin_style.
  cbn [as_map]. rewrite L. auto.
Qed.
(** * C60: every field is read from its member *)
Lemma opt_reads {A} k (f : json -> option A) fs o : opt k f fs = Some o -> reads_opt fs k f o.
Proof.
  rewrite opt_member. unfold reads_opt. destruct (member k fs) as [w|]; [|intros [= <-]; left; auto].
  destruct w; [intros [= <-]; left; auto|right..]; (destruct (f _) as [y|] eqn:E; [|discriminate]); injection H as <-;
    eexists _, y; (split; [reflexivity|split; [discriminate|auto]]).
Qed.
Lemma req_reads {A} k (f : json -> option A) fs x : req k f fs = Some x -> reads_req fs k f x.
Proof. rewrite req_member. unfold reads_req. destruct (member k fs) as [w|]; [eauto|discriminate]. Qed.
Ltac pull H := repeat match type of H with
  | match (match ?e with Some _ => _ | None => None end) with Some _ => _ | None => None end = Some _ =>
      let E := fresh "E" in destruct e eqn:E; [|discriminate H]
  | match ?e with Some _ => _ | None => None end = Some _ => let E := fresh "E" in destruct e eqn:E; [|discriminate H]
  | Some _ = Some _ => injection H as <-
  end.
Ltac reads := repeat match goal with
  | |- _ /\ _ => split
  | E : opt ?k ?f ?fs = Some ?o |- reads_opt ?fs ?k ?f ?o => exact (opt_reads k f fs o E)
  | E : req ?k ?f ?fs = Some ?o |- reads_req ?fs ?k ?f ?o => exact (req_reads k f fs o E)
  end.
Theorem C60_members_base : forall fs s, de_layer_style (JObj fs) = Some s ->
  reads_req fs "ty" de_style_type (ls_ty s) /\ reads_opt fs "nm" de_string (vo_nm (ls_vo s)) /\
  reads_opt fs "mn" de_string (vo_mn (ls_vo s)).
Proof. intros fs s H. unfold de_layer_style, de_layer_style_fs, de_visual_object in H. cbn [as_map] in H. pull H. cbn [ls_ty ls_vo vo_nm vo_mn]. reads. Qed.
Theorem C60_members_color_overlay : forall fs s, de_color_overlay_style (JObj fs) = Some s ->
  de_layer_style (JObj fs) = Some (stco_base s) /\ reads_opt fs "bm" de_float_value (stco_bm s) /\
  reads_opt fs "c" de_color_value (stco_c s) /\
  reads_opt fs "so" de_float_value (stco_so s).
Proof. intros fs s H. unfold de_color_overlay_style in H. cbn [as_map] in H. pull H. prjs. split; [assumption|reads]. Qed.
Theorem C60_members_gradient_overlay : forall fs s, de_gradient_overlay_style (JObj fs) = Some s ->
  de_layer_style (JObj fs) = Some (stgo_base s) /\ reads_opt fs "bm" de_float_value (stgo_bm s) /\
  reads_opt fs "c" de_color_value (stgo_c s) /\
  reads_opt fs "o" de_float_value (stgo_o s) /\
  reads_opt fs "gf" de_gradient_colors (stgo_gf s) /\
  reads_opt fs "gs" de_float_value (stgo_gs s) /\
  reads_opt fs "a" de_float_value (stgo_a s) /\
  reads_opt fs "gt" de_gradient_type (stgo_gt s) /\
  reads_opt fs "re" de_float_value (stgo_re s) /\
  reads_opt fs "al" de_float_value (stgo_al s) /\
  reads_opt fs "s" de_float_value (stgo_s s) /\
  reads_opt fs "of" de_float_value (stgo_of s).
Proof. intros fs s H. unfold de_gradient_overlay_style in H. cbn [as_map] in H. pull H. prjs. split; [assumption|reads]. Qed.
Theorem C60_members_outer_glow : forall fs s, de_outer_glow_style (JObj fs) = Some s ->
  de_layer_style (JObj fs) = Some (stog_base s) /\ reads_opt fs "bm" de_float_value (stog_bm s) /\
  reads_opt fs "c" de_color_value (stog_c s) /\
  reads_opt fs "o" de_float_value (stog_o s) /\
  reads_opt fs "r" de_float_value (stog_r s) /\
  reads_opt fs "ch" de_float_value (stog_ch s) /\
  reads_opt fs "no" de_float_value (stog_no s) /\
  reads_opt fs "j" de_float_value (stog_j s).
Proof. intros fs s H. unfold de_outer_glow_style in H. cbn [as_map] in H. pull H. prjs. split; [assumption|reads]. Qed.
Theorem C60_members_satin : forall fs s, de_satin_style (JObj fs) = Some s ->
  de_layer_style (JObj fs) = Some (stsa_base s) /\ reads_opt fs "bm" de_float_value (stsa_bm s) /\
  reads_opt fs "c" de_color_value (stsa_c s) /\
  reads_opt fs "o" de_float_value (stsa_o s) /\
  reads_opt fs "a" de_float_value (stsa_a s) /\
  reads_opt fs "d" de_float_value (stsa_d s) /\
  reads_opt fs "s" de_float_value (stsa_s s) /\
  reads_opt fs "in" de_float_value (stsa_in s).
Proof. intros fs s H. unfold de_satin_style in H. cbn [as_map] in H. pull H. prjs. split; [assumption|reads]. Qed.
Example C60_witness : let j := JObj [("ty", JInt 6); ("nm", JStr "satin"); ("a", jprop (num 30)); ("in", JNull)] in
  json_ok j /\ match de_satin_style j with
               | Some s => match ls_ty (stsa_base s), stsa_a s, stsa_in s with StySatin, Some _, None => True | _, _, _ => False end
               | None => False end.
Proof. split; [apply json_okb_ok; vm_compute; reflexivity|vm_compute; exact I]. Qed.
