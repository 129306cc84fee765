(** C61: what each part of a document is read from.

    One theorem per type of /repo/src/schema: an object is accepted exactly if
    its members can be read, and each field is the value of its member
    ([reads_req], [reads_opt] of SerdeSpec.v).  The member names, their order
    and which ones are optional were extracted from the [#[serde(rename)]]
    attributes and the types of the source.  A field that is flattened in the
    source is read from the same object: [de_... fs = Some ...]. *)
From Coq Require Import ZArith Bool List String Lia.
From Flocq Require Import Core BinarySingleNaN.
From Verif Require Import F64 Schema Serde SerdeSpec SerdeFacts PropSerde PropStyles.
Import ListNotations.
Local Open Scope string_scope.
Local Open Scope list_scope.

Lemma reads_opt_iff {A} fs k (f : json -> option A) o : reads_opt fs k f o <-> opt k f fs = Some o.
Proof.
  split; [|apply opt_reads]. rewrite opt_member. intros [(-> & [M|M])|(w & x & M & N & Hf & ->)]; rewrite M; auto.
  rewrite Hf. destruct w; auto; congruence.
Qed.
Lemma reads_req_iff {A} fs k (f : json -> option A) x : reads_req fs k f x <-> req k f fs = Some x.
Proof. split; [|apply req_reads]. rewrite req_member. intros (w & M & Hf). rewrite M. exact Hf. Qed.

Ltac to_model := rewrite ?reads_opt_iff, ?reads_req_iff.
Ltac forward H := pull H; repeat split; first [assumption|reflexivity|idtac].
Ltac backward := repeat match goal with H : ?e = Some _ |- context [?e] => rewrite H; clear H end; reflexivity.
Ltac conj_all := repeat match goal with H : _ /\ _ |- _ => destruct H end.
Ltac members :=
  cbn [as_map as_struct as_struct_default]; to_model; split;
  [ let H := fresh "H" in intros H; forward H
  | match goal with x : _ |- _ /\ _ -> _ => idtac | |- _ => idtac end;
    let H := fresh "H" in intros H;
    match goal with x : ?T |- _ = Some ?x => destruct x end; simpl in H; conj_all; subst; backward ].

(** * Values *)

(** numbers: an integer stands for the nearest double *)
Theorem C61_number : forall j x, de_f64 j = Some x <-> j = JFloat x \/ exists n, j = JInt n /\ x = f_of_Z n.
Proof.
  intros j x. split.
  - destruct j; try discriminate; cbn; intros [= <-]; eauto.
  - intros [->|(n & -> & ->)]; reflexivity.
Qed.
Theorem C61_string : forall j x, de_string j = Some x <-> j = JStr x.
Proof. intros j x. split; [destruct j; try discriminate; cbn; intros [= <-]; auto|intros ->; reflexivity]. Qed.
Theorem C61_boolean : forall j x, de_bool j = Some x <-> j = JBool x.
Proof. intros j x. split; [destruct j; try discriminate; cbn; intros [= <-]; auto|intros ->; reflexivity]. Qed.
Theorem C61_unsigned : forall max j x, de_uint max j = Some x <-> j = JInt x /\ (0 <= x <= max)%Z.
Proof.
  intros max j x. split.
  - destruct j as [| |n| | | |]; try discriminate; unfold de_uint. destruct (0 <=? n)%Z eqn:A, (n <=? max)%Z eqn:B; try discriminate. cbn [andb]; intros [= <-]; split; [reflexivity|lia].
  - intros (-> & A & B). unfold de_uint. apply Z.leb_le in A, B. now rewrite A, B.
Qed.
Theorem C61_sizes : forall j n,
  (de_usize j = Some n <-> j = JInt (Z.of_nat n) /\ (Z.of_nat n < 2 ^ 64)%Z) /\
  (de_u32 j = Some n <-> j = JInt (Z.of_nat n) /\ (Z.of_nat n < 2 ^ 32)%Z) /\
  (de_u8 j = Some n <-> j = JInt (Z.of_nat n) /\ (Z.of_nat n < 2 ^ 8)%Z).
Proof.
  assert (G : forall max j n, (let? z := de_uint max j in Some (Z.to_nat z)) = Some n <-> j = JInt (Z.of_nat n) /\ (Z.of_nat n <= max)%Z).
  { intros max j n. split.
    - destruct (de_uint max j) as [m|] eqn:D; [|discriminate]. apply C61_unsigned in D. destruct D as (-> & A). intros [= <-].
      rewrite Z2Nat.id by lia. split; [reflexivity|lia].
    - intros (-> & A). assert (D : de_uint max (JInt (Z.of_nat n)) = Some (Z.of_nat n)) by (apply C61_unsigned; split; [reflexivity|lia]).
      rewrite D, Nat2Z.id. reflexivity. }
  intros j n. split; [|split]; unfold de_usize, de_u32, de_u8; rewrite G; unfold usize_max;
    split; intros (-> & A); (split; [reflexivity|lia]).
Qed.
Theorem C61_array : forall {A} (f : json -> option A) j xs,
  de_list f j = Some xs <-> exists l, j = JArr l /\ Forall2 (fun v x => f v = Some x) l xs.
Proof.
  intros A f j xs. split.
  - destruct j as [| | | | |l|]; try discriminate. intros H. exists l. split; auto. revert xs H. cbn [de_list].
    induction l as [|w l IH]; intros xs H; cbn [mapO] in H; [injection H as <-; constructor|].
    destruct (f w) as [y|] eqn:Fw; [|discriminate H]. destruct (mapO f l) as [ys|] eqn:R; [|discriminate H].
    injection H as <-. constructor; auto.
  - intros (l & -> & F). induction F as [|w x l xs Hx F IH]; [reflexivity|]. cbn [de_list mapO] in *. rewrite Hx, IH. reflexivity.
Qed.
Theorem C61_vertex : forall j p, de_vertex j = Some p <->
  exists a b, j = JArr [a; b] /\ de_f64 a = Some (fst p) /\ de_f64 b = Some (snd p).
Proof.
  intros j [x y]. cbn [fst snd]. split.
  - unfold de_vertex. destruct (de_floats j) as [l|] eqn:D; [|discriminate]. apply C61_array in D. destruct D as (js & -> & F).
    destruct F as [|a u js l Ha [|b v' js' l' Hb [|]]]; try discriminate. intros [= <- <-]. eauto.
  - intros (a & b & -> & Ha & Hb). unfold de_vertex. assert (D : de_floats (JArr [a; b]) = Some [x; y]).
    { apply C61_array. eexists; split; [reflexivity|]. auto. }
    rewrite D. reflexivity.
Qed.

(** * Values that are one thing or another: the first that can be read *)
Ltac either :=
  split; [ match goal with |- match ?e with _ => _ end = _ -> _ => destruct e eqn:?; [intros [= <-]; left; eauto|] end;
           intros HH; right; split; [reflexivity|]; revert HH
         | intros [(? & HH & ->)|(HH & HX)]; rewrite HH; [reflexivity|] ].
Theorem C61_property_value : forall {T} (f : json -> option T) j k, de_anim_k f j = Some k <->
  (exists l, de_list de_keyframe j = Some l /\ k = AkAnimated l) \/
  (de_list de_keyframe j = None /\ exists x, f j = Some x /\ k = AkStatic x).
Proof.
  intros T f j k. unfold de_anim_k. either.
  - destruct (f j); [|discriminate]. intros [= <-]. eauto.
  - destruct HX as (x & -> & ->). reflexivity.
Qed.
Theorem C61_position_value : forall j k, de_position_k j = Some k <->
  (exists l, de_list de_pos_keyframe j = Some l /\ k = PkAnimated l) \/
  (de_list de_pos_keyframe j = None /\ exists x, de_floats j = Some x /\ k = PkStatic x).
Proof.
  intros j k. unfold de_position_k. either.
  - destruct (de_floats j); [|discriminate]. intros [= <-]. eauto.
  - destruct HX as (x & -> & ->). reflexivity.
Qed.
Theorem C61_position_or_split : forall j k, de_any_p j = Some k <->
  (exists x, de_position j = Some x /\ k = ApPosition x) \/
  (de_position j = None /\ exists x, de_split_vector j = Some x /\ k = ApSplit x).
Proof.
  intros j k. unfold de_any_p. either.
  - destruct (de_split_vector j); [|discriminate]. intros [= <-]. eauto.
  - destruct HX as (x & -> & ->). reflexivity.
Qed.
Theorem C61_rotation_or_split : forall j k, de_any_r j = Some k <->
  (exists x, de_float_value j = Some x /\ k = ArRotation x) \/
  (de_float_value j = None /\ exists fs x y z o, j = JObj fs /\ k = ArSplit x y z o /\
     reads_req fs "x" de_float_value x /\ reads_req fs "y" de_float_value y /\ reads_req fs "z" de_float_value z /\
     reads_req fs "or" de_multi_dim o).
Proof.
  intros j k. unfold de_any_r. either.
  - unfold de_split_rotation. destruct j as [| | | | | |fs]; try discriminate. cbn [as_map]. intros H. pull H.
    do 5 eexists. to_model. eauto 8.
  - destruct HX as (fs & x & y & z & o & -> & -> & HX). unfold de_split_rotation. cbn [as_map].
    repeat rewrite reads_req_iff in HX. conj_all. backward.
Qed.
Theorem C61_handle_component : forall j k, de_kf_component j = Some k <->
  (exists l, de_floats j = Some l /\ k = KcArray l) \/ (exists x, de_f64 j = Some x /\ k = KcSingle x).
Proof.
  intros j k. unfold de_kf_component. split.
  - destruct (de_floats j); [intros [= <-]; left; eauto|]. destruct (de_f64 j); [|discriminate]. intros [= <-]. right; eauto.
  - intros [(l & -> & ->)|(x & H & ->)]; [reflexivity|]. rewrite H. destruct j; try discriminate H; reflexivity.
Qed.
(** A path is animated if it is an array of keyframes of which all but the
    last, and a sole one too, say where they start. *)
Definition starts_given (l : list shape_keyframe) : Prop :=
  (forall i k, nth_error l i = Some k -> S i < List.length l -> skf_s k <> None) /\
  (forall k, l = [k] -> skf_s k <> None).
Lemma removelast_nth {A} (l : list A) i : S i < List.length l -> nth_error (removelast l) i = nth_error l i.
Proof.
  revert i. induction l as [|x [|y r] IH]; intros i L; cbn [List.length] in *; try lia.
  destruct i; [reflexivity|]. change (removelast (x :: y :: r)) with (x :: removelast (y :: r)). cbn [nth_error].
  rewrite IH; cbn [List.length]; auto; lia.
Qed.
Lemma removelast_length {A} (l : list A) : List.length (removelast l) = List.length l - 1.
Proof. induction l as [|x [|y r] IH]; auto. change (removelast (x :: y :: r)) with (x :: removelast (y :: r)). cbn [List.length] in *. lia. Qed.
Theorem C61_path_keyframes : forall j l, deserialize_keyframes j = Some l <->
  de_list de_shape_keyframe j = Some l /\ starts_given l.
Proof.
  intros j l. unfold deserialize_keyframes. destruct (de_list de_shape_keyframe j) as [ks|]; [|split; [discriminate|intros [[=] _]]].
  assert (F : forallb (fun k => is_some (skf_s k)) (removelast ks) = true <->
              forall i k, nth_error ks i = Some k -> S i < List.length ks -> skf_s k <> None).
  { rewrite forallb_forall. split.
    - intros H i k N L. rewrite <- removelast_nth in N by assumption. apply nth_error_In in N. specialize (H _ N). destruct (skf_s k); discriminate.
    - intros H k I. apply In_nth_error in I. destruct I as (i & N). assert (L : i < List.length (removelast ks)) by (apply nth_error_Some; congruence).
      rewrite removelast_length in L. rewrite removelast_nth in N by lia. specialize (H _ _ N ltac:(lia)). destruct (skf_s k); [reflexivity|congruence]. }
  unfold starts_given. split.
  - intros H. assert (E : ks = l).
    { destruct ks; [congruence|]. repeat match type of H with (if ?b then _ else _) = _ => destruct b end; congruence. }
    subst l. split; [reflexivity|]. destruct ks as [|k r]; [split; [intros [|] ? ?; discriminate|discriminate]|].
    destruct (forallb _ (removelast (k :: r))); [|discriminate]. cbn [negb] in H. split; [apply F; reflexivity|].
    intros k' [= <- ->]. cbn in H. destruct (skf_s k); [discriminate|discriminate H].
  - intros ([= ->] & S1 & S2). destruct l as [|k r]; [reflexivity|]. apply F in S1. rewrite S1. cbn [negb].
    destruct (match last _ _ with Some _ => _ | None => _ end) eqn:La; [reflexivity|]. destruct r as [|k2 r]; [|reflexivity].
    cbn in La. specialize (S2 k eq_refl). destruct (skf_s k); [discriminate|congruence].
Qed.
Theorem C61_path_value : forall j k, de_shape_k j = Some k <->
  (exists l, deserialize_keyframes j = Some l /\ k = SkAnimated l) \/
  (deserialize_keyframes j = None /\ exists x, de_bezier j = Some x /\ k = SkStatic x).
Proof.
  intros j k. unfold de_shape_k. either.
  - destruct (de_bezier j); [|discriminate]. intros [= <-]. eauto.
  - destruct HX as (x & -> & ->). reflexivity.
Qed.
Theorem C61_simple_values : forall j x,
  (de_float_value j = Some x <-> exists fs, j = JObj fs /\ de_anim_prop de_f64 fs = Some x).
Proof.
  intros j x. split; [|intros (fs & -> & H); exact H]. destruct j as [| | | | | |fs]; try discriminate. intros H. exists fs. auto.
Qed.
Theorem C61_color_values : forall j x,
  (de_color_value j = Some x <-> exists fs, j = JObj fs /\ de_anim_prop de_floats fs = Some x).
Proof.
  intros j x. split; [|intros (fs & -> & H); exact H]. destruct j as [| | | | | |fs]; try discriminate. intros H. exists fs. auto.
Qed.

(** * Objects *)

Ltac tagged :=
  let H := fresh "H" in
  split; [ intros H; pull H; repeat match goal with |- exists _, _ => eexists end; split; [reflexivity|]; to_model;
           repeat match goal with |- _ /\ _ => split end; first [eassumption|reflexivity]
         | intros H; repeat match goal with H : exists _, _ |- _ => destruct H end; conj_all; subst;
           repeat match goal with
           | H : reads_req _ _ _ _ |- _ => apply reads_req_iff in H
           | H : reads_opt _ _ _ _ |- _ => apply reads_opt_iff in H
           end; backward ].
Ltac shapes :=
  let M := fresh "M" in intros nested fs x M; cbn [de_shape];
  rewrite (req_member "ty" (de_tag nested)), M;
  match goal with |- context [de_tag nested ?t] => let r := eval vm_compute in (de_tag nested t) in change (de_tag nested t) with r end; cbv beta iota;
  try change (fun v : json => de_list (fun j : json => de_shape true j) v) with (de_list (de_shape true)); tagged.
Ltac layers :=
  let M := fresh "M" in intros fs x M; unfold de_layer; cbn [as_map]; unfold layer_type;
  rewrite (req_member "ty"), M; cbv beta iota;
  match goal with |- context [(0 <=? ?n)%Z] => change (0 <=? n)%Z with true end; cbv beta iota; tagged.

(** schema/animated_properties/keyframe_bezier_handle.rs *)
Theorem C61_keyframe_bezier_handle : forall fs x, de_kf_handle (JObj fs) = Some x <->
  reads_req fs "x" de_kf_component (kh_x x) /\
  reads_req fs "y" de_kf_component (kh_y x).
Proof. intros. unfold de_kf_handle. members. Qed.
(** schema/animated_properties/keyframe_base.rs *)
Theorem C61_keyframe_base : forall fs x, de_kf_base fs = Some x <->
  reads_req fs "t" de_f64 (kb_time x) /\
  reads_opt fs "h" de_bool_int (kb_hold x) /\
  reads_opt fs "i" de_kf_handle (kb_in x) /\
  reads_opt fs "o" de_kf_handle (kb_out x).
Proof. intros. unfold de_kf_base. members. Qed.
(** schema/animated_properties/keyframe.rs *)
Theorem C61_keyframe : forall fs x, de_keyframe (JObj fs) = Some x <->
  de_kf_base fs = Some (kf_b x) /\
  reads_req fs "s" de_floats (kf_value x) /\
  reads_opt fs "e" de_floats (kf_end x).
Proof. intros. unfold de_keyframe, de_keyframe_fs. members. Qed.
(** schema/animated_properties/animated_property.rs *)
Theorem C61_animated_property : forall {T} (f : json -> option T) fs x, de_anim_prop f fs = Some x <->
  reads_opt fs "ix" de_f64 (ap_ix x) /\
  reads_opt fs "a" de_bool_int (ap_a x) /\
  reads_opt fs "x" de_string (ap_x x) /\
  reads_opt fs "sid" de_string (ap_sid x) /\
  reads_req fs "k" (de_anim_k f) (ap_k x).
Proof. intros. unfold de_anim_prop. members. Qed.
(** schema/animated_properties/multi_dimensional.rs *)
Theorem C61_multi_dimensional : forall fs x, de_multi_dim (JObj fs) = Some x <->
  de_anim_prop de_floats fs = Some (md_p x) /\
  reads_opt fs "l" de_f64 (md_l x).
Proof. intros. unfold de_multi_dim. members. Qed.
(** schema/animated_properties/gradient_colors.rs *)
Theorem C61_gradient_colors : forall fs x, de_gradient_colors (JObj fs) = Some x <->
  reads_req fs "k" de_multi_dim (gc_k x) /\
  reads_req fs "p" de_usize (gc_p x).
Proof. intros. unfold de_gradient_colors. members. Qed.
(** schema/animated_properties/position_keyframe.rs *)
Theorem C61_position_keyframe : forall fs x, de_pos_keyframe (JObj fs) = Some x <->
  de_keyframe_fs fs = Some (pk_kf x) /\
  reads_opt fs "ti" de_floats (pk_ti x) /\
  reads_opt fs "to" de_floats (pk_to x).
Proof. intros. unfold de_pos_keyframe. members. Qed.
(** schema/animated_properties/position.rs *)
Theorem C61_position : forall fs x, de_position (JObj fs) = Some x <->
  reads_opt fs "ix" de_f64 (po_ix x) /\
  reads_opt fs "a" de_bool_int (po_a x) /\
  reads_opt fs "x" de_string (po_x x) /\
  reads_opt fs "l" de_f64 (po_l x) /\
  reads_req fs "k" de_position_k (po_k x).
Proof. intros. unfold de_position. members. Qed.
(** schema/animated_properties/split_vector.rs *)
Theorem C61_split_vector : forall fs x, de_split_vector (JObj fs) = Some x <->
  reads_req fs "s" de_bool (spv_s x) /\
  reads_req fs "x" de_float_value (spv_x x) /\
  reads_req fs "y" de_float_value (spv_y x) /\
  reads_opt fs "z" de_float_value (spv_z x).
Proof. intros. unfold de_split_vector. members. Qed.
(** schema/helpers/bezier.rs *)
Theorem C61_bezier : forall fs x, de_bezier (JObj fs) = Some x <->
  reads_opt fs "c" de_bool (bz_closed x) /\
  reads_req fs "v" (de_list de_vertex) (bz_v x) /\
  reads_req fs "i" (de_list de_vertex) (bz_i x) /\
  reads_req fs "o" (de_list de_vertex) (bz_o x).
Proof. intros. unfold de_bezier. members. Qed.
(** schema/animated_properties/shape_keyframe.rs *)
Theorem C61_shape_keyframe : forall fs x, de_shape_keyframe (JObj fs) = Some x <->
  de_kf_base fs = Some (skf_b x) /\
  reads_opt fs "s" (de_list de_bezier) (skf_s x) /\
  reads_opt fs "e" (de_list de_bezier) (skf_e x).
Proof. intros. unfold de_shape_keyframe. members. Qed.
(** schema/animated_properties/shape_property.rs *)
Theorem C61_shape_property : forall fs x, de_shape_prop (JObj fs) = Some x <->
  reads_opt fs "ix" de_f64 (sp_ix x) /\
  reads_opt fs "a" de_bool_int (sp_a x) /\
  reads_opt fs "x" de_string (sp_x x) /\
  reads_req fs "k" de_shape_k (sp_k x).
Proof. intros. unfold de_shape_prop. members. Qed.
(** schema/helpers/visual_object.rs *)
Theorem C61_visual_object : forall fs x, de_visual_object fs = Some x <->
  reads_opt fs "nm" de_string (vo_nm x) /\
  reads_opt fs "mn" de_string (vo_mn x).
Proof. intros. unfold de_visual_object. members. Qed.
(** schema/helpers/slottable_object.rs *)
Theorem C61_slottable_object : forall fs x, de_slottable fs = Some x <->
  reads_opt fs "sid" de_string (slo_sid x).
Proof. intros. unfold de_slottable. members. Qed.
(** schema/helpers/marker.rs *)
Theorem C61_marker : forall fs x, de_marker (JObj fs) = Some x <->
  reads_opt fs "cm" de_string (mr_cm x) /\
  reads_opt fs "tm" de_f64 (mr_tm x) /\
  reads_opt fs "dr" de_f64 (mr_dr x).
Proof. intros. unfold de_marker. members. Qed.
(** schema/helpers/transform.rs *)
Theorem C61_transform : forall fs x, de_transform (JObj fs) = Some x <->
  reads_opt fs "a" de_position (tf_a x) /\
  reads_req fs "p" de_any_p (tf_p x) /\
  reads_opt fs "s" de_multi_dim (tf_s x) /\
  reads_opt fs "r" de_any_r (tf_r x) /\
  reads_opt fs "sk" de_float_value (tf_sk x) /\
  reads_opt fs "sa" de_float_value (tf_sa x) /\
  reads_opt fs "o" de_float_value (tf_o x).
Proof. intros. unfold de_transform, de_transform_fs. members. Qed.
(** schema/helpers/mask.rs *)
Theorem C61_mask : forall fs x, de_mask (JObj fs) = Some x <->
  reads_opt fs "nm" de_string (mas_nm x) /\
  reads_opt fs "mn" de_string (mas_mn x) /\
  reads_opt fs "inv" de_bool (mas_inv x) /\
  reads_opt fs "pt" de_shape_prop (mas_pt x) /\
  reads_opt fs "o" de_float_value (mas_o x) /\
  reads_opt fs "mode" de_mask_mode (mas_mode x) /\
  reads_opt fs "x" de_float_value (mas_x x).
Proof. intros. unfold de_mask. members. Qed.
(** schema/shapes/graphic_element.rs *)
Theorem C61_graphic_element_shape : forall fs x, de_graphic_element fs = Some x <->
  de_visual_object fs = Some (ge_vo x) /\
  reads_opt fs "hd" de_bool (ge_hd x) /\
  reads_opt fs "bm" de_blend (ge_bm x) /\
  reads_opt fs "ix" de_f64 (ge_ix x) /\
  reads_opt fs "cl" de_string (ge_cl x) /\
  reads_opt fs "ln" de_string (ge_ln x) /\
  reads_opt fs "ind" de_f64 (ge_ind x).
Proof. intros. unfold de_graphic_element. members. Qed.
(** schema/shapes/shape.rs *)
Theorem C61_shape : forall fs x, de_s_shape fs = Some x <->
  de_graphic_element fs = Some (ss_ge x) /\
  reads_opt fs "d" de_shape_direction (ss_d x).
Proof. intros. unfold de_s_shape. members. Qed.
(** schema/shapes/shape_style.rs *)
Theorem C61_shape_style_shape : forall fs x, de_shape_style fs = Some x <->
  de_graphic_element fs = Some (sst_ge x) /\
  reads_req fs "o" de_float_value (sst_o x).
Proof. intros. unfold de_shape_style. members. Qed.
(** schema/shapes/stroke_dash.rs *)
Theorem C61_stroke_dash_shape : forall fs x, de_stroke_dash (JObj fs) = Some x <->
  de_visual_object fs = Some (da_vo x) /\
  reads_opt fs "n" de_dash_type (da_n x) /\
  reads_opt fs "v" de_float_value (da_v x).
Proof. intros. unfold de_stroke_dash. members. Qed.
(** schema/shapes/base_stroke.rs *)
Theorem C61_base_stroke_shape : forall fs x, de_base_stroke fs = Some x <->
  reads_opt fs "lc" de_line_cap (bs_lc x) /\
  reads_opt fs "lj" de_line_join (bs_lj x) /\
  reads_opt fs "ml" de_f64 (bs_ml x) /\
  reads_opt fs "ml2" de_float_value (bs_ml2 x) /\
  reads_req fs "w" de_float_value (bs_w x) /\
  reads_opt fs "d" (de_list de_stroke_dash) (bs_d x).
Proof. intros. unfold de_base_stroke. members. Qed.
(** schema/shapes/base_gradient.rs *)
Theorem C61_base_gradient_shape : forall fs x, de_base_gradient fs = Some x <->
  reads_req fs "g" de_gradient_colors (bg_g x) /\
  reads_req fs "s" de_multi_dim (bg_s x) /\
  reads_req fs "e" de_multi_dim (bg_e x) /\
  reads_opt fs "t" de_gradient_type (bg_t x) /\
  reads_opt fs "h" de_float_value (bg_h x) /\
  reads_opt fs "a" de_float_value (bg_a x).
Proof. intros. unfold de_base_gradient. members. Qed.
(** schema/shapes/transform.rs *)
Theorem C61_transform_shape : forall fs x, de_transform_shape fs = Some x <->
  de_graphic_element fs = Some (trs_ge x) /\
  de_transform_fs fs = Some (trs_t x).
Proof. intros. unfold de_transform_shape. members. Qed.
(** schema/shapes/repeater_transform.rs *)
Theorem C61_repeater_transform_shape : forall fs x, de_repeater_transform (JObj fs) = Some x <->
  de_transform_shape fs = Some (rtr_t x) /\
  reads_opt fs "so" de_float_value (rtr_so x) /\
  reads_opt fs "eo" de_float_value (rtr_eo x).
Proof. intros. unfold de_repeater_transform. members. Qed.
(** schema/layers/layer.rs *)
Theorem C61_layer : forall (st_taken : bool) fs x, de_s_layer st_taken fs = Some x <->
  de_visual_object fs = Some (sl_vo x) /\
  reads_opt fs "ddd" de_bool_int (sl_ddd x) /\
  reads_opt fs "hd" de_bool (sl_hd x) /\
  reads_req fs "ty" de_u8 (sl_ty x) /\
  reads_opt fs "ind" de_usize (sl_ind x) /\
  reads_opt fs "parent" de_usize (sl_parent x) /\
  reads_opt fs "sr" de_f64 (sl_sr x) /\
  reads_req fs "ip" de_f64 (sl_ip x) /\
  reads_req fs "op" de_f64 (sl_op x) /\
  (if st_taken then sl_st x = None else reads_opt fs "st" de_f64 (sl_st x)).
Proof. intros [|] fs x; unfold de_s_layer; members. Qed.
(** schema/layers/visual.rs *)
Theorem C61_visual_layer : forall (st_taken : bool) fs x, de_visual_layer st_taken fs = Some x <->
  de_s_layer st_taken fs = Some (vl_layer x) /\
  reads_opt fs "tt" de_matte_mode (vl_tt x) /\
  reads_opt fs "td" de_bool_int (vl_td x) /\
  reads_opt fs "masksProperties" (de_list de_mask) (vl_masks x) /\
  reads_req fs "ks" de_transform (vl_ks x) /\
  reads_opt fs "ao" de_bool_int (vl_ao x) /\
  reads_opt fs "tp" de_f64 (vl_tp x) /\
  reads_opt fs "hasMask" de_bool (vl_has_mask x) /\
  reads_opt fs "mb" de_bool (vl_mb x) /\
  reads_opt fs "bm" de_blend (vl_bm x) /\
  reads_opt fs "cl" de_string (vl_cl x) /\
  reads_opt fs "ln" de_string (vl_ln x) /\
  reads_opt fs "tg" de_string (vl_tg x) /\
  reads_opt fs "cp" de_string (vl_cp x) /\
  reads_opt fs "ct" de_bool_int (vl_ct x).
Proof. intros. unfold de_visual_layer. members. Qed.
(** schema/assets/asset.rs *)
Theorem C61_asset : forall fs x, de_asset fs = Some x <->
  reads_req fs "id" de_string (ass_id x) /\
  de_visual_object fs = Some (ass_vo x).
Proof. intros. unfold de_asset. members. Qed.
(** schema/assets/file_asset.rs *)
Theorem C61_file_asset : forall fs x, de_file_asset fs = Some x <->
  de_asset fs = Some (fa_asset x) /\
  reads_opt fs "u" de_string (fa_u x) /\
  reads_req fs "p" de_string (fa_p x) /\
  reads_opt fs "e" de_bool_int (fa_e x).
Proof. intros. unfold de_file_asset. members. Qed.
(** schema/animation/meta.rs *)
Theorem C61_meta : forall fs x, de_meta (JObj fs) = Some x <->
  reads_opt fs "a" de_string (me_a x) /\
  reads_opt fs "d" de_string (me_d x) /\
  reads_opt fs "tc" de_string (me_tc x) /\
  reads_opt fs "g" de_string (me_g x) /\
  reads_opt fs "k" de_value (me_k x).
Proof. intros. unfold de_meta. members. Qed.
(** schema/animation/animation.rs *)
Theorem C61_animation : forall fs x, de_animation (JObj fs) = Some x <->
  de_visual_object fs = Some (ani_vo x) /\
  reads_req fs "layers" (de_list de_layer) (ani_layers x) /\
  reads_opt fs "v" de_string (ani_v x) /\
  reads_opt fs "ver" de_u32 (ani_ver x) /\
  reads_req fs "fr" de_f64 (ani_fr x) /\
  reads_req fs "ip" de_f64 (ani_ip x) /\
  reads_req fs "op" de_f64 (ani_op x) /\
  reads_req fs "w" (de_uint usize_max) (ani_w x) /\
  reads_req fs "h" (de_uint usize_max) (ani_h x) /\
  reads_opt fs "ddd" de_bool_int (ani_ddd x) /\
  reads_opt fs "assets" (de_list de_any_asset) (ani_assets x) /\
  reads_opt fs "markers" (de_list de_marker) (ani_markers x) /\
  reads_opt fs "meta" de_meta (ani_meta x) /\
  reads_opt fs "metadata" de_value (ani_metadata x).
Proof. intros. unfold de_animation. members. Qed.
(** schema/shapes/group.rs *)
Theorem C61_group_shape : forall nested fs x, member "ty" fs = Some (JStr "gr") ->
  de_shape nested (JObj fs) = Some x <->
  exists x0 x1 x2 x3, x = AsGroup x0 x1 x2 x3 /\
  de_graphic_element fs = Some x0 /\
  reads_opt fs "np" de_f64 x1 /\
  reads_req fs "it" (de_list (de_shape true)) x2 /\
  reads_opt fs "cix" de_u8 x3.
Proof. shapes. Qed.
(** schema/shapes/rectangle.rs *)
Theorem C61_rectangle_shape : forall nested fs x, member "ty" fs = Some (JStr "rc") ->
  de_shape nested (JObj fs) = Some x <->
  exists x0 x1 x2 x3, x = AsRectangle x0 x1 x2 x3 /\
  de_s_shape fs = Some x0 /\
  reads_req fs "p" de_position x1 /\
  reads_req fs "s" de_multi_dim x2 /\
  reads_req fs "r" de_float_value x3.
Proof. shapes. Qed.
(** schema/shapes/ellipse.rs *)
Theorem C61_ellipse_shape : forall nested fs x, member "ty" fs = Some (JStr "el") ->
  de_shape nested (JObj fs) = Some x <->
  exists x0 x1 x2, x = AsEllipse x0 x1 x2 /\
  de_s_shape fs = Some x0 /\
  reads_req fs "p" de_position x1 /\
  reads_req fs "s" de_multi_dim x2.
Proof. shapes. Qed.
(** schema/shapes/stroke.rs *)
Theorem C61_stroke_shape : forall nested fs x, member "ty" fs = Some (JStr "st") ->
  de_shape nested (JObj fs) = Some x <->
  exists x0 x1 x2, x = AsStroke x0 x1 x2 /\
  de_shape_style fs = Some x0 /\
  de_base_stroke fs = Some x1 /\
  reads_req fs "c" de_color_value x2.
Proof. shapes. Qed.
(** schema/shapes/pucker_bloat.rs *)
Theorem C61_pucker_bloat_shape : forall nested fs x, member "ty" fs = Some (JStr "pb") ->
  de_shape nested (JObj fs) = Some x <->
  exists x0 x1, x = AsPuckerBloat x0 x1 /\
  de_graphic_element fs = Some x0 /\
  reads_opt fs "a" de_float_value x1.
Proof. shapes. Qed.
(** schema/shapes/merge.rs *)
Theorem C61_merge_shape : forall nested fs x, member "ty" fs = Some (JStr "mm") ->
  de_shape nested (JObj fs) = Some x <->
  exists x0 x1, x = AsMerge x0 x1 /\
  de_graphic_element fs = Some x0 /\
  reads_opt fs "mm" de_merge_mode x1.
Proof. shapes. Qed.
(** schema/shapes/repeater.rs *)
Theorem C61_repeater_shape : forall nested fs x, member "ty" fs = Some (JStr "rp") ->
  de_shape nested (JObj fs) = Some x <->
  exists x0 x1 x2 x3 x4, x = AsRepeater x0 x1 x2 x3 x4 /\
  de_graphic_element fs = Some x0 /\
  reads_req fs "c" de_float_value x1 /\
  reads_opt fs "o" de_float_value x2 /\
  reads_opt fs "m" de_composite x3 /\
  reads_req fs "tr" de_repeater_transform x4.
Proof. shapes. Qed.
(** schema/shapes/offset_path.rs *)
Theorem C61_offset_path_shape : forall nested fs x, member "ty" fs = Some (JStr "op") ->
  de_shape nested (JObj fs) = Some x <->
  exists x0 x1 x2 x3, x = AsOffsetPath x0 x1 x2 x3 /\
  de_graphic_element fs = Some x0 /\
  reads_opt fs "a" de_float_value x1 /\
  reads_opt fs "lj" de_line_join x2 /\
  reads_opt fs "ml" de_float_value x3.
Proof. shapes. Qed.
(** schema/shapes/fill.rs *)
Theorem C61_fill_shape : forall nested fs x, member "ty" fs = Some (JStr "fl") ->
  de_shape nested (JObj fs) = Some x <->
  exists x0 x1 x2, x = AsFill x0 x1 x2 /\
  de_shape_style fs = Some x0 /\
  reads_req fs "c" de_color_value x1 /\
  reads_opt fs "r" de_fill_rule x2.
Proof. shapes. Qed.
(** schema/shapes/trim_path.rs *)
Theorem C61_trim_path_shape : forall nested fs x, member "ty" fs = Some (JStr "tm") ->
  de_shape nested (JObj fs) = Some x <->
  exists x0 x1 x2 x3 x4, x = AsTrim x0 x1 x2 x3 x4 /\
  de_graphic_element fs = Some x0 /\
  reads_req fs "s" de_float_value x1 /\
  reads_req fs "e" de_float_value x2 /\
  reads_req fs "o" de_float_value x3 /\
  reads_opt fs "m" de_trim_multiple x4.
Proof. shapes. Qed.
(** schema/shapes/path.rs *)
Theorem C61_path_shape : forall nested fs x, member "ty" fs = Some (JStr "sh") ->
  de_shape nested (JObj fs) = Some x <->
  exists x0 x1, x = AsPath x0 x1 /\
  de_s_shape fs = Some x0 /\
  reads_req fs "ks" de_shape_prop x1.
Proof. shapes. Qed.
(** schema/shapes/gradient_fill.rs *)
Theorem C61_gradient_fill_shape : forall nested fs x, member "ty" fs = Some (JStr "gf") ->
  de_shape nested (JObj fs) = Some x <->
  exists x0 x1 x2, x = AsGradientFill x0 x1 x2 /\
  de_shape_style fs = Some x0 /\
  de_base_gradient fs = Some x1 /\
  reads_opt fs "r" de_fill_rule x2.
Proof. shapes. Qed.
(** schema/shapes/gradient_stroke.rs *)
Theorem C61_gradient_stroke_shape : forall nested fs x, member "ty" fs = Some (JStr "gs") ->
  de_shape nested (JObj fs) = Some x <->
  exists x0 x1 x2, x = AsGradientStroke x0 x1 x2 /\
  de_shape_style fs = Some x0 /\
  de_base_stroke fs = Some x1 /\
  de_base_gradient fs = Some x2.
Proof. shapes. Qed.
(** schema/shapes/twist.rs *)
Theorem C61_twist_shape : forall nested fs x, member "ty" fs = Some (JStr "tw") ->
  de_shape nested (JObj fs) = Some x <->
  exists x0 x1 x2, x = AsTwist x0 x1 x2 /\
  de_graphic_element fs = Some x0 /\
  reads_req fs "a" de_float_value x1 /\
  reads_req fs "p" de_position x2.
Proof. shapes. Qed.
(** schema/shapes/rounded_corners.rs *)
Theorem C61_rounded_corners_shape : forall nested fs x, member "ty" fs = Some (JStr "rd") ->
  de_shape nested (JObj fs) = Some x <->
  exists x0 x1, x = AsRoundedCorners x0 x1 /\
  de_graphic_element fs = Some x0 /\
  reads_req fs "r" de_float_value x1.
Proof. shapes. Qed.
(** schema/shapes/polystar.rs *)
Theorem C61_poly_star_shape : forall nested fs x, member "ty" fs = Some (JStr "sr") ->
  de_shape nested (JObj fs) = Some x <->
  exists x0 x1 x2 x3 x4 x5 x6 x7 x8, x = AsPolyStar x0 x1 x2 x3 x4 x5 x6 x7 x8 /\
  de_s_shape fs = Some x0 /\
  reads_req fs "p" de_position x1 /\
  reads_req fs "or" de_float_value x2 /\
  reads_req fs "os" de_float_value x3 /\
  reads_req fs "r" de_float_value x4 /\
  reads_req fs "pt" de_float_value x5 /\
  reads_req fs "sy" de_star_type x6 /\
  reads_opt fs "ir" de_float_value x7 /\
  reads_opt fs "is" de_float_value x8.
Proof. shapes. Qed.
(** schema/shapes/transform.rs *)
Theorem C61_transform_item : forall nested fs x, member "ty" fs = Some (JStr "tr") ->
  de_shape nested (JObj fs) = Some x <-> exists x0, x = AsTransform x0 /\ de_transform_shape fs = Some x0.
Proof. shapes. Qed.
(** schema/layers/precomposition.rs *)
Theorem C61_precomposition_layer : forall fs x, member "ty" fs = Some (JInt 0) ->
  de_layer (JObj fs) = Some x <->
  exists x0 x1 x2 x3 x4 x5, x = AlPrecomp x0 x1 x2 x3 x4 x5 /\
  de_visual_layer true fs = Some x0 /\
  reads_req fs "refId" de_string x1 /\
  reads_req fs "w" de_f64 x2 /\
  reads_req fs "h" de_f64 x3 /\
  reads_req fs "st" de_f64 x4 /\
  reads_opt fs "tm" de_float_value x5.
Proof. layers. Qed.
(** schema/layers/solid.rs *)
Theorem C61_solid_layer : forall fs x, member "ty" fs = Some (JInt 1) ->
  de_layer (JObj fs) = Some x <->
  exists x0 x1 x2 x3, x = AlSolid x0 x1 x2 x3 /\
  de_visual_layer false fs = Some x0 /\
  reads_req fs "sw" de_f64 x1 /\
  reads_req fs "sh" de_f64 x2 /\
  reads_req fs "sc" de_string x3.
Proof. layers. Qed.
(** schema/layers/image.rs *)
Theorem C61_image_layer : forall fs x, member "ty" fs = Some (JInt 2) ->
  de_layer (JObj fs) = Some x <->
  exists x0 x1, x = AlImage x0 x1 /\
  de_visual_layer false fs = Some x0 /\
  reads_req fs "refId" de_string x1.
Proof. layers. Qed.
(** schema/layers/null.rs *)
Theorem C61_null_layer : forall fs x, member "ty" fs = Some (JInt 3) ->
  de_layer (JObj fs) = Some x <->
  exists x0, x = AlNull x0 /\
  de_visual_layer false fs = Some x0.
Proof. layers. Qed.
(** schema/layers/shape.rs *)
Theorem C61_shape_layer : forall fs x, member "ty" fs = Some (JInt 4) ->
  de_layer (JObj fs) = Some x <->
  exists x0 x1, x = AlShape x0 x1 /\
  de_visual_layer false fs = Some x0 /\
  reads_req fs "shapes" (de_list (de_shape false)) x1.
Proof. layers. Qed.

(** * Assets *)
Theorem C61_image : forall fs x, member "layers" fs = None -> member "t" fs <> Some (JInt 3) ->
  de_any_asset (JObj fs) = Some x <->
  (member "w" fs <> None \/ member "h" fs <> None) /\
  exists fa sl w h t, x = AaImage fa sl w h t /\ de_file_asset fs = Some fa /\ de_slottable fs = Some sl /\
  reads_opt fs "w" de_f64 w /\ reads_opt fs "h" de_f64 h /\
  ((member "t" fs = None /\ t = None) \/
   (exists s, member "t" fs = Some (JStr s) /\ (s = "seq" /\ t = Some true \/ s <> "seq" /\ t = None))).
Proof.
  intros fs x L T3. unfold de_any_asset. cbn [as_map]. rewrite !has_member, L, req_member.
  assert (N : match member "t" fs with Some v => (match v with JInt 3 => Some tt | _ => None end) | None => None end = None).
  { destruct (member "t" fs) as [w|]; auto. destruct w as [| |z| | | |]; auto. destruct z as [|p|]; auto.
    repeat (destruct p as [p|p|]; auto). congruence. }
  rewrite N. assert (S : forall t, de_sequence fs = Some t <-> ((member "t" fs = None /\ t = None) \/
   (exists s, member "t" fs = Some (JStr s) /\ (s = "seq" /\ t = Some true \/ s <> "seq" /\ t = None)))).
  { intros t. unfold de_sequence. rewrite has_member, req_member. destruct (member "t" fs) as [w|].
    - split.
      + destruct w; try discriminate. cbn. destruct (String.eqb_spec s "seq"); intros [= <-]; right; eauto.
      + intros [(A & _)|(s & [= ->] & [(-> & ->)|(Ns & ->)])]; [discriminate|reflexivity|]. cbn.
        apply String.eqb_neq in Ns. rewrite Ns. reflexivity.
    - split; [intros [= <-]; auto|]. intros [(_ & ->)|(s & A & _)]; [reflexivity|discriminate]. }
  destruct (match member "w" fs with Some _ => true | None => false end || match member "h" fs with Some _ => true | None => false end) eqn:WH.
  - assert (W : member "w" fs <> None \/ member "h" fs <> None).
    { destruct (member "w" fs); [left; discriminate|]. destruct (member "h" fs); [right; discriminate|discriminate]. }
    split.
    + intros H. pull H. split; [exact W|]. do 5 eexists. split; [reflexivity|]. to_model. rewrite <- S. eauto 8.
    + intros (_ & fa & sl & w & h & t & -> & H1 & H2 & H3 & H4 & H5). apply reads_opt_iff in H3, H4. apply S in H5. backward.
  - split; [discriminate|]. intros (W & _). destruct (member "w" fs), (member "h" fs); try discriminate. destruct W; congruence.
Qed.
Theorem C61_precomposition : forall fs x, member "layers" fs <> None ->
  de_any_asset (JObj fs) = Some x <->
  exists a layers fr xt, x = AaPrecomp a layers fr xt /\ de_asset fs = Some a /\
  reads_req fs "layers" (de_list de_layer) layers /\ reads_opt fs "fr" de_f64 fr /\ reads_opt fs "xt" de_bool_int xt.
Proof.
  intros fs x L. unfold de_any_asset. cbn [as_map]. rewrite has_member. destruct (member "layers" fs) eqn:M; [|congruence].
  tagged.
Qed.
(** data sources and sounds are rejected *)
Theorem C61_other_assets : forall fs, member "layers" fs = None ->
  member "t" fs = Some (JInt 3) \/ member "w" fs = None /\ member "h" fs = None -> de_any_asset (JObj fs) = None.
Proof.
  intros fs L H. unfold de_any_asset. cbn [as_map]. rewrite !has_member, L, req_member.
  destruct H as [->|(-> & ->)]; [reflexivity|]. cbn [orb]. destruct (match member "t" fs with Some _ => _ | None => _ end); reflexivity.
Qed.

(** * Structs as arrays, and everything else *)
(** a struct without flattened parts is also read from the array of all its fields *)
Definition by_position {A} (keys : list string) (de : json -> option A) : Prop :=
  (forall l x, de (JArr l) = Some x <-> List.length l = List.length keys /\ de (JObj (combine keys l)) = Some x) /\
  (forall j, (forall l, j <> JArr l) -> (forall fs, j <> JObj fs) -> de j = None).
Definition only_objects {A} (de : json -> option A) : Prop := forall j, (forall fs, j <> JObj fs) -> de j = None.
Ltac by_pos :=
  split; [ intros l x; match goal with |- ?f _ = _ <-> _ => unfold f end; cbn [as_struct];
    match goal with |- context [Nat.eqb ?a ?b] => destruct (Nat.eqb_spec a b) as [?|?] end;
    [ split; [let H := fresh in intros H; split; [assumption|exact H]|let H := fresh in intros (_ & H); exact H]
    | split; [discriminate|intros [? _]; congruence]]
  | intros [| | | | | |] NA NO; try reflexivity; exfalso; match goal with N : forall _, _ <> _ |- _ => eapply N; reflexivity end ].
Theorem C61_by_position :
  by_position ["x"; "y"] de_kf_handle /\
  by_position ["k"; "p"] de_gradient_colors /\
  by_position ["ix"; "a"; "x"; "l"; "k"] de_position /\
  by_position ["s"; "x"; "y"; "z"] de_split_vector /\
  by_position ["c"; "v"; "i"; "o"] de_bezier /\
  by_position ["ix"; "a"; "x"; "k"] de_shape_prop /\
  by_position ["cm"; "tm"; "dr"] de_marker /\
  by_position ["a"; "p"; "s"; "r"; "sk"; "sa"; "o"] de_transform /\
  by_position ["nm"; "mn"; "inv"; "pt"; "o"; "mode"; "x"] de_mask.
Proof. refine (conj _ (conj _ (conj _ (conj _ (conj _ (conj _ (conj _ (conj _ _)))))))); by_pos. Qed.
Theorem C61_only_objects :
  only_objects de_keyframe /\ only_objects de_multi_dim /\ only_objects de_pos_keyframe /\ only_objects de_shape_keyframe /\
  only_objects de_stroke_dash /\ only_objects de_repeater_transform /\ only_objects (de_shape false) /\ only_objects (de_shape true) /\
  only_objects de_layer /\ only_objects de_any_asset /\ only_objects de_animation.
Proof.
  unfold only_objects. repeat match goal with |- _ /\ _ => split end;
    intros [| | | | | |fs] N; try reflexivity; exfalso; exact (N fs eq_refl).
Qed.

(** non-vacuity: a document with most parts is read, a group in it too *)
Example C61_witness : (exists a, de_animation doc_sized = Some a) /\
  match jshapes with
  | JArr [g; st] => match de_shape false g, de_shape false st with
                    | Some (AsGroup _ (Some _) [AsRectangle _ _ _ _; AsPath _ _; AsFill _ _ _; AsTransform _] None), Some (AsStroke _ _ _) => True
                    | _, _ => False end
  | _ => False
  end.
Proof. split; [destruct C48_witness as (_ & a & H & _); eauto|vm_compute; exact I]. Qed.
