(** What is written of a document that was read is a proper JSON value: its
    integers fit 64 bits, its numbers are finite and no two members of an
    object have the same name. *)
From Coq Require Import ZArith Reals Bool List String Lia.
From Flocq Require Import Core BinarySingleNaN.
From Verif Require Import F64 F64Facts Schema Serde SerdeSpec SerdeFacts SerdeFacts2 SerdeFacts3.
Import ListNotations.
Local Open Scope string_scope.
Local Open Scope list_scope.

(** ** Names *)
Inductive sub : list string -> list string -> Prop :=
| sub_nil : sub [] []
| sub_take x l m : sub l m -> sub (x :: l) (x :: m)
| sub_skip x l m : sub l m -> sub l (x :: m).
Lemma sub_app a ka b kb : sub a ka -> sub b kb -> sub (a ++ b) (ka ++ kb).
Proof. induction 1; intros S; cbn; try constructor; auto. Qed.
Lemma sub_in a ka x : sub a ka -> In x a -> In x ka.
Proof. induction 1; cbn; intuition. Qed.
Lemma sub_nodup a ka : sub a ka -> NoDup ka -> NoDup a.
Proof. induction 1; intros N; auto; inversion N; subst; auto. constructor; auto. intros I. now apply (sub_in _ m) in I. Qed.
Definition knames (fs : fields) (ks : list string) : Prop := sub (map fst fs) ks.
Lemma kn_app a ka b kb : knames a ka -> knames b kb -> knames (a ++ b) (ka ++ kb).
Proof. unfold knames. rewrite map_app. apply sub_app. Qed.
Lemma kn_fld {A} k (s : A -> json) x : knames (fld k s x) [k].
Proof. repeat constructor. Qed.
Lemma kn_nfld {A} k (s : A -> json) x : knames (nfld k s x) [k].
Proof. repeat constructor. Qed.
Lemma kn_ofld {A} k (s : A -> json) x : knames (ofld k s x) [k].
Proof. destruct x; repeat constructor. Qed.
Fixpoint nodupb (l : list string) : bool := match l with [] => true | x :: r => negb (existsb (String.eqb x) r) && nodupb r end.
Lemma nodupb_ok l : nodupb l = true -> NoDup l.
Proof.
  induction l as [|x r IH]; cbn; [constructor|]. intros H. apply andb_prop in H as [H1 H2]. constructor; auto. intros I. apply negb_true_iff in H1.
  rewrite <- not_true_iff_false, existsb_exists in H1. apply H1. exists x. split; auto. apply String.eqb_refl.
Qed.
Lemma obj_ok fs ks : fok fs -> knames fs ks -> nodupb ks = true -> json_ok (JObj fs).
Proof. intros F K N. constructor; [exact F|]. apply (sub_nodup _ _ K). now apply nodupb_ok. Qed.

(** ** What is written is proper *)
Class WR {A} (f : json -> option A) (s : A -> json) : Prop := wr : forall j x, json_ok j -> f j = Some x -> json_ok (s x).
Definition pO {A} (s : A -> json) (o : option A) : Prop := match o with Some x => json_ok (s x) | None => True end.
Definition pR {A} (s : A -> json) (x : A) : Prop := json_ok (s x).
Lemma req_p {A} {f : json -> option A} {s} {R : WR f s} k fs x : fok fs -> req k f fs = Some x -> pR s x.
Proof. intros O H. rewrite req_member in H. destruct (member k fs) as [v|] eqn:M; [|discriminate]. exact (R v x (member_ok _ _ _ O M) H). Qed.
Lemma opt_p {A} {f : json -> option A} {s} {R : WR f s} k fs o : fok fs -> opt k f fs = Some o -> pO s o.
Proof.
  intros O H. rewrite opt_member in H. destruct (member k fs) as [v|] eqn:M; [|injection H as <-; exact I].
  pose proof (member_ok _ _ _ O M) as Ov. destruct o as [x|]; [|exact I]. destruct v; try discriminate; (destruct (f _) as [y|] eqn:E; [|discriminate]); injection H as <-; exact (R _ _ Ov E).
Qed.
Lemma fok_app a b : fok a -> fok b -> fok (a ++ b).
Proof. intros A B. apply Forall_app. auto. Qed.
Lemma fok_fld {A} k (s : A -> json) x : pR s x -> fok (fld k s x).
Proof. intros H. repeat constructor. exact H. Qed.
Lemma fok_nfld {A} k (s : A -> json) x : pO s x -> fok (nfld k s x).
Proof. intros H. repeat constructor. cbn. destruct x; [exact H|constructor]. Qed.
Lemma fok_ofld {A} k (s : A -> json) x : pO s x -> fok (ofld k s x).
Proof. intros H. destruct x; repeat constructor. exact H. Qed.
Ltac inv_p :=
  repeat match goal with
  | O : json_ok ?j, H : as_map ?j = Some ?fs |- _ => let F := fresh "F" in pose proof (as_map_ok _ _ O H) as F; clear H
  | O : json_ok ?j, H : as_struct _ ?j = Some ?fs |- _ => let F := fresh "F" in pose proof (as_struct_ok _ _ _ O H) as F; clear H
  | O : json_ok ?j, H : as_struct_default _ ?j = Some ?fs |- _ => let F := fresh "F" in pose proof (as_struct_default_ok _ _ _ O H) as F; clear H
  end;
  repeat match goal with
  | F : fok ?fs, H : req ?k ?f ?fs = Some ?x |- _ => apply (req_p k fs x F) in H
  | F : fok ?fs, H : opt ?k ?f ?fs = Some ?x |- _ => apply (opt_p k fs x F) in H
  end.
Ltac popened H := inv_de H; inv_p; fin H; repeat match goal with E : Some _ = Some _ |- _ => fin E end.
Ltac foks := repeat first [apply fok_app | apply fok_fld; eassumption | apply fok_nfld; eassumption | apply fok_ofld; eassumption | apply fok_ofld; exact I].
Ltac names := repeat first [apply kn_app | apply kn_fld | apply kn_nfld | apply kn_ofld].
Ltac pbuild := prj; eapply obj_ok; [foks|names|vm_compute; reflexivity].

Lemma pR_f64 x : pR ser_f64 x.
Proof. unfold pR, ser_f64. destruct (is_finite x) eqn:E; constructor; auto. Qed.
#[export] Instance wr_f64 : WR de_f64 ser_f64. Proof. intros j x _ _. apply pR_f64. Qed.
#[export] Instance wr_string : WR de_string JStr. Proof. intros j x _ _. constructor. Qed.
#[export] Instance wr_bool : WR de_bool JBool. Proof. intros j x _ _. constructor. Qed.
#[export] Instance wr_value : WR de_value ser_value. Proof. intros j x O H. injection H as <-. exact O. Qed.
#[export] Instance wr_uint m : WR (de_uint m) JInt.
Proof. intros j x O H. apply de_uint_spec in H as [-> _]. exact O. Qed.
Lemma wr_nat m : WR (fun j => let? n := de_uint m j in Some (Z.to_nat n)) ser_nat.
Proof.
  intros j x O H. cbn beta in *. destruct (de_uint m j) as [n|] eqn:E; [|discriminate]. injection H as <-. apply de_uint_spec in E as [-> Hn]. unfold ser_nat. now rewrite Z2Nat.id by lia.
Qed.
#[export] Instance wr_usize : WR de_usize ser_nat. Proof. exact (wr_nat _). Qed.
#[export] Instance wr_u8 : WR de_u8 ser_nat. Proof. exact (wr_nat _). Qed.
#[export] Instance wr_u32 : WR de_u32 ser_nat. Proof. exact (wr_nat _). Qed.
#[export] Instance wr_list {A} {f : json -> option A} {s} {R : WR f s} : WR (de_list f) (ser_list s).
Proof.
  intros j xs O H. destruct j as [| | | | |l|]; try discriminate. cbn in H. apply mapO_Forall2 in H. assert (Ol : Forall json_ok l) by (inversion O; auto). constructor. clear O.
  induction H; cbn; constructor; inversion Ol; subst; auto. eapply R; eauto.
Qed.
#[export] Instance wr_floats : WR de_floats ser_floats. Proof. exact wr_list. Qed.
Ltac wr_code := intros j x _ _; destruct x; constructor; lia.
#[export] Instance wr_bool_int : WR de_bool_int ser_bool_int. Proof. wr_code. Qed.
#[export] Instance wr_blend : WR de_blend ser_blend. Proof. wr_code. Qed.
#[export] Instance wr_matte_mode : WR de_matte_mode ser_matte_mode. Proof. wr_code. Qed.
#[export] Instance wr_line_cap : WR de_line_cap ser_line_cap. Proof. wr_code. Qed.
#[export] Instance wr_line_join : WR de_line_join ser_line_join. Proof. wr_code. Qed.
#[export] Instance wr_fill_rule : WR de_fill_rule ser_fill_rule. Proof. wr_code. Qed.
#[export] Instance wr_gradient_type : WR de_gradient_type ser_gradient_type. Proof. wr_code. Qed.
#[export] Instance wr_star_type : WR de_star_type ser_star_type. Proof. wr_code. Qed.
#[export] Instance wr_shape_direction : WR de_shape_direction ser_shape_direction. Proof. wr_code. Qed.
#[export] Instance wr_merge_mode : WR de_merge_mode ser_merge_mode. Proof. wr_code. Qed.
#[export] Instance wr_composite : WR de_composite ser_composite. Proof. wr_code. Qed.
#[export] Instance wr_trim_multiple : WR de_trim_multiple ser_trim_multiple. Proof. wr_code. Qed.
#[export] Instance wr_mask_mode : WR de_mask_mode ser_mask_mode. Proof. intros j x _ _; destruct x; constructor. Qed.
#[export] Instance wr_dash_type : WR de_dash_type ser_dash_type. Proof. intros j x _ _; destruct x; constructor. Qed.

(** ** Animated properties *)
#[export] Instance wr_kf_component : WR de_kf_component ser_kf_component.
Proof.
  intros j x O H. unfold de_kf_component in H. destruct (de_floats j) as [l|] eqn:E; [fin H; exact (wr_floats j l O E)|]. destruct (de_f64 j) as [y|] eqn:E2; [|discriminate]. fin H. exact (wr_f64 j y O E2).
Qed.
#[export] Instance wr_kf_handle : WR de_kf_handle ser_kf_handle.
Proof. start H. unfold de_kf_handle in H. popened H. unfold ser_kf_handle. pbuild. Qed.
#[export] Instance wr_keyframe : WR de_keyframe ser_keyframe.
Proof. start H. unfold de_keyframe, de_keyframe_fs, de_kf_base in H. popened H. unfold ser_keyframe, ser_keyframe_fs, ser_kf_base. pbuild. Qed.
#[export] Instance wr_anim_k {T} (f : json -> option T) s {R : WR f s} : WR (de_anim_k f) (ser_anim_k s).
Proof.
  intros j x O H. unfold de_anim_k in H. destruct (de_list de_keyframe j) as [l|] eqn:E; [fin H; exact (wr_list j l O E)|]. destruct (f j) as [y|] eqn:E2; [|discriminate]. fin H. exact (R j y O E2).
Qed.
#[export] Instance wr_float_value : WR de_float_value ser_float_value.
Proof. start H. unfold de_float_value, de_anim_prop in H. popened H. unfold ser_float_value, ser_anim_prop. pbuild. Qed.
#[export] Instance wr_color_value : WR de_color_value ser_color_value.
Proof. start H. unfold de_color_value, de_anim_prop in H. popened H. unfold ser_color_value, ser_anim_prop. pbuild. Qed.
#[export] Instance wr_multi_dim : WR de_multi_dim ser_multi_dim.
Proof. start H. unfold de_multi_dim, de_anim_prop in H. popened H. unfold ser_multi_dim, ser_anim_prop. pbuild. Qed.
#[export] Instance wr_gradient_colors : WR de_gradient_colors ser_gradient_colors.
Proof. start H. unfold de_gradient_colors in H. popened H. unfold ser_gradient_colors. pbuild. Qed.
#[export] Instance wr_pos_keyframe : WR de_pos_keyframe ser_pos_keyframe.
Proof. start H. unfold de_pos_keyframe, de_keyframe_fs, de_kf_base in H. popened H. unfold ser_pos_keyframe, ser_keyframe_fs, ser_kf_base. pbuild. Qed.
#[export] Instance wr_position_k : WR de_position_k ser_position_k.
Proof.
  intros j x O H. unfold de_position_k in H. destruct (de_list de_pos_keyframe j) as [l|] eqn:E; [fin H; exact (wr_list j l O E)|]. destruct (de_floats j) as [y|] eqn:E2; [|discriminate]. fin H. exact (wr_floats j y O E2).
Qed.
#[export] Instance wr_position : WR de_position ser_position.
Proof. start H. unfold de_position in H. popened H. unfold ser_position. pbuild. Qed.
#[export] Instance wr_split_vector : WR de_split_vector ser_split_vector.
Proof. start H. unfold de_split_vector in H. popened H. unfold ser_split_vector. pbuild. Qed.
#[export] Instance wr_vertex : WR de_vertex ser_vertex.
Proof. intros j x _ _. unfold ser_vertex. constructor. repeat constructor; apply pR_f64. Qed.
#[export] Instance wr_bezier : WR de_bezier ser_bezier.
Proof. start H. unfold de_bezier in H. popened H. unfold ser_bezier. pbuild. Qed.
#[export] Instance wr_shape_keyframe : WR de_shape_keyframe ser_shape_keyframe.
Proof. start H. unfold de_shape_keyframe, de_kf_base in H. popened H. unfold ser_shape_keyframe, ser_kf_base. pbuild. Qed.
#[export] Instance wr_shape_k : WR de_shape_k ser_shape_k.
Proof.
  intros j x O H. unfold de_shape_k in H. destruct (deserialize_keyframes j) as [l|] eqn:E; [fin H; exact (wr_list j l O (deserialize_keyframes_list _ _ E))|].
  destruct (de_bezier j) as [b|] eqn:E2; [|discriminate]. fin H. exact (wr_bezier j b O E2).
Qed.
#[export] Instance wr_shape_prop : WR de_shape_prop ser_shape_prop.
Proof. start H. unfold de_shape_prop in H. popened H. unfold ser_shape_prop. pbuild. Qed.
#[export] Instance wr_marker : WR de_marker ser_marker.
Proof. start H. unfold de_marker in H. popened H. unfold ser_marker. pbuild. Qed.
#[export] Instance wr_any_p : WR de_any_p ser_any_p.
Proof.
  intros j x O H. unfold de_any_p in H. destruct (de_position j) as [p|] eqn:E; [fin H; exact (wr_position j p O E)|]. destruct (de_split_vector j) as [v|] eqn:E2; [|discriminate]. fin H. exact (wr_split_vector j v O E2).
Qed.
#[export] Instance wr_any_r : WR de_any_r ser_any_r.
Proof.
  intros j x O H. unfold de_any_r in H. destruct (de_float_value j) as [p|] eqn:E; [fin H; exact (wr_float_value j p O E)|]. unfold de_split_rotation in H. popened H. unfold ser_any_r. pbuild.
Qed.
#[export] Instance wr_transform : WR de_transform ser_transform.
Proof. start H. unfold de_transform, de_transform_fs in H. popened H. unfold ser_transform, ser_transform_fs. pbuild. Qed.
#[export] Instance wr_mask : WR de_mask ser_mask.
Proof. start H. unfold de_mask in H. popened H. unfold ser_mask. pbuild. Qed.

(** ** Shapes *)
#[export] Instance wr_stroke_dash : WR de_stroke_dash ser_stroke_dash.
Proof. start H. unfold de_stroke_dash, de_visual_object in H. popened H. unfold ser_stroke_dash, ser_visual_object. pbuild. Qed.
#[export] Instance wr_repeater_transform : WR de_repeater_transform ser_repeater_transform.
Proof.
  start H. unfold de_repeater_transform, de_transform_shape, de_graphic_element, de_visual_object, de_transform_fs in H. popened H.
  unfold ser_repeater_transform, ser_transform_shape, ser_graphic_element, ser_visual_object, ser_transform_fs. pbuild.
Qed.
Definition wr_of (j : json) : Prop := forall n x, json_ok j -> de_shape n j = Some x -> json_ok (ser_shape x).
Lemma wr_items fs it : fok fs -> Forall (fun m => forall l, snd m = JArr l -> Forall wr_of l) fs -> req "it" (fun v => de_list (fun j => de_shape true j) v) fs = Some it -> pR ser_shapes it.
Proof.
  intros F I H. rewrite req_member in H. destruct (member "it" fs) as [v|] eqn:M; [|discriminate].
  assert (Iv : forall l, v = JArr l -> Forall wr_of l).
  { clear H F. revert M. induction I as [|[k w] r Hw _ IH]; cbn; [discriminate|].
    destruct k as [|[[] [] [] [] [] [] [] []] k]; auto. intros M.
    match type of M with (if ?b then _ else _) = _ => destruct b end; [|auto]. injection M as ->. exact Hw. }
  pose proof (member_ok _ _ _ F M) as O. destruct v as [| | | | |l|]; try discriminate. specialize (Iv l eq_refl).
  cbn [de_list] in H. apply mapO_Forall2 in H. assert (Ol : Forall json_ok l) by (inversion O; auto). clear O M. constructor. revert Iv Ol.
  induction H as [|j x l xs H _ IH]; intros Iv Ol; [constructor|]. inversion Iv; inversion Ol; subst. constructor; auto.
  match goal with A : wr_of j |- _ => exact (A true x ltac:(assumption) H) end.
Qed.
Lemma pR_str s : pR JStr s. Proof. constructor. Qed.
Lemma wr_shape_all : forall j, wr_of j /\ forall l, j = JArr l -> Forall wr_of l.
Proof.
  induction j using json_ind'; (split; [|try discriminate]); try (intros n0 y _ E; discriminate E).
  - intros l' [= <-]. eapply Forall_impl; [|exact H]. cbn. tauto.
  - intros n x O D. assert (F : fok fs) by (inversion O; auto).
    assert (I : Forall (fun m => forall l, snd m = JArr l -> Forall wr_of l) fs).
    { eapply Forall_impl; [|exact H]. cbn. tauto. }
    clear H O. cbn [de_shape] in D. destruct (req "ty" (de_tag n) fs) as [[]|]; try discriminate;
      unfold de_shape_style, de_s_shape, de_transform_shape, de_graphic_element, de_visual_object, de_transform_fs,
        de_base_stroke, de_base_gradient in D;
      inv_de D;
      try match goal with E : req "it" _ fs = Some _ |- _ => apply (wr_items fs _ F I) in E end;
      clear I; inv_p; fin D;
      repeat match goal with E : Some _ = Some _ |- _ => fin E end;
      cbn [ser_shape];
      try (match goal with |- context [[("it", JArr (map ser_shape ?l))]] =>
             change [("it", JArr (map ser_shape l))] with (fld "it" ser_shapes l) end);
      unfold ser_shape_style, ser_s_shape, ser_transform_shape, ser_graphic_element, ser_visual_object, ser_transform_fs,
        ser_base_stroke, ser_base_gradient; prj;
      (eapply obj_ok; [repeat first [apply fok_app | apply fok_fld; first [eassumption|apply pR_str] | apply fok_nfld; eassumption | apply fok_ofld; eassumption]|names|vm_compute; reflexivity]).
Qed.
#[export] Instance wr_shape n : WR (de_shape n) ser_shape.
Proof. intros j x O H. exact (proj1 (wr_shape_all j) n x O H). Qed.

(** ** Layers *)
Lemma kn_none {A} k (s : A -> json) : knames (ofld k s None) []. Proof. constructor. Qed.
#[export] Instance wr_layer : WR de_layer ser_layer.
Proof.
  intros j x O H. unfold de_layer in H.
  destruct (as_map j) as [fs|] eqn:M; [|discriminate]. pose proof (as_map_ok _ _ O M) as F. clear M.
  destruct (layer_type fs) as [ty|] eqn:Lt; [|discriminate].
  assert (C : ty = 0%Z \/ ty = 1%Z \/ ty = 2%Z \/ ty = 3%Z \/ ty = 4%Z).
  { destruct ty as [|[[]|[[]|[]|]|]|]; auto 6; discriminate H. }
  destruct C as [->|[->|[->|[->| ->]]]]; cbn iota in H;
    unfold de_visual_layer, de_s_layer, de_visual_object in H; cbn iota in H; inv_de H; clear Lt; inv_p;
    repeat match goal with E : Some _ = Some _ |- _ => fin E end; cbn [ser_layer]; layer_unfold;
    (eapply obj_ok; [foks|repeat first [apply kn_app | apply kn_fld | apply kn_nfld | apply kn_none | apply kn_ofld]|vm_compute; reflexivity]).
Qed.

(** ** Assets and the document *)
Lemma pO_seq t : pO ser_sequence t. Proof. destruct t; [constructor|exact I]. Qed.
#[export] Instance wr_asset : WR de_any_asset ser_any_asset.
Proof.
  intros j a O H. unfold de_any_asset in H. destruct (as_map j) as [fs|] eqn:M; [|discriminate].
  pose proof (as_map_ok _ _ O M) as F. clear M O. destruct (has "layers" fs).
  - unfold de_asset, de_visual_object in H. inv_de H. inv_p. fin H. repeat match goal with E : Some _ = Some _ |- _ => fin E end.
    unfold ser_any_asset, ser_asset, ser_visual_object. pbuild.
  - match type of H with (if ?b then None else _) = _ => destruct b; [discriminate|] end.
    destruct (has "w" fs || has "h" fs); [|discriminate].
    unfold de_file_asset, de_asset, de_visual_object, de_slottable in H. inv_de H. match goal with E : de_sequence fs = Some ?t |- _ => clear E end.
    inv_p. repeat match goal with E : Some _ = Some _ |- _ => fin E end.
    unfold ser_any_asset, ser_file_asset, ser_asset, ser_visual_object, ser_slottable. prj.
    eapply obj_ok; [repeat first [apply fok_app | apply fok_fld; eassumption | apply fok_ofld; first [eassumption|apply pO_seq]]|names|vm_compute; reflexivity].
Qed.
#[export] Instance wr_meta : WR de_meta ser_meta.
Proof. start H. unfold de_meta in H. popened H. unfold ser_meta. pbuild. Qed.
Theorem written_proper : forall j a, json_ok j -> de_animation j = Some a -> json_ok (ser_animation a).
Proof.
  intros j a O H. unfold de_animation, de_visual_object in H. popened H. unfold ser_animation, ser_visual_object. pbuild.
Qed.
