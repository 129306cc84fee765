(** What is read does not depend on the order of members. *)
From Coq Require Import ZArith Bool List String Lia Permutation.
From Flocq Require Import Core BinarySingleNaN.
From Verif Require Import F64 Schema Serde SerdeSpec SerdeFacts OrderSpec.
From Verif Require SerdeFacts4.
Import ListNotations.
Local Open Scope string_scope.
Local Open Scope list_scope.

Local Notation read_animation := SerdeFacts4.read_animation.
Local Notation shadow_meta := SerdeFacts4.shadow_meta.
Local Notation forget_meta := SerdeFacts4.forget_meta.
Local Notation read_animation_eq := SerdeFacts4.read_animation_eq.
Local Notation opt_value := SerdeFacts4.opt_value.

(** what a reader can see *)
Definition sees (fs fs' : fields) : Prop :=
  forall k, match member k fs, member k fs' with
  | None, None => True
  | Some v, Some v' => shuffled v v'
  | _, _ => False
  end.
Lemma members_sees fs fs' : shuffled_members fs fs' -> sees fs fs'.
Proof. induction 1 as [|k v v' fs fs' P _ IH]; intros q; cbn [member]; auto. destruct (String.eqb q k); auto. exact (IH q). Qed.
Lemma members_names fs fs' : shuffled_members fs fs' -> map fst fs = map fst fs'.
Proof. induction 1; cbn; congruence. Qed.
Lemma member_none k fs : ~ In k (map fst fs) -> member k fs = None.
Proof. induction fs as [|[q v] fs IH]; cbn [member map In fst]; auto. intros N. destruct (String.eqb_spec k q); subst; tauto. Qed.
Lemma member_perm k fs fs' : NoDup (map fst fs) -> Permutation fs fs' -> member k fs = member k fs'.
Proof.
  intros N P. revert N. induction P as [|[q v] l l' P IH|[q v] [r w] l|l1 l2 l3 P1 IH1 P2 IH2]; intros N; auto.
  - cbn [member]. inversion N; subst. rewrite IH; auto.
  - cbn [member]. inversion N as [|? ? M _]; subst. cbn in M. destruct (String.eqb_spec k r), (String.eqb_spec k q); subst; auto. tauto.
  - rewrite IH1 by auto. apply IH2. eapply Permutation_NoDup; [|exact N]. now apply Permutation_map.
Qed.
Lemma shuffled_sees fs fs1 fs' : NoDup (map fst fs) -> shuffled_members fs fs1 -> Permutation fs1 fs' -> sees fs fs'.
Proof. intros N M P k. rewrite <- (member_perm k fs1 fs'); [now apply members_sees|rewrite <- (members_names _ _ M); exact N|exact P]. Qed.
Lemma sees_refl fs : sees fs fs.
Proof. intros k. destruct (member k fs); auto. constructor. Qed.

Class Pad {A} (f : json -> option A) : Prop := pad : (forall j j', shuffled j j' -> f j = f j') /\ f JNull = None.
Class PadF {A} (g : fields -> option A) : Prop := padf : forall fs fs', sees fs fs' -> g fs = g fs'.

#[global] Instance req_pad {A} k (f : json -> option A) : Pad f  -> PadF (req k f).
Proof.
  intros [P N] fs fs' S. specialize (S k). rewrite !req_member.
  destruct (member k fs), (member k fs'); try tauto; auto.
Qed.
Lemma shuffled_null v : shuffled JNull v -> v = JNull. Proof. inversion 1; auto. Qed.
Lemma shuffled_to_null v : shuffled v JNull -> v = JNull. Proof. inversion 1; auto. Qed.
#[global] Instance opt_pad {A} k (f : json -> option A) : Pad f  -> PadF (opt k f).
Proof.
  intros [P N] fs fs' S. specialize (S k). rewrite !opt_member.
  destruct (member k fs) as [v|], (member k fs') as [v'|]; try tauto; auto.
  destruct v; try (apply shuffled_null in S; subst; reflexivity);
      (destruct v'; try (apply shuffled_to_null in S; discriminate); rewrite (P _ _ S); reflexivity).
Qed.
Lemma has_pad k : forall fs fs', sees fs fs' -> has k fs = has k fs'.
Proof. intros fs fs' S. specialize (S k). rewrite !has_member. destruct (member k fs), (member k fs'); tauto. Qed.

(** a reader of scalars: arrays and objects are errors *)
Lemma pad_scalar {A} (f : json -> option A) : (forall l, f (JArr l) = None) -> (forall fs, f (JObj fs) = None) ->
  f JNull = None -> Pad f.
Proof. intros Ha Ho N. split; auto. intros j j' P. inversion P; subst; auto; rewrite ?Ha, ?Ho; auto. Qed.
Ltac scalar := apply pad_scalar; intros; reflexivity.
#[global] Instance p_f64 : Pad de_f64. Proof. scalar. Qed.
#[global] Instance p_uint m : Pad (de_uint m). Proof. scalar. Qed.
#[global] Instance p_usize : Pad de_usize. Proof. scalar. Qed.
#[global] Instance p_u8 : Pad de_u8. Proof. scalar. Qed.
#[global] Instance p_u32 : Pad de_u32. Proof. scalar. Qed.
#[global] Instance p_string : Pad de_string. Proof. scalar. Qed.
#[global] Instance p_bool : Pad de_bool. Proof. scalar. Qed.
#[global] Instance p_bool_int : Pad de_bool_int. Proof. scalar. Qed.
#[global] Instance p_blend : Pad de_blend. Proof. scalar. Qed.
#[global] Instance p_matte_mode : Pad de_matte_mode. Proof. scalar. Qed.
#[global] Instance p_line_cap : Pad de_line_cap. Proof. scalar. Qed.
#[global] Instance p_line_join : Pad de_line_join. Proof. scalar. Qed.
#[global] Instance p_fill_rule : Pad de_fill_rule. Proof. scalar. Qed.
#[global] Instance p_gradient_type : Pad de_gradient_type. Proof. scalar. Qed.
#[global] Instance p_star_type : Pad de_star_type. Proof. scalar. Qed.
#[global] Instance p_shape_direction : Pad de_shape_direction. Proof. scalar. Qed.
#[global] Instance p_merge_mode : Pad de_merge_mode. Proof. scalar. Qed.
#[global] Instance p_composite : Pad de_composite. Proof. scalar. Qed.
#[global] Instance p_trim_multiple : Pad de_trim_multiple. Proof. scalar. Qed.
#[global] Instance p_tag b : Pad (de_tag b). Proof. scalar. Qed.

Lemma shuffled_empty v : shuffled v (JObj []) <-> v = JObj [].
Proof.
  split; [|intros ->; constructor]. inversion 1 as [| |fs fs1 fs' _ M P]; subst; auto. apply Permutation_sym, Permutation_nil in P. subst. inversion M. auto.
Qed.
Lemma empty_shuffled v : shuffled (JObj []) v <-> v = JObj [].
Proof. split; [|intros ->; constructor]. inversion 1 as [| |fs fs1 fs' _ M P]; subst; auto. inversion M; subst. apply Permutation_nil in P. now subst. Qed.
Lemma variant_shuffled b j j' : shuffled j j' -> variant_name b j = variant_name b j'.
Proof.
  inversion 1 as [| |fs fs1 fs' N M P]; subst; auto.
  destruct M as [|k v v' fs fs1 V M]; [apply Permutation_nil in P; now subst|].
  destruct M as [|q w w' fs fs1 W M].
  - apply Permutation_length_1_inv in P. subst.
    destruct v' as [| | | | | |[|m r]]; inversion V as [| |? ? ? ? M P]; subst; auto.
    + apply Permutation_sym, Permutation_nil in P. subst. inversion M; subst. reflexivity.
    + inversion M; subst; [apply Permutation_nil in P; discriminate|reflexivity].
  - apply Permutation_length in P. destruct fs' as [|a [|c r]]; try discriminate. destruct v as [| | | | | |[|]], a as [? [| | | | | |[|]]]; reflexivity.
Qed.
Lemma pad_variant {A} (g : string -> option A) b : Pad (fun j => match variant_name b j with Some s => g s | None => None end).
Proof. split; auto. intros j j' P. now rewrite (variant_shuffled b j j' P). Qed.
#[global] Instance p_mask_mode : Pad de_mask_mode. Proof. apply pad_variant. Qed.
#[global] Instance p_dash_type : Pad de_dash_type. Proof. apply pad_variant. Qed.

Lemma shuffled_len l l' : shuffled_list l l' -> List.length l = List.length l'.
Proof. induction 1; cbn; auto. Qed.
Lemma mapO_pad {A} (f : json -> option A) l l' : (forall j j', shuffled j j' -> f j = f j') -> shuffled_list l l' -> mapO f l = mapO f l'.
Proof. intros P. induction 1 as [|v v' l l' V _ IH]; cbn; auto. rewrite (P _ _ V). destruct (f v'); auto. rewrite IH. auto. Qed.
#[global] Instance p_list {A} (f : json -> option A) : Pad f -> Pad (de_list f).
Proof.
  intros [P N]. split; auto. intros j j' H. inversion H; subst; auto. cbn [de_list]. apply mapO_pad; auto.
Qed.
#[global] Instance p_floats : Pad de_floats. Proof. unfold de_floats. typeclasses eauto. Qed.

(** structs *)
Lemma combine_pad keys l l' : shuffled_list l l' -> shuffled_members (combine keys l) (combine keys l').
Proof. intros L. revert keys. induction L; intros [|k keys]; cbn; constructor; auto. Qed.
Definition sees_opt (a b : option fields) : Prop :=
  match a, b with Some x, Some y => sees x y | None, None => True | _, _ => False end.
Lemma as_map_pad j j' : shuffled j j' -> sees_opt (as_map j) (as_map j').
Proof. intros P. inversion P; subst; cbn; auto. - destruct (as_map j'); cbn; auto using sees_refl. - eauto using shuffled_sees. Qed.
Lemma as_struct_pad keys j j' : shuffled j j' -> sees_opt (as_struct keys j) (as_struct keys j').
Proof.
  intros P. inversion P as [|l l' L|fs fs1 fs' N M Q]; subst; cbn.
  - destruct (as_struct keys j'); cbn; auto using sees_refl.
  - rewrite (shuffled_len _ _ L). destruct (_ =? _)%nat; cbn; auto using members_sees, combine_pad.
  - now apply (shuffled_sees fs fs1).
Qed.
Lemma as_struct_default_pad keys j j' : shuffled j j' -> sees_opt (as_struct_default keys j) (as_struct_default keys j').
Proof.
  intros P. inversion P as [|l l' L|fs fs1 fs' N M Q]; subst; cbn.
  - destruct (as_struct_default keys j'); cbn; auto using sees_refl.
  - rewrite (shuffled_len _ _ L). destruct (_ <=? _)%nat; cbn; auto using members_sees, combine_pad.
  - now apply (shuffled_sees fs fs1).
Qed.
Lemma pad_map {A} (g : fields -> option A) : PadF g -> Pad (fun j => match as_map j with Some fs => g fs | None => None end).
Proof.
  intros G. split; auto. intros j j' P. apply as_map_pad in P. destruct (as_map j), (as_map j'); cbn in P; try tauto; auto.
Qed.
Lemma pad_struct {A} keys (g : fields -> option A) : PadF g -> Pad (fun j => match as_struct keys j with Some fs => g fs | None => None end).
Proof.
  intros G. split; auto. intros j j' P. apply (as_struct_pad keys) in P. destruct (as_struct keys j), (as_struct keys j'); cbn in P; try tauto; auto.
Qed.
#[global] Instance bind_pad {A B} (g : fields -> option A) (k : A -> fields -> option B) :
  PadF g -> (forall x, PadF (k x)) -> PadF (fun fs => match g fs with Some x => k x fs | None => None end).
Proof. intros G K fs fs' S. rewrite (G _ _ S). destruct (g fs'); auto. apply K. auto. Qed.
#[global] Instance const_pad {A} (x : option A) : PadF (fun _ => x). Proof. intros fs fs' _. reflexivity. Qed.
Ltac read := match goal with
  | |- PadF (fun fs => match @?g fs with Some x => @?k x fs | None => None end) => apply (bind_pad g (fun x fs => k x fs)); [|intros ?; read]
  | |- PadF (fun fs => Some _) => apply const_pad
  | |- PadF _ => idtac
  end;
  match goal with
  | |- PadF (fun _ => ?x) => apply const_pad
  | |- PadF (fun fs => req ?k ?f fs) => apply (req_pad k f); typeclasses eauto
  | |- PadF (fun fs => opt ?k ?f fs) => apply (opt_pad k f); typeclasses eauto
  | |- PadF (fun fs => ?g fs) => change (PadF g); typeclasses eauto
  | _ => idtac
  end.
Ltac by_map := match goal with |- Pad ?f => unfold f end; apply (pad_map (fun fs => _)); read.
#[global] Instance p_kf_component : Pad de_kf_component.
Proof.
  split; auto. intros j j' P. unfold de_kf_component. rewrite (proj1 p_floats _ _ P), (proj1 p_f64 _ _ P). auto.
Qed.
#[global] Instance p_kf_handle : Pad de_kf_handle. Proof. unfold de_kf_handle. apply (pad_struct ["x"; "y"] (fun fs => _)). read. Qed.
Ltac fieldsof := match goal with |- PadF ?g => unfold g end; read.
Ltac struct := match goal with |- Pad ?f => unfold f end;
  match goal with
  | |- Pad (fun j => match as_map j with Some fs => @?g fs | None => None end) => apply (pad_map g); read
  | |- Pad (fun j => match as_struct ?ks j with Some fs => @?g fs | None => None end) => apply (pad_struct ks g); read
  end.
Lemma pad_either {A B C} (f : json -> option A) (g : json -> option B) (a : A -> C) (b : B -> C) : Pad f -> Pad g ->
  Pad (fun j => match f j with Some x => Some (a x) | None => match g j with Some y => Some (b y) | None => None end end).
Proof. intros [F Fn] [G Gn]. split; [|rewrite Fn, Gn; auto]. intros j j' P. rewrite (F _ _ P), (G _ _ P). auto. Qed.
#[global] Instance p_kf_base : PadF de_kf_base. Proof. fieldsof. Qed.
#[global] Instance p_keyframe_fs : PadF de_keyframe_fs. Proof. fieldsof. Qed.
#[global] Instance p_keyframe : Pad de_keyframe. Proof. struct. Qed.
#[global] Instance p_anim_k {T} (f : json -> option T) : Pad f -> Pad (de_anim_k f).
Proof. intros F. apply pad_either; typeclasses eauto. Qed.
#[global] Instance p_anim_prop {T} (f : json -> option T) : Pad f -> PadF (de_anim_prop f). Proof. intros F. unfold de_anim_prop. read. Qed.
#[global] Instance p_float_value : Pad de_float_value. Proof. struct. Qed.
#[global] Instance p_color_value : Pad de_color_value. Proof. struct. Qed.
#[global] Instance p_multi_dim : Pad de_multi_dim. Proof. struct. Qed.
#[global] Instance p_gradient_colors : Pad de_gradient_colors. Proof. struct. Qed.
#[global] Instance p_pos_keyframe : Pad de_pos_keyframe. Proof. struct. Qed.
#[global] Instance p_position_k : Pad de_position_k. Proof. apply pad_either; typeclasses eauto. Qed.
#[global] Instance p_position : Pad de_position. Proof. struct. Qed.
#[global] Instance p_split_vector : Pad de_split_vector. Proof. struct. Qed.
Lemma pad_then {A B} (f : json -> option A) (g : A -> option B) : Pad f -> Pad (fun j => match f j with Some x => g x | None => None end).
Proof. intros [F Fn]. split; [|rewrite Fn; auto]. intros j j' P. rewrite (F _ _ P). auto. Qed.
#[global] Instance p_vertex : Pad de_vertex. Proof. apply pad_then. typeclasses eauto. Qed.
#[global] Instance p_bezier : Pad de_bezier. Proof. struct. Qed.
#[global] Instance p_shape_keyframe : Pad de_shape_keyframe. Proof. struct. Qed.
#[global] Instance p_keyframes : Pad deserialize_keyframes. Proof. apply pad_then. typeclasses eauto. Qed.
#[global] Instance p_shape_k : Pad de_shape_k. Proof. apply pad_either; typeclasses eauto. Qed.
#[global] Instance p_shape_prop : Pad de_shape_prop. Proof. struct. Qed.
#[global] Instance p_visual_object : PadF de_visual_object. Proof. fieldsof. Qed.
#[global] Instance p_slottable : PadF de_slottable. Proof. fieldsof. Qed.
#[global] Instance p_marker : Pad de_marker. Proof. struct. Qed.
#[global] Instance p_any_p : Pad de_any_p. Proof. apply pad_either; typeclasses eauto. Qed.
#[global] Instance p_split_rotation : Pad de_split_rotation. Proof. struct. Qed.
#[global] Instance p_any_r : Pad de_any_r.
Proof.
  split; auto. intros j j' P. unfold de_any_r. rewrite (proj1 p_float_value _ _ P), (proj1 p_split_rotation _ _ P). auto.
Qed.
#[global] Instance p_transform_fs : PadF de_transform_fs. Proof. fieldsof. Qed.
#[global] Instance p_transform : Pad de_transform. Proof. struct. Qed.
#[global] Instance p_mask : Pad de_mask. Proof. struct. Qed.
#[global] Instance p_graphic_element : PadF de_graphic_element. Proof. fieldsof. Qed.
#[global] Instance p_s_shape : PadF de_s_shape. Proof. fieldsof. Qed.
#[global] Instance p_shape_style : PadF de_shape_style. Proof. fieldsof. Qed.
#[global] Instance p_stroke_dash : Pad de_stroke_dash. Proof. struct. Qed.
#[global] Instance p_base_stroke : PadF de_base_stroke. Proof. fieldsof. Qed.
#[global] Instance p_base_gradient : PadF de_base_gradient. Proof. fieldsof. Qed.
#[global] Instance p_transform_shape : PadF de_transform_shape. Proof. fieldsof. Qed.
#[global] Instance p_repeater_transform : Pad de_repeater_transform. Proof. struct. Qed.
Lemma de_shape_pad : forall j, (forall n j', shuffled j j' -> de_shape n j = de_shape n j') /\
  (forall l, j = JArr l -> forall v, shuffled j v -> de_list (de_shape true) j = de_list (de_shape true) v).
Proof.
  induction j using json_ind'; (split; [|try discriminate]); try (intros n0 j' P; inversion P; subst; reflexivity).
  - intros l' [= <-] v P. inversion P as [|a b L|]; subst; auto. cbn [de_list]. clear P. induction L as [|x x' l l' Px _ IH]; auto.
    inversion H; subst. cbn. rewrite (proj1 H2 true x' Px). destruct (de_shape true x'); auto. rewrite IH; auto.
  - intros n j' P. inversion P as [| |a fs1 fs' U M U']; subst; auto. pose proof (shuffled_sees _ _ _ U M U') as S.
    assert (I : req "it" (fun v => de_list (fun j => de_shape true j) v) fs = req "it" (fun v => de_list (fun j => de_shape true j) v) fs').
    { rewrite !req_member. specialize (S "it"). destruct (member "it" fs) as [v|] eqn:Mv, (member "it" fs') as [v'|]; try tauto; auto.
        assert (Hv : forall l, v = JArr l -> forall w, shuffled v w -> de_list (de_shape true) v = de_list (de_shape true) w).
        { clear - H Mv. revert Mv. induction H as [|[k w] r Hw _ IH]; cbn [member]; [discriminate|].
          destruct (String.eqb "it" k); auto. intros [= ->]. cbn in Hw. apply (proj2 Hw). }
        inversion S; subst; auto. eapply Hv; eauto.
}
    cbn [de_shape]. rewrite <- I. clear I P M U U' H.
    assert (R : forall {A} (g : fields -> option A), PadF g -> g fs = g fs') by (intros A g G; auto).
    rewrite <- (R _ (req "ty" (de_tag n)) (req_pad "ty" (de_tag n) _)).
    destruct (req "ty" (de_tag n) fs) as [[]|]; auto;
    try match goal with |- context [req "it" ?f fs] => generalize (req "it" f fs); intros it end;
    match goal with |- ?L = _ => match eval pattern fs in L with ?g _ => apply (R _ g) end end; cbv beta; read.
Qed.
#[global] Instance p_shape n : Pad (de_shape n). Proof. split; auto. intros j j'. apply (proj1 (de_shape_pad j)). Qed.
#[global] Instance p_s_layer b : PadF (de_s_layer b).
Proof.
  unfold de_s_layer. destruct b; read.
Qed.
#[global] Instance p_visual_layer b : PadF (de_visual_layer b). Proof. unfold de_visual_layer. read. Qed.
#[global] Instance p_layer_type : PadF layer_type. Proof. unfold layer_type. apply req_pad. scalar. Qed.
#[global] Instance p_layer : Pad de_layer.
Proof.
  unfold de_layer. apply (pad_map (fun fs => _)). apply (bind_pad layer_type (fun ty fs => _)); [typeclasses eauto|]. intros ty.
  destruct ty as [|[[]|[[]|[]|]|]|]; read.
Qed.
#[global] Instance p_asset : PadF de_asset. Proof. fieldsof. Qed.
#[global] Instance p_file_asset : PadF de_file_asset. Proof. fieldsof. Qed.
#[global] Instance p_sequence : PadF de_sequence.
Proof.
  intros fs fs' S. unfold de_sequence. rewrite (has_pad "t" _ _ S). destruct (has "t" fs'); auto.
  rewrite (req_pad "t" de_string _ _ _ S). auto.
Qed.
#[global] Instance p_any_asset : Pad de_any_asset.
Proof.
  unfold de_any_asset. apply (pad_map (fun fs => _)). intros fs fs' S.
  rewrite (has_pad "layers" _ _ S), (has_pad "w" _ _ S), (has_pad "h" _ _ S).
  assert (R : forall {A} (g : fields -> option A), PadF g -> g fs = g fs') by (intros A g G; auto).
  assert (T : Pad (fun v => match v with JInt 3 => Some tt | _ => None end)) by scalar.
  rewrite (R _ (req "t" (fun v => match v with JInt 3 => Some tt | _ => None end)) (req_pad "t" _ T)).
  destruct (has "layers" fs'); [|destruct (match req _ _ fs' with Some _ => true | None => false end); auto; destruct (_ || _)%bool; auto];
  match goal with |- ?L = _ => match eval pattern fs in L with ?g _ => apply (R _ g) end end; cbv beta; read.
Qed.
#[global] Instance p_meta : Pad shadow_meta.
Proof.
  split; auto. intros j j' P. unfold shadow_meta, de_meta. apply (as_struct_default_pad ["a"; "d"; "tc"; "g"; "k"]) in P.
  destruct (as_struct_default _ j) as [fs|], (as_struct_default _ j') as [fs'|]; cbn in P; try tauto; auto.
  assert (R : forall {A} (g : fields -> option A), PadF g -> g fs = g fs') by (intros A g G; auto).
  rewrite (R _ (opt "a" de_string) (opt_pad "a" _ _)), (R _ (opt "d" de_string) (opt_pad "d" _ _)),
    (R _ (opt "tc" de_string) (opt_pad "tc" _ _)), (R _ (opt "g" de_string) (opt_pad "g" _ _)).
  destruct (opt "a" _ fs'); auto. destruct (opt "d" _ fs'); auto. destruct (opt "tc" _ fs'); auto. destruct (opt "g" _ fs'); auto.
  destruct (opt_value fs "k") as [? ->], (opt_value fs' "k") as [? ->]. auto.
Qed.
#[global] Instance p_read_animation : PadF read_animation. Proof. fieldsof. Qed.
Lemma animation_pad j j' : shuffled j j' -> option_map forget_meta (de_animation j) = option_map forget_meta (de_animation j').
Proof.
  intros P. rewrite !read_animation_eq. apply as_map_pad in P. destruct (as_map j), (as_map j'); cbn in P; try tauto; auto.
  now apply p_read_animation.
Qed.
