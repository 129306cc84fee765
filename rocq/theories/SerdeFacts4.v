(** Padding a document with unknown or [null] members *)
From Coq Require Import ZArith Bool List String Lia.
From Flocq Require Import Core BinarySingleNaN.
From Verif Require Import F64 Schema Serde SerdeSpec SerdeFacts.
Import ListNotations.
Local Open Scope string_scope.
Local Open Scope list_scope.

Definition knownb (k : string) : bool := existsb (String.eqb k) known_members.
Definition presentb (k : string) : bool := existsb (String.eqb k) presence_members.
Lemma existsb_In k l : existsb (String.eqb k) l = true <-> In k l.
Proof.
  rewrite existsb_exists. split; [intros (x & I & E); apply String.eqb_eq in E; subst; auto|].
  intros I. exists k. split; auto. apply String.eqb_refl.
Qed.

Local Notation padded := (SerdeSpec.padded harmless_member).
Local Notation padded_list := (SerdeSpec.padded_list harmless_member).
Local Notation padded_members := (SerdeSpec.padded_members harmless_member).
Scheme padded_mind := Minimality for SerdeSpec.padded Sort Prop
  with padded_list_mind := Minimality for SerdeSpec.padded_list Sort Prop
  with padded_members_mind := Minimality for SerdeSpec.padded_members Sort Prop.
Lemma padded_weaken (e e' : string -> json -> list (string * json) -> Prop) : (forall k v fs, e k v fs -> e' k v fs) ->
  forall j j', SerdeSpec.padded e j j' -> SerdeSpec.padded e' j j'.
Proof.
  intros W. apply (padded_mind e (SerdeSpec.padded e') (SerdeSpec.padded_list e') (SerdeSpec.padded_members e')); intros; constructor; auto.
Qed.

(** what a reader of known members can see *)
Definition sees (fs fs' : fields) : Prop :=
  forall k, knownb k = true ->
  match member k fs, member k fs' with
  | None, None => True
  | Some v, Some v' => padded v v'
  | None, Some v' => v' = JNull /\ presentb k = false
  | Some _, None => False
  end.
Lemma padded_members_sees fs fs' : padded_members fs fs' -> sees fs fs'.
Proof.
  induction 1 as [|k v v' fs fs' P _ IH|k v fs fs' [N|(-> & N & M)] _ IH]; intros q K; cbn [member]; auto.
  - destruct (String.eqb q k); auto. exact (IH q K).
  - destruct (String.eqb q k) eqn:E; [|exact (IH q K)]. apply String.eqb_eq in E. subst. apply existsb_In in K. contradiction.
  - destruct (String.eqb q k) eqn:E; [|exact (IH q K)]. apply String.eqb_eq in E. subst. rewrite M. split; auto.
    destruct (presentb k) eqn:B; auto. apply existsb_In in B. contradiction.
Qed.
Lemma sees_refl fs : sees fs fs.
Proof. intros k _. destruct (member k fs); auto. constructor. Qed.

Class Pad {A} (f : json -> option A) : Prop := pad : (forall j j', padded j j' -> f j = f j') /\ f JNull = None.
Class PadF {A} (g : fields -> option A) : Prop := padf : forall fs fs', sees fs fs' -> g fs = g fs'.

#[global] Instance req_pad {A} k (f : json -> option A) : Pad f -> forall (K : knownb k = true), PadF (req k f).
Proof.
  intros [P N] K fs fs' S. specialize (S k K). rewrite !req_member.
  destruct (member k fs), (member k fs'); try tauto; auto. destruct S as [-> _]. auto.
Qed.
Lemma padded_null v : padded JNull v -> v = JNull. Proof. inversion 1; auto. Qed.
Lemma padded_to_null v : padded v JNull -> v = JNull. Proof. inversion 1; auto. Qed.
#[global] Instance opt_pad {A} k (f : json -> option A) : Pad f -> forall (K : knownb k = true), PadF (opt k f).
Proof.
  intros [P N] K fs fs' S. specialize (S k K). rewrite !opt_member.
  destruct (member k fs) as [v|], (member k fs') as [v'|]; try tauto; auto.
  - destruct v; try (apply padded_null in S; subst; reflexivity);
      (destruct v'; try (apply padded_to_null in S; discriminate); rewrite (P _ _ S); reflexivity).
  - destruct S as [-> _]. auto.
Qed.
Lemma has_pad k : knownb k = true -> presentb k = true -> forall fs fs', sees fs fs' -> has k fs = has k fs'.
Proof.
  intros K B fs fs' S. specialize (S k K). rewrite !has_member. rewrite B in S.
  destruct (member k fs), (member k fs'); try tauto; auto. destruct S; discriminate.
Qed.

(** a reader of scalars: arrays and objects are errors *)
Lemma pad_scalar {A} (f : json -> option A) : (forall l, f (JArr l) = None) -> (forall fs, f (JObj fs) = None) ->
  f JNull = None -> Pad f.
Proof. intros Ha Ho N. split; auto. intros j j' P. inversion P; subst; auto; rewrite ?Ha, ?Ho; auto. Qed.
Ltac scalar := apply pad_scalar; intros; reflexivity.
#[global] Instance p_f64 : Pad de_f64. Proof. scalar. Qed.
#[global] Instance p_uint m : Pad (de_uint m). Proof. scalar. Qed.
#[global] Instance p_usize : Pad de_usize. Proof. scalar. Qed.
#[global] Instance p_u8 : Pad de_u8. Proof. scalar. Qed.
#[global] Instance p_u32 : Pad de_u32. Proof. scalar. Qed.
#[global] Instance p_string : Pad de_string. Proof. scalar. Qed.
#[global] Instance p_bool : Pad de_bool. Proof. scalar. Qed.
#[global] Instance p_bool_int : Pad de_bool_int. Proof. scalar. Qed.
#[global] Instance p_blend : Pad de_blend. Proof. scalar. Qed.
#[global] Instance p_matte_mode : Pad de_matte_mode. Proof. scalar. Qed.
#[global] Instance p_line_cap : Pad de_line_cap. Proof. scalar. Qed.
#[global] Instance p_line_join : Pad de_line_join. Proof. scalar. Qed.
#[global] Instance p_fill_rule : Pad de_fill_rule. Proof. scalar. Qed.
#[global] Instance p_gradient_type : Pad de_gradient_type. Proof. scalar. Qed.
#[global] Instance p_star_type : Pad de_star_type. Proof. scalar. Qed.
#[global] Instance p_shape_direction : Pad de_shape_direction. Proof. scalar. Qed.
#[global] Instance p_merge_mode : Pad de_merge_mode. Proof. scalar. Qed.
#[global] Instance p_composite : Pad de_composite. Proof. scalar. Qed.
#[global] Instance p_trim_multiple : Pad de_trim_multiple. Proof. scalar. Qed.
#[global] Instance p_tag b : Pad (de_tag b). Proof. scalar. Qed.

Lemma variant_not {A} (g : string -> option A) b fs : (forall s x, g s = Some x -> In s (map fst mask_names) \/ In s (map fst dash_names)) ->
  ~ unit_variant fs -> match variant_name b (JObj fs) with Some s => g s | None => None end = None.
Proof.
  intros G N. destruct fs as [|[k v] [|]]; auto.
  - assert (V : forall w, v = w -> (w = JNull \/ w = JObj []) -> g k = None).
    { intros w -> W. destruct (g k) eqn:E; auto. destruct N. exists k, w. eauto using G. }
    destruct v as [| | | | | |[|]]; auto; cbn.
    + eapply V; eauto.
    + destruct b; auto. eapply V; eauto.
  - destruct v as [| | | | | |[|]]; auto.
Qed.
Lemma pad_variant {A} (g : string -> option A) b : (forall s x, g s = Some x -> In s (map fst mask_names) \/ In s (map fst dash_names)) ->
  Pad (fun j => match variant_name b j with Some s => g s | None => None end).
Proof.
  intros G. split; auto. intros j j' P. inversion P; subst; auto. rewrite !variant_not; auto.
Qed.
Ltac which := intros s x; repeat match goal with |- (if String.eqb ?a ?b then _ else _) = _ -> _ =>
  destruct (String.eqb a b) eqn:?; [match goal with E : String.eqb a b = true |- _ => apply String.eqb_eq in E; subst; cbn; tauto end|] end;
  discriminate.
#[global] Instance p_mask_mode : Pad de_mask_mode. Proof. apply pad_variant. which. Qed.
#[global] Instance p_dash_type : Pad de_dash_type. Proof. apply pad_variant. which. Qed.

Lemma padded_list_len l l' : padded_list l l' -> List.length l = List.length l'.
Proof. induction 1; cbn; auto. Qed.
Lemma mapO_pad {A} (f : json -> option A) l l' : (forall j j', padded j j' -> f j = f j') -> padded_list l l' -> mapO f l = mapO f l'.
Proof. intros P. induction 1 as [|v v' l l' V _ IH]; cbn; auto. rewrite (P _ _ V). destruct (f v'); auto. rewrite IH. auto. Qed.
#[global] Instance p_list {A} (f : json -> option A) : Pad f -> Pad (de_list f).
Proof.
  intros [P N]. split; auto. intros j j' H. inversion H; subst; auto. cbn [de_list]. apply mapO_pad; auto.
Qed.
#[global] Instance p_floats : Pad de_floats. Proof. unfold de_floats. typeclasses eauto. Qed.

(** structs *)
Lemma combine_pad keys l l' : padded_list l l' -> padded_members (combine keys l) (combine keys l').
Proof. intros L. revert keys. induction L; intros [|k keys]; cbn; constructor; auto. Qed.
Definition sees_opt (a b : option fields) : Prop :=
  match a, b with Some x, Some y => sees x y | None, None => True | _, _ => False end.
Lemma as_map_pad j j' : padded j j' -> sees_opt (as_map j) (as_map j').
Proof. intros P. inversion P; subst; cbn; auto. - destruct (as_map j'); cbn; auto using sees_refl. - now apply padded_members_sees. Qed.
Lemma as_struct_pad keys j j' : padded j j' -> sees_opt (as_struct keys j) (as_struct keys j').
Proof.
  intros P. inversion P as [|l l' L|]; subst; cbn.
  - destruct (as_struct keys j'); cbn; auto using sees_refl.
  - rewrite (padded_list_len _ _ L). destruct (_ =? _)%nat; cbn; auto using padded_members_sees, combine_pad.
  - now apply padded_members_sees.
Qed.
Lemma as_struct_default_pad keys j j' : padded j j' -> sees_opt (as_struct_default keys j) (as_struct_default keys j').
Proof.
  intros P. inversion P as [|l l' L|]; subst; cbn.
  - destruct (as_struct_default keys j'); cbn; auto using sees_refl.
  - rewrite (padded_list_len _ _ L). destruct (_ <=? _)%nat; cbn; auto using padded_members_sees, combine_pad.
  - now apply padded_members_sees.
Qed.
Lemma pad_map {A} (g : fields -> option A) : PadF g -> Pad (fun j => match as_map j with Some fs => g fs | None => None end).
Proof.
  intros G. split; auto. intros j j' P. apply as_map_pad in P. destruct (as_map j), (as_map j'); cbn in P; try tauto; auto.
Qed.
Lemma pad_struct {A} keys (g : fields -> option A) : PadF g -> Pad (fun j => match as_struct keys j with Some fs => g fs | None => None end).
Proof.
  intros G. split; auto. intros j j' P. apply (as_struct_pad keys) in P. destruct (as_struct keys j), (as_struct keys j'); cbn in P; try tauto; auto.
Qed.
#[global] Instance bind_pad {A B} (g : fields -> option A) (k : A -> fields -> option B) :
  PadF g -> (forall x, PadF (k x)) -> PadF (fun fs => match g fs with Some x => k x fs | None => None end).
Proof. intros G K fs fs' S. rewrite (G _ _ S). destruct (g fs'); auto. apply K. auto. Qed.
#[global] Instance const_pad {A} (x : option A) : PadF (fun _ => x). Proof. intros fs fs' _. reflexivity. Qed.
Ltac read := match goal with
  | |- PadF (fun fs => match @?g fs with Some x => @?k x fs | None => None end) => apply (bind_pad g (fun x fs => k x fs)); [|intros ?; read]
  | |- PadF (fun fs => Some _) => apply const_pad
  | |- PadF _ => idtac
  end;
  match goal with
  | |- PadF (fun _ => ?x) => apply const_pad
  | |- PadF (fun fs => req ?k ?f fs) => apply (req_pad k f); [typeclasses eauto|reflexivity]
  | |- PadF (fun fs => opt ?k ?f fs) => apply (opt_pad k f); [typeclasses eauto|reflexivity]
  | |- PadF (fun fs => ?g fs) => change (PadF g); typeclasses eauto
  | _ => idtac
  end.
Ltac by_map := match goal with |- Pad ?f => unfold f end; apply (pad_map (fun fs => _)); read.
#[global] Instance p_kf_component : Pad de_kf_component.
Proof.
  split; auto. intros j j' P. unfold de_kf_component. rewrite (proj1 p_floats _ _ P), (proj1 p_f64 _ _ P). auto.
Qed.
#[global] Instance p_kf_handle : Pad de_kf_handle. Proof. unfold de_kf_handle. apply (pad_struct ["x"; "y"] (fun fs => _)). read. Qed.
Ltac fieldsof := match goal with |- PadF ?g => unfold g end; read.
Ltac struct := match goal with |- Pad ?f => unfold f end;
  match goal with
  | |- Pad (fun j => match as_map j with Some fs => @?g fs | None => None end) => apply (pad_map g); read
  | |- Pad (fun j => match as_struct ?ks j with Some fs => @?g fs | None => None end) => apply (pad_struct ks g); read
  end.
Lemma pad_either {A B C} (f : json -> option A) (g : json -> option B) (a : A -> C) (b : B -> C) : Pad f -> Pad g ->
  Pad (fun j => match f j with Some x => Some (a x) | None => match g j with Some y => Some (b y) | None => None end end).
Proof. intros [F Fn] [G Gn]. split; [|rewrite Fn, Gn; auto]. intros j j' P. rewrite (F _ _ P), (G _ _ P). auto. Qed.
#[global] Instance p_kf_base : PadF de_kf_base. Proof. fieldsof. Qed.
#[global] Instance p_keyframe_fs : PadF de_keyframe_fs. Proof. fieldsof. Qed.
#[global] Instance p_keyframe : Pad de_keyframe. Proof. struct. Qed.
#[global] Instance p_anim_k {T} (f : json -> option T) : Pad f -> Pad (de_anim_k f).
Proof. intros F. apply pad_either; typeclasses eauto. Qed.
#[global] Instance p_anim_prop {T} (f : json -> option T) : Pad f -> PadF (de_anim_prop f). Proof. intros F. unfold de_anim_prop. read. Qed.
#[global] Instance p_float_value : Pad de_float_value. Proof. struct. Qed.
#[global] Instance p_color_value : Pad de_color_value. Proof. struct. Qed.
#[global] Instance p_multi_dim : Pad de_multi_dim. Proof. struct. Qed.
#[global] Instance p_gradient_colors : Pad de_gradient_colors. Proof. struct. Qed.
#[global] Instance p_pos_keyframe : Pad de_pos_keyframe. Proof. struct. Qed.
#[global] Instance p_position_k : Pad de_position_k. Proof. apply pad_either; typeclasses eauto. Qed.
#[global] Instance p_position : Pad de_position. Proof. struct. Qed.
#[global] Instance p_split_vector : Pad de_split_vector. Proof. struct. Qed.
Lemma pad_then {A B} (f : json -> option A) (g : A -> option B) : Pad f -> Pad (fun j => match f j with Some x => g x | None => None end).
Proof. intros [F Fn]. split; [|rewrite Fn; auto]. intros j j' P. rewrite (F _ _ P). auto. Qed.
#[global] Instance p_vertex : Pad de_vertex. Proof. apply pad_then. typeclasses eauto. Qed.
#[global] Instance p_bezier : Pad de_bezier. Proof. struct. Qed.
#[global] Instance p_shape_keyframe : Pad de_shape_keyframe. Proof. struct. Qed.
#[global] Instance p_keyframes : Pad deserialize_keyframes. Proof. apply pad_then. typeclasses eauto. Qed.
#[global] Instance p_shape_k : Pad de_shape_k. Proof. apply pad_either; typeclasses eauto. Qed.
#[global] Instance p_shape_prop : Pad de_shape_prop. Proof. struct. Qed.
#[global] Instance p_visual_object : PadF de_visual_object. Proof. fieldsof. Qed.
#[global] Instance p_slottable : PadF de_slottable. Proof. fieldsof. Qed.
#[global] Instance p_marker : Pad de_marker. Proof. struct. Qed.
#[global] Instance p_any_p : Pad de_any_p. Proof. apply pad_either; typeclasses eauto. Qed.
#[global] Instance p_split_rotation : Pad de_split_rotation. Proof. struct. Qed.
#[global] Instance p_any_r : Pad de_any_r.
Proof.
  split; auto. intros j j' P. unfold de_any_r. rewrite (proj1 p_float_value _ _ P), (proj1 p_split_rotation _ _ P). auto.
Qed.
#[global] Instance p_transform_fs : PadF de_transform_fs. Proof. fieldsof. Qed.
#[global] Instance p_transform : Pad de_transform. Proof. struct. Qed.
#[global] Instance p_mask : Pad de_mask. Proof. struct. Qed.
#[global] Instance p_graphic_element : PadF de_graphic_element. Proof. fieldsof. Qed.
#[global] Instance p_s_shape : PadF de_s_shape. Proof. fieldsof. Qed.
#[global] Instance p_shape_style : PadF de_shape_style. Proof. fieldsof. Qed.
#[global] Instance p_stroke_dash : Pad de_stroke_dash. Proof. struct. Qed.
#[global] Instance p_base_stroke : PadF de_base_stroke. Proof. fieldsof. Qed.
#[global] Instance p_base_gradient : PadF de_base_gradient. Proof. fieldsof. Qed.
#[global] Instance p_transform_shape : PadF de_transform_shape. Proof. fieldsof. Qed.
#[global] Instance p_repeater_transform : Pad de_repeater_transform. Proof. struct. Qed.
Lemma de_shape_pad : forall j, (forall n j', padded j j' -> de_shape n j = de_shape n j') /\
  (forall l, j = JArr l -> forall v, padded j v -> de_list (de_shape true) j = de_list (de_shape true) v).
Proof.
  induction j using json_ind'; (split; [|try discriminate]); try (intros n0 j' P; inversion P; subst; reflexivity).
  - intros l' [= <-] v P. inversion P as [|a b L|]; subst; auto. cbn [de_list]. clear P. induction L as [|x x' l l' Px _ IH]; auto.
    inversion H; subst. cbn. rewrite (proj1 H2 true x' Px). destruct (de_shape true x'); auto. rewrite IH; auto.
  - intros n j' P. inversion P as [| |a fs' U U' M]; subst; auto. pose proof (padded_members_sees _ _ M) as S.
    assert (I : req "it" (fun v => de_list (fun j => de_shape true j) v) fs = req "it" (fun v => de_list (fun j => de_shape true j) v) fs').
    { rewrite !req_member. specialize (S "it" eq_refl). destruct (member "it" fs) as [v|] eqn:Mv, (member "it" fs') as [v'|]; try tauto; auto.
      - assert (Hv : forall l, v = JArr l -> forall w, padded v w -> de_list (de_shape true) v = de_list (de_shape true) w).
        { clear - H Mv. revert Mv. induction H as [|[k w] r Hw _ IH]; cbn [member]; [discriminate|].
          destruct (String.eqb "it" k); auto. intros [= ->]. cbn in Hw. apply (proj2 Hw). }
        inversion S; subst; auto. eapply Hv; eauto.
      - destruct S as [-> _]. auto. }
    cbn [de_shape]. rewrite <- I. clear I P M U U' H.
    assert (R : forall {A} (g : fields -> option A), PadF g -> g fs = g fs') by (intros A g G; auto).
    rewrite <- (R _ (req "ty" (de_tag n)) (req_pad "ty" (de_tag n) _ eq_refl)).
    destruct (req "ty" (de_tag n) fs) as [[]|]; auto;
    try match goal with |- context [req "it" ?f fs] => generalize (req "it" f fs); intros it end;
    match goal with |- ?L = _ => match eval pattern fs in L with ?g _ => apply (R _ g) end end; cbv beta; read.
Qed.
#[global] Instance p_shape n : Pad (de_shape n). Proof. split; auto. intros j j'. apply (proj1 (de_shape_pad j)). Qed.
#[global] Instance p_s_layer b : PadF (de_s_layer b).
Proof.
  unfold de_s_layer. destruct b; read.
Qed.
#[global] Instance p_visual_layer b : PadF (de_visual_layer b). Proof. unfold de_visual_layer. read. Qed.
#[global] Instance p_layer_type : PadF layer_type. Proof. unfold layer_type. apply req_pad; [|reflexivity]. scalar. Qed.
#[global] Instance p_layer : Pad de_layer.
Proof.
  unfold de_layer. apply (pad_map (fun fs => _)). apply (bind_pad layer_type (fun ty fs => _)); [typeclasses eauto|]. intros ty.
  destruct ty as [|[[]|[[]|[]|]|]|]; read.
Qed.
#[global] Instance p_asset : PadF de_asset. Proof. fieldsof. Qed.
#[global] Instance p_file_asset : PadF de_file_asset. Proof. fieldsof. Qed.
#[global] Instance p_sequence : PadF de_sequence.
Proof.
  intros fs fs' S. unfold de_sequence. rewrite (has_pad "t" eq_refl eq_refl _ _ S). destruct (has "t" fs'); auto.
  rewrite (req_pad "t" de_string _ eq_refl _ _ S). auto.
Qed.
#[global] Instance p_any_asset : Pad de_any_asset.
Proof.
  unfold de_any_asset. apply (pad_map (fun fs => _)). intros fs fs' S.
  rewrite (has_pad "layers" eq_refl eq_refl _ _ S), (has_pad "w" eq_refl eq_refl _ _ S), (has_pad "h" eq_refl eq_refl _ _ S).
  assert (R : forall {A} (g : fields -> option A), PadF g -> g fs = g fs') by (intros A g G; auto).
  assert (T : Pad (fun v => match v with JInt 3 => Some tt | _ => None end)) by scalar.
  rewrite (R _ (req "t" (fun v => match v with JInt 3 => Some tt | _ => None end)) (req_pad "t" _ T eq_refl)).
  destruct (has "layers" fs'); [|destruct (match req _ _ fs' with Some _ => true | None => false end); auto; destruct (_ || _)%bool; auto];
  match goal with |- ?L = _ => match eval pattern fs in L with ?g _ => apply (R _ g) end end; cbv beta; read.
Qed.
(** the document, without what is kept verbatim *)
Definition forget_meta (a : animation) : animation :=
  mkAnimation (ani_vo a) (ani_layers a) (ani_v a) (ani_ver a) (ani_fr a) (ani_ip a) (ani_op a) (ani_w a) (ani_h a)
    (ani_ddd a) (ani_assets a) (ani_markers a) None None.
Lemma opt_value fs k : exists o, opt k de_value fs = Some o.
Proof. rewrite opt_member. destruct (member k fs) as [[]|]; cbn; eauto. Qed.
Definition shadow_meta (j : json) : option unit := match de_meta j with Some _ => Some tt | None => None end.
#[global] Instance p_meta : Pad shadow_meta.
Proof.
  split; auto. intros j j' P. unfold shadow_meta, de_meta. apply (as_struct_default_pad ["a"; "d"; "tc"; "g"; "k"]) in P.
  destruct (as_struct_default _ j) as [fs|], (as_struct_default _ j') as [fs'|]; cbn in P; try tauto; auto.
  assert (R : forall {A} (g : fields -> option A), PadF g -> g fs = g fs') by (intros A g G; auto).
  rewrite (R _ (opt "a" de_string) (opt_pad "a" _ _ eq_refl)), (R _ (opt "d" de_string) (opt_pad "d" _ _ eq_refl)),
    (R _ (opt "tc" de_string) (opt_pad "tc" _ _ eq_refl)), (R _ (opt "g" de_string) (opt_pad "g" _ _ eq_refl)).
  destruct (opt "a" _ fs'); auto. destruct (opt "d" _ fs'); auto. destruct (opt "tc" _ fs'); auto. destruct (opt "g" _ fs'); auto.
  destruct (opt_value fs "k") as [? ->], (opt_value fs' "k") as [? ->]. auto.
Qed.
Definition read_animation (fs : fields) : option animation :=
  let? vo := de_visual_object fs in
  let? layers := req "layers" (de_list de_layer) fs in
  let? v := opt "v" de_string fs in
  let? ver := opt "ver" de_u32 fs in
  let? fr := req "fr" de_f64 fs in
  let? ip := req "ip" de_f64 fs in
  let? op := req "op" de_f64 fs in
  let? w := req "w" (de_uint usize_max) fs in
  let? h := req "h" (de_uint usize_max) fs in
  let? ddd := opt "ddd" de_bool_int fs in
  let? assets := opt "assets" (de_list de_any_asset) fs in
  let? markers := opt "markers" (de_list de_marker) fs in
  let? me := opt "meta" shadow_meta fs in
  Some (mkAnimation vo layers v ver fr ip op w h ddd assets markers None None).
#[global] Instance p_read_animation : PadF read_animation. Proof. fieldsof. Qed.
Lemma read_animation_eq j : option_map forget_meta (de_animation j) = match as_map j with Some fs => read_animation fs | None => None end.
Proof.
  unfold de_animation, read_animation. destruct (as_map j) as [fs|]; auto.
  repeat match goal with |- option_map _ (match ?e with Some _ => _ | None => None end) = match ?e with Some _ => _ | None => None end =>
    destruct e; auto end.
  destruct (opt_value fs "metadata") as [? ->].
  rewrite !opt_member. destruct (member "meta" fs) as [mv|]; auto. unfold shadow_meta. destruct mv; auto;
  match goal with |- context [de_meta ?v] => destruct (de_meta v); auto end.
Qed.
Lemma animation_pad j j' : padded j j' -> option_map forget_meta (de_animation j) = option_map forget_meta (de_animation j').
Proof.
  intros P. rewrite !read_animation_eq. apply as_map_pad in P. destruct (as_map j), (as_map j'); cbn in P; try tauto; auto.
  now apply p_read_animation.
Qed.
