(** C59: where a [null] member is the same as none, without excluding names. *)
From Coq Require Import ZArith Bool List String Lia.
From Flocq Require Import Core BinarySingleNaN.
From Verif Require Import F64 Kurbo Value Animated Schema Import Serde SerdeSpec SerdeFacts PropSerde.
Import ListNotations.
Local Open Scope string_scope.
Local Open Scope list_scope.

(** ** Specification *)
(** A [null] under a name the object does not have. *)
Definition any_null (k : string) (v : json) (fs : list (string * json)) : Prop := v = JNull /\ member k fs = None.
(** Members added to one object only: by [extra], the values by [inner]. *)
Inductive widened (extra : string -> json -> list (string * json) -> Prop) (inner : string -> json -> json -> Prop)
  : list (string * json) -> list (string * json) -> Prop :=
| wid_nil : widened extra inner [] []
| wid_keep k v v' fs fs' : inner k v v' -> widened extra inner fs fs' -> widened extra inner ((k, v) :: fs) ((k, v') :: fs')
| wid_add k v fs fs' : extra k v fs -> widened extra inner fs fs' -> widened extra inner fs ((k, v) :: fs').
(** An asset gets no [null] named "layers", "w", "h" or "t" itself; the objects inside may get any. *)
Definition asset_nulls (j j' : json) : Prop :=
  j = j' \/ exists fs fs', j = JObj fs /\ j' = JObj fs' /\ widened null_member (fun _ => padded any_null) fs fs'.
(** A document gets any [null]s anywhere else. *)
Definition entry_nulls (k : string) (v v' : json) : Prop :=
  if String.eqb k "assets" then v = v' \/ exists l l', v = JArr l /\ v' = JArr l' /\ Forall2 asset_nulls l l'
  else padded any_null v v'.
Definition document_nulls (j j' : json) : Prop :=
  exists fs fs', j = JObj fs /\ j' = JObj fs' /\ widened any_null entry_nulls fs fs'.

(** ** Readers *)
Local Notation padded := (SerdeSpec.padded any_null).
Local Notation padded_list := (SerdeSpec.padded_list any_null).
Local Notation padded_members := (SerdeSpec.padded_members any_null).
(** what a reader of members can see *)
Definition sees (fs fs' : fields) : Prop :=
  forall k,
  match member k fs, member k fs' with
  | None, None => True
  | Some v, Some v' => padded v v'
  | None, Some v' => v' = JNull
  | Some _, None => False
  end.
Lemma padded_members_sees fs fs' : padded_members fs fs' -> sees fs fs'.
Proof.
  induction 1 as [|k v v' fs fs' P _ IH|k v fs fs' (-> & M) _ IH]; intros q; cbn [member]; auto.
  - destruct (String.eqb q k); auto. exact (IH q).
  - destruct (String.eqb q k) eqn:E; [|exact (IH q)]. apply String.eqb_eq in E. subst. now rewrite M.
Qed.
Lemma sees_refl fs : sees fs fs.
Proof. intros k. destruct (member k fs); auto. constructor. Qed.

Class Pad {A} (f : json -> option A) : Prop := pad : (forall j j', padded j j' -> f j = f j') /\ f JNull = None.
Class PadF {A} (g : fields -> option A) : Prop := padf : forall fs fs', sees fs fs' -> g fs = g fs'.

#[global] Instance req_pad {A} k (f : json -> option A) : Pad f -> PadF (req k f).
Proof.
  intros [P N] fs fs' S. specialize (S k). rewrite !req_member.
  destruct (member k fs), (member k fs'); try tauto; auto. rewrite S. auto.
Qed.
Lemma padded_null v : padded JNull v -> v = JNull. Proof. inversion 1; auto. Qed.
Lemma padded_to_null v : padded v JNull -> v = JNull. Proof. inversion 1; auto. Qed.
#[global] Instance opt_pad {A} k (f : json -> option A) : Pad f -> PadF (opt k f).
Proof.
  intros [P N] fs fs' S. specialize (S k). rewrite !opt_member.
  destruct (member k fs) as [v|], (member k fs') as [v'|]; try tauto; auto.
  - destruct v; try (apply padded_null in S; subst; reflexivity);
      (destruct v'; try (apply padded_to_null in S; discriminate); rewrite (P _ _ S); reflexivity).
  - rewrite S. auto.
Qed.
(** a reader of scalars: arrays and objects are errors *)
Lemma pad_scalar {A} (f : json -> option A) : (forall l, f (JArr l) = None) -> (forall fs, f (JObj fs) = None) ->
  f JNull = None -> Pad f.
Proof. intros Ha Ho N. split; auto. intros j j' P. inversion P; subst; auto; rewrite ?Ha, ?Ho; auto. Qed.
Ltac scalar := apply pad_scalar; intros; reflexivity.
#[global] Instance p_f64 : Pad de_f64. Proof. scalar. Qed.
#[global] Instance p_uint m : Pad (de_uint m). Proof. scalar. Qed.
#[global] Instance p_usize : Pad de_usize. Proof. scalar. Qed.
#[global] Instance p_u8 : Pad de_u8. Proof. scalar. Qed.
#[global] Instance p_u32 : Pad de_u32. Proof. scalar. Qed.
#[global] Instance p_string : Pad de_string. Proof. scalar. Qed.
#[global] Instance p_bool : Pad de_bool. Proof. scalar. Qed.
#[global] Instance p_bool_int : Pad de_bool_int. Proof. scalar. Qed.
#[global] Instance p_blend : Pad de_blend. Proof. scalar. Qed.
#[global] Instance p_matte_mode : Pad de_matte_mode. Proof. scalar. Qed.
#[global] Instance p_line_cap : Pad de_line_cap. Proof. scalar. Qed.
#[global] Instance p_line_join : Pad de_line_join. Proof. scalar. Qed.
#[global] Instance p_fill_rule : Pad de_fill_rule. Proof. scalar. Qed.
#[global] Instance p_gradient_type : Pad de_gradient_type. Proof. scalar. Qed.
#[global] Instance p_star_type : Pad de_star_type. Proof. scalar. Qed.
#[global] Instance p_shape_direction : Pad de_shape_direction. Proof. scalar. Qed.
#[global] Instance p_merge_mode : Pad de_merge_mode. Proof. scalar. Qed.
#[global] Instance p_composite : Pad de_composite. Proof. scalar. Qed.
#[global] Instance p_trim_multiple : Pad de_trim_multiple. Proof. scalar. Qed.
#[global] Instance p_tag b : Pad (de_tag b). Proof. scalar. Qed.

Lemma variant_not {A} (g : string -> option A) b fs : (forall s x, g s = Some x -> In s (map fst mask_names) \/ In s (map fst dash_names)) ->
  ~ unit_variant fs -> match variant_name b (JObj fs) with Some s => g s | None => None end = None.
Proof.
  intros G N. destruct fs as [|[k v] [|]]; auto.
  - assert (V : forall w, v = w -> (w = JNull \/ w = JObj []) -> g k = None).
    { intros w -> W. destruct (g k) eqn:E; auto. destruct N. exists k, w. eauto using G. }
    destruct v as [| | | | | |[|]]; auto; cbn.
    + eapply V; eauto.
    + destruct b; auto. eapply V; eauto.
  - destruct v as [| | | | | |[|]]; auto.
Qed.
Lemma pad_variant {A} (g : string -> option A) b : (forall s x, g s = Some x -> In s (map fst mask_names) \/ In s (map fst dash_names)) ->
  Pad (fun j => match variant_name b j with Some s => g s | None => None end).
Proof.
  intros G. split; auto. intros j j' P. inversion P; subst; auto. rewrite !variant_not; auto.
Qed.
Ltac which := intros s x; repeat match goal with |- (if String.eqb ?a ?b then _ else _) = _ -> _ =>
  destruct (String.eqb a b) eqn:?; [match goal with E : String.eqb a b = true |- _ => apply String.eqb_eq in E; subst; cbn; tauto end|] end;
  discriminate.
#[global] Instance p_mask_mode : Pad de_mask_mode. Proof. apply pad_variant. which. Qed.
#[global] Instance p_dash_type : Pad de_dash_type. Proof. apply pad_variant. which. Qed.

Lemma padded_list_len l l' : padded_list l l' -> List.length l = List.length l'.
Proof. induction 1; cbn; auto. Qed.
Lemma mapO_pad {A} (f : json -> option A) l l' : (forall j j', padded j j' -> f j = f j') -> padded_list l l' -> mapO f l = mapO f l'.
Proof. intros P. induction 1 as [|v v' l l' V _ IH]; cbn; auto. rewrite (P _ _ V). destruct (f v'); auto. rewrite IH. auto. Qed.
#[global] Instance p_list {A} (f : json -> option A) : Pad f -> Pad (de_list f).
Proof.
  intros [P N]. split; auto. intros j j' H. inversion H; subst; auto. cbn [de_list]. apply mapO_pad; auto.
Qed.
#[global] Instance p_floats : Pad de_floats. Proof. unfold de_floats. typeclasses eauto. Qed.

(** structs *)
Lemma combine_pad keys l l' : padded_list l l' -> padded_members (combine keys l) (combine keys l').
Proof. intros L. revert keys. induction L; intros [|k keys]; cbn; constructor; auto. Qed.
Definition sees_opt (a b : option fields) : Prop :=
  match a, b with Some x, Some y => sees x y | None, None => True | _, _ => False end.
Lemma as_map_pad j j' : padded j j' -> sees_opt (as_map j) (as_map j').
Proof. intros P. inversion P; subst; cbn; auto. - destruct (as_map j'); cbn; auto using sees_refl. - now apply padded_members_sees. Qed.
Lemma as_struct_pad keys j j' : padded j j' -> sees_opt (as_struct keys j) (as_struct keys j').
Proof.
  intros P. inversion P as [|l l' L|]; subst; cbn.
  - destruct (as_struct keys j'); cbn; auto using sees_refl.
  - rewrite (padded_list_len _ _ L). destruct (_ =? _)%nat; cbn; auto using padded_members_sees, combine_pad.
  - now apply padded_members_sees.
Qed.
Lemma as_struct_default_pad keys j j' : padded j j' -> sees_opt (as_struct_default keys j) (as_struct_default keys j').
Proof.
  intros P. inversion P as [|l l' L|]; subst; cbn.
  - destruct (as_struct_default keys j'); cbn; auto using sees_refl.
  - rewrite (padded_list_len _ _ L). destruct (_ <=? _)%nat; cbn; auto using padded_members_sees, combine_pad.
  - now apply padded_members_sees.
Qed.
Lemma pad_map {A} (g : fields -> option A) : PadF g -> Pad (fun j => match as_map j with Some fs => g fs | None => None end).
Proof.
  intros G. split; auto. intros j j' P. apply as_map_pad in P. destruct (as_map j), (as_map j'); cbn in P; try tauto; auto.
Qed.
Lemma pad_struct {A} keys (g : fields -> option A) : PadF g -> Pad (fun j => match as_struct keys j with Some fs => g fs | None => None end).
Proof.
  intros G. split; auto. intros j j' P. apply (as_struct_pad keys) in P. destruct (as_struct keys j), (as_struct keys j'); cbn in P; try tauto; auto.
Qed.
#[global] Instance bind_pad {A B} (g : fields -> option A) (k : A -> fields -> option B) :
  PadF g -> (forall x, PadF (k x)) -> PadF (fun fs => match g fs with Some x => k x fs | None => None end).
Proof. intros G K fs fs' S. rewrite (G _ _ S). destruct (g fs'); auto. apply K. auto. Qed.
#[global] Instance const_pad {A} (x : option A) : PadF (fun _ => x). Proof. intros fs fs' _. reflexivity. Qed.
Ltac read := match goal with
  | |- PadF (fun fs => match @?g fs with Some x => @?k x fs | None => None end) => apply (bind_pad g (fun x fs => k x fs)); [|intros ?; read]
  | |- PadF (fun fs => Some _) => apply const_pad
  | |- PadF _ => idtac
  end;
  match goal with
  | |- PadF (fun _ => ?x) => apply const_pad
  | |- PadF (fun fs => req ?k ?f fs) => apply (req_pad k f); typeclasses eauto
  | |- PadF (fun fs => opt ?k ?f fs) => apply (opt_pad k f); typeclasses eauto
  | |- PadF (fun fs => ?g fs) => change (PadF g); typeclasses eauto
  | _ => idtac
  end.
Ltac by_map := match goal with |- Pad ?f => unfold f end; apply (pad_map (fun fs => _)); read.
#[global] Instance p_kf_component : Pad de_kf_component.
Proof.
  split; auto. intros j j' P. unfold de_kf_component. rewrite (proj1 p_floats _ _ P), (proj1 p_f64 _ _ P). auto.
Qed.
#[global] Instance p_kf_handle : Pad de_kf_handle. Proof. unfold de_kf_handle. apply (pad_struct ["x"; "y"] (fun fs => _)). read. Qed.
Ltac fieldsof := match goal with |- PadF ?g => unfold g end; read.
Ltac struct := match goal with |- Pad ?f => unfold f end;
  match goal with
  | |- Pad (fun j => match as_map j with Some fs => @?g fs | None => None end) => apply (pad_map g); read
  | |- Pad (fun j => match as_struct ?ks j with Some fs => @?g fs | None => None end) => apply (pad_struct ks g); read
  end.
Lemma pad_either {A B C} (f : json -> option A) (g : json -> option B) (a : A -> C) (b : B -> C) : Pad f -> Pad g ->
  Pad (fun j => match f j with Some x => Some (a x) | None => match g j with Some y => Some (b y) | None => None end end).
Proof. intros [F Fn] [G Gn]. split; [|rewrite Fn, Gn; auto]. intros j j' P. rewrite (F _ _ P), (G _ _ P). auto. Qed.
#[global] Instance p_kf_base : PadF de_kf_base. Proof. fieldsof. Qed.
#[global] Instance p_keyframe_fs : PadF de_keyframe_fs. Proof. fieldsof. Qed.
#[global] Instance p_keyframe : Pad de_keyframe. Proof. struct. Qed.
#[global] Instance p_anim_k {T} (f : json -> option T) : Pad f -> Pad (de_anim_k f).
Proof. intros F. apply pad_either; typeclasses eauto. Qed.
#[global] Instance p_anim_prop {T} (f : json -> option T) : Pad f -> PadF (de_anim_prop f). Proof. intros F. unfold de_anim_prop. read. Qed.
#[global] Instance p_float_value : Pad de_float_value. Proof. struct. Qed.
#[global] Instance p_color_value : Pad de_color_value. Proof. struct. Qed.
#[global] Instance p_multi_dim : Pad de_multi_dim. Proof. struct. Qed.
#[global] Instance p_gradient_colors : Pad de_gradient_colors. Proof. struct. Qed.
#[global] Instance p_pos_keyframe : Pad de_pos_keyframe. Proof. struct. Qed.
#[global] Instance p_position_k : Pad de_position_k. Proof. apply pad_either; typeclasses eauto. Qed.
#[global] Instance p_position : Pad de_position. Proof. struct. Qed.
#[global] Instance p_split_vector : Pad de_split_vector. Proof. struct. Qed.
Lemma pad_then {A B} (f : json -> option A) (g : A -> option B) : Pad f -> Pad (fun j => match f j with Some x => g x | None => None end).
Proof. intros [F Fn]. split; [|rewrite Fn; auto]. intros j j' P. rewrite (F _ _ P). auto. Qed.
#[global] Instance p_vertex : Pad de_vertex. Proof. apply pad_then. typeclasses eauto. Qed.
#[global] Instance p_bezier : Pad de_bezier. Proof. struct. Qed.
#[global] Instance p_shape_keyframe : Pad de_shape_keyframe. Proof. struct. Qed.
#[global] Instance p_keyframes : Pad deserialize_keyframes. Proof. apply pad_then. typeclasses eauto. Qed.
#[global] Instance p_shape_k : Pad de_shape_k. Proof. apply pad_either; typeclasses eauto. Qed.
#[global] Instance p_shape_prop : Pad de_shape_prop. Proof. struct. Qed.
#[global] Instance p_visual_object : PadF de_visual_object. Proof. fieldsof. Qed.
#[global] Instance p_slottable : PadF de_slottable. Proof. fieldsof. Qed.
#[global] Instance p_marker : Pad de_marker. Proof. struct. Qed.
#[global] Instance p_any_p : Pad de_any_p. Proof. apply pad_either; typeclasses eauto. Qed.
#[global] Instance p_split_rotation : Pad de_split_rotation. Proof. struct. Qed.
#[global] Instance p_any_r : Pad de_any_r.
Proof.
  split; auto. intros j j' P. unfold de_any_r. rewrite (proj1 p_float_value _ _ P), (proj1 p_split_rotation _ _ P). auto.
Qed.
#[global] Instance p_transform_fs : PadF de_transform_fs. Proof. fieldsof. Qed.
#[global] Instance p_transform : Pad de_transform. Proof. struct. Qed.
#[global] Instance p_mask : Pad de_mask. Proof. struct. Qed.
#[global] Instance p_graphic_element : PadF de_graphic_element. Proof. fieldsof. Qed.
#[global] Instance p_s_shape : PadF de_s_shape. Proof. fieldsof. Qed.
#[global] Instance p_shape_style : PadF de_shape_style. Proof. fieldsof. Qed.
#[global] Instance p_stroke_dash : Pad de_stroke_dash. Proof. struct. Qed.
#[global] Instance p_base_stroke : PadF de_base_stroke. Proof. fieldsof. Qed.
#[global] Instance p_base_gradient : PadF de_base_gradient. Proof. fieldsof. Qed.
#[global] Instance p_transform_shape : PadF de_transform_shape. Proof. fieldsof. Qed.
#[global] Instance p_repeater_transform : Pad de_repeater_transform. Proof. struct. Qed.
Lemma de_shape_pad : forall j, (forall n j', padded j j' -> de_shape n j = de_shape n j') /\
  (forall l, j = JArr l -> forall v, padded j v -> de_list (de_shape true) j = de_list (de_shape true) v).
Proof.
  induction j using json_ind'; (split; [|try discriminate]); try (intros n0 j' P; inversion P; subst; reflexivity).
  - intros l' [= <-] v P. inversion P as [|a b L|]; subst; auto. cbn [de_list]. clear P. induction L as [|x x' l l' Px _ IH]; auto.
    inversion H; subst. cbn. rewrite (proj1 H2 true x' Px). destruct (de_shape true x'); auto. rewrite IH; auto.
  - intros n j' P. inversion P as [| |a fs' U U' M]; subst; auto. pose proof (padded_members_sees _ _ M) as S.
    assert (I : req "it" (fun v => de_list (fun j => de_shape true j) v) fs = req "it" (fun v => de_list (fun j => de_shape true j) v) fs').
    { rewrite !req_member. specialize (S "it"). destruct (member "it" fs) as [v|] eqn:Mv, (member "it" fs') as [v'|]; try tauto; auto.
      - assert (Hv : forall l, v = JArr l -> forall w, padded v w -> de_list (de_shape true) v = de_list (de_shape true) w).
        { clear - H Mv. revert Mv. induction H as [|[k w] r Hw _ IH]; cbn [member]; [discriminate|].
          destruct (String.eqb "it" k); auto. intros [= ->]. cbn in Hw. apply (proj2 Hw). }
        inversion S; subst; auto. eapply Hv; eauto.
      - rewrite S. auto. }
    cbn [de_shape]. rewrite <- I. clear I P M U U' H.
    assert (R : forall {A} (g : fields -> option A), PadF g -> g fs = g fs') by (intros A g G; auto).
    rewrite <- (R _ (req "ty" (de_tag n)) (req_pad "ty" (de_tag n) _)).
    destruct (req "ty" (de_tag n) fs) as [[]|]; auto;
    try match goal with |- context [req "it" ?f fs] => generalize (req "it" f fs); intros it end;
    match goal with |- ?L = _ => match eval pattern fs in L with ?g _ => apply (R _ g) end end; cbv beta; read.
Qed.
#[global] Instance p_shape n : Pad (de_shape n). Proof. split; auto. intros j j'. apply (proj1 (de_shape_pad j)). Qed.
#[global] Instance p_s_layer b : PadF (de_s_layer b).
Proof.
  unfold de_s_layer. destruct b; read.
Qed.
#[global] Instance p_visual_layer b : PadF (de_visual_layer b). Proof. unfold de_visual_layer. read. Qed.
#[global] Instance p_layer_type : PadF layer_type. Proof. unfold layer_type. apply req_pad. scalar. Qed.
#[global] Instance p_layer : Pad de_layer.
Proof.
  unfold de_layer. apply (pad_map (fun fs => _)). apply (bind_pad layer_type (fun ty fs => _)); [typeclasses eauto|]. intros ty.
  destruct ty as [|[[]|[[]|[]|]|]|]; read.
Qed.
#[global] Instance p_asset : PadF de_asset. Proof. fieldsof. Qed.
#[global] Instance p_file_asset : PadF de_file_asset. Proof. fieldsof. Qed.
(** Assets: presence is seen too. *)
Lemma null_has k fs fs' : In k presence_members -> widened null_member (fun _ => padded) fs fs' -> has k fs = has k fs'.
Proof.
  intros K W. rewrite !has_member. induction W as [|k0 v v' fs fs' P _ IH|k0 v fs fs' (-> & N & M) _ IH]; cbn [member]; auto.
  - destruct (String.eqb k k0); auto.
  - destruct (String.eqb k k0) eqn:E; auto. apply String.eqb_eq in E. subst. contradiction.
Qed.
Lemma widened_sees fs fs' : widened null_member (fun _ => padded) fs fs' -> sees fs fs'.
Proof.
  induction 1 as [|k v v' fs fs' P _ IH|k v fs fs' (-> & N & M) _ IH]; intros q; cbn [member]; auto.
  - destruct (String.eqb q k); auto. exact (IH q).
  - destruct (String.eqb q k) eqn:E; [|exact (IH q)]. apply String.eqb_eq in E. subst. now rewrite M.
Qed.
Lemma asset_pad j j' : asset_nulls j j' -> de_any_asset j = de_any_asset j'.
Proof.
  intros [->|(fs & fs' & -> & -> & W)]; auto. unfold de_any_asset. cbn [as_map]. pose proof (widened_sees _ _ W) as S.
  rewrite (null_has "layers" _ _ ltac:(cbn; auto) W), (null_has "w" _ _ ltac:(cbn; auto) W), (null_has "h" _ _ ltac:(cbn; auto) W).
  assert (R : forall {A} (g : fields -> option A), PadF g -> g fs = g fs') by (intros A g G; auto).
  assert (T : Pad (fun v => match v with JInt 3 => Some tt | _ => None end)) by scalar.
  rewrite (R _ (req "t" (fun v => match v with JInt 3 => Some tt | _ => None end)) (req_pad "t" _ T)).
  assert (Sq : de_sequence fs = de_sequence fs').
  { unfold de_sequence. rewrite (null_has "t" _ _ ltac:(cbn; auto) W). destruct (has "t" fs'); auto. rewrite (R _ (req "t" de_string) (req_pad "t" _ _)). auto. }
  destruct (has "layers" fs'); [|destruct (match req _ _ fs' with Some _ => true | None => false end); auto; destruct (_ || _)%bool; auto; rewrite <- Sq; generalize (de_sequence fs); intros sq];
  match goal with |- ?L = _ => match eval pattern fs in L with ?g _ => apply (R _ g) end end; cbv beta; read.
Qed.
Lemma assets_pad l l' : Forall2 asset_nulls l l' -> mapO de_any_asset l = mapO de_any_asset l'.
Proof. induction 1 as [|v v' l l' V _ IH]; cbn; auto. rewrite (asset_pad _ _ V), IH. auto. Qed.
(** the document, without what is kept verbatim *)
Definition forget_meta (a : animation) : animation :=
  mkAnimation (ani_vo a) (ani_layers a) (ani_v a) (ani_ver a) (ani_fr a) (ani_ip a) (ani_op a) (ani_w a) (ani_h a)
    (ani_ddd a) (ani_assets a) (ani_markers a) None None.
Lemma opt_value fs k : exists o, opt k de_value fs = Some o.
Proof. rewrite opt_member. destruct (member k fs) as [[]|]; cbn; eauto. Qed.
Definition shadow_meta (j : json) : option unit := match de_meta j with Some _ => Some tt | None => None end.
#[global] Instance p_meta : Pad shadow_meta.
Proof.
  split; auto. intros j j' P. unfold shadow_meta, de_meta. apply (as_struct_default_pad ["a"; "d"; "tc"; "g"; "k"]) in P.
  destruct (as_struct_default _ j) as [fs|], (as_struct_default _ j') as [fs'|]; cbn in P; try tauto; auto.
  assert (R : forall {A} (g : fields -> option A), PadF g -> g fs = g fs') by (intros A g G; auto).
  rewrite (R _ (opt "a" de_string) (opt_pad "a" _ _)), (R _ (opt "d" de_string) (opt_pad "d" _ _)),
    (R _ (opt "tc" de_string) (opt_pad "tc" _ _)), (R _ (opt "g" de_string) (opt_pad "g" _ _)).
  destruct (opt "a" _ fs'); auto. destruct (opt "d" _ fs'); auto. destruct (opt "tc" _ fs'); auto. destruct (opt "g" _ fs'); auto.
  destruct (opt_value fs "k") as [? ->], (opt_value fs' "k") as [? ->]. auto.
Qed.
Definition read_animation (fs : fields) : option animation :=
  let? vo := de_visual_object fs in
  let? layers := req "layers" (de_list de_layer) fs in
  let? v := opt "v" de_string fs in
  let? ver := opt "ver" de_u32 fs in
  let? fr := req "fr" de_f64 fs in
  let? ip := req "ip" de_f64 fs in
  let? op := req "op" de_f64 fs in
  let? w := req "w" (de_uint usize_max) fs in
  let? h := req "h" (de_uint usize_max) fs in
  let? ddd := opt "ddd" de_bool_int fs in
  let? assets := opt "assets" (de_list de_any_asset) fs in
  let? markers := opt "markers" (de_list de_marker) fs in
  let? me := opt "meta" shadow_meta fs in
  Some (mkAnimation vo layers v ver fr ip op w h ddd assets markers None None).
Lemma read_animation_eq j : option_map forget_meta (de_animation j) = match as_map j with Some fs => read_animation fs | None => None end.
Proof.
  unfold de_animation, read_animation. destruct (as_map j) as [fs|]; auto.
  repeat match goal with |- option_map _ (match ?e with Some _ => _ | None => None end) = match ?e with Some _ => _ | None => None end =>
    destruct e; auto end.
  destruct (opt_value fs "metadata") as [? ->].
  rewrite !opt_member. destruct (member "meta" fs) as [mv|]; auto. unfold shadow_meta. destruct mv; auto;
  match goal with |- context [de_meta ?v] => destruct (de_meta v); auto end.
Qed.
(** ** The document *)
Lemma document_member k fs fs' : widened any_null entry_nulls fs fs' ->
  match member k fs, member k fs' with
  | None, None => True
  | Some v, Some v' => entry_nulls k v v'
  | None, Some v' => v' = JNull
  | Some _, None => False
  end.
Proof.
  induction 1 as [|k0 v v' fs fs' P _ IH|k0 v fs fs' (-> & M) _ IH]; cbn [member]; auto.
  - destruct (String.eqb k k0) eqn:E; auto. apply String.eqb_eq in E. now subst.
  - destruct (String.eqb k k0) eqn:E; auto. apply String.eqb_eq in E. subst. now rewrite M.
Qed.
Lemma read_nulls fs fs' : widened any_null entry_nulls fs fs' -> read_animation fs = read_animation fs'.
Proof.
  intros W. assert (D := fun k => document_member k _ _ W).
  (* the members other than "assets" *)
  set (rest := fun x : fields => filter (fun e => negb (String.eqb (fst e) "assets")) x).
  assert (M : forall k x, String.eqb k "assets" = false -> member k (rest x) = member k x).
  { intros k x N. induction x as [|[k0 v] x IH]; auto. unfold rest. cbn [filter fst]. destruct (String.eqb k0 "assets") eqn:E; cbn [negb member].
    - apply String.eqb_eq in E. subst. rewrite N. exact IH.
    - destruct (String.eqb k k0); auto. }
  assert (M0 : forall x, member "assets" (rest x) = None).
  { intros x. induction x as [|[k0 v] x IH]; auto. unfold rest. cbn [filter fst]. destruct (String.eqb k0 "assets") eqn:E; cbn [negb member]; auto. rewrite String.eqb_sym, E. exact IH. }
  assert (S : sees (rest fs) (rest fs')).
  { intros k. destruct (String.eqb k "assets") eqn:E; [apply String.eqb_eq in E; subst; now rewrite !M0|]. rewrite !M by exact E. specialize (D k). unfold entry_nulls in D. rewrite E in D. exact D. }
  assert (A : opt "assets" (de_list de_any_asset) fs = opt "assets" (de_list de_any_asset) fs').
  { rewrite !opt_member. specialize (D "assets"). unfold entry_nulls in D. cbn [String.eqb Ascii.eqb Bool.eqb] in D.
    destruct (member "assets" fs) as [v|], (member "assets" fs') as [v'|]; try tauto; auto.
    - destruct D as [->|(l & l' & -> & -> & F)]; auto. cbn [de_list]. now rewrite (assets_pad _ _ F).
    - now rewrite D. }
  assert (R1 : forall {T} k (f : json -> option T) x, String.eqb k "assets" = false -> req k f x = req k f (rest x)) by (intros; rewrite !req_member, M; auto).
  assert (R2 : forall {T} k (f : json -> option T) x, String.eqb k "assets" = false -> opt k f x = opt k f (rest x)) by (intros; rewrite !opt_member, M; auto).
  assert (Vo : forall x, de_visual_object x = de_visual_object (rest x)).
  { intros x. unfold de_visual_object. rewrite <- !R2 by reflexivity. reflexivity. }
  unfold read_animation. rewrite A. rewrite (Vo fs), (Vo fs'). generalize (opt "assets" (de_list de_any_asset) fs'). intros assets.
  rewrite (R1 _ "layers" _ fs), (R2 _ "v" _ fs), (R2 _ "ver" _ fs), (R1 _ "fr" _ fs), (R1 _ "ip" _ fs), (R1 _ "op" _ fs), (R1 _ "w" _ fs), (R1 _ "h" _ fs), (R2 _ "ddd" _ fs), (R2 _ "markers" _ fs), (R2 _ "meta" _ fs) by reflexivity.
  rewrite (R1 _ "layers" _ fs'), (R2 _ "v" _ fs'), (R2 _ "ver" _ fs'), (R1 _ "fr" _ fs'), (R1 _ "ip" _ fs'), (R1 _ "op" _ fs'), (R1 _ "w" _ fs'), (R1 _ "h" _ fs'), (R2 _ "ddd" _ fs'), (R2 _ "markers" _ fs'), (R2 _ "meta" _ fs') by reflexivity.
  assert (R : forall {T} (g : fields -> option T), PadF g -> g (rest fs) = g (rest fs')) by (intros T g G; auto).
  match goal with |- ?L = _ => match eval pattern (rest fs) in L with ?g _ => apply (R _ g) end end. cbv beta. read.
Qed.

(** ** Theorems *)
(** Writing [null] for a member that is left out makes no difference anywhere
    in the document, except directly in an asset for its members "layers", "w",
    "h" and "t". *)
Theorem C59_null : forall E j j', document_nulls j j' -> from_json E j = from_json E j'.
Proof.
  intros E j j' (fs & fs' & -> & -> & W). pose proof (read_nulls _ _ W) as P. pose proof (read_animation_eq (JObj fs)) as P1. pose proof (read_animation_eq (JObj fs')) as P2. cbn [as_map] in P1, P2. rewrite <- P1, <- P2 in P.
  unfold from_json. assert (C : forall a, conv_animation E a = conv_animation E (forget_meta a)) by reflexivity.
  destruct (de_animation (JObj fs)) as [a|], (de_animation (JObj fs')) as [a'|]; cbn [option_map] in P; try discriminate; auto.
  rewrite (C a), (C a'). congruence.
Qed.
(** Directly in an asset: a [null] "layers" makes it unreadable; a [null] "w" or
    "h" makes an asset without size and layers an image, if it has the other
    members of one, and nothing else; a [null] "t" makes an image unreadable. *)
Definition with_null (k : string) (fs : list (string * json)) : json := JObj ((k, JNull) :: fs).
Theorem C59_asset_exact : forall fs, 
  (member "layers" fs = None -> de_any_asset (with_null "layers" fs) = None) /\
  (forall k other, (k, other) = ("w", "h") \/ (k, other) = ("h", "w") -> member k fs = None ->
    (member "layers" fs <> None \/ member other fs <> None -> de_any_asset (with_null k fs) = de_any_asset (JObj fs)) /\
    (member "layers" fs = None -> member other fs = None -> de_any_asset (JObj fs) = None /\
      forall a, de_any_asset (with_null k fs) = Some a <-> member "t" fs <> Some (JInt 3) /\
        exists fa sl t, de_file_asset fs = Some fa /\ de_slottable fs = Some sl /\ de_sequence fs = Some t /\ a = AaImage fa sl None None t)) /\
  (member "t" fs = None ->
    (member "layers" fs <> None -> de_any_asset (with_null "t" fs) = de_any_asset (JObj fs)) /\
    (member "layers" fs = None -> de_any_asset (with_null "t" fs) = None)).
Proof.
  intros fs.
  assert (H1 : forall k q, has q ((k, JNull) :: fs) = if String.eqb q k then true else has q fs).
  { intros k q. rewrite !has_member. cbn [member]. destruct (String.eqb q k); reflexivity. }
  assert (H2 : forall q, member q fs = None -> has q fs = false) by (intros q M; rewrite has_member, M; reflexivity).
  assert (H3 : forall q, member q fs <> None -> has q fs = true) by (intros q M; rewrite has_member; destruct (member q fs); congruence).
  assert (Q1 : forall {T} k q (f : json -> option T), String.eqb q k = false -> req q f ((k, JNull) :: fs) = req q f fs).
  { intros T k q f N. rewrite !req_member. cbn [member]. now rewrite N. }
  assert (Q2 : forall {T} k q (f : json -> option T), String.eqb q k = false -> opt q f ((k, JNull) :: fs) = opt q f fs).
  { intros T k q f N. rewrite !opt_member. cbn [member]. now rewrite N. }
  assert (Q3 : forall {T} k (f : json -> option T), member k fs = None -> opt k f ((k, JNull) :: fs) = opt k f fs).
  { intros T k f M. rewrite !opt_member. cbn [member]. now rewrite String.eqb_refl, M. }
  assert (Q4 : forall {T} k (f : json -> option T), member k fs = None -> f JNull = None -> req k f ((k, JNull) :: fs) = req k f fs).
  { intros T k f M N. rewrite !req_member. cbn [member]. now rewrite String.eqb_refl, M, N. }
  assert (As : forall k, k = "layers" \/ k = "w" \/ k = "h" \/ k = "t" -> de_asset ((k, JNull) :: fs) = de_asset fs /\ de_file_asset ((k, JNull) :: fs) = de_file_asset fs /\ de_slottable ((k, JNull) :: fs) = de_slottable fs).
  { intros k [->|[->|[->| ->]]]; unfold de_file_asset, de_asset, de_visual_object, de_slottable; rewrite !Q1, !Q2 by reflexivity; auto. }
  split; [|split].
  - intros M. unfold de_any_asset, with_null. cbn [as_map]. rewrite H1, String.eqb_refl. destruct (de_asset _); reflexivity.
  - intros k other [K|K] M; assert (Ek := f_equal fst K); assert (Eo := f_equal snd K); cbn [fst snd] in Ek, Eo; subst k other; clear K.
    + destruct (As "w" ltac:(auto)) as (A1 & A2 & A3). unfold de_any_asset, with_null. cbn [as_map].
      assert (Sq : de_sequence (("w", JNull) :: fs) = de_sequence fs) by (unfold de_sequence; rewrite H1, Q1 by reflexivity; reflexivity).
      rewrite !H1, A1, A2, A3, Sq, (Q3 _ "w" _ M), !Q1, !Q2 by reflexivity. cbn [String.eqb Ascii.eqb Bool.eqb orb]. split.
      * intros [L|L]; rewrite (H3 _ L); [reflexivity|]. rewrite Bool.orb_true_r. reflexivity.
      * intros L O. rewrite (H2 _ L), (H2 _ O), (H2 _ M). cbn [orb]. rewrite !opt_member, M, O, req_member. split.
        { destruct (member "t" fs) as [v|]; [destruct v as [| |z| | | |]; auto; destruct z as [|[[]|[]|]|]; auto|auto]. }
        intros a. assert (T3 : member "t" fs = Some (JInt 3) \/ member "t" fs <> Some (JInt 3) /\ match match member "t" fs with Some v => match v with JInt 3 => Some tt | _ => None end | None => None end with Some _ => true | None => false end = false).
        { destruct (member "t" fs) as [v|]; [|right; split; [discriminate|reflexivity]]. destruct v as [| |z| | | |]; try (right; split; [discriminate|reflexivity]). destruct z as [|p|p]; try (right; split; [discriminate|reflexivity]).
          destruct p as [p|p|]; try (right; split; [discriminate|reflexivity]). destruct p as [p|p|]; try (right; split; [discriminate|reflexivity]). left; reflexivity. }
        destruct T3 as [T3|[T3 T4]]; [rewrite T3; split; [discriminate|intros [X _]; congruence]|]. rewrite T4. split.
        { intros Q. split; [exact T3|]. destruct (de_file_asset fs) as [fa|]; [|discriminate]. destruct (de_slottable fs) as [sl|]; [|discriminate]. destruct (de_sequence fs) as [t|]; [|discriminate]. exists fa, sl, t. repeat split. congruence. }
        { intros (_ & fa & sl & t & -> & -> & -> & ->). reflexivity. }
    + destruct (As "h" ltac:(auto)) as (A1 & A2 & A3). unfold de_any_asset, with_null. cbn [as_map].
      assert (Sq : de_sequence (("h", JNull) :: fs) = de_sequence fs) by (unfold de_sequence; rewrite H1, Q1 by reflexivity; reflexivity).
      rewrite !H1, A1, A2, A3, Sq, (Q3 _ "h" _ M), !Q1, !Q2 by reflexivity. cbn [String.eqb Ascii.eqb Bool.eqb orb]. rewrite !Bool.orb_true_r. split.
      * intros [L|L]; rewrite (H3 _ L); reflexivity.
      * intros L O. rewrite (H2 _ L), (H2 _ O), (H2 _ M). cbn [orb]. rewrite !opt_member, M, O, req_member. split.
        { destruct (member "t" fs) as [v|]; [destruct v as [| |z| | | |]; auto; destruct z as [|[[]|[]|]|]; auto|auto]. }
        intros a. assert (T3 : member "t" fs = Some (JInt 3) \/ member "t" fs <> Some (JInt 3) /\ match match member "t" fs with Some v => match v with JInt 3 => Some tt | _ => None end | None => None end with Some _ => true | None => false end = false).
        { destruct (member "t" fs) as [v|]; [|right; split; [discriminate|reflexivity]]. destruct v as [| |z| | | |]; try (right; split; [discriminate|reflexivity]). destruct z as [|p|p]; try (right; split; [discriminate|reflexivity]).
          destruct p as [p|p|]; try (right; split; [discriminate|reflexivity]). destruct p as [p|p|]; try (right; split; [discriminate|reflexivity]). left; reflexivity. }
        destruct T3 as [T3|[T3 T4]]; [rewrite T3; split; [discriminate|intros [X _]; congruence]|]. rewrite T4. split.
        { intros Q. split; [exact T3|]. destruct (de_file_asset fs) as [fa|]; [|discriminate]. destruct (de_slottable fs) as [sl|]; [|discriminate]. destruct (de_sequence fs) as [t|]; [|discriminate]. exists fa, sl, t. repeat split. congruence. }
        { intros (_ & fa & sl & t & -> & -> & -> & ->). reflexivity. }
  - intros M. destruct (As "t" ltac:(auto)) as (A1 & A2 & A3). unfold de_any_asset, with_null. cbn [as_map]. rewrite !H1, A1, A2, A3, (Q4 _ "t" _ M) by reflexivity. rewrite !(Q1 _ "t" "layers"), !(Q2 _ "t") by reflexivity. cbn [String.eqb Ascii.eqb Bool.eqb]. split.
    + intros L. rewrite (H3 _ L). reflexivity.
    + intros L. rewrite (H2 _ L), req_member, M. destruct (_ || _)%bool; auto. destruct (de_file_asset fs); auto. destruct (de_slottable fs); auto. destruct (opt "w" _ fs); auto. destruct (opt "h" _ fs); auto.
Qed.
(** A document with a [null], and an asset where one matters. *)
Example C59_applies : exists j', document_nulls doc_sized j' /\ j' <> doc_sized /\ (exists a, de_animation doc_sized = Some a) /\
  member "w" [("id", JStr "a"); ("p", JStr "b")] = None /\ de_any_asset (with_null "w" [("id", JStr "a"); ("p", JStr "b")]) <> None.
Proof.
  exists (match doc_sized with JObj fs => JObj (("ver", JNull) :: fs) | j => j end). split; [|split; [unfold doc_sized, jdoc; intros Q; assert (Q1 := f_equal (fun j => match j with JObj fs => List.length fs | _ => 0 end) Q); cbv beta iota in Q1; cbn [List.length] in Q1; discriminate Q1|split; [destruct C48_witness as (_ & a & H & _); eauto|split; [reflexivity|vm_compute; discriminate]]]].
  unfold doc_sized, jdoc. eexists. eexists. split; [reflexivity|]. split; [reflexivity|]. apply wid_add; [split; [reflexivity|vm_compute; reflexivity]|].
  repeat (apply wid_keep; [unfold entry_nulls; match goal with |- if ?b then _ else _ => destruct b end; [now left|constructor]|]). constructor.
Qed.
