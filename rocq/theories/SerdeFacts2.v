(** Round trip, continued: shapes, layers, assets, documents *)
From Coq Require Import ZArith Reals Bool List String Lia.
From Flocq Require Import Core BinarySingleNaN.
From Verif Require Import F64 F64Facts Schema Serde SerdeSpec SerdeFacts.
Import ListNotations.
Local Open Scope string_scope.
Local Open Scope list_scope.

(** * Shapes *)
#[export] Instance rt_stroke_dash : RT de_stroke_dash ser_stroke_dash.
Proof.
  start H. unfold de_stroke_dash, de_visual_object in H. opened H.
  unfold de_stroke_dash, de_visual_object, ser_stroke_dash, ser_visual_object. prj. build.
Qed.
#[export] Instance rt_repeater_transform : RT de_repeater_transform ser_repeater_transform.
Proof.
  start H. unfold de_repeater_transform, de_transform_shape, de_graphic_element, de_visual_object, de_transform_fs in H.
  opened H.
  unfold de_repeater_transform, de_transform_shape, de_graphic_element, de_visual_object, de_transform_fs,
    ser_repeater_transform, ser_transform_shape, ser_graphic_element, ser_visual_object, ser_transform_fs.
  prj. build.
Qed.

Notation de_shapes := (fun v => de_list (fun j => de_shape true j) v).
Definition ser_shapes (l : list any_shape) : json := JArr (map ser_shape l).
Definition rt_of (j : json) : Prop :=
  forall n x, json_ok j -> de_shape n j = Some x -> forall n', okR (de_shape n') ser_shape x.
Lemma rt_items fs it : fok fs -> Forall (fun m => forall l, snd m = JArr l -> Forall rt_of l) fs ->
  req "it" de_shapes fs = Some it -> okR de_shapes ser_shapes it.
Proof.
  intros F I H. rewrite req_member in H. destruct (member "it" fs) as [v|] eqn:M; [|discriminate].
  assert (Iv : forall l, v = JArr l -> Forall rt_of l).
  { clear H F. revert M. induction I as [|[k w] r Hw _ IH]; cbn; [discriminate|].
    destruct k as [|[[] [] [] [] [] [] [] []] k]; auto. intros M.
    match type of M with (if ?b then _ else _) = _ => destruct b end; [|auto]. injection M as ->. exact Hw. }
  pose proof (member_ok _ _ _ F M) as O. destruct v as [| | | | |l|]; try discriminate. specialize (Iv l eq_refl).
  cbn [de_list] in H. unfold okR, ser_shapes. cbn [de_list]. apply mapO_map. apply mapO_Forall2 in H.
  assert (Ol : Forall json_ok l) by (inversion O; auto). clear O M. revert Iv Ol.
  induction H as [|j x l xs H _ IH]; intros Iv Ol; [constructor|]. inversion Iv; inversion Ol; subst.
  constructor; auto. match goal with A : rt_of j |- _ => exact (A true x ltac:(assumption) H true) end.
Qed.

Lemma rt_shape_all : forall j, rt_of j /\ forall l, j = JArr l -> Forall rt_of l.
Proof.
  induction j using json_ind'; (split; [|try discriminate]); try (intros n0 y _ E; discriminate E).
  - intros l' [= <-]. eapply Forall_impl; [|exact H]. cbn. tauto.
  - intros n x O D n'. assert (F : fok fs) by (inversion O; auto).
    assert (I : Forall (fun m => forall l, snd m = JArr l -> Forall rt_of l) fs).
    { eapply Forall_impl; [|exact H]. cbn. tauto. }
    clear H O. cbn [de_shape] in D. destruct (req "ty" (de_tag n) fs) as [[]|]; try discriminate;
      unfold de_shape_style, de_s_shape, de_transform_shape, de_graphic_element, de_visual_object, de_transform_fs,
        de_base_stroke, de_base_gradient in D;
      inv_de D;
      try match goal with E : req "it" _ fs = Some _ |- _ => apply (rt_items fs _ F I) in E end;
      clear I; inv_fields; fin D;
      repeat match goal with E : Some _ = Some _ |- _ => fin E end;
      unfold okR; cbn [ser_shape];
      try (match goal with |- context [[("it", JArr (map ser_shape ?l))]] =>
             change [("it", JArr (map ser_shape l))] with (fld "it" ser_shapes l) end);
      unfold ser_shape_style, ser_s_shape, ser_transform_shape, ser_graphic_element, ser_visual_object, ser_transform_fs,
        ser_base_stroke, ser_base_gradient; prj; flat; name; cbn [de_shape];
      match goal with L := fld "ty" JStr ?t ++ ?r |- context [req "ty" ?f ?l] =>
        let T := eval vm_compute in (tag_named t shape_tags) in
        change (req "ty" f l) with T end;
      cbn iota beta;
      unfold de_shape_style, de_s_shape, de_transform_shape, de_graphic_element, de_visual_object, de_transform_fs,
        de_base_stroke, de_base_gradient;
      repeat put; reflexivity.
Qed.
#[export] Instance rt_shape n : RT (de_shape n) ser_shape.
Proof.
  intros j x O H. split; [exact (proj1 (rt_shape_all j) n x O H n)|]. intros _. destruct x; discriminate.
Qed.
