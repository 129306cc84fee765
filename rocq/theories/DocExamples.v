(** Concrete documents: they show that the hypotheses of the theorems about
    the importer can be met, and refute some expectations. *)
From Coq Require Import ZArith Bool List Arith String.
From Verif Require Import F64 Kurbo Value Animated Batch Render RenderSpec Examples Schema Import ImportSpec.
Import ListNotations.

Definition is_ok {A} (r : res A) : bool := match r with Ok _ => true | _ => false end.
Lemma is_ok_ex {A} (r : res A) : is_ok r = true -> exists x, r = Ok x.
Proof. destruct r; try discriminate. eauto. Qed.
Definition on_ok {A} (r : res A) (d : nat) (f : A -> nat) : nat := match r with Ok x => f x | _ => d end.

Definition no_vo : visual_object := mkVisualObject None None.
Definition named (n : string) : visual_object := mkVisualObject (Some n) None.
Definition st {T} (v : T) : anim_prop T := mkAnimProp None None None None (AkStatic v).
Definition kf (t : Z) (v : list f64) : keyframe := mkKeyframe (mkKfBase (f_of_Z t) None None None) v None.
Definition kf_eased (t : Z) (i o : kf_component * kf_component) (v : list f64) : keyframe :=
  mkKeyframe (mkKfBase (f_of_Z t) None (Some (mkKfHandle (fst i) (snd i))) (Some (mkKfHandle (fst o) (snd o)))) v None.
Definition animated {T} (ks : list keyframe) : anim_prop T := mkAnimProp None None None None (AkAnimated ks).
Definition p_static (x y : Z) : s_position :=
  mkSPosition None None None None (PkStatic [f_of_Z x; f_of_Z y]).
Definition v_static (x y : Z) : multi_dim := mkMultiDim (st [f_of_Z x; f_of_Z y]) None.
(** A transform with a position and a rotation only. *)
Definition tr_pos (x y : Z) : s_transform :=
  mkSTransform None (ApPosition (p_static x y)) None (Some (ArRotation (st f0))) None None None.
Definition base (name : string) (ind parent : option nat) (hd : option bool) : s_layer :=
  mkSLayer (named name) None hd 4 ind parent None f0 (f_of_Z 60) None.
Definition visual (b : s_layer) (t : s_transform) (tt : option matte_mode) (td : option bool_int)
  (tp : option f64) : visual_layer :=
  mkVisualLayer b tt td None t None tp None None None None None None None None.
Definition no_ge : graphic_element := mkGE no_vo None None None None None None.
Definition hidden_ge : graphic_element := mkGE no_vo (Some true) None None None None None.
Definition rect_at (x y : Z) : any_shape :=
  AsRectangle (mkSShape no_ge None) (p_static x y) (v_static 10 10) (st f0).
Definition black : color_value := st [f0; f0; f0].
Definition fill_in (ge : graphic_element) : any_shape := AsFill (mkStyle ge (st f100)) black None.
Definition group_of (l : list any_shape) : any_shape := AsGroup no_ge None l None.
Definition tr_shape (x y : Z) : any_shape := AsTransform (mkTransformShape no_ge (tr_pos x y)).
Definition doc (assets : list any_asset) (layers : list any_layer) : animation :=
  mkAnimation no_vo layers None None (f_of_Z 30) f0 (f_of_Z 60) 100 100 None (Some assets) None None None.

(** A matte and its consumer, a hidden parent, a precomp with an explicit
    matte target, groups with two transforms, shapes that are dropped. *)
Definition doc1 : animation :=
  doc [AaPrecomp (mkAsset "pre" no_vo)
         [AlShape (visual (base "a" (Some 1) None None) (tr_pos 0 0) None None None) [rect_at 1 1; fill_in no_ge];
          AlShape (visual (base "b" (Some 2) (Some 1) None) (tr_pos 0 0) (Some MmInvertedAlpha) None (Some f1))
            [rect_at 2 2; fill_in no_ge]] None None]
      [AlShape (visual (base "matte" (Some 1) None None) (tr_pos 1 2) None (Some BITrue) None)
         [rect_at 1 2; fill_in no_ge];
       AlShape (visual (base "content" (Some 2) (Some 3) None) (tr_pos 3 4) (Some MmAlpha) None None)
         [group_of [rect_at 3 4; tr_shape 1 1; AsMerge no_ge None; fill_in no_ge; tr_shape 2 2];
          group_of [tr_shape 1 1; group_of []]; AsTwist no_ge (st f0) (p_static 0 0)];
       AlShape (visual (base "hidden" (Some 3) (Some 7) (Some true)) (tr_pos 5 6) None (Some BITrue) None)
         [rect_at 5 6; fill_in no_ge];
       AlPrecomp (visual (base "inst" (Some 4) (Some 2) None) (tr_pos 0 0) None None None) "pre"
         (f_of_Z 100) (f_of_Z 100) f0 None;
       AlNull (visual (base "null" None None None) (tr_pos 7 8) None None None)].
Lemma doc1_ok E : exists c, conv_animation E doc1 = Ok c.
Proof. apply is_ok_ex. vm_compute. reflexivity. Qed.
