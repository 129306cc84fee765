(** The unit tests of the repository, all fifteen, about the model: a check of
    the model against what the authors say the code does.  The numbers with
    decimals of the documents are arbitrary here. *)
From Coq Require Import ZArith List String.
From Flocq Require Import BinarySingleNaN.
From Verif Require Import F64 Kurbo Value Animated Schema Import Serde.
Import ListNotations.
Open Scope string_scope.
Open Scope list_scope.

(** schema/mod.rs:30-66 *)
Definition t_document : json := JObj [("v", JStr "5.5.2"); ("nm", JStr "Example"); ("fr", JInt 60); ("ip", JInt 0); ("op", JInt 60);
  ("w", JInt 512); ("h", JInt 512); ("ddd", JInt 0); ("layers", JArr [])].
Definition t_animation : animation :=
  mkAnimation (mkVisualObject (Some "Example") None) [] (Some "5.5.2") None (f_of_Z 60) (f_of_Z 0) (f_of_Z 60) 512 512 (Some BIFalse) None None None None.
(** schema/mod.rs:68-92: [test_serde_deserialize], [test_deserialize], [test_can_serialize] (and what is written is read back) *)
Example test_schema_deserialize : de_animation t_document = Some t_animation.
Proof. reflexivity. Qed.
Example test_schema_serialize : de_animation (ser_animation t_animation) = Some t_animation.
Proof. reflexivity. Qed.

(** schema/assets/image.rs:73-102 *)
Definition t_image_json : json := JObj [("id", JStr "my image"); ("h", JInt 512); ("w", JInt 512); ("e", JInt 1); ("p", JStr "data:image/png;base64,...")].
Definition t_image : any_asset :=
  AaImage (mkFileAsset (mkAsset "my image" (mkVisualObject None None)) None "data:image/png;base64,..." (Some BITrue)) (mkSlottable None)
    (Some (f_of_Z 512)) (Some (f_of_Z 512)) None.
(** schema/assets/image.rs:104-118 *)
Example test_image_deserialize : de_any_asset t_image_json = Some t_image.
Proof. reflexivity. Qed.
Example test_image_serialize : de_any_asset (ser_any_asset t_image) = Some t_image.
Proof. reflexivity. Qed.

(** schema/layers/precomposition.rs:44-66 *)
Definition t_precomp_json : json := JObj [("id", JStr "precomp_0"); ("fr", JInt 60); ("nm", JStr "Example"); ("xt", JInt 0); ("layers", JArr [])].
Definition t_precomp : any_asset := AaPrecomp (mkAsset "precomp_0" (mkVisualObject (Some "Example") None)) [] (Some (f_of_Z 60)) (Some BIFalse).
(** schema/layers/precomposition.rs:68-82 *)
Example test_precomp_deserialize : de_any_asset t_precomp_json = Some t_precomp.
Proof. reflexivity. Qed.
Example test_precomp_serialize : de_any_asset (ser_any_asset t_precomp) = Some t_precomp.
Proof. reflexivity. Qed.

(** schema/shapes/mod.rs:158-191, layers/mod.rs:152-181: fixed numbers *)
Definition t_fixed (l : list json) : json := JObj [("a", JInt 0); ("k", JArr l)].
(** schema/shapes/mod.rs:158-191, layers/mod.rs:152-181 *)
Definition t_group_json (a b c d : f64) : json :=
  JObj [("ty", JStr "gr"); ("nm", JStr "Group"); ("mn", JStr "{f1becc2a-49f0-4f0c-918f-bdffe4c6870f}");
    ("it", JArr [JObj [("ty", JStr "el"); ("nm", JStr "Ellipse"); ("mn", JStr "{2aabac6e-1dd8-41b0-b60b-baf75ccb6318}");
      ("p", t_fixed [JFloat a; JFloat b]); ("s", t_fixed [JFloat c; JFloat d])]])].
(** schema/shapes/mod.rs:193-249, layers/mod.rs:264-318 *)
Definition t_ge (name id : string) : graphic_element := mkGE (mkVisualObject (Some name) (Some id)) None None None None None None.
(** schema/layers/mod.rs:205-225 *)
Definition t_position (l : list f64) : s_position := mkSPosition None (Some BIFalse) None None (PkStatic l).
(** schema/layers/mod.rs:219-228 *)
Definition t_multi (l : list f64) : multi_dim := mkMultiDim (mkAnimProp None (Some BIFalse) None None (AkStatic l)) None.
(** schema/shapes/mod.rs:193-249 *)
Definition t_group (a b c d : f64) : any_shape :=
  AsGroup (t_ge "Group" "{f1becc2a-49f0-4f0c-918f-bdffe4c6870f}") None
    [AsEllipse (mkSShape (t_ge "Ellipse" "{2aabac6e-1dd8-41b0-b60b-baf75ccb6318}") None) (t_position [a; b]) (t_multi [c; d])] None.
(** schema/shapes/mod.rs:251-265 *)
Example test_shape_deserialize : forall a b c d, de_shape false (t_group_json a b c d) = Some (t_group a b c d).
Proof. reflexivity. Qed.
Example test_shape_serialize : forall a b c d, is_finite a = true -> is_finite b = true -> is_finite c = true -> is_finite d = true ->
  de_shape false (ser_shape (t_group a b c d)) = Some (t_group a b c d).
Proof.
  intros a b c d Fa Fb Fc Fd. destruct a; try discriminate Fa; destruct b; try discriminate Fb; destruct c; try discriminate Fc; destruct d; try discriminate Fd; reflexivity.
Qed.

(** schema/layers/mod.rs:107-183 *)
Definition t_layer_json (a b c d : f64) : json :=
  JObj [("ddd", JInt 0); ("ty", JInt 4); ("ind", JInt 1); ("st", JInt 0); ("ip", JInt 0); ("op", JInt 180); ("nm", JStr "Ellipse");
    ("mn", JStr "{0a36d01c-18e1-48d3-8e8f-cc093b3f24ba}");
    ("ks", JObj [("a", t_fixed [JInt 256; JInt 256]); ("p", t_fixed [JInt 256; JInt 256]); ("s", t_fixed [JInt 100; JInt 100]);
      ("r", JObj [("a", JInt 0); ("k", JInt 0)]); ("o", JObj [("a", JInt 0); ("k", JInt 100)])]);
    ("shapes", JArr [t_group_json a b c d])].
(** schema/layers/mod.rs:229-247 *)
Definition t_float (x : f64) : float_value := mkAnimProp None (Some BIFalse) None None (AkStatic x).
(** schema/layers/mod.rs:186-320 *)
Definition t_layer (a b c d : f64) : any_layer :=
  AlShape (mkVisualLayer
    (mkSLayer (mkVisualObject (Some "Ellipse") (Some "{0a36d01c-18e1-48d3-8e8f-cc093b3f24ba}")) (Some BIFalse) None 4 (Some 1%nat) None None
      (f_of_Z 0) (f_of_Z 180) (Some (f_of_Z 0)))
    None None None
    (mkSTransform (Some (t_position [f_of_Z 256; f_of_Z 256])) (ApPosition (t_position [f_of_Z 256; f_of_Z 256])) (Some (t_multi [f_of_Z 100; f_of_Z 100]))
      (Some (ArRotation (t_float (f_of_Z 0)))) None None (Some (t_float (f_of_Z 100))))
    None None None None None None None None None None) [t_group a b c d].
(** schema/layers/mod.rs:322-336 *)
Example test_layer_deserialize : forall a b c d, de_layer (t_layer_json a b c d) = Some (t_layer a b c d).
Proof. reflexivity. Qed.
Example test_layer_serialize : forall a b c d, is_finite a = true -> is_finite b = true -> is_finite c = true -> is_finite d = true ->
  de_layer (ser_layer (t_layer a b c d)) = Some (t_layer a b c d).
Proof.
  intros a b c d Fa Fb Fc Fd. destruct a; try discriminate Fa; destruct b; try discriminate Fb; destruct c; try discriminate Fc; destruct d; try discriminate Fd; reflexivity.
Qed.

(** import/converters.rs:1015-1076 *)
Definition t_shape_layer (hidden matte_target : bool) : any_layer :=
  AlShape (mkVisualLayer
    (mkSLayer (mkVisualObject (Some "test") None) None (if hidden then Some true else None) 4 (Some 0%nat) None None (f_of_Z 0) (f_of_Z 60) (Some (f_of_Z 0)))
    None (if matte_target then Some BITrue else None) None
    (mkSTransform None (ApPosition (t_position [f_of_Z 0; f_of_Z 0])) None (Some (ArRotation (t_float (f_of_Z 0)))) None None None)
    None None None None None None None None None None) [].
(** import/converters.rs:1078-1083 *)
Example hidden_layer_has_no_content : forall E, exists cv, conv_layer E (t_shape_layer true false) = Ok cv /\ ly_content (cv_layer cv) = CNone.
Proof. intros E. eexists. split; reflexivity. Qed.
(** import/converters.rs:1085-1090 *)
Example hidden_matte_layer_has_is_mask_false : forall E, exists cv, conv_layer E (t_shape_layer true true) = Ok cv /\ ly_is_mask (cv_layer cv) = false.
Proof. intros E. eexists. split; reflexivity. Qed.
(** import/converters.rs:1092-1097 *)
Example visible_matte_layer_has_is_mask_true : forall E, exists cv, conv_layer E (t_shape_layer false true) = Ok cv /\ ly_is_mask (cv_layer cv) = true.
Proof. intros E. eexists. split; reflexivity. Qed.
(** import/converters.rs:1099-1104 *)
Example visible_layer_has_content : forall E, exists cv l, conv_layer E (t_shape_layer false false) = Ok cv /\ ly_content (cv_layer cv) = CShape l.
Proof. intros E. do 2 eexists. split; reflexivity. Qed.
