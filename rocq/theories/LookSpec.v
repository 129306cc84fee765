(** The rules of FrameSpec.v with the painting of shape layers left open: what
    a frame looks like, given what the shapes of a layer look like. *)
From Coq Require Import ZArith Bool List Arith String.
From Verif Require Import F64 Kurbo Value Animated Batch Render RenderSpec BatchSpec FrameSpec.
Import ListNotations.
Open Scope list_scope.

Section Look.
  Variable E : Ext.
  Variable c : composition.
  (** [look tf alpha frame shs ps]: the draw calls [ps] show the shapes [shs]. *)
  Variable look : affine -> f64 -> f64 -> list shape -> list paint -> Prop.

  (** [look_layer set ly idx outer alpha frame es]: the layer [ly] of the list
      [set], with group number [idx], in a surrounding placed by [outer] with
      opacity [alpha], at time [frame]. *)
  Inductive look_layer : list layer -> layer -> nat -> affine -> f64 -> f64 -> list event -> Prop :=
  | ll_absent set ly idx outer alpha frame :
      ~ active ly frame -> look_layer set ly idx outer alpha frame []
  | ll_present set ly idx outer alpha frame tf matte paths inner :
      active ly frame -> placement E set ly outer frame tf ->
      look_matte set ly outer alpha frame matte ->
      Forall2 (fun m p => geometry_eval E (mk_geometry m) frame = Ok p) (ly_masks ly) paths ->
      look_content (ly_content ly) tf (dimmed E ly alpha frame) frame (inner_time ly frame) inner ->
      look_layer set ly idx outer alpha frame
        ([EvBegin (ly_name ly) idx] ++ matte ++ map (fun p => EvPushClip tf (SkPath p)) paths ++ inner
         ++ map (fun _ => EvPop) paths ++ (if ly_mask_layer ly then [EvPop; EvPop] else []) ++ [EvEnd])
  (** the matte of a layer: isolated, then the layer that combines with it *)
  with look_matte : list layer -> layer -> affine -> f64 -> f64 -> list event -> Prop :=
  | lm_none set ly outer alpha frame :
      ly_mask_layer ly = None -> look_matte set ly outer alpha frame []
  | lm_some set ly outer alpha frame mode k m es :
      ly_mask_layer ly = Some (mode, k) -> nth_error set k = Some m ->
      look_layer set m 0 outer alpha frame es ->
      look_matte set ly outer alpha frame
        ([EvPushLayer (blend_of_mix MixNormal) f32_one outer (canvas c)] ++ es
         ++ [EvPushLayer mode f32_one outer (canvas c)])
  | lm_dangling set ly outer alpha frame mode k :
      ly_mask_layer ly = Some (mode, k) -> nth_error set k = None ->
      look_matte set ly outer alpha frame
        [EvPushLayer (blend_of_mix MixNormal) f32_one outer (canvas c);
         EvPushLayer mode f32_one outer (canvas c)]
  with look_content : content -> affine -> f64 -> f64 -> f64 -> list event -> Prop :=
  | lc_none tf alpha frame inner_frame : look_content CNone tf alpha frame inner_frame []
  | lc_shapes shs tf alpha frame inner_frame ps :
      look tf alpha frame shs ps ->
      look_content (CShape shs) tf alpha frame inner_frame (map EvDraw ps)
  | lc_missing name remap tf alpha frame inner_frame :
      find_asset c name = None -> look_content (CInstance name remap) tf alpha frame inner_frame []
  | lc_instance name remap ls tf alpha frame inner_frame es :
      find_asset c name = Some ls ->
      look_layers ls (shown (map (fun ly => (0, ly)) ls)) tf alpha inner_frame es ->
      look_content (CInstance name remap) tf alpha frame inner_frame es
  (** numbered layers of a list, in this order *)
  with look_layers : list layer -> list (nat * layer) -> affine -> f64 -> f64 -> list event -> Prop :=
  | ls_nil set tf alpha frame : look_layers set [] tf alpha frame []
  | ls_cons set i ly l tf alpha frame es es' :
      look_layer set ly i tf alpha frame es -> look_layers set l tf alpha frame es' ->
      look_layers set ((i, ly) :: l) tf alpha frame (es ++ es').

  (** A frame: the layers, clipped to the canvas. *)
  Definition look_picture (frame : f64) (tf : affine) (alpha : f64) (es : list event) : Prop :=
    exists body,
      look_layers (co_layers c) (shown (combine (seq 0 (List.length (co_layers c))) (co_layers c))) tf alpha frame body /\
      es = [EvPushClip tf (canvas c)] ++ body ++ [EvPop].
End Look.

