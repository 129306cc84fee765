(** What a frame of a composition should look like: the calls a sink should
    receive, by rules on the layer tree.  No renderer, batch or recursion
    budget occurs. *)
From Coq Require Import ZArith Bool List Arith String.
From Verif Require Import F64 Kurbo Value Animated Batch Render RenderSpec BatchSpec.
Import ListNotations.
Open Scope list_scope.

(** The ancestors that count for the placement of a layer: all of them, or, if
    the parent links never end, as many as there are layers in the list. *)
Definition lineage (set : list layer) (o : option nat) (ps : list layer) : Prop :=
  ancestors set o ps \/
  (forall qs, ~ ancestors set o qs) /\ ancestors_upto set o ps /\ List.length ps = List.length set.
(** [tf] is where a layer of [set] goes when [set] is placed by [outer]. *)
Definition placement (E : Ext) (set : list layer) (ly : layer) (outer : affine) (frame : f64) (tf : affine) : Prop :=
  exists ps, lineage set (ly_parent ly) ps /\
    tf = affine_mul outer (chain_product E frame ps (transform_eval E (ly_transform ly) frame)).
(** Opacity (0 to 1) of a layer in a surrounding of opacity [alpha]. *)
Definition dimmed (E : Ext) (ly : layer) (alpha frame : f64) : f64 :=
  fdiv (fmul alpha (eval E (ly_opacity ly) frame)) f100.
(** Time inside a precomposition shown by [ly]. *)
Definition inner_time (ly : layer) (frame : f64) : f64 :=
  fadd (fdiv frame (ly_stretch ly)) (fdiv (fneg (ly_start_frame ly)) (ly_stretch ly)).
(** The whole canvas. *)
Definition canvas (c : composition) : sink_shape :=
  SkRect f0 f0 (f_of_Z (co_width c)) (f_of_Z (co_height c)).
(** Layers shown from a list, bottom first. *)
Definition shown (l : list (nat * layer)) : list (nat * layer) :=
  filter (fun p => negb (ly_is_mask (snd p))) (rev l).

Section Frame.
  Variable E : Ext.
  Variable c : composition.

  (** [frame_layer set ly idx outer alpha frame es]: the layer [ly] of the list
      [set], with group number [idx], in a surrounding placed by [outer] with
      opacity [alpha], at time [frame]. *)
  Inductive frame_layer : list layer -> layer -> nat -> affine -> f64 -> f64 -> list event -> Prop :=
  | fl_absent set ly idx outer alpha frame :
      ~ active ly frame -> frame_layer set ly idx outer alpha frame []
  | fl_present set ly idx outer alpha frame tf matte paths inner :
      active ly frame -> placement E set ly outer frame tf ->
      frame_matte set ly outer alpha frame matte ->
      Forall2 (fun m p => geometry_eval E (mk_geometry m) frame = Ok p) (ly_masks ly) paths ->
      frame_content (ly_content ly) tf (dimmed E ly alpha frame) frame (inner_time ly frame) inner ->
      frame_layer set ly idx outer alpha frame
        ([EvBegin (ly_name ly) idx] ++ matte ++ map (fun p => EvPushClip tf (SkPath p)) paths ++ inner
         ++ map (fun _ => EvPop) paths ++ (if ly_mask_layer ly then [EvPop; EvPop] else []) ++ [EvEnd])
  (** the matte of a layer: isolated, then the layer that combines with it *)
  with frame_matte : list layer -> layer -> affine -> f64 -> f64 -> list event -> Prop :=
  | fm_none set ly outer alpha frame :
      ly_mask_layer ly = None -> frame_matte set ly outer alpha frame []
  | fm_some set ly outer alpha frame mode k m es :
      ly_mask_layer ly = Some (mode, k) -> nth_error set k = Some m ->
      frame_layer set m 0 outer alpha frame es ->
      frame_matte set ly outer alpha frame
        ([EvPushLayer (blend_of_mix MixNormal) f32_one outer (canvas c)] ++ es
         ++ [EvPushLayer mode f32_one outer (canvas c)])
  | fm_dangling set ly outer alpha frame mode k :
      ly_mask_layer ly = Some (mode, k) -> nth_error set k = None ->
      frame_matte set ly outer alpha frame
        [EvPushLayer (blend_of_mix MixNormal) f32_one outer (canvas c);
         EvPushLayer mode f32_one outer (canvas c)]
  with frame_content : content -> affine -> f64 -> f64 -> f64 -> list event -> Prop :=
  | fc_none tf alpha frame inner_frame : frame_content CNone tf alpha frame inner_frame []
  | fc_shapes shs tf alpha frame inner_frame p :
      shapes_pic E tf alpha frame shs = Ok p ->
      frame_content (CShape shs) tf alpha frame inner_frame (map EvDraw (pic_paints E p))
  | fc_missing name remap tf alpha frame inner_frame :
      find_asset c name = None -> frame_content (CInstance name remap) tf alpha frame inner_frame []
  | fc_instance name remap ls tf alpha frame inner_frame es :
      find_asset c name = Some ls ->
      frame_layers ls (shown (map (fun ly => (0, ly)) ls)) tf alpha inner_frame es ->
      frame_content (CInstance name remap) tf alpha frame inner_frame es
  (** numbered layers of a list, in this order *)
  with frame_layers : list layer -> list (nat * layer) -> affine -> f64 -> f64 -> list event -> Prop :=
  | fs_nil set tf alpha frame : frame_layers set [] tf alpha frame []
  | fs_cons set i ly l tf alpha frame es es' :
      frame_layer set ly i tf alpha frame es -> frame_layers set l tf alpha frame es' ->
      frame_layers set ((i, ly) :: l) tf alpha frame (es ++ es').

  (** A frame: the layers, clipped to the canvas. *)
  Definition frame_picture (frame : f64) (tf : affine) (alpha : f64) (es : list event) : Prop :=
    exists body,
      frame_layers (co_layers c) (shown (combine (seq 0 (List.length (co_layers c))) (co_layers c))) tf alpha frame body /\
      es = [EvPushClip tf (canvas c)] ++ body ++ [EvPop].
End Frame.

(** No shape layer merges paths of different groups (see [BatchSpec.no_clash]). *)
Definition never_clash (E : Ext) (c : composition) : Prop :=
  forall p ly shs, layer_at c p = Some ly -> ly_content ly = CShape shs ->
    forall frame tf, no_clash E frame tf shs.
