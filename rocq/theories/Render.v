(** Model of [Renderer] in /repo/src/runtime/render.rs:14-251 and of
    /repo/src/runtime/vello.rs. *)
From Coq Require Import ZArith Bool List Arith String.
From Flocq Require Import Core BinarySingleNaN.
From Verif Require Import F64 Kurbo Value Animated Batch.
Import ListNotations.

(** The [impl kurbo::Shape] arguments velato passes to a sink. *)
Inductive sink_shape :=
| SkRect (x0 y0 x1 y1 : f64)
| SkPath (els : list path_el).

(** render.rs:14-43: the calls of a [RenderSink] with their arguments *)
Inductive event :=
| EvPushLayer (blend : blend_mode) (alpha : f32) (t : affine) (s : sink_shape)
| EvPushClip (t : affine) (s : sink_shape)
| EvPop
| EvDraw (p : paint)
| EvBegin (name : string) (index : nat)
| EvEnd.

(** render.rs:46-50 [Renderer] *)
Record renderer := mkRenderer { rn_batch : batch; rn_mask : list path_el }.
(** render.rs:54-56 [Renderer::new] *)
Definition renderer_new : renderer := mkRenderer batch_empty [].

(** A sink call together with the renderer's state while the call runs; if
    the sink panics, this is the state the renderer is left in. *)
Definition call : Type := event * renderer.

(** Outcome of running some code on a renderer: how it ended, the renderer
    afterwards, and the sink calls made (also when it panicked or ran out of
    budget). *)
Record run (A : Type) := mkRun { r_out : res A; r_st : renderer; r_trace : list call }.
Arguments mkRun {A}. Arguments r_out {A}. Arguments r_st {A}. Arguments r_trace {A}.
(** Code that runs on a renderer (the model's own). *)
Definition M (A : Type) : Type := renderer -> run A.
(** Code that returns a value. *)
Definition ret {A} (a : A) : M A := fun r => mkRun (Ok a) r [].
(** Code and what follows it. *)
Definition mbind {A B} (m : M A) (k : A -> M B) : M B := fun r =>
  let x := m r in
  match r_out x with
  | Ok a => let y := k a (r_st x) in mkRun (r_out y) (r_st y) (r_trace x ++ r_trace y)
  | Panic => mkRun Panic (r_st x) (r_trace x)
  | Oof => mkRun Oof (r_st x) (r_trace x)
  end.
Notation "m1 ;; m2" := (mbind m1 (fun _ => m2)) (at level 61, right associativity).
(** A call of a method of the [RenderSink], render.rs:14-43. *)
Definition emit (e : event) : M unit := fun r => mkRun (Ok tt) r [(e, r)].
(** Several such calls. *)
Definition emits (es : list event) : M unit := fun r => mkRun (Ok tt) r (map (fun e => (e, r)) es).
(** A [for] loop. *)
Fixpoint forM {A} (l : list A) (f : A -> M unit) : M unit :=
  match l with [] => ret tt | x :: l => f x ;; forM l f end.

(** The [for] loop over a shape list (render.rs:184). *)
Definition fold_shapes {S} (f : shape -> S -> res S) : list shape -> S -> res S :=
  fix go (shs : list shape) (b : S) {struct shs} : res S :=
    match shs with
    | [] => Ok b
    | s :: shs => let! b := f s b in go shs b
    end.

(** render.rs:187-195: transform and opacity factor of a group *)
Definition group_params (E : Ext) (gt : option group_transform) (frame : f64) : affine * f64 :=
  match gt with
  | Some g => (transform_eval E (gt_transform g) frame, fdiv (eval E (gt_opacity g) frame) f100)
  | None => (affine_identity, f1)
  end.

(** render.rs:185-218: the loop body of [render_shapes].  [gs]/[ds] are
    [geometry_start]/[draw_start] of the enclosing call; the recursive call
    for a group (render.rs:196) takes its own from the batch at entry. *)
Fixpoint render_shape (E : Ext) (tf : affine) (alpha frame : f64) (gs ds : nat)
  (sh : shape) (b : batch) {struct sh} : res batch :=
  match sh with
  | ShGroup shapes gt =>
      let p := group_params E gt frame in
      fold_shapes (render_shape E (affine_mul tf (fst p)) (fmul alpha (snd p)) frame
                                (List.length (b_geoms b)) (List.length (b_draws b)))
                  shapes b
  | ShGeometry g => push_geometry E b g tf frame
  | ShDraw d => Ok (push_draw E b d alpha gs frame)
  | ShRepeater r => batch_repeat E b (repeater_eval E r frame) gs ds
  | ShTrim t => apply_trim E b (trim_eval E t frame) gs
  end.
(** render.rs:177-220 [Renderer::render_shapes] *)
Definition render_shapes (E : Ext) (shapes : list shape) (tf : affine) (alpha frame : f64)
  (b : batch) : res batch :=
  fold_shapes (render_shape E tf alpha frame (List.length (b_geoms b)) (List.length (b_draws b)))
              shapes b.

(** render.rs:235-248: the parent chain loop; [fuel] is
    [layer_set.len() - count], so running out of it is the [break] at 239. *)
Fixpoint parent_chain (E : Ext) (set : list layer) (frame : f64) (fuel : nat)
  (parent : option nat) (tf : affine) : affine :=
  match parent with
  | None => tf
  | Some index =>
      match fuel with
      | O => tf
      | S fuel =>
          match nth_error set index with
          | Some p => parent_chain E set frame fuel (ly_parent p)
                        (affine_mul (transform_eval E (ly_transform p) frame) tf)
          | None => tf
          end
      end
  end.
(** render.rs:225-250 [Renderer::compute_transform] *)
Definition compute_transform (E : Ext) (set : list layer) (ly : layer) (global : affine)
  (frame : f64) : affine :=
  affine_mul global
    (parent_chain E set frame (List.length set) (ly_parent ly)
                  (transform_eval E (ly_transform ly) frame)).

(** render.rs:102 [layer.frames.contains(&frame)] *)
Definition in_window (ly : layer) (frame : f64) : bool :=
  fleb (ly_in ly) frame && fltb frame (ly_out ly).

(** render.rs:70, 108 *)
Definition full_rect (c : composition) : sink_shape :=
  SkRect f0 f0 (f_of_Z (co_width c)) (f_of_Z (co_height c)).

(** the constant [1.0_f32] *)
Definition f32_one : f32 := f64_to_f32 f1.

(** render.rs:130-132: one mask.  A panic inside [evaluate] (oversized star)
    happens before anything is pushed to [mask_elements]. *)
Definition render_mask (E : Ext) (tf : affine) (frame : f64) (m : mask) : M unit := fun r =>
  match geometry_eval E (mk_geometry m) frame with
  | Ok els =>
      let r1 := mkRenderer (rn_batch r) (rn_mask r ++ els) in
      mkRun (Ok tt) (mkRenderer (rn_batch r) []) [(EvPushClip tf (SkPath (rn_mask r1)), r1)]
  | Panic => mkRun Panic r []
  | Oof => mkRun Oof r []
  end.

(** render.rs:165-169: shape content.  Simplification: when a batch
    operation panics, the batch is reported as it was before; [append]
    clears it anyway. *)
Definition render_content_shapes (E : Ext) (shapes : list shape) (tf : affine) (alpha frame : f64)
  : M unit := fun r =>
  match render_shapes E shapes tf alpha frame (rn_batch r) with
  | Ok b =>
      match batch_render E b with
      | Ok ps =>
          mkRun (Ok tt) (mkRenderer (batch_clear b) (rn_mask r))
                (map (fun p => (EvDraw p, mkRenderer b (rn_mask r))) ps)
      | Panic => mkRun Panic r []
      | Oof => mkRun Oof r []
      end
  | Panic => mkRun Panic r []
  | Oof => mkRun Oof r []
  end.

(** The budget of a recursion is exhausted (the model's own). *)
Definition oof : M unit := fun r => mkRun Oof r [].

(** render.rs:91-175 [Renderer::render_layer].  [fuel] bounds the recursion
    depth (the Rust code recurses on the call stack). *)
Fixpoint render_layer (E : Ext) (fuel : nat) (c : composition) (set : list layer) (ly : layer)
  (index : nat) (parent_tf : affine) (alpha0 frame : f64) : M unit :=
  match fuel with
  | O => oof
  | S fuel =>
      if negb (in_window ly frame) then ret tt else
      let tf := compute_transform E set ly parent_tf frame in
      let alpha := fdiv (fmul alpha0 (eval E (ly_opacity ly) frame)) f100 in
      emit (EvBegin (ly_name ly) index) ;;
      (match ly_mask_layer ly with
       | Some (mode, mask_index) =>
           emit (EvPushLayer (blend_of_mix MixNormal) f32_one parent_tf (full_rect c)) ;;
           (match nth_error set mask_index with
            | Some m => render_layer E fuel c set m 0 parent_tf alpha0 frame
            | None => ret tt
            end) ;;
           emit (EvPushLayer mode f32_one parent_tf (full_rect c))
       | None => ret tt
       end) ;;
      forM (ly_masks ly) (render_mask E tf frame) ;;
      (match ly_content ly with
       | CNone => ret tt
       | CInstance name _ =>
           match find_asset c name with
           | Some asset_layers =>
               let frame' := fadd (fdiv frame (ly_stretch ly))
                                  (fdiv (fneg (ly_start_frame ly)) (ly_stretch ly)) in
               forM (rev asset_layers) (fun al =>
                 if ly_is_mask al then ret tt
                 else render_layer E fuel c asset_layers al 0 tf alpha frame')
           | None => ret tt
           end
       | CShape shapes => render_content_shapes E shapes tf alpha frame
       end) ;;
      emits (repeat EvPop (List.length (ly_masks ly) +
                           (match ly_mask_layer ly with Some _ => 2 | None => 0 end))) ;;
      emit EvEnd
  end.

(** [iter().enumerate()] *)
Definition enumerate {A} (l : list A) : list (nat * A) := combine (seq 0 (List.length l)) l.

(** render.rs:59-88 [Renderer::append] *)
Definition append (E : Ext) (fuel : nat) (c : composition) (frame : f64) (tf : affine) (alpha : f64)
  : M unit := fun r =>
  (emit (EvPushClip tf (full_rect c)) ;;
   forM (rev (enumerate (co_layers c))) (fun '(i, ly) =>
     if ly_is_mask ly then ret tt
     else render_layer E fuel c (co_layers c) ly i tf alpha frame) ;;
   emit EvPop)
  (mkRenderer (batch_clear (rn_batch r)) (rn_mask r)).

(** The sink calls without the state snapshots. *)
Definition events {A} (x : run A) : list event := map fst (r_trace x).

(** vello.rs:9-41: the [RenderSink] of [vello::Scene].  The scene is the list
    of operations it received. *)
Inductive scene_op :=
| OpPushLayer (blend : blend_mode) (alpha : f32) (t : affine) (s : sink_shape)
| OpPushClip (t : affine) (s : sink_shape)
| OpPop
| OpStroke (st : stroke) (t : affine) (b : brush) (els : list path_el)
| OpFill (t : affine) (b : brush) (els : list path_el).
(** vello.rs:9-41: the operation of the scene for a call *)
Definition vello_op (e : event) : list scene_op :=
  match e with
  | EvPushLayer b a t s => [OpPushLayer b a t s]
  | EvPushClip t s => [OpPushClip t s]
  | EvPop => [OpPop]
  | EvDraw p =>
      match pt_stroke p with
      | Some st => [OpStroke st (pt_transform p) (pt_brush p) (pt_path p)]
      | None => [OpFill (pt_transform p) (pt_brush p) (pt_path p)]
      end
  | EvBegin _ _ | EvEnd => [] (* default methods, render.rs:39-42 *)
  end.
(** vello.rs:45-55 [render_to_vello_scene] *)
Definition render_to_vello_scene (E : Ext) (fuel : nat) (c : composition) (frame : f64)
  (tf : affine) (alpha : f64) (r : renderer) : res (list scene_op) * renderer :=
  let x := append E fuel c frame tf alpha r in
  (let! _ := r_out x in Ok (flat_map vello_op (events x)), r_st x).
