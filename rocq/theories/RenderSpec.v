(** Specifications for the renderer's sink calls.  Nothing here refers to
    how the renderer computes them. *)
From Coq Require Import ZArith Bool List Arith String.
From Verif Require Import F64 Kurbo Value Animated Batch Render.
Import ListNotations.

(** Calls that open a sink layer. *)
Definition opens_layer (e : event) : Prop :=
  match e with EvPushLayer _ _ _ _ | EvPushClip _ _ => True | _ => False end.

(** Well-nested bracket words over the two kinds of brackets
    push_layer/push_clip_layer ... pop_layer and
    begin_layer_group ... end_layer_group. *)
Inductive nested : list event -> Prop :=
| nested_nil : nested []
| nested_draw : forall p es, nested es -> nested (EvDraw p :: es)
| nested_layer : forall o inner rest,
    opens_layer o -> nested inner -> nested rest -> nested (o :: inner ++ EvPop :: rest)
| nested_group : forall name i inner rest,
    nested inner -> nested rest -> nested (EvBegin name i :: inner ++ EvEnd :: rest).

(** A consumer that tracks open brackets: [true] is an open layer, [false] an
    open group.  It rejects ([None]) a close that does not match. *)
Definition consume (stack : list bool) (e : event) : option (list bool) :=
  match e, stack with
  | EvPushLayer _ _ _ _, _ | EvPushClip _ _, _ => Some (true :: stack)
  | EvBegin _ _, _ => Some (false :: stack)
  | EvPop, true :: stack => Some stack
  | EvEnd, false :: stack => Some stack
  | EvDraw _, _ => Some stack
  | _, _ => None
  end.
Fixpoint consume_all (stack : list bool) (es : list event) : option (list bool) :=
  match es with
  | [] => Some stack
  | e :: es => match consume stack e with Some s => consume_all s es | None => None end
  end.

(** Renderers a program can hold: fresh, or used for any number of appends
    that returned.  The external functions may differ from use to use. *)
Inductive used : renderer -> Prop :=
| used_new : used renderer_new
| used_append : forall E fuel c frame tf alpha r,
    used r -> r_out (append E fuel c frame tf alpha r) = Ok tt ->
    used (r_st (append E fuel c frame tf alpha r)).

(** ... or appends that panicked inside velato (leaving the batch in any
    state [b]), or that were cut short by a panicking sink call (the renderer
    is left as it was during that call), except a call for which [bad]
    holds. *)
Inductive used_crash (bad : event -> Prop) : renderer -> Prop :=
| uc_new : used_crash bad renderer_new
| uc_append : forall E fuel c frame tf alpha r,
    used_crash bad r -> r_out (append E fuel c frame tf alpha r) = Ok tt ->
    used_crash bad (r_st (append E fuel c frame tf alpha r))
| uc_panic : forall E fuel c frame tf alpha r b,
    used_crash bad r -> r_out (append E fuel c frame tf alpha r) = Panic ->
    used_crash bad (mkRenderer b (rn_mask (r_st (append E fuel c frame tf alpha r))))
| uc_crash : forall E fuel c frame tf alpha r e r',
    used_crash bad r -> In (e, r') (r_trace (append E fuel c frame tf alpha r)) ->
    ~ bad e -> used_crash bad r'.

(** The clip call of a layer mask. *)
Definition is_mask_clip (e : event) : Prop :=
  match e with EvPushClip _ (SkPath _) => True | _ => False end.

(** [begin_layer_group] calls at group depth zero. *)
Fixpoint top_groups (depth : nat) (es : list event) : list (string * nat) :=
  match es with
  | [] => []
  | EvBegin n i :: es =>
      if depth =? 0 then (n, i) :: top_groups (S depth) es else top_groups (S depth) es
  | EvEnd :: es => top_groups (pred depth) es
  | _ :: es => top_groups depth es
  end.

(** The ancestors of a layer, nearest first, as given by parent links; the
    chain ends at a layer without parent or at an index outside the set. *)
Inductive ancestors (set : list layer) : option nat -> list layer -> Prop :=
| anc_none : ancestors set None []
| anc_missing : forall i, nth_error set i = None -> ancestors set (Some i) []
| anc_step : forall i p ps,
    nth_error set i = Some p -> ancestors set (ly_parent p) ps ->
    ancestors set (Some i) (p :: ps).
(** A finite initial piece of the (possibly infinite) chain. *)
Inductive ancestors_upto (set : list layer) : option nat -> list layer -> Prop :=
| ancu_stop : forall o, ancestors_upto set o []
| ancu_step : forall i p ps,
    nth_error set i = Some p -> ancestors_upto set (ly_parent p) ps ->
    ancestors_upto set (Some i) (p :: ps).

(** Product  [root * (... * (parent * own))]. *)
Definition chain_product (E : Ext) (frame : f64) (ps : list layer) (own : affine) : affine :=
  fold_left (fun acc p => affine_mul (transform_eval E (ly_transform p) frame) acc) ps own.

(** A position in a composition: main layer list or an asset's, and index. *)
Definition pos : Type := option string * nat.
Definition scope_layers (c : composition) (s : option string) : list layer :=
  match s with
  | None => co_layers c
  | Some n => match find_asset c n with Some l => l | None => [] end
  end.
Definition layer_at (c : composition) (p : pos) : option layer :=
  nth_error (scope_layers c (fst p)) (snd p).
(** [refers c p q]: the layer at [p] uses the layer at [q] as its matte, or
    is an instance of the asset that contains [q]. *)
Inductive refers (c : composition) : pos -> pos -> Prop :=
| ref_matte : forall s i ly mode k m,
    layer_at c (s, i) = Some ly -> ly_mask_layer ly = Some (mode, k) ->
    layer_at c (s, k) = Some m -> refers c (s, i) (s, k)
| ref_instance : forall s i ly name remap j m,
    layer_at c (s, i) = Some ly -> ly_content ly = CInstance name remap ->
    layer_at c (Some name, j) = Some m -> refers c (s, i) (Some name, j).
(** No layer refers to itself, directly or through others. *)
Definition acyclic (c : composition) : Prop :=
  forall p, ~ Relation_Operators.clos_trans pos (refers c) p p.

(** Erase everything rendering is claimed not to depend on. *)
Definition erase_mask (m : mask) : mask := mkMask blend_default (mk_geometry m) (VFixed f0).
Definition erase_content (x : content) : content :=
  match x with CInstance n _ => CInstance n None | x => x end.
Definition erase_layer (l : layer) : layer :=
  mkLayer (ly_name l) (ly_parent l) (ly_transform l) (ly_opacity l) f0 f0 None
          (ly_in l) (ly_out l) (ly_stretch l) (ly_start_frame l)
          (map erase_mask (ly_masks l)) (ly_is_mask l) (ly_mask_layer l)
          (erase_content (ly_content l)).
Definition erase_comp (c : composition) : composition :=
  mkComp f0 f0 f0 (co_width c) (co_height c)
         (map (fun p => (fst p, map erase_layer (snd p))) (co_assets c))
         (map erase_layer (co_layers c)).

(** [layer_draws E c set ly idx tf alpha frame es]: rendering the layer [ly]
    on its own (with a fresh renderer) returns, having made exactly the sink
    calls [es]; [append_draws] is the same for a whole composition. *)
Definition layer_draws (E : Ext) (c : composition) (set : list layer) (ly : layer) (idx : nat)
  (tf : affine) (alpha frame : f64) (es : list event) : Prop :=
  exists fuel,
    r_out (render_layer E fuel c set ly idx tf alpha frame renderer_new) = Ok tt /\
    events (render_layer E fuel c set ly idx tf alpha frame renderer_new) = es.
Definition append_draws (E : Ext) (c : composition) (frame : f64) (tf : affine) (alpha : f64)
  (r : renderer) (es : list event) : Prop :=
  exists fuel,
    r_out (append E fuel c frame tf alpha r) = Ok tt /\
    events (append E fuel c frame tf alpha r) = es.

(** The frame lies in the half-open window of the layer. *)
Definition active (ly : layer) (frame : f64) : Prop :=
  fleb (ly_in ly) frame = true /\ fltb frame (ly_out ly) = true.

(** The same layer without its matte, without its masks, without content. *)
Definition without_matte (l : layer) : layer :=
  mkLayer (ly_name l) (ly_parent l) (ly_transform l) (ly_opacity l) (ly_width l) (ly_height l)
          (ly_blend_mode l) (ly_in l) (ly_out l) (ly_stretch l) (ly_start_frame l)
          (ly_masks l) (ly_is_mask l) None (ly_content l).
Definition without_masks (l : layer) : layer :=
  mkLayer (ly_name l) (ly_parent l) (ly_transform l) (ly_opacity l) (ly_width l) (ly_height l)
          (ly_blend_mode l) (ly_in l) (ly_out l) (ly_stretch l) (ly_start_frame l)
          [] (ly_is_mask l) (ly_mask_layer l) (ly_content l).

(** The graph of parent links of a layer set. *)
Definition parent_link (set : list layer) (i j : nat) : Prop :=
  exists p, nth_error set i = Some p /\ ly_parent p = Some j.
