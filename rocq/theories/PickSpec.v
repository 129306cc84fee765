(** What hit-testing by layer means: which groups of sink calls are layers of
    interest, what they cover, and which of them is under the cursor. *)
From Coq Require Import ZArith Bool List Arith String.
From Verif Require Import F64 Kurbo Value Animated Batch Render RenderSpec Picking.
Import ListNotations.
Open Scope list_scope.
Open Scope nat_scope.

(** [outermost I es l]: [l] are the outermost groups of [es] whose name is of
    interest, with the calls inside them, in order. *)
Inductive outermost (I : string -> Prop) : list event -> list (string * list event) -> Prop :=
| om_nil : outermost I [] []
| om_other : forall e es l,
    match e with EvBegin _ _ | EvEnd => False | _ => True end -> outermost I es l -> outermost I (e :: es) l
| om_in : forall n i inner rest l, I n -> nested inner -> outermost I rest l ->
    outermost I (EvBegin n i :: inner ++ EvEnd :: rest) ((n, inner) :: l)
| om_out : forall n i inner rest l l', ~ I n -> outermost I inner l -> outermost I rest l' ->
    outermost I (EvBegin n i :: inner ++ EvEnd :: rest) (l ++ l').

(** The draw calls of a list of calls. *)
Definition draws_of (es : list event) : list paint :=
  flat_map (fun e => match e with EvDraw p => [p] | _ => [] end) es.

(** The bounding box of some rectangles: it contains all points they contain,
    and every edge of it is an edge of one of them. *)
Record bounds (boxes : list rect) (r : rect) : Prop := {
  bo_covers : forall b p, In b boxes -> rect_contains b p = true -> rect_contains r p = true;
  bo_left : exists b, In b boxes /\ rx0 r = rx0 b;
  bo_top : exists b, In b boxes /\ ry0 r = ry0 b;
  bo_right : exists b, In b boxes /\ rx1 r = rx1 b;
  bo_bottom : exists b, In b boxes /\ ry1 r = ry1 b }.

(** The hit of a group: its name, and the bounding box of what is drawn in it. *)
Definition hit_of (bbox : list path_el -> rect) (g : string * list event) (h : layer_hit) : Prop :=
  lh_name h = fst g /\
  bounds (map (fun p => transform_rect_bbox (pt_transform p) (bbox (pt_path p))) (draws_of (snd g))) (lh_rect h).

(** The top-most of several rectangles (later is higher) at a point. *)
Definition topmost (rs : list rect) (p : point) (o : option nat) : Prop :=
  match o with
  | Some i => (exists r, nth_error rs i = Some r /\ rect_contains r p = true) /\
              forall j r, i < j -> nth_error rs j = Some r -> rect_contains r p = false
  | None => forall r, In r rs -> rect_contains r p = false
  end.
