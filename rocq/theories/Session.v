(** Model of the viewer's event loop with the statistics panel
    (/repo/examples/with_winit/src/lib.rs:158-501 with 380-391): the events of
    Viewer.v, where a redraw also draws the panel of Panel.v. *)
From Coq Require Import ZArith Bool List.
From Verif Require Import F64 Kurbo Value Stats Viewer Panel.
Import ListNotations.
Open Scope list_scope.
Open Scope Z_scope.

(** lib.rs:133, 363 [AA_CONFIGS] *)
Definition aa_method (ix : Z) : aa_config := if ix =? 0 then AaArea else if ix =? 1 then AaMsaa8 else AaMsaa16.
(** The size of the window and the counts vello gave for the frame before
    (lib.rs:129, 323-324, 400-413), which are inputs here. *)
Record surroundings := mkAround { su_width : Z; su_height : Z; su_counts : option bump }.
(** lib.rs:326, 329-330, 380-391: the panel, if it is shown; from the statistics before this frame *)
Definition panel_drawn (v : viewer) (a : surroundings) : res (option (list item)) :=
  if vw_stats_shown v then
    let! items := draw_layer (snapshot_of (vw_stats v)) (st_samples (vw_stats v)) (if vw_complexity_shown v then su_counts a else None)
                    (vw_vsync v) (aa_method (vw_aa v mod 3)) (f_of_Z (su_width a)) (f_of_Z (su_height a)) in
    Ok (Some items)
  else Ok None.
(** What one frame shows: the scene and the panel. *)
Definition frame_shown : Type := shown * option (list item).
Section Session.
Context (E : Ext) (atan2 : f64 -> f64 -> f64).
(** lib.rs:158-501: one event.  Both parts of a redraw can panic; which comes first is not kept. *)
Definition full_step (scenes : Z) (v : viewer) (e : viewer_event * surroundings) : res (viewer * option frame_shown) :=
  let! p := match fst e with VeRedraw _ => panel_drawn v (snd e) | _ => Ok None end in
  let! (v, s) := viewer_step E atan2 scenes v (fst e) in
  Ok (v, match s with Some s => Some (s, p) | None => None end).
(** lib.rs:158-501: the events one after the other *)
Fixpoint full_run (scenes : Z) (v : viewer) (es : list (viewer_event * surroundings)) : res (viewer * list frame_shown) :=
  match es with
  | [] => Ok (v, [])
  | e :: es =>
      let! (v, s) := full_step scenes v e in
      let! (v, ss) := full_run scenes v es in
      Ok (v, match s with Some s => s :: ss | None => ss end)
  end.
End Session.
