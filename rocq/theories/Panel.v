(** Model of the panel with the frame statistics
    (/repo/examples/with_winit/src/stats.rs:21-179, [Snapshot::draw_layer], called
    at with_winit/src/lib.rs:380-391).  A label is kept as its kind and its
    figures: the text that [format!] makes of them is not modelled; where the
    glyphs of a text are put is in Text.v.  What is drawn before a crash is not
    kept. *)
From Coq Require Import ZArith Bool List.
From Flocq Require Import BinarySingleNaN.
From Verif Require Import F64 Kurbo Stats.
Import ListNotations.
Open Scope Z_scope.

(** vello's counts of memory used, stats.rs:30, 66-75 [BumpAllocators] *)
Record bump := mkBump { bu_failed : Z; bu_binning : Z; bu_ptcl : Z; bu_tile : Z; bu_segments : Z; bu_blend : Z }.
(** stats.rs:57-62 [AaConfig] *)
Inductive aa_config := AaArea | AaMsaa16 | AaMsaa8.
(** stats.rs:51-75, 97, 168: the texts *)
Inductive label :=
| LTime (ms : f64) | LMin (ms : f64) | LMax (ms : f64) | LVsync (on : bool) | LMethod (m : aa_config) | LResolution (w h : f64)
| LFailed | LBinning (n : Z) | LPtcl (n : Z) | LTile (n : Z) | LSegments (n : Z) | LBlend (n : Z)
| LRate (fps : f64) | LMark (ms : f64).
(** stats.rs:36-177: what is drawn.  Colours with opacity, as bytes. *)
Inductive item :=
| IRect (t : affine) (rgba : Z * Z * Z * Z) (w h : f64)
| IText (size : f32) (t : affine) (l : label)
| IBar (t : affine) (rgba : Z * Z * Z * Z) (path : list path_el)
| ILine (thick : f64) (t : affine) (path : list path_el).

(** stats.rs:51-75 *)
Definition labels (s : snapshot) (bu : option bump) (vsync : bool) (m : aa_config) (vw vh : f64) : list label :=
  [LTime (sn_time s); LMin (sn_min s); LMax (sn_max s); LVsync vsync; LMethod m; LResolution vw vh] ++
  match bu with
  | Some b => (if 1 <=? bu_failed b then [LFailed] else []) ++
              [LBinning (bu_binning b); LPtcl (bu_ptcl b); LTile (bu_tile b); LSegments (bu_segments b); LBlend (bu_blend b)]
  | None => []
  end.
(** stats.rs:132-136 *)
Definition bar_colour (sample : Z) : Z * Z * Z * Z :=
  if sample <=? 16667 then (100, 143, 255, 255) else if sample <=? 33334 then (255, 176, 0, 255) else (220, 38, 127, 255).
(** A list with its indices, [enumerate] at stats.rs:81, 125 *)
Definition enumerated {A} (l : list A) : list (nat * A) := combine (seq 0 (List.length l)) l.

(** stats.rs:23-178 [draw_layer] *)
Definition draw_layer (s : snapshot) (samples : list Z) (bu : option bump) (vsync : bool) (m : aa_config) (vw vh : f64) : res (list item) :=
  let width := fclamp (f_of_Z 200) (f_of_Z 600) (fmul vw (flit 4 10)) in
  let height := fmul width (flit 7 10) in
  let x_offset := fsub vw width in
  let y_offset := fsub vh height in
  let offset := affine_translate x_offset y_offset in
  let ls := labels s bu vsync m vw vh in
  let lines := f_of_Z (Z.of_nat (1 + List.length ls)) in
  let text_height := fdiv (fmul height (flit 5 10)) lines in
  let left_margin := fmul width (flit 1 100) in
  let text_size := f64_to_f32 (fmul text_height (flit 9 10)) in
  let texts := map (fun il => IText text_size (affine_mul offset (affine_translate left_margin (fmul (f_of_Z (Z.of_nat (fst il + 1))) text_height))) (snd il)) (enumerated ls) in
  let rate := IText text_size (affine_mul offset (affine_translate (fmul width (flit 67 100)) text_height)) (LRate (sn_fps s)) in
  let left_padding := fmul width (flit 5 100) in
  let graph_max_height := fmul height (flit 5 10) in
  let graph_max_width := fsub (fsub width (fmul (f_of_Z 2) left_margin)) left_padding in
  let left_margin_padding := fadd left_margin left_padding in
  let bar_extent := fdiv graph_max_width (f_of_Z 100) in
  let bar_width := fmul bar_extent (flit 4 10) in
  let bar := [MoveTo (mkPoint f0 graph_max_height); LineTo (mkPoint f0 f0); LineTo (mkPoint bar_width f0); LineTo (mkPoint bar_width graph_max_height)] in
  let! dmax := display_max s in
  let bars := map (fun is =>
      let t := affine_mul offset (affine_translate (fmul (f_of_Z (Z.of_nat (fst is))) bar_extent) graph_max_height) in
      let h := bar_height dmax (snd is) in
      IBar (affine_mul (affine_mul t (affine_translate left_margin_padding (fmul lines text_height))) (affine_scale f1 (fneg h))) (bar_colour (snd is)) bar)
    (enumerated samples) in
  let marker := [MoveTo (mkPoint f0 graph_max_height); LineTo (mkPoint graph_max_width graph_max_height)] in
  let thres_text_height := fmul graph_max_height (flit 5 100) in
  let thres_text_height_2 := fmul thres_text_height (flit 5 10) in
  let marks := flat_map (fun t =>
      let y := fdiv t dmax in
      [IText (f64_to_f32 thres_text_height)
         (affine_mul offset (affine_translate left_margin (fadd (fmul (fsub (f_of_Z 2) y) graph_max_height) thres_text_height_2))) (LMark t);
       ILine (fmul graph_max_height (flit 1 100))
         (affine_mul offset (affine_translate left_margin_padding (fmul (fsub f1 y) graph_max_height))) marker])
    (filter (fun t => fltb t dmax) [flit 833 100; flit 1666 100; flit 3333 100]) in
  Ok (IRect offset (0, 0, 0, 200) width height :: texts ++ rate :: bars ++ marks).
