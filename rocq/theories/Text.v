(** Model of where the examples put the glyphs of a text
    (/repo/examples/scenes/src/simple_text.rs:68-102).  The font is taken as
    given: [glyph_of] is its character map (0 for a character it does not
    have), [advance] its advance widths and [line_height] the sum of its ascent,
    descent and leading.  Characters are Unicode scalar values. *)
From Coq Require Import ZArith Bool List.
From Flocq Require Import Core BinarySingleNaN.
From Verif Require Import F64.
Import ListNotations.
Open Scope Z_scope.

(** simple_text.rs:98-102 [Glyph] *)
Record glyph := mkGlyph { g_id : Z; g_x : f32; g_y : f32 }.
(** [f32] addition *)
Definition fadd32 : f32 -> f32 -> f32 := Bplus mode_NE.
(** [0.0_f32], simple_text.rs:77-78 *)
Definition f32_0 : f32 := B754_zero false.
(** simple_text.rs:88-104: a new line goes down and back to the start; every
    other character is a glyph at the pen, which moves on *)
Fixpoint layout (glyph_of : Z -> Z) (advance : Z -> f32) (line_height : f32) (pen_x pen_y : f32) (text : list Z) : list glyph :=
  match text with
  | [] => []
  | ch :: text =>
      if ch =? 10 then layout glyph_of advance line_height f32_0 (fadd32 pen_y line_height) text
      else
        let gid := glyph_of ch in
        mkGlyph gid pen_x pen_y :: layout glyph_of advance line_height (fadd32 pen_x (advance gid)) pen_y text
  end.
(** simple_text.rs:77-104: from the origin on *)
Definition glyphs (glyph_of : Z -> Z) (advance : Z -> f32) (line_height : f32) (text : list Z) : list glyph :=
  layout glyph_of advance line_height f32_0 f32_0 text.
