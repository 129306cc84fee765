(** Model of the types of /repo/src/schema that no document refers to: the
    layer styles (schema/styles) and the constants for text (schema/constants),
    with how they are read from and written to JSON. Constructors carry a
    prefix for their type; a few long names are shortened, in the order of the
    source. Fields are named after their JSON member. *)
From Coq Require Import ZArith Bool List String.
From Flocq Require Import BinarySingleNaN.
From Verif Require Import F64 Schema Serde.
Import ListNotations.
Local Open Scope string_scope.
Local Open Scope list_scope.

(** * Constants *)

(** schema/constants/font_path_origin.rs:6-14 *)
Inductive font_path_origin := FpoLocal | FpoCssUrl | FpoScriptUrl | FpoFontUrl.
(** constants/font_path_origin.rs:6-14, read *)
Definition de_font_path_origin (j : json) : option font_path_origin :=
  match j with
  | JInt 0 => Some FpoLocal | JInt 1 => Some FpoCssUrl | JInt 2 => Some FpoScriptUrl | JInt 3 => Some FpoFontUrl | _ => None
  end.
(** constants/font_path_origin.rs:6-14, written *)
Definition ser_font_path_origin (c : font_path_origin) : json :=
  JInt (match c with FpoLocal => 0 | FpoCssUrl => 1 | FpoScriptUrl => 2 | FpoFontUrl => 3 end).
(** schema/constants/text_grouping.rs:6-14 *)
Inductive text_grouping := TgrCharacters | TgrWords | TgrLines | TgrAll.
(** constants/text_grouping.rs:6-14, read *)
Definition de_text_grouping (j : json) : option text_grouping :=
  match j with
  | JInt 1 => Some TgrCharacters | JInt 2 => Some TgrWords | JInt 3 => Some TgrLines | JInt 4 => Some TgrAll | _ => None
  end.
(** constants/text_grouping.rs:6-14, written *)
Definition ser_text_grouping (c : text_grouping) : json :=
  JInt (match c with TgrCharacters => 1 | TgrWords => 2 | TgrLines => 3 | TgrAll => 4 end).
(** schema/constants/text_range_units.rs:6-12 *)
Inductive text_range_units := TruPercent | TruIndex.
(** constants/text_range_units.rs:6-12, read *)
Definition de_text_range_units (j : json) : option text_range_units :=
  match j with
  | JInt 1 => Some TruPercent | JInt 2 => Some TruIndex | _ => None
  end.
(** constants/text_range_units.rs:6-12, written *)
Definition ser_text_range_units (c : text_range_units) : json :=
  JInt (match c with TruPercent => 1 | TruIndex => 2 end).
(** schema/constants/text_shape.rs:6-17 *)
Inductive text_shape := TshSquare | TshRampUp | TshRampDown | TshTriangle | TshRound | TshSmooth.
(** constants/text_shape.rs:6-17, read *)
Definition de_text_shape (j : json) : option text_shape :=
  match j with
  | JInt 1 => Some TshSquare | JInt 2 => Some TshRampUp | JInt 3 => Some TshRampDown | JInt 4 => Some TshTriangle | JInt 5 => Some TshRound | JInt 6 => Some TshSmooth | _ => None
  end.
(** constants/text_shape.rs:6-17, written *)
Definition ser_text_shape (c : text_shape) : json :=
  JInt (match c with TshSquare => 1 | TshRampUp => 2 | TshRampDown => 3 | TshTriangle => 4 | TshRound => 5 | TshSmooth => 6 end).
(** schema/constants/text_caps.rs:6-13 *)
Inductive text_caps := TcaRegular | TcaAllCaps | TcaSmallCaps.
(** constants/text_caps.rs:6-13, read *)
Definition de_text_caps (j : json) : option text_caps :=
  match j with
  | JInt 0 => Some TcaRegular | JInt 1 => Some TcaAllCaps | JInt 2 => Some TcaSmallCaps | _ => None
  end.
(** constants/text_caps.rs:6-13, written *)
Definition ser_text_caps (c : text_caps) : json :=
  JInt (match c with TcaRegular => 0 | TcaAllCaps => 1 | TcaSmallCaps => 2 end).
(** schema/constants/text_justify.rs:6-17 *)
Inductive text_justify := TjuLeft | TjuRight | TjuCenter | TjuLastLeft | TjuLastRight | TjuLastCenter | TjuLastFull.
(** constants/text_justify.rs:6-17, read *)
Definition de_text_justify (j : json) : option text_justify :=
  match j with
  | JInt 0 => Some TjuLeft | JInt 1 => Some TjuRight | JInt 2 => Some TjuCenter | JInt 3 => Some TjuLastLeft | JInt 4 => Some TjuLastRight | JInt 5 => Some TjuLastCenter | JInt 6 => Some TjuLastFull | _ => None
  end.
(** constants/text_justify.rs:6-17, written *)
Definition ser_text_justify (c : text_justify) : json :=
  JInt (match c with TjuLeft => 0 | TjuRight => 1 | TjuCenter => 2 | TjuLastLeft => 3 | TjuLastRight => 4 | TjuLastCenter => 5 | TjuLastFull => 6 end).
(** schema/constants/text_based.rs:6-13 *)
Inductive text_based := TbaCharacters | TbaNoSpaces | TbaWords | TbaLines.
(** constants/text_based.rs:6-13, read *)
Definition de_text_based (j : json) : option text_based :=
  match j with
  | JInt 1 => Some TbaCharacters | JInt 2 => Some TbaNoSpaces | JInt 3 => Some TbaWords | JInt 4 => Some TbaLines | _ => None
  end.
(** constants/text_based.rs:6-13, written *)
Definition ser_text_based (c : text_based) : json :=
  JInt (match c with TbaCharacters => 1 | TbaNoSpaces => 2 | TbaWords => 3 | TbaLines => 4 end).
(** schema/styles/layer_style.rs:8-21 *)
Inductive style_type := StyStroke | StyDropShadow | StyInnerShadow | StyOuterGlow | StyInnerGlow | StyBevelEmboss | StySatin | StyColorOverlay | StyGradientOverlay.
(** styles/layer_style.rs:8-21, read *)
Definition de_style_type (j : json) : option style_type :=
  match j with
  | JInt 0 => Some StyStroke | JInt 1 => Some StyDropShadow | JInt 2 => Some StyInnerShadow | JInt 3 => Some StyOuterGlow | JInt 4 => Some StyInnerGlow | JInt 5 => Some StyBevelEmboss | JInt 6 => Some StySatin | JInt 7 => Some StyColorOverlay | JInt 8 => Some StyGradientOverlay | _ => None
  end.
(** styles/layer_style.rs:8-21, written *)
Definition ser_style_type (c : style_type) : json :=
  JInt (match c with StyStroke => 0 | StyDropShadow => 1 | StyInnerShadow => 2 | StyOuterGlow => 3 | StyInnerGlow => 4 | StyBevelEmboss => 5 | StySatin => 6 | StyColorOverlay => 7 | StyGradientOverlay => 8 end).

(** * Styles *)

(** styles/layer_style.rs:23-31 *)
Record layer_style := mkLayerStyle { ls_vo : visual_object; ls_ty : style_type }.
(** styles/layer_style.rs:23-31, read *)
Definition de_layer_style_fs (fs : fields) : option layer_style :=
  let? vo := de_visual_object fs in
  let? ty := req "ty" de_style_type fs in
  Some (mkLayerStyle vo ty).
(** styles/layer_style.rs:23-31, written *)
Definition ser_layer_style_fs (s : layer_style) : fields :=
  ser_visual_object (ls_vo s) ++ fld "ty" ser_style_type (ls_ty s).
(** styles/layer_style.rs:23-31, read *)
Definition de_layer_style (j : json) : option layer_style := let? fs := as_map j in de_layer_style_fs fs.
(** styles/layer_style.rs:23-31, written *)
Definition ser_layer_style (s : layer_style) : json := JObj (ser_layer_style_fs s).
(** styles/color_overlay_style.rs:9-26 *)
Record color_overlay_style := mkColorOverlay {
  stco_base : layer_style;
  stco_bm : option float_value;
  stco_c : option color_value;
  stco_so : option float_value }.
(** styles/color_overlay_style.rs:9-26, read *)
Definition de_color_overlay_style (j : json) : option color_overlay_style :=
  let? fs := as_map j in
  let? base := de_layer_style_fs fs in
  let? f_bm := opt "bm" de_float_value fs in
  let? f_c := opt "c" de_color_value fs in
  let? f_so := opt "so" de_float_value fs in
  Some (mkColorOverlay base f_bm f_c f_so).
(** styles/color_overlay_style.rs:9-26, written *)
Definition ser_color_overlay_style (s : color_overlay_style) : json :=
  JObj (ser_layer_style_fs (stco_base s) ++ ofld "bm" ser_float_value (stco_bm s) ++
        ofld "c" ser_color_value (stco_c s) ++
        ofld "so" ser_float_value (stco_so s)).
(** styles/gradient_overlay_style.rs:11-60 *)
Record gradient_overlay_style := mkGradientOverlay {
  stgo_base : layer_style;
  stgo_bm : option float_value;
  stgo_c : option color_value;
  stgo_o : option float_value;
  stgo_gf : option gradient_colors;
  stgo_gs : option float_value;
  stgo_a : option float_value;
  stgo_gt : option gradient_type;
  stgo_re : option float_value;
  stgo_al : option float_value;
  stgo_s : option float_value;
  stgo_of : option float_value }.
(** styles/gradient_overlay_style.rs:11-60, read *)
Definition de_gradient_overlay_style (j : json) : option gradient_overlay_style :=
  let? fs := as_map j in
  let? base := de_layer_style_fs fs in
  let? f_bm := opt "bm" de_float_value fs in
  let? f_c := opt "c" de_color_value fs in
  let? f_o := opt "o" de_float_value fs in
  let? f_gf := opt "gf" de_gradient_colors fs in
  let? f_gs := opt "gs" de_float_value fs in
  let? f_a := opt "a" de_float_value fs in
  let? f_gt := opt "gt" de_gradient_type fs in
  let? f_re := opt "re" de_float_value fs in
  let? f_al := opt "al" de_float_value fs in
  let? f_s := opt "s" de_float_value fs in
  let? f_of := opt "of" de_float_value fs in
  Some (mkGradientOverlay base f_bm f_c f_o f_gf f_gs f_a f_gt f_re f_al f_s f_of).
(** styles/gradient_overlay_style.rs:11-60, written *)
Definition ser_gradient_overlay_style (s : gradient_overlay_style) : json :=
  JObj (ser_layer_style_fs (stgo_base s) ++ ofld "bm" ser_float_value (stgo_bm s) ++
        ofld "c" ser_color_value (stgo_c s) ++
        ofld "o" ser_float_value (stgo_o s) ++
        ofld "gf" ser_gradient_colors (stgo_gf s) ++
        ofld "gs" ser_float_value (stgo_gs s) ++
        ofld "a" ser_float_value (stgo_a s) ++
        ofld "gt" ser_gradient_type (stgo_gt s) ++
        ofld "re" ser_float_value (stgo_re s) ++
        ofld "al" ser_float_value (stgo_al s) ++
        ofld "s" ser_float_value (stgo_s s) ++
        ofld "of" ser_float_value (stgo_of s)).
(** styles/outer_glow_style.rs:9-42 *)
Record outer_glow_style := mkOuterGlow {
  stog_base : layer_style;
  stog_bm : option float_value;
  stog_c : option color_value;
  stog_o : option float_value;
  stog_r : option float_value;
  stog_ch : option float_value;
  stog_no : option float_value;
  stog_j : option float_value }.
(** styles/outer_glow_style.rs:9-42, read *)
Definition de_outer_glow_style (j : json) : option outer_glow_style :=
  let? fs := as_map j in
  let? base := de_layer_style_fs fs in
  let? f_bm := opt "bm" de_float_value fs in
  let? f_c := opt "c" de_color_value fs in
  let? f_o := opt "o" de_float_value fs in
  let? f_r := opt "r" de_float_value fs in
  let? f_ch := opt "ch" de_float_value fs in
  let? f_no := opt "no" de_float_value fs in
  let? f_j := opt "j" de_float_value fs in
  Some (mkOuterGlow base f_bm f_c f_o f_r f_ch f_no f_j).
(** styles/outer_glow_style.rs:9-42, written *)
Definition ser_outer_glow_style (s : outer_glow_style) : json :=
  JObj (ser_layer_style_fs (stog_base s) ++ ofld "bm" ser_float_value (stog_bm s) ++
        ofld "c" ser_color_value (stog_c s) ++
        ofld "o" ser_float_value (stog_o s) ++
        ofld "r" ser_float_value (stog_r s) ++
        ofld "ch" ser_float_value (stog_ch s) ++
        ofld "no" ser_float_value (stog_no s) ++
        ofld "j" ser_float_value (stog_j s)).
(** styles/satin_style.rs:9-35 *)
Record satin_style := mkSatin {
  stsa_base : layer_style;
  stsa_bm : option float_value;
  stsa_c : option color_value;
  stsa_o : option float_value;
  stsa_a : option float_value;
  stsa_d : option float_value;
  stsa_s : option float_value;
  stsa_in : option float_value }.
(** styles/satin_style.rs:9-35, read *)
Definition de_satin_style (j : json) : option satin_style :=
  let? fs := as_map j in
  let? base := de_layer_style_fs fs in
  let? f_bm := opt "bm" de_float_value fs in
  let? f_c := opt "c" de_color_value fs in
  let? f_o := opt "o" de_float_value fs in
  let? f_a := opt "a" de_float_value fs in
  let? f_d := opt "d" de_float_value fs in
  let? f_s := opt "s" de_float_value fs in
  let? f_in := opt "in" de_float_value fs in
  Some (mkSatin base f_bm f_c f_o f_a f_d f_s f_in).
(** styles/satin_style.rs:9-35, written *)
Definition ser_satin_style (s : satin_style) : json :=
  JObj (ser_layer_style_fs (stsa_base s) ++ ofld "bm" ser_float_value (stsa_bm s) ++
        ofld "c" ser_color_value (stsa_c s) ++
        ofld "o" ser_float_value (stsa_o s) ++
        ofld "a" ser_float_value (stsa_a s) ++
        ofld "d" ser_float_value (stsa_d s) ++
        ofld "s" ser_float_value (stsa_s s) ++
        ofld "in" ser_float_value (stsa_in s)).
