(** Model of how a document is read from, and written to, JSON: the
    [Deserialize] and [Serialize] implementations of /repo/src/schema,
    derived by serde 1.0.228 (Cargo.toml:102-104) or written by hand.

    The starting point is a [serde_json::Value] ([json] in Schema.v): JSON
    text is read to such a value in JsonText.v.  Errors are [None], without their message.  The
    derived code is modelled from the attributes in the sources:
    - a struct reads each field under its (renamed) key; a missing key is an
      error unless the field is an [Option], for which a missing key and
      [null] are [None]; unknown keys are ignored;
    - a struct without [flatten] can also be given as an array of its fields
      in order, of exactly the right length (or shorter, if the missing
      fields have [default]); a struct with [flatten] only as an object;
    - a flattened struct reads its fields from the same object, without the
      keys the outer struct has read itself;
    - an untagged enum is the first variant that can be read. *)
From Coq Require Import ZArith Bool List String.
From Flocq Require Import BinarySingleNaN.
From Verif Require Import F64 Kurbo Value Animated Schema Import.
Import ListNotations.
Local Open Scope string_scope.
Local Open Scope list_scope.

Notation "'let?' x := e 'in' b" := (match e with Some x => b | None => None end)
  (at level 200, x pattern, e at level 200, b at level 200, right associativity).

(** The members of an object, in order. *)
Definition fields := list (string * json).

(** * serde's building blocks *)

(** a field that must be present *)
Definition req {A} (k : string) (f : json -> option A) : fields -> option A :=
  fix go (fs : fields) := match fs with
  | [] => None
  | (k', v) :: r => if String.eqb k k' then f v else go r
  end.
(** a field of type [Option]: absent or [null] is [None] *)
Definition opt {A} (k : string) (f : json -> option A) : fields -> option (option A) :=
  fix go (fs : fields) := match fs with
  | [] => Some None
  | (k', v) :: r =>
      if String.eqb k k'
      then match v with JNull => Some None | _ => let? x := f v in Some (Some x) end
      else go r
  end.
(** a field is present: [serde_json::Value::get] on an object *)
Definition has (k : string) (fs : fields) : bool :=
  match req k (fun v => Some v) fs with Some _ => true | None => false end.

(** elements in order, or an error *)
Definition mapO {A B} (f : A -> option B) : list A -> option (list B) :=
  fix go (l : list A) := match l with
  | [] => Some []
  | x :: r => let? y := f x in let? ys := go r in Some (y :: ys)
  end.
(** [Vec<T>] *)
Definition de_list {A} (f : json -> option A) (j : json) : option (list A) :=
  match j with JArr l => mapO f l | _ => None end.
(** a struct with [flatten] *)
Definition as_map (j : json) : option fields := match j with JObj fs => Some fs | _ => None end.
(** a struct without [flatten], whose fields are [keys] in this order *)
Definition as_struct (keys : list string) (j : json) : option fields :=
  match j with
  | JObj fs => Some fs
  | JArr l => if Nat.eqb (List.length l) (List.length keys) then Some (combine keys l) else None
  | _ => None
  end.
(** the same if every field has [default] *)
Definition as_struct_default (keys : list string) (j : json) : option fields :=
  match j with
  | JObj fs => Some fs
  | JArr l => if Nat.leb (List.length l) (List.length keys) then Some (combine keys l) else None
  | _ => None
  end.

(** [f64]: any number, an integer is converted *)
Definition de_f64 (j : json) : option f64 :=
  match j with JFloat x => Some x | JInt n => Some (f_of_Z n) | _ => None end.
(** unsigned integers up to [max]; [usize] is 64 bits *)
Definition de_uint (max : Z) (j : json) : option Z :=
  match j with JInt n => if (0 <=? n)%Z && (n <=? max)%Z then Some n else None | _ => None end.
(** [usize] *)
Definition de_usize (j : json) : option nat := let? n := de_uint usize_max j in Some (Z.to_nat n).
(** [u8] *)
Definition de_u8 (j : json) : option nat := let? n := de_uint 255 j in Some (Z.to_nat n).
(** [u32] *)
Definition de_u32 (j : json) : option nat := let? n := de_uint 4294967295 j in Some (Z.to_nat n).
(** [String] *)
Definition de_string (j : json) : option string := match j with JStr s => Some s | _ => None end.
(** [bool] *)
Definition de_bool (j : json) : option bool := match j with JBool b => Some b | _ => None end.
(** [serde_json::Value] *)
Definition de_value (j : json) : option json := Some j.
(** [Vec<f64>] *)
Definition de_floats : json -> option (list f64) := de_list de_f64.

(** fields written out: always, if present, [null] if absent *)
Definition fld {A} (k : string) (s : A -> json) (x : A) : fields := [(k, s x)].
(** [skip_serializing_if = "Option::is_none"] *)
Definition ofld {A} (k : string) (s : A -> json) (o : option A) : fields :=
  match o with Some x => [(k, s x)] | None => [] end.
(** an [Option] without that attribute: [null] if absent *)
Definition nfld {A} (k : string) (s : A -> json) (o : option A) : fields :=
  [(k, match o with Some x => s x | None => JNull end)].
(** [Vec<T>], written *)
Definition ser_list {A} (s : A -> json) (l : list A) : json := JArr (map s l).
(** a number that is not finite is written as [null] *)
Definition ser_f64 (x : f64) : json := if is_finite x then JFloat x else JNull.
(** unsigned integers, written *)
Definition ser_nat (n : nat) : json := JInt (Z.of_nat n).
(** [Vec<f64>], written *)
Definition ser_floats : list f64 -> json := ser_list ser_f64.
(** [serde_json::Value], written *)
Definition ser_value (v : json) : json := v.

(** * Constants *)

(** [serde_repr]: reads a [u8] and accepts the codes of the variants *)
(** helpers/int_boolean.rs:7-15 *)
Definition de_bool_int (j : json) : option bool_int :=
  match j with JInt 0 => Some BIFalse | JInt 1 => Some BITrue | _ => None end.
(** helpers/int_boolean.rs:7-15, written *)
Definition ser_bool_int (b : bool_int) : json := JInt (match b with BIFalse => 0 | BITrue => 1 end).
(** constants/blend_mode.rs:7-28 *)
Definition de_blend (j : json) : option s_blend :=
  match j with
  | JInt 0 => Some SbNormal | JInt 1 => Some SbMultiply | JInt 2 => Some SbScreen
  | JInt 3 => Some SbOverlay | JInt 4 => Some SbDarken | JInt 5 => Some SbLighten
  | JInt 6 => Some SbColorDodge | JInt 7 => Some SbColorBurn | JInt 8 => Some SbHardLight
  | JInt 9 => Some SbSoftLight | JInt 10 => Some SbDifference | JInt 11 => Some SbExclusion
  | JInt 12 => Some SbHue | JInt 13 => Some SbSaturation | JInt 14 => Some SbColor
  | JInt 15 => Some SbLuminosity | JInt 16 => Some SbAdd | JInt 17 => Some SbHardMix
  | _ => None
  end.
(** constants/blend_mode.rs:7-28, written *)
Definition ser_blend (b : s_blend) : json :=
  JInt (match b with
  | SbNormal => 0 | SbMultiply => 1 | SbScreen => 2 | SbOverlay => 3 | SbDarken => 4
  | SbLighten => 5 | SbColorDodge => 6 | SbColorBurn => 7 | SbHardLight => 8 | SbSoftLight => 9
  | SbDifference => 10 | SbExclusion => 11 | SbHue => 12 | SbSaturation => 13 | SbColor => 14
  | SbLuminosity => 15 | SbAdd => 16 | SbHardMix => 17
  end).
(** constants/matte_mode.rs:7-15 *)
Definition de_matte_mode (j : json) : option matte_mode :=
  match j with
  | JInt 0 => Some MmNormal | JInt 1 => Some MmAlpha | JInt 2 => Some MmInvertedAlpha
  | JInt 3 => Some MmLuma | JInt 4 => Some MmInvertedLuma | _ => None
  end.
(** constants/matte_mode.rs:7-15, written *)
Definition ser_matte_mode (m : matte_mode) : json :=
  JInt (match m with
  | MmNormal => 0 | MmAlpha => 1 | MmInvertedAlpha => 2 | MmLuma => 3 | MmInvertedLuma => 4
  end).
(** constants/line_cap.rs:7-16 *)
Definition de_line_cap (j : json) : option line_cap :=
  match j with JInt 1 => Some LcButt | JInt 2 => Some LcRound | JInt 3 => Some LcSquare | _ => None end.
(** constants/line_cap.rs:7-16, written *)
Definition ser_line_cap (c : line_cap) : json :=
  JInt (match c with LcButt => 1 | LcRound => 2 | LcSquare => 3 end).
(** constants/line_join.rs:7-13 *)
Definition de_line_join (j : json) : option line_join :=
  match j with JInt 1 => Some LjMiter | JInt 2 => Some LjRound | JInt 3 => Some LjBevel | _ => None end.
(** constants/line_join.rs:7-13, written *)
Definition ser_line_join (c : line_join) : json :=
  JInt (match c with LjMiter => 1 | LjRound => 2 | LjBevel => 3 end).
(** constants/fill_rule.rs:7-15 *)
Definition de_fill_rule (j : json) : option fill_rule :=
  match j with JInt 1 => Some FrNonZero | JInt 2 => Some FrEvenOdd | _ => None end.
(** constants/fill_rule.rs:7-15, written *)
Definition ser_fill_rule (c : fill_rule) : json := JInt (match c with FrNonZero => 1 | FrEvenOdd => 2 end).
(** constants/gradient_type.rs:7-12 *)
Definition de_gradient_type (j : json) : option gradient_type :=
  match j with JInt 1 => Some GtLinear | JInt 2 => Some GtRadial | _ => None end.
(** constants/gradient_type.rs:7-12, written *)
Definition ser_gradient_type (c : gradient_type) : json := JInt (match c with GtLinear => 1 | GtRadial => 2 end).
(** constants/star_type.rs:7-12 *)
Definition de_star_type (j : json) : option star_type :=
  match j with JInt 1 => Some StStar | JInt 2 => Some StPolygon | _ => None end.
(** constants/star_type.rs:7-12, written *)
Definition ser_star_type (c : star_type) : json := JInt (match c with StStar => 1 | StPolygon => 2 end).
(** constants/shape_direction.rs:7-14 *)
Definition de_shape_direction (j : json) : option shape_direction :=
  match j with JInt 1 => Some SdNormal | JInt 3 => Some SdReversed | _ => None end.
(** constants/shape_direction.rs:7-14, written *)
Definition ser_shape_direction (c : shape_direction) : json :=
  JInt (match c with SdNormal => 1 | SdReversed => 3 end).
(** constants/merge_mode.rs:7-15 *)
Definition de_merge_mode (j : json) : option merge_mode :=
  match j with
  | JInt 1 => Some MgNormal | JInt 2 => Some MgAdd | JInt 3 => Some MgSubtract
  | JInt 4 => Some MgIntersect | JInt 5 => Some MgExclude | _ => None
  end.
(** constants/merge_mode.rs:7-15, written *)
Definition ser_merge_mode (c : merge_mode) : json :=
  JInt (match c with MgNormal => 1 | MgAdd => 2 | MgSubtract => 3 | MgIntersect => 4 | MgExclude => 5 end).
(** constants/composite.rs:7-12 *)
Definition de_composite (j : json) : option composite :=
  match j with JInt 1 => Some CpAbove | JInt 2 => Some CpBelow | _ => None end.
(** constants/composite.rs:7-12, written *)
Definition ser_composite (c : composite) : json := JInt (match c with CpAbove => 1 | CpBelow => 2 end).
(** constants/trim_multiple_shapes.rs:7-14 *)
Definition de_trim_multiple (j : json) : option trim_multiple :=
  match j with JInt 1 => Some TmIndividually | JInt 2 => Some TmSimultaneously | _ => None end.
(** constants/trim_multiple_shapes.rs:7-14, written *)
Definition ser_trim_multiple (c : trim_multiple) : json :=
  JInt (match c with TmIndividually => 1 | TmSimultaneously => 2 end).

(** A derived enum of unit variants is read from the name of the variant, or
    from an object with that single key and the value [null].  (The dash type
    is always read from a buffered copy of the document, for which serde also
    takes the value [{}].) *)
Definition variant_name (empty_too : bool) (j : json) : option string :=
  match j with
  | JStr s => Some s
  | JObj [(s, JNull)] => Some s
  | JObj [(s, JObj [])] => if empty_too then Some s else None
  | _ => None
  end.
(** constants/mask_mode.rs:7-24 *)
Definition de_mask_mode (j : json) : option mask_mode :=
  let? s := variant_name false j in
  if String.eqb s "n" then Some MkNone
  else if String.eqb s "a" then Some MkAdd
  else if String.eqb s "s" then Some MkSubtract
  else if String.eqb s "i" then Some MkIntersect
  else if String.eqb s "l" then Some MkLighten
  else if String.eqb s "d" then Some MkDarken
  else if String.eqb s "f" then Some MkDifference
  else None.
(** constants/mask_mode.rs:7-24, written *)
Definition ser_mask_mode (m : mask_mode) : json :=
  JStr (match m with
  | MkNone => "n" | MkAdd => "a" | MkSubtract => "s" | MkIntersect => "i"
  | MkLighten => "l" | MkDarken => "d" | MkDifference => "f"
  end).
(** constants/stroke_dash_type.rs:7-15 *)
Definition de_dash_type (j : json) : option dash_type :=
  let? s := variant_name true j in
  if String.eqb s "d" then Some DtDash
  else if String.eqb s "g" then Some DtGap
  else if String.eqb s "o" then Some DtOffset
  else None.
(** constants/stroke_dash_type.rs:7-15, written *)
Definition ser_dash_type (m : dash_type) : json :=
  JStr (match m with DtDash => "d" | DtGap => "g" | DtOffset => "o" end).

(** * Animated properties *)

(** animated_properties/keyframe_bezier_handle.rs:22-29 (untagged) *)
Definition de_kf_component (j : json) : option kf_component :=
  match de_floats j with
  | Some l => Some (KcArray l)
  | None => let? x := de_f64 j in Some (KcSingle x)
  end.
(** animated_properties/keyframe_bezier_handle.rs:22-29, written *)
Definition ser_kf_component (c : kf_component) : json :=
  match c with KcArray l => ser_floats l | KcSingle x => ser_f64 x end.
(** animated_properties/keyframe_bezier_handle.rs:7-19 *)
Definition de_kf_handle (j : json) : option kf_handle :=
  let? fs := as_struct ["x"; "y"] j in
  let? x := req "x" de_kf_component fs in
  let? y := req "y" de_kf_component fs in
  Some (mkKfHandle x y).
(** animated_properties/keyframe_bezier_handle.rs:7-19, written *)
Definition ser_kf_handle (h : kf_handle) : json :=
  JObj (fld "x" ser_kf_component (kh_x h) ++ fld "y" ser_kf_component (kh_y h)).
(** animated_properties/keyframe_base.rs:10-29 *)
Definition de_kf_base (fs : fields) : option kf_base :=
  let? t := req "t" de_f64 fs in
  let? h := opt "h" de_bool_int fs in
  let? i := opt "i" de_kf_handle fs in
  let? o := opt "o" de_kf_handle fs in
  Some (mkKfBase t h i o).
(** animated_properties/keyframe_base.rs:10-29, written *)
Definition ser_kf_base (b : kf_base) : fields :=
  fld "t" ser_f64 (kb_time b) ++ ofld "h" ser_bool_int (kb_hold b) ++
  ofld "i" ser_kf_handle (kb_in b) ++ ofld "o" ser_kf_handle (kb_out b).
(** animated_properties/keyframe.rs:9-22 *)
Definition de_keyframe_fs (fs : fields) : option keyframe :=
  let? b := de_kf_base fs in
  let? s := req "s" de_floats fs in
  let? e := opt "e" de_floats fs in
  Some (mkKeyframe b s e).
(** animated_properties/keyframe.rs:9-22, written *)
Definition ser_keyframe_fs (k : keyframe) : fields :=
  ser_kf_base (kf_b k) ++ fld "s" ser_floats (kf_value k) ++ ofld "e" ser_floats (kf_end k).
(** animated_properties/keyframe.rs:9-22, read *)
Definition de_keyframe (j : json) : option keyframe := let? fs := as_map j in de_keyframe_fs fs.
(** animated_properties/keyframe.rs:9-22, written *)
Definition ser_keyframe (k : keyframe) : json := JObj (ser_keyframe_fs k).
(** animated_properties/animated_property.rs:34-41 (untagged) *)
Definition de_anim_k {T} (f : json -> option T) (j : json) : option (anim_k T) :=
  match de_list de_keyframe j with
  | Some l => Some (AkAnimated l)
  | None => let? x := f j in Some (AkStatic x)
  end.
(** animated_properties/animated_property.rs:34-41, written *)
Definition ser_anim_k {T} (s : T -> json) (k : anim_k T) : json :=
  match k with AkAnimated l => ser_list ser_keyframe l | AkStatic x => s x end.
(** animated_properties/animated_property.rs:10-31 *)
Definition de_anim_prop {T} (f : json -> option T) (fs : fields) : option (anim_prop T) :=
  let? ix := opt "ix" de_f64 fs in
  let? a := opt "a" de_bool_int fs in
  let? x := opt "x" de_string fs in
  let? sid := opt "sid" de_string fs in
  let? k := req "k" (de_anim_k f) fs in
  Some (mkAnimProp ix a x sid k).
(** animated_properties/animated_property.rs:10-31, written *)
Definition ser_anim_prop {T} (s : T -> json) (p : anim_prop T) : fields :=
  ofld "ix" ser_f64 (ap_ix p) ++ ofld "a" ser_bool_int (ap_a p) ++ ofld "x" JStr (ap_x p) ++
  ofld "sid" JStr (ap_sid p) ++ fld "k" (ser_anim_k s) (ap_k p).
(** animated_properties/value.rs:10-14 *)
Definition de_float_value (j : json) : option float_value := let? fs := as_map j in de_anim_prop de_f64 fs.
(** animated_properties/value.rs:10-14, written *)
Definition ser_float_value (v : float_value) : json := JObj (ser_anim_prop ser_f64 v).
(** animated_properties/color_value.rs:9-13, helpers/color.rs:10 *)
Definition de_color_value (j : json) : option color_value := let? fs := as_map j in de_anim_prop de_floats fs.
(** animated_properties/color_value.rs:9-13, written *)
Definition ser_color_value (v : color_value) : json := JObj (ser_anim_prop ser_floats v).
(** animated_properties/multi_dimensional.rs:8-19 *)
Definition de_multi_dim (j : json) : option multi_dim :=
  let? fs := as_map j in
  let? p := de_anim_prop de_floats fs in
  let? l := opt "l" de_f64 fs in
  Some (mkMultiDim p l).
(** animated_properties/multi_dimensional.rs:8-19, written *)
Definition ser_multi_dim (m : multi_dim) : json :=
  JObj (ser_anim_prop ser_floats (md_p m) ++ ofld "l" ser_f64 (md_l m)).
(** animated_properties/gradient_colors.rs:14-22 *)
Definition de_gradient_colors (j : json) : option gradient_colors :=
  let? fs := as_struct ["k"; "p"] j in
  let? k := req "k" de_multi_dim fs in
  let? p := req "p" de_usize fs in
  Some (mkGradientColors k p).
(** animated_properties/gradient_colors.rs:14-22, written *)
Definition ser_gradient_colors (g : gradient_colors) : json :=
  JObj (fld "k" ser_multi_dim (gc_k g) ++ fld "p" ser_nat (gc_p g)).
(** animated_properties/position_keyframe.rs:8-20 *)
Definition de_pos_keyframe (j : json) : option pos_keyframe :=
  let? fs := as_map j in
  let? k := de_keyframe_fs fs in
  let? ti := opt "ti" de_floats fs in
  let? to := opt "to" de_floats fs in
  Some (mkPosKeyframe k ti to).
(** animated_properties/position_keyframe.rs:8-20, written *)
Definition ser_pos_keyframe (k : pos_keyframe) : json :=
  JObj (ser_keyframe_fs (pk_kf k) ++ ofld "ti" ser_floats (pk_ti k) ++ ofld "to" ser_floats (pk_to k)).
(** animated_properties/position.rs:34-39 (untagged) *)
Definition de_position_k (j : json) : option position_k :=
  match de_list de_pos_keyframe j with
  | Some l => Some (PkAnimated l)
  | None => let? x := de_floats j in Some (PkStatic x)
  end.
(** animated_properties/position.rs:34-39, written *)
Definition ser_position_k (k : position_k) : json :=
  match k with PkAnimated l => ser_list ser_pos_keyframe l | PkStatic x => ser_floats x end.
(** animated_properties/position.rs:9-31; "a" is written even if absent *)
Definition de_position (j : json) : option s_position :=
  let? fs := as_struct ["ix"; "a"; "x"; "l"; "k"] j in
  let? ix := opt "ix" de_f64 fs in
  let? a := opt "a" de_bool_int fs in
  let? x := opt "x" de_string fs in
  let? l := opt "l" de_f64 fs in
  let? k := req "k" de_position_k fs in
  Some (mkSPosition ix a x l k).
(** animated_properties/position.rs:9-31, written *)
Definition ser_position (p : s_position) : json :=
  JObj (ofld "ix" ser_f64 (po_ix p) ++ nfld "a" ser_bool_int (po_a p) ++ ofld "x" JStr (po_x p) ++
        ofld "l" ser_f64 (po_l p) ++ fld "k" ser_position_k (po_k p)).
(** animated_properties/split_vector.rs:8-27 *)
Definition de_split_vector (j : json) : option split_vector :=
  let? fs := as_struct ["s"; "x"; "y"; "z"] j in
  let? s := req "s" de_bool fs in
  let? x := req "x" de_float_value fs in
  let? y := req "y" de_float_value fs in
  let? z := opt "z" de_float_value fs in
  Some (mkSplitVector s x y z).
(** animated_properties/split_vector.rs:8-27, written *)
Definition ser_split_vector (v : split_vector) : json :=
  JObj (fld "s" JBool (spv_s v) ++ fld "x" ser_float_value (spv_x v) ++
        fld "y" ser_float_value (spv_y v) ++ ofld "z" ser_float_value (spv_z v)).
(** helpers/bezier.rs:9-27; [[f64; 2]] is an array of exactly two numbers *)
Definition de_vertex (j : json) : option (f64 * f64) :=
  let? l := de_floats j in match l with [x; y] => Some (x, y) | _ => None end.
(** helpers/bezier.rs:9-27: a point, written *)
Definition ser_vertex (p : f64 * f64) : json := JArr [ser_f64 (fst p); ser_f64 (snd p)].
(** helpers/bezier.rs:9-27, read *)
Definition de_bezier (j : json) : option bezier :=
  let? fs := as_struct ["c"; "v"; "i"; "o"] j in
  let? c := opt "c" de_bool fs in
  let? v := req "v" (de_list de_vertex) fs in
  let? i := req "i" (de_list de_vertex) fs in
  let? o := req "o" (de_list de_vertex) fs in
  Some (mkBezier c v i o).
(** helpers/bezier.rs:9-27, written *)
Definition ser_bezier (b : bezier) : json :=
  JObj (ofld "c" JBool (bz_closed b) ++ fld "v" (ser_list ser_vertex) (bz_v b) ++
        fld "i" (ser_list ser_vertex) (bz_i b) ++ fld "o" (ser_list ser_vertex) (bz_o b)).
(** animated_properties/shape_keyframe.rs:9-25 *)
Definition de_shape_keyframe (j : json) : option shape_keyframe :=
  let? fs := as_map j in
  let? b := de_kf_base fs in
  let? s := opt "s" (de_list de_bezier) fs in
  let? e := opt "e" (de_list de_bezier) fs in
  Some (mkShapeKf b s e).
(** animated_properties/shape_keyframe.rs:9-25, written *)
Definition ser_shape_keyframe (k : shape_keyframe) : json :=
  JObj (ser_kf_base (skf_b k) ++ ofld "s" (ser_list ser_bezier) (skf_s k) ++
        ofld "e" (ser_list ser_bezier) (skf_e k)).
(** a member is there *)
Definition is_some {A} (o : option A) : bool := match o with Some _ => true | None => false end.
(** animated_properties/shape_property.rs:42-77 *)
Definition deserialize_keyframes (j : json) : option (list shape_keyframe) :=
  let? keyframes := de_list de_shape_keyframe j in
  match keyframes with
  | [] => Some keyframes
  | _ =>
    if negb (forallb (fun k => is_some (skf_s k)) (removelast keyframes)) then None
    else if match last (map Some keyframes) None with Some k => is_some (skf_s k) | None => false end
    then Some keyframes
    else if Nat.ltb (List.length keyframes) 2 then None else Some keyframes
  end.
(** animated_properties/shape_property.rs:33-39 (untagged) *)
Definition de_shape_k (j : json) : option shape_k :=
  match deserialize_keyframes j with
  | Some l => Some (SkAnimated l)
  | None => let? b := de_bezier j in Some (SkStatic b)
  end.
(** animated_properties/shape_property.rs:33-39, written *)
Definition ser_shape_k (k : shape_k) : json :=
  match k with SkAnimated l => ser_list ser_shape_keyframe l | SkStatic b => ser_bezier b end.
(** animated_properties/shape_property.rs:12-29 *)
Definition de_shape_prop (j : json) : option shape_prop :=
  let? fs := as_struct ["ix"; "a"; "x"; "k"] j in
  let? ix := opt "ix" de_f64 fs in
  let? a := opt "a" de_bool_int fs in
  let? x := opt "x" de_string fs in
  let? k := req "k" de_shape_k fs in
  Some (mkShapeProp ix a x k).
(** animated_properties/shape_property.rs:12-29, written *)
Definition ser_shape_prop (p : shape_prop) : json :=
  JObj (ofld "ix" ser_f64 (sp_ix p) ++ ofld "a" ser_bool_int (sp_a p) ++ ofld "x" JStr (sp_x p) ++
        fld "k" ser_shape_k (sp_k p)).

(** * Helpers *)

(** helpers/visual_object.rs:6-16 *)
Definition de_visual_object (fs : fields) : option visual_object :=
  let? nm := opt "nm" de_string fs in
  let? mn := opt "mn" de_string fs in
  Some (mkVisualObject nm mn).
(** helpers/visual_object.rs:6-16, written *)
Definition ser_visual_object (v : visual_object) : fields :=
  ofld "nm" JStr (vo_nm v) ++ ofld "mn" JStr (vo_mn v).
(** helpers/slottable_object.rs:7-13 *)
Definition de_slottable (fs : fields) : option slottable :=
  let? sid := opt "sid" de_string fs in Some (mkSlottable sid).
(** helpers/slottable_object.rs:7-13, written *)
Definition ser_slottable (s : slottable) : fields := ofld "sid" JStr (slo_sid s).
(** helpers/marker.rs:8-24 *)
Definition de_marker (j : json) : option marker :=
  let? fs := as_struct ["cm"; "tm"; "dr"] j in
  let? cm := opt "cm" de_string fs in
  let? tm := opt "tm" de_f64 fs in
  let? dr := opt "dr" de_f64 fs in
  Some (mkMarker cm tm dr).
(** helpers/marker.rs:8-24, written *)
Definition ser_marker (m : marker) : json :=
  JObj (ofld "cm" JStr (mr_cm m) ++ ofld "tm" ser_f64 (mr_tm m) ++ ofld "dr" ser_f64 (mr_dr m)).
(** helpers/transform.rs:47-54 (untagged) *)
Definition de_any_p (j : json) : option any_p :=
  match de_position j with
  | Some p => Some (ApPosition p)
  | None => let? v := de_split_vector j in Some (ApSplit v)
  end.
(** helpers/transform.rs:47-54, written *)
Definition ser_any_p (p : any_p) : json :=
  match p with ApPosition p => ser_position p | ApSplit v => ser_split_vector v end.
(** helpers/transform.rs:57-78 (untagged; the struct variant is only read
    from an object) *)
Definition de_split_rotation (j : json) : option any_r :=
  let? fs := as_map j in
  let? x := req "x" de_float_value fs in
  let? y := req "y" de_float_value fs in
  let? z := req "z" de_float_value fs in
  let? o := req "or" de_multi_dim fs in
  Some (ArSplit x y z o).
(** helpers/transform.rs:57-78, read *)
Definition de_any_r (j : json) : option any_r :=
  match de_float_value j with
  | Some v => Some (ArRotation v)
  | None => de_split_rotation j
  end.
(** helpers/transform.rs:57-78, written *)
Definition ser_any_r (r : any_r) : json :=
  match r with
  | ArRotation v => ser_float_value v
  | ArSplit x y z o =>
      JObj (fld "x" ser_float_value x ++ fld "y" ser_float_value y ++ fld "z" ser_float_value z ++
            fld "or" ser_multi_dim o)
  end.
(** helpers/transform.rs:12-44 *)
Definition de_transform_fs (fs : fields) : option s_transform :=
  let? a := opt "a" de_position fs in
  let? p := req "p" de_any_p fs in
  let? s := opt "s" de_multi_dim fs in
  let? r := opt "r" de_any_r fs in
  let? sk := opt "sk" de_float_value fs in
  let? sa := opt "sa" de_float_value fs in
  let? o := opt "o" de_float_value fs in
  Some (mkSTransform a p s r sk sa o).
(** helpers/transform.rs:12-44, written *)
Definition ser_transform_fs (t : s_transform) : fields :=
  ofld "a" ser_position (tf_a t) ++ fld "p" ser_any_p (tf_p t) ++ ofld "s" ser_multi_dim (tf_s t) ++
  ofld "r" ser_any_r (tf_r t) ++ ofld "sk" ser_float_value (tf_sk t) ++
  ofld "sa" ser_float_value (tf_sa t) ++ ofld "o" ser_float_value (tf_o t).
(** helpers/transform.rs:12-44, read *)
Definition de_transform (j : json) : option s_transform :=
  let? fs := as_struct ["a"; "p"; "s"; "r"; "sk"; "sa"; "o"] j in de_transform_fs fs.
(** helpers/transform.rs:12-44, written *)
Definition ser_transform (t : s_transform) : json := JObj (ser_transform_fs t).
(** helpers/mask.rs:16-52 *)
Definition de_mask (j : json) : option s_mask :=
  let? fs := as_struct ["nm"; "mn"; "inv"; "pt"; "o"; "mode"; "x"] j in
  let? nm := opt "nm" de_string fs in
  let? mn := opt "mn" de_string fs in
  let? inv := opt "inv" de_bool fs in
  let? pt := opt "pt" de_shape_prop fs in
  let? o := opt "o" de_float_value fs in
  let? mode := opt "mode" de_mask_mode fs in
  let? x := opt "x" de_float_value fs in
  Some (mkSMask nm mn inv pt o mode x).
(** helpers/mask.rs:16-52, written *)
Definition ser_mask (m : s_mask) : json :=
  JObj (ofld "nm" JStr (mas_nm m) ++ ofld "mn" JStr (mas_mn m) ++ ofld "inv" JBool (mas_inv m) ++
        ofld "pt" ser_shape_prop (mas_pt m) ++ ofld "o" ser_float_value (mas_o m) ++
        ofld "mode" ser_mask_mode (mas_mode m) ++ ofld "x" ser_float_value (mas_x m)).

(** * Shapes *)

(** shapes/graphic_element.rs:9-43 *)
Definition de_graphic_element (fs : fields) : option graphic_element :=
  let? vo := de_visual_object fs in
  let? hd := opt "hd" de_bool fs in
  let? bm := opt "bm" de_blend fs in
  let? ix := opt "ix" de_f64 fs in
  let? cl := opt "cl" de_string fs in
  let? ln := opt "ln" de_string fs in
  let? ind := opt "ind" de_f64 fs in
  Some (mkGE vo hd bm ix cl ln ind).
(** shapes/graphic_element.rs:9-43, written *)
Definition ser_graphic_element (g : graphic_element) : fields :=
  ser_visual_object (ge_vo g) ++ ofld "hd" JBool (ge_hd g) ++ ofld "bm" ser_blend (ge_bm g) ++
  ofld "ix" ser_f64 (ge_ix g) ++ ofld "cl" JStr (ge_cl g) ++ ofld "ln" JStr (ge_ln g) ++
  ofld "ind" ser_f64 (ge_ind g).
(** shapes/shape.rs:9-18 *)
Definition de_s_shape (fs : fields) : option s_shape :=
  let? ge := de_graphic_element fs in
  let? d := opt "d" de_shape_direction fs in
  Some (mkSShape ge d).
(** shapes/shape.rs:9-18, written *)
Definition ser_s_shape (s : s_shape) : fields :=
  ser_graphic_element (ss_ge s) ++ ofld "d" ser_shape_direction (ss_d s).
(** shapes/shape_style.rs:10-18 *)
Definition de_shape_style (fs : fields) : option shape_style :=
  let? ge := de_graphic_element fs in
  let? o := req "o" de_float_value fs in
  Some (mkStyle ge o).
(** shapes/shape_style.rs:10-18, written *)
Definition ser_shape_style (s : shape_style) : fields :=
  ser_graphic_element (sst_ge s) ++ fld "o" ser_float_value (sst_o s).
(** shapes/stroke_dash.rs:10-24 *)
Definition de_stroke_dash (j : json) : option stroke_dash :=
  let? fs := as_map j in
  let? vo := de_visual_object fs in
  let? n := opt "n" de_dash_type fs in
  let? v := opt "v" de_float_value fs in
  Some (mkDash vo n v).
(** shapes/stroke_dash.rs:10-24, written *)
Definition ser_stroke_dash (d : stroke_dash) : json :=
  JObj (ser_visual_object (da_vo d) ++ ofld "n" ser_dash_type (da_n d) ++ ofld "v" ser_float_value (da_v d)).
(** shapes/base_stroke.rs:12-37; every field is written *)
Definition de_base_stroke (fs : fields) : option base_stroke :=
  let? lc := opt "lc" de_line_cap fs in
  let? lj := opt "lj" de_line_join fs in
  let? ml := opt "ml" de_f64 fs in
  let? ml2 := opt "ml2" de_float_value fs in
  let? w := req "w" de_float_value fs in
  let? d := opt "d" (de_list de_stroke_dash) fs in
  Some (mkBaseStroke lc lj ml ml2 w d).
(** shapes/base_stroke.rs:12-37, written *)
Definition ser_base_stroke (b : base_stroke) : fields :=
  nfld "lc" ser_line_cap (bs_lc b) ++ nfld "lj" ser_line_join (bs_lj b) ++ nfld "ml" ser_f64 (bs_ml b) ++
  nfld "ml2" ser_float_value (bs_ml2 b) ++ fld "w" ser_float_value (bs_w b) ++
  nfld "d" (ser_list ser_stroke_dash) (bs_d b).
(** shapes/base_gradient.rs:11-39; every field is written *)
Definition de_base_gradient (fs : fields) : option base_gradient :=
  let? g := req "g" de_gradient_colors fs in
  let? s := req "s" de_multi_dim fs in
  let? e := req "e" de_multi_dim fs in
  let? t := opt "t" de_gradient_type fs in
  let? h := opt "h" de_float_value fs in
  let? a := opt "a" de_float_value fs in
  Some (mkBaseGradient g s e t h a).
(** shapes/base_gradient.rs:11-39, written *)
Definition ser_base_gradient (b : base_gradient) : fields :=
  fld "g" ser_gradient_colors (bg_g b) ++ fld "s" ser_multi_dim (bg_s b) ++ fld "e" ser_multi_dim (bg_e b) ++
  nfld "t" ser_gradient_type (bg_t b) ++ nfld "h" ser_float_value (bg_h b) ++ nfld "a" ser_float_value (bg_a b).
(** shapes/transform.rs:9-15 *)
Definition de_transform_shape (fs : fields) : option transform_shape :=
  let? ge := de_graphic_element fs in
  let? t := de_transform_fs fs in
  Some (mkTransformShape ge t).
(** shapes/transform.rs:9-15, written *)
Definition ser_transform_shape (t : transform_shape) : fields :=
  ser_graphic_element (trs_ge t) ++ ser_transform_fs (trs_t t).
(** shapes/repeater_transform.rs:8-23 *)
Definition de_repeater_transform (j : json) : option repeater_transform_shape :=
  let? fs := as_map j in
  let? t := de_transform_shape fs in
  let? so := opt "so" de_float_value fs in
  let? eo := opt "eo" de_float_value fs in
  Some (mkRepTr t so eo).
(** shapes/repeater_transform.rs:8-23, written *)
Definition ser_repeater_transform (r : repeater_transform_shape) : json :=
  JObj (ser_transform_shape (rtr_t r) ++ ofld "so" ser_float_value (rtr_so r) ++
        ofld "eo" ser_float_value (rtr_eo r)).

(** shapes/mod.rs:55-103: the values of "ty", in the order of the variants *)
Inductive shape_tag :=
| TyGr | TyRc | TyEl | TyTr | TySt | TyPb | TyMm | TyRp | TyOp | TyFl | TyTm | TySh | TyGf | TyGs
| TyTw | TyRd | TySr.
(** shapes/mod.rs:55-103: the values of "ty" and their variants *)
Definition shape_tags : list (string * shape_tag) :=
  [("gr", TyGr); ("rc", TyRc); ("el", TyEl); ("tr", TyTr); ("st", TySt); ("pb", TyPb); ("mm", TyMm);
   ("rp", TyRp); ("op", TyOp); ("fl", TyFl); ("tm", TyTm); ("sh", TySh); ("gf", TyGf); ("gs", TyGs);
   ("tw", TyTw); ("rd", TyRd); ("sr", TySr)].
(** shapes/mod.rs:55-103: the first variant with that value *)
Fixpoint tag_named (s : string) (l : list (string * shape_tag)) : option shape_tag :=
  match l with
  | [] => None
  | (s', t) :: r => if String.eqb s s' then Some t else tag_named s r
  end.
(** The tag of an internally tagged enum is the name of a variant.  Inside
    a group the document has been buffered by serde (shapes/mod.rs:56), and
    serde then also takes the number of the variant. *)
Definition de_tag (nested : bool) (j : json) : option shape_tag :=
  match j with
  | JStr s => tag_named s shape_tags
  | JInt n =>
      if nested && (0 <=? n)%Z && (n <? 17)%Z
      then option_map snd (nth_error shape_tags (Z.to_nat n)) else None
  | _ => None
  end.

(** shapes/mod.rs:55-103 [AnyShape], with the structs of shapes/group.rs:8-23,
    rectangle.rs:14-27, ellipse.rs:11-21, transform.rs:9-15, stroke.rs:16-26,
    pucker_bloat.rs:9-18, merge.rs:11-20, repeater.rs:14-35,
    offset_path.rs:10-26, fill.rs:13-26, trim_path.rs:11-32, path.rs:9-17,
    gradient_fill.rs:9-21, gradient_stroke.rs:11-21, twist.rs:11-23,
    rounded_corners.rs:11-19, polystar.rs:10-40 and modifier.rs:8-12 *)
Fixpoint de_shape (nested : bool) (j : json) {struct j} : option any_shape :=
  match j with
  | JObj fs =>
    let? ty := req "ty" (de_tag nested) fs in
    match ty with
    | TyGr =>
        let? ge := de_graphic_element fs in
        let? np := opt "np" de_f64 fs in
        let? it := req "it" (fun v => de_list (fun j => de_shape true j) v) fs in
        let? cix := opt "cix" de_u8 fs in
        Some (AsGroup ge np it cix)
    | TyRc =>
        let? sh := de_s_shape fs in
        let? p := req "p" de_position fs in
        let? s := req "s" de_multi_dim fs in
        let? r := req "r" de_float_value fs in
        Some (AsRectangle sh p s r)
    | TyEl =>
        let? sh := de_s_shape fs in
        let? p := req "p" de_position fs in
        let? s := req "s" de_multi_dim fs in
        Some (AsEllipse sh p s)
    | TyTr => let? t := de_transform_shape fs in Some (AsTransform t)
    | TySt =>
        let? st := de_shape_style fs in
        let? bs := de_base_stroke fs in
        let? c := req "c" de_color_value fs in
        Some (AsStroke st bs c)
    | TyPb =>
        let? m := de_graphic_element fs in
        let? a := opt "a" de_float_value fs in
        Some (AsPuckerBloat m a)
    | TyMm =>
        let? ge := de_graphic_element fs in
        let? mm := opt "mm" de_merge_mode fs in
        Some (AsMerge ge mm)
    | TyRp =>
        let? m := de_graphic_element fs in
        let? c := req "c" de_float_value fs in
        let? o := opt "o" de_float_value fs in
        let? mm := opt "m" de_composite fs in
        let? tr := req "tr" de_repeater_transform fs in
        Some (AsRepeater m c o mm tr)
    | TyOp =>
        let? m := de_graphic_element fs in
        let? a := opt "a" de_float_value fs in
        let? lj := opt "lj" de_line_join fs in
        let? ml := opt "ml" de_float_value fs in
        Some (AsOffsetPath m a lj ml)
    | TyFl =>
        let? st := de_shape_style fs in
        let? c := req "c" de_color_value fs in
        let? r := opt "r" de_fill_rule fs in
        Some (AsFill st c r)
    | TyTm =>
        let? m := de_graphic_element fs in
        let? s := req "s" de_float_value fs in
        let? e := req "e" de_float_value fs in
        let? o := req "o" de_float_value fs in
        let? mm := opt "m" de_trim_multiple fs in
        Some (AsTrim m s e o mm)
    | TySh =>
        let? sh := de_s_shape fs in
        let? ks := req "ks" de_shape_prop fs in
        Some (AsPath sh ks)
    | TyGf =>
        let? st := de_shape_style fs in
        let? g := de_base_gradient fs in
        let? r := opt "r" de_fill_rule fs in
        Some (AsGradientFill st g r)
    | TyGs =>
        let? st := de_shape_style fs in
        let? bs := de_base_stroke fs in
        let? g := de_base_gradient fs in
        Some (AsGradientStroke st bs g)
    | TyTw =>
        let? m := de_graphic_element fs in
        let? a := req "a" de_float_value fs in
        let? p := req "p" de_position fs in
        Some (AsTwist m a p)
    | TyRd =>
        let? m := de_graphic_element fs in
        let? r := req "r" de_float_value fs in
        Some (AsRoundedCorners m r)
    | TySr =>
        let? sh := de_s_shape fs in
        let? p := req "p" de_position fs in
        let? or := req "or" de_float_value fs in
        let? os := req "os" de_float_value fs in
        let? r := req "r" de_float_value fs in
        let? pt := req "pt" de_float_value fs in
        let? sy := req "sy" de_star_type fs in
        let? ir := opt "ir" de_float_value fs in
        let? is := opt "is" de_float_value fs in
        Some (AsPolyStar sh p or os r pt sy ir is)
    end
  | _ => None
  end.

(** the serialisation of the same types; the tag comes first *)
Fixpoint ser_shape (s : any_shape) : json :=
  match s with
  | AsGroup ge np it cix =>
      JObj (fld "ty" JStr "gr" ++ ser_graphic_element ge ++ ofld "np" ser_f64 np ++
            [("it", JArr (map ser_shape it))] ++ ofld "cix" ser_nat cix)
  | AsRectangle sh p s r =>
      JObj (fld "ty" JStr "rc" ++ ser_s_shape sh ++ fld "p" ser_position p ++ fld "s" ser_multi_dim s ++
            fld "r" ser_float_value r)
  | AsEllipse sh p s =>
      JObj (fld "ty" JStr "el" ++ ser_s_shape sh ++ fld "p" ser_position p ++ fld "s" ser_multi_dim s)
  | AsTransform t => JObj (fld "ty" JStr "tr" ++ ser_transform_shape t)
  | AsStroke st bs c =>
      JObj (fld "ty" JStr "st" ++ ser_shape_style st ++ ser_base_stroke bs ++ fld "c" ser_color_value c)
  | AsPuckerBloat m a =>
      JObj (fld "ty" JStr "pb" ++ ser_graphic_element m ++ ofld "a" ser_float_value a)
  | AsMerge ge mm => JObj (fld "ty" JStr "mm" ++ ser_graphic_element ge ++ ofld "mm" ser_merge_mode mm)
  | AsRepeater m c o mm tr =>
      JObj (fld "ty" JStr "rp" ++ ser_graphic_element m ++ fld "c" ser_float_value c ++
            ofld "o" ser_float_value o ++ ofld "m" ser_composite mm ++ fld "tr" ser_repeater_transform tr)
  | AsOffsetPath m a lj ml =>
      JObj (fld "ty" JStr "op" ++ ser_graphic_element m ++ ofld "a" ser_float_value a ++
            ofld "lj" ser_line_join lj ++ ofld "ml" ser_float_value ml)
  | AsFill st c r =>
      JObj (fld "ty" JStr "fl" ++ ser_shape_style st ++ fld "c" ser_color_value c ++ ofld "r" ser_fill_rule r)
  | AsTrim m s e o mm =>
      JObj (fld "ty" JStr "tm" ++ ser_graphic_element m ++ fld "s" ser_float_value s ++
            fld "e" ser_float_value e ++ fld "o" ser_float_value o ++ ofld "m" ser_trim_multiple mm)
  | AsPath sh ks => JObj (fld "ty" JStr "sh" ++ ser_s_shape sh ++ fld "ks" ser_shape_prop ks)
  | AsGradientFill st g r =>
      JObj (fld "ty" JStr "gf" ++ ser_shape_style st ++ ser_base_gradient g ++ nfld "r" ser_fill_rule r)
  | AsGradientStroke st bs g =>
      JObj (fld "ty" JStr "gs" ++ ser_shape_style st ++ ser_base_stroke bs ++ ser_base_gradient g)
  | AsTwist m a p =>
      JObj (fld "ty" JStr "tw" ++ ser_graphic_element m ++ fld "a" ser_float_value a ++ fld "p" ser_position p)
  | AsRoundedCorners m r =>
      JObj (fld "ty" JStr "rd" ++ ser_graphic_element m ++ fld "r" ser_float_value r)
  | AsPolyStar sh p or os r pt sy ir is =>
      JObj (fld "ty" JStr "sr" ++ ser_s_shape sh ++ fld "p" ser_position p ++ fld "or" ser_float_value or ++
            fld "os" ser_float_value os ++ fld "r" ser_float_value r ++ fld "pt" ser_float_value pt ++
            fld "sy" ser_star_type sy ++ nfld "ir" ser_float_value ir ++ nfld "is" ser_float_value is)
  end.

(** * Layers *)

(** layers/layer.rs:14-53.  [st_taken]: the outer struct has a field "st" of
    its own (layers/precomposition.rs:26), so this one finds none. *)
Definition de_s_layer (st_taken : bool) (fs : fields) : option s_layer :=
  let? vo := de_visual_object fs in
  let? ddd := opt "ddd" de_bool_int fs in
  let? hd := opt "hd" de_bool fs in
  let? ty := req "ty" de_u8 fs in
  let? ind := opt "ind" de_usize fs in
  let? parent := opt "parent" de_usize fs in
  let? sr := opt "sr" de_f64 fs in
  let? ip := req "ip" de_f64 fs in
  let? op := req "op" de_f64 fs in
  let? st := if st_taken then Some None else opt "st" de_f64 fs in
  Some (mkSLayer vo ddd hd ty ind parent sr ip op st).
(** layers/layer.rs:14-53, written *)
Definition ser_s_layer (l : s_layer) : fields :=
  ser_visual_object (sl_vo l) ++ ofld "ddd" ser_bool_int (sl_ddd l) ++ ofld "hd" JBool (sl_hd l) ++
  fld "ty" ser_nat (sl_ty l) ++ ofld "ind" ser_nat (sl_ind l) ++ ofld "parent" ser_nat (sl_parent l) ++
  ofld "sr" ser_f64 (sl_sr l) ++ fld "ip" ser_f64 (sl_ip l) ++ fld "op" ser_f64 (sl_op l) ++
  ofld "st" ser_f64 (sl_st l).
(** layers/visual.rs:12-85 *)
Definition de_visual_layer (st_taken : bool) (fs : fields) : option visual_layer :=
  let? layer := de_s_layer st_taken fs in
  let? mt := opt "tt" de_matte_mode fs in
  let? td := opt "td" de_bool_int fs in
  let? masks := opt "masksProperties" (de_list de_mask) fs in
  let? ks := req "ks" de_transform fs in
  let? ao := opt "ao" de_bool_int fs in
  let? tp := opt "tp" de_f64 fs in
  let? has_mask := opt "hasMask" de_bool fs in
  let? mb := opt "mb" de_bool fs in
  let? bm := opt "bm" de_blend fs in
  let? cl := opt "cl" de_string fs in
  let? ln := opt "ln" de_string fs in
  let? tg := opt "tg" de_string fs in
  let? cp := opt "cp" de_string fs in
  let? ct := opt "ct" de_bool_int fs in
  Some (mkVisualLayer layer mt td masks ks ao tp has_mask mb bm cl ln tg cp ct).
(** layers/visual.rs:12-85, written *)
Definition ser_visual_layer (v : visual_layer) : fields :=
  ser_s_layer (vl_layer v) ++ ofld "tt" ser_matte_mode (vl_tt v) ++ ofld "td" ser_bool_int (vl_td v) ++
  ofld "masksProperties" (ser_list ser_mask) (vl_masks v) ++ fld "ks" ser_transform (vl_ks v) ++
  ofld "ao" ser_bool_int (vl_ao v) ++ ofld "tp" ser_f64 (vl_tp v) ++ ofld "hasMask" JBool (vl_has_mask v) ++
  ofld "mb" JBool (vl_mb v) ++ ofld "bm" ser_blend (vl_bm v) ++ ofld "cl" JStr (vl_cl v) ++
  ofld "ln" JStr (vl_ln v) ++ ofld "tg" JStr (vl_tg v) ++ ofld "cp" JStr (vl_cp v) ++
  ofld "ct" ser_bool_int (vl_ct v).

(** [serde_json::Value::as_u64] of the member "ty", if any *)
Definition layer_type (fs : fields) : option Z :=
  req "ty" (fun v => match v with JInt n => if (0 <=? n)%Z then Some n else None | _ => None end) fs.
(** layers/mod.rs:47-83, with precomposition.rs:11-32, solid.rs:8-21,
    image.rs:14-22, null.rs:7-11, shape.rs:11-19 *)
Definition de_layer (j : json) : option any_layer :=
  let? fs := as_map j in
  let? ty := layer_type fs in
  match ty with
  | 0 =>
      let? vl := de_visual_layer true fs in
      let? ref_id := req "refId" de_string fs in
      let? w := req "w" de_f64 fs in
      let? h := req "h" de_f64 fs in
      let? st := req "st" de_f64 fs in
      let? tm := opt "tm" de_float_value fs in
      Some (AlPrecomp vl ref_id w h st tm)
  | 1 =>
      let? vl := de_visual_layer false fs in
      let? sw := req "sw" de_f64 fs in
      let? sh := req "sh" de_f64 fs in
      let? sc := req "sc" de_string fs in
      Some (AlSolid vl sw sh sc)
  | 2 =>
      let? vl := de_visual_layer false fs in
      let? ref_id := req "refId" de_string fs in
      Some (AlImage vl ref_id)
  | 3 => let? vl := de_visual_layer false fs in Some (AlNull vl)
  | 4 =>
      let? vl := de_visual_layer false fs in
      let? shapes := req "shapes" (de_list (de_shape false)) fs in
      Some (AlShape vl shapes)
  | _ => None
  end%Z.
(** layers/mod.rs:22-45 (untagged).  Where a layer and its flattened part
    share a key, the outer one is written last and stays in the object; it is
    listed first here. *)
Definition ser_layer (l : any_layer) : json :=
  match l with
  | AlPrecomp vl ref_id w h st tm =>
      JObj (fld "refId" JStr ref_id ++ fld "w" ser_f64 w ++ fld "h" ser_f64 h ++ fld "st" ser_f64 st ++
            ofld "tm" ser_float_value tm ++ ser_visual_layer vl)
  | AlSolid vl sw sh sc =>
      JObj (fld "sw" ser_f64 sw ++ fld "sh" ser_f64 sh ++ fld "sc" JStr sc ++ ser_visual_layer vl)
  | AlShape vl shapes => JObj (fld "shapes" (ser_list ser_shape) shapes ++ ser_visual_layer vl)
  | AlNull vl => JObj (ser_visual_layer vl)
  | AlImage vl ref_id => JObj (fld "refId" JStr ref_id ++ ser_visual_layer vl)
  end.

(** * Assets *)

(** assets/asset.rs:9-16 *)
Definition de_asset (fs : fields) : option asset :=
  let? id := req "id" de_string fs in
  let? vo := de_visual_object fs in
  Some (mkAsset id vo).
(** assets/asset.rs:9-16, written *)
Definition ser_asset (a : asset) : fields := fld "id" JStr (ass_id a) ++ ser_visual_object (ass_vo a).
(** assets/file_asset.rs:9-24 *)
Definition de_file_asset (fs : fields) : option file_asset :=
  let? a := de_asset fs in
  let? u := opt "u" de_string fs in
  let? p := req "p" de_string fs in
  let? e := opt "e" de_bool_int fs in
  Some (mkFileAsset a u p e).
(** assets/file_asset.rs:9-24, written *)
Definition ser_file_asset (f : file_asset) : fields :=
  ser_asset (fa_asset f) ++ ofld "u" JStr (fa_u f) ++ fld "p" JStr (fa_p f) ++ ofld "e" ser_bool_int (fa_e f).
(** assets/image.rs:28-48: the field "t", absent or a string *)
Definition de_sequence (fs : fields) : option (option bool) :=
  if has "t" fs
  then let? s := req "t" de_string fs in Some (if String.eqb s "seq" then Some true else None)
  else Some None.
(** assets/image.rs:51-60 *)
Definition ser_sequence (b : bool) : json := JStr (if b then "seq" else "").
(** assets/mod.rs:22-55, with image.rs:11-36, precomposition.rs:10-24 and
    animation/composition.rs:8-13 *)
Definition de_any_asset (j : json) : option any_asset :=
  let? fs := as_map j in
  if has "layers" fs then
    let? a := de_asset fs in
    let? layers := req "layers" (de_list de_layer) fs in
    let? fr := opt "fr" de_f64 fs in
    let? xt := opt "xt" de_bool_int fs in
    Some (AaPrecomp a layers fr xt)
  else if match req "t" (fun v => match v with JInt 3 => Some tt | _ => None end) fs with
          | Some _ => true | None => false end then None
  else if has "w" fs || has "h" fs then
    let? fa := de_file_asset fs in
    let? sl := de_slottable fs in
    let? w := opt "w" de_f64 fs in
    let? h := opt "h" de_f64 fs in
    let? t := de_sequence fs in
    Some (AaImage fa sl w h t)
  else None.
(** assets/mod.rs:13-20 (untagged) *)
Definition ser_any_asset (a : any_asset) : json :=
  match a with
  | AaImage fa sl w h t =>
      JObj (ser_file_asset fa ++ ser_slottable sl ++ ofld "w" ser_f64 w ++ ofld "h" ser_f64 h ++
            ofld "t" ser_sequence t)
  | AaPrecomp a layers fr xt =>
      JObj (ser_asset a ++ fld "layers" (ser_list ser_layer) layers ++ ofld "fr" ser_f64 fr ++
            ofld "xt" ser_bool_int xt)
  end.

(** * The document *)

(** animation/meta.rs:7-26 *)
Definition de_meta (j : json) : option meta :=
  let? fs := as_struct_default ["a"; "d"; "tc"; "g"; "k"] j in
  let? a := opt "a" de_string fs in
  let? d := opt "d" de_string fs in
  let? tc := opt "tc" de_string fs in
  let? g := opt "g" de_string fs in
  let? k := opt "k" de_value fs in
  Some (mkMeta a d tc g k).
(** animation/meta.rs:7-26, written *)
Definition ser_meta (m : meta) : json :=
  JObj (ofld "a" JStr (me_a m) ++ ofld "d" JStr (me_d m) ++ ofld "tc" JStr (me_tc m) ++
        ofld "g" JStr (me_g m) ++ ofld "k" ser_value (me_k m)).
(** animation/animation.rs:14-86 ([Animation::from_json]) *)
Definition de_animation (j : json) : option animation :=
  let? fs := as_map j in
  let? vo := de_visual_object fs in
  let? layers := req "layers" (de_list de_layer) fs in
  let? v := opt "v" de_string fs in
  let? ver := opt "ver" de_u32 fs in
  let? fr := req "fr" de_f64 fs in
  let? ip := req "ip" de_f64 fs in
  let? op := req "op" de_f64 fs in
  let? w := req "w" (de_uint usize_max) fs in
  let? h := req "h" (de_uint usize_max) fs in
  let? ddd := opt "ddd" de_bool_int fs in
  let? assets := opt "assets" (de_list de_any_asset) fs in
  let? markers := opt "markers" (de_list de_marker) fs in
  let? me := opt "meta" de_meta fs in
  let? metadata := opt "metadata" de_value fs in
  Some (mkAnimation vo layers v ver fr ip op w h ddd assets markers me metadata).
(** animation/animation.rs:14-86, written *)
Definition ser_animation (a : animation) : json :=
  JObj (ser_visual_object (ani_vo a) ++ fld "layers" (ser_list ser_layer) (ani_layers a) ++
        ofld "v" JStr (ani_v a) ++ ofld "ver" ser_nat (ani_ver a) ++ fld "fr" ser_f64 (ani_fr a) ++
        fld "ip" ser_f64 (ani_ip a) ++ fld "op" ser_f64 (ani_op a) ++ fld "w" JInt (ani_w a) ++
        fld "h" JInt (ani_h a) ++ ofld "ddd" ser_bool_int (ani_ddd a) ++
        ofld "assets" (ser_list ser_any_asset) (ani_assets a) ++
        ofld "markers" (ser_list ser_marker) (ani_markers a) ++ ofld "meta" ser_meta (ani_meta a) ++
        ofld "metadata" ser_value (ani_metadata a)).

(** runtime/mod.rs:44-49 [Composition::from_json]: [None] is an [Err], and
    conversion can panic *)
Definition from_json (E : Ext) (j : json) : option (res composition) :=
  let? source := de_animation j in Some (conv_animation E source).
