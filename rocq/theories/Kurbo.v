(** The part of kurbo 0.13 / peniko 0.6 that velato's own code computes with.

    The sources of these crates are not in /repo; the small algebraic
    functions below (affine maps, lerp, cubic evaluation, segment iteration)
    are transcribed from their documented behaviour, every numerically
    involved function is an oracle in the record [Ext]. *)
From Coq Require Import ZArith Bool List String.
From Flocq Require Import Core BinarySingleNaN.
From Verif Require Import F64.
Import ListNotations.

(** Outcome of Rust code: a value, a panic, or (for budgeted recursion only)
    an exhausted budget. *)
Inductive res (A : Type) : Type :=
| Ok (a : A)
| Panic
| Oof.
Arguments Ok {A} a.
Arguments Panic {A}.
Arguments Oof {A}.

(** Code that goes on after a value only. *)
Definition bind {A B} (r : res A) (k : A -> res B) : res B :=
  match r with Ok a => k a | Panic => Panic | Oof => Oof end.
Notation "'let!' x ':=' r 'in' k" := (bind r (fun x => k))
  (at level 200, x pattern, r at level 100, k at level 200, right associativity).

(** [Option::unwrap], indexing *)
Definition of_option {A} (o : option A) : res A :=
  match o with Some a => Ok a | None => Panic end.

(** Left-to-right monadic map, the first failure wins. *)
Fixpoint mapM {A B} (f : A -> res B) (l : list A) : res (list B) :=
  match l with
  | [] => Ok []
  | x :: l => let! y := f x in let! ys := mapM f l in Ok (y :: ys)
  end.

(** kurbo::Point, Vec2, Size *)
Record point := mkPoint { px : f64; py : f64 }.
(** kurbo::Vec2 *)
Record vec2 := mkVec2 { vx : f64; vy : f64 }.
(** kurbo::Size *)
Record size := mkSize { width : f64; height : f64 }.

(** [PartialEq for Point] *)
Definition point_eqb (p q : point) : bool := feqb (px p) (px q) && feqb (py p) (py q).

(** [Point::lerp]: [self + t * (other - self)] componentwise *)
Definition lerp1 (a b t : f64) : f64 := fadd a (fmul t (fsub b a)).
(** [Point::lerp] *)
Definition point_lerp (p q : point) (t : f64) : point :=
  mkPoint (lerp1 (px p) (px q) t) (lerp1 (py p) (py q) t).

(** kurbo::PathEl *)
Inductive path_el :=
| MoveTo (p : point)
| LineTo (p : point)
| QuadTo (p1 p2 : point)
| CurveTo (p1 p2 p3 : point)
| ClosePath.

(** kurbo::PathSeg *)
Inductive path_seg :=
| SLine (p0 p1 : point)
| SQuad (p0 p1 p2 : point)
| SCubic (p0 p1 p2 p3 : point).

(** [PathSeg::start] *)
Definition seg_start (s : path_seg) : point :=
  match s with SLine p _ => p | SQuad p _ _ => p | SCubic p _ _ _ => p end.

(** End point of an element, [None] for [ClosePath]. *)
Definition el_end (e : path_el) : option point :=
  match e with
  | MoveTo p | LineTo p | QuadTo _ p | CurveTo _ _ p => Some p
  | ClosePath => None
  end.

(** [BezPath::segments]: iterate the drawn segments; panics when the very
    first element is [ClosePath]. *)
Fixpoint segments_from (start last : point) (els : list path_el) : list path_seg :=
  match els with
  | [] => []
  | MoveTo p :: els => segments_from p p els
  | LineTo p :: els => SLine last p :: segments_from start p els
  | QuadTo p1 p2 :: els => SQuad last p1 p2 :: segments_from start p2 els
  | CurveTo p1 p2 p3 :: els => SCubic last p1 p2 p3 :: segments_from start p3 els
  | ClosePath :: els =>
      if point_eqb last start then segments_from start last els
      else SLine last start :: segments_from start start els
  end.
(** [kurbo::segments] from the first element on *)
Definition path_segments (els : list path_el) : res (list path_seg) :=
  match els with
  | [] => Ok []
  | e :: _ => match el_end e with
              | Some p => Ok (segments_from p p els)
              | None => Panic
              end
  end.

(** kurbo::Affine([a, b, c, d, e, f]) *)
Record affine := mkAffine { aa : f64; ab : f64; ac : f64; ad : f64; ae : f64; af : f64 }.

(** [Affine::IDENTITY] *)
Definition affine_identity : affine := mkAffine f1 f0 f0 f1 f0 f0.
(** [Affine::translate] *)
Definition affine_translate (x y : f64) : affine := mkAffine f1 f0 f0 f1 x y.
(** [Affine::scale_non_uniform] *)
Definition affine_scale (sx sy : f64) : affine := mkAffine sx f0 f0 sy f0 f0.
(** [Affine::skew] *)
Definition affine_skew (x y : f64) : affine := mkAffine f1 y x f1 f0 f0.
(** [Mul for Affine]; also used for [MulAssign]. *)
Definition affine_mul (s o : affine) : affine :=
  mkAffine
    (fadd (fmul (aa s) (aa o)) (fmul (ac s) (ab o)))
    (fadd (fmul (ab s) (aa o)) (fmul (ad s) (ab o)))
    (fadd (fmul (aa s) (ac o)) (fmul (ac s) (ad o)))
    (fadd (fmul (ab s) (ac o)) (fmul (ad s) (ad o)))
    (fadd (fadd (fmul (aa s) (ae o)) (fmul (ac s) (af o))) (ae s))
    (fadd (fadd (fmul (ab s) (ae o)) (fmul (ad s) (af o))) (af s)).
(** [PartialEq for Affine] *)
Definition affine_eqb (s o : affine) : bool :=
  feqb (aa s) (aa o) && feqb (ab s) (ab o) && feqb (ac s) (ac o) &&
  feqb (ad s) (ad o) && feqb (ae s) (ae o) && feqb (af s) (af o).

(** kurbo::{Cap, Join, Stroke} (dash fields omitted: velato never sets them) *)
Inductive cap := CapButt | CapSquare | CapRound.
(** kurbo::Join *)
Inductive join := JoinBevel | JoinMiter | JoinRound.
(** kurbo::Stroke *)
Record stroke := mkStroke {
  st_width : f64; st_join : join; st_miter : f64; st_start_cap : cap; st_end_cap : cap }.
(** [Stroke::new] *)
Definition stroke_new (w : f64) : stroke := mkStroke w JoinRound (f_of_Z 4) CapRound CapRound.

(** peniko::{Mix, Compose, BlendMode} *)
Inductive mix :=
| MixNormal | MixMultiply | MixScreen | MixOverlay | MixDarken | MixLighten | MixColorDodge
| MixColorBurn | MixHardLight | MixSoftLight | MixDifference | MixExclusion | MixHue
| MixSaturation | MixColor | MixLuminosity.
(** peniko::Compose *)
Inductive compose :=
| ComposeClear | ComposeCopy | ComposeDest | ComposeSrcOver | ComposeDestOver | ComposeSrcIn
| ComposeDestIn | ComposeSrcOut | ComposeDestOut | ComposeSrcAtop | ComposeDestAtop
| ComposeXor | ComposePlus | ComposePlusLighter.
(** peniko::BlendMode *)
Record blend_mode := mkBlend { bm_mix : mix; bm_compose : compose }.
(** [BlendMode::from] a mix *)
Definition blend_of_mix (m : mix) : blend_mode := mkBlend m ComposeSrcOver.
(** [BlendMode::from] a compose *)
Definition blend_of_compose (c : compose) : blend_mode := mkBlend MixNormal c.
(** [BlendMode::default()] *)
Definition blend_default : blend_mode := mkBlend MixNormal ComposeSrcOver.
(** [PartialEq] of [Mix] *)
Definition mix_eq_dec (a b : mix) : {a = b} + {a <> b}. Proof. decide equality. Defined.
(** [PartialEq] of [Compose] *)
Definition compose_eq_dec (a b : compose) : {a = b} + {a <> b}. Proof. decide equality. Defined.
(** [PartialEq] of [BlendMode] *)
Definition blend_eqb (a b : blend_mode) : bool :=
  (if mix_eq_dec (bm_mix a) (bm_mix b) then true else false) &&
  (if compose_eq_dec (bm_compose a) (bm_compose b) then true else false).

(** peniko::Color (sRGB + alpha), ColorStop, Gradient, Brush.
    Simplification: an image brush is an opaque number (velato never builds
    one, but a user may). *)
Record color := mkColor { cr : f32; cg : f32; cb : f32; ca : f32 }.
(** [Color::TRANSPARENT] *)
Definition color_transparent : color :=
  mkColor (B754_zero false) (B754_zero false) (B754_zero false) (B754_zero false).
(** peniko::ColorStop *)
Record color_stop := mkStop { cs_offset : f32; cs_color : color }.
(** peniko::GradientKind *)
Inductive gradient_kind :=
| GLinear (start end_ : point)
| GRadial (center : point) (radius : f32).
(** peniko::Gradient *)
Record gradient := mkGradient { g_kind : gradient_kind; g_stops : list color_stop }.
(** peniko::Brush *)
Inductive brush :=
| BSolid (c : color)
| BGradient (g : gradient)
| BImage (id : Z).

(** External functions, assumed total but otherwise arbitrary. *)
Record Ext := mkExt {
  x_sin : f64 -> f64;
  x_cos : f64 -> f64;
  x_tan : f64 -> f64;
  x_powf : f64 -> f64 -> f64;
  x_hypot : f64 -> f64 -> f64;
  (* kurbo::common::solve_cubic(c0, c1, c2, c3) *)
  x_solve_cubic : f64 -> f64 -> f64 -> f64 -> list f64;
  (* RoundedRect::new(x0, y0, x1, y1, r).path_elements(0.1) *)
  x_rrect_path : f64 -> f64 -> f64 -> f64 -> f64 -> list path_el;
  (* Ellipse::new(center, (rx, ry), 0.0).path_elements(0.1) *)
  x_ellipse_path : point -> f64 -> f64 -> list path_el;
  (* PathSeg::{arclen(0.1), inv_arclen(_, 0.1), subsegment(a..b)} *)
  x_arclen : path_seg -> f64;
  x_inv_arclen : path_seg -> f64 -> f64;
  x_subsegment : path_seg -> f64 -> f64 -> path_seg;
  (* Color::multiply_alpha, Brush::multiply_alpha *)
  x_color_mul_alpha : color -> f32 -> color;
  x_brush_mul_alpha : brush -> f32 -> brush
}.

(** [Affine::rotate] *)
Definition affine_rotate (E : Ext) (th : f64) : affine :=
  let s := x_sin E th in let c := x_cos E th in
  mkAffine c s (fneg s) c f0 f0.

(** [CubicBez::eval], y coordinate only (the x coordinate is not used). *)
Definition cubic_eval1 (a0 a1 a2 a3 t : f64) : f64 :=
  let mt := fsub f1 t in
  fadd (fmul a0 (fmul (fmul mt mt) mt))
       (fmul (fadd (fmul a1 (fmul (fmul mt mt) (f_of_Z 3)))
                   (fmul (fadd (fmul a2 (fmul mt (f_of_Z 3))) (fmul a3 t)) t))
             t).
