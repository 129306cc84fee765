(** C89: the layer under the pointer, in real numbers. *)
From Coq Require Import ZArith Bool List String Lia Reals Lra.
From Flocq Require Import Core BinarySingleNaN.
From Verif Require Import F64 F64Facts Kurbo Value Animated Batch Render RenderSpec Picking Cursor PickSpec PropPick GeometrySpec PropGeometry PropStar PropEasing PropCamera Examples.
Import ListNotations.
Close Scope string_scope.
Open Scope list_scope.
Open Scope R_scope.

(** ** Specification *)
(** A rectangle with finite corners, the right way round; its points. *)
Definition box (r : rect) : Prop := fin (rx0 r) /\ fin (ry0 r) /\ fin (rx1 r) /\ fin (ry1 r).
Definition upright (r : rect) : Prop := B2R (rx0 r) <= B2R (rx1 r) /\ B2R (ry0 r) <= B2R (ry1 r).
Definition in_box (r : rect) (v : vec) : Prop := B2R (rx0 r) <= fst v <= B2R (rx1 r) /\ B2R (ry0 r) <= snd v <= B2R (ry1 r).
(** Without its right and lower edges. *)
Definition on_box (r : rect) (v : vec) : Prop := B2R (rx0 r) <= fst v < B2R (rx1 r) /\ B2R (ry0 r) <= snd v < B2R (ry1 r).
(** [b] bounds the points [f v] for [v] in [r], to a thousandth: all are in it, and every side of it is touched. *)
Record bounds_image (f : vec -> vec) (r b : rect) : Prop := {
  bi_covers : forall v, in_box r v -> B2R (rx0 b) - 1 / 1000 <= fst (f v) <= B2R (rx1 b) + 1 / 1000 /\
                                      B2R (ry0 b) - 1 / 1000 <= snd (f v) <= B2R (ry1 b) + 1 / 1000;
  bi_left : exists v, in_box r v /\ Rabs (fst (f v) - B2R (rx0 b)) <= 1 / 1000;
  bi_right : exists v, in_box r v /\ Rabs (fst (f v) - B2R (rx1 b)) <= 1 / 1000;
  bi_top : exists v, in_box r v /\ Rabs (snd (f v) - B2R (ry0 b)) <= 1 / 1000;
  bi_bottom : exists v, in_box r v /\ Rabs (snd (f v) - B2R (ry1 b)) <= 1 / 1000 }.
(** The last of some boxes with [v] on it. *)
Definition uppermost (rs : list rect) (v : vec) (o : option nat) : Prop :=
  match o with
  | Some i => (exists r, nth_error rs i = Some r /\ on_box r v) /\ forall j r, (i < j)%nat -> nth_error rs j = Some r -> ~ on_box r v
  | None => forall r, In r rs -> ~ on_box r v
  end.
(** Maps with linear part up to [b] and translation up to [c]. *)
Definition modest (b c : R) (m : affine) : Prop := finite_map m /\
  (Rabs (B2R (aa m)) <= b /\ Rabs (B2R (ab m)) <= b /\ Rabs (B2R (ac m)) <= b /\ Rabs (B2R (ad m)) <= b) /\
  Rabs (B2R (ae m)) <= c /\ Rabs (B2R (af m)) <= c.
(** By how much a map enlarges areas. *)
Definition area (m : affine) : R := B2R (aa m) * B2R (ad m) - B2R (ab m) * B2R (ac m).

(** ** Boxes *)
Lemma fmin_R x y : fin x -> fin y -> fin (fmin x y) /\ B2R (fmin x y) = Rmin (B2R x) (B2R y).
Proof.
  intros Fx Fy. unfold fmin.
  assert (N : forall z : f64, fin z -> is_nan z = false) by (intros [| | |]; cbn; congruence).
  rewrite (N x Fx), (N y Fy). destruct (fltb y x) eqn:L.
  - apply (fltb_lt y x Fy Fx) in L. split; [exact Fy|]. now rewrite Rmin_right by lra.
  - apply (fltb_false y x Fy Fx) in L. split; [exact Fx|]. now rewrite Rmin_left by lra.
Qed.
Lemma point_near t p : modest 64 65536 t -> fin (px p) -> fin (py p) -> Rabs (B2R (px p)) <= 65536 -> Rabs (B2R (py p)) <= 65536 ->
  approx (px (affine_point t p)) (fst (moved t (real_point p))) (/ 10000) /\ approx (py (affine_point t p)) (snd (moved t (real_point p))) (/ 10000).
Proof.
  intros ((F1 & F2 & F3 & F4 & F5 & F6) & (B1 & B2 & B3 & B4) & B5 & B6) Fx Fy Bx By.
  unfold affine_point, moved, real_point. cbn [px py fst snd].
  assert (K : forall a c e x y, fin a -> fin c -> fin e -> fin x -> fin y -> Rabs (B2R a) <= 64 -> Rabs (B2R c) <= 64 -> Rabs (B2R e) <= 65536 ->
    Rabs (B2R x) <= 65536 -> Rabs (B2R y) <= 65536 -> approx (fadd (fadd (fmul a x) (fmul c y)) e) (B2R a * B2R x + B2R c * B2R y + B2R e) (/ 10000)).
  { intros a c e x y Fa Fc Fe Fx' Fy' Ba Bc Be Bx' By'.
    assert (D : approx (fadd (fmul a x) (fmul c y)) (B2R a * B2R x + B2R c * B2R y) (/ 100000)).
    { apply (near_dot _ _ _ _ _ _ _ _ 0 0 64 65536); auto using near_exact; try lra. unfold u52. lra. }
    eapply (near_add _ _ _ _ (/ 100000) 0 (2 * (64 * 65536) + 65536)); [exact D|now apply near_exact| |lra|unfold u52; lra].
    apply Rplus_le_compat; [now apply dot_bound|exact Be]. }
  split; apply K; assumption.
Qed.
Lemma min4 a b c d : let m := Rmin (Rmin a b) (Rmin c d) in m <= a /\ m <= b /\ m <= c /\ m <= d /\ (m = a \/ m = b \/ m = c \/ m = d).
Proof.
  cbv zeta. pose proof (Rmin_l (Rmin a b) (Rmin c d)). pose proof (Rmin_r (Rmin a b) (Rmin c d)). pose proof (Rmin_l a b). pose proof (Rmin_r a b).
  pose proof (Rmin_l c d). pose proof (Rmin_r c d). repeat split; try lra.
  unfold Rmin; destruct (Rle_dec a b), (Rle_dec c d); destruct (Rle_dec _ _); auto.
Qed.
Lemma max4 a b c d : let m := Rmax (Rmax a b) (Rmax c d) in a <= m /\ b <= m /\ c <= m /\ d <= m /\ (m = a \/ m = b \/ m = c \/ m = d).
Proof.
  cbv zeta. pose proof (Rmax_l (Rmax a b) (Rmax c d)). pose proof (Rmax_r (Rmax a b) (Rmax c d)). pose proof (Rmax_l a b). pose proof (Rmax_r a b).
  pose proof (Rmax_l c d). pose proof (Rmax_r c d). repeat split; try lra.
  unfold Rmax; destruct (Rle_dec a b), (Rle_dec c d); destruct (Rle_dec _ _); auto.
Qed.
(** A linear function on a box is between its values at the corners. *)
Lemma corners a c e x0 x1 y0 y1 x y : x0 <= x <= x1 -> y0 <= y <= y1 ->
  (exists u v, (u = x0 \/ u = x1) /\ (v = y0 \/ v = y1) /\ a * u + c * v + e <= a * x + c * y + e) /\
  (exists u v, (u = x0 \/ u = x1) /\ (v = y0 \/ v = y1) /\ a * x + c * y + e <= a * u + c * v + e).
Proof.
  intros Hx Hy.
  assert (X : exists u, (u = x0 \/ u = x1) /\ a * u <= a * x). { destruct (Rle_dec 0 a); [exists x0|exists x1]; (split; [auto|nra]). }
  assert (X' : exists u, (u = x0 \/ u = x1) /\ a * x <= a * u). { destruct (Rle_dec 0 a); [exists x1|exists x0]; (split; [auto|nra]). }
  assert (Y : exists v, (v = y0 \/ v = y1) /\ c * v <= c * y). { destruct (Rle_dec 0 c); [exists y0|exists y1]; (split; [auto|nra]). }
  assert (Y' : exists v, (v = y0 \/ v = y1) /\ c * y <= c * v). { destruct (Rle_dec 0 c); [exists y1|exists y0]; (split; [auto|nra]). }
  destruct X as (u & Hu & Lu), X' as (u' & Hu' & Lu'), Y as (v & Hv & Lv), Y' as (v' & Hv' & Lv').
  split; [exists u, v|exists u', v']; (split; [assumption|split; [assumption|lra]]).
Qed.
Lemma min4_R a b c d ra rb rc rd e : approx a ra e -> approx b rb e -> approx c rc e -> approx d rd e ->
  B2R (fmin (fmin a b) (fmin c d)) <= Rmin (Rmin ra rb) (Rmin rc rd) + e /\ Rmin (Rmin ra rb) (Rmin rc rd) - e <= B2R (fmin (fmin a b) (fmin c d)).
Proof.
  intros [Fa Ha] [Fb Hb] [Fc Hc] [Fd Hd]. destruct (fmin_R a b Fa Fb) as [F1 E1]. destruct (fmin_R c d Fc Fd) as [F2 E2]. destruct (fmin_R _ _ F1 F2) as [_ E3].
  rewrite E3, E1, E2. apply Rabs_le_inv in Ha, Hb, Hc, Hd.
  pose proof (min4 ra rb rc rd) as H. pose proof (min4 (B2R a) (B2R b) (B2R c) (B2R d)) as H'. cbv zeta in H, H'.
  destruct H as (L1 & L2 & L3 & L4 & [O|[O|[O|O]]]), H' as (L1' & L2' & L3' & L4' & [O'|[O'|[O'|O']]]); lra.
Qed.
Lemma max4_R a b c d ra rb rc rd e : approx a ra e -> approx b rb e -> approx c rc e -> approx d rd e ->
  B2R (fmax (fmax a b) (fmax c d)) <= Rmax (Rmax ra rb) (Rmax rc rd) + e /\ Rmax (Rmax ra rb) (Rmax rc rd) - e <= B2R (fmax (fmax a b) (fmax c d)).
Proof.
  intros [Fa Ha] [Fb Hb] [Fc Hc] [Fd Hd]. destruct (fmax_R a b Fa Fb) as [F1 E1]. destruct (fmax_R c d Fc Fd) as [F2 E2]. destruct (fmax_R _ _ F1 F2) as [_ E3].
  rewrite E3, E1, E2. apply Rabs_le_inv in Ha, Hb, Hc, Hd.
  pose proof (max4 ra rb rc rd) as H. pose proof (max4 (B2R a) (B2R b) (B2R c) (B2R d)) as H'. cbv zeta in H, H'.
  destruct H as (L1 & L2 & L3 & L4 & [O|[O|[O|O]]]), H' as (L1' & L2' & L3' & L4' & [O'|[O'|[O'|O']]]); lra.
Qed.
(** The box kept for something drawn bounds where it is drawn. *)
Theorem C89_box : forall t r, modest 64 65536 t -> box r -> upright r ->
  Rabs (B2R (rx0 r)) <= 65536 -> Rabs (B2R (ry0 r)) <= 65536 -> Rabs (B2R (rx1 r)) <= 65536 -> Rabs (B2R (ry1 r)) <= 65536 ->
  bounds_image (moved t) r (transform_rect_bbox t r).
Proof.
  intros t r M (F0 & G0 & F1 & G1) (Ux & Uy) B0 C0 B1 C1.
  destruct (point_near t (mkPoint (rx0 r) (ry0 r)) M F0 G0 B0 C0) as [X00 Y00]. destruct (point_near t (mkPoint (rx0 r) (ry1 r)) M F0 G1 B0 C1) as [X01 Y01].
  destruct (point_near t (mkPoint (rx1 r) (ry0 r)) M F1 G0 B1 C0) as [X10 Y10]. destruct (point_near t (mkPoint (rx1 r) (ry1 r)) M F1 G1 B1 C1) as [X11 Y11].
  pose proof (min4_R _ _ _ _ _ _ _ _ _ X00 X01 X10 X11) as Lx. pose proof (min4_R _ _ _ _ _ _ _ _ _ Y00 Y01 Y10 Y11) as Ly.
  pose proof (max4_R _ _ _ _ _ _ _ _ _ X00 X01 X10 X11) as Hx. pose proof (max4_R _ _ _ _ _ _ _ _ _ Y00 Y01 Y10 Y11) as Hy.
  clear X00 X01 X10 X11 Y00 Y01 Y10 Y11 M.
  set (x00 := fst (moved t (real_point (mkPoint (rx0 r) (ry0 r))))) in *. set (x01 := fst (moved t (real_point (mkPoint (rx0 r) (ry1 r))))) in *.
  set (x10 := fst (moved t (real_point (mkPoint (rx1 r) (ry0 r))))) in *. set (x11 := fst (moved t (real_point (mkPoint (rx1 r) (ry1 r))))) in *.
  set (y00 := snd (moved t (real_point (mkPoint (rx0 r) (ry0 r))))) in *. set (y01 := snd (moved t (real_point (mkPoint (rx0 r) (ry1 r))))) in *.
  set (y10 := snd (moved t (real_point (mkPoint (rx1 r) (ry0 r))))) in *. set (y11 := snd (moved t (real_point (mkPoint (rx1 r) (ry1 r))))) in *.
  set (b := transform_rect_bbox t r).
  change (fmin (fmin _ _) (fmin _ _)) with (rx0 b) in Lx. change (fmin (fmin _ _) (fmin _ _)) with (ry0 b) in Ly.
  change (fmax (fmax _ _) (fmax _ _)) with (rx1 b) in Hx. change (fmax (fmax _ _) (fmax _ _)) with (ry1 b) in Hy. clearbody b.
  destruct (min4 x00 x01 x10 x11) as (A1 & A2 & A3 & A4 & A5). destruct (min4 y00 y01 y10 y11) as (D1 & D2 & D3 & D4 & D5).
  destruct (max4 x00 x01 x10 x11) as (P1 & P2 & P3 & P4 & P5). destruct (max4 y00 y01 y10 y11) as (Q1 & Q2 & Q3 & Q4 & Q5).
  set (mx := Rmin _ _) in Lx, A1, A2, A3, A4, A5. set (my := Rmin _ _) in Ly, D1, D2, D3, D4, D5.
  set (nx := Rmax _ _) in Hx, P1, P2, P3, P4, P5. set (ny := Rmax _ _) in Hy, Q1, Q2, Q3, Q4, Q5. clearbody mx my nx ny.
  assert (V : forall x y, (x = rx0 r \/ x = rx1 r) -> (y = ry0 r \/ y = ry1 r) -> in_box r (B2R x, B2R y)).
  { intros x y [->| ->] [->| ->]; unfold in_box; cbn [fst snd]; lra. }
  constructor.
  - intros [x y] [Hx' Hy']. cbn [fst snd] in Hx', Hy'.
    destruct (corners (B2R (aa t)) (B2R (ac t)) (B2R (ae t)) _ _ _ _ x y Hx' Hy') as ((u & v & Hu & Hv & L) & (u' & v' & Hu' & Hv' & L')).
    destruct (corners (B2R (ab t)) (B2R (ad t)) (B2R (af t)) _ _ _ _ x y Hx' Hy') as ((w & z & Hw & Hz & K) & (w' & z' & Hw' & Hz' & K')).
    assert (U1 : mx <= B2R (aa t) * u + B2R (ac t) * v + B2R (ae t)) by (destruct Hu as [->| ->], Hv as [->| ->]; assumption).
    assert (U2 : B2R (aa t) * u' + B2R (ac t) * v' + B2R (ae t) <= nx) by (destruct Hu' as [->| ->], Hv' as [->| ->]; assumption).
    assert (U3 : my <= B2R (ab t) * w + B2R (ad t) * z + B2R (af t)) by (destruct Hw as [->| ->], Hz as [->| ->]; assumption).
    assert (U4 : B2R (ab t) * w' + B2R (ad t) * z' + B2R (af t) <= ny) by (destruct Hw' as [->| ->], Hz' as [->| ->]; assumption).
    unfold moved. cbn [fst snd]. clear - U1 U2 U3 U4 L L' K K' Lx Ly Hx Hy.
    set (X := B2R (aa t) * x + B2R (ac t) * y + B2R (ae t)) in *. set (Y := B2R (ab t) * x + B2R (ad t) * y + B2R (af t)) in *.
    assert (mx <= X) by (now apply Rle_trans with (1 := U1)). assert (X <= nx) by (now apply Rle_trans with (1 := L')).
    assert (my <= Y) by (now apply Rle_trans with (1 := U3)). assert (Y <= ny) by (now apply Rle_trans with (1 := K')).
    clearbody X Y. clear - H H0 H1 H2 Lx Ly Hx Hy. lra.
  - destruct A5 as [Z|[Z|[Z|Z]]]; [exists (B2R (rx0 r), B2R (ry0 r))|exists (B2R (rx0 r), B2R (ry1 r))|exists (B2R (rx1 r), B2R (ry0 r))|exists (B2R (rx1 r), B2R (ry1 r))];
      (split; [apply V; auto|]); [change (Rabs (x00 - B2R (rx0 b)) <= 1 / 1000)|change (Rabs (x01 - B2R (rx0 b)) <= 1 / 1000)|change (Rabs (x10 - B2R (rx0 b)) <= 1 / 1000)|change (Rabs (x11 - B2R (rx0 b)) <= 1 / 1000)];
      rewrite <- Z; apply Rabs_le; lra.
  - destruct P5 as [Z|[Z|[Z|Z]]]; [exists (B2R (rx0 r), B2R (ry0 r))|exists (B2R (rx0 r), B2R (ry1 r))|exists (B2R (rx1 r), B2R (ry0 r))|exists (B2R (rx1 r), B2R (ry1 r))];
      (split; [apply V; auto|]); [change (Rabs (x00 - B2R (rx1 b)) <= 1 / 1000)|change (Rabs (x01 - B2R (rx1 b)) <= 1 / 1000)|change (Rabs (x10 - B2R (rx1 b)) <= 1 / 1000)|change (Rabs (x11 - B2R (rx1 b)) <= 1 / 1000)];
      rewrite <- Z; apply Rabs_le; lra.
  - destruct D5 as [Z|[Z|[Z|Z]]]; [exists (B2R (rx0 r), B2R (ry0 r))|exists (B2R (rx0 r), B2R (ry1 r))|exists (B2R (rx1 r), B2R (ry0 r))|exists (B2R (rx1 r), B2R (ry1 r))];
      (split; [apply V; auto|]); [change (Rabs (y00 - B2R (ry0 b)) <= 1 / 1000)|change (Rabs (y01 - B2R (ry0 b)) <= 1 / 1000)|change (Rabs (y10 - B2R (ry0 b)) <= 1 / 1000)|change (Rabs (y11 - B2R (ry0 b)) <= 1 / 1000)];
      rewrite <- Z; apply Rabs_le; lra.
  - destruct Q5 as [Z|[Z|[Z|Z]]]; [exists (B2R (rx0 r), B2R (ry0 r))|exists (B2R (rx0 r), B2R (ry1 r))|exists (B2R (rx1 r), B2R (ry0 r))|exists (B2R (rx1 r), B2R (ry1 r))];
      (split; [apply V; auto|]); [change (Rabs (y00 - B2R (ry1 b)) <= 1 / 1000)|change (Rabs (y01 - B2R (ry1 b)) <= 1 / 1000)|change (Rabs (y10 - B2R (ry1 b)) <= 1 / 1000)|change (Rabs (y11 - B2R (ry1 b)) <= 1 / 1000)];
      rewrite <- Z; apply Rabs_le; lra.
Qed.
Lemma contains_R r p : box r -> fin (px p) -> fin (py p) -> (rect_contains r p = true <-> on_box r (real_point p)).
Proof.
  intros (F0 & G0 & F1 & G1) Fx Fy. unfold rect_contains, on_box, real_point. cbn [fst snd].
  rewrite !andb_true_iff, (fleb_le _ _ F0 Fx), (fltb_lt _ _ Fx F1), (fleb_le _ _ G0 Fy), (fltb_lt _ _ Fy G1). tauto.
Qed.
Lemma near_sub_prod a b c d G B C : fin a -> fin b -> fin c -> fin d -> Rabs (B2R a) <= B -> Rabs (B2R b) <= C -> Rabs (B2R c) <= B -> Rabs (B2R d) <= C ->
  1 <= B <= 1048576 -> 1 <= C <= 1048576 -> u52 * (5 * (B * C)) <= G -> B * C <= 1073741824 ->
  approx (fsub (fmul a b) (fmul c d)) (B2R a * B2R b - B2R c * B2R d) (2 * G).
Proof.
  intros Fa Fb Fc Fd Ba Bb Bc Bd HB HC HG HS.
  assert (P1 : 1 <= B * C) by (replace 1 with (1 * 1) by ring; apply Rmult_le_compat; lra).
  assert (M1 : approx (fmul a b) (B2R a * B2R b) (u52 * (2 * (B * C)))).
  { apply (near_mul a b _ _ 0 0 B C); auto using near_exact; try lra. unfold u52 in *. lra. }
  assert (M2 : approx (fmul c d) (B2R c * B2R d) (u52 * (2 * (B * C)))).
  { apply (near_mul c d _ _ 0 0 B C); auto using near_exact; try lra. unfold u52 in *. lra. }
  assert (A1 : Rabs (B2R a * B2R b) <= B * C) by (rewrite Rabs_mult; apply Rmult_le_compat; auto using Rabs_pos).
  assert (A2 : Rabs (B2R c * B2R d) <= B * C) by (rewrite Rabs_mult; apply Rmult_le_compat; auto using Rabs_pos).
  eapply (approx_sub _ _ _ _ _ _ (2 * (B * C))); [exact M1|exact M2|lra| |]; unfold u52 in *; lra.
Qed.
(** Taking the pointer back into the scene: the point found is shown at the pointer. *)
Lemma inverse_point T p : modest 32 32768 T -> / 64 <= Rabs (area T) -> fin (px p) -> fin (py p) -> bounded_by 16384 (real_point p) ->
  let q := affine_point (affine_inverse T) p in fin (px q) /\ fin (py q) /\ within (1 / 1000) (moved T (real_point q)) (real_point p).
Proof.
  intros ((Fa & Fb & Fc & Fd & Fe & Ff) & (Ba & Bb & Bc & Bd) & Be & Bf) Det Fx Fy [Bx By]. cbn [real_point fst snd] in Bx, By.
  assert (Dn : approx (determinant T) (area T) (/ 100000000000)).
  { unfold determinant, area. eapply near_weaken; [apply (near_sub_prod _ _ _ _ (/ 400000000000) 32 32); auto; try lra; unfold u52; lra|lra]. }
  destruct Dn as [FD ED]. set (D := determinant T) in *.
  assert (DD : / 65 <= Rabs (B2R D)).
  { replace (area T) with (B2R D - (B2R D - area T)) in Det by ring. pose proof (Rabs_triang (B2R D) (- (B2R D - area T))) as Tr. rewrite Rabs_Ropp in Tr.
    unfold Rminus at 1 in Det. lra. }
  assert (D0 : B2R D <> 0) by (intros Z; rewrite Z, Rabs_R0 in DD; lra).
  assert (I65 : Rabs (1 / B2R D) <= 65).
  { unfold Rdiv. rewrite Rmult_1_l, Rabs_inv. replace 65 with (/ / 65) by lra. apply Rinv_le_contravar; [lra|exact DD]. }
  destruct (fdiv_R f1 D eq_refl D0) as [EI FI]; [rewrite f1_R; pose proof big_range; lra|]. rewrite f1_R in EI. set (i := fdiv f1 D) in *.
  pose proof (rnd_error (1 / B2R D)) as RI. rewrite <- EI in RI.
  assert (EI' : Rabs (B2R i - 1 / B2R D) <= / 60000000000000) by (apply Rle_trans with (1 := RI); unfold u52; lra).
  assert (Bi : Rabs (B2R i) <= 66).
  { replace (B2R i) with ((B2R i - 1 / B2R D) + 1 / B2R D) by ring. apply Rle_trans with (1 := Rabs_triang _ _). lra. }
  assert (Ba' : Rabs (area T) <= 2048).
  { unfold area. apply Rle_trans with (1 := Rabs_triang _ _). rewrite Rabs_Ropp, !Rabs_mult.
    assert (Rabs (B2R (aa T)) * Rabs (B2R (ad T)) <= 32 * 32) by (apply Rmult_le_compat; auto using Rabs_pos).
    assert (Rabs (B2R (ab T)) * Rabs (B2R (ac T)) <= 32 * 32) by (apply Rmult_le_compat; auto using Rabs_pos). lra. }
  assert (K : Rabs (B2R i * area T - 1) <= / 1000000000).
  { replace (B2R i * area T - 1) with ((B2R i - 1 / B2R D) * area T - (B2R D - area T) * (1 / B2R D)) by (field; exact D0).
    apply Rle_trans with (1 := Rabs_triang _ _). rewrite Rabs_Ropp, !Rabs_mult.
    assert (Rabs (B2R i - 1 / B2R D) * Rabs (area T) <= / 60000000000000 * 2048) by (apply Rmult_le_compat; auto using Rabs_pos).
    assert (Rabs (B2R D - area T) * Rabs (1 / B2R D) <= / 100000000000 * 65) by (apply Rmult_le_compat; auto using Rabs_pos). lra. }
  assert (AI : affine_inverse T = mkAffine (fmul i (ad T)) (fmul (fneg i) (ab T)) (fmul (fneg i) (ac T)) (fmul i (aa T)) (fmul i (fsub (fmul (ac T) (af T)) (fmul (ad T) (ae T))))
      (fmul i (fsub (fmul (ab T) (ae T)) (fmul (aa T) (af T))))) by reflexivity.
  clear EI EI' RI I65 D0 DD ED FD Det. clearbody i. clear D.
  set (I := B2R i) in *. set (a := B2R (aa T)) in *. set (b := B2R (ab T)) in *. set (c := B2R (ac T)) in *. set (d := B2R (ad T)) in *. set (e := B2R (ae T)) in *. set (f := B2R (af T)) in *.
  set (x := B2R (px p)) in *. set (y := B2R (py p)) in *.
  assert (Fi : fin (fneg i)) by (unfold fneg; now rewrite is_finite_Bopp). assert (Ei : B2R (fneg i) = - I) by (unfold fneg; now rewrite B2R_Bopp).
  assert (N : forall u, fin u -> Rabs (B2R u) <= 32 -> approx (fmul i u) (I * B2R u) (/ 1000000000000) /\ approx (fmul (fneg i) u) (- I * B2R u) (/ 1000000000000) /\
    Rabs (I * B2R u) <= 66 * 32 /\ Rabs (- I * B2R u) <= 66 * 32).
  { intros u Fu Bu. split; [|split; [|split]].
    - apply (near_mul i u I (B2R u) 0 0 66 32); auto using near_exact; try lra. unfold u52. lra.
    - apply (near_mul (fneg i) u (- I) (B2R u) 0 0 66 32); auto using near_exact; rewrite ?Rabs_Ropp; try lra. unfold u52. lra.
    - rewrite Rabs_mult. apply Rmult_le_compat; auto using Rabs_pos.
    - rewrite Rabs_mult, Rabs_Ropp. apply Rmult_le_compat; auto using Rabs_pos. }
  assert (O : forall u v w z, fin u -> fin v -> fin w -> fin z -> Rabs (B2R u) <= 32 -> Rabs (B2R v) <= 32768 -> Rabs (B2R w) <= 32 -> Rabs (B2R z) <= 32768 ->
    approx (fmul i (fsub (fmul u v) (fmul w z))) (I * (B2R u * B2R v - B2R w * B2R z)) (/ 1000000) /\ Rabs (I * (B2R u * B2R v - B2R w * B2R z)) <= 66 * 2097152).
  { intros u v w z Fu Fv Fw Fz Bu Bv Bw Bz.
    assert (S : approx (fsub (fmul u v) (fmul w z)) (B2R u * B2R v - B2R w * B2R z) (2 * / 800000000)).
    { apply (near_sub_prod _ _ _ _ _ 32 32768); auto; try lra; unfold u52; lra. }
    assert (SB : Rabs (B2R u * B2R v - B2R w * B2R z) <= 2097152).
    { apply Rle_trans with (1 := Rabs_triang _ _). rewrite Rabs_Ropp, !Rabs_mult.
      assert (Rabs (B2R u) * Rabs (B2R v) <= 32 * 32768) by (apply Rmult_le_compat; auto using Rabs_pos).
      assert (Rabs (B2R w) * Rabs (B2R z) <= 32 * 32768) by (apply Rmult_le_compat; auto using Rabs_pos). lra. }
    split.
    - eapply (near_mul i _ I _ 0 (2 * / 800000000) 66 2097152); [now apply near_exact|exact S|exact Bi|exact SB|lra|lra|unfold u52; lra].
    - rewrite Rabs_mult. apply Rmult_le_compat; auto using Rabs_pos. }
  destruct (N _ Fd Bd) as (Nd & _ & Md & _). destruct (N _ Fb Bb) as (_ & Nb & _ & Mb). destruct (N _ Fc Bc) as (_ & Nc & _ & Mc). destruct (N _ Fa Ba) as (Na & _ & Ma & _).
  destruct (O _ _ _ _ Fc Ff Fd Fe Bc Bf Bd Be) as (Ne & Me). destruct (O _ _ _ _ Fb Fe Fa Ff Bb Be Ba Bf) as (Nf & Mf).
  fold a b c d e f in Nd, Nb, Nc, Na, Ne, Nf, Md, Mb, Mc, Ma, Me, Mf.
  assert (P : forall A C Z rA rC rZ, approx A rA (/ 1000000000000) -> approx C rC (/ 1000000000000) -> approx Z rZ (/ 1000000) ->
    Rabs rA <= 66 * 32 -> Rabs rC <= 66 * 32 -> Rabs rZ <= 66 * 2097152 ->
    approx (fadd (fadd (fmul A (px p)) (fmul C (py p))) Z) (rA * x + rC * y + rZ) (/ 200000)).
  { intros A C Z rA rC rZ HA HC HZ BA BC BZ.
    assert (Dt : approx (fadd (fmul A (px p)) (fmul C (py p))) (rA * x + rC * y) (/ 1000000)).
    { apply (near_dot A (px p) C (py p) rA x rC y (/ 1000000000000) 0 (66 * 32) 16384); auto using near_exact; try lra. unfold u52. lra. }
    eapply (near_add _ _ _ _ (/ 1000000) (/ 1000000) (2 * (66 * 32 * 16384) + 66 * 2097152)); [exact Dt|exact HZ| |lra|unfold u52; lra].
    apply Rplus_le_compat; [now apply dot_bound|exact BZ]. }
  cbv zeta.
  pose proof (P _ _ _ _ _ _ Nd Nc Ne Md Mc Me) as [FX EX]. pose proof (P _ _ _ _ _ _ Nb Na Nf Mb Ma Mf) as [FY EY].
  rewrite AI. unfold affine_point. cbn [aa ab ac ad ae af px py]. set (X := fadd (fadd _ _) _) in FX, EX |- *. set (Y := fadd (fadd _ _) _) in FY, EY |- *.
  split; [exact FX|]. split; [exact FY|]. unfold within, moved, real_point. cbn [fst snd px py]. fold a b c d e f x y.
  assert (G : forall u v z w t dx dy, Rabs u <= 32 -> Rabs v <= 32 -> Rabs dx <= / 200000 -> Rabs dy <= / 200000 -> Rabs (w - t) <= 49152 ->
    z = u * dx + v * dy + (I * area T - 1) * (w - t) -> Rabs z <= 1 / 1000).
  { intros u v z w t dx dy Hu Hv Hdx Hdy Ht ->. apply Rle_trans with (1 := Rabs_triang _ _). rewrite (Rabs_mult _ (w - t)).
    assert (Rabs (I * area T - 1) * Rabs (w - t) <= / 1000000000 * 49152) by (apply Rmult_le_compat; auto using Rabs_pos).
    pose proof (dot_bound u dx v dy 32 (/ 200000) Hu Hdx Hv Hdy). lra. }
  split; [eapply (G a c _ x e); [exact Ba|exact Bc|exact EX|exact EY| |]|eapply (G b d _ y f); [exact Bb|exact Bd|exact EX|exact EY| |]].
  1,3: apply Rabs_le; apply Rabs_le_inv in Bx, By, Be, Bf; lra.
  all: unfold area; fold a b c d; ring.
Qed.
(** The layer found at the pointer is the last painted of those whose box is on
    a point which the window shows at the pointer. *)
Theorem C89_layer : forall E bbox c frame tf alpha r es window resolution camera cursor,
  used r -> append_draws E c frame tf alpha r es ->
  let T := on_window window resolution camera in let hits := frame_hits bbox c es in
  modest 32 32768 T -> / 64 <= Rabs (area T) -> fin (px cursor) -> fin (py cursor) -> bounded_by 16384 (real_point cursor) ->
  (forall h, In h hits -> box (lh_rect h)) ->
  exists v, within (1 / 1000) (moved T v) (real_point cursor) /\
    uppermost (map lh_rect hits) v (hovered hits (Some cursor) (Some window) resolution camera).
Proof.
  intros E bbox c frame tf alpha r es window resolution camera cursor U H T hits M A Fx Fy B Bh.
  destruct (inverse_point T cursor M A Fx Fy B) as (FX & FY & W). set (q := affine_point (affine_inverse T) cursor) in *.
  exists (real_point q). split; [exact W|]. pose proof (C70_topmost E bbox c frame tf alpha r es q U H) as Top. cbv zeta in Top. fold hits in Top.
  change (hovered hits (Some cursor) (Some window) resolution camera) with (pick_layer hits q).
  assert (R : forall r', In r' (map lh_rect hits) -> (rect_contains r' q = true <-> on_box r' (real_point q))).
  { intros r' Hr. apply in_map_iff in Hr as (h & <- & Hh). apply contains_R; auto. }
  unfold topmost, uppermost in *. destruct (pick_layer hits q) as [i|].
  - destruct Top as ((r' & Hr & C) & L). split; [exists r'; split; [exact Hr|apply R; [now apply nth_error_In with i|exact C]]|].
    intros j r'' Hj Hn Ho. apply R in Ho; [|now apply nth_error_In with j]. rewrite (L j r'' Hj Hn) in Ho. discriminate.
  - intros r' Hr Ho. apply R in Ho; [|exact Hr]. rewrite (Top r' Hr) in Ho. discriminate.
Qed.
(** ** What is drawn over the frame *)
Lemma marks_nth over i hits k : nth_error (marks over i hits) k =
  option_map (mark_of (match over with Some j => Nat.eqb j (i + k) | None => false end)) (nth_error hits k).
Proof.
  revert i k. induction hits as [|h hits IH]; intros i [|k]; try reflexivity; cbn [marks nth_error option_map].
  - now rewrite Nat.add_0_r.
  - rewrite IH. now rewrite Nat.add_succ_r.
Qed.
Lemma marks_length over i hits : List.length (marks over i hits) = List.length hits.
Proof. revert i. induction hits as [|h hits IH]; intros i; [reflexivity|]. cbn. now rewrite IH. Qed.
(** Every layer is marked with its box and its name, and the one whose box is
    upper-most where the pointer is, and no other, is bright and named there. *)
Theorem C89_overlay : forall E bbox c frame tf alpha r es window resolution camera cursor,
  used r -> append_draws E c frame tf alpha r es ->
  let T := on_window window resolution camera in let hits := frame_hits bbox c es in
  modest 32 32768 T -> / 64 <= Rabs (area T) -> fin (px cursor) -> fin (py cursor) -> bounded_by 16384 (real_point cursor) ->
  (forall h, In h hits -> box (lh_rect h)) ->
  exists v ms tip, within (1 / 1000) (moved T v) (real_point cursor) /\
    overlay hits (Some cursor) (Some window) resolution camera = Ok (ms, tip) /\
    map mk_rect ms = map lh_rect hits /\ map mk_name ms = map lh_name hits /\
    (forall i m, nth_error ms i = Some m -> (mk_bright m = true <-> on_box (mk_rect m) v /\ forall j m', (i < j)%nat -> nth_error ms j = Some m' -> ~ on_box (mk_rect m') v)) /\
    (forall name, (exists at_, tip = Some (String.append "-> "%string name, at_)) <-> exists m, In m ms /\ mk_bright m = true /\ mk_name m = name).
Proof.
  intros E bbox c frame tf alpha r es window resolution camera cursor U H T hits M A Fx Fy B Bh.
  destruct (C89_layer E bbox c frame tf alpha r es window resolution camera cursor U H M A Fx Fy B Bh) as (v & W & Up). fold T hits in W, Up.
  set (over := hovered hits (Some cursor) (Some window) resolution camera) in *. exists v, (marks over 0 hits).
  assert (Tp : exists tip, tooltip hits over (Some (cursor_to_scene cursor window resolution camera)) = Ok tip /\
    forall name, (exists at_, tip = Some (String.append "-> "%string name, at_)) <-> exists i h, over = Some i /\ nth_error hits i = Some h /\ lh_name h = name).
  { unfold tooltip. destruct over as [i|].
    - destruct Up as [(r' & Hr & _) _]. rewrite nth_error_map in Hr. destruct (nth_error hits i) as [h|] eqn:Hi; [|discriminate]. eexists. split; [reflexivity|].
      intros name. split.
      + intros [at_ Eq]. assert (Ap : String.append "-> "%string (lh_name h) = String.append "-> "%string name) by (apply (f_equal (fun o => match o with Some (a, _) => a | None => String.EmptyString end) Eq)).
        exists i, h. split; [reflexivity|]. split; [exact Hi|]. cbn in Ap. now injection Ap.
      + intros (i' & h' & [= <-] & Hi' & <-). assert (h' = h) as -> by congruence. eauto.
    - eexists. split; [reflexivity|]. intros name. split; [intros [at_ Eq]; discriminate|intros (i & h & Eq & _); discriminate]. }
  destruct Tp as (tip & Tp & Names). exists tip. split; [exact W|]. split; [unfold overlay; fold over; now rewrite Tp|].
  assert (Rc : map mk_rect (marks over 0 hits) = map lh_rect hits /\ map mk_name (marks over 0 hits) = map lh_name hits).
  { generalize over as o. generalize hits as hs. clear. intros hs o. generalize 0%nat as i. induction hs as [|h hs IH]; intros i; [split; reflexivity|]. cbn [marks map]. destruct (IH (S i)) as [-> ->]. split; reflexivity. }
  split; [apply Rc|]. split; [apply Rc|]. destruct Rc as [Rc _].
  assert (Br : forall i m, nth_error (marks over 0 hits) i = Some m -> (mk_bright m = true <-> over = Some i)).
  { intros i m Hm. rewrite marks_nth in Hm. destruct (nth_error hits i) as [h|]; [|discriminate]. cbn [option_map] in Hm.
    assert (mk_bright m = match over with Some j => Nat.eqb j i | None => false end) as -> by (apply (f_equal (fun o => match o with Some m => mk_bright m | None => false end)) in Hm; symmetry; exact Hm).
    destruct over as [j|]; [|split; discriminate]. rewrite Nat.eqb_eq. split; [now intros ->|congruence]. }
  assert (Rs : forall i, nth_error (map lh_rect hits) i = option_map mk_rect (nth_error (marks over 0 hits) i)) by (intros i; rewrite <- Rc; apply nth_error_map).
  split.
  - intros i m Hm. rewrite (Br i m Hm). assert (Ri : nth_error (map lh_rect hits) i = Some (mk_rect m)) by (rewrite Rs, Hm; reflexivity).
    unfold uppermost in Up. split.
    + intros Eq. rewrite Eq in Up. destruct Up as [(r' & Hr & On) Abv]. assert (r' = mk_rect m) as -> by congruence. split; [exact On|].
      intros j m' Lt Hj. apply (Abv j); [exact Lt|]. rewrite Rs, Hj. reflexivity.
    + intros [On Abv]. destruct over as [k|].
      * destruct Up as [(r' & Hr & On') Abv']. destruct (Nat.lt_trichotomy k i) as [L|[->|L]]; [|reflexivity|].
        { now destruct (Abv' i _ L Ri). }
        { rewrite Rs in Hr. destruct (nth_error (marks (Some k) 0 hits) k) as [m'|] eqn:Hk; [|discriminate].
          destruct (Abv k m' L Hk). assert (mk_rect m' = r') as -> by now injection Hr. exact On'. }
      * exfalso. apply (Up (mk_rect m)); [|exact On]. eapply nth_error_In, Ri.
  - intros name. rewrite (Names name). split.
    + intros (i & h & Eq & Hi & Nm). assert (Hm : nth_error (marks over 0 hits) i = Some (mark_of true h)).
      { rewrite marks_nth, Hi, Eq. cbn [option_map]. now rewrite Nat.add_0_l, Nat.eqb_refl. }
      exists (mark_of true h). split; [eapply nth_error_In, Hm|]. split; [reflexivity|exact Nm].
    + intros (m & I & Bm & Nm). apply In_nth_error in I as [i Hm]. pose proof (proj1 (Br i m Hm) Bm) as Eq. rewrite marks_nth in Hm.
      destruct (nth_error hits i) as [h|] eqn:Hi; [|discriminate]. exists i, h. split; [exact Eq|]. split; [exact Hi|].
      rewrite <- Nm. apply (f_equal (fun o => match o with Some m => mk_name m | None => String.EmptyString end)) in Hm. exact Hm.
Qed.

(** The window shows as much of the picture as fits. *)
Theorem C89_fits : forall window resolution, fin (vx window) -> fin (vy window) -> fin (vx resolution) -> fin (vy resolution) ->
  0 < B2R (vx window) <= 65536 -> 0 < B2R (vy window) <= 65536 -> 1 <= B2R (vx resolution) <= 65536 -> 1 <= B2R (vy resolution) <= 65536 ->
  let T := on_window window resolution affine_identity in
  within (1 / 1000) (moved T (0, 0)) (0, 0) /\
  let q := moved T (real_vec2 resolution) in
  fst q <= B2R (vx window) + 1 / 1000 /\ snd q <= B2R (vy window) + 1 / 1000 /\
  (Rabs (fst q - B2R (vx window)) <= 1 / 1000 \/ Rabs (snd q - B2R (vy window)) <= 1 / 1000).
Proof.
  intros window resolution Fx Fy Fu Fv Bx By Bu Bv T.
  assert (Q : forall w r, fin w -> fin r -> 0 < B2R w <= 65536 -> 1 <= B2R r <= 65536 -> approx (fdiv w r) (B2R w / B2R r) (/ 60000000000) /\ 0 < B2R w / B2R r <= 65536).
  { intros w r Fw Fr Bw Br. assert (I : 0 < / B2R r <= 1) by (split; [apply Rinv_0_lt_compat; lra|rewrite <- Rinv_1; apply Rinv_le_contravar; lra]).
    assert (B : 0 < B2R w / B2R r <= 65536).
    { unfold Rdiv. split; [apply Rmult_lt_0_compat; lra|]. replace 65536 with (65536 * 1) by ring. apply Rmult_le_compat; lra. }
    split; [|exact B]. destruct (fdiv_R w r Fw) as [Eq F]; [lra|rewrite Rabs_pos_eq by lra; pose proof big_range; lra|]. split; [exact F|]. rewrite Eq.
    pose proof (rnd_error (B2R w / B2R r)) as R. rewrite (Rabs_pos_eq (B2R w / B2R r)) in R by lra. apply Rle_trans with (1 := R). unfold u52. lra. }
  destruct (Q _ _ Fx Fu Bx Bu) as [[Fa Ea] Ba]. destruct (Q _ _ Fy Fv By Bv) as [[Fb Eb] Bb]. clear Q.
  destruct (fmin_R _ _ Fa Fb) as [Fk Ek]. fold (fit window resolution) in Fk, Ek. set (k := Rmin (B2R (vx window) / B2R (vx resolution)) (B2R (vy window) / B2R (vy resolution))).
  assert (Kn : approx (fit window resolution) k (/ 60000000000)).
  { split; [exact Fk|]. rewrite Ek. unfold k. apply Rabs_le_inv in Ea, Eb. unfold Rmin. destruct (Rle_dec _ _), (Rle_dec _ _); apply Rabs_le; lra. }
  assert (Kb : 0 < k <= 65536) by (unfold k, Rmin; destruct (Rle_dec _ _); lra).
  pose proof (like_zoom _ _ _ 65536 Kn ltac:(rewrite Rabs_pos_eq; lra) ltac:(lra)) as Lz.
  assert (Li : like affine_identity (mkRmat 1 0 0 1 0 0) 1 0 0 0).
  { constructor; cbn [affine_identity aa ab ac ad ae af ra rb rc rd re rf]; try (apply n0; lra); try (apply n1; lra); try (apply a0; lra); apply a1; lra. }
  multiply M1 Li Lz (/ 5000000000) (/ 1000000000).
  change (affine_mul affine_identity (affine_scale (fit window resolution) (fit window resolution))) with T in M1. clearbody T.
  destruct M1 as [[FA A'] [FB B'] [FC C'] [FD D'] [FX X'] [FY Y'] _ _ _ _ _ _]. cbn [rmul ra rb rc rd re rf] in A', B', C', D', X', Y'.
  apply Rabs_le_inv in A', B', C', D', X', Y'.
  split; [unfold within, moved; cbn [fst snd]; split; apply Rabs_le; lra|]. cbv zeta. unfold moved, real_vec2. cbn [fst snd].
  set (u := B2R (vx resolution)) in *. set (v := B2R (vy resolution)) in *. set (x := B2R (vx window)) in *. set (y := B2R (vy window)) in *.
  assert (P : forall a c e m z, m - / 5000000000 <= a <= m + / 5000000000 -> - / 5000000000 <= c <= / 5000000000 -> - / 1000000000 <= e <= / 1000000000 -> 1 <= z <= 65536 ->
    forall o, 1 <= o <= 65536 -> Rabs (a * z + c * o + e - m * z) <= 1 / 1000).
  { intros a c e m z Ha Hc He Hz o Ho. replace (a * z + c * o + e - m * z) with ((a - m) * z + c * o + e) by ring.
    assert (Rabs ((a - m) * z) <= / 5000000000 * 65536) by (rewrite Rabs_mult; apply Rmult_le_compat; auto using Rabs_pos; apply Rabs_le; lra).
    assert (Rabs (c * o) <= / 5000000000 * 65536) by (rewrite Rabs_mult; apply Rmult_le_compat; auto using Rabs_pos; apply Rabs_le; lra).
    apply Rabs_le_inv in H, H0. apply Rabs_le. lra. }
  assert (P1 : Rabs (B2R (aa T) * u + B2R (ac T) * v + B2R (ae T) - k * u) <= 1 / 1000) by (apply P; lra).
  assert (P2 : Rabs (B2R (ab T) * u + B2R (ad T) * v + B2R (af T) - k * v) <= 1 / 1000).
  { rewrite (Rplus_comm (B2R (ab T) * u)). apply P; lra. }
  assert (Ku : k * u <= x). { apply Rle_trans with (x / u * u); [apply Rmult_le_compat_r; [lra|apply Rmin_l]|]. right. field. lra. }
  assert (Kv : k * v <= y). { apply Rle_trans with (y / v * v); [apply Rmult_le_compat_r; [lra|apply Rmin_r]|]. right. field. lra. }
  assert (KK : k * u = x \/ k * v = y). { unfold k, Rmin. destruct (Rle_dec _ _); [left|right]; field; lra. }
  split; [apply Rabs_le_inv in P1; lra|]. split; [apply Rabs_le_inv in P2; lra|]. destruct KK as [K|K]; [left|right]; rewrite <- K; assumption.
Qed.
(** The conditions are met: the window is 200 by 100, the picture 100 by 100
    and the view moved by (5, 7). *)
Example C89_applies :
  let T := on_window (mkVec2 (f_of_Z 200) (f_of_Z 100)) (mkVec2 (f_of_Z 100) (f_of_Z 100)) (affine_translate (f_of_Z 5) (f_of_Z 7)) in
  modest 32 32768 T /\ / 64 <= Rabs (area T) /\
  box (transform_rect_bbox T (mkRect f0 f0 f1 f1)) /\ upright (mkRect f0 f0 f1 f1).
Proof.
  intros T.
  assert (V : forall x z, (fin x /\ feqb x (f_of_Z z) = true) -> (Z.abs z <= 100)%Z -> B2R x = IZR z).
  { intros x z [F Eq] Bz. destruct (f_of_Z_R z ltac:(lia)) as [R Fz]. rewrite <- R. now apply feqb_eq. }
  assert (Fm : finite_map T) by (unfold finite_map; repeat split; vm_compute; reflexivity).
  assert (Ea : B2R (aa T) = 1) by (apply V; [split; vm_compute; reflexivity|lia]). assert (Eb : B2R (ab T) = 0) by (apply V; [split; vm_compute; reflexivity|lia]).
  assert (Ec : B2R (ac T) = 0) by (apply V; [split; vm_compute; reflexivity|lia]). assert (Ed : B2R (ad T) = 1) by (apply V; [split; vm_compute; reflexivity|lia]).
  assert (Ee : B2R (ae T) = 5) by (apply V; [split; vm_compute; reflexivity|lia]). assert (Ef : B2R (af T) = 7) by (apply V; [split; vm_compute; reflexivity|lia]).
  assert (Bx : box (transform_rect_bbox T (mkRect f0 f0 f1 f1))) by (unfold box; repeat split; vm_compute; reflexivity).
  clearbody T. unfold modest, area. rewrite Ea, Eb, Ec, Ed, Ee, Ef. split; [|split; [|split; [exact Bx|]]].
  - split; [exact Fm|]. rewrite Rabs_R0, Rabs_R1, !Rabs_pos_eq; lra.
  - rewrite Rabs_pos_eq; lra.
  - unfold upright. cbn [rx0 rx1 ry0 ry1]. rewrite f0_R, f1_R. lra.
Qed.
