(** C98: where the viewer's statistics panel puts its box, texts, bars and lines. *)
From Coq Require Import ZArith Reals Bool List Arith Lia Lra.
From Flocq Require Import Core BinarySingleNaN.
From Verif Require Import F64 F64Facts Kurbo Value Animated ValueFacts ValueFacts2 Stats PropStats PropGeometry PropFigures PropEasing PropStar PropCursor PropBars Panel.
Import ListNotations.
Open Scope list_scope.
Open Scope R_scope.

(** ** Specification *)
(** What is to be seen in the window, in pixels: boxes, texts (by size, left end
    and base line) and level lines. *)
Inductive seen :=
| Box (rgba : Z * Z * Z * Z) (left top right bottom : R)
| Words (size left base : R) (l : label)
| Rule (thick left right level : R).
(** Two fifths of the window, but between 200 and 600. *)
Definition panel_width (vw : Z) : R := Rmax 200 (Rmin 600 (4 / 10 * IZR vw)).
(** The texts on the left. *)
Definition wording (s : snapshot) (bu : option bump) (vsync : bool) (m : aa_config) (vw vh : Z) : list label :=
  [LTime (sn_time s); LMin (sn_min s); LMax (sn_max s); LVsync vsync; LMethod m; LResolution (f_of_Z vw) (f_of_Z vh)] ++
  match bu with
  | None => []
  | Some (mkBump failed a b c d e) =>
    if Z_lt_dec 0 failed then [LFailed; LBinning a; LPtcl b; LTile c; LSegments d; LBlend e]
    else [LBinning a; LPtcl b; LTile c; LSegments d; LBlend e]
  end.
(** Blue up to 16.667 ms, yellow up to 33.334 ms, red beyond. *)
Definition speed_colour (m : Z) : Z * Z * Z * Z :=
  if Rle_dec (ms m) (16667 / 1000) then (100, 143, 255, 255)%Z
  else if Rle_dec (ms m) (33334 / 1000) then (255, 176, 0, 255)%Z else (220, 38, 127, 255)%Z.
(** How much of the scale [D] a frame of [m] microseconds fills. *)
Definition share (D : R) (m : Z) : R := Rmin (ms m) D / D.
(** One entry for each element and its place in the list. *)
Definition numbered {A B} (f : nat -> A -> B) (l : list A) : list B := map (fun i => f (fst i) (snd i)) (combine (seq 0 (List.length l)) l).
(** The panel in the lower right corner of a window of [vw] by [vh], with the
    samples drawn to the scale [D]. *)
Definition panel (s : snapshot) (samples : list Z) (bu : option bump) (vsync : bool) (m : aa_config) (vw vh : Z) (D : R) : list seen :=
  let W := panel_width vw in
  let left := IZR vw - W in
  let bottom := IZR vh in
  let top := bottom - 7 / 10 * W in
  let graph := 35 / 100 * W in
  let ls := wording s bu vsync m vw vh in
  let line := graph / INR (1 + List.length ls) in
  Box (0, 0, 0, 200)%Z left top (IZR vw) bottom ::
  numbered (fun i l => Words (9 / 10 * line) (left + W / 100) (top + INR (i + 1) * line) l) ls ++
  Words (9 / 10 * line) (left + 67 / 100 * W) (top + line) (LRate (sn_fps s)) ::
  numbered (fun i z => let x := left + 6 / 100 * W + INR i * (93 / 10000 * W) in
                       Box (speed_colour z) x (bottom - share D z * graph) (x + 4 / 10 * (93 / 10000 * W)) bottom) samples ++
  flat_map (fun t => if Rlt_dec (IZR t / 100) D then
      [Words (5 / 100 * graph) (left + W / 100) (bottom - IZR t / 100 / D * graph + 25 / 1000 * graph) (LMark (flit t 100));
       Rule (graph / 100) (left + 6 / 100 * W) (left + 99 / 100 * W) (bottom - IZR t / 100 / D * graph)]
    else []) [833; 1666; 3333]%Z.
(** Where the transform puts a point. *)
Definition mapped (t : affine) (p : point) : R * R :=
  (B2R (aa t) * B2R (px p) + B2R (ac t) * B2R (py p) + B2R (ae t), B2R (ab t) * B2R (px p) + B2R (ad t) * B2R (py p) + B2R (af t)).
Definition finite_affine (t : affine) : Prop := fin (aa t) /\ fin (ab t) /\ fin (ac t) /\ fin (ad t) /\ fin (ae t) /\ fin (af t).
(** The point ends up at [x], [y], up to a millionth of a pixel. *)
Definition lands (t : affine) (p : point) (x y : R) : Prop :=
  finite_affine t /\ fin (px p) /\ fin (py p) /\ Rabs (fst (mapped t p) - x) <= / 1000000 /\ Rabs (snd (mapped t p) - y) <= / 1000000.
Definition upright (t : affine) : Prop := B2R (ab t) = 0 /\ B2R (ac t) = 0.
Definition shifted (t : affine) : Prop := upright t /\ B2R (aa t) = 1 /\ B2R (ad t) = 1.
(** What the viewer draws is what is to be seen. *)
Inductive shows : item -> seen -> Prop :=
| ShBox t c w h x0 y0 x1 y1 : upright t -> lands t (mkPoint f0 f0) x0 y0 -> lands t (mkPoint w h) x1 y1 -> shows (IRect t c w h) (Box c x0 y0 x1 y1)
| ShBar t c p q r s x0 y0 x1 y1 : lands t p x0 y0 -> lands t q x0 y1 -> lands t r x1 y1 -> lands t s x1 y0 ->
    shows (IBar t c [MoveTo p; LineTo q; LineTo r; LineTo s]) (Box c x0 y0 x1 y1)
| ShText z t l size x y : fin z -> Rabs (B2R z - size) <= / 10000 -> shifted t -> lands t (mkPoint f0 f0) x y -> shows (IText z t l) (Words size x y l)
| ShLine z t p q thick x0 x1 y : fin z -> Rabs (B2R z - thick) <= / 1000000 -> shifted t -> lands t p x0 y -> lands t q x1 y ->
    shows (ILine z t [MoveTo p; LineTo q]) (Rule thick x0 x1 y).
(** The scale is not within a billionth of a line's time. *)
Definition apart (D : R) : Prop := forall t, In t [833; 1666; 3333]%Z -> / 1000000000 < Rabs (D - IZR t / 100).
Definition window_side (v : Z) : Prop := (0 <= v <= 65536)%Z.

(** ** Numbers *)
Lemma lit_near n d : (Z.abs n <= 40 * d)%Z -> (1 <= d <= 10000)%Z -> approx (flit n d) (IZR n / IZR d) (/ 10000000000000).
Proof.
  intros Hn Hd. unfold flit. destruct (f_of_Z_R d ltac:(lia)) as [Rd Fd].
  assert (1 <= IZR d) by (apply (IZR_le 1); lia).
  assert (Nb : Rabs (IZR n) <= 40 * IZR d) by (rewrite <- abs_IZR, <- mult_IZR; apply IZR_le; lia).
  assert (IZR d <= 10000) by (apply IZR_le; lia).
  apply (approx_div _ _ _ _ 0 (40 * IZR d)); [apply (exact_Z n); lia|exact Fd|exact Rd|lra|exact Nb|lra|].
  rewrite Rplus_0_r. unfold Rdiv. rewrite Rmult_0_l, Rplus_0_l. replace (40 * IZR d * / IZR d) with 40 by (field; lra). unfold u52. lra.
Qed.
Lemma const_R (x c : f64) : fin x -> fleb x c = true -> fleb c x = true -> fin c -> B2R x = B2R c.
Proof. intros F A B Fc. apply fleb_le in A; auto. apply fleb_le in B; auto. lra. Qed.
Lemma clamp_near x r e : approx x r e -> 0 <= e -> approx (fclamp (f_of_Z 200) (f_of_Z 600) x) (Rmax 200 (Rmin 600 r)) e.
Proof.
  intros [F H] He. destruct (f_of_Z_R 200 ltac:(lia)) as [R2 F2]. destruct (f_of_Z_R 600 ltac:(lia)) as [R6 F6].
  apply Rabs_le_inv in H. unfold fclamp.
  assert (G : forall y : f64, fin y -> Rabs (B2R y - Rmax 200 (Rmin 600 r)) <= e -> approx y (Rmax 200 (Rmin 600 r)) e) by (split; assumption).
  assert (K : fltb (f_of_Z 600) (f_of_Z 200) = false) by (vm_compute; reflexivity).
  destruct (fltb x (f_of_Z 200)) eqn:A.
  - rewrite K. apply G; [exact F2|]. apply fltb_lt in A; auto. rewrite R2 in *. apply Rabs_le.
    unfold Rmax, Rmin. destruct (Rle_dec 600 r), (Rle_dec 200 _); lra.
  - apply fltb_false in A; auto. rewrite R2 in A. destruct (fltb (f_of_Z 600) x) eqn:B.
    + apply G; [exact F6|]. apply fltb_lt in B; auto. rewrite R6 in *. apply Rabs_le. unfold Rmax, Rmin. destruct (Rle_dec 600 r), (Rle_dec 200 _); lra.
    + apply G; [exact F|]. apply fltb_false in B; auto. rewrite R6 in *. apply Rabs_le. unfold Rmax, Rmin. destruct (Rle_dec 600 r), (Rle_dec 200 _); lra.
Qed.
Lemma width_bounds vw : 200 <= panel_width vw <= 600.
Proof. unfold panel_width, Rmax, Rmin. destruct (Rle_dec 600 _), (Rle_dec 200 _); lra. Qed.
Lemma f32_near (x : f64) r e : approx x r e -> Rabs r <= 1000 -> 0 <= e <= 1 -> fin (f64_to_f32 x) /\ Rabs (B2R (f64_to_f32 x) - r) <= e + / 15000.
Proof.
  intros [F H] Hr He. destruct x as [s|s| |s m k Hmk]; try discriminate.
  - split; [reflexivity|]. change (Rabs (0 - r) <= e) in H. change (Rabs (0 - r) <= e + / 15000). lra.
  - unfold f64_to_f32.
    match goal with |- context [binary_normalize 24 128 ?a ?b _ _ _ _] => pose proof (binary_normalize_correct 24 128 a b mode_NE (cond_Zopp s (Zpos m)) k s) as N end.
    assert (Ex : F2R (Float radix2 (cond_Zopp s (Zpos m)) k) = B2R (B754_finite s m k Hmk : f64)) by reflexivity.
    cbv zeta in N. rewrite Ex in N. set (t := B2R (B754_finite s m k Hmk : f64)) in *.
    assert (Bt : Rabs t <= 1001). { replace t with (r + (t - r)) by ring. apply Rle_trans with (1 := Rabs_triang _ _). lra. }
    change (SpecFloat.fexp 24 128) with (FLT_exp (-149) 24) in N. cbn [round_mode] in N.
    assert (V : Valid_exp (FLT_exp (-149) 24)) by (apply FLT_exp_valid; reflexivity).
    assert (Er : Rabs (round radix2 (FLT_exp (-149) 24) ZnearestE t - t) <= / 15000).
    { apply Rle_trans with (/ 2 * ulp radix2 (FLT_exp (-149) 24) t); [apply error_le_half_ulp; exact V|].
      assert (U : ulp radix2 (FLT_exp (-149) 24) t <= bpow radix2 (-13)).
      { rewrite <- ulp_abs. apply Rle_trans with (ulp radix2 (FLT_exp (-149) 24) (bpow radix2 10)).
        - apply ulp_le; [exact V|apply FLT_exp_monotone|]. rewrite Rabs_Rabsolu, (Rabs_pos_eq (bpow _ _)) by apply bpow_ge_0.
          change (bpow radix2 10) with 1024. lra.
        - rewrite ulp_bpow. apply bpow_le. unfold FLT_exp. lia. }
      change (bpow radix2 (-13)) with (/ IZR 8192) in U. lra. }
    rewrite Rlt_bool_true in N.
    + destruct N as (N1 & N2 & _). split; [exact N2|]. rewrite N1. replace (round _ _ _ _ - r) with ((round radix2 (FLT_exp (-149) 24) ZnearestE t - t) + (t - r)) by ring.
      apply Rle_trans with (1 := Rabs_triang _ _). lra.
    + apply Rle_lt_trans with 1002.
      * replace (round _ _ _ _) with ((round radix2 (FLT_exp (-149) 24) ZnearestE t - t) + t) by ring. apply Rle_trans with (1 := Rabs_triang _ _). lra.
      * apply Rlt_le_trans with (bpow radix2 10); [change (bpow radix2 10) with 1024; lra|apply bpow_le; lia].
Qed.
Lemma share_near dmax m : (0 <= m <= 2 ^ 53)%Z -> fin dmax -> 0 < B2R dmax ->
  approx (bar_height dmax m) (share (B2R dmax) m) (/ 100000000000) /\ 0 <= share (B2R dmax) m <= 1.
Proof.
  intros Hm Fd Pd. destruct (ms_rel m Hm) as (Fx & Hr & Hx). set (x := fmul (f_of_Z m) f_milli) in *. unfold bar_height, share. fold x.
  set (D := B2R dmax) in *. set (r := ms m) in *.
  assert (Mn : fin (fmin x dmax) /\ B2R (fmin x dmax) = Rmin (B2R x) D).
  { unfold fmin. assert (N1 : is_nan x = false) by (destruct x; auto; discriminate). assert (N2 : is_nan dmax = false) by (destruct dmax; auto; discriminate).
    rewrite N1, N2. destruct (fltb dmax x) eqn:C.
    - apply fltb_lt in C; auto. fold D in C. split; [exact Fd|]. rewrite Rmin_right by lra. reflexivity.
    - apply fltb_false in C; auto. fold D in C. split; [exact Fx|]. now rewrite Rmin_left by lra. }
  destruct Mn as [Fn En]. set (y := fmin x dmax) in *. set (q := Rmin r D) in *.
  assert (Q0 : 0 <= q <= D) by (unfold q, Rmin; destruct (Rle_dec r D); lra).
  assert (Ey : Rabs (B2R y - q) <= 6 * u52 * D).
  { apply Rabs_le_inv in Hx. rewrite En. unfold q, u52 in *. apply Rabs_le. unfold Rmin. destruct (Rle_dec (B2R x) D), (Rle_dec r D); lra. }
  assert (S : 0 <= q / D <= 1).
  { split; [apply Rmult_le_pos; [lra|left; now apply Rinv_0_lt_compat]|]. apply Rmult_le_reg_r with D; [exact Pd|]. unfold Rdiv. rewrite Rmult_assoc, Rinv_l, Rmult_1_r by lra. lra. }
  split; [|exact S].
  assert (T : Rabs (B2R y / D - q / D) <= 6 * u52).
  { replace (B2R y / D - q / D) with ((B2R y - q) / D) by (field; lra). unfold Rdiv. rewrite Rabs_mult, Rabs_inv, (Rabs_pos_eq D) by lra.
    apply Rmult_le_reg_r with D; [exact Pd|]. rewrite Rmult_assoc, Rinv_l, Rmult_1_r by lra. exact Ey. }
  assert (Bq : Rabs (B2R y / D) <= 2) by (apply Rabs_le_inv in T; unfold u52 in T; apply Rabs_le; lra).
  destruct (fdiv_R y dmax Fn ltac:(fold D; lra)) as [E F]. { fold D. apply Rle_trans with (1 := Bq). change 2 with (bpow radix2 1). apply bpow_le. lia. }
  split; [exact F|]. rewrite E. fold D. pose proof (rnd_error (B2R y / D)) as Er.
  replace (rnd (B2R y / D) - q / D) with ((rnd (B2R y / D) - B2R y / D) + (B2R y / D - q / D)) by ring. apply Rle_trans with (1 := Rabs_triang _ _).
  unfold u52 in *. lra.
Qed.

(** ** Transforms *)
Lemma shift_near x y u v rx ry ru rv e f : approx x rx e -> approx y ry e -> approx u ru f -> approx v rv f ->
  Rabs rx <= 70000 -> Rabs ry <= 70000 -> Rabs ru <= 70000 -> Rabs rv <= 70000 -> 0 <= e <= / 1000 -> 0 <= f <= / 1000 ->
  let t := affine_mul (affine_translate x y) (affine_translate u v) in
  finite_affine t /\ shifted t /\ approx (ae t) (rx + ru) (e + 3 * f + / 1000000000) /\ approx (af t) (ry + rv) (e + 3 * f + / 1000000000).
Proof.
  intros Hx Hy Hu Hv Bx By Bu Bv He Hf t.
  assert (K1 : fin (aa t) /\ B2R (aa t) = 1). { rewrite <- f1_R. split; [|apply const_R]; vm_compute; reflexivity. }
  assert (K2 : fin (ab t) /\ B2R (ab t) = 0). { rewrite <- f0_R. split; [|apply const_R]; vm_compute; reflexivity. }
  assert (K3 : fin (ac t) /\ B2R (ac t) = 0). { rewrite <- f0_R. split; [|apply const_R]; vm_compute; reflexivity. }
  assert (K4 : fin (ad t) /\ B2R (ad t) = 1). { rewrite <- f1_R. split; [|apply const_R]; vm_compute; reflexivity. }
  assert (E1 : approx (ae t) (rx + ru) (e + 3 * f + / 1000000000)).
  { unfold t, affine_mul, affine_translate. cbn [aa ab ac ad ae af]. rewrite (Rplus_comm rx).
    assert (D : approx (fadd (fmul f1 u) (fmul f0 v)) (1 * ru + 0 * rv) (2 * f + / 3000000000)).
    { apply (near_dot _ _ _ _ _ _ _ _ 0 f 1 70000); auto using exact_1, exact_0; rewrite ?Rabs_R0, ?Rabs_R1; try lra. unfold u52. lra. }
    replace (1 * ru + 0 * rv) with ru in D by ring.
    apply (near_add _ _ _ _ _ _ 140000 _ D Hx); [lra|lra|]. unfold u52. lra. }
  assert (E2 : approx (af t) (ry + rv) (e + 3 * f + / 1000000000)).
  { unfold t, affine_mul, affine_translate. cbn [aa ab ac ad ae af]. rewrite (Rplus_comm ry).
    assert (D : approx (fadd (fmul f0 u) (fmul f1 v)) (0 * ru + 1 * rv) (2 * f + / 3000000000)).
    { apply (near_dot _ _ _ _ _ _ _ _ 0 f 1 70000); auto using exact_1, exact_0; rewrite ?Rabs_R0, ?Rabs_R1; try lra. unfold u52. lra. }
    replace (0 * ru + 1 * rv) with rv in D by ring.
    apply (near_add _ _ _ _ _ _ 140000 _ D Hy); [lra|lra|]. unfold u52. lra. }
  split; [|split; [|split; assumption]].
  - split; [apply K1|]. split; [apply K2|]. split; [apply K3|]. split; [apply K4|]. split; [apply E1|apply E2].
  - split; [split; [apply K2|apply K3]|split; [apply K1|apply K4]].
Qed.
Lemma shifted_lands t (p : point) rx ry qx qy e f : finite_affine t -> shifted t -> approx (ae t) rx e -> approx (af t) ry e ->
  approx (px p) qx f -> approx (py p) qy f -> e + f <= / 1000000 -> lands t p (rx + qx) (ry + qy).
Proof.
  intros Ft ((Sb & Sc) & Sa & Sd) [_ Ae] [_ Af] [Fx Px] [Fy Py] L. split; [exact Ft|]. split; [exact Fx|]. split; [exact Fy|].
  unfold mapped. cbn [fst snd]. rewrite Sa, Sb, Sc, Sd. apply Rabs_le_inv in Ae, Af, Px, Py. split; apply Rabs_le; lra.
Qed.
Lemma one_dot : fadd (fmul f1 f1) (fmul f0 f0) = f1 /\ fadd (fmul f0 f1) (fmul f1 f0) = f0 /\ fadd (fmul f1 f0) (fmul f0 f1) = f0 /\ fadd (fmul f0 f0) (fmul f1 f1) = f1.
Proof. repeat split; apply B2SF_inj; vm_compute; reflexivity. Qed.
Lemma translate_mul x y u v : affine_mul (affine_translate x y) (affine_translate u v) =
  affine_translate (fadd (fadd (fmul f1 u) (fmul f0 v)) x) (fadd (fadd (fmul f0 u) (fmul f1 v)) y).
Proof.
  unfold affine_mul, affine_translate. cbn [aa ab ac ad ae af]. destruct one_dot as (A & B & C & D). rewrite A, B, C, D. reflexivity.
Qed.
Lemma flip_lands x y h (p : point) rx ry rh qx qy e f g : approx x rx e -> approx y ry e -> approx h rh g -> approx (px p) qx f -> approx (py p) qy f ->
  Rabs rx <= 70000 -> Rabs ry <= 70000 -> 0 <= rh <= 1 -> Rabs qx <= 600 -> Rabs qy <= 600 -> 0 <= e <= / 3000000 -> 0 <= f <= / 8000000 -> 0 <= g <= / 100000000000 ->
  lands (affine_mul (affine_translate x y) (affine_scale f1 (fneg h))) p (rx + qx) (ry - rh * qy).
Proof.
  intros Hx Hy Hh Hp Hq Bx By Bh Bp Bq He Hf Hg. set (t := affine_mul _ _).
  assert (Nh : approx (fneg h) (- rh) g) by now apply near_neg.
  assert (Bn : Rabs (- rh) <= 1) by (rewrite Rabs_Ropp, Rabs_pos_eq; lra).
  assert (K1 : aa t = f1) by (unfold t, affine_mul; cbn [aa ab ac ad ae af affine_translate affine_scale]; apply one_dot).
  assert (K2 : ab t = f0) by (unfold t, affine_mul; cbn [aa ab ac ad ae af affine_translate affine_scale]; apply one_dot).
  assert (K3 : fin (ac t) /\ B2R (ac t) = 0).
  { unfold t, affine_mul. cbn [aa ab ac ad ae af affine_translate affine_scale]. assert (Fn : fin (fneg h)) by apply Nh. clear - Fn.
    destruct (fmul_R f0 (fneg h)) as [M Fm]; [reflexivity|exact Fn|rewrite f0_R, Rmult_0_l, Rabs_R0; apply bpow_ge_0|].
    rewrite f0_R, Rmult_0_l, rnd_0 in M. assert (Z : B2R (fmul f1 f0) = 0) by (rewrite <- f0_R; apply const_R; vm_compute; reflexivity).
    destruct (fadd_R (fmul f1 f0) (fmul f0 (fneg h))) as [A Fa]; [vm_compute; reflexivity|exact Fm|rewrite M, Z, Rplus_0_l, Rabs_R0; apply bpow_ge_0|].
    split; [exact Fa|]. rewrite A, M, Z, Rplus_0_l. apply rnd_0. }
  assert (K4 : approx (ad t) (- rh) (3 * g + / 100000000000000)).
  { unfold t, affine_mul. cbn [aa ab ac ad ae af affine_translate affine_scale]. replace (- rh) with (0 * 0 + 1 * - rh) by ring.
    apply (near_dot _ _ _ _ _ _ _ _ 0 g 1 1); auto using exact_1; rewrite ?Rabs_R0, ?Rabs_R1; try lra; try apply exact_0.
    - apply (near_weaken _ _ 0); [apply exact_0|lra].
    - unfold u52. lra. }
  assert (Z0 : approx (fadd (fmul f1 f0) (fmul f0 f0)) 0 0) by (apply near_exact; [|rewrite <- f0_R; apply const_R]; vm_compute; reflexivity).
  assert (Z1 : approx (fadd (fmul f0 f0) (fmul f1 f0)) 0 0) by (apply near_exact; [|rewrite <- f0_R; apply const_R]; vm_compute; reflexivity).
  assert (K5 : approx (ae t) rx (e + / 10000000000)).
  { unfold t, affine_mul. cbn [aa ab ac ad ae af affine_translate affine_scale]. rewrite <- (Rplus_0_l rx).
    apply (near_add _ _ _ _ _ _ 70000 _ Z0 Hx); rewrite ?Rabs_R0; unfold u52; lra. }
  assert (K6 : approx (af t) ry (e + / 10000000000)).
  { unfold t, affine_mul. cbn [aa ab ac ad ae af affine_translate affine_scale]. rewrite <- (Rplus_0_l ry).
    apply (near_add _ _ _ _ _ _ 70000 _ Z1 Hy); rewrite ?Rabs_R0; unfold u52; lra. }
  split. { repeat split; try (rewrite ?K1, ?K2; reflexivity); [apply K3|apply K4|apply K5|apply K6]. }
  split; [apply Hp|]. split; [apply Hq|]. unfold mapped. cbn [fst snd]. rewrite K1, K2, (proj2 K3), f0_R, f1_R.
  destruct K4 as [_ K4], K5 as [_ K5], K6 as [_ K6], Hp as [_ Hp], Hq as [_ Hq].
  assert (Bh' : Rabs (- rh) <= 1) by exact Bn.
  assert (M : Rabs (B2R (ad t) * B2R (py p) - - rh * qy) <= / 2000000).
  { replace (B2R (ad t) * B2R (py p) - - rh * qy) with ((B2R (ad t) - - rh) * qy + (B2R (ad t) - - rh) * (B2R (py p) - qy) + - rh * (B2R (py p) - qy)) by ring.
    set (d := 3 * g + / 100000000000000) in *. assert (D0 : 0 <= d <= / 10000000000) by (unfold d; lra). clearbody d.
    apply Rle_trans with (d * 600 + d * f + 1 * f).
    - apply Rle_trans with (1 := Rabs_triang _ _). apply Rplus_le_compat; [apply Rle_trans with (1 := Rabs_triang _ _); apply Rplus_le_compat|];
        rewrite Rabs_mult; apply Rmult_le_compat; auto using Rabs_pos.
    - assert (d * f <= d * 1) by (apply Rmult_le_compat_l; lra). lra. }
  apply Rabs_le_inv in M, K5, K6, Hp. split; apply Rabs_le; lra.
Qed.

(** ** The layout *)
Section Layout.
  Variables vw vh : Z.
  Hypothesis Hw : window_side vw.
  Hypothesis Hh : window_side vh.
  Let W := panel_width vw.
  Let width := fclamp (f_of_Z 200) (f_of_Z 600) (fmul (f_of_Z vw) (flit 4 10)).
  Lemma vw_R : 0 <= IZR vw <= 65536. Proof. split; apply IZR_le; apply Hw. Qed.
  Lemma vh_R : 0 <= IZR vh <= 65536. Proof. split; apply IZR_le; apply Hh. Qed.
  Lemma W_R : 200 <= W <= 600. Proof. apply width_bounds. Qed.
  Lemma width_near : approx width W (/ 140000000).
  Proof.
    pose proof vw_R as B. unfold width, W, panel_width. apply clamp_near; [|lra]. rewrite Rmult_comm.
    apply (near_mul _ _ _ _ 0 (/ 10000000000000) 65536 1); [apply exact_Z; unfold window_side in Hw; lia|apply lit_near; lia|rewrite Rabs_pos_eq; lra|rewrite Rabs_pos_eq; lra|lra|lra|].
    unfold u52. lra.
  Qed.
  Lemma part_near n d : (0 <= n <= d)%Z -> (1 <= d <= 10000)%Z -> approx (fmul width (flit n d)) (W * (IZR n / IZR d)) (/ 100000000).
  Proof.
    intros Hn Hd. pose proof W_R as B. assert (D : 1 <= IZR d) by (apply (IZR_le 1); lia).
    assert (Q : 0 <= IZR n / IZR d <= 1).
    { assert (0 <= IZR n <= IZR d) by (split; apply IZR_le; lia). split; [apply Rmult_le_pos; [lra|left; apply Rinv_0_lt_compat; lra]|].
      apply Rmult_le_reg_r with (IZR d); [lra|]. unfold Rdiv. rewrite Rmult_assoc, Rinv_l, Rmult_1_r by lra. lra. }
    apply (near_mul _ _ _ _ (/ 140000000) (/ 10000000000000) 600 1); [apply width_near|apply lit_near; lia|rewrite Rabs_pos_eq; lra|rewrite Rabs_pos_eq; lra|lra|lra|].
    unfold u52. lra.
  Qed.
  Let height := fmul width (flit 7 10).
  Lemma height_near : approx height (7 / 10 * W) (/ 100000000).
  Proof. rewrite Rmult_comm. apply (part_near 7 10); lia. Qed.
  Let xo := fsub (f_of_Z vw) width.
  Let yo := fsub (f_of_Z vh) height.
  Lemma xo_near : approx xo (IZR vw - W) (/ 50000000).
  Proof.
    pose proof vw_R. pose proof W_R. apply (approx_sub _ _ _ _ 0 (/ 140000000) 66136); [apply exact_Z; unfold window_side in Hw; lia|apply width_near|rewrite !Rabs_pos_eq; lra|lra|].
    unfold u52. lra.
  Qed.
  Lemma yo_near : approx yo (IZR vh - 7 / 10 * W) (/ 50000000).
  Proof.
    pose proof vh_R. pose proof W_R. apply (approx_sub _ _ _ _ 0 (/ 100000000) 66136); [apply exact_Z; unfold window_side in Hh; lia|apply height_near|rewrite !Rabs_pos_eq; lra|lra|].
    unfold u52. lra.
  Qed.
  Lemma xo_B : Rabs (IZR vw - W) <= 66136. Proof. pose proof vw_R. pose proof W_R. apply Rabs_le. lra. Qed.
  Lemma yo_B : Rabs (IZR vh - 7 / 10 * W) <= 66136. Proof. pose proof vh_R. pose proof W_R. apply Rabs_le. lra. Qed.
  (** Something put at an offset from the panel's corner. *)
  Lemma put_near u v ru rv f : approx u ru f -> approx v rv f -> Rabs ru <= 700 -> Rabs rv <= 700 -> 0 <= f <= / 4000000 ->
    let t := affine_mul (affine_translate xo yo) (affine_translate u v) in
    finite_affine t /\ shifted t /\ approx (ae t) (IZR vw - W + ru) (3 * f + / 45000000) /\ approx (af t) (IZR vh - 7 / 10 * W + rv) (3 * f + / 45000000).
  Proof.
    intros Hu Hv Bu Bv Hf t. destruct (shift_near xo yo u v _ _ _ _ (/ 50000000) f xo_near yo_near Hu Hv) as (A & B & C & D);
      try lra; try (pose proof xo_B; pose proof yo_B; lra).
    split; [exact A|]. split; [exact B|]. split; [apply (near_weaken _ _ _ _ C); lra|apply (near_weaken _ _ _ _ D); lra].
  Qed.
  Let graph := fmul height (flit 5 10).
  Lemma graph_near : approx graph (35 / 100 * W) (/ 150000000).
  Proof.
    pose proof W_R. replace (35 / 100 * W) with (7 / 10 * W * (5 / 10)) by field.
    apply (near_mul _ _ _ _ (/ 100000000) (/ 10000000000000) 420 (5 / 10)); [apply height_near|apply lit_near; lia|rewrite Rabs_pos_eq; lra|rewrite Rabs_pos_eq; lra|lra|lra|].
    unfold u52. lra.
  Qed.
  Lemma place_near z t l size rs u v ru rv f : fin z -> Rabs (B2R z - rs) <= / 10000 -> size = rs -> approx u ru f -> approx v rv f -> Rabs ru <= 700 -> Rabs rv <= 700 -> 0 <= f <= / 4000000 ->
    t = affine_mul (affine_translate xo yo) (affine_translate u v) -> shows (IText z t l) (Words size (IZR vw - W + ru) (IZR vh - 7 / 10 * W + rv) l).
  Proof.
    intros Fz Hz -> Hu Hv Bu Bv Hf ->. destruct (put_near u v ru rv f Hu Hv Bu Bv Hf) as (A & B & C & D).
    apply ShText; auto. rewrite <- (Rplus_0_r (_ + ru)), <- (Rplus_0_r (_ + rv)).
    apply (shifted_lands _ (mkPoint f0 f0) _ _ 0 0 (3 * f + / 45000000) 0); auto using exact_0. lra.
  Qed.
  Section Lines.
    Variable n : nat.
    Hypothesis Hn : (1 <= n <= 100)%nat.
    Let lines := f_of_Z (Z.of_nat n).
    Lemma lines_R : fin lines /\ B2R lines = INR n /\ 1 <= INR n <= 100.
    Proof.
      destruct (f_of_Z_R (Z.of_nat n) ltac:(lia)) as [R F]. split; [exact F|]. rewrite INR_IZR_INZ. split; [exact R|]. split; apply IZR_le; lia.
    Qed.
    Let th := fdiv graph lines.
    Let line := 35 / 100 * W / INR n.
    Lemma line_B : 0 <= line <= 210 /\ INR n * line = 35 / 100 * W.
    Proof.
      pose proof W_R. destruct lines_R as (_ & _ & L). assert (E : INR n * line = 35 / 100 * W) by (unfold line; field; lra). split; [|exact E].
      assert (P : 0 < / INR n <= 1). { split; [apply Rinv_0_lt_compat; lra|]. rewrite <- Rinv_1. apply Rinv_le_contravar; lra. }
      unfold line, Rdiv. split; [apply Rmult_le_pos; lra|]. apply Rle_trans with (35 / 100 * W * 1); [apply Rmult_le_compat_l; lra|lra].
    Qed.
    Lemma th_near : approx th line (/ 150000000 / INR n + / 1000000000000 ).
    Proof.
      pose proof W_R. destruct lines_R as (F & R & L). apply (approx_div _ _ _ _ (/ 150000000) 210); [apply graph_near|exact F|exact R|lra|rewrite Rabs_pos_eq; lra|lra|].
      apply Rplus_le_compat_l. assert (P : 0 < / INR n <= 1). { split; [apply Rinv_0_lt_compat; lra|]. rewrite <- Rinv_1. apply Rinv_le_contravar; lra. }
      apply Rle_trans with (u52 * (211 + 1)); [|unfold u52; lra]. apply Rmult_le_compat_l; [unfold u52; lra|]. apply Rplus_le_compat_r.
      unfold Rdiv. apply Rle_trans with ((210 + / 150000000) * 1); [apply Rmult_le_compat_l; lra|lra].
    Qed.
    (** [k] lines. *)
    Lemma lines_near k : (k <= n)%nat -> approx (fmul (f_of_Z (Z.of_nat k)) th) (INR k * line) (/ 120000000) /\ 0 <= INR k * line <= 210.
    Proof.
      intros Hk. pose proof W_R. destruct lines_R as (F & R & L). destruct line_B as [LB LE].
      assert (K : 0 <= INR k <= INR n). { split; [apply pos_INR|apply le_INR; exact Hk]. }
      assert (P : 0 <= INR k * line <= 210). { split; [apply Rmult_le_pos; lra|]. apply Rle_trans with (INR n * line); [apply Rmult_le_compat_r; lra|lra]. }
      split; [|exact P]. rewrite (INR_IZR_INZ k) in *.
      set (e := / 150000000 / INR n + / 1000000000000). assert (P' : 0 < / INR n <= 1). { split; [apply Rinv_0_lt_compat; lra|]. rewrite <- Rinv_1. apply Rinv_le_contravar; lra. }
      assert (E0 : 0 <= e <= / 140000000) by (unfold e, Rdiv; lra).
      assert (E1 : IZR (Z.of_nat k) * e <= / 140000000).
      { apply Rle_trans with (INR n * e); [apply Rmult_le_compat_r; lra|]. unfold e. replace (INR n * (/ 150000000 / INR n + / 1000000000000)) with (/ 150000000 + INR n * / 1000000000000) by (field; lra). lra. }
      apply (near_mul _ _ _ _ 0 e (IZR (Z.of_nat k)) 210); [apply exact_Z; lia|apply th_near|rewrite Rabs_pos_eq; lra|rewrite Rabs_pos_eq; lra|lra|lra|].
      assert ((IZR (Z.of_nat k) + 0) * (210 + e) <= 100 * 211) by (apply Rmult_le_compat; lra). unfold u52. lra.
    Qed.
    Lemma size_near : fin (f64_to_f32 (fmul th (flit 9 10))) /\ Rabs (B2R (f64_to_f32 (fmul th (flit 9 10))) - 9 / 10 * line) <= / 10000.
    Proof.
      pose proof W_R. destruct (lines_R) as (F & R & L). destruct line_B as [LB _]. assert (P' : 0 < / INR n <= 1). { split; [apply Rinv_0_lt_compat; lra|]. rewrite <- Rinv_1. apply Rinv_le_contravar; lra. }
      destruct (f32_near (fmul th (flit 9 10)) (9 / 10 * line) (/ 100000000)) as [A B]; [|rewrite Rabs_pos_eq; lra|lra|split; [exact A|lra]].
      rewrite Rmult_comm. set (e := / 150000000 / INR n + / 1000000000000). assert (E0 : 0 <= e <= / 140000000) by (unfold e, Rdiv; lra).
      apply (near_mul _ _ _ _ e (/ 10000000000000) 210 1); [apply th_near|apply lit_near; lia|rewrite Rabs_pos_eq; lra|rewrite Rabs_pos_eq; lra|lra|lra|].
      unfold u52. lra.
    Qed.
  End Lines.
  Let gw := fsub (fsub width (fmul (f_of_Z 2) (fmul width (flit 1 100)))) (fmul width (flit 5 100)).
  Lemma gw_near : approx gw (93 / 100 * W) (/ 20000000).
  Proof.
    pose proof W_R. replace (93 / 100 * W) with (W - 2 * (W * (1 / 100)) - W * (5 / 100)) by field.
    assert (M : approx (fmul (f_of_Z 2) (fmul width (flit 1 100))) (2 * (W * (1 / 100))) (/ 40000000)).
    { apply (near_mul _ _ _ _ 0 (/ 100000000) 2 6); [apply (exact_Z 2); lia|apply (part_near 1 100); lia|rewrite Rabs_pos_eq; lra|rewrite Rabs_pos_eq; lra|lra|lra|unfold u52; lra]. }
    apply (approx_sub _ _ _ _ (/ 30000000) (/ 100000000) 1000); [|apply (part_near 5 100); lia|rewrite !Rabs_pos_eq; lra|lra|unfold u52; lra].
    apply (approx_sub _ _ _ _ (/ 140000000) (/ 40000000) 1000); [apply width_near|exact M|rewrite !Rabs_pos_eq; lra|lra|unfold u52; lra].
  Qed.
  Let lmp := fadd (fmul width (flit 1 100)) (fmul width (flit 5 100)).
  Lemma lmp_near : approx lmp (6 / 100 * W) (/ 45000000).
  Proof.
    pose proof W_R. replace (6 / 100 * W) with (W * (1 / 100) + W * (5 / 100)) by field.
    apply (near_add _ _ _ _ (/ 100000000) (/ 100000000) 1000); [apply (part_near 1 100); lia|apply (part_near 5 100); lia|rewrite !Rabs_pos_eq; lra|lra|unfold u52; lra].
  Qed.
  Let be := fdiv gw (f_of_Z 100).
  Lemma be_near : approx be (93 / 10000 * W) (/ 1900000000).
  Proof.
    pose proof W_R. replace (93 / 10000 * W) with (93 / 100 * W / 100) by field. destruct (f_of_Z_R 100 ltac:(lia)) as [R F].
    apply (approx_div _ _ _ _ (/ 20000000) 600); [apply gw_near|exact F|exact R|lra|rewrite Rabs_pos_eq; lra|lra|unfold u52; lra].
  Qed.
  Lemma bar_x_near i : (i < 100)%nat -> approx (fmul (f_of_Z (Z.of_nat i)) be) (INR i * (93 / 10000 * W)) (/ 18000000) /\ 0 <= INR i * (93 / 10000 * W) <= 600.
  Proof.
    intros Hi. pose proof W_R. rewrite INR_IZR_INZ. assert (K : 0 <= IZR (Z.of_nat i) <= 99) by (split; apply IZR_le; lia).
    assert (Q : 0 <= IZR (Z.of_nat i) * (93 / 10000 * W) <= 600). { split; [apply Rmult_le_pos; lra|]. apply Rle_trans with (99 * (93 / 10000 * W)); [apply Rmult_le_compat_r; lra|lra]. }
    split; [|exact Q]. apply (near_mul _ _ _ _ 0 (/ 1900000000) 99 6); [apply exact_Z; lia|apply be_near|rewrite Rabs_pos_eq; lra|rewrite Rabs_pos_eq; lra|lra|lra|unfold u52; lra].
  Qed.
  Lemma bw_near : approx (fmul be (flit 4 10)) (4 / 10 * (93 / 10000 * W)) (/ 1900000000).
  Proof.
    pose proof W_R. rewrite Rmult_comm. apply (near_mul _ _ _ _ (/ 1900000000) (/ 10000000000000) 6 (4 / 10)); [apply be_near|apply lit_near; lia|rewrite Rabs_pos_eq; lra|rewrite Rabs_pos_eq; lra|lra|lra|unfold u52; lra].
  Qed.
  (** One bar. *)
  Lemma bar_shows n dmax i m c : (1 <= n <= 100)%nat -> (i < 100)%nat -> (0 <= m <= 2 ^ 53)%Z -> fin dmax -> 0 < B2R dmax ->
    let x := IZR vw - W + 6 / 100 * W + INR i * (93 / 10000 * W) in
    shows (IBar (affine_mul (affine_mul (affine_mul (affine_translate xo yo) (affine_translate (fmul (f_of_Z (Z.of_nat i)) be) graph))
                    (affine_translate lmp (fmul (f_of_Z (Z.of_nat n)) (fdiv graph (f_of_Z (Z.of_nat n)))))) (affine_scale f1 (fneg (bar_height dmax m)))) c
             [MoveTo (mkPoint f0 graph); LineTo (mkPoint f0 f0); LineTo (mkPoint (fmul be (flit 4 10)) f0); LineTo (mkPoint (fmul be (flit 4 10)) graph)])
          (Box c x (IZR vh - share (B2R dmax) m * (35 / 100 * W)) (x + 4 / 10 * (93 / 10000 * W)) (IZR vh)).
  Proof.
    intros Hn Hi Hm Fd Pd x. pose proof W_R as BW. destruct (bar_x_near i Hi) as [Nx Bx]. destruct (lines_near n Hn n (Nat.le_refl n)) as [Nl Bl]. destruct (line_B n Hn) as [_ El].
    rewrite El in Nl, Bl. destruct (share_near dmax m Hm Fd Pd) as [Nh Bh]. pose proof xo_B as Xo. pose proof yo_B as Yo. pose proof graph_near as Ng.
    assert (Ng' : approx graph (35 / 100 * W) (/ 18000000)) by (apply (near_weaken _ _ _ _ Ng); lra).
    apply (near_weaken _ _ _ (/ 45000000)) in Nl as Nl'; [|lra].
    destruct (shift_near xo yo (fmul (f_of_Z (Z.of_nat i)) be) graph _ _ _ _ (/ 50000000) (/ 18000000) xo_near yo_near Nx Ng')
      as (_ & _ & A1 & A2); try lra; try (rewrite Rabs_pos_eq; lra).
    rewrite translate_mul in *. cbn [affine_translate ae af] in A1, A2.
    set (x1 := fadd (fadd (fmul f1 (fmul (f_of_Z (Z.of_nat i)) be)) _) _) in *. set (y1 := fadd (fadd (fmul f0 (fmul (f_of_Z (Z.of_nat i)) be)) _) _) in *.
    destruct (shift_near x1 y1 lmp (fmul (f_of_Z (Z.of_nat n)) (fdiv graph (f_of_Z (Z.of_nat n)))) _ _ _ _ (/ 50000000 + 3 * / 18000000 + / 1000000000) (/ 45000000) A1 A2 lmp_near Nl')
      as (_ & _ & C1 & C2); try lra; try (rewrite Rabs_pos_eq; lra).
    { apply Rle_trans with (1 := Rabs_triang _ _). rewrite (Rabs_pos_eq (INR i * _)) by lra. lra. }
    { apply Rle_trans with (1 := Rabs_triang _ _). rewrite (Rabs_pos_eq (35 / 100 * W)) by lra. lra. }
    rewrite translate_mul in *. cbn [affine_translate ae af] in C1, C2.
    set (x2 := fadd (fadd (fmul f1 lmp) _) _) in *. set (y2 := fadd (fadd (fmul f0 lmp) _) _) in *.
    replace (IZR vw - W + INR i * (93 / 10000 * W) + 6 / 100 * W) with x in C1 by (unfold x; ring).
    replace (IZR vh - 7 / 10 * W + 35 / 100 * W + 35 / 100 * W) with (IZR vh) in C2 by field.
    pose proof vh_R as Bv. pose proof vw_R as Bvw.
    assert (Xb : Rabs x <= 70000). { unfold x. apply Rabs_le. lra. }
    assert (Vb : Rabs (IZR vh) <= 70000) by (rewrite Rabs_pos_eq; lra).
    assert (L : forall p qx qy, approx (px p) qx (/ 50000000) -> approx (py p) qy (/ 50000000) -> Rabs qx <= 600 -> Rabs qy <= 600 ->
      lands (affine_mul (affine_translate x2 y2) (affine_scale f1 (fneg (bar_height dmax m)))) p (x + qx) (IZR vh - share (B2R dmax) m * qy)).
    { intros p qx qy Px Py Bqx Bqy. apply (flip_lands x2 y2 _ p x (IZR vh) (share (B2R dmax) m) qx qy (/ 3100000) (/ 50000000) (/ 100000000000));
        auto; try lra; [apply (near_weaken _ _ _ _ C1)|apply (near_weaken _ _ _ _ C2)]; lra. }
    assert (Z0 : approx f0 0 (/ 50000000)) by (apply (near_weaken _ _ 0); [apply exact_0|lra]).
    assert (G0 : approx graph (35 / 100 * W) (/ 50000000)) by (apply (near_weaken _ _ _ _ Ng); lra).
    assert (B0 : approx (fmul be (flit 4 10)) (4 / 10 * (93 / 10000 * W)) (/ 50000000)) by (apply (near_weaken _ _ _ _ bw_near); lra).
    assert (R0 : Rabs 0 <= 600) by (rewrite Rabs_R0; lra). assert (R1 : Rabs (35 / 100 * W) <= 600) by (rewrite Rabs_pos_eq; lra).
    assert (R2 : Rabs (4 / 10 * (93 / 10000 * W)) <= 600) by (rewrite Rabs_pos_eq; lra).
    pose proof (L (mkPoint f0 graph) _ _ Z0 G0 R0 R1) as L1. pose proof (L (mkPoint f0 f0) _ _ Z0 Z0 R0 R0) as L2.
    pose proof (L (mkPoint (fmul be (flit 4 10)) f0) _ _ B0 Z0 R2 R0) as L3. pose proof (L (mkPoint (fmul be (flit 4 10)) graph) _ _ B0 G0 R2 R1) as L4.
    rewrite Rplus_0_r in L1, L2. rewrite Rmult_0_r, Rminus_0_r in L2, L3.
    apply ShBar; assumption.
  Qed.
End Layout.
(** ** The whole panel *)
Lemma enumerated_shows {A} (f : nat * A -> item) (g : nat -> A -> seen) (l : list A) :
  (forall i a, nth_error l i = Some a -> shows (f (i, a)) (g i a)) -> Forall2 shows (map f (enumerated l)) (numbered g l).
Proof.
  intros H. unfold enumerated, numbered.
  assert (G : forall k l', (forall i a, nth_error l' i = Some a -> shows (f (k + i, a)%nat) (g (k + i)%nat a)) ->
    Forall2 shows (map f (combine (seq k (List.length l')) l')) (map (fun i => g (fst i) (snd i)) (combine (seq k (List.length l')) l'))).
  { intros k l'. revert k. induction l' as [|a l' IH]; intros k Hk; cbn; constructor.
    - specialize (Hk 0%nat a eq_refl). rewrite Nat.add_0_r in Hk. exact Hk.
    - apply IH. intros i b Hi. rewrite Nat.add_succ_comm. apply Hk. exact Hi. }
  apply G. intros i a Hi. now apply H.
Qed.
Lemma labels_wording s bu vsync m vw vh : labels s bu vsync m (f_of_Z vw) (f_of_Z vh) = wording s bu vsync m vw vh.
Proof.
  unfold labels, wording. f_equal. destruct bu as [[fl a b c d e]|]; [|reflexivity]. cbn [bu_failed bu_binning bu_ptcl bu_tile bu_segments bu_blend].
  destruct (Z_lt_dec 0 fl) as [H|H]; [rewrite (proj2 (Z.leb_le 1 fl)) by lia|rewrite (proj2 (Z.leb_gt 1 fl)) by lia]; reflexivity.
Qed.
Lemma wording_length s bu vsync m vw vh : (6 <= List.length (wording s bu vsync m vw vh) <= 12)%nat.
Proof. unfold wording. destruct bu as [[fl a b c d e]|]; [destruct (Z_lt_dec 0 fl)|]; cbn; lia. Qed.
Lemma colour_speed z : bar_colour z = speed_colour z.
Proof.
  unfold bar_colour, speed_colour, ms. destruct (Z.leb_spec z 16667) as [H|H], (Rle_dec (IZR z / 1000) (16667 / 1000)) as [K|K]; [reflexivity| | |].
  - exfalso. apply K. apply IZR_le in H. lra.
  - exfalso. apply IZR_lt in H. lra.
  - destruct (Z.leb_spec z 33334) as [J|J], (Rle_dec (IZR z / 1000) (33334 / 1000)) as [L|L]; try reflexivity; exfalso.
    + apply L. apply IZR_le in J. lra.
    + apply IZR_lt in J. lra.
Qed.
Lemma words_eq i a b c a' b' c' l : shows i (Words a b c l) -> a = a' -> b = b' -> c = c' -> shows i (Words a' b' c' l).
Proof. now intros H -> -> ->. Qed.
Lemma rule_eq i a b c d a' b' c' d' : shows i (Rule a b c d) -> a = a' -> b = b' -> c = c' -> d = d' -> shows i (Rule a' b' c' d').
Proof. now intros H -> -> -> ->. Qed.
Lemma mark_R t dmax : In t [833; 1666; 3333]%Z -> fin dmax -> apart (B2R dmax) ->
  approx (flit t 100) (IZR t / 100) (/ 10000000000000) /\ 8 <= IZR t / 100 <= 34 /\ (fltb (flit t 100) dmax = true <-> IZR t / 100 < B2R dmax).
Proof.
  intros Ht Fd Ap. specialize (Ap t Ht).
  assert (B : (833 <= t <= 3333)%Z) by (destruct Ht as [<-|[<-|[<-|[]]]]; lia).
  assert (N : approx (flit t 100) (IZR t / IZR 100) (/ 10000000000000)) by (apply lit_near; lia). split; [exact N|].
  assert (BR : 833 <= IZR t <= 3333) by (split; apply IZR_le; lia). split; [lra|]. destruct N as [Fn N]. apply Rabs_le_inv in N.
  assert (Ap' : B2R dmax < IZR t / 100 - / 1000000000 \/ IZR t / 100 + / 1000000000 < B2R dmax).
  { unfold Rabs in Ap. destruct (Rcase_abs _) in Ap; lra. }
  split; intros H.
  - apply fltb_lt in H; auto. lra.
  - apply fltb_lt; auto. lra.
Qed.
Section Marks.
  Variables (vw vh : Z) (dmax : f64).
  Hypothesis Hw : window_side vw.
  Hypothesis Hh : window_side vh.
  Hypothesis Fd : fin dmax.
  Hypothesis Ap : apart (B2R dmax).
  Let W := panel_width vw.
  Let D := B2R dmax.
  Let width := fclamp (f_of_Z 200) (f_of_Z 600) (fmul (f_of_Z vw) (flit 4 10)).
  Let height := fmul width (flit 7 10).
  Let graph := fmul height (flit 5 10).
  Let offset := affine_translate (fsub (f_of_Z vw) width) (fsub (f_of_Z vh) height).
  Let gw := fsub (fsub width (fmul (f_of_Z 2) (fmul width (flit 1 100)))) (fmul width (flit 5 100)).
  Let lmp := fadd (fmul width (flit 1 100)) (fmul width (flit 5 100)).
  Let th := fmul graph (flit 5 100).
  Lemma marks_show t : In t [833; 1666; 3333]%Z -> let y := fdiv (flit t 100) dmax in
    Forall2 shows (if fltb (flit t 100) dmax then
        [IText (f64_to_f32 th) (affine_mul offset (affine_translate (fmul width (flit 1 100)) (fadd (fmul (fsub (f_of_Z 2) y) graph) (fmul th (flit 5 10))))) (LMark (flit t 100));
         ILine (fmul graph (flit 1 100)) (affine_mul offset (affine_translate lmp (fmul (fsub f1 y) graph))) [MoveTo (mkPoint f0 graph); LineTo (mkPoint gw graph)]]
      else [])
     (if Rlt_dec (IZR t / 100) D then
      [Words (5 / 100 * (35 / 100 * W)) (IZR vw - W + W / 100) (IZR vh - IZR t / 100 / D * (35 / 100 * W) + 25 / 1000 * (35 / 100 * W)) (LMark (flit t 100));
       Rule (35 / 100 * W / 100) (IZR vw - W + 6 / 100 * W) (IZR vw - W + 99 / 100 * W) (IZR vh - IZR t / 100 / D * (35 / 100 * W))]
    else []).
  Proof.
    intros Ht y. destruct (mark_R t dmax Ht Fd Ap) as (N & B & Lt). fold D in Lt. pose proof (width_bounds vw) as BW. fold W in BW.
    destruct (Rlt_dec (IZR t / 100) D) as [L|L].
    2:{ destruct (fltb (flit t 100) dmax); [exfalso; apply L; now apply Lt|constructor]. }
    rewrite (proj2 Lt L). set (r := IZR t / 100) in *.
    assert (I : 0 < / D <= 1). { split; [apply Rinv_0_lt_compat; lra|]. rewrite <- Rinv_1. apply Rinv_le_contravar; lra. }
    assert (Q : 0 <= r / D <= 1).
    { split; [apply Rmult_le_pos; lra|]. apply Rmult_le_reg_r with D; [lra|]. unfold Rdiv. rewrite Rmult_assoc, Rinv_l, Rmult_1_r by lra. lra. }
    assert (Ny : approx y (r / D) (/ 1000000000000)).
    { apply (approx_div _ _ _ _ (/ 10000000000000) 40); [exact N|exact Fd|reflexivity|lra|rewrite Rabs_pos_eq; lra|lra|].
      unfold Rdiv. assert ((40 + / 10000000000000) * / D <= 41 * 1) by (apply Rmult_le_compat; lra).
      assert (/ 10000000000000 * / D <= / 10000000000000 * 1) by (apply Rmult_le_compat_l; lra). unfold u52. lra. }
    assert (Ng : approx graph (35 / 100 * W) (/ 150000000)) by apply graph_near, Hw.
    assert (Nt : approx th (5 / 100 * (35 / 100 * W)) (/ 1000000000)).
    { rewrite Rmult_comm. apply (near_mul _ _ _ _ (/ 150000000) (/ 10000000000000) 210 (5 / 100)); [exact Ng|apply (lit_near 5 100); lia|rewrite Rabs_pos_eq; lra|rewrite Rabs_pos_eq; lra|lra|lra|unfold u52; lra]. }
    assert (Nt2 : approx (fmul th (flit 5 10)) (5 / 100 * (35 / 100 * W) * (5 / 10)) (/ 1000000000)).
    { apply (near_mul _ _ _ _ (/ 1000000000) (/ 10000000000000) 11 (5 / 10)); [exact Nt|apply (lit_near 5 10); lia|rewrite Rabs_pos_eq; lra|rewrite Rabs_pos_eq; lra|lra|lra|unfold u52; lra]. }
    assert (P1 : forall k, (1 <= k <= 2)%Z -> approx (fmul (fsub (f_of_Z k) y) graph) ((IZR k - r / D) * (35 / 100 * W)) (/ 60000000) /\ 0 <= (IZR k - r / D) * (35 / 100 * W) <= 420).
    { intros k Hk. assert (BK : 1 <= IZR k <= 2) by (split; apply IZR_le; lia). split.
      - apply (near_mul _ _ _ _ (/ 100000000000) (/ 150000000) 2 210); [|exact Ng|rewrite Rabs_pos_eq; lra|rewrite Rabs_pos_eq; lra|lra|lra|unfold u52; lra].
        apply (approx_sub _ _ _ _ 0 (/ 1000000000000) 3); [apply exact_Z; lia|exact Ny|rewrite !Rabs_pos_eq; lra|lra|unfold u52; lra].
      - split; [apply Rmult_le_pos; lra|]. apply Rle_trans with (2 * 210); [apply Rmult_le_compat; lra|lra]. }
    constructor; [|constructor; [|constructor]].
    - destruct (P1 2%Z ltac:(lia)) as [P2 P3]. destruct (f32_near th _ _ Nt) as [S1 S2]; [rewrite Rabs_pos_eq; lra|lra|].
      eapply words_eq; [eapply (place_near vw vh Hw Hh) with (f := / 50000000); [exact S1| |reflexivity| | | | | |reflexivity]|..].
      + apply Rle_trans with (1 := S2). lra.
      + apply (near_weaken _ (W * (1 / 100)) (/ 100000000)); [apply (part_near vw Hw 1 100); lia|lra].
      + apply (near_add _ _ _ _ (/ 60000000) (/ 1000000000) 500 _ P2 Nt2); [rewrite !Rabs_pos_eq; lra|lra|unfold u52; lra].
      + rewrite Rabs_pos_eq; lra.
      + rewrite Rabs_pos_eq; lra.
      + lra.
      + reflexivity.
      + fold W. field.
      + fold W. field. lra.
    - destruct (P1 1%Z ltac:(lia)) as [P2 P3].
      assert (P2' : approx (fmul (fsub f1 y) graph) ((1 - r / D) * (35 / 100 * W)) (/ 60000000)).
      { replace f1 with (f_of_Z 1) by reflexivity. exact P2. }
      assert (Nl : approx lmp (6 / 100 * W) (/ 45000000)) by apply lmp_near, Hw.
      assert (Ngw : approx gw (93 / 100 * W) (/ 20000000)) by apply gw_near, Hw.
      destruct (put_near vw vh Hw Hh lmp (fmul (fsub f1 y) graph) _ _ (/ 45000000) Nl (near_weaken _ _ _ (/ 45000000) P2' ltac:(lra))) as (A & B' & C & E);
        [rewrite Rabs_pos_eq; lra|rewrite Rabs_pos_eq; lra|lra|].
      assert (Nth : approx (fmul graph (flit 1 100)) (35 / 100 * W * (1 / 100)) (/ 1000000000)).
      { apply (near_mul _ _ _ _ (/ 150000000) (/ 10000000000000) 210 (1 / 100)); [exact Ng|apply (lit_near 1 100); lia|rewrite Rabs_pos_eq; lra|rewrite Rabs_pos_eq; lra|lra|lra|unfold u52; lra]. }
      eapply rule_eq; [eapply ShLine with (thick := 35 / 100 * W * (1 / 100)) (y := IZR vh - 7 / 10 * W + (1 - r / D) * (35 / 100 * W) + 35 / 100 * W)|..].
      + apply Nth.
      + apply Rle_trans with (1 := proj2 Nth). lra.
      + exact B'.
      + apply (shifted_lands _ (mkPoint f0 graph) _ _ 0 (35 / 100 * W) _ (/ 20000000) A B' C E); [apply (near_weaken _ _ 0); [apply exact_0|lra]|apply (near_weaken _ _ _ _ Ng); lra|lra].
      + apply (shifted_lands _ (mkPoint gw graph) _ _ (93 / 100 * W) (35 / 100 * W) _ (/ 20000000) A B' C E); [exact Ngw|apply (near_weaken _ _ _ _ Ng); lra|lra].
      + field.
      + fold W. field.
      + fold W. field.
      + fold W. field. lra.
  Qed.
End Marks.
Lemma filter_map_step {A B} (p : A -> bool) (f : A -> list B) x l : flat_map f (filter p (x :: l)) = (if p x then f x else []) ++ flat_map f (filter p l).
Proof. cbn [filter]. destruct (p x); reflexivity. Qed.

(** Everything on the panel is where it is to be seen: box, texts, bars and lines, in this order. *)
Theorem C98_panel : forall s samples bu vsync m vw vh dmax, window_side vw -> window_side vh ->
  display_max s = Ok dmax -> fin dmax -> (samples <> [] -> 0 < B2R dmax) -> apart (B2R dmax) ->
  (List.length samples <= 100)%nat -> (forall z, In z samples -> (0 <= z <= 2 ^ 53)%Z) ->
  exists items, draw_layer s samples bu vsync m (f_of_Z vw) (f_of_Z vh) = Ok items /\ Forall2 shows items (panel s samples bu vsync m vw vh (B2R dmax)).
Proof.
  intros s samples bu vsync m vw vh dmax Hw Hh Ed Fd Pd Ap Len Rng. unfold draw_layer. rewrite Ed. cbv zeta. cbn [bind]. eexists. split; [reflexivity|].
  rewrite labels_wording. unfold panel. pose proof (wording_length s bu vsync m vw vh) as Lw. set (ls := wording s bu vsync m vw vh) in *.
  assert (Hn : (1 <= 1 + List.length ls <= 100)%nat) by lia. set (n := (1 + List.length ls)%nat) in *.
  pose proof (width_bounds vw) as BW. destruct (line_B vw n Hn) as [LB LE]. destruct (size_near vw Hw n Hn) as [S1 S2].
  constructor; [|apply Forall2_app; [|constructor; [|apply Forall2_app]]].
  - pose proof (xo_near vw Hw) as Nx. pose proof (yo_near vw vh Hw Hh) as Ny. pose proof (width_near vw Hw) as Nw. pose proof (height_near vw Hw) as Nh.
    assert (Sh : shifted (affine_translate (fsub (f_of_Z vw) (fclamp (f_of_Z 200) (f_of_Z 600) (fmul (f_of_Z vw) (flit 4 10)))) (fsub (f_of_Z vh) (fmul (fclamp (f_of_Z 200) (f_of_Z 600) (fmul (f_of_Z vw) (flit 4 10))) (flit 7 10))))).
    { repeat split; cbn [aa ab ac ad affine_translate]; rewrite ?f0_R, ?f1_R; reflexivity. }
    assert (Fi : finite_affine (affine_translate (fsub (f_of_Z vw) (fclamp (f_of_Z 200) (f_of_Z 600) (fmul (f_of_Z vw) (flit 4 10)))) (fsub (f_of_Z vh) (fmul (fclamp (f_of_Z 200) (f_of_Z 600) (fmul (f_of_Z vw) (flit 4 10))) (flit 7 10))))).
    { repeat split; cbn [aa ab ac ad ae af affine_translate]; try reflexivity; [apply Nx|apply Ny]. }
    apply ShBox; [apply Sh| |].
    + pose proof (shifted_lands _ (mkPoint f0 f0) _ _ 0 0 (/ 50000000) 0 Fi Sh Nx Ny exact_0 exact_0 ltac:(lra)) as L. rewrite !Rplus_0_r in L. exact L.
    + assert (Nw' := near_weaken _ _ _ (/ 100000000) Nw ltac:(lra)).
      pose proof (shifted_lands _ (mkPoint _ _) _ _ _ _ (/ 50000000) (/ 100000000) Fi Sh Nx Ny Nw' Nh ltac:(lra)) as L.
      replace (IZR vw - panel_width vw + panel_width vw) with (IZR vw) in L by ring. replace (IZR vh - 7 / 10 * panel_width vw + 7 / 10 * panel_width vw) with (IZR vh) in L by ring. exact L.
  - apply enumerated_shows. intros i l Hi. cbn [fst snd]. assert (Li : (i < List.length ls)%nat) by (apply nth_error_Some; congruence).
    destruct (lines_near vw Hw n Hn (i + 1) ltac:(unfold n; lia)) as [N B].
    eapply words_eq; [eapply (place_near vw vh Hw Hh) with (f := / 100000000); [exact S1|exact S2|reflexivity|apply (part_near vw Hw 1 100); lia|apply (near_weaken _ _ _ _ N); lra| | | |reflexivity]|..].
    + rewrite Rabs_pos_eq; lra.
    + rewrite Rabs_pos_eq; lra.
    + lra.
    + reflexivity.
    + field.
    + reflexivity.
  - assert (N : approx (fdiv (fmul (fmul (fclamp (f_of_Z 200) (f_of_Z 600) (fmul (f_of_Z vw) (flit 4 10))) (flit 7 10)) (flit 5 10)) (f_of_Z (Z.of_nat n))) (35 / 100 * panel_width vw / INR n) (/ 100000000)).
    { eapply near_weaken; [apply (th_near vw Hw n Hn)|]. destruct (lines_R n Hn) as (_ & _ & L).
      assert (P' : 0 < / INR n <= 1). { split; [apply Rinv_0_lt_compat; lra|]. rewrite <- Rinv_1. apply Rinv_le_contravar; lra. } unfold Rdiv. lra. }
    eapply words_eq; [eapply (place_near vw vh Hw Hh) with (f := / 100000000); [exact S1|exact S2|reflexivity|apply (part_near vw Hw 67 100); lia|exact N| | | |reflexivity]|..].
    + rewrite Rabs_pos_eq; lra.
    + rewrite Rabs_pos_eq; lra.
    + lra.
    + reflexivity.
    + field.
    + reflexivity.
  - apply enumerated_shows. intros i z Hi. cbn [fst snd]. assert (Li : (i < List.length samples)%nat) by (apply nth_error_Some; congruence).
    rewrite <- colour_speed. apply (bar_shows vw vh Hw Hh n dmax i z (bar_colour z) Hn); [lia|apply Rng; eapply nth_error_In; exact Hi|exact Fd|]. apply Pd. intros ->. cbn in Li. lia.
  - rewrite !filter_map_step. cbn [flat_map filter].
    repeat (apply Forall2_app; [apply (marks_show vw vh dmax Hw Hh Fd Ap); cbn; auto|]). constructor.
Qed.

(** ** For every history of the viewer *)
Lemma scale_positive ops s d : plausible ops -> stats_run stats_new ops = Ok s -> (exists m, In m (since_clear ops) /\ (0 < m)%Z) ->
  display_max (snapshot_of s) = Ok d -> fin d /\ 0 < B2R d.
Proof.
  intros P R (m1 & I1 & P1) Ed. destruct (window_facts ops s P R) as (Hs & Hc & Ht & X & Len & In_l & Tb). set (l := lastn 100 (samples_of ops)) in *.
  assert (Zs : forall m, In m (since_clear ops) -> (0 <= m <= 2 ^ 46)%Z) by (intros m Hm; apply P; now apply since_In).
  assert (Mx : (0 < st_max s <= 2 ^ 46)%Z).
  { unfold extremes in X. destruct (since_clear ops) as [|m0 r0] eqn:Es; [destruct I1|]. rewrite <- Es in *. destruct X as (_ & X2 & X3). apply X3 in I1. apply Zs in X2. lia. }
  assert (L1 : (0 < List.length l)%nat).
  { unfold l. rewrite lastn_length. apply since_In in I1. destruct (samples_of ops) eqn:Eo; [|cbn; lia]. exfalso.
    assert (Y : In m1 (samples_of ops)) by (apply in_flat_map; exists (OpSample m1); split; [exact I1|now left]). now rewrite Eo in Y. }
  destruct (micros_R (st_max s) ltac:(lia)) as (F & Bx & Pp). change (fmul (f_of_Z (st_max s)) f_milli) with (sn_max (snapshot_of s)) in *.
  unfold display_max in Ed. destruct (fltb _ _).
  - destruct (compared ops s P R L1 ltac:(lia)) as (Bu & _). set (u := f_to_usize _) in *. destruct (Z.eq_dec u 0) as [E|E]; [rewrite E in Ed; discriminate|].
    destruct (round_up_R u ltac:(lia)) as (k & Ek & Hk). rewrite Ek in Ed. injection Ed as <-. destruct (f_of_Z_R k ltac:(lia)) as [Rk Fk].
    split; [exact Fk|]. rewrite Rk. apply IZR_lt. lia.
  - injection Ed as <-. split; [exact F|]. apply Pp. lia.
Qed.
Lemma scale_empty ops s : plausible ops -> stats_run stats_new ops = Ok s -> samples_of ops = [] -> exists d, display_max (snapshot_of s) = Ok d /\ fin d /\ B2R d = 0.
Proof.
  intros P R E. destruct (window_facts ops s P R) as (Hs & Hc & Ht & X & _). rewrite E in Hs, Hc, Ht. cbn in Hs, Hc, Ht.
  assert (Es : since_clear ops = []).
  { destruct (since_clear ops) as [|m r] eqn:Es; [reflexivity|]. exfalso. assert (I1 : In m (since_clear ops)) by (rewrite Es; now left). apply since_In in I1.
    assert (Y : In m (samples_of ops)) by (apply in_flat_map; exists (OpSample m); split; [exact I1|now left]). now rewrite E in Y. }
  unfold extremes in X. rewrite Es in X. destruct X as [X1 X2]. destruct s as [c su mn mx sa]. cbn [st_samples st_count st_sum st_min st_max] in *. subst.
  eexists. split; [unfold display_max; replace (fltb _ _) with false by (vm_compute; reflexivity); reflexivity|].
  cbn [snapshot_of sn_max st_max]. split; [vm_compute; reflexivity|]. rewrite <- f0_R. apply const_R; vm_compute; reflexivity.
Qed.
(** The panel after any calls: a crash exactly when the scale cannot be found
    (C72), and the panel for the last hundred samples otherwise; also before the
    first sample. *)
Theorem C98_run : forall ops s bu vsync m vw vh, plausible ops -> stats_run stats_new ops = Ok s -> window_side vw -> window_side vh ->
  let drawn := draw_layer (snapshot_of s) (st_samples s) bu vsync m (f_of_Z vw) (f_of_Z vh) in
  (drawn = Panic <-> bar_heights s = Panic) /\
  (drawn <> Panic -> (exists z, In z (since_clear ops) /\ (0 < z)%Z) \/ samples_of ops = [] ->
   exists scale items, display_max (snapshot_of s) = Ok scale /\ drawn = Ok items /\
     (apart (B2R scale) -> Forall2 shows items (panel (snapshot_of s) (lastn 100 (samples_of ops)) bu vsync m vw vh (B2R scale)))).
Proof.
  intros ops s bu vsync m vw vh P R Hw Hh drawn. destruct (window_facts ops s P R) as (Hs & _ & _ & _ & Len & In_l & _).
  assert (No : display_max (snapshot_of s) <> Oof).
  { intros Ed. unfold display_max in Ed. destruct (fltb _ _); [|discriminate]. unfold round_up, u64_sub, u64_add in Ed.
    repeat match type of Ed with context [if ?b then _ else _] => destruct b; cbn [bind] in Ed end; discriminate. }
  split.
  - unfold drawn, draw_layer, bar_heights. cbv zeta. destruct (display_max (snapshot_of s)) as [d| |]; cbn [bind]; [split; discriminate|tauto|congruence].
  - intros Np Pos. destruct (display_max (snapshot_of s)) as [d| |] eqn:Ed; [| |congruence].
    2: { exfalso. apply Np. unfold drawn, draw_layer. cbv zeta. rewrite Ed. reflexivity. }
    assert (F : fin d /\ (st_samples s <> [] -> 0 < B2R d)).
    { destruct Pos as [Pos|Em]; [destruct (scale_positive ops s d P R Pos Ed); auto|].
      destruct (scale_empty ops s P R Em) as (d' & Ed' & Fd & _). assert (d' = d) as -> by congruence. split; [exact Fd|]. intros Ne. rewrite Hs, Em in Ne. now destruct Ne. }
    destruct F as [F Pd]. assert (Ex : exists items, drawn = Ok items) by (unfold drawn, draw_layer; cbv zeta; rewrite Ed; cbn [bind]; eauto).
    destruct Ex as [items Ei]. exists d, items. split; [reflexivity|]. split; [exact Ei|]. intros Ap.
    destruct (C98_panel (snapshot_of s) (st_samples s) bu vsync m vw vh d Hw Hh Ed F Pd Ap) as (items' & Ei' & Sh).
    + rewrite Hs. exact Len.
    + intros z Hz. rewrite Hs in Hz. apply In_l in Hz. lia.
    + assert (items' = items) as -> by (unfold drawn in Ei; congruence). rewrite Hs in Sh. exact Sh.
Qed.

(** ** Bars and lines *)
Definition is_bar (i : item) : bool := match i with IBar _ _ _ => true | _ => false end.
Definition spots (l : list path_el) : list point := flat_map (fun e => match e with MoveTo p | LineTo p => [p] | _ => [] end) l.
(** Where the corners of a bar are. *)
Definition corners (i : item) : list (R * R) := match i with IBar t _ path => map (mapped t) (spots path) | _ => [] end.
Lemma no_bars_map {A} (f : A -> item) l : (forall a, is_bar (f a) = false) -> filter is_bar (map f l) = [].
Proof. intros H. induction l as [|a l IH]; [reflexivity|]. cbn. now rewrite H. Qed.
Lemma all_bars_map {A} (f : A -> item) l : (forall a, is_bar (f a) = true) -> filter is_bar (map f l) = map f l.
Proof. intros H. induction l as [|a l IH]; [reflexivity|]. cbn. now rewrite H, IH. Qed.
Lemma no_bars_flat {A} (f : A -> list item) l : (forall a, filter is_bar (f a) = []) -> filter is_bar (flat_map f l) = [].
Proof. intros H. induction l as [|a l IH]; [reflexivity|]. cbn. now rewrite filter_app, H, IH. Qed.
Lemma numbered_nth {A B} (f : nat * A -> B) (l : list A) i b : nth_error (map f (enumerated l)) i = Some b -> exists a, nth_error l i = Some a /\ b = f (i, a).
Proof.
  unfold enumerated. assert (G : forall k l' i, nth_error (map f (combine (seq k (List.length l')) l')) i = Some b -> exists a, nth_error l' i = Some a /\ b = f ((k + i)%nat, a)).
  { intros k l'. revert k. induction l' as [|a l' IH]; intros k j Hj; [destruct j; discriminate|]. cbn in Hj. destruct j as [|j]; cbn in Hj.
    - injection Hj as <-. exists a. rewrite Nat.add_0_r. auto.
    - apply IH in Hj as (c & Hc & ->). exists c. rewrite Nat.add_succ_comm. auto. }
  apply G.
Qed.
Lemma Ok_inj {A} (a b : A) : Ok a = Ok b -> a = b.
Proof. congruence. Qed.
Lemma shows_bar t c p q r w c' x0 y0 x1 y1 : shows (IBar t c [MoveTo p; LineTo q; LineTo r; LineTo w]) (Box c' x0 y0 x1 y1) ->
  lands t p x0 y0 /\ lands t q x0 y1 /\ lands t r x1 y1 /\ lands t w x1 y0.
Proof. intros H. inversion H; subst. auto. Qed.
Lemma bar_at s samples bu vsync m vw vh dmax items : window_side vw -> window_side vh -> display_max s = Ok dmax -> fin dmax -> 0 < B2R dmax ->
  (List.length samples <= 100)%nat -> (forall z, In z samples -> (0 <= z <= 2 ^ 53)%Z) ->
  draw_layer s samples bu vsync m (f_of_Z vw) (f_of_Z vh) = Ok items ->
  List.length (filter is_bar items) = List.length samples /\
  forall i b, nth_error (filter is_bar items) i = Some b -> exists z t c p q r w, nth_error samples i = Some z /\ (i < 100)%nat /\
    let W := panel_width vw in let x := IZR vw - W + 6 / 100 * W + INR i * (93 / 10000 * W) in
    let x' := x + 4 / 10 * (93 / 10000 * W) in let y := IZR vh - share (B2R dmax) z * (35 / 100 * W) in
    b = IBar t c [MoveTo p; LineTo q; LineTo r; LineTo w] /\ lands t p x y /\ lands t q x (IZR vh) /\ lands t r x' (IZR vh) /\ lands t w x' y.
Proof.
  intros Hw Hh Ed Fd Pd Len Rng. unfold draw_layer. rewrite Ed. cbv zeta. cbn [bind]. intros Ei. apply Ok_inj in Ei. subst items. rewrite labels_wording.
  cbn [filter is_bar]. rewrite filter_app, no_bars_map by reflexivity. cbn [app filter is_bar]. rewrite filter_app, all_bars_map by reflexivity.
  rewrite no_bars_flat, app_nil_r by reflexivity. split.
  { rewrite map_length. unfold enumerated. rewrite combine_length, seq_length. apply Nat.min_id. }
  intros i b Hb. apply numbered_nth in Hb as (z & Hz & ->). cbn [fst snd]. pose proof (wording_length s bu vsync m vw vh) as Lw.
  assert (Li : (i < 100)%nat) by (assert (i < List.length samples)%nat by (apply nth_error_Some; congruence); lia).
  pose proof (bar_shows vw vh Hw Hh (1 + List.length (wording s bu vsync m vw vh)) dmax i z (bar_colour z) ltac:(lia) Li ltac:(apply Rng; eapply nth_error_In; exact Hz) Fd Pd) as S.
  cbv zeta in S. apply shows_bar in S. exists z. do 6 eexists. split; [exact Hz|]. split; [exact Li|]. split; [reflexivity|]. exact S.
Qed.
(** The bars stand side by side from left to right, inside the lower half of the panel. *)
Theorem C98_bars : forall s samples bu vsync m vw vh dmax items, window_side vw -> window_side vh -> display_max s = Ok dmax -> fin dmax -> 0 < B2R dmax ->
  (List.length samples <= 100)%nat -> (forall z, In z samples -> (0 <= z <= 2 ^ 53)%Z) ->
  draw_layer s samples bu vsync m (f_of_Z vw) (f_of_Z vh) = Ok items ->
  let bars := filter is_bar items in
  List.length bars = List.length samples /\
  (forall b x y, In b bars -> In (x, y) (corners b) ->
     IZR vw - panel_width vw < x < IZR vw /\ IZR vh - 35 / 100 * panel_width vw - / 1000000 <= y <= IZR vh + / 1000000) /\
  (forall i j b b' x y x' y', (i < j)%nat -> nth_error bars i = Some b -> nth_error bars j = Some b' -> In (x, y) (corners b) -> In (x', y') (corners b') -> x + 1 < x').
Proof.
  intros s samples bu vsync m vw vh dmax items Hw Hh Ed Fd Pd Len Rng Ei bars. destruct (bar_at s samples bu vsync m vw vh dmax items Hw Hh Ed Fd Pd Len Rng Ei) as [L N].
  pose proof (width_bounds vw) as BW. set (W := panel_width vw) in *.
  assert (C : forall i b x y, nth_error bars i = Some b -> In (x, y) (corners b) -> exists z, nth_error samples i = Some z /\ (i < 100)%nat /\
     let l := IZR vw - W + 6 / 100 * W + INR i * (93 / 10000 * W) in
     l - / 1000000 <= x <= l + 4 / 10 * (93 / 10000 * W) + / 1000000 /\ IZR vh - share (B2R dmax) z * (35 / 100 * W) - / 1000000 <= y <= IZR vh + / 1000000).
  { intros i b x y Hi Hc. destruct (N i b Hi) as (z & t & c & p & q & r & w & Hz & Li & -> & L1 & L2 & L3 & L4). fold W in L1, L2, L3, L4. exists z. split; [exact Hz|]. split; [exact Li|].
    destruct (share_near dmax z ltac:(apply Rng; eapply nth_error_In; exact Hz) Fd Pd) as [_ Sh].
    assert (G : 0 <= share (B2R dmax) z * (35 / 100 * W)) by (apply Rmult_le_pos; lra).
    cbn [corners spots flat_map app map In] in Hc. intros l. fold l in L1, L2, L3, L4.
    destruct L1 as (_ & _ & _ & A1 & A2), L2 as (_ & _ & _ & B1 & B2), L3 as (_ & _ & _ & C1 & C2), L4 as (_ & _ & _ & D1 & D2).
    apply Rabs_le_inv in A1, A2, B1, B2, C1, C2, D1, D2.
    destruct Hc as [E|[E|[E|[E|[]]]]]; rewrite E in *; cbn [fst snd] in *; lra. }
  split; [exact L|]. split.
  - intros b x y Hb Hc. apply In_nth_error in Hb as [i Hi]. destruct (C i b x y Hi Hc) as (z & Hz & Li & K). cbv zeta in K.
    destruct (share_near dmax z ltac:(apply Rng; eapply nth_error_In; exact Hz) Fd Pd) as [_ Sh].
    assert (G : share (B2R dmax) z * (35 / 100 * W) <= 1 * (35 / 100 * W)) by (apply Rmult_le_compat_r; lra).
    assert (I0 : 0 <= INR i <= 99). { split; [apply pos_INR|]. replace 99 with (INR 99) by (cbn; lra). apply le_INR. lia. }
    assert (I1 : 0 <= INR i * (93 / 10000 * W) <= 99 * (93 / 10000 * W)) by (split; [apply Rmult_le_pos; lra|apply Rmult_le_compat_r; lra]). lra.
  - intros i j b b' x y x' y' Hij Hi Hj Hc Hc'. destruct (C i b x y Hi Hc) as (_ & _ & _ & K & _). destruct (C j b' x' y' Hj Hc') as (_ & _ & _ & K' & _). cbv zeta in K, K'.
    assert (I0 : INR i + 1 <= INR j). { rewrite <- S_INR. apply le_INR. lia. }
    assert (I1 : (INR i + 1) * (93 / 10000 * W) <= INR j * (93 / 10000 * W)) by (apply Rmult_le_compat_r; lra). lra.
Qed.
(** A bar reaches a line exactly if the frame took the line's time. *)
Theorem C98_reads : forall D z t vw vh, 0 < D -> IZR t / 100 < D -> 0 <= vh ->
  let graph := 35 / 100 * panel_width vw in
  (vh - share D z * graph <= vh - IZR t / 100 / D * graph <-> IZR t / 100 <= ms z).
Proof.
  intros D z t vw vh PD Lt Hv graph. pose proof (width_bounds vw) as BW. assert (G : 0 < graph) by (unfold graph; lra). unfold share. set (r := IZR t / 100) in *.
  assert (K : r / D <= Rmin (ms z) D / D <-> r <= ms z).
  { assert (I : 0 < / D) by now apply Rinv_0_lt_compat. unfold Rdiv. split; intros H.
    - apply Rmult_le_reg_r in H; [|exact I]. apply Rle_trans with (1 := H). apply Rmin_l.
    - apply Rmult_le_compat_r; [lra|]. apply Rmin_glb; lra. }
  rewrite <- K. split; intros H.
  - apply Rmult_le_reg_r with graph; lra.
  - assert (r / D * graph <= Rmin (ms z) D / D * graph) by (apply Rmult_le_compat_r; lra). lra.
Qed.
(** The panel is inside the window exactly if that is 200 wide or more, and seven tenths of the panel's width high or more. *)
Theorem C98_fits : forall s samples bu vsync m vw vh items, window_side vw -> window_side vh ->
  draw_layer s samples bu vsync m (f_of_Z vw) (f_of_Z vh) = Ok items ->
  exists t w h rest, items = IRect t (0, 0, 0, 200)%Z w h :: rest /\
    let x0 := fst (mapped t (mkPoint f0 f0)) in let y0 := snd (mapped t (mkPoint f0 f0)) in
    let x1 := fst (mapped t (mkPoint w h)) in let y1 := snd (mapped t (mkPoint w h)) in
    Rabs (x1 - IZR vw) <= / 1000000 /\ Rabs (y1 - IZR vh) <= / 1000000 /\ Rabs (x1 - x0 - panel_width vw) <= / 500000 /\
    (- / 1000 <= x0 /\ - / 1000 <= y0 <-> (200 <= vw)%Z /\ 7 / 10 * panel_width vw <= IZR vh).
Proof.
  intros s samples bu vsync m vw vh items Hw Hh. unfold draw_layer. destruct (display_max s) as [d| |]; cbv zeta; cbn [bind]; try discriminate.
  intros Ei. apply Ok_inj in Ei. subst items. do 4 eexists. split; [reflexivity|].
  pose proof (width_bounds vw) as BW. pose proof (xo_near vw Hw) as [_ Nx]. pose proof (yo_near vw vh Hw Hh) as [_ Ny].
  pose proof (width_near vw Hw) as [_ Nw]. pose proof (height_near vw Hw) as [_ Nh].
  unfold mapped. cbn [fst snd px py aa ab ac ad ae af affine_translate]. rewrite f0_R, f1_R.
  set (w := fclamp _ _ _) in *. set (h := fmul w (flit 7 10)) in *. set (x := fsub (f_of_Z vw) w) in *. set (y := fsub (f_of_Z vh) h) in *. clearbody x y w h.
  apply Rabs_le_inv in Nx, Ny, Nw, Nh. split; [apply Rabs_le; lra|]. split; [apply Rabs_le; lra|]. split; [apply Rabs_le; lra|].
  replace (1 * 0 + 0 * 0 + B2R x) with (B2R x) by ring. replace (0 * 0 + 1 * 0 + B2R y) with (B2R y) by ring.
  assert (Vw : 0 <= IZR vw) by (apply IZR_le; apply Hw). set (W := panel_width vw) in *.
  assert (Cs : W = 200 /\ IZR vw <= 500 \/ W = 4 / 10 * IZR vw /\ 500 <= IZR vw <= 1500 \/ W = 600 /\ 1500 <= IZR vw).
  { unfold W, panel_width, Rmax, Rmin. destruct (Rle_dec 600 (4 / 10 * IZR vw)), (Rle_dec 200 _); lra. }
  assert (Zx : 200 <= IZR vw \/ IZR vw <= 199) by (destruct (Z_le_gt_dec 200 vw); [left|right]; apply IZR_le; lia).
  assert (Zy : 7 / 10 * W <= IZR vh \/ IZR vh + / 100 <= 7 / 10 * W).
  { destruct Cs as [(-> & _)|[(-> & _)|(-> & _)]].
    - destruct (Z_le_gt_dec 140 vh) as [H|H]; [left; apply IZR_le in H; lra|right]. assert (H' : (vh <= 139)%Z) by lia. apply IZR_le in H'. lra.
    - destruct (Z_le_gt_dec (28 * vw) (100 * vh)) as [H|H]; [left; apply IZR_le in H|right; assert (H' : (100 * vh + 1 <= 28 * vw)%Z) by lia; apply IZR_le in H'].
      + rewrite !mult_IZR in H. lra.
      + rewrite plus_IZR, !mult_IZR in H'. lra.
    - destruct (Z_le_gt_dec 420 vh) as [H|H]; [left; apply IZR_le in H; lra|right]. assert (H' : (vh <= 419)%Z) by lia. apply IZR_le in H'. lra. }
  split.
  - intros [A B]. split; [apply le_IZR; lra|lra].
  - intros [A B]. apply IZR_le in A. lra.
Qed.

(** Frames of 16, 17 and 40 ms in a window of 1280 by 720: the scale is 40 ms. *)
Definition three_frames : list stats_op := [OpSample 16000; OpSample 17000; OpSample 40000].
Example C98_applies : plausible three_frames /\ exists s scale items, stats_run stats_new three_frames = Ok s /\ window_side 1280 /\ window_side 720 /\
  (exists z, In z (since_clear three_frames) /\ (0 < z)%Z) /\ display_max (snapshot_of s) = Ok scale /\ apart (B2R scale) /\
  draw_layer (snapshot_of s) (st_samples s) None true AaArea (f_of_Z 1280) (f_of_Z 720) = Ok items.
Proof.
  split. { intros m Hin. cbn in Hin. destruct Hin as [E|[E|[E|[]]]]; injection E as <-; lia. }
  eexists. exists (fmul (f_of_Z 40000) f_milli). eexists. split; [reflexivity|]. split; [unfold window_side; lia|]. split; [unfold window_side; lia|].
  split; [exists 17000%Z; split; [vm_compute; tauto|lia]|].
  assert (Ed : display_max (snapshot_of (mkStats 3 73000 16000 40000 [16000; 17000; 40000]%Z)) = Ok (fmul (f_of_Z 40000) f_milli)).
  { unfold display_max. replace (fltb _ _) with false by (vm_compute; reflexivity). reflexivity. }
  split; [exact Ed|]. split.
  - destruct (ms_rel 40000 ltac:(lia)) as (_ & _ & H). unfold ms, u52 in H. apply Rabs_le_inv in H. intros t [<-|[<-|[<-|[]]]]; rewrite Rabs_pos_eq; lra.
  - unfold draw_layer. cbv zeta. match goal with |- bind ?x _ = _ => replace x with (Ok (fmul (f_of_Z 40000) f_milli)) by (symmetry; exact Ed) end. reflexivity.
Qed.
(** A bar of this window reaches the line of 16.66 ms. *)
Example C98_reads_applies : 0 < 40 /\ IZR 1666 / 100 < 40 /\ IZR 1666 / 100 <= ms 17000 /\ ~ IZR 1666 / 100 <= ms 16000.
Proof. unfold ms. repeat split; lra. Qed.
