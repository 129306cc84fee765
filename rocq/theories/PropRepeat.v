(** C94: where the copies of a repeater are painted, and how opaque, in real
    numbers; C17 without any condition on merged paths. *)
From Coq Require Import ZArith Bool List Lia Arith Reals Lra.
From Flocq Require Import Core BinarySingleNaN.
From Verif Require Import F64 F64Facts Kurbo Value Animated Batch Render BatchSpec BatchFacts BatchRefine BatchFacts2 GeometrySpec PropGeometry PropStar PropCamera Examples.
Import ListNotations.
Close Scope string_scope.
Open Scope nat_scope.
Open Scope list_scope.

(** ** C17: any shapes in front of the repeater *)
Definition pic_of (b : batch) : pic :=
  let os := map (geo_of (b_elements b)) (b_geoms b) in
  mkPic os (map (fun d => (style_dd d, firstn (dd_end d - dd_start d) (skipn (dd_start d) os))) (b_draws b)) false true.
Lemma pic_of_paints E b : binv 0 0 b -> batch_render E b = Ok (pic_paints E (pic_of b)).
Proof.
  intros I. rewrite (batch_render_eq E 0 0 b I). f_equal. unfold pic_paints, pic_of. cbn [pc_draws]. f_equal. rewrite !map_rev, map_map. f_equal.
  apply map_ext. intros d. unfold draw_paints, paints_of. cbn [fst snd]. rewrite skipn_map, firstn_map, map_map. apply map_ext. intros g.
  unfold style_brush, draw_brush, style_dd. cbn [sy_stroke sy_brush sy_alpha geo_of fst snd]. destruct (feqb (dd_alpha d) _); reflexivity.
Qed.
Lemma pic_of_repeat E b r b' : binv 0 0 b -> batch_repeat E b r 0 0 = Ok b' -> pic_of b' = repeat_pic E r (pic_of b).
Proof.
  intros I H. rewrite (batch_repeat_eq E 0 0 b r I) in H. injection H as <-. unfold pic_of, repeat_pic. cbn [b_elements b_geoms b_draws firstn skipn app pc_outlines pc_draws].
  rewrite flat_map_repeat_geom. set (os := map (geo_of (b_elements b)) (b_geoms b)). f_equal. unfold repeated_draws.
  assert (B : Forall (fun d => dd_start d <= dd_end d) (b_draws b)) by (eapply Forall_impl; [|apply (bi_draws _ _ _ I)]; cbn; intros; lia).
  clearbody os. clear I. generalize (seq 0 (rp_copies r)) as l. induction l as [|i l IH]; [reflexivity|]. cbn [flat_map]. rewrite map_app, IH. apply f_equal2; [|reflexivity].
  change (copy_alpha r i) with (repeat_alpha r i). destruct (fleb _ _); [reflexivity|]. clear IH. induction B as [|d ds Hd B IH]; [reflexivity|]. cbn [map]. rewrite IH. f_equal.
  unfold style_dd, repeated_draw. cbn [dd_stroke dd_brush dd_alpha dd_start dd_end fst snd sy_stroke sy_brush sy_alpha]. f_equal.
  rewrite <- flat_map_firstn with (n := rp_copies r) by apply copies_length. rewrite <- flat_map_skipn with (n := rp_copies r) by apply copies_length.
  rewrite Nat.sub_0_r. cbn [Nat.add]. rewrite Nat.sub_0_r, <- Nat.mul_sub_distr_r. reflexivity.
Qed.
Theorem C17_copies : forall E tf alpha frame shs r, Forall (all_geometry (sound_geometry E)) shs ->
  exists p, layer_paints E tf alpha frame shs = Ok (pic_paints E p) /\
    (no_clash E frame tf shs -> exists p0, shapes_pic E tf alpha frame shs = Ok p0 /\ pc_outlines p = pc_outlines p0 /\ pc_draws p = pc_draws p0) /\
    layer_paints E tf alpha frame (shs ++ [ShRepeater r]) = Ok (pic_paints E (repeat_pic E (repeater_eval E r frame) p)).
Proof.
  intros E tf alpha frame shs r Hs. destruct (render_shapes_inv E shs tf alpha frame Hs) as (b & H1 & I1). exists (pic_of b).
  assert (P : layer_paints E tf alpha frame shs = Ok (pic_paints E (pic_of b))).
  { unfold layer_paints. rewrite H1. cbn [bind]. now apply pic_of_paints. }
  split; [exact P|]. split.
  - intros N. unfold no_clash in N. destruct (advance_all None (flat_map (tokens E frame tf) shs)) as [s'|] eqn:A; [|congruence].
    assert (HF : Forall (refines E) shs) by (eapply Forall_impl; [|exact Hs]; apply refine_shape).
    destruct (refine_list E shs HF tf alpha frame 0 0 None batch_empty pic_empty None s' rel_empty A) as (b1 & p & H1' & H2 & R & _).
    unfold render_shapes in H1. cbn [b_geoms b_draws batch_empty List.length] in H1. rewrite H1 in H1'. injection H1' as <-.
    exists p. split; [exact H2|]. destruct R as [_ _ Os Ds _ _]. cbn [skipn] in Os, Ds. unfold pic_of. cbn [pc_outlines pc_draws]. rewrite Os. split; [reflexivity|].
    clear - Ds. induction Ds as [|d sd l l' [Q1 Q2] _ IH]; [reflexivity|]. cbn [map]. rewrite IH. apply f_equal2; [|reflexivity]. rewrite Nat.sub_0_r in Q2. transitivity (fst sd, snd sd); [|now destruct sd]. apply f_equal2; [exact Q1|symmetry; exact Q2].
  - unfold layer_paints, render_shapes in *. cbn [b_geoms b_draws batch_empty List.length] in *. rewrite fold_shapes_app, H1. cbn [bind fold_shapes render_shape].
    set (q := repeater_eval E r frame). pose proof (batch_repeat_eq E 0 0 b q I1) as Hq. set (b' := mkBatch _ _ _ _ _ _ _) in Hq.
    destruct (batch_repeat_inv E 0 0 b q _ I1 Hq) as [I2 _]. rewrite Hq. cbn [bind]. rewrite (pic_of_paints E b' I2). do 2 f_equal. now apply pic_of_repeat.
Qed.

Open Scope R_scope.
(** ** C94: specification *)
(** Copy [i] is [t = offset + i] steps away: stretched by the [t]-th power of
    the scale (in percent) and turned by [t] times the rotation, about the
    anchor, and moved by [t] times the position. *)
Definition steps_away (r : repeater) (i : nat) : R := B2R (rp_offset r) + INR i.
Definition copy_at (r : repeater) (i : nat) (v : vec) : vec :=
  let t := steps_away r i in let a := real_point (rp_anchor r) in let d := real_point (rp_position r) in let s := real_vec2 (rp_scale r) in
  vplus (vplus a (t * fst d, t * snd d))
    (turn (t * B2R (rp_rotation r)) (Rpower (fst s / 100) t * (fst v - fst a), Rpower (snd s / 100) t * (snd v - snd a))).
(** Opacity of copy [i], 0 to 1: from the start towards the end opacity in steps of 1/n of the difference. *)
Definition shade (r : repeater) (i : nat) : R :=
  let a := B2R (rp_start_opacity r) / 100 in let b := B2R (rp_end_opacity r) / 100 in a + (b - a) / INR (rp_copies r) * INR i.
(** Ordinary numbers. *)
Definition finite_repeater (r : repeater) : Prop :=
  fin (rp_offset r) /\ (fin (px (rp_anchor r)) /\ fin (py (rp_anchor r))) /\ (fin (px (rp_position r)) /\ fin (py (rp_position r))) /\
  fin (rp_rotation r) /\ (fin (vx (rp_scale r)) /\ fin (vy (rp_scale r))).
Record plain_copy (r : repeater) (i : nat) : Prop := {
  cp_steps : Rabs (B2R (rp_offset r)) + INR i <= 100;
  cp_anchor : bounded_by 1024 (real_point (rp_anchor r));
  cp_position : bounded_by 8192 (real_point (rp_position r));
  cp_moved : bounded_by 8192 (steps_away r i * B2R (px (rp_position r)), steps_away r i * B2R (py (rp_position r)));
  cp_rotation : Rabs (B2R (rp_rotation r)) <= 3600 /\ Rabs (steps_away r i * B2R (rp_rotation r)) <= 16000;
  cp_scale : 25 <= B2R (vx (rp_scale r)) <= 400 /\ 25 <= B2R (vy (rp_scale r)) <= 400;
  cp_power : Rpower (B2R (vx (rp_scale r)) / 100) (steps_away r i) <= 4 /\ Rpower (B2R (vy (rp_scale r)) / 100) (steps_away r i) <= 4 }.
(** A placement of ordinary size. *)
Definition ordinary_map (m : affine) : Prop := finite_map m /\
  (Rabs (B2R (aa m)) <= 64 /\ Rabs (B2R (ab m)) <= 64 /\ Rabs (B2R (ac m)) <= 64 /\ Rabs (B2R (ad m)) <= 64) /\
  Rabs (B2R (ae m)) <= 65536 /\ Rabs (B2R (af m)) <= 65536.
(** Powers to 10^-12. *)
Definition raises (E : Ext) : Prop := forall b t, fin b -> fin t -> / 5 <= B2R b <= 5 -> Rabs (B2R t) <= 101 -> Rpower (B2R b) (B2R t) <= 5 ->
  approx (x_powf E b t) (Rpower (B2R b) (B2R t)) (/ 1000000000000).
(** [p'] shows the path of [p] where copy [i] belongs, to a thousandth of a pixel. *)
Definition is_copy (r : repeater) (i : nat) (p p' : paint) : Prop :=
  pt_path p' = pt_path p /\ pt_stroke p' = pt_stroke p /\ finite_map (pt_transform p') /\
  forall v, bounded_by 8192 v -> within (1 / 1000) (moved (pt_transform p') v) (moved (pt_transform p) (copy_at r i v)).

(** ** Errors *)
Lemma exp_close x y e : exp y <= 4 -> Rabs (x - y) <= e -> e <= / 1000 -> Rabs (exp x - exp y) <= 5 * e.
Proof.
  intros H D B. replace (exp x - exp y) with (exp y * (exp (x - y) - 1)).
  2:{ rewrite Rmult_minus_distr_l, <- exp_plus. replace (y + (x - y)) with x by ring. ring. }
  pose proof (exp_pos y) as P. rewrite Rabs_mult, (Rabs_pos_eq (exp y)) by lra.
  assert (K : Rabs (exp (x - y) - 1) <= 5 / 4 * e).
  { set (z := x - y) in *. apply Rabs_le_inv in D. pose proof (exp_ineq1_le z) as L1. pose proof (exp_ineq1_le (- z)) as L2. rewrite exp_Ropp in L2.
    pose proof (exp_pos z) as Pz. assert (U : exp z * (1 - z) <= 1).
    { apply Rmult_le_reg_l with (/ exp z); [now apply Rinv_0_lt_compat|]. rewrite <- Rmult_assoc, Rinv_l by lra. lra. }
    apply Rabs_le. split; [lra|]. nra. }
  assert (0 <= e) by (pose proof (Rabs_pos (x - y)); lra).
  apply Rle_trans with (4 * (5 / 4 * e)); [|lra]. apply Rmult_le_compat; auto using Rabs_pos; lra.
Qed.
Lemma ln_close a b e : / 5 <= a -> / 5 <= b -> Rabs (a - b) <= e -> Rabs (ln a - ln b) <= 5 * e.
Proof.
  intros Ha Hb D. assert (G : forall u v, / 5 <= u -> / 5 <= v -> u - v <= e -> ln u - ln v <= 5 * e).
  { intros u v Hu Hv K. assert (0 <= e) by (pose proof (Rabs_pos (a - b)); lra). replace (ln u - ln v) with (ln (u / v)) by (unfold Rdiv; rewrite ln_mult, ln_Rinv by (try apply Rinv_0_lt_compat; lra); ring).
    assert (Q : 0 < u / v) by (apply Rdiv_lt_0_compat; lra).
    pose proof (exp_ineq1_le (ln (u / v))) as L. rewrite exp_ln in L by exact Q.
    assert (u / v - 1 <= 5 * e); [|lra]. replace (u / v - 1) with ((u - v) * / v) by (field; lra).
    destruct (Rle_lt_dec (u - v) 0) as [N|N].
    - assert (0 < / v) by (apply Rinv_0_lt_compat; lra). nra.
    - assert (/ v <= 5) by (replace 5 with (/ / 5) by lra; apply Rinv_le_contravar; lra). assert (0 < / v) by (apply Rinv_0_lt_compat; lra).
      apply Rle_trans with ((u - v) * 5); [apply Rmult_le_compat_l; lra|lra]. }
  apply Rabs_le_inv in D. apply Rabs_le. pose proof (G a b Ha Hb ltac:(lra)). pose proof (G b a Hb Ha ltac:(lra)). lra.
Qed.
Lemma ln_mono a b : 0 < a -> a <= b -> ln a <= ln b.
Proof. intros P [H| ->]; [left; now apply ln_increasing|apply Rle_refl]. Qed.
Lemma ln_bound a : / 5 <= a <= 5 -> Rabs (ln a) <= 2.
Proof.
  intros [H1 H2]. assert (X : 5 <= exp 2).
  { pose proof (exp_ineq1_le (/ 8)) as L. assert (X2 : 81 / 64 <= exp (/ 4)) by (replace (/ 4) with (/ 8 + / 8) by lra; rewrite exp_plus; nra).
    assert (X3 : 3 / 2 <= exp (/ 2)) by (replace (/ 2) with (/ 4 + / 4) by lra; rewrite exp_plus; nra).
    assert (X3' : 159 / 100 <= exp (/ 2)) by (replace (/ 2) with (/ 4 + / 4) by lra; rewrite exp_plus; nra).
    assert (X4 : 9 / 4 <= exp 1) by (replace 1 with (/ 2 + / 2) by lra; rewrite exp_plus; nra). replace 2 with (1 + 1) by lra. rewrite exp_plus. nra. }
  assert (U : ln 5 <= 2) by (rewrite <- (ln_exp 2); apply ln_mono; lra).
  assert (A1 : ln a <= ln 5) by (apply ln_mono; lra). assert (A2 : ln (/ 5) <= ln a) by (apply ln_mono; lra). rewrite ln_Rinv in A2 by lra. apply Rabs_le. lra.
Qed.
(** The power of a copy. *)
Lemma power_near E s t u : raises E -> fin s -> 25 <= B2R s <= 400 -> approx t u (/ 44000000000000) -> Rabs u <= 100 -> Rpower (B2R s / 100) u <= 4 ->
  approx (x_powf E (fdiv s f100) t) (Rpower (B2R s / 100) u) (7 / 1000000000000).
Proof.
  intros Rs Fs Bs [Ft At] Bu Bp.
  assert (F100 : B2R f100 = 100) by (destruct (f_of_Z_R 100 ltac:(lia)) as [Q _]; exact Q).
  destruct (fdiv_R s f100 Fs) as [Eq Fd]; [rewrite F100; lra|rewrite F100; apply Rle_trans with 4; [apply Rabs_le; lra|pose proof big_range; lra]|].
  rewrite F100 in Eq. pose proof (rnd_error (B2R s / 100)) as Er. rewrite <- Eq in Er. set (b' := B2R (fdiv s f100)) in *. set (b := B2R s / 100) in *.
  assert (Bb : 1 / 4 <= b <= 4) by (unfold b; lra). assert (Eb : Rabs (b' - b) <= / 500000000000000) by (apply Rle_trans with (1 := Er); rewrite Rabs_pos_eq by lra; unfold u52; lra).
  pose proof (Rabs_le_inv _ _ Eb) as Eb'. pose proof (Rabs_le_inv _ _ At) as At'. pose proof (Rabs_le_inv _ _ Bu) as Bu'.
  assert (Lc : Rabs (B2R t * ln b' - u * ln b) <= 12 / 10000000000000).
  { replace (B2R t * ln b' - u * ln b) with ((B2R t - u) * ln b' + u * (ln b' - ln b)) by ring.
    assert (X1 : Rabs ((B2R t - u) * ln b') <= / 44000000000000 * 2) by (rewrite Rabs_mult; apply Rmult_le_compat; auto using Rabs_pos; apply ln_bound; lra).
    assert (X2 : Rabs (u * (ln b' - ln b)) <= 100 * (5 * / 500000000000000)) by (rewrite Rabs_mult; apply Rmult_le_compat; auto using Rabs_pos; apply ln_close; lra).
    apply Rabs_le. apply Rabs_le_inv in X1, X2. lra. }
  assert (Pc : Rabs (Rpower b' (B2R t) - Rpower b u) <= 6 / 1000000000000).
  { unfold Rpower in *. apply Rle_trans with (1 := exp_close _ _ _ Bp Lc ltac:(lra)). lra. }
  destruct (Rs (fdiv s f100) t Fd Ft) as [Fp Ap].
  - fold b'. lra.
  - apply Rabs_le. lra.
  - fold b'. apply Rabs_le_inv in Pc. lra.
  - split; [exact Fp|]. fold b' in Ap. apply Rabs_le. apply Rabs_le_inv in Ap, Pc. lra.
Qed.
Lemma steps_near r i : fin (rp_offset r) -> Rabs (B2R (rp_offset r)) + INR i <= 100 ->
  approx (fadd (rp_offset r) (f_of_Z (Z.of_nat i))) (steps_away r i) (/ 44000000000000) /\ Rabs (steps_away r i) <= 100.
Proof.
  intros F B. pose proof (pos_INR i) as Pi. pose proof (Rabs_pos (B2R (rp_offset r))) as Po.
  assert (Zi : (Z.of_nat i <= 100)%Z) by (apply le_IZR; rewrite <- INR_IZR_INZ; lra). destruct (f_of_Z_R (Z.of_nat i) ltac:(lia)) as [Ri Fi].
  rewrite <- INR_IZR_INZ in Ri. unfold steps_away. split.
  - eapply (near_add _ _ _ _ 0 0 100); [apply near_exact; [exact F|reflexivity]|apply near_exact; [exact Fi|exact Ri]|rewrite (Rabs_pos_eq (INR i)) by lra; lra|lra|unfold u52; lra].
  - apply Rle_trans with (1 := Rabs_triang _ _). rewrite (Rabs_pos_eq (INR i)) by lra. lra.
Qed.
Lemma like_turn E z t : accurate E -> approx z t (35 / 10000000000000) -> Rabs t <= 900 -> like (affine_rotate E z) (rrot t) 1 (4 / 1000000000000) 0 0.
Proof.
  intros A N B. pose proof (near_bound _ _ _ _ N B) as Bz. destruct N as [F N].
  destruct (ac_sin E A z F ltac:(lra)) as [Fs Hs]. destruct (ac_cos E A z F ltac:(lra)) as [Fc Hc]. rewrite e45 in Hs, Hc.
  assert (S : approx (x_sin E z) (sin t) (4 / 1000000000000)) by (split; [exact Fs|]; apply Rle_trans with (1 := triangle _ _ _ _ _ Hs (Rle_trans _ _ _ (sin_lipschitz _ _) N)); lra).
  assert (C : approx (x_cos E z) (cos t) (4 / 1000000000000)) by (split; [exact Fc|]; apply Rle_trans with (1 := triangle _ _ _ _ _ Hc (Rle_trans _ _ _ (cos_lipschitz _ _) N)); lra).
  pose proof (Rabs_le _ _ (SIN_bound t)). pose proof (Rabs_le _ _ (COS_bound t)).
  constructor; cbn [affine_rotate aa ab ac ad ae af rrot ra rb rc rd re rf]; auto using near_neg; try (apply n0; lra); try (apply a0; lra). now rewrite Rabs_Ropp.
Qed.
Lemma like_stretch x y k l e : approx x k e -> approx y l e -> Rabs k <= 4 -> Rabs l <= 4 -> 0 <= e -> like (affine_scale x y) (mkRmat k 0 0 l 0 0) 4 e 0 0.
Proof.
  intros Hx Hy Hk Hl He. constructor; cbn [affine_scale aa ab ac ad ae af ra rb rc rd re rf]; auto; try (apply n0; lra); try (apply a0; lra).
Qed.
Lemma like_map m : ordinary_map m -> like m (rself m) 64 0 65536 0.
Proof. intros ((F1 & F2 & F3 & F4 & F5 & F6) & (B1 & B2 & B3 & B4) & B5 & B6). constructor; cbn [rself ra rb rc rd re rf]; auto using near_exact. Qed.
Lemma copy_near E r i m : accurate E -> raises E -> finite_repeater r -> plain_copy r i -> ordinary_map m ->
  finite_map (affine_mul m (copy_transform E r i)) /\
  forall v, bounded_by 8192 v -> within (1 / 1000) (moved (affine_mul m (copy_transform E r i)) v) (moved m (copy_at r i v)).
Proof.
  intros A Rs (Fo & (Fax & Fay) & (Fpx & Fpy) & Fr & Fsx & Fsy) [Cs [Ba1 Ba2] [Bp1 Bp2] [Bm1 Bm2] [Br1 Br2] [Bsx Bsy] [Bwx Bwy]] Om.
  destruct (steps_near r i Fo Cs) as [At Bt]. unfold copy_transform. set (t := fadd (rp_offset r) _) in *. set (u := steps_away r i) in *. cbv zeta. cbn [compose].
  cbn [real_point fst snd] in *.
  pose proof (power_near E _ t u Rs Fsx Bsx At Bt Bwx) as Px. pose proof (power_near E _ t u Rs Fsy Bsy At Bt Bwy) as Py.
  assert (Hm : forall p a : f64, fin p -> fin a -> Rabs (B2R p) <= 8192 -> Rabs (B2R a) <= 1024 -> Rabs (u * B2R p) <= 8192 -> approx (fadd (fmul t p) a) (u * B2R p + B2R a) (/ 1000000000)).
  { intros p a Fp Fa Bp Ba Bu. assert (M : approx (fmul t p) (u * B2R p) (/ 1500000000)).
    { eapply (near_mul _ _ _ _ (/ 44000000000000) 0 100 8192); [exact At|apply near_exact; [exact Fp|reflexivity]|exact Bt|exact Bp|lra|lra|unfold u52; lra]. }
    eapply (near_add _ _ _ _ (/ 1500000000) 0 9216); [exact M|apply near_exact; [exact Fa|reflexivity]|lra|lra|unfold u52; lra]. }
  pose proof (Hm _ _ Fpx Fax Bp1 Ba1 Bm1) as Mx. pose proof (Hm _ _ Fpy Fay Bp2 Ba2 Bm2) as My.
  assert (Nr : approx (to_radians (fmul t (rp_rotation r))) (rad (u * B2R (rp_rotation r))) (35 / 10000000000000)).
  { assert (M : approx (fmul t (rp_rotation r)) (u * B2R (rp_rotation r)) (181 / 1000000000000)).
    { eapply (near_mul _ _ _ _ (/ 44000000000000) 0 100 3600); [exact At|apply near_exact; [exact Fr|reflexivity]|exact Bt|exact Br1|lra|lra|unfold u52; lra]. }
    pose proof (near_bound _ _ _ _ M Br2) as Bz. destruct M as [Fz Mz]. destruct (radians_near _ Fz ltac:(lra)) as [Fq Aq]. split; [exact Fq|].
    assert (D : Rabs (rad (B2R (fmul t (rp_rotation r))) - rad (u * B2R (rp_rotation r))) <= 181 / 1000000000000 * (18 / 1000)).
    { unfold rad. replace (B2R (fmul t (rp_rotation r)) * PI / 180 - u * B2R (rp_rotation r) * PI / 180) with ((B2R (fmul t (rp_rotation r)) - u * B2R (rp_rotation r)) * (PI / 180)) by field.
      rewrite Rabs_mult. apply Rmult_le_compat; auto using Rabs_pos. pose proof pi_bounds. apply Rabs_le. lra. }
    apply Rle_trans with (1 := triangle _ _ _ _ _ Aq D). lra. }
  assert (Lt := like_shift _ _ _ _ _ Mx My ltac:(apply Rabs_le; apply Rabs_le_inv in Bm1, Ba1; lra) ltac:(apply Rabs_le; apply Rabs_le_inv in Bm2, Ba2; lra)).
  assert (Lr := like_turn E _ _ A Nr (rad_bound _ (Rle_trans _ 16000 16384 Br2 ltac:(lra)))).

  assert (Ls : like (affine_scale (x_powf E (fdiv (vx (rp_scale r)) f100) t) (x_powf E (fdiv (vy (rp_scale r)) f100) t))
     (mkRmat (Rpower (B2R (vx (rp_scale r)) / 100) u) 0 0 (Rpower (B2R (vy (rp_scale r)) / 100) u) 0 0) 4 (7 / 1000000000000) 0 0).
  { apply like_stretch; auto; try lra; rewrite Rabs_pos_eq; auto; unfold Rpower; left; apply exp_pos. }
  assert (La : like (affine_translate (fneg (px (rp_anchor r))) (fneg (py (rp_anchor r)))) (rtrans (- B2R (px (rp_anchor r)), - B2R (py (rp_anchor r)))) 1 0 1024 0).
  { constructor; cbn [affine_translate aa ab ac ad ae af rtrans ra rb rc rd re rf fst snd]; try (apply n0; lra); try (apply n1; lra); try (apply a0; lra); try (apply a1; lra);
      try (now apply near_neg, near_exact); now rewrite Rabs_Ropp. }
  pose proof (like_map m Om) as Lm.
  multiply M1 Lt Lr (9 / 1000000000000) (/ 900000000).
  multiply M2 M1 Ls (/ 9000000000) (/ 800000000).
  multiply M3 M2 La (/ 4400000000) (/ 4000000).
  multiply M4 Lm M3 (/ 30000000) (/ 20000).
  destruct M4 as [[FA A'] [FB B'] [FC C'] [FD D'] [FX X'] [FY Y'] _ _ _ _ _ _]. split; [repeat split; assumption|].
  intros v [Bv1 Bv2]. set (w := moved m (copy_at r i v)). set (mm := affine_mul m _) in *.
  assert (Ew : w = rapply (rmul (rself m) (rmul (rmul (rmul (rtrans (u * B2R (px (rp_position r)) + B2R (px (rp_anchor r)), u * B2R (py (rp_position r)) + B2R (py (rp_anchor r)))) (rrot (rad (u * B2R (rp_rotation r)))))
      (mkRmat (Rpower (B2R (vx (rp_scale r)) / 100) u) 0 0 (Rpower (B2R (vy (rp_scale r)) / 100) u) 0 0)) (rtrans (- B2R (px (rp_anchor r)), - B2R (py (rp_anchor r)))))) v).
  { rewrite !rapply_mul, rself_moved. unfold w. f_equal. unfold copy_at, rapply, rtrans, rrot, vplus, turn, real_point, real_vec2. fold u. cbv zeta. cbn [ra rb rc rd re rf fst snd]. fold (rad (u * B2R (rp_rotation r))). f_equal; ring. }
  rewrite Ew. set (rr := rmul (rself m) _) in *. clear Ew. clearbody rr mm. unfold within, moved, rapply. cbn [fst snd].
  assert (G : forall a a' c c' d d', Rabs (a - a') <= / 30000000 -> Rabs (c - c') <= / 30000000 -> Rabs (d - d') <= / 20000 ->
    Rabs (a * fst v + c * snd v + d - (a' * fst v + c' * snd v + d')) <= 1 / 1000).
  { intros a a' c0 c' d d' H1 H2 H3.
    replace (a * fst v + c0 * snd v + d - (a' * fst v + c' * snd v + d')) with ((a - a') * fst v + (c0 - c') * snd v + (d - d')) by ring.
    assert (X1 : Rabs ((a - a') * fst v) <= / 30000000 * 8192) by (rewrite Rabs_mult; apply Rmult_le_compat; auto using Rabs_pos; lra).
    assert (X2 : Rabs ((c0 - c') * snd v) <= / 30000000 * 8192) by (rewrite Rabs_mult; apply Rmult_le_compat; auto using Rabs_pos; lra).
    apply Rabs_le. apply Rabs_le_inv in X1, X2, H3. lra. }
  split; apply G; assumption.
Qed.
(** ** Theorems *)
Lemma in_paints E q p : In p (pic_paints E q) <-> exists s os o, In (s, os) (pc_draws q) /\ In o os /\ p = mkPaint (sy_stroke s) (snd o) (style_brush E s) (fst o).
Proof.
  unfold pic_paints. rewrite in_concat. split.
  - intros (l & Hl & Hp). apply in_map_iff in Hl as ([s os] & <- & Hd). apply in_rev in Hd. unfold paints_of in Hp. cbn [fst snd] in Hp. apply in_map_iff in Hp as (o & <- & Ho). exists s, os, o. auto.
  - intros (s & os & o & Hd & Ho & ->). exists (paints_of E (s, os)). split; [apply in_map, in_rev; now rewrite rev_involutive|]. unfold paints_of. cbn [fst snd].
    apply in_map_iff. exists o. auto.
Qed.
Lemma in_copies E r o o' : In o' (copies E r o) <-> exists i, (i < rp_copies r)%nat /\ o' = (fst o, affine_mul (snd o) (copy_transform E r i)).
Proof.
  unfold copies. rewrite in_map_iff. split.
  - intros (i & <- & Hi). apply in_seq in Hi. exists i. split; [lia|reflexivity].
  - intros (i & Hi & ->). exists i. split; [reflexivity|]. apply in_seq. lia.
Qed.
(** Every path painted in front of the repeater is painted again where each copy
    belongs, and nothing else is painted. *)
Theorem C94_placed : forall E tf alpha frame shs r ps ps', accurate E -> raises E -> Forall (all_geometry (sound_geometry E)) shs ->
  let q := repeater_eval E r frame in
  layer_paints E tf alpha frame shs = Ok ps -> layer_paints E tf alpha frame (shs ++ [ShRepeater r]) = Ok ps' ->
  finite_repeater q -> (forall i, (i < rp_copies q)%nat -> plain_copy q i) -> Forall (fun p => ordinary_map (pt_transform p)) ps ->
  (forall p', In p' ps' -> exists p i, In p ps /\ (i < rp_copies q)%nat /\ is_copy q i p p') /\
  ((exists j, (j < rp_copies q)%nat /\ fleb (copy_alpha q j) f0 = false) ->
   forall p i, In p ps -> (i < rp_copies q)%nat -> exists p', In p' ps' /\ is_copy q i p p').
Proof.
  intros E tf alpha frame shs r ps ps' A Rs Hs q L L' Fq Pq Om. destruct (C17_copies E tf alpha frame shs r Hs) as (p0 & L0 & _ & L1). fold q in L1.
  rewrite L0 in L. rewrite L1 in L'. assert (ps = pic_paints E p0) as -> by congruence. assert (ps' = pic_paints E (repeat_pic E q p0)) as -> by congruence. clear L L' L0 L1.
  rewrite Forall_forall in Om.
  assert (C : forall s os o i b, In (s, os) (pc_draws p0) -> In o os -> (i < rp_copies q)%nat ->
    is_copy q i (mkPaint (sy_stroke s) (snd o) (style_brush E s) (fst o)) (mkPaint (sy_stroke s) (affine_mul (snd o) (copy_transform E q i)) b (fst o))).
  { intros s os o i b Hd Ho Hi. unfold is_copy. cbn [pt_path pt_stroke pt_transform]. split; [reflexivity|]. split; [reflexivity|].
    apply copy_near; auto. apply (Om (mkPaint (sy_stroke s) (snd o) (style_brush E s) (fst o))). apply in_paints. exists s, os, o. auto. }
  split.
  - intros p' Hp. apply in_paints in Hp as (s & os & o & Hd & Ho & ->). cbn [repeat_pic pc_draws] in Hd. apply in_flat_map in Hd as (j & Hj & Hd).
    destruct (fleb _ _); [destruct Hd|]. apply in_map_iff in Hd as ([s0 os0] & Eq & Hd). assert (E1 := f_equal fst Eq). assert (E2 := f_equal snd Eq). cbn [fst snd] in E1, E2. subst s os. clear Eq.
    apply in_flat_map in Ho as (o0 & Ho & Hc). apply in_copies in Hc as (i & Hi & ->). cbn [fst snd sy_stroke].
    exists (mkPaint (sy_stroke s0) (snd o0) (style_brush E s0) (fst o0)), i. split; [apply in_paints; exists s0, os0, o0; auto|]. split; [exact Hi|]. eapply C; eauto.
  - intros (j & Hj & Aj) p i Hp Hi. apply in_paints in Hp as (s & os & o & Hd & Ho & ->). eexists. split; [|eapply (C s os o i); eauto].
    apply in_paints. exists (mkStyle (sy_stroke s) (sy_brush s) (fmul (sy_alpha s) (copy_alpha q j))), (flat_map (copies E q) os), (fst o, affine_mul (snd o) (copy_transform E q i)).
    split; [|split; [apply in_flat_map; exists o; split; [exact Ho|apply in_copies; eauto]|reflexivity]].
    cbn [repeat_pic pc_draws]. apply in_flat_map. exists j. split; [apply in_seq; lia|]. rewrite Aj. apply in_map_iff. exists (s, os). auto.
Qed.
(** The opacities: a fill or stroke is painted once for every copy that is not
    transparent, with its own opacity times that of the copy. *)
Definition only_geometry (sh : shape) : Prop := match sh with ShGeometry _ => True | _ => False end.
Definition percent (x : f64) : Prop := fin x /\ 0 <= B2R x <= 100.
Lemma shade_near r i : percent (rp_start_opacity r) -> percent (rp_end_opacity r) -> (i < rp_copies r)%nat -> (rp_copies r <= 1000)%nat ->
  approx (copy_alpha r i) (shade r i) (/ 100000000000).
Proof.
  intros [Fa Ba] [Fb Bb] Hi Hn. unfold copy_alpha, shade. cbv zeta. destruct (f_of_Z_R 100 ltac:(lia)) as [R100 F100].
  assert (Q : forall x, fin x -> 0 <= B2R x <= 100 -> approx (fdiv x f100) (B2R x / 100) (/ 2000000000000000)).
  { intros x F B. destruct (fdiv_R x f100 F) as [Eq Fd]; [change f100 with (f_of_Z 100); rewrite R100; lra|change f100 with (f_of_Z 100); rewrite R100; apply Rle_trans with 1; [apply Rabs_le; lra|pose proof big_range; lra]|].
    change f100 with (f_of_Z 100) in *. rewrite R100 in Eq. split; [exact Fd|]. rewrite Eq. apply Rle_trans with (1 := rnd_error _). rewrite Rabs_pos_eq by lra. unfold u52. lra. }
  pose proof (Q _ Fa Ba) as Qa. pose proof (Q _ Fb Bb) as Qb. set (a := B2R (rp_start_opacity r) / 100) in *. set (b := B2R (rp_end_opacity r) / 100) in *.
  assert (Ua : 0 <= a <= 1) by (unfold a; lra). assert (Ub : 0 <= b <= 1) by (unfold b; lra).
  destruct (f_of_Z_R (Z.of_nat i) ltac:(lia)) as [Ri Fi]. destruct (f_of_Z_R (Z.of_nat (rp_copies r)) ltac:(lia)) as [Rn Fn]. rewrite <- INR_IZR_INZ in Ri, Rn.
  assert (Pi : 0 <= INR i) by apply pos_INR. assert (Ln : INR i + 1 <= INR (rp_copies r)) by (rewrite <- S_INR; apply le_INR; lia).
  assert (Hn' : INR (rp_copies r) <= 1000) by (replace 1000 with (INR 1000) by (rewrite INR_IZR_INZ; reflexivity); now apply le_INR).
  set (n := INR (rp_copies r)) in *.
  assert (Dab : Rabs (b - a) <= 1) by (apply Rabs_le; lra).
  assert (In1 : / n <= 1) by (rewrite <- Rinv_1; apply Rinv_le_contravar; lra). assert (In0 : 0 < / n) by (apply Rinv_0_lt_compat; lra).
  assert (St : approx (if (1 <? rp_copies r)%nat then fdiv (fsub (fdiv (rp_end_opacity r) f100) (fdiv (rp_start_opacity r) f100)) (f_of_Z (Z.of_nat (rp_copies r))) else f0)
     (if (1 <? rp_copies r)%nat then (b - a) / n else 0) (/ 200000000000000)).
  { destruct (1 <? rp_copies r)%nat; [|apply n0; lra].
    assert (S : approx (fsub (fdiv (rp_end_opacity r) f100) (fdiv (rp_start_opacity r) f100)) (b - a) (/ 500000000000000)).
    { eapply (approx_sub _ _ _ _ (/ 2000000000000000) (/ 2000000000000000) 2); [exact Qb|exact Qa|rewrite !Rabs_pos_eq by lra; lra|lra|unfold u52; lra]. }
    pose proof (near_bound _ _ _ _ S Dab) as Bs. destruct S as [Fs As]. set (x := fsub _ _) in *.
    assert (Bq : Rabs (B2R x / n) <= 2). { unfold Rdiv. rewrite Rabs_mult, (Rabs_pos_eq (/ n)) by lra. replace 2 with (2 * 1) by lra. apply Rmult_le_compat; auto using Rabs_pos; lra. }
    destruct (fdiv_R x (f_of_Z (Z.of_nat (rp_copies r))) Fs) as [Eq Fd]; [rewrite Rn; lra|rewrite Rn; pose proof big_range; lra|]. rewrite Rn in Eq. split; [exact Fd|]. rewrite Eq.
    assert (D : Rabs (B2R x / n - (b - a) / n) <= / 500000000000000).
    { replace (B2R x / n - (b - a) / n) with ((B2R x - (b - a)) * / n) by (unfold Rdiv; ring). rewrite Rabs_mult, (Rabs_pos_eq (/ n)) by lra.
      replace (/ 500000000000000) with (/ 500000000000000 * 1) by lra. apply Rmult_le_compat; auto using Rabs_pos; lra. }
    apply Rle_trans with (1 := triangle _ _ _ _ _ (rnd_error _) D). assert (u52 * (Rabs (B2R x / n) + 1) <= u52 * 3) by (apply Rmult_le_compat_l; [unfold u52; lra|lra]). unfold u52 in *. lra. }
  assert (Es : (if (1 <? rp_copies r)%nat then (b - a) / n else 0) * INR i = (b - a) / n * INR i).
  { destruct (Nat.ltb_spec 1 (rp_copies r)) as [H|H]; [reflexivity|]. assert (i = 0)%nat as -> by lia. cbn [INR]. ring. }
  rewrite <- Es. set (st := if (1 <? rp_copies r)%nat then (b - a) / n else 0) in *.
  assert (Bst : Rabs st <= 1).
  { unfold st. destruct (1 <? rp_copies r)%nat; [|rewrite Rabs_R0; lra]. unfold Rdiv. rewrite Rabs_mult, (Rabs_pos_eq (/ n)) by lra. replace 1 with (1 * 1) by lra. apply Rmult_le_compat; auto using Rabs_pos; lra. }
  assert (M : approx (fmul (if (1 <? rp_copies r)%nat then fdiv (fsub (fdiv (rp_end_opacity r) f100) (fdiv (rp_start_opacity r) f100)) (f_of_Z (Z.of_nat (rp_copies r))) else f0) (f_of_Z (Z.of_nat i))) (st * INR i) (6 / 1000000000000)).
  { eapply (near_mul _ _ _ _ (/ 200000000000000) 0 1 1000); [exact St|apply near_exact; [exact Fi|exact Ri]|exact Bst|rewrite Rabs_pos_eq by lra; lra|lra|lra|unfold u52; lra]. }
  assert (Bm : Rabs (st * INR i) <= 1000). { rewrite Rabs_mult, (Rabs_pos_eq (INR i)) by lra. replace 1000 with (1 * 1000) by lra. apply Rmult_le_compat; auto using Rabs_pos; lra. }
  eapply (near_add _ _ _ _ (/ 2000000000000000) (6 / 1000000000000) 1001); [exact Qa|exact M|rewrite (Rabs_pos_eq a) by lra; lra|lra|unfold u52; lra].
Qed.
Lemma advance_geometry E frame tf gs s : Forall only_geometry gs -> (s = None \/ exists a, s = Some (a, 0%nat, false)) ->
  exists s', advance_all s (flat_map (tokens E frame tf) gs) = Some s'.
Proof.
  intros H. revert s. induction H as [|g gs G H IH]; intros s Hs; [eexists; reflexivity|]. destruct g; try contradiction. cbn [flat_map tokens app advance_all].
  destruct Hs as [->|(a & ->)]; cbn [advance]; [apply IH; eauto|]. destruct (affine_eqb a tf); cbn [Nat.ltb Nat.leb orb]; apply IH; eauto.
Qed.
Lemma geometry_pic E tf alpha frame gs : Forall only_geometry gs -> forall p q, fold_shapes (shape_pic E tf alpha frame) gs p = Ok q -> pc_draws q = pc_draws p.
Proof.
  induction 1 as [|g gs G H IH]; intros p q F; cbn [fold_shapes] in F; [now inversion F|]. destruct g; try contradiction. cbn [shape_pic] in F.
  destruct (geometry_eval E g frame); cbn [bind] in F; try discriminate. apply IH in F. exact F.
Qed.
(** What was painted where, regardless of the brush. *)
Definition mark_placed (p : paint) : option stroke * affine * list path_el := (pt_stroke p, pt_transform p, pt_path p).
Theorem C94_shaded : forall E tf alpha frame gs d r ps', Forall only_geometry gs -> Forall (all_geometry (sound_geometry E)) gs ->
  let q := repeater_eval E r frame in
  layer_paints E tf alpha frame (gs ++ [ShDraw d; ShRepeater r]) = Ok ps' ->
  (rp_copies q <= 1000)%nat -> percent (rp_start_opacity q) -> percent (rp_end_opacity q) -> fin alpha -> 0 <= B2R alpha <= 1 -> percent (eval E (dr_opacity d) frame) ->
  exists (calls : nat -> list paint) placed, ps' = List.concat (rev (map calls (seq 0 (rp_copies q)))) /\
    forall j, (j < rp_copies q)%nat ->
      (map mark_placed (calls j) = placed \/ calls j = [] /\ shade q j <= / 100000000000) /\
      exists a, approx a (B2R alpha * (B2R (eval E (dr_opacity d) frame) / 100) * shade q j) (/ 10000000000) /\
        Forall (fun p => pt_brush p = let b := brush_eval E (dr_brush d) f1 frame in if feqb a f1 then b else x_brush_mul_alpha E b (f64_to_f32 a)) (calls j).
Proof.
  intros E tf alpha frame gs d r ps' Og Hs q L Hn Ps Pe Fa Ba Po.
  change [ShDraw d; ShRepeater r] with ([ShDraw d] ++ [ShRepeater r]) in L. rewrite app_assoc in L.
  assert (Hs' : Forall (all_geometry (sound_geometry E)) (gs ++ [ShDraw d])) by (apply Forall_app; split; [exact Hs|repeat constructor]).
  destruct (C17_copies E tf alpha frame (gs ++ [ShDraw d]) r Hs') as (p & _ & N & L1). fold q in L1. rewrite L1 in L. assert (ps' = pic_paints E (repeat_pic E q p)) as -> by congruence. clear L L1.
  destruct N as (p0 & S0 & Oq & Dq).
  { unfold no_clash. rewrite flat_map_app. destruct (advance_geometry E frame tf gs None) as (s' & A); auto.
    cut (forall s t, advance_all s (flat_map (tokens E frame tf) gs) = Some t -> advance_all s (flat_map (tokens E frame tf) gs ++ [TUse]) <> None). { intros X. exact (X _ _ A). }
    generalize (flat_map (tokens E frame tf) gs) as l. induction l as [|t l IH]; intros s s'' Al; cbn [app advance_all] in *; [destruct s; discriminate|].
    destruct (advance s t); [|discriminate]. eapply IH; eauto. }
  unfold shapes_pic in S0. rewrite fold_shapes_app in S0. destruct (fold_shapes (shape_pic E tf alpha frame) gs pic_empty) as [p1| |] eqn:F1; cbn [bind] in S0; try discriminate.
  pose proof (geometry_pic E tf alpha frame gs Og pic_empty p1 F1) as D1. cbn [fold_shapes shape_pic bind] in S0. cbn [pic_empty pc_draws] in D1. rewrite D1 in S0. cbn [app] in S0.
  assert (Dp : pc_draws p = [(style_of E d alpha frame, pc_outlines p1)]). { rewrite Dq. assert (S1 := f_equal (fun x => match x with Ok y => pc_draws y | _ => [] end) S0). cbv beta iota in S1. cbn [pc_draws] in S1. now symmetry. }
  set (s := style_of E d alpha frame) in *. set (os := flat_map (copies E q) (pc_outlines p1)).
  set (sty := fun j => mkStyle (sy_stroke s) (sy_brush s) (fmul (sy_alpha s) (copy_alpha q j))).
  exists (fun j => if fleb (copy_alpha q j) f0 then [] else paints_of E (sty j, os)), (map (fun o => (sy_stroke s, snd o, fst o)) os). split.
  - unfold pic_paints, repeat_pic. cbn [pc_draws]. rewrite Dp. rewrite map_rev. generalize (seq 0 (rp_copies q)) as l. induction l as [|j l IH]; [reflexivity|].
    cbn [flat_map map]. rewrite map_app, rev_app_distr, concat_app. cbn [rev]. rewrite concat_app. apply f_equal2; [exact IH|]. destruct (fleb _ _); reflexivity.
  - intros j Hj. pose proof (shade_near q j Ps Pe Hj Hn) as Sh. split.
    + destruct (fleb (copy_alpha q j) f0) eqn:Fl.
      * right. split; [reflexivity|]. destruct Sh as [Fc Ac]. apply fleb_le in Fl; [|exact Fc|reflexivity]. change (B2R f0) with 0 in Fl. apply Rabs_le_inv in Ac. lra.
      * left. unfold paints_of. cbn [fst snd]. rewrite map_map. apply map_ext. intros o. reflexivity.
    + exists (fmul (sy_alpha s) (copy_alpha q j)). split.
      * destruct Po as [Fo Bo]. set (op := eval E (dr_opacity d) frame) in *.
        assert (Sq : 0 <= shade q j <= 1).
        { unfold shade. cbv zeta. destruct Ps as [_ Ps]. destruct Pe as [_ Pe]. set (a := B2R (rp_start_opacity q) / 100). set (b := B2R (rp_end_opacity q) / 100). assert (0 <= a <= 1) by (unfold a; lra). assert (0 <= b <= 1) by (unfold b; lra).
          assert (Pj : 0 <= INR j) by apply pos_INR. assert (Ln : INR j + 1 <= INR (rp_copies q)) by (rewrite <- S_INR; apply le_INR; lia).
          set (n := INR (rp_copies q)) in *. replace (a + (b - a) / n * INR j) with (a * (1 - INR j / n) + b * (INR j / n)) by (unfold Rdiv; ring).
          assert (0 <= INR j / n <= 1). { split; [apply Rmult_le_pos; [lra|left; apply Rinv_0_lt_compat; lra]|]. apply Rmult_le_reg_r with n; [lra|]. unfold Rdiv. rewrite Rmult_assoc, Rinv_l by lra. lra. }
          nra. }
        assert (A1 : approx (fmul alpha op) (B2R alpha * B2R op) (/ 40000000000000)).
        { eapply (near_mul _ _ _ _ 0 0 1 100); [apply near_exact; [exact Fa|reflexivity]|apply near_exact; [exact Fo|reflexivity]|rewrite Rabs_pos_eq; lra|rewrite Rabs_pos_eq; lra|lra|lra|unfold u52; lra]. }
        assert (Bp : 0 <= B2R alpha * B2R op <= 100) by nra.
        assert (A2 : approx (sy_alpha s) (B2R alpha * (B2R op / 100)) (/ 1000000000000)).
        { unfold s, style_of. cbn [sy_alpha]. fold op. pose proof (near_bound _ _ _ 100 A1 ltac:(rewrite Rabs_pos_eq; lra)) as B1. destruct A1 as [Fm Am]. destruct (f_of_Z_R 100 ltac:(lia)) as [R100 _]. change (f_of_Z 100) with f100 in R100.
          assert (Bq : Rabs (B2R (fmul alpha op) / 100) <= 2). { unfold Rdiv. rewrite Rabs_mult, (Rabs_pos_eq (/ 100)) by lra. lra. }
          destruct (fdiv_R (fmul alpha op) f100 Fm) as [Eq Fd]; [rewrite R100; lra|rewrite R100; pose proof big_range; lra|]. rewrite R100 in Eq. split; [exact Fd|]. rewrite Eq.
          assert (D : Rabs (B2R (fmul alpha op) / 100 - B2R alpha * (B2R op / 100)) <= / 40000000000000).
          { replace (B2R (fmul alpha op) / 100 - B2R alpha * (B2R op / 100)) with ((B2R (fmul alpha op) - B2R alpha * B2R op) * / 100) by (unfold Rdiv; ring). rewrite Rabs_mult, (Rabs_pos_eq (/ 100)) by lra. lra. }
          apply Rle_trans with (1 := triangle _ _ _ _ _ (rnd_error _) D). assert (u52 * (Rabs (B2R (fmul alpha op) / 100) + 1) <= u52 * 3) by (apply Rmult_le_compat_l; [unfold u52; lra|lra]). unfold u52 in *. lra. }
        eapply (near_mul _ _ _ _ (/ 1000000000000) (/ 100000000000) 1 1); [exact A2|exact Sh|rewrite Rabs_pos_eq; nra|rewrite Rabs_pos_eq; lra|lra|lra|unfold u52; lra].
      * destruct (fleb _ _); constructor || apply Forall_forall. intros x Hx. unfold paints_of in Hx. cbn [fst snd] in Hx. apply in_map_iff in Hx as (o & <- & _). reflexivity.
Qed.
(** A library with good powers. *)
Definition E_raises : Ext := {|
  x_sin := x_sin E_accurate; x_cos := x_cos E_accurate; x_tan := x_tan E_accurate;
  x_powf := fun b t => round45 (Rpower (B2R b) (B2R t)); x_hypot := x_hypot E0; x_solve_cubic := x_solve_cubic E0; x_rrect_path := x_rrect_path E0;
  x_ellipse_path := x_ellipse_path E0; x_arclen := x_arclen E0; x_inv_arclen := x_inv_arclen E0;
  x_subsegment := x_subsegment E0; x_color_mul_alpha := x_color_mul_alpha E0; x_brush_mul_alpha := x_brush_mul_alpha E0 |}.
Lemma E_raises_ok : raises E_raises /\ accurate E_raises.
Proof.
  split; [|destruct E_accurate_ok; constructor; assumption]. intros b t _ _ _ _ B. cbn [E_raises x_powf]. apply round45_near. rewrite Rabs_pos_eq by (left; apply exp_pos). lra.
Qed.

(** Three copies, each turned by thirty degrees, a tenth larger, ten to the
    right and fading. *)
Definition fan : repeater_v :=
  RFixed (mkRepeater 3 f1 (mkPoint (f_of_Z 2) f0) (mkPoint (f_of_Z 10) f0) (f_of_Z 30) (mkVec2 (f_of_Z 110) (f_of_Z 110)) f100 (f_of_Z 20)).
Example C94_applies : accurate E_raises /\ raises E_raises /\ Forall only_geometry [geo 1] /\ Forall (all_geometry (sound_geometry E_raises)) [geo 1; fill] /\
  let q := repeater_eval E_raises fan f0 in finite_repeater q /\ (forall i, (i < rp_copies q)%nat -> plain_copy q i) /\
  percent (rp_start_opacity q) /\ percent (rp_end_opacity q) /\ percent (eval E_raises (dr_opacity fill_draw) f0) /\
  (exists j, (j < rp_copies q)%nat /\ fleb (copy_alpha q j) f0 = false) /\
  exists ps ps', layer_paints E_raises affine_identity f1 f0 [geo 1; fill] = Ok ps /\ Forall (fun p => ordinary_map (pt_transform p)) ps /\ ps <> [] /\
    layer_paints E_raises affine_identity f1 f0 ([geo 1; fill] ++ [ShRepeater fan]) = Ok ps'.
Proof.
  destruct E_raises_ok as [R1 A1].
  assert (Sd : Forall (all_geometry (sound_geometry E_raises)) [geo 1; fill]).
  { constructor; [|constructor; [exact I|constructor]]. cbn [all_geometry geo]. intros frame. eexists. split; [reflexivity|reflexivity]. }
  split; [exact A1|]. split; [exact R1|]. split; [repeat constructor|]. split; [exact Sd|].
  cbv zeta. change (repeater_eval E_raises fan f0) with (mkRepeater 3 f1 (mkPoint (f_of_Z 2) f0) (mkPoint (f_of_Z 10) f0) (f_of_Z 30) (mkVec2 (f_of_Z 110) (f_of_Z 110)) f100 (f_of_Z 20)).
  set (q := mkRepeater _ _ _ _ _ _ _ _).
  destruct (f_of_Z_R 2 ltac:(lia)) as [V2 F2]. destruct (f_of_Z_R 10 ltac:(lia)) as [V10 F10]. destruct (f_of_Z_R 30 ltac:(lia)) as [V30 F30]. destruct (f_of_Z_R 110 ltac:(lia)) as [V110 F110]. destruct (f_of_Z_R 20 ltac:(lia)) as [V20 F20].
  assert (P3 : Rpower (110 / 100) 3 <= 4).
  { replace 3 with (INR 3) by (rewrite INR_IZR_INZ; reflexivity). rewrite Rpower_pow by lra. cbn [pow]. lra. }
  split; [repeat split; assumption || reflexivity|]. split.
  { intros i Hi. cbn [q rp_copies] in Hi. assert (Bi : 0 <= INR i <= 2). { split; [apply pos_INR|]. replace 2 with (INR 2) by (rewrite INR_IZR_INZ; reflexivity). apply le_INR. lia. }
    assert (Pw : Rpower (110 / 100) (1 + INR i) <= 4) by (apply Rle_trans with (2 := P3); apply Rle_Rpower; lra).
    unfold q. constructor; unfold steps_away, bounded_by, real_point; cbn [rp_offset rp_anchor rp_position rp_rotation rp_scale px py vx vy fst snd]; change (B2R f0) with 0; rewrite ?f1_R, ?V2, ?V10, ?V30, ?V110; try (split; apply Rabs_le; lra).
    - rewrite Rabs_pos_eq; lra.
    - lra.
    - auto. }
  split; [split; [reflexivity|unfold q; cbn [rp_start_opacity]; rewrite f100_R; lra]|]. split; [split; [exact F20|unfold q; cbn [rp_end_opacity]; rewrite V20; lra]|].
  split; [split; [reflexivity|change (eval E_raises (dr_opacity fill_draw) f0) with f100; rewrite f100_R; lra]|].
  split; [exists 0%nat; split; [unfold q; cbn; lia|vm_compute; reflexivity]|].
  destruct (C17_copies E_raises affine_identity f1 f0 [geo 1; fill] fan Sd) as (p & L & N & L'). exists (pic_paints E_raises p). eexists. split; [exact L|].
  destruct N as (p0 & S0 & _ & Dq); [unfold no_clash; cbn; discriminate|].
  unfold shapes_pic in S0. cbn [fold_shapes shape_pic geo fill geometry_eval bind add_path pic_empty pc_outlines pc_draws pc_open joins andb app] in S0.
  assert (S1 := f_equal (fun x => match x with Ok y => pc_draws y | _ => [] end) S0). cbv beta iota in S1. cbn [pc_draws] in S1. rewrite <- S1 in Dq.
  split; [|split].
  - apply Forall_forall. intros x Hx. apply in_paints in Hx as (s & os & o & Hd & Ho & ->). rewrite Dq in Hd. destruct Hd as [Hd|[]]. assert (E2 := f_equal snd Hd). cbn [snd] in E2. subst os. destruct Ho as [<-|[]]. cbn [pt_transform snd].
    unfold ordinary_map, finite_map, affine_identity. cbn [aa ab ac ad ae af]. change (B2R f0) with 0. rewrite f1_R. repeat split; try (apply Rabs_le; lra).
  - unfold pic_paints. rewrite Dq. discriminate.
  - exact L'.
Qed.
