(** C93: does the picture stay under the fingers?  In real numbers. *)
From Coq Require Import ZArith Bool List Lia Reals Lra.
From Flocq Require Import Core BinarySingleNaN.
From Verif Require Import F64 F64Facts Kurbo Value Animated Stats Viewer PropStats PropTouch PropViewer PropNav GeometrySpec PropGeometry PropStar PropEasing PropPinch PropCamera PropFingers Examples.
Import ListNotations.
Close Scope string_scope.
Open Scope list_scope.
Open Scope R_scope.

(** ** Specification *)
Definition square (v : vec) : R := fst v ^ 2 + snd v ^ 2.
Definition times (z v : vec) : vec := (fst z * fst v - snd z * snd v, snd z * fst v + fst z * snd v).
(** By how much [w] is longer than [u] and turned against it (a complex number). *)
Definition ratio (w u : vec) : vec :=
  ((fst w * fst u + snd w * snd u) / square u, (snd w * fst u - fst w * snd u) / square u).
(** The map that keeps shapes and takes [p1] to [q1] and [p2] to [q2]. *)
Definition grip (p1 p2 q1 q2 v : vec) : vec := vplus q1 (times (ratio (vminus q2 q1) (vminus p2 p1)) (vminus v p1)).
Definition middle (p q : vec) : vec := ((fst p + fst q) / 2, (snd p + snd q) / 2).
(** By how much the picture slips: how far the middle of the fingers moved,
    less the same turned and enlarged. *)
Definition slip (p1 p2 q1 q2 : vec) : vec :=
  let d := vminus (middle q1 q2) (middle p1 p2) in vminus d (times (ratio (vminus q2 q1) (vminus p2 p1)) d).
Lemma grip_first p1 p2 q1 q2 : grip p1 p2 q1 q2 p1 = q1.
Proof. unfold grip, vplus, times, vminus. destruct q1. cbn [fst snd]. f_equal; ring. Qed.
Lemma grip_second p1 p2 q1 q2 : square (vminus p2 p1) <> 0 -> grip p1 p2 q1 q2 p2 = q2.
Proof.
  intros N. unfold grip, vplus, times, ratio. destruct q1 as [a b], q2 as [c d], p1 as [e f], p2 as [g h]. unfold vminus, square in *. cbn [fst snd] in *.
  f_equal; field; exact N.
Qed.
(** The second frame shows every point of the scene where [f] takes its place in the first, to a 500th of a pixel. *)
Definition tracks (s s' : shown) (f : vec -> vec) : Prop :=
  forall v, bounded_by 8192 v -> within (1 / 500) (moved (sh_transform s') v) (f (moved (sh_transform s) v)).
(** A finger on a screen of up to 8000 pixels; two fingers not too close. *)
Definition on_pad (p : point) : Prop := fin (px p) /\ fin (py p) /\ bounded_by 8000 (real_point p).
Definition apart (p q : point) : Prop := 16 ^ 2 <= square (vminus (real_point q) (real_point p)).
(** Lengths and directions to 10^-11. *)
Record keen (E : Ext) (atan2 : f64 -> f64 -> f64) : Prop := {
  kn_hypot : forall x y, fin x -> fin y -> bounded_by 16384 (B2R x, B2R y) -> approx (x_hypot E x y) (sqrt (B2R x ^ 2 + B2R y ^ 2)) (/ 100000000000);
  kn_atan2 : forall x y, fin x -> fin y -> bounded_by 16384 (B2R x, B2R y) -> 1 <= B2R x ^ 2 + B2R y ^ 2 ->
    exists t, Rabs t <= 4 /\ approx (atan2 y x) t (/ 1000000000000) /\
      B2R x = sqrt (B2R x ^ 2 + B2R y ^ 2) * cos t /\ B2R y = sqrt (B2R x ^ 2 + B2R y ^ 2) * sin t;
  kn_zero : fin (atan2 f0 f0) }.

(** ** Lengths *)
Lemma square_pos v : 0 <= square v.
Proof. unfold square. nra. Qed.
Definition len (v : vec) : R := sqrt (square v).
Lemma len_sq v : len v * len v = square v.
Proof. apply sqrt_sqrt, square_pos. Qed.
Lemma len_pos v : 0 <= len v.
Proof. apply sqrt_pos. Qed.
Lemma len_fst v : Rabs (fst v) <= len v.
Proof.
  apply Rsqr_incr_0; auto using Rabs_pos, len_pos. rewrite <- Rsqr_abs. unfold Rsqr. rewrite len_sq. unfold square. nra.
Qed.
Lemma len_snd v : Rabs (snd v) <= len v.
Proof.
  apply Rsqr_incr_0; auto using Rabs_pos, len_pos. rewrite <- Rsqr_abs. unfold Rsqr. rewrite len_sq. unfold square. nra.
Qed.
Lemma len_ge r v : 0 <= r -> r ^ 2 <= square v -> r <= len v.
Proof. intros Hr H. rewrite <- (sqrt_square r Hr). apply sqrt_le_1_alt. cbn [pow] in H. lra. Qed.
Lemma len_close v w e : Rabs (fst v - fst w) <= e -> Rabs (snd v - snd w) <= e -> Rabs (len v - len w) <= 2 * e.
Proof. intros H1 H2. unfold len, square. apply hyp_close. lra. Qed.
Lemma ratio_len w u : len u <> 0 -> square (ratio w u) = (len w / len u) ^ 2.
Proof.
  intros N. replace ((len w / len u) ^ 2) with ((len w * len w) / (len u * len u)) by (field; exact N). rewrite !len_sq.
  assert (M : square u <> 0) by (rewrite <- len_sq; intros Z; apply N; destruct (Rmult_integral _ _ Z); assumption).
  unfold ratio, square in *. cbn [fst snd]. field. exact M.
Qed.
Lemma ratio_bound w u b : 0 < len u -> len w <= b * len u -> Rabs (fst (ratio w u)) <= b /\ Rabs (snd (ratio w u)) <= b.
Proof.
  intros P H. assert (L : len (ratio w u) <= b).
  { unfold len at 1. rewrite ratio_len by lra. replace ((len w / len u) ^ 2) with ((len w / len u) * (len w / len u)) by ring.
    assert (0 <= len w / len u) by (apply Rmult_le_pos; [apply len_pos|left; now apply Rinv_0_lt_compat]).
    rewrite sqrt_square by assumption. apply Rmult_le_reg_r with (len u); [exact P|]. unfold Rdiv. rewrite Rmult_assoc, Rinv_l by lra. lra. }
  split; [apply Rle_trans with (1 := len_fst _)|apply Rle_trans with (1 := len_snd _)]; exact L.
Qed.
(** A small change of the two vectors. *)
Lemma ratio_close w u W U e : 8 <= len u -> 7 <= len U -> len w <= 4 * len u -> 0 <= e ->
  Rabs (fst W - fst w) <= e -> Rabs (snd W - snd w) <= e -> Rabs (fst U - fst u) <= e -> Rabs (snd U - snd u) <= e ->
  Rabs (fst (ratio W U) - fst (ratio w u)) <= 18 / 7 * e /\ Rabs (snd (ratio W U) - snd (ratio w u)) <= 18 / 7 * e.
Proof.
  intros Lu LU Lw He Wx Wy Ux Uy. destruct (ratio_bound w u 4 ltac:(lra) Lw) as [Bx By].
  assert (Su : square u <> 0) by (rewrite <- len_sq; apply Rmult_integral_contrapositive_currified; lra).
  assert (SU : square U <> 0) by (rewrite <- len_sq; apply Rmult_integral_contrapositive_currified; lra).
  set (z := ratio w u) in *.
  assert (Zw : fst w = fst z * fst u - snd z * snd u /\ snd w = snd z * fst u + fst z * snd u).
  { unfold z, ratio, square in *. cbn [fst snd]. split; field; exact Su. }
  destruct Zw as [Zx Zy].
  set (ex := (fst W - fst w) - (fst z * (fst U - fst u) - snd z * (snd U - snd u))).
  set (ey := (snd W - snd w) - (snd z * (fst U - fst u) + fst z * (snd U - snd u))).
  assert (M : forall a b c, Rabs a <= 4 -> Rabs b <= 4 -> Rabs c <= e -> forall s t, Rabs s <= e -> Rabs t <= e -> Rabs (c - (a * s - b * t)) <= 9 * e /\ Rabs (c - (a * s + b * t)) <= 9 * e).
  { intros a b c Ha Hb Hc s t Hs Ht. assert (Rabs (a * s) <= 4 * e) by (rewrite Rabs_mult; apply Rmult_le_compat; auto using Rabs_pos).
    assert (Rabs (b * t) <= 4 * e) by (rewrite Rabs_mult; apply Rmult_le_compat; auto using Rabs_pos). split; apply Rabs_le; apply Rabs_le_inv in H, H0, Hc; lra. }
  assert (Ex : Rabs ex <= 9 * e) by (apply M; assumption). assert (Ey : Rabs ey <= 9 * e) by (apply M; assumption).
  assert (Q : forall a b, Rabs a <= len U -> Rabs b <= len U -> Rabs ((ex * a + ey * b) / square U) <= 18 / 7 * e).
  { intros a b Ha Hb. unfold Rdiv at 1. rewrite Rabs_mult, (Rabs_pos_eq (/ square U)).
    2:{ left. apply Rinv_0_lt_compat. pose proof (square_pos U). lra. }
    apply Rmult_le_reg_r with (square U); [pose proof (square_pos U); lra|]. rewrite Rmult_assoc, Rinv_l, Rmult_1_r by exact SU.
    apply Rle_trans with (1 := Rabs_triang _ _). rewrite !Rabs_mult, <- len_sq.
    assert (Rabs ex * Rabs a <= 9 * e * len U) by (apply Rmult_le_compat; auto using Rabs_pos).
    assert (Rabs ey * Rabs b <= 9 * e * len U) by (apply Rmult_le_compat; auto using Rabs_pos).
    assert (18 * e * len U <= 18 / 7 * e * (len U * len U)).
    { replace (18 / 7 * e * (len U * len U)) with (18 * e * len U * (len U / 7)) by field. rewrite <- (Rmult_1_r (18 * e * len U)) at 1.
      apply Rmult_le_compat_l; [|lra]. apply Rmult_le_pos; [lra|apply len_pos]. }
    lra. }
  split.
  - replace (fst (ratio W U) - fst z) with ((ex * fst U + ey * snd U) / square U); [apply Q; [apply len_fst|apply len_snd]|].
    unfold ex, ey. rewrite Zx, Zy. unfold ratio. cbn [fst snd]. unfold square in *. field. exact SU.
  - replace (snd (ratio W U) - snd z) with ((ex * (- snd U) + ey * fst U) / square U); [apply Q; [rewrite Rabs_Ropp; apply len_snd|apply len_fst]|].
    unfold ex, ey. rewrite Zx, Zy. unfold ratio. cbn [fst snd]. unfold square in *. field. exact SU.
Qed.

(** ** Two fingers *)
Lemma mean2 x y : fin x -> fin y -> Rabs (B2R x) <= 16384 -> Rabs (B2R y) <= 16384 -> approx (mean [x; y]) ((B2R x + B2R y) / 2) (/ 100000000000).
Proof.
  intros Fx Fy Bx By. unfold mean. cbn [fold_left List.length].
  assert (H : approx (fdiv f1 (f_of_Z (Z.of_nat 2))) (/ 2) 0).
  { apply near_exact; [vm_compute; reflexivity|]. rewrite <- SF2R_B2SF. replace (B2SF _) with (SpecFloat.S754_finite false 4503599627370496 (-53)) by (vm_compute; reflexivity).
    cbn [SF2R cond_Zopp]. unfold F2R. cbn [Fnum Fexp]. change (bpow radix2 (-53)) with (/ IZR 9007199254740992). lra. }
  assert (A : approx (fadd f0 x) (0 + B2R x) 0).
  { destruct (fadd_R f0 x eq_refl Fx) as [Eq F]; [rewrite f0_R, Rplus_0_l; pose proof big_range; lra|]. apply near_exact; [exact F|].
    rewrite Eq, f0_R. rewrite Rplus_0_l. apply rnd_f64. }
  assert (B : approx (fadd (fadd f0 x) y) (0 + B2R x + B2R y) (/ 100000000000)).
  { eapply (near_add _ _ _ _ 0 0 32768); [exact A|now apply near_exact|rewrite Rplus_0_l; lra|lra|unfold u52; lra]. }
  replace ((B2R x + B2R y) / 2) with ((0 + B2R x + B2R y) * / 2) by field.
  eapply (near_mul _ _ _ _ (/ 100000000000) 0 32768 (/ 2)); [exact B|exact H| |rewrite Rabs_pos_eq; lra|lra|lra|unfold u52; lra].
  rewrite Rplus_0_l. apply Rle_trans with (1 := Rabs_triang _ _). lra.
Qed.
(** The vectors from the first finger to the centre: computed, and in real numbers. *)
Definition arm (l : list (Z * point)) (p : point) : vec := (B2R (fsub (px (centre l)) (px p)), B2R (fsub (py (centre l)) (py p))).
Definition half (p q : point) : vec := ((B2R (px q) - B2R (px p)) / 2, (B2R (py q) - B2R (py p)) / 2).
Record pair_facts (E : Ext) (l : list (Z * point)) (p q : point) : Prop := {
  pf_cx : approx (px (centre l)) ((B2R (px p) + B2R (px q)) / 2) (/ 100000000000);
  pf_cy : approx (py (centre l)) ((B2R (py p) + B2R (py q)) / 2) (/ 100000000000);
  pf_fx : fin (fsub (px (centre l)) (px p)); pf_fy : fin (fsub (py (centre l)) (py p));
  pf_ux : Rabs (fst (arm l p) - fst (half p q)) <= / 50000000000; pf_uy : Rabs (snd (arm l p) - snd (half p q)) <= / 50000000000;
  pf_bound : bounded_by 8001 (arm l p);
  pf_spread : approx (spread E l) (len (arm l p)) (6 / 100000000000) }.
Lemma two_facts E atan2 i j p q : keen E atan2 -> on_pad p -> on_pad q -> pair_facts E [(i, p); (j, q)] p q.
Proof.
  intros K (Fpx & Fpy & Bpx & Bpy) (Fqx & Fqy & Bqx & Bqy). cbn [real_point fst snd] in *. set (l := [(i, p); (j, q)]).
  assert (Cx : approx (px (centre l)) ((B2R (px p) + B2R (px q)) / 2) (/ 100000000000)) by (apply (mean2 (px p) (px q)); auto; lra).
  assert (Cy : approx (py (centre l)) ((B2R (py p) + B2R (py q)) / 2) (/ 100000000000)) by (apply (mean2 (py p) (py q)); auto; lra).
  assert (S : forall c x y z : f64, approx c ((B2R x + B2R y) / 2) (/ 100000000000) -> fin x -> fin y -> Rabs (B2R x) <= 8000 -> Rabs (B2R y) <= 8000 -> fin z -> Rabs (B2R z) <= 8000 ->
    approx (fsub c z) ((B2R x + B2R y) / 2 - B2R z) (/ 50000000000)).
  { intros c x y z Hc Fx Fy Bx By Fz Bz. eapply (approx_sub _ _ _ _ (/ 100000000000) 0 16000); [exact Hc|now apply near_exact| |lra|unfold u52; lra].
    assert (Rabs ((B2R x + B2R y) / 2) <= 8000) by (apply Rabs_le; apply Rabs_le_inv in Bx, By; lra). lra. }
  destruct (S _ _ _ (px p) Cx Fpx Fqx Bpx Bqx Fpx Bpx) as [F1 E1]. destruct (S _ _ _ (py p) Cy Fpy Fqy Bpy Bqy Fpy Bpy) as [F2 E2].
  destruct (S _ _ _ (px q) Cx Fpx Fqx Bpx Bqx Fqx Bqx) as [F3 E3]. destruct (S _ _ _ (py q) Cy Fpy Fqy Bpy Bqy Fqy Bqy) as [F4 E4].
  assert (Ux : Rabs (fst (arm l p) - fst (half p q)) <= / 50000000000).
  { unfold arm, half. cbn [fst]. replace (_ - _) with (B2R (fsub (px (centre l)) (px p)) - ((B2R (px p) + B2R (px q)) / 2 - B2R (px p))) by field. exact E1. }
  assert (Uy : Rabs (snd (arm l p) - snd (half p q)) <= / 50000000000).
  { unfold arm, half. cbn [snd]. replace (_ - _) with (B2R (fsub (py (centre l)) (py p)) - ((B2R (py p) + B2R (py q)) / 2 - B2R (py p))) by field. exact E2. }
  assert (Bu : bounded_by 8001 (arm l p)).
  { split; apply Rabs_le; [unfold half in Ux; cbn [fst] in Ux; apply Rabs_le_inv in Ux, Bpx, Bqx|unfold half in Uy; cbn [snd] in Uy; apply Rabs_le_inv in Uy, Bpy, Bqy]; lra. }
  assert (Bv : bounded_by 8001 (arm l q)).
  { unfold bounded_by, arm. cbn [fst snd]. split; apply Rabs_le; [apply Rabs_le_inv in E3, Bpx, Bqx|apply Rabs_le_inv in E4, Bpy, Bqy]; lra. }
  assert (W : forall v, bounded_by 8001 v -> bounded_by 16384 v) by (intros v [H1 H2]; split; lra).
  pose proof (kn_hypot _ _ K _ _ F1 F2 (W _ Bu)) as H1. pose proof (kn_hypot _ _ K _ _ F3 F4 (W _ Bv)) as H2.
  change (sqrt _) with (len (arm l p)) in H1. change (sqrt _) with (len (arm l q)) in H2.
  assert (Lb : forall v, bounded_by 8001 v -> len v <= 16380).
  { intros v [B1 B2]. unfold len, square. apply Rle_trans with (sqrt (12000 * 12000)); [|rewrite sqrt_square; lra]. apply sqrt_le_1_alt.
    assert (Q : forall a, Rabs a <= 8001 -> a ^ 2 <= 64016001) by (intros a Ha; apply Rabs_le_inv in Ha; nra). pose proof (Q _ B1). pose proof (Q _ B2). lra. }
  assert (Lc : Rabs (len (arm l q) - len (arm l p)) <= 8 / 100000000000).
  { replace (len (arm l q)) with (len (- fst (arm l q), - snd (arm l q))) by (unfold len, square; cbn [fst snd]; f_equal; ring).
    eapply Rle_trans; [apply (len_close _ _ (4 / 100000000000))|lra]; cbn [fst snd]; unfold arm; cbn [fst snd]; apply Rabs_le; apply Rabs_le_inv in E1, E2, E3, E4; lra. }
  constructor; auto. destruct H1 as [G1 H1], H2 as [G2 H2]. pose proof (Lb _ Bu) as LU. pose proof (Lb _ Bv) as LV. pose proof (len_pos (arm l p)) as PU. pose proof (len_pos (arm l q)) as PV.
  assert (Mn : approx (spread E l) ((B2R (x_hypot E (fsub (px (centre l)) (px p)) (fsub (py (centre l)) (py p))) + B2R (x_hypot E (fsub (px (centre l)) (px q)) (fsub (py (centre l)) (py q)))) / 2) (/ 100000000000)).
  { apply (mean2 (x_hypot E (fsub (px (centre l)) (px p)) (fsub (py (centre l)) (py p))) (x_hypot E (fsub (px (centre l)) (px q)) (fsub (py (centre l)) (py q)))); auto;
      apply Rabs_le; apply Rabs_le_inv in H1, H2; lra. }
  destruct Mn as [Fm Em]. split; [exact Fm|]. apply Rabs_le. apply Rabs_le_inv in H1, H2, Em, Lc. lra.
Qed.
(** The figures of a gesture of two fingers. *)
Record gesture_facts (z d c : vec) (k rho : f64) (d' : vec2) (c' : point) : Prop := {
  gf_k : fin k; gf_rho : fin rho; gf_pos : 0 <= B2R k <= 4; gf_turn : Rabs (B2R rho) <= 900;
  gf_re : Rabs (B2R k * cos (B2R rho) - fst z) <= 2 / 10000000000; gf_im : Rabs (B2R k * sin (B2R rho) - snd z) <= 2 / 10000000000;
  gf_dx : approx (vx d') (fst d) (3 / 100000000000); gf_dy : approx (vy d') (snd d) (3 / 100000000000);
  gf_cx : approx (px c') (fst c) (/ 100000000000); gf_cy : approx (py c') (snd c) (/ 100000000000) }.
Lemma ratio_half p1 p2 q1 q2 : square (half p1 p2) <> 0 ->
  ratio (vminus (real_point q2) (real_point q1)) (vminus (real_point p2) (real_point p1)) = ratio (half q1 q2) (half p1 p2).
Proof.
  intros N. unfold ratio, half, vminus, real_point, square in *. cbn [fst snd] in *.
  assert (M : (B2R (px p2) - B2R (px p1)) ^ 2 + (B2R (py p2) - B2R (py p1)) ^ 2 <> 0) by (intros Z; apply N; lra).
  f_equal; field; repeat split; try exact M; intros Z; apply M; lra.
Qed.
Lemma half_len p q r : 0 <= r -> (2 * r) ^ 2 <= square (vminus (real_point q) (real_point p)) -> r <= len (half p q).
Proof.
  intros Hr H. apply len_ge; [exact Hr|]. unfold square, vminus, real_point, half in *. cbn [fst snd] in *. lra.
Qed.
Lemma pinch_facts E atan2 i j p1 p2 q1 q2 : keen E atan2 -> on_pad p1 -> on_pad p2 -> on_pad q1 -> on_pad q2 -> apart p1 p2 -> apart q1 q2 ->
  square (vminus (real_point q2) (real_point q1)) <= (39 / 10) ^ 2 * square (vminus (real_point p2) (real_point p1)) ->
  let fs := [(i, p1); (j, p2)] in let gs := [(i, q1); (j, q2)] in
  gesture_facts (ratio (vminus (real_point q2) (real_point q1)) (vminus (real_point p2) (real_point p1)))
    (vminus (middle (real_point q1) (real_point q2)) (middle (real_point p1) (real_point p2))) (middle (real_point q1) (real_point q2))
    (fdiv (spread E gs) (spread E fs)) (fsub (heading atan2 gs) (heading atan2 fs))
    (mkVec2 (fsub (px (centre gs)) (px (centre fs))) (fsub (py (centre gs)) (py (centre fs)))) (centre gs).
Proof.
  intros K P1 P2 Q1 Q2 Ap Aq Hz fs gs.
  destruct (two_facts E atan2 i j p1 p2 K P1 P2) as [pcx pcy pfx pfy pux puy pb [psf pse]]. destruct (two_facts E atan2 i j q1 q2 K Q1 Q2) as [qcx qcy qfx qfy qux quy qb [qsf qse]].
  fold fs in pcx, pcy, pfx, pfy, pux, puy, pb, psf, pse. fold gs in qcx, qcy, qfx, qfy, qux, quy, qb, qsf, qse.
  pose proof (half_len p1 p2 8 ltac:(lra) ltac:(unfold apart in Ap; lra)) as Lu. pose proof (half_len q1 q2 8 ltac:(lra) ltac:(unfold apart in Aq; lra)) as Lw.
  assert (Lr : len (half q1 q2) <= 39 / 10 * len (half p1 p2)).
  { apply Rsqr_incr_0; [|apply len_pos|pose proof (len_pos (half p1 p2)); lra]. unfold Rsqr.
    replace (39 / 10 * len (half p1 p2) * (39 / 10 * len (half p1 p2))) with ((39 / 10) ^ 2 * (len (half p1 p2) * len (half p1 p2))) by ring. rewrite !len_sq.
    unfold square, half, vminus, real_point in *. cbn [fst snd] in *. lra. }
  assert (Nu : square (half p1 p2) <> 0) by (rewrite <- len_sq; apply Rmult_integral_contrapositive_currified; lra).
  rewrite (ratio_half p1 p2 q1 q2 Nu). set (u := half p1 p2) in *. set (w := half q1 q2) in *. set (U := arm fs p1) in *. set (W := arm gs q1) in *.
  pose proof (len_close U u _ pux puy) as CU. pose proof (len_close W w _ qux quy) as CW. apply Rabs_le_inv in CU, CW.
  assert (LU : 7 <= len U) by lra. assert (LW : 7 <= len W) by lra.
  destruct (ratio_close w u W U (/ 50000000000) Lu LU ltac:(lra) ltac:(lra) qux quy pux puy) as [Rx Ry].
  assert (Bb : forall v, bounded_by 8001 v -> bounded_by 16384 v) by (intros v [H1 H2]; split; lra).
  assert (S1 : forall v, 7 <= len v -> 1 <= fst v ^ 2 + snd v ^ 2) by (intros v Hv; pose proof (len_sq v) as Q; unfold square in Q; nra).
  destruct (kn_atan2 _ _ K _ _ pfx pfy (Bb _ pb) (S1 U LU)) as (tU & BtU & [FhU EhU] & CosU & SinU).
  destruct (kn_atan2 _ _ K _ _ qfx qfy (Bb _ qb) (S1 W LW)) as (tW & BtW & [FhW EhW] & CosW & SinW).
  change (B2R (fsub (px (centre fs)) (px p1))) with (fst U) in CosU, SinU. change (B2R (fsub (py (centre fs)) (py p1))) with (snd U) in CosU, SinU.
  change (B2R (fsub (px (centre gs)) (px q1))) with (fst W) in CosW, SinW. change (B2R (fsub (py (centre gs)) (py q1))) with (snd W) in CosW, SinW.
  change (sqrt (fst U ^ 2 + snd U ^ 2)) with (len U) in CosU, SinU. change (sqrt (fst W ^ 2 + snd W ^ 2)) with (len W) in CosW, SinW.
  change (atan2 (fsub (py (centre fs)) (py p1)) (fsub (px (centre fs)) (px p1))) with (heading atan2 fs) in FhU, EhU.
  change (atan2 (fsub (py (centre gs)) (py q1)) (fsub (px (centre gs)) (px q1))) with (heading atan2 gs) in FhW, EhW.
  set (hU := heading atan2 fs) in *. set (hW := heading atan2 gs) in *. set (sU := spread E fs) in *. set (sW := spread E gs) in *.
  set (kap := len W / len U).
  assert (Kp : kap * len U = len W) by (unfold kap; field; lra).
  assert (Kb : 0 < kap <= 3999 / 1000).
  { split; [apply Rmult_lt_0_compat; [lra|apply Rinv_0_lt_compat; lra]|]. apply Rmult_le_reg_r with (len U); [lra|]. rewrite Kp. lra. }
  assert (Kl : / 4000 <= kap).
  { apply Rmult_le_reg_r with (len U); [lra|]. rewrite Kp. assert (len U <= 16384).
    { unfold len. apply Rle_trans with (sqrt (16384 * 16384)); [|rewrite sqrt_square; lra]. apply sqrt_le_1_alt. destruct pb as [B1 B2].
      assert (Q : forall a, Rabs a <= 8001 -> a ^ 2 <= 64016001) by (intros a Ha; apply Rabs_le_inv in Ha; nra). pose proof (Q _ B1). pose proof (Q _ B2). unfold square. lra. }
    lra. }
  apply Rabs_le_inv in pse, qse.
  assert (Sp : 69 / 10 <= B2R sU) by lra.
  assert (Kq : Rabs (B2R sW / B2R sU - kap) <= 45 / 1000000000000).
  { replace (B2R sW / B2R sU - kap) with (((B2R sW - len W) - kap * (B2R sU - len U)) / B2R sU) by (rewrite <- Kp; field; lra).
    unfold Rdiv. rewrite Rabs_mult, (Rabs_pos_eq (/ B2R sU)) by (left; apply Rinv_0_lt_compat; lra).
    apply Rmult_le_reg_r with (B2R sU); [lra|]. rewrite Rmult_assoc, Rinv_l, Rmult_1_r by lra.
    assert (X : Rabs (kap * (B2R sU - len U)) <= 4 * (6 / 100000000000)) by (rewrite Rabs_mult, (Rabs_pos_eq kap) by lra; apply Rmult_le_compat; try lra; [apply Rabs_pos|apply Rabs_le; lra]).
    apply Rle_trans with (30 / 100000000000); [apply Rabs_le; apply Rabs_le_inv in X; lra|lra]. }
  assert (Kr : approx (fdiv sW sU) kap (5 / 100000000000)).
  { apply Rabs_le_inv in Kq. destruct (fdiv_R sW sU qsf) as [Eq F]; [lra|pose proof big_range; rewrite Rabs_pos_eq; lra|]. split; [exact F|]. rewrite Eq.
    pose proof (rnd_error (B2R sW / B2R sU)) as R. rewrite (Rabs_pos_eq (B2R sW / B2R sU)) in R by lra. apply Rabs_le_inv in R. apply Rabs_le. unfold u52 in R. lra. }
  assert (Rr : approx (fsub hW hU) (tW - tU) (3 / 1000000000000)).
  { eapply (approx_sub _ _ _ _ (/ 1000000000000) (/ 1000000000000) 8); [split; assumption|split; assumption|lra|lra|unfold u52; lra]. }
  destruct Kr as [Fk Ek], Rr as [Fr Er]. set (k := fdiv sW sU) in *. set (rho := fsub hW hU) in *.
  assert (RW : fst (ratio W U) = kap * cos (tW - tU) /\ snd (ratio W U) = kap * sin (tW - tU)).
  { rewrite cos_minus, sin_minus. unfold ratio, kap. cbn [fst snd]. rewrite <- len_sq.
    replace (fst W * fst U + snd W * snd U) with ((len W * cos tW) * (len U * cos tU) + (len W * sin tW) * (len U * sin tU)) by (rewrite <- CosW, <- CosU, <- SinW, <- SinU; reflexivity).
    replace (snd W * fst U - fst W * snd U) with ((len W * sin tW) * (len U * cos tU) - (len W * cos tW) * (len U * sin tU)) by (rewrite <- CosW, <- CosU, <- SinW, <- SinU; reflexivity).
    split; field; lra. }
  destruct RW as [RWx RWy]. rewrite RWx in Rx. rewrite RWy in Ry.
  assert (G : forall a b z, Rabs a <= 1 -> Rabs (a - b) <= Rabs (B2R rho - (tW - tU)) -> Rabs (kap * b - z) <= 18 / 7 * / 50000000000 -> Rabs (B2R k * a - z) <= 2 / 10000000000).
  { intros a b z Ha Hab Hz'. replace (B2R k * a - z) with ((B2R k - kap) * a + kap * (a - b) + (kap * b - z)) by ring.
    assert (X1 : Rabs ((B2R k - kap) * a) <= 5 / 100000000000 * 1) by (rewrite Rabs_mult; apply Rmult_le_compat; auto using Rabs_pos).
    assert (X2 : Rabs (kap * (a - b)) <= 4 * (3 / 1000000000000)) by (rewrite Rabs_mult, (Rabs_pos_eq kap) by lra; apply Rmult_le_compat; try lra; apply Rabs_pos).
    apply Rabs_le. apply Rabs_le_inv in X1, X2, Hz'. lra. }
  constructor; auto.
  - apply Rabs_le_inv in Ek. lra.
  - apply Rabs_le. apply Rabs_le_inv in Er, BtU, BtW. lra.
  - apply (G _ (cos (tW - tU))); [apply Rabs_le, COS_bound|apply cos_lipschitz|exact Rx].
  - apply (G _ (sin (tW - tU))); [apply Rabs_le, SIN_bound|apply sin_lipschitz|exact Ry].
  - cbn [vx]. destruct P1 as (_ & _ & B1 & _), P2 as (_ & _ & B2 & _), Q1 as (_ & _ & B3 & _), Q2 as (_ & _ & B4 & _). cbn [real_point fst snd] in *.
    unfold vminus, middle, real_point. cbn [fst snd]. eapply (approx_sub _ _ _ _ (/ 100000000000) (/ 100000000000) 16000); [exact qcx|exact pcx| |lra|unfold u52; lra].
    assert (Rabs ((B2R (px q1) + B2R (px q2)) / 2) <= 8000) by (apply Rabs_le; apply Rabs_le_inv in B3, B4; lra).
    assert (Rabs ((B2R (px p1) + B2R (px p2)) / 2) <= 8000) by (apply Rabs_le; apply Rabs_le_inv in B1, B2; lra). lra.
  - cbn [vy]. destruct P1 as (_ & _ & _ & B1), P2 as (_ & _ & _ & B2), Q1 as (_ & _ & _ & B3), Q2 as (_ & _ & _ & B4). cbn [real_point fst snd] in *.
    unfold vminus, middle, real_point. cbn [fst snd]. eapply (approx_sub _ _ _ _ (/ 100000000000) (/ 100000000000) 16000); [exact qcy|exact pcy| |lra|unfold u52; lra].
    assert (Rabs ((B2R (py q1) + B2R (py q2)) / 2) <= 8000) by (apply Rabs_le; apply Rabs_le_inv in B3, B4; lra).
    assert (Rabs ((B2R (py p1) + B2R (py p2)) / 2) <= 8000) by (apply Rabs_le; apply Rabs_le_inv in B1, B2; lra). lra.
Qed.

(** ** The view *)
Lemma grip_middle p1 p2 q1 q2 v : square (vminus p2 p1) <> 0 ->
  let z := ratio (vminus q2 q1) (vminus p2 p1) in let d := vminus (middle q1 q2) (middle p1 p2) in
  vplus (grip p1 p2 q1 q2 v) (slip p1 p2 q1 q2) = vplus (vplus (middle q1 q2) d) (times z (vminus v (middle q1 q2))).
Proof.
  intros N z d. unfold grip, slip. fold z d.
  assert (Zw : fst (vminus q2 q1) = fst z * fst (vminus p2 p1) - snd z * snd (vminus p2 p1) /\ snd (vminus q2 q1) = snd z * fst (vminus p2 p1) + fst z * snd (vminus p2 p1)).
  { unfold z, ratio. cbn [fst snd]. unfold square in *. split; field; exact N. }
  destruct Zw as [Zx Zy]. clearbody z. subst d. destruct q1 as [a b], q2 as [c d], p1 as [e f], p2 as [g h], v as [x y], z as [r i]. unfold vplus, vminus, times, middle in *. cbn [fst snd] in *.
  f_equal; lra.
Qed.
Lemma close_map z d c k rho d' c' v : gesture_facts z d c k rho d' c' -> Rabs (fst z) <= 4 -> Rabs (snd z) <= 4 -> bounded_by 8000 c -> bounded_by 1200000 v ->
  within (/ 1000) (shifted (real_vec2 d') (enlarged (B2R k) (real_point c') (spun (B2R rho) (real_point c') v))) (vplus (vplus c d) (times z (vminus v c))).
Proof.
  intros [_ _ _ _ Re Im [_ Dx] [_ Dy] [_ Cx] [_ Cy]] Bx By [B1 B2] [V1 V2].
  unfold shifted, enlarged, spun, vplus, times, vminus, real_vec2, real_point, within. cbn [fst snd].
  set (zr := B2R k * cos (B2R rho)) in *. set (zi := B2R k * sin (B2R rho)) in *.
  assert (T : forall a b z z' x cc c0, Rabs (z' - z) <= 2 / 10000000000 -> Rabs z <= 4 -> Rabs (cc - c0) <= / 100000000000 -> Rabs c0 <= 8000 -> Rabs x <= 1200000 ->
    a = z' * (x - cc) -> b = z * (x - c0) -> Rabs (a - b) <= 3 / 10000).
  { intros a b z0 z' x cc c0 H1 H2 H3 H4 H5 -> ->. replace (z' * (x - cc) - z0 * (x - c0)) with ((z' - z0) * (x - cc) + z0 * (c0 - cc)) by ring.
    assert (X1 : Rabs ((z' - z0) * (x - cc)) <= 2 / 10000000000 * 1208001).
    { rewrite Rabs_mult. apply Rmult_le_compat; auto using Rabs_pos. apply Rabs_le. apply Rabs_le_inv in H3, H4, H5. lra. }
    assert (X2 : Rabs (z0 * (c0 - cc)) <= 4 * / 100000000000) by (rewrite Rabs_mult, (Rabs_minus_sym c0); apply Rmult_le_compat; auto using Rabs_pos).
    apply Rabs_le. apply Rabs_le_inv in X1, X2. lra. }
  pose proof (T (zr * (fst v - B2R (px c'))) (fst z * (fst v - fst c)) _ _ _ _ _ Re Bx Cx B1 V1 eq_refl eq_refl) as T1.
  pose proof (T (zi * (snd v - B2R (py c'))) (snd z * (snd v - snd c)) _ _ _ _ _ Im By Cy B2 V2 eq_refl eq_refl) as T2.
  pose proof (T (zi * (fst v - B2R (px c'))) (snd z * (fst v - fst c)) _ _ _ _ _ Im By Cx B1 V1 eq_refl eq_refl) as T3.
  pose proof (T (zr * (snd v - B2R (py c'))) (fst z * (snd v - snd c)) _ _ _ _ _ Re Bx Cy B2 V2 eq_refl eq_refl) as T4.
  apply Rabs_le_inv in T1, T2, T3, T4, Dx, Dy, Cx, Cy.
  assert (E1 : forall c0 a b d0, c0 + B2R k * (c0 + (a * cos (B2R rho) - b * sin (B2R rho)) - c0) + d0 = c0 + (zr * a - zi * b) + d0) by (intros; unfold zr, zi; ring).
  assert (E2 : forall c0 a b d0, c0 + B2R k * (c0 + (a * sin (B2R rho) + b * cos (B2R rho)) - c0) + d0 = c0 + (zi * a + zr * b) + d0) by (intros; unfold zr, zi; ring).
  rewrite E1, E2. split; apply Rabs_le; lra.
Qed.
Lemma fingers_split h : forall k, ~ In VeWait k -> exists m, fingers (k ++ VeWait :: h) = m ++ TvFrame :: fingers h /\ Forall (fun e => e <> TvFrame) m.
Proof.
  induction k as [|e k IH]; intros N; [exists []; split; [reflexivity|constructor]|].
  destruct IH as (m & Eq & F); [intros H; apply N; now right|]. cbn [app fingers].
  destruct e as [|b|x|w hh t|b|x| |p|mm| |]; try (exists m; split; [exact Eq|exact F]).
  - destruct (navigating _ _); [exists m; auto|]. exists (TvTouch t :: m). rewrite Eq. split; [reflexivity|]. constructor; [discriminate|exact F].
  - exfalso. apply N. now left.
Qed.
Lemma proper_down_report E atan2 h l : proper h -> down h l -> l <> [] -> exists i, report E atan2 h = Some i /\ mi_centre i = centre l /\ mi_touches i = List.length l.
Proof.
  intros P D Ne. destruct (C73_fingers E atan2 h P) as [_ F]. destruct (F l D) as [N C].
  destruct (report E atan2 h) as [i|]; [|exfalso; apply Ne, N; reflexivity]. exists i. destruct (C i eq_refl) as [? ?]. auto.
Qed.

Section Grip.
Context (E : Ext) (atan2 : f64 -> f64 -> f64) (scenes start : Z).
Notation session := (session E atan2 scenes start).
Notation view := (view E atan2 scenes start).
(** Between two ends of frames the fingers at [fs] that do not navigate move
    to [gs] and no finger is put down or lifted; [s] is the view before the
    second end of frame, [s'] the view after it. *)
Definition one_frame (es es' : list viewer_event) (s s' : shown) (fs gs : list (Z * point)) : Prop :=
  view (es ++ VeWait :: es') s /\ view ((es ++ VeWait :: es') ++ [VeWait]) s' /\ usual s /\ ~ In VeWait es' /\
  proper (fingers (rev (es ++ VeWait :: es'))) /\ changed (fingers (rev (es ++ VeWait :: es'))) = false /\
  down (fingers (rev es)) fs /\ down (fingers (rev (es ++ VeWait :: es'))) gs.
Lemma frame_report es es' s s' fs gs : one_frame es es' s s' fs gs -> fs <> [] -> gs <> [] ->
  exists v ss i, session ((es ++ VeWait :: es') ++ [VeWait]) = Ok (v, ss) /\ info (vw_touch v) = Some i /\ mi_centre i = centre gs /\
    mi_translation i = mkVec2 (fsub (px (centre gs)) (px (centre fs))) (fsub (py (centre gs)) (py (centre fs))) /\
    mi_zoom i = (if (1 <? List.length gs)%nat then fdiv (spread E gs) (spread E fs) else f1) /\
    mi_rotation i = fsub (heading atan2 gs) (heading atan2 fs).
Proof.
  intros (V & V' & _ & N & P & C & Df & Dg) Nf Ng. destruct (view_camera _ _ _ _ _ _ V') as (v & ss & R & _).
  pose proof (C73_viewer E atan2 scenes start _ _ _ R) as I. destruct (proper_down_report E atan2 _ _ P Dg Ng) as (i & Ri & Ci & _). rewrite Ri in I.
  exists v, ss, i. split; [exact R|]. split; [exact I|]. split; [exact Ci|].
  rewrite rev_app_distr in Ri, P, C, Dg. cbn [rev] in Ri, P, C, Dg. rewrite <- app_assoc in Ri, P, C, Dg. cbn [app] in Ri, P, C, Dg.
  destruct (fingers_split (rev es) (rev es')) as (m & Eq & F); [now rewrite <- in_rev|]. rewrite Eq in Ri, P, C, Dg.
  assert (Ph : proper (fingers (rev es))) by (intros t Ht; apply P, in_or_app; right; now right).
  destruct (proper_down_report E atan2 _ _ Ph Df Nf) as (i0 & R0 & _).
  apply (C73_movement E atan2 m (fingers (rev es)) i0 i fs gs P C F Df Dg R0 Ri).
Qed.
Lemma usual_place s v : usual s -> bounded_by 8192 v -> bounded_by 1200000 (moved (sh_transform s) v).
Proof.
  intros (_ & (B1 & B2 & B3 & B4) & B5 & B6) [V1 V2].
  assert (D : forall a b c, Rabs a <= 64 -> Rabs b <= 64 -> Rabs c <= 65536 -> Rabs (a * fst v + b * snd v + c) <= 1200000).
  { intros a b c Ha Hb Hc. assert (X : Rabs (a * fst v) <= 64 * 8192) by (rewrite Rabs_mult; apply Rmult_le_compat; auto using Rabs_pos).
    assert (Y : Rabs (b * snd v) <= 64 * 8192) by (rewrite Rabs_mult; apply Rmult_le_compat; auto using Rabs_pos). apply Rabs_le. apply Rabs_le_inv in X, Y, Hc. lra. }
  split; apply D; assumption.
Qed.
(** Two fingers: the picture moves with them as if held by them, but for the slip. *)
Theorem C93_two_fingers : forall es es' s s' i j p1 p2 q1 q2, accurate E -> keen E atan2 ->
  one_frame es es' s s' [(i, p1); (j, p2)] [(i, q1); (j, q2)] ->
  on_pad p1 -> on_pad p2 -> on_pad q1 -> on_pad q2 -> apart p1 p2 -> apart q1 q2 ->
  square (vminus (real_point q2) (real_point q1)) <= (39 / 10) ^ 2 * square (vminus (real_point p2) (real_point p1)) ->
  bounded_by 8000 (vminus (middle (real_point q1) (real_point q2)) (middle (real_point p1) (real_point p2))) ->
  tracks s s' (fun v => vplus (grip (real_point p1) (real_point p2) (real_point q1) (real_point q2) v) (slip (real_point p1) (real_point p2) (real_point q1) (real_point q2))).
Proof.
  intros es es' s s' i j p1 p2 q1 q2 A K H P1 P2 Q1 Q2 Ap Aq Hz Bd. pose proof H as (V & V' & U & _).
  destruct (frame_report _ _ _ _ _ _ H) as (v & ss & inf & R & I & Ec & Et & Ez & Er); [discriminate|discriminate|].
  cbn [List.length Nat.ltb Nat.leb] in Ez. pose proof (pinch_facts E atan2 i j p1 p2 q1 q2 K P1 P2 Q1 Q2 Ap Aq Hz) as G. cbv zeta in G. rewrite <- Et, <- Ez, <- Er, <- Ec in G.
  set (z := ratio _ _) in G. set (d := vminus (middle _ _) _) in *. set (c := middle (real_point q1) (real_point q2)) in *.
  assert (Bc : bounded_by 8000 c).
  { destruct Q1 as (_ & _ & B1 & B2), Q2 as (_ & _ & B3 & B4). unfold c, middle, bounded_by. cbn [fst snd] in *. split; apply Rabs_le; [apply Rabs_le_inv in B1, B3|apply Rabs_le_inv in B2, B4]; lra. }
  assert (Np : square (vminus (real_point p2) (real_point p1)) <> 0) by (unfold apart in Ap; lra).
  assert (Bz : Rabs (fst z) <= 4 /\ Rabs (snd z) <= 4).
  { assert (Lp : 0 < len (vminus (real_point p2) (real_point p1))) by (pose proof (len_ge 16 _ ltac:(lra) Ap); lra).
    apply ratio_bound; [exact Lp|]. apply Rsqr_incr_0; [|apply len_pos|lra]. unfold Rsqr.
    replace (4 * len (vminus (real_point p2) (real_point p1)) * (4 * len (vminus (real_point p2) (real_point p1)))) with (16 * (len (vminus (real_point p2) (real_point p1)) * len (vminus (real_point p2) (real_point p1)))) by ring.
    rewrite !len_sq. pose proof (square_pos (vminus (real_point p2) (real_point p1))). lra. }
  pose proof G as [Fk Fr Bk Br _ _ [Fdx Edx] [Fdy Edy] [Fcx Ecx] [Fcy Ecy]].
  destruct (C87_gesture E atan2 scenes start (es ++ VeWait :: es') s s' inf A V V' U) as [_ Fw]; auto.
  - exists v, ss. auto.
  - split; [exact Fcx|]. split; [exact Fcy|]. destruct Bc as [B1 B2]. unfold real_point, bounded_by. cbn [fst snd]. split; apply Rabs_le; [apply Rabs_le_inv in B1, Ecx|apply Rabs_le_inv in B2, Ecy]; lra.
  - split; [exact Fdx|]. split; [exact Fdy|]. destruct Bd as [B1 B2]. unfold real_point, bounded_by. cbn [fst snd px py]. split; apply Rabs_le; [apply Rabs_le_inv in B1, Edx|apply Rabs_le_inv in B2, Edy]; lra.
  - intros x Bx. specialize (Fw x Bx). pose proof (usual_place s x U Bx) as Bm. set (m := moved (sh_transform s) x) in *.
    pose proof (close_map z d c _ _ _ _ m G (proj1 Bz) (proj2 Bz) Bc Bm) as Cm. cbv beta. rewrite (grip_middle _ _ _ _ m Np). fold z c d. cbv beta in Fw.
    set (w1 := shifted _ _) in *. set (w2 := vplus (vplus c d) _) in *. set (w0 := moved _ _) in *. unfold within in *.
    destruct Fw as [F1 F2], Cm as [C1 C2]. split; apply Rabs_le; [apply Rabs_le_inv in F1, C1|apply Rabs_le_inv in F2, C2]; lra.
Qed.
(** It stays under the fingers if their middle stays, or if they move alike.
    Missing: other movements, see [C93_refuted]. *)
Theorem C93_stays_partial : forall es es' s s' i j p1 p2 q1 q2, accurate E -> keen E atan2 ->
  one_frame es es' s s' [(i, p1); (j, p2)] [(i, q1); (j, q2)] ->
  on_pad p1 -> on_pad p2 -> on_pad q1 -> on_pad q2 -> apart p1 p2 -> apart q1 q2 ->
  square (vminus (real_point q2) (real_point q1)) <= (39 / 10) ^ 2 * square (vminus (real_point p2) (real_point p1)) ->
  bounded_by 8000 (vminus (middle (real_point q1) (real_point q2)) (middle (real_point p1) (real_point p2))) ->
  middle (real_point q1) (real_point q2) = middle (real_point p1) (real_point p2) \/
  vminus (real_point q2) (real_point q1) = vminus (real_point p2) (real_point p1) ->
  tracks s s' (grip (real_point p1) (real_point p2) (real_point q1) (real_point q2)).
Proof.
  intros es es' s s' i j p1 p2 q1 q2 A K H P1 P2 Q1 Q2 Ap Aq Hz Bd Or.
  pose proof (C93_two_fingers es es' s s' i j p1 p2 q1 q2 A K H P1 P2 Q1 Q2 Ap Aq Hz Bd) as T.
  assert (S : slip (real_point p1) (real_point p2) (real_point q1) (real_point q2) = (0, 0)).
  { unfold slip. cbv zeta. destruct Or as [M|M].
    - rewrite M. unfold vminus, times. cbn [fst snd]. f_equal; ring.
    - rewrite M. assert (Np : square (vminus (real_point p2) (real_point p1)) <> 0) by (unfold apart in Ap; lra).
      set (u := vminus (real_point p2) (real_point p1)) in *. assert (Rt : ratio u u = (1, 0)) by (unfold ratio, square in *; f_equal; field; exact Np).
      rewrite Rt. unfold vminus, times. cbn [fst snd]. f_equal; ring. }
  rewrite S in T. intros x Bx. specialize (T x Bx). cbv beta in T. set (g := grip _ _ _ _ _) in *. unfold vplus in T. cbn [fst snd] in T. rewrite !Rplus_0_r in T. exact T.
Qed.
(** One finger: the picture moves as it does. *)
Lemma mean1 x : fin x -> Rabs (B2R x) <= 8000 -> fsub (mean [x]) x = f0 /\ approx (mean [x]) (B2R x) 0.
Proof.
  intros F B. unfold mean. cbn [fold_left List.length].
  assert (O : fdiv f1 (f_of_Z (Z.of_nat 1)) = f1) by (apply B2SF_inj; vm_compute; reflexivity). rewrite O.
  destruct x as [s|s| |s m e H]; try discriminate F.
  - split; [destruct s; apply B2SF_inj; vm_compute; reflexivity|]. apply near_exact; destruct s; try (vm_compute; reflexivity); rewrite <- SF2R_B2SF; vm_compute; reflexivity.
  - change (fadd f0 (B754_finite s m e H)) with (B754_finite s m e H : f64). set (x := B754_finite s m e H : f64) in *.
    destruct (fmul_R x f1 F eq_refl) as [Eq Fm]; [rewrite f1_R, Rmult_1_r; pose proof big_range; lra|]. rewrite f1_R, Rmult_1_r, rnd_f64 in Eq.
    assert (X : fmul x f1 = x).
    { apply B2R_inj; [|reflexivity|exact Eq]. destruct (fmul x f1) as [t|t| |t n g J]; try discriminate Fm; [|reflexivity]. exfalso.
      cbn [B2R] in Eq. symmetry in Eq. apply eq_0_F2R in Eq. destruct s; discriminate. }
    rewrite X. split; [apply (fsub_diag x F)|]. now apply near_exact.
Qed.
Theorem C93_one_finger : forall es es' s s' i p q, accurate E -> keen E atan2 ->
  one_frame es es' s s' [(i, p)] [(i, q)] -> on_pad p -> on_pad q -> bounded_by 8000 (vminus (real_point q) (real_point p)) ->
  tracks s s' (shifted (vminus (real_point q) (real_point p))).
Proof.
  intros es es' s s' i p q A K H P Q Bd. pose proof H as (V & V' & U & _).
  destruct (frame_report _ _ _ _ _ _ H) as (v & ss & inf & R & I & Ec & Et & Ez & Er); [discriminate|discriminate|].
  cbn [List.length Nat.ltb Nat.leb] in Ez.
  destruct P as (Fpx & Fpy & Bpx & Bpy), Q as (Fqx & Fqy & Bqx & Bqy). unfold real_point in Bpx, Bpy, Bqx, Bqy. cbn [fst snd] in *.
  destruct (mean1 _ Fpx Bpx) as [Zpx Apx]. destruct (mean1 _ Fpy Bpy) as [Zpy Apy]. destruct (mean1 _ Fqx Bqx) as [Zqx Aqx]. destruct (mean1 _ Fqy Bqy) as [Zqy Aqy].
  unfold centre, heading in Et, Er, Ec. unfold centre in Er. cbn [map snd px py] in Et, Er, Ec. rewrite Zpx, Zpy, Zqx, Zqy in Er.
  assert (Er0 : mi_rotation inf = f0) by (rewrite Er; apply (fsub_diag _ (kn_zero _ _ K))).
  destruct Bd as [Bd1 Bd2]. unfold vminus, real_point in Bd1, Bd2. cbn [fst snd] in Bd1, Bd2.
  assert (D : forall m n x y : f64, approx m (B2R x) 0 -> approx n (B2R y) 0 -> Rabs (B2R x) <= 8000 -> Rabs (B2R y) <= 8000 -> approx (fsub m n) (B2R x - B2R y) (/ 10000000000)).
  { intros m n x y Hm Hn Bx By. eapply (approx_sub _ _ _ _ 0 0 16000); [exact Hm|exact Hn|lra|lra|unfold u52; lra]. }
  destruct (D _ _ (px q) (px p) Aqx Apx Bqx Bpx) as [Fdx Edx]. destruct (D _ _ (py q) (py p) Aqy Apy Bqy Bpy) as [Fdy Edy].
  destruct Aqx as [Fcx Ecx], Aqy as [Fcy Ecy].
  destruct (C87_gesture E atan2 scenes start (es ++ VeWait :: es') s s' inf A V V' U) as [_ Fw]; auto.
  - exists v, ss. auto.
  - rewrite Ec. split; [exact Fcx|]. split; [exact Fcy|]. unfold real_point, bounded_by. cbn [fst snd px py]. split; apply Rabs_le; [apply Rabs_le_inv in Ecx, Bqx|apply Rabs_le_inv in Ecy, Bqy]; lra.
  - rewrite Et. cbn [vx vy]. split; [exact Fdx|]. split; [exact Fdy|]. unfold real_point, bounded_by. cbn [fst snd px py]. split; apply Rabs_le; [apply Rabs_le_inv in Edx, Bd1|apply Rabs_le_inv in Edy, Bd2]; lra.
  - now rewrite Ez.
  - rewrite Ez, f1_R. lra.
  - now rewrite Er0.
  - rewrite Er0, f0_R, Rabs_R0. lra.
  - intros x Bx. specialize (Fw x Bx). set (m := moved (sh_transform s) x) in *. rewrite Ez, Er0, f1_R, f0_R, Et in Fw.
    unfold shifted, enlarged, spun, vplus, vminus, real_vec2, within in *. cbn [fst snd vx vy] in *. rewrite cos_0, sin_0 in Fw. unfold real_point in *. cbn [fst snd] in *.
    destruct Fw as [F1 F2]. split; apply Rabs_le; [apply Rabs_le_inv in F1, Edx|apply Rabs_le_inv in F2, Edy]; lra.
Qed.
End Grip.

(** A library with good lengths and directions. *)
Lemma e39 : bpow radix2 (-39) = / 549755813888.
Proof. reflexivity. Qed.
Definition round39 (r : R) : f64 := fnorm (ZnearestE (r * bpow radix2 39)) (-39).
Lemma round39_near r : Rabs r <= 24000 -> approx (round39 r) r (/ 100000000000).
Proof.
  intros B. unfold round39. set (z := ZnearestE (r * bpow radix2 39)).
  pose proof (Znearest_half (fun x => negb (Z.even x)) (r * bpow radix2 39)) as H. change (Znearest _ _) with z in H.
  assert (D : Rabs (IZR z * bpow radix2 (-39) - r) <= / 2 * / 549755813888).
  { replace (IZR z * bpow radix2 (-39) - r) with (- (r * bpow radix2 39 - IZR z) * bpow radix2 (-39)).
    2:{ assert (P : bpow radix2 39 * bpow radix2 (-39) = 1) by (rewrite <- bpow_plus; reflexivity).
        transitivity (IZR z * bpow radix2 (-39) - r * (bpow radix2 39 * bpow radix2 (-39))); [ring|]. rewrite P. ring. }
    rewrite Rabs_mult, Rabs_Ropp, (Rabs_pos_eq (bpow _ _)) by apply bpow_ge_0. rewrite e39. apply Rmult_le_compat_r; lra. }
  assert (Bz : Rabs (IZR z * bpow radix2 (-39)) <= 24001).
  { replace (IZR z * bpow radix2 (-39)) with ((IZR z * bpow radix2 (-39) - r) + r) by ring.
    apply Rle_trans with (1 := Rabs_triang _ _). lra. }
  pose proof (binary_normalize_correct 53 1024 _ _ mode_NE z (-39) false) as N. cbv zeta in N.
  unfold F2R in N. cbn [Fnum Fexp] in N. rewrite Rlt_bool_true in N.
  2:{ apply Rle_lt_trans with (bpow radix2 30); [|apply bpow_lt; lia]. apply rnd_bpow_le; [lia|].
      change (bpow radix2 30) with 1073741824. lra. }
  destruct N as (Nr & Nf & _). split; [exact Nf|]. unfold fnorm. rewrite Nr.
  apply Rle_trans with (1 := triangle _ _ _ _ _ (rnd_error _) D). unfold u52. lra.
Qed.
Definition E_keen : Ext := {|
  x_sin := x_sin E_accurate; x_cos := x_cos E_accurate; x_tan := x_tan E_accurate;
  x_powf := x_powf E0; x_hypot := fun x y => round39 (sqrt (B2R x ^ 2 + B2R y ^ 2)); x_solve_cubic := x_solve_cubic E0; x_rrect_path := x_rrect_path E0;
  x_ellipse_path := x_ellipse_path E0; x_arclen := x_arclen E0; x_inv_arclen := x_inv_arclen E0;
  x_subsegment := x_subsegment E0; x_color_mul_alpha := x_color_mul_alpha E0; x_brush_mul_alpha := x_brush_mul_alpha E0 |}.
Definition angle (y x : R) : R := let t := acos (x / sqrt (x ^ 2 + y ^ 2)) in if Rle_dec 0 y then t else - t.
Definition atan2_keen (y x : f64) : f64 := round45 (angle (B2R y) (B2R x)).
Lemma angle_bound y x : Rabs (angle y x) <= 4.
Proof.
  unfold angle. pose proof (acos_bound (x / sqrt (x ^ 2 + y ^ 2))) as B. pose proof pi_bounds. cbv zeta. destruct (Rle_dec 0 y); apply Rabs_le; lra.
Qed.
Lemma angle_of y x : 1 <= x ^ 2 + y ^ 2 -> x = sqrt (x ^ 2 + y ^ 2) * cos (angle y x) /\ y = sqrt (x ^ 2 + y ^ 2) * sin (angle y x).
Proof.
  intros H. set (r := sqrt (x ^ 2 + y ^ 2)). assert (Rr : r * r = x ^ 2 + y ^ 2) by (apply sqrt_sqrt; lra).
  assert (P : 0 < r) by (apply sqrt_lt_R0; lra).
  assert (Ic : -1 <= x / r <= 1).
  { split; apply Rmult_le_reg_r with r; auto; unfold Rdiv; rewrite Rmult_assoc, Rinv_l by lra; nra. }
  assert (Cc : cos (angle y x) = x / r).
  { unfold angle. fold r. cbv zeta. destruct (Rle_dec 0 y); rewrite ?cos_neg; now apply cos_acos. }
  assert (Sa : sin (acos (x / r)) = Rabs y / r).
  { rewrite sin_acos by exact Ic. replace (1 - Rsqr (x / r)) with (Rsqr (Rabs y / r)).
    - rewrite sqrt_Rsqr; [reflexivity|]. apply Rmult_le_pos; [apply Rabs_pos|left; now apply Rinv_0_lt_compat].
    - unfold Rsqr. replace (Rabs y / r * (Rabs y / r)) with ((Rabs y * Rabs y) / (r * r)) by (field; lra). replace (x / r * (x / r)) with (x * x / (r * r)) by (field; lra).
      replace (Rabs y * Rabs y) with (y * y) by (change (Rsqr y = Rsqr (Rabs y)); apply Rsqr_abs). rewrite Rr. field. lra. }
  assert (Sc : sin (angle y x) = y / r).
  { unfold angle. fold r. cbv zeta. destruct (Rle_dec 0 y) as [L|L]; [now rewrite Sa, Rabs_pos_eq by exact L|].
    rewrite sin_neg, Sa, Rabs_left by lra. field. lra. }
  rewrite Cc, Sc. split; field; lra.
Qed.
Lemma E_keen_ok : accurate E_keen /\ keen E_keen atan2_keen.
Proof.
  split; [destruct E_accurate_ok; constructor; assumption|]. constructor.
  - intros x y _ _ [Bx By]. cbn [fst snd] in *. cbn [E_keen x_hypot]. apply round39_near. rewrite Rabs_pos_eq by apply sqrt_pos.
    apply Rsqr_incr_0; [|apply sqrt_pos|lra]. rewrite Rsqr_sqrt by nra. apply Rabs_le_inv in Bx, By. unfold Rsqr.
    assert (Q : forall a, -16384 <= a <= 16384 -> a ^ 2 <= 268435456) by (intros; nra). pose proof (Q _ Bx). pose proof (Q _ By). lra.
  - intros x y _ _ _ H. exists (angle (B2R y) (B2R x)). split; [apply angle_bound|]. split; [|now apply angle_of].
    apply round45_near. pose proof (angle_bound (B2R y) (B2R x)). lra.
  - unfold atan2_keen. apply round45_near. pose proof (angle_bound (B2R f0) (B2R f0)). lra.
Qed.
(** Two fingers at the height of 100 are put down in a frame and moved in the next; the space bar resets the view in between. *)
Definition tch (ph : phase) (i : Z) (x : f64) : viewer_event := VeTouch (f_of_Z 1000) (f_of_Z 1000) (mkTouchEv ph i (mkPoint x (f_of_Z 100))).
Definition put (x1 x2 : f64) : list viewer_event := [VeRedraw 16000; tch Started 1 x1; tch Started 2 x2].
Definition moves (x1 x2 : f64) : list viewer_event := [tch Moved 1 x1; tch Moved 2 x2; VeKey KSpace].
Definition at_100 (x1 x2 : f64) : list (Z * point) := [(1%Z, mkPoint x1 (f_of_Z 100)); (2%Z, mkPoint x2 (f_of_Z 100))].
Lemma fingers_put x1 x2 : fingers (rev (put x1 x2)) = [TvTouch (mkTouchEv Started 2 (mkPoint x2 (f_of_Z 100))); TvTouch (mkTouchEv Started 1 (mkPoint x1 (f_of_Z 100)))].
Proof.
  assert (Y : fltb (fdiv (fmul (f_of_Z 1000) (f_of_Z 2)) (f_of_Z 3)) (f_of_Z 100) = false) by (vm_compute; reflexivity).
  unfold put, tch. cbn [rev app fingers navigating te_id te_phase te_pos py Z.eqb Pos.eqb]. rewrite Y. reflexivity.
Qed.
Lemma fingers_moves x1 x2 a1 a2 : fingers (rev (put x1 x2 ++ VeWait :: moves a1 a2)) =
  [TvTouch (mkTouchEv Moved 2 (mkPoint a2 (f_of_Z 100))); TvTouch (mkTouchEv Moved 1 (mkPoint a1 (f_of_Z 100))); TvFrame] ++ fingers (rev (put x1 x2)).
Proof.
  assert (Y : fltb (fdiv (fmul (f_of_Z 1000) (f_of_Z 2)) (f_of_Z 3)) (f_of_Z 100) = false) by (vm_compute; reflexivity).
  unfold put, moves, tch. cbn [rev app fingers navigating te_id te_phase te_pos py Z.eqb Pos.eqb]. rewrite Y. reflexivity.
Qed.
Lemma held_frame E atan2 x1 x2 a1 a2 : exists s s', one_frame E atan2 1 0 (put x1 x2) (moves a1 a2) s s' (at_100 x1 x2) (at_100 a1 a2) /\ sh_transform s = affine_identity.
Proof.
  pose (init := put x1 x2 ++ [VeWait; tch Moved 1 a1; tch Moved 2 a2]).
  destruct (view_exists E atan2 1 0 init 16000) as [s0 V0].
  { split; [lia|]. split; [cbn; lia|]. intros m H. repeat (destruct H as [H|H]; [try discriminate; injection H as <-; lia|]). destruct H. }
  { vm_compute. reflexivity. }
  destruct (view_exists E atan2 1 0 (init ++ [VeKey KSpace]) 16000) as [s V].
  { split; [lia|]. split; [cbn; lia|]. intros m H. repeat (destruct H as [H|H]; [try discriminate; injection H as <-; lia|]). destruct H. }
  { vm_compute. reflexivity. }
  destruct (view_exists E atan2 1 0 ((init ++ [VeKey KSpace]) ++ [VeWait]) 16000) as [s' V'].
  { split; [lia|]. split; [cbn; lia|]. intros m H. repeat (destruct H as [H|H]; [try discriminate; injection H as <-; lia|]). destruct H. }
  { vm_compute. reflexivity. }
  pose proof (C87_reset _ _ _ _ _ _ _ V0 V) as I. exists s, s'. split; [|exact I].
  change (init ++ [VeKey KSpace]) with (put x1 x2 ++ VeWait :: moves a1 a2) in V, V'. unfold one_frame. rewrite fingers_moves, fingers_put.
  split; [exact V|]. split; [exact V'|]. split; [now apply usual_identity|]. split; [intros [H|[H|[H|[]]]]; discriminate|].
  split; [intros t H; cbn [app] in H; repeat (destruct H as [H|H]; [try discriminate; injection H as <-; cbn [te_id]; lia|]); destruct H|].
  split; [reflexivity|]. split.
  - apply down_two; [lia|]. intros id. reflexivity.
  - apply down_two; [lia|]. intros id. cbn [app finger te_id te_phase te_pos]. destruct (2 =? id)%Z eqn:E2; [apply Z.eqb_eq in E2; subst id; reflexivity|]. destruct (1 =? id)%Z eqn:E1; [apply Z.eqb_eq in E1; subst id; reflexivity|reflexivity].
Qed.
Lemma pad_z x y : (Z.abs x <= 8000)%Z -> (Z.abs y <= 8000)%Z -> on_pad (at_z x y).
Proof.
  intros Hx Hy. unfold on_pad, at_z, bounded_by, real_point. cbn [px py fst snd]. destruct (f_of_Z_R x ltac:(lia)) as [-> Fx]. destruct (f_of_Z_R y ltac:(lia)) as [-> Fy].
  rewrite <- !abs_IZR. repeat split; auto; now apply IZR_le.
Qed.
Lemma real_z x y : (Z.abs x <= 8000)%Z -> (Z.abs y <= 8000)%Z -> real_point (at_z x y) = (IZR x, IZR y).
Proof. intros Hx Hy. unfold at_z, real_point. cbn [px py]. destruct (f_of_Z_R x ltac:(lia)) as [-> Fx]. destruct (f_of_Z_R y ltac:(lia)) as [-> Fy]. reflexivity. Qed.
(** Two fingers that move apart about their middle. *)
Example C93_applies : exists s s', accurate E_keen /\ keen E_keen atan2_keen /\
  one_frame E_keen atan2_keen 1 0 (put (f_of_Z 100) (f_of_Z 300)) (moves (f_of_Z 50) (f_of_Z 350)) s s' [(1%Z, at_z 100 100); (2%Z, at_z 300 100)] [(1%Z, at_z 50 100); (2%Z, at_z 350 100)] /\
  (forall x, In x [100; 300; 50; 350]%Z -> on_pad (at_z x 100)) /\ apart (at_z 100 100) (at_z 300 100) /\ apart (at_z 50 100) (at_z 350 100) /\
  square (vminus (real_point (at_z 350 100)) (real_point (at_z 50 100))) <= (39 / 10) ^ 2 * square (vminus (real_point (at_z 300 100)) (real_point (at_z 100 100))) /\
  middle (real_point (at_z 50 100)) (real_point (at_z 350 100)) = middle (real_point (at_z 100 100)) (real_point (at_z 300 100)) /\
  grip (real_point (at_z 100 100)) (real_point (at_z 300 100)) (real_point (at_z 50 100)) (real_point (at_z 350 100)) (200, 300) = (200, 400) /\
  moved (sh_transform s) (200, 300) = (200, 300).
Proof.
  destruct E_keen_ok as [A K]. destruct (held_frame E_keen atan2_keen (f_of_Z 100) (f_of_Z 300) (f_of_Z 50) (f_of_Z 350)) as (s & s' & H & I).
  exists s, s'. split; [exact A|]. split; [exact K|]. split; [exact H|].
  split; [intros x Hx; apply pad_z; [|lia]; repeat (destruct Hx as [<-|Hx]; [lia|]); destruct Hx|].
  unfold apart. rewrite !real_z by lia. unfold grip, ratio, times, middle, square, vminus, vplus. cbn [fst snd].
  split; [lra|]. split; [lra|]. split; [lra|]. split; [f_equal; lra|]. split; [f_equal; lra|].
  rewrite I. unfold moved. cbn [affine_identity aa ab ac ad ae af fst snd]. rewrite f0_R, f1_R. f_equal; ring.
Qed.
(** C93 as stated fails: two fingers that move apart while both move to the
    right leave a picture 150 pixels away. *)
Theorem C93_refuted : ~ forall E atan2 scenes start es es' s s' i j p1 p2 q1 q2, accurate E -> keen E atan2 ->
  one_frame E atan2 scenes start es es' s s' [(i, p1); (j, p2)] [(i, q1); (j, q2)] ->
  on_pad p1 -> on_pad p2 -> on_pad q1 -> on_pad q2 -> apart p1 p2 -> apart q1 q2 ->
  square (vminus (real_point q2) (real_point q1)) <= (39 / 10) ^ 2 * square (vminus (real_point p2) (real_point p1)) ->
  bounded_by 8000 (vminus (middle (real_point q1) (real_point q2)) (middle (real_point p1) (real_point p2))) ->
  tracks s s' (grip (real_point p1) (real_point p2) (real_point q1) (real_point q2)).
Proof.
  intros F. destruct E_keen_ok as [A K]. destruct (held_frame E_keen atan2_keen (f_of_Z 100) (f_of_Z 200) (f_of_Z 200) (f_of_Z 400)) as (s & s' & H & _).
  specialize (F E_keen atan2_keen 1%Z 0%Z _ _ s s' 1%Z 2%Z (at_z 100 100) (at_z 200 100) (at_z 200 100) (at_z 400 100) A K H).
  pose proof (C93_two_fingers E_keen atan2_keen 1 0 _ _ s s' 1 2 (at_z 100 100) (at_z 200 100) (at_z 200 100) (at_z 400 100) A K H) as G.
  assert (Ap : apart (at_z 100 100) (at_z 200 100)) by (unfold apart; rewrite !real_z by lia; unfold square, vminus; cbn [fst snd]; lra).
  assert (Aq : apart (at_z 200 100) (at_z 400 100)) by (unfold apart; rewrite !real_z by lia; unfold square, vminus; cbn [fst snd]; lra).
  assert (Hz : square (vminus (real_point (at_z 400 100)) (real_point (at_z 200 100))) <= (39 / 10) ^ 2 * square (vminus (real_point (at_z 200 100)) (real_point (at_z 100 100))))
    by (rewrite !real_z by lia; unfold square, vminus; cbn [fst snd]; lra).
  assert (Bd : bounded_by 8000 (vminus (middle (real_point (at_z 200 100)) (real_point (at_z 400 100))) (middle (real_point (at_z 100 100)) (real_point (at_z 200 100)))))
    by (rewrite !real_z by lia; unfold bounded_by, middle, vminus; cbn [fst snd]; split; apply Rabs_le; lra).
  assert (P1 := pad_z 100 100 ltac:(lia) ltac:(lia)). assert (P2 := pad_z 200 100 ltac:(lia) ltac:(lia)). assert (P3 := pad_z 400 100 ltac:(lia) ltac:(lia)).
  specialize (F P1 P2 P2 P3 Ap Aq Hz Bd (0, 0)). specialize (G P1 P2 P2 P3 Ap Aq Hz Bd (0, 0)).
  assert (B0 : bounded_by 8192 (0, 0)) by (unfold bounded_by; cbn [fst snd]; rewrite Rabs_R0; lra). destruct (F B0) as [F1 _], (G B0) as [G1 _].
  cbv beta in G1. set (g := grip _ _ _ _ _) in *. set (w := fst (moved (sh_transform s') _)) in *.
  assert (S : slip (real_point (at_z 100 100)) (real_point (at_z 200 100)) (real_point (at_z 200 100)) (real_point (at_z 400 100)) = (-150, 0)).
  { rewrite !real_z by lia. unfold slip, ratio, times, middle, square, vminus. cbn [fst snd]. f_equal; lra. }
  rewrite S in G1. unfold vplus in G1. cbn [fst snd] in G1. apply Rabs_le_inv in F1, G1. lra.
Qed.
