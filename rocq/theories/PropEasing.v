(** C79: between two keyframes a value follows the easing curve. *)
From Coq Require Import ZArith Reals Bool List Arith String Lia Lra Psatz.
From Flocq Require Import Core BinarySingleNaN Relative Plus_error.
From Verif Require Import F64 F64Facts Kurbo Value ValueSpec ValueFacts ValueFacts2 GeometrySpec PropGeometry PropStar EasingSpec.
Import ListNotations.
Open Scope R_scope.

(** * Numbers *)
Lemma fmax_R x y : fin x -> fin y -> fin (fmax x y) /\ B2R (fmax x y) = Rmax (B2R x) (B2R y).
Proof.
  intros Fx Fy. unfold fmax.
  replace (is_nan x) with false by (destruct x; try discriminate Fx; reflexivity).
  replace (is_nan y) with false by (destruct y; try discriminate Fy; reflexivity).
  destruct (fltb x y) eqn:L.
  - apply fltb_lt in L; auto. split; [exact Fy|]. rewrite Rmax_right; lra.
  - apply fltb_false in L; auto. split; [exact Fx|]. rewrite Rmax_left; lra.
Qed.
Lemma exact_Z z : (Z.abs z <= 2 ^ 53)%Z -> approx (f_of_Z z) (IZR z) 0.
Proof. intros H. destruct (f_of_Z_R z H). now apply near_exact. Qed.
Lemma exact_0 : approx f0 0 0.
Proof. now apply near_exact. Qed.
Lemma exact_1 : approx f1 1 0.
Proof. apply near_exact; [reflexivity|apply f1_R]. Qed.
Lemma exact_self x : fin x -> approx x (B2R x) 0.
Proof. intros F. now apply near_exact. Qed.
Lemma approx_abs x r e : approx x r e -> approx (fabs x) (Rabs r) e.
Proof.
  intros [F H]. split; [now apply fabs_fin|]. rewrite fabs_R. apply Rle_trans with (2 := H).
  apply Rabs_triang_inv2.
Qed.
Lemma f_1em12_R : approx f_1em12 (/ 1000000000000) (/ 4000000000000000).
Proof.
  unfold f_1em12, flit. replace (/ 1000000000000) with (1 / 1000000000000) by lra.
  destruct (f_of_Z_R 1000000000000 ltac:(lia)) as [R F].
  apply (approx_div _ _ _ _ 0 1); [apply (exact_Z 1); lia|exact F|exact R|lra|rewrite Rabs_pos_eq; lra|lra|unfold u52; lra].
Qed.
Lemma between_fin lo r hi : fin lo -> fin hi -> fleb lo r = true -> fleb r hi = true -> fin r.
Proof.
  intros Fl Fh H1 H2. destruct r as [s|[]| |s m e Hb]; try reflexivity;
    [destruct lo as [[]|[]| |[]]|destruct hi as [[]|[]| |[]]|destruct lo as [[]|[]| |[]]]; simpl in *; discriminate.
Qed.
Ltac bnd := apply Rabs_le; lra.

(** * The curve *)
Lemma cubic_0 p q : cubic p q 0 = 0. Proof. unfold cubic. ring. Qed.
Lemma cubic_1 p q : cubic p q 1 = 1. Proof. unfold cubic. ring. Qed.
Lemma cubic_poly p q u : cubic p q u = 3 * p * u + 3 * (q - 2 * p) * u ^ 2 + (1 - 3 * q + 3 * p) * u ^ 3.
Proof. unfold cubic. ring. Qed.
Lemma Rabs_mult_le a b x y : Rabs a <= x -> Rabs b <= y -> Rabs (a * b) <= x * y.
Proof. intros A B. rewrite Rabs_mult. apply Rmult_le_compat; auto using Rabs_pos. Qed.
Lemma Rabs_plus_le a b x y : Rabs a <= x -> Rabs b <= y -> Rabs (a + b) <= x + y.
Proof. intros A B. apply Rle_trans with (1 := Rabs_triang _ _). lra. Qed.
(** A parameter just outside of the range may be moved into it. *)
Definition clamped (r : R) : R := Rmax 0 (Rmin 1 r).
Lemma clamped_range r : 0 <= clamped r <= 1.
Proof. unfold clamped, Rmax, Rmin. destruct (Rle_dec 1 r), (Rle_dec 0 _); lra. Qed.
Lemma clamped_near p q r d : Rabs p <= 16 -> Rabs q <= 16 -> 0 <= d <= / 1000 -> - d <= r <= 1 + d ->
  Rabs (cubic p q (clamped r) - cubic p q r) <= 64 * d.
Proof.
  intros Hp Hq Hd Hr. unfold clamped, Rmax, Rmin. destruct (Rle_dec 1 r) as [G|G].
  - destruct (Rle_dec 0 1); [|lra]. rewrite cubic_1.
    replace (1 - cubic p q r) with ((1 - r) * ((1 + r + r * r) + (- (3 * r * (1 - r)) * p + - (3 * r * r) * q))) by (unfold cubic; ring).
    replace (64 * d) with (d * 64) by ring. apply Rabs_mult_le; [apply Rabs_le; lra|].
    apply Rle_trans with (4 + (1 / 100 * 16 + 31 / 10 * 16)); [|lra].
    assert (1 <= r * r <= 101 / 100) by nra.
    apply Rabs_plus_le; [bnd|]. apply Rabs_plus_le; apply Rabs_mult_le; auto; apply Rabs_le; nra.
  - destruct (Rle_dec 0 r) as [L|L].
    + rewrite Rminus_eq_0, Rabs_R0. lra.
    + rewrite cubic_0.
      replace (0 - cubic p q r) with (- r * (r * r + (3 * (1 - r) * (1 - r) * p + 3 * r * (1 - r) * q))) by (unfold cubic; ring).
      replace (64 * d) with (d * 64) by ring. apply Rabs_mult_le; [bnd|].
      apply Rle_trans with (1 + (31 / 10 * 16 + 1 / 10 * 16)); [|lra].
      apply Rabs_plus_le; [apply Rabs_le; nra|]. apply Rabs_plus_le; apply Rabs_mult_le; auto; apply Rabs_le; nra.
Qed.

(** * The coefficients *)
Section param.
  Variables x1 x2 : f64.
  Hypotheses (F1 : fin x1) (F2 : fin x2) (B1 : Rabs (B2R x1) <= 4) (B2 : Rabs (B2R x2) <= 4).
  Let p := B2R x1. Let q := B2R x2.
  Let tiny := / 10000000000000.
  Lemma c1_ok : approx (tween_c1 x1) (3 * p) tiny /\ Rabs (3 * p) <= 12.
  Proof.
    apply Rabs_le_inv in B1. split; [|unfold p; bnd].
    unfold tween_c1. assert (S : approx (fsub x1 f0) (p - 0) (8 * u52)).
    { apply (approx_sub _ _ _ _ 0 0 4); [now apply exact_self|apply exact_0| | |unfold u52; lra]; [|lra].
      rewrite Rabs_R0. assert (Rabs p <= 4) by (unfold p; bnd). lra. }
    replace (3 * p) with (3 * (p - 0)) by ring.
    apply (near_mul _ _ _ _ 0 (8 * u52) 3 4); [apply (exact_Z 3); lia|exact S|bnd|unfold p; bnd| |  |]; unfold tiny, u52; lra.
  Qed.
  Lemma c2_ok : approx (tween_c2 x1 x2) (3 * (q - 2 * p)) tiny /\ Rabs (3 * (q - 2 * p)) <= 36.
  Proof.
    apply Rabs_le_inv in B1, B2. assert (Bp : Rabs p <= 4) by (unfold p; bnd). assert (Bq : Rabs q <= 4) by (unfold q; bnd).
    split; [|unfold p, q; bnd]. unfold tween_c2.
    assert (M : approx (fmul (f_of_Z 2) x1) (2 * p) (16 * u52)).
    { apply (near_mul _ _ _ _ 0 0 2 4); [apply (exact_Z 2); lia|now apply exact_self|bnd|auto| | |]; unfold u52; lra. }
    assert (S : approx (fsub x2 (fmul (f_of_Z 2) x1)) (q - 2 * p) (32 * u52)).
    { apply (approx_sub _ _ _ _ 0 (16 * u52) 12); [now apply exact_self|exact M| | |unfold u52; lra]; [|unfold u52; lra].
      assert (Rabs (2 * p) <= 8) by (unfold p; bnd). lra. }
    assert (A : approx (fadd (fsub x2 (fmul (f_of_Z 2) x1)) f0) (q - 2 * p + 0) (64 * u52)).
    { apply (near_add _ _ _ _ (32 * u52) 0 12); [exact S|apply exact_0| | |unfold u52; lra]; [|unfold u52; lra].
      rewrite Rabs_R0. assert (Rabs (q - 2 * p) <= 12) by (unfold p, q; bnd). lra. }
    replace (q - 2 * p) with (q - 2 * p + 0) by ring.
    apply (near_mul _ _ _ _ 0 (64 * u52) 3 12); [apply (exact_Z 3); lia|exact A|bnd|unfold p, q; bnd| |  |]; unfold tiny, u52; lra.
  Qed.
  Lemma c3_ok : approx (tween_c3 x1 x2) (1 - 3 * q + 3 * p) tiny /\ Rabs (1 - 3 * q + 3 * p) <= 25.
  Proof.
    apply Rabs_le_inv in B1, B2. assert (Bp : Rabs p <= 4) by (unfold p; bnd). assert (Bq : Rabs q <= 4) by (unfold q; bnd).
    split; [|unfold p, q; bnd]. unfold tween_c3.
    assert (M : approx (fmul (f_of_Z 3) x1) (3 * p) (16 * u52)).
    { apply (near_mul _ _ _ _ 0 0 3 4); [apply (exact_Z 3); lia|now apply exact_self|bnd|auto| | |]; unfold u52; lra. }
    assert (M' : approx (fmul (f_of_Z 3) x2) (3 * q) (16 * u52)).
    { apply (near_mul _ _ _ _ 0 0 3 4); [apply (exact_Z 3); lia|now apply exact_self|bnd|auto| | |]; unfold u52; lra. }
    assert (S : approx (fsub f1 (fmul (f_of_Z 3) x2)) (1 - 3 * q) (32 * u52)).
    { apply (approx_sub _ _ _ _ 0 (16 * u52) 13); [apply exact_1|exact M'| | |unfold u52; lra]; [|unfold u52; lra].
      rewrite (Rabs_pos_eq 1) by lra. assert (Rabs (3 * q) <= 12) by (unfold q; bnd). lra. }
    assert (A : approx (fadd (fsub f1 (fmul (f_of_Z 3) x2)) (fmul (f_of_Z 3) x1)) (1 - 3 * q + 3 * p) (80 * u52)).
    { apply (near_add _ _ _ _ (32 * u52) (16 * u52) 25); [exact S|exact M| | |unfold u52; lra]; [|unfold u52; lra].
      assert (Rabs (1 - 3 * q) <= 13) by (unfold q; bnd). assert (Rabs (3 * p) <= 12) by (unfold p; bnd). lra. }
    replace (1 - 3 * q + 3 * p) with (1 - 3 * q + 3 * p - 0) by ring.
    apply (approx_sub _ _ _ _ (80 * u52) 0 25); [exact A|apply exact_0| | |unfold tiny, u52; lra]; [|unfold u52; lra].
    rewrite Rabs_R0. assert (Rabs (1 - 3 * q + 3 * p) <= 25) by (unfold p, q; bnd). lra.
  Qed.

  Variable t : f64.
  Hypotheses (Ft : fin t) (Bt : 0 < B2R t < 1).
  Lemma c0_ok : fin (fsub f0 t) /\ B2R (fsub f0 t) = - B2R t.
  Proof.
    destruct (fsub_R f0 t eq_refl Ft) as [R F].
    { rewrite f0_R. apply Rle_trans with 1; [bnd|]. pose proof big_range. lra. }
    split; [exact F|]. rewrite R, f0_R. assert (N : B2R (fneg t) = - B2R t) by (unfold fneg; apply B2R_Bopp).
    replace (0 - B2R t) with (B2R (fneg t)) by lra. rewrite rnd_f64. exact N.
  Qed.
  Lemma bounded_100 x r b : approx x r tiny -> Rabs r <= b -> b <= 99 -> Rabs (B2R x) <= 100.
  Proof. intros A Hr Hb. pose proof (near_bound _ _ _ _ A Hr). unfold tiny in *. lra. Qed.
  (** The polynomial is that of the curve. *)
  Lemma polynomial_near r : -1 <= r <= 2 ->
    Rabs (polynomial (fsub f0 t) (tween_c1 x1) (tween_c2 x1 x2) (tween_c3 x1 x2) r - (cubic p q r - B2R t)) <= 16 * tiny.
  Proof.
    intros Hr. destruct c1_ok as [[_ E1] _], c2_ok as [[_ E2] _], c3_ok as [[_ E3] _], c0_ok as [_ E0].
    unfold polynomial. rewrite E0, cubic_poly.
    set (a := B2R (tween_c1 x1)) in *. set (b := B2R (tween_c2 x1 x2)) in *. set (c := B2R (tween_c3 x1 x2)) in *.
    replace (_ - _) with ((a - 3 * p) * r + ((b - 3 * (q - 2 * p)) * r ^ 2 + (c - (1 - 3 * q + 3 * p)) * r ^ 3)) by ring.
    replace (16 * tiny) with (tiny * 2 + (tiny * 5 + tiny * 9)) by ring.
    apply Rabs_plus_le; [|apply Rabs_plus_le]; apply Rabs_mult_le; auto; apply Rabs_le; nra.
  Qed.
  Lemma eps_ok : let e := fmul f_1em12 (fmax (fmax (fmax (fmax (fabs f0) (fabs (tween_c1 x1))) (fabs (tween_c2 x1 x2))) (fabs (tween_c3 x1 x2))) f1) in
    fin e /\ / 2000000000000 <= B2R e <= / 20000000000.
  Proof.
    cbv zeta. destruct c1_ok as [A1 N1], c2_ok as [A2 N2], c3_ok as [A3 N3].
    assert (K : forall x r b, approx x r tiny -> Rabs r <= b -> b <= 37 -> fin (fabs x) /\ 0 <= B2R (fabs x) <= 38).
    { intros x r b A Hr Hb. pose proof (near_bound _ _ _ _ A Hr) as Q. split; [apply fabs_fin, A|].
      rewrite fabs_R. split; [apply Rabs_pos|]. unfold tiny in *. lra. }
    destruct (K _ _ _ A1 N1 ltac:(lra)) as [Fa Ra], (K _ _ _ A2 N2 ltac:(lra)) as [Fb Rb], (K _ _ _ A3 N3 ltac:(lra)) as [Fc Rc].
    assert (F0 : fin (fabs f0)) by reflexivity. assert (R0 : B2R (fabs f0) = 0) by (rewrite fabs_R, f0_R; apply Rabs_R0).
    destruct (fmax_R _ _ F0 Fa) as [G1 E1]. destruct (fmax_R _ _ G1 Fb) as [G2 E2]. destruct (fmax_R _ _ G2 Fc) as [G3 E3].
    destruct (fmax_R _ f1 G3 eq_refl) as [G4 E4]. set (m := fmax _ f1) in *.
    assert (Bm : 1 <= B2R m <= 38).
    { rewrite E4, E3, E2, E1, R0, f1_R. unfold Rmax. repeat destruct (Rle_dec _ _); lra. }
    assert (A : approx (fmul f_1em12 m) (/ 1000000000000 * B2R m) (/ 50000000000000)).
    { apply (near_mul _ _ _ _ (/ 4000000000000000) 0 (/ 1000000000000) 38); [apply f_1em12_R|now apply exact_self|bnd|bnd| | |]; unfold u52; lra. }
    destruct A as [Fe Ee]. split; [exact Fe|]. apply Rabs_le_inv in Ee. lra.
  Qed.
  (** The parameter found is right. *)
  Lemma param_ok E : solves E ->
    let r := tween_param E x1 x2 t in
    fin r /\ - / 10000000000 <= B2R r <= 1 + / 10000000000 /\ Rabs (cubic p q (B2R r) - B2R t) <= / 500000000.
  Proof.
    intros S r. unfold r, tween_param. cbv zeta.
    destruct c1_ok as [A1 N1], c2_ok as [A2 N2], c3_ok as [A3 N3], c0_ok as [G0 R0].
    pose proof (bounded_100 _ _ _ A1 N1 ltac:(lra)) as M1. pose proof (bounded_100 _ _ _ A2 N2 ltac:(lra)) as M2.
    pose proof (bounded_100 _ _ _ A3 N3 ltac:(lra)) as M3.
    assert (M0 : Rabs (B2R (fsub f0 t)) <= 100) by (rewrite R0; bnd).
    pose proof eps_ok as Ep. cbv zeta in Ep. set (eps := fmul f_1em12 _) in *. destruct Ep as [Fe Be].
    assert (Fn : fin (fneg eps)) by (unfold fneg; now rewrite is_finite_Bopp).
    assert (Rn : B2R (fneg eps) = - B2R eps) by (unfold fneg; now rewrite B2R_Bopp).
    assert (U : approx (fadd f1 eps) (1 + B2R eps) (/ 1000000000000000)).
    { apply (near_add _ _ _ _ 0 0 2); [apply exact_1|now apply exact_self| | |unfold u52; lra]; [|lra].
      rewrite !Rabs_pos_eq; lra. }
    destruct U as [Fu Ru]. apply Rabs_le_inv in Ru.
    destruct (find _ _) as [s|] eqn:Fd.
    - apply find_some in Fd. destruct Fd as [Hin Hb]. apply andb_true_iff in Hb. destruct Hb as [L1 L2].
      assert (Fs : fin s).
      { exact (between_fin _ _ _ Fn Fu L1 L2). }
      apply fleb_le in L1, L2; auto. rewrite Rn in L1. split; [exact Fs|]. split; [lra|].
      pose proof (so_sound E S _ _ _ _ s G0 (proj1 A1) (proj1 A2) (proj1 A3) M0 M1 M2 M3 Hin Fs ltac:(lra)) as P.
      pose proof (polynomial_near (B2R s) ltac:(lra)) as D. unfold tiny in D. apply Rabs_le_inv in P, D. apply Rabs_le. lra.
    - assert (T : 1 - 16 * tiny <= B2R t).
      { destruct (Rlt_le_dec (B2R t) (1 - 16 * tiny)) as [G|G]; [exfalso|exact G].
        pose proof (polynomial_near 0 ltac:(lra)) as D0. pose proof (polynomial_near 1 ltac:(lra)) as D1.
        rewrite cubic_1 in D1. apply Rabs_le_inv in D1.
        destruct (so_complete E S _ _ _ _ G0 (proj1 A1) (proj1 A2) (proj1 A3) M0 M1 M2 M3) as (s & Hin & Fs & Hs).
        - unfold polynomial. rewrite R0. ring_simplify. lra.
        - lra.
        - pose proof (find_none _ _ Fd s Hin) as Nn. cbv beta in Nn.
          assert (L1 : fleb (fneg eps) s = true) by (apply fleb_le; auto; rewrite Rn; lra).
          assert (L2 : fleb s (fadd f1 eps) = true) by (apply fleb_le; auto; lra).
          rewrite L1, L2 in Nn. discriminate Nn. }
      assert (V0 : approx (fabs (fsub f0 t)) (B2R t) 0).
      { split; [now apply fabs_fin|]. rewrite fabs_R, R0, Rabs_Ropp, (Rabs_pos_eq (B2R t)) by lra. rewrite Rminus_eq_0, Rabs_R0. lra. }
      assert (V1 : approx (fabs (fsub (fadd (fadd (fadd f0 (tween_c1 x1)) (tween_c2 x1 x2)) (tween_c3 x1 x2)) t)) (Rabs (1 - B2R t)) (10 * tiny)).
      { apply approx_abs. apply Rabs_le_inv in N1, N2, N3.
        assert (Q1 : approx (fadd f0 (tween_c1 x1)) (0 + 3 * p) (2 * tiny)).
        { apply (near_add _ _ _ _ 0 tiny 12); [apply exact_0|exact A1| | |unfold tiny, u52; lra]; [|unfold tiny; lra].
          rewrite Rabs_R0. assert (Rabs (3 * p) <= 12) by bnd. lra. }
        assert (Q2 : approx (fadd (fadd f0 (tween_c1 x1)) (tween_c2 x1 x2)) (0 + 3 * p + 3 * (q - 2 * p)) (4 * tiny)).
        { apply (near_add _ _ _ _ (2 * tiny) tiny 48); [exact Q1|exact A2| | |unfold tiny, u52; lra]; [|unfold tiny; lra].
          assert (Rabs (0 + 3 * p) <= 12) by bnd. assert (Rabs (3 * (q - 2 * p)) <= 36) by bnd. lra. }
        assert (Q3 : approx (fadd (fadd (fadd f0 (tween_c1 x1)) (tween_c2 x1 x2)) (tween_c3 x1 x2)) (0 + 3 * p + 3 * (q - 2 * p) + (1 - 3 * q + 3 * p)) (6 * tiny)).
        { apply (near_add _ _ _ _ (4 * tiny) tiny 73); [exact Q2|exact A3| | |unfold tiny, u52; lra]; [|unfold tiny; lra].
          assert (Rabs (0 + 3 * p + 3 * (q - 2 * p)) <= 48) by bnd. assert (Rabs (1 - 3 * q + 3 * p) <= 25) by bnd. lra. }
        replace (0 + 3 * p + 3 * (q - 2 * p) + (1 - 3 * q + 3 * p)) with 1 in Q3 by ring.
        apply (approx_sub _ _ _ _ (6 * tiny) 0 2); [exact Q3|now apply exact_self| | |unfold tiny, u52; lra]; [|unfold tiny; lra].
        rewrite !Rabs_pos_eq; lra. }
      destruct V0 as [Fv0 V0], V1 as [Fv1 V1]. apply Rabs_le_inv in V0, V1.
      assert (R1 : Rabs (1 - B2R t) <= 16 * tiny) by bnd. pose proof (Rabs_pos (1 - B2R t)). unfold tiny in *.
      assert (L : fleb (fabs (fsub f0 t)) (fabs (fsub (fadd (fadd (fadd f0 (tween_c1 x1)) (tween_c2 x1 x2)) (tween_c3 x1 x2)) t)) = false)
        by (apply fleb_false; auto; lra).
      rewrite L. split; [reflexivity|]. rewrite f1_R, cubic_1. split; lra.
  Qed.
End param.

(** * The height of the curve *)
Lemma height_ok y1 y2 r : fin y1 -> fin y2 -> fin r -> Rabs (B2R y1) <= 16 -> Rabs (B2R y2) <= 16 ->
  - / 10000000000 <= B2R r <= 1 + / 10000000000 ->
  approx (cubic_eval1 f0 y1 y2 f1 r) (cubic (B2R y1) (B2R y2) (B2R r)) (/ 1000000000000) /\
  Rabs (cubic (B2R y1) (B2R y2) (B2R r)) <= 120.
Proof.
  intros F1 F2 Fr B1 B2 Hr. set (p := B2R y1) in *. set (q := B2R y2) in *. set (u := B2R r) in *.
  assert (Bu : Rabs u <= 11 / 10) by bnd. assert (Bm : Rabs (1 - u) <= 11 / 10) by bnd.
  assert (Bmm : Rabs ((1 - u) * (1 - u)) <= 11 / 10 * (11 / 10)) by now apply Rabs_mult_le.
  assert (Bt : Rabs ((1 - u) * (1 - u) * 3) <= 4).
  { apply Rle_trans with (11 / 10 * (11 / 10) * 3); [|lra]. apply Rabs_mult_le; [exact Bmm|bnd]. }
  assert (B3 : Rabs ((1 - u) * 3) <= 4) by bnd.
  assert (Ba : Rabs (p * ((1 - u) * (1 - u) * 3)) <= 16 * 4) by now apply Rabs_mult_le.
  assert (Bb : Rabs (q * ((1 - u) * 3)) <= 16 * 4) by now apply Rabs_mult_le.
  assert (Bc : Rabs (q * ((1 - u) * 3) + 1 * u) <= 16 * 4 + 2) by (apply Rabs_plus_le; [exact Bb|bnd]).
  set (d := (q * ((1 - u) * 3) + 1 * u)) in *.
  assert (Bd : Rabs (d * u) <= (16 * 4 + 2) * (11 / 10)) by now apply Rabs_mult_le.
  assert (Be : Rabs (p * ((1 - u) * (1 - u) * 3) + d * u) <= 16 * 4 + (16 * 4 + 2) * (11 / 10)) by now apply Rabs_plus_le.
  assert (Eq : cubic p q u = 0 * ((1 - u) * (1 - u) * (1 - u)) + (p * ((1 - u) * (1 - u) * 3) + d * u) * u) by (unfold cubic, d; ring).
  unfold cubic_eval1. cbv zeta.
  assert (M : approx (fsub f1 r) (1 - u) (4 * u52)).
  { apply (approx_sub _ _ _ _ 0 0 3); [apply exact_1|now apply exact_self| | |unfold u52; lra]; [|lra].
    rewrite (Rabs_pos_eq 1) by lra. fold u. lra. }
  set (mt := fsub f1 r) in *.
  assert (MM : approx (fmul mt mt) ((1 - u) * (1 - u)) (20 * u52)).
  { apply (near_mul _ _ _ _ (4 * u52) (4 * u52) (11 / 10) (11 / 10)); auto; unfold u52; lra. }
  assert (MMM : approx (fmul (fmul mt mt) mt) ((1 - u) * (1 - u) * (1 - u)) (40 * u52)).
  { apply (near_mul _ _ _ _ (20 * u52) (4 * u52) (11 / 10 * (11 / 10)) (11 / 10)); auto; unfold u52; lra. }
  assert (Bmmm : Rabs ((1 - u) * (1 - u) * (1 - u)) <= 2).
  { apply Rle_trans with (11 / 10 * (11 / 10) * (11 / 10)); [now apply Rabs_mult_le|lra]. }
  assert (Z : approx (fmul f0 (fmul (fmul mt mt) mt)) (0 * ((1 - u) * (1 - u) * (1 - u))) (2 * u52)).
  { apply (near_mul _ _ _ _ 0 (40 * u52) 0 2); [apply exact_0|exact MMM|rewrite Rabs_R0; lra|exact Bmmm| | |]; unfold u52; lra. }
  assert (T3 : approx (fmul (fmul mt mt) (f_of_Z 3)) ((1 - u) * (1 - u) * 3) (80 * u52)).
  { apply (near_mul _ _ _ _ (20 * u52) 0 (11 / 10 * (11 / 10)) 3); auto; [apply (exact_Z 3); lia|bnd| | |]; unfold u52; lra. }
  assert (M3 : approx (fmul mt (f_of_Z 3)) ((1 - u) * 3) (20 * u52)).
  { apply (near_mul _ _ _ _ (4 * u52) 0 (11 / 10) 3); auto; [apply (exact_Z 3); lia|bnd| | |]; unfold u52; lra. }
  assert (P1 : approx (fmul y1 (fmul (fmul mt mt) (f_of_Z 3))) (p * ((1 - u) * (1 - u) * 3)) (1400 * u52)).
  { apply (near_mul _ _ _ _ 0 (80 * u52) 16 4); auto; [now apply exact_self| | |]; unfold u52; lra. }
  assert (P2 : approx (fmul y2 (fmul mt (f_of_Z 3))) (q * ((1 - u) * 3)) (400 * u52)).
  { apply (near_mul _ _ _ _ 0 (20 * u52) 16 4); auto; [now apply exact_self| | |]; unfold u52; lra. }
  assert (P3 : approx (fmul f1 r) (1 * u) (3 * u52)).
  { apply (near_mul _ _ _ _ 0 0 1 (11 / 10)); auto; [apply exact_1|now apply exact_self|bnd| | |]; unfold u52; lra. }
  assert (S1 : approx (fadd (fmul y2 (fmul mt (f_of_Z 3))) (fmul f1 r)) d (480 * u52)).
  { apply (near_add _ _ _ _ (400 * u52) (3 * u52) 66); [exact P2|exact P3| | |unfold u52; lra]; [|unfold u52; lra].
    assert (Rabs (1 * u) <= 2) by bnd. lra. }
  assert (P4 : approx (fmul (fadd (fmul y2 (fmul mt (f_of_Z 3))) (fmul f1 r)) r) (d * u) (700 * u52)).
  { apply (near_mul _ _ _ _ (480 * u52) 0 (16 * 4 + 2) (11 / 10)); auto; [now apply exact_self| | |]; unfold u52; lra. }
  assert (S2 : approx (fadd (fmul y1 (fmul (fmul mt mt) (f_of_Z 3))) (fmul (fadd (fmul y2 (fmul mt (f_of_Z 3))) (fmul f1 r)) r))
                      (p * ((1 - u) * (1 - u) * 3) + d * u) (2300 * u52)).
  { apply (near_add _ _ _ _ (1400 * u52) (700 * u52) 140); [exact P1|exact P4| | |unfold u52; lra]; [lra|unfold u52; lra]. }
  assert (P5 : approx (fmul (fadd (fmul y1 (fmul (fmul mt mt) (f_of_Z 3))) (fmul (fadd (fmul y2 (fmul mt (f_of_Z 3))) (fmul f1 r)) r)) r)
                      ((p * ((1 - u) * (1 - u) * 3) + d * u) * u) (2800 * u52)).
  { apply (near_mul _ _ _ _ (2300 * u52) 0 140 (11 / 10)); auto; [now apply exact_self|lra| | |]; unfold u52; lra. }
  split.
  - rewrite Eq. apply (near_add _ _ _ _ (2 * u52) (2800 * u52) 160); [exact Z|exact P5| | |unfold u52; lra]; [|unfold u52; lra].
    rewrite Rmult_0_l, Rabs_R0. pose proof (Rabs_mult_le _ _ _ _ Be Bu). lra.
  - rewrite Eq, Rmult_0_l, Rplus_0_l. replace 120 with (109 * (11 / 10) + 1 / 10) by lra.
    apply Rle_trans with (109 * (11 / 10)); [|lra].
    apply Rabs_mult_le; [|exact Bu]. apply Rle_trans with (16 * (3001 / 1000) + 60); [|lra]. apply Rabs_plus_le.
    + apply Rabs_mult_le; [exact B1|]. apply Rabs_le. nra.
    + unfold d. replace ((q * ((1 - u) * 3) + 1 * u) * u) with (q * (3 * ((1 - u) * u)) + u * u) by ring.
      apply Rle_trans with (16 * 3 + 2); [|lra]. apply Rabs_plus_le; [apply Rabs_mult_le; [exact B2|]|]; apply Rabs_le; nra.
Qed.

(** * One step *)
Lemma progress_ratio a b x : moderate a -> moderate b -> fin x -> B2R a <= B2R x < B2R b ->
  let w := fclamp f0 f1 (fdiv (fsub x a) (fsub b a)) in
  fin w /\ 0 <= B2R w <= 1 /\ Rabs (B2R w - (B2R x - B2R a) / (B2R b - B2R a)) <= / 100000000000000.
Proof.
  intros Ma Mb Fx H w. destruct (weight_inside a b x Ma Mb Fx H) as (Fw & Bw & Rw). fold w in Fw, Bw, Rw.
  split; [exact Fw|]. split; [exact Bw|]. rewrite Rw.
  assert (K : forall y z : f64, exists eps, Rabs eps <= u52 /\ rnd (B2R y - B2R z) = (B2R y - B2R z) * (1 + eps)).
  { intros y z.
    destruct (FLT_plus_error_N_ex radix2 (-1074) 53 (fun n => negb (Z.even n)) (B2R y) (- B2R z)) as (eps & He & Hr).
    - apply (format_f64 y).
    - apply generic_format_opp, (format_f64 z).
    - exists eps. split; [|exact Hr]. apply Rle_trans with (1 := He). apply Rle_trans with (1 := u_rod1pu_ro_le_u_ro _ _).
      unfold u_ro. change (bpow radix2 (- (53) + 1)) with (/ IZR 4503599627370496). unfold u52. lra. }
  destruct (K x a) as (e1 & H1 & ->), (K b a) as (e2 & H2 & ->).
  set (n := B2R x - B2R a) in *. set (m := B2R b - B2R a) in *.
  assert (Hm : 0 < m) by (unfold m; lra). assert (Hn : 0 <= n < m) by (unfold n, m; lra).
  unfold u52 in H1, H2. apply Rabs_le_inv in H1, H2.
  set (q := n / m). assert (Hq : 0 <= q <= 1).
  { unfold q. split; [apply Rmult_le_pos; [lra|left; now apply Rinv_0_lt_compat]|].
    apply Rmult_le_reg_r with m; [lra|]. unfold Rdiv. rewrite Rmult_assoc, Rinv_l; lra. }
  replace (n * (1 + e1) / (m * (1 + e2))) with (q * ((1 + e1) / (1 + e2))) by (unfold q; field; lra).
  set (f := (1 + e1) / (1 + e2)).
  assert (Hf : Rabs (f - 1) <= 4 * u52).
  { unfold f. replace ((1 + e1) / (1 + e2) - 1) with ((e1 - e2) * / (1 + e2)) by (field; lra).
    replace (4 * u52) with (2 * u52 * 2) by ring. apply Rabs_mult_le; [unfold u52; bnd|].
    rewrite Rabs_pos_eq; [|left; apply Rinv_0_lt_compat; lra]. replace 2 with (/ (/ 2)) by lra. apply Rinv_le_contravar; lra. }
  pose proof (rnd_error (q * f)) as Er.
  assert (D : Rabs (q * f - q) <= 4 * u52).
  { replace (q * f - q) with (q * (f - 1)) by ring. replace (4 * u52) with (1 * (4 * u52)) by ring. apply Rabs_mult_le; [bnd|exact Hf]. }
  assert (Bq : Rabs (q * f) <= 2). { unfold u52 in D. apply Rabs_le_inv in D. bnd. }
  apply Rle_trans with (1 := triangle _ _ _ _ _ Er D). unfold u52. lra.
Qed.
Lemma tween_eased E a b t e : solves E -> ordinary_easing e -> ordinary_number a -> ordinary_number b -> fin t -> 0 <= B2R t <= 1 ->
  fin (tween_f64 E a b t e) /\
  exists y, on_curve (B2R (hx (eo e))) (B2R (hy (eo e))) (B2R (hx (ei e))) (B2R (hy (ei e))) (/ 110000000) (B2R t) y /\
            Rabs (B2R (tween_f64 E a b t e) - (B2R a + (B2R b - B2R a) * y)) <= / 1000000.
Proof.
  intros S ((G1 & N1) & (G2 & N2) & (G3 & N3) & (G4 & N4)) (Fa & Ba) (Fb & Bb) Ft Ht.
  unfold tween_f64. destruct (fleb t f0) eqn:L0.
  { apply fleb_le in L0; auto. rewrite f0_R in L0. split; [exact Fa|]. exists 0. split.
    - exists 0. rewrite !cubic_0. split; [lra|]. split; apply Rabs_le; lra.
    - rewrite Rmult_0_r, Rplus_0_r, Rminus_eq_0, Rabs_R0. lra. }
  destruct (fleb f1 t) eqn:L1.
  { apply fleb_le in L1; auto. rewrite f1_R in L1. split; [exact Fb|]. exists 1. split.
    - exists 1. rewrite !cubic_1. split; [lra|]. split; apply Rabs_le; lra.
    - replace (_ - _) with 0 by ring. rewrite Rabs_R0. lra. }
  apply fleb_false in L0, L1; auto. rewrite f0_R in L0. rewrite f1_R in L1. cbv zeta.
  destruct (param_ok (hx (eo e)) (hx (ei e)) G1 G2 N1 N2 t Ft ltac:(lra) E S) as (Fr & Br & Er). cbv zeta in *.
  set (r := tween_param E (hx (eo e)) (hx (ei e)) t) in *.
  destruct (height_ok _ _ r G3 G4 Fr N3 N4 Br) as [Hy By]. set (yf := cubic_eval1 f0 (hy (eo e)) (hy (ei e)) f1 r) in *.
  pose proof (near_bound _ _ _ _ Hy By) as Byf. destruct Hy as [Fy Ey].
  apply Rabs_le_inv in Ba, Bb.
  assert (A1 : approx (fsub b a) (B2R b - B2R a) (/ 1000000000)).
  { apply (approx_sub _ _ _ _ 0 0 2097152); [now apply exact_self|now apply exact_self| | |unfold u52; lra]; [|lra].
    assert (Rabs (B2R b) <= 1048576) by bnd. assert (Rabs (B2R a) <= 1048576) by bnd. lra. }
  assert (Bba : Rabs (B2R b - B2R a) <= 2097152) by bnd.
  assert (A2 : approx (fmul (fsub b a) yf) ((B2R b - B2R a) * B2R yf) (/ 4000000)).
  { apply (near_mul _ _ _ _ (/ 1000000000) 0 2097152 121); [exact A1|now apply exact_self|exact Bba|lra| | |]; unfold u52; lra. }
  assert (A3 : approx (fadd a (fmul (fsub b a) yf)) (B2R a + (B2R b - B2R a) * B2R yf) (/ 1000000)).
  { apply (near_add _ _ _ _ 0 (/ 4000000) (1048576 + 2097152 * 121)); [now apply exact_self|exact A2| | |unfold u52; lra]; [|lra].
    apply Rplus_le_compat; [bnd|]. apply Rabs_mult_le; lra. }
  destruct A3 as [Fv Ev]. split; [exact Fv|]. exists (B2R yf). split; [|exact Ev].
  exists (clamped (B2R r)). split; [apply clamped_range|].
  pose proof (clamped_near (B2R (hx (eo e))) (B2R (hx (ei e))) (B2R r) (/ 10000000000) ltac:(lra) ltac:(lra) ltac:(lra) Br) as C1.
  pose proof (clamped_near (B2R (hy (eo e))) (B2R (hy (ei e))) (B2R r) (/ 10000000000) ltac:(lra) ltac:(lra) ltac:(lra) Br) as C2.
  split.
  - apply Rle_trans with (1 := triangle _ _ _ _ _ C1 Er). lra.
  - rewrite Rabs_minus_sym in Ey. apply Rle_trans with (1 := triangle _ _ _ _ _ C2 Ey). lra.
Qed.

(** * Properties of documents *)
From Verif Require Import Animated Batch Schema Import ImportSpec TimelineSpec Render RenderSpec Examples DocExamples PropImport PropImport2.
Open Scope list_scope.
Open Scope R_scope.
Lemma component_fun c j x y : component_at c j x -> component_at c j y -> x = y.
Proof. destruct c; cbn; congruence. Qed.
Lemma handle_fun h j x y : handle_at h j x -> handle_at h j y -> x = y.
Proof.
  intros [A B] [C D]. destruct x as [x1 y1], y as [x2 y2]. cbn [hx hy] in *.
  now rewrite (component_fun _ _ _ _ A C), (component_fun _ _ _ _ B D).
Qed.
Lemma handle_or_fun d o j x y : handle_or d o j x -> handle_or d o j y -> x = y.
Proof. destruct o; cbn; [apply handle_fun|congruence]. Qed.
Lemma easing_fun b j x y : easing_at b j x -> easing_at b j y -> x = y.
Proof.
  intros [A B] [C D]. destruct x as [x1 y1], y as [x2 y2]. cbn [eo ei] in *.
  now rewrite (handle_or_fun _ _ _ _ _ A C), (handle_or_fun _ _ _ _ _ B D).
Qed.
Lemma vector_easing_fun k x y : vector_easing k x -> vector_easing k y -> x = y.
Proof. unfold vector_easing. destruct (easings k =? 0)%nat; [congruence|apply easing_fun]. Qed.
Lemma eased_weaken k l e frame a b E : solves E -> ordinary_easing e -> ordinary_number a -> ordinary_number b ->
  moderate (kf_time k) -> moderate (kf_time l) -> fin frame -> between k l frame ->
  eased k l e frame a b (tween_f64 E a b (progress k l frame) e).
Proof.
  intros S O Oa Ob Mk Ml Ff [B1 B2]. apply fleb_le in B1; [|apply Mk|exact Ff]. apply fltb_lt in B2; [|exact Ff|apply Ml].
  destruct (progress_ratio (kf_time k) (kf_time l) frame Mk Ml Ff ltac:(lra)) as (Fw & Bw & Rw).
  fold (progress k l frame) in Fw, Bw, Rw. set (w := progress k l frame) in *.
  destruct (tween_eased E a b w e S O Oa Ob Fw Bw) as (Fv & y & (u & Hu & X & Y) & V).
  split; [exact Fv|]. exists y. split; [|exact V]. exists u. split; [exact Hu|]. unfold elapsed. split; [|lra].
  apply Rle_trans with (1 := triangle _ _ _ _ _ X Rw). lra.
Qed.
Lemma moderate_at ks i k : moderate_keyframes ks -> nth_error ks i = Some k -> moderate (kf_time k).
Proof. intros M H. apply nth_error_In in H. unfold moderate_keyframes in M. rewrite Forall_forall in M. auto. Qed.
(** A number over time moves along the curve given by the handles. *)
Theorem C79_number : forall E v g ks i k l e frame, solves E -> scalar_means E v g -> ap_k v = AkAnimated ks ->
  in_order ks -> moderate_keyframes ks -> nth_error ks i = Some k -> nth_error ks (S i) = Some l ->
  fin frame -> between k l frame -> ~ held k -> scalar_easing k e -> ordinary_easing e ->
  ordinary_number (first_number k) -> ordinary_number (first_number l) ->
  eased k l e frame (first_number k) (first_number l) (g frame).
Proof.
  intros E v g ks i k l e frame S M K O Mo Hk Hl Ff Bt Nh Se Oe Ok Ol. unfold scalar_means in M. rewrite K in M.
  destruct (fo_between _ _ _ _ _ (M O Mo) i k l frame Ff Hk Hl Bt Nh) as (e' & Se' & Ev).
  rewrite (easing_fun _ _ _ _ Se' Se) in Ev. rewrite Ev. apply eased_weaken; eauto using moderate_at.
Qed.
(** So do both coordinates of a pair of numbers, with the same easing. *)
Theorem C79_pair : forall E v g ks i k l e frame, solves E -> vector_means E vec2_of v g -> ap_k v = AkAnimated ks ->
  in_order ks -> moderate_keyframes ks -> nth_error ks i = Some k -> nth_error ks (S i) = Some l ->
  fin frame -> between k l frame -> ~ held k -> vector_easing k e -> ordinary_easing e ->
  let a := vec2_of (kf_value k) in let b := vec2_of (kf_value l) in
  ordinary_number (vx a) -> ordinary_number (vy a) -> ordinary_number (vx b) -> ordinary_number (vy b) ->
  eased k l e frame (vx a) (vx b) (vx (g frame)) /\ eased k l e frame (vy a) (vy b) (vy (g frame)).
Proof.
  intros E v g ks i k l e frame S M K O Mo Hk Hl Ff Bt Nh Se Oe a b Oa Oa' Ob Ob'. unfold vector_means in M. rewrite K in M.
  destruct (fo_between _ _ _ _ _ (M O Mo) i k l frame Ff Hk Hl Bt Nh) as (e' & Se' & Ev).
  rewrite (vector_easing_fun _ _ _ Se' Se) in Ev. fold a b in Ev. rewrite Ev.
  split; apply eased_weaken; eauto using moderate_at.
Qed.
(** And those of a position. *)
Theorem C79_point : forall E v g ks i k l e frame, solves E -> pos_means E v g -> po_k v = PkAnimated ks ->
  let fs := map pk_kf ks in
  in_order fs -> moderate_keyframes fs -> nth_error fs i = Some k -> nth_error fs (S i) = Some l ->
  fin frame -> between k l frame -> ~ held k -> vector_easing k e -> ordinary_easing e ->
  let a := point_of (kf_value k) in let b := point_of (kf_value l) in
  ordinary_number (px a) -> ordinary_number (py a) -> ordinary_number (px b) -> ordinary_number (py b) ->
  eased k l e frame (px a) (px b) (px (g frame)) /\ eased k l e frame (py a) (py b) (py (g frame)).
Proof.
  intros E v g ks i k l e frame S M K fs O Mo Hk Hl Ff Bt Nh Se Oe a b Oa Oa' Ob Ob'. unfold pos_means in M. rewrite K in M.
  destruct (fo_between _ _ _ _ _ (M O Mo) i k l frame Ff Hk Hl Bt Nh) as (e' & Se' & Ev).
  rewrite (vector_easing_fun _ _ _ Se' Se) in Ev. fold a b in Ev. rewrite Ev.
  split; apply eased_weaken; eauto using moderate_at.
Qed.
Lemma f32_near x : fin x -> Rabs (B2R x) <= 1000 ->
  fin (f64_to_f32 x) /\ Rabs (B2R (f64_to_f32 x) - B2R x) <= / 8388608 * (Rabs (B2R x) + 1).
Proof.
  destruct x as [s|s| |s m e Hb]; intros F B; try discriminate F.
  { split; [reflexivity|]. cbn [f64_to_f32 B2R]. rewrite Rminus_eq_0, Rabs_R0. lra. }
  pose proof (binary_normalize_correct 24 128 _ _ mode_NE (cond_Zopp s (Zpos m)) e s) as P. cbv zeta in P.
  cbn [B2R] in *. set (r := F2R _) in *.
  destruct (error_N_FLT radix2 (-149) 24 ltac:(lia) (fun x => negb (Z.even x)) r) as (eps & eta & He & Ht & _ & Hr).
  change (round radix2 (SpecFloat.fexp 24 128) (round_mode mode_NE) r) with (round radix2 (FLT_exp (-149) 24) (Znearest (fun x => negb (Z.even x))) r) in P.
  assert (D : Rabs (round radix2 (FLT_exp (-149) 24) (Znearest (fun x => negb (Z.even x))) r - r) <= / 8388608 * (Rabs r + 1)).
  { rewrite Hr. replace (r * (1 + eps) + eta - r) with (r * eps + eta) by ring.
    apply Rle_trans with (1 := Rabs_triang _ _). rewrite Rabs_mult.
    assert (He' : Rabs eps <= / 8388608). { apply Rle_trans with (1 := He). change (bpow radix2 (- (24) + 1)) with (/ IZR 8388608). lra. }
    assert (Ht' : Rabs eta <= / 8388608).
    { apply Rle_trans with (1 := Ht). apply Rle_trans with (bpow radix2 (-149)); [pose proof (bpow_gt_0 radix2 (-149)); lra|].
      apply Rle_trans with (bpow radix2 (-23)); [apply bpow_le; lia|]. change (bpow radix2 (-23)) with (/ IZR 8388608). lra. }
    pose proof (Rabs_pos r). rewrite Rmult_plus_distr_l, Rmult_1_r. apply Rplus_le_compat; [|exact Ht'].
    rewrite Rmult_comm. apply Rmult_le_compat_r; assumption. }
  rewrite Rlt_bool_true in P.
  2:{ apply Rle_lt_trans with (bpow radix2 11); [|apply bpow_lt; lia]. change (bpow radix2 11) with 2048.
      apply Rabs_le_inv in B, D. assert (Rabs r <= 1000) by bnd. bnd. }
  destruct P as (P1 & P2 & _). split; [exact P2|]. cbn [f64_to_f32]. rewrite P1. exact D.
Qed.
Lemma channel_eased E k l e frame a b : solves E -> ordinary_easing e -> unit_number a -> unit_number b ->
  moderate (kf_time k) -> moderate (kf_time l) -> fin frame -> between k l frame ->
  eased_channel k l e frame a b (tween_f32 E (f64_to_f32 a) (f64_to_f32 b) (progress k l frame) e).
Proof.
  intros S O [Fa Ha] [Fb Hb] Mk Ml Ff Bt.
  assert (K : forall x, fin x -> 0 <= B2R x <= 1 -> ordinary_number (f32_to_f64 (f64_to_f32 x)) /\
    Rabs (B2R (f32_to_f64 (f64_to_f32 x)) - B2R x) <= / 4000000).
  { intros x Fx Hx. destruct (f32_near x Fx ltac:(bnd)) as [G N]. destruct (f32_to_f64_fin _ G) as (G' & -> & _).
    rewrite (Rabs_pos_eq (B2R x)) in N by lra. apply Rabs_le_inv in N. split; [|bnd]. split; [exact G'|].
    destruct (f32_to_f64_fin _ G) as (_ & -> & _). bnd. }
  destruct (K a Fa Ha) as [Oa Na], (K b Fb Hb) as [Ob Nb].
  destruct (eased_weaken k l e frame _ _ E S O Oa Ob Mk Ml Ff Bt) as (Fv & y & (u & Hu & X & Y) & V).
  unfold tween_f32. set (v := tween_f64 _ _ _ _ _) in *.
  set (a' := B2R (f32_to_f64 (f64_to_f32 a))) in *. set (b' := B2R (f32_to_f64 (f64_to_f32 b))) in *.
  assert (By : Rabs y <= 121).
  { destruct O as (_ & _ & (_ & N3) & (_ & N4)). set (p := B2R (hy (eo e))) in *. set (q := B2R (hy (ei e))) in *.
    assert (Rabs (cubic p q u) <= 3 * 16 + 3 * 16 + 1).
    { unfold cubic. apply Rabs_plus_le; [apply Rabs_plus_le|apply Rabs_le; nra]; apply Rabs_mult_le; auto; apply Rabs_le; nra. }
    apply Rabs_le_inv in Y, H. bnd. }
  assert (D : Rabs (a' + (b' - a') * y - (B2R a + (B2R b - B2R a) * y)) <= / 15000).
  { replace (_ - _) with ((a' - B2R a) + ((b' - B2R b) - (a' - B2R a)) * y) by ring.
    apply Rle_trans with (/ 4000000 + / 2000000 * 121); [|lra]. apply Rabs_plus_le; [exact Na|]. apply Rabs_mult_le; [|exact By].
    apply Rabs_le_inv in Na, Nb. bnd. }
  pose proof (triangle _ _ _ _ _ V D) as T.
  assert (Bv : Rabs (B2R v) <= 123).
  { assert (Rabs (B2R a + (B2R b - B2R a) * y) <= 1 + 1 * 121) by (apply Rabs_plus_le; [bnd|apply Rabs_mult_le; [bnd|exact By]]).
    apply Rabs_le_inv in T, H. bnd. }
  destruct (f32_near v Fv ltac:(lra)) as [Fw W]. split; [exact Fw|]. exists y. split; [exists u; auto|].
  assert (W' : Rabs (B2R (f64_to_f32 v) - B2R v) <= / 60000) by lra.
  apply Rle_trans with (1 := triangle _ _ _ _ _ W' T). lra.
Qed.
(** And the channels of a colour. *)
Theorem C79_color : forall E v g ks i k l e frame r1 g1 b1 rest1 r2 g2 b2 rest2, solves E -> vector_means E color_of v g ->
  ap_k v = AkAnimated ks ->
  in_order ks -> moderate_keyframes ks -> nth_error ks i = Some k -> nth_error ks (S i) = Some l ->
  fin frame -> between k l frame -> ~ held k -> vector_easing k e -> ordinary_easing e ->
  kf_value k = r1 :: g1 :: b1 :: rest1 -> kf_value l = r2 :: g2 :: b2 :: rest2 ->
  unit_number r1 -> unit_number g1 -> unit_number b1 -> unit_number r2 -> unit_number g2 -> unit_number b2 ->
  eased_channel k l e frame r1 r2 (cr (g frame)) /\ eased_channel k l e frame g1 g2 (cg (g frame)) /\
  eased_channel k l e frame b1 b2 (cb (g frame)).
Proof.
  intros E v g ks i k l e frame r1 g1 b1 rest1 r2 g2 b2 rest2 S M K O Mo Hk Hl Ff Bt Nh Se Oe Vk Vl. intros.
  unfold vector_means in M. rewrite K in M.
  destruct (fo_between _ _ _ _ _ (M O Mo) i k l frame Ff Hk Hl Bt Nh) as (e' & Se' & Ev).
  rewrite (vector_easing_fun _ _ _ Se' Se), Vk, Vl in Ev. cbn [color_of] in Ev. rewrite Ev. cbn [tween tween_color cr cg cb].
  repeat split; apply channel_eased; eauto using moderate_at.
Qed.
(** The opacity of an imported layer, from document to frame. *)
Theorem C79_opacity : forall E d c s j src ly v ks i k l e frame, solves E -> conv_animation E d = Ok c ->
  nth_error (source_layers d s) j = Some src -> layer_at c (s, j) = Some ly ->
  tf_o (vl_ks (visual_of src)) = Some v -> ap_k v = AkAnimated ks ->
  in_order ks -> moderate_keyframes ks -> nth_error ks i = Some k -> nth_error ks (S i) = Some l ->
  fin frame -> between k l frame -> ~ held k -> scalar_easing k e -> ordinary_easing e ->
  ordinary_number (first_number k) -> ordinary_number (first_number l) ->
  eased k l e frame (first_number k) (first_number l) (eval E (ly_opacity ly) frame).
Proof.
  intros E d c s j src ly v ks i k l e frame S H Hs Hl T. destruct (C50_layer _ _ _ _ _ _ _ H Hs Hl) as [_ O].
  rewrite T in O. cbn [or_means] in O. intros.
  eapply (C79_number E v (fun frame => eval E (ly_opacity ly) frame)); eassumption.
Qed.

(** * What this means *)
Lemma cubic_corners p q u : cubic p q u =
  (1 - p) * (1 - q) * u ^ 3 + p * (1 - q) * (3 * u - 6 * u ^ 2 + 4 * u ^ 3) + (1 - p) * q * (3 * u ^ 2 - 2 * u ^ 3) +
  p * q * (3 * u - 3 * u ^ 2 + u ^ 3).
Proof. unfold cubic. ring. Qed.
Lemma cubic_increasing p q u v : 0 <= p <= 1 -> 0 <= q <= 1 -> 0 <= u -> u < v -> v <= 1 -> cubic p q u < cubic p q v.
Proof.
  intros Hp Hq H0 H1 H2. rewrite !cubic_corners.
  assert (A : u ^ 3 < v ^ 3).
  { enough (0 < v ^ 3 - u ^ 3) by lra. replace (v ^ 3 - u ^ 3) with ((v - u) * (v * v + u * v + u * u)) by ring.
    apply Rmult_lt_0_compat; [lra|nra]. }
  assert (B : 3 * u - 6 * u ^ 2 + 4 * u ^ 3 < 3 * v - 6 * v ^ 2 + 4 * v ^ 3).
  { enough (0 < (3 * v - 6 * v ^ 2 + 4 * v ^ 3) - (3 * u - 6 * u ^ 2 + 4 * u ^ 3)) by lra.
    replace (_ - _) with ((v - u) * (3 - 6 * (u + v) + 4 * (v * v + u * v + u * u))) by ring.
    apply Rmult_lt_0_compat; [lra|].
    replace (3 - 6 * (u + v) + 4 * (v * v + u * v + u * u)) with (3 * (u + v - 1) ^ 2 + (v - u) ^ 2) by ring.
    assert (0 < (v - u) ^ 2) by (apply pow_lt; lra). assert (0 <= (u + v - 1) ^ 2) by apply pow2_ge_0. lra. }
  assert (C : 3 * u ^ 2 - 2 * u ^ 3 < 3 * v ^ 2 - 2 * v ^ 3).
  { enough (0 < (3 * v ^ 2 - 2 * v ^ 3) - (3 * u ^ 2 - 2 * u ^ 3)) by lra.
    replace (_ - _) with ((v - u) * (3 * (u + v) - 2 * (v * v + u * v + u * u))) by ring.
    apply Rmult_lt_0_compat; [lra|]. nra. }
  assert (D : 3 * u - 3 * u ^ 2 + u ^ 3 < 3 * v - 3 * v ^ 2 + v ^ 3).
  { enough (0 < (3 * v - 3 * v ^ 2 + v ^ 3) - (3 * u - 3 * u ^ 2 + u ^ 3)) by lra.
    replace (_ - _) with ((v - u) * (3 - 3 * (u + v) + (v * v + u * v + u * u))) by ring.
    apply Rmult_lt_0_compat; [lra|]. nra. }
  set (a := (1 - p) * (1 - q)). set (b := p * (1 - q)). set (c := (1 - p) * q). set (d := p * q).
  assert (0 <= a) by (apply Rmult_le_pos; lra). assert (0 <= b) by (apply Rmult_le_pos; lra).
  assert (0 <= c) by (apply Rmult_le_pos; lra). assert (0 <= d) by (apply Rmult_le_pos; lra).
  assert (a + b + c + d = 1) by (unfold a, b, c, d; ring). clearbody a b c d.
  set (A1 := u ^ 3) in *. set (A2 := v ^ 3) in *. set (B1 := 3 * u - 6 * u ^ 2 + 4 * A1) in *. set (B2 := 3 * v - 6 * v ^ 2 + 4 * A2) in *.
  set (C1 := 3 * u ^ 2 - 2 * A1) in *. set (C2 := 3 * v ^ 2 - 2 * A2) in *. set (D1 := 3 * u - 3 * u ^ 2 + A1) in *. set (D2 := 3 * v - 3 * v ^ 2 + A2) in *.
  clearbody A1 A2 B1 B2 C1 C2 D1 D2.
  set (m := Rmin (Rmin (A2 - A1) (B2 - B1)) (Rmin (C2 - C1) (D2 - D1))).
  assert (Hm : 0 < m) by (unfold m; repeat apply Rmin_glb_lt; lra).
  assert (m <= A2 - A1 /\ m <= B2 - B1 /\ m <= C2 - C1 /\ m <= D2 - D1) as (mA & mB & mC & mD).
  { unfold m. pose proof (Rmin_l (Rmin (A2 - A1) (B2 - B1)) (Rmin (C2 - C1) (D2 - D1))).
    pose proof (Rmin_r (Rmin (A2 - A1) (B2 - B1)) (Rmin (C2 - C1) (D2 - D1))).
    pose proof (Rmin_l (A2 - A1) (B2 - B1)). pose proof (Rmin_r (A2 - A1) (B2 - B1)).
    pose proof (Rmin_l (C2 - C1) (D2 - D1)). pose proof (Rmin_r (C2 - C1) (D2 - D1)). lra. }
  assert (a * m <= a * (A2 - A1)) by (apply Rmult_le_compat_l; lra). assert (b * m <= b * (B2 - B1)) by (apply Rmult_le_compat_l; lra).
  assert (c * m <= c * (C2 - C1)) by (apply Rmult_le_compat_l; lra). assert (d * m <= d * (D2 - D1)) by (apply Rmult_le_compat_l; lra).
  assert (a * m + b * m + c * m + d * m = m) by (rewrite <- !Rmult_plus_distr_r; replace (a + b + c + d) with 1 by lra; ring).
  lra.
Qed.
(** The curve is the graph of a function when the first coordinates of its
    handles are from 0 to 1: there is one height for each time. *)
Theorem C79_one_height : forall x1 y1 x2 y2, 0 <= x1 <= 1 -> 0 <= x2 <= 1 -> forall t, 0 <= t <= 1 ->
  exists! y, on_curve x1 y1 x2 y2 0 t y.
Proof.
  intros x1 y1 x2 y2 H1 H2 t Ht.
  assert (Ex : exists u, 0 <= u <= 1 /\ cubic x1 x2 u = t).
  { destruct (Req_dec t 0) as [->|N0]. { exists 0. rewrite cubic_0. lra. }
    destruct (Req_dec t 1) as [->|N1]. { exists 1. rewrite cubic_1. lra. }
    destruct (IVT (fun u => cubic x1 x2 u - t) 0 1) as (u & Hu & Z).
    - unfold cubic. reg.
    - lra.
    - rewrite cubic_0. lra.
    - rewrite cubic_1. lra.
    - exists u. split; [exact Hu|lra]. }
  destruct Ex as (u & Hu & Eu). exists (cubic y1 y2 u). split.
  - exists u. rewrite Eu. replace (t - t) with 0 by ring. rewrite Rminus_eq_0, Rabs_R0. split; [exact Hu|]. lra.
  - intros y (w & Hw & X & Y). apply Rabs_le_inv in X, Y. assert (cubic x1 x2 w = t) by lra.
    assert (w = u) as <-; [|lra]. destruct (Rtotal_order w u) as [L|[L|L]]; [|exact L|].
    + pose proof (cubic_increasing x1 x2 w u H1 H2 ltac:(lra) L ltac:(lra)). lra.
    + pose proof (cubic_increasing x1 x2 u w H1 H2 ltac:(lra) L ltac:(lra)). lra.
Qed.
(** Without handles, the value moves at a steady pace. *)
Theorem C79_linear : forall k l frame a b v, ordinary_number a -> ordinary_number b -> eased k l linear frame a b v ->
  Rabs (B2R v - (B2R a + (B2R b - B2R a) * elapsed k l frame)) <= / 1000000 + Rabs (B2R b - B2R a) * / 50000000.
Proof.
  intros k l frame a b v [Fa Ba] [Fb Bb] (_ & y & (u & Hu & X & Y) & V).
  change (B2R (hx (eo linear))) with 0 in *. change (B2R (hy (eo linear))) with 0 in *.
  assert (Z : cubic 0 (B2R (hx (ei linear))) u = cubic 0 (B2R (hy (ei linear))) u) by reflexivity. rewrite Z in X.
  rewrite Rabs_minus_sym in Y. pose proof (triangle _ _ _ _ _ Y X) as T.
  apply Rle_trans with (1 := triangle _ _ _ _ _ V (Rle_refl _)). apply Rplus_le_compat_l.
  replace (_ - _) with ((B2R b - B2R a) * (y - elapsed k l frame)) by ring.
  apply Rabs_mult_le; [apply Rle_refl|lra].
Qed.
(** A value overshoots only if the handles do. *)
Theorem C79_no_overshoot : forall k l e frame a b v, eased k l e frame a b v ->
  0 <= B2R (hy (eo e)) <= 1 -> 0 <= B2R (hy (ei e)) <= 1 -> ordinary_number a -> ordinary_number b ->
  let slack := / 1000000 + Rabs (B2R b - B2R a) * / 100000000 in
  Rmin (B2R a) (B2R b) - slack <= B2R v <= Rmax (B2R a) (B2R b) + slack.
Proof.
  intros k l e frame a b v (_ & y & (u & Hu & X & Y) & V) Hp Hq _ _ slack.
  set (p := B2R (hy (eo e))) in *. set (q := B2R (hy (ei e))) in *.
  assert (H : 0 <= cubic p q u <= 1).
  { assert (0 <= cubic p q 0) by (rewrite cubic_0; lra). split.
    - destruct (Req_dec u 0) as [->|N]; [assumption|]. pose proof (cubic_increasing p q 0 u Hp Hq ltac:(lra) ltac:(lra) ltac:(lra)). lra.
    - destruct (Req_dec u 1) as [->|N]; [rewrite cubic_1; lra|]. pose proof (cubic_increasing p q u 1 Hp Hq ltac:(lra) ltac:(lra) ltac:(lra)) as L.
      rewrite cubic_1 in L. lra. }
  set (z := cubic p q u) in *. set (x := B2R a) in *. set (w := B2R b) in *.
  assert (T : Rabs (B2R v - (x + (w - x) * z)) <= slack).
  { apply (triangle _ (x + (w - x) * y)); [exact V|].
    replace (x + (w - x) * y - (x + (w - x) * z)) with ((w - x) * (y - z)) by ring.
    apply Rabs_mult_le; [apply Rle_refl|]. now rewrite Rabs_minus_sym. }
  apply Rabs_le_inv in T.
  assert (Rmin x w <= x + (w - x) * z <= Rmax x w).
  { unfold Rmin, Rmax. destruct (Rle_dec x w); nra. }
  lra.
Qed.

(** * A document with an eased opacity, and a solver *)
Definition root60 (c0 c1 c2 c3 : f64) : list f64.
Proof.
  destruct (Rlt_dec (polynomial c0 c1 c2 c3 0) 0) as [A|_]; [|exact nil].
  destruct (Rlt_dec 0 (polynomial c0 c1 c2 c3 1)) as [B|_]; [|exact nil].
  assert (C : continuity (polynomial c0 c1 c2 c3)) by (unfold polynomial; reg).
  destruct (IVT _ 0 1 C Rlt_0_1 A B) as [z _]. exact [round60 z].
Defined.
Definition E_solves : Ext := {|
  x_sin := x_sin E0; x_cos := x_cos E0; x_tan := x_tan E0;
  x_powf := x_powf E0; x_hypot := x_hypot E0; x_solve_cubic := root60; x_rrect_path := x_rrect_path E0;
  x_ellipse_path := x_ellipse_path E0; x_arclen := x_arclen E0; x_inv_arclen := x_inv_arclen E0;
  x_subsegment := x_subsegment E0; x_color_mul_alpha := x_color_mul_alpha E0; x_brush_mul_alpha := x_brush_mul_alpha E0 |}.
Lemma E_solves_ok : solves E_solves.
Proof.
  constructor; intros c0 c1 c2 c3; cbn [E_solves x_solve_cubic]; unfold root60.
  - intros r F0 F1 F2 F3 B0 B1 B2 B3 Hin Fr Hr. destruct (Rlt_dec _ 0) as [A|_]; [|destruct Hin].
    destruct (Rlt_dec 0 _) as [B|_]; [|destruct Hin]. destruct (IVT _ _ _ _ _ _ _) as (z & Hz & Zz). destruct Hin as [<-|[]].
    destruct (round60_near z) as [_ N]; [bnd|]. set (w := B2R (round60 z)) in *.
    assert (Ez : polynomial c0 c1 c2 c3 w = (w - z) * (B2R c1 + (B2R c2 * (w + z) + B2R c3 * (w * w + w * z + z * z))) + polynomial c0 c1 c2 c3 z)
      by (unfold polynomial; ring).
    rewrite Ez, Zz, Rplus_0_r. apply Rle_trans with (/ 35184372088832 * (100 + (100 * 3 + 100 * 7))); [|lra].
    apply Rabs_le_inv in N. apply Rabs_mult_le; [bnd|]. apply Rabs_plus_le; [exact B1|]. apply Rabs_plus_le; apply Rabs_mult_le; auto; apply Rabs_le; nra.
  - intros F0 F1 F2 F3 B0 B1 B2 B3 A B. destruct (Rlt_dec _ 0) as [A'|N]; [|contradiction].
    destruct (Rlt_dec 0 _) as [B'|N]; [|contradiction]. destruct (IVT _ _ _ _ _ _ _) as (z & Hz & Zz).
    exists (round60 z). split; [now left|]. destruct (round60_near z) as [Fz N]; [bnd|]. split; [exact Fz|].
    apply Rabs_le_inv in N. lra.
Qed.
Definition slow_start : keyframe :=
  kf_eased 10 (KcSingle (flit 1 2), KcSingle f1) (KcSingle (flit 1 2), KcSingle f0) [f_of_Z 20].
Definition slow_end : keyframe := kf 50 [f_of_Z 80].
Definition fading : any_layer :=
  AlNull (visual (base "n" None None None)
    (mkSTransform None (ApPosition (p_static 30 40)) None (Some (ArRotation (st f0))) (Some (animated [slow_start; slow_end])) None None) None None None).
Definition fading_easing : easing := mkEasing (mkHandle (flit 1 2) f0) (mkHandle (flit 1 2) f1).
Example C79_applies : solves E_solves /\
  (exists c ly, conv_animation E_solves (doc [] [fading]) = Ok c /\ layer_at c (None, 0%nat) = Some ly) /\
  in_order [slow_start; slow_end] /\ moderate_keyframes [slow_start; slow_end] /\
  between slow_start slow_end (f_of_Z 20) /\ ~ held slow_start /\
  scalar_easing slow_start fading_easing /\ ordinary_easing fading_easing /\
  ordinary_number (first_number slow_start) /\ ordinary_number (first_number slow_end).
Proof.
  assert (Z : forall z b, (Z.abs z <= 2 ^ 53)%Z -> (Z.abs z <= b)%Z -> fin (f_of_Z z) /\ Rabs (B2R (f_of_Z z)) <= IZR b).
  { intros z b H K. destruct (f_of_Z_R z H) as [-> F]. split; [exact F|]. rewrite <- abs_IZR. now apply IZR_le. }
  split; [apply E_solves_ok|]. split.
  { assert (T : match conv_animation E_solves (doc [] [fading]) with
      | Ok c => match layer_at c (None, 0%nat) with Some _ => True | None => False end | _ => False end) by (lazy; exact I).
    destruct (conv_animation _ _) as [c| |]; try contradiction. exists c.
    destruct (layer_at c _) as [ly|]; [|contradiction]. exists ly. split; reflexivity. }
  split. { intros [|[|i]] [|[|j]] k l Hij Hk Hl; try lia; try (destruct i; discriminate); try (destruct j; discriminate).
           injection Hk as <-. injection Hl as <-. vm_compute. reflexivity. }
  split. { assert (M : forall z, (Z.abs z <= 64)%Z -> moderate (f_of_Z z)).
           { intros z Hz. destruct (Z z 64%Z) as [F B]; [lia|lia|]. split; [exact F|]. apply Rle_trans with (1 := B).
             change 64 with (bpow radix2 6). apply bpow_le. lia. }
           unfold moderate_keyframes. apply Forall_cons; [apply (M 10%Z); lia|]. apply Forall_cons; [apply (M 50%Z); lia|]. apply Forall_nil. }
  split. { split; vm_compute; reflexivity. }
  split. { discriminate. }
  split. { split; split; reflexivity. }
  split.
  { assert (H : fin (flit 1 2) /\ B2R (flit 1 2) = / 2).
    { destruct (fdiv_R (f_of_Z 1) (f_of_Z 2)) as [R F]; try reflexivity.
      - destruct (f_of_Z_R 2 ltac:(lia)) as [-> _]. lra.
      - destruct (f_of_Z_R 2 ltac:(lia)) as [-> _]. destruct (f_of_Z_R 1 ltac:(lia)) as [-> _].
        rewrite Rabs_pos_eq by lra. pose proof big_range. lra.
      - split; [exact F|]. unfold flit. rewrite R. destruct (f_of_Z_R 2 ltac:(lia)) as [-> _]. destruct (f_of_Z_R 1 ltac:(lia)) as [-> _].
        replace (1 / 2) with (bpow radix2 (-1)) by (cbn; lra). rewrite round_generic; [cbn; lra|typeclasses eauto|].
        apply generic_format_bpow. unfold SpecFloat.fexp, SpecFloat.emin. lia. }
    destruct H as [Fh Rh]. unfold ordinary_easing, fading_easing. cbn [eo ei hx hy]. rewrite Rh, f0_R, f1_R.
    repeat split; try exact Fh; try reflexivity; try bnd. }
  split; unfold ordinary_number, first_number; cbn [slow_start slow_end kf kf_eased kf_value hd];
    (destruct (Z 20%Z 1048576%Z) as [A B]; [lia|lia|]; destruct (Z 80%Z 1048576%Z) as [C D]; [lia|lia|]; split; assumption).
Qed.
