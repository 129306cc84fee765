(** C78: corners and control points of stars and polygons. *)
From Coq Require Import ZArith Reals Bool List Arith String Lia Lra.
From Flocq Require Import Core BinarySingleNaN.
From Verif Require Import F64 F64Facts Kurbo Value Animated ValueSpec ValueFacts PropValue GeometrySpec PropGeometry.
Import ListNotations.
Open Scope list_scope.
Open Scope R_scope.

(** ** Angles *)
Lemma lit_approx x m e r d : B2SF x = SpecFloat.S754_finite false m e ->
  Rabs (IZR (Zpos m) * bpow radix2 e - r) <= d -> approx x r d.
Proof.
  intros H D. split; [destruct x; try discriminate; reflexivity|].
  rewrite <- SF2R_B2SF, H. exact D.
Qed.
Lemma tau_approx : approx f_tau (2 * PI) (/ 1125899906842624).
Proof.
  apply (lit_approx _ 7074237752028440 (-50)); [vm_compute; reflexivity|].
  change (bpow radix2 (-50)) with (/ IZR 1125899906842624). pose proof pi_bounds. apply Rabs_le. lra.
Qed.
Lemma quarter_approx : approx f_frac_pi_2 (PI / 2) (/ 4503599627370496).
Proof.
  apply (lit_approx _ 7074237752028440 (-52)); [vm_compute; reflexivity|].
  change (bpow radix2 (-52)) with (/ IZR 4503599627370496). pose proof pi_bounds. apply Rabs_le. lra.
Qed.
Lemma sincos_approx E z t e : accurate E -> approx z t e -> Rabs t <= 900 -> e <= 1 ->
  approx (x_sin E z) (sin t) (e + / 35184372088832) /\ approx (x_cos E z) (cos t) (e + / 35184372088832).
Proof.
  intros A N B Le. pose proof (near_bound _ _ _ _ N B) as Bz. destruct N as [F N].
  destruct (ac_sin E A z F ltac:(lra)) as [Fs Hs]. destruct (ac_cos E A z F ltac:(lra)) as [Fc Hc]. rewrite e45 in Hs, Hc.
  split; split; auto; rewrite Rplus_comm.
  - apply (triangle _ _ _ _ _ Hs (Rle_trans _ _ _ (sin_lipschitz _ _) N)).
  - apply (triangle _ _ _ _ _ Hc (Rle_trans _ _ _ (cos_lipschitz _ _) N)).
Qed.
Lemma approx_sub x y r s e f B G : approx x r e -> approx y s f -> Rabs r + Rabs s <= B ->
  B + e + f <= 1125899906842624 -> e + f + u52 * (B + e + f + 1) <= G -> approx (fsub x y) (r - s) G.
Proof.
  intros Hx Hy Hr Bb HG. pose proof (near_bound _ _ _ _ Hx (Rle_refl _)) as Bx. pose proof (near_bound _ _ _ _ Hy (Rle_refl _)) as By.
  destruct Hx as [Fx Hx], Hy as [Fy Hy].
  assert (P : Rabs (B2R x - B2R y) <= B + e + f).
  { unfold Rminus. apply Rle_trans with (1 := Rabs_triang _ _). rewrite Rabs_Ropp. lra. }
  destruct (fsub_R x y Fx Fy) as [Em Fm]. { pose proof big_range. lra. }
  split; [exact Fm|]. rewrite Em. pose proof (rnd_error (B2R x - B2R y)) as Er.
  replace (rnd (B2R x - B2R y) - (r - s)) with
    ((rnd (B2R x - B2R y) - (B2R x - B2R y)) + ((B2R x - r) + - (B2R y - s))) by ring.
  apply Rle_trans with (1 := Rabs_triang _ _). pose proof (Rabs_triang (B2R x - r) (- (B2R y - s))) as T.
  rewrite (Rabs_Ropp (B2R y - s)) in T.
  assert (u52 * (Rabs (B2R x - B2R y) + 1) <= u52 * (B + e + f + 1)) by (apply Rmult_le_compat_l; [unfold u52; lra|lra]).
  lra.
Qed.
(** Division by a number that is at least 1. *)
Lemma approx_div x y r s e B G : approx x r e -> fin y -> B2R y = s -> 1 <= s -> Rabs r <= B -> B + e <= 1125899906842624 ->
  e / s + u52 * ((B + e) / s + 1) <= G -> approx (fdiv x y) (r / s) G.
Proof.
  intros Hx Fy Ey Hs Hr Bb HG. pose proof (near_bound _ _ _ _ Hx Hr) as Bx. destruct Hx as [Fx Hx].
  assert (I : 0 < / s <= 1). { split; [apply Rinv_0_lt_compat; lra|]. rewrite <- Rinv_1. apply Rinv_le_contravar; lra. }
  assert (P : Rabs (B2R x / B2R y) <= (B + e) / s).
  { rewrite Ey. unfold Rdiv. rewrite Rabs_mult, (Rabs_pos_eq (/ s)) by lra. apply Rmult_le_compat_r; lra. }
  assert (Q : (B + e) / s <= 1125899906842624).
  { unfold Rdiv. pose proof (Rabs_pos (B2R x)). apply Rle_trans with ((B + e) * 1); [apply Rmult_le_compat_l; lra|lra]. }
  destruct (fdiv_R x y Fx) as [Em Fm]. { lra. } { pose proof big_range. lra. }
  split; [exact Fm|]. rewrite Em. pose proof (rnd_error (B2R x / B2R y)) as Er. rewrite Ey in *.
  replace (rnd (B2R x / s) - r / s) with ((rnd (B2R x / s) - B2R x / s) + (B2R x - r) / s) by (field; lra).
  apply Rle_trans with (1 := Rabs_triang _ _).
  assert (D : Rabs ((B2R x - r) / s) <= e / s).
  { unfold Rdiv. rewrite Rabs_mult, (Rabs_pos_eq (/ s)) by lra. apply Rmult_le_compat_r; lra. }
  assert (u52 * (Rabs (B2R x / s) + 1) <= u52 * ((B + e) / s + 1)) by (apply Rmult_le_compat_l; [unfold u52; lra|lra]).
  lra.
Qed.
(** The tangent at up to 60 degrees. *)
Lemma tan_approx E z t e : accurate E -> approx z t e -> 0 <= t <= PI / 3 -> e <= / 1073741824 ->
  approx (x_tan E z) (tan t) (8 * e + / 35184372088832) /\ 0 <= tan t <= 2.
Proof.
  intros A N B Le. pose proof pi_bounds as PB.
  assert (C : 1 / 2 <= cos t). { rewrite <- cos_PI3. apply cos_decr_1; lra. }
  assert (Ci : 0 < / cos t <= 2). { split; [apply Rinv_0_lt_compat; lra|]. replace 2 with (/ (1 / 2)) by lra. apply Rinv_le_contravar; lra. }
  assert (Tb : Rabs t <= 105 / 100) by (apply Rabs_le; lra).
  pose proof (near_bound _ _ _ _ N Tb) as Bz. destruct N as [Fz N]. set (w := B2R z) in *.
  destruct (ac_tan E A _ Fz ltac:(fold w; lra)) as [Ft Ht]. fold w in Ht. rewrite e45 in Ht.
  assert (Cz : 1 / 4 <= cos w).
  { pose proof (cos_lipschitz w t) as L. pose proof (Rabs_le_inv _ _ (Rle_trans _ _ _ L N)). lra. }
  assert (Czi : 0 < / cos w <= 4). { split; [apply Rinv_0_lt_compat; lra|]. replace 4 with (/ (1 / 4)) by lra. apply Rinv_le_contravar; lra. }
  split.
  - split; [exact Ft|].
    assert (T : Rabs (tan w - tan t) <= 8 * e).
    { replace (tan w - tan t) with (sin (w - t) * (/ cos w * / cos t)).
      2:{ unfold tan. rewrite sin_minus. field. lra. }
      rewrite Rabs_mult. rewrite (Rmult_comm 8). apply Rmult_le_compat; auto using Rabs_pos.
      - apply Rle_trans with (2 := N). pose proof (sin_lipschitz (w - t) 0) as L. rewrite sin_0, !Rminus_0_r in L. exact L.
      - rewrite Rabs_pos_eq by (apply Rmult_le_pos; lra). replace 8 with (4 * 2) by lra. apply Rmult_le_compat; lra. }
    rewrite Rplus_comm. apply (triangle _ _ _ _ _ Ht T).
  - pose proof (SIN_bound t). pose proof (sin_ge_0 t ltac:(lra) ltac:(lra)). unfold tan, Rdiv. split; [apply Rmult_le_pos; lra|].
    replace 2 with (1 * 2) by lra. apply Rmult_le_compat; lra.
Qed.

(** ** One corner *)
(** [p] is the point [v] up to [e]. *)
Definition at_point (e : R) (p : point) (v : vec) : Prop := approx (px p) (fst v) e /\ approx (py p) (snd v) e.
Lemma at_within e p v : at_point e p v -> within e (real_point p) v.
Proof. intros [[_ X] [_ Y]]. split; assumption. Qed.
Record vertex_ok (c : point) (r ro : R) (n : nat) (v : star_vertex) (deg : R) : Prop := mkVOk {
  vo_pt : at_point (1 / 1000) (sv_pt v) (corner (real_point c) r deg);
  vo_in : at_point (1 / 60) (sv_in v) (handle (real_point c) r ro n deg (-1));
  vo_out : at_point (1 / 60) (sv_out v) (handle (real_point c) r ro n deg 1);
  vo_bp : bounded_by 200000 (corner (real_point c) r deg);
  vo_bh : forall side, Rabs side = 1 -> bounded_by 200000 (handle (real_point c) r ro n deg side) }.
Lemma rounding_small x : fin x -> Rabs (B2R x) <= 1000 -> approx (fdiv x f100) (B2R x / 100) (/ 140737488355328).
Proof.
  intros F B. apply (approx_div _ _ _ _ 0 1000); auto using near_exact, f100_fin, f100_R; unfold u52; lra.
Qed.
Lemma corner_approx E c radius angle deg : accurate E -> fin (px c) -> fin (py c) -> bounded_by 8192 (real_point c) ->
  fin radius -> Rabs (B2R radius) <= 4096 -> Rabs (rad deg) <= 400 -> approx angle (rad deg) (/ 268435456) ->
  at_point (/ 30000) (mkPoint (fadd (px c) (fmul radius (x_cos E angle))) (fadd (py c) (fmul radius (x_sin E angle))))
    (corner (real_point c) (B2R radius) deg).
Proof.
  intros A Fx Fy [Bx By] Fr Br Bd N. cbn [real_point fst snd] in *.
  destruct (sincos_approx E _ _ _ A N ltac:(lra) ltac:(lra)) as [S C].
  unfold at_point, corner, vplus, turn. cbn [real_point px py fst snd]. fold (rad deg).
  pose proof (Rabs_le _ _ (COS_bound (rad deg))) as Cb. pose proof (Rabs_le _ _ (SIN_bound (rad deg))) as Sb.
  assert (M : forall w k, approx w k (/ 268435456 + / 35184372088832) -> Rabs k <= 1 -> approx (fmul radius w) (B2R radius * k) (/ 60000) /\ Rabs (B2R radius * k) <= 4096).
  { intros w k W K. split.
    - apply (near_mul _ _ _ _ 0 (/ 268435456 + / 35184372088832) 4096 1); auto using near_exact; unfold u52; lra.
    - rewrite Rabs_mult. replace 4096 with (4096 * 1) by lra. apply Rmult_le_compat; auto using Rabs_pos. }
  destruct (M _ _ C Cb) as [Mc Mcb]. destruct (M _ _ S Sb) as [Ms Msb].
  replace (B2R radius * cos (rad deg) - 0 * sin (rad deg)) with (B2R radius * cos (rad deg)) by ring.
  replace (B2R radius * sin (rad deg) + 0 * cos (rad deg)) with (B2R radius * sin (rad deg)) by ring.
  split; apply (near_add _ _ _ _ 0 (/ 60000) 12288); auto using near_exact; unfold u52; lra.
Qed.

Lemma small_flt x y : fin x -> fin y -> fltb x y = false -> B2R y <= B2R x.
Proof. intros Fx Fy H. now apply fltb_false in H. Qed.
Lemma fabs_R x : B2R (fabs x) = Rabs (B2R x).
Proof. unfold fabs. apply B2R_Babs. Qed.
Lemma fabs_fin x : fin x -> fin (fabs x).
Proof. unfold fabs. now rewrite is_finite_Babs. Qed.
Lemma mic_fin : fin f_1em6. Proof. vm_compute. reflexivity. Qed.
Lemma mic_R : Rabs (B2R f_1em6 - 1 / 1000000) <= / 1152921504606846976.
Proof.
  rewrite <- SF2R_B2SF. replace (B2SF f_1em6) with (SpecFloat.S754_finite false 4722366482869645 (-72)) by (vm_compute; reflexivity).
  cbn [SF2R cond_Zopp]. unfold F2R. cbn [Fnum Fexp]. change (bpow radix2 (-72)) with (/ IZR 4722366482869645213696).
  apply Rabs_le. lra.
Qed.
Lemma vertex_approx E c radius round step angle deg n : accurate E -> fin (px c) -> fin (py c) -> bounded_by 8192 (real_point c) ->
  fin radius -> Rabs (B2R radius) <= 4096 -> fin round -> Rabs (B2R round) <= 1000 ->
  Rabs (rad deg) <= 400 -> approx angle (rad deg) (/ 268435456) ->
  (3 <= n)%nat -> approx step (2 * PI / INR n) (/ 281474976710656) ->
  vertex_ok c (B2R radius) (B2R round) n (star_vertex_at E c radius (fdiv round f100) step angle) deg.
Proof.
  intros A Fx Fy Bc Fr Br Fo Bo Bd N Hn St. pose proof (corner_approx E c radius angle deg A Fx Fy Bc Fr Br Bd N) as P.
  pose proof (rounding_small round Fo Bo) as Ro. pose proof pi_bounds as PB.
  assert (In : 3 <= INR n) by (replace 3 with (INR 3) by (cbn [INR]; lra); now apply le_INR).
  assert (Inv : 0 < / INR n <= / 3) by (split; [apply Rinv_0_lt_compat; lra|apply Rinv_le_contravar; lra]).
  assert (Half : approx (fdiv step (f_of_Z 2)) (PI / INR n) (/ 140737488355328)).
  { destruct (f_of_Z_R 2 ltac:(lia)) as [R2 F2]. replace (PI / INR n) with (2 * PI / INR n / 2) by (field; lra).
    apply (approx_div _ _ _ _ (/ 281474976710656) 7); auto; unfold u52; try lra.
    unfold Rdiv. rewrite Rabs_pos_eq by (apply Rmult_le_pos; lra). apply Rle_trans with (2 * PI * / 3); [apply Rmult_le_compat_l; lra|lra]. }
  destruct (tan_approx E _ _ _ A Half) as [Ta Tb].
  { unfold Rdiv. split; [apply Rmult_le_pos; lra|]. apply Rmult_le_compat_l; lra. } { lra. }
  set (tn := tan (PI / INR n)) in *.
  destruct (sincos_approx E _ _ _ A N ltac:(lra) ltac:(lra)) as [S C].
  pose proof (Rabs_le _ _ (COS_bound (rad deg))) as Cb. pose proof (Rabs_le _ _ (SIN_bound (rad deg))) as Sb.
  assert (Ro10 : Rabs (B2R round / 100) <= 10) by (apply Rabs_le; apply Rabs_le_inv in Bo; lra).
  assert (Bt : Rabs tn <= 2) by (rewrite Rabs_pos_eq; lra).
  set (L := B2R radius * tn * (B2R round / 100) * (4 / 3)).
  assert (L1 : Rabs (B2R radius * tn) <= 8192).
  { rewrite Rabs_mult. replace 8192 with (4096 * 2) by lra. apply Rmult_le_compat; auto using Rabs_pos. }
  assert (HH : forall side, handle (real_point c) (B2R radius) (B2R round) n deg side =
    vplus (corner (real_point c) (B2R radius) deg) (side * (- (L * sin (rad deg))), side * (L * cos (rad deg)))).
  { intros side. unfold handle. fold tn. f_equal. unfold turn. cbn [fst snd]. fold (rad deg). fold L. f_equal; ring. }
  assert (Lb0 : Rabs L <= 109228).
  { unfold L. rewrite Rabs_mult, (Rabs_pos_eq (4 / 3)) by lra. rewrite Rabs_mult.
    apply Rle_trans with (8192 * 10 * (4 / 3)); [|lra]. apply Rmult_le_compat_r; [lra|].
    apply Rmult_le_compat; auto using Rabs_pos. }
  unfold star_vertex_at.
  set (x := fadd (px c) (fmul radius (x_cos E angle))) in *. set (y := fadd (py c) (fmul radius (x_sin E angle))) in *.
  set (k := corner (real_point c) (B2R radius) deg) in *.
  assert (Kb : Rabs (fst k) <= 12289 /\ Rabs (snd k) <= 12289).
  { destruct Bc as [Bx By]. unfold k, corner, vplus, turn. cbn [fst snd real_point] in *. fold (rad deg).
    assert (M : forall w, Rabs w <= 1 -> Rabs (B2R radius * w) <= 4096).
    { intros w W. rewrite Rabs_mult. replace 4096 with (4096 * 1) by lra. apply Rmult_le_compat; auto using Rabs_pos. }
    pose proof (Rabs_le_inv _ _ (M _ Cb)). pose proof (Rabs_le_inv _ _ (M _ Sb)). apply Rabs_le_inv in Bx, By.
    split; apply Rabs_le; lra. }
  destruct P as [Px Py]. cbn [px py] in Px, Py.
  assert (Pt : at_point (1 / 1000) (mkPoint x y) k) by (split; eapply near_weaken; eauto; lra).
  assert (Bk : bounded_by 200000 k) by (split; lra).
  assert (Bh : forall side, Rabs side = 1 -> bounded_by 200000 (handle (real_point c) (B2R radius) (B2R round) n deg side)).
  { intros side Hs. rewrite HH. fold k. assert (Q : forall q, Rabs q <= 1 -> Rabs (L * q) <= 109228).
    { intros q K. rewrite Rabs_mult. replace 109228 with (109228 * 1) by lra. apply Rmult_le_compat; auto using Rabs_pos. }
    unfold bounded_by, vplus. cbn [fst snd]. pose proof (Q _ Sb). pose proof (Q _ Cb).
    split; apply Rle_trans with (1 := Rabs_triang _ _); rewrite (Rabs_mult side), Hs, ?Rabs_Ropp; lra. }
  destruct (fltb f_1em6 (fabs (fdiv round f100))) eqn:Big.
  - set (len := fdiv _ (f_of_Z 3)).
    assert (Ln : approx len L (/ 100000) /\ Rabs L <= 109228).
    { assert (M1 : approx (fmul radius (x_tan E (fdiv step (f_of_Z 2)))) (B2R radius * tn) (/ 1000000000)).
      { apply (near_mul _ _ _ _ 0 (8 * / 140737488355328 + / 35184372088832) 4096 2); auto using near_exact; unfold u52; lra. }
      assert (M2 : approx (fmul (fmul radius (x_tan E (fdiv step (f_of_Z 2)))) (fdiv round f100)) (B2R radius * tn * (B2R round / 100)) (/ 50000000)).
      { apply (near_mul _ _ _ _ (/ 1000000000) (/ 140737488355328) 8192 10); auto; unfold u52; lra. }
      assert (B2 : Rabs (B2R radius * tn * (B2R round / 100)) <= 81920).
      { rewrite Rabs_mult. replace 81920 with (8192 * 10) by lra. apply Rmult_le_compat; auto using Rabs_pos. }
      destruct (f_of_Z_R 4 ltac:(lia)) as [R4 F4]. destruct (f_of_Z_R 3 ltac:(lia)) as [R3 F3].
      assert (M3 : approx (fmul (fmul (fmul radius (x_tan E (fdiv step (f_of_Z 2)))) (fdiv round f100)) (f_of_Z 4))
        (B2R radius * tn * (B2R round / 100) * 4) (/ 1000000)).
      { apply (near_mul _ _ _ _ (/ 50000000) 0 81920 4); auto using near_exact; unfold u52; try lra. rewrite Rabs_pos_eq; lra. }
      replace L with (B2R radius * tn * (B2R round / 100) * 4 / 3) by (unfold L; field). split.
      - apply (approx_div _ _ _ _ (/ 1000000) 327680); auto; unfold u52; try lra. rewrite Rabs_mult, (Rabs_pos_eq 4) by lra. lra.
      - apply Rabs_le_inv in B2. apply Rabs_le. lra. }
    destruct Ln as [Ln Lb].
    assert (Mul : forall w q, approx w q (/ 268435456 + / 35184372088832) -> Rabs q <= 1 ->
       approx (fmul len w) (L * q) (/ 2000) /\ Rabs (L * q) <= 109228).
    { intros w q W Q. split.
      - apply (near_mul _ _ _ _ (/ 100000) (/ 268435456 + / 35184372088832) 109228 1); auto; unfold u52; lra.
      - rewrite Rabs_mult. replace 109228 with (109228 * 1) by lra. apply Rmult_le_compat; auto using Rabs_pos. }
    destruct (Mul _ _ (near_neg _ _ _ S) ltac:(now rewrite Rabs_Ropp)) as [MS MSb]. destruct (Mul _ _ C Cb) as [MC MCb].
    constructor; cbn [sv_pt sv_in sv_out]; [exact Pt|rewrite HH|rewrite HH|exact Bk|exact Bh]; unfold at_point, vplus; cbn [px py fst snd].
    + replace (fst k + -1 * - (L * sin (rad deg))) with (fst k - L * - sin (rad deg)) by ring.
      replace (snd k + -1 * (L * cos (rad deg))) with (snd k - L * cos (rad deg)) by ring.
      split; apply (approx_sub _ _ _ _ (/ 30000) (/ 2000) 121517); auto; unfold u52; lra.
    + replace (fst k + 1 * - (L * sin (rad deg))) with (fst k + L * - sin (rad deg)) by ring.
      replace (snd k + 1 * (L * cos (rad deg))) with (snd k + L * cos (rad deg)) by ring.
      split; apply (near_add _ _ _ _ (/ 30000) (/ 2000) 121517); auto; unfold u52; lra.
  - apply small_flt in Big; [|apply mic_fin|apply fabs_fin, Ro]. rewrite fabs_R in Big.
    pose proof (Rabs_le_inv _ _ mic_R) as Mc. destruct Ro as [Fro Ro].
    assert (Rs : Rabs (B2R round / 100) <= 1 / 990000).
    { replace (B2R round / 100) with (B2R (fdiv round f100) - (B2R (fdiv round f100) - B2R round / 100)) by ring.
      unfold Rminus at 1. apply Rle_trans with (1 := Rabs_triang _ _). rewrite Rabs_Ropp. lra. }
    assert (Lb : Rabs L <= 1 / 89).
    { unfold L. rewrite Rabs_mult, (Rabs_pos_eq (4 / 3)) by lra. rewrite Rabs_mult.
      apply Rle_trans with (8192 * (1 / 990000) * (4 / 3)); [|lra]. apply Rmult_le_compat_r; [lra|].
      apply Rmult_le_compat; auto using Rabs_pos. }
    assert (Q : forall q, Rabs q <= 1 -> Rabs (L * q) <= 1 / 89).
    { intros q K. rewrite Rabs_mult. replace (1 / 89) with (1 / 89 * 1) by lra. apply Rmult_le_compat; auto using Rabs_pos. }
    pose proof (Rabs_le_inv _ _ (Q _ Sb)). pose proof (Rabs_le_inv _ _ (Q _ Cb)).
    destruct Px as [Fpx Px], Py as [Fpy Py]. apply Rabs_le_inv in Px, Py.
    constructor; cbn [sv_pt sv_in sv_out]; [exact Pt|rewrite HH|rewrite HH|exact Bk|exact Bh]; unfold at_point, vplus; cbn [px py fst snd];
      split; split; auto; apply Rabs_le; lra.
Qed.

(** ** All corners *)
Lemma some_eq {A} (x y : A) : Some x = Some y -> x = y.
Proof. congruence. Qed.
Definition pick {A} (star : bool) (o i : A) (k : nat) : A := if negb star || Nat.even k then o else i.
Fixpoint turned (a step : f64) (k : nat) : f64 := match k with O => a | S k => turned (fadd a step) step k end.
Lemma vertices_length E st c ro rro ri rri step : forall n a i,
  List.length (star_vertices E st c ro rro ri rri step a i n) = n.
Proof.
  induction n as [|n IH]; intros a i; cbn [star_vertices]; [reflexivity|].
  destruct (negb st || Nat.even i); cbn [List.length]; now rewrite IH.
Qed.
Lemma vertices_nth E st c ro rro ri rri step : forall n a i k v,
  nth_error (star_vertices E st c ro rro ri rri step a i n) k = Some v ->
  v = star_vertex_at E c (pick st ro ri (i + k)) (pick st rro rri (i + k)) step (turned a step k).
Proof.
  induction n as [|n IH]; intros a i k v H; cbn [star_vertices] in H; [destruct k; discriminate|].
  destruct k as [|k].
  - rewrite Nat.add_0_r. unfold pick. destruct (negb st || Nat.even i); cbn [nth_error] in H; apply some_eq in H; now symmetry.
  - rewrite <- Nat.add_succ_comm. destruct (negb st || Nat.even i); cbn [nth_error] in H; apply IH in H; exact H.
Qed.
Lemma turned_approx step s : approx step s (/ 281474976710656) -> 0 <= s <= 7 ->
  forall k a t e, approx a t e -> 0 <= e <= / 1000000 -> (forall j, (j <= k)%nat -> Rabs (t + INR j * s) <= 400) ->
  e + INR k * / 8796093022208 <= / 1000000 ->
  approx (turned a step k) (t + INR k * s) (e + INR k * / 8796093022208).
Proof.
  intros St Hs. induction k as [|k IH]; intros a t e N He B L; cbn [turned].
  - rewrite !Rmult_0_l, !Rplus_0_r. exact N.
  - rewrite S_INR in L |- *. pose proof (pos_INR k).
    assert (N' : approx (fadd a step) (t + s) (e + / 8796093022208)).
    { pose proof (B 0%nat ltac:(lia)) as B0. rewrite Rmult_0_l, Rplus_0_r in B0.
      apply (near_add _ _ _ _ e (/ 281474976710656) 407); auto; unfold u52; try lra. rewrite (Rabs_pos_eq s); lra. }
    replace (t + (INR k + 1) * s) with (t + s + INR k * s) by ring.
    replace (e + (INR k + 1) * / 8796093022208) with (e + / 8796093022208 + INR k * / 8796093022208) by ring.
    apply IH; auto; try lra. intros j Hj. replace (t + s + INR j * s) with (t + INR (S j) * s) by (rewrite S_INR; ring). apply B. lia.
Qed.

(** ** Edges *)
Definition edge_of (v w : star_vertex) : edge :=
  if straight v w then mkEdge (sv_pt v) (sv_pt v) (sv_pt w) (sv_pt w)
  else mkEdge (sv_pt v) (sv_out v) (sv_in w) (sv_pt w).
Fixpoint edges_from (v : star_vertex) (vs : list star_vertex) (f : star_vertex) : list edge :=
  match vs with [] => [edge_of v f] | w :: vs => edge_of v w :: edges_from w vs f end.
Lemma edge_ends v w : e_from (edge_of v w) = sv_pt v /\ e_to (edge_of v w) = sv_pt w.
Proof. unfold edge_of. destruct (straight v w); split; reflexivity. Qed.
Lemma edges_drawn f : forall vs v, drawn (edges_from v vs f) (star_edges v vs ++ star_close (last vs v) f).
Proof.
  induction vs as [|w vs IH]; intros v; cbn [edges_from star_edges app].
  - cbn [last]. unfold star_close, edge_of. destruct (straight v f).
    + apply drawn_close. split; reflexivity.
    + apply (drawn_curve (mkEdge (sv_pt v) (sv_out v) (sv_in f) (sv_pt f))), drawn_end.
  - replace (last (w :: vs) v) with (last vs w) by (destruct vs; [reflexivity|cbn; clear; revert s; induction vs; cbn; auto; intros; destruct vs; auto]).
    unfold edge_of at 1. destruct (straight v w).
    + apply (drawn_line (mkEdge (sv_pt v) (sv_pt v) (sv_pt w) (sv_pt w))); [split; reflexivity|apply IH].
    + apply (drawn_curve (mkEdge (sv_pt v) (sv_out v) (sv_in w) (sv_pt w))), IH.
Qed.
Lemma edges_start v vs f : starts_at (sv_pt v) (edges_from v vs f).
Proof. destruct vs; cbn; apply edge_ends. Qed.
Lemma edges_chained f : forall vs v, chained (sv_pt f) (edges_from v vs f).
Proof.
  induction vs as [|w vs IH]; intros v; cbn [edges_from]; [apply edge_ends|].
  specialize (IH w). pose proof (edges_start w vs f) as S. destruct (edges_from w vs f) as [|e l]; [contradiction|].
  split; [|exact IH]. cbn in S. rewrite S. apply edge_ends.
Qed.
Lemma edges_length f : forall vs v, List.length (edges_from v vs f) = S (List.length vs).
Proof. induction vs; intros v; cbn; auto. Qed.
Lemma edges_nth f : forall vs v k e, nth_error (edges_from v vs f) k = Some e ->
  exists a b, nth_error (v :: vs) k = Some a /\ nth_error ((v :: vs) ++ [f]) (S k) = Some b /\ e = edge_of a b.
Proof.
  induction vs as [|w vs IH]; intros v k e H; cbn [edges_from] in H; destruct k as [|k].
  - injection H as <-. exists v, f. auto.
  - destruct k; discriminate.
  - injection H as <-. exists v, w. auto.
  - cbn [nth_error] in H. destruct (IH w k e H) as (a & b & Ha & Hb & ->). exists a, b. auto.
Qed.
(** Points that [near] takes for equal. *)
Lemma near_close p q v w d e : at_point d p v -> at_point e q w -> d <= 1 -> e <= 1 -> bounded_by 200000 v -> bounded_by 200000 w ->
  near p q = true -> within (1 / 900000) (real_point p) (real_point q).
Proof.
  intros [Px Py] [Qx Qy] Hd He [Vx Vy] [Wx Wy] H. unfold near in H. apply andb_true_iff in H as [H1 H2].
  assert (G : forall x y r s, approx x r d -> approx y s e -> Rabs r <= 200000 -> Rabs s <= 200000 ->
    fltb (fabs (fsub x y)) f_1em6 = true -> Rabs (B2R x - B2R y) <= 1 / 900000).
  { intros x y r s X Y Br Bs L. pose proof (near_bound _ _ _ _ X Br) as Bx. pose proof (near_bound _ _ _ _ Y Bs) as By.
    destruct X as [Fx _], Y as [Fy _].
    assert (D : Rabs (B2R x - B2R y) <= 400002).
    { unfold Rminus. apply Rle_trans with (1 := Rabs_triang _ _). rewrite Rabs_Ropp. lra. }
    destruct (fsub_R x y Fx Fy) as [Es Fs]. { pose proof big_range. lra. }
    apply fltb_lt in L; [|now apply fabs_fin|apply mic_fin]. rewrite fabs_R, Es in L.
    pose proof (rnd_error (B2R x - B2R y)) as Er. pose proof (Rabs_le_inv _ _ mic_R) as M.
    set (z := B2R x - B2R y) in *.
    assert (u52 * (Rabs z + 1) <= u52 * 400003) by (apply Rmult_le_compat_l; [unfold u52; lra|lra]). unfold u52 in *.
    replace z with (rnd z - (rnd z - z)) by ring. unfold Rminus at 1. apply Rle_trans with (1 := Rabs_triang _ _).
    rewrite Rabs_Ropp. lra. }
  split; cbn [real_point fst snd]; eapply G; eassumption.
Qed.
Lemma within_trans d e f v w x : within d v w -> within e w x -> d + e <= f -> within f v x.
Proof.
  intros [A B] [C D] L. split; [apply Rle_trans with (1 := triangle _ _ _ _ _ A C)|apply Rle_trans with (1 := triangle _ _ _ _ _ B D)]; exact L.
Qed.
Lemma within_sym d v w : within d v w -> within d w v.
Proof. intros [A B]. split; rewrite Rabs_minus_sym; assumption. Qed.

Record edge_ok (c : point) (n : nat) (r0 o0 d0 r1 o1 d1 : R) (e : edge) : Prop := mkEOk {
  eo_from : within (1 / 1000) (real_point (e_from e)) (corner (real_point c) r0 d0);
  eo_c0 : within (1 / 50) (real_point (e_c0 e)) (handle (real_point c) r0 o0 n d0 1);
  eo_c1 : within (1 / 50) (real_point (e_c1 e)) (handle (real_point c) r1 o1 n d1 (-1));
  eo_to : within (1 / 1000) (real_point (e_to e)) (corner (real_point c) r1 d1) }.
Lemma edge_approx c n r0 o0 d0 r1 o1 d1 v w : vertex_ok c r0 o0 n v d0 -> vertex_ok c r1 o1 n w d1 ->
  edge_ok c n r0 o0 d0 r1 o1 d1 (edge_of v w).
Proof.
  intros [P0 I0 O0 BP0 BH0] [P1 I1 O1 BP1 BH1]. unfold edge_of. destruct (straight v w) eqn:S.
  - unfold straight in S. apply andb_true_iff in S as [S0 S1].
    pose proof (near_close _ _ _ _ _ _ O0 P0 ltac:(lra) ltac:(lra) (BH0 1 Rabs_R1) BP0 S0) as N0.
    pose proof (near_close _ _ _ _ _ _ I1 P1 ltac:(lra) ltac:(lra) (BH1 (-1) ltac:(rewrite Rabs_left; lra)) BP1 S1) as N1.
    apply at_within in P0, P1, O0, I1.
    constructor; cbn [e_from e_c0 e_c1 e_to]; auto.
    + apply (within_trans _ _ _ _ _ _ (within_sym _ _ _ N0) O0). lra.
    + apply (within_trans _ _ _ _ _ _ (within_sym _ _ _ N1) I1). lra.
  - apply at_within in P0, P1, O0, I1. constructor; cbn [e_from e_c0 e_c1 e_to]; auto.
    + destruct O0; split; lra.
    + destruct I1; split; lra.
Qed.
Lemma turn_round d v : turn (d + 360) v = turn d v.
Proof.
  unfold turn. replace ((d + 360) * PI / 180) with (d * PI / 180 + 2 * PI) by field.
  replace (d * PI / 180 + 2 * PI) with (d * PI / 180 + 2 * INR 1 * PI) by (cbn [INR]; ring).
  now rewrite cos_period, sin_period.
Qed.
(** ** The number of points *)
Lemma count_of x n : fin x -> IZR n - / 2 <= B2R x < IZR n + / 2 -> (1 <= n <= 10000)%Z ->
  f_to_usize (fround x) = n.
Proof.
  intros F B Hn. unfold fround.
  destruct (Bnearbyint_correct 53 1024 _ mode_NA x) as (R1 & R2 & _). rewrite F in R2. set (y := Bnearbyint mode_NA x) in *.
  assert (Zn : ZnearestA (B2R x) = n).
  { destruct (Req_dec (B2R x) (IZR n - / 2)) as [Eq|Ne].
    - assert (Fl : Zfloor (B2R x) = (n - 1)%Z) by (apply Zfloor_imp; rewrite Eq, Z.sub_add, minus_IZR; lra).
      unfold Znearest. rewrite Fl, minus_IZR. replace (B2R x - (IZR n - 1)) with (/ 2) by lra.
      rewrite Rcompare_Eq by reflexivity. replace (0 <=? n - 1)%Z with true by (symmetry; apply Z.leb_le; lia).
      apply Zceil_imp. rewrite Eq, minus_IZR. lra.
    - apply Znearest_imp, Rabs_lt. lra. }
  assert (Ry : B2R y = IZR n).
  { rewrite R1. unfold round, scaled_mantissa, cexp, F2R. cbn [Fnum Fexp FIX_exp round_mode]. unfold FIX_exp.
    cbn [Z.opp bpow]. rewrite !Rmult_1_r, Zn. reflexivity. }
  assert (T : Btrunc y = n).
  { apply eq_IZR. rewrite (Btrunc_correct 53 1024 eq_refl y). unfold round, scaled_mantissa, cexp, F2R. cbn [Fnum Fexp]. unfold FIX_exp.
    cbn [Z.opp bpow]. rewrite !Rmult_1_r, Ry, Ztrunc_IZR. reflexivity. }
  unfold f_to_usize. destruct y; try discriminate; rewrite T; unfold usize_max; lia.
Qed.

(** ** The outline *)
(** Values of a star's properties for which it can be said where its corners are. *)
Definition ordinary_star (c : point) (ro oo ri oi rot : f64) : Prop :=
  (fin (px c) /\ fin (py c) /\ bounded_by 8192 (real_point c)) /\
  (fin ro /\ Rabs (B2R ro) <= 4096) /\ (fin oo /\ Rabs (B2R oo) <= 1000) /\
  (fin ri /\ Rabs (B2R ri) <= 4096) /\ (fin oi /\ Rabs (B2R oi) <= 1000) /\
  (fin rot /\ Rabs (B2R rot) <= 16384).
(** The outline of a star with [n] corners: the [k]-th edge leads from
    corner [k] to the next, corners alternate between two radii (and amounts of
    rounding) and are turned by 360 / [n] degrees each, the first one being on
    top (turned by [rot]). *)
Definition star_outline (n : nat) (c : point) (radius rounding : nat -> f64) (rot : f64) (els : list path_el) : Prop :=
  exists p0 rest edges, els = MoveTo p0 :: rest /\ drawn edges rest /\ List.length edges = n /\
    starts_at p0 edges /\ chained p0 edges /\
    forall k e, nth_error edges k = Some e ->
      let deg := B2R rot - 90 + INR k * 360 / INR n in
      let deg' := B2R rot - 90 + INR (S k) * 360 / INR n in
      within (1 / 1000) (real_point (e_from e)) (corner (real_point c) (B2R (radius k)) deg) /\
      within (1 / 50) (real_point (e_c0 e)) (handle (real_point c) (B2R (radius k)) (B2R (rounding k)) n deg 1) /\
      within (1 / 50) (real_point (e_c1 e)) (handle (real_point c) (B2R (radius (S k))) (B2R (rounding (S k))) n deg' (-1)) /\
      within (1 / 1000) (real_point (e_to e)) (corner (real_point c) (B2R (radius (S k))) deg').
Lemma pick_map {A B} (f : A -> B) st o i k : f (pick st o i k) = pick st (f o) (f i) k.
Proof. unfold pick. destruct (negb st || Nat.even k); reflexivity. Qed.
Lemma star_eval_outline E s frame (n : Z) : accurate E ->
  let star := negb (asr_polygon s) in
  let total := Z.to_nat (if star then 2 * n else n) in
  let c := eval E (asr_position s) frame in
  let ro := eval E (asr_outer_radius s) frame in let oo := eval E (asr_outer_roundness s) frame in
  let ri := eval E (asr_inner_radius s) frame in let oi := eval E (asr_inner_roundness s) frame in
  let rot := eval E (asr_rotation s) frame in let pts := eval E (asr_points s) frame in
  ordinary_star c ro oo ri oi rot -> fin pts -> IZR n - / 2 <= B2R pts < IZR n + / 2 -> (1 <= n <= 10000)%Z -> (3 <= total)%nat ->
  exists els, a_star_eval E s frame = Ok els /\
    star_outline total c (pick star ro ri) (pick star oo oi) rot els.
Proof.
  intros A star total c ro oo ri oi rot pts ((Fcx & Fcy & Bc) & (Fro & Bro) & (Foo & Boo) & (Fri & Bri) & (Foi & Boi) & (Frot & Brot)) Fp Bp Hn Ht.
  pose proof pi_bounds as PB.
  assert (It : 3 <= INR total <= 20000).
  { rewrite INR_IZR_INZ. split; apply IZR_le; [lia|]. unfold total. destruct star; lia. }
  set (step := if star then fdiv (fdiv f_tau (f_of_Z n)) (f_of_Z 2) else fdiv f_tau (f_of_Z n)).
  set (a0 := fsub (to_radians rot) f_frac_pi_2).
  assert (Step : approx step (2 * PI / INR total) (/ 281474976710656)).
  { destruct (f_of_Z_R n ltac:(lia)) as [Rn Fn]. destruct (f_of_Z_R 2 ltac:(lia)) as [R2 F2].
    assert (In : 1 <= IZR n) by (apply IZR_le; lia).
    assert (Inv : 0 < / IZR n <= 1) by (split; [apply Rinv_0_lt_compat; lra|rewrite <- Rinv_1; apply Rinv_le_contravar; lra]).
    assert (D1 : approx (fdiv f_tau (f_of_Z n)) (2 * PI / IZR n) (/ 300000000000000)).
    { apply (approx_div _ _ _ _ (/ 1125899906842624) 7); auto using tau_approx; try lra.
      - rewrite Rabs_pos_eq; lra.
      - unfold Rdiv, u52. assert (/ 1125899906842624 * / IZR n <= / 1125899906842624 * 1) by (apply Rmult_le_compat_l; lra).
        assert ((7 + / 1125899906842624) * / IZR n <= (7 + / 1125899906842624) * 1) by (apply Rmult_le_compat_l; lra). lra. }
    assert (Q : Rabs (2 * PI / IZR n) <= 7).
    { unfold Rdiv. rewrite Rabs_pos_eq by (apply Rmult_le_pos; lra). apply Rle_trans with (2 * PI * 1); [apply Rmult_le_compat_l; lra|lra]. }
    unfold step, total. destruct star.
    - replace (2 * PI / INR (Z.to_nat (2 * n))) with (2 * PI / IZR n / 2).
      2:{ rewrite INR_IZR_INZ, Z2Nat.id, mult_IZR by lia. field. lra. }
      apply (approx_div _ _ _ _ (/ 300000000000000) 7); auto; unfold u52; lra.
    - rewrite INR_IZR_INZ, Z2Nat.id by lia. apply (near_weaken _ _ _ _ D1). lra. }
  assert (Sb : 0 <= 2 * PI / INR total <= 7).
  { assert (Inv : 0 < / INR total <= 1) by (split; [apply Rinv_0_lt_compat; lra|rewrite <- Rinv_1; apply Rinv_le_contravar; lra]).
    unfold Rdiv. split; [apply Rmult_le_pos; lra|]. apply Rle_trans with (2 * PI * 1); [apply Rmult_le_compat_l; lra|lra]. }
  assert (Rb : Rabs (rad (B2R rot)) <= 290).
  { unfold rad. replace (B2R rot * PI / 180) with (B2R rot * (PI / 180)) by lra.
    rewrite Rabs_mult. apply Rle_trans with (16384 * (176 / 10000)); [|lra].
    apply Rmult_le_compat; auto using Rabs_pos. apply Rabs_le. lra. }
  assert (Start : approx a0 (rad (B2R rot) - PI / 2) (/ 2199023255552)).
  { apply (approx_sub _ _ _ _ (/ 4398046511104) (/ 4503599627370496) 292); auto using radians_near, quarter_approx; unfold u52; try lra.
    rewrite (Rabs_pos_eq (PI / 2)) by lra. lra. }
  set (deg k := B2R rot - 90 + INR k * 360 / INR total).
  assert (Deg : forall k, rad (deg k) = rad (B2R rot) - PI / 2 + INR k * (2 * PI / INR total)).
  { intros k. unfold rad, deg. field. lra. }
  assert (Kb : forall k, (k <= total)%nat -> 0 <= INR k * (2 * PI / INR total) <= 7).
  { intros k Hk. apply le_INR in Hk. pose proof (pos_INR k). split; [apply Rmult_le_pos; lra|].
    apply Rle_trans with (INR total * (2 * PI / INR total)); [apply Rmult_le_compat_r; lra|].
    replace (INR total * (2 * PI / INR total)) with (2 * PI) by (field; lra). lra. }
  assert (Db : forall k, (k <= total)%nat -> Rabs (rad (deg k)) <= 400).
  { intros k Hk. rewrite Deg. pose proof (Kb k Hk). apply Rabs_le_inv in Rb. apply Rabs_le. lra. }
  assert (Ang : forall k, (k <= total)%nat -> approx (turned a0 step k) (rad (deg k)) (/ 268435456)).
  { intros k Hk. rewrite Deg. pose proof (le_INR _ _ Hk). pose proof (pos_INR k).
    assert (K : INR k * / 8796093022208 <= 20000 * / 8796093022208) by (apply Rmult_le_compat_r; lra).
    apply near_weaken with (/ 2199023255552 + INR k * / 8796093022208); [|lra].
    apply (turned_approx _ _ Step Sb); auto; try lra.
    intros j Hj. rewrite <- Deg. apply Db. lia. }
  (* the program *)
  set (oi' := if star then fdiv oi f100 else f0). set (ri' := if star then ri else ro).
  set (V := star_vertices E star c ro (fdiv oo f100) ri' oi' step a0 0 total).
  assert (Ev : a_star_eval E s frame = match V with [] => Ok [] | v0 :: vs => Ok (MoveTo (sv_pt v0) :: star_edges v0 vs ++ star_close (last vs v0) v0) end).
  { unfold a_star_eval. fold c ro oo ri oi rot pts. rewrite (count_of pts n Fp Bp Hn).
    destruct (Z.eqb_spec n 0); [lia|]. fold star. unfold V, ri', oi', step, a0, total.
    destruct star; cbv beta zeta iota.
    - replace (star_cap_ok (n * 2)) with true by (symmetry; unfold star_cap_ok, isize_max; apply Z.leb_le; lia).
      cbn [negb]. rewrite (Z.mul_comm n 2). reflexivity.
    - replace (star_cap_ok n) with true by (symmetry; unfold star_cap_ok, isize_max; apply Z.leb_le; lia). reflexivity. }
  assert (LV : List.length V = total) by apply vertices_length.
  assert (VO : forall k v, nth_error V k = Some v ->
    vertex_ok c (B2R (pick star ro ri k)) (B2R (pick star oo oi k)) total v (deg k)).
  { intros k v H. assert (Hk : (k < total)%nat) by (rewrite <- LV; apply nth_error_Some; congruence).
    apply vertices_nth in H. cbn [Nat.add] in H. subst v.
    replace (pick star ro ri' k) with (pick star ro ri k) by (unfold pick, ri'; destruct star; reflexivity).
    replace (pick star (fdiv oo f100) oi' k) with (fdiv (pick star oo oi k) f100) by (unfold pick, oi'; destruct star; cbn [negb orb]; [destruct (Nat.even k)|]; reflexivity).
    apply vertex_approx; auto.
    - unfold pick. destruct (_ || _); assumption.
    - unfold pick. destruct (_ || _); assumption.
    - unfold pick. destruct (_ || _); assumption.
    - unfold pick. destruct (_ || _); assumption.
    - apply Db. lia.
    - apply Ang. lia. }
  destruct V as [|v0 vs]; [cbn in LV; lia|]. eexists. split; [exact Ev|].
  exists (sv_pt v0), (star_edges v0 vs ++ star_close (last vs v0) v0), (edges_from v0 vs v0).
  split; [reflexivity|]. split; [apply edges_drawn|]. split; [rewrite edges_length; exact LV|].
  split; [apply edges_start|]. split; [apply edges_chained|].
  intros k e H. destruct (edges_nth _ _ _ _ _ H) as (a & b & Ha & Hb & ->).
  pose proof (VO _ _ Ha) as Va. fold (deg k) (deg (S k)).
  assert (Vb : vertex_ok c (B2R (pick star ro ri (S k))) (B2R (pick star oo oi (S k))) total b (deg (S k))).
  { destruct (Nat.lt_ge_cases (S k) (List.length (v0 :: vs))) as [Lt|Ge].
    - rewrite nth_error_app1 in Hb by exact Lt. now apply VO.
    - assert (Hk : S k = total) by (pose proof (nth_error_Some (v0 :: vs) k) as Q; rewrite Ha in Q; pose proof (proj1 Q ltac:(discriminate)); lia).
      rewrite nth_error_app2 in Hb by exact Ge. replace (S k - List.length (v0 :: vs))%nat with O in Hb by lia. injection Hb as <-.
      pose proof (VO 0%nat v0 eq_refl) as V0. rewrite Hk.
      assert (P : forall T (x y : T), pick star x y total = pick star x y 0).
      { intros T x y. unfold pick, total. destruct star; [|reflexivity]. cbn [negb orb].
        replace (Nat.even (Z.to_nat (2 * n))) with true; [reflexivity|]. symmetry. apply Nat.even_spec. exists (Z.to_nat n). lia. }
      rewrite !P. assert (D : deg total = deg 0%nat + 360) by (unfold deg; cbn [INR]; field; lra). rewrite D.
      destruct V0 as [V1 V2 V3 V4 V5]. unfold handle, corner in *.
      constructor; unfold handle, corner; rewrite ?turn_round; auto. intros side Hs. rewrite !turn_round. auto. }
  destruct (edge_approx _ _ _ _ _ _ _ _ _ _ Va Vb). auto.
Qed.

From Verif Require Import Schema Import ImportSpec TimelineSpec ImportFacts DocExamples PropImport PropImport2 Examples.
Open Scope R_scope.
Definition inner_means (E : Ext) (sy : star_type) (o : option float_value) (g : f64 -> f64) : Prop :=
  match sy, o with
  | StStar, Some v => scalar_means E v g
  | _, _ => forall frame, g frame = f0
  end.
Definition is_star (sy : star_type) : bool := match sy with StStar => true | StPolygon => false end.
(** Number of corners of a star or polygon with [n] points. *)
Definition corners (sy : star_type) (n : Z) : nat := Z.to_nat (if is_star sy then 2 * n else n).
(** What belongs to corner [k]: corners of a star alternate. *)
Definition at_corner {A} (sy : star_type) (outer inner : A) (k : nat) : A :=
  if is_star sy && Nat.odd k then inner else outer.
Theorem C78_outline : forall E sh p or os r pt sy ir is g, accurate E ->
  becomes E (AsPolyStar sh p or os r pt sy ir is) (ShGeometry g) ->
  exists centre outer rounding inner inner_rounding rotation points,
    pos_means E p centre /\ scalar_means E or outer /\ scalar_means E os rounding /\
    inner_means E sy ir inner /\ inner_means E sy is inner_rounding /\
    scalar_means E r rotation /\ scalar_means E pt points /\
    forall frame n,
      ordinary_star (centre frame) (outer frame) (rounding frame) (inner frame) (inner_rounding frame) (rotation frame) ->
      fin (points frame) -> IZR n - / 2 <= B2R (points frame) < IZR n + / 2 -> (1 <= n <= 10000)%Z ->
      (3 <= corners sy n)%nat ->
      exists els, geometry_eval E g frame = Ok els /\
        star_outline (corners sy n) (centre frame) (at_corner sy (outer frame) (inner frame))
          (at_corner sy (rounding frame) (inner_rounding frame)) (rotation frame) els.
Proof.
  intros E sh p or os r pt sy ir is g A B. inversion B as [| | | | | | |? ? ? ? ? ? ? ? ? ? R| |]; subst.
  destruct R as (s & Sy & Rp & Ror & Ros & Rr & Rpt & Rir & Ris & Ev).
  exists (fun frame => eval E (asr_position s) frame), (fun frame => eval E (asr_outer_radius s) frame),
    (fun frame => eval E (asr_outer_roundness s) frame), (fun frame => eval E (asr_inner_radius s) frame),
    (fun frame => eval E (asr_inner_roundness s) frame), (fun frame => eval E (asr_rotation s) frame),
    (fun frame => eval E (asr_points s) frame).
  assert (In : forall o v, inner_reads sy o v -> inner_means E sy o (fun frame => eval E v frame)).
  { intros o v. unfold inner_reads, inner_means. destruct sy, o; intros H; try (subst v; reflexivity). now apply scalar_means_reads. }
  split; [now apply pos_means_reads|]. do 2 (split; [now apply scalar_means_reads|]). do 2 (split; [now apply In|]).
  do 2 (split; [now apply scalar_means_reads|]).
  intros frame n O F Bp Hn Hc.
  assert (St : negb (asr_polygon s) = is_star sy) by (rewrite Sy; destruct sy; reflexivity).
  destruct (star_eval_outline E s frame n A O F Bp Hn) as (els & Ee & Out).
  { rewrite St. exact Hc. }
  exists els. split; [rewrite Ev; exact Ee|]. rewrite St in Out.
  assert (P : forall T (x y : T) k, pick (is_star sy) x y k = at_corner sy x y k).
  { intros T x y k. unfold pick, at_corner. rewrite <- Nat.negb_even. destruct (is_star sy), (Nat.even k); reflexivity. }
  destruct Out as (p0 & rest & edges & Q1 & Q2 & Q3 & Q4 & Q5 & Q6). exists p0, rest, edges.
  repeat (split; [assumption|]). intros k e H. specialize (Q6 k e H). now rewrite !P in Q6.
Qed.
Definition five_star : any_shape :=
  AsPolyStar (mkSShape no_ge None) (p_static 50 60) (st (f_of_Z 40)) (st f0) (st (f_of_Z 15)) (st (f_of_Z 5)) StStar
    (Some (st (f_of_Z 20))) (Some (st (f_of_Z 30))).
Example C78_applies : accurate E_accurate /\ yields five_star /\
  ordinary_star (zp 50 60) (f_of_Z 40) f0 (f_of_Z 20) (f_of_Z 30) (f_of_Z 15) /\
  IZR 5 - / 2 <= B2R (f_of_Z 5) < IZR 5 + / 2 /\ corners StStar 5 = 10%nat /\
  (exists g, becomes E_accurate five_star (ShGeometry g)).
Proof.
  split; [apply E_accurate_ok|]. split; [constructor|].
  assert (Z : forall z b, (Z.abs z <= 2 ^ 53)%Z -> (Z.abs z <= b)%Z -> fin (f_of_Z z) /\ Rabs (B2R (f_of_Z z)) <= IZR b).
  { intros z b H K. destruct (f_of_Z_R z H) as [-> F]. split; [exact F|]. rewrite <- abs_IZR. now apply IZR_le. }
  split.
  { assert (Z0 : fin f0 /\ Rabs (B2R f0) <= 1000) by (split; [reflexivity|rewrite f0_R, Rabs_R0; lra]).
    unfold ordinary_star, bounded_by, real_point, zp. cbn [px py fst snd]. repeat split; try apply Z; try lia; apply Z0. }
  split. { destruct (f_of_Z_R 5 ltac:(lia)) as [-> _]. lra. }
  split; [reflexivity|].
  set (a := mkAStar false f1 (VFixed (zp 50 60)) (VFixed (f_of_Z 20)) (VFixed (f_of_Z 30)) (VFixed (f_of_Z 40)) (VFixed f0)
              (VFixed (f_of_Z 15)) (VFixed (f_of_Z 5))).
  exists (GStar a). constructor. exists a. repeat split.
Qed.
