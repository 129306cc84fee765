(** C77: transforms put points where they should, up to a rounding error. *)
From Coq Require Import ZArith QArith Qpower Reals Qreals Ratan Bool List Arith String Lia Lra.
From Flocq Require Import Core BinarySingleNaN Relative.
From Verif Require Import F64 F64Facts Kurbo GeometrySpec.
Import ListNotations.
Open Scope R_scope.

(** * Approximations of the circle number *)
Definition q_atan (x : Q) (n : nat) : Q := (x ^ Z.of_nat (2 * n + 1) / inject_Z (Z.of_nat (2 * n + 1)))%Q.
Definition q_term (n : nat) : Q :=
  let v := (2 * q_atan (1 # 3) n + q_atan (1 # 7) n)%Q in if Nat.even n then v else (- v)%Q.
Fixpoint q_sum (n : nat) : Q := match n with O => q_term 0 | S m => Qred (q_sum m + q_term n)%Q end.
Lemma Q2R_pow x n : ~ (x == 0)%Q -> Q2R (x ^ Z.of_nat n) = Q2R x ^ n.
Proof.
  intros N. induction n.
  - cbn. unfold Q2R. cbn. lra.
  - rewrite Nat2Z.inj_succ, <- Z.add_1_r. rewrite (Qeq_eqR _ _ (Qpower_plus x _ 1 N)), Q2R_mult, IHn.
    cbn [pow]. change (x ^ 1)%Q with x. ring.
Qed.
Lemma q_atan_R x n : ~ (x == 0)%Q -> Q2R (q_atan x n) = Ratan_seq (Q2R x) n.
Proof.
  intros N. unfold q_atan, Ratan_seq. rewrite Q2R_div, Q2R_pow by (try exact N; unfold Qeq; cbn [inject_Z Qnum Qden]; lia).
  f_equal. rewrite INR_IZR_INZ. unfold Q2R, inject_Z. cbn [Qnum Qden]. field.
Qed.
Lemma q_term_R n : Q2R (q_term n) = tg_alt PI_2_3_7_tg n.
Proof.
  unfold q_term, tg_alt, PI_2_3_7_tg.
  assert (H : Q2R (2 * q_atan (1 # 3) n + q_atan (1 # 7) n) = 2 * Ratan_seq (/ 3) n + Ratan_seq (/ 7) n).
  { rewrite Q2R_plus, Q2R_mult, !q_atan_R by (unfold Qeq; cbn; lia).
    replace (Q2R 2) with 2 by (unfold Q2R; cbn; lra). replace (Q2R (1 # 3)) with (/ 3) by (unfold Q2R; cbn; lra).
    replace (Q2R (1 # 7)) with (/ 7) by (unfold Q2R; cbn; lra). reflexivity. }
  destruct (Nat.even n) eqn:Ev.
  - apply Nat.even_spec in Ev. destruct Ev as [k ->]. rewrite H, pow_1_even. lra.
  - assert (Od : Nat.odd n = true) by (unfold Nat.odd; now rewrite Ev). apply Nat.odd_spec in Od. destruct Od as [k ->].
    rewrite Q2R_opp, H. replace (2 * k + 1)%nat with (S (2 * k)) by lia. rewrite pow_1_odd. lra.
Qed.
Lemma q_sum_R n : Q2R (q_sum n) = sum_f_R0 (tg_alt PI_2_3_7_tg) n.
Proof.
  induction n; cbn [q_sum sum_f_R0]; [apply q_term_R|].
  now rewrite (Qeq_eqR _ _ (Qred_correct _)), Q2R_plus, IHn, q_term_R.
Qed.
(** Twenty digits. *)
Lemma pi_bounds : 314159265358979323846 / 100000000000000000000 <= PI <= 314159265358979323847 / 100000000000000000000.
Proof.
  pose proof (PI_2_3_7_ineq 12) as [L U]. rewrite <- q_sum_R in L, U.
  assert (A : Q2R (314159265358979323846 # 400000000000000000000) <= Q2R (q_sum (S (2 * 12)))).
  { apply Qle_Rle, Qle_bool_iff. vm_compute. reflexivity. }
  assert (B : Q2R (q_sum (2 * 12)) <= Q2R (314159265358979323847 # 400000000000000000000)).
  { apply Qle_Rle, Qle_bool_iff. vm_compute. reflexivity. }
  unfold Q2R at 1 in A. unfold Q2R at 2 in B. cbn [Qnum Qden] in A, B. lra.
Qed.

(** * Computing with errors *)
(** [x] is [r] up to [e]. *)
Definition approx (x : f64) (r e : R) : Prop := fin x /\ Rabs (B2R x - r) <= e.
Definition u52 : R := / 4503599627370496.
Lemma rnd_error r : Rabs (rnd r - r) <= u52 * (Rabs r + 1).
Proof.
  destruct (error_N_FLT radix2 (-1074) 53 ltac:(lia) (fun x => negb (Z.even x)) r) as (eps & eta & He & Ht & _ & Hr).
  change (rnd r) with (round radix2 (FLT_exp (-1074) 53) (Znearest (fun x => negb (Z.even x))) r). rewrite Hr.
  replace (r * (1 + eps) + eta - r) with (r * eps + eta) by ring.
  apply Rle_trans with (1 := Rabs_triang _ _). rewrite Rabs_mult.
  assert (He' : Rabs eps <= u52). { apply Rle_trans with (1 := He). change (bpow radix2 (- (53) + 1)) with (/ IZR 4503599627370496). unfold u52. lra. }
  assert (Ht' : Rabs eta <= u52).
  { apply Rle_trans with (1 := Ht). apply Rle_trans with (bpow radix2 (-1074)); [pose proof (bpow_gt_0 radix2 (-1074)); lra|].
    apply Rle_trans with (bpow radix2 (-52)); [apply bpow_le; lia|]. change (bpow radix2 (-52)) with (/ IZR 4503599627370496). unfold u52. lra. }
  pose proof (Rabs_pos r). rewrite Rmult_plus_distr_l, Rmult_1_r.
  apply Rplus_le_compat; [|exact Ht']. rewrite Rmult_comm. apply Rmult_le_compat_r; assumption.
Qed.
Lemma big_range : 1267650600228229401496703205376 <= bpow radix2 1023.
Proof. change 1267650600228229401496703205376 with (bpow radix2 100). apply bpow_le. lia. Qed.
Lemma near_weaken x r e e' : approx x r e -> e <= e' -> approx x r e'.
Proof. intros [F H] L. split; [exact F|lra]. Qed.
Lemma near_exact x r : fin x -> B2R x = r -> approx x r 0.
Proof. intros F <-. split; [exact F|]. rewrite Rminus_eq_0, Rabs_R0. apply Rle_refl. Qed.
Lemma near_neg x r e : approx x r e -> approx (fneg x) (- r) e.
Proof.
  intros [F H]. unfold fneg. split; [now rewrite is_finite_Bopp|]. rewrite B2R_Bopp.
  replace (- B2R x - - r) with (- (B2R x - r)) by ring. now rewrite Rabs_Ropp.
Qed.
Lemma near_bound x r e b : approx x r e -> Rabs r <= b -> Rabs (B2R x) <= b + e.
Proof. intros [_ H] B. replace (B2R x) with (r + (B2R x - r)) by ring. apply Rle_trans with (1 := Rabs_triang _ _). lra. Qed.
Lemma near_mul x y r s e f B C G : approx x r e -> approx y s f -> Rabs r <= B -> Rabs s <= C ->
  B + e <= 1125899906842624 -> C + f <= 1125899906842624 ->
  B * f + C * e + e * f + u52 * ((B + e) * (C + f) + 1) <= G -> approx (fmul x y) (r * s) G.
Proof.
  intros Hx Hy Hr Hs Bb Cb HG.
  pose proof (near_bound _ _ _ _ Hx Hr) as Bx. pose proof (near_bound _ _ _ _ Hy Hs) as By.
  pose proof (Rabs_pos r). pose proof (Rabs_pos s). pose proof (Rabs_pos (B2R x)). pose proof (Rabs_pos (B2R y)).
  destruct Hx as [Fx Hx], Hy as [Fy Hy]. pose proof (Rabs_pos (B2R x - r)). pose proof (Rabs_pos (B2R y - s)).
  assert (P : Rabs (B2R x * B2R y) <= (B + e) * (C + f)) by (rewrite Rabs_mult; apply Rmult_le_compat; assumption).
  assert (Q : (B + e) * (C + f) <= 1125899906842624 * 1125899906842624) by (apply Rmult_le_compat; lra).
  destruct (fmul_R x y Fx Fy) as [Em Fm]. { pose proof big_range. lra. }
  split; [exact Fm|]. rewrite Em. pose proof (rnd_error (B2R x * B2R y)) as Er.
  replace (rnd (B2R x * B2R y) - r * s) with
    ((rnd (B2R x * B2R y) - B2R x * B2R y) + (r * (B2R y - s) + s * (B2R x - r) + (B2R x - r) * (B2R y - s))) by ring.
  apply Rle_trans with (1 := Rabs_triang _ _).
  apply Rle_trans with (u52 * ((B + e) * (C + f) + 1) + (B * f + C * e + e * f)); [|lra].
  apply Rplus_le_compat.
  - apply Rle_trans with (1 := Er). apply Rmult_le_compat_l; [unfold u52; lra|lra].
  - repeat apply Rle_trans with (1 := Rabs_triang _ _). rewrite !Rabs_mult.
    apply Rle_trans with (1 := Rplus_le_compat_r _ _ _ (Rabs_triang _ _)). rewrite !Rabs_mult.
    repeat apply Rplus_le_compat; apply Rmult_le_compat; assumption.
Qed.
Lemma near_add x y r s e f B G : approx x r e -> approx y s f -> Rabs r + Rabs s <= B ->
  B + e + f <= 1125899906842624 -> e + f + u52 * (B + e + f + 1) <= G -> approx (fadd x y) (r + s) G.
Proof.
  intros Hx Hy Hr Bb HG. pose proof (near_bound _ _ _ _ Hx (Rle_refl _)) as Bx. pose proof (near_bound _ _ _ _ Hy (Rle_refl _)) as By.
  destruct Hx as [Fx Hx], Hy as [Fy Hy].
  assert (P : Rabs (B2R x + B2R y) <= B + e + f) by (apply Rle_trans with (1 := Rabs_triang _ _); lra).
  destruct (fadd_R x y Fx Fy) as [Em Fm]. { pose proof big_range. lra. }
  split; [exact Fm|]. rewrite Em. pose proof (rnd_error (B2R x + B2R y)) as Er.
  replace (rnd (B2R x + B2R y) - (r + s)) with
    ((rnd (B2R x + B2R y) - (B2R x + B2R y)) + ((B2R x - r) + (B2R y - s))) by ring.
  apply Rle_trans with (1 := Rabs_triang _ _). pose proof (Rabs_triang (B2R x - r) (B2R y - s)).
  assert (u52 * (Rabs (B2R x + B2R y) + 1) <= u52 * (B + e + f + 1)) by (apply Rmult_le_compat_l; [unfold u52; lra|lra]).
  lra.
Qed.
(** [x y + z w]. *)
Lemma near_dot x y z w r s p q e f B C G : approx x r e -> approx y s f -> approx z p e -> approx w q f ->
  Rabs r <= B -> Rabs p <= B -> Rabs s <= C -> Rabs q <= C ->
  B + e <= 1048576 -> C + f <= 1048576 -> 0 <= e -> 0 <= f ->
  2 * (B * f + C * e + e * f) + u52 * (8 * ((B + e) * (C + f) + 1)) <= G ->
  approx (fadd (fmul x y) (fmul z w)) (r * s + p * q) G.
Proof.
  intros Hx Hy Hz Hw Hr Hp Hs Hq Bb Cb He Hf HG.
  pose proof (Rabs_pos r). pose proof (Rabs_pos s).
  set (d := B * f + C * e + e * f + u52 * ((B + e) * (C + f) + 1)).
  assert (N1 : approx (fmul x y) (r * s) d) by (apply (near_mul _ _ _ _ e f B C); auto; unfold d; lra).
  assert (N2 : approx (fmul z w) (p * q) d) by (apply (near_mul _ _ _ _ e f B C); auto; unfold d; lra).
  assert (S1 : Rabs (r * s) <= B * C) by (rewrite Rabs_mult; apply Rmult_le_compat; auto using Rabs_pos).
  assert (S2 : Rabs (p * q) <= B * C) by (rewrite Rabs_mult; apply Rmult_le_compat; auto using Rabs_pos).
  assert (BC : 0 <= B * C) by (apply Rmult_le_pos; lra).
  assert (Bf : 0 <= B * f) by (apply Rmult_le_pos; lra).
  assert (Ce : 0 <= C * e) by (apply Rmult_le_pos; lra).
  assert (ef : 0 <= e * f) by (apply Rmult_le_pos; lra).
  assert (X : (B + e) * (C + f) = B * C + B * f + C * e + e * f) by ring.
  assert (Y : (B + e) * (C + f) <= 1048576 * 1048576) by (apply Rmult_le_compat; lra).
  unfold u52 in *. apply (near_add _ _ _ _ d d (2 * (B * C))); auto; unfold d, u52 in *; try lra.
Qed.

(** * Angles *)
Lemma lipschitz f g a b : (forall c, derivable_pt_lim f c (g c)) -> (forall c, Rabs (g c) <= 1) ->
  Rabs (f a - f b) <= Rabs (a - b).
Proof.
  intros D L.
  assert (W : forall a b, a < b -> Rabs (f b - f a) <= Rabs (b - a)).
  { intros x y H. destruct (MVT_cor2 f g x y H (fun c _ => D c)) as (c & -> & _). rewrite Rabs_mult.
    rewrite <- (Rmult_1_l (Rabs (y - x))) at 2. apply Rmult_le_compat_r; [apply Rabs_pos|apply L]. }
  destruct (Rtotal_order a b) as [H|[->|H]].
  - rewrite (Rabs_minus_sym (f a)), (Rabs_minus_sym a). now apply W.
  - rewrite !Rminus_eq_0. apply Rle_refl.
  - now apply W.
Qed.
Lemma sin_lipschitz a b : Rabs (sin a - sin b) <= Rabs (a - b).
Proof. apply (lipschitz sin cos); [apply derivable_pt_lim_sin|]. intros c. apply Rabs_le, COS_bound. Qed.
Lemma cos_lipschitz a b : Rabs (cos a - cos b) <= Rabs (a - b).
Proof.
  apply (lipschitz cos (fun x => - sin x)); [apply derivable_pt_lim_cos|]. intros c. rewrite Rabs_Ropp. apply Rabs_le, SIN_bound.
Qed.
(** The number of radians in a degree. *)
Definition per_degree : f64 := fdiv f_pi (f_of_Z 180).
Lemma per_degree_near : approx per_degree (PI / 180) (/ 288230376151711744).
Proof.
  split; [vm_compute; reflexivity|]. rewrite <- SF2R_B2SF.
  replace (B2SF per_degree) with (SpecFloat.S754_finite false 5030569068109113 (-58)) by (vm_compute; reflexivity).
  cbn [SF2R cond_Zopp]. unfold F2R. cbn [Fnum Fexp]. change (bpow radix2 (-58)) with (/ IZR 288230376151711744).
  pose proof pi_bounds. apply Rabs_le. lra.
Qed.
(** [deg] degrees in radians; angles up to 16384 degrees. *)
Definition rad (deg : R) : R := deg * PI / 180.
Lemma radians_near x : fin x -> Rabs (B2R x) <= 16384 -> approx (to_radians x) (rad (B2R x)) (/ 4398046511104).
Proof.
  intros F B. unfold to_radians, rad. fold per_degree. unfold Rdiv. rewrite Rmult_assoc. fold (PI / 180).
  pose proof pi_bounds.
  apply (near_mul _ _ _ _ 0 (/ 288230376151711744) 16384 (18 / 1000)); auto using near_exact, per_degree_near; unfold u52; try lra.
  apply Rabs_le. lra.
Qed.
Lemma rad_bound d : Rabs d <= 16384 -> Rabs (rad d) <= 900.
Proof.
  intros H. unfold rad. replace (d * PI / 180) with (d * (PI / 180)) by lra. pose proof pi_bounds.
  rewrite Rabs_mult. apply Rle_trans with (16384 * (18 / 1000)); [|lra].
  apply Rmult_le_compat; auto using Rabs_pos. apply Rabs_le. lra.
Qed.
Lemma triangle a b c d e : Rabs (a - b) <= d -> Rabs (b - c) <= e -> Rabs (a - c) <= d + e.
Proof. intros H K. replace (a - c) with ((a - b) + (b - c)) by ring. apply Rle_trans with (1 := Rabs_triang _ _). lra. Qed.
Lemma e45 : bpow radix2 (-45) = / 35184372088832.
Proof. reflexivity. Qed.

Section Library.
  Context (E : Ext) (A : accurate E).

  Lemma sincos_near z t : approx z t (/ 4398046511104) -> Rabs t <= 900 ->
    approx (x_sin E z) (sin t) (/ 2199023255552) /\ approx (x_cos E z) (cos t) (/ 2199023255552).
  Proof.
    intros N B. pose proof (near_bound _ _ _ _ N B) as Bz. destruct N as [F N].
    destruct (ac_sin E A z F ltac:(lra)) as [Fs Hs]. destruct (ac_cos E A z F ltac:(lra)) as [Fc Hc]. rewrite e45 in Hs, Hc.
    split; split; auto.
    - apply Rle_trans with (1 := triangle _ _ _ _ _ Hs (Rle_trans _ _ _ (sin_lipschitz _ _) N)). lra.
    - apply Rle_trans with (1 := triangle _ _ _ _ _ Hc (Rle_trans _ _ _ (cos_lipschitz _ _) N)). lra.
  Qed.
  Lemma cos_60 d : Rabs d <= 60 -> 1 / 2 <= cos (rad d).
  Proof.
    intros H. rewrite <- cos_PI3. assert (K : Rabs (rad d) <= PI / 3).
    { unfold rad. replace (d * PI / 180) with (d * (PI / 180)) by lra. pose proof pi_bounds.
      rewrite Rabs_mult, (Rabs_pos_eq (PI / 180)) by lra. replace (PI / 3) with (60 * (PI / 180)) by lra.
      apply Rmult_le_compat_r; lra. }
    assert (C : cos (rad d) = cos (Rabs (rad d))).
    { unfold Rabs. destruct (Rcase_abs (rad d)); [now rewrite cos_neg|reflexivity]. }
    rewrite C. pose proof pi_bounds. apply cos_decr_1; auto using Rabs_pos; lra.
  Qed.
  Lemma tan_near x : fin x -> Rabs (B2R x) <= 60 ->
    approx (x_tan E (to_radians x)) (tan (rad (B2R x))) (/ 274877906944) /\ Rabs (tan (rad (B2R x))) <= 2.
  Proof.
    intros F B. pose proof (cos_60 _ B) as C. set (t := rad (B2R x)) in *.
    pose proof (SIN_bound t) as Sb.
    assert (Ci : 0 < / cos t <= 2). { split; [apply Rinv_0_lt_compat; lra|]. replace 2 with (/ (1 / 2)) by lra. apply Rinv_le_contravar; lra. }
    assert (N : approx (to_radians x) t (/ 4398046511104)) by (apply radians_near; [exact F|lra]).
    assert (Tb : Rabs t <= 105 / 100).
    { unfold t, rad. replace (B2R x * PI / 180) with (B2R x * (PI / 180)) by lra. pose proof pi_bounds.
      rewrite Rabs_mult. apply Rle_trans with (60 * (1748 / 100000)); [|lra]. apply Rmult_le_compat; auto using Rabs_pos. apply Rabs_le. lra. }
    pose proof (near_bound _ _ _ _ N Tb) as Bz. destruct N as [Fz N]. set (z := B2R (to_radians x)) in *.
    destruct (ac_tan E A _ Fz ltac:(fold z; lra)) as [Ft Ht]. fold z in Ht. rewrite e45 in Ht.
    assert (Cz : 1 / 4 <= cos z).
    { pose proof (cos_lipschitz z t) as L. pose proof (Rabs_le_inv _ _ (Rle_trans _ _ _ L N)). lra. }
    assert (Czi : 0 < / cos z <= 4). { split; [apply Rinv_0_lt_compat; lra|]. replace 4 with (/ (1 / 4)) by lra. apply Rinv_le_contravar; lra. }
    split.
    - split; [exact Ft|].
      assert (T : Rabs (tan z - tan t) <= 8 * / 4398046511104).
      { replace (tan z - tan t) with (sin (z - t) * (/ cos z * / cos t)).
        2:{ unfold tan. rewrite sin_minus. field. lra. }
        rewrite Rabs_mult. rewrite (Rmult_comm 8). apply Rmult_le_compat; auto using Rabs_pos.
        - apply Rle_trans with (2 := N). pose proof (sin_lipschitz (z - t) 0) as L. rewrite sin_0, !Rminus_0_r in L. exact L.
        - rewrite Rabs_pos_eq by (apply Rmult_le_pos; lra). replace 8 with (4 * 2) by lra. apply Rmult_le_compat; lra. }
      apply Rle_trans with (1 := triangle _ _ _ _ _ Ht T). lra.
    - unfold tan, Rdiv. rewrite Rabs_mult. replace 2 with (1 * 2) by lra. apply Rmult_le_compat; auto using Rabs_pos.
      + apply Rabs_le. lra.
      + rewrite Rabs_pos_eq by lra. lra.
  Qed.
End Library.

(** * Matrices *)
Record rmat := mkRmat { ra : R; rb : R; rc : R; rd : R; re : R; rf : R }.
Definition rmul (s o : rmat) : rmat :=
  mkRmat (ra s * ra o + rc s * rb o) (rb s * ra o + rd s * rb o) (ra s * rc o + rc s * rd o) (rb s * rc o + rd s * rd o)
    (ra s * re o + rc s * rf o + re s) (rb s * re o + rd s * rf o + rf s).
Definition rapply (m : rmat) (v : vec) : vec :=
  (ra m * fst v + rc m * snd v + re m, rb m * fst v + rd m * snd v + rf m).
Lemma rapply_mul s o v : rapply (rmul s o) v = rapply s (rapply o v).
Proof. unfold rapply, rmul. cbn. f_equal; ring. Qed.
(** Entries up to [b] (linear part) and [c] (translation), errors [e] and [f]. *)
Record like (m : affine) (r : rmat) (b e c f : R) : Prop := mkLike {
  lk_a : approx (aa m) (ra r) e; lk_b : approx (ab m) (rb r) e; lk_c : approx (ac m) (rc r) e; lk_d : approx (ad m) (rd r) e;
  lk_e : approx (ae m) (re r) f; lk_f : approx (af m) (rf r) f;
  lk_ba : Rabs (ra r) <= b; lk_bb : Rabs (rb r) <= b; lk_bc : Rabs (rc r) <= b; lk_bd : Rabs (rd r) <= b;
  lk_be : Rabs (re r) <= c; lk_bf : Rabs (rf r) <= c }.
Lemma dot_bound a b c d B C : Rabs a <= B -> Rabs b <= C -> Rabs c <= B -> Rabs d <= C -> Rabs (a * b + c * d) <= 2 * (B * C).
Proof.
  intros. apply Rle_trans with (1 := Rabs_triang _ _). rewrite !Rabs_mult.
  replace (2 * (B * C)) with (B * C + B * C) by ring.
  apply Rplus_le_compat; apply Rmult_le_compat; auto using Rabs_pos.
Qed.
Lemma like_mul m n r s b e c f b' e' c' f' G H :
  like m r b e c f -> like n s b' e' c' f' ->
  b + e <= 1048576 -> b' + e' <= 1048576 -> c' + f' <= 1048576 -> 0 <= e -> 0 <= e' -> 0 <= f' ->
  2 * (b * e' + b' * e + e * e') + u52 * (8 * ((b + e) * (b' + e') + 1)) <= G ->
  (let d := 2 * (b * f' + c' * e + e * f') + u52 * (8 * ((b + e) * (c' + f') + 1)) in
   d <= 1 /\ f <= 1 /\ c <= 1048576 /\ d + f + u52 * (2 * (b * c') + c + 3) <= H) ->
  like (affine_mul m n) (rmul r s) (2 * (b * b')) G (2 * (b * c') + c) H.
Proof.
  intros [A B C D X Y BA BB BC BD BX BY] [A' B' C' D' X' Y' BA' BB' BC' BD' BX' BY'] L1 L2 L3 P1 P2 P3 HG (D1 & F1 & C1 & HH).
  assert (0 <= b) by (pose proof (Rabs_pos (ra r)); lra). assert (0 <= c') by (pose proof (Rabs_pos (re s)); lra).
  set (d := 2 * (b * f' + c' * e + e * f') + u52 * (8 * ((b + e) * (c' + f') + 1))) in *.
  assert (bc : b * c' <= 1048576 * 1048576) by (apply Rmult_le_compat; lra).
  constructor; cbn [affine_mul rmul aa ab ac ad ae af ra rb rc rd re rf].
  1-4: eapply (near_dot _ _ _ _ _ _ _ _ e e' b b'); eassumption.
  1,2: eapply (near_add _ _ _ _ d f (2 * (b * c') + c));
    [eapply (near_dot _ _ _ _ _ _ _ _ e f' b c'); try eassumption; unfold d; lra|eassumption|..].
  1,4: apply Rplus_le_compat; [apply dot_bound; assumption|assumption].
  1-4: try lra.
  1,2: apply Rle_trans with (2 := HH); apply Rplus_le_compat_l, Rmult_le_compat_l; unfold u52; lra.
  1-4: apply dot_bound; assumption.
  1,2: apply Rle_trans with (1 := Rabs_triang _ _); apply Rplus_le_compat; [apply dot_bound|]; assumption.
Qed.
Lemma like_weaken m r b e c f b' e' c' f' : like m r b e c f -> b <= b' -> e <= e' -> c <= c' -> f <= f' -> like m r b' e' c' f'.
Proof.
  intros [] Hb He Hc Hf. constructor; first [eapply near_weaken; eassumption | eapply Rle_trans; eassumption].
Qed.
Definition rrot (t : R) : rmat := mkRmat (cos t) (sin t) (- sin t) (cos t) 0 0.
Definition rtrans (v : vec) : rmat := mkRmat 1 0 0 1 (fst v) (snd v).
Definition rscale (s : vec) : rmat := mkRmat (fst s / 100) 0 0 (snd s / 100) 0 0.
Definition rshear (k : R) : rmat := mkRmat 1 0 k 1 0 0.
Lemma n0 e : 0 <= e -> approx f0 0 e. Proof. intros H. split; [reflexivity|]. rewrite f0_R, Rminus_0_r, Rabs_R0. exact H. Qed.
Lemma n1 e : 0 <= e -> approx f1 1 e. Proof. intros H. split; [reflexivity|]. rewrite f1_R, Rminus_eq_0, Rabs_R0. exact H. Qed.
Lemma a0 b : 0 <= b -> Rabs 0 <= b. Proof. now rewrite Rabs_R0. Qed.
Lemma a1 b : 1 <= b -> Rabs 1 <= b. Proof. now rewrite Rabs_R1. Qed.
Lemma like_rot E z t : accurate E -> approx z t (/ 4398046511104) -> Rabs t <= 900 ->
  like (affine_rotate E z) (rrot t) 1 (/ 2199023255552) 0 0.
Proof.
  intros A N B. destruct (sincos_near E A z t N B) as [S C].
  pose proof (Rabs_le _ _ (SIN_bound t)). pose proof (Rabs_le _ _ (COS_bound t)).
  constructor; cbn [affine_rotate affine_translate affine_scale affine_skew aa ab ac ad ae af rrot rtrans rscale rshear ra rb rc rd re rf fst snd]; auto using near_neg; try (apply n0; lra); try (apply a0; lra). now rewrite Rabs_Ropp.
Qed.
Lemma like_trans x y : fin x -> fin y -> Rabs (B2R x) <= 8192 -> Rabs (B2R y) <= 8192 ->
  like (affine_translate x y) (rtrans (B2R x, B2R y)) 1 0 8192 0.
Proof.
  intros. constructor; cbn [affine_rotate affine_translate affine_scale affine_skew aa ab ac ad ae af rrot rtrans rscale rshear ra rb rc rd re rf fst snd]; auto using near_exact; try (apply n0; lra); try (apply n1; lra); try (apply a0; lra); apply a1; lra.
Qed.
Lemma like_scale x y : fin x -> fin y -> Rabs (B2R x) <= 1600 -> Rabs (B2R y) <= 1600 ->
  like (affine_scale (fdiv x f100) (fdiv y f100)) (rscale (B2R x, B2R y)) 16 (/ 140737488355328) 0 0.
Proof.
  assert (Q : forall x, fin x -> Rabs (B2R x) <= 1600 -> approx (fdiv x f100) (B2R x / 100) (/ 140737488355328) /\ Rabs (B2R x / 100) <= 16).
  { intros z F B. assert (Bz : Rabs (B2R z / 100) <= 16) by (apply Rabs_le; apply Rabs_le_inv in B; lra). split; [|exact Bz].
    destruct (fdiv_R z f100 F) as [Ed Fd]; rewrite ?f100_R; [lra|pose proof big_range; lra|].
    split; [exact Fd|]. rewrite Ed, f100_R. apply Rle_trans with (1 := rnd_error _). unfold u52. lra. }
  intros Fx Fy Bx By. destruct (Q x Fx Bx), (Q y Fy By).
  constructor; cbn [affine_rotate affine_translate affine_scale affine_skew aa ab ac ad ae af rrot rtrans rscale rshear ra rb rc rd re rf fst snd]; auto; try (apply n0; lra); try (apply a0; lra).
Qed.
Lemma like_shear E x : accurate E -> fin x -> Rabs (B2R x) <= 60 ->
  like (affine_skew (x_tan E (to_radians x)) f0) (rshear (tan (rad (B2R x)))) 2 (/ 274877906944) 0 0.
Proof.
  intros A F B. destruct (tan_near E A x F B).
  constructor; cbn [affine_rotate affine_translate affine_scale affine_skew aa ab ac ad ae af rrot rtrans rscale rshear ra rb rc rd re rf fst snd]; auto; try (apply n0; lra); try (apply n1; lra); try (apply a0; lra); apply a1; lra.
Qed.
(** * The matrix of a transform *)
From Verif Require Import TimelineSpec.
Ltac multiply P M N G H :=
  assert (P := like_mul _ _ _ _ _ _ _ _ _ _ _ _ G H M N); cbv zeta in P;
  repeat match type of P with
         | ?X -> _ => let h := fresh in assert (h : X) by (unfold u52; repeat split; lra); specialize (P h); clear h
         end.
Definition rslant (sk ax : R) : rmat := rmul (rmul (rrot (- rad ax)) (rshear (tan (rad sk)))) (rrot (rad ax)).
Lemma slant_0 ax v : slant 0 ax v = v.
Proof.
  unfold slant, shear, turn. destruct v as [x y]. cbn [fst snd]. replace (0 * PI / 180) with 0 by lra. rewrite tan_0.
  replace (- ax * PI / 180) with (- (ax * PI / 180)) by lra. rewrite cos_neg, sin_neg.
  set (t := ax * PI / 180). pose proof (sin2_cos2 t) as H. unfold Rsqr in H.
  f_equal.
  - replace (_ - _) with (x * (sin t * sin t + cos t * cos t)) by ring. rewrite H. ring.
  - replace (_ + _) with (y * (sin t * sin t + cos t * cos t)) by ring. rewrite H. ring.
Qed.
Lemma like_slanting E sk ax : accurate E -> fin sk -> fin ax -> Rabs (B2R sk) <= 60 -> Rabs (B2R ax) <= 16384 ->
  exists m r, skewing E sk ax = [m] /\ like m r 8 (/ 17179869184) 0 (/ 1099511627776) /\
    forall v, rapply r v = slant (B2R sk) (B2R ax) v.
Proof.
  intros A Fs Fa Bs Ba. unfold skewing. destruct (feqb sk f0) eqn:Z.
  - exists affine_identity, (rtrans (0, 0)). split; [reflexivity|]. split.
    + constructor; cbn [affine_identity aa ab ac ad ae af rtrans ra rb rc rd re rf fst snd];
        first [apply n0; lra|apply n1; lra|apply a0; lra|apply a1; lra].
    + intros [x y]. apply feqb_eq in Z; auto. rewrite Z, f0_R, slant_0. unfold rapply, rtrans. cbn. f_equal; ring.
  - eexists; exists (rslant (B2R sk) (B2R ax)). split; [reflexivity|].
    pose proof (radians_near ax Fa Ba) as Na. pose proof (rad_bound _ Ba) as Bt.
    assert (R1 := like_rot E _ _ A (near_neg _ _ _ Na) ltac:(rewrite Rabs_Ropp; exact Bt)).
    assert (R2 := like_rot E _ _ A Na Bt).
    assert (K := like_shear E sk A Fs Bs).
    multiply M1 R1 K (/ 68719476736) (/ 281474976710656).
    multiply M2 M1 R2 (/ 17179869184) (/ 1099511627776).
    split; [apply (like_weaken _ _ _ _ _ _ _ _ _ _ M2); lra|].
    intros [x y]. unfold rslant, rapply, rmul, slant, shear, turn, rad. cbn [rrot rshear ra rb rc rd re rf fst snd].
    replace (- B2R ax * PI / 180) with (- (B2R ax * PI / 180)) by lra. f_equal; ring.
Qed.

(** Where [placement] puts a point: within a thousandth of where it belongs. *)
Definition ordinary (position anchor : point) (scale : vec2) (rotation skew axis : f64) : Prop :=
  (fin (px position) /\ fin (py position) /\ bounded_by 8192 (real_point position)) /\
  (fin (px anchor) /\ fin (py anchor) /\ bounded_by 8192 (real_point anchor)) /\
  (fin (vx scale) /\ fin (vy scale) /\ bounded_by 1600 (real_vec2 scale)) /\
  (fin rotation /\ Rabs (B2R rotation) <= 16384) /\ (fin skew /\ Rabs (B2R skew) <= 60) /\
  (fin axis /\ Rabs (B2R axis) <= 16384).
Lemma placement_lands E position anchor scale rotation skew axis : accurate E ->
  ordinary position anchor scale rotation skew axis ->
  let m := placement E position anchor scale rotation skew axis in
  finite_map m /\
  forall v, bounded_by 8192 v ->
    within (1 / 1000) (moved m v)
      (lands (real_point position) (real_point anchor) (real_vec2 scale) (B2R rotation) (B2R skew) (B2R axis) v).
Proof.
  intros A ((Fpx & Fpy & Bpx & Bpy) & (Fax & Fay & Bax & Bay) & (Fsx & Fsy & Bsx & Bsy) & (Fr & Br) & (Fk & Bk) & (Fx & Bx)) m.
  cbn [real_point real_vec2 fst snd] in *.
  destruct (like_slanting E skew axis A Fk Fx Bk Bx) as (k & rk & Ek & Lk & Sk).
  assert (Lr := like_rot E _ _ A (radians_near _ Fr Br) (rad_bound _ Br)).
  assert (Lp := like_trans _ _ Fpx Fpy Bpx Bpy).
  assert (Ls := like_scale _ _ Fsx Fsy Bsx Bsy).
  assert (La : like (affine_translate (fneg (px anchor)) (fneg (py anchor))) (rtrans (- B2R (px anchor), - B2R (py anchor))) 1 0 8192 0).
  { rewrite <- (B2R_Bopp 53 1024), <- (B2R_Bopp 53 1024). apply like_trans; unfold fneg; rewrite ?is_finite_Bopp, ?B2R_Bopp, ?Rabs_Ropp; auto. }
  multiply M1 Lp Lr (/ 549755813888) (/ 137438953472).
  multiply M2 M1 Lk (/ 3500000000) (/ 34359738368).
  multiply M3 M2 Ls (/ 100000000) (/ 17179869184).
  multiply M4 M3 La (/ 49000000) (/ 4096).
  clear M1 M2 M3 Lp Lr Lk Ls La.
  replace m with (affine_mul (affine_mul (affine_mul (affine_mul (affine_translate (px position) (py position))
    (affine_rotate E (to_radians rotation))) k) (affine_scale (fdiv (vx scale) f100) (fdiv (vy scale) f100)))
    (affine_translate (fneg (px anchor)) (fneg (py anchor)))) by (unfold m, placement; rewrite Ek; reflexivity).
  clear m. set (m := affine_mul (affine_mul _ _) _) in *. clearbody m.
  set (r := rmul _ (rtrans (- B2R (px anchor), _))) in M4.
  assert (Er : forall v, rapply r v = lands (B2R (px position), B2R (py position)) (B2R (px anchor), B2R (py anchor))
    (B2R (vx scale), B2R (vy scale)) (B2R rotation) (B2R skew) (B2R axis) v).
  { intros v. unfold r. rewrite !rapply_mul, Sk. unfold lands, vplus, vminus, turn, stretch, rad.
    set (w := rapply (rscale _) _).
    assert (Ew : w = (B2R (vx scale) / 100 * (fst v - B2R (px anchor)), B2R (vy scale) / 100 * (snd v - B2R (py anchor)))).
    { unfold w, rapply, rscale, rtrans. cbn [ra rb rc rd re rf fst snd]. f_equal; ring. }
    rewrite Ew. cbn [fst snd]. clear Ew w. set (w := slant _ _ _). destruct w as [x y].
    unfold rapply, rtrans, rrot. cbn [ra rb rc rd re rf fst snd]. f_equal; ring. }
  clearbody r. destruct M4 as [[FA A'] [FB B'] [FC C'] [FD D'] [FX X'] [FY Y'] _ _ _ _ _ _].
  split; [repeat split; assumption|].
  intros v [Bv1 Bv2]. rewrite <- Er. unfold within, moved, rapply. cbn [fst snd]. clear Er.
  assert (G : forall a a' c c' e e', Rabs (a - a') <= / 49000000 -> Rabs (c - c') <= / 49000000 -> Rabs (e - e') <= / 4096 ->
    Rabs (a * fst v + c * snd v + e - (a' * fst v + c' * snd v + e')) <= 1 / 1000).
  { intros a a' c c' e e' H1 H2 H3.
    replace (a * fst v + c * snd v + e - (a' * fst v + c' * snd v + e')) with ((a - a') * fst v + (c - c') * snd v + (e - e')) by ring.
    apply Rle_trans with (1 := Rabs_triang _ _).
    apply Rle_trans with (1 := Rplus_le_compat_r _ _ _ (Rabs_triang _ _)). rewrite !Rabs_mult.
    assert (Rabs (a - a') * Rabs (fst v) <= / 49000000 * 8192) by (apply Rmult_le_compat; auto using Rabs_pos).
    assert (Rabs (c - c') * Rabs (snd v) <= / 49000000 * 8192) by (apply Rmult_le_compat; auto using Rabs_pos). lra. }
  split; apply G; assumption.
Qed.

From Verif Require Import Value Animated Batch Render RenderSpec Examples Schema Import ImportSpec DocExamples PropImport PropImport2.
Open Scope R_scope.
(** [m] over time is the transform [t] of the document: at every frame at
    which the properties of [t] have ordinary values, a point is put where
    those say. *)
Definition puts (E : Ext) (scale0 : list f64) (t : s_transform) (m : f64 -> affine) : Prop :=
  exists position anchor scale rotation skew axis,
    any_p_means E (tf_p t) position /\ or_means (pos_means E) (tf_a t) (mkPoint f0 f0) anchor /\
    or_means (fun v => vector_means E vec2_of (md_p v)) (tf_s t) (vec2_of scale0) scale /\
    or_means (fun r g => exists v, r = ArRotation v /\ scalar_means E v g) (tf_r t) f0 rotation /\
    or_means (scalar_means E) (tf_sk t) f0 skew /\ or_means (scalar_means E) (tf_sa t) f0 axis /\
    forall frame,
      ordinary (position frame) (anchor frame) (scale frame) (rotation frame) (skew frame) (axis frame) ->
      finite_map (m frame) /\
      forall v, bounded_by 8192 v ->
        within (1 / 1000) (moved (m frame) v)
          (lands (real_point (position frame)) (real_point (anchor frame)) (real_vec2 (scale frame))
             (B2R (rotation frame)) (B2R (skew frame)) (B2R (axis frame)) v).
Lemma means_puts E scale0 t m op : accurate E -> transform_means E scale0 t m op -> puts E scale0 t m.
Proof.
  intros A ((position & anchor & scale & rotation & skew & axis & H1 & H2 & H3 & H4 & H5 & H6 & H) & _).
  exists position, anchor, scale, rotation, skew, axis. repeat (split; [assumption|]).
  intros frame O. rewrite H. now apply placement_lands.
Qed.
Theorem C77_layer : forall E a c s i src ly, accurate E -> conv_animation E a = Ok c ->
  nth_error (source_layers a s) i = Some src -> layer_at c (s, i) = Some ly ->
  puts E [f1; f1; f1] (vl_ks (visual_of src)) (fun frame => transform_eval E (ly_transform ly) frame).
Proof. intros E a c s i src ly A H Hs Hl. eapply means_puts; [exact A|]. eapply C50_layer; eassumption. Qed.
Theorem C77_group : forall E ge np it cix t shapes g, accurate E ->
  becomes E (AsGroup ge np it cix) (ShGroup shapes (Some g)) -> last_transform it (Some t) ->
  puts E [f1; f1; f1] (trs_t t) (fun frame => transform_eval E (gt_transform g) frame).
Proof.
  intros E ge np it cix t shapes g A B L. destruct (C50_group _ _ _ _ _ _ _ _ B L) as (g' & Eq & M).
  injection Eq as <-. eapply means_puts; eassumption.
Qed.
(** What [lands] says: the anchor goes to the position, and lengths are kept
    by a transform that neither stretches nor slants. *)
Definition dist2 (v w : vec) : R := (fst v - fst w) * (fst v - fst w) + (snd v - snd w) * (snd v - snd w).
Theorem C77_rigid : forall position anchor rotation axis v w,
  let at_ := lands position anchor (100, 100) rotation 0 axis in
  at_ anchor = position /\ dist2 (at_ v) (at_ w) = dist2 v w /\
  (rotation = 90 -> at_ (vplus anchor (1, 0)) = vplus position (0, 1)).
Proof.
  intros p a r x v w at_. unfold at_, lands. rewrite !slant_0. split; [|split].
  - unfold vplus, turn, stretch, vminus. destruct p as [p q]. cbn [fst snd]. rewrite !Rminus_eq_0. f_equal; ring.
  - unfold dist2, vplus, turn, stretch, vminus. cbn [fst snd]. set (t := r * PI / 180).
    pose proof (sin2_cos2 t) as H. unfold Rsqr in H. replace (100 / 100) with 1 by lra.
    transitivity (((fst v - fst w) * (fst v - fst w) + (snd v - snd w) * (snd v - snd w)) * (sin t * sin t + cos t * cos t)); [ring|].
    rewrite H. ring.
  - intros ->. unfold vplus, turn, stretch, vminus. cbn [fst snd].
    replace (90 * PI / 180) with (PI / 2) by lra. rewrite cos_PI2, sin_PI2. f_equal; lra.
Qed.

(** An accurate library. *)
Definition round60 (r : R) : f64 := fnorm (ZnearestE (r * bpow radix2 60)) (-60).
Lemma round60_near r : Rabs r <= 4 -> approx (round60 r) r (/ 35184372088832).
Proof.
  intros B. unfold round60. set (z := ZnearestE (r * bpow radix2 60)).
  pose proof (Znearest_half (fun x => negb (Z.even x)) (r * bpow radix2 60)) as H. change (Znearest _ _) with z in H.
  assert (D : Rabs (IZR z * bpow radix2 (-60) - r) <= / 1152921504606846976).
  { replace (IZR z * bpow radix2 (-60) - r) with (- (r * bpow radix2 60 - IZR z) * bpow radix2 (-60)).
    2:{ assert (P : bpow radix2 60 * bpow radix2 (-60) = 1) by (rewrite <- bpow_plus; reflexivity).
        transitivity (IZR z * bpow radix2 (-60) - r * (bpow radix2 60 * bpow radix2 (-60))); [ring|]. rewrite P. ring. }
    rewrite Rabs_mult, Rabs_Ropp, (Rabs_pos_eq (bpow _ _)) by apply bpow_ge_0.
    change (bpow radix2 (-60)) with (/ IZR 1152921504606846976). pose proof (Rabs_pos (r * bpow radix2 60 - IZR z)).
    apply Rle_trans with (1 * / 1152921504606846976); [|lra]. apply Rmult_le_compat_r; lra. }
  assert (Bz : Rabs (IZR z * bpow radix2 (-60)) <= 5).
  { replace (IZR z * bpow radix2 (-60)) with ((IZR z * bpow radix2 (-60) - r) + r) by ring.
    apply Rle_trans with (1 := Rabs_triang _ _). lra. }
  pose proof (binary_normalize_correct 53 1024 _ _ mode_NE z (-60) false) as N. cbv zeta in N.
  unfold F2R in N. cbn [Fnum Fexp] in N. rewrite Rlt_bool_true in N.
  2:{ apply Rle_lt_trans with (bpow radix2 10); [|apply bpow_lt; lia]. apply rnd_bpow_le; [lia|].
      change (bpow radix2 10) with 1024. lra. }
  destruct N as (Nr & Nf & _). split; [exact Nf|]. unfold fnorm. rewrite Nr.
  apply Rle_trans with (1 := triangle _ _ _ _ _ (rnd_error _) D). unfold u52. lra.
Qed.
Definition E_accurate : Ext := {|
  x_sin := fun z => round60 (sin (B2R z)); x_cos := fun z => round60 (cos (B2R z)); x_tan := fun z => round60 (tan (B2R z));
  x_powf := x_powf E0; x_hypot := x_hypot E0; x_solve_cubic := x_solve_cubic E0; x_rrect_path := x_rrect_path E0;
  x_ellipse_path := x_ellipse_path E0; x_arclen := x_arclen E0; x_inv_arclen := x_inv_arclen E0;
  x_subsegment := x_subsegment E0; x_color_mul_alpha := x_color_mul_alpha E0; x_brush_mul_alpha := x_brush_mul_alpha E0 |}.
Lemma E_accurate_ok : accurate E_accurate.
Proof.
  constructor; intros z F B; rewrite e45; cbn [E_accurate x_sin x_cos x_tan]; apply round60_near.
  - apply Rle_trans with 1; [apply Rabs_le, SIN_bound|lra].
  - apply Rle_trans with 1; [apply Rabs_le, COS_bound|lra].
  - set (t := B2R z) in *. assert (C : 1 / 4 <= cos t).
    { pose proof (cos_lipschitz t (PI / 3 * (t / (11 / 10)))) as L.
      assert (Q : Rabs (PI / 3 * (t / (11 / 10))) <= PI / 3).
      { pose proof pi_bounds. replace (PI / 3 * (t / (11 / 10))) with (t * (PI / 3 / (11 / 10))) by lra.
        rewrite Rabs_mult, (Rabs_pos_eq (PI / 3 / (11 / 10))) by lra. replace (PI / 3) with ((11 / 10) * (PI / 3 / (11 / 10))) at 2 by lra.
        apply Rmult_le_compat_r; lra. }
      assert (H : 1 / 2 <= cos (PI / 3 * (t / (11 / 10)))).
      { set (y := PI / 3 * _) in *. rewrite <- cos_PI3. assert (cos y = cos (Rabs y)) as ->.
        { unfold Rabs. destruct (Rcase_abs y); [now rewrite cos_neg|reflexivity]. }
        pose proof pi_bounds. apply cos_decr_1; auto using Rabs_pos; lra. }
      set (y := PI / 3 * _) in *.
      assert (D : Rabs (t - y) <= 1 / 4).
      { unfold y. pose proof pi_bounds. replace (t - PI / 3 * (t / (11 / 10))) with (t * (1 - PI / 3 / (11 / 10))) by lra.
        rewrite Rabs_mult. apply Rle_trans with (11 / 10 * (5 / 100)); [|lra]. apply Rmult_le_compat; auto using Rabs_pos. apply Rabs_le. lra. }
      pose proof (Rabs_le_inv _ _ (Rle_trans _ _ _ L D)). lra. }
    unfold tan, Rdiv. rewrite Rabs_mult. replace 4 with (1 * 4) by lra. apply Rmult_le_compat; auto using Rabs_pos.
    + apply Rabs_le, SIN_bound.
    + rewrite Rabs_pos_eq; [|left; apply Rinv_0_lt_compat; lra]. replace 4 with (/ (1 / 4)) by lra. apply Rinv_le_contravar; lra.
Qed.
(** A document with a slanted, turned, stretched layer about an anchor. *)
Definition turned_layer : any_layer :=
  AlNull (visual (base "n" None None None)
    (mkSTransform (Some (p_static 10 20)) (ApPosition (p_static 30 40)) (Some (mkMultiDim (st [f_of_Z 200; f_of_Z 50]) None))
       (Some (ArRotation (st (f_of_Z 30)))) None (Some (st (f_of_Z 20))) (Some (st (f_of_Z 45)))) None None None).
Example C77_applies : accurate E_accurate /\
  (exists c ly, conv_animation E_accurate (doc [] [turned_layer]) = Ok c /\ layer_at c (None, 0%nat) = Some ly) /\
  ordinary (zp 30 40) (zp 10 20) (mkVec2 (f_of_Z 200) (f_of_Z 50)) (f_of_Z 30) (f_of_Z 20) (f_of_Z 45).
Proof.
  split; [apply E_accurate_ok|]. split.
  - assert (T : match conv_animation E_accurate (doc [] [turned_layer]) with
      | Ok c => match layer_at c (None, 0%nat) with Some _ => True | None => False end | _ => False end) by (lazy; exact I).
    destruct (conv_animation _ _) as [c| |]; try contradiction. exists c.
    destruct (layer_at c _) as [ly|]; [|contradiction]. exists ly. split; reflexivity.
  - unfold ordinary, bounded_by, real_point, real_vec2, zp. cbn [px py vx vy fst snd].
    assert (Z : forall z b, (Z.abs z <= 2 ^ 53)%Z -> (Z.abs z <= b)%Z -> fin (f_of_Z z) /\ Rabs (B2R (f_of_Z z)) <= IZR b).
    { intros z b H K. destruct (f_of_Z_R z H) as [-> F]. split; [exact F|]. rewrite <- abs_IZR. now apply IZR_le. }
    repeat split; apply Z; lia.
Qed.
