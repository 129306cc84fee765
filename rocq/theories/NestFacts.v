(** Errors of long products of affine maps, measured by lengths: they add up
    with the number of factors. *)
From Coq Require Import ZArith Reals Bool List Arith Lia Lra Psatz.
From Flocq Require Import Core BinarySingleNaN.
From Verif Require Import F64 F64Facts Kurbo GeometrySpec PropGeometry TimelineSpec FamilySpec NestSpec.
Import ListNotations.
Open Scope R_scope.

(** * Lengths *)
Definition len (x y : R) : R := sqrt (x * x + y * y).
Lemma sq_pos x : 0 <= x * x. Proof. pose proof (Rle_0_sqr x) as H. exact H. Qed.
Lemma len_pos x y : 0 <= len x y. Proof. apply sqrt_pos. Qed.
Lemma len_sq x y : len x y * len x y = x * x + y * y.
Proof. apply sqrt_sqrt. pose proof (sq_pos x). pose proof (sq_pos y). lra. Qed.
Lemma len_le x y b : 0 <= b -> x * x + y * y <= b * b -> len x y <= b.
Proof. intros B H. unfold len. rewrite <- (sqrt_square b B). now apply sqrt_le_1_alt. Qed.
Lemma len_fst x y : Rabs x <= len x y.
Proof.
  unfold len. rewrite <- sqrt_Rsqr_abs. apply sqrt_le_1_alt. unfold Rsqr. pose proof (sq_pos y). lra.
Qed.
Lemma len_snd x y : Rabs y <= len x y.
Proof.
  unfold len. rewrite <- sqrt_Rsqr_abs. apply sqrt_le_1_alt. unfold Rsqr. pose proof (sq_pos x). lra.
Qed.
Lemma len_triangle x y z w : len (x + z) (y + w) <= len x y + len z w.
Proof.
  apply len_le; [pose proof (len_pos x y); pose proof (len_pos z w); lra|].
  replace ((len x y + len z w) * (len x y + len z w)) with (len x y * len x y + len z w * len z w + 2 * (len x y * len z w)) by ring.
  rewrite !len_sq. enough (x * z + y * w <= len x y * len z w) by lra.
  pose proof (len_pos x y) as P. pose proof (len_pos z w) as Q. assert (PQ := Rmult_le_pos _ _ P Q).
  destruct (Rle_dec (x * z + y * w) (len x y * len z w)) as [|N]; [assumption|]. exfalso.
  assert (S : (len x y * len z w) * (len x y * len z w) = (x * x + y * y) * (z * z + w * w)).
  { rewrite <- !len_sq. ring. }
  pose proof (sq_pos (x * w - y * z)). nra.
Qed.
Lemma len_entries x y e : Rabs x <= e -> Rabs y <= e -> len x y <= 3 / 2 * e.
Proof.
  intros A B. pose proof (Rabs_pos x). apply Rabs_le_inv in A, B. apply len_le; [lra|]. nra.
Qed.
Lemma len_scale k x y : len (k * x) (k * y) = Rabs k * len x y.
Proof.
  unfold len. replace (k * x * (k * x) + k * y * (k * y)) with (Rsqr k * (x * x + y * y)) by (unfold Rsqr; ring).
  rewrite sqrt_mult; [now rewrite sqrt_Rsqr_abs|apply Rle_0_sqr|pose proof (sq_pos x); pose proof (sq_pos y); lra].
Qed.

(** * Linear maps that enlarge by at most [z] *)
Definition lin (z a b c d : R) : Prop := forall x y, len (a * x + c * y) (b * x + d * y) <= z * len x y.
Lemma lin_mul z w a b c d a' b' c' d' : 0 <= z -> lin z a b c d -> lin w a' b' c' d' ->
  lin (z * w) (a * a' + c * b') (b * a' + d * b') (a * c' + c * d') (b * c' + d * d').
Proof.
  intros Z H H' x y. specialize (H' x y). specialize (H (a' * x + c' * y) (b' * x + d' * y)).
  replace ((a * a' + c * b') * x + (a * c' + c * d') * y) with (a * (a' * x + c' * y) + c * (b' * x + d' * y)) by ring.
  replace ((b * a' + d * b') * x + (b * c' + d * d') * y) with (b * (a' * x + c' * y) + d * (b' * x + d' * y)) by ring.
  apply Rle_trans with (1 := H). rewrite Rmult_assoc. now apply Rmult_le_compat_l.
Qed.
Lemma lin_add z w a b c d a' b' c' d' : lin z a b c d -> lin w a' b' c' d' -> lin (z + w) (a + a') (b + b') (c + c') (d + d').
Proof.
  intros H H' x y. specialize (H x y). specialize (H' x y).
  replace ((a + a') * x + (c + c') * y) with ((a * x + c * y) + (a' * x + c' * y)) by ring.
  replace ((b + b') * x + (d + d') * y) with ((b * x + d * y) + (b' * x + d' * y)) by ring.
  apply Rle_trans with (1 := len_triangle _ _ _ _). lra.
Qed.
Lemma lin_weaken z w a b c d : lin z a b c d -> z <= w -> lin w a b c d.
Proof. intros H L x y. apply Rle_trans with (1 := H x y). apply Rmult_le_compat_r; [apply len_pos|exact L]. Qed.
Lemma lin_eq z a b c d a' b' c' d' : lin z a b c d -> a = a' -> b = b' -> c = c' -> d = d' -> lin z a' b' c' d'.
Proof. now intros H -> -> -> ->. Qed.
Lemma len_1_0 : len 1 0 = 1. Proof. unfold len. replace (1 * 1 + 0 * 0) with 1 by ring. apply sqrt_1. Qed.
Lemma len_0_1 : len 0 1 = 1. Proof. unfold len. replace (0 * 0 + 1 * 1) with 1 by ring. apply sqrt_1. Qed.
Lemma lin_entries z a b c d : lin z a b c d -> Rabs a <= z /\ Rabs b <= z /\ Rabs c <= z /\ Rabs d <= z.
Proof.
  intros H. pose proof (H 1 0) as H1. pose proof (H 0 1) as H2. rewrite len_1_0 in H1. rewrite len_0_1 in H2.
  replace (a * 1 + c * 0) with a in H1 by ring. replace (b * 1 + d * 0) with b in H1 by ring.
  replace (a * 0 + c * 1) with c in H2 by ring. replace (b * 0 + d * 1) with d in H2 by ring.
  pose proof (len_fst a b). pose proof (len_snd a b). pose proof (len_fst c d). pose proof (len_snd c d). repeat split; lra.
Qed.
Lemma lin_small e a b c d : Rabs a <= e -> Rabs b <= e -> Rabs c <= e -> Rabs d <= e -> lin (2 * e) a b c d.
Proof.
  intros A B C D x y. pose proof (Rabs_pos a) as P.
  assert (K : forall u v, Rabs u <= e -> Rabs v <= e -> (u * x + v * y) * (u * x + v * y) <= 2 * (e * e) * (x * x + y * y)).
  { intros u v Hu Hv. apply Rabs_le_inv in Hu, Hv.
    assert (u * u <= e * e) by nra. assert (v * v <= e * e) by nra.
    pose proof (sq_pos (u * y - v * x)). pose proof (sq_pos x). pose proof (sq_pos y).
    assert ((u * x + v * y) * (u * x + v * y) + (u * y - v * x) * (u * y - v * x) = (u * u + v * v) * (x * x + y * y)) by ring.
    assert ((u * u + v * v) * (x * x + y * y) <= 2 * (e * e) * (x * x + y * y)) by (apply Rmult_le_compat_r; lra). lra. }
  apply len_le; [apply Rmult_le_pos; [lra|apply len_pos]|].
  replace (2 * e * len x y * (2 * e * len x y)) with (4 * (e * e) * (len x y * len x y)) by ring. rewrite len_sq.
  pose proof (K a c A C). pose proof (K b d B D). lra.
Qed.
Lemma lin_point z a b c d x y w : lin z a b c d -> 0 <= z -> len x y <= w -> len (a * x + c * y) (b * x + d * y) <= z * w.
Proof. intros H Z L. apply Rle_trans with (1 := H x y). now apply Rmult_le_compat_l. Qed.

(** * Maps with errors *)
(** [m] stands for [r]: [r] enlarges by at most [z] and moves the origin by at
    most [d]; the relative error of the linear part is at most [e], the error
    of the translation at most [f]. *)
Record good (m : affine) (r : rmat) (z e d f : R) : Prop := mkGood {
  gd_fin : finite_map m;
  gd_lin : lin z (ra r) (rb r) (rc r) (rd r);
  gd_far : len (re r) (rf r) <= d;
  gd_err : lin (e * z) (B2R (aa m) - ra r) (B2R (ab m) - rb r) (B2R (ac m) - rc r) (B2R (ad m) - rd r);
  gd_off : len (B2R (ae m) - re r) (B2R (af m) - rf r) <= f }.
Lemma good_weaken m r z e d f e' d' f' : good m r z e d f -> 0 <= z -> e <= e' -> d <= d' -> f <= f' -> good m r z e' d' f'.
Proof.
  intros [] Z He Hd Hf. constructor; auto; try lra. eapply lin_weaken; [eassumption|]. apply Rmult_le_compat_r; assumption.
Qed.
Lemma dot_rounds x y z w B C : fin x -> fin y -> fin z -> fin w ->
  Rabs (B2R x) <= B -> Rabs (B2R z) <= B -> Rabs (B2R y) <= C -> Rabs (B2R w) <= C ->
  B <= 262144 -> C <= 1073741824 ->
  approx (fadd (fmul x y) (fmul z w)) (B2R x * B2R y + B2R z * B2R w) (u52 * (8 * (B * C + 1))).
Proof.
  intros Fx Fy Fz Fw Bx Bz Cy Cw HB HC.
  pose proof (Rabs_pos (B2R x)). pose proof (Rabs_pos (B2R y)).
  assert (BC : 0 <= B * C) by (apply Rmult_le_pos; lra).
  assert (BC2 : B * C <= 262144 * 1073741824) by (apply Rmult_le_compat; lra).
  assert (E0 : forall t, fin t -> approx t (B2R t) 0) by (intros; apply near_exact; auto).
  assert (N1 : approx (fmul x y) (B2R x * B2R y) (u52 * (B * C + 1))).
  { apply (near_mul _ _ _ _ 0 0 B C); auto; try lra. }
  assert (N2 : approx (fmul z w) (B2R z * B2R w) (u52 * (B * C + 1))).
  { apply (near_mul _ _ _ _ 0 0 B C); auto; try lra. }
  assert (S1 : Rabs (B2R x * B2R y) <= B * C) by (rewrite Rabs_mult; apply Rmult_le_compat; auto using Rabs_pos).
  assert (S2 : Rabs (B2R z * B2R w) <= B * C) by (rewrite Rabs_mult; apply Rmult_le_compat; auto using Rabs_pos).
  apply (near_add _ _ _ _ (u52 * (B * C + 1)) (u52 * (B * C + 1)) (2 * (B * C))); auto; unfold u52 in *; try lra.
Qed.
(** Products. *)
Lemma good_mul m n r s z e d f z' e' d' f' :
  good m r z e d f -> good n s z' e' d' f' -> 1 <= z -> 1 <= z' -> 0 <= e <= 1 -> 0 <= e' <= 1 ->
  z <= 131072 -> z' <= 131072 -> d + f <= 1073741824 -> d' + f' <= 1073741824 ->
  good (affine_mul m n) (rmul r s) (z * z') (e + e' + e * e' + 80 * u52) (z * d' + d)
    (z * f' + e * z * (d' + f') + f + u52 * (50 * (z * (d' + f')) + 2 * (d + f) + 40)).
Proof.
  intros [(FA & FB & FC & FD & FX & FY) L F Er O] [(FA' & FB' & FC' & FD' & FX' & FY') L' F' Er' O'] Z Z' Ee Ee' Zb Zb' Db Db'.
  assert (Ez : 0 <= e * z <= z) by (split; [apply Rmult_le_pos; lra|rewrite <- (Rmult_1_l z) at 2; apply Rmult_le_compat_r; lra]).
  assert (Ez' : 0 <= e' * z' <= z') by (split; [apply Rmult_le_pos; lra|rewrite <- (Rmult_1_l z') at 2; apply Rmult_le_compat_r; lra]).
  assert (Zz : 1 <= z * z') by (rewrite <- (Rmult_1_l 1); apply Rmult_le_compat; lra).
  pose proof (len_pos (re s) (rf s)) as P1. pose proof (len_pos (B2R (ae n) - re s) (B2R (af n) - rf s)) as P2.
  pose proof (len_pos (re r) (rf r)) as P3. pose proof (len_pos (B2R (ae m) - re r) (B2R (af m) - rf r)) as P4.
  assert (Z0 : 0 <= z) by lra.
  (* the maps as computed *)
  assert (Lm : lin (2 * z) (B2R (aa m)) (B2R (ab m)) (B2R (ac m)) (B2R (ad m))).
  { pose proof (lin_add _ _ _ _ _ _ _ _ _ _ L Er) as H. apply (lin_weaken _ (2 * z)) in H; [|lra].
    now replace (ra r + (B2R (aa m) - ra r)) with (B2R (aa m)) in H by ring; replace (rb r + (B2R (ab m) - rb r)) with (B2R (ab m)) in H by ring;
      replace (rc r + (B2R (ac m) - rc r)) with (B2R (ac m)) in H by ring; replace (rd r + (B2R (ad m) - rd r)) with (B2R (ad m)) in H by ring. }
  assert (Ln : lin (z' + e' * z') (B2R (aa n)) (B2R (ab n)) (B2R (ac n)) (B2R (ad n))).
  { pose proof (lin_add _ _ _ _ _ _ _ _ _ _ L' Er') as H.
    now replace (ra s + (B2R (aa n) - ra s)) with (B2R (aa n)) in H by ring; replace (rb s + (B2R (ab n) - rb s)) with (B2R (ab n)) in H by ring;
      replace (rc s + (B2R (ac n) - rc s)) with (B2R (ac n)) in H by ring; replace (rd s + (B2R (ad n) - rd s)) with (B2R (ad n)) in H by ring. }
  assert (Tn : len (B2R (ae n)) (B2R (af n)) <= d' + f').
  { replace (B2R (ae n)) with (re s + (B2R (ae n) - re s)) by ring. replace (B2R (af n)) with (rf s + (B2R (af n) - rf s)) by ring.
    apply Rle_trans with (1 := len_triangle _ _ _ _). lra. }
  assert (Tm : len (B2R (ae m)) (B2R (af m)) <= d + f).
  { replace (B2R (ae m)) with (re r + (B2R (ae m) - re r)) by ring. replace (B2R (af m)) with (rf r + (B2R (af m) - rf r)) by ring.
    apply Rle_trans with (1 := len_triangle _ _ _ _). lra. }
  destruct (lin_entries _ _ _ _ _ Lm) as (EA & EB & EC & ED).
  assert (Ln2 := lin_weaken _ (2 * z') _ _ _ _ Ln ltac:(lra)).
  destruct (lin_entries _ _ _ _ _ Ln2) as (EA' & EB' & EC' & ED').
  assert (EX' := Rle_trans _ _ _ (len_fst _ _) Tn). assert (EY' := Rle_trans _ _ _ (len_snd _ _) Tn).
  assert (EX := Rle_trans _ _ _ (len_fst _ _) Tm). assert (EY := Rle_trans _ _ _ (len_snd _ _) Tm).
  assert (HB : 2 * z <= 262144) by lra. assert (HC : 2 * z' <= 1073741824) by lra.
  destruct (dot_rounds (aa m) (aa n) (ac m) (ab n) (2 * z) (2 * z')) as [GA1 GA2]; try assumption.
  destruct (dot_rounds (ab m) (aa n) (ad m) (ab n) (2 * z) (2 * z')) as [GB1 GB2]; try assumption.
  destruct (dot_rounds (aa m) (ac n) (ac m) (ad n) (2 * z) (2 * z')) as [GC1 GC2]; try assumption.
  destruct (dot_rounds (ab m) (ac n) (ad m) (ad n) (2 * z) (2 * z')) as [GD1 GD2]; try assumption.
  set (T := z * (d' + f')).
  assert (T0 : 0 <= T) by (apply Rmult_le_pos; lra).
  assert (T1 : T <= 131072 * 1073741824) by (apply Rmult_le_compat; lra).
  assert (Add : forall a b x y k, fin x -> fin y -> fin a -> fin b -> fin k -> Rabs (B2R a) <= 2 * z -> Rabs (B2R b) <= 2 * z ->
    Rabs (B2R x) <= d' + f' -> Rabs (B2R y) <= d' + f' -> Rabs (B2R k) <= d + f ->
    approx (fadd (fadd (fmul a x) (fmul b y)) k) (B2R a * B2R x + B2R b * B2R y + B2R k) (u52 * (25 * T + (d + f) + 20))).
  { intros a b x y k Fx Fy Fa Fb Fk Ba Bb Bx By Bk.
    pose proof (dot_rounds a x b y (2 * z) (d' + f') Fa Fx Fb Fy Ba Bb Bx By HB Db') as N.
    replace (2 * z * (d' + f')) with (2 * T) in N by (unfold T; ring).
    assert (Bd : Rabs (B2R a * B2R x + B2R b * B2R y) <= 4 * T).
    { replace (4 * T) with (2 * (2 * z * (d' + f'))) by (unfold T; ring). now apply dot_bound. }
    apply (near_add _ _ _ _ (u52 * (8 * (2 * T + 1))) 0 (4 * T + (d + f))); auto.
    - now apply near_exact.
    - lra.
    - unfold u52. lra.
    - unfold u52. lra. }
  destruct (Add (aa m) (ac m) (ae n) (af n) (ae m)) as [GX1 GX2]; try assumption.
  destruct (Add (ab m) (ad m) (ae n) (af n) (af m)) as [GY1 GY2]; try assumption.
  constructor; cbn [affine_mul rmul aa ab ac ad ae af ra rb rc rd re rf].
  - unfold finite_map. cbn [affine_mul aa ab ac ad ae af]. now repeat split.
  - apply lin_mul; auto; lra.
  - apply Rle_trans with (1 := len_triangle _ _ _ _). apply Rplus_le_compat; [apply lin_point; auto; lra|exact F].
  - assert (A1 := lin_mul _ _ _ _ _ _ _ _ _ _ (proj1 Ez) Er Ln).
    assert (A2 := lin_mul _ _ _ _ _ _ _ _ _ _ Z0 L Er').
    set (h := u52 * (8 * (2 * z * (2 * z') + 1))) in *.
    assert (A3 := lin_small h _ _ _ _ GA2 GB2 GC2 GD2).
    assert (A4 := lin_add _ _ _ _ _ _ _ _ _ _ A3 (lin_add _ _ _ _ _ _ _ _ _ _ A1 A2)).
    apply (lin_weaken _ ((e + e' + e * e' + 80 * u52) * (z * z'))) in A4.
    + apply (lin_eq _ _ _ _ _ _ _ _ _ A4); ring.
    + assert (B1 : e * z * (z' + e' * z') = (e + e * e') * (z * z')) by ring.
      assert (B2 : z * (e' * z') = e' * (z * z')) by ring. rewrite B1, B2.
      assert (B3 : 2 * h <= 80 * u52 * (z * z')) by (unfold h, u52; lra).
      replace ((e + e' + e * e' + 80 * u52) * (z * z')) with (80 * u52 * (z * z') + ((e + e * e') * (z * z') + e' * (z * z'))) by ring. lra.
  - assert (A1 := lin_point _ _ _ _ _ _ _ _ Er (proj1 Ez) Tn).
    assert (A2 := lin_point _ _ _ _ _ _ _ _ L Z0 O').
    set (h := u52 * (25 * T + (d + f) + 20)) in *.
    assert (A3 := len_entries _ _ _ GX2 GY2).
    assert (A4 := len_triangle (ra r * (B2R (ae n) - re s) + rc r * (B2R (af n) - rf s))
        (rb r * (B2R (ae n) - re s) + rd r * (B2R (af n) - rf s)) (B2R (ae m) - re r) (B2R (af m) - rf r)).
    set (p1 := ra r * (B2R (ae n) - re s) + rc r * (B2R (af n) - rf s)) in *.
    set (p2 := rb r * (B2R (ae n) - re s) + rd r * (B2R (af n) - rf s)) in *.
    set (q1 := (B2R (aa m) - ra r) * B2R (ae n) + (B2R (ac m) - rc r) * B2R (af n)) in *.
    set (q2 := (B2R (ab m) - rb r) * B2R (ae n) + (B2R (ad m) - rd r) * B2R (af n)) in *.
    set (w1 := B2R (fadd (fadd (fmul (aa m) (ae n)) (fmul (ac m) (af n))) (ae m))) in *.
    set (w2 := B2R (fadd (fadd (fmul (ab m) (ae n)) (fmul (ad m) (af n))) (af m))) in *.
    replace (w1 - _) with ((w1 - (B2R (aa m) * B2R (ae n) + B2R (ac m) * B2R (af n) + B2R (ae m))) + (q1 + (p1 + (B2R (ae m) - re r)))) by (unfold q1, p1; ring).
    replace (w2 - _) with ((w2 - (B2R (ab m) * B2R (ae n) + B2R (ad m) * B2R (af n) + B2R (af m))) + (q2 + (p2 + (B2R (af m) - rf r)))) by (unfold q2, p2; ring).
    apply Rle_trans with (1 := len_triangle _ _ _ _).
    assert (A5 := len_triangle q1 q2 (p1 + (B2R (ae m) - re r)) (p2 + (B2R (af m) - rf r))).
    fold T. unfold h in A3. unfold u52 in *. assert (e * z * (d' + f') = e * z * (d' + f')) by reflexivity. lra.
Qed.

(** * One transform *)
Lemma lin_rot t : lin 1 (cos t) (sin t) (- sin t) (cos t).
Proof.
  intros x y. rewrite Rmult_1_l. apply len_le; [apply len_pos|]. rewrite len_sq. pose proof (sin2_cos2 t) as H. unfold Rsqr in H.
  replace (_ + _) with ((x * x + y * y) * (sin t * sin t + cos t * cos t)) by ring. rewrite H. lra.
Qed.
Lemma lin_id : lin 1 1 0 0 1.
Proof.
  intros x y. replace (1 * x + 0 * y) with x by ring. replace (0 * x + 1 * y) with y by ring. lra.
Qed.
Lemma lin_stretch a b z : 0 <= z -> Rabs a <= z -> Rabs b <= z -> lin z a 0 0 b.
Proof.
  intros Z A B x y. apply Rabs_le_inv in A, B. apply len_le; [apply Rmult_le_pos; [exact Z|apply len_pos]|].
  replace (z * len x y * (z * len x y)) with (z * z * (len x y * len x y)) by ring. rewrite len_sq.
  assert (a * a <= z * z) by nra. assert (b * b <= z * z) by nra. pose proof (sq_pos x). pose proof (sq_pos y).
  replace ((a * x + 0 * y) * (a * x + 0 * y) + (0 * x + b * y) * (0 * x + b * y)) with ((a * a) * (x * x) + (b * b) * (y * y)) by ring.
  assert ((a * a) * (x * x) <= z * z * (x * x)) by (apply Rmult_le_compat_r; lra).
  assert ((b * b) * (y * y) <= z * z * (y * y)) by (apply Rmult_le_compat_r; lra). lra.
Qed.
Lemma lin_shear k : lin (1 + Rabs k) 1 0 k 1.
Proof.
  intros x y. replace (1 * x + k * y) with (x + k * y) by ring. replace (0 * x + 1 * y) with (y + 0) by ring.
  apply Rle_trans with (1 := len_triangle _ _ _ _). rewrite Rmult_plus_distr_r, Rmult_1_l. apply Rplus_le_compat_l.
  replace (len (k * y) 0) with (Rabs k * Rabs y).
  - apply Rmult_le_compat_l; [apply Rabs_pos|apply len_snd].
  - unfold len. replace (k * y * (k * y) + 0 * 0) with (Rsqr (k * y)) by (unfold Rsqr; ring). now rewrite sqrt_Rsqr_abs, Rabs_mult.
Qed.
Lemma like_good m r b e c f z d : like m r b e c f -> lin z (ra r) (rb r) (rc r) (rd r) -> 1 <= z -> len (re r) (rf r) <= d ->
  good m r z (2 * e) d (3 / 2 * f).
Proof.
  intros [[FA A] [FB B] [FC C] [FD D] [FX X] [FY Y] _ _ _ _ _ _] L Z F. constructor; auto.
  - now repeat split.
  - assert (0 <= e) by (pose proof (Rabs_pos (B2R (aa m) - ra r)); lra).
    apply (lin_weaken (2 * e)); [now apply lin_small|]. rewrite <- (Rmult_1_r (2 * e)) at 1. apply Rmult_le_compat_l; lra.
  - now apply len_entries.
Qed.
Ltac gmul P M N e d f :=
  assert (P := good_mul _ _ _ _ _ _ _ _ _ _ _ _ M N); unfold u52 in P;
  repeat match type of P with
         | ?X -> _ => let h := fresh in assert (h : X) by (repeat split; lra); specialize (P h); clear h
         end;
  apply (fun p z0 => good_weaken _ _ _ _ _ _ e d f p z0) in P; [|lra|lra|lra|lra].
Lemma good_rot E z t : accurate E -> approx z t (/ 4398046511104) -> Rabs t <= 900 ->
  good (affine_rotate E z) (rrot t) 1 (2 * / 2199023255552) 0 0.
Proof.
  intros A N B. replace 0 with (3 / 2 * 0) at 2 by lra. eapply like_good; [now apply like_rot|apply lin_rot|lra|].
  cbn [rrot re rf]. apply len_le; lra.
Qed.
Lemma good_trans x y : fin x -> fin y -> Rabs (B2R x) <= 8192 -> Rabs (B2R y) <= 8192 ->
  good (affine_translate x y) (rtrans (B2R x, B2R y)) 1 0 11586 0.
Proof.
  intros Fx Fy Bx By. replace 0 with (3 / 2 * 0) at 2 by lra. replace 0 with (2 * 0) at 1 by lra.
  eapply like_good; [now apply like_trans|apply lin_id|lra|].
  cbn [rtrans re rf fst snd]. apply Rabs_le_inv in Bx, By. apply len_le; [lra|nra].
Qed.
Lemma rslant_0 ax : rslant 0 ax = rtrans (0, 0).
Proof.
  unfold rslant, rmul, rrot, rshear, rtrans, rad. cbn [ra rb rc rd re rf fst snd].
  replace (0 * PI / 180) with 0 by lra. rewrite tan_0, cos_neg, sin_neg. set (t := ax * PI / 180).
  pose proof (sin2_cos2 t) as H. unfold Rsqr in H. f_equal; nra.
Qed.
Lemma good_identity : good affine_identity (rtrans (0, 0)) 1 0 0 0.
Proof.
  constructor; cbn [affine_identity aa ab ac ad ae af rtrans ra rb rc rd re rf fst snd].
  - now repeat split.
  - apply lin_id.
  - apply len_le; lra.
  - rewrite f0_R, f1_R. intros x y. replace (_ + _) with 0 by ring. replace ((0 - 0) * x + (1 - 1) * y) with 0 by ring.
    replace (0 * 1 * len x y) with 0 by ring. apply len_le; lra.
  - rewrite f0_R. apply len_le; lra.
Qed.
Lemma tan_zoom k : 1 <= 1 + Rabs k. Proof. pose proof (Rabs_pos k). lra. Qed.
Lemma good_slant E sk ax : accurate E -> fin sk -> fin ax -> Rabs (B2R sk) <= 60 -> Rabs (B2R ax) <= 16384 ->
  exists m, skewing E sk ax = [m] /\
    good m (rslant (B2R sk) (B2R ax)) (1 + Rabs (tan (rad (B2R sk)))) (95 / 10000000000000) 0 (/ 10000000000000).
Proof.
  intros A Fs Fa Bs Ba. destruct (tan_near E A sk Fs Bs) as [_ T2]. pose proof (tan_zoom (tan (rad (B2R sk)))) as T1.
  unfold skewing. destruct (feqb sk f0) eqn:Z.
  - exists affine_identity. split; [reflexivity|]. apply feqb_eq in Z; auto. rewrite Z, f0_R, rslant_0.
    replace (1 + Rabs (tan (rad 0))) with 1.
    2:{ unfold rad. replace (0 * PI / 180) with 0 by lra. rewrite tan_0, Rabs_R0. ring. }
    apply (good_weaken _ _ _ _ _ _ _ _ _ good_identity); lra.
  - eexists. split; [reflexivity|].
    pose proof (radians_near ax Fa Ba) as Na. pose proof (rad_bound _ Ba) as Bt.
    assert (R1 := good_rot E _ _ A (near_neg _ _ _ Na) ltac:(rewrite Rabs_Ropp; exact Bt)).
    assert (R2 := good_rot E _ _ A Na Bt).
    assert (K := like_good _ _ _ _ _ _ (1 + Rabs (tan (rad (B2R sk)))) 0 (like_shear E sk A Fs Bs) (lin_shear _) T1
      ltac:(cbn [rshear re rf]; apply len_le; lra)).
    set (zk := 1 + Rabs (tan (rad (B2R sk)))) in *. assert (K3 : zk <= 3) by (unfold zk; lra).
    gmul M1 R1 K (85 / 10000000000000) 0 (/ 50000000000000).
    gmul M2 M1 R2 (95 / 10000000000000) 0 (/ 10000000000000).
    unfold rslant. replace zk with (1 * zk * 1) by ring. exact M2.
Qed.
Lemma good_scale x y : fin x -> fin y -> Rabs (B2R x) <= 1600 -> Rabs (B2R y) <= 1600 ->
  good (affine_scale (fdiv x f100) (fdiv y f100)) (rscale (B2R x, B2R y)) (Rmax 1 (Rmax (Rabs (B2R x)) (Rabs (B2R y)) / 100))
    (2 * / 140737488355328) 0 0.
Proof.
  intros Fx Fy Bx By. replace 0 with (3 / 2 * 0) at 2 by lra.
  pose proof (Rmax_l 1 (Rmax (Rabs (B2R x)) (Rabs (B2R y)) / 100)) as M1. pose proof (Rmax_r 1 (Rmax (Rabs (B2R x)) (Rabs (B2R y)) / 100)) as M2.
  pose proof (Rmax_l (Rabs (B2R x)) (Rabs (B2R y))) as M3. pose proof (Rmax_r (Rabs (B2R x)) (Rabs (B2R y))) as M4.
  eapply like_good; [now apply like_scale| |lra|cbn [rscale re rf]; apply len_le; lra].
  cbn [rscale ra rb rc rd fst snd]. unfold Rdiv in *. apply lin_stretch; [lra| |]; rewrite Rabs_mult, (Rabs_pos_eq (/ 100)) by lra; lra.
Qed.
Definition pmat (x : posture) : rmat :=
  rmul (rmul (rmul (rmul (rtrans (real_point (po_position x))) (rrot (rad (B2R (po_rotation x)))))
    (rslant (B2R (po_skew x)) (B2R (po_axis x)))) (rscale (real_vec2 (po_scale x))))
    (rtrans (- B2R (px (po_anchor x)), - B2R (py (po_anchor x)))).
Lemma pmat_lies x v : rapply (pmat x) v = lies x v.
Proof.
  unfold pmat, lies, lands. rewrite !rapply_mul. set (w := rapply (rtrans _) v).
  assert (Ew : w = vminus v (real_point (po_anchor x))).
  { unfold w, rapply, rtrans, vminus, real_point. cbn [ra rb rc rd re rf fst snd]. f_equal; ring. }
  rewrite Ew. clear w Ew. set (w := vminus _ _).
  assert (Es : rapply (rscale (real_vec2 (po_scale x))) w = stretch (real_vec2 (po_scale x)) w).
  { unfold rapply, rscale, stretch. cbn [ra rb rc rd re rf fst snd]. f_equal; ring. }
  rewrite Es. set (u := stretch _ _).
  assert (Ek : forall sk ax, rapply (rslant sk ax) u = slant sk ax u).
  { intros sk ax. destruct u as [a b]. unfold rslant, rapply, rmul, slant, shear, turn, rad. cbn [rrot rshear ra rb rc rd re rf fst snd].
    replace (- ax * PI / 180) with (- (ax * PI / 180)) by lra. f_equal; ring. }
  rewrite Ek. set (t := slant _ _ _). destruct t as [a b].
  unfold rapply, rtrans, rrot, vplus, turn, rad. cbn [ra rb rc rd re rf fst snd]. f_equal; ring.
Qed.
Definition map_of (E : Ext) (x : posture) : affine :=
  placement E (po_position x) (po_anchor x) (po_scale x) (po_rotation x) (po_skew x) (po_axis x).
Lemma zoom_1 x : 1 <= zoom x.
Proof.
  unfold zoom. set (s := Rmax 1 _). assert (1 <= s) by apply Rmax_l. pose proof (tan_zoom (tan (B2R (po_skew x) * PI / 180))).
  rewrite <- (Rmult_1_l 1) at 1. apply Rmult_le_compat; lra.
Qed.
Lemma good_posture E x : accurate E -> plain_posture x ->
  good (map_of E x) (pmat x) (zoom x) (11 / 1000000000000) (23200 * zoom x) (3 / 10000000 * zoom x).
Proof.
  intros A ((Fpx & Fpy & Bpx & Bpy) & (Fax & Fay & Bax & Bay) & (Fsx & Fsy & Bsx & Bsy) & (Fr & Br) & (Fk & Bk) & (Fx & Bx)).
  cbn [real_point real_vec2 fst snd] in *.
  destruct (good_slant E _ _ A Fk Fx Bk Bx) as (k & Ek & Lk). destruct (tan_near E A _ Fk Bk) as [_ T2].
  assert (Lr := good_rot E _ _ A (radians_near _ Fr Br) (rad_bound _ Br)).
  assert (Lp := good_trans _ _ Fpx Fpy Bpx Bpy).
  assert (Ls := good_scale _ _ Fsx Fsy Bsx Bsy).
  assert (La : good (affine_translate (fneg (px (po_anchor x))) (fneg (py (po_anchor x)))) (rtrans (- B2R (px (po_anchor x)), - B2R (py (po_anchor x)))) 1 0 11586 0).
  { rewrite <- (B2R_Bopp 53 1024), <- (B2R_Bopp 53 1024). apply good_trans; unfold fneg; rewrite ?is_finite_Bopp, ?B2R_Bopp, ?Rabs_Ropp; auto. }
  pose proof (tan_zoom (tan (rad (B2R (po_skew x))))) as T1.
  unfold map_of, placement, pmat, zoom. rewrite Ek. cbn [product app]. unfold real_point, real_vec2.
  fold (rad (B2R (po_skew x))). set (zk := 1 + Rabs (tan (rad (B2R (po_skew x))))) in *.
  set (zs := Rmax 1 _) in *. assert (S1 : 1 <= zs) by apply Rmax_l.
  assert (S2 : zs <= 16). { unfold zs. apply Rmax_lub; [lra|]. enough (Rmax (Rabs (B2R (vx (po_scale x)))) (Rabs (B2R (vy (po_scale x)))) <= 1600) by lra. now apply Rmax_lub. }
  assert (K3 : zk <= 3) by (unfold zk; lra).
  gmul M1 Lp Lr (93 / 100000000000000) 11586 (/ 100000000000).
  rewrite Rmult_1_l in M1.
  gmul M2 M1 Lk (105 / 10000000000000) 11586 (/ 20000000000).
  rewrite Rmult_1_l in M2.
  assert (P1 : 1 <= zk * zs) by (rewrite <- (Rmult_1_l 1); apply Rmult_le_compat; lra).
  assert (P2 : zk * zs <= 3 * 16) by (apply Rmult_le_compat; lra).
  gmul M3 M2 Ls (107 / 10000000000000) 11586 (/ 10000000000).
  gmul M4 M3 La (11 / 1000000000000) (23200 * (zk * zs)) (3 / 10000000 * (zk * zs)).
  replace (zs * zk) with (zk * zs) by ring. rewrite Rmult_1_r in M4. exact M4.
Qed.

(** * Products of many transforms *)
(** [n] transforms that enlarge by at most [z] altogether. *)
Definition deep (n z : R) (m : affine) (r : rmat) : Prop :=
  good m r z (11 / 1000000000000 * (2 * n - 1)) (23200 * n * z) (3 / 10000000 * (n * n) * z).
(** The same under a view. *)
Definition viewed (n z : R) (m : affine) (r : rmat) : Prop :=
  good m r (8 * z) (22 / 1000000000000 * n) (11586 + 185600 * n * z) (27 / 10000000 * (n * n) * z).
Section Sizes.
  Variables n k z w : R.
  Hypothesis (Hn : 0 <= n) (Hk : 1 <= k) (Hz : 1 <= z) (Hw : 1 <= w).
  Hypothesis (L : (n + k) * (n + k) * (z * w) <= 2000).
  Lemma sz_1 : 1 <= z * w. Proof. rewrite <- (Rmult_1_l 1). apply Rmult_le_compat; lra. Qed.
  Lemma sz_z : z <= z * w. Proof. rewrite <- (Rmult_1_r z) at 1. apply Rmult_le_compat_l; lra. Qed.
  Lemma sz_w : w <= z * w. Proof. rewrite <- (Rmult_1_l w) at 1. apply Rmult_le_compat_r; lra. Qed.
  Lemma sz_nn : 0 <= n * n. Proof. apply Rmult_le_pos; lra. Qed.
  Lemma sz_nk : 0 <= n * k. Proof. apply Rmult_le_pos; lra. Qed.
  Lemma sz_kk : k <= k * k. Proof. rewrite <- (Rmult_1_r k) at 1. apply Rmult_le_compat_l; lra. Qed.
  Lemma sz_sum : n * n * (z * w) + 2 * (n * k * (z * w)) + k * k * (z * w) <= 2000.
  Proof. replace (n * n * (z * w) + 2 * (n * k * (z * w)) + k * k * (z * w)) with ((n + k) * (n + k) * (z * w)) by ring. exact L. Qed.
  Lemma sz_pos x : 0 <= x -> 0 <= x * (z * w). Proof. intros H. apply Rmult_le_pos; [exact H|]. pose proof sz_1. lra. Qed.
  Lemma sz_up x : 0 <= x -> x * z <= x * (z * w). Proof. intros H. apply Rmult_le_compat_l; [exact H|apply sz_z]. Qed.
  Lemma sz_ge x : 0 <= x -> x <= x * (z * w). Proof. intros H. rewrite <- (Rmult_1_r x) at 1. apply Rmult_le_compat_l; [exact H|apply sz_1]. Qed.
  Lemma sz_le x y : x <= y -> x * (z * w) <= y * (z * w). Proof. intros H. apply Rmult_le_compat_r; [pose proof sz_1; lra|exact H]. Qed.
  Lemma sz_n_nk : n <= n * k. Proof. rewrite <- (Rmult_1_r n) at 1. apply Rmult_le_compat_l; lra. Qed.
  Lemma sz_facts : 1 <= z * w /\ z <= z * w /\ w <= z * w /\ 0 <= n * n * (z * w) /\ 0 <= n * k * (z * w) /\ k * (z * w) <= k * k * (z * w) /\
    n * (z * w) <= n * k * (z * w) /\ n * z <= n * (z * w) /\ n * n * z <= n * n * (z * w) /\ k <= 2000 /\ n * k <= 1000 /\ n <= 1000 /\
    0 <= n * n * z /\ 0 <= n * z /\ 1 <= k * (z * w) /\ n * n * (z * w) + 2 * (n * k * (z * w)) + k * k * (z * w) <= 2000 /\
    n * k * k * (z * w) <= 2000 * (n * k * (z * w)) /\ k * w <= k * (z * w) /\ k * k * w <= k * k * (z * w) /\ z * w <= k * (z * w).
  Proof.
    pose proof sz_1. pose proof sz_z. pose proof sz_w. pose proof sz_nn. pose proof sz_nk. pose proof sz_kk. pose proof sz_sum. pose proof sz_n_nk.
    pose proof (sz_pos _ sz_nn). pose proof (sz_pos _ sz_nk). pose proof (sz_le _ _ sz_kk). pose proof (sz_le _ _ sz_n_nk).
    pose proof (sz_up _ Hn). pose proof (sz_up _ sz_nn). pose proof (sz_ge _ sz_nk). pose proof (sz_ge k ltac:(lra)).
    assert (k <= 2000) by lra.
    assert (K3 : n * k * k * (z * w) <= 2000 * (n * k * (z * w))).
    { replace (n * k * k * (z * w)) with (k * (n * k * (z * w))) by ring. apply Rmult_le_compat_r; lra. }
    assert (0 <= n * n * z) by (apply Rmult_le_pos; lra). assert (0 <= n * z) by (apply Rmult_le_pos; lra).
    assert (k * w <= k * (z * w)) by (apply Rmult_le_compat_l; lra).
    assert (k * k * w <= k * k * (z * w)) by (apply Rmult_le_compat_l; lra).
    assert (z * w <= k * (z * w)) by (rewrite <- (Rmult_1_l (z * w)) at 1; apply sz_le; lra).
    repeat split; lra.
  Qed.
End Sizes.
Lemma deep_mul n k z w m m' r s : deep n z m r -> deep k w m' s -> 1 <= n -> 1 <= k -> 1 <= z -> 1 <= w ->
  (n + k) * (n + k) * (z * w) <= 2000 -> deep (n + k) (z * w) (affine_mul m m') (rmul r s).
Proof.
  intros G G' Hn Hk Hz Hw L.
  destruct (sz_facts n k z w ltac:(lra) Hk Hz Hw L) as (S1 & S2 & S3 & S4 & S5 & S6 & S7 & S8 & S9 & S10 & S11 & S12 & S13 & S14 & S15 & S16 & S17 & S18 & S19 & S21).
  assert (S20 : k * (z * w) <= n * k * (z * w)).
  { rewrite Rmult_assoc. rewrite <- (Rmult_1_l (k * (z * w))) at 1. apply Rmult_le_compat_r; lra. }
  unfold deep in *.
  eapply good_weaken; [eapply (good_mul _ _ _ _ _ _ _ _ _ _ _ _ G G')|..]; try lra; try (split; lra).
  - unfold u52. lra.
  - unfold u52. lra.
Qed.
Lemma viewed_mul n k z w m m' r s : viewed n z m r -> deep k w m' s -> 0 <= n -> 1 <= k -> 1 <= z -> 1 <= w ->
  (n + k) * (n + k) * (z * w) <= 2000 -> viewed (n + k) (z * w) (affine_mul m m') (rmul r s).
Proof.
  intros G G' Hn Hk Hz Hw L.
  destruct (sz_facts n k z w ltac:(lra) Hk Hz Hw L) as (S1 & S2 & S3 & S4 & S5 & S6 & S7 & S8 & S9 & S10 & S11 & S12 & S13 & S14 & S15 & S16 & S17 & S18 & S19 & S21).
  unfold deep, viewed in *. replace (8 * (z * w)) with (8 * z * w) by ring.
  eapply good_weaken; [eapply (good_mul _ _ _ _ _ _ _ _ _ _ _ _ G G')|..]; try lra; try (split; lra).
  - unfold u52. lra.
  - unfold u52. lra.
Qed.
Lemma deep_posture E x : accurate E -> plain_posture x -> deep 1 (zoom x) (map_of E x) (pmat x).
Proof.
  intros A P. pose proof (zoom_1 x). apply (good_weaken _ _ _ _ _ _ _ _ _ (good_posture E x A P)); lra.
Qed.
Lemma deep_identity : deep 1 1 affine_identity (rtrans (0, 0)).
Proof. apply (good_weaken _ _ _ _ _ _ _ _ _ good_identity); lra. Qed.
Definition view_matrix (m : affine) : rmat := mkRmat (B2R (aa m)) (B2R (ab m)) (B2R (ac m)) (B2R (ad m)) (B2R (ae m)) (B2R (af m)).
Lemma viewed_view m : plain_view m -> viewed 0 1 m (view_matrix m).
Proof.
  intros (F & A & B & C & D & X & Y). constructor; cbn [view_matrix ra rb rc rd re rf].
  - exact F.
  - rewrite Rmult_1_r. replace 8 with (2 * 4) by lra. now apply lin_small.
  - apply Rabs_le_inv in X, Y. apply len_le; [lra|nra].
  - rewrite !Rminus_eq_0. intros x y. replace (0 * x + 0 * y) with 0 by ring.
    replace (22 / 1000000000000 * 0 * (8 * 1) * len x y) with 0 by ring. apply len_le; lra.
  - rewrite !Rminus_eq_0. replace (27 / 10000000 * (0 * 0) * 1) with 0 by ring. apply len_le; lra.
Qed.
(** Points. *)
Lemma viewed_point n z m r v : viewed n z m r -> 0 <= n -> n <= n * n -> 1 <= z -> n * n * z <= 2000 -> bounded_by 8192 v ->
  finite_map m /\ within (1 / 100) (moved m v) (rapply r v).
Proof.
  intros [F _ _ Er O] Hn Hnn Hz L [B1 B2]. split; [exact F|].
  assert (Lv : len (fst v) (snd v) <= 11586) by (apply Rabs_le_inv in B1, B2; apply len_le; [lra|nra]).
  assert (Nz : n * z <= n * n * z) by (apply Rmult_le_compat_r; lra).
  assert (Nz0 : 0 <= n * z) by (apply Rmult_le_pos; lra).
  assert (A := lin_point _ _ _ _ _ _ _ _ Er ltac:(lra) Lv).
  assert (T := len_triangle _ _ (B2R (ae m) - re r) (B2R (af m) - rf r) : len ((B2R (aa m) - ra r) * fst v + (B2R (ac m) - rc r) * snd v + _)
    ((B2R (ab m) - rb r) * fst v + (B2R (ad m) - rd r) * snd v + _) <= _).
  unfold within, moved, rapply. cbn [fst snd].
  replace (B2R (aa m) * fst v + B2R (ac m) * snd v + B2R (ae m) - _)
    with ((B2R (aa m) - ra r) * fst v + (B2R (ac m) - rc r) * snd v + (B2R (ae m) - re r)) by ring.
  replace (B2R (ab m) * fst v + B2R (ad m) * snd v + B2R (af m) - _)
    with ((B2R (ab m) - rb r) * fst v + (B2R (ad m) - rd r) * snd v + (B2R (af m) - rf r)) by ring.
  set (p := _ + (B2R (ae m) - re r)) in *. set (q := _ + (B2R (af m) - rf r)) in *.
  pose proof (len_fst p q). pose proof (len_snd p q). split; lra.
Qed.
(** The matrix of a list of postures. *)
Fixpoint rmats (l : list posture) : rmat := match l with [] => rtrans (0, 0) | x :: l => rmul (rmats l) (pmat x) end.
Lemma rapply_id v : rapply (rtrans (0, 0)) v = v.
Proof. destruct v. unfold rapply, rtrans. cbn [ra rb rc rd re rf fst snd]. f_equal; ring. Qed.
Lemma rmats_through l v : rapply (rmats l) v = through l v.
Proof.
  revert v. induction l as [|x l IH]; intros v; cbn [rmats through]; [apply rapply_id|]. now rewrite rapply_mul, IH, pmat_lies.
Qed.
Lemma rmul_assoc a b c : rmul (rmul a b) c = rmul a (rmul b c).
Proof. unfold rmul. cbn [ra rb rc rd re rf]. f_equal; ring. Qed.
Lemma rmul_id_r r : rmul r (rtrans (0, 0)) = r.
Proof. destruct r as [a b c d x y]. unfold rmul, rtrans. cbn [ra rb rc rd re rf fst snd]. f_equal; ring. Qed.
Lemma rmul_id_l r : rmul (rtrans (0, 0)) r = r.
Proof. destruct r as [a b c d x y]. unfold rmul, rtrans. cbn [ra rb rc rd re rf fst snd]. f_equal; ring. Qed.
Lemma rmats_app l k : rmats (l ++ k) = rmul (rmats k) (rmats l).
Proof.
  induction l as [|x l IH]; cbn [app rmats]; [now rewrite rmul_id_r|]. now rewrite IH, rmul_assoc.
Qed.
Lemma total_zoom_app l k : total_zoom (l ++ k) = total_zoom l * total_zoom k.
Proof. induction l as [|x l IH]; cbn [app total_zoom]; [ring|]. rewrite IH. ring. Qed.
Lemma total_zoom_1 l : 1 <= total_zoom l.
Proof.
  induction l as [|x l IH]; cbn [total_zoom]; [lra|]. pose proof (zoom_1 x). rewrite <- (Rmult_1_l 1). apply Rmult_le_compat; lra.
Qed.
(** A shorter list of postures is no harder. *)
Definition manageable (l : list posture) : Prop := INR (List.length l) * INR (List.length l) * total_zoom l <= 2000.
Lemma manageable_app l k : manageable (l ++ k) -> manageable l /\ manageable k.
Proof.
  unfold manageable. rewrite app_length, plus_INR, total_zoom_app. intros H.
  pose proof (pos_INR (List.length l)) as A. pose proof (pos_INR (List.length k)) as B.
  pose proof (total_zoom_1 l) as C. pose proof (total_zoom_1 k) as D.
  set (n := INR (List.length l)) in *. set (m := INR (List.length k)) in *. set (z := total_zoom l) in *. set (w := total_zoom k) in *.
  assert (0 <= n * n) by (apply Rmult_le_pos; lra). assert (0 <= n * m) by (apply Rmult_le_pos; lra). assert (0 <= m * m) by (apply Rmult_le_pos; lra).
  assert (z <= z * w) by (rewrite <- (Rmult_1_r z) at 1; apply Rmult_le_compat_l; lra).
  assert (w <= z * w) by (rewrite <- (Rmult_1_l w) at 1; apply Rmult_le_compat_r; lra).
  split; apply Rle_trans with (2 := H); apply Rmult_le_compat; lra.
Qed.
