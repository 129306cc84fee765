(** C85: the figures and bars of the viewer's statistics, in real numbers. *)
From Coq Require Import ZArith Reals Bool List Arith Lia Lra.
From Flocq Require Import Core BinarySingleNaN Relative.
From Verif Require Import F64 F64Facts Kurbo Value Animated ValueFacts ValueFacts2 Stats PropStats PropGeometry.
Import ListNotations.
Open Scope list_scope.
Open Scope R_scope.

(** ** Specification *)
(** [x] is the figure [r], up to one part in 10^12. *)
Definition figure (x : f64) (r : R) : Prop := fin x /\ Rabs (B2R x - r) <= r / 1000000000000.
(** Microseconds as milliseconds; the average. *)
Definition ms (m : Z) : R := IZR m / 1000.
Definition average (l : list Z) : R := ms (total l) / INR (List.length l).
(** The scale of the graph: the slowest frame; but if that took more than three
    times the average, the multiple of 5 from a third above the average on. *)
Definition scale_of (avg slowest : R) (scale : f64) : Prop :=
  (slowest <= 3 * avg * (1 - / 100000000000) -> figure scale slowest) /\
  (3 * avg * (1 + / 100000000000) <= slowest ->
   exists k, (0 < k)%Z /\ scale = f_of_Z (5 * k) /\ 
     133334 / 100000 * avg - 1 - / 1000 <= IZR (5 * k) <= 133334 / 100000 * avg + 4 + / 1000).

(** ** Relative errors *)
Definition rel (x : f64) (r e : R) : Prop := fin x /\ 0 <= r /\ Rabs (B2R x - r) <= e * r.
Lemma rnd_rel r : r = 0 \/ bpow radix2 (-200) <= r -> Rabs (rnd r - r) <= u52 * r.
Proof.
  intros [->|H]; [rewrite rnd_0, Rminus_eq_0, Rabs_R0; lra|]. pose proof (bpow_gt_0 radix2 (-200)).
  pose proof (relative_error_N_FLT radix2 (-1074) 53 ltac:(lia) (fun x => negb (Z.even x)) r) as E.
  rewrite (Rabs_pos_eq r) in E by lra. apply Rle_trans with (1 := E ltac:(apply Rle_trans with (2 := H); apply bpow_le; lia)).
  apply Rmult_le_compat_r; [lra|]. change (bpow radix2 (- (53) + 1)) with (/ IZR 4503599627370496). unfold u52. lra.
Qed.
Definition ample (r : R) : Prop := r = 0 \/ bpow radix2 (-100) <= r <= bpow radix2 100.
Lemma rel_round x r e t : fin x -> 0 <= r -> B2R x = rnd t -> Rabs (t - r) <= e * r -> e <= / 100 -> ample r -> rel x r (e + 2 * u52).
Proof.
  intros F Hr Ex Ht He Ha. split; [exact F|]. split; [exact Hr|]. rewrite Ex.
  apply Rabs_le_inv in Ht. assert (e * r <= / 100 * r) by (apply Rmult_le_compat_r; lra).
  assert (A : t = 0 \/ bpow radix2 (-200) <= t).
  { destruct Ha as [->|[Ha _]]; [left; lra|right]. apply Rle_trans with (r / 2); [|lra].
    apply Rle_trans with (bpow radix2 (-100) / 2); [|lra]. change (/ 2) with (bpow radix2 (-1)). unfold Rdiv. change (/ 2) with (bpow radix2 (-1)).
    rewrite <- bpow_plus. apply bpow_le. lia. }
  pose proof (rnd_rel t A) as R. apply Rabs_le. apply Rabs_le_inv in R. assert (u52 * t <= 2 * u52 * r) by (unfold u52 in *; lra). lra.
Qed.
Lemma big_100 : bpow radix2 100 * 4 <= bpow radix2 1023.
Proof. change 4 with (bpow radix2 2). rewrite <- bpow_plus. apply bpow_le. lia. Qed.
Lemma rel_mul x y r s e f : rel x r e -> rel y s f -> 0 <= e -> 0 <= f -> e <= / 1000 -> f <= / 1000 -> ample (r * s) ->
  rel (fmul x y) (r * s) (2 * (e + f) + 2 * u52).
Proof.
  intros (Fx & Hr & Hx) (Fy & Hs & Hy) He Hf He' Hf' A.
  assert (P : 0 <= r * s) by now apply Rmult_le_pos.
  assert (B : Rabs (B2R x * B2R y - r * s) <= 2 * (e + f) * (r * s)).
  { replace (B2R x * B2R y - r * s) with (r * (B2R y - s) + s * (B2R x - r) + (B2R x - r) * (B2R y - s)) by ring.
    apply Rle_trans with (r * (f * s) + s * (e * r) + (e * r) * (f * s)).
    - apply Rle_trans with (1 := Rabs_triang _ _). apply Rplus_le_compat; [apply Rle_trans with (1 := Rabs_triang _ _); apply Rplus_le_compat|];
        rewrite Rabs_mult; apply Rmult_le_compat; auto using Rabs_pos; rewrite Rabs_pos_eq; lra.
    - replace (r * (f * s) + s * (e * r) + e * r * (f * s)) with ((f + e + e * f) * (r * s)) by ring. apply Rmult_le_compat_r; [lra|].
      assert (e * f <= e * 1) by (apply Rmult_le_compat_l; lra). lra. }
  assert (M : Rabs (B2R x * B2R y) <= bpow radix2 1023).
  { pose proof big_100. assert (r * s <= bpow radix2 100) by (destruct A as [->|[_ A]]; [apply bpow_ge_0|exact A]).
    apply Rabs_le_inv in B. assert (2 * (e + f) * (r * s) <= 1 * (r * s)) by (apply Rmult_le_compat_r; lra). apply Rabs_le. lra. }
  destruct (fmul_R x y Fx Fy M) as [E F]. eapply rel_round; eauto. lra.
Qed.
Lemma rel_div x y r s e f : rel x r e -> rel y s f -> 0 < s -> 0 <= e -> 0 <= f -> e <= / 1000 -> f <= / 1000 -> ample (r / s) ->
  rel (fdiv x y) (r / s) (2 * (e + f) + 2 * u52).
Proof.
  intros (Fx & Hr & Hx) (Fy & _ & Hy) Hs He Hf He' Hf' A.
  assert (P : 0 <= r / s) by (apply Rmult_le_pos; [exact Hr|left; now apply Rinv_0_lt_compat]).
  assert (Y : s / 2 <= B2R y). { apply Rabs_le_inv in Hy. assert (f * s <= / 1000 * s) by (apply Rmult_le_compat_r; lra). lra. }
  assert (B : Rabs (B2R x / B2R y - r / s) <= 2 * (e + f) * (r / s)).
  { replace (B2R x / B2R y - r / s) with (((B2R x - r) * s - r * (B2R y - s)) / (B2R y * s)) by (field; lra).
    assert (0 < B2R y * s) by (apply Rmult_lt_0_compat; lra).
    unfold Rdiv. rewrite Rabs_mult, Rabs_inv, (Rabs_pos_eq (B2R y * s)) by lra. apply Rmult_le_reg_r with (B2R y * s); [lra|].
    rewrite Rmult_assoc, Rinv_l, Rmult_1_r by lra. replace (2 * (e + f) * (r * / s) * (B2R y * s)) with (2 * (e + f) * (r * B2R y)) by (field; lra).
    apply Rle_trans with ((e * r) * s + r * (f * s)).
    - unfold Rminus at 1. apply Rle_trans with (1 := Rabs_triang _ _). rewrite Rabs_Ropp. apply Rplus_le_compat; rewrite Rabs_mult; apply Rmult_le_compat; auto using Rabs_pos; rewrite Rabs_pos_eq; lra.
    - replace (e * r * s + r * (f * s)) with ((e + f) * (r * s)) by ring. replace (2 * (e + f) * (r * B2R y)) with ((e + f) * (r * (2 * B2R y))) by ring.
      apply Rmult_le_compat_l; [lra|]. apply Rmult_le_compat_l; lra. }
  assert (M : Rabs (B2R x / B2R y) <= bpow radix2 1023).
  { pose proof big_100. assert (r / s <= bpow radix2 100) by (destruct A as [->|[_ A]]; [apply bpow_ge_0|exact A]).
    apply Rabs_le_inv in B. assert (2 * (e + f) * (r / s) <= 1 * (r / s)) by (apply Rmult_le_compat_r; lra). apply Rabs_le. lra. }
  destruct (fdiv_R x y Fx ltac:(lra) M) as [E F]. eapply rel_round; eauto. lra.
Qed.
Lemma rel_Z z : (0 <= z <= 2 ^ 53)%Z -> rel (f_of_Z z) (IZR z) 0.
Proof.
  intros H. destruct (f_of_Z_R z ltac:(lia)) as [R F]. split; [exact F|]. split; [apply IZR_le; lia|]. rewrite R, Rminus_eq_0, Rabs_R0. lra.
Qed.
Lemma ample_num (r : R) : / 1000000000000000000000 <= r <= 1000000000000000000000 -> ample r.
Proof.
  intros [L U]. right. split.
  - apply Rle_trans with (2 := L). change (bpow radix2 (-100)) with (/ IZR 1267650600228229401496703205376). apply Rinv_le_contravar; lra.
  - apply Rle_trans with (1 := U). change (bpow radix2 100) with (IZR 1267650600228229401496703205376). lra.
Qed.
Lemma rel_weaken x r e e' : rel x r e -> e <= e' -> rel x r e'.
Proof. intros (F & H & X) L. split; [exact F|]. split; [exact H|]. apply Rle_trans with (1 := X). now apply Rmult_le_compat_r. Qed.
Lemma rel_figure x r : rel x r (/ 1000000000000) -> figure x r.
Proof. intros (F & _ & X). split; [exact F|]. unfold Rdiv. rewrite Rmult_comm. exact X. Qed.
Lemma milli_rel : rel f_milli (/ 1000) (2 * u52).
Proof.
  unfold f_milli, flit. assert (A : / 1000 = IZR 1 / IZR 1000) by lra. rewrite A.
  eapply rel_weaken; [apply (rel_div _ _ _ _ 0 0)|lra]; try lra; try (apply rel_Z; lia). apply ample_num. lra.
Qed.
Lemma ms_rel m : (0 <= m <= 2 ^ 53)%Z -> rel (fmul (f_of_Z m) f_milli) (ms m) (6 * u52).
Proof.
  intros H. unfold ms, Rdiv. eapply rel_weaken; [apply (rel_mul _ _ _ _ 0 (2 * u52)); [now apply rel_Z|apply milli_rel|unfold u52; lra..|]|unfold u52; lra].
  destruct (Z.eq_dec m 0) as [->|N]; [left; lra|]. apply ample_num. assert (1 <= IZR m) by (apply IZR_le; lia).
  assert (IZR m <= 9007199254740992) by (apply IZR_le; lia). lra.
Qed.

(** ** The figures *)
Lemma window_facts ops s : plausible ops -> stats_run stats_new ops = Ok s ->
  let l := lastn 100 (samples_of ops) in st_samples s = l /\ st_count s = Z.of_nat (List.length l) /\ st_sum s = total l /\
  extremes (since_clear ops) (st_min s) (st_max s) /\ (List.length l <= 100)%nat /\ (forall z, In z l -> (0 <= z <= 2 ^ 46)%Z) /\
  (0 <= total l <= Z.of_nat (List.length l) * 2 ^ 46)%Z.
Proof.
  intros P R l. destruct (C72_window ops P) as (s' & R' & Hs & Hc & Ht & Hx). assert (s' = s) as -> by congruence. fold l in Hs. rewrite Hs in Hc, Ht.
  assert (Z : forall z, In z l -> (0 <= z <= 2 ^ 46)%Z).
  { intros z Hz. apply lastn_In in Hz. apply P. unfold samples_of in Hz. apply in_flat_map in Hz as ([m|] & Ho & Hm); [|destruct Hm].
    destruct Hm as [<-|[]]. exact Ho. }
  do 4 (split; [assumption|]). split; [unfold l; rewrite lastn_length; lia|]. split; [exact Z|]. now apply total_bound.
Qed.
Lemma average_rel ops s : plausible ops -> stats_run stats_new ops = Ok s -> let l := lastn 100 (samples_of ops) in
  (0 < total l)%Z -> rel (sn_time (snapshot_of s)) (average l) (20 * u52) /\ / 200000 <= average l <= 100000000000.
Proof.
  intros P R l Pl. destruct (window_facts ops s P R) as (Hs & Hc & Ht & _ & Len & _ & Tb). fold l in Hs, Hc, Ht, Len, Tb.
  assert (L1 : (1 <= List.length l)%nat) by (destruct l; [cbn in Pl; lia|cbn; lia]).
  cbn [snapshot_of sn_time]. rewrite Ht, Hc. unfold average, ms. rewrite INR_IZR_INZ. set (n := Z.of_nat (List.length l)) in *. set (t := total l) in *.
  assert (N : 1 <= IZR n <= 100) by (split; apply IZR_le; lia). assert (T1 : 1 <= IZR t) by (apply IZR_le; lia).
  assert (T2 : IZR t <= IZR n * 70368744177664) by (rewrite <- mult_IZR; apply IZR_le; lia).
  assert (Q : / 100 <= IZR t / IZR n <= 70368744177664).
  { split; apply Rmult_le_reg_r with (IZR n); try lra; unfold Rdiv; rewrite Rmult_assoc, Rinv_l, Rmult_1_r by lra; lra. }
  replace (IZR t / 1000 / IZR n) with (IZR t / IZR n * / 1000) by (field; lra). split; [|lra].
  assert (D : rel (fdiv (f_of_Z t) (f_of_Z n)) (IZR t / IZR n) (2 * u52)).
  { eapply rel_weaken; [apply (rel_div _ _ _ _ 0 0); try lra; try (apply rel_Z; lia)|lra]. apply ample_num. lra. }
  eapply rel_weaken; [apply (rel_mul _ _ _ _ (2 * u52) (2 * u52)); [exact D|apply milli_rel|unfold u52; lra..|]|unfold u52; lra].
  apply ample_num. lra.
Qed.
(** Frame time, frames per second, shortest and longest time. *)
Theorem C85_snapshot : forall ops s, plausible ops -> stats_run stats_new ops = Ok s ->
  let l := lastn 100 (samples_of ops) in (0 < total l)%Z ->
  figure (sn_time (snapshot_of s)) (average l) /\ figure (sn_fps (snapshot_of s)) (1000 / average l) /\
  (since_clear ops <> [] -> exists lo hi, In lo (since_clear ops) /\ In hi (since_clear ops) /\
     (forall m, In m (since_clear ops) -> (lo <= m <= hi)%Z) /\
     figure (sn_min (snapshot_of s)) (ms lo) /\ figure (sn_max (snapshot_of s)) (ms hi)).
Proof.
  intros ops s P R l Pl. destruct (average_rel ops s P R Pl) as [A B]. fold l in A, B. split; [apply rel_figure; eapply rel_weaken; [exact A|unfold u52; lra]|]. split.
  - apply rel_figure. change (sn_fps (snapshot_of s)) with (fdiv (f_of_Z 1000) (sn_time (snapshot_of s))).
    eapply rel_weaken; [apply (rel_div _ _ _ _ 0 (20 * u52)); [apply rel_Z; lia|exact A|lra|unfold u52; lra..|]|unfold u52; lra].
    apply ample_num. split; apply Rmult_le_reg_r with (average l); try lra; unfold Rdiv; rewrite Rmult_assoc, Rinv_l, Rmult_1_r by lra; lra.
  - intros Ne. destruct (window_facts ops s P R) as (_ & _ & _ & X & _). unfold extremes in X. destruct (since_clear ops) as [|m0 r0] eqn:Es; [congruence|].
    rewrite <- Es in *. destruct X as (X1 & X2 & X3). exists (st_min s), (st_max s). split; [exact X1|]. split; [exact X2|]. split; [exact X3|].
    assert (Z : forall m, In m (since_clear ops) -> (0 <= m <= 2 ^ 46)%Z) by (intros m Hm; apply P; now apply since_In).
    split; apply rel_figure; cbn [snapshot_of sn_min sn_max]; (eapply rel_weaken; [apply ms_rel|unfold u52; lra]);
      [apply Z in X1|apply Z in X2]; lia.
Qed.

(** ** The bars *)
Lemma usize_floor (x : f64) : fin x -> 0 <= B2R x <= bpow radix2 60 -> f_to_usize x = Zfloor (B2R x).
Proof.
  intros F [L U]. pose proof (Btrunc_correct 53 1024 ltac:(reflexivity) x) as B. rewrite round_FIX_IZR in B. apply eq_IZR in B.
  rewrite Ztrunc_floor in B by exact L. rewrite <- B.
  assert (T : (0 <= Btrunc x <= 2 ^ 60)%Z).
  { rewrite B. split; [now apply Zfloor_lub|]. apply le_IZR. apply Rle_trans with (1 := Zfloor_lb _). change (2 ^ 60)%Z with (radix2 ^ 60)%Z.
    rewrite (IZR_Zpower radix2) by lia. exact U. }
  unfold f_to_usize, usize_max. destruct x; try discriminate; lia.
Qed.
Lemma round_up_mult n : (1 <= n <= 2 ^ 52)%Z -> exists k, round_up n 5 = Ok (5 * k)%Z /\ (0 < k)%Z /\ (n <= 5 * k <= n + 4)%Z.
Proof.
  intros H. destruct (round_up_R n H) as (r & Hr & B). unfold round_up, u64_sub, u64_add in Hr.
  pose proof (Z.mod_pos_bound (n - 1) 5 ltac:(lia)) as M. pose proof (Z.mod_le (n - 1) 5 ltac:(lia) ltac:(lia)) as M2.
  pose proof (Z.div_mod (n - 1) 5 ltac:(lia)) as D.
  revert Hr. unfold round_up, u64_sub, u64_add.
  replace (1 <=? n)%Z with true by (symmetry; apply Z.leb_le; lia). cbn [bind].
  replace ((n - 1) mod 5 <=? n - 1)%Z with true by (symmetry; apply Z.leb_le; lia). cbn [bind].
  replace (n - 1 - (n - 1) mod 5 + 5 <=? u64_max)%Z with true by (symmetry; apply Z.leb_le; unfold u64_max; lia).
  intros [= <-]. exists ((n - 1) / 5 + 1)%Z. split; [f_equal; lia|]. lia.
Qed.
Lemma third_rel : rel (flit 133334 100000) (133334 / 100000) (2 * u52).
Proof.
  unfold flit. eapply rel_weaken; [apply (rel_div _ _ _ _ 0 0)|lra]; try lra; try (apply (rel_Z 133334); lia); try (apply (rel_Z 100000); lia). apply ample_num. lra.
Qed.
Lemma bar_approx dmax m : (0 <= m <= 2 ^ 46)%Z -> fin dmax -> / 2000 <= B2R dmax <= 100000000000 ->
  fin (bar_height dmax m) /\ Rabs (B2R (bar_height dmax m) - Rmin (ms m / B2R dmax) 1) <= / 1000000000.
Proof.
  intros Hm Fd [Ld Ud]. destruct (ms_rel m ltac:(lia)) as (Fx & Px & Ex). unfold bar_height. set (x := fmul (f_of_Z m) f_milli) in *.
  assert (N1 : is_nan x = false) by (destruct x; auto; discriminate). assert (N2 : is_nan dmax = false) by (destruct dmax; auto; discriminate).
  set (y := fmin x dmax). set (d := B2R dmax) in *.
  assert (Hy : fin y /\ B2R y = Rmin (B2R x) d).
  { unfold y, fmin. rewrite N1, N2. destruct (fltb dmax x) eqn:C.
    - apply fltb_lt in C; auto. split; [exact Fd|]. unfold d. rewrite Rmin_right; lra.
    - apply fltb_false in C; auto. split; [exact Fx|]. unfold d. rewrite Rmin_left; lra. }
  destruct Hy as [Fy Ry]. set (r := ms m) in *.
  assert (X : 0 <= B2R x) by (apply Rabs_le_inv in Ex; unfold u52 in *; lra).
  assert (Eq : Rabs (B2R y / d - Rmin (r / d) 1) <= 6 * u52).
  { assert (Q : Rmin (r / d) 1 = Rmin r d / d).
    { destruct (Rle_dec r d) as [H|H].
      - rewrite (Rmin_left r d) by exact H. apply Rmin_left. apply Rmult_le_reg_r with d; [lra|]. unfold Rdiv. rewrite Rmult_assoc, Rinv_l by lra. lra.
      - rewrite (Rmin_right r d) by lra. unfold Rdiv. rewrite Rinv_r by lra. apply Rmin_right. apply Rmult_le_reg_r with d; [lra|]. rewrite Rmult_assoc, Rinv_l by lra. lra. }
    rewrite Q, Ry. replace (Rmin (B2R x) d / d - Rmin r d / d) with ((Rmin (B2R x) d - Rmin r d) / d) by (field; lra).
    unfold Rdiv. rewrite Rabs_mult, (Rabs_pos_eq (/ d)) by (left; apply Rinv_0_lt_compat; lra). apply Rmult_le_reg_r with d; [lra|].
    rewrite Rmult_assoc, Rinv_l, Rmult_1_r by lra. apply Rabs_le_inv in Ex. unfold u52 in *.
    unfold Rmin. destruct (Rle_dec (B2R x) d), (Rle_dec r d); apply Rabs_le; lra. }
  assert (B01 : 0 <= B2R y / d <= 1).
  { rewrite Ry. split; apply Rmult_le_reg_r with d; try lra; unfold Rdiv; rewrite Rmult_assoc, Rinv_l, ?Rmult_1_r, ?Rmult_1_l by lra;
      [rewrite Rmult_0_l; apply Rmin_glb; lra|apply Rmin_r]. }
  destruct (fdiv_R y dmax Fy) as [E F]; [fold d; lra|fold d; rewrite Rabs_pos_eq by lra; pose proof big_range; lra|].
  split; [exact F|]. rewrite E. fold d. pose proof (rnd_error (B2R y / d)) as Er. rewrite (Rabs_pos_eq (B2R y / d)) in Er by lra.
  apply Rabs_le_inv in Eq, Er. apply Rabs_le. unfold u52 in *. lra.
Qed.
(** Every bar is as high as its frame's part of the scale, at most full. *)
Theorem C85_bars : forall ops s, plausible ops -> stats_run stats_new ops = Ok s ->
  let l := lastn 100 (samples_of ops) in 1 <= average l -> (exists m, In m (since_clear ops) /\ (0 < m)%Z) ->
  exists slowest scale hs, In slowest (since_clear ops) /\ (forall m, In m (since_clear ops) -> (m <= slowest)%Z) /\
    scale_of (average l) (ms slowest) scale /\ fin scale /\ 0 < B2R scale /\
    bar_heights s = Ok hs /\ List.length hs = List.length l /\
    forall i m h, nth_error l i = Some m -> nth_error hs i = Some h ->
      fin h /\ Rabs (B2R h - Rmin (ms m / B2R scale) 1) <= / 1000000000.
Proof.
  intros ops s P R l Al (m1 & I1 & P1). destruct (window_facts ops s P R) as (Hs & Hc & Ht & X & Len & In_l & Tb). fold l in Hs, Hc, Ht, Len, In_l, Tb.
  assert (Pl : (0 < total l)%Z).
  { destruct (Z_lt_le_dec 0 (total l)) as [H|H]; [exact H|]. exfalso. assert (Z0 : total l = 0%Z) by lia. unfold average, ms in Al. rewrite Z0 in Al.
    unfold Rdiv in Al. rewrite !Rmult_0_l in Al. lra. }
  destruct (average_rel ops s P R Pl) as [A Ab]. fold l in A, Ab.
  unfold extremes in X. destruct (since_clear ops) as [|m0 r0] eqn:Es; [destruct I1|]. rewrite <- Es in *. clear m0 r0 Es.
  destruct X as (_ & X2 & X3).
  assert (Z : forall m, In m (since_clear ops) -> (0 <= m <= 2 ^ 46)%Z) by (intros m Hm; apply P; now apply since_In).
  set (hi := st_max s) in *. assert (Hh : (1 <= hi <= 2 ^ 46)%Z) by (apply X3 in I1; apply Z in X2; lia).
  pose proof (ms_rel hi ltac:(lia)) as Mx. change (fmul (f_of_Z hi) f_milli) with (sn_max (snapshot_of s)) in Mx.
  set (slow := ms hi) in *. set (avg := average l) in *. set (T := sn_time (snapshot_of s)) in *. set (M := sn_max (snapshot_of s)) in *.
  assert (Sl : / 1000 <= slow <= 70368744178).
  { unfold slow, ms. assert (1 <= IZR hi) by (apply IZR_le; lia). assert (IZR hi <= 70368744177664) by (apply IZR_le; lia). lra. }
  assert (T3 : rel (fmul (f_of_Z 3) T) (3 * avg) (50 * u52)).
  { eapply rel_weaken; [apply (rel_mul _ _ _ _ 0 (20 * u52)); [apply (rel_Z 3); lia|exact A|unfold u52; lra..|]|unfold u52; lra]. apply ample_num. lra. }
  assert (Q : rel (fmul (flit 133334 100000) T) (133334 / 100000 * avg) (50 * u52)).
  { eapply rel_weaken; [apply (rel_mul _ _ _ _ (2 * u52) (20 * u52)); [apply third_rel|exact A|unfold u52; lra..|]|unfold u52; lra]. apply ample_num. lra. }
  assert (D : exists scale, display_max (snapshot_of s) = Ok scale /\ fin scale /\ / 2000 <= B2R scale <= 99000000000 /\ scale_of avg slow scale).
  { unfold display_max. fold T M. destruct T3 as (F3 & _ & E3). destruct Mx as (Fm & _ & Em). apply Rabs_le_inv in E3, Em.
    destruct (fltb (fmul (f_of_Z 3) T) M) eqn:C.
    - apply fltb_lt in C; auto. destruct Q as (Fq & _ & Eq). set (q := fmul (flit 133334 100000) T) in *. apply Rabs_le_inv in Eq.
      assert (Bq : 1 <= B2R q <= 98000000000).
      { assert (3 * avg - 50 * u52 * (3 * avg) < slow + 6 * u52 * slow) by lra. unfold u52 in *. lra. }
      assert (Un : f_to_usize q = Zfloor (B2R q)).
      { apply usize_floor; [exact Fq|]. split; [lra|]. apply Rle_trans with 98000000000; [lra|]. change (bpow radix2 60) with (IZR 1152921504606846976). lra. }
      rewrite Un. set (n := Zfloor (B2R q)). assert (Nl : IZR n <= B2R q) by apply Zfloor_lb. assert (Nu : B2R q < IZR n + 1) by apply Zfloor_ub.
      assert (Nb : (1 <= n <= 2 ^ 52)%Z).
      { split; [apply Zfloor_lub; apply Bq|]. apply le_IZR. apply Rle_trans with (1 := Nl). change (IZR (2 ^ 52)) with 4503599627370496. lra. }
      destruct (round_up_mult n Nb) as (k & Hk & Pk & Bk). rewrite Hk. cbn [bind]. exists (f_of_Z (5 * k)). split; [reflexivity|].
      assert (B1 : IZR n <= IZR (5 * k)) by (apply IZR_le; lia). assert (B2 : IZR (5 * k) <= IZR n + 4) by (rewrite <- (plus_IZR n 4); apply IZR_le; lia).
      destruct (f_of_Z_R (5 * k) ltac:(lia)) as [Rk Fk]. split; [exact Fk|]. rewrite Rk. assert (N1 : 1 <= IZR n) by (apply IZR_le; lia). split; [lra|]. split.
      + intros H. exfalso. unfold u52 in *. lra.
      + intros _. exists k. split; [exact Pk|]. split; [reflexivity|]. unfold u52 in *. lra.
    - apply fltb_false in C; auto. exists M. split; [reflexivity|]. split; [exact Fm|]. split; [unfold u52 in *; lra|]. split.
      + intros _. split; [exact Fm|]. apply Rabs_le. unfold u52 in *. lra.
      + intros H. exfalso. unfold u52 in *. lra. }
  destruct D as (scale & Ds & Fs & Bs & Sc). exists hi, scale, (map (bar_height scale) l). split; [exact X2|]. split; [intros m Hm; now apply X3|].
  split; [exact Sc|]. split; [exact Fs|]. split; [lra|]. split; [unfold bar_heights; rewrite Ds; cbn [bind]; now rewrite Hs|]. split; [apply map_length|].
  intros i m h Hm Hh'. rewrite (map_nth_error _ _ _ Hm) in Hh'. injection Hh' as <-. 
  apply bar_approx; auto; [apply In_l; eapply nth_error_In; eauto|lra].
Qed.

(** Sixteen milliseconds, five times, and one frame of a second. *)
Definition hiccup : list stats_op := [OpSample 16000; OpSample 16000; OpSample 16000; OpSample 16000; OpSample 1000000].
Example C85_applies : plausible hiccup /\ (exists s, stats_run stats_new hiccup = Ok s) /\
  let l := lastn 100 (samples_of hiccup) in average l = 1064 / 5 /\ 1 <= average l /\ 3 * average l * (1 + / 100000000000) <= ms 1000000 /\
  since_clear hiccup <> [] /\ (exists m, In m (since_clear hiccup) /\ (0 < m)%Z).
Proof.
  assert (P : plausible hiccup) by (intros m H; repeat destruct H as [E|H]; try (injection E as <-; lia); destruct H).
  split; [exact P|]. split; [destruct (C72_window _ P) as (s & R & _); eauto|].
  assert (A : average (lastn 100 (samples_of hiccup)) = 1064 / 5) by (unfold average, ms; cbn; lra).
  cbv zeta. rewrite A. unfold ms. repeat split; try lra; try discriminate. exists 16000%Z. split; [now left|lia].
Qed.
