(** C72, exactly: when the graph of the viewer's statistics crashes, and when
    its bars have no height. *)
From Coq Require Import ZArith Reals Bool List Arith Lia Lra.
From Flocq Require Import Core BinarySingleNaN.
From Verif Require Import F64 F64Facts Kurbo Value Animated ValueFacts ValueFacts2 Stats PropStats PropGeometry PropFigures.
Import ListNotations.
Open Scope list_scope.
Open Scope R_scope.

(** ** Specification *)
(** The last hundred frames took less than 75 ms / 100 each on average (to be
    exact, 100000 / 133334 of a millisecond). *)
Definition fast (l : list Z) : Prop := (133334 * total l < 100000000 * Z.of_nat (List.length l))%Z.
(** [m] is the slowest frame since the last reset. *)
Definition slowest (ops : list stats_op) (m : Z) : Prop :=
  In m (since_clear ops) /\ forall k, In k (since_clear ops) -> (k <= m)%Z.

Lemma time_rel ops s : plausible ops -> stats_run stats_new ops = Ok s -> let l := lastn 100 (samples_of ops) in
  (0 < List.length l)%nat -> rel (sn_time (snapshot_of s)) (average l) (20 * u52) /\ 0 <= average l <= 100000000000 /\
  (total l = 0%Z \/ / 200000 <= average l).
Proof.
  intros P R l L1. destruct (window_facts ops s P R) as (Hs & Hc & Ht & _ & Len & _ & Tb). fold l in Hs, Hc, Ht, Len, Tb.
  destruct (Z.eq_dec (total l) 0) as [Z0|Nz].
  - assert (A0 : average l = 0) by (unfold average, ms; rewrite Z0; unfold Rdiv; now rewrite !Rmult_0_l).
    rewrite A0. split; [|split; [lra|now left]]. cbn [snapshot_of sn_time]. rewrite Ht, Hc, Z0. set (n := Z.of_nat (List.length l)) in *.
    assert (N : 1 <= IZR n <= 100) by (split; apply IZR_le; lia).
    assert (D : rel (fdiv (f_of_Z 0) (f_of_Z n)) (IZR 0 / IZR n) (2 * u52)).
    { eapply rel_weaken; [apply (rel_div _ _ _ _ 0 0); try lra; try (apply rel_Z; lia)|lra]. left. unfold Rdiv. now rewrite Rmult_0_l. }
    replace 0 with (IZR 0 / IZR n * / 1000) at 1 by (unfold Rdiv; now rewrite !Rmult_0_l).
    eapply rel_weaken; [apply (rel_mul _ _ _ _ (2 * u52) (2 * u52)); [exact D|apply milli_rel|unfold u52; lra..|]|unfold u52; lra].
    left. unfold Rdiv. now rewrite !Rmult_0_l.
  - destruct (average_rel ops s P R ltac:(fold l; lia)) as [A B]. fold l in A, B. split; [exact A|]. split; [lra|right; lra].
Qed.
Lemma average_Z l : (0 < List.length l)%nat -> average l * (1000 * IZR (Z.of_nat (List.length l))) = IZR (total l).
Proof.
  intros L. unfold average, ms. rewrite INR_IZR_INZ. assert (1 <= IZR (Z.of_nat (List.length l))) by (apply IZR_le; lia). field. lra.
Qed.
(** The two comparisons of the code. *)
Lemma compared ops s : plausible ops -> stats_run stats_new ops = Ok s -> let l := lastn 100 (samples_of ops) in
  (0 < List.length l)%nat -> (0 <= st_max s <= 2 ^ 46)%Z ->
  let u := f_to_usize (fmul (flit 133334 100000) (sn_time (snapshot_of s))) in
  let b := fltb (fmul (f_of_Z 3) (sn_time (snapshot_of s))) (sn_max (snapshot_of s)) in
  (0 <= u <= 2 ^ 52)%Z /\ (u = 0%Z <-> fast l) /\
  (fast l -> (3 * total l < Z.of_nat (List.length l) * st_max s)%Z -> b = true) /\
  (b = true -> fast l -> (3 * total l <= Z.of_nat (List.length l) * st_max s)%Z).
Proof.
  intros P R l L1 Hm u b. destruct (time_rel ops s P R L1) as (A & Ab & Al). fold l in A, Ab, Al.
  destruct (window_facts ops s P R) as (_ & _ & _ & _ & Len & _ & Tb). fold l in Len, Tb.
  pose proof (average_Z l L1) as AZ. set (n := Z.of_nat (List.length l)) in *. set (avg := average l) in *. set (T := sn_time (snapshot_of s)) in *.
  assert (N : 1 <= IZR n <= 100) by (split; apply IZR_le; lia).
  assert (Ample : forall k, 1 <= k <= 3 -> ample (k * avg)).
  { intros k Hk. destruct Al as [Z0|Al].
    - left. assert (avg = 0) by (unfold avg, average, ms; rewrite Z0; unfold Rdiv; now rewrite !Rmult_0_l). rewrite H. ring.
    - apply ample_num. split; [nra|]. nra. }
  assert (T3 : rel (fmul (f_of_Z 3) T) (3 * avg) (50 * u52)).
  { eapply rel_weaken; [apply (rel_mul _ _ _ _ 0 (20 * u52)); [apply (rel_Z 3); lia|exact A|unfold u52; lra..|]|unfold u52; lra]. apply Ample. lra. }
  assert (Q : rel (fmul (flit 133334 100000) T) (133334 / 100000 * avg) (50 * u52)).
  { eapply rel_weaken; [apply (rel_mul _ _ _ _ (2 * u52) (20 * u52)); [apply third_rel|exact A|unfold u52; lra..|]|unfold u52; lra]. apply Ample. lra. }
  destruct Q as (Fq & _ & Eq). fold T in u, b. set (q := fmul (flit 133334 100000) T) in *. apply Rabs_le_inv in Eq.
  assert (Bq : -1 < B2R q <= 200000000000) by (unfold u52 in *; lra).
  assert (Bq0 : 0 <= B2R q).
  { destruct (Rle_lt_dec 0 (B2R q)) as [H|H]; [exact H|]. exfalso. assert (133334 / 100000 * avg <= 0); [|assert (avg = 0) by lra; rewrite H1 in *; lra].
    destruct (Rle_lt_dec avg 0) as [W|W]; [lra|]. exfalso. unfold u52 in *. lra. }
  assert (Un : u = Zfloor (B2R q)).
  { apply usize_floor; [exact Fq|]. split; [exact Bq0|]. apply Rle_trans with (1 := proj2 Bq). change (bpow radix2 60) with (IZR 1152921504606846976). lra. }
  assert (U0 : (0 <= u)%Z) by (rewrite Un; now apply Zfloor_lub).
  assert (U1 : (u <= 2 ^ 52)%Z).
  { rewrite Un. apply le_IZR. apply Rle_trans with (1 := Zfloor_lb _). apply Rle_trans with (1 := proj2 Bq). change (2 ^ 52)%Z with 4503599627370496%Z. lra. }
  (* the gap between integers is wider than the rounding errors *)
  assert (Fa : fast l <-> B2R q < 1).
  { assert (Int : (133334 * total l < 100000000 * n)%Z \/ (133334 * total l >= 100000000 * n + 1)%Z).
    { destruct (Z.eq_dec (133334 * total l) (100000000 * n)) as [E|E]; [|lia]. exfalso.
      assert (D : (66667 | 50000000 * n)%Z) by (exists (total l); lia).
      apply Z.gauss in D; [|reflexivity]. apply Z.divide_pos_le in D; lia. }
    assert (Eqz : 133334 / 100000 * avg * (100000000 * IZR n) = IZR (133334 * total l)) by (rewrite mult_IZR, <- AZ; field).
    unfold fast. fold n. split.
    - intros F. assert (F' : IZR (133334 * total l) <= 100000000 * IZR n - 1) by (rewrite <- mult_IZR, <- minus_IZR; apply IZR_le; lia).
      rewrite <- Eqz in F'. set (w := 133334 / 100000 * avg) in *.
      assert (w <= 1 - / 10000000000). { apply Rmult_le_reg_r with (100000000 * IZR n); [lra|]. lra. }
      unfold u52 in *. lra.
    - intros F. destruct Int as [I|I]; [exact I|]. exfalso. assert (F' : 100000000 * IZR n + 1 <= IZR (133334 * total l)) by (rewrite <- mult_IZR, <- plus_IZR; apply IZR_le; lia).
      rewrite <- Eqz in F'. set (w := 133334 / 100000 * avg) in *.
      assert (1 + / 10000000000 <= w). { apply Rmult_le_reg_r with (100000000 * IZR n); [lra|]. lra. }
      assert (w <= 200000000000) by (unfold w; lra).
      destruct (Rle_lt_dec w 2) as [W|W]; unfold u52 in *; lra. }
  assert (Mx := ms_rel (st_max s) ltac:(lia)). change (fmul (f_of_Z (st_max s)) f_milli) with (sn_max (snapshot_of s)) in Mx.
  destruct T3 as (F3 & _ & E3). destruct Mx as (Fm & _ & Em). apply Rabs_le_inv in E3, Em.
  split; [lia|]. split; [|split].
  - rewrite Fa, Un. split.
    + intros Z0. pose proof (Zfloor_ub (B2R q)) as X. rewrite Z0 in X. lra.
    + intros L. apply Zfloor_imp. change (0 + 1)%Z with 1%Z. lra.
  - intros F L. unfold b. apply fltb_lt; auto. unfold ms in Em.
    assert (G : 3 * avg * (1000 * IZR n) + 1 <= IZR n * IZR (st_max s)).
    { rewrite Rmult_assoc, AZ, <- !mult_IZR, <- plus_IZR. apply IZR_le. lia. }
    apply Fa in F. assert (Av : avg <= 1) by (unfold u52 in *; lra).
    assert (G' : 3 * avg + / 100000 <= IZR (st_max s) / 1000).
    { apply Rmult_le_reg_r with (1000 * IZR n); [lra|]. replace (IZR (st_max s) / 1000 * (1000 * IZR n)) with (IZR n * IZR (st_max s)) by field. lra. }
    assert (IZR (st_max s) <= 70368744177664) by (apply IZR_le; lia). set (w := IZR (st_max s) / 1000) in *.
    destruct (Rle_lt_dec w 10) as [W|W]; unfold u52 in *; lra.
  - intros C F. apply fltb_lt in C; auto. apply Fa in F. assert (Av : avg <= 1) by (unfold u52 in *; lra).
    destruct (Z_le_gt_dec (3 * total l) (n * st_max s)) as [G|G]; [exact G|]. exfalso. unfold ms in Em.
    assert (G1 : IZR n * IZR (st_max s) + 1 <= 3 * avg * (1000 * IZR n)).
    { rewrite Rmult_assoc, AZ, <- !mult_IZR, <- plus_IZR. apply IZR_le. lia. }
    assert (G' : IZR (st_max s) / 1000 + / 100000 <= 3 * avg).
    { apply Rmult_le_reg_r with (1000 * IZR n); [lra|]. replace ((IZR (st_max s) / 1000 + / 100000) * (1000 * IZR n)) with (IZR n * IZR (st_max s) + / 100 * IZR n) by field. lra. }
    unfold u52 in *. lra.
Qed.

(** Drawing the graph crashes if and only if the last hundred frames were fast
    and some frame since the last reset took more than three times as long as
    they did on average - except that when one took exactly three times as
    long, rounding decides. *)
Theorem C72_crash : forall ops s, plausible ops -> stats_run stats_new ops = Ok s ->
  let l := lastn 100 (samples_of ops) in let n := Z.of_nat (List.length l) in
  (forall m, slowest ops m -> fast l -> (3 * total l < n * m)%Z -> bar_heights s = Panic) /\
  (bar_heights s = Panic -> exists m, slowest ops m /\ fast l /\ (3 * total l <= n * m)%Z).
Proof.
  intros ops s P R l n. destruct (window_facts ops s P R) as (Hs & Hc & Ht & X & Len & In_l & Tb). fold l in Hs, Hc, Ht, Len, In_l, Tb.
  assert (Zs : forall m, In m (since_clear ops) -> (0 <= m <= 2 ^ 46)%Z) by (intros m Hm; apply P; now apply since_In).
  assert (Pos : since_clear ops <> [] -> (0 < List.length l)%nat).
  { intros Ne. unfold l. rewrite lastn_length. destruct (since_clear ops) as [|m0 r0] eqn:Es; [congruence|].
    assert (I0 : In m0 (since_clear ops)) by (rewrite Es; now left). apply since_In in I0. destruct (samples_of ops) eqn:Eo; [|cbn; lia]. exfalso.
    assert (Y : In m0 (samples_of ops)) by (apply in_flat_map; exists (OpSample m0); split; [exact I0|now left]). now rewrite Eo in Y. }
  assert (Max : since_clear ops <> [] -> slowest ops (st_max s)).
  { intros Ne. unfold extremes in X. destruct (since_clear ops) as [|m0 r0] eqn:Es; [congruence|]. rewrite <- Es in *. destruct X as (_ & X2 & X3).
    split; [exact X2|]. intros k Hk. now apply X3. }
  assert (Pan : bar_heights s = Panic <-> display_max (snapshot_of s) = Panic).
  { unfold bar_heights. destruct (display_max (snapshot_of s)); cbn [bind]; split; congruence. }
  assert (Dm : forall u, (0 <= u <= 2 ^ 52)%Z -> (let! k := round_up u 5 in Ok (f_of_Z k)) = Panic <-> u = 0%Z).
  { intros u Hu. split; [|intros ->; reflexivity]. intros H. destruct (Z.eq_dec u 0) as [E|E]; [exact E|]. exfalso.
    destruct (round_up_R u ltac:(lia)) as (k & Ek & _). rewrite Ek in H. discriminate. }
  split.
  - intros m Sm F L. assert (Ne : since_clear ops <> []) by (destruct Sm as [Im _]; destruct (since_clear ops); [destruct Im|discriminate]).
    assert (m = st_max s) as ->. { destruct (Max Ne) as [M1 M2], Sm as [S1 S2]. specialize (M2 _ S1). specialize (S2 _ M1). lia. }
    destruct (compared ops s P R (Pos Ne) (Zs _ (proj1 (Max Ne)))) as (Bu & Fu & C1 & _). fold l in Fu, C1. fold n in C1.
    apply Pan. unfold display_max. rewrite (C1 F L). apply Dm; auto. now apply Fu.
  - intros H. apply Pan in H. unfold display_max in H.
    destruct (fltb (fmul (f_of_Z 3) (sn_time (snapshot_of s))) (sn_max (snapshot_of s))) eqn:C; [|discriminate].
    assert (Ne : since_clear ops <> []).
    { intros Es. rewrite Es in X. cbn [extremes] in X. destruct X as [_ X0]. cbn [snapshot_of sn_max] in C. rewrite X0 in C.
      destruct (Nat.eq_dec (List.length l) 0) as [L0|L0].
      - cbn [sn_time snapshot_of] in C. rewrite Ht, Hc, L0 in C. assert (l = []) by (destruct l; [reflexivity|discriminate]). rewrite H0 in C. vm_compute in C. discriminate.
      - destruct (time_rel ops s P R ltac:(fold l; lia)) as ((Ft & _ & Et) & Ab & _). fold l in Et, Ab.
        assert (R0 : B2R (fmul (f_of_Z 0) f_milli) = 0 /\ fin (fmul (f_of_Z 0) f_milli)).
        { destruct (ms_rel 0 ltac:(lia)) as (F0 & _ & E0). unfold ms in E0. apply Rabs_le_inv in E0. split; [lra|exact F0]. }
        set (T := sn_time (snapshot_of s)) in *.
        assert (T0 : 0 <= B2R T <= 200000000000) by (apply Rabs_le_inv in Et; unfold u52 in *; lra).
        destruct (f_of_Z_R 3 ltac:(lia)) as [R3 F3]. destruct (fmul_R (f_of_Z 3) T F3 Ft) as [E F].
        { rewrite R3, Rabs_pos_eq by lra. apply Rle_trans with (bpow radix2 60); [change (bpow radix2 60) with (IZR 1152921504606846976); lra|apply bpow_le; lia]. }
        apply fltb_lt in C; [|exact F|apply R0]. rewrite E, (proj1 R0), R3 in C. pose proof (rnd_nonneg (3 * B2R T) ltac:(lra)). lra. }
    destruct (compared ops s P R (Pos Ne) (Zs _ (proj1 (Max Ne)))) as (Bu & Fu & _ & C2). fold l in Fu, C2. fold n in C2.
    apply Dm in H; [|exact Bu]. exists (st_max s). split; [now apply Max|]. split; [now apply Fu|]. apply C2; auto. now apply Fu.
Qed.
(** Without a crash there is a bar for every frame; all have a height between
    none and all of the graph if a frame since the last reset took any time,
    and none has a height otherwise. *)
Theorem C72_heights : forall ops s, plausible ops -> stats_run stats_new ops = Ok s -> bar_heights s <> Panic ->
  exists hs, bar_heights s = Ok hs /\ List.length hs = List.length (lastn 100 (samples_of ops)) /\
    ((exists m, In m (since_clear ops) /\ (0 < m)%Z) -> forall h, In h hs -> is_finite h = true /\ 0 <= B2R h <= 1) /\
    (~ (exists m, In m (since_clear ops) /\ (0 < m)%Z) -> forall h, In h hs -> is_nan h = true).
Proof.
  intros ops s P R Np. destruct (window_facts ops s P R) as (Hs & Hc & Ht & X & Len & In_l & Tb). set (l := lastn 100 (samples_of ops)) in *.
  assert (Zs : forall m, In m (since_clear ops) -> (0 <= m <= 2 ^ 46)%Z) by (intros m Hm; apply P; now apply since_In).
  assert (Mx : (0 <= st_max s <= 2 ^ 46)%Z /\ ((exists m, In m (since_clear ops) /\ (0 < m)%Z) <-> (0 < st_max s)%Z)).
  { unfold extremes in X. destruct (since_clear ops) as [|m0 r0] eqn:Es.
    - destruct X as [_ ->]. split; [lia|]. split; [intros (m & [] & _)|lia].
    - rewrite <- Es in *. destruct X as (_ & X2 & X3). split; [now apply Zs|]. split; [intros (m & Hm & Pm); apply X3 in Hm; lia|intros H; eauto]. }
  destruct Mx as [Bm Pm]. unfold bar_heights in *. destruct (display_max (snapshot_of s)) as [d| |] eqn:Ed; cbn [bind] in *; [|congruence|].
  2: { exfalso. unfold display_max in Ed. destruct (fltb _ _); [|discriminate]. unfold round_up, u64_sub, u64_add in Ed.
       repeat match type of Ed with context [if ?b then _ else _] => destruct b; cbn [bind] in Ed end; discriminate. }
  eexists. split; [reflexivity|]. rewrite map_length, Hs. split; [reflexivity|].
  destruct (micros_R (st_max s) ltac:(lia)) as (F & Bx & Pp). change (fmul (f_of_Z (st_max s)) f_milli) with (sn_max (snapshot_of s)) in *.
  split; intros Hp h Hin; apply in_map_iff in Hin as (z & <- & Hz); pose proof (In_l z Hz) as Bz.
  - assert (L1 : (0 < List.length l)%nat) by (destruct l; [destruct Hz|cbn; lia]). apply Pm in Hp.
    apply bar_unit; [lia| |]; unfold display_max in Ed; destruct (fltb _ _).
    + destruct (compared ops s P R L1 Bm) as (Bu & _). set (u := f_to_usize _) in *. destruct (Z.eq_dec u 0) as [E|E]; [rewrite E in Ed; discriminate|].
      destruct (round_up_R u ltac:(lia)) as (k & Ek & Hk). rewrite Ek in Ed. injection Ed as <-. apply f_of_Z_R. lia.
    + injection Ed as <-. exact F.
    + destruct (compared ops s P R L1 Bm) as (Bu & _). set (u := f_to_usize _) in *. destruct (Z.eq_dec u 0) as [E|E]; [rewrite E in Ed; discriminate|].
      destruct (round_up_R u ltac:(lia)) as (k & Ek & Hk). rewrite Ek in Ed. injection Ed as <-. rewrite (proj1 (f_of_Z_R k ltac:(lia))). apply IZR_lt. lia.
    + injection Ed as <-. apply Pp. lia.
  - assert (M0 : st_max s = 0%Z) by (destruct (Z.eq_dec (st_max s) 0); [assumption|exfalso; apply Hp, Pm; lia]).
    assert (L1 : (0 < List.length l)%nat) by (destruct l; [destruct Hz|cbn; lia]).
    assert (Z0 : sn_max (snapshot_of s) = f0) by (cbn [snapshot_of sn_max]; rewrite M0; vm_compute; reflexivity).
    assert (D0 : d = f0).
    { unfold display_max in Ed. destruct (fltb _ _) eqn:C; [|injection Ed as <-; exact Z0]. exfalso.
      destruct (time_rel ops s P R L1) as ((Ft & _ & Et) & Ab & _). fold l in Et, Ab. rewrite Z0 in C. set (T := sn_time (snapshot_of s)) in *.
      assert (T0 : 0 <= B2R T <= 200000000000) by (apply Rabs_le_inv in Et; unfold u52 in *; lra).
      destruct (f_of_Z_R 3 ltac:(lia)) as [R3 F3]. destruct (fmul_R (f_of_Z 3) T F3 Ft) as [E F'].
      { rewrite R3, Rabs_pos_eq by lra. apply Rle_trans with (bpow radix2 60); [change (bpow radix2 60) with (IZR 1152921504606846976); lra|apply bpow_le; lia]. }
      apply fltb_lt in C; [|exact F'|reflexivity]. rewrite E, f0_R, R3 in C. pose proof (rnd_nonneg (3 * B2R T) ltac:(lra)). lra. }
    rewrite D0. unfold bar_height. destruct (micros_R z ltac:(lia)) as (Fz & Bzr & _). set (x := fmul (f_of_Z z) f_milli) in *. unfold fmin.
    replace (is_nan x) with false by (destruct x; try discriminate; reflexivity). cbn [is_nan f0]. change (is_nan f0) with false. cbv iota.
    destruct (fltb f0 x) eqn:C; [reflexivity|]. apply fltb_false in C; [|reflexivity|exact Fz]. rewrite f0_R in C.
    destruct x as [sx| | |sx m e B]; try discriminate Fz; [destruct sx; reflexivity|]. exfalso.
    assert (Nz : B2R (B754_finite sx m e B) <> 0); [|lra]. cbn [B2R]. destruct sx; [apply Rlt_not_eq, F2R_lt_0|apply not_eq_sym, Rlt_not_eq, F2R_gt_0]; reflexivity.
Qed.
Example C72_crash_applies : plausible fast_frames /\ slowest fast_frames 10000 /\ fast (lastn 100 (samples_of fast_frames)) /\
  (3 * total (lastn 100 (samples_of fast_frames)) < Z.of_nat (List.length (lastn 100 (samples_of fast_frames))) * 10000)%Z.
Proof.
  split; [intros m Hin; apply in_app_or in Hin as [Hin|[E|[]]]; [apply repeat_spec in Hin|]; [injection Hin as ->|injection E as <-]; lia|].
  split; [split; [vm_compute; tauto|]|split; vm_compute; reflexivity].
  intros k Hk. apply since_In in Hk. apply in_app_or in Hk as [Hin|[E|[]]]; [apply repeat_spec in Hin; injection Hin as ->|injection E as <-]; lia.
Qed.
