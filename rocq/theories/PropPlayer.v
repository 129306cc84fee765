(** C71: the frame shown by the example player. *)
From Coq Require Import ZArith Reals Bool List Arith String Lia Lra.
From Flocq Require Import Core BinarySingleNaN.
From Verif Require Import F64 F64Facts Kurbo Value Animated ValueSpec ValueFacts ValueFacts2 TrimFacts Batch Render RenderSpec RenderFacts Examples Player.
Import ListNotations.
Open Scope list_scope.
Open Scope R_scope.

(** [%] is exact: it takes away a whole number of periods. *)
Lemma frem_exact x y : fin x -> fin y -> 0 <= B2R x -> 0 < B2R y ->
  fin (frem x y) /\ 0 <= B2R (frem x y) < B2R y /\
  exists k, (0 <= k)%Z /\ B2R (frem x y) = B2R x - IZR k * B2R y.
Proof.
  intros Fx Fy Px Py. destruct x as [s|s| |s m1 e1 H1]; try discriminate;
    destruct y as [s2|s2| |s2 m2 e2 H2]; try discriminate; try (simpl in Py; lra).
  - split; [reflexivity|]. split; [simpl; simpl in Py; lra|]. exists 0%Z. split; [lia|]. cbn [frem B2R]. lra.
  - assert (s = false) as ->. { destruct s; [|reflexivity]. exfalso. cbn [B2R cond_Zopp] in Px. pose proof (F2R_lt_0 radix2 (Float radix2 (Z.neg m1) e1) ltac:(cbn; lia)). cbn in *; lra. }
    assert (s2 = false) as ->. { destruct s2; [|reflexivity]. exfalso. cbn [B2R cond_Zopp] in Py. pose proof (F2R_lt_0 radix2 (Float radix2 (Z.neg m2) e2) ltac:(cbn; lia)). cbn in *; lra. }
    unfold frem. set (e := Z.min e1 e2). set (a := (Zpos m1 * 2 ^ (e1 - e))%Z). set (b := (Zpos m2 * 2 ^ (e2 - e))%Z).
    assert (Hb : (0 < b)%Z) by (unfold b; apply Z.mul_pos_pos; [lia|apply Z.pow_pos_nonneg; lia]).
    assert (Ha : (0 <= a)%Z) by (unfold a; apply Z.mul_nonneg_nonneg; [lia|apply Z.pow_nonneg; lia]).
    pose proof (Z.rem_bound_pos a b Ha Hb) as Hr. pose proof (Z.quot_rem a b ltac:(lia)) as Hq.
    pose proof (Z.quot_pos a b Ha Hb) as Hk. cbn [cond_Zopp].
    assert (Ra : (Z.rem a b <= a)%Z) by (apply Z.rem_le; lia).
    set (r := Z.rem a b) in *.
    assert (Ex : B2R (B754_finite false m1 e1 H1) = IZR a * bpow radix2 e).
    { cbn [B2R cond_Zopp]. unfold F2R; cbn [Fnum Fexp]. unfold a. rewrite mult_IZR. change (2 ^ (e1 - e))%Z with (radix2 ^ (e1 - e))%Z.
      rewrite (IZR_Zpower radix2) by lia. rewrite Rmult_assoc, <- bpow_plus. do 2 f_equal. lia. }
    assert (Ey : B2R (B754_finite false m2 e2 H2) = IZR b * bpow radix2 e).
    { cbn [B2R cond_Zopp]. unfold F2R; cbn [Fnum Fexp]. unfold b. rewrite mult_IZR. change (2 ^ (e2 - e))%Z with (radix2 ^ (e2 - e))%Z.
      rewrite (IZR_Zpower radix2) by lia. rewrite Rmult_assoc, <- bpow_plus. do 2 f_equal. lia. }
    assert (Bd : forall m ex (H : SpecFloat.bounded 53 1024 m ex = true), (Zpos m < 2 ^ 53)%Z /\ (-1074 <= ex <= 971)%Z).
    { intros m ex H. unfold SpecFloat.bounded in H. apply andb_true_iff in H as [H H'].
      unfold SpecFloat.canonical_mantissa in H. apply Zeq_bool_eq in H. apply Z.leb_le in H'.
      unfold SpecFloat.fexp, SpecFloat.emin in H.
      assert (L : (Z.pos (SpecFloat.digits2_pos m) <= 53)%Z) by lia.
      split; [|lia]. rewrite Digits.Zpos_digits2_pos in L. pose proof (Digits.Zpower_gt_Zdigits radix2 53 (Zpos m) L) as G. exact G. }
    destruct (Bd m1 e1 H1) as [B1 B1'], (Bd m2 e2 H2) as [B2 B2'].
    assert (Rr : (0 <= r < 2 ^ 53)%Z).
    { split; [lia|]. destruct (Z.le_ge_cases e1 e2) as [L|L].
      - assert (a = Zpos m1) by (unfold a; replace (e1 - e)%Z with 0%Z by lia; lia). lia.
      - assert (b = Zpos m2) by (unfold b; replace (e2 - e)%Z with 0%Z by lia; lia). lia. }
    pose proof (binary_normalize_correct 53 1024 _ _ mode_NE r e false) as P. cbv zeta in P.
    rewrite round_generic in P; [|typeclasses eauto|].
    2:{ apply generic_format_FLT. exists (Float radix2 r e); [reflexivity|cbn [Fnum]; change (radix2 ^ 53)%Z with (2 ^ 53)%Z; lia|cbn [Fexp]; unfold SpecFloat.emin; lia]. }
    assert (V : F2R (Float radix2 r e) = IZR r * bpow radix2 e) by reflexivity.
    pose proof (bpow_gt_0 radix2 e) as Pe.
    assert (Rb : 0 <= IZR r < IZR b) by (split; [apply IZR_le; lia|apply IZR_lt; lia]).
    rewrite Rlt_bool_true in P.
    2:{ rewrite V, Rabs_pos_eq by (apply Rmult_le_pos; lra). apply Rlt_trans with (IZR b * bpow radix2 e); [apply Rmult_lt_compat_r; lra|].
        rewrite <- Ey. eapply Rle_lt_trans; [apply Rle_abs|apply abs_B2R_lt_emax]. }
    destruct P as (P1 & P2 & _). split; [exact P2|]. rewrite P1, V, Ey. split; [split; [apply Rmult_le_pos; lra|apply Rmult_lt_compat_r; lra]|].
    exists (Z.quot a b). split; [exact Hk|]. rewrite Ex.
    replace (IZR a) with (IZR (b * Z.quot a b + r)) by (f_equal; lia). rewrite plus_IZR, mult_IZR. ring.
Qed.

(** ** C71 *)
(** A clock: a time that is not negative, a rate that is not negative, and a
    range that is not empty, all of moderate size. *)
Record clock (c : composition) (elapsed : f64) : Prop := {
  ck_time : mag_le elapsed 500 /\ 0 <= B2R elapsed;
  ck_rate : mag_le (co_frame_rate c) 500 /\ 0 <= B2R (co_frame_rate c);
  ck_range : mag_le (co_in c) 1000 /\ mag_le (co_out c) 1000 /\ B2R (co_in c) < B2R (co_out c) }.
Lemma player_split c elapsed : clock c elapsed ->
  let period := rnd (B2R (co_out c) - B2R (co_in c)) in
  exists (r : f64) k, (0 <= k)%Z /\ B2R r = rnd (B2R elapsed * B2R (co_frame_rate c)) - IZR k * period /\
    0 <= B2R r < period /\ B2R r + B2R (co_in c) <= B2R (co_out c) /\
    B2R (playback_frame c elapsed) = rnd (B2R r + B2R (co_in c)) /\ fin (playback_frame c elapsed).
Proof.
  intros [[[Ft Mt] Pt] [[Fr Mr] Pr] [[Fi Mi] [[Fo Mo] L]]] period.
  assert (B1 : Rabs (B2R elapsed * B2R (co_frame_rate c)) <= bpow radix2 1000).
  { rewrite Rabs_mult. replace 1000%Z with (500 + 500)%Z by lia. rewrite bpow_plus. apply Rmult_le_compat; auto; apply Rabs_pos. }
  destruct (fmul_R elapsed (co_frame_rate c) Ft Fr) as [Em Fm].
  { eapply Rle_trans; [exact B1|apply bpow_le; lia]. }
  assert (B2 : Rabs (B2R (co_out c) - B2R (co_in c)) <= bpow radix2 1001).
  { replace 1001%Z with (1000 + 1)%Z by lia. rewrite bpow_S. unfold Rminus. eapply Rle_trans; [apply Rabs_triang|]. rewrite Rabs_Ropp. lra. }
  destruct (fsub_R (co_out c) (co_in c) Fo Fi) as [Es Fs].
  { eapply Rle_trans; [exact B2|apply bpow_le; lia]. }
  fold period in Es. assert (Pp : 0 < period) by now apply rnd_sub_pos.
  destruct (frem_exact _ _ Fm Fs) as (Ff & Rf & k & Hk & Ek).
  { rewrite Em. apply rnd_nonneg. now apply Rmult_le_pos. }
  { now rewrite Es. }
  exists (frem (fmul elapsed (co_frame_rate c)) (fsub (co_out c) (co_in c))), k.
  set (r := frem (fmul elapsed (co_frame_rate c)) (fsub (co_out c) (co_in c))) in *.
  rewrite Em, Es in Ek. rewrite Es in Rf.
  assert (Rle : B2R r + B2R (co_in c) <= B2R (co_out c)).
  { destruct (Rle_or_lt (B2R r) (B2R (co_out c) - B2R (co_in c))) as [X|X]; [lra|]. exfalso.
    apply Rlt_le, rnd_le in X. rewrite rnd_f64 in X. fold period in X. lra. }
  destruct (fadd_R r (co_in c) Ff Fi) as [Ea Fa].
  { apply Rle_trans with (bpow radix2 1000); [|apply bpow_le; lia]. apply Rabs_le.
    apply Rabs_le_inv in Mi, Mo. lra. }
  auto 10.
Qed.
(** The frame is what is left of the elapsed frames after whole rounds through
    the range, counted from its start; it never leaves the closed range. *)
Theorem C71_loops : forall c elapsed, clock c elapsed ->
  let period := rnd (B2R (co_out c) - B2R (co_in c)) in
  let frame := playback_frame c elapsed in
  (exists k, (0 <= k)%Z /\ 0 <= rnd (B2R elapsed * B2R (co_frame_rate c)) - IZR k * period < period /\
     B2R frame = rnd (rnd (B2R elapsed * B2R (co_frame_rate c)) - IZR k * period + B2R (co_in c))) /\
  is_finite frame = true /\ B2R (co_in c) <= B2R frame <= B2R (co_out c).
Proof.
  intros c elapsed K period frame. destruct (player_split c elapsed K) as (r & k & Hk & Er & Rr & Le & Ef & Ff).
  fold period in Er, Rr. split; [|split; [exact Ff|]].
  - exists k. rewrite <- Er. auto.
  - unfold frame. rewrite Ef. split; [apply rnd_ge_f; lra|now apply rnd_le_f].
Qed.
(** A range that starts at 0 is never left: the frame is before its end.
    Missing: other ranges, see [C71_refuted]. *)
Theorem C71_from_zero_partial : forall c elapsed, clock c elapsed -> B2R (co_in c) = 0 ->
  B2R (co_in c) <= B2R (playback_frame c elapsed) < B2R (co_out c).
Proof.
  intros c elapsed K Z. destruct (player_split c elapsed K) as (r & k & Hk & Er & Rr & Le & Ef & Ff).
  rewrite Ef, Z, Rplus_0_r, rnd_f64. rewrite Z, Rminus_0_r, rnd_f64 in Rr. exact Rr.
Qed.
(** Full claim: the frame is before the end.  It is false: 25 frames per second,
    frames 10 to 39, after 1.16 seconds; nothing is drawn then, although the
    layer is there during all of the range. *)
Open Scope nat_scope.
Definition short_clip : composition :=
  mkComp (f_of_Z 10) (f_of_Z 39) (f_of_Z 25) 100 50 []
    [mkLayer "l" None transform_default (VFixed f100) f0 f0 None (f_of_Z 10) (f_of_Z 39) f1 f0 [] false None (CShape [geo 1; fill])].
Theorem C71_refuted : exists c elapsed, clock c elapsed /\ elapsed = secs_f64 1 160000000 /\
  feqb (playback_frame c elapsed) (co_out c) = true /\
  Forall (fun ly => feqb (ly_in ly) (co_in c) = true /\ feqb (ly_out ly) (co_out c) = true) (co_layers c) /\
  append_draws E0 c (playback_frame c elapsed) affine_identity f1 renderer_new
    [EvPushClip affine_identity (full_rect c); EvPop] /\
  exists p, append_draws E0 c (co_in c) affine_identity f1 renderer_new
    [EvPushClip affine_identity (full_rect c); EvBegin "l" 0; EvDraw p; EvEnd; EvPop].
Proof.
  exists short_clip, (secs_f64 1 160000000). split; [|split; [reflexivity|split; [vm_compute; reflexivity|split; [|split]]]].
  - assert (Hb : forall k, (4 <= k)%Z -> (16 <= bpow radix2 k)%R).
    { intros k H. apply Rle_trans with (bpow radix2 4); [cbn; lra|apply bpow_le; lia]. }
    assert (Z64 : (64 <= bpow radix2 500)%R) by (apply Rle_trans with (bpow radix2 6); [cbn; lra|apply bpow_le; lia]).
    assert (Z64' : (64 <= bpow radix2 1000)%R) by (apply Rle_trans with (bpow radix2 6); [cbn; lra|apply bpow_le; lia]).
    assert (El : fin (secs_f64 1 160000000) /\ (0 <= B2R (secs_f64 1 160000000) <= 2)%R).
    { assert (A : fin (secs_f64 1 160000000)) by (vm_compute; reflexivity). split; [exact A|].
      assert (X : fleb f0 (secs_f64 1 160000000) = true) by (vm_compute; reflexivity).
      assert (Y : fleb (secs_f64 1 160000000) (f_of_Z 2) = true) by (vm_compute; reflexivity).
      apply fleb_le in X; auto. apply fleb_le in Y; auto. rewrite f0_R in X. rewrite (proj1 (f_of_Z_R 2 ltac:(lia))) in Y. lra. }
    destruct El as [F1 R1]. destruct (f_of_Z_R 25 ltac:(lia)) as [R25 F25], (f_of_Z_R 10 ltac:(lia)) as [R10 F10], (f_of_Z_R 39 ltac:(lia)) as [R39 F39].
    split; cbn [short_clip co_in co_out co_frame_rate]; unfold mag_le; rewrite ?R25, ?R10, ?R39.
    + split; [split; [exact F1|]|]; [rewrite Rabs_pos_eq|]; lra.
    + split; [split; [exact F25|]|]; [rewrite Rabs_pos_eq|]; lra.
    + split; [split; [exact F10|rewrite Rabs_pos_eq; lra]|]. split; [split; [exact F39|rewrite Rabs_pos_eq; lra]|lra].
  - constructor; [|constructor]. split; vm_compute; reflexivity.
  - exists 3. split.
    + assert (X : match r_out (append E0 3 short_clip (playback_frame short_clip (secs_f64 1 160000000)) affine_identity f1 renderer_new) with Ok tt => true | _ => false end = true)
        by (vm_compute; reflexivity).
      destruct (r_out _) as [[]| |]; [reflexivity|discriminate|discriminate].
    + assert (X : in_window (mkLayer "l" None transform_default (VFixed f100) f0 f0 None (f_of_Z 10) (f_of_Z 39) f1 f0 [] false None (CShape [geo 1; fill]))
                   (playback_frame short_clip (secs_f64 1 160000000)) = false) by (vm_compute; reflexivity).
      revert X. generalize (playback_frame short_clip (secs_f64 1 160000000)). intros fr X.
      unfold append, events. cbn [short_clip co_layers enumerate List.length seq combine rev app forM ly_is_mask render_layer]. rewrite X. reflexivity.
  - eexists. exists 3. split; [reflexivity|]. reflexivity.
Qed.
Example C71_applies : clock (mkComp f0 (f_of_Z 10) (f_of_Z 30) 100 50 [] []) (f_of_Z 7) /\
  fltb f0 (playback_frame (mkComp f0 (f_of_Z 10) (f_of_Z 30) 100 50 [] []) (secs_f64 1 250000000)) = true.
Proof.
  split; [|vm_compute; reflexivity].
  assert (Z64 : (64 <= bpow radix2 500)%R) by (apply Rle_trans with (bpow radix2 6); [cbn; lra|apply bpow_le; lia]).
  assert (Z64' : (64 <= bpow radix2 1000)%R) by (apply Rle_trans with (bpow radix2 6); [cbn; lra|apply bpow_le; lia]).
  destruct (f_of_Z_R 7 ltac:(lia)) as [R7 F7], (f_of_Z_R 10 ltac:(lia)) as [R10 F10], (f_of_Z_R 30 ltac:(lia)) as [R30 F30].
  split; cbn [co_in co_out co_frame_rate]; unfold mag_le; rewrite ?R7, ?R10, ?R30, ?f0_R.
  - split; [split; [exact F7|]|]; [rewrite Rabs_pos_eq|]; lra.
  - split; [split; [exact F30|]|]; [rewrite Rabs_pos_eq|]; lra.
  - split; [split; [reflexivity|rewrite Rabs_R0; lra]|]. split; [split; [exact F10|rewrite Rabs_pos_eq; lra]|lra].
Qed.
