(** Trim normalisation (fixed.rs:79-106) for all finite inputs. *)
From Coq Require Import ZArith Reals Bool List Arith Lia Lra.
From Flocq Require Import Core BinarySingleNaN.
From Verif Require Import F64 F64Facts Kurbo Value Animated ValueSpec ValueFacts ValueFacts2.
Import ListNotations.
Open Scope R_scope.

Lemma fnorm_R m e : (Z.abs m < 2 ^ 53)%Z -> (-1074 <= e <= 900)%Z ->
  B2R (fnorm m e) = IZR m * bpow radix2 e /\ fin (fnorm m e).
Proof.
  intros Hm He. unfold fnorm. pose proof (binary_normalize_correct 53 1024 _ _ mode_NE m e false) as P.
  cbv zeta in P. rewrite round_generic in P; [|typeclasses eauto|].
  - rewrite Rlt_bool_true in P; [unfold F2R in P; cbn [Fnum Fexp] in P; tauto|].
    unfold F2R; cbn [Fnum Fexp]. rewrite Rabs_mult, (Rabs_pos_eq (bpow radix2 e)) by apply bpow_ge_0.
    rewrite <- abs_IZR. apply Rle_lt_trans with (bpow radix2 53 * bpow radix2 e).
    + apply Rmult_le_compat_r; [apply bpow_ge_0|]. rewrite <- (IZR_Zpower radix2) by lia. apply IZR_le.
      change (radix2 ^ 53)%Z with (2 ^ 53)%Z. lia.
    + rewrite <- bpow_plus. apply bpow_lt. lia.
  - apply generic_format_FLT. exists (Float radix2 m e); [reflexivity|exact Hm|cbn; lia].
Qed.

(** ** Remainders *)
Lemma frem_bound x y : fin x -> fin y -> B2R y <> 0 ->
  fin (frem x y) /\ Rabs (B2R (frem x y)) <= Rabs (B2R y) .
Proof.
  intros Fx Fy Ny. destruct x as [s|s| |s m1 e1 H1]; try discriminate;
    destruct y as [s2|s2| |s2 m2 e2 H2]; try discriminate; try (simpl in Ny; lra).
  - split; [reflexivity|]. simpl. rewrite Rabs_R0. apply Rabs_pos.
  - unfold frem. set (e := Z.min e1 e2). set (a := (Zpos m1 * 2 ^ (e1 - e))%Z). set (b := (Zpos m2 * 2 ^ (e2 - e))%Z).
    assert (Hb : (0 < b)%Z) by (unfold b; apply Z.mul_pos_pos; [lia|apply Z.pow_pos_nonneg; lia]).
    assert (Ha : (0 <= a)%Z) by (unfold a; apply Z.mul_nonneg_nonneg; [lia|apply Z.pow_nonneg; lia]).
    pose proof (Z.rem_bound_pos a b Ha Hb) as Hr.
    set (r := Z.rem a b) in *.
    assert (Ey : Rabs (B2R (B754_finite s2 m2 e2 H2)) = IZR b * bpow radix2 e).
    { cbn [B2R]. rewrite <- F2R_Zabs. unfold F2R; cbn [Fnum Fexp]. rewrite abs_cond_Zopp. cbn [Z.abs].
      unfold b. rewrite mult_IZR. change (2 ^ (e2 - e))%Z with (radix2 ^ (e2 - e))%Z.
      rewrite (IZR_Zpower radix2) by lia. rewrite Rmult_assoc, <- bpow_plus. do 2 f_equal. lia. }
    pose proof (binary_normalize_correct 53 1024 _ _ mode_NE (cond_Zopp s r) e s) as P. cbv zeta in P.
    assert (Bd : Rabs (F2R (Float radix2 (cond_Zopp s r) e)) <= Rabs (B2R (B754_finite s2 m2 e2 H2))).
    { rewrite <- F2R_Zabs. unfold F2R; cbn [Fnum Fexp]. rewrite abs_cond_Zopp, Ey.
      apply Rmult_le_compat_r; [apply bpow_ge_0|]. apply IZR_le. lia. }
    assert (Br : Rabs (rnd (F2R (Float radix2 (cond_Zopp s r) e))) <= Rabs (B2R (B754_finite s2 m2 e2 H2))).
    { apply abs_round_le_generic; try typeclasses eauto; [|exact Bd]. apply generic_format_abs, format_f64. }
    rewrite Rlt_bool_true in P by (eapply Rle_lt_trans; [exact Br|apply abs_B2R_lt_emax]).
    destruct P as (P1 & P2 & _). split; [exact P2|]. rewrite P1. exact Br.
Qed.
Lemma rem_euclid_100 x : fin x -> fin (rem_euclid x f100) /\ 0 <= B2R (rem_euclid x f100) <= 100.
Proof.
  intros Fx. unfold rem_euclid.
  destruct (frem_bound x f100 Fx f100_fin ltac:(rewrite f100_R; lra)) as [F B].
  rewrite f100_R, (Rabs_pos_eq 100) in B by lra. apply Rabs_le_inv in B.
  destruct (fltb (frem x f100) f0) eqn:L.
  - apply fltb_lt in L; auto. rewrite f0_R in L.
    assert (A : B2R (fabs f100) = 100) by (unfold fabs; rewrite B2R_Babs, f100_R; apply Rabs_pos_eq; lra).
    destruct (fadd_R (frem x f100) (fabs f100) F eq_refl) as [E F'].
    { rewrite A. apply Rle_trans with (bpow radix2 7); [simpl; apply Rabs_le; lra|apply bpow_le; lia]. }
    split; auto. rewrite E, A. split; [apply rnd_nonneg; lra|]. rewrite <- f100_R. apply rnd_le_f. rewrite f100_R. lra.
  - apply fltb_false in L; auto. rewrite f0_R in L. split; auto. lra.
Qed.

(** ** Differences *)
Lemma Babs_inf (x : f64) s : B2SF x = SpecFloat.S754_infinity s -> fabs x = B754_infinity false.
Proof. destruct x; try discriminate. reflexivity. Qed.
Lemma fabs_sub_sym x y : fin x -> fin y -> fabs (fsub x y) = fabs (fsub y x).
Proof.
  intros Fx Fy.
  pose proof (Bminus_correct 53 1024 _ _ mode_NE x y Fx Fy) as P.
  pose proof (Bminus_correct 53 1024 _ _ mode_NE y x Fy Fx) as Q.
  assert (E : Rabs (rnd (B2R x - B2R y)) = Rabs (rnd (B2R y - B2R x))).
  { replace (B2R x - B2R y) with (- (B2R y - B2R x)) by lra. rewrite round_NE_opp. apply Rabs_Ropp. }
  rewrite E in P. fold (fsub x y) in P. fold (fsub y x) in Q.
  destruct (Rlt_bool _ _).
  - destruct P as (P1 & P2 & _), Q as (Q1 & Q2 & _). unfold fabs. apply B2R_Bsign_inj.
    + now rewrite is_finite_Babs.
    + now rewrite is_finite_Babs.
    + rewrite !B2R_Babs, P1, Q1. exact E.
    + clear P1 Q1. destruct (fsub x y), (fsub y x); cbn in *; congruence.
  - destruct P as [P _], Q as [Q _]. rewrite (Babs_inf _ _ P), (Babs_inf _ _ Q). reflexivity.
Qed.
(** A non-negative difference is its own absolute value. *)
Lemma fabs_sub_pos hi lo : fin hi -> fin lo -> B2R lo < B2R hi -> fabs (fsub hi lo) = fsub hi lo.
Proof.
  intros Fh Fl H. pose proof (fsub_sign_pos hi lo Fh Fl H) as S.
  destruct (fsub hi lo) as [[]|[]| |[]]; try discriminate; reflexivity.
Qed.
Lemma fsub_not_nan x y : fin x -> fin y -> is_nan (fsub x y) = false.
Proof.
  intros Fx Fy. pose proof (Bminus_correct 53 1024 _ _ mode_NE x y Fx Fy) as P. fold (fsub x y) in P.
  destruct (Rlt_bool _ _).
  - destruct P as (_ & P & _). destruct (fsub x y); auto; discriminate.
  - destruct P as [P _]. destruct (fsub x y); auto; discriminate.
Qed.

Definition trim_lo (t : trim) : f64 := if fleb (tr_start t) (tr_end t) then tr_start t else tr_end t.
Definition trim_hi (t : trim) : f64 := if fleb (tr_start t) (tr_end t) then tr_end t else tr_start t.
Lemma trim_unfold t : trim_normalized t =
  let range_pct := fsub (trim_hi t) (trim_lo t) in
  if fltb range_pct f_1em9 then None
  else if fleb (fsub f100 f_1em9) range_pct then Some ((f0, f1), None)
  else
    let offset_pct := fmul (tr_offset t) (fdiv f100 (f_of_Z 360)) in
    let start_pct := rem_euclid (fadd (trim_lo t) offset_pct) f100 in
    let end_pct := fadd start_pct range_pct in
    if fleb end_pct f100 then Some ((fdiv start_pct f100, fdiv end_pct f100), None)
    else Some ((fdiv start_pct f100, f1), Some (f0, fdiv (fsub end_pct f100) f100)).
Proof. unfold trim_normalized, trim_lo, trim_hi. destruct (fleb _ _); reflexivity. Qed.

Section Norm.
  Variable t : trim.
  Hypothesis Fs : fin (tr_start t).
  Hypothesis Fe : fin (tr_end t).
  Hypothesis Fo : fin (tr_offset t).
  Lemma lo_hi : fin (trim_lo t) /\ fin (trim_hi t) /\ B2R (trim_lo t) <= B2R (trim_hi t).
  Proof.
    unfold trim_lo, trim_hi. destruct (fleb _ _) eqn:L.
    - apply fleb_le in L; auto.
    - apply fleb_false in L; auto. repeat split; auto. lra.
  Qed.
  Lemma range_abs : fltb (fsub (trim_hi t) (trim_lo t)) f_1em9 = fltb (fabs (fsub (tr_end t) (tr_start t))) f_1em9.
  Proof.
    destruct lo_hi as (Fl & Fh & LH). destruct (Rle_lt_or_eq_dec _ _ LH) as [LT|EQ].
    - rewrite <- (fabs_sub_pos _ _ Fh Fl LT). unfold trim_hi, trim_lo in *. destruct (fleb _ _); auto.
      now rewrite fabs_sub_sym.
    - assert (B2R (tr_end t) = B2R (tr_start t)) by (unfold trim_hi, trim_lo in EQ; destruct (fleb _ _); auto).
      destruct (fsub_same_R _ _ Fh Fl (eq_sym EQ)) as [s ->]. destruct (fsub_same_R _ _ Fe Fs H) as [s' ->].
      destruct s; vm_compute; reflexivity.
  Qed.
  Hypothesis R1 : fltb (fsub (trim_hi t) (trim_lo t)) f_1em9 = false.
  Hypothesis R2 : fleb (fsub f100 f_1em9) (fsub (trim_hi t) (trim_lo t)) = false.
  Let range := fsub (trim_hi t) (trim_lo t).
  Lemma range_fin : fin range.
  Proof.
    destruct lo_hi as (Fl & Fh & LH). pose proof (fsub_not_nan _ _ Fh Fl) as N. fold range in N, R1, R2.
    destruct range as [|[]| |]; try reflexivity; try discriminate.
  Qed.
  Lemma c_bound : B2R (fsub f100 f_1em9) <= 100 - bpow radix2 (-40) /\ fin (fsub f100 f_1em9).
  Proof.
    assert (F : fin (fsub f100 f_1em9)) by (vm_compute; reflexivity). split; auto.
    assert (L : fleb (fsub f100 f_1em9) (fnorm (100 * 2 ^ 40 - 1) (-40)) = true) by (vm_compute; reflexivity).
    destruct (fnorm_R (100 * 2 ^ 40 - 1) (-40) ltac:(lia) ltac:(lia)) as [E F2].
    apply fleb_le in L; auto. rewrite E in L. eapply Rle_trans; [exact L|].
    rewrite minus_IZR, Rmult_minus_distr_r, mult_IZR. change (IZR (2 ^ 40)) with (IZR (radix2 ^ 40)).
    rewrite (IZR_Zpower radix2) by lia. rewrite Rmult_assoc, <- bpow_plus. simpl (bpow radix2 (40 + -40)). lra.
  Qed.
  Lemma range_R : B2R range = rnd (B2R (trim_hi t) - B2R (trim_lo t)) /\ 0 < B2R range < 100 - bpow radix2 (-40).
  Proof.
    destruct lo_hi as (Fl & Fh & LH). pose proof range_fin as Fr. destruct c_bound as [C Fc].
    fold range in R1, R2. apply fleb_false in R2; auto.
    assert (P : B2R f_1em9 > 0).
    { assert (fltb f0 f_1em9 = true) by (vm_compute; reflexivity). apply fltb_lt in H; auto. }
    apply fltb_false in R1; auto. split; [|lra].
    pose proof (Bminus_correct 53 1024 _ _ mode_NE _ _ Fh Fl) as Q. fold (fsub (trim_hi t) (trim_lo t)) in Q. fold range in Q.
    destruct (Rlt_bool _ _); [tauto|]. destruct Q as [Q _]. destruct range; discriminate.
  Qed.
  Lemma ulp_big x : bpow radix2 999 <= Rabs x -> bpow radix2 946 <= ulp radix2 (SpecFloat.fexp 53 1024) x.
  Proof.
    intros H. pose proof (bpow_gt_0 radix2 999).
    assert (x <> 0) by (intros ->; rewrite Rabs_R0 in H; lra).
    rewrite ulp_neq_0 by assumption. apply bpow_le. unfold cexp.
    assert (999 < mag radix2 x)%Z by (apply mag_gt_bpow; exact H).
    unfold SpecFloat.fexp, SpecFloat.emin. lia.
  Qed.
  Lemma lo_small : Rabs (B2R (trim_lo t)) <= bpow radix2 1000.
  Proof.
    destruct lo_hi as (Fl & Fh & LH). destruct range_R as [E [G0 G]].
    destruct (Rle_lt_dec (Rabs (B2R (trim_lo t))) (bpow radix2 1000)) as [|L]; auto. exfalso.
    set (lo := B2R (trim_lo t)) in *. set (hi := B2R (trim_hi t)) in *.
    assert (LT : lo < hi).
    { destruct (Rle_lt_or_eq_dec _ _ LH) as [|EQ]; auto. rewrite EQ, Rminus_diag_eq, rnd_0 in E by reflexivity. lra. }
    assert (P1 : bpow radix2 1000 = 2 * bpow radix2 999) by (rewrite <- bpow_S; reflexivity).
    assert (P2 : 100 <= bpow radix2 946) by (apply Rle_trans with (bpow radix2 7); [simpl; lra|apply bpow_le; lia]).
    assert (P3 : bpow radix2 946 <= bpow radix2 999) by (apply bpow_le; lia).
    pose proof (bpow_gt_0 radix2 (-40)).
    assert (D : bpow radix2 946 <= hi - lo).
    { destruct (Rle_lt_dec 0 lo) as [Plo|Nlo].
      - rewrite Rabs_pos_eq in L by assumption.
        pose proof (succ_le_lt radix2 (SpecFloat.fexp 53 1024) lo hi (format_f64 _) (format_f64 _) LT) as S.
        rewrite succ_eq_pos in S by assumption.
        pose proof (ulp_big lo ltac:(rewrite Rabs_pos_eq; lra)). lra.
      - rewrite Rabs_left in L by assumption.
        destruct (Rle_lt_dec (- bpow radix2 999) hi) as [|Hh]; [lra|].
        assert (LT' : - hi < - lo) by lra.
        pose proof (succ_le_lt radix2 (SpecFloat.fexp 53 1024) (- hi) (- lo)
          (generic_format_opp _ _ _ (format_f64 _)) (generic_format_opp _ _ _ (format_f64 _)) LT') as S.
        rewrite succ_eq_pos in S by lra.
        pose proof (ulp_big (- hi) ltac:(rewrite Rabs_pos_eq; lra)). lra. }
    assert (bpow radix2 946 <= rnd (hi - lo)).
    { apply round_ge_generic; try typeclasses eauto; [|exact D]. apply generic_format_bpow.
      unfold SpecFloat.fexp, SpecFloat.emin; lia. }
    lra.
  Qed.
  Let offset_pct := fmul (tr_offset t) (fdiv f100 (f_of_Z 360)).
  Lemma offset_bound : fin offset_pct /\ Rabs (B2R offset_pct) <= 3 * bpow radix2 1021.
  Proof.
    set (k := fdiv f100 (f_of_Z 360)).
    assert (Fk : fin k) by (vm_compute; reflexivity).
    assert (K0 : fleb f0 k = true) by (vm_compute; reflexivity).
    assert (K1 : fleb k (fnorm 5 (-4)) = true) by (vm_compute; reflexivity).
    destruct (fnorm_R 5 (-4) ltac:(lia) ltac:(lia)) as [E5 F5].
    apply fleb_le in K0; auto. apply fleb_le in K1; auto. rewrite E5 in K1. rewrite f0_R in K0.
    pose proof (abs_B2R_lt_emax 53 1024 (tr_offset t)) as O.
    assert (M : Rabs (B2R (tr_offset t) * B2R k) <= 3 * bpow radix2 1021).
    { rewrite Rabs_mult, (Rabs_pos_eq (B2R k)) by assumption.
      apply Rle_trans with (bpow radix2 1024 * (5 * bpow radix2 (-4))).
      - apply Rmult_le_compat; auto using Rabs_pos. lra.
      - replace (bpow radix2 1024 * (5 * bpow radix2 (-4))) with (5 * bpow radix2 (1024 + -4)) by (rewrite bpow_plus; lra).
        change (1024 + -4)%Z with 1020%Z. replace (bpow radix2 1021) with (2 * bpow radix2 1020) by (rewrite <- bpow_S; reflexivity).
        pose proof (bpow_gt_0 radix2 1020). lra. }
    assert (E3 : bpow radix2 1023 = 4 * bpow radix2 1021).
    { change 1023%Z with (1022 + 1)%Z. rewrite bpow_S. change 1022%Z with (1021 + 1)%Z. rewrite bpow_S. lra. }
    pose proof (bpow_gt_0 radix2 1021).
    destruct (fmul_R (tr_offset t) k Fo Fk) as [E F].
    { eapply Rle_trans; [exact M|]. lra. }
    split; [exact F|]. change (Rabs (B2R (fmul (tr_offset t) k)) <= 3 * bpow radix2 1021). rewrite E.
    apply abs_round_le_generic; try typeclasses eauto; [|exact M].
    apply generic_format_FLT. exists (Float radix2 3 1021); [unfold F2R; cbn; lra|reflexivity|cbn; lia].
  Qed.
  Let start_pct := rem_euclid (fadd (trim_lo t) offset_pct) f100.
  Lemma start_bound : fin start_pct /\ 0 <= B2R start_pct <= 100.
  Proof.
    apply rem_euclid_100. destruct lo_hi as (Fl & _). destruct offset_bound as [Fof B].
    apply fadd_R; auto. eapply Rle_trans; [apply Rabs_triang|]. pose proof lo_small.
    assert (E3 : bpow radix2 1023 = 4 * bpow radix2 1021).
    { change 1023%Z with (1022 + 1)%Z. rewrite bpow_S. change 1022%Z with (1021 + 1)%Z. rewrite bpow_S. lra. }
    assert (bpow radix2 1000 <= bpow radix2 1021) by (apply bpow_le; lia). lra.
  Qed.
  Let end_pct := fadd start_pct range.
  Lemma end_R : fin end_pct /\ B2R end_pct = rnd (B2R start_pct + B2R range) /\
    B2R start_pct <= B2R end_pct < B2R start_pct + 100.
  Proof.
    destruct start_bound as [F B]. destruct range_R as [_ G]. pose proof range_fin as Fr.
    pose proof (bpow_gt_0 radix2 (-40)).
    destruct (fadd_R start_pct range F Fr) as [E Fe'].
    { rewrite Rabs_pos_eq by lra. apply Rle_trans with (bpow radix2 8); [simpl; lra|apply bpow_le; lia]. }
    split; auto. split; auto. fold end_pct in E. rewrite E. split; [apply rnd_ge_f; lra|].
    set (x := B2R start_pct + B2R range) in *.
    assert (Er : Rabs (rnd x - x) <= / 2 * ulp radix2 (SpecFloat.fexp 53 1024) x) by (apply error_le_half_ulp; typeclasses eauto).
    assert (U : ulp radix2 (SpecFloat.fexp 53 1024) x <= bpow radix2 (-45)).
    { rewrite ulp_neq_0 by (unfold x; lra). apply bpow_le. unfold cexp.
      assert (mag radix2 x <= 8)%Z.
      { apply mag_le_bpow; [unfold x; lra|]. rewrite Rabs_pos_eq by (unfold x; lra). unfold x. simpl. lra. }
      unfold SpecFloat.fexp, SpecFloat.emin. lia. }
    assert (P : bpow radix2 (-45) <= bpow radix2 (-40)) by (apply bpow_le; lia).
    apply Rabs_le_inv in Er. unfold x in *. lra.
  Qed.
  Lemma div100 x y : fin x -> fin y -> B2R x <= B2R y -> Rabs (B2R x) <= 200 -> Rabs (B2R y) <= 200 ->
    fin (fdiv x f100) /\ fin (fdiv y f100) /\ B2R (fdiv x f100) <= B2R (fdiv y f100) /\
    (0 <= B2R x -> 0 <= B2R (fdiv x f100)) /\ (B2R y <= 100 -> B2R (fdiv y f100) <= 1).
  Proof.
    intros Fx Fy L Bx By.
    assert (Q : 2 <= bpow radix2 1023) by (apply Rle_trans with (bpow radix2 1); [simpl; lra|apply bpow_le; lia]).
    assert (D : forall z, fin z -> Rabs (B2R z) <= 200 -> B2R (fdiv z f100) = rnd (B2R z / 100) /\ fin (fdiv z f100)).
    { intros z Fz Bz. rewrite <- f100_R. apply fdiv_R; auto; rewrite f100_R; [lra|].
      unfold Rdiv. rewrite Rabs_mult, (Rabs_pos_eq (/ 100)) by lra. lra. }
    destruct (D x Fx Bx) as [Ex Fx']. destruct (D y Fy By) as [Ey Fy']. rewrite Ex, Ey.
    repeat split; auto.
    - apply rnd_le. lra.
    - intros. apply rnd_nonneg. lra.
    - intros. rewrite <- f1_R. apply rnd_le_f. rewrite f1_R. lra.
  Qed.
  Definition le1 (x y : f64) : Prop := fleb x y = true.
  Lemma inner_ok :
    match (if fleb end_pct f100 then Some ((fdiv start_pct f100, fdiv end_pct f100), None)
    else Some ((fdiv start_pct f100, f1), Some (f0, fdiv (fsub end_pct f100) f100))) with
    | None => False
    | Some ((s, e), o) =>
        fleb f0 s = true /\ fleb s e = true /\ fleb e f1 = true /\
        match o with
        | None => True
        | Some (s2, e2) => e = f1 /\ s2 = f0 /\ fleb f0 e2 = true /\ fleb e2 s = true
        end
    end.
  Proof.
    destruct start_bound as [F B]. destruct end_R as (Fe' & _ & G).
    destruct (fleb end_pct f100) eqn:L.
    - apply fleb_le in L; auto using f100_fin. rewrite f100_R in L.
      destruct (div100 start_pct end_pct) as (A1 & A2 & A3 & A4 & A5); auto; try lra; try (apply Rabs_le; lra).
      repeat split; try (apply fleb_le; auto using f1_fin; rewrite ?f0_R, ?f1_R; auto).
      + apply A4. lra.
    - apply fleb_false in L; auto using f100_fin. rewrite f100_R in L.
      destruct (div100 start_pct f100) as (A1 & A2 & A3 & A4 & A5); auto using f100_fin; rewrite ?f100_R in *; try lra; try (apply Rabs_le; lra).
      destruct (fsub_R end_pct f100 Fe' f100_fin) as [E2 F2].
      { rewrite f100_R. apply Rle_trans with (bpow radix2 7); [simpl; apply Rabs_le; lra|apply bpow_le; lia]. }
      rewrite f100_R in E2.
      assert (L2 : B2R (fsub end_pct f100) <= B2R start_pct) by (rewrite E2; apply rnd_le_f; lra).
      assert (L3 : 0 <= B2R (fsub end_pct f100)) by (rewrite E2; apply rnd_nonneg; lra).
      destruct (div100 (fsub end_pct f100) start_pct) as (C1 & C2 & C3 & C4 & C5); auto; try (apply Rabs_le; lra).
      repeat split; try (apply fleb_le; auto using f1_fin; rewrite ?f0_R, ?f1_R; auto).
      + apply A4. lra.
  Qed.
End Norm.
