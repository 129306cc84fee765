(** Facts about the floating-point operations of F64.v, from Flocq. *)
From Coq Require Import ZArith Reals Bool List Lia Lra.
From Flocq Require Import Core BinarySingleNaN Plus_error.
From Verif Require Import F64.
Open Scope R_scope.

Notation rnd := (round radix2 (SpecFloat.fexp 53 1024) (round_mode mode_NE)).
Notation format := (generic_format radix2 (SpecFloat.fexp 53 1024)).
Notation fin x := (is_finite x = true).

Lemma fexp_flt : forall e, SpecFloat.fexp 53 1024 e = FLT_exp (-1074) 53 e.
Proof. reflexivity. Qed.
#[global] Instance fexp_valid : Valid_exp (SpecFloat.fexp 53 1024) := FLT_exp_valid (-1074) 53.
#[global] Instance fexp_mono : Monotone_exp (SpecFloat.fexp 53 1024) := FLT_exp_monotone (-1074) 53.
#[global] Instance fexp_noFTZ : Exp_not_FTZ (SpecFloat.fexp 53 1024).
Proof. exact (@monotone_exp_not_FTZ _ fexp_valid fexp_mono). Qed.

Lemma format_f64 (x : f64) : format (B2R x).
Proof. apply generic_format_B2R. Qed.
Lemma rnd_f64 (x : f64) : rnd (B2R x) = B2R x.
Proof. apply round_generic; [typeclasses eauto|apply format_f64]. Qed.
Lemma rnd_le x y : x <= y -> rnd x <= rnd y.
Proof. apply round_le; typeclasses eauto. Qed.
Lemma rnd_0 : rnd 0 = 0.
Proof. apply round_0; typeclasses eauto. Qed.
Lemma rnd_ge_f x (y : f64) : B2R y <= x -> B2R y <= rnd x.
Proof. intros H. rewrite <- (rnd_f64 y). now apply rnd_le. Qed.
Lemma rnd_le_f x (y : f64) : x <= B2R y -> rnd x <= B2R y.
Proof. intros H. rewrite <- (rnd_f64 y). now apply rnd_le. Qed.
Lemma rnd_nonneg x : 0 <= x -> 0 <= rnd x.
Proof. intros H. rewrite <- rnd_0. now apply rnd_le. Qed.
Lemma rnd_bpow_le x k : (-1074 <= k)%Z -> Rabs x <= bpow radix2 k -> Rabs (rnd x) <= bpow radix2 k.
Proof.
  intros Hk H. apply abs_round_le_generic; [typeclasses eauto..| |exact H].
  apply generic_format_bpow. unfold SpecFloat.fexp, SpecFloat.emin. lia.
Qed.

(** ** Comparisons *)
Lemma fltb_lt x y : fin x -> fin y -> (fltb x y = true <-> B2R x < B2R y).
Proof.
  intros Hx Hy. unfold fltb. rewrite Bltb_correct by assumption.
  destruct (Rlt_bool_spec (B2R x) (B2R y)); split; intros; auto; lra || discriminate.
Qed.
Lemma fleb_le x y : fin x -> fin y -> (fleb x y = true <-> B2R x <= B2R y).
Proof.
  intros Hx Hy. unfold fleb. rewrite Bleb_correct by assumption.
  destruct (Rle_bool_spec (B2R x) (B2R y)); split; intros; auto; lra || discriminate.
Qed.
Lemma feqb_eq x y : fin x -> fin y -> (feqb x y = true <-> B2R x = B2R y).
Proof.
  intros Hx Hy. unfold feqb. rewrite Beqb_correct by assumption.
  destruct (Req_bool_spec (B2R x) (B2R y)); split; intros; auto; try lra; discriminate.
Qed.
Lemma fltb_false x y : fin x -> fin y -> (fltb x y = false <-> B2R y <= B2R x).
Proof.
  intros Hx Hy. rewrite <- not_true_iff_false, fltb_lt by assumption. lra.
Qed.
Lemma fleb_false x y : fin x -> fin y -> (fleb x y = false <-> B2R y < B2R x).
Proof.
  intros Hx Hy. rewrite <- not_true_iff_false, fleb_le by assumption. lra.
Qed.
Lemma fltb_not_nan x y : fltb x y = true -> is_nan x = false /\ is_nan y = false.
Proof. destruct x as [[]|[]| |[]], y as [[]|[]| |[]]; simpl; auto; discriminate. Qed.
Lemma fleb_not_nan x y : fleb x y = true -> is_nan x = false /\ is_nan y = false.
Proof. destruct x as [[]|[]| |[]], y as [[]|[]| |[]]; simpl; auto; discriminate. Qed.

(** ** Constants *)
Lemma f_of_Z_R z : (Z.abs z <= 2 ^ 53)%Z -> B2R (f_of_Z z) = IZR z /\ fin (f_of_Z z).
Proof.
  intros Hz. unfold f_of_Z, fnorm. pose proof (binary_normalize_correct 53 1024 _ _ mode_NE z 0 false) as H.
  cbv zeta in H. assert (E : F2R (Float radix2 z 0) = IZR z) by (unfold F2R; simpl; lra).
  rewrite E in H. assert (G : rnd (IZR z) = IZR z).
  { apply round_generic; [typeclasses eauto|]. rewrite <- E.
    destruct (Z.eq_dec (Z.abs z) (2 ^ 53)) as [E2|].
    - assert (z = 2 ^ 53 \/ z = - 2 ^ 53)%Z as [->| ->] by lia.
      + replace (F2R (Float radix2 (2 ^ 53) 0)) with (bpow radix2 53) by (unfold F2R; simpl; lra).
        apply generic_format_bpow. unfold SpecFloat.fexp, SpecFloat.emin. lia.
      + replace (F2R (Float radix2 (- 2 ^ 53) 0)) with (- bpow radix2 53) by (unfold F2R; simpl; lra).
        apply generic_format_opp, generic_format_bpow. unfold SpecFloat.fexp, SpecFloat.emin. lia.
    - apply generic_format_FLT. exists (Float radix2 z 0); [reflexivity|cbn [Fnum]; change (radix2 ^ 53)%Z with (2 ^ 53)%Z; lia|discriminate]. }
  rewrite G in H. rewrite Rlt_bool_true in H; [tauto|].
  apply Rle_lt_trans with (bpow radix2 53).
  - rewrite <- abs_IZR. change (bpow radix2 53) with (IZR (2 ^ 53)). now apply IZR_le.
  - apply bpow_lt. lia.
Qed.
Lemma f0_R : B2R f0 = 0. Proof. reflexivity. Qed.
Lemma f1_R : B2R f1 = 1. Proof. apply f_of_Z_R. lia. Qed.
Lemma f1_fin : fin f1. Proof. reflexivity. Qed.
Lemma f100_R : B2R f100 = 100. Proof. apply f_of_Z_R. lia. Qed.
Lemma f100_fin : fin f100. Proof. reflexivity. Qed.

(** ** Addition and subtraction *)
Lemma fadd_R x y : fin x -> fin y -> Rabs (B2R x + B2R y) <= bpow radix2 1023 ->
  B2R (fadd x y) = rnd (B2R x + B2R y) /\ fin (fadd x y).
Proof.
  intros Hx Hy H. pose proof (Bplus_correct 53 1024 _ _ mode_NE x y Hx Hy) as P.
  rewrite Rlt_bool_true in P; [tauto|].
  apply Rle_lt_trans with (bpow radix2 1023); [apply rnd_bpow_le; [lia|exact H]|apply bpow_lt; lia].
Qed.
Lemma fsub_R x y : fin x -> fin y -> Rabs (B2R x - B2R y) <= bpow radix2 1023 ->
  B2R (fsub x y) = rnd (B2R x - B2R y) /\ fin (fsub x y).
Proof.
  intros Hx Hy H. pose proof (Bminus_correct 53 1024 _ _ mode_NE x y Hx Hy) as P.
  rewrite Rlt_bool_true in P; [tauto|].
  apply Rle_lt_trans with (bpow radix2 1023); [apply rnd_bpow_le; [lia|exact H]|apply bpow_lt; lia].
Qed.
Lemma fmul_R x y : fin x -> fin y -> Rabs (B2R x * B2R y) <= bpow radix2 1023 ->
  B2R (fmul x y) = rnd (B2R x * B2R y) /\ fin (fmul x y).
Proof.
  intros Hx Hy H. pose proof (Bmult_correct 53 1024 _ _ mode_NE x y) as P.
  rewrite Rlt_bool_true in P; [rewrite Hx, Hy in P; tauto|].
  apply Rle_lt_trans with (bpow radix2 1023); [apply rnd_bpow_le; [lia|exact H]|apply bpow_lt; lia].
Qed.
Lemma fdiv_R x y : fin x -> B2R y <> 0 -> Rabs (B2R x / B2R y) <= bpow radix2 1023 ->
  B2R (fdiv x y) = rnd (B2R x / B2R y) /\ fin (fdiv x y).
Proof.
  intros Hx Hy H. pose proof (Bdiv_correct 53 1024 _ _ mode_NE x y Hy) as P.
  rewrite Rlt_bool_true in P; [rewrite Hx in P; tauto|].
  apply Rle_lt_trans with (bpow radix2 1023); [apply rnd_bpow_le; [lia|exact H]|apply bpow_lt; lia].
Qed.
Lemma zero_of_R (x : f64) : fin x -> B2R x = 0 -> exists s, x = B754_zero s.
Proof.
  destruct x as [s|s| |s m e B]; simpl; try discriminate; intros _ H; [eauto|].
  exfalso. apply eq_0_F2R in H. destruct s; discriminate.
Qed.
Lemma fsub_diag x : fin x -> fsub x x = B754_zero false.
Proof.
  intros Hx. pose proof (Bminus_correct 53 1024 _ _ mode_NE x x Hx Hx) as P.
  rewrite Rminus_diag_eq, rnd_0, Rabs_R0 in P by reflexivity.
  rewrite Rlt_bool_true in P by apply bpow_gt_0. destruct P as (P1 & P2 & P3).
  rewrite Rcompare_Eq in P3 by reflexivity. unfold fsub.
  destruct (zero_of_R _ P2 P1) as (s & E). rewrite E in *. simpl in P3. now destruct (Bsign x), s.
Qed.
(** The difference of distinct numbers is not rounded to zero. *)
Lemma rnd_sub_pos (x y : f64) : B2R y < B2R x -> 0 < rnd (B2R x - B2R y).
Proof.
  intros H. assert (0 <= rnd (B2R x - B2R y)) by (apply rnd_nonneg; lra).
  assert (rnd (B2R x + - B2R y) <> 0).
  { apply round_plus_neq_0; try typeclasses eauto; [apply format_f64|apply generic_format_opp, format_f64|lra]. }
  unfold Rminus in *. lra.
Qed.

(** ** Magnitudes *)
Definition mag_le (x : f64) (k : Z) : Prop := fin x /\ Rabs (B2R x) <= bpow radix2 k.
Lemma mag_le_weaken x k k' : (k <= k')%Z -> mag_le x k -> mag_le x k'.
Proof. intros H [F B]. split; auto. eapply Rle_trans; [exact B|]. now apply bpow_le. Qed.
Lemma mag_le_mul x y a b : (-1074 <= a + b <= 1023)%Z -> mag_le x a -> mag_le y b -> mag_le (fmul x y) (a + b).
Proof.
  intros H [Fx Bx] [Fy By].
  assert (M : Rabs (B2R x * B2R y) <= bpow radix2 (a + b)).
  { rewrite Rabs_mult, bpow_plus. apply Rmult_le_compat; auto using Rabs_pos. }
  destruct (fmul_R x y Fx Fy) as [E F].
  { eapply Rle_trans; [exact M|apply bpow_le; lia]. }
  split; auto. rewrite E. apply rnd_bpow_le; [lia|exact M].
Qed.
Lemma bpow_S k : bpow radix2 (k + 1) = 2 * bpow radix2 k.
Proof. rewrite bpow_plus. simpl (bpow radix2 1). lra. Qed.
Lemma mag_le_add x y k : (-1075 <= k <= 1022)%Z -> mag_le x k -> mag_le y k -> mag_le (fadd x y) (k + 1).
Proof.
  intros H [Fx Bx] [Fy By].
  assert (M : Rabs (B2R x + B2R y) <= bpow radix2 (k + 1)).
  { rewrite bpow_S. eapply Rle_trans; [apply Rabs_triang|]. lra. }
  destruct (fadd_R x y Fx Fy) as [E F].
  { eapply Rle_trans; [exact M|apply bpow_le; lia]. }
  split; auto. rewrite E. apply rnd_bpow_le; [lia|exact M].
Qed.
Lemma mag_le_sub x y k : (-1075 <= k <= 1022)%Z -> mag_le x k -> mag_le y k -> mag_le (fsub x y) (k + 1).
Proof.
  intros H [Fx Bx] [Fy By].
  assert (M : Rabs (B2R x - B2R y) <= bpow radix2 (k + 1)).
  { rewrite bpow_S. unfold Rminus. eapply Rle_trans; [apply Rabs_triang|]. rewrite Rabs_Ropp. lra. }
  destruct (fsub_R x y Fx Fy) as [E F].
  { eapply Rle_trans; [exact M|apply bpow_le; lia]. }
  split; auto. rewrite E. apply rnd_bpow_le; [lia|exact M].
Qed.
Lemma mag_le_Z z : (Z.abs z <= 2 ^ 53)%Z -> forall k, (0 <= k)%Z -> (Z.abs z <= 2 ^ k)%Z -> mag_le (f_of_Z z) k.
Proof.
  intros H k Hk Hz. destruct (f_of_Z_R z H) as [E F]. split; auto. rewrite E, <- abs_IZR.
  rewrite <- (IZR_Zpower radix2) by assumption. apply IZR_le. exact Hz.
Qed.
Lemma mag_le_0 k : mag_le f0 k.
Proof. split; [reflexivity|]. simpl. rewrite Rabs_R0. apply bpow_ge_0. Qed.

(** ** Absorption *)
Lemma fadd_zero x z : fin x -> fin z -> B2R z = 0 -> feqb (fadd x z) x = true.
Proof.
  intros Hx Hz E. pose proof (Bplus_correct 53 1024 _ _ mode_NE x z Hx Hz) as P.
  rewrite E, Rplus_0_r, rnd_f64 in P. rewrite Rlt_bool_true in P by apply abs_B2R_lt_emax.
  destruct P as (P1 & P2 & _). apply feqb_eq; auto.
Qed.
