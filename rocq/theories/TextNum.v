(** Reading JSON text: what numbers are read as. *)
From Coq Require Import ZArith Reals Bool List String Ascii Lia Lra.
From Flocq Require Import Core BinarySingleNaN Relative.
From Verif Require Import F64 Kurbo F64Facts Value Animated Schema Import Serde JsonText TextSpec TextFacts.
Import ListNotations.
Local Open Scope R_scope.

Lemma normal_Z z : (0 <= z)%Z -> fin (f_of_Z z) -> B2R (f_of_Z z) = rnd (IZR z) /\ Bsign (f_of_Z z) = false.
Proof.
  intros Hz. unfold f_of_Z, fnorm. pose proof (binary_normalize_correct 53 1024 _ _ mode_NE z 0 false) as H.
  cbv zeta in H. assert (E : F2R (Float radix2 z 0) = IZR z) by (unfold F2R; simpl; lra). rewrite E in H.
  destruct (Rlt_bool _ _).
  - destruct H as (R1 & F1 & S1). intros _. split; [exact R1|]. rewrite S1. destruct (Rcompare_spec (IZR z) 0); try reflexivity. apply (lt_IZR z 0) in H. lia.
  - intros F. unfold binary_overflow in H. set (x := binary_normalize _ _ _ _ _ _ _ _) in *. clearbody x. cbn in H. destruct x; try discriminate; destruct s; discriminate.
Qed.
Lemma normal_fin z : (0 <= z)%Z -> (z <= 2 ^ 64)%Z -> fin (f_of_Z z).
Proof.
  intros Hz Hb. unfold f_of_Z, fnorm. pose proof (binary_normalize_correct 53 1024 _ _ mode_NE z 0 false) as H.
  cbv zeta in H. assert (E : F2R (Float radix2 z 0) = IZR z) by (unfold F2R; simpl; lra). rewrite E in H.
  rewrite Rlt_bool_true in H; [tauto|]. apply Rle_lt_trans with (bpow radix2 64); [|apply bpow_lt; lia]. apply rnd_bpow_le; [lia|].
  rewrite Rabs_pos_eq by (now apply IZR_le). change (bpow radix2 64) with (IZR (2 ^ 64)). now apply IZR_le.
Qed.
Definition pow10s : list Z := map Z.of_nat (seq 0 309).
Lemma pow10_fins : forallb (fun k => is_finite (pow10 k) && fleb f1 (pow10 k)) pow10s = true.
Proof. vm_compute. reflexivity. Qed.
Lemma pow10_ok k : (0 <= k <= 308)%Z -> fin (pow10 k) /\ B2R (pow10 k) = rnd (IZR (10 ^ k)) /\ Bsign (pow10 k) = false /\ 1 <= B2R (pow10 k).
Proof.
  intros Hk. pose proof pow10_fins as F. rewrite forallb_forall in F. assert (I : In k pow10s).
  { unfold pow10s. apply in_map_iff. exists (Z.to_nat k). split; [lia|]. apply in_seq. lia. }
  apply F in I. apply andb_prop in I as [I1 I2]. apply fleb_le in I2; [|reflexivity|exact I1]. rewrite f1_R in I2.
  unfold pow10 in *. destruct (normal_Z (10 ^ k) ltac:(apply Z.pow_nonneg; lia) I1) as [R S]. repeat split; auto.
Qed.
Lemma pow10_exact k : (0 <= k <= 22)%Z -> B2R (pow10 k) = IZR (10 ^ k).
Proof.
  intros Hk. destruct (pow10_ok k ltac:(lia)) as (_ & -> & _). apply round_generic; [typeclasses eauto|]. apply generic_format_FLT.
  exists (Float radix2 (5 ^ k) k).
  - unfold F2R. cbn [Fnum Fexp]. replace 10%Z with (5 * 2)%Z by reflexivity. rewrite Z.pow_mul_l, mult_IZR. f_equal. change 2%Z with (radix_val radix2). apply IZR_Zpower. lia.
  - cbn [Fnum]. rewrite Z.abs_eq by (apply Z.pow_nonneg; lia). apply Z.le_lt_trans with (5 ^ 22)%Z; [apply Z.pow_le_mono_r; lia|]. reflexivity.
  - cbn [Fexp]. apply Z.le_trans with 0%Z; [vm_compute; discriminate|lia].
Qed.

Lemma fmul_S x y : fin x -> fin y -> Rabs (B2R x * B2R y) <= bpow radix2 1023 -> Bsign (fmul x y) = xorb (Bsign x) (Bsign y).
Proof.
  intros Fx Fy B. unfold fmul. pose proof (Bmult_correct 53 1024 _ _ mode_NE x y) as C. rewrite Rlt_bool_true in C.
  - destruct C as (_ & F & S). rewrite Fx, Fy in F. apply S. destruct (Bmult mode_NE x y); try reflexivity; discriminate.
  - apply Rle_lt_trans with (bpow radix2 1023); [|apply bpow_lt; lia]. apply rnd_bpow_le; [lia|exact B].
Qed.
Lemma fdiv_S x y : fin x -> B2R y <> 0 -> Rabs (B2R x / B2R y) <= bpow radix2 1023 -> Bsign (fdiv x y) = xorb (Bsign x) (Bsign y).
Proof.
  intros Fx Ny B. unfold fdiv. pose proof (Bdiv_correct 53 1024 _ _ mode_NE x y Ny) as C. rewrite Rlt_bool_true in C.
  - destruct C as (_ & F & S). rewrite Fx in F. apply S. destruct (Bdiv mode_NE x y); try reflexivity; discriminate.
  - apply Rle_lt_trans with (bpow radix2 1023); [|apply bpow_lt; lia]. apply rnd_bpow_le; [lia|exact B].
Qed.
Lemma div_pow_bound x p k : 0 <= x <= bpow radix2 k -> 1 <= p -> 0 <= x / p <= bpow radix2 k.
Proof.
  intros Hx Hp. split; [apply Rmult_le_pos; [lra|apply Rlt_le, Rinv_0_lt_compat; lra]|].
  apply Rle_trans with x; [|lra]. apply Rmult_le_reg_r with p; [lra|]. unfold Rdiv. rewrite Rmult_assoc, Rinv_l, Rmult_1_r by lra. nra.
Qed.
Lemma scale_finite n : forall f e g, fin f -> 0 <= B2R f <= bpow radix2 64 -> scale10 n f e = Some g -> fin g.
Proof.
  induction n as [|n IH]; intros f e g F B; [discriminate|]. cbn [scale10]. destruct (Z.leb_spec (Z.abs e) 308).
  - destruct (Z.leb_spec 0 e).
    + cbv zeta. destruct (is_finite (fmul f (pow10 e))) eqn:G; [|discriminate]. intros Q. injection Q as <-. exact G.
    + intros Q. injection Q as <-. destruct (pow10_ok (- e) ltac:(lia)) as (_ & _ & _ & P). pose proof (div_pow_bound _ _ _ B P) as D.
      apply fdiv_R; [exact F|lra|]. rewrite Rabs_pos_eq by lra. apply Rle_trans with (1 := proj2 D). apply bpow_le. lia.
  - destruct (feqb f f0); [intros Q; injection Q as <-; exact F|]. destruct (Z.leb_spec 0 e); [discriminate|].
    destruct (pow10_ok 308 ltac:(lia)) as (_ & _ & _ & P). pose proof (div_pow_bound _ _ _ B P) as D.
    assert (G : Rabs (B2R f / B2R (pow10 308)) <= bpow radix2 1023) by (rewrite Rabs_pos_eq by lra; apply Rle_trans with (1 := proj2 D); apply bpow_le; lia).
    destruct (fdiv_R f (pow10 308) F ltac:(lra) G) as [R1 F1]. apply IH; [exact F1|]. rewrite R1. split; [apply rnd_nonneg; lra|].
    rewrite <- (Rabs_pos_eq (rnd _)) by (apply rnd_nonneg; lra). apply rnd_bpow_le; [lia|]. rewrite Rabs_pos_eq; lra.
Qed.
Definition ten_times (f : R) (e : Z) : R := if (0 <=? e)%Z then f * B2R (pow10 e) else f / B2R (pow10 (- e)).
Lemma pow10_bound k : (0 <= k <= 280)%Z -> 1 <= B2R (pow10 k) <= bpow radix2 931.
Proof.
  intros Hk. destruct (pow10_ok k ltac:(lia)) as (_ & E & _ & P). split; [exact P|]. rewrite <- (Rabs_pos_eq (B2R _)) by lra. rewrite E. apply rnd_bpow_le; [lia|].
  rewrite Rabs_pos_eq by (apply IZR_le, Z.pow_nonneg; lia). rewrite <- (IZR_Zpower radix2 931) by lia. apply IZR_le. change (radix_val radix2) with 2%Z.
  apply Z.le_trans with (10 ^ 280)%Z; [apply Z.pow_le_mono_r; lia|]. apply Z.leb_le. vm_compute. reflexivity.
Qed.
Lemma start_ok sig : (0 <= sig <= 18446744073709551615)%Z -> fin (f_of_Z sig) /\ B2R (f_of_Z sig) = rnd (IZR sig) /\ Bsign (f_of_Z sig) = false /\ 0 <= B2R (f_of_Z sig) <= bpow radix2 64.
Proof.
  intros H. pose proof (normal_fin sig ltac:(lia) ltac:(lia)) as F. destruct (normal_Z sig ltac:(lia) F) as [R S]. repeat split; auto; rewrite R.
  - apply rnd_nonneg. now apply IZR_le.
  - rewrite <- (Rabs_pos_eq (rnd _)) by (apply rnd_nonneg; now apply IZR_le). apply rnd_bpow_le; [lia|]. rewrite Rabs_pos_eq by (now apply IZR_le).
    change (bpow radix2 64) with (IZR (2 ^ 64)). apply IZR_le. lia.
Qed.
Lemma scale_value sig e : (0 <= sig <= 18446744073709551615)%Z -> (Z.abs e <= 280)%Z ->
  exists g, scale10 4 (f_of_Z sig) e = Some g /\ fin g /\ Bsign g = false /\ B2R g = rnd (ten_times (B2R (f_of_Z sig)) e).
Proof.
  intros Hs He. destruct (start_ok sig Hs) as (F & _ & S & B). set (f := f_of_Z sig) in *. clearbody f. cbn [scale10].
  destruct (Z.leb_spec (Z.abs e) 308); [|lia]. unfold ten_times. destruct (Z.leb_spec 0 e).
  - destruct (pow10_ok e ltac:(lia)) as (Fp & _ & Sp & _). pose proof (pow10_bound e ltac:(lia)) as P. set (p := pow10 e) in *. clearbody p.
    assert (G : Rabs (B2R f * B2R p) <= bpow radix2 1023).
    { rewrite Rabs_pos_eq by (apply Rmult_le_pos; lra). apply Rle_trans with (bpow radix2 64 * bpow radix2 931); [apply Rmult_le_compat; lra|]. rewrite <- bpow_plus. apply bpow_le. lia. }
    destruct (fmul_R f p F Fp G) as [R1 F1]. cbv zeta. rewrite F1. eexists. split; [reflexivity|]. repeat split; auto. rewrite fmul_S by auto. now rewrite S, Sp.
  - destruct (pow10_ok (- e) ltac:(lia)) as (Fp & _ & Sp & P). set (p := pow10 (- e)) in *. clearbody p. pose proof (div_pow_bound _ _ _ B P) as D.
    assert (G : Rabs (B2R f / B2R p) <= bpow radix2 1023) by (rewrite Rabs_pos_eq by lra; apply Rle_trans with (1 := proj2 D); apply bpow_le; lia).
    destruct (fdiv_R f p F ltac:(lra) G) as [R1 F1]. eexists. split; [reflexivity|]. repeat split; auto. rewrite fdiv_S; auto; [now rewrite S, Sp|lra].
Qed.
Lemma power_ten e : powerRZ 10 e = if (0 <=? e)%Z then IZR (10 ^ e) else / IZR (10 ^ (- e)).
Proof.
  assert (G : forall p, 10 ^ Pos.to_nat p = IZR (10 ^ Z.pos p)) by (intros p; rewrite pow_IZR, positive_nat_Z; reflexivity).
  destruct e as [|p|p]; cbn [powerRZ Z.leb Z.compare Z.opp]; [reflexivity| |]; now rewrite G.
Qed.
Lemma ten_exact sig e : (0 <= sig < 2 ^ 53)%Z -> (Z.abs e <= 22)%Z -> ten_times (B2R (f_of_Z sig)) e = IZR sig * powerRZ 10 e.
Proof.
  intros Hs He. destruct (f_of_Z_R sig ltac:(lia)) as [R _]. rewrite power_ten. unfold ten_times. rewrite R. destruct (Z.leb_spec 0 e); rewrite pow10_exact by lia; reflexivity.
Qed.
Lemma rel x : bpow radix2 (-1022) <= x -> exists eps, Rabs eps <= bpow radix2 (-53) /\ rnd x = x * (1 + eps).
Proof.
  intros H. assert (0 < x) by (apply Rlt_le_trans with (2 := H); apply bpow_gt_0).
  destruct (relative_error_N_FLT_ex radix2 (-1074) 53 ltac:(reflexivity) (fun x => negb (Z.even x)) x) as (eps & B & E).
  { rewrite Rabs_pos_eq by lra. exact H. }
  exists eps. split; [|exact E]. replace (bpow radix2 (-53)) with (/ 2 * bpow radix2 (-53 + 1)); [exact B|]. rewrite bpow_plus. change (bpow radix2 1) with 2. lra.
Qed.
Lemma three u a b c : 0 < u <= 1 / 8 -> Rabs a <= u -> Rabs b <= u -> Rabs c <= u ->
  Rabs ((1 + a) * (1 + b) * (1 + c) - 1) <= 4 * u /\ Rabs ((1 + a) * (1 + c) / (1 + b) - 1) <= 4 * u.
Proof.
  intros U A B C. apply Rabs_le_inv in A, B, C. 
  assert (AB : Rabs (a * b) <= u * u) by (rewrite Rabs_mult; apply Rmult_le_compat; try apply Rabs_pos; apply Rabs_le; lra).
  assert (AC : Rabs (a * c) <= u * u) by (rewrite Rabs_mult; apply Rmult_le_compat; try apply Rabs_pos; apply Rabs_le; lra).
  assert (BC : Rabs (b * c) <= u * u) by (rewrite Rabs_mult; apply Rmult_le_compat; try apply Rabs_pos; apply Rabs_le; lra).
  assert (ABC : Rabs (a * b * c) <= u * u) .
  { rewrite Rabs_mult. apply Rle_trans with (u * u * 1); [|lra]. apply Rmult_le_compat; try apply Rabs_pos; [exact AB|]. apply Rabs_le; lra. }
  apply Rabs_le_inv in AB, AC, BC, ABC. assert (UU : u * u <= u / 8) by (replace (u / 8) with (u * (1 / 8)) by lra; apply Rmult_le_compat_l; lra). split.
  - replace ((1 + a) * (1 + b) * (1 + c) - 1) with (a + b + c + a * b + a * c + b * c + a * b * c) by ring. apply Rabs_le. split; lra.
  - replace ((1 + a) * (1 + c) / (1 + b) - 1) with ((a + c + a * c - b) / (1 + b)) by (field; lra). unfold Rdiv. rewrite Rabs_mult, (Rabs_pos_eq (/ (1 + b))) by (apply Rlt_le, Rinv_0_lt_compat; lra).
    apply Rmult_le_reg_r with (1 + b); [lra|]. rewrite Rmult_assoc, Rinv_l, Rmult_1_r by lra. apply Rle_trans with (3 * u + u * u); [apply Rabs_le; lra|].
    apply Rle_trans with (4 * u * (1 - u)); [lra|]. apply Rmult_le_compat_l; lra.
Qed.
Lemma ten_close sig e : (0 <= sig <= 18446744073709551615)%Z -> (Z.abs e <= 280)%Z ->
  Rabs (rnd (ten_times (B2R (f_of_Z sig)) e) - IZR sig * powerRZ 10 e) <= IZR sig * powerRZ 10 e * bpow radix2 (-51).
Proof.
  intros Hs He. destruct (start_ok sig Hs) as (_ & R & _). rewrite R.
  assert (T : bpow radix2 (-51) = 4 * bpow radix2 (-53)) by (change 4 with (bpow radix2 2); rewrite <- bpow_plus; reflexivity).
  assert (U : 0 < bpow radix2 (-53) <= 1 / 8) by (split; [apply bpow_gt_0|]; replace (1 / 8) with (bpow radix2 (-3)) by (cbn; lra); apply bpow_le; lia).
  destruct (Z.eq_dec sig 0) as [->|N].
  { rewrite rnd_0. unfold ten_times. replace (if (0 <=? e)%Z then 0 * B2R (pow10 e) else 0 / B2R (pow10 (- e))) with 0 by (destruct (0 <=? e)%Z; unfold Rdiv; ring).
    rewrite rnd_0, !Rmult_0_l, Rminus_0_r, Rabs_R0. lra. }
  assert (A1 : 1 <= IZR sig) by (apply IZR_le; lia). assert (Hm : bpow radix2 (-1022) <= 1) by (change 1 with (bpow radix2 0); apply bpow_le; lia).
  destruct (rel (IZR sig) ltac:(lra)) as (e1 & B1 & ->). set (k := Z.abs e) in *. assert (P1 : 1 <= IZR (10 ^ k)) by (apply IZR_le; pose proof (Z.pow_pos_nonneg 10 k ltac:(lia) ltac:(lia)); lia).
  assert (P2 : IZR (10 ^ k) <= bpow radix2 931).
  { rewrite <- (IZR_Zpower radix2 931) by lia. apply IZR_le. change (radix_val radix2) with 2%Z. apply Z.le_trans with (10 ^ 280)%Z; [apply Z.pow_le_mono_r; lia|]. apply Z.leb_le. vm_compute. reflexivity. }
  destruct (rel (IZR (10 ^ k)) ltac:(lra)) as (e2 & B2 & E2). rewrite power_ten. unfold ten_times.
  pose proof B1 as C1. pose proof B2 as C2. apply Rabs_le_inv in C1, C2.
  set (s := IZR sig) in *. set (p := IZR (10 ^ k)) in *.
  destruct (Z.leb_spec 0 e).
  - replace e with k by lia. destruct (pow10_ok k ltac:(lia)) as (_ & -> & _). fold p. rewrite E2.
    destruct (rel (s * (1 + e1) * (p * (1 + e2)))) as (e3 & B3 & ->).
    { apply Rle_trans with (1 * (1 / 2) * (1 * (1 / 2))); [|apply Rmult_le_compat; try lra; apply Rmult_le_compat; lra].
      replace (1 * (1 / 2) * (1 * (1 / 2))) with (bpow radix2 (-2)) by (cbn; lra). apply bpow_le. lia. }
    replace (s * (1 + e1) * (p * (1 + e2)) * (1 + e3) - s * p) with (s * p * ((1 + e1) * (1 + e2) * (1 + e3) - 1)) by ring.
    assert (0 <= s * p) by (apply Rmult_le_pos; lra). rewrite Rabs_mult, (Rabs_pos_eq (s * p)) by lra. apply Rmult_le_compat_l; [lra|]. rewrite T. now apply three.
  - replace (- e)%Z with k by lia. destruct (pow10_ok k ltac:(lia)) as (_ & -> & _). fold p. rewrite E2.
    assert (Q1 : 0 < p * (1 + e2)) by (apply Rmult_lt_0_compat; lra).
    destruct (rel (s * (1 + e1) / (p * (1 + e2)))) as (e3 & B3 & ->).
    { apply Rmult_le_reg_r with (p * (1 + e2)); [exact Q1|]. unfold Rdiv. rewrite Rmult_assoc, Rinv_l, Rmult_1_r by lra.
      apply Rle_trans with (bpow radix2 (-1022) * (bpow radix2 931 * bpow radix2 1)).
      - apply Rmult_le_compat_l; [apply bpow_ge_0|]. apply Rmult_le_compat; try lra. change (bpow radix2 1) with 2. lra.
      - rewrite <- !bpow_plus. apply Rle_trans with (1 * (1 / 2)); [|apply Rmult_le_compat; lra]. replace (1 * (1 / 2)) with (bpow radix2 (-1)) by (cbn; lra). apply bpow_le. lia. }
    replace (s * (1 + e1) / (p * (1 + e2)) * (1 + e3) - s * / p) with (s * / p * ((1 + e1) * (1 + e3) / (1 + e2) - 1)) by (field; lra).
    assert (0 <= s * / p) by (apply Rmult_le_pos; [lra|apply Rlt_le, Rinv_0_lt_compat; lra]). rewrite Rabs_mult, (Rabs_pos_eq (s * / p)) by lra. apply Rmult_le_compat_l; [lra|]. rewrite T. now apply three.
Qed.

(** ** Digits *)
Definition grow (a : Z) (l : list ascii) : Z := fold_left (fun a c => (a * 10 + (code c - 48))%Z) l a.
Lemma grow_le l : Forall digit l -> forall a, (0 <= a)%Z -> (a <= grow a l)%Z.
Proof.
  induction 1 as [|c l D F IH]; intros a Ha; cbn [grow fold_left]; [lia|]. unfold digit in D. specialize (IH (a * 10 + (code c - 48))%Z ltac:(lia)). unfold grow in IH. lia.
Qed.
Lemma add_all l : Forall digit l -> forall a, (0 <= a)%Z -> (grow a l <= 18446744073709551615)%Z -> add_digits a l = (grow a l, Z.of_nat (List.length l), []).
Proof.
  induction 1 as [|c l D F IH]; intros a Ha B; [reflexivity|]. cbn [add_digits grow fold_left]. change (digit_value c) with (code c - 48)%Z. unfold digit in D.
  set (a' := (a * 10 + (code c - 48))%Z). assert (Ha' : (0 <= a')%Z) by (unfold a'; lia). pose proof (grow_le l F a' Ha') as G. change (grow a (c :: l)) with (grow a' l) in B.
  unfold usize_max. destruct (Z.leb_spec a' 18446744073709551615); [|lia]. rewrite IH by auto. cbn [List.length]. f_equal. f_equal. lia.
Qed.
Lemma exp_all l : Forall digit l -> forall a, (0 <= a)%Z -> (grow a l <= 2147483647)%Z -> exp_digits a l = Some (grow a l).
Proof.
  induction 1 as [|c l D F IH]; intros a Ha B; [reflexivity|]. cbn [exp_digits grow fold_left]. change (digit_value c) with (code c - 48)%Z. unfold digit in D.
  set (a' := (a * 10 + (code c - 48))%Z). assert (Ha' : (0 <= a')%Z) by (unfold a'; lia). pose proof (grow_le l F a' Ha') as G. change (grow a (c :: l)) with (grow a' l) in B.
  destruct (Z.leb_spec a' 2147483647); [|lia]. cbv zeta. now apply IH.
Qed.
(** added digits fit in any case *)
Lemma add_fits l : Forall digit l -> forall a, (0 <= a <= 18446744073709551615)%Z -> (0 <= fst (fst (add_digits a l)) <= 18446744073709551615)%Z.
Proof.
  induction 1 as [|c l D F IH]; intros a Ha; [exact Ha|]. cbn [add_digits]. change (digit_value c) with (code c - 48)%Z. unfold digit in D. cbv zeta.
  unfold usize_max. destruct (Z.leb_spec (a * 10 + (code c - 48)) 18446744073709551615); [|exact Ha]. specialize (IH (a * 10 + (code c - 48))%Z ltac:(lia)).
  destruct (add_digits _ l) as [[s k] rest]. exact IH.
Qed.
Lemma add_none l : Forall digit l -> forall a s k, (0 <= a <= 18446744073709551615)%Z -> add_digits a l = (s, k, []) -> s = grow a l /\ (s <= 18446744073709551615)%Z.
Proof.
  induction 1 as [|c l D F IH]; intros a s k Ha; cbn [add_digits]; [intros Q; injection Q as <- _; split; [reflexivity|lia]|].
  change (digit_value c) with (code c - 48)%Z. unfold digit in D. cbv zeta. unfold usize_max.
  destruct (Z.leb_spec (a * 10 + (code c - 48)) 18446744073709551615); [|discriminate].
  destruct (add_digits _ l) as [[s' k'] rest] eqn:E. intros Q. injection Q as <- _ ->. apply IH in E; [exact E|lia].
Qed.
Lemma digits_split f : figure_digits f = grow (grow 0 (ft_whole f)) (part_digits f).
Proof. unfold figure_digits, amount, grow. now rewrite fold_left_app. Qed.
Lemma integral_dec f : integral f \/ ~ integral f.
Proof.
  unfold integral. destruct (ft_part f); [right; intros (H & _); discriminate|]. destruct (ft_exp f); [right; intros (_ & H & _); discriminate|].
  destruct (ft_minus f).
  - destruct (Z_le_dec 1 (figure_digits f)), (Z_le_dec (figure_digits f) 9223372036854775808); intuition lia.
  - destruct (Z_le_dec (figure_digits f) 18446744073709551615); intuition lia.
Qed.
Lemma part_ok f : well_formed f -> Forall digit (ft_whole f) /\ Forall digit (part_digits f).
Proof. intros (A & _ & B & _). split; [exact A|]. unfold part_digits. destruct (ft_part f); [tauto|constructor]. Qed.
Lemma figure_digits_nonneg f : well_formed f -> (0 <= grow 0 (ft_whole f) <= figure_digits f)%Z.
Proof.
  intros W. destruct (part_ok f W) as [A B]. pose proof (grow_le _ A 0 ltac:(lia)). rewrite digits_split. split; [lia|]. apply grow_le; [exact B|lia].
Qed.
Lemma reads_integral f : well_formed f -> integral f -> reads f = Some (JInt (signed_digits f)).
Proof.
  intros W (P & X & H). destruct (part_ok f W) as [A _]. pose proof (figure_digits_nonneg f W) as N. unfold reads. rewrite P, X. unfold number_value, signed_digits.
  pose proof (digits_split f) as D. unfold part_digits in D. rewrite P in D. cbn [grow fold_left] in D. change (fold_left _ [] ?a) with a in D.
  rewrite (add_all _ A 0) by (try lia; destruct (ft_minus f); unfold grow in *; lia). rewrite D. cbv iota beta.
  destruct (ft_minus f); cbn [negb]; [|reflexivity].
  destruct (Z.leb_spec 1 (grow 0 (ft_whole f))), (Z.leb_spec (grow 0 (ft_whole f)) 9223372036854775808); unfold grow in *; try lia. reflexivity.
Qed.
Lemma reads_usual f : well_formed f -> usual_number f -> ~ integral f ->
  exists g, reads f = Some (JFloat (if ft_minus f then fneg g else g)) /\ fin g /\ Bsign g = false /\
    B2R g = rnd (ten_times (B2R (f_of_Z (figure_digits f))) (ten_exp f)).
Proof.
  intros W (U1 & U2 & U3) N. destruct (part_ok f W) as [A B]. pose proof (figure_digits_nonneg f W) as P. destruct W as (_ & _ & _ & Wx).
  destruct (scale_value (figure_digits f) (ten_exp f) ltac:(lia) U2) as (g & Eg & Fg & Sg & Rg).
  unfold reads, number_value. rewrite (add_all _ A 0) by lia. cbv iota beta. cbn [List.length Z.of_nat].
  pose proof (digits_split f) as D. unfold ten_exp in *. unfold part_digits in *. unfold exp_of in *. fold (grow 0) in *.
  assert (X : forall m l, ft_exp f = Some (m, l) -> exp_digits 0 l = Some (amount l)).
  { intros m l E. rewrite E in *. destruct Wx as (_ & F & _). apply (exp_all l F 0); [lia|]. change (grow 0 l) with (amount l). pose proof (grow_le l F 0 ltac:(lia)) as G. change (grow 0 l) with (amount l) in G.
    destruct (existsb (String.eqb m) ["e-"%string; "E-"%string]); lia. }
  destruct (ft_part f) as [p|] eqn:Ep; [|destruct (ft_exp f) as [[m l]|] eqn:Ex].
  - rewrite (add_all p B) by lia. rewrite <- D. destruct (ft_exp f) as [[m l]|] eqn:Ex.
    + unfold with_exponent. rewrite (X m l eq_refl). unfold minus_exp, from_parts.
      replace (sat32 _) with ((if existsb (String.eqb m) ["e-"%string; "E-"%string] then - amount l else amount l) - Z.of_nat (List.length p))%Z
        by (unfold sat32; destruct (existsb (String.eqb m) ["e-"%string; "E-"%string]); lia).
      exists g. rewrite Eg. auto.
    + unfold from_parts. exists g. rewrite Eg. auto.
  - cbn [grow fold_left List.length] in *. change (fold_left _ [] ?a) with a in D. rewrite <- D. unfold with_exponent. rewrite (X m l eq_refl). unfold minus_exp, from_parts.
    replace (sat32 _) with ((if existsb (String.eqb m) ["e-"%string; "E-"%string] then - amount l else amount l) - Z.of_nat 0)%Z
      by (unfold sat32; destruct (existsb (String.eqb m) ["e-"%string; "E-"%string]); lia).
    exists g. rewrite Eg. auto.
  - change (fold_left _ [] ?a) with a in D. cbn [grow fold_left] in D. fold (grow 0 (ft_whole f)). rewrite <- D.
    destruct (ft_minus f) eqn:M; [|exfalso; apply N; unfold integral; rewrite Ep, Ex, M; auto]. cbn [negb].
    destruct (Z.leb_spec 1 (figure_digits f)), (Z.leb_spec (figure_digits f) 9223372036854775808); cbn [andb];
      try (exfalso; apply N; unfold integral; rewrite Ep, Ex, M; auto; fail);
      (exists (f_of_Z (figure_digits f)); destruct (start_ok (figure_digits f) ltac:(lia)) as (F1 & R1 & S1 & _); repeat split; auto; unfold ten_times; cbn [List.length Z.of_nat Z.sub Z.add Z.opp Z.leb Z.compare];
       rewrite (pow10_exact 0) by lia; change (10 ^ 0)%Z with 1%Z; rewrite Rmult_1_r; symmetry; apply rnd_f64).
Qed.
Lemma signed_R b g v : fin g -> Bsign g = false -> B2R g = rnd v -> closest b ((if b then -1 else 1) * v) (if b then fneg g else g).
Proof.
  intros F S R. unfold closest. destruct b.
  - unfold fneg. rewrite is_finite_Bopp, B2R_Bopp, Bsign_Bopp by (destruct g; try reflexivity; discriminate). rewrite S. repeat split; auto.
    replace (-1 * v) with (- v) by ring. change (round radix2 (FLT_exp (-1074) 53) ZnearestE (- v)) with (rnd (- v)). rewrite R. symmetry. apply round_NE_opp.
  - rewrite Rmult_1_l. repeat split; auto.
Qed.
Lemma signed_close b g v : fin g -> Bsign g = false -> 0 <= v -> Rabs (B2R g - v) <= v * bpow radix2 (-51) -> close b ((if b then -1 else 1) * v) (if b then fneg g else g).
Proof.
  intros F S V R. unfold close. destruct b.
  - unfold fneg. rewrite is_finite_Bopp, B2R_Bopp, Bsign_Bopp by (destruct g; try reflexivity; discriminate). rewrite S. repeat split; auto.
    replace (- B2R g - -1 * v) with (- (B2R g - v)) by ring. replace (-1 * v) with (- v) by ring. rewrite !Rabs_Ropp, (Rabs_pos_eq v) by exact V. exact R.
  - rewrite Rmult_1_l, (Rabs_pos_eq v) by exact V. repeat split; auto.
Qed.
Lemma value_split f : figure_value f = (if ft_minus f then -1 else 1) * (IZR (figure_digits f) * powerRZ 10 (ten_exp f)).
Proof. unfold figure_value. apply Rmult_assoc. Qed.
Lemma short_usual f : short_number f -> usual_number f.
Proof. unfold short_number, usual_number. lia. Qed.
Lemma usual_close f x : well_formed f -> ~ integral f -> reads f = Some (JFloat x) -> (short_number f -> closest (ft_minus f) (figure_value f) x) /\ (usual_number f -> close (ft_minus f) (figure_value f) x).
Proof.
  intros W N R. pose proof (figure_digits_nonneg f W) as P. split; intros H.
  - destruct (reads_usual f W (short_usual f H) N) as (g & E & F & S & B). rewrite E in R. injection R as <-. destruct H as (H1 & H2 & _).
    rewrite value_split. apply signed_R; auto. rewrite B. f_equal. apply ten_exact; lia.
  - destruct (reads_usual f W H N) as (g & E & F & S & B). rewrite E in R. injection R as <-. destruct H as (H1 & H2 & _).
    rewrite value_split. apply signed_close; auto; [|rewrite B; apply ten_close; lia]. apply Rmult_le_pos; [apply IZR_le; lia|]. apply powerRZ_le. lra.
Qed.
Lemma signed_fin (b : bool) (g : f64) : fin g -> fin (if b then fneg g else g).
Proof. intros F. destruct b; [unfold fneg; now rewrite is_finite_Bopp|exact F]. Qed.
Lemma parts_fin b sig e j : (0 <= sig <= 18446744073709551615)%Z -> from_parts b sig e = Some j -> exists x, j = JFloat x /\ fin x.
Proof.
  intros H. unfold from_parts. destruct (scale10 4 (f_of_Z sig) e) eqn:S; [|discriminate]. intros Q. injection Q as <-.
  destruct (start_ok sig H) as (F & _ & _ & B). apply (scale_finite _ _ _ _ F B) in S. eexists. split; [reflexivity|]. now apply signed_fin.
Qed.
Lemma reads_float f j : well_formed f -> ~ integral f -> reads f = Some j -> exists x, j = JFloat x /\ fin x.
Proof.
  intros W N. destruct (part_ok f W) as [A B]. unfold reads, number_value.
  destruct (add_digits 0 (ft_whole f)) as [[sig k] more] eqn:E. pose proof (add_fits _ A 0 ltac:(lia)) as S. rewrite E in S. cbn [fst] in S.
  assert (WE : forall b s e0 ne l j, (0 <= s <= 18446744073709551615)%Z -> with_exponent b s e0 ne l = Some j -> exists x, j = JFloat x /\ fin x).
  { intros b s e0 ne l j0 Hs. unfold with_exponent. destruct (exp_digits 0 l); [now apply parts_fin|]. destruct (negb (s =? 0)%Z && negb ne); [discriminate|].
    intros Q. injection Q as <-. eexists. split; [reflexivity|]. now destruct b. }
  unfold part_digits in B. destruct (ft_part f) as [p|] eqn:Ep.
  - destruct (add_digits sig p) as [[sig' k'] rest] eqn:E'. pose proof (add_fits _ B sig S) as S'. rewrite E' in S'. cbn [fst] in S'.
    destruct (ft_exp f) as [[m l]|]; [now apply WE|now apply parts_fin].
  - destruct (ft_exp f) as [[m l]|] eqn:Ex; [now apply WE|]. destruct more as [|c more]; [|now apply parts_fin].
    apply add_none in E as [E1 E2]; [|exact A|lia]. pose proof (digits_split f) as D. unfold part_digits in D. rewrite Ep in D. cbn [grow fold_left] in D. change (fold_left _ [] ?a) with a in D. fold (grow 0 (ft_whole f)) in D.
    unfold integral in N. rewrite Ep, Ex, D, <- E1 in N.
    destruct (ft_minus f); cbn [negb]; [|exfalso; tauto].
    destruct (Z.leb_spec 1 sig), (Z.leb_spec sig 9223372036854775808); cbn [andb]; try (exfalso; tauto); intros Q; injection Q as <-; (eexists; split; [reflexivity|]; apply (signed_fin true); now apply start_ok).
Qed.

(** ** The three kinds of numbers *)
Lemma read_exact t j : exact_number t j -> read_number t j.
Proof.
  intros (f & W & -> & [(I & ->)|(N & S & x & C & ->)]); exists f; split; auto; split; auto; [now apply reads_integral|].
  destruct (reads_usual f W (short_usual f S) N) as (g & E & F & Sg & B). rewrite E. do 2 f_equal. set (y := if ft_minus f then fneg g else g) in *.
  destruct (usual_close f y W N E) as [K _]. destruct (K S) as (F1 & R1 & S1). destruct C as (F2 & R2 & S2).
  apply B2R_Bsign_inj; auto; congruence.
Qed.
Lemma read_fair t j : read_number t j -> fair_number t j.
Proof.
  intros (f & W & -> & R). exists f. split; [exact W|]. split; [reflexivity|]. destruct (integral_dec f) as [I|N].
  - left. split; [exact I|]. rewrite (reads_integral f W I) in R. now injection R as <-.
  - right. split; [exact N|]. destruct (reads_float f j W N R) as (x & -> & F). exists x. destruct (usual_close f x W N R). auto.
Qed.
Lemma usual_reads t j : usual_text t j -> exists j', read_number t j'.
Proof.
  intros (f & W & -> & H). destruct (integral_dec f) as [I|N].
  - exists (JInt (signed_digits f)), f. auto using reads_integral.
  - destruct H as [H|H]; [contradiction|]. destruct (reads_usual f W H N) as (g & E & _). eexists _, f. eauto.
Qed.
