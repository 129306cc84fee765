From Coq Require Import ZArith Reals Bool List Arith Lia Lra.
From Flocq Require Import Core BinarySingleNaN.
From Verif Require Import F64 F64Facts Kurbo Value Animated ValueSpec ValueFacts.
Import ListNotations.
Open Scope nat_scope.

(** ** f32 to f64 and back *)
Lemma format32_64 (x : f32) : format (B2R x).
Proof.
  apply generic_inclusion_mag with (fexp1 := SpecFloat.fexp 24 128).
  - intros _. unfold SpecFloat.fexp, SpecFloat.emin. lia.
  - apply generic_format_B2R.
Qed.
Lemma f32_to_f64_fin (x : f32) : fin x ->
  fin (f32_to_f64 x) /\ B2R (f32_to_f64 x) = B2R x /\ Bsign (f32_to_f64 x) = Bsign x.
Proof.
  destruct x as [s|s| |s m e Hb]; simpl; try discriminate; auto. intros _.
  pose proof (binary_normalize_correct 53 1024 _ _ mode_NE (cond_Zopp s (Zpos m)) e s) as P. cbv zeta in P.
  pose proof (format32_64 (B754_finite s m e Hb)) as G. cbn [B2R] in G.
  pose proof (abs_B2R_lt_emax 24 128 (B754_finite s m e Hb)) as L. cbn [B2R] in L.
  rewrite round_generic in P by (exact G || typeclasses eauto).
  rewrite Rlt_bool_true in P by (eapply Rlt_trans; [exact L|apply bpow_lt; lia]).
  destruct P as (P1 & P2 & P3). repeat split; auto. rewrite P3.
  destruct s; cbn [cond_Zopp].
  - rewrite Rcompare_Lt; [reflexivity|]. apply F2R_lt_0. reflexivity.
  - rewrite Rcompare_Gt; [reflexivity|]. apply F2R_gt_0. reflexivity.
Qed.
Lemma f64_to_f32_fin (y : f64) (x : f32) : fin x -> fin y -> B2R y = B2R x -> Bsign y = Bsign x ->
  f64_to_f32 y = x.
Proof.
  intros Fx Fy E S. destruct y as [s|s| |s m e Hb]; try discriminate.
  - simpl in *. destruct x as [s'|s'| |s' m e Hb]; try discriminate; simpl in *.
    + now subst.
    + symmetry in E. apply eq_0_F2R in E. destruct s'; discriminate.
  - pose proof (binary_normalize_correct 24 128 _ _ mode_NE (cond_Zopp s (Zpos m)) e s) as P. cbv zeta in P.
    cbn [B2R Bsign] in E, S. rewrite E in P.
    rewrite round_generic in P by (apply generic_format_B2R || typeclasses eauto).
    rewrite Rlt_bool_true in P by apply abs_B2R_lt_emax.
    destruct P as (P1 & P2 & P3). unfold f64_to_f32. apply B2R_Bsign_inj; auto.
    rewrite P3, <- S, <- E. destruct s; cbn [cond_Zopp].
    + rewrite Rcompare_Lt; [reflexivity|]. apply F2R_lt_0. reflexivity.
    + rewrite Rcompare_Gt; [reflexivity|]. apply F2R_gt_0. reflexivity.
Qed.
Lemma f32_roundtrip (x : f32) : f64_to_f32 (f32_to_f64 x) = x.
Proof.
  destruct (is_finite x) eqn:F.
  - destruct (f32_to_f64_fin x F) as (A & B & C). now apply f64_to_f32_fin.
  - destruct x; try discriminate; reflexivity.
Qed.

(** ** The easing curve stays bounded *)
Lemma fabs_mag x k : mag_le x k -> mag_le (fabs x) k.
Proof. intros [F B]. split; unfold fabs; [rewrite is_finite_Babs; auto|]. rewrite B2R_Babs, Rabs_Rabsolu. exact B. Qed.
Lemma fmax_mag x y k : mag_le x k -> mag_le y k -> mag_le (fmax x y) k.
Proof. intros A B. unfold fmax. destruct (is_nan x); auto. destruct (is_nan y); auto. destruct (fltb x y); auto. Qed.
Lemma between_mag r lo hi k : mag_le lo k -> mag_le hi k -> fleb lo r = true -> fleb r hi = true -> mag_le r k.
Proof.
  intros [Fl Bl] [Fh Bh] H1 H2.
  assert (Fr : fin r).
  { destruct r as [s|[]| |s m e Hb]; try reflexivity;
      [destruct lo as [[]|[]| |[]]|destruct hi as [[]|[]| |[]]|destruct lo as [[]|[]| |[]]]; simpl in *; discriminate. }
  apply fleb_le in H1, H2; auto. split; auto. apply Rabs_le. apply Rabs_le_inv in Bl, Bh. lra.
Qed.
Lemma f1_mag k : (0 <= k)%Z -> mag_le f1 k.
Proof. intros. apply mag_le_Z; lia. Qed.
Lemma f3_mag : mag_le (f_of_Z 3) 2. Proof. apply mag_le_Z; lia. Qed.
Lemma f2_mag : mag_le (f_of_Z 2) 1. Proof. apply mag_le_Z; lia. Qed.
Lemma f_1em12_mag : mag_le f_1em12 (-39).
Proof.
  assert (F : fin f_1em12) by (vm_compute; reflexivity).
  assert (H0 : fleb f0 f_1em12 = true) by (vm_compute; reflexivity).
  assert (H : fleb f_1em12 (fnorm 1 (-39)) = true) by (vm_compute; reflexivity).
  split; auto. apply fleb_le in H; auto. apply fleb_le in H0; auto. rewrite f0_R in H0.
  rewrite Rabs_pos_eq by lra.
  assert (E : B2R (fnorm 1 (-39)) = bpow radix2 (-39)).
  { unfold fnorm. pose proof (binary_normalize_correct 53 1024 _ _ mode_NE 1 (-39) false) as P. cbv zeta in P.
    assert (E : F2R (Float radix2 1 (-39)) = bpow radix2 (-39)) by apply F2R_bpow. rewrite E in P.
    rewrite round_generic in P; [|typeclasses eauto|apply generic_format_bpow; unfold SpecFloat.fexp, SpecFloat.emin; lia].
    rewrite Rlt_bool_true in P; [tauto|]. rewrite Rabs_pos_eq by apply bpow_ge_0. apply bpow_lt. lia. }
  rewrite <- E. exact H.
Qed.
Ltac magw k := apply mag_le_weaken with k; [lia|].
Lemma tween_param_mag E x1 x2 t : mag_le x1 20 -> mag_le x2 20 -> mag_le (tween_param E x1 x2 t) 1.
Proof.
  intros H1 H2. unfold tween_param.
  assert (C1 : mag_le (tween_c1 x1) 30).
  { unfold tween_c1. magw (2 + 21)%Z. apply mag_le_mul; [lia|apply f3_mag|].
    apply (mag_le_sub _ _ 20); [lia|auto|apply mag_le_0]. }
  assert (C2 : mag_le (tween_c2 x1 x2) 30).
  { unfold tween_c2. magw (2 + 24)%Z. apply mag_le_mul; [lia|apply f3_mag|].
    apply (mag_le_add _ _ 23); [lia| |apply mag_le_0]. magw 22%Z. apply (mag_le_sub _ _ 21); [lia| |].
    - magw 20%Z; auto.
    - apply (mag_le_mul _ _ 1 20); [lia|apply f2_mag|auto]. }
  assert (C3 : mag_le (tween_c3 x1 x2) 30).
  { unfold tween_c3. magw 25%Z. apply (mag_le_sub _ _ 24); [lia| |apply mag_le_0].
    apply (mag_le_add _ _ 23); [lia| |].
    - apply (mag_le_sub _ _ 22); [lia|apply f1_mag; lia|]. apply (mag_le_mul _ _ 2 20); [lia|apply f3_mag|auto].
    - magw 22%Z. apply (mag_le_mul _ _ 2 20); [lia|apply f3_mag|auto]. }
  cbv zeta. set (mc := fmax (fmax (fmax (fabs f0) _) _) _).
  assert (M : mag_le mc 30).
  { unfold mc. repeat apply fmax_mag; try (apply fabs_mag; auto). apply mag_le_0. }
  set (eps := fmul f_1em12 (fmax mc f1)).
  assert (Ep : mag_le eps (-39 + 30)).
  { apply mag_le_mul; [lia|apply f_1em12_mag|]. apply fmax_mag; auto. apply f1_mag. lia. }
  destruct (find _ _) as [r|] eqn:F.
  - apply find_some in F. destruct F as [_ F]. apply andb_true_iff in F. destruct F as [F1 F2].
    eapply between_mag; [| |exact F1|exact F2].
    + destruct Ep as [A B]. split; unfold fneg; [now rewrite is_finite_Bopp|]. rewrite B2R_Bopp, Rabs_Ropp.
      eapply Rle_trans; [exact B|]. apply bpow_le. lia.
    + apply (mag_le_add _ _ 0); [lia|apply f1_mag; lia|]. magw (-39+30)%Z. exact Ep.
  - destruct (fleb _ _); [apply mag_le_0|apply f1_mag; lia].
Qed.
Lemma cubic_mag a1 a2 u : mag_le a1 1000 -> mag_le a2 1000 -> mag_le u 1 ->
  mag_le (cubic_eval1 f0 a1 a2 f1 u) 1012.
Proof.
  intros H1 H2 Hu. unfold cubic_eval1. cbv zeta.
  assert (Hm : mag_le (fsub f1 u) 2) by (apply (mag_le_sub _ _ 1); [lia|apply f1_mag; lia|auto]).
  set (mt := fsub f1 u) in *.
  assert (Hmm : mag_le (fmul mt mt) 4) by (apply (mag_le_mul _ _ 2 2); auto; lia).
  magw (1011 + 1)%Z. apply mag_le_add; [lia| |].
  - magw (0 + 6)%Z. apply (mag_le_mul _ _ 0 6); [lia|apply mag_le_0|]. apply (mag_le_mul _ _ 4 2); auto; lia.
  - magw (1007 + 1)%Z. apply mag_le_mul; [lia| |auto]. apply (mag_le_add _ _ 1006); [lia| |].
    + apply (mag_le_mul _ _ 1000 6); [lia|auto|]. apply (mag_le_mul _ _ 4 2); [lia|auto|apply f3_mag].
    + apply (mag_le_mul _ _ 1005 1); [lia| |auto]. apply (mag_le_add _ _ 1004); [lia| |].
      * apply (mag_le_mul _ _ 1000 4); [lia|auto|]. apply (mag_le_mul _ _ 2 2); [lia|auto|apply f3_mag].
      * magw (1000 + 1)%Z. apply mag_le_mul; [lia|apply f1_mag; lia|auto].
Qed.

(** ** Tween *)
Lemma tween_f64_low E a b t e : fleb t f0 = true -> tween_f64 E a b t e = a.
Proof. intros H. unfold tween_f64. now rewrite H. Qed.
Lemma fleb_1_not_0 t : fleb f1 t = true -> fleb t f0 = false.
Proof. destruct t as [[]|[]| |[]]; simpl; auto; discriminate. Qed.
Lemma tween_f64_high E a b t e : fleb f1 t = true -> tween_f64 E a b t e = b.
Proof. intros H. unfold tween_f64. now rewrite fleb_1_not_0, H. Qed.
Lemma sane_param E h t : sane_time h ->
  mag_le (tween_param E (hx (eo (segment_easing h))) (hx (ei (segment_easing h))) t) 1.
Proof.
  intros [Ho Hi]. unfold segment_easing. cbn [eo ei]. apply tween_param_mag.
  - destruct (t_out h) as [o|]; [|apply mag_le_0]. destruct Ho as (A & B & _). now split.
  - destruct (t_in h) as [o|]; [|apply f1_mag; lia]. destruct Hi as (A & B & _). now split.
Qed.
Lemma sane_eased E h t : sane_time h ->
  mag_le (cubic_eval1 f0 (hy (eo (segment_easing h))) (hy (ei (segment_easing h))) f1
     (tween_param E (hx (eo (segment_easing h))) (hx (ei (segment_easing h))) t)) 1012.
Proof.
  intros H. apply cubic_mag; [| |now apply sane_param]; destruct H as [Ho Hi]; unfold segment_easing; cbn [eo ei].
  - destruct (t_out h) as [o|]; [|apply mag_le_0]. apply Ho.
  - destruct (t_in h) as [o|]; [|apply f1_mag; lia]. apply Hi.
Qed.
Lemma tween_self_zero E a t h : sane_time h -> fin a ->
  tween_f64 E a a t (segment_easing h) = a \/
  exists z, fin z /\ B2R z = 0%R /\ tween_f64 E a a t (segment_easing h) = fadd a z.
Proof.
  intros Hs Fa. unfold tween_f64. destruct (fleb t f0); [now left|]. destruct (fleb f1 t); [now left|]. right.
  rewrite fsub_diag by assumption.
  set (y := cubic_eval1 _ _ _ _ _). assert (mag_le y 1012) as [Fy _] by now apply sane_eased.
  exists (fmul (B754_zero false) y). repeat split; auto; destruct y; try discriminate; reflexivity.
Qed.
Lemma feqb_refl x : fin x -> feqb x x = true. Proof. intros. now apply feqb_eq. Qed.
Lemma tween_self_f64 E a t h : sane_time h -> fin a -> same_number (tween_f64 E a a t (segment_easing h)) a.
Proof.
  intros Hs Fa. unfold same_number. destruct (tween_self_zero E a t h Hs Fa) as [->|(z & Fz & Ez & ->)].
  - now apply feqb_refl.
  - now apply fadd_zero.
Qed.
Lemma fadd_zero_strict x z : fin x -> fin z -> B2R z = 0%R -> B2R x <> 0%R -> fadd x z = x.
Proof.
  intros Fx Fz Ez N. pose proof (Bplus_correct 53 1024 _ _ mode_NE x z Fx Fz) as P.
  rewrite Ez, Rplus_0_r, rnd_f64 in P. rewrite Rlt_bool_true in P by apply abs_B2R_lt_emax.
  destruct P as (P1 & P2 & _). unfold fadd.
  assert (St : forall y : f64, fin y -> B2R y <> 0%R -> is_finite_strict y = true).
  { intros y Fy Ny. destruct y; try discriminate; auto; simpl in Ny; lra. }
  apply B2R_inj; auto; apply St; auto; congruence.
Qed.
Lemma tween_self_f32 E c t h : sane_time h -> fin (f32_to_f64 c) ->
  same_number (f32_to_f64 (tween_f32 E c c t (segment_easing h))) (f32_to_f64 c).
Proof.
  intros Hs Fc. unfold tween_f32.
  destruct (tween_self_zero E (f32_to_f64 c) t h Hs Fc) as [->|(z & Fz & Ez & ->)].
  - rewrite f32_roundtrip. now apply feqb_refl.
  - destruct (Req_dec (B2R (f32_to_f64 c)) 0) as [E0|N].
    + destruct (zero_of_R _ Fc E0) as [s ->]. destruct (zero_of_R _ Fz Ez) as [s' ->].
      destruct s, s'; reflexivity.
    + rewrite fadd_zero_strict by assumption. rewrite f32_roundtrip. now apply feqb_refl.
Qed.

Ltac inv_fin H := cbv [finite_value numbers numbers_f64 numbers_point numbers_vec2 numbers_size numbers_color] in H;
  repeat match goal with H : Forall _ (_ :: _) |- _ => inversion H; clear H; subst end.
#[global] Instance tween_laws_f64 : TweenLaws f64.
Proof.
  split; intros.
  - now apply tween_f64_low.
  - now apply tween_f64_high.
  - inv_fin H0. repeat (apply Forall2_cons || apply Forall2_nil); now apply tween_self_f64.
Qed.
#[global] Instance tween_laws_point : TweenLaws point.
Proof.
  split; intros; unfold tween, tween_point.
  - rewrite !tween_f64_low by assumption. now destruct a.
  - rewrite !tween_f64_high by assumption. now destruct b.
  - inv_fin H0. repeat (apply Forall2_cons || apply Forall2_nil); now apply tween_self_f64.
Qed.
#[global] Instance tween_laws_vec2 : TweenLaws vec2.
Proof.
  split; intros; unfold tween, tween_vec2.
  - rewrite !tween_f64_low by assumption. now destruct a.
  - rewrite !tween_f64_high by assumption. now destruct b.
  - inv_fin H0. repeat (apply Forall2_cons || apply Forall2_nil); now apply tween_self_f64.
Qed.
#[global] Instance tween_laws_size : TweenLaws size.
Proof.
  split; intros; unfold tween, tween_size.
  - rewrite !tween_f64_low by assumption. now destruct a.
  - rewrite !tween_f64_high by assumption. now destruct b.
  - inv_fin H0. repeat (apply Forall2_cons || apply Forall2_nil); now apply tween_self_f64.
Qed.
#[global] Instance tween_laws_color : TweenLaws color.
Proof.
  split; intros; unfold tween, tween_color.
  - unfold tween_f32. rewrite !tween_f64_low by assumption. rewrite !f32_roundtrip. now destruct a.
  - unfold tween_f32. rewrite !tween_f64_high by assumption. rewrite !f32_roundtrip. now destruct b.
  - inv_fin H0. repeat (apply Forall2_cons || apply Forall2_nil); now apply tween_self_f32.
Qed.

(** ** Which keyframe is selected *)
Lemma moderate_finite ts : moderate_times ts -> finite_times ts.
Proof. apply Forall_impl. intros t [F _]. exact F. Qed.
Lemma surrounds_unique times frame i k : sorted_times times -> finite_times times -> fin frame ->
  surrounds times frame i -> surrounds times frame k -> i = k.
Proof.
  intros Inc Fin Ff (Hi & Li & Ui) (Hk & Lk & Uk).
  assert (W : forall i k, i < List.length times -> k < List.length times ->
     (S i < List.length times -> fltb frame (time_at times (S i)) = true) ->
     (k = 0 \/ fleb (time_at times k) frame = true) -> ~ i < k).
  { clear i k Hi Li Ui Hk Lk Uk. intros i k Hi Hk Ui Lk H. destruct Lk as [->|Lk]; [lia|].
    specialize (Ui ltac:(lia)).
    apply fltb_lt in Ui; auto; [|apply time_fin; auto; lia]. apply fleb_le in Lk; auto; [|apply time_fin; auto].
    destruct (Nat.eq_dec (S i) k) as [Ek|]; [subst k; lra|].
    pose proof (sorted_R times Inc Fin (S i) k ltac:(lia)). lra. }
  pose proof (W i k Hi Hk Ui Lk). pose proof (W k i Hk Hi Uk Li). lia.
Qed.
(** Selection at a known keyframe. *)
Lemma select times frame i : sorted_times times -> finite_times times -> fin frame -> surrounds times frame i ->
  frames_and_weight times frame =
      Some ((i, next_key times i),
            fclamp f0 f1 (fdiv (fsub frame (time_at times i))
                               (fsub (time_at times (next_key times i)) (time_at times i))),
            segment_easing (nth i times time_dflt), t_hold (nth i times time_dflt)).
Proof.
  intros Inc Fin Ff S. destruct (bracket_sorted times frame Inc Fin Ff) as (k & Sk & E).
  { destruct S as [H _]. intros ->. simpl in H. lia. }
  now rewrite (surrounds_unique times frame i k Inc Fin Ff S Sk).
Qed.
Lemma surrounds_key times i : increasing times -> finite_times times -> i < List.length times ->
  surrounds times (time_at times i) i.
Proof.
  intros Inc Fin Hi. pose proof (time_fin times Fin i Hi). split; [auto|]. split.
  - right. apply fleb_le; auto. lra.
  - intros H1. apply Inc. lia.
Qed.
Lemma surrounds_before times frame : increasing times -> finite_times times -> fin frame -> times <> [] ->
  fltb frame (time_at times 0) = true -> surrounds times frame 0.
Proof.
  intros Inc Fin Ff Ne H. assert (0 < List.length times) by (destruct times; [congruence|simpl; lia]).
  split; [auto|]. split; [auto|]. intros H1. apply fltb_lt; auto; [apply time_fin; auto|].
  apply fltb_lt in H; auto; [|apply time_fin; auto]. pose proof (inc_R times Inc Fin 0 1 ltac:(lia)). lra.
Qed.
Lemma surrounds_after times frame : times <> [] ->
  fleb (time_at times (List.length times - 1)) frame = true -> surrounds times frame (List.length times - 1).
Proof.
  intros Ne H. assert (0 < List.length times) by (destruct times; [congruence|simpl; lia]).
  split; [lia|]. split; [auto|]. intros; lia.
Qed.

(** Weights *)
Lemma fdiv_zero_pos n d : (exists s, n = B754_zero s) -> fltb f0 d = true -> fleb (fclamp f0 f1 (fdiv n d)) f0 = true.
Proof. intros [s ->] H. destruct d as [[]|[]| |[]]; simpl in H; try discriminate; destruct s; reflexivity. Qed.
Lemma fsub_same_R x a : fin x -> fin a -> B2R x = B2R a -> exists s, fsub x a = B754_zero s.
Proof.
  intros Fx Fa E. destruct (fsub_R x a Fx Fa) as [R F].
  { rewrite E, Rminus_diag_eq, Rabs_R0 by reflexivity. apply bpow_ge_0. }
  rewrite E, Rminus_diag_eq, rnd_0 in R by reflexivity. now apply zero_of_R.
Qed.
Lemma weight_at_key times frame i : increasing times -> finite_times times -> fin frame ->
  S i < List.length times -> B2R frame = B2R (time_at times i) ->
  fleb (fclamp f0 f1 (fdiv (fsub frame (time_at times i))
     (fsub (time_at times (next_key times i)) (time_at times i)))) f0 = true.
Proof.
  intros Inc Fin Ff Hi E. apply fdiv_zero_pos.
  - apply fsub_same_R; auto. apply time_fin; auto. lia.
  - unfold next_key. rewrite Nat.min_l by lia. apply fsub_sign_pos; try (apply time_fin; auto; lia).
    apply inc_R; auto; lia.
Qed.
Lemma weight_before_first times frame : increasing times -> moderate_times times -> fin frame -> times <> [] ->
  fltb frame (time_at times 0) = true ->
  fleb (fclamp f0 f1 (fdiv (fsub frame (time_at times 0))
     (fsub (time_at times (next_key times 0)) (time_at times 0)))) f0 = true.
Proof.
  intros Inc Mod Ff Ne H. pose proof (moderate_finite _ Mod) as Fin.
  assert (L : 0 < List.length times) by (destruct times; [congruence|simpl; lia]).
  assert (Hm : forall i, i < List.length times -> moderate (time_at times i)).
  { intros i Hi. unfold moderate_times in Mod. rewrite Forall_forall in Mod. apply Mod. now apply nth_In. }
  apply fltb_lt in H; auto; [|apply time_fin; auto].
  unfold next_key. destruct (Nat.eq_dec (List.length times) 1) as [E|].
  - rewrite E. simpl (Nat.min 1 (1 - 1)). rewrite fsub_diag by (apply time_fin; auto).
    rewrite fdiv_neg_zero by (apply fsub_sign_neg; auto; apply time_fin; auto). reflexivity.
  - rewrite Nat.min_l by lia. apply fclamp_low. apply weight_before; auto; try (apply Hm; lia).
    apply inc_R; auto. lia.
Qed.
Lemma weight_after_last times frame : finite_times times -> fin frame -> times <> [] ->
  fltb (time_at times (List.length times - 1)) frame = true ->
  fclamp f0 f1 (fdiv (fsub frame (time_at times (List.length times - 1)))
     (fsub (time_at times (next_key times (List.length times - 1))) (time_at times (List.length times - 1)))) = f1.
Proof.
  intros Fin Ff Ne H. assert (L : 0 < List.length times) by (destruct times; [congruence|simpl; lia]).
  apply fltb_lt in H; auto; [|apply time_fin; auto; lia].
  unfold next_key. rewrite Nat.min_r by lia. rewrite fsub_diag by (apply time_fin; auto; lia).
  rewrite fdiv_pos_zero by (apply fsub_sign_pos; auto; apply time_fin; auto; lia). reflexivity.
Qed.

(** ** Evaluation of animated values *)
Section Eval.
  Context {T : Type} `{L : TweenLaws T}.
  Variable E : Ext.
  Variable a : anim T.
  Hypothesis Len : List.length (an_values a) = List.length (an_times a).
  Hypothesis Inc : sorted_times (an_times a).
  Hypothesis Fin : finite_times (an_times a).
  Variable frame : f64.
  Hypothesis Ff : fin frame.
  Lemma next_lt i : i < List.length (an_times a) -> next_key (an_times a) i < List.length (an_times a).
  Proof. unfold next_key. lia. Qed.
  Lemma eval_low i v : surrounds (an_times a) frame i -> nth_error (an_values a) i = Some v ->
    (t_hold (nth i (an_times a) time_dflt) = true \/
     fleb (fclamp f0 f1 (fdiv (fsub frame (time_at (an_times a) i))
     (fsub (time_at (an_times a) (next_key (an_times a) i)) (time_at (an_times a) i)))) f0 = true) ->
    anim_eval_inner E a frame = Some v.
  Proof.
    intros S Hv Hw. unfold anim_eval_inner. rewrite (select _ _ i) by assumption. rewrite Hv.
    destruct (nth_error (an_values a) (next_key (an_times a) i)) as [v2|] eqn:E2.
    2:{ apply nth_error_None in E2. destruct S as [Hi _]. pose proof (next_lt i Hi). lia. }
    f_equal. apply tl_low. destruct (t_hold (nth i (an_times a) time_dflt)); [reflexivity|].
    now destruct Hw.
  Qed.
  Lemma eval_self v : surrounds (an_times a) frame (List.length (an_times a) - 1) ->
    nth_error (an_values a) (List.length (an_times a) - 1) = Some v ->
    exists w, anim_eval_inner E a frame =
      Some (tween E v v w (segment_easing (nth (List.length (an_times a) - 1) (an_times a) time_dflt))) /\
      w = if t_hold (nth (List.length (an_times a) - 1) (an_times a) time_dflt) then f0 else
       fclamp f0 f1 (fdiv (fsub frame (time_at (an_times a) (List.length (an_times a) - 1)))
     (fsub (time_at (an_times a) (next_key (an_times a) (List.length (an_times a) - 1))) (time_at (an_times a) (List.length (an_times a) - 1)))).
  Proof.
    intros S Hv. unfold anim_eval_inner. rewrite (select _ _ _ Inc Fin Ff S).
    assert (N : next_key (an_times a) (List.length (an_times a) - 1) = List.length (an_times a) - 1)
      by (unfold next_key; lia). rewrite N, Hv. eauto.
  Qed.
End Eval.
