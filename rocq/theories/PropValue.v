(** Property theorems about animated values (C20, C23-C26, C28-C33).
    Statements refer to the model (Value.v, Animated.v) and to ValueSpec.v. *)
From Coq Require Import ZArith Reals Bool List Arith String Lia Lra.
From Flocq Require Import Core BinarySingleNaN.
From Verif Require Import F64 F64Facts Kurbo Value Animated ValueSpec ValueFacts ValueFacts2 SplineFacts TrimFacts Examples.
Import ListNotations.
Open Scope list_scope.
Open Scope nat_scope.

(** * Sample data *)
Definition kf (t : Z) (hold : bool) : time := mkTime (f_of_Z t) None None hold.
Definition times3 : list time := [kf 0 false; kf 10 true; kf 25 false].
Lemma moderate_Z z : (Z.abs z <= 2 ^ 53)%Z -> moderate (f_of_Z z).
Proof.
  intros H. destruct (f_of_Z_R z H) as [E F]. split; [exact F|]. rewrite E, <- abs_IZR.
  apply Rle_trans with (bpow radix2 53); [|apply bpow_le; lia].
  rewrite <- (IZR_Zpower radix2) by lia. now apply IZR_le.
Qed.
Lemma times3_increasing : increasing times3.
Proof.
  intros i j H. simpl in H. destruct i as [|[|[|i]]], j as [|[|[|j]]]; try lia; vm_compute; reflexivity.
Qed.
Lemma times3_moderate : moderate_times times3.
Proof. repeat (apply Forall_cons; [apply moderate_Z; lia|]). apply Forall_nil. Qed.
Lemma times3_finite : finite_times times3.
Proof. apply moderate_finite, times3_moderate. Qed.

(** * C20 *)
(** For finite input the normalised trim is absent exactly when the ends are
    closer than 1e-9; otherwise it is one or two ranges inside [0,1]; a second
    range starts at 0, the first then ends at 1, and they do not overlap. *)
Theorem C20_ranges : forall t,
  is_finite (tr_start t) = true -> is_finite (tr_end t) = true -> is_finite (tr_offset t) = true ->
  match trim_normalized t with
  | None => fltb (fabs (fsub (tr_end t) (tr_start t))) f_1em9 = true
  | Some ((s, e), second) =>
      fltb (fabs (fsub (tr_end t) (tr_start t))) f_1em9 = false /\
      fleb f0 s = true /\ fleb s e = true /\ fleb e f1 = true /\
      match second with
      | None => True
      | Some (s2, e2) => e = f1 /\ s2 = f0 /\ fleb f0 e2 = true /\ fleb e2 s = true
      end
  end.
Proof.
  intros t Fs Fe Fo. rewrite trim_unfold. cbv zeta. rewrite <- (range_abs t Fs Fe).
  destruct (fltb (fsub (trim_hi t) (trim_lo t)) f_1em9) eqn:R1; [reflexivity|].
  destruct (fleb (fsub f100 f_1em9) (fsub (trim_hi t) (trim_lo t))) eqn:R2.
  - split; [reflexivity|]. vm_compute. auto.
  - pose proof (inner_ok t Fs Fe Fo R1 R2) as I. destruct (fleb (fadd _ _) f100); destruct I as (A & B & C & D); auto.
Qed.
Theorem C20_symmetric : forall a b o, is_finite a = true -> is_finite b = true ->
  trim_normalized (mkTrim a b o) = trim_normalized (mkTrim b a o).
Proof.
  intros a b o Fa Fb. rewrite !trim_unfold. unfold trim_lo, trim_hi. cbn [tr_start tr_end tr_offset].
  destruct (fleb a b) eqn:L1, (fleb b a) eqn:L2; auto.
  - apply fleb_le in L1, L2; auto. assert (E : B2R a = B2R b) by lra.
    destruct (fsub_same_R a b Fa Fb E) as [s ->]. destruct (fsub_same_R b a Fb Fa (eq_sym E)) as [s' ->].
    destruct s, s'; reflexivity.
  - apply fleb_false in L1, L2; auto. lra.
Qed.
(** A wrapping trim: 50..100 % rotated by half a turn covers 0..50 %, and 80 %
    rotated by a quarter wraps. *)
Example C20_witness :
  match trim_normalized (mkTrim (f_of_Z 10) (f_of_Z 90) (f_of_Z 90)) with
  | Some (_, Some (_, e2)) => fltb f0 e2 = true
  | _ => False
  end.
Proof. vm_compute. reflexivity. Qed.

(** * C23 *)
(** The selected keyframes surround the frame. *)
Theorem C23_bracket_partial : forall times frame,
  increasing times -> finite_times times -> is_finite frame = true -> times <> [] ->
  exists i w, surrounds times frame i /\
    frames_and_weight times frame =
      Some ((i, next_key times i), w, segment_easing (nth i times time_dflt), t_hold (nth i times time_dflt)).
Proof.
  intros times frame Inc Fin Ff Ne. destruct (bracket times frame Inc Fin Ff Ne) as (i & S & E). eauto.
Qed.
(** The weight is a number in [0,1] except exactly at the last keyframe: 0
    before the first, 1 after the last, and the (rounded) fraction between. *)
Theorem C23_weight_partial : forall times frame i j w e h,
  increasing times -> moderate_times times -> is_finite frame = true ->
  feqb frame (time_at times (List.length times - 1)) = false ->
  frames_and_weight times frame = Some ((i, j), w, e, h) ->
  is_finite w = true /\ (0 <= B2R w <= 1)%R /\
  (fltb frame (time_at times 0) = true -> B2R w = 0%R) /\
  (fltb (time_at times (List.length times - 1)) frame = true -> w = f1) /\
  (fleb (time_at times 0) frame = true -> fltb frame (time_at times (List.length times - 1)) = true ->
   B2R w = rnd (rnd (B2R frame - B2R (time_at times i)) / rnd (B2R (time_at times j) - B2R (time_at times i)))).
Proof.
  intros times frame i j w e h Inc Mod Ff Nl H. pose proof (moderate_finite _ Mod) as Fin.
  assert (Ne : times <> []) by (intros ->; discriminate).
  assert (L : 0 < List.length times) by (destruct times; [congruence|simpl; lia]).
  assert (Hm : forall i, i < List.length times -> moderate (time_at times i)).
  { intros k Hk. unfold moderate_times in Mod. rewrite Forall_forall in Mod. apply Mod. now apply nth_In. }
  assert (Ft : forall i, i < List.length times -> fin (time_at times i)) by (intros; now apply time_fin).
  destruct (bracket times frame Inc Fin Ff Ne) as (k & S & Ek). rewrite Ek in H. injection H as <- <- <- <- <-.
  destruct (Rlt_le_dec (B2R frame) (B2R (time_at times 0))) as [B|B].
  { assert (B' : fltb frame (time_at times 0) = true) by (apply fltb_lt; auto).
    assert (k = 0) as -> by (eapply surrounds_unique; eauto using increasing_sorted; apply surrounds_before; auto).
    pose proof (weight_before_first times frame Inc Mod Ff Ne B') as W.
    destruct (fclamp_low_range _ (weight_before_first times frame Inc Mod Ff Ne B')) as [F0 R0].
    assert (Q : forall t, fleb (fclamp f0 f1 t) f0 = true -> fin (fclamp f0 f1 t) /\ B2R (fclamp f0 f1 t) = 0%R).
    { intros t Ht. unfold fclamp in *. destruct (fltb t f0) eqn:E1.
      - split; reflexivity.
      - destruct (fltb f1 t) eqn:E2; [discriminate|].
        destruct t as [[]|[]| |[]]; simpl in *; try discriminate; split; reflexivity. }
    destruct (Q _ W) as [Fw Ew]. repeat split; auto; try lra.
    - intros A. apply fltb_lt in A; auto; [|apply Ft; lia]. exfalso.
      destruct (Nat.eq_dec (List.length times) 1) as [E1|].
      + rewrite E1 in A. simpl in A. lra.
      + pose proof (inc_R times Inc Fin 0 (List.length times - 1) ltac:(lia)). lra.
    - intros A. apply fleb_le in A; auto. lra. }
  destruct (Rlt_le_dec (B2R (time_at times (List.length times - 1))) (B2R frame)) as [A|A].
  { assert (A' : fltb (time_at times (List.length times - 1)) frame = true) by (apply fltb_lt; auto; apply Ft; lia).
    assert (k = List.length times - 1) as ->.
    { eapply surrounds_unique; eauto using increasing_sorted. apply surrounds_after; auto. apply fleb_le; auto; [apply Ft; lia|lra]. }
    rewrite (weight_after_last times frame Fin Ff Ne A'). rewrite f1_R.
    repeat split; auto; try lra.
    - intros C. apply fltb_lt in C; auto. lra.
    - intros _ C. apply fltb_lt in C; auto; [lra|apply Ft; lia]. }
  assert (Nl' : B2R frame <> B2R (time_at times (List.length times - 1))).
  { intros Q. apply feqb_eq in Q; auto; [congruence|apply Ft; lia]. }
  destruct S as (Hk & Lk & Uk).
  assert (Hs : S k < List.length times).
  { destruct (Nat.eq_dec k (List.length times - 1)) as [->|]; [|lia]. exfalso.
    destruct Lk as [E0|Lk].
    - rewrite E0 in *. lra.
    - apply fleb_le in Lk; auto. lra. }
  specialize (Uk Hs). apply fltb_lt in Uk; auto.
  assert (Lk' : (B2R (time_at times k) <= B2R frame)%R).
  { destruct Lk as [->|Lk]; auto. apply fleb_le in Lk; auto. }
  assert (N : next_key times k = S k) by (unfold next_key; lia). rewrite N.
  destruct (weight_inside (time_at times k) (time_at times (S k)) frame) as (W1 & W2 & W3); auto.
  repeat split; auto; try lra.
  - intros C. apply fltb_lt in C; auto. lra.
  - intros C. apply fltb_lt in C; auto; [lra|apply Ft; lia].
Qed.
(** Exactly at the last keyframe the weight is not a number in [0,1]. *)
Theorem C23_refuted : ~ forall times frame i j w e h,
  increasing times -> moderate_times times -> is_finite frame = true ->
  frames_and_weight times frame = Some ((i, j), w, e, h) -> fleb f0 w = true /\ fleb w f1 = true.
Proof.
  intros H. destruct (frames_some times3 (f_of_Z 25) ltac:(discriminate)) as [[[[[i j] w] e] h] E].
  destruct (H times3 (f_of_Z 25) i j w e h times3_increasing times3_moderate eq_refl E) as [A _].
  assert (Some w = Some fnan) as [= ->].
  { transitivity (match frames_and_weight times3 (f_of_Z 25) with Some (_, w, _, _) => Some w | None => None end).
    - now rewrite E.
    - vm_compute. reflexivity. }
  discriminate.
Qed.
Example C23_witness :
  match frames_and_weight times3 (f_of_Z 5) with
  | Some ((0, 1), w, _, _) => feqb w f_half = true
  | _ => False
  end.
Proof. vm_compute. reflexivity. Qed.

(** * C24 *)
(** At the time of any keyframe but the last, exactly that keyframe's value. *)
Theorem C24_at_keyframe : forall T `{TweenLaws T} E (a : anim T) i v,
  List.length (an_values a) = List.length (an_times a) ->
  increasing (an_times a) -> finite_times (an_times a) ->
  S i < List.length (an_times a) -> nth_error (an_values a) i = Some v ->
  forall d, anim_eval_or E a (time_at (an_times a) i) d = v.
Proof.
  intros T HT HN HL E a i v Len Inc Fin Hi Hv d. unfold anim_eval_or.
  assert (Ff : fin (time_at (an_times a) i)) by (apply time_fin; auto; lia).
  rewrite (eval_low E a Len (increasing_sorted _ Inc) Fin _ Ff i v); auto.
  - apply surrounds_key; auto. lia.
  - right. now apply weight_at_key.
Qed.
(** At the last keyframe, the last value (the sign of a zero may differ). *)
Theorem C24_at_last_keyframe : forall T `{TweenLaws T} E (a : anim T) v,
  List.length (an_values a) = List.length (an_times a) ->
  increasing (an_times a) -> finite_times (an_times a) -> an_times a <> [] ->
  sane_time (nth (List.length (an_times a) - 1) (an_times a) time_dflt) ->
  nth_error (an_values a) (List.length (an_times a) - 1) = Some v -> finite_value v ->
  forall d, same_value (anim_eval_or E a (time_at (an_times a) (List.length (an_times a) - 1)) d) v.
Proof.
  intros T HT HN HL E a v Len Inc Fin Ne Hs Hv Fv d. unfold anim_eval_or.
  assert (L : 0 < List.length (an_times a)) by (destruct (an_times a); [congruence|simpl; lia]).
  assert (Ff : fin (time_at (an_times a) (List.length (an_times a) - 1))) by (apply time_fin; auto; lia).
  destruct (eval_self E a Len (increasing_sorted _ Inc) Fin _ Ff v) as (w & -> & _); auto.
  - apply surrounds_key; auto. lia.
  - now apply tl_self.
Qed.
Definition pts3 : anim point := mkAnim times3 [zp 1 2; zp 3 4; zp 5 6].
Example C24_witness : increasing (an_times pts3) /\ finite_times (an_times pts3) /\
  nth_error (an_values pts3) 1 = Some (zp 3 4) /\ finite_value (zp 5 6) /\
  sane_time (nth 2 (an_times pts3) time_dflt).
Proof.
  split; [exact times3_increasing|]. split; [exact times3_finite|]. split; [reflexivity|]. split.
  - repeat constructor.
  - split; exact I.
Qed.

(** * C25 *)
Theorem C25_before_first : forall T `{TweenLaws T} E (a : anim T) frame v,
  List.length (an_values a) = List.length (an_times a) ->
  increasing (an_times a) -> moderate_times (an_times a) -> is_finite frame = true ->
  fltb frame (time_at (an_times a) 0) = true -> nth_error (an_values a) 0 = Some v ->
  forall d, anim_eval_or E a frame d = v.
Proof.
  intros T HT HN HL E a frame v Len Inc Mod Ff B Hv d. unfold anim_eval_or.
  pose proof (moderate_finite _ Mod) as Fin.
  assert (Ne : an_times a <> []) by (intros E0; rewrite E0 in Len; destruct (an_values a); discriminate).
  rewrite (eval_low E a Len (increasing_sorted _ Inc) Fin _ Ff 0 v); auto.
  - now apply surrounds_before.
  - right. now apply weight_before_first.
Qed.
Theorem C25_after_last : forall T `{TweenLaws T} E (a : anim T) frame v,
  List.length (an_values a) = List.length (an_times a) ->
  increasing (an_times a) -> finite_times (an_times a) -> is_finite frame = true -> an_times a <> [] ->
  fltb (time_at (an_times a) (List.length (an_times a) - 1)) frame = true ->
  nth_error (an_values a) (List.length (an_times a) - 1) = Some v ->
  forall d, anim_eval_or E a frame d = v.
Proof.
  intros T HT HN HL E a frame v Len Inc Fin Ff Ne A Hv d. unfold anim_eval_or.
  assert (L : 0 < List.length (an_times a)) by (destruct (an_times a); [congruence|simpl; lia]).
  assert (Ft : fin (time_at (an_times a) (List.length (an_times a) - 1))) by (apply time_fin; auto; lia).
  destruct (eval_self E a Len (increasing_sorted _ Inc) Fin _ Ff v) as (w & -> & Ew); auto.
  - apply surrounds_after; auto. apply fltb_lt in A; auto. apply fleb_le; auto. lra.
  - destruct (t_hold _); [subst w; now apply tl_low|].
    rewrite weight_after_last in Ew by assumption. subst w. now apply tl_high.
Qed.
Example C25_witness : fltb (f_of_Z (-3)) (time_at times3 0) = true /\ fltb (time_at times3 2) (f_of_Z 99) = true.
Proof. vm_compute. auto. Qed.

(** * C26 *)
(** A hold keyframe holds its value until the next keyframe (or forever). *)
Theorem C26_hold : forall T `{TweenLaws T} E (a : anim T) frame i v,
  List.length (an_values a) = List.length (an_times a) ->
  increasing (an_times a) -> finite_times (an_times a) -> is_finite frame = true ->
  i < List.length (an_times a) ->
  fleb (time_at (an_times a) i) frame = true ->
  (S i < List.length (an_times a) -> fltb frame (time_at (an_times a) (S i)) = true) ->
  t_hold (nth i (an_times a) time_dflt) = true -> nth_error (an_values a) i = Some v ->
  forall d, anim_eval_or E a frame d = v.
Proof.
  intros T HT HN HL E a frame i v Len Inc Fin Ff Hi Lo Hi' Hold Hv d. unfold anim_eval_or.
  rewrite (eval_low E a Len (increasing_sorted _ Inc) Fin _ Ff i v); auto. repeat split; auto.
Qed.
(** Splines: the same, when the two keyframes have as many points. *)
Theorem C26_spline_partial : forall E s frame i k to,
  List.length (asp_values s) = List.length (asp_times s) ->
  increasing (asp_times s) -> finite_times (asp_times s) -> is_finite frame = true ->
  surrounds (asp_times s) frame i -> t_hold (nth i (asp_times s) time_dflt) = true ->
  nth_error (asp_values s) i = Some k ->
  (match sk_end k with
   | Some e => to = e
   | None => exists k', nth_error (asp_values s) (next_key (asp_times s) i) = Some k' /\ to = sk_start k'
   end) ->
  List.length (sk_start k) = List.length to ->
  Forall moderate_point (sk_start k) -> Forall moderate_point to ->
  exists els els', a_spline_eval E s frame = Ok els /\ spline_to_path (sk_start k) (asp_closed s) = Ok els' /\
    Forall2 same_element els els'.
Proof.
  intros E s frame i k to Len Inc Fin Ff S Hold Hk Hto Leq Mk Mto.
  unfold a_spline_eval. rewrite (select _ _ i) by (try assumption; now apply increasing_sorted). rewrite Hk, Hold.
  destruct (nth_error (asp_values s) (next_key (asp_times s) i)) as [k'|] eqn:E2.
  2:{ apply nth_error_None in E2. destruct S as [Hi _]. unfold next_key in E2. lia. }
  assert (Ht : (match sk_end k with Some e => e | None => sk_start k' end) = to).
  { destruct (sk_end k); [auto|]. destruct Hto as (k2 & [= <-] & ->). reflexivity. }
  rewrite Ht, spline_lerp_eq.
  pose proof (lerp_points_zero (sk_start k) to f0 Mk Mto Leq eq_refl eq_refl) as Q.
  destruct (sk_start k) as [|p ps] eqn:Es.
  - inversion Q as [E0|]. exists [], []. repeat split; constructor.
  - assert (N1 : lerp_points (p :: ps) to f0 <> []) by (inversion Q; discriminate).
    rewrite spline_to_path_of by assumption. rewrite (spline_to_path_of (p :: ps)) by discriminate.
    eexists _, _. split; [reflexivity|]. split; [reflexivity|]. now apply path_of_cong.
Qed.
(** A held spline is truncated when the next keyframe has fewer points. *)
Theorem C26_spline_refuted : ~ forall E s frame i k,
  List.length (asp_values s) = List.length (asp_times s) ->
  increasing (asp_times s) -> finite_times (asp_times s) -> is_finite frame = true ->
  surrounds (asp_times s) frame i -> t_hold (nth i (asp_times s) time_dflt) = true ->
  nth_error (asp_values s) i = Some k -> Forall (fun k => Forall moderate_point (sk_start k)) (asp_values s) ->
  exists els els', a_spline_eval E s frame = Ok els /\ spline_to_path (sk_start k) (asp_closed s) = Ok els' /\
    List.length els = List.length els'.
Proof.
  intros H. set (v2 := [zp 0 0; zp 0 0; zp 0 0; zp 5 5; zp 0 0; zp 0 0]).
  set (v1 := [zp 9 9; zp 0 0; zp 0 0]).
  set (s := mkASpline false times3 [mkSplineKf v2 None; mkSplineKf v2 None; mkSplineKf v1 None]).
  assert (M : forall x y, (Z.abs x <= 9)%Z -> (Z.abs y <= 9)%Z -> moderate_point (zp x y))
    by (intros; split; apply moderate_Z; lia).
  destruct (H E0 s (f_of_Z 12) 1 (mkSplineKf v2 None)) as (els & els' & A & B & C); try reflexivity.
  - exact times3_increasing.
  - exact times3_finite.
  - split; [cbn; lia|]. split; [right; vm_compute; reflexivity|]. intros _. vm_compute. reflexivity.
  - cbn [s asp_values]. repeat (apply Forall_cons || apply Forall_nil || split || apply M); lia || exact I.
  - assert (L1 : match a_spline_eval E0 s (f_of_Z 12) with Ok l => List.length l = 1 | _ => False end) by (vm_compute; reflexivity).
    assert (L2 : match spline_to_path v2 false with Ok l => List.length l = 2 | _ => False end) by (vm_compute; reflexivity).
    rewrite A in L1. cbn [sk_start asp_closed s] in B. rewrite B in L2. lia.
Qed.
(** Gradients: the colours are held ... *)
Theorem C26_gradient_colors_partial : forall E s frame i v0 n stop,
  List.length (ast_values s) = List.length (ast_frames s) ->
  increasing (ast_frames s) -> finite_times (ast_frames s) -> is_finite frame = true ->
  surrounds (ast_frames s) frame i -> t_hold (nth i (ast_frames s) time_dflt) = true ->
  nth_error (ast_values s) i = Some v0 ->
  nth_error (a_stops_eval E s frame) n = Some stop ->
  exists r g b a, nth_error v0 (n * 5 + 1) = Some r /\ nth_error v0 (n * 5 + 2) = Some g /\
    nth_error v0 (n * 5 + 3) = Some b /\ nth_error v0 (n * 5 + 4) = Some a /\
    cs_color stop = mkColor (f64_to_f32 r) (f64_to_f32 g) (f64_to_f32 b) (f64_to_f32 a).
Proof.
  intros E s frame i v0 n stop Len Inc Fin Ff S Hold Hv Hst.
  unfold a_stops_eval, a_stops_eval_inner in Hst. rewrite (select _ _ i) in Hst by (try assumption; now apply increasing_sorted).
  cbn [obind] in Hst. rewrite Hv in Hst. cbn [obind] in Hst.
  destruct (nth_error (ast_values s) (next_key (ast_frames s) i)) as [v1|]; cbn [obind] in Hst;
    [|destruct n; discriminate].
  rewrite Hold in Hst. revert Hst.
  set (w := fclamp _ _ _). set (e := segment_easing _).
  assert (C : forall j x, channel E v0 v1 j f0 e = Some x -> nth_error v0 j = Some x).
  { intros j x. unfold channel. destruct (nth_error v0 j) as [a|]; cbn; [|discriminate].
    destruct (nth_error v1 j); cbn; [|discriminate]. unfold tween_f64. cbn. auto. }
  assert (G : forall m k l n, stops_from E v0 v1 w e true k m = Some l -> nth_error l n = Some stop ->
     exists r g b a, nth_error v0 ((k + n) * 5 + 1) = Some r /\ nth_error v0 ((k + n) * 5 + 2) = Some g /\
    nth_error v0 ((k + n) * 5 + 3) = Some b /\ nth_error v0 ((k + n) * 5 + 4) = Some a /\
    cs_color stop = mkColor (f64_to_f32 r) (f64_to_f32 g) (f64_to_f32 b) (f64_to_f32 a)).
  { clear n. induction m as [|m IH]; intros k l n; cbn [stops_from].
    - intros [= <-]. destruct n; discriminate.
    - destruct (stop_at E v0 v1 w e true k) as [st|] eqn:Es; cbn [obind]; [|discriminate].
      destruct (stops_from E v0 v1 w e true (Datatypes.S k) m) as [ss|] eqn:Ess; cbn [obind]; [|discriminate].
      intros [= <-]. destruct n as [|n]; cbn [nth_error].
      + intros [= <-]. rewrite Nat.add_0_r. unfold stop_at in Es. cbv zeta in Es.
        destruct (channel E v0 v1 (k * 5) w e); cbn [obind] in Es; [|discriminate].
        destruct (channel E v0 v1 (k * 5 + 1) f0 e) eqn:E1; cbn [obind] in Es; [|discriminate].
        destruct (channel E v0 v1 (k * 5 + 2) f0 e) eqn:E2; cbn [obind] in Es; [|discriminate].
        destruct (channel E v0 v1 (k * 5 + 3) f0 e) eqn:E3; cbn [obind] in Es; [|discriminate].
        destruct (channel E v0 v1 (k * 5 + 4) f0 e) eqn:E4; cbn [obind] in Es; [|discriminate].
        injection Es as <-. eexists _, _, _, _. repeat split; eauto.
      + intros Hn. destruct (IH _ _ _ Ess Hn) as (r & g & b & a & Q). replace (k + Datatypes.S n) with (Datatypes.S k + n) by lia. eauto. }
  destruct (stops_from E v0 v1 w e true 0 (ast_count s)) as [l|] eqn:El; [|destruct n; discriminate].
  intros Hn. apply (G _ _ _ n El Hn).
Qed.
(** ... but the offsets move. *)
Theorem C26_gradient_refuted : ~ forall E s frame i v0 n stop x,
  List.length (ast_values s) = List.length (ast_frames s) ->
  increasing (ast_frames s) -> finite_times (ast_frames s) -> is_finite frame = true ->
  surrounds (ast_frames s) frame i -> t_hold (nth i (ast_frames s) time_dflt) = true ->
  nth_error (ast_values s) i = Some v0 ->
  nth_error (a_stops_eval E s frame) n = Some stop -> nth_error v0 (n * 5) = Some x ->
  Beqb (cs_offset stop) (f64_to_f32 x) = true.
Proof.
  intros H. set (v o := [f_of_Z o; f1; f1; f1; f1]).
  set (s := mkAStops times3 [v 0%Z; v 0%Z; v 1%Z] 1).
  assert (W : match a_stops_eval E0 s (f_of_Z 15) with
              | [st] => Beqb (cs_offset st) (f64_to_f32 (f_of_Z 0)) = false | _ => False end)
    by (vm_compute; reflexivity).
  destruct (a_stops_eval E0 s (f_of_Z 15)) as [|st [|]] eqn:El; try contradiction.
  assert (Beqb (cs_offset st) (f64_to_f32 (f_of_Z 0)) = true); [|congruence].
  apply (H E0 s (f_of_Z 15) 1 (v 0%Z) 0 st (f_of_Z 0)); try reflexivity.
  - exact times3_increasing.
  - exact times3_finite.
  - split; [cbn; lia|]. split; [right; vm_compute; reflexivity|]. intros _. vm_compute. reflexivity.
  - now rewrite El.
Qed.
Example C26_witness : t_hold (nth 1 times3 time_dflt) = true /\ surrounds times3 (f_of_Z 20) 1.
Proof.
  split; [reflexivity|]. split; [cbn; lia|]. split; [right; vm_compute; reflexivity|].
  intros _. vm_compute. reflexivity.
Qed.

(** * C28 *)
Lemma fixed_eval {T} `{Tween T} `{Dflt T} E (v : value T) f g : is_fixed v = true -> eval E v f = eval E v g.
Proof. destruct v; [reflexivity|discriminate]. Qed.
Ltac fixed := repeat match goal with H : _ && _ = true |- _ => apply andb_true_iff in H; destruct H end;
  repeat match goal with H : is_fixed ?v = true |- _ => destruct v; [clear H|discriminate] end.
Theorem C28_transform : forall E t frame,
  transform_eval E (a_transform_into_model E t) frame = a_transform_eval E t frame.
Proof.
  intros E [an po ro sc sk sa] frame. unfold a_transform_into_model.
  destruct (a_transform_is_fixed _) eqn:F; [|reflexivity].
  unfold a_transform_is_fixed in F. cbn in F. destruct po; cbn [position_is_fixed] in F; fixed; reflexivity.
Qed.
Theorem C28_stroke : forall E s frame, stroke_eval E (a_stroke_into_model E s) frame = a_stroke_eval E s frame.
Proof.
  intros E [w j m c] frame. unfold a_stroke_into_model, a_stroke_is_fixed. cbn [as_width].
  destruct (is_fixed w) eqn:F; [fixed; reflexivity|reflexivity].
Qed.
Theorem C28_repeater : forall E r frame,
  repeater_eval E (a_repeater_into_model E r) frame = a_repeater_eval E r frame.
Proof.
  intros E [a b c d e f g h] frame. unfold a_repeater_into_model.
  destruct (a_repeater_is_fixed _) eqn:F; [|reflexivity]. unfold a_repeater_is_fixed in F. cbn in F. fixed. reflexivity.
Qed.
Theorem C28_trim : forall E t frame, trim_eval E (a_trim_into_model E t) frame = a_trim_eval E t frame.
Proof.
  intros E [a b c] frame. unfold a_trim_into_model.
  destruct (a_trim_is_fixed _) eqn:F; [|reflexivity]. unfold a_trim_is_fixed in F. cbn in F. fixed. reflexivity.
Qed.
(** Brushes at opacity 1.0, the only value the renderer passes. *)
Theorem C28_brush : forall E b frame, brush_eval E (a_brush_into_model E b) f1 frame = a_brush_eval E b f1 frame.
Proof.
  intros E b frame. unfold a_brush_into_model. destruct (a_brush_is_fixed b) eqn:F; [|reflexivity].
  unfold brush_eval. replace (feqb f1 f1) with true by (vm_compute; reflexivity).
  destruct b as [c|[ra st en cs]].
  - cbn [a_brush_is_fixed] in F. fixed. reflexivity.
  - cbn [a_brush_is_fixed] in F. unfold a_gradient_is_fixed in F. cbn in F. fixed.
    destruct cs; [reflexivity|discriminate].
Qed.
(** A star that is collapsed evaluates to the same outline (or the importer
    panics exactly when evaluation would). *)
Theorem C28_star : forall E s frame,
  match a_star_into_model E s with
  | Ok g => geometry_eval E g frame = a_star_eval E s frame
  | _ => a_star_eval E s frame = Panic
  end.
Proof.
  intros E s frame. unfold a_star_into_model. destruct (a_star_is_fixed s) eqn:F; [|reflexivity].
  assert (Q : a_star_eval E s frame = a_star_eval E s f0).
  { destruct s as [pg di a b c d e f g]. unfold a_star_is_fixed in F. cbn in F. fixed. reflexivity. }
  rewrite Q. destruct (a_star_eval E s f0) eqn:Es; cbn; auto.
  exfalso. revert Es. unfold a_star_eval.
  destruct (_ =? 0)%Z; [discriminate|]. destruct (if negb _ then _ else _).
  destruct (negb (star_cap_ok _)); [discriminate|]. destruct (star_vertices _ _ _ _ _ _ _ _ _ _ _); discriminate.
Qed.
Example C28_witness : a_trim_is_fixed (mkATrim (VFixed f0) (VFixed f100) (VFixed f0)) = true /\
  a_trim_is_fixed (mkATrim (VAnimated (mkAnim times3 [f0; f1; f0])) (VFixed f100) (VFixed f0)) = false.
Proof. split; reflexivity. Qed.

(** * C29 *)
(** Except exactly at the last keyframe's time, moderate points give finite paths. *)
Definition moderate_kf (k : spline_kf) : Prop :=
  Forall moderate_point (sk_start k) /\ match sk_end k with Some e => Forall moderate_point e | None => True end.
Theorem C29_finite_partial : forall E s frame,
  increasing (asp_times s) -> moderate_times (asp_times s) -> is_finite frame = true ->
  (feqb frame (time_at (asp_times s) (List.length (asp_times s) - 1)) = false \/
   t_hold (nth (List.length (asp_times s) - 1) (asp_times s) time_dflt) = true) ->
  Forall moderate_kf (asp_values s) ->
  exists els, a_spline_eval E s frame = Ok els /\ Forall finite_element els.
Proof.
  intros E s frame Inc Mod Ff Nl Mk. pose proof (moderate_finite _ Mod) as Fin. unfold a_spline_eval.
  destruct (frames_and_weight (asp_times s) frame) as [[[[[i j] w] e] h]|] eqn:Ef.
  2:{ exists []. split; [reflexivity|constructor]. }
  assert (Mw : mag_le (if h then f0 else w) 0).
  { assert (Ne : asp_times s <> []) by (intros Q; rewrite Q in Ef; discriminate).
    destruct h; [apply mag_le_0|].
    assert (Hn : feqb frame (time_at (asp_times s) (List.length (asp_times s) - 1)) = false).
    { destruct Nl as [|Hl]; auto. destruct (feqb frame _) eqn:Fe; [|reflexivity]. exfalso.
      assert (L : 0 < List.length (asp_times s)) by (destruct (asp_times s); [congruence|simpl; lia]).
      assert (Ft : fin (time_at (asp_times s) (List.length (asp_times s) - 1))) by (apply time_fin; auto; lia).
      apply feqb_eq in Fe; auto.
      rewrite (select _ _ (List.length (asp_times s) - 1)) in Ef; auto using increasing_sorted.
      - injection Ef as _ _ _ _ Eh. congruence.
      - apply surrounds_after; auto. apply fleb_le; auto. lra. }
    destruct (C23_weight_partial _ _ _ _ _ _ _ Inc Mod Ff Hn Ef) as (Fw & Bw & _).
    split; auto. simpl. rewrite Rabs_pos_eq; lra. }
  destruct (nth_error (asp_values s) i) as [k|] eqn:E1; [|exists []; split; [reflexivity|constructor]].
  destruct (nth_error (asp_values s) j) as [k'|] eqn:E2; [|exists []; split; [reflexivity|constructor]].
  rewrite Forall_forall in Mk. destruct (Mk k (nth_error_In _ _ E1)) as [M1 M1']. destruct (Mk k' (nth_error_In _ _ E2)) as [M2 _].
  set (to := match sk_end k with Some e => e | None => sk_start k' end).
  assert (Mt : Forall moderate_point to) by (unfold to; destruct (sk_end k); auto).
  rewrite spline_lerp_eq. pose proof (lerp_points_mag _ _ _ M1 Mt Mw) as Q.
  destruct (lerp_points (sk_start k) to (if h then f0 else w)) as [|p ps] eqn:El.
  - exists []. split; [reflexivity|constructor].
  - eexists. split; [apply spline_to_path_of; discriminate|]. now apply path_of_finite.
Qed.
(** At the last keyframe's time every point of the path is NaN. *)
Theorem C29_refuted : ~ forall E s frame,
  increasing (asp_times s) -> moderate_times (asp_times s) -> is_finite frame = true ->
  Forall moderate_kf (asp_values s) ->
  exists els, a_spline_eval E s frame = Ok els /\ Forall finite_element els.
Proof.
  intros H. set (v := [zp 0 0; zp 0 0; zp 0 0; zp 5 5; zp 0 0; zp 0 0]).
  set (s := mkASpline false times3 [mkSplineKf v None; mkSplineKf v None; mkSplineKf v None]).
  assert (M : forall x y, (Z.abs x <= 9)%Z -> (Z.abs y <= 9)%Z -> moderate_point (zp x y))
    by (intros; split; apply moderate_Z; lia).
  destruct (H E0 s (f_of_Z 25)) as (els & A & F).
  - exact times3_increasing.
  - exact times3_moderate.
  - reflexivity.
  - cbn [s asp_values]. repeat (apply Forall_cons || apply Forall_nil || split || apply M); lia || exact I.
  - assert (L1 : match a_spline_eval E0 s (f_of_Z 25) with Ok (MoveTo p :: _) => is_finite (px p) = false | _ => False end)
      by (vm_compute; reflexivity).
    rewrite A in L1. destruct els as [|[p| | | |] els]; try contradiction.
    apply Forall_inv in F. destruct F as [Fp _]. congruence.
Qed.

(** * C30 *)
(** Conversion of a static spline is total and has the specified shape. *)
Theorem C30_static : forall pts closed, pts <> [] ->
  exists els, spline_to_path pts closed = Ok els /\ spline_path pts closed els.
Proof. intros pts closed Ne. eexists. split; [now apply spline_to_path_of|apply path_of_spec]. Qed.
Theorem C30_empty : forall closed, spline_to_path [] closed = Ok [].
Proof. reflexivity. Qed.
(** Interpolating two splines, of any lengths, gives the path of the pairwise
    interpolated points (surplus points are ignored). *)
Theorem C30_interpolated : forall a b t closed, a <> [] -> b <> [] ->
  exists els, spline_lerp_to_path a b t closed = Ok els /\
    spline_path (map (fun pq => point_lerp (fst pq) (snd pq) t) (combine a b)) closed els.
Proof.
  intros a b t closed Na Nb. rewrite spline_lerp_eq. apply (C30_static (lerp_points a b t)).
  destruct a, b; try congruence; discriminate.
Qed.
(** Evaluation of an animated path never panics. *)
Theorem C30_animated_total : forall E s frame, exists els, a_spline_eval E s frame = Ok els.
Proof.
  intros E s frame. unfold a_spline_eval.
  destruct (frames_and_weight (asp_times s) frame) as [[[[[i j] w] e] h]|]; [|eauto].
  destruct (nth_error (asp_values s) i) as [k|]; [|eauto]. destruct (nth_error (asp_values s) j) as [k'|]; [|eauto].
  rewrite spline_lerp_eq. destruct (lerp_points _ _ _) as [|p ps] eqn:El; [eexists; reflexivity|].
  eexists. apply spline_to_path_of. discriminate.
Qed.
Example C30_witness :
  match spline_to_path [zp 0 0; zp 0 0; zp 1 1; zp 5 5; zp 0 0; zp 0 0; zp 7 7] true with
  | Ok [MoveTo _; CurveTo _ _ _; LineTo _; ClosePath] => True
  | _ => False
  end.
Proof. vm_compute. exact I. Qed.

(** * C31 *)
Lemma stops_from_length E v0 v1 t e h : forall n i l, stops_from E v0 v1 t e h i n = Some l -> List.length l = n.
Proof.
  induction n as [|n IH]; intros i l; cbn [stops_from].
  - now intros [= <-].
  - destruct (stop_at E v0 v1 t e h i); cbn [obind]; [|discriminate].
    destruct (stops_from E v0 v1 t e h (S i) n) eqn:Es; cbn [obind]; [|discriminate].
    intros [= <-]. simpl. f_equal. eauto.
Qed.
Theorem C31_count : forall E s frame,
  List.length (a_stops_eval E s frame) = ast_count s \/ a_stops_eval E s frame = [].
Proof.
  intros E s frame. unfold a_stops_eval. destruct (a_stops_eval_inner E s frame) as [l|] eqn:El; [|auto]. left.
  unfold a_stops_eval_inner in El.
  destruct (frames_and_weight _ _) as [[[[[i j] w] e] h]|]; cbn [obind] in El; [|discriminate].
  destruct (nth_error _ i); cbn [obind] in El; [|discriminate].
  destruct (nth_error _ j); cbn [obind] in El; [|discriminate].
  eapply stops_from_length, El.
Qed.
(** With five numbers per stop in every keyframe, exactly the declared count. *)
Theorem C31_complete : forall E s frame,
  List.length (ast_values s) = List.length (ast_frames s) -> ast_frames s <> [] ->
  Forall (fun v => 5 * ast_count s <= List.length v) (ast_values s) ->
  List.length (a_stops_eval E s frame) = ast_count s.
Proof.
  intros E s frame Len Ne Hv. unfold a_stops_eval, a_stops_eval_inner.
  destruct (frames_some (ast_frames s) frame Ne) as [[[[[i j] w] e] h] Ef]. rewrite Ef. cbn [obind].
  destruct (frames_in_bounds _ _ _ _ _ _ _ Ef) as (Hi & Hj & _).
  assert (j < List.length (ast_values s)) by (subst j; unfold next_key; lia).
  destruct (nth_error (ast_values s) i) as [v0|] eqn:E0; [|apply nth_error_None in E0; lia].
  destruct (nth_error (ast_values s) j) as [v1|] eqn:E1; [|apply nth_error_None in E1; lia]. cbn [obind].
  rewrite Forall_forall in Hv. pose proof (Hv v0 (nth_error_In _ _ E0)) as L0. pose proof (Hv v1 (nth_error_In _ _ E1)) as L1.
  assert (C : forall k t, k < 5 * ast_count s -> exists x, channel E v0 v1 k t e = Some x).
  { intros k t Hk. unfold channel. destruct (nth_error v0 k) eqn:A; [|apply nth_error_None in A; lia].
    destruct (nth_error v1 k) eqn:B; [|apply nth_error_None in B; lia]. cbn. eauto. }
  assert (G : forall n k, k + n <= ast_count s -> exists l, stops_from E v0 v1 w e h k n = Some l /\ List.length l = n).
  { induction n as [|n IH]; intros k Hk; cbn [stops_from]; [exists []; auto|].
    assert (exists st, stop_at E v0 v1 w e h k = Some st) as [st ->].
    { unfold stop_at. cbv zeta.
      destruct (C (k * 5) w) as [? ->]; [lia|]. cbn [obind].
      destruct (C (k * 5 + 1) (if h then f0 else w)) as [? ->]; [lia|]. cbn [obind].
      destruct (C (k * 5 + 2) (if h then f0 else w)) as [? ->]; [lia|]. cbn [obind].
      destruct (C (k * 5 + 3) (if h then f0 else w)) as [? ->]; [lia|]. cbn [obind].
      destruct (C (k * 5 + 4) (if h then f0 else w)) as [? ->]; [lia|]. cbn [obind]. eauto. }
    cbn [obind]. destruct (IH (S k) ltac:(lia)) as (l & -> & Ll). cbn [obind].
    eexists. split; [reflexivity|]. simpl. congruence. }
  destruct (G (ast_count s) 0 ltac:(lia)) as (l & -> & Ll). exact Ll.
Qed.
Example C31_witness :
  List.length (a_stops_eval E0 (mkAStops times3
    [[f0; f0; f0; f0; f0]; [f0; f1; f0; f0; f0]; [f1; f0; f0; f0; f1]] 1) (f_of_Z 5)) = 1 /\
  a_stops_eval E0 (mkAStops times3 [[f0]; [f0]; [f0]] 1) (f_of_Z 5) = [].
Proof. split; vm_compute; reflexivity. Qed.

(** * C32 *)
Definition endpoints_exact (T : Type) `{Tween T} : Prop := forall E (a b : T) t e,
  (fleb t f0 = true -> tween E a b t e = a) /\ (fleb f1 t = true -> tween E a b t e = b).
Theorem C32_endpoints : endpoints_exact f64 /\ endpoints_exact point /\ endpoints_exact vec2 /\
  endpoints_exact size /\ endpoints_exact color.
Proof.
  repeat split; intros; (apply (tl_low (T := f64)) || apply (tl_high (T := f64)) ||
    apply (tl_low (T := point)) || apply (tl_high (T := point)) ||
    apply (tl_low (T := vec2)) || apply (tl_high (T := vec2)) ||
    apply (tl_low (T := size)) || apply (tl_high (T := size)) ||
    apply (tl_low (T := color)) || apply (tl_high (T := color))); assumption.
Qed.
Example C32_witness : fleb f0 f0 = true /\ fleb f1 (f_of_Z 2) = true.
Proof. vm_compute. auto. Qed.

(** * C33 *)
(** [n] vertices of the outline: the i-th lies at the outer (even [i], or a
    polygon) or inner radius, the angle growing by [step] from [start]. *)
Fixpoint star_points (E : Ext) (star : bool) (c : point) (ro ri step start : f64) (i n : nat) : list point :=
  match n with
  | O => []
  | S n => let r := if negb star || Nat.even i then ro else ri in
           mkPoint (fadd (px c) (fmul r (x_cos E start))) (fadd (py c) (fmul r (x_sin E start)))
           :: star_points E star c ro ri step (fadd start step) (S i) n
  end.
Definition is_segment_to (e : path_el) (p : point) : Prop :=
  e = LineTo p \/ exists c0 c1, e = CurveTo c0 c1 p.
(** Number of points of the polystar at a frame. *)
Definition star_count (E : Ext) (s : a_star) (frame : f64) : Z := f_to_usize (fround (eval E (asr_points s) frame)).
Lemma star_edges_spec : forall vs v, Forall2 is_segment_to (star_edges v vs) (map sv_pt vs).
Proof.
  induction vs as [|w vs IH]; intros v; cbn [star_edges map]; [constructor|]. constructor; [|apply IH].
  unfold is_segment_to. destruct (straight v w); eauto.
Qed.
Lemma star_vertices_pts E st c ro rro ri rri step : forall n i a,
  map sv_pt (star_vertices E st c ro rro ri rri step a i n) = star_points E st c ro ri step a i n.
Proof.
  induction n as [|n IH]; intros i a; cbn [star_vertices star_points map]; [reflexivity|].
  destruct (negb st || Nat.even i); cbn [map]; rewrite IH; f_equal;
    unfold star_vertex_at; destruct (fltb f_1em6 _); reflexivity.
Qed.
Theorem C33_outline : forall E s frame els,
  (0 < star_count E s frame)%Z -> a_star_eval E s frame = Ok els ->
  let star := negb (asr_polygon s) in
  let n := star_count E s frame in
  let total := Z.to_nat (if star then n * 2 else n)%Z in
  let step := if star then fdiv (fdiv f_tau (f_of_Z n)) (f_of_Z 2) else fdiv f_tau (f_of_Z n) in
  exists p0 ps body tail,
    p0 :: ps = star_points E star (eval E (asr_position s) frame) (eval E (asr_outer_radius s) frame)
                 (eval E (asr_inner_radius s) frame) step
                 (fsub (to_radians (eval E (asr_rotation s) frame)) f_frac_pi_2) 0 total /\
    List.length (p0 :: ps) = total /\
    els = MoveTo p0 :: body ++ tail /\
    Forall2 is_segment_to body ps /\
    (tail = [ClosePath] \/ exists c0 c1, tail = [CurveTo c0 c1 p0; ClosePath]).
Proof.
  intros E s frame els Hn H star n total step. unfold a_star_eval in H. fold (star_count E s frame) in H. fold n in H, Hn.
  destruct (Z.eqb_spec n 0) as [|N0]; [lia|].
  set (rot := fsub (to_radians (eval E (asr_rotation s) frame)) f_frac_pi_2) in *.
  set (ro := eval E (asr_outer_radius s) frame) in *. set (c := eval E (asr_position s) frame) in *.
  fold star in H.
  set (P := star_points E star c ro (eval E (asr_inner_radius s) frame) step rot 0 total).
  assert (LP : forall E st c ro ri step k i a, List.length (star_points E st c ro ri step a i k) = k)
    by (induction k; intros; simpl; auto).
  assert (G : exists v0 vs, map sv_pt (v0 :: vs) = P /\ els = MoveTo (sv_pt v0) :: star_edges v0 vs ++ star_close (last vs v0) v0).
  { assert (Tot : 0 < total) by (unfold total; destruct star; lia).
    assert (NP : P <> []) by (intros Q; apply (f_equal (@List.length _)) in Q; unfold P in Q; rewrite LP in Q; simpl in Q; lia).
    unfold P in NP |- *. destruct star eqn:Est.
    - destruct (negb (star_cap_ok _)); [discriminate|].
      rewrite <- (star_vertices_pts E true c ro (fdiv (eval E (asr_outer_roundness s) frame) f100) _
         (fdiv (eval E (asr_inner_roundness s) frame) f100)) in NP |- *.
      unfold step, total, rot in *.
      destruct (star_vertices _ _ _ _ _ _ _ _ _ _ _) as [|v0 vs]; [now contradiction NP|].
      injection H as <-. eauto.
    - destruct (negb (star_cap_ok _)); [discriminate|].
      assert (Q : forall k i a ri, star_points E false c ro (eval E (asr_inner_radius s) frame) step a i k =
        star_points E false c ro ri step a i k) by (induction k; intros; cbn; f_equal; auto).
      rewrite (Q _ _ _ ro) in NP |- *.
      rewrite <- (star_vertices_pts E false c ro (fdiv (eval E (asr_outer_roundness s) frame) f100) _ f0) in NP |- *.
      unfold step, total, rot in *.
      destruct (star_vertices _ _ _ _ _ _ _ _ _ _ _) as [|v0 vs]; [now contradiction NP|].
      injection H as <-. eauto. }
  destruct G as (v0 & vs & EP & ->). cbn [map] in EP.
  exists (sv_pt v0), (map sv_pt vs), (star_edges v0 vs), (star_close (last vs v0) v0).
  split; [exact EP|]. split; [rewrite EP; apply LP|]. split; [reflexivity|]. split; [apply star_edges_spec|].
  unfold star_close. destruct (straight _ _); eauto.
Qed.
(** No points, a negative number or NaN: nothing is drawn. *)
Theorem C33_empty : forall E s frame,
  (is_nan (eval E (asr_points s) frame) = true \/ fleb (eval E (asr_points s) frame) f0 = true) ->
  a_star_eval E s frame = Ok [].
Proof.
  intros E s frame H. unfold a_star_eval. set (x := eval E (asr_points s) frame) in *.
  assert (Q : f_to_usize (fround x) = 0%Z).
  { unfold fround. destruct (is_finite x) eqn:Fx.
    - destruct (Bnearbyint_correct 53 1024 _ mode_NA x) as (R1 & R2 & _). rewrite Fx in R2.
      set (y := Bnearbyint mode_NA x) in *.
      assert (x0 : (B2R x <= 0)%R).
      { destruct H as [H|H]; [destruct x; discriminate|]. apply fleb_le in H; auto. }
      assert (y0 : (B2R y <= 0)%R).
      { rewrite R1. rewrite <- (round_0 radix2 (FIX_exp 0) (round_mode mode_NA)). apply round_le; [typeclasses eauto..|exact x0]. }
      assert (T : (Btrunc y <= 0)%Z).
      { pose proof (Btrunc_correct 53 1024 _ y) as B. apply le_IZR. rewrite B.
        rewrite <- (round_0 radix2 (FIX_exp 0) Ztrunc). apply round_le; [typeclasses eauto..|exact y0]. }
      unfold f_to_usize. destruct y; try discriminate; lia.
    - destruct x as [[]|[]| |[]]; try discriminate; try reflexivity. destruct H; discriminate. }
  rewrite Q. reflexivity.
Qed.
Definition star5 (polygon : bool) : a_star :=
  mkAStar polygon f1 (VFixed (zp 50 50)) (VFixed (f_of_Z 4)) (VFixed f0) (VFixed (f_of_Z 9)) (VFixed f0)
          (VFixed f0) (VFixed (f_of_Z 5)).
Example C33_witness : star_count E0 (star5 false) f0 = 5%Z /\
  match a_star_eval E0 (star5 false) f0 with Ok els => List.length els = 11 | _ => False end /\
  match a_star_eval E0 (star5 true) f0 with Ok els => List.length els = 6 | _ => False end.
Proof. vm_compute. auto. Qed.
