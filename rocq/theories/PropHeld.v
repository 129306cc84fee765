(** C26 and C43, exactly: what is shown of a path and of a gradient while a
    keyframe is held, and which opacity a colour stop on an opacity stop gets. *)
From Coq Require Import Reals ZArith Bool List Lia Lra Arith.
From Flocq Require Import Core BinarySingleNaN.
From Verif Require Import F64 F64Facts Kurbo Value Animated ValueSpec ValueFacts ValueFacts2 SplineFacts.
From Verif Require Import Schema Import ImportSpec ImportFacts ImportFacts2 ImportFacts3 ImportFacts4 TimelineSpec TimelineFacts EasingSpec MorphSpec.
From Verif Require Import PropGeometry PropStar PropEasing PropValue PropImport2 PropAlpha PropMorph Examples DocExamples.
Import ListNotations.
Close Scope string_scope.
Open Scope list_scope.
Open Scope nat_scope.

(** * C26, paths *)
(** While keyframe [k] is held, its path is shown, cut off after as many points
    as the path has that is to follow. *)
Lemma lerp_points_cut a b t : lerp_points a b t = lerp_points (firstn (List.length b) a) (firstn (List.length a) b) t.
Proof.
  unfold lerp_points. f_equal. revert b. induction a as [|x a IH]; intros [|y b]; try reflexivity. cbn [List.length firstn combine]. f_equal. apply IH.
Qed.
Lemma firstn_Forall {A} (P : A -> Prop) n l : Forall P l -> Forall P (firstn n l).
Proof. intros H. rewrite Forall_forall in *. intros x Hx. apply H. rewrite <- (firstn_skipn n l). apply in_or_app. now left. Qed.
Lemma path_length pts c n : List.length pts = 3 * n -> 0 < n -> List.length (path_of pts c) = n + (if c then 2 else 0).
Proof.
  intros L P. unfold path_of. rewrite L. replace (3 * n / 3) with n by (rewrite Nat.mul_comm, Nat.div_mul; lia). cbn [List.length]. rewrite app_length, map_length, seq_length.
  rewrite (proj2 (Nat.ltb_lt 0 n) P), andb_true_r. destruct c; cbn [List.length]; lia.
Qed.
Theorem C26_spline_exact : forall E s frame i k to,
  List.length (asp_values s) = List.length (asp_times s) ->
  increasing (asp_times s) -> finite_times (asp_times s) -> is_finite frame = true ->
  surrounds (asp_times s) frame i -> t_hold (nth i (asp_times s) time_dflt) = true ->
  nth_error (asp_values s) i = Some k ->
  (match sk_end k with
   | Some e => to = e
   | None => exists k', nth_error (asp_values s) (next_key (asp_times s) i) = Some k' /\ to = sk_start k'
   end) ->
  Forall moderate_point (sk_start k) -> Forall moderate_point to ->
  exists els cut whole, a_spline_eval E s frame = Ok els /\
    spline_to_path (firstn (List.length to) (sk_start k)) (asp_closed s) = Ok cut /\
    spline_to_path (sk_start k) (asp_closed s) = Ok whole /\ Forall2 same_element els cut /\
    forall n m, List.length (sk_start k) = 3 * n -> List.length to = 3 * m ->
      (Forall2 same_element els whole <-> n <= m).
Proof.
  intros E s frame i k to Len Inc Fin Ff S Hold Hk Hto Mk Mto.
  unfold a_spline_eval. rewrite (select _ _ i) by (try assumption; now apply increasing_sorted). rewrite Hk, Hold.
  destruct (nth_error (asp_values s) (next_key (asp_times s) i)) as [k'|] eqn:E2.
  2:{ apply nth_error_None in E2. destruct S as [Hi _]. unfold next_key in E2. lia. }
  assert (Ht : (match sk_end k with Some e => e | None => sk_start k' end) = to).
  { destruct (sk_end k); [auto|]. destruct Hto as (k2 & [= <-] & ->). reflexivity. }
  rewrite Ht, spline_lerp_eq, lerp_points_cut. clear Ht Hto E2 k'. set (a := sk_start k) in *.
  set (x := firstn (List.length to) a). set (y := firstn (List.length a) to).
  assert (Lxy : List.length x = List.length y) by (unfold x, y; rewrite !firstn_length; lia).
  assert (Mx : Forall moderate_point x) by (unfold x; apply firstn_Forall; assumption).
  assert (My : Forall moderate_point y) by (unfold y; apply firstn_Forall; assumption).
  pose proof (lerp_points_zero x y f0 Mx My Lxy eq_refl eq_refl) as Q.
  assert (Path : forall p c, exists els, spline_to_path p c = Ok els /\ els = match p with [] => [] | _ => path_of p c end).
  { intros [|z p] c; [exists []; split; reflexivity|]. eexists. split; [apply spline_to_path_of; discriminate|reflexivity]. }
  destruct (Path (lerp_points x y f0) (asp_closed s)) as (els & Ee & Eq1). destruct (Path x (asp_closed s)) as (cut & Ec & Eq2).
  destruct (Path a (asp_closed s)) as (whole & Ew & Eq3). exists els, cut, whole. split; [exact Ee|]. split; [exact Ec|]. split; [exact Ew|].
  assert (F : Forall2 same_element els cut).
  { rewrite Eq1, Eq2. inversion Q as [|? ? ? ? H1 H2 E3 E4]; [constructor|]. apply path_of_cong. rewrite E3, E4. exact Q. }
  split; [exact F|]. intros n m Ln Lm.
  assert (Lx : List.length x = 3 * Nat.min n m) by (unfold x; rewrite firstn_length, Ln, Lm; lia).
  split.
  - intros W. apply Forall2_len in F, W. rewrite F in W. destruct (Nat.le_gt_cases n m) as [G|G]; [exact G|]. exfalso.
    assert (Lx' : List.length x = 3 * m) by lia. destruct a as [|a0 a']; [cbn [List.length] in Ln; lia|].
    rewrite Eq3, (path_length _ _ n Ln ltac:(lia)) in W. rewrite Eq2 in W. destruct x as [|x0 x'].
    + cbn [List.length] in W. lia.
    + rewrite (path_length _ _ m Lx' ltac:(cbn [List.length] in Lx'; lia)) in W. lia.
  - intros G. assert (x = a) as Xa by (unfold x; apply firstn_all2; lia). rewrite Xa in Eq2. rewrite Eq3, <- Eq2. exact F.
Qed.

(** * C26, gradients *)
(** While keyframe [k] is held, colours and opacities are its own; but the
    offsets move on to the next keyframe, as if it were not held. *)
Theorem C26_gradient_exact : forall E x gr ks d i k l e frame, solves E -> paints_gradient x gr ->
  let n := gc_p (bg_g gr) in ap_k (md_p (gc_k (bg_g gr))) = AkAnimated ks -> conv_shape E x = Ok (Some (ShDraw d)) ->
  1 <= n -> (forall k, In k ks -> 4 * n <= List.length (kf_value k)) ->
  in_order ks -> moderate_keyframes ks -> nth_error ks i = Some k -> nth_error ks (S i) = Some l ->
  fin frame -> between k l frame -> held k -> scalar_easing k e -> ordinary_easing e ->
  exists out, stops_at E (dr_brush d) frame out /\ List.length out = n /\
    forall j s o1 r1 g1 b1 o2 r2 g2 b2, nth_error out j = Some s ->
      stop_numbers k j o1 r1 g1 b1 -> stop_numbers l j o2 r2 g2 b2 ->
      eased_channel k l e frame o1 o2 (cs_offset s) /\
      exists a1, stop_opacity (kf_value k) n o1 a1 /\
        cs_color s = mkColor (f64_to_f32 r1) (f64_to_f32 g1) (f64_to_f32 b1) (f64_to_f32 a1).
Proof.
  intros E x gr ks d i k l e frame S P n K H Hn Hl O M Hk Hk1 Ff Bt Nh Se Oe.
  destruct (gradient_keyframes _ _ _ _ _ P K H) as (a & Cn & F1 & F2 & Ev). fold n in Cn, F2.
  exists (a_stops_eval E a frame). split; [apply Ev|].
  assert (Len : List.length (a_stops_eval E a frame) = n).
  { rewrite <- Cn. apply C31_complete.
    - rewrite <- (Forall2_len _ _ _ F1). symmetry. apply (Forall2_len _ _ _ F2).
    - intros X. rewrite X in F1. inversion F1; subst. destruct i; discriminate Hk.
    - apply Forall_forall. intros v Hv. apply In_nth_error in Hv as (m & Hv). destruct (Forall2_nth_r _ _ _ _ _ F2 Hv) as (kf & Kf & L & _).
      apply nth_error_In in Kf. rewrite L, Cn, (total_count _ _ Hn (Hl kf Kf)). lia. }
  split; [exact Len|]. intros j s o1 r1 g1 b1 o2 r2 g2 b2 Hs (N1 & Uo1 & Ur1 & Ug1 & Ub1) (N2 & Uo2 & Ur2 & Ug2 & Ub2).
  assert (Lj : j < n) by (rewrite <- Len; apply nth_error_Some; congruence).
  unfold a_stops_eval in Hs. destruct (a_stops_eval_inner E a frame) as [out|] eqn:Ei; [|destruct j; discriminate Hs].
  unfold a_stops_eval_inner in Ei. rewrite (times_select _ _ _ _ _ _ F1 O M Hk Hk1 Ff Bt) in Ei. cbn [obind] in Ei.
  destruct (Forall2_nth_l _ _ _ _ _ F2 Hk) as (v0 & V0 & _ & R0). destruct (Forall2_nth_l _ _ _ _ _ F2 Hk1) as (v1 & V1 & _ & R1).
  rewrite V0, V1 in Ei. cbn [obind] in Ei.
  destruct (times_at _ _ _ _ F1 Hk) as (_ & Tr & _). pose proof (times_hold _ _ _ _ F1 Hk) as Th.
  rewrite (easing_fun _ _ _ _ (reads_easing _ _ Tr) Se) in Ei.
  destruct (t_hold (nth i (ast_frames a) time_dflt)) eqn:Et; [|apply Th in Nh; congruence].
  apply (stops_nth _ _ _ _ _ _ _ _ _ _ _ Ei) in Hs. cbn [Nat.add] in Hs.
  destruct (R0 j) as (o1' & r1' & g1' & b1' & a1 & N1' & Q1 & A1); [now rewrite (total_count _ _ Hn (Hl k (nth_error_In _ _ Hk)))|].
  destruct (R1 j) as (o2' & r2' & g2' & b2' & a2 & N2' & Q2 & A2); [now rewrite (total_count _ _ Hn (Hl l (nth_error_In _ _ Hk1)))|].
  destruct (nums_fun4 _ _ _ _ _ _ _ _ _ _ N1 N1') as (<- & <- & <- & <-). destruct (nums_fun4 _ _ _ _ _ _ _ _ _ _ N2 N2') as (<- & <- & <- & <-).
  rewrite (stop_numbers_of E v0 v1 _ e true j _ _ _ _ _ _ _ _ _ _ Q1 Q2) in Hs. injection Hs as <-. cbn [cs_offset cs_color].
  pose proof (moderate_at _ _ _ M Hk) as Mk. pose proof (moderate_at _ _ _ M Hk1) as Ml.
  split; [now apply number_eased|]. exists a1. split; [exact A1|]. reflexivity.
Qed.

(** * C43 *)
(** A colour stop on opacity stop [k] gets the least of that opacity and of the
    opacities of the inner opacity stops; that is the opacity of stop [k] if
    and only if no inner one is less. *)
Theorem C43_exact : forall E x g l d out i s k p o,
  paints_gradient x g -> ap_k (md_p (gc_k (bg_g g))) = AkStatic l -> 1 <= gc_p (bg_g g) ->
  4 * gc_p (bg_g g) <= List.length l ->
  let ops := opacity_stops l (gc_p (bg_g g)) in
  2 <= List.length ops -> sane_opacities ops ->
  conv_shape E x = Ok (Some (ShDraw d)) -> (forall frame, stops_at E (dr_brush d) frame out) ->
  nth_error out i = Some s -> nth_error l (4 * i) = Some o -> is_finite o = true ->
  nth_error ops k = Some p -> feqb o (fst p) = true -> fleb (snd p) f1 = true ->
  exists a, ca (cs_color s) = f64_to_f32 a /\
    fleb a (snd p) = true /\ (forall j q, 0 < j < List.length ops - 1 -> nth_error ops j = Some q -> fleb a (snd q) = true) /\
    (same_number a (snd p) \/ exists j q, 0 < j < List.length ops - 1 /\ nth_error ops j = Some q /\ a = snd q) /\
    (same_number a (snd p) <-> least_between ops (snd p)).
Proof.
  intros E x g l d out i s k p o Hx Hk Hc Hl ops H2 Sane H Hout Hs Ho Fo Hp Heq H1.
  pose proof (imported_alpha E x g l d out i s o Hx Hk Hc Hl H Hout Hs Ho) as Ca. fold ops in Ca.
  set (a := alpha_scan E o None ops f1) in *. exists a. split; [exact Ca|].
  assert (Q : least_opacity ops k a) by (apply scan_at_stop with (p := p); auto).
  destruct Q as [Lo Cs]. assert (Fp : fleb (snd p) (snd p) = true).
  { destruct Sane as [Sf _]. rewrite Forall_forall in Sf. destruct (Sf p (nth_error_In _ _ Hp)) as [_ Fp]. apply fleb_le; auto. apply Rle_refl. }
  assert (L0 : fleb a (snd p) = true) by (apply (Lo k p); auto).
  assert (Li : forall j q, 0 < j < List.length ops - 1 -> nth_error ops j = Some q -> fleb a (snd q) = true) by (intros j q Hj Hq; apply (Lo j q); auto).
  split; [exact L0|]. split; [exact Li|].
  assert (C : same_number a (snd p) \/ exists j q, 0 < j < List.length ops - 1 /\ nth_error ops j = Some q /\ a = snd q).
  { destruct Cs as [E1|(j & q & [->|Cj] & Hq & E1)].
    - left. apply fleb_antisym; [exact L0|]. rewrite E1. exact H1.
    - left. assert (q = p) as -> by congruence. rewrite E1. now apply fleb_antisym.
    - right. exists j, q. auto. }
  split; [exact C|]. split.
  - intros Sm j q Hj Hq. specialize (Li j q Hj Hq). destruct Sane as [Sf _]. rewrite Forall_forall in Sf.
    destruct (Sf p (nth_error_In _ _ Hp)) as [_ F1], (Sf q (nth_error_In _ _ Hq)) as [_ F2].
    assert (Fa : is_finite a = true).
    { destruct C as [C|(j' & q' & _ & Hq' & ->)]; [|apply (Sf q' (nth_error_In _ _ Hq'))]. unfold same_number in C. clearbody a. destruct a as [| | |], (snd p) as [| | |]; try discriminate; auto; destruct s0, s1; discriminate C. }
    apply fleb_le in Li; auto. apply fleb_le; auto. apply feqb_eq in Sm; auto. rewrite <- Sm. exact Li.
  - intros Lb. apply fleb_antisym; [exact L0|]. destruct C as [C|(j & q & Hj & Hq & E1)].
    + unfold same_number in C. clear - C. unfold feqb, fleb, Beqb, Bleb, SpecFloat.SFeqb, SpecFloat.SFleb in *. fold (Bcompare a (snd p)) in C. fold (Bcompare (snd p) a). rewrite (Bcompare_swap _ _ a (snd p)).
      destruct (Bcompare a (snd p)) as [[]|]; try discriminate; reflexivity.
    + rewrite E1. apply (Lb j q Hj Hq).
Qed.

(** * The hypotheses are met *)
Example C26_spline_exact_applies :
  let v2 := [zp 0 0; zp 0 0; zp 0 0; zp 5 5; zp 0 0; zp 0 0] in let v1 := [zp 9 9; zp 0 0; zp 0 0] in
  let s := mkASpline false times3 [mkSplineKf v2 None; mkSplineKf v2 None; mkSplineKf v1 None] in
  increasing times3 /\ finite_times times3 /\ surrounds times3 (f_of_Z 12) 1 /\ t_hold (nth 1 times3 time_dflt) = true /\
  nth_error (asp_values s) (next_key (asp_times s) 1) = Some (mkSplineKf v1 None) /\ Forall moderate_point v2 /\ Forall moderate_point v1.
Proof.
  cbv zeta. assert (M : forall x y, (Z.abs x <= 9)%Z -> (Z.abs y <= 9)%Z -> moderate_point (zp x y)) by (intros; split; apply moderate_Z; lia).
  split; [exact times3_increasing|]. split; [exact times3_finite|].
  split; [split; [cbn; lia|]; split; [right; vm_compute; reflexivity|]; intros _; vm_compute; reflexivity|]. split; [reflexivity|]. split; [reflexivity|].
  split; repeat (apply Forall_cons || apply Forall_nil || apply M); lia.
Qed.
Definition dusk_held : keyframe :=
  mkKeyframe (mkKfBase (f_of_Z 10) (Some BITrue) (kb_in (kf_b dusk_at)) (kb_out (kf_b dusk_at))) dusk None.
Definition still : base_gradient :=
  mkBaseGradient (mkGradientColors (mkMultiDim (animated [dusk_held; dawn_at]) None) 2) (v_static 0 0) (v_static 100 0) None None None.
Definition still_item : any_shape := AsGradientFill (mkStyle no_ge (st f100)) still None.
Example C26_gradient_exact_applies : paints_gradient still_item still /\ ap_k (md_p (gc_k (bg_g still))) = AkAnimated [dusk_held; dawn_at] /\
  (exists d, conv_shape E_solves still_item = Ok (Some (ShDraw d))) /\ (1 <= gc_p (bg_g still))%nat /\
  (forall k, In k [dusk_held; dawn_at] -> (4 * gc_p (bg_g still) <= List.length (kf_value k))%nat) /\
  in_order [dusk_held; dawn_at] /\ moderate_keyframes [dusk_held; dawn_at] /\ fin (f_of_Z 20) /\ between dusk_held dawn_at (f_of_Z 20) /\
  held dusk_held /\ scalar_easing dusk_held fading_easing /\ ordinary_easing fading_easing /\
  stop_numbers dusk_held 1 f_half f0 f0 f1 /\ stop_numbers dawn_at 1 f1 f1 f1 f1.
Proof.
  destruct C84_applies as (_ & _ & _ & _ & _ & O & M & F & B & _ & Se & Oe & N1 & N2 & _).
  split; [left; unfold still_item; eauto|]. split; [reflexivity|]. split.
  { assert (T : match conv_shape E_solves still_item with Ok (Some (ShDraw _)) => True | _ => False end) by (lazy; exact I).
    destruct (conv_shape E_solves still_item) as [[[| | | |]|]| |]; try contradiction. eauto. }
  split; [cbn; lia|]. split. { intros k [<-|[<-|[]]]; cbn; lia. }
  split. { intros [|[|i]] [|[|j]] k l Hij Hk Hl; try lia; try (destruct i; discriminate); try (destruct j; discriminate).
           injection Hk as <-. injection Hl as <-. vm_compute. reflexivity. }
  split. { unfold moderate_keyframes. apply Forall_cons; [apply (small_moderate 10%Z); lia|]. apply Forall_cons; [apply (small_moderate 50%Z); lia|]. apply Forall_nil. }
  split; [exact F|]. split; [exact B|]. split; [reflexivity|]. split; [exact Se|]. split; [exact Oe|]. split; [exact N1|exact N2].
Qed.
(** [C43_refuted] and [C43_witness] show both cases of [C43_exact]. *)
