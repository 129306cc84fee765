From Coq Require Import Reals ZArith Bool List Lia Lra Arith.
From Flocq Require Import Core BinarySingleNaN.
From Verif Require Import F64 F64Facts Kurbo Value Animated ValueSpec ValueFacts ValueFacts2 SplineFacts.
From Verif Require Import Schema Import ImportSpec ImportFacts ImportFacts2 ImportFacts3 ImportFacts4 TimelineSpec TimelineFacts EasingSpec MorphSpec.
From Verif Require Import PropGeometry PropStar PropEasing PropValue PropImport2 PropAlpha Examples DocExamples.
Import ListNotations.
Close Scope string_scope.
Open Scope list_scope.
Open Scope R_scope.
Ltac bnd := apply Rabs_le; lra.

(** * Keyframes and times *)
Lemma times_at ks times i k : Forall2 (fun k t => time_reads (kf_b k) t) ks times -> nth_error ks i = Some k ->
  nth_error times i = Some (nth i times time_dflt) /\ time_reads (kf_b k) (nth i times time_dflt) /\ time_at times i = kf_time k.
Proof.
  intros F H. destruct (Forall2_nth_l _ _ _ _ _ F H) as (t & Ht & R).
  assert (Q : nth i times time_dflt = t) by now apply nth_error_nth. unfold time_at. rewrite Q. split; [exact Ht|]. split; [exact R|]. apply R.
Qed.
Lemma times_sound ks times : Forall2 (fun k t => time_reads (kf_b k) t) ks times -> in_order ks -> moderate_keyframes ks ->
  increasing times /\ moderate_times times.
Proof.
  intros F O M. split.
  - intros i j [H1 H2]. rewrite <- (Forall2_len _ _ _ F) in H2.
    destruct (nth_error ks i) as [k|] eqn:Ki; [|apply nth_error_None in Ki; lia].
    destruct (nth_error ks j) as [l|] eqn:Kj; [|apply nth_error_None in Kj; lia].
    destruct (times_at _ _ _ _ F Ki) as (_ & _ & ->), (times_at _ _ _ _ F Kj) as (_ & _ & ->). now apply (O i j).
  - unfold moderate_times, moderate_keyframes in *. clear O. induction F as [|k t ks times R _ IH]; [constructor|]. inversion M; subst.
    constructor; [|auto]. destruct R as [-> _]. assumption.
Qed.
Lemma times_select ks times frame i k l : Forall2 (fun k t => time_reads (kf_b k) t) ks times -> in_order ks -> moderate_keyframes ks ->
  nth_error ks i = Some k -> nth_error ks (S i) = Some l -> fin frame -> between k l frame ->
  frames_and_weight times frame =
    Some ((i, S i), progress k l frame, segment_easing (nth i times time_dflt), t_hold (nth i times time_dflt)).
Proof.
  intros F O M Hk Hl Ff [B1 B2]. destruct (times_sound _ _ F O M) as [Inc Mod].
  pose proof (moderate_finite _ Mod) as Fin.
  destruct (times_at _ _ _ _ F Hk) as (T1 & _ & E1), (times_at _ _ _ _ F Hl) as (T2 & _ & E2).
  assert (L : (S i < List.length times)%nat) by (apply nth_error_Some; congruence).
  assert (N : next_key times i = S i) by (unfold next_key; lia).
  rewrite (select times frame i); [|now apply increasing_sorted|exact Fin|exact Ff|].
  - now rewrite N, E1, E2.
  - split; [lia|]. split; [right; now rewrite E1|]. intros _. now rewrite E2.
Qed.
Lemma times_hold ks times i k : Forall2 (fun k t => time_reads (kf_b k) t) ks times -> nth_error ks i = Some k ->
  (t_hold (nth i times time_dflt) = true <-> held k).
Proof. intros F H. destruct (times_at _ _ _ _ F H) as (_ & (_ & R & _) & _). exact R. Qed.

(** * Paths *)
Lemma way_lerp a b t y : ordinary_number a -> ordinary_number b -> fin t -> 0 <= y <= 1 -> Rabs (B2R t - y) <= / 100000000000000 ->
  on_the_way y (B2R a) (B2R b) (lerp1 a b t).
Proof.
  intros [Fa Ba] [Fb Bb] Ft Hy Ht. unfold lerp1, on_the_way.
  assert (S : approx (fsub b a) (B2R b - B2R a) (/ 1000000000)).
  { eapply (approx_sub b a _ _ 0 0 2097152); [now apply exact_self|now apply exact_self|lra|lra|]. unfold u52. lra. }
  assert (P : approx (fmul t (fsub b a)) (y * (B2R b - B2R a)) (/ 20000000)).
  { eapply (near_mul t _ y _ (/ 100000000000000) (/ 1000000000) 1 2097152); [split; [exact Ft|exact Ht]|exact S|bnd| |lra|lra|unfold u52; lra].
    apply Rle_trans with (1 := Rabs_triang _ _). rewrite Rabs_Ropp. lra. }
  assert (Bp : Rabs (y * (B2R b - B2R a)) <= 2097152).
  { replace 2097152 with (1 * 2097152) by ring. apply Rabs_mult_le; [bnd|]. apply Rle_trans with (1 := Rabs_triang _ _). rewrite Rabs_Ropp. lra. }
  destruct (near_add a _ (B2R a) _ 0 _ 3145728 (/ 1000000) (exact_self a Fa) P) as [Fv Ev]; [lra|lra|unfold u52; lra|].
  split; [exact Fv|]. now rewrite (Rmult_comm (B2R b - B2R a)).
Qed.
Definition ordinary_point (p : point) : Prop := ordinary_number (px p) /\ ordinary_number (py p).
Lemma way_points pts1 pts2 t y : Forall ordinary_point pts1 -> Forall ordinary_point pts2 -> fin t -> 0 <= y <= 1 ->
  Rabs (B2R t - y) <= / 100000000000000 -> all_part_way y pts1 pts2 (lerp_points pts1 pts2 t).
Proof.
  intros F1 F2 Ft Hy Ht. revert pts2 F2. induction F1 as [|a pts1 [A1 A2] _ IH]; intros pts2 F2; [apply apw_left|].
  destruct F2 as [|b pts2 [B1 B2] F2]; [apply apw_right|]. unfold lerp_points. cbn [combine map fst snd]. apply apw_cons; [|now apply IH].
  split; now apply way_lerp.
Qed.
Lemma ordinary_0 : ordinary_number f0. Proof. split; [reflexivity|]. rewrite f0_R, Rabs_R0. lra. Qed.
Lemma ordinary_nth l n : Forall ordinary_pair l -> ordinary_point (mkPoint (fst (nth n l (f0, f0))) (snd (nth n l (f0, f0)))).
Proof.
  intros F. revert n. induction F as [|x l H _ IH]; intros [|n]; cbn [nth]; try exact H; try apply IH; split; exact ordinary_0.
Qed.
Lemma ordinary_points b pts : ordinary_path b -> bezier_points b pts -> pts <> [] /\ Forall ordinary_point pts.
Proof.
  intros (Ne & Fv & Fi & Fo) [Len P]. split.
  { intros ->. cbn [List.length] in Len. destruct (bz_v b); [congruence|]. cbn [List.length] in Len. lia. }
  apply Forall_forall. intros p Hp. apply In_nth_error in Hp as (m & Hm).
  assert (Lm : (m < 3 * List.length (bz_v b))%nat) by (rewrite <- Len; apply nth_error_Some; congruence).
  pose proof (Nat.div_mod m 3 ltac:(lia)) as D. pose proof (Nat.mod_upper_bound m 3 ltac:(lia)) as U.
  set (n := (m / 3)%nat) in *. set (r := (m mod 3)%nat) in *. clearbody n r.
  destruct (nth_error (bz_v b) n) as [v|] eqn:Hv; [|apply nth_error_None in Hv; lia].
  destruct (P n v Hv) as (P0 & P1 & P2). apply nth_error_In in Hv. rewrite Forall_forall in Fv.
  assert (C : m = (3 * n)%nat \/ m = (3 * n + 1)%nat \/ m = (3 * n + 2)%nat) by lia.
  destruct C as [->|[->| ->]].
  - rewrite P0 in Hm. injection Hm as <-. exact (Fv v Hv).
  - rewrite P1 in Hm. injection Hm as <-. now apply ordinary_nth.
  - rewrite P2 in Hm. injection Hm as <-. now apply ordinary_nth.
Qed.
Lemma stamps ks times : Forall2 (fun k t => time_reads (skf_b k) t) ks times -> Forall2 (fun k t => time_reads (kf_b k) t) (path_times ks) times.
Proof. unfold path_times. induction 1; cbn [map]; constructor; auto. Qed.
Lemma stamp_at ks i k : nth_error ks i = Some k -> nth_error (path_times ks) i = Some (stamp k).
Proof. intros H. unfold path_times. now apply map_nth_error. Qed.
(** the two lists of points between which keyframe [i] interpolates *)
Lemma spline_parts ks s i k : spline_reads ks s -> nth_error ks i = Some k ->
  exists v v' b1 b2, nth_error (asp_values s) i = Some v /\ nth_error (asp_values s) (next_key (asp_times s) i) = Some v' /\
    start_of ks i = Some b1 /\ end_of ks i = Some b2 /\ bezier_points b1 (sk_start v) /\
    bezier_points b2 (match sk_end v with Some e => e | None => sk_start v' end).
Proof.
  intros (Ft & Len & V & _) Hk. assert (Li : (i < List.length ks)%nat) by (apply nth_error_Some; congruence).
  pose proof (Forall2_len _ _ _ Ft) as Lt. set (j := next_key (asp_times s) i).
  assert (Lj : (j < List.length ks)%nat) by (unfold j, next_key; lia).
  destruct (nth_error (asp_values s) i) as [v|] eqn:Hv; [|apply nth_error_None in Hv; lia].
  destruct (nth_error (asp_values s) j) as [v'|] eqn:Hv'; [|apply nth_error_None in Hv'; lia].
  destruct (nth_error ks j) as [k'|] eqn:Hk'; [|apply nth_error_None in Hk'; lia].
  destruct (V i v k Hv Hk) as ((b1 & S1 & B1) & Ed). destruct (V j v' k' Hv' Hk') as ((b' & S' & B') & _).
  exists v, v', b1. unfold end_of. rewrite Hk. destruct (first_of (skf_e k)) as [e|], (sk_end v) as [pts|]; try contradiction.
  - exists e. do 4 (split; [auto|]). split; assumption.
  - exists b'. assert (Q : (if (S i =? List.length ks)%nat then start_of ks i else start_of ks (S i)) = Some b').
    { rewrite <- S'. unfold j, next_key. destruct (Nat.eqb_spec (S i) (List.length ks)); f_equal; lia. }
    do 4 (split; [auto|]). split; assumption.
Qed.
Lemma spline_morphs E ks s i k frame w y e h : spline_reads ks s -> nth_error ks i = Some k ->
  (forall b, (start_of ks i = Some b \/ end_of ks i = Some b) -> ordinary_path b) ->
  frames_and_weight (asp_times s) frame = Some ((i, next_key (asp_times s) i), w, e, h) ->
  fin (if h then f0 else w) -> 0 <= y <= 1 -> Rabs (B2R (if h then f0 else w) - y) <= / 100000000000000 ->
  exists els, a_spline_eval E s frame = Ok els /\ morphed ks i y els.
Proof.
  intros R Hk O Fw Ft Hy Ht. destruct (spline_parts _ _ _ _ R Hk) as (v & v' & b1 & b2 & Hv & Hv' & S1 & S2 & P1 & P2).
  unfold a_spline_eval. rewrite Fw, Hv, Hv'. set (t := if h then f0 else w) in *. set (to := match sk_end v with Some e => e | None => _ end) in *.
  destruct (ordinary_points b1 _ (O b1 (or_introl S1)) P1) as [N1 O1]. destruct (ordinary_points b2 _ (O b2 (or_intror S2)) P2) as [N2 O2].
  destruct (C30_interpolated (sk_start v) to t (asp_closed s) N1 N2) as (els & Ev & Sp). exists els. split; [exact Ev|].
  exists b1, b2, (sk_start v), to, (lerp_points (sk_start v) to t), (asp_closed s).
  split; [exact S1|]. split; [exact S2|]. split; [exact P1|]. split; [exact P2|]. split; [now apply way_points|].
  split; [|exact Sp]. destruct R as (_ & _ & _ & R). exact R.
Qed.
(** [g] is the imported path [p]: an item of a shape layer or a mask. *)
Definition imported_path (E : Ext) (p : shape_prop) (g : geometry) : Prop :=
  (exists sh, becomes E (AsPath sh p) (ShGeometry g)) \/ (exists m k, mas_pt m = Some p /\ mask_reads m k /\ mk_geometry k = g).
Lemma imported_spline E p g ks : imported_path E p g -> sp_k p = SkAnimated ks -> exists s, g = GSpline s /\ spline_reads ks s.
Proof.
  intros I K. assert (R : path_reads p g).
  { destruct I as [(sh & B)|(m & k & Hm & ((p' & Hp & R) & _) & <-)]; [now inversion B|]. assert (p' = p) as <- by congruence. exact R. }
  unfold path_reads in R. now rewrite K in R.
Qed.

(** * C83 *)
(** Between two keyframes all vertices and tangents of a path move from those
    of the one to those of the other in proportion to the time, whatever
    easing the keyframes ask for. *)
Theorem C83_linear : forall E p g ks i k l frame, imported_path E p g -> sp_k p = SkAnimated ks ->
  in_order (path_times ks) -> moderate_keyframes (path_times ks) -> nth_error ks i = Some k -> nth_error ks (S i) = Some l ->
  fin frame -> between (stamp k) (stamp l) frame -> ~ held (stamp k) ->
  (forall b, (start_of ks i = Some b \/ end_of ks i = Some b) -> ordinary_path b) ->
  exists els, geometry_eval E g frame = Ok els /\ morphed ks i (elapsed (stamp k) (stamp l) frame) els.
Proof.
  intros E p g ks i k l frame I K O M Hk Hl Ff Bt Nh Ob. destruct (imported_spline _ _ _ _ I K) as (s & -> & R). cbn [geometry_eval].
  pose proof (stamps _ _ (proj1 R)) as F. apply stamp_at in Hl as Hl'. apply stamp_at in Hk as Hk'.
  pose proof (times_select _ _ _ _ _ _ F O M Hk' Hl' Ff Bt) as Fw.
  assert (N : next_key (asp_times s) i = S i).
  { assert (S i < List.length (asp_times s))%nat by (rewrite <- (Forall2_len _ _ _ F); apply nth_error_Some; congruence). unfold next_key. lia. }
  rewrite <- N in Fw at 1. destruct (t_hold (nth i (asp_times s) time_dflt)) eqn:H; [now apply (times_hold _ _ _ _ F Hk') in H|].
  pose proof (moderate_at _ _ _ M Hk') as Mk. pose proof (moderate_at _ _ _ M Hl') as Ml.
  destruct Bt as [B1 B2]. apply fleb_le in B1; [|apply Mk|exact Ff]. apply fltb_lt in B2; [|exact Ff|apply Ml].
  destruct (progress_ratio _ _ frame Mk Ml Ff ltac:(split; assumption)) as (Fp & Bp & Rp).
  eapply (spline_morphs E ks s i k frame (progress (stamp k) (stamp l) frame)); eauto.
  set (a := B2R (kf_time (stamp k))) in *. set (b := B2R (kf_time (stamp l))) in *. unfold elapsed. fold a b.
  assert (P : 0 < b - a) by lra. split.
  - apply Rmult_le_pos; [lra|]. left. now apply Rinv_0_lt_compat.
  - apply Rmult_le_reg_r with (b - a); [lra|]. unfold Rdiv. rewrite Rmult_assoc, Rinv_l; lra.
Qed.
(** A held path stays as it is. *)
Theorem C83_held : forall E p g ks i k l frame, imported_path E p g -> sp_k p = SkAnimated ks ->
  in_order (path_times ks) -> moderate_keyframes (path_times ks) -> nth_error ks i = Some k -> nth_error ks (S i) = Some l ->
  fin frame -> between (stamp k) (stamp l) frame -> held (stamp k) ->
  (forall b, (start_of ks i = Some b \/ end_of ks i = Some b) -> ordinary_path b) ->
  exists els, geometry_eval E g frame = Ok els /\ morphed ks i 0 els.
Proof.
  intros E p g ks i k l frame I K O M Hk Hl Ff Bt Hh Ob. destruct (imported_spline _ _ _ _ I K) as (s & -> & R). cbn [geometry_eval].
  pose proof (stamps _ _ (proj1 R)) as F. apply stamp_at in Hl as Hl'. apply stamp_at in Hk as Hk'.
  pose proof (times_select _ _ _ _ _ _ F O M Hk' Hl' Ff Bt) as Fw.
  assert (N : next_key (asp_times s) i = S i).
  { assert (S i < List.length (asp_times s))%nat by (rewrite <- (Forall2_len _ _ _ F); apply nth_error_Some; congruence). unfold next_key. lia. }
  rewrite <- N in Fw at 1. apply (times_hold _ _ _ _ F Hk') in Hh. rewrite Hh in Fw.
  apply (spline_morphs E ks s i k frame _ 0 _ _ R Hk Ob Fw); [reflexivity|lra|]. rewrite f0_R, Rminus_eq_0, Rabs_R0. lra.
Qed.
Lemma clamp_zero x : fleb (fclamp f0 f1 x) f0 = true -> fin (fclamp f0 f1 x) /\ B2R (fclamp f0 f1 x) = 0.
Proof.
  unfold fclamp. destruct (fltb x f0) eqn:A; [split; reflexivity|]. destruct (fltb f1 x) eqn:B; [intros H; discriminate H|]. intros H.
  destruct x as [[]|[]| |[]]; simpl in *; try discriminate; split; reflexivity.
Qed.
(** Before the first keyframe, its path. *)
Theorem C83_before : forall E p g ks k frame, imported_path E p g -> sp_k p = SkAnimated ks ->
  in_order (path_times ks) -> moderate_keyframes (path_times ks) -> nth_error ks 0 = Some k ->
  fin frame -> fltb frame (kf_time (stamp k)) = true ->
  (forall b, (start_of ks 0 = Some b \/ end_of ks 0 = Some b) -> ordinary_path b) ->
  exists els, geometry_eval E g frame = Ok els /\ morphed ks 0 0 els.
Proof.
  intros E p g ks k frame I K O M Hk Ff Bf Ob. destruct (imported_spline _ _ _ _ I K) as (s & -> & R). cbn [geometry_eval].
  pose proof (stamps _ _ (proj1 R)) as F. apply stamp_at in Hk as Hk'. destruct (times_sound _ _ F O M) as [Inc Mod].
  pose proof (moderate_finite _ Mod) as Fin. destruct (times_at _ _ _ _ F Hk') as (_ & _ & E1). rewrite <- E1 in Bf.
  assert (Ne : asp_times s <> []).
  { intros Q. rewrite Q in F. apply Forall2_len in F. destruct ks; [discriminate Hk|discriminate F]. }
  pose proof (select _ frame 0 (increasing_sorted _ Inc) Fin Ff (surrounds_before _ _ Inc Fin Ff Ne Bf)) as Fw.
  pose proof (weight_before_first _ _ Inc Mod Ff Ne Bf) as W. set (w := fclamp f0 f1 _) in *.
  assert (Z : fin w /\ B2R w = 0).
  { apply clamp_zero. exact W. }
  destruct Z as [Fz Rz]. apply (spline_morphs E ks s 0%nat k frame w 0 _ _ R Hk Ob Fw); [destruct (t_hold _); [reflexivity|exact Fz]|lra|].
  destruct (t_hold _); rewrite ?f0_R, ?Rz, Rminus_eq_0, Rabs_R0; lra.
Qed.
(** After the last keyframe, the path it leads to (if it is not held). *)
Theorem C83_after : forall E p g ks i k frame, imported_path E p g -> sp_k p = SkAnimated ks ->
  in_order (path_times ks) -> moderate_keyframes (path_times ks) -> S i = List.length ks -> nth_error ks i = Some k ->
  fin frame -> fltb (kf_time (stamp k)) frame = true ->
  (forall b, (start_of ks i = Some b \/ end_of ks i = Some b) -> ordinary_path b) ->
  exists els y, geometry_eval E g frame = Ok els /\ morphed ks i y els /\ (held (stamp k) -> y = 0) /\ (~ held (stamp k) -> y = 1).
Proof.
  intros E p g ks i k frame I K O M Li Hk Ff Bf Ob. destruct (imported_spline _ _ _ _ I K) as (s & -> & R). cbn [geometry_eval].
  pose proof (stamps _ _ (proj1 R)) as F. apply stamp_at in Hk as Hk'. destruct (times_sound _ _ F O M) as [Inc Mod].
  pose proof (moderate_finite _ Mod) as Fin. destruct (times_at _ _ _ _ F Hk') as (_ & _ & E1). rewrite <- E1 in Bf.
  pose proof (Forall2_len _ _ _ (proj1 R)) as Len. assert (Qi : i = (List.length (asp_times s) - 1)%nat) by lia.
  assert (Ne : asp_times s <> []) by (intros Q; rewrite Q in Len; cbn [List.length] in Len; lia).
  assert (Bf' : fleb (time_at (asp_times s) i) frame = true).
  { assert (Ft : fin (time_at (asp_times s) i)) by (apply time_fin; auto; lia). apply fltb_lt in Bf; auto. apply fleb_le; auto. lra. }
  rewrite Qi in Bf, Bf'.
  pose proof (select _ frame _ (increasing_sorted _ Inc) Fin Ff (surrounds_after _ _ Ne Bf')) as Fw.
  rewrite (weight_after_last _ _ Fin Ff Ne Bf) in Fw. rewrite <- Qi in Fw.
  pose proof (times_hold _ _ _ _ F Hk') as Th. destruct (t_hold (nth i (asp_times s) time_dflt)).
  - destruct (spline_morphs E ks s i k frame f1 0 _ _ R Hk Ob Fw) as (els & Ev & Mo); [reflexivity|lra|rewrite f0_R, Rminus_eq_0, Rabs_R0; lra|].
    exists els, 0. split; [exact Ev|]. split; [exact Mo|]. split; [reflexivity|]. intros N. destruct N. now apply Th.
  - destruct (spline_morphs E ks s i k frame f1 1 _ _ R Hk Ob Fw) as (els & Ev & Mo); [reflexivity|lra|rewrite f1_R, Rminus_eq_0, Rabs_R0; lra|].
    exists els, 1. split; [exact Ev|]. split; [exact Mo|]. split; [|reflexivity]. intros H. apply Th in H. discriminate H.
Qed.
(** So the easing is followed where it is the straight line. *)
Theorem C83_straight_partial : forall E p g ks i k l frame, imported_path E p g -> sp_k p = SkAnimated ks ->
  in_order (path_times ks) -> moderate_keyframes (path_times ks) -> nth_error ks i = Some k -> nth_error ks (S i) = Some l ->
  fin frame -> between (stamp k) (stamp l) frame -> ~ held (stamp k) -> scalar_easing (stamp k) linear ->
  (forall b, (start_of ks i = Some b \/ end_of ks i = Some b) -> ordinary_path b) ->
  exists els y, geometry_eval E g frame = Ok els /\ morphed ks i y els /\
    on_curve (B2R (hx (eo linear))) (B2R (hy (eo linear))) (B2R (hx (ei linear))) (B2R (hy (ei linear))) (/ 100000000)
      (elapsed (stamp k) (stamp l) frame) y.
Proof.
  intros E p g ks i k l frame I K O M Hk Hl Ff Bt Nh _ Ob.
  destruct (C83_linear E p g ks i k l frame I K O M Hk Hl Ff Bt Nh Ob) as (els & Ev & Mo).
  exists els, (elapsed (stamp k) (stamp l) frame). split; [exact Ev|]. split; [exact Mo|].
  apply stamp_at in Hk, Hl. pose proof (moderate_at _ _ _ M Hk) as Mk. pose proof (moderate_at _ _ _ M Hl) as Ml.
  destruct Bt as [B1 B2]. apply fleb_le in B1; [|apply Mk|exact Ff]. apply fltb_lt in B2; [|exact Ff|apply Ml].
  set (y := elapsed _ _ _). assert (Hy : 0 <= y <= 1).
  { unfold y, elapsed. set (a := B2R (kf_time (stamp k))) in *. set (b := B2R (kf_time (stamp l))) in *. assert (P : 0 < b - a) by lra. split.
    - apply Rmult_le_pos; [lra|]. left. now apply Rinv_0_lt_compat.
    - apply Rmult_le_reg_r with (b - a); [lra|]. unfold Rdiv. rewrite Rmult_assoc, Rinv_l; lra. }
  unfold on_curve, linear. cbn [eo ei hx hy]. rewrite f0_R, f1_R.
  destruct (C79_one_height 0 0 1 1 ltac:(lra) ltac:(lra) y Hy) as (z & (u & Hu & X & Y) & _).
  exists u. split; [exact Hu|]. split; [lra|]. lra.
Qed.

(** * C84 *)
Lemma reads_easing b t : time_reads b t -> easing_at b 0 (segment_easing t).
Proof.
  intros (_ & _ & Hi & Ho). unfold easing_at, segment_easing, handle_or, handle_reads, handle_at in *. cbn [eo ei]. split.
  - destruct (kb_out b), (t_out t); try contradiction; [|reflexivity]. destruct Ho. split; now apply component_reads_at.
  - destruct (kb_in b), (t_in t); try contradiction; [|reflexivity]. destruct Hi. split; now apply component_reads_at.
Qed.
Lemma number_eased E k l e frame a b : solves E -> ordinary_easing e -> unit_number a -> unit_number b ->
  moderate (kf_time k) -> moderate (kf_time l) -> fin frame -> between k l frame ->
  eased_channel k l e frame a b (f64_to_f32 (tween_f64 E a b (progress k l frame) e)).
Proof.
  intros S O [Fa Ha] [Fb Hb] Mk Ml Ff Bt.
  assert (Oa : ordinary_number a) by (split; [exact Fa|bnd]). assert (Ob : ordinary_number b) by (split; [exact Fb|bnd]).
  destruct (eased_weaken k l e frame _ _ E S O Oa Ob Mk Ml Ff Bt) as (Fv & y & (u & Hu & X & Y) & V).
  set (v := tween_f64 _ _ _ _ _) in *.
  assert (By : Rabs y <= 121).
  { destruct O as (_ & _ & (_ & N3) & (_ & N4)). set (p := B2R (hy (eo e))) in *. set (q := B2R (hy (ei e))) in *.
    assert (Rabs (cubic p q u) <= 3 * 16 + 3 * 16 + 1).
    { unfold cubic. apply Rabs_plus_le; [apply Rabs_plus_le|apply Rabs_le; nra]; apply Rabs_mult_le; auto; apply Rabs_le; nra. }
    apply Rabs_le_inv in Y, H. bnd. }
  assert (Bv : Rabs (B2R v) <= 123).
  { assert (Rabs (B2R a + (B2R b - B2R a) * y) <= 1 + 1 * 121) by (apply Rabs_plus_le; [bnd|apply Rabs_mult_le; [bnd|exact By]]).
    apply Rabs_le_inv in V, H. bnd. }
  destruct (f32_near v Fv ltac:(lra)) as [Fw W]. split; [exact Fw|]. exists y. split; [exists u; auto|].
  assert (W' : Rabs (B2R (f64_to_f32 v) - B2R v) <= / 60000) by lra.
  apply Rle_trans with (1 := triangle _ _ _ _ _ W' V). lra.
Qed.
Lemma nums_at l i xs j x : nums l i xs -> nth_error xs j = Some x -> nth_error l (i + j) = Some x.
Proof.
  unfold nums. intros H Hj. assert (Lj : (j < List.length xs)%nat) by (apply nth_error_Some; congruence).
  assert (K : nth_error (skipn i l) j = Some x).
  { rewrite <- (firstn_skipn (List.length xs) (skipn i l)), H. rewrite nth_error_app1 by exact Lj. exact Hj. }
  rewrite <- K. clear. revert l. induction i as [|i IH]; intros l; [reflexivity|]. destruct l as [|y l]; [now destruct j|]. cbn [skipn Nat.add nth_error]. apply IH.
Qed.
Lemma stops_nth E v0 v1 t e h n i out j s : stops_from E v0 v1 t e h i n = Some out -> nth_error out j = Some s ->
  stop_at E v0 v1 t e h (i + j) = Some s.
Proof.
  revert i out j. induction n as [|n IH]; intros i out j H Hj; cbn [stops_from] in H.
  - injection H as <-. destruct j; discriminate.
  - destruct (stop_at E v0 v1 t e h i) as [s0|] eqn:Es; [|discriminate H]. cbn [obind] in H.
    destruct (stops_from E v0 v1 t e h (S i) n) as [ss|] eqn:Er; [|discriminate H]. cbn [obind] in H. injection H as <-.
    destruct j as [|j]; [rewrite Nat.add_0_r, Es; exact Hj|]. rewrite <- Nat.add_succ_comm. eapply IH; eauto.
Qed.
Lemma stop_numbers_of (E : Ext) (v0 v1 : list f64) (t : f64) (e : easing) (h : bool) (j : nat) o1 r1 g1 b1 a1 o2 r2 g2 b2 a2 :
  nums v0 (5 * j) [o1; r1; g1; b1; a1] -> nums v1 (5 * j) [o2; r2; g2; b2; a2] ->
  let t' := if h then f0 else t in
  stop_at E v0 v1 t e h j = Some (mkStop (f64_to_f32 (tween_f64 E o1 o2 t e))
    (mkColor (f64_to_f32 (tween_f64 E r1 r2 t' e)) (f64_to_f32 (tween_f64 E g1 g2 t' e)) (f64_to_f32 (tween_f64 E b1 b2 t' e)) (f64_to_f32 (tween_f64 E a1 a2 t' e)))).
Proof.
  intros N0 N1 t'. unfold stop_at, channel. cbv zeta. rewrite (Nat.mul_comm j 5).
  pose proof (nums_at _ _ _ 0 _ N0 eq_refl) as Z0. pose proof (nums_at _ _ _ 0 _ N1 eq_refl) as Z1. rewrite Nat.add_0_r in Z0, Z1.
  rewrite Z0, Z1, (nums_at _ _ _ 1 _ N0 eq_refl), (nums_at _ _ _ 1 _ N1 eq_refl),
    (nums_at _ _ _ 2 _ N0 eq_refl), (nums_at _ _ _ 2 _ N1 eq_refl), (nums_at _ _ _ 3 _ N0 eq_refl), (nums_at _ _ _ 3 _ N1 eq_refl),
    (nums_at _ _ _ 4 _ N0 eq_refl), (nums_at _ _ _ 4 _ N1 eq_refl). reflexivity.
Qed.
Lemma total_count l n : (1 <= n)%nat -> (4 * n <= List.length l)%nat -> stop_total l n = n.
Proof.
  intros H1 H2. unfold stop_total. rewrite (Nat.mul_comm 4) in H2. pose proof (Nat.div_le_mono _ _ 4 ltac:(lia) H2) as Y.
  rewrite Nat.div_mul in Y by lia. lia.
Qed.
Lemma nums_fun4 l i o r g b o' r' g' b' : nums l i [o; r; g; b] -> nums l i [o'; r'; g'; b'] -> o = o' /\ r = r' /\ g = g' /\ b = b'.
Proof.
  intros H H'. assert (K : forall j x y, nth_error [o; r; g; b] j = Some x -> nth_error [o'; r'; g'; b'] j = Some y -> x = y).
  { intros j x y Hx Hy. pose proof (nums_at _ _ _ _ _ H Hx). pose proof (nums_at _ _ _ _ _ H' Hy). congruence. }
  repeat split; [apply (K 0%nat)|apply (K 1%nat)|apply (K 2%nat)|apply (K 3%nat)]; reflexivity.
Qed.
(** the stops of an imported gradient with keyframes *)
Lemma gradient_keyframes E x gr ks d : paints_gradient x gr -> ap_k (md_p (gc_k (bg_g gr))) = AkAnimated ks ->
  conv_shape E x = Ok (Some (ShDraw d)) -> exists a, ast_count a = gc_p (bg_g gr) /\
    Forall2 (fun k t => time_reads (kf_b k) t) ks (ast_frames a) /\
    Forall2 (fun k v => stops_read_flat (kf_value k) (gc_p (bg_g gr)) v) ks (ast_values a) /\
    forall frame, stops_at E (dr_brush d) frame (a_stops_eval E a frame).
Proof.
  intros P K H. destruct (gradient_brush _ _ _ _ P H) as (s & e & stops & _ & _ & R & Ev). unfold gradient_stops_read in R. rewrite K in R.
  destruct R as (a & -> & R1 & R2 & R3). exists a. split; [exact R1|]. split; [exact R2|]. split; [exact R3|].
  intros frame. destruct (Ev frame) as (k & Ek & _). exists k. exact Ek.
Qed.
(** Between two keyframes offset, colour and opacity of every stop follow the easing curve. *)
Theorem C84_between : forall E x gr ks d i k l e frame, solves E -> paints_gradient x gr ->
  let n := gc_p (bg_g gr) in ap_k (md_p (gc_k (bg_g gr))) = AkAnimated ks -> conv_shape E x = Ok (Some (ShDraw d)) ->
  (1 <= n)%nat -> (forall k, In k ks -> (4 * n <= List.length (kf_value k))%nat) ->
  in_order ks -> moderate_keyframes ks -> nth_error ks i = Some k -> nth_error ks (S i) = Some l ->
  fin frame -> between k l frame -> ~ held k -> scalar_easing k e -> ordinary_easing e ->
  exists out, stops_at E (dr_brush d) frame out /\ List.length out = n /\
    forall j s, nth_error out j = Some s -> eased_stop k l e n frame j s.
Proof.
  intros E x gr ks d i k l e frame S P n K H Hn Hl O M Hk Hk1 Ff Bt Nh Se Oe.
  destruct (gradient_keyframes _ _ _ _ _ P K H) as (a & Cn & F1 & F2 & Ev). fold n in Cn, F2.
  exists (a_stops_eval E a frame). split; [apply Ev|].
  assert (Len : List.length (a_stops_eval E a frame) = n).
  { rewrite <- Cn. apply C31_complete.
    - rewrite <- (Forall2_len _ _ _ F1). symmetry. apply (Forall2_len _ _ _ F2).
    - intros X. rewrite X in F1. inversion F1; subst. destruct i; discriminate Hk.
    - apply Forall_forall. intros v Hv. apply In_nth_error in Hv as (m & Hv). destruct (Forall2_nth_r _ _ _ _ _ F2 Hv) as (kf & Kf & L & _).
      apply nth_error_In in Kf. rewrite L, Cn, (total_count _ _ Hn (Hl kf Kf)). lia. }
  split; [exact Len|]. intros j s Hs.
  assert (Lj : (j < n)%nat) by (rewrite <- Len; apply nth_error_Some; congruence).
  unfold a_stops_eval in Hs. destruct (a_stops_eval_inner E a frame) as [out|] eqn:Ei; [|destruct j; discriminate Hs].
  unfold a_stops_eval_inner in Ei. rewrite (times_select _ _ _ _ _ _ F1 O M Hk Hk1 Ff Bt) in Ei. cbn [obind] in Ei.
  destruct (Forall2_nth_l _ _ _ _ _ F2 Hk) as (v0 & V0 & _ & R0). destruct (Forall2_nth_l _ _ _ _ _ F2 Hk1) as (v1 & V1 & _ & R1).
  rewrite V0, V1 in Ei. cbn [obind] in Ei.
  destruct (times_at _ _ _ _ F1 Hk) as (_ & Tr & _). pose proof (times_hold _ _ _ _ F1 Hk) as Th.
  rewrite (easing_fun _ _ _ _ (reads_easing _ _ Tr) Se) in Ei.
  destruct (t_hold (nth i (ast_frames a) time_dflt)) eqn:Et; [now destruct Nh; apply Th|].
  apply (stops_nth _ _ _ _ _ _ _ _ _ _ _ Ei) in Hs. cbn [Nat.add] in Hs.
  intros o1 r1 g1 b1 o2 r2 g2 b2 (N1 & Uo1 & Ur1 & Ug1 & Ub1) (N2 & Uo2 & Ur2 & Ug2 & Ub2).
  destruct (R0 j) as (o1' & r1' & g1' & b1' & a1 & N1' & Q1 & A1); [now rewrite (total_count _ _ Hn (Hl k (nth_error_In _ _ Hk)))|].
  destruct (R1 j) as (o2' & r2' & g2' & b2' & a2 & N2' & Q2 & A2); [now rewrite (total_count _ _ Hn (Hl l (nth_error_In _ _ Hk1)))|].
  destruct (nums_fun4 _ _ _ _ _ _ _ _ _ _ N1 N1') as (<- & <- & <- & <-). destruct (nums_fun4 _ _ _ _ _ _ _ _ _ _ N2 N2') as (<- & <- & <- & <-).
  rewrite (stop_numbers_of E v0 v1 _ e false j _ _ _ _ _ _ _ _ _ _ Q1 Q2) in Hs. injection Hs as <-. cbn [cs_offset cs_color cr cg cb ca].
  pose proof (moderate_at _ _ _ M Hk) as Mk. pose proof (moderate_at _ _ _ M Hk1) as Ml.
  split; [now apply number_eased|]. split; [now apply number_eased|]. split; [now apply number_eased|]. split; [now apply number_eased|].
  exists a1, a2. split; [exact A1|]. split; [exact A2|]. intros. now apply number_eased.
Qed.
Lemma stops_exact E l n v0 v1 w e h out : (1 <= n)%nat -> (4 * n <= List.length l)%nat -> stops_from E v0 v1 w e h 0 n = Some out ->
  (forall j, (j < n)%nat -> exists o r g b a, nums l (4 * j) [o; r; g; b] /\ stop_opacity l n o a /\
     stop_at E v0 v1 w e h j = Some (mkStop (f64_to_f32 o) (mkColor (f64_to_f32 r) (f64_to_f32 g) (f64_to_f32 b) (f64_to_f32 a)))) ->
  stops_read l n out.
Proof.
  intros Hn Hl Hs H. assert (Len : List.length out = n) by (eapply stops_from_length; eauto). split; [now rewrite total_count|].
  intros j s Hj. assert (Lj : (j < n)%nat) by (rewrite <- Len; apply nth_error_Some; congruence).
  pose proof (stops_nth _ _ _ _ _ _ _ _ _ _ _ Hs Hj) as Q. cbn [Nat.add] in Q. destruct (H j Lj) as (o & r & g & b & a & N & A & E'). rewrite E' in Q.
  injection Q as <-. exists o, r, g, b, a. cbn [cs_offset cs_color cr cg cb ca]. do 6 (split; [auto|]). exact A.
Qed.
(** Before the first keyframe, and after the last, its stops. *)
Theorem C84_before : forall E x gr ks d k frame, paints_gradient x gr ->
  let n := gc_p (bg_g gr) in ap_k (md_p (gc_k (bg_g gr))) = AkAnimated ks -> conv_shape E x = Ok (Some (ShDraw d)) ->
  (1 <= n)%nat -> (forall k, In k ks -> (4 * n <= List.length (kf_value k))%nat) ->
  in_order ks -> moderate_keyframes ks -> nth_error ks 0 = Some k -> fin frame -> fltb frame (kf_time k) = true ->
  exists out, stops_at E (dr_brush d) frame out /\ stops_read (kf_value k) n out.
Proof.
  intros E x gr ks d k frame P n K H Hn Hl O M Hk Ff Bf.
  destruct (gradient_keyframes _ _ _ _ _ P K H) as (a & Cn & F1 & F2 & Ev). fold n in Cn, F2.
  exists (a_stops_eval E a frame). split; [apply Ev|]. destruct (times_sound _ _ F1 O M) as [Inc Mod].
  pose proof (moderate_finite _ Mod) as Fin. destruct (times_at _ _ _ _ F1 Hk) as (_ & _ & E1). rewrite <- E1 in Bf.
  assert (Ne : ast_frames a <> []).
  { intros Q. rewrite Q in F1. apply Forall2_len in F1. destruct ks; [discriminate Hk|discriminate F1]. }
  pose proof (select _ frame 0 (increasing_sorted _ Inc) Fin Ff (surrounds_before _ _ Inc Fin Ff Ne Bf)) as Fw.
  pose proof (weight_before_first _ _ Inc Mod Ff Ne Bf) as W. set (w := fclamp f0 f1 _) in *.
  pose proof (Forall2_len _ _ _ F1) as L1.
  assert (Lj : (next_key (ast_frames a) 0 < List.length ks)%nat).
  { rewrite L1. unfold next_key. destruct (ast_frames a); [congruence|cbn [List.length]; lia]. }
  destruct (nth_error ks (next_key (ast_frames a) 0)) as [k'|] eqn:Hk'; [|apply nth_error_None in Hk'; lia].
  destruct (Forall2_nth_l _ _ _ _ _ F2 Hk) as (v0 & V0 & _ & R0). destruct (Forall2_nth_l _ _ _ _ _ F2 Hk') as (v1 & V1 & _ & R1).
  assert (Z : forall e y z, tween_f64 E y z w e = y) by (intros e y z; unfold tween_f64; now rewrite W).
  assert (Z' : forall (h : bool) e y z, tween_f64 E y z (if h then f0 else w) e = y) by (intros [] e y z; [reflexivity|apply Z]).
  assert (N : forall j, (j < n)%nat -> exists o r g b al, nums (kf_value k) (4 * j) [o; r; g; b] /\ stop_opacity (kf_value k) n o al /\
     stop_at E v0 v1 w (segment_easing (nth 0 (ast_frames a) time_dflt)) (t_hold (nth 0 (ast_frames a) time_dflt)) j =
       Some (mkStop (f64_to_f32 o) (mkColor (f64_to_f32 r) (f64_to_f32 g) (f64_to_f32 b) (f64_to_f32 al)))).
  { intros j Lt. destruct (R0 j) as (o1 & r1 & g1 & b1 & a1 & N1 & Q1 & A1); [now rewrite (total_count _ _ Hn (Hl k (nth_error_In _ _ Hk)))|].
    destruct (R1 j) as (o2 & r2 & g2 & b2 & a2 & N2 & Q2 & A2); [now rewrite (total_count _ _ Hn (Hl k' (nth_error_In _ _ Hk')))|].
    exists o1, r1, g1, b1, a1. split; [exact N1|]. split; [exact A1|]. rewrite (stop_numbers_of E v0 v1 _ _ _ j _ _ _ _ _ _ _ _ _ _ Q1 Q2). now rewrite Z, !Z'. }
  unfold a_stops_eval. destruct (a_stops_eval_inner E a frame) as [out|] eqn:Ei.
  - unfold a_stops_eval_inner in Ei. rewrite Fw in Ei. cbn [obind] in Ei. rewrite V0, V1, Cn in Ei. cbn [obind] in Ei.
    apply (stops_exact _ _ _ _ _ _ _ _ _ Hn (Hl k (nth_error_In _ _ Hk)) Ei N).
  - exfalso. unfold a_stops_eval_inner in Ei. rewrite Fw in Ei. cbn [obind] in Ei. rewrite V0, V1, Cn in Ei. cbn [obind] in Ei.
    assert (G : forall m j, (j + m <= n)%nat -> exists out, stops_from E v0 v1 w (segment_easing (nth 0 (ast_frames a) time_dflt)) (t_hold (nth 0 (ast_frames a) time_dflt)) j m = Some out).
    { induction m as [|m IH]; intros j Lm; cbn [stops_from]; [eauto|]. destruct (N j ltac:(lia)) as (o & r & g & b & a' & _ & _ & ->). cbn [obind].
      destruct (IH (S j) ltac:(lia)) as (out & ->). cbn [obind]. eauto. }
    destruct (G n 0%nat (Nat.le_refl _)) as (out & Q). congruence.
Qed.
Theorem C84_after : forall E x gr ks d i k frame, paints_gradient x gr ->
  let n := gc_p (bg_g gr) in ap_k (md_p (gc_k (bg_g gr))) = AkAnimated ks -> conv_shape E x = Ok (Some (ShDraw d)) ->
  (1 <= n)%nat -> (forall k, In k ks -> (4 * n <= List.length (kf_value k))%nat) ->
  in_order ks -> moderate_keyframes ks -> S i = List.length ks -> nth_error ks i = Some k -> fin frame -> fltb (kf_time k) frame = true ->
  exists out, stops_at E (dr_brush d) frame out /\ stops_read (kf_value k) n out.
Proof.
  intros E x gr ks d i k frame P n K H Hn Hl O M Li Hk Ff Bf.
  destruct (gradient_keyframes _ _ _ _ _ P K H) as (a & Cn & F1 & F2 & Ev). fold n in Cn, F2.
  exists (a_stops_eval E a frame). split; [apply Ev|]. destruct (times_sound _ _ F1 O M) as [Inc Mod].
  pose proof (moderate_finite _ Mod) as Fin. destruct (times_at _ _ _ _ F1 Hk) as (_ & _ & E1). rewrite <- E1 in Bf.
  pose proof (Forall2_len _ _ _ F1) as Len. assert (Qi : i = (List.length (ast_frames a) - 1)%nat) by lia.
  assert (Ne : ast_frames a <> []) by (intros Q; rewrite Q in Len; cbn [List.length] in Len; lia).
  assert (Bf' : fleb (time_at (ast_frames a) i) frame = true).
  { assert (Ft : fin (time_at (ast_frames a) i)) by (apply time_fin; auto; lia). apply fltb_lt in Bf; auto. apply fleb_le; auto. lra. }
  rewrite Qi in Bf, Bf'.
  pose proof (select _ frame _ (increasing_sorted _ Inc) Fin Ff (surrounds_after _ _ Ne Bf')) as Fw.
  rewrite (weight_after_last _ _ Fin Ff Ne Bf) in Fw. rewrite <- Qi in Fw.
  assert (Nk : next_key (ast_frames a) i = i) by (unfold next_key; lia). rewrite Nk in Fw.
  destruct (Forall2_nth_l _ _ _ _ _ F2 Hk) as (v0 & V0 & _ & R0).
  assert (Z : forall e y, tween_f64 E y y f1 e = y) by (intros e y; reflexivity).
  assert (Z' : forall (h : bool) e y, tween_f64 E y y (if h then f0 else f1) e = y) by (intros [] e y; reflexivity).
  set (e := segment_easing _) in *. set (h := t_hold _) in *.
  assert (N : forall j, (j < n)%nat -> exists o r g b a, nums (kf_value k) (4 * j) [o; r; g; b] /\ stop_opacity (kf_value k) n o a /\
     stop_at E v0 v0 f1 e h j = Some (mkStop (f64_to_f32 o) (mkColor (f64_to_f32 r) (f64_to_f32 g) (f64_to_f32 b) (f64_to_f32 a)))).
  { intros j Lt. destruct (R0 j) as (o1 & r1 & g1 & b1 & a1 & N1 & Q1 & A1); [now rewrite (total_count _ _ Hn (Hl k (nth_error_In _ _ Hk)))|].
    exists o1, r1, g1, b1, a1. split; [exact N1|]. split; [exact A1|]. rewrite (stop_numbers_of E v0 v0 _ _ _ j _ _ _ _ _ _ _ _ _ _ Q1 Q1). now rewrite Z, !Z'. }
  assert (G : forall m j, (j + m <= n)%nat -> exists out, stops_from E v0 v0 f1 e h j m = Some out).
  { induction m as [|m IH]; intros j Lm; cbn [stops_from]; [eauto|]. destruct (N j ltac:(lia)) as (o & r & g & b & a' & _ & _ & ->). cbn [obind].
    destruct (IH (S j) ltac:(lia)) as (out & ->). cbn [obind]. eauto. }
  destruct (G n 0%nat (Nat.le_refl _)) as (out & Q). unfold a_stops_eval, a_stops_eval_inner. rewrite Fw. cbn [obind]. rewrite V0. cbn [obind]. rewrite Cn, Q.
  apply (stops_exact _ _ _ _ _ _ _ _ _ Hn (Hl k (nth_error_In _ _ Hk)) Q N).
Qed.

(** * Cases *)
Lemma small_number z b : (Z.abs z <= 2 ^ 53)%Z -> (Z.abs z <= b)%Z -> fin (f_of_Z z) /\ Rabs (B2R (f_of_Z z)) <= IZR b.
Proof. intros H K. destruct (f_of_Z_R z H) as [-> F]. split; [exact F|]. rewrite <- abs_IZR. now apply IZR_le. Qed.
Lemma small_moderate z : (Z.abs z <= 64)%Z -> moderate (f_of_Z z).
Proof.
  intros Hz. destruct (small_number z 64%Z) as [F B]; [lia|lia|]. split; [exact F|]. apply Rle_trans with (1 := B).
  change 64 with (bpow radix2 6). apply bpow_le. lia.
Qed.
Lemma small_ordinary z : (Z.abs z <= 1048576)%Z -> ordinary_number (f_of_Z z).
Proof. intros H. apply (small_number z 1048576%Z); lia. Qed.
Lemma fading_ordinary : ordinary_easing fading_easing.
Proof. apply C79_applies. Qed.
(** A point that moves from (0, 0) to (100, 0), slowly at first. *)
Definition dot (x : Z) : bezier := mkBezier None [(f_of_Z x, f_of_Z 0)] [] [].
Definition dot_start : shape_keyframe := mkShapeKf (kf_b slow_start) (Some [dot 0]) None.
Definition dot_end : shape_keyframe := mkShapeKf (kf_b slow_end) (Some [dot 100]) None.
Definition moving_dot : shape_prop := mkShapeProp None None None (SkAnimated [dot_start; dot_end]).
Definition dot_item : any_shape := AsPath (mkSShape no_ge None) moving_dot.
Lemma dot_ordinary z : (Z.abs z <= 1048576)%Z -> ordinary_path (dot z).
Proof.
  intros H. split; [discriminate|]. split; [|split; apply Forall_nil]. apply Forall_cons; [|apply Forall_nil]. split; apply small_ordinary; lia.
Qed.
Lemma dots_ordinary b : start_of [dot_start; dot_end] 0 = Some b \/ end_of [dot_start; dot_end] 0 = Some b -> ordinary_path b.
Proof. intros [H|H]; injection H as <-; apply dot_ordinary; lia. Qed.
Lemma dots_times : in_order (path_times [dot_start; dot_end]) /\ moderate_keyframes (path_times [dot_start; dot_end]) /\
  between (stamp dot_start) (stamp dot_end) (f_of_Z 20) /\ ~ held (stamp dot_start) /\ scalar_easing (stamp dot_start) fading_easing.
Proof.
  split. { intros [|[|i]] [|[|j]] k l Hij Hk Hl; try lia; try (destruct i; discriminate); try (destruct j; discriminate).
           injection Hk as <-. injection Hl as <-. vm_compute. reflexivity. }
  split. { unfold moderate_keyframes. apply Forall_cons; [apply (small_moderate 10%Z); lia|]. apply Forall_cons; [apply (small_moderate 50%Z); lia|]. apply Forall_nil. }
  split. { split; vm_compute; reflexivity. } split. { discriminate. } split; split; reflexivity.
Qed.
Lemma dot_imported : exists g, conv_shape E_solves dot_item = Ok (Some (ShGeometry g)) /\ imported_path E_solves moving_dot g.
Proof.
  pose proof (shape_all E_solves dot_item) as S. unfold shape_spec, shape_result in S.
  assert (T : match conv_shape E_solves dot_item with Ok (Some (ShGeometry _)) => True | _ => False end) by (lazy; exact I).
  destruct (conv_shape E_solves dot_item) as [[[| | | |]|]| |]; try contradiction. eexists. split; [reflexivity|].
  left. exists (mkSShape no_ge None). apply S.
Qed.
Lemma some_same {A} (x y : A) : Some x = Some y -> x = y. Proof. congruence. Qed.
Lemma dot_at y els : morphed [dot_start; dot_end] 0 y els -> exists q rest, els = MoveTo q :: rest /\ on_the_way y 0 100 (px q).
Proof.
  intros (b1 & b2 & pts1 & pts2 & pts & cl & S1 & S2 & [L1 P1] & [L2 P2] & W & _ & (body & _ & _ & Hp)).
  injection S1 as <-. injection S2 as <-. destruct (P1 0%nat _ eq_refl) as (V1 & _). destruct (P2 0%nat _ eq_refl) as (V2 & _).
  destruct W as [b|a|a b q la lb lq [Q _] _]; [discriminate V1|discriminate V2|]. 
  change (Some a = Some (mkPoint (f_of_Z 0) (f_of_Z 0))) in V1. change (Some b = Some (mkPoint (f_of_Z 100) (f_of_Z 0))) in V2.
  apply some_same in V1, V2. subst a b. exists q. cbn [px] in Q. destruct (f_of_Z_R 0 ltac:(lia)) as [R0 _]. destruct (f_of_Z_R 100 ltac:(lia)) as [R1 _]. rewrite R0, R1 in Q.
  destruct (cl && _)%bool; [destruct Hp as (e & _ & ->)|subst els]; eexists; (split; [reflexivity|exact Q]).
Qed.
Lemma dot_elapsed : elapsed (stamp dot_start) (stamp dot_end) (f_of_Z 20) = / 4.
Proof.
  unfold elapsed. change (kf_time (stamp dot_start)) with (f_of_Z 10). change (kf_time (stamp dot_end)) with (f_of_Z 50).
  destruct (f_of_Z_R 20 ltac:(lia)) as [-> _]. destruct (f_of_Z_R 10 ltac:(lia)) as [-> _]. destruct (f_of_Z_R 50 ltac:(lia)) as [-> _]. lra.
Qed.
(** The outline does not follow the easing of its keyframes. *)
Theorem C83_refuted : ~ forall E p g ks i k l e frame, solves E -> imported_path E p g -> sp_k p = SkAnimated ks ->
  in_order (path_times ks) -> moderate_keyframes (path_times ks) -> nth_error ks i = Some k -> nth_error ks (S i) = Some l ->
  fin frame -> between (stamp k) (stamp l) frame -> ~ held (stamp k) -> scalar_easing (stamp k) e -> ordinary_easing e ->
  (forall b, (start_of ks i = Some b \/ end_of ks i = Some b) -> ordinary_path b) ->
  exists els y, geometry_eval E g frame = Ok els /\ morphed ks i y els /\
    on_curve (B2R (hx (eo e))) (B2R (hy (eo e))) (B2R (hx (ei e))) (B2R (hy (ei e))) (/ 100000000)
      (elapsed (stamp k) (stamp l) frame) y.
Proof.
  intros H. destruct dot_imported as (g & _ & I). destruct dots_times as (O & M & Bt & Nh & Se).
  assert (Ff : fin (f_of_Z 20)) by apply (small_number 20%Z 20%Z ltac:(lia) ltac:(lia)).
  destruct (C83_linear E_solves moving_dot g [dot_start; dot_end] 0%nat dot_start dot_end (f_of_Z 20) I eq_refl O M eq_refl eq_refl Ff Bt Nh dots_ordinary)
    as (els & Ev & Mo).
  destruct (H E_solves moving_dot g [dot_start; dot_end] 0%nat dot_start dot_end fading_easing (f_of_Z 20) E_solves_ok I eq_refl O M eq_refl eq_refl Ff Bt Nh Se fading_ordinary dots_ordinary)
    as (els' & y & Ev' & Mo' & u & Hu & Cx & Cy).
  assert (els' = els) as -> by congruence. apply dot_at in Mo as (q & r & -> & _ & W). apply dot_at in Mo' as (q' & r' & Q & _ & W').
  injection Q as <- <-. rewrite dot_elapsed in W, Cx.
  change (hx (eo fading_easing)) with f_half in Cx. change (hx (ei fading_easing)) with f_half in Cx.
  change (hy (eo fading_easing)) with f0 in Cy. change (hy (ei fading_easing)) with f1 in Cy.
  rewrite f_half_R in Cx. rewrite f0_R, f1_R in Cy. unfold cubic in Cx, Cy. set (x := B2R (px q)) in *.
  apply Rabs_le_inv in W, W', Cx, Cy. assert (u <= / 4) by nra. nra.
Qed.
Example C83_applies : exists g, conv_shape E_solves dot_item = Ok (Some (ShGeometry g)) /\ imported_path E_solves moving_dot g /\
  exists els q rest, geometry_eval E_solves g (f_of_Z 20) = Ok els /\ els = MoveTo q :: rest /\ Rabs (B2R (px q) - 25) <= / 1000000.
Proof.
  destruct dot_imported as (g & C & I). exists g. split; [exact C|]. split; [exact I|]. destruct dots_times as (O & M & Bt & Nh & Se).
  assert (Ff : fin (f_of_Z 20)) by apply (small_number 20%Z 20%Z ltac:(lia) ltac:(lia)).
  destruct (C83_linear E_solves moving_dot g [dot_start; dot_end] 0%nat dot_start dot_end (f_of_Z 20) I eq_refl O M eq_refl eq_refl Ff Bt Nh dots_ordinary)
    as (els & Ev & Mo).
  exists els. apply dot_at in Mo as (q & r & -> & _ & W). exists q, r. split; [exact Ev|]. split; [reflexivity|]. rewrite dot_elapsed in W.
  replace 25 with (0 + (100 - 0) * / 4) by lra. exact W.
Qed.

(** A gradient of two stops: at frame 10 red to blue, at frame 50 green to white. *)
Definition dusk : list f64 := [f0; f1; f0; f0; f_half; f0; f0; f1].
Definition dawn : list f64 := [f0; f0; f1; f0; f1; f1; f1; f1].
Definition dusk_at : keyframe := kf_eased 10 (KcSingle (flit 1 2), KcSingle f1) (KcSingle (flit 1 2), KcSingle f0) dusk.
Definition dawn_at : keyframe := kf 50 dawn.
Definition sky : base_gradient :=
  mkBaseGradient (mkGradientColors (mkMultiDim (animated [dusk_at; dawn_at]) None) 2) (v_static 0 0) (v_static 100 0) None None None.
Definition sky_item : any_shape := AsGradientFill (mkStyle no_ge (st f100)) sky None.
Example C84_applies : paints_gradient sky_item sky /\ ap_k (md_p (gc_k (bg_g sky))) = AkAnimated [dusk_at; dawn_at] /\
  (exists d, conv_shape E_solves sky_item = Ok (Some (ShDraw d))) /\ (1 <= gc_p (bg_g sky))%nat /\
  (forall k, In k [dusk_at; dawn_at] -> (4 * gc_p (bg_g sky) <= List.length (kf_value k))%nat) /\
  in_order [dusk_at; dawn_at] /\ moderate_keyframes [dusk_at; dawn_at] /\ fin (f_of_Z 20) /\ between dusk_at dawn_at (f_of_Z 20) /\
  ~ held dusk_at /\ scalar_easing dusk_at fading_easing /\ ordinary_easing fading_easing /\
  stop_numbers dusk_at 1 f_half f0 f0 f1 /\ stop_numbers dawn_at 1 f1 f1 f1 f1 /\
  fltb (f_of_Z 5) (kf_time dusk_at) = true /\ fltb (kf_time dawn_at) (f_of_Z 55) = true.
Proof.
  split; [left; unfold sky_item; eauto|]. split; [reflexivity|]. split.
  { assert (T : match conv_shape E_solves sky_item with Ok (Some (ShDraw _)) => True | _ => False end) by (lazy; exact I).
    destruct (conv_shape E_solves sky_item) as [[[| | | |]|]| |]; try contradiction. eauto. }
  split; [cbn; lia|]. split. { intros k [<-|[<-|[]]]; cbn; lia. }
  split. { intros [|[|i]] [|[|j]] k l Hij Hk Hl; try lia; try (destruct i; discriminate); try (destruct j; discriminate).
           injection Hk as <-. injection Hl as <-. vm_compute. reflexivity. }
  split. { unfold moderate_keyframes. apply Forall_cons; [apply (small_moderate 10%Z); lia|]. apply Forall_cons; [apply (small_moderate 50%Z); lia|]. apply Forall_nil. }
  split; [apply (small_number 20%Z 20%Z ltac:(lia) ltac:(lia))|].
  split. { split; vm_compute; reflexivity. } split. { discriminate. } split. { split; split; reflexivity. } split; [exact fading_ordinary|].
  assert (U : unit_number f0 /\ unit_number f1 /\ unit_number f_half) by (unfold unit_number; rewrite f0_R, f1_R, f_half_R; repeat split; try reflexivity; lra).
  destruct U as (U0 & U1 & Uh).
  split; [|split; [|split; vm_compute; reflexivity]]; (split; [reflexivity|]); repeat (split; auto).
Qed.
