(** C23 and C29 at the time of the last keyframe: exactly when the weight is a
    number and a path that changes shape is finite. *)
From Coq Require Import Reals ZArith Bool List Arith Lia Lra.
From Flocq Require Import Core BinarySingleNaN.
From Verif Require Import F64 Kurbo Value Animated ValueSpec F64Facts ValueFacts ValueFacts2 SplineFacts Examples PropValue.
Import ListNotations.
Close Scope string_scope.
Open Scope list_scope.
Open Scope nat_scope.

Lemma last_weight times frame : increasing times -> finite_times times -> is_finite frame = true -> times <> [] ->
  feqb frame (time_at times (List.length times - 1)) = true ->
  frames_and_weight times frame = Some ((List.length times - 1, List.length times - 1), fnan, segment_easing (nth (List.length times - 1) times time_dflt), t_hold (nth (List.length times - 1) times time_dflt)).
Proof.
  intros Inc Fin Ff Ne Fe. assert (L : 0 < List.length times) by (destruct times; [congruence|cbn; lia]).
  assert (Ft : fin (time_at times (List.length times - 1))) by (apply time_fin; auto; lia).
  apply feqb_eq in Fe; auto.
  rewrite (select times frame (List.length times - 1)); auto using increasing_sorted.
  - assert (N : next_key times (List.length times - 1) = List.length times - 1) by (unfold next_key; lia). rewrite N.
    rewrite (fsub_diag _ Ft). destruct (fsub_same_R frame (time_at times (List.length times - 1)) Ff Ft Fe) as [s ->]. destruct s; reflexivity.
  - apply surrounds_after; auto. apply fleb_le; auto. lra.
Qed.
(** The weight lies in [0,1] at every frame but the time of the last keyframe. *)
Theorem C23_exact : forall times frame i j w e h,
  increasing times -> moderate_times times -> is_finite frame = true ->
  frames_and_weight times frame = Some ((i, j), w, e, h) ->
  (fleb f0 w = true /\ fleb w f1 = true <-> feqb frame (time_at times (List.length times - 1)) = false) /\
  (feqb frame (time_at times (List.length times - 1)) = true -> w = fnan).
Proof.
  intros times frame i j w e h Inc Mod Ff H. pose proof (moderate_finite _ Mod) as Fin. assert (Ne : times <> []) by (intros ->; discriminate).
  assert (X : feqb frame (time_at times (List.length times - 1)) = true -> w = fnan).
  { intros Fe. rewrite (last_weight times frame Inc Fin Ff Ne Fe) in H. pose proof (f_equal (fun o => match o with Some (_, w, _, _) => w | None => f0 end) H) as Q. cbn beta iota in Q. congruence. }
  split; [|exact X]. split.
  - intros [A _]. destruct (feqb frame _) eqn:Fe; [|reflexivity]. rewrite (X eq_refl) in A. discriminate.
  - intros Fe. destruct (C23_weight_partial times frame i j w e h Inc Mod Ff Fe H) as (Fw & B & _).
    split; apply fleb_le; auto; try reflexivity; rewrite ?f1_R; [change (B2R f0) with 0%R|]; lra.
Qed.
(** A path that changes shape is finite at every frame but the time of the last
    keyframe, and there too if that is held. *)
Theorem C29_exact : forall E s frame,
  increasing (asp_times s) -> moderate_times (asp_times s) -> is_finite frame = true ->
  Forall moderate_kf (asp_values s) ->
  asp_times s <> [] -> List.length (asp_values s) = List.length (asp_times s) ->
  Forall (fun k => sk_start k <> [] /\ sk_end k <> Some []) (asp_values s) ->
  (exists els, a_spline_eval E s frame = Ok els /\ Forall finite_element els) <->
  (feqb frame (time_at (asp_times s) (List.length (asp_times s) - 1)) = false \/
   t_hold (nth (List.length (asp_times s) - 1) (asp_times s) time_dflt) = true).
Proof.
  intros E s frame Inc Mod Ff Mk Ne Len Full. split; [|now intros; apply C29_finite_partial].
  intros (els & H & Fe). destruct (feqb frame _) eqn:Q; [|now left]. right. destruct (t_hold (nth _ _ _)) eqn:Th; [reflexivity|]. exfalso.
  unfold a_spline_eval in H. rewrite (last_weight _ _ Inc (moderate_finite _ Mod) Ff Ne Q) in H. rewrite Th in H.
  assert (L : 0 < List.length (asp_times s)) by (destruct (asp_times s); [congruence|cbn; lia]).
  destruct (nth_error (asp_values s) (List.length (asp_times s) - 1)) as [k|] eqn:E1.
  2:{ apply nth_error_None in E1. lia. }
  cbn match in H. rewrite Forall_forall in Full. destruct (Full k (nth_error_In _ _ E1)) as [F1 F2]. rewrite spline_lerp_eq in H.
  set (to := match sk_end k with Some e => e | None => sk_start k end) in H. assert (Nt : to <> []) by (unfold to; destruct (sk_end k); congruence).
  destruct (sk_start k) as [|p ps]; [congruence|]. destruct to as [|q qs]; [congruence|]. rewrite spline_to_path_of in H by discriminate.
  assert (els = path_of (lerp_points (p :: ps) (q :: qs) fnan) (asp_closed s)) as -> by congruence.
  unfold path_of in Fe. apply Forall_inv in Fe. destruct Fe as [Fx _]. unfold vertex, lerp_points in Fx. cbn [Nat.mul nth combine map fst snd point_lerp px] in Fx.
  assert (X : forall y : f64, fmul fnan y = fnan) by (intros []; reflexivity). assert (Y : forall y : f64, fadd y fnan = fnan) by (intros []; reflexivity).
  change (is_finite (fadd (px p) (fmul fnan (fsub (px q) (px p)))) = true) in Fx. rewrite X, Y in Fx. discriminate.
Qed.
(** The hypotheses are met: a triangle that moves, at 10 and at its last
    keyframe, 25. *)
Example C29_exact_applies :
  let v := [mkPoint f0 f0; mkPoint f0 f0; mkPoint f0 f0; mkPoint f1 f1; mkPoint f1 f1; mkPoint f1 f1] in
  let s := mkASpline false times3 [mkSplineKf v None; mkSplineKf v None; mkSplineKf v None] in
  (exists els, a_spline_eval E0 s (f_of_Z 10) = Ok els /\ Forall finite_element els) /\
  ~ (exists els, a_spline_eval E0 s (f_of_Z 25) = Ok els /\ Forall finite_element els).
Proof.
  intros v s. assert (M : Forall moderate_kf (asp_values s)).
  { assert (M0 : moderate_point (mkPoint f0 f0)) by (split; apply (moderate_Z 0); lia). assert (M1 : moderate_point (mkPoint f1 f1)) by (split; apply (moderate_Z 1); lia).
    assert (Mv : Forall moderate_point v) by (repeat (apply Forall_cons; [assumption|]); apply Forall_nil). repeat (constructor; [split; [exact Mv|exact I]|]). constructor. }
  assert (Full : Forall (fun k => sk_start k <> [] /\ sk_end k <> Some []) (asp_values s)) by (repeat (constructor; [split; discriminate|]); constructor).
  split.
  - apply C29_exact; auto using times3_increasing, times3_moderate; try discriminate.
  - intros H. apply C29_exact in H; auto using times3_increasing, times3_moderate; try discriminate. destruct H as [H|H]; vm_compute in H; discriminate.
Qed.
