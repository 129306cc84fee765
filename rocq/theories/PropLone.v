(** C107: keyframes with one handle only. *)
From Coq Require Import ZArith Bool List Arith String Reals Lia Lra FunctionalExtensionality.
From Flocq Require Import Core BinarySingleNaN.
From Verif Require Import F64 F64Facts ValueSpec ValueFacts Kurbo GeometrySpec PropGeometry PropStar Value Animated Batch Render RenderSpec Examples Schema TimelineSpec Import ImportSpec ImportFacts DocExamples PropImport PropImport2 EasingSpec PropEasing PropAlpha.
Import ListNotations.
Close Scope string_scope.
Open Scope list_scope.
Open Scope nat_scope.

(** At most one of the two handles is given. *)
Definition lacks_handle (b : kf_base) : Prop := kb_in b = None \/ kb_out b = None.
(** The same keyframe, but for the handle of one that has not got both. *)
Definition same_but_handle (k k' : keyframe) : Prop :=
  k' = k \/
  (lacks_handle (kf_b k) /\ lacks_handle (kf_b k') /\ kb_time (kf_b k') = kb_time (kf_b k) /\
   kb_hold (kf_b k') = kb_hold (kf_b k) /\ kf_value k' = kf_value k).

Lemma no_tangents b : lacks_handle b -> combine (collect_tangents (kb_in b)) (collect_tangents (kb_out b)) = [].
Proof. intros [-> | ->]; [reflexivity|]. cbn [collect_tangents]. now destruct (collect_tangents (kb_in b)). Qed.
Lemma lone_keyframes {T} (f : list f64 -> T) ks ks' : Forall2 same_but_handle ks ks' -> conv_keyframes f ks = conv_keyframes f ks'.
Proof.
  intros H. unfold conv_keyframes. assert (Q : flat_map (conv_keyframe f) ks = flat_map (conv_keyframe f) ks'); [|now rewrite Q].
  induction H as [|k k' ks ks' [->|(L & L' & Ht & Hh & Hv)] _ IH]; [reflexivity|cbn [flat_map]; now rewrite IH|].
  cbn [flat_map]. rewrite IH. f_equal. unfold conv_keyframe, hold_of. now rewrite (no_tangents _ L), (no_tangents _ L'), Ht, Hh, Hv.
Qed.
(** In a position, a point, a size, a scale or a colour a handle without the
    other one has no effect: whatever it is, and also when it is left out, the
    same is imported. *)
Theorem C107_lost :
  (forall p p' ks ks', po_k p = PkAnimated ks -> po_k p' = PkAnimated ks' ->
     Forall2 same_but_handle (map pk_kf ks) (map pk_kf ks') -> conv_pos_point p = conv_pos_point p') /\
  (forall v v' ks ks', ap_k (md_p v) = AkAnimated ks -> ap_k (md_p v') = AkAnimated ks' ->
     Forall2 same_but_handle ks ks' ->
     conv_multi_point v = conv_multi_point v' /\ conv_size v = conv_size v' /\ conv_vec2 v = conv_vec2 v') /\
  (forall (c c' : color_value) ks ks', ap_k c = AkAnimated ks -> ap_k c' = AkAnimated ks' ->
     Forall2 same_but_handle ks ks' -> conv_color c = conv_color c').
Proof.
  split; [|split].
  - intros p p' ks ks' H H' F. unfold conv_pos_point, conv_pos. rewrite H, H'. now apply lone_keyframes.
  - intros v v' ks ks' H H' F. unfold conv_multi_point, conv_size, conv_vec2, conv_multi. rewrite H, H'.
    split; [|split]; now apply lone_keyframes.
  - intros c c' ks ks' H H' F. unfold conv_color, conv_multi_color. rewrite H, H'. now apply lone_keyframes.
Qed.

(** * Numbers *)
Definition straight_in : kf_handle := mkKfHandle (KcSingle f1) (KcSingle f1).
Definition straight_out : kf_handle := mkKfHandle (KcSingle f0) (KcSingle f0).
(** The keyframe with the missing handles filled in by those of a steady pace. *)
Definition filled (k : keyframe) : keyframe :=
  let b := kf_b k in
  mkKeyframe (mkKfBase (kb_time b) (kb_hold b)
                (Some match kb_in b with Some i => i | None => straight_in end)
                (Some match kb_out b with Some o => o | None => straight_out end)) (kf_value k) (kf_end k).

Definition time_filled (t : time) : time :=
  mkTime (t_frame t) (Some match t_in t with Some i => i | None => mkHandle f1 f1 end)
         (Some match t_out t with Some o => o | None => mkHandle f0 f0 end) (t_hold t).
Lemma nth_filled ts i : exists t, nth i ts time_dflt = t /\
  (nth i (map time_filled ts) time_dflt = time_filled t \/ nth i (map time_filled ts) time_dflt = t).
Proof.
  exists (nth i ts time_dflt). split; [reflexivity|]. destruct (Nat.lt_ge_cases i (List.length ts)) as [L|L].
  - left. rewrite <- (map_nth time_filled). apply nth_indep. now rewrite map_length.
  - right. rewrite !nth_overflow; [reflexivity|exact L|now rewrite map_length].
Qed.
Lemma weight_filled ts frame : frames_and_weight (map time_filled ts) frame = frames_and_weight ts frame.
Proof.
  unfold frames_and_weight. rewrite map_length. destruct (List.length ts =? 0); [reflexivity|].
  assert (Q : (fun i => cmp_frame (t_frame (nth i (map time_filled ts) time_dflt)) frame) =
              (fun i => cmp_frame (t_frame (nth i ts time_dflt)) frame)).
  { apply functional_extensionality. intros i. destruct (nth_filled ts i) as (t & -> & [-> | ->]); reflexivity. }
  rewrite Q. set (ix := match binary_search _ _ with Found ix => ix | Insert ix => ix - 1 end). cbv zeta.
  destruct (nth_filled ts (Nat.min ix (List.length ts - 1))) as (t & -> & [-> | ->]);
  destruct (nth_filled ts (Nat.min (Nat.min ix (List.length ts - 1) + 1) (List.length ts - 1))) as (t' & -> & [-> | ->]); reflexivity.
Qed.
Lemma scalar_filled k : conv_scalar_kf (filled k) =
  match conv_scalar_kf k with Ok (t, v) => Ok (time_filled t, v) | Panic => Panic | Oof => Oof end.
Proof.
  unfold conv_scalar_kf, filled, conv_time, hold_of. cbn [kf_b kf_value kb_in kb_out kb_time kb_hold].
  destruct (index (kf_value k) 0); cbn [bind]; [|reflexivity|reflexivity].
  destruct (kb_in (kf_b k)) as [i|]; destruct (kb_out (kf_b k)) as [o|]; cbn [mapO].
  - destruct (conv_keyframe_handle i); cbn [bind]; [|reflexivity|reflexivity]. destruct (conv_keyframe_handle o); reflexivity.
  - destruct (conv_keyframe_handle i); reflexivity.
  - cbn [bind conv_keyframe_handle]. destruct (conv_keyframe_handle o); reflexivity.
  - reflexivity.
Qed.
Lemma scalars_filled ks : mapM conv_scalar_kf (map filled ks) =
  match mapM conv_scalar_kf ks with Ok l => Ok (map (fun p => (time_filled (fst p), snd p)) l) | Panic => Panic | Oof => Oof end.
Proof.
  induction ks as [|k ks IH]; [reflexivity|]. cbn [map mapM]. rewrite scalar_filled, IH.
  destruct (conv_scalar_kf k) as [[t v]| |]; cbn [bind]; [|reflexivity|reflexivity]. destruct (mapM conv_scalar_kf ks); reflexivity.
Qed.
(** A number with keyframes is, in every frame, what it is when each missing
    handle is filled in: a handle without the other one counts. *)
Theorem C107_number : forall E (v v' : float_value) ks x, ap_k v = AkAnimated ks -> ap_k v' = AkAnimated (map filled ks) ->
  conv_scalar v = Ok x -> exists x', conv_scalar v' = Ok x' /\ forall frame, eval E x' frame = eval E x frame.
Proof.
  intros E v v' ks x H H' C. unfold conv_scalar in *. rewrite H in C. rewrite H', scalars_filled.
  destruct (mapM conv_scalar_kf ks) as [l| |]; try discriminate C. cbn [bind] in *. injection C as <-.
  eexists. split; [reflexivity|]. intros frame. unfold eval, anim_eval_or, anim_eval_inner. cbn [an_times an_values].
  rewrite !map_map. cbn [fst snd]. rewrite <- (map_map fst time_filled), weight_filled. reflexivity.
Qed.

(** * A pair whose lone handle counts for nothing *)
Open Scope R_scope.
Definition w_half : f64 := fclamp f0 f1 (fdiv (fsub f_half f0) (fsub f1 f0)).
Lemma w_half_R : fin w_half /\ B2R w_half = 1 / 2.
Proof.
  assert (F : fin w_half) by (vm_compute; reflexivity). split; [exact F|]. rewrite <- f_half_R.
  apply feqb_eq; [exact F|reflexivity|vm_compute; reflexivity].
Qed.
Lemma weight_mid i o i' o' : frames_and_weight [mkTime f0 i o false; mkTime f1 i' o' false] f_half =
  Some ((0%nat, 1%nat), w_half, mkEasing match o with Some o => o | None => mkHandle f0 f0 end match i with Some i => i | None => mkHandle f1 f1 end, false).
Proof.
  unfold frames_and_weight.
  replace (binary_search _ _) with (Insert 1) by (vm_compute; reflexivity). reflexivity.
Qed.
Lemma ordinary_f0 : ordinary_number f0. Proof. apply unit_ordinary. split; [reflexivity|]. rewrite f0_R. lra. Qed.
Lemma ordinary_f1 : ordinary_number f1. Proof. apply unit_ordinary. split; [reflexivity|]. rewrite f1_R. lra. Qed.
Definition quick : easing := mkEasing (mkHandle f0 f1) (mkHandle f1 f1).
Lemma quick_ordinary : ordinary_easing quick.
Proof.
  unfold ordinary_easing, quick. cbn [eo ei hx hy]. rewrite f0_R, f1_R, Rabs_R0, Rabs_R1. repeat split; try reflexivity; lra.
Qed.
Lemma half_linear E : solves E -> B2R (tween_f64 E f0 f1 w_half easing_lerp) <= 6 / 10.
Proof.
  intros S. destruct w_half_R as [Fw Rw].
  destruct (tween_eased E f0 f1 w_half easing_lerp S lerp_ordinary ordinary_f0 ordinary_f1 Fw ltac:(lra)) as (_ & y & (u & Hu & X & Y) & V).
  cbn [easing_lerp eo ei hx hy] in X, Y. rewrite f0_R, f1_R, Rw in *. apply Rabs_le_inv in X, Y, V. lra.
Qed.
Lemma half_quick E : solves E -> 7 / 10 <= B2R (tween_f64 E f0 f1 w_half quick).
Proof.
  intros S. destruct w_half_R as [Fw Rw].
  destruct (tween_eased E f0 f1 w_half quick S quick_ordinary ordinary_f0 ordinary_f1 Fw ltac:(lra)) as (_ & y & (u & Hu & X & Y) & V).
  cbn [quick eo ei hx hy] in X, Y. rewrite f0_R, f1_R, Rw in *. apply Rabs_le_inv in X, Y, V. unfold cubic in X, Y.
  assert (U : 4 / 10 <= u). { destruct (Rle_lt_dec (4 / 10) u) as [L|L]; [exact L|]. exfalso. assert (u * u <= 16 / 100) by nra. assert (0 <= u * u * u) by nra. nra. }
  assert (Z : 3 * (1 - u) * (1 - u) * u * 1 + 3 * (1 - u) * u * u * 1 + u * u * u = 1 - (1 - u) * (1 - u) * (1 - u)) by ring.
  assert ((1 - u) * (1 - u) <= 36 / 100) by nra. assert ((1 - u) * (1 - u) * (1 - u) <= 216 / 1000) by nra. nra.
Qed.
Definition lone_out (t : f64) (v : list f64) : keyframe :=
  mkKeyframe (mkKfBase t None None (Some (mkKfHandle (KcSingle f0) (KcSingle f1)))) v None.
Definition lone_keys : list keyframe := [lone_out f0 [f0; f0]; lone_out f1 [f1; f1]].
Definition pos_of (ks : list keyframe) : s_position := mkSPosition None None None None (PkAnimated (map (fun k => mkPosKeyframe k None None) ks)).
(** A position whose keyframes have an out-handle only is not where it is with
    the in-handles of a steady pace filled in. *)
Theorem C107_refuted : forall E, solves E -> exists ks frame,
  px (eval E (conv_pos_point (pos_of ks)) frame) <> px (eval E (conv_pos_point (pos_of (map filled ks))) frame) /\
  Forall (fun k => kb_out (kf_b k) <> None) ks.
Proof.
  intros E S. exists lone_keys, f_half. split.
  - assert (A : px (eval E (conv_pos_point (pos_of lone_keys)) f_half) = tween_f64 E f0 f1 w_half easing_lerp).
    { unfold conv_pos_point, conv_pos, pos_of, lone_keys, lone_out, conv_keyframes, conv_keyframe, hold_of.
      cbn [po_k map pk_kf flat_map kf_b kf_value kb_in kb_out kb_hold kb_time collect_tangents combine app fst snd to_point first2].
      unfold eval, anim_eval_or, anim_eval_inner. cbn [an_times an_values]. rewrite weight_mid. reflexivity. }
    assert (B : px (eval E (conv_pos_point (pos_of (map filled lone_keys))) f_half) = tween_f64 E f0 f1 w_half quick).
    { unfold conv_pos_point, conv_pos, pos_of, lone_keys, lone_out, filled, straight_in, conv_keyframes, conv_keyframe, hold_of.
      cbn [po_k map pk_kf flat_map kf_b kf_value kb_in kb_out kb_hold kb_time kh_x kh_y collect_tangents combine app fst snd to_point first2].
      unfold eval, anim_eval_or, anim_eval_inner. cbn [an_times an_values]. rewrite weight_mid. reflexivity. }
    rewrite A, B. intros Q. pose proof (half_linear E S). pose proof (half_quick E S). rewrite Q in *. lra.
  - repeat constructor; discriminate.
Qed.
(** The theorems apply: these keyframes and the same without handles; and a
    number with the same handles. *)
Definition bare (k : keyframe) : keyframe := mkKeyframe (mkKfBase (kb_time (kf_b k)) (kb_hold (kf_b k)) None None) (kf_value k) None.
Example C107_applies : Forall2 same_but_handle lone_keys (map bare lone_keys) /\
  exists x, conv_scalar (mkAnimProp None None None None (AkAnimated lone_keys)) = Ok x.
Proof.
  split; [|eexists; reflexivity].
  repeat constructor; right; (split; [left; reflexivity|split; [left; reflexivity|repeat split; reflexivity]]).
Qed.
