(** C80: a layer is placed relative to its parent, all the way up. *)
From Coq Require Import ZArith Reals Bool List Arith String Lia Lra Psatz.
From Flocq Require Import Core BinarySingleNaN.
From Verif Require Import F64 F64Facts Kurbo GeometrySpec PropGeometry Schema TimelineSpec ImportSpec FamilySpec.
Import ListNotations.
Open Scope list_scope.
Open Scope R_scope.

(** * Maps that bring no two points further apart *)
Definition norm2 (x y : R) : R := x * x + y * y.
Definition tame (r : rmat) : Prop := forall x y, norm2 (ra r * x + rc r * y) (rb r * x + rd r * y) <= norm2 x y.
Lemma tame_mul r s : tame r -> tame s -> tame (rmul r s).
Proof.
  intros Hr Hs x y. unfold rmul. cbn [ra rb rc rd].
  specialize (Hs x y). specialize (Hr (ra s * x + rc s * y) (rb s * x + rd s * y)).
  replace ((ra r * ra s + rc r * rb s) * x + (ra r * rc s + rc r * rd s) * y) with (ra r * (ra s * x + rc s * y) + rc r * (rb s * x + rd s * y)) by ring.
  replace ((rb r * ra s + rd r * rb s) * x + (rb r * rc s + rd r * rd s) * y) with (rb r * (ra s * x + rc s * y) + rd r * (rb s * x + rd s * y)) by ring.
  lra.
Qed.
Lemma sq_le_1 x : x * x <= 1 -> Rabs x <= 1.
Proof. intros H. apply Rabs_le. nra. Qed.
Lemma tame_entries r : tame r -> Rabs (ra r) <= 1 /\ Rabs (rb r) <= 1 /\ Rabs (rc r) <= 1 /\ Rabs (rd r) <= 1.
Proof.
  intros H. pose proof (H 1 0) as H1. pose proof (H 0 1) as H2. unfold norm2 in *.
  repeat split; apply sq_le_1; nra.
Qed.
(** Length of the translation. *)
Definition far (r : rmat) (c : R) : Prop := norm2 (re r) (rf r) <= c * c.
Lemma norm_triangle x y z w a b : 0 <= a -> 0 <= b -> norm2 x y <= a * a -> norm2 z w <= b * b -> norm2 (x + z) (y + w) <= (a + b) * (a + b).
Proof.
  unfold norm2. intros Ha Hb H1 H2.
  assert (C : (x * z + y * w) * (x * z + y * w) <= (a * b) * (a * b)).
  { apply Rle_trans with ((x * x + y * y) * (z * z + w * w)).
    - pose proof (Rle_0_sqr (x * w - y * z)) as Q. unfold Rsqr in Q. nra.
    - replace (a * b * (a * b)) with ((a * a) * (b * b)) by ring.
      apply Rmult_le_compat; try assumption; pose proof (Rle_0_sqr x); pose proof (Rle_0_sqr y); pose proof (Rle_0_sqr z); pose proof (Rle_0_sqr w); unfold Rsqr in *; lra. }
  assert (D : x * z + y * w <= a * b).
  { assert (0 <= a * b) by now apply Rmult_le_pos. destruct (Rle_dec (x * z + y * w) (a * b)) as [|N]; [assumption|]. nra. }
  nra.
Qed.
Lemma far_mul r s c d : 0 <= c -> 0 <= d -> tame r -> far r c -> far s d -> far (rmul r s) (c + d).
Proof.
  unfold far. intros Hc Hd T Hr Hs. cbn [rmul re rf].
  replace ((c + d) * (c + d)) with ((d + c) * (d + c)) by ring.
  apply norm_triangle; try assumption. apply Rle_trans with (1 := T _ _). exact Hs.
Qed.
Lemma far_entries r c : 0 <= c -> far r c -> Rabs (re r) <= c /\ Rabs (rf r) <= c.
Proof.
  unfold far, norm2. intros Hc H. split; apply Rabs_le; nra.
Qed.
Lemma like_tight m r b e c f d : like m r b e c f -> tame r -> 0 <= d -> far r d -> like m r 1 e d f.
Proof.
  intros [] T Hd Fd. destruct (tame_entries r T) as (? & ? & ? & ?), (far_entries r d Hd Fd) as (? & ?). now constructor.
Qed.
Lemma tame_rot t : tame (rrot t).
Proof.
  intros x y. unfold norm2, rrot. cbn [ra rb rc rd]. pose proof (sin2_cos2 t) as H. unfold Rsqr in H.
  replace (_ + _) with ((x * x + y * y) * (sin t * sin t + cos t * cos t)) by ring. rewrite H. lra.
Qed.
Lemma tame_trans v : tame (rtrans v).
Proof. intros x y. unfold norm2, rtrans. cbn [ra rb rc rd]. nra. Qed.
Lemma tame_scale s : bounded_by 100 s -> tame (rscale s).
Proof.
  intros [B1 B2] x y. unfold norm2, rscale. cbn [ra rb rc rd]. apply Rabs_le_inv in B1, B2.
  assert (K : forall k z, -100 <= k <= 100 -> (k / 100 * z) * (k / 100 * z) <= z * z).
  { intros k z Hk. replace (k / 100 * z * (k / 100 * z)) with ((k / 100) * (k / 100) * (z * z)) by ring.
    pose proof (Rle_0_sqr z) as Q. unfold Rsqr in Q. assert ((k / 100) * (k / 100) <= 1) by nra. nra. }
  pose proof (K (fst s) x B1). pose proof (K (snd s) y B2).
  replace (fst s / 100 * x + 0 * y) with (fst s / 100 * x) by ring. replace (0 * x + snd s / 100 * y) with (snd s / 100 * y) by ring. lra.
Qed.

(** * One layer *)
Definition place_matrix (p : place) : rmat :=
  rmul (rmul (rmul (rtrans (pl_position p)) (rrot (rad (pl_rotation p)))) (rscale (pl_scale p)))
       (rtrans (- fst (pl_anchor p), - snd (pl_anchor p))).
Lemma place_matrix_stand p v : rapply (place_matrix p) v = stand p v.
Proof.
  unfold place_matrix, stand. rewrite !rapply_mul. unfold lands. rewrite slant_0.
  unfold vplus, vminus, turn, stretch, rad, rapply, rtrans, rrot, rscale. cbn [ra rb rc rd re rf fst snd]. f_equal; ring.
Qed.
Lemma place_tame p : plain_place p -> tame (place_matrix p).
Proof.
  intros (_ & _ & Bs & _). unfold place_matrix. repeat apply tame_mul; auto using tame_rot, tame_trans, tame_scale.
Qed.
Lemma bounded_far v : bounded_by 4096 v -> norm2 (fst v) (snd v) <= 6000 * 6000.
Proof. intros [A B]. apply Rabs_le_inv in A, B. unfold norm2. nra. Qed.
Lemma place_far p : plain_place p -> far (place_matrix p) 12000.
Proof.
  intros (Bp & Ba & Bs & _). unfold place_matrix. set (m := rmul (rmul _ _) _). replace 12000 with (6000 + 6000) by lra.
  apply far_mul; try lra.
  - unfold m. repeat apply tame_mul; auto using tame_rot, tame_trans, tame_scale.
  - unfold far, m. cbn [rmul rtrans rrot rscale re rf fst snd]. pose proof (bounded_far _ Bp) as H. unfold norm2 in *.
    replace (_ + _) with (fst (pl_position p) * fst (pl_position p) + snd (pl_position p) * snd (pl_position p)) by ring. exact H.
  - unfold far. cbn [rtrans re rf fst snd]. pose proof (bounded_far _ Ba) as H. unfold norm2 in *.
    replace (_ + _) with (fst (pl_anchor p) * fst (pl_anchor p) + snd (pl_anchor p) * snd (pl_anchor p)) by ring. exact H.
Qed.
Lemma rmul_stay r : rmul r (rtrans (0, 0)) = r.
Proof. destruct r as [a b c d x y]. unfold rmul, rtrans. cbn [ra rb rc rd re rf fst snd]. f_equal; ring. Qed.
Lemma like_scale1 x y : fin x -> fin y -> Rabs (B2R x) <= 100 -> Rabs (B2R y) <= 100 ->
  like (affine_scale (fdiv x f100) (fdiv y f100)) (rscale (B2R x, B2R y)) 1 (/ 2251799813685248) 0 0.
Proof.
  assert (Q : forall x, fin x -> Rabs (B2R x) <= 100 -> approx (fdiv x f100) (B2R x / 100) (/ 2251799813685248) /\ Rabs (B2R x / 100) <= 1).
  { intros z F B. assert (Bz : Rabs (B2R z / 100) <= 1) by (apply Rabs_le; apply Rabs_le_inv in B; lra). split; [|exact Bz].
    destruct (fdiv_R z f100 F) as [Ed Fd]; rewrite ?f100_R; [lra|pose proof big_range; lra|].
    split; [exact Fd|]. rewrite Ed, f100_R. apply Rle_trans with (1 := rnd_error _). unfold u52. lra. }
  intros Fx Fy Bx By. destruct (Q x Fx Bx), (Q y Fy By).
  constructor; cbn [affine_rotate affine_translate affine_scale affine_skew aa ab ac ad ae af rrot rtrans rscale rshear ra rb rc rd re rf fst snd]; auto; try (apply n0; lra); try (apply a0; lra).
Qed.
Lemma place_like E x p : accurate E -> has_place x p -> plain_place p ->
  like (placement E (po_position x) (po_anchor x) (po_scale x) (po_rotation x) (po_skew x) (po_axis x)) (place_matrix p)
    1 (/ 87000000000) 12000 (/ 8000000).
Proof.
  destruct x as [position anchor scale rotation skew axis]. unfold has_place. cbn [po_position po_anchor po_scale po_rotation po_skew po_axis].
  intros A (Fpx & Fpy & Fax & Fay & Fsx & Fsy & Fr & Z & ->) P. pose proof (place_tame _ P) as T. pose proof (place_far _ P) as F.
  refine (like_tight _ _ 2 _ 32768 _ _ _ T _ F); [|lra].
  destruct P as ((Bpx & Bpy) & (Bax & Bay) & (Bsx & Bsy) & Br).
  cbn [pl_position pl_anchor pl_scale pl_rotation real_point real_vec2 fst snd] in *.
  assert (L : forall x, Rabs x <= 4096 -> Rabs x <= 8192) by (intros; lra).
  assert (Lr := like_rot E _ _ A (radians_near _ Fr Br) (rad_bound _ Br)).
  assert (Lp := like_trans _ _ Fpx Fpy (L _ Bpx) (L _ Bpy)).
  assert (Ls := like_scale1 _ _ Fsx Fsy Bsx Bsy).
  assert (La : like (affine_translate (fneg (px anchor)) (fneg (py anchor))) (rtrans (- B2R (px anchor), - B2R (py anchor))) 1 0 8192 0).
  { rewrite <- (B2R_Bopp 53 1024), <- (B2R_Bopp 53 1024). apply like_trans; unfold fneg; rewrite ?is_finite_Bopp, ?B2R_Bopp, ?Rabs_Ropp; auto. }
  assert (Li : like affine_identity (rtrans (0, 0)) 1 0 0 0).
  { constructor; cbn [affine_identity aa ab ac ad ae af rtrans ra rb rc rd re rf fst snd];
      first [apply n0; lra|apply n1; lra|apply a0; lra|apply a1; lra]. }
  unfold placement, skewing. rewrite Z. cbn [product app].
  multiply M1 Lp Lr (/ 1000000000000) (/ 10000000000).
  apply (like_tight _ _ _ _ _ _ 8192) in M1; [|auto using tame_mul, tame_rot, tame_trans|lra|].
  2:{ unfold far. cbn [rmul rtrans rrot re rf fst snd]. pose proof (bounded_far (real_point position) (conj Bpx Bpy)) as H. unfold norm2, real_point in *. cbn [fst snd] in *.
      replace (_ + _) with (B2R (px position) * B2R (px position) + B2R (py position) * B2R (py position)) by ring. lra. }
  multiply M2 M1 Li (/ 400000000000) (/ 2000000000).
  apply (like_tight _ _ _ _ _ _ 8192) in M2; [|auto using tame_mul, tame_rot, tame_trans|lra|].
  2:{ unfold far. cbn [rmul rtrans rrot re rf fst snd]. pose proof (bounded_far (real_point position) (conj Bpx Bpy)) as H. unfold norm2, real_point in *. cbn [fst snd] in *.
      replace (_ + _) with (B2R (px position) * B2R (px position) + B2R (py position) * B2R (py position)) by ring. lra. }
  multiply M3 M2 Ls (/ 180000000000) (/ 500000000).
  apply (like_tight _ _ _ _ _ _ 8192) in M3; [|repeat apply tame_mul; auto using tame_rot, tame_trans; apply tame_scale; split; assumption|lra|].
  2:{ unfold far. cbn [rmul rtrans rrot rscale re rf fst snd]. pose proof (bounded_far (real_point position) (conj Bpx Bpy)) as H. unfold norm2, real_point in *. cbn [fst snd] in *.
      replace (_ + _) with (B2R (px position) * B2R (px position) + B2R (py position) * B2R (py position)) by ring. lra. }
  multiply M4 M3 La (/ 87000000000) (/ 8000000).
  clear M1 M2 M3. rewrite rmul_stay in M4.
  match goal with |- like _ ?r _ _ _ _ =>
    change r with (rmul (rmul (rmul (rtrans (B2R (px position), B2R (py position))) (rrot (rad (B2R rotation))))
      (rscale (B2R (vx scale), B2R (vy scale)))) (rtrans (- B2R (px anchor), - B2R (py anchor)))) end.
  eapply like_weaken; [exact M4|lra..].
Qed.

(** * A layer with its parents *)
Lemma rapply_id v : rapply (rtrans (0, 0)) v = v.
Proof. destruct v. unfold rapply, rtrans. cbn [ra rb rc rd re rf fst snd]. f_equal; ring. Qed.
Definition err (t : R) : R := t * (18 / 1000000000000) - 24 / 1000000000000.
Definition shift_err (t : R) : R := t * (152 / 100000000) - 29 / 10000000.
Lemma chain_like ms ps : Forall2 (fun m p => like m (place_matrix p) 1 (/ 87000000000) 12000 (/ 8000000)) ms ps -> Forall plain_place ps ->
  forall n acc racc, (1 <= n)%nat -> (n + List.length ps <= 9)%nat -> tame racc -> far racc (12000 * INR n) ->
  like acc racc 1 (err (2 ^ n)) 120000 (shift_err (2 ^ n)) ->
  exists r, tame r /\ far r 120000 /\
    like (fold_left (fun acc m => affine_mul m acc) ms acc) r 1 (err 512) 120000 (shift_err 512) /\
    forall v, rapply r v = world ps (rapply racc v).
Proof.
  intros H. induction H as [|m p ms ps L _ IH]; intros P n acc racc N1 N9 T F K.
  - exists racc. cbn [List.length] in N9. assert (2 ^ n <= 512).
    { replace 512 with (2 ^ 9) by lra. apply Rle_pow; [lra|lia]. }
    assert (INR n <= 9) by (replace 9 with (INR 9) by (cbn [INR]; lra); apply le_INR; lia). pose proof (pos_INR n).
    split; [exact T|]. split; [unfold far in *; nra|]. split; [|reflexivity].
    cbn [fold_left]. unfold err, shift_err in *. eapply like_weaken; [exact K|lra..].
  - inversion P as [|? ? Pp Pl]; subst. cbn [List.length] in N9. cbn [fold_left].
    assert (Q : 2 ^ n <= 256). { replace 256 with (2 ^ 8) by lra. apply Rle_pow; [lra|lia]. }
    assert (Q2 : 2 <= 2 ^ n). { replace 2 with (2 ^ 1) at 1 by lra. apply Rle_pow; [lra|lia]. }
    assert (I8 : INR n <= 8) by (replace 8 with (INR 8) by (cbn [INR]; lra); apply le_INR; lia). pose proof (pos_INR n) as I0.
    destruct (IH Pl (S n) (affine_mul m acc) (rmul (place_matrix p) racc)) as (r & Tr & Fr & Lr & Er).
    + lia.
    + lia.
    + apply tame_mul; [now apply place_tame|exact T].
    + rewrite S_INR. replace (12000 * (INR n + 1)) with (12000 + 12000 * INR n) by ring.
      apply far_mul; try lra; [now apply place_tame|now apply place_far|exact F].
    + cbn [pow]. set (t := 2 ^ n) in *.
      assert (M := like_mul _ _ _ _ _ _ _ _ _ _ _ _ (err (2 * t)) (shift_err (2 * t)) L K). cbv zeta in M.
      unfold err, shift_err, u52 in *.
      repeat match type of M with
         | ?X -> _ => let h := fresh in assert (h : X) by (repeat split; lra); specialize (M h); clear h
         end.
      eapply like_tight; [exact M|apply tame_mul; [now apply place_tame|exact T]|lra|].
      assert (X : far (rmul (place_matrix p) racc) (12000 + 12000 * INR n)).
      { apply far_mul; try lra; [now apply place_tame|now apply place_far|exact F]. }
      unfold far in *. nra.
    + exists r. split; [exact Tr|]. split; [exact Fr|]. split; [exact Lr|]. intros v. rewrite Er, rapply_mul, place_matrix_stand. reflexivity.
Qed.
Lemma view_like m : plain_view m -> like m (mkRmat (B2R (aa m)) (B2R (ab m)) (B2R (ac m)) (B2R (ad m)) (B2R (ae m)) (B2R (af m))) 4 0 8192 0.
Proof.
  intros ((? & ? & ? & ? & ? & ?) & ? & ? & ? & ? & ? & ?).
  constructor; cbn [ra rb rc rd re rf]; try assumption; (split; [assumption|]; rewrite Rminus_eq_0, Rabs_R0; lra).
Qed.

From Verif Require Import Value Animated Batch Render RenderSpec Examples Import DocExamples PropRender PropImport PropImport2.
Open Scope list_scope.
Open Scope R_scope.
(** The matrices of layers stand for the documents' transforms. *)
Definition sits (E : Ext) (frame : f64) (l : any_layer) (ly : layer) : Prop :=
  exists x, posture_at E (vl_ks (visual_of l)) frame x /\
    transform_eval E (ly_transform ly) frame =
    placement E (po_position x) (po_anchor x) (po_scale x) (po_rotation x) (po_skew x) (po_axis x).
Lemma layer_sits E a c s i src ly frame : conv_animation E a = Ok c ->
  nth_error (source_layers a s) i = Some src -> layer_at c (s, i) = Some ly -> sits E frame src ly.
Proof.
  intros H Hs Hl. destruct (C55_layer _ _ _ _ _ _ _ H Hs Hl) as (position & anchor & scale & rotation & skew & axis & H1 & H2 & H3 & H4 & H5 & H6 & Eq).
  exists (mkPosture (position frame) (anchor frame) (scale frame) (rotation frame) (skew frame) (axis frame)).
  split; [|apply Eq]. now exists position, anchor, scale, rotation, skew, axis.
Qed.
Lemma family_ancestors E a c s frame : conv_animation E a = Ok c ->
  forall src parents, family (source_layers a s) src parents -> forall i ly, nth_error (source_layers a s) i = Some src ->
  layer_at c (s, i) = Some ly ->
  exists ps, ancestors (scope_layers c s) (ly_parent ly) ps /\ Forall2 (sits E frame) parents ps.
Proof.
  intros H src parents F. induction F as [l N|l p k m parents Hp Hk Hm F IH]; intros i ly Hs Hl.
  - exists []. split; [|constructor]. replace (ly_parent ly) with (@None nat); [constructor|].
    symmetry. apply (C35_no_parent _ _ _ _ _ _ _ H Hs Hl). intros p Hp x Hx. now apply (N p).
  - destruct (C35_parents _ _ _ _ _ _ _ H Hs Hl) as [P B].
    assert (Q : ly_parent ly = Some k) by (apply P; now exists p).
    specialize (B k Q). apply nth_error_Some in B.
    destruct (nth_error (scope_layers c s) k) as [lk|] eqn:Ek; [|contradiction].
    destruct (IH k lk Hm Ek) as (ps & A & S).
    exists (lk :: ps). split; [rewrite Q; now apply anc_step|]. constructor; [|exact S].
    eapply layer_sits; eassumption.
Qed.
Lemma Forall2_sits E frame ls lys : Forall2 (sits E frame) ls lys ->
  exists xs, Forall2 (fun l x => posture_at E (vl_ks (visual_of l)) frame x) ls xs /\
    Forall2 (fun ly x => transform_eval E (ly_transform ly) frame =
      placement E (po_position x) (po_anchor x) (po_scale x) (po_rotation x) (po_skew x) (po_axis x)) lys xs.
Proof.
  induction 1 as [|l ly ls lys (x & Hx & Eq) _ (xs & H1 & H2)]; [exists []; split; constructor|].
  exists (x :: xs). split; constructor; assumption.
Qed.
Lemma chain_product_map E frame ps own :
  chain_product E frame ps own = fold_left (fun acc m => affine_mul m acc) (map (fun p => transform_eval E (ly_transform p) frame) ps) own.
Proof. unfold chain_product. revert own. induction ps as [|p ps IH]; intros own; [reflexivity|]. cbn [fold_left map]. apply IH. Qed.

Lemma Forall2_len {A B} (P : A -> B -> Prop) l m : Forall2 P l m -> List.length l = List.length m.
Proof. induction 1; cbn [List.length]; congruence. Qed.
Theorem C80_family : forall E a c s i src ly parents frame view, accurate E -> conv_animation E a = Ok c ->
  nth_error (source_layers a s) i = Some src -> layer_at c (s, i) = Some ly ->
  family (source_layers a s) src parents -> (List.length parents <= 8)%nat -> plain_view view ->
  exists postures, Forall2 (fun l x => posture_at E (vl_ks (visual_of l)) frame x) (src :: parents) postures /\
    forall places, Forall2 has_place postures places -> Forall plain_place places ->
      let m := compute_transform E (scope_layers c s) ly view frame in
      finite_map m /\
      forall v, bounded_by 8192 v -> within (1 / 100) (moved m v) (moved view (world places v)).
Proof.
  intros E a c s i src ly parents frame view A H Hs Hl F N V.
  destruct (family_ancestors E a c s frame H _ _ F i ly Hs Hl) as (ps & An & St).
  destruct (Forall2_sits _ _ _ _ (Forall2_cons _ _ (layer_sits E a c s i src ly frame H Hs Hl) St)) as (xs & HX & HM).
  exists xs. split; [exact HX|]. intros places HP PP m.
  assert (Len : List.length places = S (List.length parents)).
  { rewrite <- (Forall2_len _ _ _ HP), <- (Forall2_len _ _ _ HX). reflexivity. }
  unfold m. rewrite (C08_parent_chain _ _ _ _ _ _ An), chain_product_map.
  inversion HM as [|? x ? xs' Own Rest]; subst. inversion HP as [|? p ? places' Hx Hrest]; subst. inversion PP as [|? ? Pp Pl]; subst.
  cbn [List.length] in Len. rewrite Own. clear m HX HM An St F Hs Hl H Own.
  assert (L0 := place_like E x p A Hx Pp).
  assert (Ls : Forall2 (fun m p => like m (place_matrix p) 1 (/ 87000000000) 12000 (/ 8000000)) (map (fun p => transform_eval E (ly_transform p) frame) ps) places').
  { clear - Rest Hrest Pl A. revert places' Hrest Pl. induction Rest as [|ly x ps xs' Eq _ IH]; intros places HP PP.
    - inversion HP. constructor.
    - inversion HP as [|? p ? places' Hx Hrest]; subst. inversion PP as [|? ? Pp Pl]; subst. cbn [map]. constructor; [|now apply IH].
      rewrite Eq. now apply place_like. }
  destruct (chain_like _ _ Ls Pl 1 (placement E (po_position x) (po_anchor x) (po_scale x) (po_rotation x) (po_skew x) (po_axis x)) (place_matrix p))
    as (r & Tr & Fr & Lr & Er).
  - lia.
  - lia.
  - now apply place_tame.
  - cbn [INR]. rewrite Rmult_1_r. now apply place_far.
  - unfold err, shift_err. eapply like_weaken; [exact L0|lra..].
  - set (k := fold_left _ _ _) in *. clearbody k. assert (Lv := view_like view V).
    unfold err, shift_err in Lr.
    multiply Mv Lv Lr (/ 12000000) (/ 150).
    set (q := affine_mul view k) in *. clearbody q.
    assert (Em : forall v, rapply (rmul (mkRmat (B2R (aa view)) (B2R (ab view)) (B2R (ac view)) (B2R (ad view)) (B2R (ae view)) (B2R (af view))) r) v = moved view (world (p :: places') v)).
    { intros v. rewrite rapply_mul, Er, place_matrix_stand. cbn [world]. reflexivity. }
    set (rr := rmul _ r) in *. clearbody rr.
    destruct Mv as [[FA A'] [FB B'] [FC C'] [FD D'] [FX X'] [FY Y'] _ _ _ _ _ _].
    split; [repeat split; assumption|]. intros v [Bv1 Bv2]. rewrite <- Em. unfold within, moved, rapply. cbn [fst snd]. clear Em.
    assert (G : forall a a' c c' e e', Rabs (a - a') <= / 12000000 -> Rabs (c - c') <= / 12000000 -> Rabs (e - e') <= / 150 ->
      Rabs (a * fst v + c * snd v + e - (a' * fst v + c' * snd v + e')) <= 1 / 100).
    { clear - Bv1 Bv2. intros a a' c c' e e' H1 H2 H3.
      replace (a * fst v + c * snd v + e - (a' * fst v + c' * snd v + e')) with ((a - a') * fst v + (c - c') * snd v + (e - e')) by ring.
      apply Rle_trans with (1 := Rabs_triang _ _).
      apply Rle_trans with (1 := Rplus_le_compat_r _ _ _ (Rabs_triang _ _)). rewrite !Rabs_mult.
      assert (Rabs (a - a') * Rabs (fst v) <= / 12000000 * 8192) by (apply Rmult_le_compat; auto using Rabs_pos).
      assert (Rabs (c - c') * Rabs (snd v) <= / 12000000 * 8192) by (apply Rmult_le_compat; auto using Rabs_pos). lra. }
    split; apply G; assumption.
Qed.

(** An arm on a body on a ground: [arm] hangs at (100, 0) of [body] and is turned
    by 90 degrees; [body] stands at (10, 20) of [ground], half as big. *)
Definition tr_place (x y ax ay pct deg : Z) : s_transform :=
  mkSTransform (Some (p_static ax ay)) (ApPosition (p_static x y)) (Some (mkMultiDim (st [f_of_Z pct; f_of_Z pct]) None))
    (Some (ArRotation (st (f_of_Z deg)))) None None None.
Definition arm : any_layer := AlNull (visual (base "arm" (Some 1%nat) (Some 2%nat) None) (tr_place 100 0 0 0 100 90) None None None).
Definition body : any_layer := AlNull (visual (base "body" (Some 2%nat) (Some 3%nat) None) (tr_place 10 20 0 0 50 0) None None None).
Definition ground : any_layer := AlNull (visual (base "ground" (Some 3%nat) None None) (tr_place 1000 500 5 5 100 0) None None None).
Definition puppet : animation := doc [] [arm; ground; body].
Definition puppet_postures : list posture :=
  [mkPosture (zp 100 0) (zp 0 0) (mkVec2 (f_of_Z 100) (f_of_Z 100)) (f_of_Z 90) f0 f0;
   mkPosture (zp 10 20) (zp 0 0) (mkVec2 (f_of_Z 50) (f_of_Z 50)) (f_of_Z 0) f0 f0;
   mkPosture (zp 1000 500) (zp 5 5) (mkVec2 (f_of_Z 100) (f_of_Z 100)) (f_of_Z 0) f0 f0].
Definition puppet_places : list place :=
  [mkPlace (100, 0) (0, 0) (100, 100) 90; mkPlace (10, 20) (0, 0) (50, 50) 0; mkPlace (1000, 500) (5, 5) (100, 100) 0].
Lemma z_fin z : (Z.abs z <= 2 ^ 53)%Z -> fin (f_of_Z z). Proof. intros H. apply (f_of_Z_R z H). Qed.
Lemma z_val z : (Z.abs z <= 2 ^ 53)%Z -> B2R (f_of_Z z) = IZR z. Proof. intros H. apply (f_of_Z_R z H). Qed.
Lemma stand_upright p v : stand p v =
  vplus (pl_position p) (turn (pl_rotation p) (stretch (pl_scale p) (vminus v (pl_anchor p)))).
Proof. unfold stand, lands. now rewrite slant_0. Qed.
Example C80_applies :
  (exists c ly, conv_animation E_accurate puppet = Ok c /\ layer_at c (None, 0%nat) = Some ly) /\
  nth_error (source_layers puppet None) 0 = Some arm /\ family (source_layers puppet None) arm [body; ground] /\
  plain_view affine_identity /\
  Forall2 (fun l x => posture_at E_accurate (vl_ks (visual_of l)) f0 x) [arm; body; ground] puppet_postures /\
  Forall2 has_place puppet_postures puppet_places /\ Forall plain_place puppet_places /\
  world puppet_places (8, 0) = (1055, 519).
Proof.
  split; [|split; [reflexivity|split; [|split; [|split; [|split; [|split]]]]]].
  - assert (T : match conv_animation E_accurate puppet with
      | Ok c => match layer_at c (None, 0%nat) with Some _ => True | None => False end | _ => False end) by (lazy; exact I).
    destruct (conv_animation _ _) as [c| |]; try contradiction. exists c.
    destruct (layer_at c _) as [ly|]; [|contradiction]. exists ly. split; reflexivity.
  - assert (Last : forall id k l, nth_error [arm; ground; body] k = Some l -> src_id l = id ->
        (forall j m, (k < j)%nat -> nth_error [arm; ground; body] j = Some m -> src_id m <> id) -> last_with_id [arm; ground; body] id k).
    { intros id k l H1 H2 H3. split; [now exists l|exact H3]. }
    change (source_layers puppet None) with [arm; ground; body].
    apply (fam_child _ arm 2%nat 2%nat body); [reflexivity| |reflexivity|].
    { apply (Last _ _ body); try reflexivity. intros j m Hj Hm. do 3 (destruct j as [|j]; [lia|]). destruct j; discriminate Hm. }
    apply (fam_child _ body 3%nat 1%nat ground); [reflexivity| |reflexivity|].
    { apply (Last _ _ ground); try reflexivity. intros j m Hj Hm. do 2 (destruct j as [|j]; [lia|]). destruct j as [|[|j]]; try discriminate Hm.
      injection Hm as <-. discriminate. }
    apply fam_top. intros p Hp. discriminate Hp.
  - unfold plain_view, finite_map, affine_identity. cbn [aa ab ac ad ae af]. rewrite f0_R, f1_R, Rabs_R0, Rabs_R1.
    repeat split; try lra; reflexivity.
  - unfold puppet_postures. repeat apply Forall2_cons; [| | |apply Forall2_nil].
    all: unfold posture_at; match goal with |- exists p a s r k x, _ /\ _ /\ _ /\ _ /\ _ /\ _ /\ mkPosture ?p' ?a' ?s' ?r' ?k' ?x' = _ =>
      exists (fun _ => p'), (fun _ => a'), (fun _ => s'), (fun _ => r'), (fun _ => k'), (fun _ => x') end;
      (split; [intros ?; reflexivity|]); (split; [intros ?; reflexivity|]); (split; [intros ?; reflexivity|]);
      (split; [eexists; split; [reflexivity|]; intros ?; reflexivity|]); (split; [intros ?; reflexivity|]); (split; [intros ?; reflexivity|]); reflexivity.
  - unfold puppet_postures, puppet_places. repeat apply Forall2_cons; [| | |apply Forall2_nil].
    all: unfold has_place, real_point, real_vec2, zp; cbn [po_position po_anchor po_scale po_rotation po_skew px py vx vy];
      rewrite !z_val by lia; repeat split; try (apply z_fin; lia).
  - unfold puppet_places. repeat apply Forall_cons; [| | |apply Forall_nil].
    all: unfold plain_place, bounded_by; cbn [pl_position pl_anchor pl_scale pl_rotation fst snd];
      repeat split; apply Rabs_le; lra.
  - unfold puppet_places, world. rewrite !stand_upright. unfold vplus, vminus, turn, stretch. cbn [pl_position pl_anchor pl_scale pl_rotation fst snd].
    replace (90 * PI / 180) with (PI / 2) by lra. replace (0 * PI / 180) with 0 by lra.
    rewrite cos_PI2, sin_PI2, cos_0, sin_0. f_equal; lra.
Qed.
