(** C81: between two opacity stops a gradient is blended. *)
From Coq Require Import ZArith Reals Bool List Arith String Lia Lra.
From Flocq Require Import Core BinarySingleNaN.
From Verif Require Import F64 F64Facts ValueSpec ValueFacts Kurbo GeometrySpec PropGeometry PropStar Value Animated Batch Render RenderSpec Examples Schema
  TimelineSpec Import ImportSpec ImportFacts DocExamples PropImport PropImport2 EasingSpec PropEasing.
Import ListNotations.
Open Scope list_scope.
Open Scope R_scope.

(** The opacity at [x] on the straight line from opacity stop [p] to opacity stop [q]. *)
Definition blended (p q : f64 * f64) (x : f64) : R :=
  B2R (snd p) + (B2R (snd q) - B2R (snd p)) * ((B2R x - B2R (fst p)) / (B2R (fst q) - B2R (fst p))).
(** An opacity stop that is neither the first nor the last. *)
Definition inner (ops : list (f64 * f64)) (r : f64 * f64) : Prop :=
  exists j, (0 < j < List.length ops - 1)%nat /\ nth_error ops j = Some r.

Lemma flit_near n d : (Z.abs n <= 16)%Z -> (1 <= d <= 16)%Z -> approx (flit n d) (IZR n / IZR d) (/ 10000000000000).
Proof.
  intros Hn Hd. unfold flit. destruct (f_of_Z_R d ltac:(lia)) as [Rd Fd].
  assert (1 <= IZR d) by (apply (IZR_le 1); lia).
  assert (I : 0 < / IZR d <= 1). { split; [apply Rinv_0_lt_compat; lra|]. rewrite <- Rinv_1. apply Rinv_le_contravar; lra. }
  apply (approx_div _ _ _ _ 0 16); [apply (exact_Z n); lia|exact Fd|exact Rd|lra| |lra|].
  - rewrite <- abs_IZR. apply IZR_le. lia.
  - unfold u52, Rdiv. lra.
Qed.
Lemma unit_ordinary x : unit_number x -> ordinary_number x.
Proof. intros [F B]. split; [exact F|]. rewrite Rabs_pos_eq; lra. Qed.
Lemma lerp_ordinary : ordinary_easing easing_lerp.
Proof.
  unfold ordinary_easing, easing_lerp. cbn [eo ei hx hy]. rewrite f0_R, f1_R, Rabs_R0, Rabs_R1. repeat split; try reflexivity; lra.
Qed.
Section Between.
  Variables (E : Ext) (p q : f64 * f64) (x : f64).
  Hypothesis S : solves E.
  Hypothesis Mp : moderate (fst p).
  Hypothesis Mq : moderate (fst q).
  Hypothesis Fx : fin x.
  Hypothesis Hx : B2R (fst p) <= B2R x < B2R (fst q).
  Hypothesis Up : unit_number (snd p).
  Hypothesis Uq : unit_number (snd q).
  Let t := normalize_to_range (fst p) (fst q) x.
  Lemma norm_progress : fin t /\ 0 <= B2R t <= 1 /\
    Rabs (B2R t - (B2R x - B2R (fst p)) / (B2R (fst q) - B2R (fst p))) <= / 100000000000000.
  Proof.
    destruct (progress_ratio _ _ _ Mp Mq Fx Hx) as (Fw & Bw & Ew). cbv zeta in *.
    assert (Z : fin t /\ 0 <= B2R t <= 1 /\ t = fdiv (fsub x (fst p)) (fsub (fst q) (fst p))).
    { unfold t, normalize_to_range. destruct (feqb (fst p) (fst q)) eqn:Q.
      { apply feqb_eq in Q; [|apply Mp|apply Mq]. lra. }
      clear Q t Fw Bw Ew. destruct Mp as [Fp Bp], Mq as [Fq Bq]. apply Rabs_le_inv in Bp, Bq.
      assert (P : bpow radix2 1001 = 2 * bpow radix2 1000) by (rewrite <- bpow_S; reflexivity).
      assert (Q' : bpow radix2 1001 <= bpow radix2 1023) by (apply bpow_le; lia).
      destruct (fsub_R (fst q) (fst p) Fq Fp) as [Ed Fd]. { apply Rabs_le. lra. }
      destruct (fsub_R x (fst p) Fx Fp) as [En Fn]. { apply Rabs_le. lra. }
      assert (D0 : 0 < rnd (B2R (fst q) - B2R (fst p))) by (apply rnd_sub_pos; lra).
      assert (N0 : 0 <= rnd (B2R x - B2R (fst p))) by (apply rnd_nonneg; lra).
      assert (N1 : rnd (B2R x - B2R (fst p)) <= rnd (B2R (fst q) - B2R (fst p))) by (apply rnd_le; lra).
      set (r := rnd (B2R x - B2R (fst p)) / rnd (B2R (fst q) - B2R (fst p))).
      assert (Hr : 0 <= r <= 1).
      { unfold r. split.
        - apply Rmult_le_pos; [lra|]. left. now apply Rinv_0_lt_compat.
        - apply Rmult_le_reg_r with (rnd (B2R (fst q) - B2R (fst p))); [lra|]. unfold Rdiv. rewrite Rmult_assoc, Rinv_l; lra. }
      destruct (fdiv_R (fsub x (fst p)) (fsub (fst q) (fst p)) Fn) as [Eq Fq'].
      { rewrite Ed. lra. }
      { rewrite En, Ed. fold r. rewrite Rabs_pos_eq by lra. apply Rle_trans with (bpow radix2 0); [simpl; lra|apply bpow_le; lia]. }
      split; [exact Fq'|]. split; [|reflexivity]. rewrite Eq, En, Ed. fold r. split; [apply rnd_nonneg; lra|].
      rewrite <- f1_R. apply rnd_le_f. rewrite f1_R. lra. }
    destruct Z as (Ft & Bt & Et). split; [exact Ft|]. split; [exact Bt|].
    rewrite <- Et, fclamp_id in Ew by assumption. exact Ew.
  Qed.
  Lemma blend_value : fin (tween_f64 E (snd p) (snd q) t easing_lerp) /\
    Rabs (B2R (tween_f64 E (snd p) (snd q) t easing_lerp) - blended p q x) <= / 100000.
  Proof.
    destruct norm_progress as (Ft & Bt & Et).
    destruct (tween_eased E (snd p) (snd q) t easing_lerp S lerp_ordinary (unit_ordinary _ Up) (unit_ordinary _ Uq) Ft Bt)
      as (Fv & y & (u & Hu & X & Y) & V).
    split; [exact Fv|]. cbn [easing_lerp eo ei hx hy] in X, Y. rewrite f0_R, f1_R in X, Y.
    set (v := B2R (tween_f64 _ _ _ _ _)) in *. unfold blended. set (w := (B2R x - _) / _) in *.
    assert (Yw : Rabs (y - w) <= / 10000000).
    { apply Rabs_le_inv in X, Y, Et. apply Rabs_le. lra. }
    destruct Up as [_ Bp], Uq as [_ Bq]. set (a := B2R (snd p)) in *. set (b := B2R (snd q)) in *.
    assert (D : Rabs ((b - a) * (y - w)) <= / 10000000).
    { replace (/ 10000000) with (1 * / 10000000) by lra. apply Rabs_mult_le; [bnd|exact Yw]. }
    replace (v - (a + (b - a) * w)) with ((v - (a + (b - a) * y)) + (b - a) * (y - w)) by ring.
    apply Rle_trans with (/ 1000000 + / 10000000); [|lra]. now apply Rabs_plus_le.
  Qed.
  Lemma segment_middle : 11 / 100 <= B2R x <= 89 / 100 ->
    fin (segment_alpha E (fst p) (snd p) (fst q) (snd q) x) /\
    Rabs (B2R (segment_alpha E (fst p) (snd p) (fst q) (snd q) x) - blended p q x) <= / 100000.
  Proof.
    intros M. unfold segment_alpha. fold t.
    destruct (flit_near 1 10 ltac:(lia) ltac:(lia)) as [F1 A1]. destruct (flit_near 9 10 ltac:(lia) ltac:(lia)) as [F9 A9].
    apply Rabs_le_inv in A1, A9.
    replace (fleb x (flit 1 10)) with false. 2:{ symmetry. apply fleb_false; auto. lra. }
    replace (fleb (flit 9 10) x) with false. 2:{ symmetry. apply fleb_false; auto. lra. }
    rewrite !andb_false_r. exact blend_value.
  Qed.
  Lemma segment_start : B2R x <= 9 / 100 -> (B2R x - B2R (fst p)) / (B2R (fst q) - B2R (fst p)) <= 24 / 100 ->
    segment_alpha E (fst p) (snd p) (fst q) (snd q) x = snd p.
  Proof.
    intros Mx Mt. unfold segment_alpha. fold t. destruct norm_progress as (Ft & Bt & Et). apply Rabs_le_inv in Et.
    destruct (flit_near 1 10 ltac:(lia) ltac:(lia)) as [F1 A1]. destruct (flit_near 9 10 ltac:(lia) ltac:(lia)) as [F9 A9].
    destruct (flit_near 1 4 ltac:(lia) ltac:(lia)) as [F4 A4]. apply Rabs_le_inv in A1, A9, A4.
    replace (fleb (flit 9 10) x) with false. 2:{ symmetry. apply fleb_false; auto. lra. }
    rewrite andb_false_r. replace (fleb x (flit 1 10)) with true. 2:{ symmetry. apply fleb_le; auto. lra. }
    replace (fleb t (flit 1 4)) with true. 2:{ symmetry. apply fleb_le; auto. lra. }
    replace (fleb (fst p) x) with true. 2:{ symmetry. apply fleb_le; auto; [apply Mp|lra]. }
    replace (fleb x (fst q)) with true. 2:{ symmetry. apply fleb_le; auto; [apply Mq|lra]. }
    reflexivity.
  Qed.
  Lemma segment_end : 91 / 100 <= B2R x -> 76 / 100 <= (B2R x - B2R (fst p)) / (B2R (fst q) - B2R (fst p)) ->
    segment_alpha E (fst p) (snd p) (fst q) (snd q) x = snd q.
  Proof.
    intros Mx Mt. unfold segment_alpha. fold t. destruct norm_progress as (Ft & Bt & Et). apply Rabs_le_inv in Et.
    destruct (flit_near 9 10 ltac:(lia) ltac:(lia)) as [F9 A9].
    destruct (flit_near 3 4 ltac:(lia) ltac:(lia)) as [F4 A4]. apply Rabs_le_inv in A9, A4.
    replace (fleb (flit 9 10) x) with true. 2:{ symmetry. apply fleb_le; auto. lra. }
    replace (fleb (flit 3 4) t) with true. 2:{ symmetry. apply fleb_le; auto. lra. }
    replace (fleb (fst p) x) with true. 2:{ symmetry. apply fleb_le; auto; [apply Mp|lra]. }
    replace (fleb x (fst q)) with true. 2:{ symmetry. apply fleb_le; auto; [apply Mq|lra]. }
    reflexivity.
  Qed.
End Between.

(** * The whole scan *)
Lemma scan_between E ops k p q x : sane_opacities ops -> nth_error ops k = Some p -> nth_error ops (S k) = Some q ->
  fin x -> B2R (fst p) <= B2R x < B2R (fst q) ->
  let v := segment_alpha E (fst p) (snd p) (fst q) (snd q) x in
  let a := alpha_scan E x None ops f1 in
  fin v -> fin a /\ B2R a <= 1 /\ B2R a <= B2R v /\ (forall r, inner ops r -> B2R a <= B2R (snd r)) /\
  (a = f1 \/ a = v \/ exists r, inner ops r /\ a = snd r).
Proof.
  intros [Fo Inc] Hp Hq Fx Hx v a Fv. rewrite Forall_forall in Fo.
  assert (Mp : moderate (fst p)) by (apply Fo; eapply nth_error_In; eauto).
  assert (Mq : moderate (fst q)) by (apply Fo; eapply nth_error_In; eauto).
  assert (Mx : moderate x).
  { split; [exact Fx|]. destruct Mp as [_ Bp], Mq as [_ Bq]. apply Rabs_le_inv in Bp, Bq. apply Rabs_le. lra. }
  assert (SegV : forall j s, nth_error (segments None ops) j = Some s ->
            seg_alpha E x s = if (j <? k)%nat then snd (snd s) else if (j =? k)%nat then v else snd (fst s)).
  { intros j [s1 s2] Hj. apply segments_at in Hj. cbn [fst snd] in *. destruct Hj as [H1 H2].
    assert (M1 : moderate (fst s1)) by (apply Fo; eapply nth_error_In; eauto).
    assert (M2 : moderate (fst s2)) by (apply Fo; eapply nth_error_In; eauto).
    assert (L12 : fltb (fst s1) (fst s2) = true) by (eapply (Inc j (S j)); eauto).
    unfold seg_alpha. cbn [fst snd]. destruct (Nat.ltb_spec j k) as [Lk|Lk].
    - apply seg_after; auto. apply Rle_trans with (B2R (fst p)); [|lra]. destruct (Nat.eq_dec (S j) k) as [Eq|Ne].
      + assert (s2 = p) by congruence. subst. lra.
      + apply Rlt_le. apply fltb_lt; [apply M2|apply Mp|]. eapply (Inc (S j) k); eauto. lia.
    - destruct (Nat.eqb_spec j k) as [->|Ne].
      + assert (s1 = p) by congruence. assert (s2 = q) by congruence. subst. reflexivity.
      + apply seg_before; auto. apply Rle_trans with (B2R (fst q)); [lra|]. destruct (Nat.eq_dec j (S k)) as [Eq|Ne'].
        * assert (s1 = q) by congruence. subst. lra.
        * apply Rlt_le. apply fltb_lt; [apply Mq|apply M1|]. eapply (Inc (S k) j); eauto. lia. }
  assert (Lk : (S k < List.length ops)%nat) by (apply nth_error_Some; congruence).
  assert (Sk : nth_error (segments None ops) k = Some (p, q)) by (apply segments_at; auto).
  assert (Cases : a = f1 \/ a = v \/ exists r, inner ops r /\ a = snd r).
  { unfold a. rewrite alpha_scan_eq. destruct (fold_fmin_in (map (seg_alpha E x) (segments None ops)) f1) as [->|H]; [now left|]. right.
    apply in_map_iff in H. destruct H as (s & Hs & Hin). apply In_nth_error in Hin. destruct Hin as [j Hj].
    rewrite (SegV j s Hj) in Hs. apply segments_at in Hj. destruct Hj as [H1 H2].
    assert (S j < List.length ops)%nat by (apply nth_error_Some; congruence).
    destruct (Nat.ltb_spec j k) as [L|L]; [|destruct (Nat.eqb_spec j k) as [L'|L']].
    + right. exists (snd s). split; [|now symmetry]. exists (S j). split; [lia|exact H2].
    + left. now symmetry.
    + right. exists (fst s). split; [|now symmetry]. exists j. split; [lia|exact H1]. }
  assert (Fa : fin a).
  { destruct Cases as [->|[->|(r & (j & _ & Hr) & ->)]]; [reflexivity|exact Fv|]. apply (Fo r). eapply nth_error_In; eauto. }
  assert (Le : forall y, In y (map (seg_alpha E x) (segments None ops)) -> fin y -> B2R a <= B2R y).
  { intros y Hy Fy. apply fleb_le; auto. unfold a. rewrite alpha_scan_eq. apply fold_fmin_le; auto. now destruct y. }
  split; [exact Fa|]. split; [|split; [|split; [|exact Cases]]].
  - rewrite <- f1_R. apply fleb_le; [exact Fa|reflexivity|]. unfold a. rewrite alpha_scan_eq. now apply fold_fmin_le1.
  - apply Le; [|exact Fv]. apply in_map_iff. exists (p, q). split; [|eapply nth_error_In; eauto].
    rewrite (SegV k _ Sk). rewrite Nat.ltb_irrefl, Nat.eqb_refl. reflexivity.
  - intros r (j & Hj & Hr). apply Le; [|apply (Fo r); eapply nth_error_In; eauto].
    assert (W : (0 < j <= k)%nat \/ (k < j /\ S j < List.length ops)%nat) by lia. destruct W as [W|W].
    + destruct j as [|j']; [lia|].
      destruct (nth_error ops j') as [q0|] eqn:Q0; [|apply nth_error_None in Q0; lia].
      assert (Sg : nth_error (segments None ops) j' = Some (q0, r)) by (apply segments_at; auto).
      apply in_map_iff. exists (q0, r). split; [|eapply nth_error_In; eauto].
      rewrite (SegV j' _ Sg). destruct (Nat.ltb_spec j' k); [reflexivity|lia].
    + destruct (nth_error ops (S j)) as [q0|] eqn:Q0; [|apply nth_error_None in Q0; lia].
      assert (Sg : nth_error (segments None ops) j = Some (r, q0)) by (apply segments_at; auto).
      apply in_map_iff. exists (r, q0). split; [|eapply nth_error_In; eauto].
      rewrite (SegV j _ Sg). destruct (Nat.ltb_spec j k); [lia|]. destruct (Nat.eqb_spec j k); [lia|reflexivity].
Qed.

(** * Imported gradients *)
Lemma gradient_out E x g l d out : paints_gradient x g -> ap_k (md_p (gc_k (bg_g g))) = AkStatic l ->
  conv_shape E x = Ok (Some (ShDraw d)) -> (forall frame, stops_at E (dr_brush d) frame out) ->
  out = map stop5_to_stop (conv_stops E l (gc_p (bg_g g))).
Proof.
  intros Hx Hk H Ho. destruct (Ho f0) as (k & Ek).
  assert (B : exists gr, conv_gradient E g = Ok gr /\ dr_brush d = a_brush_into_model E (ABGradient gr)).
  { destruct Hx as [(st & r & ->)|(st & bs & ->)]; cbn [conv_shape conv_draw] in H.
    - destruct (conv_gradient E g) as [a| |]; try discriminate. cbn [bind] in H. injection H as <-. now exists a.
    - destruct (conv_scalar (bs_w bs)) as [w| |]; try discriminate. cbn [bind] in H.
      destruct (conv_gradient E g) as [a| |]; try discriminate. cbn [bind] in H. injection H as <-. now exists a. }
  destruct B as (gr & Hg & Hb). rewrite Hb, brush_model in Ek.
  unfold conv_gradient, conv_gradient_colors in Hg. rewrite Hk in Hg. cbn [bind] in Hg. injection Hg as <-.
  cbn [a_brush_eval] in Ek. unfold a_gradient_eval in Ek. cbn [ag_stops stops_eval] in Ek.
  apply (f_equal (fun b => match b with BGradient g => g_stops g | _ => [] end)) in Ek. cbn [g_stops] in Ek. rewrite <- Ek.
  destruct (ag_radial _); reflexivity.
Qed.
Lemma imported_alpha E x g l d out i s o : paints_gradient x g -> ap_k (md_p (gc_k (bg_g g))) = AkStatic l ->
  (1 <= gc_p (bg_g g))%nat -> (4 * gc_p (bg_g g) <= List.length l)%nat ->
  conv_shape E x = Ok (Some (ShDraw d)) -> (forall frame, stops_at E (dr_brush d) frame out) ->
  nth_error out i = Some s -> nth_error l (4 * i) = Some o ->
  ca (cs_color s) = f64_to_f32 (alpha_scan E o None (opacity_stops l (gc_p (bg_g g))) f1).
Proof.
  intros Hx Hk Hc Hl H Ho Hs Hn. rewrite (gradient_out _ _ _ _ _ _ Hx Hk H Ho) in Hs. set (count := gc_p (bg_g g)) in *.
  rewrite nth_error_map in Hs. destruct (nth_error (conv_stops E l count) i) as [q|] eqn:Q; [|discriminate].
  injection Hs as <-. cbn [stop5_to_stop cs_color ca]. f_equal.
  pose proof (conv_stops_at E l count i q Q) as N.
  assert (Eo : s5_offset q = o).
  { unfold nums in N. cbn [List.length] in N.
    assert (X : nth_error (firstn 4 (skipn (4 * i) l)) 0 = Some (s5_offset q)) by (rewrite N; reflexivity).
    assert (Y : nth_error (firstn 4 (skipn (4 * i) l)) 0 = nth_error l (4 * i)).
    { pose proof (firstn_skipn (4 * i) l) as FS. destruct (skipn (4 * i) l) as [|z zs] eqn:Sk; [discriminate X|].
      cbn. rewrite <- FS. rewrite nth_error_app2; rewrite firstn_length_le; try reflexivity.
      - now rewrite Nat.sub_diag.
      - assert (4 * i < List.length l)%nat by (apply nth_error_Some; congruence). lia.
      - assert (4 * i < List.length l)%nat by (apply nth_error_Some; congruence). lia. }
    rewrite Y, Hn in X. congruence. }
  rewrite <- Eo. rewrite conv_stops_eq in Q. replace (count * 2)%nat with (2 * count)%nat in Q by lia.
  rewrite chunks2_skip in Q. replace (2 * (2 * count))%nat with (4 * count)%nat in Q by lia. fold (opacity_stops l count) in Q.
  destruct (Nat.leb_spec (Nat.max 1 count) (List.length l / 4)) as [L|L].
  - rewrite nth_error_map in Q. destruct (nth_error (firstn _ _) i) as [q'|] eqn:Q'; [|discriminate].
    injection Q as <-. cbn [apply_alpha s5_offset s5_a].
    apply nth_error_firstn in Q'. rewrite nth_error_map in Q'.
    destruct (nth_error (chunks4 l) i) as [[[[o' r] gg] b]|]; [|discriminate].
    injection Q' as <-. reflexivity.
  - exfalso. assert (count <= List.length l / 4)%nat by (apply Nat.div_le_lower_bound; lia). lia.
Qed.

(** The colour stop at offset [o] of a gradient with fixed colours [l],
    imported with the opacity [a]. *)
Definition imported_stop (E : Ext) (l : list f64) (count : nat) (o : f64) (a : f32) : Prop :=
  exists x g d out i s, paints_gradient x g /\ ap_k (md_p (gc_k (bg_g g))) = AkStatic l /\ gc_p (bg_g g) = count /\
    (1 <= count)%nat /\ (4 * count <= List.length l)%nat /\
    conv_shape E x = Ok (Some (ShDraw d)) /\ (forall frame, stops_at E (dr_brush d) frame out) /\
    nth_error out i = Some s /\ nth_error l (4 * i) = Some o /\ a = ca (cs_color s).
Lemma imported_stop_alpha E l count o a : imported_stop E l count o a ->
  a = f64_to_f32 (alpha_scan E o None (opacity_stops l count) f1).
Proof. intros (x & g & d & out & i & s & H1 & H2 & <- & H4 & H5 & H6 & H7 & H8 & H9 & ->). eapply imported_alpha; eauto. Qed.
Lemma f32_close x r e : fin x -> Rabs r <= 2 -> e <= / 100000 -> Rabs (B2R x - r) <= e ->
  fin (f64_to_f32 x) /\ Rabs (B2R (f64_to_f32 x) - r) <= e + / 2000000.
Proof.
  intros F B He H. apply Rabs_le_inv in B, H. destruct (f32_near x F ltac:(bnd)) as [G N]. split; [exact G|].
  assert (Bx : Rabs (B2R x) <= 3) by bnd. assert (N' : Rabs (B2R (f64_to_f32 x) - B2R x) <= / 2000000) by lra.
  apply Rabs_le_inv in N'. bnd.
Qed.
Lemma blended_range p q x : unit_number (snd p) -> unit_number (snd q) -> B2R (fst p) <= B2R x < B2R (fst q) -> 0 <= blended p q x <= 1.
Proof.
  intros [_ Up] [_ Uq] Hx. unfold blended. set (w := _ / _).
  assert (0 <= w <= 1).
  { unfold w. split; [apply Rmult_le_pos; [lra|left; apply Rinv_0_lt_compat; lra]|].
    apply Rmult_le_reg_r with (B2R (fst q) - B2R (fst p)); [lra|]. unfold Rdiv. rewrite Rmult_assoc, Rinv_l; lra. }
  nra.
Qed.
Definition sound_opacities (ops : list (f64 * f64)) : Prop := sane_opacities ops /\ Forall (fun p => unit_number (snd p)) ops.
Theorem C81_between_partial : forall E l count o a k p q, solves E -> imported_stop E l count o a ->
  let ops := opacity_stops l count in sound_opacities ops ->
  nth_error ops k = Some p -> nth_error ops (S k) = Some q -> fin o -> B2R (fst p) <= B2R o < B2R (fst q) ->
  11 / 100 <= B2R o <= 89 / 100 ->
  fin a /\ B2R a <= blended p q o + 1 / 10000 /\ (forall r, inner ops r -> B2R a <= B2R (snd r) + 1 / 10000) /\
  (Rabs (B2R a - blended p q o) <= 1 / 10000 \/ exists r, inner ops r /\ Rabs (B2R a - B2R (snd r)) <= 1 / 10000).
Proof.
  intros E l count o a k p q S I ops [Sane U] Hp Hq Fo Ho Mo. rewrite Forall_forall in U.
  assert (Up : unit_number (snd p)) by (apply U; eapply nth_error_In; eauto).
  assert (Uq : unit_number (snd q)) by (apply U; eapply nth_error_In; eauto).
  assert (Mp : moderate (fst p)). { destruct Sane as [Fa _]. rewrite Forall_forall in Fa. apply Fa. eapply nth_error_In; eauto. }
  assert (Mq : moderate (fst q)). { destruct Sane as [Fa _]. rewrite Forall_forall in Fa. apply Fa. eapply nth_error_In; eauto. }
  destruct (segment_middle E p q o S Mp Mq Fo Ho Up Uq Mo) as [Fv Ev].
  destruct (scan_between E ops k p q o Sane Hp Hq Fo Ho Fv) as (Fa & L1 & Lv & Li & C). cbv zeta in *.
  rewrite (imported_stop_alpha _ _ _ _ _ I). fold ops. set (z := alpha_scan E o None ops f1) in *.
  set (v := segment_alpha _ _ _ _ _ _) in *. pose proof (blended_range p q o Up Uq Ho) as Rb. set (b := blended p q o) in *.
  apply Rabs_le_inv in Ev.
  assert (Z0 : 0 - / 100000 <= B2R z).
  { destruct C as [->|[->|(r & (j & _ & Hr) & ->)]]; [rewrite f1_R; lra|lra|].
    destruct (U r ltac:(eapply nth_error_In; eauto)) as [_ ?]. lra. }
  destruct (f32_close z (B2R z) 0 Fa ltac:(bnd) ltac:(lra)) as [Ga Na]. { rewrite Rminus_eq_0, Rabs_R0. lra. }
  apply Rabs_le_inv in Na. split; [exact Ga|]. split; [lra|]. split.
  - intros r Hr. specialize (Li r Hr). lra.
  - destruct C as [C|[C|(r & Hr & C)]].
    + left. rewrite C, f1_R in Lv. rewrite C, f1_R in Na. rewrite C. bnd.
    + left. rewrite C in Na. rewrite C. bnd.
    + right. exists r. split; [exact Hr|]. rewrite C in Na. rewrite C. bnd.
Qed.
(** Two opacity stops, the common case. *)
Theorem C81_two_stops_partial : forall E l count o a p q, solves E -> imported_stop E l count o a ->
  opacity_stops l count = [p; q] -> sound_opacities [p; q] -> fin o -> B2R (fst p) <= B2R o < B2R (fst q) ->
  11 / 100 <= B2R o <= 89 / 100 -> fin a /\ Rabs (B2R a - blended p q o) <= 1 / 10000.
Proof.
  intros E l count o a p q S I Ops Sound Fo Ho Mo. rewrite <- Ops in Sound.
  destruct (C81_between_partial E l count o a 0 p q S I Sound) as (Fa & _ & _ & [H|(r & (j & Hj & _) & _)]); auto;
    try (rewrite Ops; reflexivity).
  rewrite Ops in Hj. cbn [List.length] in Hj. lia.
Qed.
(** Near both ends of the gradient the opacity is not blended: within the
    first quarter between the stops, below 9 %, it is the first one; within the
    last quarter, above 91 %, it is the second. *)
Theorem C81_ends_partial : forall E l count o a p q, imported_stop E l count o a ->
  opacity_stops l count = [p; q] -> sound_opacities [p; q] -> fin o -> B2R (fst p) <= B2R o < B2R (fst q) ->
  let part := (B2R o - B2R (fst p)) / (B2R (fst q) - B2R (fst p)) in
  (B2R o <= 9 / 100 -> part <= 24 / 100 -> Rabs (B2R a - B2R (snd p)) <= 1 / 10000) /\
  (91 / 100 <= B2R o -> 76 / 100 <= part -> Rabs (B2R a - B2R (snd q)) <= 1 / 10000).
Proof.
  intros E l count o a p q I Ops [Sane U] Fo Ho part.
  rewrite Forall_forall in U. assert (Up := U p (or_introl eq_refl)). assert (Uq := U q (or_intror (or_introl eq_refl))).
  assert (M : moderate (fst p) /\ moderate (fst q)).
  { destruct Sane as [Fa _]. rewrite Forall_forall in Fa. split; apply Fa; cbn [In]; auto. }
  destruct M as [Mp Mq].
  assert (K : forall w : f64 * f64, unit_number (snd w) -> segment_alpha E (fst p) (snd p) (fst q) (snd q) o = snd w -> Rabs (B2R a - B2R (snd w)) <= 1 / 10000).
  { intros w Uw Ev. pose proof (scan_between E [p; q] 0 p q o Sane eq_refl eq_refl Fo Ho) as Sc. cbv zeta in Sc. rewrite Ev in Sc.
    destruct (Sc (proj1 Uw)) as (Fa & L1 & Lv & _ & C). rewrite (imported_stop_alpha _ _ _ _ _ I), Ops.
    set (z := alpha_scan E o None [p; q] f1) in *. destruct Uw as [Fw Bw].
    assert (Z : B2R z = B2R (snd w)).
    { destruct C as [C|[C|(r & (j & Hj & _) & _)]]; [rewrite C, f1_R in *; lra|now rewrite C|cbn [List.length] in Hj; lia]. }
    destruct (f32_close z (B2R (snd w)) 0 Fa ltac:(bnd) ltac:(lra)) as [_ Na]. { rewrite Z, Rminus_eq_0, Rabs_R0. lra. }
    apply Rle_trans with (1 := Na). lra. }
  split; intros H1 H2; apply K; auto.
  - now apply segment_start.
  - now apply segment_end.
Qed.

(** * Cases *)
Lemma imported_fill E l count i o : (1 <= count)%nat -> (4 * count <= List.length l)%nat -> (i < count)%nat -> nth_error l (4 * i) = Some o ->
  exists a, imported_stop E l count o a.
Proof.
  intros Hc Hl Hi Ho. set (g := gradient_doc count l). set (x := AsGradientFill (mkStyle no_ge (st f100)) g None).
  destruct (C42_imported E (mkStyle no_ge (st f100)) g None l eq_refl) as [d Hd].
  assert (Px : paints_gradient x g) by (left; unfold x; eauto).
  destruct (C42_static_stops E x g l d Px eq_refl Hd) as (out & Hout & Lo & _).
  change (gc_p (bg_g g)) with count in Lo.
  assert (count <= List.length l / 4)%nat by (apply Nat.div_le_lower_bound; lia).
  destruct (nth_error out i) as [s|] eqn:Hs; [|apply nth_error_None in Hs; lia].
  exists (ca (cs_color s)), x, g, d, out, i, s. auto 12.
Qed.
(** Colour stops at 0, 1/4 and 1; opacity 0 at 0 and 1 at 1. *)
Definition f_quarter : f64 := flit 1 4.
Definition fade : list f64 := [f0; f0; f0; f0; f_quarter; f0; f0; f0; f1; f0; f0; f0;   f0; f0; f1; f1].
Lemma f_quarter_R : B2R f_quarter = 1 / 4.
Proof.
  unfold f_quarter, flit. destruct (f_of_Z_R 1 ltac:(lia)) as [R1 F1]. destruct (f_of_Z_R 4 ltac:(lia)) as [R4 F4].
  destruct (fdiv_R (f_of_Z 1) (f_of_Z 4) F1) as [Ed _]; rewrite ?R1, ?R4; [lra|pose proof big_range; rewrite Rabs_pos_eq; lra|].
  rewrite Ed, R1, R4. replace (1 / 4) with (bpow radix2 (-2)) by (cbn; lra).
  unfold rnd. apply round_generic; [apply valid_rnd_N|]. apply generic_format_bpow. unfold FLT_exp, SpecFloat.fexp, SpecFloat.emin. lia.
Qed.
Lemma unit_0 : unit_number f0. Proof. split; [reflexivity|]. rewrite f0_R. lra. Qed.
Lemma unit_1 : unit_number f1. Proof. split; [reflexivity|]. rewrite f1_R. lra. Qed.
Lemma fade_sound : sound_opacities [(f0, f0); (f1, f1)].
Proof.
  split; [split|].
  - repeat (apply Forall_cons; [split; [apply moderate_small|]; vm_compute; reflexivity|]). apply Forall_nil.
  - intros i j p q L Hp Hq. destruct i as [|[|i]], j as [|[|j]]; try lia; cbn [nth_error] in Hp, Hq;
      try (destruct i; discriminate Hp); try (destruct j; discriminate Hq);
      injection Hp as <-; injection Hq as <-; vm_compute; reflexivity.
  - repeat apply Forall_cons; auto using unit_0, unit_1.
Qed.
Example C81_applies : forall E, solves E ->
  exists a, imported_stop E fade 3 f_quarter a /\ opacity_stops fade 3 = [(f0, f0); (f1, f1)] /\
    sound_opacities [(f0, f0); (f1, f1)] /\ blended (f0, f0) (f1, f1) f_quarter = 1 / 4 /\ Rabs (B2R a - 1 / 4) <= 1 / 10000.
Proof.
  intros E S. destruct (imported_fill E fade 3 1 f_quarter) as (a & Ha); try (cbn [fade List.length]; lia); [reflexivity|].
  exists a. split; [exact Ha|]. split; [reflexivity|]. split; [exact fade_sound|].
  assert (B : blended (f0, f0) (f1, f1) f_quarter = 1 / 4).
  { unfold blended. cbn [fst snd]. rewrite f0_R, f1_R, f_quarter_R. field. }
  split; [exact B|]. rewrite <- B.
  apply (C81_two_stops_partial E fade 3 f_quarter a _ _ S Ha eq_refl fade_sound); cbn [fst snd]; rewrite ?f0_R, ?f1_R, ?f_quarter_R; try lra.
  vm_compute. reflexivity.
Qed.
(** The full claim fails in two ways.  A third opacity stop: opacity 1, 0, 1 at
    0, 1/2, 1 gives a colour stop at 1/4 the opacity 0 instead of 1/2.  Near an
    end: opacity 0 at 0 and 1 at 1 gives a colour stop at 1/16 the opacity 0. *)
Definition dent : list f64 := [f0; f0; f0; f0; f_quarter; f0; f0; f0; f1; f0; f0; f0;   f0; f1; f_half; f0; f1; f1].
Definition f_16th : f64 := flit 1 16.
Definition fade_late : list f64 := [f0; f0; f0; f0; f_16th; f0; f0; f0; f1; f0; f0; f0;   f0; f0; f1; f1].
Lemma f_16th_R : B2R f_16th = 1 / 16.
Proof.
  unfold f_16th, flit. destruct (f_of_Z_R 1 ltac:(lia)) as [R1 F1]. destruct (f_of_Z_R 16 ltac:(lia)) as [R4 F4].
  destruct (fdiv_R (f_of_Z 1) (f_of_Z 16) F1) as [Ed _]; rewrite ?R1, ?R4; [lra|pose proof big_range; rewrite Rabs_pos_eq; lra|].
  rewrite Ed, R1, R4. replace (1 / 16) with (bpow radix2 (-4)) by (cbn; lra).
  unfold rnd. apply round_generic; [apply valid_rnd_N|]. apply generic_format_bpow. unfold FLT_exp, SpecFloat.fexp, SpecFloat.emin. lia.
Qed.
Lemma f_half_R : B2R f_half = 1 / 2.
Proof.
  unfold f_half, flit. destruct (f_of_Z_R 1 ltac:(lia)) as [R1 F1]. destruct (f_of_Z_R 2 ltac:(lia)) as [R4 F4].
  destruct (fdiv_R (f_of_Z 1) (f_of_Z 2) F1) as [Ed _]; rewrite ?R1, ?R4; [lra|pose proof big_range; rewrite Rabs_pos_eq; lra|].
  rewrite Ed, R1, R4. replace (1 / 2) with (bpow radix2 (-1)) by (cbn; lra).
  unfold rnd. apply round_generic; [apply valid_rnd_N|]. apply generic_format_bpow. unfold FLT_exp, SpecFloat.fexp, SpecFloat.emin. lia.
Qed.
Lemma dent_sound : sound_opacities [(f0, f1); (f_half, f0); (f1, f1)].
Proof.
  split; [exact dip_sane|]. repeat apply Forall_cons; auto using unit_0, unit_1.
Qed.
Theorem C81_refuted : forall E, solves E ->
  (exists l o a p q, imported_stop E l 3 o a /\ sound_opacities (opacity_stops l 3) /\
     nth_error (opacity_stops l 3) 0 = Some p /\ nth_error (opacity_stops l 3) 1 = Some q /\
     B2R (fst p) < B2R o < B2R (fst q) /\ blended p q o = 1 / 2 /\ B2R a <= 1 / 10000) /\
  (exists l o a p q, imported_stop E l 3 o a /\ opacity_stops l 3 = [p; q] /\ sound_opacities [p; q] /\
     B2R (fst p) < B2R o < B2R (fst q) /\ blended p q o = 1 / 16 /\ B2R a <= 1 / 10000).
Proof.
  intros E S. split.
  - destruct (imported_fill E dent 3 1 f_quarter) as (a & Ha); try (cbn [dent List.length]; lia); [reflexivity|].
    exists dent, f_quarter, a, (f0, f1), (f_half, f0). split; [exact Ha|].
    assert (So : sound_opacities (opacity_stops dent 3)) by exact dent_sound.
    split; [exact So|]. split; [reflexivity|]. split; [reflexivity|]. cbn [fst snd]. rewrite f0_R, f_half_R, f_quarter_R.
    split; [lra|]. split; [unfold blended; cbn [fst snd]; rewrite f0_R, f1_R, f_half_R, f_quarter_R; field|].
    destruct (C81_between_partial E dent 3 f_quarter a 0 (f0, f1) (f_half, f0) S Ha So eq_refl eq_refl) as (_ & _ & In & _);
      cbn [fst snd]; rewrite ?f0_R, ?f_half_R, ?f_quarter_R; try lra; [vm_compute; reflexivity|].
    specialize (In (f_half, f0)). cbn [snd] in In. rewrite f0_R in In. rewrite <- (Rplus_0_l (1 / 10000)). apply In.
    exists 1%nat. split; [vm_compute; lia|reflexivity].
  - destruct (imported_fill E fade_late 3 1 f_16th) as (a & Ha); try (cbn [fade_late List.length]; lia); [reflexivity|].
    exists fade_late, f_16th, a, (f0, f0), (f1, f1). split; [exact Ha|]. split; [reflexivity|]. split; [exact fade_sound|].
    cbn [fst snd]. rewrite f0_R, f1_R, f_16th_R.
    split; [lra|]. split; [unfold blended; cbn [fst snd]; rewrite f0_R, f1_R, f_16th_R; field|].
    destruct (C81_ends_partial E fade_late 3 f_16th a (f0, f0) (f1, f1) Ha eq_refl fade_sound) as [H _];
      cbn [fst snd] in *; rewrite ?f0_R, ?f1_R, ?f_16th_R in *; try lra; [vm_compute; reflexivity|].
    assert (K : Rabs (B2R a - 0) <= 1 / 10000) by (apply H; lra). apply Rabs_le_inv in K. lra.
Qed.
