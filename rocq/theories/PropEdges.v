(** C105: what every colour stop gets, edges or not. *)
From Coq Require Import ZArith Reals Bool List Arith String Lia Lra.
From Flocq Require Import Core BinarySingleNaN.
From Verif Require Import F64 F64Facts ValueSpec ValueFacts Kurbo GeometrySpec PropGeometry PropStar Value Animated Batch Render RenderSpec Examples Schema
  TimelineSpec Import ImportSpec ImportFacts DocExamples PropImport PropImport2 EasingSpec PropEasing PropAlpha PropCursor PropEase PropEdge.
Import ListNotations.
Open Scope list_scope.
Open Scope R_scope.

Definition neighbours (ops : list (f64 * f64)) (p q : f64 * f64) : Prop :=
  exists j, nth_error ops j = Some p /\ nth_error ops (S j) = Some q.
(** Opacities from 0 to 1, at offsets that may repeat. *)
Definition weakly_sound (ops : list (f64 * f64)) : Prop :=
  Forall (fun p => moderate (fst p) /\ unit_number (snd p)) ops /\
  forall p q, neighbours ops p q -> B2R (fst p) <= B2R (fst q).
(** What two neighbouring opacity stops say about the offset [o]: the first's
    opacity at an edge and in front of them, the second's behind them, and the
    ramp of C81 in between. *)
Definition share (p q : f64 * f64) (o : f64) : R :=
  if Req_EM_T (B2R (fst p)) (B2R (fst q)) then B2R (snd p)
  else if Rle_dec (B2R o) (B2R (fst p)) then B2R (snd p)
  else if Rle_dec (B2R (fst q)) (B2R o) then B2R (snd q)
  else ramp p q o.

Lemma neighbours_seg ops p q : neighbours ops p q -> In (p, q) (segments None ops).
Proof.
  intros (j & Hp & Hq). destruct (nth_error_split ops j Hp) as (pre & post & -> & L).
  rewrite nth_error_app2 in Hq by lia. replace (S j - List.length pre)%nat with 1%nat in Hq by lia. cbn in Hq.
  destruct post as [|x post]; [discriminate|]. injection Hq as ->. apply segments_pairs.
Qed.
Lemma seg_neighbours ops p q : In (p, q) (segments None ops) -> neighbours ops p q.
Proof. intros H. apply In_nth_error in H as [j Hj]. apply segments_at in Hj. exists j. exact Hj. Qed.

Lemma share_value E p q o : solves E -> moderate (fst p) -> moderate (fst q) -> unit_number (snd p) -> unit_number (snd q) -> moderate o ->
  B2R (fst p) <= B2R (fst q) -> (B2R (fst p) < B2R o < B2R (fst q) -> off_corners p q o) ->
  let v := seg_alpha E o (p, q) in fin v /\ Rabs (B2R v - share p q o) <= / 100000 /\ 0 <= share p q o <= 1.
Proof.
  intros S Mp Mq Up Uq Mo Le Off v. unfold v, seg_alpha, share. cbn [fst snd].
  assert (Z : forall x : R, Rabs (x - x) <= / 100000) by (intros x; rewrite Rminus_eq_0, Rabs_R0; lra).
  destruct (Req_EM_T _ _) as [Q|N].
  { rewrite edge_alpha by (split; [apply Mp|split; [apply Mq|exact Q]]). split; [apply Up|]. split; [apply Z|apply Up]. }
  assert (L : B2R (fst p) < B2R (fst q)) by lra.
  assert (Lt : fltb (fst p) (fst q) = true) by (apply fltb_lt; auto; [apply Mp|apply Mq]).
  destruct (Rle_dec _ _) as [A|A].
  { rewrite seg_before by assumption. split; [apply Up|]. split; [apply Z|apply Up]. }
  destruct (Rle_dec _ _) as [B|B].
  { rewrite seg_after by assumption. split; [apply Uq|]. split; [apply Z|apply Uq]. }
  assert (H : B2R (fst p) <= B2R o < B2R (fst q)) by lra.
  destruct (segment_ramp E p q o S Mp Mq (proj1 Mo) H Up Uq (Off ltac:(lra))) as [Fv Ev].
  split; [exact Fv|]. split; [exact Ev|]. now apply ramp_range.
Qed.

(** Every colour stop is imported with the least of 1 and of what all
    neighbouring opacity stops say. *)
Theorem C105_exact : forall E l count o a, solves E -> imported_stop E l count o a ->
  let ops := opacity_stops l count in weakly_sound ops -> moderate o ->
  (forall p q, neighbours ops p q -> B2R (fst p) < B2R o < B2R (fst q) -> off_corners p q o) ->
  fin a /\
  (forall p q, neighbours ops p q -> B2R a <= share p q o + / 50000) /\
  (B2R a = 1 \/ exists p q, neighbours ops p q /\ Rabs (B2R a - share p q o) <= / 50000).
Proof.
  intros E l count o a S I ops [U W] Mo Off. rewrite (imported_stop_alpha _ _ _ _ _ I). fold ops. rewrite alpha_scan_eq.
  rewrite Forall_forall in U.
  assert (V : forall p q, neighbours ops p q -> let v := seg_alpha E o (p, q) in
            fin v /\ Rabs (B2R v - share p q o) <= / 100000 /\ 0 <= share p q o <= 1).
  { intros p q N. pose proof N as (j & Hp & Hq). apply share_value; auto.
    - apply U. eapply nth_error_In; eauto.
    - apply (U q). eapply nth_error_In; eauto.
    - apply U. eapply nth_error_In; eauto.
    - apply (U q). eapply nth_error_In; eauto. }
  set (vs := map (seg_alpha E o) (segments None ops)). set (z := fold_left fmin vs f1).
  assert (C : z = f1 \/ exists p q, neighbours ops p q /\ z = seg_alpha E o (p, q)).
  { destruct (fold_fmin_in vs f1) as [C|C]; [left; exact C|right]. fold z in C. unfold vs in C.
    apply in_map_iff in C as ([p q] & C & H). exists p, q. split; [now apply seg_neighbours|now symmetry]. }
  assert (Bz : fin z /\ - / 100000 <= B2R z <= 1 + / 100000).
  { destruct C as [->|(p & q & N & ->)]; [split; [reflexivity|rewrite f1_R; lra]|].
    destruct (V p q N) as (F & D & B). apply Rabs_le_inv in D. split; [exact F|lra]. }
  destruct Bz as [Fz Bz].
  destruct (f32_close z (B2R z) 0 Fz ltac:(apply Rabs_le; lra) ltac:(lra)) as [Ga Na]. { rewrite Rminus_eq_0, Rabs_R0. lra. }
  apply Rabs_le_inv in Na. split; [exact Ga|]. split.
  - intros p q N. destruct (V p q N) as (F & D & B). apply Rabs_le_inv in D.
    assert (Lz : B2R z <= B2R (seg_alpha E o (p, q))).
    { apply fleb_le; auto. unfold z. apply fold_fmin_le; [reflexivity| |].
      - unfold vs. apply in_map_iff. exists (p, q). split; [reflexivity|now apply neighbours_seg].
      - destruct (seg_alpha E o (p, q)); [reflexivity|reflexivity|discriminate F|reflexivity]. }
    lra.
  - destruct C as [C|(p & q & N & C)]; [left; rewrite C; exact f32_one|right]. exists p, q. split; [exact N|].
    destruct (V p q N) as (F & D & B). rewrite <- C in D. apply Rabs_le_inv in D. apply Rabs_le. lra.
Qed.
(** Opacity 1 at the beginning, an edge from 0 to 1 in the middle, 1 at the
    end: the colour stop at the end gets nothing of its own 1. *)
Definition edged : list f64 := [f0; f1; f1; f1; f1; f1; f1; f1;   f0; f1; f_half; f0; f_half; f1; f1; f1].
Lemma edged_sound : weakly_sound (opacity_stops edged 2).
Proof.
  change (opacity_stops edged 2) with [(f0, f1); (f_half, f0); (f_half, f1); (f1, f1)].
  assert (M : forall x : f64, fin x -> 0 <= B2R x <= 1 -> moderate x).
  { intros x F B. split; [exact F|]. rewrite Rabs_pos_eq by lra. apply Rle_trans with (bpow radix2 0); [simpl; lra|apply bpow_le; lia]. }
  assert (M0 : moderate f0) by (apply M; [reflexivity|rewrite f0_R; lra]).
  assert (M1 : moderate f1) by (apply M; [reflexivity|rewrite f1_R; lra]).
  assert (Mh : moderate f_half) by (apply M; [reflexivity|rewrite f_half_R; lra]).
  assert (U0 : unit_number f0) by (split; [reflexivity|rewrite f0_R; lra]).
  assert (U1 : unit_number f1) by (split; [reflexivity|rewrite f1_R; lra]).
  split; [repeat (apply Forall_cons; [cbn [fst snd]; split; assumption|]); apply Forall_nil|].
  intros p q (j & Hp & Hq). destruct j as [|[|[|[|j]]]]; cbn [nth_error] in Hp, Hq; try discriminate;
    injection Hp as <-; injection Hq as <-; cbn [fst]; rewrite ?f0_R, ?f1_R, ?f_half_R; lra.
Qed.
Example C105_exact_applies : forall E, solves E -> exists a, imported_stop E edged 2 f1 a /\ B2R a <= / 50000.
Proof.
  intros E S. destruct (imported_fill E edged 2 1 f1) as (a & Ha); try (cbn [edged List.length]; lia); [reflexivity|].
  exists a. split; [exact Ha|].
  assert (M1 : moderate f1).
  { split; [reflexivity|]. rewrite f1_R, Rabs_R1. apply Rle_trans with (bpow radix2 0); [simpl; lra|apply bpow_le; lia]. }
  destruct (C105_exact E edged 2 f1 a S Ha edged_sound M1) as (_ & Le & _).
  { intros p q (j & Hp & Hq) [_ H]. exfalso. destruct edged_sound as [U _]. rewrite f1_R in H.
    change (opacity_stops edged 2) with [(f0, f1); (f_half, f0); (f_half, f1); (f1, f1)] in Hq.
    destruct j as [|[|[|[|j]]]]; cbn [nth_error] in Hq; try discriminate; injection Hq as <-; cbn [fst] in H;
      rewrite ?f1_R, ?f_half_R in H; lra. }
  specialize (Le (f_half, f0) (f_half, f1) ltac:(exists 1%nat; split; reflexivity)).
  unfold share in Le. cbn [fst snd] in Le. destruct (Req_EM_T _ _) as [_|N]; [|now contradiction N]. rewrite f0_R in Le. lra.
Qed.
