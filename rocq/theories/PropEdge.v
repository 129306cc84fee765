(** C105: two opacity stops of a gradient at one offset. *)
From Coq Require Import ZArith Reals Bool List Arith String Lia Lra.
From Flocq Require Import Core BinarySingleNaN.
From Verif Require Import F64 F64Facts ValueSpec ValueFacts Kurbo GeometrySpec PropGeometry PropStar Value Animated Batch Render RenderSpec Examples Schema
  TimelineSpec Import ImportSpec ImportFacts DocExamples PropImport PropImport2 EasingSpec PropEasing PropAlpha PropCursor.
Import ListNotations.
Open Scope list_scope.
Open Scope R_scope.

(** Two opacity stops at one place. *)
Definition edge (p q : f64 * f64) : Prop := fin (fst p) /\ fin (fst q) /\ B2R (fst p) = B2R (fst q).

Lemma edge_alpha E p q x : edge p q -> segment_alpha E (fst p) (snd p) (fst q) (snd q) x = snd p.
Proof.
  intros (Fp & Fq & H). unfold segment_alpha, normalize_to_range.
  rewrite (proj2 (feqb_eq _ _ Fp Fq) H). cbv zeta.
  replace (tween_f64 E (snd p) (snd q) f0 easing_lerp) with (snd p) by reflexivity.
  replace (fleb (flit 3 4) f0) with false by (vm_compute; reflexivity). rewrite andb_false_r. cbn [andb].
  destruct (_ && _ && _ && _); reflexivity.
Qed.
(** When they are the only ones the first decides for every colour stop,
    wherever it is. *)
Theorem C105_first : forall E l count o a p q, imported_stop E l count o a ->
  opacity_stops l count = [p; q] -> edge p q -> unit_number (snd p) -> a = f64_to_f32 (snd p).
Proof.
  intros E l count o a p q I H Hpq [Fp Bp]. rewrite (imported_stop_alpha _ _ _ _ _ I), H, alpha_scan_eq. f_equal.
  cbn [segments map fold_left]. unfold seg_alpha. cbn [fst snd]. rewrite (edge_alpha E p q o Hpq).
  destruct (fmin_R f1 (snd p) eq_refl Fp) as [_ R]. destruct (fmin_cases f1 (snd p)) as [C|C]; [|exact C].
  rewrite C in R |- *. rewrite f1_R, Rmin_right in R by lra. apply B2R_inj; [reflexivity| |now rewrite f1_R].
  destruct (snd p) as [b|b| |b m e H']; try discriminate Fp; [|reflexivity]. cbn in R. lra.
Qed.

Lemma segments_pairs p q post : forall pre last, In (p, q) (segments last (pre ++ p :: q :: post)).
Proof.
  induction pre as [|r pre IH]; intros last.
  - cbn [app segments]. destruct last; cbn [In]; auto.
  - cbn [app segments]. destruct last; [right|]; apply IH.
Qed.
(** Wherever they are in the list, no colour stop gets more opacity than the
    first of the two, neither before nor behind the edge. *)
Theorem C105_caps : forall E l count o a pre p q post, imported_stop E l count o a ->
  opacity_stops l count = pre ++ p :: q :: post -> edge p q -> fin (snd p) ->
  exists z, a = f64_to_f32 z /\ fleb z (snd p) = true.
Proof.
  intros E l count o a pre p q post I H Hpq Fp. eexists. split; [exact (imported_stop_alpha _ _ _ _ _ I)|].
  rewrite H, alpha_scan_eq. apply fold_fmin_le; [reflexivity| |destruct (snd p); [reflexivity|reflexivity|discriminate|reflexivity]].
  apply in_map_iff. exists (p, q). split; [|apply segments_pairs]. unfold seg_alpha. cbn [fst snd]. now apply edge_alpha.
Qed.

Lemma segments_last (p : f64 * f64) : forall pre last, exists ss, forall x, segments last (pre ++ [p; x]) = ss ++ [(p, x)].
Proof.
  induction pre as [|r pre IH]; intros last.
  - exists (match last with Some y => [(y, p)] | None => [] end). intros x. cbn. destruct last; reflexivity.
  - destruct (IH (Some r)) as [ss Hs]. exists (match last with Some y => (y, r) :: ss | None => ss end).
    intros x. cbn [app segments]. rewrite Hs. destruct last; reflexivity.
Qed.
(** When the two are the last, the second has no say at all. *)
Theorem C105_second_unused : forall E l l' count o a a' pre p q q',
  imported_stop E l count o a -> imported_stop E l' count o a' ->
  opacity_stops l count = pre ++ [p; q] -> opacity_stops l' count = pre ++ [p; q'] -> edge p q -> edge p q' -> a = a'.
Proof.
  intros E l l' count o a a' pre p q q' I I' H H' Hq Hq'.
  rewrite (imported_stop_alpha _ _ _ _ _ I), (imported_stop_alpha _ _ _ _ _ I'), H, H', !alpha_scan_eq. f_equal.
  destruct (segments_last p pre None) as [ss Hs]. rewrite !Hs, !map_app, !fold_left_app. f_equal.
  cbn [map]. unfold seg_alpha. cbn [fst snd]. now rewrite !edge_alpha.
Qed.

(** Opacity 0 up to one half and 1 from there on: the colour stop at the end,
    behind the edge, is imported with opacity 0. *)
Definition hard_edge : list f64 := [f0; f1; f1; f1; f1; f1; f1; f1;   f_half; f0; f_half; f1].
Theorem C105_refuted : forall E, exists l count o a p q, imported_stop E l count o a /\
  opacity_stops l count = [p; q] /\ edge p q /\ B2R (fst q) < B2R o /\ B2R (snd q) = 1 /\ B2R a = 0.
Proof.
  intros E. destruct (imported_fill E hard_edge 2 1 f1) as (a & Ha); try (cbn [hard_edge List.length]; lia); [reflexivity|].
  exists hard_edge, 2%nat, f1, a, (f_half, f0), (f_half, f1). split; [exact Ha|]. split; [reflexivity|].
  assert (Ed : edge (f_half, f0) (f_half, f1)) by (split; [|split]; reflexivity).
  split; [exact Ed|]. cbn [fst snd]. rewrite f_half_R, f1_R. split; [lra|]. split; [reflexivity|].
  rewrite (C105_first E hard_edge 2 f1 a _ _ Ha eq_refl Ed); [vm_compute; reflexivity|].
  split; [reflexivity|]. cbn [snd]. rewrite f0_R. lra.
Qed.
(** The other two apply to the same edge behind another opacity stop. *)
Example C105_applies : forall E, exists l a, imported_stop E l 2 f1 a /\
  opacity_stops l 2 = [(f0, f1)] ++ [(f_half, f0); (f_half, f1)] /\ edge (f_half, f0) (f_half, f1) /\ fin (snd (f_half, f0)).
Proof.
  intros E. set (l := [f0; f1; f1; f1; f1; f1; f1; f1;   f0; f1; f_half; f0; f_half; f1]).
  destruct (imported_fill E l 2 1 f1) as (a & Ha); try (cbn [l List.length]; lia); [reflexivity|].
  exists l, a. split; [exact Ha|]. split; [reflexivity|]. split; [split; [|split]; reflexivity|reflexivity].
Qed.
