(** C89: where the names of the layers are written. *)
From Coq Require Import ZArith Bool List String Lia Reals Lra.
From Flocq Require Import Core BinarySingleNaN.
From Verif Require Import F64 F64Facts Kurbo Value Animated Batch Render RenderSpec Picking Cursor PickSpec PropPick GeometrySpec PropGeometry PropStar PropEasing PropCamera PropCursor Examples.
Import ListNotations.
Close Scope string_scope.
Open Scope list_scope.
Open Scope R_scope.

(** ** Specification *)
(** Height of the letters of a name. *)
Definition letters (bright : bool) : R := if bright then 16 else 12.

Lemma small_Z z : (Z.abs z <= 100)%Z -> approx (f_of_Z z) (IZR z) 0.
Proof. intros B. destruct (f_of_Z_R z ltac:(lia)) as [R F]. now apply near_exact. Qed.
Lemma shown_bound T v p : modest 32 32768 T -> / 64 <= Rabs (area T) -> bounded_by 16384 p -> within (1 / 1000) (moved T v) p ->
  Rabs (fst v) <= 300000000 /\ Rabs (snd v) <= 300000000.
Proof.
  intros (_ & (Ba & Bb & Bc & Bd) & Be & Bf) A [Bx By] [Wx Wy]. unfold moved in Wx, Wy. cbn [fst snd] in Wx, Wy. destruct v as [vx vy], p as [x y]. cbn [fst snd] in *.
  set (a := B2R (aa T)) in *. set (b := B2R (ab T)) in *. set (c := B2R (ac T)) in *. set (d := B2R (ad T)) in *. set (e := B2R (ae T)) in *. set (f := B2R (af T)) in *.
  assert (U : Rabs (a * vx + c * vy) <= 50000).
  { apply Rabs_le. apply Rabs_le_inv in Wx, Bx, Be. lra. }
  assert (V : Rabs (b * vx + d * vy) <= 50000).
  { apply Rabs_le. apply Rabs_le_inv in Wy, By, Bf. lra. }
  assert (K : forall m n u v z, Rabs m <= 32 -> Rabs n <= 32 -> Rabs u <= 50000 -> Rabs v <= 50000 -> area T * z = m * u - n * v -> Rabs z <= 300000000).
  { intros m n u v z Hm Hn Hu Hv Eq.
    assert (P : Rabs (area T) * Rabs z <= 3200000).
    { rewrite <- Rabs_mult, Eq. apply Rle_trans with (1 := Rabs_triang _ _). rewrite Rabs_Ropp, !Rabs_mult.
      assert (Rabs m * Rabs u <= 32 * 50000) by (apply Rmult_le_compat; auto using Rabs_pos).
      assert (Rabs n * Rabs v <= 32 * 50000) by (apply Rmult_le_compat; auto using Rabs_pos). lra. }
    pose proof (Rabs_pos z). assert (/ 64 * Rabs z <= Rabs (area T) * Rabs z) by (apply Rmult_le_compat_r; assumption). lra. }
  split.
  - apply (K d c (a * vx + c * vy) (b * vx + d * vy)); auto. unfold area. fold a b c d. ring.
  - apply (K a b (b * vx + d * vy) (a * vx + c * vy)); auto. unfold area. fold a b c d. ring.
Qed.

(** The name of a layer is written into the upper left corner of its box: four
    to the right of the left edge, its base line by its height and two below
    the upper edge; that of the layer under the pointer also beside the
    pointer: sixteen to the right of the point shown there and eight above. *)
Theorem C89_labels : forall hits window resolution camera cursor ms tip,
  let T := on_window window resolution camera in
  modest 32 32768 T -> / 64 <= Rabs (area T) -> fin (px cursor) -> fin (py cursor) -> bounded_by 16384 (real_point cursor) ->
  overlay hits (Some cursor) (Some window) resolution camera = Ok (ms, tip) ->
  (forall m, In m ms -> box (mk_rect m) -> Rabs (B2R (rx0 (mk_rect m))) <= 1000000 -> Rabs (B2R (ry0 (mk_rect m))) <= 1000000 ->
     B2R (mk_size m) = letters (mk_bright m) /\
     within (1 / 1000) (real_point (mk_at m)) (B2R (rx0 (mk_rect m)) + 4, B2R (ry0 (mk_rect m)) + letters (mk_bright m) + 2)) /\
  (forall name at_, tip = Some (name, at_) ->
     exists v, within (1 / 1000) (moved T v) (real_point cursor) /\ within (1 / 1000) (real_point at_) (fst v + 16, snd v - 8)).
Proof.
  intros hits window resolution camera cursor ms tip T M A Fx Fy B R. unfold overlay in R.
  set (over := hovered hits (Some cursor) (Some window) resolution camera) in R. cbv beta iota zeta in R.
  destruct (tooltip hits over _) as [t| |] eqn:Tt; try discriminate R. cbn [bind] in R. injection R as <- <-. split.
  - intros m Hm Bm B0 B1. apply In_nth_error in Hm as [k Hk]. rewrite marks_nth in Hk. destruct (nth_error hits k) as [h|]; [|discriminate]. cbn [option_map] in Hk.
    set (br := match over with Some j => Nat.eqb j (0 + k) | None => false end) in Hk. assert (Em : m = mark_of br h) by congruence. clear Hk. subst m. clearbody br.
    unfold mark_of in *. cbn [mk_rect mk_bright mk_size mk_at] in *. destruct Bm as (F0 & G0 & _).
    set (size := if br then f_of_Z 16 else f_of_Z 12).
    assert (Sz : approx size (letters br) 0) by (unfold size, letters; destruct br; apply small_Z; lia).
    assert (SL : 12 <= letters br <= 16) by (unfold letters; destruct br; lra).
    split; [destruct Sz as [_ E]; apply Rabs_le_inv in E; lra|].
    assert (X : approx (fadd (rx0 (lh_rect h)) (f_of_Z 4)) (B2R (rx0 (lh_rect h)) + 4) (1 / 1000)).
    { eapply (near_add _ _ _ _ 0 0 1000100); [now apply near_exact|apply small_Z; lia| |lra|unfold u52; lra]. rewrite (Rabs_right 4) by lra. lra. }
    assert (Y : approx (fadd (ry0 (lh_rect h)) size) (B2R (ry0 (lh_rect h)) + letters br) (1 / 10000)).
    { eapply (near_add _ _ _ _ 0 0 1000100); [now apply near_exact|exact Sz| |lra|unfold u52; lra]. rewrite (Rabs_right (letters br)) by lra. lra. }
    assert (Z : approx (fadd (fadd (ry0 (lh_rect h)) size) (f_of_Z 2)) (B2R (ry0 (lh_rect h)) + letters br + 2) (1 / 1000)).
    { eapply (near_add _ _ _ _ (1 / 10000) 0 1000200); [exact Y|apply small_Z; lia| |lra|unfold u52; lra].
      rewrite (Rabs_right 2) by lra. pose proof (Rabs_triang (B2R (ry0 (lh_rect h))) (letters br)) as Tr. rewrite (Rabs_right (letters br)) in Tr by lra. lra. }
    split; [apply X|apply Z].
  - intros name at_ Et. unfold tooltip in Tt. destruct over as [i|]; [|congruence]. destruct (nth_error hits i) as [h|]; [|discriminate]. rewrite Et in Tt. apply (f_equal (fun r => match r with Ok (Some (_, p)) => p | _ => at_ end)) in Tt. cbv beta iota in Tt. subst at_.
    destruct (inverse_point T cursor M A Fx Fy B) as (FX & FY & W).
    change (cursor_to_scene cursor window resolution camera) with (affine_point (affine_inverse T) cursor). set (q := affine_point (affine_inverse T) cursor) in *.
    exists (real_point q). split; [exact W|]. destruct (shown_bound T _ _ M A B W) as [Bx By]. unfold real_point in Bx, By. cbn [fst snd] in Bx, By.
    assert (X : approx (fadd (px q) (f_of_Z 16)) (B2R (px q) + 16) (1 / 1000)).
    { eapply (near_add _ _ _ _ 0 0 300000100); [now apply near_exact|apply small_Z; lia| |lra|unfold u52; lra]. rewrite (Rabs_right 16) by lra. lra. }
    assert (Y : approx (fsub (py q) (f_of_Z 8)) (B2R (py q) - 8) (1 / 1000)).
    { eapply (approx_sub _ _ _ _ 0 0 300000100); [now apply near_exact|apply small_Z; lia| |lra|unfold u52; lra]. rewrite (Rabs_right 8) by lra. lra. }
    split; [apply X|apply Y].
Qed.

Example C89_labels_applies :
  let hits := [mkHit "l" (mkRect (f_of_Z 10) (f_of_Z 10) (f_of_Z 40) (f_of_Z 40)) 0] in
  exists m tip, overlay hits (Some (mkPoint (f_of_Z 20) (f_of_Z 25))) (Some (mkVec2 (f_of_Z 200) (f_of_Z 100))) (mkVec2 (f_of_Z 100) (f_of_Z 100))
    (affine_translate (f_of_Z 5) (f_of_Z 7)) = Ok ([m], Some tip) /\ mk_bright m = true /\ fst tip = "-> l"%string.
Proof.
  intros hits.
  assert (H : match overlay hits (Some (mkPoint (f_of_Z 20) (f_of_Z 25))) (Some (mkVec2 (f_of_Z 200) (f_of_Z 100))) (mkVec2 (f_of_Z 100) (f_of_Z 100))
    (affine_translate (f_of_Z 5) (f_of_Z 7)) with Ok ([m], Some tip) => mk_bright m && String.eqb (fst tip) "-> l" | _ => false end = true) by (vm_compute; reflexivity).
  destruct (overlay _ _ _ _ _) as [[[|m [|? ?]] [tip|]]| |]; try discriminate H. apply andb_prop in H as [H1 H2]. apply String.eqb_eq in H2. eauto.
Qed.
