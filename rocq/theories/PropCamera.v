(** C87: the view of the viewer follows the pointer, the wheel, the keys and
    the fingers, in real numbers. *)
From Coq Require Import ZArith Bool List Lia Reals Lra.
From Flocq Require Import Core BinarySingleNaN.
From Verif Require Import F64 F64Facts Kurbo Value Animated Stats Viewer PropStats PropTouch PropViewer GeometrySpec PropGeometry Examples.
Import ListNotations.
Close Scope string_scope.
Open Scope list_scope.
Open Scope R_scope.

(** ** Specification *)
(** Where the pointer was last, if it is in the window; whether the mouse button is held. *)
Definition pointer (es : list viewer_event) : option point :=
  fold_left (fun o e => match e with VeCursor p => Some p | VeCursorLeft => None | _ => o end) es None.
Definition held (es : list viewer_event) : bool := fold_left (fun b e => match e with VeMouse b' => b' | _ => b end) es false.
(** What a frame drawn after [es] shows, if it is of the same scene as the frame before. *)
Definition view (E : Ext) (atan2 : f64 -> f64 -> f64) (scenes start : Z) (es : list viewer_event) (s : shown) : Prop :=
  exists m v ss v', sane scenes start (es ++ [VeRedraw m]) /\ session E atan2 scenes start es = Ok (v, ss) /\
    session E atan2 scenes start (es ++ [VeRedraw m]) = Ok (v', ss ++ [s]) /\
    last (map (fun s => Some (sh_scene s)) ss) None = Some (sh_scene s).
(** Moved, enlarged about [c], turned about [c] (radians, from the first axis towards the second). *)
Definition shifted (d v : vec) : vec := vplus v d.
Definition enlarged (k : R) (c v : vec) : vec := vplus c (k * (fst v - fst c), k * (snd v - snd c)).
Definition spun (t : R) (c v : vec) : vec :=
  let x := fst v - fst c in let y := snd v - snd c in vplus c (x * cos t - y * sin t, x * sin t + y * cos t).
(** The second frame shows every point of the scene where [f] takes its place in the first, to a thousandth of a pixel. *)
Definition follows (s s' : shown) (f : vec -> vec) : Prop :=
  finite_map (sh_transform s') /\
  forall v, bounded_by 8192 v -> within (1 / 1000) (moved (sh_transform s') v) (f (moved (sh_transform s) v)).
(** A view of ordinary size; a point on the screen. *)
Definition usual (s : shown) : Prop := let m := sh_transform s in finite_map m /\
  (Rabs (B2R (aa m)) <= 64 /\ Rabs (B2R (ab m)) <= 64 /\ Rabs (B2R (ac m)) <= 64 /\ Rabs (B2R (ad m)) <= 64) /\
  Rabs (B2R (ae m)) <= 65536 /\ Rabs (B2R (af m)) <= 65536.
Definition screen (p : point) : Prop := fin (px p) /\ fin (py p) /\ bounded_by 8192 (real_point p).
(** Powers of 1.05 to 10^-12. *)
Definition powers (E : Ext) : Prop := forall x, fin x -> Rabs (B2R x) <= 100 ->
  approx (x_powf E (flit 105 100) x) (Rpower (105 / 100) (B2R x)) (/ 1000000000000).

(** ** The camera *)
Lemma ok_same {A} (a b : A) : Ok a = Ok b -> a = b.
Proof. intros H. now inversion H. Qed.
Section Camera.
Context (E : Ext) (atan2 : f64 -> f64 -> f64) (scenes start : Z).
Notation session := (session E atan2 scenes start).
Notation view := (view E atan2 scenes start).
Lemma view_camera es s : view es s -> exists v ss, session es = Ok (v, ss) /\ sh_transform s = vw_transform v.
Proof.
  intros (m & v & ss & v' & S & R & R' & L). exists v, ss. split; [exact R|].
  destruct (C74_shown E atan2 scenes start es m S) as (v1 & ss1 & v1' & s1 & R1 & R1' & _ & _ & _ & T).
  rewrite R in R1. apply ok_same in R1. assert (v1 = v /\ ss1 = ss) as [-> ->] by (split; congruence).
  rewrite R' in R1'. apply ok_same in R1'. assert (A : ss ++ [s] = ss ++ [s1]) by congruence. apply app_inj_tail in A as [_ <-].
  rewrite (T _ L), Z.eqb_refl. reflexivity.
Qed.
Lemma pointer_inv : forall es v ss, session es = Ok (v, ss) -> vw_prior v = pointer es /\ vw_mouse v = held es.
Proof.
  intros es. induction es as [|e es IH] using rev_ind; intros v ss R.
  - unfold PropViewer.session, viewer_new in R. destruct (_ <? _)%Z; [discriminate|]. cbn [bind viewer_run] in R. apply ok_same in R.
    apply (f_equal fst) in R. cbn [fst] in R. subst v. split; reflexivity.
  - rewrite session_snoc in R. destruct (session es) as [[v0 ss0]| |] eqn:R0; cbn [bind] in R; try discriminate.
    destruct (IH v0 ss0 eq_refl) as [Hp Hm]. unfold pointer, held. rewrite !fold_left_app. cbn [fold_left]. fold (pointer es) (held es). rewrite <- Hp, <- Hm.
    assert (X : forall v' o, viewer_step E atan2 scenes v0 e = Ok (v', o) -> v' = v -> vw_prior v = match e with VeCursor p => Some p | VeCursorLeft => None | _ => vw_prior v0 end /\
      vw_mouse v = match e with VeMouse b => b | _ => vw_mouse v0 end).
    { clear. intros v' o R <-. destruct e as [|b|k|w h t|b|x| |p|m| |]; cbn [viewer_step bind on_key] in R.
      - apply ok_same, (f_equal fst) in R. cbn [fst] in R. subst v'. split; reflexivity.
      - apply ok_same, (f_equal fst) in R. cbn [fst] in R. subst v'. split; reflexivity.
      - destruct (on_key E v0 k) as [v1| |] eqn:K; cbn [bind] in R; try discriminate. apply ok_same, (f_equal fst) in R. cbn [fst] in R. subst v1.
        destruct k; cbn [on_key] in K; try (apply ok_same in K; subst v'; split; reflexivity).
        + destruct (u64_add _ _); cbn [bind] in K; try discriminate. apply ok_same in K. subst v'. split; reflexivity.
        + destruct (vw_prior v0) eqn:P; apply ok_same in K; subst v'; cbn; auto.
      - apply ok_same, (f_equal fst) in R. cbn [fst] in R. subst v'. unfold on_touch. destruct (match te_phase t with Started => _ | _ => _ end); [|split; reflexivity].
        destruct (fltb _ _); [split; reflexivity|]. destruct (fltb _ _); split; reflexivity.
      - apply ok_same, (f_equal fst) in R. cbn [fst] in R. subst v'. split; reflexivity.
      - apply ok_same, (f_equal fst) in R. cbn [fst] in R. subst v'. unfold on_wheel. destruct (vw_prior v0) eqn:P; cbn; auto.
      - apply ok_same, (f_equal fst) in R. cbn [fst] in R. subst v'. split; reflexivity.
      - apply ok_same, (f_equal fst) in R. cbn [fst] in R. subst v'. split; reflexivity.
      - destruct (on_redraw scenes v0 m) as [[v1 s]| |] eqn:K; cbn [bind] in R; try discriminate. apply ok_same, (f_equal fst) in R. cbn [fst] in R. subst v1.
        unfold on_redraw in K. destruct (rem_i32 _ _); cbn [bind] in K; try discriminate. destruct (rem_i32 _ _); cbn [bind] in K; try discriminate.
        destruct (if _ && _ then _ else _); cbn [bind] in K; try discriminate. destruct (if _ && _ then _ else _); cbn [bind] in K; try discriminate.
        destruct (add_sample _ _); cbn [bind] in K; try discriminate. apply ok_same, (f_equal fst) in K. cbn [fst] in K. subst v'. split; reflexivity.
      - apply ok_same, (f_equal fst) in R. cbn [fst] in R. subst v'. unfold on_wait. destruct (info _); split; reflexivity.
      - apply ok_same, (f_equal fst) in R. cbn [fst] in R. subst v'. split; reflexivity. }
    destruct (viewer_step E atan2 scenes v0 e) as [[v' o]| |] eqn:St; cbn [bind] in R; try discriminate.
    apply ok_same, (f_equal fst) in R. cbn [fst] in R. apply (X v' o eq_refl R).
Qed.
(** Two views, and the step between them. *)
Lemma view_step es e s s' : view es s -> view (es ++ [e]) s' -> exists v ss v' o, session es = Ok (v, ss) /\ viewer_step E atan2 scenes v e = Ok (v', o) /\
  sh_transform s = vw_transform v /\ sh_transform s' = vw_transform v' /\ vw_prior v = pointer es /\ vw_mouse v = held es.
Proof.
  intros V V'. destruct (view_camera _ _ V) as (v & ss & R & T). destruct (view_camera _ _ V') as (v' & ss' & R' & T').
  rewrite session_snoc, R in R'. cbn [bind] in R'. destruct (viewer_step E atan2 scenes v e) as [[v1 o]| |] eqn:St; cbn [bind] in R'; try discriminate.
  apply ok_same, (f_equal fst) in R'. cbn [fst] in R'. subst v1. exists v, ss, v', o. destruct (pointer_inv es v ss R). repeat split; auto.
Qed.

(** ** Composition *)
Definition rself (m : affine) : rmat := mkRmat (B2R (aa m)) (B2R (ab m)) (B2R (ac m)) (B2R (ad m)) (B2R (ae m)) (B2R (af m)).
Lemma like_self s : usual s -> like (sh_transform s) (rself (sh_transform s)) 64 0 65536 0.
Proof.
  intros ((F1 & F2 & F3 & F4 & F5 & F6) & (B1 & B2 & B3 & B4) & B5 & B6). constructor; cbn [rself ra rb rc rd re rf]; auto using near_exact.
Qed.
Lemma rself_moved m v : rapply (rself m) v = moved m v.
Proof. reflexivity. Qed.
Lemma like_follows m r b c e f s s' g : like m r b e c f -> e <= / 100000000 -> f <= / 2000 -> sh_transform s' = m -> (forall v, rapply r v = g (moved (sh_transform s) v)) -> follows s s' g.
Proof.
  intros [[FA A'] [FB B'] [FC C'] [FD D'] [FX X'] [FY Y'] _ _ _ _ _ _] He Hf Es Er. unfold follows. rewrite Es. split; [repeat split; assumption|].
  intros v [Bv1 Bv2]. rewrite <- Er. unfold within, moved, rapply. cbn [fst snd].
  assert (G : forall a a' c c' d d', Rabs (a - a') <= e -> Rabs (c - c') <= e -> Rabs (d - d') <= f ->
    Rabs (a * fst v + c * snd v + d - (a' * fst v + c' * snd v + d')) <= 1 / 1000).
  { intros a a' c0 c' d d' H1 H2 H3.
    replace (a * fst v + c0 * snd v + d - (a' * fst v + c' * snd v + d')) with ((a - a') * fst v + (c0 - c') * snd v + (d - d')) by ring.
    apply Rle_trans with (1 := Rabs_triang _ _).
    apply Rle_trans with (1 := Rplus_le_compat_r _ _ _ (Rabs_triang _ _)). rewrite !Rabs_mult.
    assert (Rabs (a - a') * Rabs (fst v) <= / 100000000 * 8192) by (apply Rmult_le_compat; auto using Rabs_pos; lra).
    assert (Rabs (c0 - c') * Rabs (snd v) <= / 100000000 * 8192) by (apply Rmult_le_compat; auto using Rabs_pos; lra). lra. }
  split; apply G; assumption.
Qed.
Lemma like_shift x y dx dy e : approx x dx e -> approx y dy e -> Rabs dx <= 16384 -> Rabs dy <= 16384 -> like (affine_translate x y) (rtrans (dx, dy)) 1 0 16384 e.
Proof.
  intros. constructor; cbn [affine_translate aa ab ac ad ae af rtrans ra rb rc rd re rf fst snd]; auto; try (apply n0; lra); try (apply n1; lra); try (apply a0; lra); apply a1; lra.
Qed.
Lemma like_zoom z k e b : approx z k e -> Rabs k <= b -> 0 <= e -> like (affine_scale z z) (mkRmat k 0 0 k 0 0) b e 0 0.
Proof.
  intros Hz Hk. pose proof (Rabs_pos k). constructor; cbn [affine_scale aa ab ac ad ae af ra rb rc rd re rf]; auto; try (apply n0; lra); try (apply a0; lra).
Qed.
Lemma like_screen p : screen p -> like (affine_translate (px p) (py p)) (rtrans (real_point p)) 1 0 8192 0 /\
  like (affine_translate (fneg (px p)) (fneg (py p))) (rtrans (- B2R (px p), - B2R (py p))) 1 0 8192 0.
Proof.
  intros (Fx & Fy & Bx & By). split; [now apply like_trans|].
  rewrite <- (B2R_Bopp 53 1024), <- (B2R_Bopp 53 1024). apply like_trans; unfold fneg; rewrite ?is_finite_Bopp, ?B2R_Bopp, ?Rabs_Ropp; auto.
Qed.

(** ** Theorems *)
(** Dragging: the picture moves as the pointer does. *)
Theorem C87_drag : forall es p q s s', view es s -> view (es ++ [VeCursor q]) s' -> usual s -> pointer es = Some p -> held es = true -> screen p -> screen q ->
  follows s s' (shifted (vminus (real_point q) (real_point p))).
Proof.
  intros es p q s s' V V' U P H Sp Sq. destruct (view_step _ _ _ _ V V') as (v & ss & v' & o & R & St & T & T' & Hp & Hm).
  cbn [viewer_step] in St. apply ok_same, (f_equal fst) in St. cbn [fst] in St. subst v'. unfold on_cursor in T'. rewrite Hp, P, Hm, H in T'. cbn in T'. rewrite <- T in T'.
  pose proof (like_self s U) as Lc. destruct Sp as (Fpx & Fpy & Bpx & Bpy), Sq as (Fqx & Fqy & Bqx & Bqy). cbn [real_point fst snd] in *.
  assert (D : forall x y, fin x -> fin y -> Rabs (B2R x) <= 8192 -> Rabs (B2R y) <= 8192 -> approx (fsub y x) (B2R y - B2R x) (/ 100000000000) /\ Rabs (B2R y - B2R x) <= 16384).
  { intros x y Fx Fy Bx By. assert (B : Rabs (B2R y - B2R x) <= 16384) by (apply Rabs_le; apply Rabs_le_inv in Bx, By; lra). split; [|exact B].
    destruct (fsub_R y x Fy Fx) as [Eq F]; [pose proof big_range; lra|]. split; [exact F|]. rewrite Eq. apply Rle_trans with (1 := rnd_error _). unfold u52. lra. }
  destruct (D _ _ Fpx Fqx Bpx Bqx) as [Dx Bx]. destruct (D _ _ Fpy Fqy Bpy Bqy) as [Dy By].
  pose proof (like_shift _ _ _ _ _ Dx Dy Bx By) as Lt.
  multiply M Lt Lc (/ 1000000000) (/ 10000).
  eapply like_follows; [exact M|lra|lra|exact T'|]. intros w. rewrite rapply_mul, rself_moved.
  unfold rapply, rtrans, shifted, vplus, vminus, real_point. cbn [ra rb rc rd re rf fst snd]. f_equal; ring.
Qed.
(** The wheel: the picture grows by 5 percent a line about the pointer. *)
Theorem C87_wheel : forall es p x s s', powers E -> view es s -> view (es ++ [VeWheel x]) s' -> usual s -> pointer es = Some p -> screen p ->
  fin x -> Rabs (B2R x) <= 100 -> Rpower (105 / 100) (B2R x) <= 16 ->
  follows s s' (enlarged (Rpower (105 / 100) (B2R x)) (real_point p)).
Proof.
  intros es p x s s' Pw V V' U P Sp Fx Bx Bz. destruct (view_step _ _ _ _ V V') as (v & ss & v' & o & R & St & T & T' & Hp & Hm).
  cbn [viewer_step] in St. apply ok_same, (f_equal fst) in St. cbn [fst] in St. subst v'. unfold on_wheel in T'. rewrite Hp, P in T'. cbn [set_transform vw_transform] in T'. rewrite <- T in T'.
  pose proof (like_self s U) as Lc. destruct (like_screen p Sp) as [L1 L2]. specialize (Pw x Fx Bx). set (k := Rpower _ _) in *.
  assert (Pk : 0 < k) by apply exp_pos.
  pose proof (like_zoom _ _ _ 16 Pw ltac:(rewrite Rabs_pos_eq; lra) ltac:(lra)) as Lz. unfold about in T'.
  multiply M1 L1 Lz (/ 400000000000) (/ 400000000000).
  multiply M2 M1 L2 (/ 190000000000) (/ 1000000).
  multiply M3 M2 Lc (/ 1000000000) (/ 100000).
  eapply like_follows; [exact M3|lra|lra|exact T'|]. intros w. rewrite !rapply_mul, rself_moved.
  unfold rapply, rtrans, enlarged, vplus, real_point. cbn [ra rb rc rd re rf fst snd]. f_equal; ring.
Qed.
(** Q and E: the picture turns by a twentieth of a radian about the pointer. *)
Lemma twentieth : approx (flit 1 20) (1 / 20) (/ 2251799813685248).
Proof.
  destruct (f_of_Z_R 1 ltac:(lia)) as [R1 F1]. destruct (f_of_Z_R 20 ltac:(lia)) as [R2 F2].
  unfold flit. destruct (fdiv_R (f_of_Z 1) (f_of_Z 20) F1) as [Eq F]; rewrite ?R1, ?R2; [lra|rewrite Rabs_pos_eq by lra; pose proof big_range; lra|].
  split; [exact F|]. rewrite Eq, R1, R2. pose proof (rnd_error (1 / 20)) as H. rewrite (Rabs_pos_eq (1 / 20)) in H by lra.
  apply Rle_trans with (1 := H). unfold u52. lra.
Qed.
Theorem C87_turn : forall es p clockwise s s', accurate E -> view es s -> view (es ++ [VeKey (KRotate clockwise)]) s' -> usual s -> pointer es = Some p -> screen p ->
  follows s s' (spun (if clockwise then - (1 / 20) else 1 / 20) (real_point p)).
Proof.
  intros es p cw s s' A V V' U P Sp. destruct (view_step _ _ _ _ V V') as (v & ss & v' & o & R & St & T & T' & Hp & Hm).
  cbn [viewer_step on_key] in St. rewrite Hp, P in St. cbn [bind] in St. apply ok_same, (f_equal fst) in St. cbn [fst] in St. subst v'.
  cbn [set_transform vw_transform] in T'. rewrite <- T in T'.
  pose proof (like_self s U) as Lc. destruct (like_screen p Sp) as [L1 L2].
  assert (Az : approx (if cw then fneg (flit 1 20) else flit 1 20) (if cw then - (1 / 20) else 1 / 20) (/ 4398046511104)).
  { pose proof twentieth as H. destruct cw; [apply near_neg|]; (eapply near_weaken; [exact H|lra]). }
  set (t := if cw then - (1 / 20) else 1 / 20) in *. set (z := if cw then _ else _) in *.
  assert (Bt : Rabs t <= 900) by (unfold t; destruct cw; apply Rabs_le; lra).
  pose proof (like_rot E z t A Az Bt) as Lr. unfold about in T'.
  multiply M1 L1 Lr (/ 900000000000) (/ 400000000000).
  multiply M2 M1 L2 (/ 400000000000) (/ 1000000).
  multiply M3 M2 Lc (/ 1000000000) (/ 100000).
  eapply like_follows; [exact M3|lra|lra|exact T'|]. intros w. rewrite !rapply_mul, rself_moved.
  unfold rapply, rtrans, rrot, spun, vplus, real_point. cbn [ra rb rc rd re rf fst snd]. f_equal; ring.
Qed.
(** Fingers: the picture is enlarged and turned about the centre of the gesture, and moved along. *)
Theorem C87_gesture : forall es s s' i, accurate E -> view es s -> view (es ++ [VeWait]) s' -> usual s ->
  (exists v ss, session (es ++ [VeWait]) = Ok (v, ss) /\ info (vw_touch v) = Some i) ->
  let c := mi_centre i in let d := mi_translation i in
  screen c -> screen (mkPoint (vx d) (vy d)) -> fin (mi_zoom i) -> 0 <= B2R (mi_zoom i) <= 4 -> fin (mi_rotation i) -> Rabs (B2R (mi_rotation i)) <= 900 ->
  follows s s' (fun v => shifted (real_vec2 d) (enlarged (B2R (mi_zoom i)) (real_point c) (spun (B2R (mi_rotation i)) (real_point c) v))).
Proof.
  intros es s s' i A V V' U (v1 & ss1 & R1 & I) c d Sc Sd Fz Bz Fr Br. destruct (view_step _ _ _ _ V V') as (v & ss & v' & o & R & St & T & T' & _).
  rewrite session_snoc, R in R1. cbn [bind] in R1. rewrite St in R1. cbn [bind] in R1. apply ok_same, (f_equal fst) in R1. cbn [fst] in R1. subst v1.
  cbn [viewer_step] in St. apply ok_same, (f_equal fst) in St. cbn [fst] in St. subst v'. unfold on_wait in I, T'. cbv zeta in I, T'.
  destruct (info (end_frame E atan2 (vw_touch v))) as [j|] eqn:J; [|cbn in I; rewrite J in I; discriminate].
  cbn [set_transform set_touch vw_touch vw_transform] in I, T'. rewrite J in I. assert (i = j) as <- by congruence. clear I J. rewrite <- T in T'.
  pose proof (like_self s U) as Lc. destruct (like_screen c Sc) as [L1 L2]. fold c d in T'. destruct (like_screen _ Sd) as [L0 _]. cbn [px py] in L0.
  assert (Lz := like_zoom _ _ 0 4 (near_exact _ _ Fz eq_refl) ltac:(rewrite Rabs_pos_eq; lra) ltac:(lra)).
  assert (Lr := like_rot E _ _ A (near_weaken _ _ 0 (/ 4398046511104) (near_exact _ _ Fr eq_refl) ltac:(lra)) Br).
  multiply M0 L0 L1 (/ 100000000000000) (/ 10000000000).
  multiply M1 M0 Lz (/ 5000000000000) (/ 9000000000).
  multiply M2 M1 Lr (/ 45000000000) (/ 8000000000).
  multiply M3 M2 L2 (/ 22000000000) (/ 2000000).
  multiply M4 M3 Lc (/ 100000000) (/ 10000).
  eapply like_follows; [exact M4|lra|lra|exact T'|]. intros w. rewrite !rapply_mul, rself_moved.
  unfold rapply, rtrans, rrot, spun, enlarged, shifted, vplus, real_point, real_vec2. cbn [ra rb rc rd re rf fst snd px py]. f_equal; ring.
Qed.
(** Everything else leaves the view alone; the space bar resets it. *)
Theorem C87_still : forall es e s s', view es s -> view (es ++ [e]) s' ->
  match e with
  | VeCursor _ => pointer es = None \/ held es = false
  | VeWheel _ | VeKey (KRotate _) => pointer es = None
  | VeWait => forall v ss, session (es ++ [VeWait]) = Ok (v, ss) -> info (vw_touch v) = None
  | VeKey KSpace => False
  | _ => True
  end -> sh_transform s' = sh_transform s.
Proof.
  intros es e s s' V V' H. pose proof V as W. destruct (view_step _ _ _ _ V V') as (v & ss & v' & o & R & St & T & T' & Hp & Hm).
  rewrite T, T'. destruct e as [|b|k|w h t|b|x| |p|m| |]; cbn [viewer_step bind on_key] in St.
  - apply ok_same, (f_equal fst) in St. cbn [fst] in St. subst v'. reflexivity.
  - apply ok_same, (f_equal fst) in St. cbn [fst] in St. subst v'. reflexivity.
  - destruct (on_key E v k) as [v1| |] eqn:K; cbn [bind] in St; try discriminate. apply ok_same, (f_equal fst) in St. cbn [fst] in St. subst v1.
    destruct k; cbn [on_key] in K; try contradiction; try (apply ok_same in K; subst v'; reflexivity).
    + destruct (u64_add _ _); cbn [bind] in K; try discriminate. apply ok_same in K. subst v'. reflexivity.
    + rewrite Hp, H in K. apply ok_same in K. now subst v'.
  - apply ok_same, (f_equal fst) in St. cbn [fst] in St. subst v'. unfold on_touch. destruct (match te_phase t with Started => _ | _ => _ end); [|reflexivity].
    destruct (fltb _ _); [reflexivity|]. destruct (fltb _ _); reflexivity.
  - apply ok_same, (f_equal fst) in St. cbn [fst] in St. subst v'. reflexivity.
  - apply ok_same, (f_equal fst) in St. cbn [fst] in St. subst v'. unfold on_wheel. now rewrite Hp, H.
  - apply ok_same, (f_equal fst) in St. cbn [fst] in St. subst v'. reflexivity.
  - apply ok_same, (f_equal fst) in St. cbn [fst] in St. subst v'. unfold on_cursor. rewrite Hp, Hm. destruct H as [->| ->]; [reflexivity|]. destruct (pointer es); reflexivity.
  - destruct W as (m1 & v1 & ss1 & v1' & _ & R1 & R1' & _). rewrite session_snoc in R1'. rewrite R in R1. apply ok_same in R1.
    assert (v1 = v /\ ss1 = ss) as [-> ->] by (split; congruence). rewrite R in R1'. cbn [bind viewer_step] in R1'.
    destruct (on_redraw scenes v m) as [[v2 s2]| |] eqn:K; cbn [bind] in St; try discriminate. apply ok_same, (f_equal fst) in St. cbn [fst] in St. subst v2.
    destruct (on_redraw scenes v m1) as [[v3 s3]| |] eqn:K1; cbn [bind] in R1'; try discriminate. apply ok_same, (f_equal snd) in R1'. cbn [snd] in R1'. apply app_inj_tail in R1' as [_ ->].
    rewrite <- T. unfold on_redraw in K, K1. destruct (rem_i32 _ _); cbn [bind] in K, K1; try discriminate. destruct (rem_i32 _ _); cbn [bind] in K, K1; try discriminate.
    destruct (if _ && _ then _ else _); cbn [bind] in K, K1; try discriminate. destruct (if _ && _ then _ else _); cbn [bind] in K, K1; try discriminate.
    destruct (add_sample _ _); cbn [bind] in K; try discriminate. destruct (add_sample _ _); cbn [bind] in K1; try discriminate.
    apply ok_same, (f_equal fst) in K. apply ok_same, (f_equal snd) in K1. cbn [fst snd] in K, K1. subst v' s. reflexivity.
  - specialize (H v' ss). rewrite session_snoc, R in H. cbn [bind viewer_step] in H. apply ok_same, (f_equal fst) in St. cbn [fst] in St. subst v'.
    rewrite app_nil_r in H. specialize (H eq_refl). unfold on_wait in H |- *. cbv zeta in H |- *. destruct (info (end_frame E atan2 (vw_touch v))) eqn:J; [|reflexivity].
    cbn [set_transform set_touch vw_touch] in H. rewrite J in H. discriminate.
  - apply ok_same, (f_equal fst) in St. cbn [fst] in St. subst v'. reflexivity.
Qed.
Theorem C87_reset : forall es s s', view es s -> view (es ++ [VeKey KSpace]) s' -> sh_transform s' = affine_identity.
Proof.
  intros es s s' V V'. destruct (view_step _ _ _ _ V V') as (v & ss & v' & o & R & St & T & T' & _). rewrite T'.
  cbn [viewer_step on_key bind] in St. apply ok_same, (f_equal fst) in St. cbn [fst] in St. now subst v'.
Qed.
End Camera.
Lemma view_exists E atan2 scenes start es m : sane scenes start (es ++ [VeRedraw m]) ->
  match session E atan2 scenes start es with Ok (_, ss) => last (map (fun s => Some (sh_scene s)) ss) None | _ => None end = Some ((start + steps es) mod scenes)%Z ->
  exists s, view E atan2 scenes start es s.
Proof.
  intros S L. destruct (C74_shown E atan2 scenes start es m S) as (v & ss & v' & s & R & R' & Es & _). rewrite R in L. exists s, m, v, ss, v'.
  rewrite Es. auto.
Qed.
Lemma view_frame E atan2 scenes start es s : view E atan2 scenes start es s ->
  sh_transform s = match session E atan2 scenes start es with Ok (v, _) => vw_transform v | _ => affine_identity end.
Proof. intros V. destruct (view_camera _ _ _ _ _ _ V) as (v & ss & R & T). now rewrite R. Qed.
(** A frame, then the pointer at (100, 100) with the button held, then at (150, 120). *)
Definition at_z (x y : Z) : point := mkPoint (f_of_Z x) (f_of_Z y).
Definition grab : list viewer_event := [VeRedraw 16000; VeCursor (at_z 100 100); VeMouse true].
Lemma screen_z x y : (Z.abs x <= 8192)%Z -> (Z.abs y <= 8192)%Z -> screen (at_z x y).
Proof.
  intros Hx Hy. unfold screen, at_z, bounded_by, real_point. cbn [px py fst snd]. destruct (f_of_Z_R x ltac:(lia)) as [-> Fx]. destruct (f_of_Z_R y ltac:(lia)) as [-> Fy].
  rewrite <- !abs_IZR. repeat split; auto; now apply IZR_le.
Qed.
Lemma usual_identity s : sh_transform s = affine_identity -> usual s.
Proof.
  unfold usual. intros ->. cbn [affine_identity aa ab ac ad ae af]. rewrite f0_R, f1_R, Rabs_R0, Rabs_R1. repeat split; try reflexivity; lra.
Qed.
Example C87_applies : forall E atan2, exists s s', view E atan2 1 0 grab s /\ view E atan2 1 0 (grab ++ [VeCursor (at_z 150 120)]) s' /\ usual s /\
  pointer grab = Some (at_z 100 100) /\ held grab = true /\ screen (at_z 100 100) /\ screen (at_z 150 120) /\
  moved (sh_transform s) (7, 8) = (7, 8).
Proof.
  intros E atan2.
  destruct (view_exists E atan2 1 0 grab 16000) as [s V].
  { split; [lia|]. split; [cbn; lia|]. intros m [H|[H|[H|[H|[]]]]]; try discriminate; injection H as <-; lia. }
  { vm_compute. reflexivity. }
  destruct (view_exists E atan2 1 0 (grab ++ [VeCursor (at_z 150 120)]) 16000) as [s' V'].
  { split; [lia|]. split; [cbn; lia|]. intros m [H|[H|[H|[H|[H|[]]]]]]; try discriminate; injection H as <-; lia. }
  { vm_compute. reflexivity. }
  assert (I : sh_transform s = affine_identity) by (rewrite (view_frame _ _ _ _ _ _ V); reflexivity).
  exists s, s'. split; [exact V|]. split; [exact V'|]. split; [now apply usual_identity|]. split; [reflexivity|]. split; [reflexivity|].
  split; [apply screen_z; lia|]. split; [apply screen_z; lia|]. rewrite I. unfold moved. cbn [affine_identity aa ab ac ad ae af fst snd]. rewrite f0_R, f1_R. f_equal; ring.
Qed.
(** A library with good powers of 1.05. *)
Definition round45 (r : R) : f64 := fnorm (ZnearestE (r * bpow radix2 45)) (-45).
Lemma round45_near r : Rabs r <= 256 -> approx (round45 r) r (/ 1000000000000).
Proof.
  intros B. unfold round45. set (z := ZnearestE (r * bpow radix2 45)).
  pose proof (Znearest_half (fun x => negb (Z.even x)) (r * bpow radix2 45)) as H. change (Znearest _ _) with z in H.
  assert (D : Rabs (IZR z * bpow radix2 (-45) - r) <= / 35184372088832).
  { replace (IZR z * bpow radix2 (-45) - r) with (- (r * bpow radix2 45 - IZR z) * bpow radix2 (-45)).
    2:{ assert (P : bpow radix2 45 * bpow radix2 (-45) = 1) by (rewrite <- bpow_plus; reflexivity).
        transitivity (IZR z * bpow radix2 (-45) - r * (bpow radix2 45 * bpow radix2 (-45))); [ring|]. rewrite P. ring. }
    rewrite Rabs_mult, Rabs_Ropp, (Rabs_pos_eq (bpow _ _)) by apply bpow_ge_0. rewrite e45.
    pose proof (Rabs_pos (r * bpow radix2 45 - IZR z)).
    apply Rle_trans with (/ 2 * / 35184372088832); [|lra]. apply Rmult_le_compat_r; lra. }
  assert (Bz : Rabs (IZR z * bpow radix2 (-45)) <= 257).
  { replace (IZR z * bpow radix2 (-45)) with ((IZR z * bpow radix2 (-45) - r) + r) by ring.
    apply Rle_trans with (1 := Rabs_triang _ _). lra. }
  pose proof (binary_normalize_correct 53 1024 _ _ mode_NE z (-45) false) as N. cbv zeta in N.
  unfold F2R in N. cbn [Fnum Fexp] in N. rewrite Rlt_bool_true in N.
  2:{ apply Rle_lt_trans with (bpow radix2 30); [|apply bpow_lt; lia]. apply rnd_bpow_le; [lia|].
      change (bpow radix2 30) with 1073741824. lra. }
  destruct N as (Nr & Nf & _). split; [exact Nf|]. unfold fnorm. rewrite Nr.
  apply Rle_trans with (1 := triangle _ _ _ _ _ (rnd_error _) D). unfold u52. lra.
Qed.
Definition E_powers : Ext := {|
  x_sin := x_sin E_accurate; x_cos := x_cos E_accurate; x_tan := x_tan E_accurate;
  x_powf := fun _ x => round45 (Rpower (105 / 100) (B2R x)); x_hypot := x_hypot E0; x_solve_cubic := x_solve_cubic E0; x_rrect_path := x_rrect_path E0;
  x_ellipse_path := x_ellipse_path E0; x_arclen := x_arclen E0; x_inv_arclen := x_inv_arclen E0;
  x_subsegment := x_subsegment E0; x_color_mul_alpha := x_color_mul_alpha E0; x_brush_mul_alpha := x_brush_mul_alpha E0 |}.
Lemma E_powers_ok : powers E_powers /\ accurate E_powers.
Proof.
  split; [|destruct E_accurate_ok; constructor; assumption].
  intros x _ B. cbn [E_powers x_powf]. apply round45_near. apply Rabs_le_inv in B.
  rewrite Rabs_pos_eq by (left; apply exp_pos). apply Rle_trans with (Rpower (105 / 100) (INR 100)).
  - apply Rle_Rpower; [lra|]. replace (INR 100) with 100 by (rewrite INR_IZR_INZ; reflexivity). lra.
  - rewrite Rpower_pow by lra. assert (S : (105 / 100) ^ 25 <= 4) by (cbn [pow]; lra). assert (P : 0 <= (105 / 100) ^ 25) by (apply pow_le; lra).
    change 100%nat with (25 * 4)%nat. rewrite pow_mult. cbn [pow]. nra.
Qed.
