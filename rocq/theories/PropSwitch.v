(** C88: the switches of the viewer. *)
From Coq Require Import ZArith Bool List Lia.
From Verif Require Import F64 Kurbo Value Animated Stats Viewer PropStats PropViewer PropCamera.
Import ListNotations.
Open Scope list_scope.
Open Scope Z_scope.

(** ** Specification *)
(** How often something of a kind happened. *)
Definition count (P : viewer_event -> bool) (es : list viewer_event) : nat := List.length (filter P es).
Definition pressed_stats (e : viewer_event) : bool := match e with VeKey KStats => true | _ => false end.
Definition pressed_complexity (e : viewer_event) : bool := match e with VeKey KComplexity => true | _ => false end.
Definition pressed_vsync (e : viewer_event) : bool := match e with VeKey KVsync => true | _ => false end.
Definition quits (e : viewer_event) : bool := match e with VeKey KEscape | VeClose => true | _ => false end.
(** One up, or one down but not below zero. *)
Definition level (es : list viewer_event) : Z :=
  fold_left (fun n e => match e with VeKey KUp => n + 1 | VeKey KDown => Z.max 0 (n - 1) | _ => n end) es 0.

Section Switch.
Context (E : Ext) (atan2 : f64 -> f64 -> f64) (scenes start : Z).
Lemma step_switches v0 e v o : viewer_step E atan2 scenes v0 e = Ok (v, o) ->
  vw_stats_shown v = xorb (pressed_stats e) (vw_stats_shown v0) /\ vw_complexity_shown v = xorb (pressed_complexity e) (vw_complexity_shown v0) /\
  vw_vsync v = xorb (pressed_vsync e) (vw_vsync v0) /\ vw_open v = negb (quits e) && vw_open v0 /\
  vw_complexity v = match e with VeKey KUp => vw_complexity v0 + 1 | VeKey KDown => Z.max 0 (vw_complexity v0 - 1) | _ => vw_complexity v0 end.
Proof.
  intros R. destruct e as [|b|k|w h t|b|x| |p|m| |]; cbn [viewer_step bind on_key] in R; cbn [pressed_stats pressed_complexity pressed_vsync quits negb andb].
  - apply ok_same, (f_equal fst) in R. cbn [fst] in R. subst v. cbn. rewrite ?xorb_false_l; repeat split; auto; try (now destruct (vw_stats_shown v0)); try (now destruct (vw_complexity_shown v0)); try (now destruct (vw_vsync v0)).
  - apply ok_same, (f_equal fst) in R. cbn [fst] in R. subst v. cbn. rewrite ?xorb_false_l; repeat split; auto; try (now destruct (vw_stats_shown v0)); try (now destruct (vw_complexity_shown v0)); try (now destruct (vw_vsync v0)).
  - destruct (on_key E v0 k) as [v1| |] eqn:K; cbn [bind] in R; try discriminate. apply ok_same, (f_equal fst) in R. cbn [fst] in R. subst v1.
    destruct k; cbn [on_key] in K; try (apply ok_same in K; subst v; cbn; rewrite ?xorb_false_l, ?xorb_true_l; repeat split; auto; try (now destruct (vw_stats_shown v0)); try (now destruct (vw_complexity_shown v0)); try (now destruct (vw_vsync v0)); fail).
    + destruct (u64_add _ _) as [c| |] eqn:A; cbn [bind] in K; try discriminate. apply ok_same in K. subst v. cbn. rewrite ?xorb_false_l.
      unfold u64_add in A. destruct (_ <=? _); [|discriminate]. apply ok_same in A. repeat split; auto; try (now destruct (vw_stats_shown v0)); try (now destruct (vw_complexity_shown v0)); try (now destruct (vw_vsync v0)).
    + destruct (vw_prior v0); apply ok_same in K; subst v; cbn; rewrite ?xorb_false_l; repeat split; auto; try (now destruct (vw_stats_shown v0)); try (now destruct (vw_complexity_shown v0)); try (now destruct (vw_vsync v0)).
  - apply ok_same, (f_equal fst) in R. cbn [fst] in R. subst v. rewrite ?xorb_false_l. unfold on_touch. destruct (match te_phase t with Started => _ | _ => _ end); [|cbn; repeat split; auto; try (now destruct (vw_stats_shown v0)); try (now destruct (vw_complexity_shown v0)); try (now destruct (vw_vsync v0))].
    destruct (fltb _ _); [cbn; repeat split; auto; try (now destruct (vw_stats_shown v0)); try (now destruct (vw_complexity_shown v0)); try (now destruct (vw_vsync v0))|]. destruct (fltb _ _); cbn; repeat split; auto; try (now destruct (vw_stats_shown v0)); try (now destruct (vw_complexity_shown v0)); try (now destruct (vw_vsync v0)).
  - apply ok_same, (f_equal fst) in R. cbn [fst] in R. subst v. cbn. rewrite ?xorb_false_l; repeat split; auto; try (now destruct (vw_stats_shown v0)); try (now destruct (vw_complexity_shown v0)); try (now destruct (vw_vsync v0)).
  - apply ok_same, (f_equal fst) in R. cbn [fst] in R. subst v. rewrite ?xorb_false_l. unfold on_wheel. destruct (vw_prior v0); cbn; repeat split; auto; try (now destruct (vw_stats_shown v0)); try (now destruct (vw_complexity_shown v0)); try (now destruct (vw_vsync v0)).
  - apply ok_same, (f_equal fst) in R. cbn [fst] in R. subst v. cbn. rewrite ?xorb_false_l; repeat split; auto; try (now destruct (vw_stats_shown v0)); try (now destruct (vw_complexity_shown v0)); try (now destruct (vw_vsync v0)).
  - apply ok_same, (f_equal fst) in R. cbn [fst] in R. subst v. rewrite ?xorb_false_l. unfold on_cursor. destruct (vw_prior v0); [destruct (vw_mouse v0)|]; cbn; repeat split; auto; try (now destruct (vw_stats_shown v0)); try (now destruct (vw_complexity_shown v0)); try (now destruct (vw_vsync v0)).
  - destruct (on_redraw scenes v0 m) as [[v1 s]| |] eqn:K; cbn [bind] in R; try discriminate. apply ok_same, (f_equal fst) in R. cbn [fst] in R. subst v1.
    unfold on_redraw in K. destruct (rem_i32 _ _); cbn [bind] in K; try discriminate. destruct (rem_i32 _ _); cbn [bind] in K; try discriminate.
    destruct (if _ && _ then _ else _); cbn [bind] in K; try discriminate. destruct (if _ && _ then _ else _); cbn [bind] in K; try discriminate.
    destruct (add_sample _ _); cbn [bind] in K; try discriminate. apply ok_same, (f_equal fst) in K. cbn [fst] in K. subst v. cbn. rewrite ?xorb_false_l. repeat split; auto; try (now destruct (vw_stats_shown v0)); try (now destruct (vw_complexity_shown v0)); try (now destruct (vw_vsync v0)).
  - apply ok_same, (f_equal fst) in R. cbn [fst] in R. subst v. rewrite ?xorb_false_l. unfold on_wait. destruct (info _); cbn; repeat split; auto; try (now destruct (vw_stats_shown v0)); try (now destruct (vw_complexity_shown v0)); try (now destruct (vw_vsync v0)).
  - apply ok_same, (f_equal fst) in R. cbn [fst] in R. subst v. rewrite ?xorb_false_l. repeat split; auto; try (now destruct (vw_stats_shown v0)); try (now destruct (vw_complexity_shown v0)); try (now destruct (vw_vsync v0)).
Qed.
Lemma count_snoc P es e : count P (es ++ [e]) = ((if P e then 1 else 0) + count P es)%nat.
Proof. unfold count. rewrite filter_app, app_length. cbn [filter]. destruct (P e); cbn [List.length]; lia. Qed.
(** The statistics, the counts and the synchronisation are switched by their
    keys, the complexity goes up and down, and the window is open until it is
    closed. *)
Theorem C88_switches : forall es v ss, session E atan2 scenes start es = Ok (v, ss) ->
  vw_stats_shown v = Nat.even (count pressed_stats es) /\
  vw_complexity_shown v = Nat.odd (count pressed_complexity es) /\
  vw_vsync v = Nat.even (count pressed_vsync es) /\
  vw_complexity v = level es /\
  (vw_open v = true <-> count quits es = 0%nat).
Proof.
  intros es. induction es as [|e es IH] using rev_ind; intros v ss R.
  - unfold session, viewer_new in R. destruct (_ <? _)%Z; [discriminate|]. cbn [bind viewer_run] in R. apply ok_same in R.
    apply (f_equal fst) in R. cbn [fst] in R. subst v. repeat split.
  - rewrite session_snoc in R. destruct (session E atan2 scenes start es) as [[v0 ss0]| |] eqn:R0; cbn [bind] in R; try discriminate.
    destruct (IH v0 ss0 eq_refl) as (H1 & H2 & H3 & H4 & H5).
    destruct (viewer_step E atan2 scenes v0 e) as [[v' o]| |] eqn:St; cbn [bind] in R; try discriminate.
    apply ok_same, (f_equal fst) in R. cbn [fst] in R. subst v'. destruct (step_switches _ _ _ _ St) as (S1 & S2 & S3 & S4 & S5).
    rewrite !count_snoc. split; [|split; [|split; [|split]]].
    + rewrite S1, H1. destruct (pressed_stats e); [|now rewrite xorb_false_l]. rewrite xorb_true_l. cbn [Nat.add]. now rewrite Nat.even_succ, <- Nat.negb_even.
    + rewrite S2, H2. destruct (pressed_complexity e); [|now rewrite xorb_false_l]. rewrite xorb_true_l. cbn [Nat.add]. now rewrite Nat.odd_succ, <- Nat.negb_odd, negb_involutive || now rewrite Nat.odd_succ, <- Nat.negb_odd.
    + rewrite S3, H3. destruct (pressed_vsync e); [|now rewrite xorb_false_l]. rewrite xorb_true_l. cbn [Nat.add]. now rewrite Nat.even_succ, <- Nat.negb_even.
    + rewrite S5, H4. unfold level. rewrite fold_left_app. reflexivity.
    + rewrite S4. destruct (quits e); cbn [negb andb Nat.add]; [split; discriminate|exact H5].
Qed.
End Switch.
(** ** C74: the first frame *)
(** Starting fails only with the least of all numbers. *)
Theorem C74_start : forall E atan2 scenes start, -2147483648 <= start <= 2147483647 ->
  session E atan2 scenes start [] = Panic <-> start = -2147483648.
Proof.
  intros E atan2 scenes start B. unfold session, viewer_new, i32_min. destruct (Z.ltb_spec (start - 1) (-2147483648)); cbn [bind viewer_run].
  - split; [lia|reflexivity].
  - split; [discriminate|lia].
Qed.
Lemma step_prev E atan2 scenes v0 e v : viewer_step E atan2 scenes v0 e = Ok (v, None) -> vw_prev v = vw_prev v0.
Proof.
  intros R. destruct e as [|b|k|w h t|b|x| |p|m| |]; cbn [viewer_step bind on_key] in R;
    try (apply ok_same, (f_equal fst) in R; cbn [fst] in R; subst v; try reflexivity).
  - destruct (on_key E v0 k) as [v1| |] eqn:K; cbn [bind] in R; try discriminate. apply ok_same, (f_equal fst) in R. cbn [fst] in R. subst v1.
    destruct k; cbn [on_key] in K; try (apply ok_same in K; subst v; reflexivity).
    + destruct (u64_add _ _) as [c| |]; cbn [bind] in K; try discriminate. apply ok_same in K. now subst v.
    + destruct (vw_prior v0); apply ok_same in K; now subst v.
  - unfold on_touch. destruct (match te_phase t with Started => _ | _ => _ end); [|reflexivity]. destruct (fltb _ _); [reflexivity|]. now destruct (fltb _ _).
  - unfold on_wheel. now destruct (vw_prior v0).
  - unfold on_cursor. destruct (vw_prior v0); [|reflexivity]. now destruct (vw_mouse v0).
  - destruct (on_redraw scenes v0 m) as [[v1 s]| |]; cbn [bind] in R; discriminate.
  - unfold on_wait. now destruct (info _).
Qed.
Lemma prev_first E atan2 scenes start es v : session E atan2 scenes start es = Ok (v, []) -> vw_prev v = start - 1.
Proof.
  revert v. induction es as [|e es IH] using rev_ind; intros v R.
  - unfold session, viewer_new in R. destruct (_ <? _); [discriminate|]. cbn [bind viewer_run] in R. apply ok_same, (f_equal fst) in R. cbn [fst] in R. now subst v.
  - rewrite session_snoc in R. destruct (session E atan2 scenes start es) as [[v0 ss0]| |] eqn:R0; cbn [bind] in R; try discriminate.
    destruct (viewer_step E atan2 scenes v0 e) as [[v' o]| |] eqn:St; cbn [bind] in R; try discriminate. apply ok_same in R.
    pose proof (f_equal fst R) as Rv. pose proof (f_equal snd R) as Rs. cbn [fst snd] in Rv, Rs. subst v'. destruct o as [s|]; [now destruct ss0|].
    rewrite app_nil_r in Rs. subst ss0. rewrite (step_prev _ _ _ _ _ _ St). now apply IH.
Qed.
(** The first frame, if it is of the scene asked for, is shown from the front,
    whatever the pointer and the wheel did before it. *)
Theorem C74_first : forall E atan2 scenes start es m v ss v' s, sane scenes start (es ++ [VeRedraw m]) -> 0 <= start < scenes ->
  session E atan2 scenes start es = Ok (v, []) -> session E atan2 scenes start (es ++ [VeRedraw m]) = Ok (v', ss ++ [s]) ->
  sh_scene s = start -> sh_transform s = affine_identity.
Proof.
  intros E atan2 scenes start es m v ss v' s S B R R' Sc. destruct (all_inv E atan2 scenes start es (sane_snoc _ _ _ _ S)) as (v1 & ss1 & R1 & I).
  rewrite R in R1. apply ok_same in R1. pose proof (f_equal fst R1) as Ev. pose proof (f_equal snd R1) as Es. cbn [fst snd] in Ev, Es. subst v1 ss1.
  destruct (redraw_step scenes start es m v [] S I) as (v2 & s2 & Rs & _ & Eq). rewrite session_snoc, R in R'. cbn [bind viewer_step] in R'. rewrite Rs in R'. cbn [bind] in R'.
  apply ok_same, (f_equal snd) in R'. cbn [snd app] in R'. assert (s2 = s) as -> by (destruct ss as [|? [|? ?]]; [now injection R'|discriminate|discriminate]).
  rewrite Eq in Sc |- *. cbn [sh_scene sh_transform] in *. rewrite Sc, (prev_first _ _ _ _ _ _ R). destruct (Z.eqb_spec (start - 1) start); [lia|reflexivity].
Qed.
Example C88_applies : forall E atan2, exists v ss, session E atan2 1 0 [VeKey KStats; VeKey KDown; VeKey KUp; VeRedraw 16000; VeKey KStats; VeKey KUp] = Ok (v, ss) /\
  vw_stats_shown v = true /\ vw_complexity v = 2 /\ vw_open v = true.
Proof.
  intros E atan2. set (es := [_; _; _; _; _; _]).
  assert (X : match session E atan2 1 0 es with Ok _ => true | _ => false end = true) by (vm_compute; reflexivity).
  destruct (session E atan2 1 0 es) as [[v ss]| |] eqn:R; try discriminate X. exists v, ss. split; [reflexivity|].
  destruct (C88_switches _ _ _ _ _ _ _ R) as (H1 & _ & _ & H4 & H5). rewrite H1, H4. repeat split. apply H5. reflexivity.
Qed.
