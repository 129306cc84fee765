(** C73, C75: which fingers take part in the gestures of the viewer, and what
    lifting a finger that navigates does to them. *)
From Coq Require Import ZArith Bool List Lia Reals Lra.
From Flocq Require Import Core BinarySingleNaN.
From Verif Require Import F64 F64Facts Kurbo Value Stats Viewer PropStats PropTouch PropViewer PropNav.
Import ListNotations.
Open Scope list_scope.
Open Scope Z_scope.

(** ** Specification *)
(** A finger navigates since it was put down in the bottom third of the window,
    until it is lifted (what happened is given with the latest first). *)
Fixpoint navigating (id : Z) (h : list viewer_event) : bool :=
  match h with
  | [] => false
  | VeTouch _ height t :: h =>
      if te_id t =? id then
        match te_phase t with
        | Started => fltb (fdiv (fmul height (f_of_Z 2)) (f_of_Z 3)) (py (te_pos t)) || navigating id h
        | Moved => navigating id h
        | Ended | Cancelled => false
        end
      else navigating id h
  | _ :: h => navigating id h
  end.
(** What the other fingers did. *)
Fixpoint fingers (h : list viewer_event) : list tev :=
  match h with
  | [] => []
  | e :: h' =>
      match e with
      | VeTouch _ _ t => if navigating (te_id t) h then fingers h' else TvTouch t :: fingers h'
      | VeWait => TvFrame :: fingers h'
      | _ => fingers h'
      end
  end.
(** A finger was lifted since the last frame. *)
Fixpoint lifted (id : Z) (h : list viewer_event) : bool :=
  match h with
  | [] | VeWait :: _ => false
  | VeTouch _ _ t :: h => (te_id t =? id) && match te_phase t with Ended | Cancelled => true | _ => false end || lifted id h
  | _ :: h => lifted id h
  end.

Section Fingers.
Context (E : Ext) (atan2 : f64 -> f64 -> f64) (scenes start : Z).
Notation session := (session E atan2 scenes start).
Lemma new_touch v : viewer_new (Some start) = Ok v -> vw_touch v = touch_new /\ vw_nav v = [].
Proof. unfold viewer_new. intros N. destruct (_ <? _); [discriminate|]. injection N as <-. split; reflexivity. Qed.
(** ** C73 in the viewer *)
Lemma nav_navigating : forall es v ss, session es = Ok (v, ss) ->
  vw_touch v = touched E atan2 (fingers (rev es)) /\ forall id, existsb (Z.eqb id) (vw_nav v) = navigating id (rev es).
Proof.
  intros es. induction es as [|e es IH] using rev_ind; intros v ss R.
  - unfold PropViewer.session in R. destruct (viewer_new (Some start)) as [v0| |] eqn:N; cbn [bind viewer_run] in R; try discriminate.
    apply ok_inj, (f_equal fst) in R. cbn [fst] in R. subst v0. destruct (new_touch v N) as [-> ->]. split; reflexivity.
  - rewrite session_snoc in R. destruct (session es) as [[v0 ss0]| |] eqn:R0; cbn [bind] in R; try discriminate. destruct (IH v0 ss0 eq_refl) as [T K].
    destruct (viewer_step E atan2 scenes v0 e) as [[v' o]| |] eqn:St; cbn [bind] in R; try discriminate.
    apply ok_inj, (f_equal fst) in R. cbn [fst] in R. subst v'. apply step_touch in St. rewrite rev_app_distr. cbn [rev app].
    destruct e as [|b|k|w h t|b|x| |p|m| |]; destruct St as [Sn Sv]; rewrite Sn, Sv;
      try (rewrite T; split; [reflexivity|intros id; rewrite K; reflexivity]).
    assert (Nv : forall id, existsb (Z.eqb id) (nav_of (vw_nav v0) h t) = navigating id (VeTouch w h t :: rev es)).
    { intros id. rewrite nav_has, K. cbn [navigating]. unfold in_zone. rewrite (Z.eqb_sym id). destruct (te_id t =? id) eqn:Q.
      - apply Z.eqb_eq in Q. subst id. destruct (te_phase t); rewrite ?andb_false_r, ?andb_true_r; auto. apply orb_comm.
      - destruct (te_phase t); rewrite ?andb_false_r, ?orb_false_r, ?andb_true_r; reflexivity. }
    split; [|exact Nv]. unfold seen. rewrite Nv, T. cbn [fingers]. destruct (navigating (te_id t) (VeTouch w h t :: rev es)); reflexivity.
Qed.
(** The gesture by which the viewer moves the view at the end of a frame is
    what is reported of the fingers that do not navigate. *)
Theorem C73_viewer : forall es v ss, session (es ++ [VeWait]) = Ok (v, ss) -> info (vw_touch v) = report E atan2 (fingers (rev es)).
Proof.
  intros es v ss R. destruct (nav_navigating _ _ _ R) as [-> _]. rewrite rev_app_distr. reflexivity.
Qed.

(** ** C75 *)
(** Alike, but for what is forgotten at the end of the frame and for changes if [l]. *)
Definition alike (l : bool) (s s' : touch_state) : Prop :=
  ts_active s = ts_active s' /\ ts_changed s = ts_changed s' || l /\
  match ts_gesture s, ts_gesture s' with
  | Some g, Some g' => ge_pinch g = ge_pinch g' /\ ge_current g = ge_current g'
  | None, None => True
  | _, _ => False
  end.
Lemma alike_frame l s s' : alike l s s' -> alike false (end_frame E atan2 s) (end_frame E atan2 s').
Proof.
  intros (A & C & G). unfold alike, end_frame, update_gesture. cbv zeta. cbn [ts_active ts_changed ts_gesture]. split; [exact A|]. split; [reflexivity|].
  rewrite A. destruct (calc_dynamic_state E atan2 (ts_active s')); [|now destruct (ts_changed s), (ts_changed s')].
  destruct (ts_gesture s) as [g|], (ts_gesture s') as [g'|]; try contradiction; destruct (ts_changed s), (ts_changed s'); cbn; auto; destruct G as [-> _]; auto.
Qed.
Lemma alike_event l s s' t : alike l s s' -> alike l (touch_event s t) (touch_event s' t).
Proof.
  intros (A & C & G). unfold alike. rewrite !event_gesture. unfold touch_event. rewrite A. destruct (te_phase t); cbn [ts_active ts_changed]; auto.
  destruct (touch_get _ _); cbn [ts_active ts_changed]; auto.
Qed.
Lemma remove_none id : forall l : touches, touch_get id l = None -> touch_remove id l = l.
Proof.
  induction l as [|[i p] l IH]; intros H; [reflexivity|]. cbn in H |- *. destruct (Z.eqb_spec i id); [discriminate|]. cbn. f_equal. now apply IH.
Qed.
Lemma lift_alike id : forall es v w v' w' ss ss' h, navigates id es ->
  alike (lifted id h) (vw_touch v) (vw_touch w) -> known v id = None -> (forall j, j <> id -> existsb (Z.eqb j) (vw_nav v) = existsb (Z.eqb j) (vw_nav w)) ->
  viewer_run E atan2 scenes v es = Ok (v', ss) ->
  viewer_run E atan2 scenes w (filter (fun e => negb (of_finger id e)) es) = Ok (w', ss') ->
  alike (lifted id (rev es ++ h)) (vw_touch v') (vw_touch w').
Proof.
  induction es as [|e es IH]; intros v w v' w' ss ss' h Nv T K J R R'; cbn [viewer_run filter] in R, R'.
  { injection R as <- _. injection R' as <- _. exact T. }
  destruct (viewer_step E atan2 scenes v e) as [[v1 s]| |] eqn:St; cbn [bind] in R; try discriminate.
  destruct (viewer_run E atan2 scenes v1 es) as [[v2 ss2]| |] eqn:R2; cbn [bind] in R; try discriminate. injection R as <- _.
  assert (Nv' : navigates id es) by (intros a b t Ht; apply (Nv a b t); now right).
  assert (K1 : known v1 id = None).
  { eapply (known_run _ _ _ id [e] v v1); [intros a b t [Ht|[]]; apply (Nv a b t); now left|exact K|]. cbn [viewer_run]. rewrite St. reflexivity. }
  apply step_touch in St. cbn [rev]. rewrite <- app_assoc. cbn [app].
  destruct (of_finger id e) eqn:Oe; cbn [negb] in R'.
  - destruct e as [|b|k|a hh t|b|x| |p|m| |]; try discriminate. cbn [of_finger] in Oe. pose proof Oe as Oe'. apply Z.eqb_eq in Oe. destruct St as [Sn Sv].
    eapply (IH v1 w _ _ _ _ (VeTouch a hh t :: h)); [exact Nv'| |exact K1| |exact R2|exact R'].
    + rewrite Sv. cbn [lifted]. rewrite Oe'. unfold seen. rewrite nav_has, Oe. unfold known in K. destruct (te_phase t) eqn:Ph.
      * unfold in_zone. rewrite (Nv a hh t ltac:(now left) Oe Ph), Z.eqb_refl. cbn [andb]. rewrite orb_true_r. exact T.
      * cbn [andb orb]. destruct (existsb _ _); [exact T|]. unfold touch_event. now rewrite Ph, Oe, K.
      * rewrite Z.eqb_refl, andb_false_r. cbn [andb orb]. unfold touch_event. rewrite Ph, Oe, (remove_none id _ K). destruct T as (A & C & G). split; [exact A|]. split; [now rewrite orb_true_r|exact G].
      * rewrite Z.eqb_refl, andb_false_r. cbn [andb orb]. unfold touch_event. rewrite Ph, Oe, (remove_none id _ K). destruct T as (A & C & G). split; [exact A|]. split; [now rewrite orb_true_r|exact G].
    + intros j Hj. rewrite <- (J j Hj), Sn, nav_has. assert (Q : (j =? te_id t) = false) by (apply Z.eqb_neq; congruence). rewrite Q.
      destruct (te_phase t); rewrite ?andb_false_r, ?orb_false_r, ?andb_true_r; reflexivity.
  - cbn [viewer_run] in R'.
    destruct (viewer_step E atan2 scenes w e) as [[w1 s']| |] eqn:Sw; cbn [bind] in R'; try discriminate.
    destruct (viewer_run E atan2 scenes w1 _) as [[w3 ss3]| |] eqn:R3; cbn [bind] in R'; try discriminate. injection R' as <- _.
    apply step_touch in Sw. eapply (IH v1 w1 _ _ _ _ (e :: h)); [exact Nv'| |exact K1| |exact R2|exact R3].
    + destruct e as [|b|k|a hh t|b|x| |p|m| |]; destruct St as [_ ->], Sw as [_ ->]; try exact T.
      * cbn [of_finger lifted] in Oe |- *. rewrite Oe. cbn [andb orb]. apply Z.eqb_neq in Oe. unfold seen. rewrite !nav_has, (J _ Oe).
        destruct (match te_phase t with Started => _ | Moved => _ | _ => _ end); [exact T|now apply alike_event].
      * cbn [lifted]. eapply alike_frame. exact T.
    + intros j Hj. destruct e as [|b|k|a hh t|b|x| |p|m| |]; destruct St as [-> _], Sw as [-> _]; rewrite ?nav_has, ?(J j Hj); reflexivity.
Qed.
(** With a finger that navigates, and without it, the same fingers with the
    same centre are reported in every frame, and the same movement, except in
    a frame in which it was lifted: there no movement is reported. *)
Theorem C75_exact : forall id es v w ss ss', navigates id es ->
  session (es ++ [VeWait]) = Ok (v, ss) ->
  session (filter (fun e => negb (of_finger id e)) (es ++ [VeWait])) = Ok (w, ss') ->
  (lifted id (rev es) = false -> info (vw_touch v) = info (vw_touch w)) /\
  (lifted id (rev es) = true ->
     match info (vw_touch v), info (vw_touch w) with
     | Some i, Some j => mi_touches i = mi_touches j /\ mi_centre i = mi_centre j /\ no_movement i
     | None, None => True
     | _, _ => False
     end).
Proof.
  intros id es v w ss ss' Nv R R'. rewrite filter_app in R'. cbn [filter of_finger negb] in R'. rewrite session_snoc in R, R'.
  destruct (session es) as [[v0 s0]| |] eqn:R0; cbn [bind] in R; try discriminate. cbn [viewer_step bind] in R. apply ok_inj, (f_equal fst) in R. cbn [fst] in R.
  destruct (session (filter _ es)) as [[w0 t0]| |] eqn:R0'; cbn [bind] in R'; try discriminate. cbn [viewer_step bind] in R'. apply ok_inj, (f_equal fst) in R'. cbn [fst] in R'.
  assert (A : alike (lifted id (rev es)) (vw_touch v0) (vw_touch w0)).
  { unfold PropViewer.session in R0, R0'. destruct (viewer_new (Some start)) as [n| |] eqn:N; cbn [bind] in R0, R0'; try discriminate.
    destruct (new_touch n N) as [Tn _]. pose proof (lift_alike id es n n v0 w0 s0 t0 [] Nv) as L. rewrite app_nil_r in L. apply L; auto.
    - cbn [lifted]. unfold alike. rewrite Tn. repeat split.
    - unfold known. now rewrite Tn. }
  assert (Tv : vw_touch v = end_frame E atan2 (vw_touch v0)).
  { rewrite <- R. unfold on_wait. cbv zeta. destruct (info _); reflexivity. }
  assert (Tw : vw_touch w = end_frame E atan2 (vw_touch w0)).
  { rewrite <- R'. unfold on_wait. cbv zeta. destruct (info _); reflexivity. }
  rewrite Tv, Tw. clear - A. destruct A as (A & C & G). split; intros L; rewrite L in C.
  - rewrite orb_false_r in C. f_equal. unfold end_frame, update_gesture. cbv zeta. cbn [ts_active ts_changed ts_gesture]. rewrite A, C.
    destruct (calc_dynamic_state E atan2 (ts_active (vw_touch w0))); [|reflexivity].
    destruct (ts_gesture (vw_touch v0)) as [g|], (ts_gesture (vw_touch w0)) as [g'|]; try contradiction; [destruct G as [-> ->]|]; reflexivity.
  - rewrite orb_true_r in C. assert (F : info (end_frame E atan2 (vw_touch w0)) = None <-> info (end_frame E atan2 (vw_touch v0)) = None).
    { unfold info, end_frame, update_gesture. cbv zeta. cbn [ts_active ts_changed ts_gesture]. rewrite A, C.
      destruct (calc_dynamic_state E atan2 (ts_active (vw_touch w0))); [|destruct (ts_changed (vw_touch w0)); split; reflexivity].
      destruct (ts_changed (vw_touch w0)); split; discriminate. }
    destruct (info (end_frame E atan2 (vw_touch v0))) as [i|] eqn:Iv; destruct (info (end_frame E atan2 (vw_touch w0))) as [j|] eqn:Iw; auto.
    + assert (Ci : mi_centre i = mi_centre j /\ mi_touches i = mi_touches j).
      { unfold info, end_frame, update_gesture in Iv, Iw. cbv zeta in Iv, Iw. cbn [ts_active ts_changed ts_gesture] in Iv, Iw. rewrite A in Iv. rewrite C in Iv.
        destruct (calc_dynamic_state E atan2 (ts_active (vw_touch w0))) as [d|]; [|discriminate Iv]. injection Iv as <-.
        destruct (ts_changed (vw_touch w0)); injection Iw as <-; cbn [mi_centre mi_touches ge_current ge_previous];
          destruct (ts_gesture (vw_touch v0)), (ts_gesture (vw_touch w0)); split; reflexivity. }
      destruct Ci as [Cc Ct]. split; [exact Ct|]. split; [exact Cc|].
      unfold end_frame in Iv. cbv zeta in Iv. change (ts_changed (update_gesture E atan2 (vw_touch v0))) with (ts_changed (vw_touch v0)) in Iv. rewrite C in Iv.
      destruct (ts_gesture (update_gesture E atan2 (vw_touch v0))) as [g|] eqn:Gg; [|discriminate].
      eapply report_same; [| |exact Iv]; [reflexivity|now left].
    + exfalso. destruct F as [F _]. specialize (F eq_refl). discriminate.
    + exfalso. destruct F as [_ F]. specialize (F eq_refl). discriminate.
Qed.
End Fingers.
Example C75_exact_applies : navigates 2 [at_xy Started 1 10 10; at_xy Started 2 150 290; VeWait; at_xy Moved 1 15 10; at_xy Ended 2 150 290] /\
  lifted 2 (rev [at_xy Started 1 10 10; at_xy Started 2 150 290; VeWait; at_xy Moved 1 15 10; at_xy Ended 2 150 290]) = true /\
  fingers (rev [at_xy Started 1 10 10; at_xy Started 2 150 290; VeWait; at_xy Moved 1 15 10; at_xy Moved 2 150 250]) =
    [TvTouch (mkTouchEv Moved 1 (mkPoint (f_of_Z 15) (f_of_Z 10))); TvFrame; TvTouch (mkTouchEv Started 1 (mkPoint (f_of_Z 10) (f_of_Z 10)))].
Proof.
  split; [apply navigates_test; vm_compute; reflexivity|]. split; [reflexivity|].
  assert (Z : fltb (fdiv (fmul (f_of_Z 300) (f_of_Z 2)) (f_of_Z 3)) (f_of_Z 290) = true) by (vm_compute; reflexivity).
  assert (Y : fltb (fdiv (fmul (f_of_Z 300) (f_of_Z 2)) (f_of_Z 3)) (f_of_Z 10) = false) by (vm_compute; reflexivity).
  unfold at_xy. cbn [rev app fingers navigating te_id te_phase te_pos py Z.eqb Pos.eqb]. rewrite Z, Y. cbn [orb]. reflexivity.
Qed.
