(** C75: touches that navigate between scenes do not take part in gestures. *)
From Coq Require Import ZArith Bool List Lia Reals Lra.
From Flocq Require Import Core BinarySingleNaN.
From Verif Require Import F64 F64Facts Kurbo Value Stats Viewer PropStats PropTouch PropViewer.
Import ListNotations.
Open Scope list_scope.
Open Scope Z_scope.

(** The events of a finger. *)
Definition of_finger (id : Z) (e : viewer_event) : bool := match e with VeTouch _ _ t => te_id t =? id | _ => false end.
(** A finger that is only ever put down in the navigation zone, the bottom
    third of the window. *)
Definition navigates (id : Z) (es : list viewer_event) : Prop :=
  forall w h t, In (VeTouch w h t) es -> te_id t = id -> te_phase t = Started ->
    fltb (fdiv (fmul h (f_of_Z 2)) (f_of_Z 3)) (py (te_pos t)) = true.
(** A finger that is never lifted. *)
Definition stays (id : Z) (es : list viewer_event) : Prop :=
  forall w h t, In (VeTouch w h t) es -> te_id t = id -> te_phase t = Started \/ te_phase t = Moved.
Lemma navigates_test id es :
  forallb (fun e => match e with
                    | VeTouch w h t => negb (te_id t =? id) || match te_phase t with Started => in_zone h t | _ => true end
                    | _ => true
                    end) es = true -> navigates id es.
Proof.
  intros F w h t Hin Hid Hph. rewrite forallb_forall in F. specialize (F _ Hin). cbv beta iota in F. now rewrite Hid, Hph, Z.eqb_refl in F.
Qed.
Lemma stays_test id es :
  forallb (fun e => match e with
                    | VeTouch w h t => negb (te_id t =? id) || match te_phase t with Started | Moved => true | _ => false end
                    | _ => true
                    end) es = true -> stays id es.
Proof.
  intros F w h t Hin Hid. rewrite forallb_forall in F. specialize (F _ Hin). cbv beta iota in F. rewrite Hid, Z.eqb_refl in F.
  destruct (te_phase t); auto; discriminate.
Qed.
(** The touches the viewer knows of. *)
Definition known (v : viewer) (id : Z) : option point := touch_get id (ts_active (vw_touch v)).

Section Nav.
Context (E : Ext) (atan2 : f64 -> f64 -> f64) (scenes start : Z).
Lemma insert_other id j p : j <> id -> forall l, touch_get id (touch_insert j p l) = touch_get id l.
Proof.
  intros N. induction l as [|[i q] l IH]; cbn.
  - destruct (Z.eqb_spec j id); [contradiction|reflexivity].
  - destruct (j <? i); cbn.
    + destruct (Z.eqb_spec j id); [contradiction|reflexivity].
    + destruct (Z.eqb_spec j i); cbn; [subst i; destruct (Z.eqb_spec j id); [contradiction|reflexivity]|]. now rewrite IH.
Qed.
Lemma event_other s t id : te_id t <> id -> touch_get id (ts_active (touch_event s t)) = touch_get id (ts_active s).
Proof.
  intros N. unfold touch_event. destruct (te_phase t); cbn [ts_active].
  - now apply insert_other.
  - destruct (touch_get (te_id t) (ts_active s)); cbn [ts_active]; [now apply insert_other|reflexivity].
  - rewrite remove_get. destruct (Z.eqb_spec (te_id t) id); [contradiction|reflexivity].
  - rewrite remove_get. destruct (Z.eqb_spec (te_id t) id); [contradiction|reflexivity].
Qed.
Lemma ok_inj {A} (a b : A) : Ok a = Ok b -> a = b.
Proof. intros H. now injection H. Qed.
Lemma key_touch v k v' : on_key E v k = Ok v' -> vw_touch v' = vw_touch v /\ vw_nav v' = vw_nav v.
Proof.
  intros H. destruct k; cbn [on_key] in H; try (injection H as <-; split; reflexivity).
  - destruct (u64_add (vw_complexity v) 1); cbn [bind] in H; try discriminate. injection H as <-. split; reflexivity.
  - destruct (vw_prior v); apply ok_inj in H; subst v'; split; reflexivity.
Qed.
Definition seen (s : touch_state) (nav : list Z) (t : touch) : touch_state := if existsb (Z.eqb (te_id t)) nav then s else touch_event s t.
Definition nav_of (nav : list Z) (h : f64) (t : touch) : list Z :=
  match te_phase t with
  | Started => if in_zone h t then te_id t :: nav else nav
  | Moved => nav
  | Ended | Cancelled => filter (fun i => negb (i =? te_id t)) nav
  end.
Lemma on_touch_touch v w h t : vw_nav (on_touch v w h t) = nav_of (vw_nav v) h t /\
  vw_touch (on_touch v w h t) = seen (vw_touch v) (nav_of (vw_nav v) h t) t.
Proof.
  unfold on_touch, nav_of, seen. destruct (te_phase t); try (split; reflexivity).
  destruct (in_zone h t); [|split; reflexivity].
  destruct (fltb (px (te_pos t)) (fdiv w (f_of_Z 3))); [split; reflexivity|].
  destruct (fltb (fdiv (fmul (f_of_Z 2) w) (f_of_Z 3)) (px (te_pos t))); split; reflexivity.
Qed.
(** What an event does to the touches. *)
Lemma step_touch v e v' s : viewer_step E atan2 scenes v e = Ok (v', s) ->
  match e with
  | VeTouch w h t => vw_nav v' = nav_of (vw_nav v) h t /\ vw_touch v' = seen (vw_touch v) (nav_of (vw_nav v) h t) t
  | VeWait => vw_nav v' = vw_nav v /\ vw_touch v' = end_frame E atan2 (vw_touch v)
  | _ => vw_nav v' = vw_nav v /\ vw_touch v' = vw_touch v
  end.
Proof.
  intros H. destruct e as [|b|k|w h t|b|x| |p|m| |]; cbn [viewer_step] in H.
  - cbn [on_key bind] in H. injection H as <- _. split; reflexivity.
  - injection H as <- _. split; reflexivity.
  - destruct (on_key E v k) as [v1| |] eqn:K; cbn [bind] in H; try discriminate. injection H as <- _. apply key_touch in K as [? ?]. split; assumption.
  - injection H as <- _. apply on_touch_touch.
  - injection H as <- _. split; reflexivity.
  - injection H as <- _. unfold on_wheel. destruct (vw_prior v); split; reflexivity.
  - injection H as <- _. split; reflexivity.
  - injection H as <- _. unfold on_cursor. destruct (vw_prior v); [destruct (vw_mouse v)|]; split; reflexivity.
  - destruct (on_redraw scenes v m) as [[v1 s1]| |] eqn:R; cbn [bind] in H; try discriminate. injection H as <- _.
    unfold on_redraw in R. destruct (rem_i32 _ _); cbn [bind] in R; try discriminate. destruct (rem_i32 _ _); cbn [bind] in R; try discriminate.
    destruct (_ && _); cbn [bind] in R; try discriminate. destruct (_ && _); cbn [bind] in R; try discriminate.
    destruct (add_sample _ _); cbn [bind] in R; try discriminate. injection R as <- _. split; reflexivity.
  - injection H as <- _. unfold on_wait. cbv zeta. destruct (info _); split; reflexivity.
  - injection H as <- _. split; reflexivity.
Qed.
Lemma nav_has nav h t j : existsb (Z.eqb j) (nav_of nav h t) =
  match te_phase t with
  | Started => existsb (Z.eqb j) nav || (in_zone h t && (j =? te_id t))
  | Moved => existsb (Z.eqb j) nav
  | Ended | Cancelled => existsb (Z.eqb j) nav && negb (j =? te_id t)
  end.
Proof.
  assert (F : forall i, existsb (Z.eqb j) (filter (fun k => negb (k =? i)) nav) = existsb (Z.eqb j) nav && negb (j =? i)).
  { intros i. induction nav as [|k nav IH]; [reflexivity|]. cbn. destruct (Z.eqb_spec k i); cbn.
    - rewrite IH. subst i. destruct (Z.eqb_spec j k); cbn; [now rewrite andb_false_r|reflexivity].
    - rewrite IH. destruct (Z.eqb_spec j k); [subst k; cbn; destruct (Z.eqb_spec j i); [contradiction|reflexivity]|reflexivity]. }
  unfold nav_of. destruct (te_phase t); [|reflexivity|apply F|apply F].
  destruct (in_zone h t); cbn; [|now rewrite orb_false_r]. apply orb_comm.
Qed.

Lemma known_run id : forall es v v' ss, navigates id es -> known v id = None ->
  viewer_run E atan2 scenes v es = Ok (v', ss) -> known v' id = None.
Proof.
  induction es as [|e es IH]; intros v v' ss Nv K R; cbn [viewer_run] in R; [injection R as <- _; exact K|].
  destruct (viewer_step E atan2 scenes v e) as [[v1 s]| |] eqn:St; cbn [bind] in R; try discriminate.
  destruct (viewer_run E atan2 scenes v1 es) as [[v2 ss2]| |] eqn:R2; cbn [bind] in R; try discriminate. injection R as <- _.
  eapply IH; [intros w h t Ht; apply (Nv w h t); now right| |exact R2].
  apply step_touch in St. unfold known in *. destruct e as [|b|k|w h t|b|x| |p|m| |]; destruct St as [_ St]; rewrite St; try exact K.
  unfold seen. destruct (existsb (Z.eqb (te_id t)) (nav_of (vw_nav v) h t)) eqn:X; [exact K|].
  destruct (Z.eq_dec (te_id t) id) as [Ei|Ni]; [|now rewrite event_other].
  unfold touch_event. destruct (te_phase t) eqn:Ph; cbn [ts_active].
  - exfalso. rewrite nav_has, Ph in X. unfold in_zone in X. rewrite (Nv w h t ltac:(now left) Ei Ph), Z.eqb_refl in X. now rewrite orb_true_r in X.
  - rewrite Ei, K. exact K.
  - rewrite remove_get, Ei, Z.eqb_refl. reflexivity.
  - rewrite remove_get, Ei, Z.eqb_refl. reflexivity.
Qed.
(** A finger that is only put down in the navigation zone is never part of a
    gesture, whatever else happens. *)
Theorem C75_not_in_gestures : forall id es v ss, navigates id es -> session E atan2 scenes start es = Ok (v, ss) -> known v id = None.
Proof.
  intros id es v ss Nv R. unfold session in R. destruct (viewer_new (Some start)) as [v0| |] eqn:N; cbn [bind] in R; try discriminate.
  eapply known_run; [exact Nv| |exact R]. unfold viewer_new in N. destruct (_ <? _); [discriminate|]. injection N as <-. reflexivity.
Qed.
Lemma same_run id : forall es v w v' w' ss ss', navigates id es -> stays id es ->
  vw_touch v = vw_touch w -> known v id = None -> (forall j, j <> id -> existsb (Z.eqb j) (vw_nav v) = existsb (Z.eqb j) (vw_nav w)) ->
  viewer_run E atan2 scenes v es = Ok (v', ss) ->
  viewer_run E atan2 scenes w (filter (fun e => negb (of_finger id e)) es) = Ok (w', ss') -> vw_touch v' = vw_touch w'.
Proof.
  induction es as [|e es IH]; intros v w v' w' ss ss' Nv Sy T K J R R'; cbn [viewer_run filter] in R, R'.
  { injection R as <- _. injection R' as <- _. exact T. }
  destruct (viewer_step E atan2 scenes v e) as [[v1 s]| |] eqn:St; cbn [bind] in R; try discriminate.
  destruct (viewer_run E atan2 scenes v1 es) as [[v2 ss2]| |] eqn:R2; cbn [bind] in R; try discriminate. injection R as <- _.
  assert (Nv' : navigates id es) by (intros a b t Ht; apply (Nv a b t); now right).
  assert (Sy' : stays id es) by (intros a b t Ht; apply (Sy a b t); now right).
  assert (K1 : known v1 id = None).
  { eapply (known_run id [e] v v1); [intros a b t [Ht|[]]; apply (Nv a b t); now left|exact K|]. cbn [viewer_run]. rewrite St. reflexivity. }
  apply step_touch in St.
  destruct (of_finger id e) eqn:Oe; cbn [negb] in R'.
  - destruct e as [|b|k|a h t|b|x| |p|m| |]; try discriminate. cbn [of_finger] in Oe. apply Z.eqb_eq in Oe. destruct St as [Sn Sv].
    eapply (IH v1 w); [exact Nv'|exact Sy'| |exact K1| |exact R2|exact R'].
    + rewrite <- T, Sv. unfold seen. destruct (existsb (Z.eqb (te_id t)) (nav_of (vw_nav v) h t)) eqn:X; [reflexivity|].
      destruct (Sy a h t ltac:(now left) Oe) as [Ph|Ph].
      * exfalso. rewrite nav_has, Ph in X. unfold in_zone in X. rewrite (Nv a h t ltac:(now left) Oe Ph), Z.eqb_refl in X. now rewrite orb_true_r in X.
      * unfold touch_event. rewrite Ph, Oe. unfold known in K. now rewrite K.
    + intros j Hj. rewrite <- (J j Hj), Sn, nav_has. assert (Q : (j =? te_id t) = false) by (apply Z.eqb_neq; congruence). rewrite Q.
      destruct (te_phase t); rewrite ?andb_false_r, ?orb_false_r, ?andb_true_r; reflexivity.
  - destruct (viewer_run E atan2 scenes w (e :: filter (fun e => negb (of_finger id e)) es)) as [[w2 ssw]| |] eqn:Rw; [|discriminate..].
    injection R' as <- _. cbn [viewer_run] in Rw.
    destruct (viewer_step E atan2 scenes w e) as [[w1 s']| |] eqn:Sw; cbn [bind] in Rw; try discriminate.
    destruct (viewer_run E atan2 scenes w1 _) as [[w3 ss3]| |] eqn:R3; cbn [bind] in Rw; try discriminate. injection Rw as <- _.
    apply step_touch in Sw. eapply (IH v1 w1); [exact Nv'|exact Sy'| |exact K1| |exact R2|exact R3].
    + destruct e as [|b|k|a h t|b|x| |p|m| |]; destruct St as [_ ->], Sw as [_ ->]; rewrite ?T; try reflexivity.
      cbn [of_finger] in Oe. apply Z.eqb_neq in Oe. unfold seen. rewrite !nav_has, (J _ Oe). reflexivity.
    + intros j Hj. destruct e as [|b|k|a h t|b|x| |p|m| |]; destruct St as [-> _], Sw as [-> _]; rewrite ?nav_has, ?(J j Hj); reflexivity.
Qed.
(** Without it, all gestures are the same, if the finger is not lifted.
    Missing: lifting it, see [C75_refuted]. *)
Theorem C75_independent_partial : forall id es v w ss ss', navigates id es -> stays id es ->
  session E atan2 scenes start es = Ok (v, ss) ->
  session E atan2 scenes start (filter (fun e => negb (of_finger id e)) es) = Ok (w, ss') ->
  info (vw_touch v) = info (vw_touch w).
Proof.
  intros id es v w ss ss' Nv Sy R R'. unfold session in *. destruct (viewer_new (Some start)) as [v0| |] eqn:N; cbn [bind] in R, R'; try discriminate.
  f_equal. eapply (same_run id es v0 v0); [exact Nv|exact Sy|reflexivity| |reflexivity|exact R|exact R'].
  unfold viewer_new in N. destruct (_ <? _); [discriminate|]. injection N as <-. reflexivity.
Qed.
End Nav.
(** Full claim: also if it is lifted.  It is false: finger 1 drags by 5 while
    finger 2, which tapped the navigation zone, is lifted; the movement is lost. *)
Definition at_xy (ph : phase) (id x y : Z) : viewer_event :=
  VeTouch (f_of_Z 300) (f_of_Z 300) (mkTouchEv ph id (mkPoint (f_of_Z x) (f_of_Z y))).
Definition tap_while_dragging : list viewer_event :=
  [at_xy Started 1 10 10; at_xy Started 2 150 290; VeWait; at_xy Moved 1 15 10; at_xy Ended 2 150 290; VeWait].
Definition moved_x (E : Ext) (atan2 : f64 -> f64 -> f64) (es : list viewer_event) : option f64 :=
  match session E atan2 1 0 es with Ok (v, _) => option_map (fun i => vx (mi_translation i)) (info (vw_touch v)) | _ => None end.
Theorem C75_refuted : forall E atan2, navigates 2 tap_while_dragging /\
  exists lost kept, moved_x E atan2 tap_while_dragging = Some lost /\
    moved_x E atan2 (filter (fun e => negb (of_finger 2 e)) tap_while_dragging) = Some kept /\
    feqb lost f0 = true /\ feqb kept (f_of_Z 5) = true.
Proof.
  intros E atan2. split.
  - apply navigates_test. vm_compute. reflexivity.
  - assert (X : match moved_x E atan2 tap_while_dragging with Some x => feqb x f0 | None => false end = true) by (vm_compute; reflexivity).
    assert (Y : match moved_x E atan2 (filter (fun e => negb (of_finger 2 e)) tap_while_dragging) with Some x => feqb x (f_of_Z 5) | None => false end = true) by (vm_compute; reflexivity).
    destruct (moved_x E atan2 tap_while_dragging) as [x|]; [|discriminate X].
    destruct (moved_x E atan2 (filter (fun e => negb (of_finger 2 e)) tap_while_dragging)) as [y|]; [|discriminate Y]. exists x, y. auto.
Qed.
Example C75_applies : forall E atan2, let es := [at_xy Started 1 10 10; at_xy Started 2 150 290; VeWait; at_xy Moved 1 15 10; at_xy Moved 2 160 290; VeWait] in
  navigates 2 es /\ stays 2 es /\ (exists v ss, session E atan2 1 0 es = Ok (v, ss)) /\
  exists w ss', session E atan2 1 0 (filter (fun e => negb (of_finger 2 e)) es) = Ok (w, ss').
Proof.
  intros E atan2 es. split; [|split].
  - apply navigates_test. vm_compute. reflexivity.
  - apply stays_test. vm_compute. reflexivity.
  - assert (Sn : forall l, (List.length l <= 6)%nat -> forallb (fun e => match e with VeRedraw _ => false | _ => true end) l = true ->
      exists v ss, session E atan2 1 0 l = Ok (v, ss)).
    { intros l L N. destruct (C74_runs E atan2 1 0 l) as (v & ss & R & _); [|eauto]. split; [lia|]. split; [lia|].
      intros m Hm. rewrite forallb_forall in N. now specialize (N _ Hm). }
    split; apply Sn; vm_compute; (reflexivity || lia).
Qed.
