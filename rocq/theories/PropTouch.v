(** C73: multi-touch gestures. *)
From Coq Require Import ZArith Bool List Lia Reals Lra Sorted.
From Flocq Require Import Core BinarySingleNaN.
From Verif Require Import F64 F64Facts Kurbo Value Stats Viewer Examples.
Import ListNotations.
Open Scope list_scope.
Open Scope Z_scope.

(** ** What happened *)
(** A touch event, or the end of a frame. *)
Inductive tev := TvTouch (t : touch) | TvFrame.
(** Where a finger is, given what happened, the latest first. *)
Fixpoint finger (h : list tev) (id : Z) : option point :=
  match h with
  | [] => None
  | TvFrame :: h => finger h id
  | TvTouch t :: h =>
      if te_id t =? id then
        match te_phase t with
        | Started => Some (te_pos t)
        | Moved => match finger h id with Some _ => Some (te_pos t) | None => None end
        | Ended | Cancelled => None
        end
      else finger h id
  end.
(** A finger was put down or lifted since the last frame. *)
Fixpoint changed (h : list tev) : bool :=
  match h with
  | [] | TvFrame :: _ => false
  | TvTouch t :: h => match te_phase t with Moved => changed h | _ => true end
  end.

(** [down h l]: [l] are the fingers that are down, in the order of their ids. *)
Definition down (h : list tev) (l : list (Z * point)) : Prop :=
  StronglySorted (fun a b => fst a < fst b) l /\ forall id p, In (id, p) l <-> finger h id = Some p.

(** The mean of some numbers, as computed with floats. *)
Definition mean (xs : list f64) : f64 :=
  fmul (fold_left fadd xs f0) (fdiv f1 (f_of_Z (Z.of_nat (List.length xs)))).
(** The centre of some fingers. *)
Definition centre (l : list (Z * point)) : point :=
  mkPoint (mean (map (fun e => px (snd e)) l)) (mean (map (fun e => py (snd e)) l)).

Section Touch.
Context (E : Ext) (atan2 : f64 -> f64 -> f64).
(** Their mean distance from the centre, and the direction from the first of
    them to the centre. *)
Definition spread (l : list (Z * point)) : f64 :=
  let c := centre l in mean (map (fun e => x_hypot E (fsub (px c) (px (snd e))) (fsub (py c) (py (snd e)))) l).
Definition heading (l : list (Z * point)) : f64 :=
  match l with
  | [] => f0
  | (_, p) :: _ => atan2 (fsub (py (centre l)) (py p)) (fsub (px (centre l)) (px p))
  end.
(** What the viewer's touch state is after that (the latest first). *)
Fixpoint touched (h : list tev) : touch_state :=
  match h with
  | [] => touch_new
  | TvTouch t :: h => touch_event (touched h) t
  | TvFrame :: h => end_frame E atan2 (touched h)
  end.
(** What it reports at the end of a frame. *)
Definition report (h : list tev) : option touch_info := info (touched (TvFrame :: h)).

(** *** The map of fingers *)
Inductive sorted_from : Z -> touches -> Prop :=
| sf_nil : forall k, sorted_from k []
| sf_cons : forall k id p l, k < id -> sorted_from id l -> sorted_from k ((id, p) :: l).
Lemma sorted_weaken k k' l : k' <= k -> sorted_from k l -> sorted_from k' l.
Proof. intros H S. inversion S; subst; constructor; [lia|assumption]. Qed.
Lemma insert_sorted id p : forall l k, k < id -> sorted_from k l -> sorted_from k (touch_insert id p l).
Proof.
  induction l as [|[i q] l IH]; intros k H S; cbn; [now repeat constructor|]. inversion S; subst.
  destruct (Z.ltb_spec id i); [now repeat constructor|]. destruct (Z.eqb_spec id i); [subst; now constructor|].
  constructor; [assumption|]. apply IH; [lia|assumption].
Qed.
Lemma insert_get id p : forall l k, sorted_from k l -> forall j, touch_get j (touch_insert id p l) = if id =? j then Some p else touch_get j l.
Proof.
  induction l as [|[i q] l IH]; intros k S j; cbn; [reflexivity|]. inversion S; subst.
  destruct (Z.ltb_spec id i).
  - cbn. reflexivity.
  - destruct (Z.eqb_spec id i).
    + subst. cbn. now destruct (Z.eqb_spec i j).
    + cbn. rewrite (IH _ H4). destruct (Z.eqb_spec i j), (Z.eqb_spec id j); try reflexivity. lia.
Qed.
Lemma get_below l k : sorted_from k l -> forall j, j <= k -> touch_get j l = None.
Proof.
  induction 1 as [|k id p l H S IH]; intros j Hj; [reflexivity|]. cbn. destruct (Z.eqb_spec id j); [lia|]. apply IH. lia.
Qed.
Lemma remove_sorted id : forall l k, sorted_from k l -> sorted_from k (touch_remove id l).
Proof.
  induction 1 as [|k i p l H S IH]; cbn; [constructor|]. destruct (Z.eqb_spec i id); cbn; [|now constructor].
  eapply sorted_weaken; [|exact IH]. lia.
Qed.
Lemma remove_get id : forall l j, touch_get j (touch_remove id l) = if id =? j then None else touch_get j l.
Proof.
  induction l as [|[i q] l IH]; intros j; cbn; [now destruct (id =? j)|]. destruct (Z.eqb_spec i id); cbn.
  - subst. rewrite IH. now destruct (Z.eqb_spec id j).
  - rewrite IH. destruct (Z.eqb_spec i j), (Z.eqb_spec id j); try reflexivity. lia.
Qed.

(** Ids are not negative. *)
Definition proper (h : list tev) : Prop := forall t, In (TvTouch t) h -> 0 <= te_id t.
Lemma proper_tl e h : proper (e :: h) -> proper h.
Proof. intros P t H. apply P. now right. Qed.
Lemma end_frame_active s : ts_active (end_frame E atan2 s) = ts_active s.
Proof. reflexivity. Qed.
Lemma touched_active h : proper h ->
  sorted_from (-1) (ts_active (touched h)) /\ forall id, touch_get id (ts_active (touched h)) = finger h id.
Proof.
  induction h as [|[t|] h IH]; intros P; [split; [constructor|reflexivity]| |].
  - specialize (IH (proper_tl _ _ P)). destruct IH as [S G]. cbn [touched finger]. pose proof (P t ltac:(now left)) as N.
    unfold touch_event. destruct (te_phase t) eqn:Ph; cbn [ts_active].
    + split; [apply insert_sorted; [lia|exact S]|]. intros id. rewrite (insert_get _ _ _ _ S), G. now destruct (te_id t =? id).
    + destruct (touch_get (te_id t) (ts_active (touched h))) as [q|] eqn:Q; cbn [ts_active].
      * split; [apply insert_sorted; [lia|exact S]|]. intros id. rewrite (insert_get _ _ _ _ S), G.
        destruct (Z.eqb_spec (te_id t) id) as [<-|]; [|reflexivity]. rewrite G in Q. now rewrite Q.
      * split; [exact S|]. intros id. rewrite G. destruct (Z.eqb_spec (te_id t) id) as [<-|]; [|reflexivity].
        rewrite <- G, Q. reflexivity.
    + split; [now apply remove_sorted|]. intros id. rewrite remove_get, G. now destruct (te_id t =? id).
    + split; [now apply remove_sorted|]. intros id. rewrite remove_get, G. now destruct (te_id t =? id).
  - specialize (IH (proper_tl _ _ P)). exact IH.
Qed.
Lemma sorted_get l k : sorted_from k l -> forall id p, In (id, p) l <-> touch_get id l = Some p.
Proof.
  induction 1 as [|k i q l H S IH]; intros id p; [split; [intros []|discriminate]|]. cbn. destruct (Z.eqb_spec i id) as [->|N].
  - split; [|intros [= <-]; now left]. intros [[= <-]|Hin]; [reflexivity|]. apply IH in Hin. rewrite (get_below _ _ S) in Hin by lia. discriminate.
  - rewrite <- IH. split; [intros [[= -> _]|Hin]; [now elim N|exact Hin]|auto].
Qed.
Lemma sorted_above l k : sorted_from k l -> forall id, In id (map fst l) -> k < id.
Proof.
  induction 1 as [|k i q l H S IH]; intros id Hin; [destruct Hin|]. destruct Hin as [<-|Hin]; [exact H|]. specialize (IH id Hin). lia.
Qed.
Lemma sorted_nodup l k : sorted_from k l -> NoDup (map fst l).
Proof.
  induction 1 as [|k i q l H S IH]; [constructor|]. cbn. constructor; [|exact IH]. intros Hin. apply (sorted_above _ _ S) in Hin. lia.
Qed.

(** *** The state between frames *)
Lemma changed_flag h : ts_changed (touched h) = changed h.
Proof.
  induction h as [|[t|] h IH]; cbn [touched changed]; [reflexivity| |reflexivity].
  unfold touch_event. destruct (te_phase t); cbn [ts_changed]; try reflexivity. now destruct (touch_get _ _).
Qed.
Lemma event_gesture s t : ts_gesture (touch_event s t) = ts_gesture s.
Proof. unfold touch_event. destruct (te_phase t); try reflexivity. now destruct (touch_get _ _). Qed.
Definition current (s : touch_state) : option dyn_gesture := option_map ge_current (ts_gesture s).
Lemma end_frame_current s : current (end_frame E atan2 s) = calc_dynamic_state E atan2 (ts_active s).
Proof.
  unfold current, end_frame, update_gesture. cbn [ts_gesture ts_changed ts_active].
  destruct (calc_dynamic_state E atan2 (ts_active s)) as [d|]; [|now destruct (ts_changed s)].
  now destruct (ts_changed s), (ts_gesture s).
Qed.

Lemma sorted_strong l k : sorted_from k l -> StronglySorted (fun a b => fst a < fst b) l.
Proof.
  induction 1 as [|k i q l H S IH]; [constructor|]. constructor; [exact IH|]. apply Forall_forall. intros [j p] Hin. cbn [fst].
  apply (sorted_above _ _ S). change j with (fst (j, p)). now apply in_map.
Qed.
Lemma sorted_unique (l l' : list (Z * point)) : StronglySorted (fun a b => fst a < fst b) l -> StronglySorted (fun a b => fst a < fst b) l' ->
  (forall x, In x l <-> In x l') -> l = l'.
Proof.
  intros S. revert l'. induction S as [|x l S IH F]; intros l' S' H.
  - destruct l' as [|y l']; [reflexivity|]. exfalso. apply (H y). now left.
  - destruct S' as [|y l' S' F']; [exfalso; apply (H x); now left|].
    assert (x = y) as ->.
    { destruct (proj1 (H x) ltac:(now left)) as [E1|E1]; [now symmetry|]. destruct (proj2 (H y) ltac:(now left)) as [E2|E2]; [exact E2|].
      rewrite Forall_forall in F, F'. specialize (F _ E2). specialize (F' _ E1). lia. }
    f_equal. apply IH; [exact S'|]. intros z. specialize (H z). cbn [In] in H. rewrite Forall_forall in F, F'. split; intros Hz.
    + destruct (proj1 H (or_intror Hz)) as [<-|]; [|assumption]. specialize (F _ Hz). lia.
    + destruct (proj2 H (or_intror Hz)) as [<-|]; [|assumption]. specialize (F' _ Hz). lia.
Qed.
Lemma down_active h l : proper h -> down h l -> ts_active (touched h) = l.
Proof.
  intros P [S D]. destruct (touched_active h P) as [Sa G]. apply sorted_unique; [eapply sorted_strong; exact Sa|exact S|].
  intros [id p]. rewrite D, <- G. eapply sorted_get. exact Sa.
Qed.
Lemma fold_map {A} (f : A -> f64) l a : fold_left (fun a e => fadd a (f e)) l a = fold_left fadd (map f l) a.
Proof. revert a. induction l as [|x l IH]; intros a; [reflexivity|]. cbn [fold_left map]. apply IH. Qed.
Lemma mean_map {A} (f : A -> f64) l : mean (map f l) = fmul (fold_left (fun a e => fadd a (f e)) l f0) (fdiv f1 (f_of_Z (Z.of_nat (List.length l)))).
Proof. unfold mean. now rewrite <- fold_map, map_length. Qed.
Lemma calc_measures l d : calc_dynamic_state E atan2 l = Some d ->
  dg_pos d = centre l /\ dg_distance d = spread l /\ dg_heading d = heading l.
Proof.
  intros H. assert (D : d = dyn_state E atan2 l (match l with [] => mkPoint f0 f0 | (_, p) :: _ => p end)).
  { destruct l as [|[i p] l]; [discriminate|]. unfold calc_dynamic_state in H. now injection H as <-. }
  assert (Hh : heading l = let c := centre l in let p := match l with [] => mkPoint f0 f0 | (_, p) :: _ => p end in atan2 (fsub (py c) (py p)) (fsub (px c) (px p))).
  { destruct l as [|[i p] l]; [discriminate|reflexivity]. }
  rewrite Hh, D. clear H D Hh. generalize (match l with [] => mkPoint f0 f0 | (_, p) :: _ => p end). intros p.
  unfold dyn_state. cbn [dg_pos dg_distance dg_heading]. unfold spread, centre. cbv zeta. cbn [px py]. rewrite !mean_map. cbn [px py]. auto.
Qed.

(** ** C73 *)
(** The fingers that are down count, each once; there is a report exactly if
    there are any, with their number and centre. *)
Theorem C73_fingers : forall h, proper h ->
  (exists l, down h l) /\ forall l, down h l ->
  (report h = None <-> l = []) /\
  forall i, report h = Some i -> mi_touches i = List.length l /\ mi_centre i = centre l.
Proof.
  intros h P. split.
  { exists (ts_active (touched h)). destruct (touched_active h P) as [S G]. split; [eapply sorted_strong; exact S|].
    intros id p. rewrite <- G. eapply sorted_get. exact S. }
  intros l D. pose proof (down_active h l P D) as A. split.
  - assert (R : report h = None <-> calc_dynamic_state E atan2 (ts_active (touched h)) = None).
    { rewrite <- end_frame_current. unfold report, info, current. cbn [touched].
      destruct (ts_gesture (end_frame E atan2 (touched h))) as [g|]; cbn [option_map]; [split; intros X; discriminate X|split; reflexivity]. }
    rewrite R, A. destruct l as [|[i p] l]; cbn [calc_dynamic_state]; split; (reflexivity || discriminate).
  - intros i R. pose proof (end_frame_current (touched h)) as C. rewrite A in C. unfold report, info in R. cbn [touched] in R.
    unfold current in C. destruct (ts_gesture (end_frame E atan2 (touched h))) as [g|] eqn:G; [|discriminate].
    cbv zeta in R. injection R as <-. cbn [mi_touches mi_centre]. change (ts_active (end_frame E atan2 (touched h))) with (ts_active (touched h)). rewrite A.
    split; [reflexivity|]. cbn [option_map] in C. symmetry in C. now apply calc_measures in C.
Qed.

(** A report of no movement; a quotient of 0 or of an infinity by itself is NaN. *)
Definition still (x : f64) : Prop := is_nan x = true \/ feqb x f0 = true.
Definition as_before (x : f64) : Prop := is_nan x = true \/ feqb x f1 = true.
Definition no_movement (i : touch_info) : Prop :=
  still (vx (mi_translation i)) /\ still (vy (mi_translation i)) /\ still (mi_rotation i) /\
  as_before (mi_zoom i) /\ as_before (vx (mi_zoom_2d i)) /\ as_before (vy (mi_zoom_2d i)) /\
  (is_finite (px (mi_centre i)) = true -> feqb (vx (mi_translation i)) f0 = true) /\
  (is_finite (py (mi_centre i)) = true -> feqb (vy (mi_translation i)) f0 = true).
Lemma fsub_self x : is_finite x = true -> feqb (fsub x x) f0 = true.
Proof. intros F. rewrite fsub_diag by exact F. reflexivity. Qed.
Lemma fsub_still x : still (fsub x x).
Proof. destruct (is_finite x) eqn:F; [right; now apply fsub_self|left]. destruct x as [| [] | |]; try discriminate; reflexivity. Qed.
Lemma fdiv_self x : as_before (fdiv x x).
Proof.
  unfold as_before. destruct x as [s|s| |s m e B]; [left; now destruct s|left; now destruct s|now left|].
  set (x := B754_finite s m e B). right. assert (N : B2R x <> 0%R).
  { unfold x. cbn [B2R]. apply F2R_neq_0. now destruct s. }
  destruct (fdiv_R x x eq_refl N) as [R F]; [unfold Rdiv; rewrite Rinv_r, Rabs_R1 by exact N; exact (bpow_le radix2 0 1023 ltac:(lia))|].
  unfold Rdiv in R. rewrite Rinv_r in R by exact N. rewrite <- f1_R in R. rewrite rnd_f64 in R.
  apply feqb_eq; [exact F|vm_compute; reflexivity|exact R].
Qed.
Lemma as_before_1 : as_before f1. Proof. right. vm_compute. reflexivity. Qed.
Lemma report_same g s : ts_gesture s = Some g -> (ge_previous g = None \/ ge_previous g = Some (ge_current g)) ->
  forall i, info s = Some i -> no_movement i.
Proof.
  intros Hg Hp i H. unfold info in H. rewrite Hg in H.
  assert (Pv : match ge_previous g with Some p => p | None => ge_current g end = ge_current g) by (destruct Hp as [-> | ->]; reflexivity).
  cbv zeta in H. rewrite Pv in H. clear Pv Hp Hg. injection H as <-.
  unfold no_movement. cbn [mi_translation mi_rotation mi_zoom mi_zoom_2d mi_centre vx vy].
  split; [apply fsub_still|]. split; [apply fsub_still|]. split; [apply fsub_still|].
  assert (Z : as_before (if (1 <? List.length (ts_active s))%nat then fdiv (dg_distance (ge_current g)) (dg_distance (ge_current g)) else f1))
    by (destruct (1 <? _)%nat; [apply fdiv_self|apply as_before_1]).
  split; [exact Z|].
  assert (Z2 : as_before (vx (if (1 <? List.length (ts_active s))%nat then
      match ge_pinch g with
      | PinchHorizontal => mkVec2 (fdiv (vx (dg_abs (ge_current g))) (vx (dg_abs (ge_current g)))) f1
      | PinchVertical => mkVec2 f1 (fdiv (vy (dg_abs (ge_current g))) (vy (dg_abs (ge_current g))))
      | PinchProportional => mkVec2 (if (1 <? List.length (ts_active s))%nat then fdiv (dg_distance (ge_current g)) (dg_distance (ge_current g)) else f1)
                                    (if (1 <? List.length (ts_active s))%nat then fdiv (dg_distance (ge_current g)) (dg_distance (ge_current g)) else f1)
      end else mkVec2 f1 f1)) /\ as_before (vy (if (1 <? List.length (ts_active s))%nat then
      match ge_pinch g with
      | PinchHorizontal => mkVec2 (fdiv (vx (dg_abs (ge_current g))) (vx (dg_abs (ge_current g)))) f1
      | PinchVertical => mkVec2 f1 (fdiv (vy (dg_abs (ge_current g))) (vy (dg_abs (ge_current g))))
      | PinchProportional => mkVec2 (if (1 <? List.length (ts_active s))%nat then fdiv (dg_distance (ge_current g)) (dg_distance (ge_current g)) else f1)
                                    (if (1 <? List.length (ts_active s))%nat then fdiv (dg_distance (ge_current g)) (dg_distance (ge_current g)) else f1)
      end else mkVec2 f1 f1))).
  { destruct (1 <? _)%nat; [|split; apply as_before_1]. destruct (ge_pinch g); cbn [vx vy]; split; (apply fdiv_self || apply as_before_1). }
  split; [apply Z2|]. split; [apply Z2|]. split; intros F; now apply fsub_self.
Qed.
(** Putting fingers down or lifting them is not movement, and neither is
    resting: in a frame with such a change, and in a frame in which nothing
    happened, no movement is reported. *)
Theorem C73_no_jump : forall h i, changed h = true \/ (exists h', h = TvFrame :: h') -> report h = Some i -> no_movement i.
Proof.
  intros h i [C|(h' & ->)] R.
  - unfold report in R. cbn [touched] in R. unfold end_frame in R. cbv zeta in R.
    change (ts_changed (update_gesture E atan2 (touched h))) with (ts_changed (touched h)) in R. rewrite changed_flag, C in R.
    destruct (ts_gesture (update_gesture E atan2 (touched h))) as [g|] eqn:G; [|discriminate].
    eapply report_same; [| |exact R]; [reflexivity|now left].
  - unfold report in R. cbn [touched] in R. set (s := end_frame E atan2 (touched h')) in *.
    assert (Ce : calc_dynamic_state E atan2 (ts_active s) = current s).
    { unfold s. rewrite end_frame_current. reflexivity. }
    unfold end_frame in R at 1. cbv zeta in R.
    change (ts_changed (update_gesture E atan2 s)) with false in R. cbv match in R.
    destruct (ts_gesture (update_gesture E atan2 s)) as [g|] eqn:G; [|unfold info in R; cbn [ts_gesture] in R; discriminate].
    eapply report_same; [| |exact R]; [reflexivity|].
    unfold update_gesture in G. cbn [ts_gesture] in G. rewrite Ce in G. unfold current in G.
    destruct (ts_gesture s) as [g0|]; cbn [option_map] in G; [|discriminate]. injection G as <-. cbn [ge_previous ge_current]. now right.
Qed.
(** Otherwise the movement reported is that of the fingers since the last
    frame: of their centre, their mean distance from it, and the direction. *)
Theorem C73_movement : forall moves h i j fs gs, proper (moves ++ TvFrame :: h) -> changed (moves ++ TvFrame :: h) = false ->
  Forall (fun e => e <> TvFrame) moves -> down h fs -> down (moves ++ TvFrame :: h) gs ->
  report h = Some i -> report (moves ++ TvFrame :: h) = Some j ->
  mi_translation j = mkVec2 (fsub (px (centre gs)) (px (centre fs))) (fsub (py (centre gs)) (py (centre fs))) /\
  mi_zoom j = (if (1 <? List.length gs)%nat then fdiv (spread gs) (spread fs) else f1) /\
  mi_rotation j = fsub (heading gs) (heading fs).
Proof.
  intros moves h i j fs gs P C NF Df Dg Ri Rj. pose proof (down_active _ _ P Dg) as Ag.
  assert (Ph : proper h) by (intros t Ht; apply P, in_or_app; right; now right).
  pose proof (down_active _ _ Ph Df) as Af. unfold report in Rj. cbn [touched] in Rj.
  assert (Gm : ts_gesture (touched (moves ++ TvFrame :: h)) = ts_gesture (touched (TvFrame :: h))).
  { clear -NF. induction NF as [|e m He NF IH]; [reflexivity|]. destruct e as [t|]; [|now elim He]. cbn [app touched]. now rewrite event_gesture. }
  pose proof (end_frame_current (touched h)) as Cu. rewrite Af in Cu. unfold current in Cu.
  unfold report in Ri. unfold info in Ri. cbn [touched] in Ri, Gm. destruct (ts_gesture (end_frame E atan2 (touched h))) as [g|] eqn:G; [|discriminate].
  clear Ri. cbn [option_map] in Cu. symmetry in Cu. apply calc_measures in Cu as (M1 & M2 & M3).
  unfold end_frame in Rj. cbv zeta in Rj.
  change (ts_changed (update_gesture E atan2 (touched (moves ++ TvFrame :: h)))) with (ts_changed (touched (moves ++ TvFrame :: h))) in Rj.
  rewrite changed_flag, C in Rj. cbv match in Rj. unfold update_gesture in Rj. cbn [ts_gesture ts_active] in Rj. rewrite Gm, Ag in Rj.
  destruct (calc_dynamic_state E atan2 gs) as [d|] eqn:Cg; [|discriminate]. apply calc_measures in Cg as (N1 & N2 & N3).
  unfold info in Rj. cbn [ts_gesture ge_previous ge_current ge_pinch ts_active] in Rj. injection Rj as <-.
  cbn [mi_translation mi_zoom mi_rotation]. rewrite M1, M2, M3, N1, N2, N3. auto.
Qed.
End Touch.

(** The documented promises that do not hold: a single finger is reported too,
    and two fingers at the same place have no zoom factor. *)
Definition finger_down (id : Z) (x y : Z) : tev := TvTouch (mkTouchEv Started id (mkPoint (f_of_Z x) (f_of_Z y))).
Theorem C73_refuted : forall E atan2,
  (exists i, report E atan2 [finger_down 1 3 4] = Some i /\ mi_touches i = 1%nat) /\
  (x_hypot E f0 f0 = f0 ->
   exists i, report E atan2 [TvFrame; finger_down 2 3 4; finger_down 1 3 4] = Some i /\ is_nan (mi_zoom i) = true).
Proof.
  intros E atan2. split; [eexists; split; reflexivity|]. intros H. eexists. split; [reflexivity|].
  set (l := [(1, mkPoint (f_of_Z 3) (f_of_Z 4)); (2, mkPoint (f_of_Z 3) (f_of_Z 4))]).
  change (is_nan (fdiv (spread E l) (spread E l)) = true).
  assert (S : spread E l = f0).
  { unfold spread. cbv zeta.
    assert (C1 : forall e, In e l -> fsub (px (centre l)) (px (snd e)) = f0) by (intros e [<-|[<-|[]]]; apply B2SF_inj; vm_compute; reflexivity).
    assert (C2 : forall e, In e l -> fsub (py (centre l)) (py (snd e)) = f0) by (intros e [<-|[<-|[]]]; apply B2SF_inj; vm_compute; reflexivity).
    rewrite (map_ext_in _ (fun _ => f0)); [apply B2SF_inj; vm_compute; reflexivity|]. intros e He. now rewrite C1, C2. }
  rewrite S. reflexivity.
Qed.
Example C73_applies : forall E atan2,
  let h := [finger_down 2 10 0; finger_down 1 0 0] in
  let moves := [TvTouch (mkTouchEv Moved 2 (mkPoint (f_of_Z 20) f0))] in
  proper (moves ++ TvFrame :: h) /\ changed (moves ++ TvFrame :: h) = false /\ changed h = true /\
  down h [(1, mkPoint (f_of_Z 0) (f_of_Z 0)); (2, mkPoint (f_of_Z 10) (f_of_Z 0))] /\
  (exists i, report E atan2 h = Some i) /\ (exists j, report E atan2 (moves ++ TvFrame :: h) = Some j).
Proof.
  intros E atan2 h moves. split; [|split; [reflexivity|split; [reflexivity|split; [|split; eexists; reflexivity]]]].
  - intros t [H|[H|[H|[H|[]]]]]; try discriminate; injection H as <-; cbn [te_id]; lia.
  - split; [repeat constructor|]. intros id p. unfold h, finger_down. cbn [finger te_id te_phase te_pos In].
    destruct (Z.eqb_spec 2 id) as [<-|N2]; [|destruct (Z.eqb_spec 1 id) as [<-|N1]].
    + split; [intros [H|[H|[]]]; [discriminate|injection H as <-; reflexivity]|intros [= <-]; auto].
    + split; [intros [H|[H|[]]]; [injection H as <-; reflexivity|discriminate]|intros [= <-]; auto].
    + split; [intros [H|[H|[]]]; injection H as <- <-; [now elim N1|now elim N2]|discriminate].
Qed.
