(** C14, C92: for all trees of groups, geometry and draws: exactly which geometry a
    draw paints, and exactly when that is all the geometry above it. *)
From Coq Require Import ZArith Bool List Arith String Lia.
From Verif Require Import F64 Kurbo Value Animated Batch Render RenderFacts BatchFacts BatchSpec BatchRefine BatchFacts2 Examples PropBatch.
Import ListNotations.
Close Scope string_scope.
Open Scope list_scope.
Open Scope nat_scope.

(** ** Specification *)
(** What happens in a shape, in the order of the document: paths and draws. *)
Inductive event := EvPath (t : affine) (els : list path_el) | EvDraw.
Fixpoint events_in (E : Ext) (frame : f64) (tf : affine) (sh : shape) : list event :=
  match sh with
  | ShGroup shs t => flat_map (events_in E frame (affine_mul tf (group_tf E t frame))) shs
  | ShGeometry g => [EvPath tf (path_at E g frame)]
  | ShDraw _ => [EvDraw]
  | _ => []
  end.
(** The geometry of a list of events. *)
Definition marks_of (es : list event) : marks :=
  flat_map (fun e => match e with EvPath t els => place t els | EvDraw => [] end) es.
(** Where the last path that is not drawn yet has been placed. *)
Fixpoint undrawn (r : option affine) (es : list event) : option affine :=
  match es with
  | [] => r
  | EvPath t _ :: es => undrawn (match r with Some a => if affine_eqb a t then r else Some t | None => Some t end) es
  | EvDraw :: es => undrawn None es
  end.
(** How much of the geometry at the start of a group continues an undrawn path
    in front of the group: all paths at the same place as that, up to the first
    draw. *)
Fixpoint continuing (r : option affine) (es : list event) : nat :=
  match r, es with
  | Some a, EvPath t els :: es => if affine_eqb a t then List.length els + continuing r es else 0
  | _, _ => 0
  end.
(** The draws of a shape in document order, each with what it paints: the
    geometry in front of it in its group, without the [lost] first elements of
    the group, which continue a path in front of the group.  [before]: what is
    in front of the group, [front]: what is in front of the shape in the group. *)
Section KeptAmong.
  Variable draws_of : list event -> shape -> list (style * marks).
  Variable events_of : shape -> list event.
  Fixpoint kept_among (front : list event) (shs : list shape) : list (style * marks) :=
    match shs with
    | [] => []
    | s :: shs => draws_of front s ++ kept_among (front ++ events_of s) shs
    end.
End KeptAmong.
Fixpoint draws_kept (E : Ext) (frame : f64) (tf : affine) (alpha : f64) (before : list event) (lost : nat) (front : list event) (sh : shape)
  : list (style * marks) :=
  match sh with
  | ShGroup shs t =>
      let tf := affine_mul tf (group_tf E t frame) in
      let alpha := fmul alpha (group_alpha E t frame) in
      let lost := continuing (undrawn None (before ++ front)) (flat_map (events_in E frame tf) shs) in
      kept_among (draws_kept E frame tf alpha (before ++ front) lost) (events_in E frame tf) [] shs
  | ShDraw d => [(style_of E d alpha frame, skipn lost (marks_of front))]
  | _ => []
  end.
(** The draws of a layer. *)
Definition layer_kept (E : Ext) (frame : f64) (tf : affine) (alpha : f64) (shs : list shape) : list (style * marks) :=
  kept_among (draws_kept E frame tf alpha [] 0) (events_in E frame tf) [] shs.

(** ** Lists of events *)
Lemma marks_app a b : marks_of (a ++ b) = marks_of a ++ marks_of b.
Proof. apply flat_map_app. Qed.
Lemma undrawn_app r a b : undrawn r (a ++ b) = undrawn (undrawn r a) b.
Proof. revert r. induction a as [|[t els|] a IH]; intros r; cbn [app undrawn]; auto. Qed.
Fixpoint all_continue (r : option affine) (es : list event) : bool :=
  match es with
  | [] => true
  | EvPath t _ :: es => match r with Some a => affine_eqb a t && all_continue r es | None => false end
  | EvDraw :: _ => false
  end.
Lemma place_length t els : List.length (place t els) = List.length els.
Proof. apply map_length. Qed.
Lemma continuing_app r a b : continuing r (a ++ b) = if all_continue r a then List.length (marks_of a) + continuing r b else continuing r a.
Proof.
  induction a as [|[t els|] a IH]; cbn [app all_continue].
  - reflexivity.
  - destruct r as [x|]; [|reflexivity]. cbn [continuing]. destruct (affine_eqb x t); [|reflexivity]. cbn [andb]. rewrite IH.
    destruct (all_continue (Some x) a); [|reflexivity]. cbn [marks_of flat_map]. rewrite app_length, place_length. fold (marks_of a). lia.
  - destruct r; reflexivity.
Qed.
Lemma continuing_none es : continuing None es = 0. Proof. destruct es; reflexivity. Qed.
Lemma all_continue_app r a b : all_continue r (a ++ b) = all_continue r a && all_continue r b.
Proof.
  induction a as [|[t els|] a IH]; cbn [app all_continue]; [reflexivity| |reflexivity]. destruct r as [x|]; [|reflexivity]. rewrite IH. now rewrite andb_assoc.
Qed.
Lemma continuing_all r es : all_continue r es = true -> continuing r es = List.length (marks_of es).
Proof. intros H. pose proof (continuing_app r es []) as X. rewrite H, app_nil_r in X. rewrite X. destruct r; cbn; lia. Qed.
Lemma continuing_le r es : continuing r es <= List.length (marks_of es).
Proof.
  induction es as [|[t els|] es IH]; [destruct r; cbn; lia| |destruct r; cbn; lia]. destruct r as [a|]; [|cbn; lia]. cbn [continuing marks_of flat_map].
  rewrite app_length, place_length. fold (marks_of es). destruct (affine_eqb a t); lia.
Qed.
Lemma undrawn_all r es : all_continue r es = true -> undrawn r es = r.
Proof.
  induction es as [|[t els|] es IH]; cbn [all_continue undrawn]; [reflexivity| |discriminate]. destruct r as [a|]; [|discriminate].
  intros H. apply andb_prop in H as [H1 H2]. rewrite H1. auto.
Qed.
Lemma marks_events E frame : forall sh tf, marks_of (events_in E frame tf sh) = geometry_in E frame tf sh.
Proof.
  induction sh using shape_ind'; intros tf; try reflexivity.
  - cbn [events_in geometry_in]. induction H as [|s shs Hs _ IH]; [reflexivity|]. cbn [flat_map]. now rewrite marks_app, Hs, IH.
  - cbn. now rewrite app_nil_r.
Qed.

(** ** The batch *)
Definition geos (b : batch) : list outline := map (geo_of (b_elements b)) (b_geoms b).
Record state (b : batch) (ev : list event) : Prop := mkState {
  st_run : match undrawn None ev with
    | None => b_drawn b = List.length (b_geoms b)
    | Some a => b_drawn b < List.length (b_geoms b) /\ exists l g, b_geoms b = l ++ [g] /\ gd_transform g = a /\ gd_end g = List.length (b_elements b)
    end;
  st_draws : Forall (fun d => dd_end d <= b_drawn b) (b_draws b) }.
(** The part of the batch from [gs] on is the group entered after [ev0], of
    which [es] has happened. *)
Record part (gs : nat) (ev0 es : list event) (b : batch) : Prop := mkPart {
  pt_gs : gs <= List.length (b_geoms b);
  pt_all : all_continue (undrawn None ev0) es = true -> gs = List.length (b_geoms b);
  pt_some : all_continue (undrawn None ev0) es = false -> gs < List.length (b_geoms b) \/ undrawn None (ev0 ++ es) = None;
  pt_sim : sim (flatten (skipn gs (geos b))) (skipn (continuing (undrawn None ev0) es) (marks_of es)) }.
Definition frozen (b b' : batch) : Prop :=
  b_drawn b <= b_drawn b' /\ List.length (b_geoms b) <= List.length (b_geoms b') /\ firstn (b_drawn b) (geos b') = firstn (b_drawn b) (geos b).
Lemma frozen_refl b : frozen b b. Proof. repeat split; auto. Qed.
Lemma frozen_trans a b c : frozen a b -> frozen b c -> frozen a c.
Proof.
  intros (A1 & A2 & A3) (B1 & B2 & B3). split; [lia|]. split; [lia|]. rewrite <- A3.
  rewrite <- (Nat.min_l (b_drawn a) (b_drawn b)) by lia. rewrite <- !firstn_firstn. now rewrite B3.
Qed.
Lemma geos_length b : List.length (geos b) = List.length (b_geoms b).
Proof. apply map_length. Qed.
Lemma sim_skipn n a b : sim a b -> sim (skipn n a) (skipn n b).
Proof. intros H. revert n. induction H; intros [|n]; cbn; try constructor; auto. Qed.
(** A path joins the last outline, or is a new one. *)
Lemma push_path E gs ds b g tf frame els ev : geometry_eval E g frame = Ok els -> ok_path els -> binv gs ds b -> state b ev ->
  exists b', push_geometry E b g tf frame = Ok b' /\ binv gs ds b' /\ b_draws b' = b_draws b /\ b_drawn b' = b_drawn b /\ state b' (ev ++ [EvPath tf els]) /\
    match undrawn None ev with
    | Some a => if affine_eqb a tf then exists l p, geos b = l ++ [(p, a)] /\ geos b' = l ++ [(p ++ els, a)] /\ b_drawn b <= List.length l
                else geos b' = geos b ++ [(els, tf)]
    | None => geos b' = geos b ++ [(els, tf)]
    end.
Proof.
  intros Hg Hp I [Ru Dr]. idtac. destruct (push_geometry_inv E gs ds b g tf frame els Hg Hp I) as (b' & H1 & I' & Dd & El & Dn & Gm).
  exists b'. split; [exact H1|]. split; [exact I'|]. split; [exact Dd|]. split; [exact Dn|]. pose proof I as [].
  assert (New : can_merge b tf = false -> geos b' = geos b ++ [(els, tf)]).
  { intros Em. rewrite Em in Gm. unfold geos. rewrite Gm, El, map_app, geoms_grow by auto. f_equal. cbn [map]. unfold geo_of, path_of. cbn [gd_start gd_end gd_transform].
    rewrite app_length, skipn_len_app by reflexivity. replace (List.length (b_elements b) + List.length els - List.length (b_elements b)) with (List.length els) by lia. now rewrite firstn_all. }
  assert (Fresh : can_merge b tf = false -> b_drawn b' < List.length (b_geoms b') /\ exists l g, b_geoms b' = l ++ [g] /\ gd_transform g = tf /\ gd_end g = List.length (b_elements b')).
  { intros Em. rewrite Em in Gm. rewrite Gm, Dn, app_length. cbn [List.length]. split; [lia|]. eexists _, _. split; [reflexivity|]. rewrite El. split; reflexivity. }
  destruct (undrawn None ev) as [a|] eqn:Eu.
  - destruct Ru as [Lt (l & gl & Gl & Ta & Ge)]. assert (Cm : can_merge b tf = affine_eqb a tf).
    { unfold can_merge. rewrite Gl, last_opt_app, Ta. rewrite Gl in Lt. apply Nat.ltb_lt in Lt. now rewrite Lt. }
    destruct (affine_eqb a tf) eqn:Ea.
    + rewrite Cm, Gl, set_last_end_app in Gm.
      assert (Gok : Forall (geom_ok (b_elements b)) l /\ geom_ok (b_elements b) gl).
      { rewrite Gl in bi_geoms. apply Forall_app in bi_geoms as [X Y]. inversion Y. auto. }
      destruct Gok as [Gok1 [K1 K2 K3]]. split.
      * split; [|now rewrite Dd, Dn]. rewrite undrawn_app, Eu. cbn [undrawn]. rewrite Ea. rewrite Gm, Dn. rewrite Gl in Lt. rewrite app_length in *. cbn [List.length] in *. split; [exact Lt|].
        eexists _, _. split; [reflexivity|]. cbn [gd_transform gd_end]. rewrite El. auto.
      * exists (map (geo_of (b_elements b)) l), (path_of (b_elements b) gl). unfold geos. split; [|split].
        -- rewrite Gl, map_app. cbn [map]. unfold geo_of at 2. now rewrite Ta.
        -- rewrite Gm, El, map_app, geoms_grow by auto. f_equal. cbn [map]. unfold geo_of, path_of. cbn [gd_start gd_end gd_transform]. rewrite Ta. do 2 f_equal.
           rewrite Ge in *. rewrite skipn_app. replace (gd_start gl - List.length (b_elements b)) with 0 by lia. cbn [skipn].
           rewrite !firstn_all2; auto; rewrite ?app_length, ?skipn_length; lia.
        -- rewrite map_length. rewrite Gl, app_length in Lt. cbn in Lt. lia.
    + split; [|now apply New]. split; [|now rewrite Dd, Dn]. rewrite undrawn_app, Eu. cbn [undrawn]. rewrite Ea. now apply Fresh.
  - assert (Cm : can_merge b tf = false) by (unfold can_merge; rewrite Ru, Nat.ltb_irrefl; reflexivity).
    split; [|now apply New]. split; [|now rewrite Dd, Dn]. rewrite undrawn_app, Eu. cbn [undrawn]. now apply Fresh.
Qed.
Lemma part_path gs v0 v1 b b' tf els : part gs v0 v1 b -> b_drawn b <= List.length (geos b) ->
  match undrawn None (v0 ++ v1) with
    | Some a => if affine_eqb a tf then exists l p, geos b = l ++ [(p, a)] /\ geos b' = l ++ [(p ++ els, a)] /\ b_drawn b <= List.length l
                else geos b' = geos b ++ [(els, tf)]
    | None => geos b' = geos b ++ [(els, tf)]
    end -> part gs v0 (v1 ++ [EvPath tf els]) b'.
Proof.
  intros [P1 P2 P3 P4] _ G. rewrite <- (geos_length b) in *.
  assert (New : geos b' = geos b ++ [(els, tf)] -> all_continue (undrawn None v0) (v1 ++ [EvPath tf els]) = false -> part gs v0 (v1 ++ [EvPath tf els]) b').
  { intros Ng Na. assert (Ln : List.length (b_geoms b') = S (List.length (geos b))) by (rewrite <- geos_length, Ng, app_length; cbn; lia).
    split; [lia|congruence|lia|]. rewrite Ng, skipn_app, flatten_app. replace (gs - List.length (geos b)) with 0 by lia. rewrite continuing_app, marks_app, skipn_app.
    cbn [skipn flatten flat_map fst snd marks_of]. rewrite !app_nil_r. rewrite all_continue_app in Na.
    destruct (all_continue (undrawn None v0) v1) eqn:Ac.
    - cbn [andb] in Na. assert (C0 : continuing (undrawn None v0) [EvPath tf els] = 0).
      { cbn [continuing all_continue] in *. destruct (undrawn None v0) as [a|]; [|reflexivity]. rewrite andb_true_r in Na. now rewrite Na. }
      rewrite C0, Nat.add_0_r, Nat.sub_diag, skipn_all. rewrite (continuing_all _ _ Ac), skipn_all in P4. cbn [skipn]. apply sim_app; [exact P4|apply sim_refl].
    - pose proof (continuing_le (undrawn None v0) v1) as Le. replace (continuing (undrawn None v0) v1 - List.length (marks_of v1)) with 0 by lia. cbn [skipn]. apply sim_app; [exact P4|apply sim_refl]. }
  rewrite undrawn_app in *. destruct (undrawn (undrawn None v0) v1) as [a|] eqn:Eu.
  - destruct (affine_eqb a tf) eqn:Ea.
    + destruct G as (l & p & Gb & Gb' & _). assert (Ln : List.length (b_geoms b') = List.length (geos b)) by (rewrite <- geos_length, Gb', Gb, !app_length; reflexivity).
      split; rewrite ?Ln.
      * exact P1.
      * rewrite all_continue_app. intros H. apply andb_prop in H as [H _]. auto.
      * rewrite all_continue_app. intros H. destruct (all_continue (undrawn None v0) v1) eqn:Ac; [|destruct (P3 eq_refl); [auto|discriminate]].
        rewrite (undrawn_all _ _ Ac) in Eu. rewrite Eu in H. cbn in H. rewrite Ea in H. discriminate.
      * rewrite continuing_app, marks_app. destruct (all_continue (undrawn None v0) v1) eqn:Ac.
        -- specialize (P2 eq_refl). rewrite (undrawn_all _ _ Ac) in Eu. rewrite Eu. cbn [continuing marks_of flat_map]. rewrite Ea, app_nil_r, Nat.add_0_r.
           rewrite !skipn_all2; [constructor| |]; rewrite ?app_length, ?place_length; [lia|]. rewrite Gb', P2, Gb, !app_length. cbn. lia.
        -- destruct (P3 eq_refl) as [Lt|]; [|discriminate]. pose proof (continuing_le (undrawn None v0) v1) as Le. rewrite skipn_app.
           replace (continuing (undrawn None v0) v1 - List.length (marks_of v1)) with 0 by lia. cbn [skipn marks_of flat_map]. rewrite app_nil_r.
           rewrite Gb, app_length in Lt. cbn in Lt. rewrite Gb, skipn_app in P4. rewrite Gb', skipn_app. replace (gs - List.length l) with 0 in * by lia. cbn [skipn] in *.
           rewrite flatten_app in *. cbn [flatten flat_map fst snd] in *. rewrite !app_nil_r in *. rewrite place_app, app_assoc. apply sim_app; [exact P4|]. apply sim_place. now right.
    + apply New; [exact G|]. rewrite all_continue_app. destruct (all_continue (undrawn None v0) v1) eqn:Ac; [|reflexivity]. rewrite (undrawn_all _ _ Ac) in Eu. rewrite Eu. cbn. now rewrite Ea.
  - apply New; [exact G|]. rewrite all_continue_app. destruct (all_continue (undrawn None v0) v1) eqn:Ac; [|reflexivity]. rewrite (undrawn_all _ _ Ac) in Eu. now rewrite Eu.
Qed.
Lemma part_draw E gs v0 v1 b d alpha g0 frame : part gs v0 v1 b -> part gs v0 (v1 ++ [EvDraw]) (push_draw E b d alpha g0 frame).
Proof.
  intros [P1 P2 P3 P4]. split; cbn [push_draw b_geoms].
  - exact P1.
  - rewrite all_continue_app. cbn [all_continue]. rewrite andb_false_r. discriminate.
  - intros _. right. rewrite undrawn_app, undrawn_app. reflexivity.
  - unfold geos. cbn [push_draw b_geoms b_elements]. fold (geos b). rewrite continuing_app, marks_app. cbn [marks_of flat_map]. rewrite app_nil_r.
    destruct (all_continue (undrawn None v0) v1) eqn:Ac; [|exact P4]. rewrite (continuing_all _ _ Ac) in P4. replace (continuing (undrawn None v0) [EvDraw]) with 0 by (destruct (undrawn None v0); reflexivity).
    now rewrite Nat.add_0_r.
Qed.
(** A draw of the finished batch paints what the specification says. *)
Definition painted (b : batch) (d : draw_data) (s : style * marks) : Prop :=
  style_dd d = fst s /\ dd_start d <= dd_end d <= b_drawn b /\ sim (flatten (firstn (dd_end d - dd_start d) (skipn (dd_start d) (geos b)))) (snd s).
Lemma painted_later b b' d s : frozen b b' -> b_drawn b <= List.length (geos b) -> painted b d s -> painted b' d s.
Proof.
  intros (F1 & F2 & F3) Lb (P1 & P2 & P3). split; [exact P1|]. split; [lia|].
  assert (X : forall l : list outline, firstn (dd_end d - dd_start d) (skipn (dd_start d) l) = firstn (dd_end d - dd_start d) (skipn (dd_start d) (firstn (b_drawn b) l))).
  { intros l. rewrite skipn_firstn_comm, firstn_firstn, Nat.min_l by lia. reflexivity. }
  now rewrite X, F3, <- X.
Qed.
Definition walks (E : Ext) (draw_events : affine -> f64 -> f64 -> nat -> nat -> batch -> res batch)
  (evs : f64 -> affine -> list event) (kept : f64 -> affine -> f64 -> list event -> nat -> list event -> list (style * marks)) : Prop :=
  forall tf alpha frame gs ds b ev0 es rest, binv gs ds b -> state b (ev0 ++ es) -> part gs ev0 es b ->
  exists b' new, draw_events tf alpha frame gs ds b = Ok b' /\ binv gs ds b' /\ b_draws b' = b_draws b ++ new /\
    state b' ((ev0 ++ es) ++ evs frame tf) /\ frozen b b' /\
    (forall g1 v0 v1, v0 ++ v1 = ev0 ++ es -> part g1 v0 v1 b -> part g1 v0 (v1 ++ evs frame tf) b') /\
    Forall2 (painted b') new (kept frame tf alpha ev0 (continuing (undrawn None ev0) (es ++ evs frame tf ++ rest)) es).
Definition walk (E : Ext) (sh : shape) : Prop :=
  walks E (fun tf alpha frame gs ds b => render_shape E tf alpha frame gs ds sh b) (fun frame tf => events_in E frame tf sh)
    (fun frame tf alpha before lost front => draws_kept E frame tf alpha before lost front sh).
Lemma Forall2_painted_later b b' l l' : frozen b b' -> b_drawn b <= List.length (geos b) -> Forall2 (painted b) l l' -> Forall2 (painted b') l l'.
Proof. intros F L H. induction H; constructor; auto. eapply painted_later; eauto. Qed.
Lemma walk_list E shs : Forall (walk E) shs ->
  walks E (fun tf alpha frame gs ds b => fold_shapes (render_shape E tf alpha frame gs ds) shs b) (fun frame tf => flat_map (events_in E frame tf) shs)
    (fun frame tf alpha before lost front => kept_among (draws_kept E frame tf alpha before lost) (events_in E frame tf) front shs).
Proof.
  induction 1 as [|sh shs H _ IH]; intros tf alpha frame gs ds b ev0 es rest I S P; cbn [fold_shapes flat_map kept_among].
  - exists b, []. rewrite !app_nil_r. split; [reflexivity|]. split; [exact I|]. split; [reflexivity|]. split; [exact S|]. split; [apply frozen_refl|].
    split; [intros; now rewrite app_nil_r|constructor].
  - destruct (H tf alpha frame gs ds b ev0 es (flat_map (events_in E frame tf) shs ++ rest) I S P) as (b1 & n1 & R1 & I1 & D1 & S1 & F1 & Q1 & K1).
    rewrite R1. cbn [bind]. rewrite <- app_assoc in S1.
    destruct (IH tf alpha frame gs ds b1 ev0 (es ++ events_in E frame tf sh) rest I1 S1 (Q1 gs ev0 es eq_refl P)) as (b2 & n2 & R2 & I2 & D2 & S2 & F2 & Q2 & K2).
    exists b2, (n1 ++ n2). split; [exact R2|]. split; [exact I2|]. split; [now rewrite D2, D1, app_assoc|].
    split; [now rewrite !app_assoc in *|]. split; [eapply frozen_trans; eauto|]. split.
    + intros g1 v0 v1 Ev Pv. rewrite app_assoc. apply Q2; [rewrite app_assoc, Ev, app_assoc; reflexivity|]. now apply Q1.
    + rewrite !app_assoc in *. rewrite <- !app_assoc in *. apply Forall2_app; [|exact K2]. eapply Forall2_painted_later; [exact F2| |exact K1]. rewrite geos_length. apply (bi_drawn _ _ _ I1).
Qed.
Lemma walk_all E sh : plain sh -> all_geometry (sound_geometry E) sh -> walk E sh.
Proof.
  induction sh using shape_ind'; intros Hp Hs tf alpha frame gs ds b ev0 es rest I S P; try contradiction.
  - apply plain_group in Hp. apply all_geometry_group in Hs. cbn [render_shape events_in draws_kept].
    assert (HF : Forall (walk E) shs) by (rewrite Forall_forall in *; auto).
    assert (Ge : group_tf E t frame = fst (group_params E t frame) /\ group_alpha E t frame = snd (group_params E t frame)).
    { destruct t; split; reflexivity. }
    destruct Ge as [-> ->]. set (tf' := affine_mul tf _). set (alpha' := fmul alpha _).
    destruct (walk_list E shs HF tf' alpha' frame (List.length (b_geoms b)) (List.length (b_draws b)) b (ev0 ++ es) [] [] (binv_enter gs ds b I)) as (b' & new & R & I' & D & S' & F & Q & K).
    + now rewrite app_nil_r.
    + split; [lia|reflexivity|discriminate|]. rewrite <- geos_length, skipn_all. destruct (undrawn None (ev0 ++ es)); constructor.
    + rewrite !app_nil_r in *. cbn [app] in K. exists b', new. split; [exact R|]. split.
      { eapply binv_leave; [exact I|exact I'|]. now rewrite D, firstn_app, firstn_all, Nat.sub_diag, app_nil_r. }
      split; [exact D|]. split; [exact S'|]. split; [exact F|]. split; [|exact K].
      intros g1 v0 v1 Ev Pv. apply Q; auto.
  - destruct (Hs frame) as (els & H1 & H2). cbn [render_shape events_in draws_kept]. unfold path_at. rewrite H1.
    destruct (push_path E gs ds b g tf frame els (ev0 ++ es) H1 H2 I S) as (b' & R & I' & D & Dn & S' & G).
    exists b', []. split; [exact R|]. split; [exact I'|]. split; [now rewrite D, app_nil_r|]. split; [exact S'|]. split; [|split; [|constructor]].
    + split; [lia|]. rewrite <- !geos_length. destruct I. destruct (undrawn None (ev0 ++ es)) as [a|]; [destruct (affine_eqb a tf)|].
      * destruct G as (l & p & Gb & Gb' & Lb). rewrite Gb, Gb', !app_length. split; [cbn; lia|]. rewrite !firstn_app. replace (b_drawn b - List.length l) with 0 by lia. reflexivity.
      * rewrite G, app_length. split; [lia|]. rewrite firstn_app. rewrite geos_length. replace (b_drawn b - List.length (b_geoms b)) with 0 by lia. now rewrite app_nil_r.
      * rewrite G, app_length. split; [lia|]. rewrite firstn_app. rewrite geos_length. replace (b_drawn b - List.length (b_geoms b)) with 0 by lia. now rewrite app_nil_r.
    + intros g1 v0 v1 Ev Pv. eapply part_path; [exact Pv|rewrite geos_length; apply (bi_drawn _ _ _ I)|]. rewrite Ev. exact G.
  - cbn [render_shape events_in draws_kept]. eexists _, _. split; [reflexivity|]. split; [now apply push_draw_inv|]. split; [reflexivity|]. split; [|split; [|split]].
    + split; [now rewrite undrawn_app|]. cbn [push_draw b_draws b_drawn]. apply Forall_app. split; [|constructor; [|constructor]; cbn; lia].
      eapply Forall_impl; [|apply (st_draws _ _ S)]. cbn. intros x. pose proof (bi_drawn _ _ _ I). lia.
    + split; [apply (bi_drawn _ _ _ I)|]. split; [cbn; lia|]. reflexivity.
    + intros g1 v0 v1 Ev Pv. now apply part_draw.
    + constructor; [|constructor]. destruct P as [P1 P2 P3 P4]. split; [reflexivity|]. cbn [push_draw draw_new dd_start dd_end b_drawn snd]. split; [lia|].
      unfold geos. cbn [push_draw b_geoms b_elements]. fold (geos b). rewrite firstn_all2 by (rewrite skipn_length, geos_length; lia).
      rewrite continuing_app. destruct (all_continue (undrawn None ev0) es) eqn:Ac; [|exact P4]. rewrite (continuing_all _ _ Ac) in P4.
      replace (continuing (undrawn None ev0) ([EvDraw] ++ rest)) with 0 by (destruct (undrawn None ev0); reflexivity). now rewrite Nat.add_0_r.
Qed.

(** ** C92 *)
(** For every tree of groups, geometry and draws: a draw paints exactly the
    geometry in front of it in its group, except for what at the start of the
    group continues an undrawn path in front of the group at an equal place. *)
Theorem C92_paints : forall E tf alpha frame shs,
  Forall plain shs -> Forall (all_geometry (sound_geometry E)) shs ->
  exists calls, layer_paints E tf alpha frame shs = Ok (List.concat (rev calls)) /\
    Forall2 (paints_marks E) (layer_kept E frame tf alpha shs) calls.
Proof.
  intros E tf alpha frame shs Hp Hs.
  assert (HF : Forall (walk E) shs) by (rewrite Forall_forall in *; intros; apply walk_all; auto).
  destruct (walk_list E shs HF tf alpha frame 0 0 batch_empty [] [] [] binv_empty) as (b & new & R & I & D & S & F & Q & K).
  - split; [reflexivity|constructor].
  - split; [cbn; lia|reflexivity|discriminate|constructor].
  - cbn [app b_draws batch_empty continuing undrawn] in *. exists (map (draw_paints E b) new). unfold layer_paints, render_shapes. cbn [batch_empty b_geoms b_draws List.length].
    rewrite R. cbn [bind]. rewrite (batch_render_eq E 0 0 b I), D. split; [now rewrite map_rev|]. unfold layer_kept.
    rewrite continuing_none in K. revert K. generalize (kept_among (draws_kept E frame tf alpha [] 0) (events_in E frame tf) [] shs). clear. intros ks K.
    induction K as [|d s l l' (P1 & P2 & P3) _ IH]; [constructor|]. cbn [map]. constructor; [|exact IH]. unfold draw_paints. split.
    + apply Forall_map, Forall_forall. intros g _. split; cbn [pt_stroke pt_brush]; [now rewrite <- P1|]. rewrite draw_brush_style. now rewrite P1.
    + unfold geos in P3.
      unfold flatten in P3. rewrite !flat_map_concat_map, !map_map in *. cbn [pt_transform pt_path].
      assert (X : forall n m (x : list geom_data), firstn n (skipn m (map (geo_of (b_elements b)) x)) = map (geo_of (b_elements b)) (firstn n (skipn m x))).
      { intros n m x. now rewrite skipn_map, firstn_map. }
      rewrite X, map_map in P3. exact P3.
Qed.

(** ** C14: exactly when nothing is lost *)
Definition is_draw (sh : shape) : Prop := match sh with ShDraw _ => True | _ => False end.
Section WholeAmong.
  Variable whole_of : list event -> shape -> Prop.
  Variable events_of : shape -> list event.
  Fixpoint whole_among (front : list event) (shs : list shape) : Prop :=
    match shs with
    | [] => True
    | s :: shs => whole_of front s /\ whole_among (front ++ events_of s) shs
    end.
End WholeAmong.
(** No group with a fill or stroke of its own starts by continuing an undrawn
    path in front of the group. *)
Fixpoint whole (E : Ext) (frame : f64) (tf : affine) (before front : list event) (sh : shape) : Prop :=
  match sh with
  | ShGroup shs t =>
      let tf := affine_mul tf (group_tf E t frame) in
      (Exists is_draw shs -> continuing (undrawn None (before ++ front)) (flat_map (events_in E frame tf) shs) = 0) /\
      whole_among (whole E frame tf (before ++ front)) (events_in E frame tf) [] shs
  | _ => True
  end.
Definition whole_layer (E : Ext) (frame : f64) (tf : affine) (shs : list shape) : Prop :=
  whole_among (whole E frame tf []) (events_in E frame tf) [] shs.

Definition as_long (k d : style * marks) : Prop := List.length (snd k) = List.length (snd d).
Definition less_of (k d : style * marks) : Prop := fst k = fst d /\ exists n, snd k = skipn n (snd d).
Lemma Forall2_app_iff {A B} (P : A -> B -> Prop) a b c d : List.length a = List.length b -> Forall2 P (a ++ c) (b ++ d) <-> Forall2 P a b /\ Forall2 P c d.
Proof.
  revert b. induction a as [|x a IH]; intros [|y b] L; try discriminate; cbn [app].
  - split; [auto|tauto].
  - injection L as L. split.
    + intros H. inversion H; subst. apply IH in H5 as [H1 H2]; auto.
    + intros [H1 H2]. inversion H1; subst. constructor; auto. apply IH; auto.
Qed.
Definition compares (E : Ext) (sh : shape) : Prop := forall frame tf alpha before front rest r,
  let kept := draws_kept E frame tf alpha before (continuing r (front ++ events_in E frame tf sh ++ rest)) front sh in
  let full := draws_in E frame tf alpha (marks_of front) sh in
  Forall2 less_of kept full /\
  (Forall2 as_long kept full <-> (is_draw sh -> continuing r (front ++ events_in E frame tf sh ++ rest) = 0) /\ whole E frame tf before front sh).
Lemma compare_list E shs : Forall (compares E) shs -> forall frame tf alpha before front rest r,
  let lost := continuing r (front ++ flat_map (events_in E frame tf) shs ++ rest) in
  let kept := kept_among (draws_kept E frame tf alpha before lost) (events_in E frame tf) front shs in
  let full := draws_among (draws_in E frame tf alpha) (geometry_in E frame tf) (marks_of front) shs in
  Forall2 less_of kept full /\
  (Forall2 as_long kept full <-> (Exists is_draw shs -> lost = 0) /\ whole_among (whole E frame tf before) (events_in E frame tf) front shs).
Proof.
  induction 1 as [|s shs H _ IH]; intros frame tf alpha before front rest r; cbn [kept_among draws_among flat_map whole_among].
  - cbn zeta. split; [constructor|]. split; [|intros _; constructor]. intros _. split; [intros X; inversion X|exact I].
  - destruct (H frame tf alpha before front (flat_map (events_in E frame tf) shs ++ rest) r) as [A1 A2].
    destruct (IH frame tf alpha before (front ++ events_in E frame tf s) rest r) as [B1 B2]. cbn zeta in *.
    rewrite <- marks_events, <- marks_app. rewrite <- !app_assoc in *. split; [now apply Forall2_app|].
    rewrite Forall2_app_iff by now apply Forall2_len in A1. rewrite A2, B2. rewrite Exists_cons. tauto.
Qed.
Lemma compare_all E sh : compares E sh.
Proof.
  induction sh using shape_ind'; intros frame tf alpha before front rest r0.
  - cbn zeta. cbn [draws_kept draws_in is_draw whole events_in]. set (tf' := affine_mul tf _).
    destruct (compare_list E shs H frame tf' (fmul alpha (group_alpha E t frame)) (before ++ front) [] [] (undrawn None (before ++ front))) as [A1 A2].
    cbn zeta in *. cbn [app marks_of flat_map] in A1, A2. rewrite app_nil_r in A1, A2. split; [exact A1|]. rewrite A2. tauto.
  - cbn. split; [constructor|]. split; [tauto|constructor].
  - cbn zeta. cbn [draws_kept draws_in is_draw whole events_in]. set (lost := continuing _ _). split.
    + constructor; [|constructor]. split; [reflexivity|exists lost; reflexivity].
    + assert (Le : lost <= List.length (marks_of front)).
      { unfold lost. rewrite continuing_app. replace (continuing r0 ([EvDraw] ++ rest)) with 0 by (destruct r0; reflexivity). pose proof (continuing_le r0 front). destruct (all_continue r0 front); lia. }
      split.
      * intros X. inversion X as [|? ? ? ? Y]; subst. unfold as_long in Y. cbn [snd] in Y. rewrite skipn_length in Y. split; [intros _; lia|exact I].
      * intros [Y _]. rewrite (Y I). constructor; [reflexivity|constructor].
  - cbn. split; [constructor|]. split; [tauto|constructor].
  - cbn. split; [constructor|]. split; [tauto|constructor].
Qed.
Lemma compare_layer E frame tf alpha shs :
  Forall2 less_of (layer_kept E frame tf alpha shs) (draws_among (draws_in E frame tf alpha) (geometry_in E frame tf) [] shs) /\
  (Forall2 as_long (layer_kept E frame tf alpha shs) (draws_among (draws_in E frame tf alpha) (geometry_in E frame tf) [] shs) <-> whole_layer E frame tf shs).
Proof.
  destruct (compare_list E shs (proj2 (Forall_forall _ _) (fun s _ => compare_all E s)) frame tf alpha [] [] [] None) as [A1 A2]. cbn zeta in *.
  rewrite continuing_none in *. cbn [app marks_of flat_map] in *. split; [exact A1|]. unfold layer_kept, whole_layer. rewrite A2. tauto.
Qed.
Definition total (l : list (style * marks)) : nat := list_sum (map (fun d => List.length (snd d)) l).
Definition drawn_elements (ps : list paint) : nat := list_sum (map (fun p => List.length (pt_path p)) ps).
Lemma drawn_app a b : drawn_elements (a ++ b) = drawn_elements a + drawn_elements b.
Proof. unfold drawn_elements. now rewrite map_app, list_sum_app. Qed.
Lemma drawn_total E ds calls : Forall2 (paints_marks E) ds calls -> drawn_elements (List.concat (rev calls)) = total ds.
Proof.
  induction 1 as [|d ps ds calls [_ P] _ IH]; [reflexivity|]. cbn [rev]. rewrite concat_app, drawn_app, IH. cbn [List.concat]. rewrite app_nil_r. change (total (d :: ds)) with (List.length (snd d) + total ds).
  rewrite Nat.add_comm. f_equal. apply Forall2_len in P. etransitivity; [|exact P]. clear. induction ps as [|p ps IH]; [reflexivity|].
  cbn [flat_map]. rewrite app_length, place_length, <- IH. reflexivity.
Qed.
Lemma total_eq ks ds : Forall2 less_of ks ds -> total ks = total ds -> Forall2 as_long ks ds.
Proof.
  intros H. assert (Le : forall ks ds, Forall2 less_of ks ds -> total ks <= total ds).
  { induction 1 as [|k d l l' [_ [n E]] _ IH]; [cbn; lia|]. change (List.length (snd k) + total l <= List.length (snd d) + total l'). rewrite E, skipn_length. lia. }
  induction H as [|k d ks ds [Es [n En]] H IH]; [constructor|]. intros T. change (List.length (snd k) + total ks = List.length (snd d) + total ds) in T. specialize (Le ks ds H). assert (Lk : List.length (snd k) <= List.length (snd d)) by (rewrite En, skipn_length; lia).
  constructor; [unfold as_long; lia|apply IH; lia].
Qed.
Lemma less_long ks ds : Forall2 less_of ks ds -> Forall2 as_long ks ds -> ks = ds.
Proof.
  induction 1 as [|[k1 k2] [d1 d2] ks ds [Es [n En]] H IH]; [reflexivity|]. intros A. inversion A as [|? ? ? ? A1 A2]; subst. cbn in *. subst. f_equal; [|auto]. f_equal.
  unfold as_long in A1. cbn in A1. rewrite skipn_length in A1. destruct n as [|n]; [reflexivity|]. destruct d2; [reflexivity|]. cbn in A1. lia.
Qed.
(** Every draw of a layer paints exactly the geometry in front of it in its
    group if and only if no group with a fill or stroke of its own starts by
    continuing an undrawn path in front of it. *)
Theorem C14_exact : forall E tf alpha frame shs,
  Forall plain shs -> Forall (all_geometry (sound_geometry E)) shs ->
  (exists calls, layer_paints E tf alpha frame shs = Ok (List.concat (rev calls)) /\
     Forall2 (paints_marks E) (draws_among (draws_in E frame tf alpha) (geometry_in E frame tf) [] shs) calls) <->
  whole_layer E frame tf shs.
Proof.
  intros E tf alpha frame shs Hp Hs. destruct (C92_paints E tf alpha frame shs Hp Hs) as (calls & L & F).
  destruct (compare_layer E frame tf alpha shs) as [A1 A2]. split.
  - intros (calls' & L' & F'). apply A2. apply total_eq; [exact A1|]. rewrite <- (drawn_total E _ _ F), <- (drawn_total E _ _ F'). rewrite L' in L. f_equal.
    inversion L. reflexivity.
  - intros W. apply A2 in W. rewrite (less_long _ _ A1 W) in F. eauto.
Qed.
(** Two groups of paths in front of one fill: paths of different groups are
    merged, but nothing is lost; all three conditions are met, and the fill
    paints both paths.  In front of a group with a fill of its own the path is
    lost. *)
Example C14_exact_applies :
  let merged := [fixed_group [geo 1]; fixed_group [geo 2]; fill] in
  Forall plain merged /\ Forall (all_geometry (sound_geometry E0)) merged /\ whole_layer E0 f0 affine_identity merged /\
  ~ no_clash E0 f0 affine_identity merged /\
  ~ whole_layer E0 f0 affine_identity [geo 1; fixed_group [geo 2; fill]].
Proof.
  cbn zeta. split; [repeat constructor|]. split; [sound|]. split.
  - split; [|split; [|split; exact I]]; cbn; (split; [intros X; inversion X; subst; inversion H0|]); repeat split.
  - split.
    + intros H. apply H. vm_compute. reflexivity.
    + intros [_ [[H _] _]]. assert (X : Exists is_draw [geo 2; fill]) by (right; left; exact I). specialize (H X). vm_compute in H. discriminate.
Qed.
