(** C19: for all trees without other trims and repeaters, exactly what is painted
    around a trim that removes everything, and exactly when the removed path
    comes back. *)
From Coq Require Import ZArith Bool List Arith String Lia.
From Verif Require Import F64 Kurbo Value Animated Batch Render RenderFacts BatchFacts BatchSpec BatchRefine BatchFacts2 Examples PropBatch PropMerge.
Import ListNotations.
Close Scope string_scope.
Open Scope list_scope.
Open Scope nat_scope.

(** ** Specification *)
(** Where a removed path comes back: the last path in front of the trim is not
    drawn yet, and what comes first behind the trim is a path at an equal
    place. *)
Definition comes_back (before after : list event) : option affine :=
  match undrawn None before, after with
  | Some a, EvPath t _ :: _ => if affine_eqb a t then Some a else None
  | _, _ => None
  end.
(** What the draws behind the trim find in front of them: nothing, or all the
    path elements in front of the trim, at the place of the last of them. *)
Definition left_over (E : Ext) (frame : f64) (tf : affine) (pre post : list shape) : list event :=
  match comes_back (flat_map (events_in E frame tf) pre) (flat_map (events_in E frame tf) post) with
  | Some a => [EvPath a (map fst (flat_map (geometry_in E frame tf) pre))]
  | None => []
  end.
(** The draws behind the trim with what they paint. *)
Definition trimmed_kept (E : Ext) (frame : f64) (tf : affine) (alpha : f64) (pre post : list shape) : list (style * marks) :=
  kept_among (draws_kept E frame tf alpha [] 0) (events_in E frame tf) (left_over E frame tf pre post) post.

(** ** Batches that go on alike *)
Record alike (b c : batch) : Prop := mkAlike {
  al_els : b_elements b = b_elements c;
  al_geoms : b_geoms b = b_geoms c;
  al_draws : b_draws b = b_draws c;
  al_rg : b_rep_geoms b = b_rep_geoms c;
  al_rd : b_rep_draws b = b_rep_draws c;
  al_tr : b_trim b = b_trim c;
  al_drawn : b_drawn b = b_drawn c \/ (b_drawn b < List.length (b_geoms b) /\ b_drawn c < List.length (b_geoms c)) }.
Definition alikes (r s : res batch) : Prop :=
  match r, s with Ok b, Ok c => alike b c | Panic, Panic => True | Oof, Oof => True | _, _ => False end.
Lemma alike_refl b : alike b b. Proof. constructor; auto. Qed.
Lemma alikes_refl r : alikes r r. Proof. destruct r; cbn; auto using alike_refl. Qed.
Lemma alike_merge b c t : alike b c -> can_merge b t = can_merge c t.
Proof.
  intros []. unfold can_merge. rewrite al_geoms0 in *. f_equal. destruct al_drawn0 as [->|[H1 H2]]; [reflexivity|].
  apply Nat.ltb_lt in H1, H2. now rewrite H1, H2.
Qed.
Lemma alike_push E b c g t frame : alike b c -> alikes (push_geometry E b g t frame) (push_geometry E c g t frame).
Proof.
  intros H. unfold push_geometry. destruct (geometry_eval E g frame) as [els| |]; cbn; auto. rewrite (alike_merge b c t H).
  destruct H. rewrite al_els0, al_geoms0, al_draws0, al_rg0, al_rd0, al_tr0. destruct (can_merge c t); constructor; cbn; auto.
  - destruct al_drawn0 as [D|[H1 H2]]; [now left|right].
    assert (L : forall l e, List.length (set_last_end l e) = List.length l).
    { intros l e. destruct l as [|x l0] using rev_ind; [reflexivity|]. now rewrite set_last_end_app, !app_length. }
    rewrite !L. now rewrite al_geoms0 in H1.
  - destruct al_drawn0 as [D|[H1 H2]]; [now left|right]. rewrite !app_length. rewrite al_geoms0 in H1. lia.
Qed.
Lemma alike_draw E b c d alpha g0 frame : alike b c -> push_draw E b d alpha g0 frame = push_draw E c d alpha g0 frame.
Proof. intros []. unfold push_draw. now rewrite al_els0, al_geoms0, al_draws0, al_rg0, al_rd0, al_tr0. Qed.
Lemma alike_list E shs : Forall (fun sh => forall tf alpha frame gs ds b c, alike b c -> alikes (render_shape E tf alpha frame gs ds sh b) (render_shape E tf alpha frame gs ds sh c)) shs ->
  forall tf alpha frame gs ds b c, alike b c -> alikes (fold_shapes (render_shape E tf alpha frame gs ds) shs b) (fold_shapes (render_shape E tf alpha frame gs ds) shs c).
Proof.
  induction 1 as [|sh shs H _ IH]; intros tf alpha frame gs ds b c A; cbn [fold_shapes]; [exact A|].
  specialize (H tf alpha frame gs ds b c A). destruct (render_shape E tf alpha frame gs ds sh b), (render_shape E tf alpha frame gs ds sh c); cbn in *; auto; contradiction.
Qed.
Lemma alike_shape E sh : plain sh -> forall tf alpha frame gs ds b c, alike b c -> alikes (render_shape E tf alpha frame gs ds sh b) (render_shape E tf alpha frame gs ds sh c).
Proof.
  induction sh using shape_ind'; intros Hp tf alpha frame gs ds b c A; try contradiction.
  - apply plain_group in Hp. cbn [render_shape]. assert (L : b_geoms b = b_geoms c /\ b_draws b = b_draws c) by (destruct A; auto). destruct L as [-> ->].
    apply alike_list; [|exact A]. rewrite Forall_forall in *. auto.
  - cbn [render_shape]. now apply alike_push.
  - cbn [render_shape]. rewrite (alike_draw E b c) by exact A. apply alikes_refl.
Qed.
(** Two batches that the first event makes alike are alike at the end. *)
Definition first_alike (E : Ext) (frame : f64) (b c : batch) (es : list event) : Prop :=
  match es with
  | [] => True
  | EvPath t _ :: _ => forall g, alikes (push_geometry E b g t frame) (push_geometry E c g t frame)
  | EvDraw :: _ => forall d alpha gs, alike (push_draw E b d alpha gs frame) (push_draw E c d alpha gs frame)
  end.
Definition starts (E : Ext) (sh : shape) : Prop := forall tf alpha frame gs ds b c,
  List.length (b_geoms b) = List.length (b_geoms c) -> List.length (b_draws b) = List.length (b_draws c) ->
  first_alike E frame b c (events_in E frame tf sh) ->
  match events_in E frame tf sh with
  | [] => render_shape E tf alpha frame gs ds sh b = Ok b /\ render_shape E tf alpha frame gs ds sh c = Ok c
  | _ => alikes (render_shape E tf alpha frame gs ds sh b) (render_shape E tf alpha frame gs ds sh c)
  end.
Lemma starts_list E shs : Forall plain shs -> Forall (starts E) shs -> forall tf alpha frame gs ds b c,
  List.length (b_geoms b) = List.length (b_geoms c) -> List.length (b_draws b) = List.length (b_draws c) ->
  first_alike E frame b c (flat_map (events_in E frame tf) shs) ->
  match flat_map (events_in E frame tf) shs with
  | [] => fold_shapes (render_shape E tf alpha frame gs ds) shs b = Ok b /\ fold_shapes (render_shape E tf alpha frame gs ds) shs c = Ok c
  | _ => alikes (fold_shapes (render_shape E tf alpha frame gs ds) shs b) (fold_shapes (render_shape E tf alpha frame gs ds) shs c)
  end.
Proof.
  intros Hp H. induction H as [|sh shs H _ IH]; intros tf alpha frame gs ds b c L1 L2 F; cbn [fold_shapes flat_map] in *; [auto|].
  inversion Hp as [|? ? Hp1 Hp2]; subst. specialize (H tf alpha frame gs ds b c L1 L2). destruct (events_in E frame tf sh) as [|e es] eqn:Ee.
  - destruct (H I) as [-> ->]. cbn [bind app] in *. now apply IH.
  - cbn [app] in *. assert (F' : first_alike E frame b c (e :: es)) by (destruct e; exact F). specialize (H F').
    destruct (render_shape E tf alpha frame gs ds sh b), (render_shape E tf alpha frame gs ds sh c); cbn [alikes bind] in *; auto; try contradiction.
    apply alike_list; [|exact H]. eapply Forall_impl; [|exact Hp2]. intros x Hx. intros. now apply alike_shape.
Qed.
Lemma starts_all E sh : plain sh -> starts E sh.
Proof.
  induction sh using shape_ind'; intros Hp tf alpha frame gs ds b c L1 L2 F; try contradiction.
  - apply plain_group in Hp. cbn [render_shape events_in] in *. rewrite <- L1, <- L2.
    assert (Ge : group_tf E t frame = fst (group_params E t frame)) by (destruct t; reflexivity). rewrite Ge in *.
    apply starts_list; auto. rewrite Forall_forall in *. auto.
  - cbn in *. apply F.
  - cbn in *. apply F.
Qed.

(** ** What is in the buffer *)
Lemma elements_list E shs : Forall (fun sh => all_geometry (sound_geometry E) sh -> forall tf alpha frame gs ds b b', binv gs ds b -> render_shape E tf alpha frame gs ds sh b = Ok b' ->
    binv gs ds b' /\ b_elements b' = b_elements b ++ map fst (geometry_in E frame tf sh)) shs ->
  Forall (all_geometry (sound_geometry E)) shs -> forall tf alpha frame gs ds b b', binv gs ds b -> fold_shapes (render_shape E tf alpha frame gs ds) shs b = Ok b' ->
    binv gs ds b' /\ b_elements b' = b_elements b ++ map fst (flat_map (geometry_in E frame tf) shs).
Proof.
  induction 1 as [|sh shs H _ IH]; intros Hs tf alpha frame gs ds b b' I R; cbn [fold_shapes flat_map] in *.
  - injection R as <-. now rewrite app_nil_r.
  - inversion Hs as [|? ? Hs1 Hs2]; subst. destruct (render_shape E tf alpha frame gs ds sh b) as [b1| |] eqn:R1; cbn [bind] in R; try discriminate.
    destruct (H Hs1 tf alpha frame gs ds b b1 I R1) as [I1 E1]. destruct (IH Hs2 tf alpha frame gs ds b1 b' I1 R) as [I2 E2]. split; [exact I2|].
    now rewrite E2, E1, map_app, app_assoc.
Qed.
Lemma elements_shape E sh : plain sh -> all_geometry (sound_geometry E) sh -> forall tf alpha frame gs ds b b', binv gs ds b -> render_shape E tf alpha frame gs ds sh b = Ok b' ->
    binv gs ds b' /\ b_elements b' = b_elements b ++ map fst (geometry_in E frame tf sh).
Proof.
  intros Hp. induction sh using shape_ind'; intros Hs tf alpha frame gs ds b b' I R; try contradiction.
  - apply plain_group in Hp. split.
    { pose proof (render_shape_inv E (ShGroup shs t) Hs tf alpha frame gs ds b I) as (b'' & R' & I' & _). rewrite R in R'. now injection R' as <-. }
    apply all_geometry_group in Hs. cbn [render_shape geometry_in] in *.
    assert (Ge : group_tf E t frame = fst (group_params E t frame)) by (destruct t; reflexivity). rewrite Ge.
    eapply (elements_list E shs); [|exact Hs|eapply binv_enter; exact I|exact R]. rewrite Forall_forall in *. intros x Hx Sx. apply H; auto.
  - destruct (Hs frame) as (els & H1 & H2). cbn [render_shape geometry_in] in *. unfold path_at. rewrite H1.
    destruct (push_geometry_inv E gs ds b g tf frame els H1 H2 I) as (b2 & R2 & I2 & _ & E2 & _). rewrite R in R2. injection R2 as <-. split; [exact I2|].
    rewrite E2. f_equal. unfold place. rewrite map_map. cbn. now rewrite map_id.
  - cbn [render_shape geometry_in map] in *. injection R as <-. split; [now apply push_draw_inv|]. cbn. now rewrite app_nil_r.
Qed.

(** ** What a finished batch paints *)
Lemma painted_marks E b ds ks : Forall2 (painted b) ds ks -> Forall2 (paints_marks E) ks (map (draw_paints E b) ds).
Proof.
  intros K. induction K as [|d s l l' (P1 & P2 & P3) _ IH]; [constructor|]. cbn [map]. constructor; [|exact IH]. unfold draw_paints. split.
  - apply Forall_map, Forall_forall. intros g _. split; cbn [pt_stroke pt_brush]; [now rewrite <- P1|]. rewrite draw_brush_style. now rewrite P1.
  - unfold geos in P3. unfold flatten in P3. rewrite !flat_map_concat_map, !map_map in *. cbn [pt_transform pt_path].
    assert (X : forall n m (x : list geom_data), firstn n (skipn m (map (geo_of (b_elements b)) x)) = map (geo_of (b_elements b)) (firstn n (skipn m x))).
    { intros n m x. now rewrite skipn_map, firstn_map. }
    rewrite X, map_map in P3. exact P3.
Qed.
Lemma render_alike E b c : alike b c -> batch_render E b = batch_render E c.
Proof. intros []. unfold batch_render, render_draw. now rewrite al_geoms0, al_draws0, al_els0. Qed.
(** A draw in front of everything changes nothing. *)
Lemma kept_after_draw E frame sh : forall tf alpha before lost front,
  draws_kept E frame tf alpha (EvDraw :: before) lost front sh = draws_kept E frame tf alpha before lost front sh.
Proof.
  induction sh using shape_ind'; intros tf alpha before lost front; try reflexivity. cbn [draws_kept app undrawn].
  set (tf' := affine_mul _ _). set (l := continuing _ _). clearbody tf' l. generalize (@nil event) as f. induction H as [|s shs Hs _ IH]; intros f; cbn [kept_among]; [reflexivity|].
  now rewrite Hs, IH.
Qed.
Lemma kept_draw E frame tf alpha shs : forall front,
  kept_among (draws_kept E frame tf alpha [] 0) (events_in E frame tf) (EvDraw :: front) shs =
  kept_among (draws_kept E frame tf alpha [] 0) (events_in E frame tf) front shs.
Proof.
  induction shs as [|s shs IH]; intros front; cbn [kept_among app]; [reflexivity|]. rewrite IH. f_equal.
  destruct s as [xs t|g|d|r|t]; try reflexivity. cbn [draws_kept app undrawn].
  set (tf' := affine_mul _ _). set (l := continuing _ _). clearbody tf' l. generalize (@nil event) as f. induction xs as [|x xs IHx]; intros f; cbn [kept_among]; [reflexivity|].
  now rewrite kept_after_draw, IHx.
Qed.
Definition erased (b : batch) : list geom_data := map (fun g => mkGeom 0 0 (gd_transform g)) (b_geoms b).
Lemma geos_erased els l : flatten (map (geo_of els) (map (fun g => mkGeom 0 0 (gd_transform g)) l)) = [].
Proof. induction l as [|g l IH]; [reflexivity|]. exact IH. Qed.
Lemma erased_ok els gs : ok_path els -> Forall (geom_ok els) (map (fun g => mkGeom 0 0 (gd_transform g)) gs).
Proof. intros H. apply Forall_map, Forall_forall. intros g _. constructor; cbn; auto. lia. Qed.
Lemma erased_paths els l : Forall (fun o : outline => fst o = []) (map (geo_of els) (map (fun g => mkGeom 0 0 (gd_transform g)) l)).
Proof. apply Forall_map, Forall_map, Forall_forall. intros g _. reflexivity. Qed.
Lemma firstn_forall {A} (P : A -> Prop) n l : Forall P l -> Forall P (firstn n l).
Proof. intros H. revert n. induction H; intros [|n]; cbn; auto. Qed.
(** The draws in front of the trim paint nothing. *)
Lemma empty_draws E b ds n : Forall (fun o : outline => fst o = []) (firstn n (geos b)) -> Forall (fun d => dd_end d <= n) ds ->
  Forall (fun p => pt_path p = []) (List.concat (map (draw_paints E b) (rev ds))).
Proof.
  intros Hg Hd. apply Forall_concat, Forall_map. apply Forall_rev. eapply Forall_impl; [|exact Hd]. intros d Hn. cbn beta in Hn. unfold draw_paints. apply Forall_map.
  apply Forall_forall. intros g Hi. cbn [pt_path].
  assert (X : In (geo_of (b_elements b) g) (firstn n (geos b))).
  { assert (Y : In g (firstn n (b_geoms b))).
    { assert (Z : In g (skipn (dd_start d) (firstn (dd_end d) (b_geoms b)))) by now rewrite skipn_firstn_comm. apply in_skipn in Z.
      rewrite <- (Nat.min_r n (dd_end d) Hn) in Z. rewrite Nat.min_comm, <- firstn_firstn in Z. now apply in_firstn in Z. }
    unfold geos. rewrite firstn_map. now apply in_map. }
  rewrite Forall_forall in Hg. exact (Hg _ X).
Qed.

(** ** C19 *)
Lemma after_trim E tf alpha frame b1 b2 (ev : list event) post els :
  binv 0 0 b1 -> state b1 ev -> binv 0 0 b2 -> b_draws b2 = b_draws b1 -> b_drawn b2 = b_drawn b1 -> b_elements b2 = els ->
  b_elements b1 = els -> b_geoms b2 = erased b1 ->
  Forall plain post -> Forall (all_geometry (sound_geometry E)) post ->
  exists b' new, fold_shapes (render_shape E tf alpha frame 0 0) post b2 = Ok b' /\
    batch_render E b' = Ok (List.concat (map (draw_paints E b') (rev (b_draws b1 ++ new)))) /\
    Forall (fun p => pt_path p = []) (List.concat (map (draw_paints E b') (rev (b_draws b1)))) /\
    Forall2 (paints_marks E)
      (kept_among (draws_kept E frame tf alpha [] 0) (events_in E frame tf)
         (match comes_back ev (flat_map (events_in E frame tf) post) with Some a => [EvPath a els] | None => [] end) post)
      (map (draw_paints E b') new).
Proof.
  intros I1 S1 I2 Dd Dn El El1 Gm Hp Hs. set (evs := flat_map (events_in E frame tf) post).
  assert (Len : List.length (b_geoms b2) = List.length (b_geoms b1)) by (rewrite Gm; apply map_length).
  assert (Main : forall c es0, binv 0 0 c -> state c es0 -> part 0 [] es0 c -> b_draws c = b_draws b2 -> List.length (b_geoms c) = List.length (b_geoms b2) ->
     b_elements c = b_elements b2 -> (evs = [] -> b_geoms c = b_geoms b2) -> first_alike E frame b2 c evs -> b_drawn b1 <= b_drawn c ->
     Forall (fun o : outline => fst o = []) (firstn (b_drawn b1) (geos c)) ->
     exists b' new, fold_shapes (render_shape E tf alpha frame 0 0) post b2 = Ok b' /\
       batch_render E b' = Ok (List.concat (map (draw_paints E b') (rev (b_draws b1 ++ new)))) /\
       Forall (fun p => pt_path p = []) (List.concat (map (draw_paints E b') (rev (b_draws b1)))) /\
       Forall2 (paints_marks E) (kept_among (draws_kept E frame tf alpha [] 0) (events_in E frame tf) es0 post) (map (draw_paints E b') new)).
  { intros c es0 Ic Sc Pc Dc Lc Ec Gc Fc Nc Hc.
    assert (HF : Forall (walk E) post) by (rewrite Forall_forall in *; intros; apply walk_all; auto).
    destruct (walk_list E post HF tf alpha frame 0 0 c [] es0 [] Ic Sc Pc) as (ce & new & R & Ie & De & Se & Fe & _ & K).
    cbn [undrawn] in K. rewrite continuing_none in K.
    assert (Ld : List.length (b_draws b2) = List.length (b_draws c)) by now rewrite Dc.
    pose proof (starts_list E post Hp (Forall_impl _ (starts_all E) Hp) tf alpha frame 0 0 b2 c (eq_sym Lc) Ld Fc) as St.
    fold evs in St.
    assert (Out : exists b', fold_shapes (render_shape E tf alpha frame 0 0) post b2 = Ok b' /\ b_geoms b' = b_geoms ce /\ b_elements b' = b_elements ce /\ b_draws b' = b_draws ce).
    { destruct evs as [|e es].
      - destruct St as [St1 St2]. exists b2. split; [exact St1|]. rewrite R in St2. injection St2 as ->. rewrite Gc by reflexivity. auto.
      - rewrite R in St. destruct (fold_shapes (render_shape E tf alpha frame 0 0) post b2) as [b'| |]; cbn in St; try contradiction.
        exists b'. destruct St. auto. }
    destruct Out as (b' & Rb & Gb & Eb & Db). exists b', new. split; [exact Rb|].
    assert (Dp : forall d, draw_paints E b' d = draw_paints E ce d) by (intros d; unfold draw_paints; now rewrite Gb, Eb).
    assert (Br : batch_render E b' = batch_render E ce) by (unfold batch_render, render_draw; now rewrite Gb, Db, Eb).
    assert (Mp : forall l, map (draw_paints E b') l = map (draw_paints E ce) l) by (intros l; apply map_ext; exact Dp).
    split; [|split].
    - rewrite Br, (batch_render_eq E 0 0 ce Ie), De, Dc, Dd, Mp. reflexivity.
    - rewrite Mp. apply empty_draws with (n := b_drawn b1); [|apply (st_draws _ _ S1)].
      destruct Fe as (_ & _ & Fz). replace (b_drawn b1) with (Nat.min (b_drawn b1) (b_drawn c)) by lia. rewrite <- firstn_firstn, Fz, firstn_firstn.
      replace (Nat.min (b_drawn b1) (b_drawn c)) with (b_drawn b1) by lia. exact Hc.
    - rewrite Mp. now apply painted_marks. }
  pose proof (st_run _ _ S1) as Run. unfold comes_back.
  assert (Drawn : forall c, b_geoms c = b_geoms b2 -> b_elements c = b_elements b2 -> b_draws c = b_draws b2 ->
     b_rep_geoms c = b_rep_geoms b2 -> b_rep_draws c = b_rep_draws b2 -> b_trim c = b_trim b2 -> b_drawn c = List.length (b_geoms b2) ->
     first_alike E frame b2 c evs ->
     exists b' new, fold_shapes (render_shape E tf alpha frame 0 0) post b2 = Ok b' /\
       batch_render E b' = Ok (List.concat (map (draw_paints E b') (rev (b_draws b1 ++ new)))) /\
       Forall (fun p => pt_path p = []) (List.concat (map (draw_paints E b') (rev (b_draws b1)))) /\
       Forall2 (paints_marks E) (kept_among (draws_kept E frame tf alpha [] 0) (events_in E frame tf) [] post) (map (draw_paints E b') new)).
  { intros c Gc Ec Dc X1 X2 X3 Nc Fc. destruct (Main c [EvDraw]) as (b' & new & A1 & A2 & A3 & A4); auto.
    - destruct I2. constructor; rewrite ?X1, ?X2, ?X3, ?Gc, ?Ec, ?Dc; auto. lia.
    - split; cbn [undrawn].
      + now rewrite Gc.
      + rewrite Dc, Nc. destruct I2. eapply Forall_impl; [|exact bi_draws]. cbn. intros d ?. lia.
    - split; cbn; try lia; try discriminate; auto. unfold geos. rewrite Gc, Gm. unfold erased. rewrite geos_erased. constructor.
    - now rewrite Gc.
    - rewrite Nc, Len. apply (bi_drawn _ _ _ I1).
    - apply firstn_forall. unfold geos. rewrite Gc, Gm. apply erased_paths.
    - exists b', new. rewrite kept_draw in A4. auto. }
  destruct (undrawn None ev) as [a|] eqn:Eu.
  2:{ apply (Drawn b2); auto; [congruence|]. destruct evs as [|[t x|] es]; cbn; intros; auto using alikes_refl, alike_refl. }
  destruct Run as [Lt (l & gl & Gl & Ta & Ge)].
  assert (Gl2 : b_geoms b2 = map (fun g => mkGeom 0 0 (gd_transform g)) l ++ [mkGeom 0 0 a]) by (rewrite Gm; unfold erased; rewrite Gl, map_app; cbn; now rewrite Ta).
  assert (Other : (match evs with EvPath t _ :: _ => affine_eqb a t = false | _ => True end) ->
     exists b' new, fold_shapes (render_shape E tf alpha frame 0 0) post b2 = Ok b' /\
       batch_render E b' = Ok (List.concat (map (draw_paints E b') (rev (b_draws b1 ++ new)))) /\
       Forall (fun p => pt_path p = []) (List.concat (map (draw_paints E b') (rev (b_draws b1)))) /\
       Forall2 (paints_marks E) (kept_among (draws_kept E frame tf alpha [] 0) (events_in E frame tf) [] post) (map (draw_paints E b') new)).
  { intros Hf. set (c := mkBatch (b_elements b2) (b_geoms b2) (b_draws b2) (b_rep_geoms b2) (b_rep_draws b2) (List.length (b_geoms b2)) (b_trim b2)).
    apply (Drawn c); auto. destruct evs as [|[t x|] es]; cbn [first_alike]; [exact I| |].
    - intros g. unfold push_geometry. destruct (geometry_eval E g frame) as [pe| |]; cbn; auto.
      assert (M1 : can_merge b2 t = false) by (unfold can_merge; rewrite Gl2, last_opt_app; cbn [gd_transform]; rewrite Hf; apply andb_false_r).
      assert (M2 : can_merge c t = false) by (unfold can_merge; cbn [c b_geoms]; rewrite Gl2, last_opt_app; cbn [gd_transform]; rewrite Hf; apply andb_false_r).
      rewrite M1, M2. constructor; cbn; auto. right. rewrite !app_length. cbn. pose proof (bi_drawn _ _ _ I2). lia.
    - intros d al g0. apply alike_refl. }
  destruct evs as [|[t x|] es] eqn:Ev; [now apply Other| |now apply Other].
  destruct (affine_eqb a t) eqn:Ea; [|now apply Other].
  set (c := mkBatch (b_elements b2) (map (fun g => mkGeom 0 0 (gd_transform g)) l ++ [mkGeom 0 (List.length (b_elements b2)) a]) (b_draws b2) (b_rep_geoms b2) (b_rep_draws b2) (b_drawn b2) (b_trim b2)).
  assert (Lc : List.length (b_geoms c) = List.length (b_geoms b2)) by (cbn [c b_geoms]; rewrite Gl2, !app_length; reflexivity).
  apply (Main c [EvPath a els]); auto; try discriminate.
  - destruct I2. constructor; rewrite ?Lc; cbn [c b_elements b_geoms b_draws b_rep_geoms b_rep_draws b_trim b_drawn]; auto.
    apply Forall_app. split; [now apply erased_ok|]. constructor; [|constructor]. constructor; cbn; auto. lia.
  - split; cbn [undrawn c b_drawn b_geoms b_elements b_draws].
    + split; [rewrite Dn, app_length, map_length; rewrite Gl, app_length in Lt; exact Lt|]. eexists _, _. split; [reflexivity|]. split; reflexivity.
    + rewrite Dd, Dn. apply (st_draws _ _ S1).
  - split.
    + lia.
    + cbn. discriminate.
    + intros _. left. cbn [c b_geoms]. rewrite app_length. cbn. lia.
    + cbn [undrawn continuing skipn]. unfold geos. cbn [c b_geoms b_elements]. rewrite map_app, flatten_app, geos_erased. cbn [app map flatten flat_map geo_of path_of gd_start gd_end gd_transform fst snd skipn].
      unfold geo_of, path_of. cbn [gd_start gd_end gd_transform fst snd skipn marks_of flat_map]. rewrite Nat.sub_0_r, firstn_all, !app_nil_r, El. apply sim_refl.
  - cbn [first_alike]. intros g. unfold push_geometry. destruct (geometry_eval E g frame) as [pe| |]; cbn; auto.
    assert (M1 : can_merge b2 t = true).
    { unfold can_merge. rewrite Gl2, last_opt_app. cbn [gd_transform]. rewrite Ea, andb_true_r. apply Nat.ltb_lt. rewrite <- Gl2, Len, Dn. exact Lt. }
    assert (M2 : can_merge c t = true).
    { unfold can_merge. cbn [c b_geoms b_drawn]. rewrite last_opt_app. cbn [gd_transform]. rewrite Ea, andb_true_r. apply Nat.ltb_lt. change (b_drawn b2 < List.length (b_geoms c)). rewrite Lc, Len, Dn. exact Lt. }
    rewrite M1, M2. constructor; cbn [b_elements b_geoms b_draws b_rep_geoms b_rep_draws b_trim b_drawn c]; auto. rewrite Gl2, !set_last_end_app. reflexivity.
  - cbn [c b_drawn]. lia.
  - unfold geos. cbn [c b_geoms b_elements]. rewrite map_app, firstn_app. apply Forall_app. split; [apply firstn_forall, erased_paths|].
    rewrite map_length, map_length. rewrite Gl, app_length in Lt. cbn in Lt. replace (b_drawn b1 - List.length l) with 0 by lia. constructor.
Qed.
Lemma fold_shapes_app (f : shape -> batch -> res batch) a c : forall b, fold_shapes f (a ++ c) b = bind (fold_shapes f a b) (fold_shapes f c).
Proof. induction a as [|s a IH]; intros b; cbn [app fold_shapes bind]; [reflexivity|]. destruct (f s b); cbn [bind]; auto. Qed.
(** Around a trim that removes everything, the draws in front of it paint
    nothing, and those behind it what comes after the trim and what is left
    over from in front. *)
Theorem C19_exact : forall E tf alpha frame pre t post,
  Forall plain pre -> Forall plain post ->
  Forall (all_geometry (sound_geometry E)) pre -> Forall (all_geometry (sound_geometry E)) post ->
  trim_normalized (trim_eval E t frame) = None ->
  exists calls ps0,
    layer_paints E tf alpha frame (pre ++ ShTrim t :: post) = Ok (List.concat (rev calls) ++ ps0) /\
    Forall (fun p => pt_path p = []) ps0 /\
    Forall2 (paints_marks E) (trimmed_kept E frame tf alpha pre post) calls.
Proof.
  intros E tf alpha frame pre t post Pp Pq Sp Sq Ht.
  assert (HF : Forall (walk E) pre) by (rewrite Forall_forall in *; intros; apply walk_all; auto).
  destruct (walk_list E pre HF tf alpha frame 0 0 batch_empty [] [] [] binv_empty) as (b1 & new1 & R1 & I1 & D1 & S1 & F1 & Q1 & K1).
  - split; [reflexivity|constructor].
  - split; [cbn; lia|reflexivity|discriminate|constructor].
  - cbn [app] in S1.
    assert (El : b_elements b1 = map fst (flat_map (geometry_in E frame tf) pre)).
    { assert (EL : Forall (fun sh => all_geometry (sound_geometry E) sh -> forall tf alpha frame gs ds b b', binv gs ds b -> render_shape E tf alpha frame gs ds sh b = Ok b' ->
        binv gs ds b' /\ b_elements b' = b_elements b ++ map fst (geometry_in E frame tf sh)) pre).
      { eapply Forall_impl; [|exact Pp]. intros x Px Sx. now apply elements_shape. }
      apply (elements_list E pre EL Sp tf alpha frame 0 0 batch_empty b1 binv_empty R1). }
    destruct (apply_trim_none E 0 0 b1 (trim_eval E t frame) Ht I1) as (b2 & R2 & I2 & D2 & N2 & E2 & G2). cbn [firstn skipn app] in G2.
    destruct (after_trim E tf alpha frame b1 b2 _ post _ I1 S1 I2 D2 N2 (eq_trans E2 El) El G2 Pq Sq) as (b' & new & R & B & P0 & K).
    exists (map (draw_paints E b') new), (List.concat (map (draw_paints E b') (rev (b_draws b1)))). split; [|split; [exact P0|]].
    + unfold layer_paints, render_shapes. cbn [batch_empty b_geoms b_draws List.length]. fold batch_empty. rewrite fold_shapes_app, R1. cbn [bind fold_shapes render_shape]. rewrite R2. cbn [bind]. rewrite R. cbn [bind].
      rewrite B, rev_app_distr, map_app, concat_app, map_rev. reflexivity.
    + unfold trimmed_kept, left_over. exact K.
Qed.
(** The removed path stays away unless the last path in front of the trim is
    undrawn and goes on right behind the trim at an equal place: then what is
    painted behind is what would be painted without anything in front. *)
Theorem C19_stays : forall E tf alpha frame pre t post,
  Forall plain pre -> Forall plain post ->
  Forall (all_geometry (sound_geometry E)) pre -> Forall (all_geometry (sound_geometry E)) post ->
  trim_normalized (trim_eval E t frame) = None ->
  comes_back (flat_map (events_in E frame tf) pre) (flat_map (events_in E frame tf) post) = None ->
  exists calls ps0,
    layer_paints E tf alpha frame (pre ++ ShTrim t :: post) = Ok (List.concat (rev calls) ++ ps0) /\
    Forall (fun p => pt_path p = []) ps0 /\
    Forall2 (paints_marks E) (layer_kept E frame tf alpha post) calls.
Proof.
  intros E tf alpha frame pre t post Pp Pq Sp Sq Ht Hc. destruct (C19_exact E tf alpha frame pre t post Pp Pq Sp Sq Ht) as (calls & ps0 & H1 & H2 & H3).
  exists calls, ps0. unfold trimmed_kept, left_over in H3. rewrite Hc in H3. auto.
Qed.
Lemma kept_among_app (d : list event -> shape -> list (style * marks)) e a c : forall front,
  kept_among d e front (a ++ c) = kept_among d e front a ++ kept_among d e (front ++ flat_map e a) c.
Proof.
  induction a as [|s a IH]; intros front; cbn [app kept_among flat_map]; [now rewrite app_nil_r|]. now rewrite IH, !app_assoc.
Qed.
(** Otherwise every draw of the layer behind the trim paints all the removed
    path elements again, in front of what comes after the trim. *)
Theorem C19_returns : forall E tf alpha frame pre t p1 d p2 a ps,
  Forall plain pre -> Forall plain (p1 ++ ShDraw d :: p2) ->
  Forall (all_geometry (sound_geometry E)) pre -> Forall (all_geometry (sound_geometry E)) (p1 ++ ShDraw d :: p2) ->
  trim_normalized (trim_eval E t frame) = None ->
  comes_back (flat_map (events_in E frame tf) pre) (flat_map (events_in E frame tf) (p1 ++ ShDraw d :: p2)) = Some a ->
  layer_paints E tf alpha frame (pre ++ ShTrim t :: p1 ++ ShDraw d :: p2) = Ok ps ->
  exists call, incl call ps /\ Forall (in_style E (style_of E d alpha frame)) call /\
    flat_map pt_path call = map fst (flat_map (geometry_in E frame tf) pre) ++ map fst (flat_map (geometry_in E frame tf) p1).
Proof.
  intros E tf alpha frame pre t p1 d p2 a ps Pp Pq Sp Sq Ht Hc Hl.
  destruct (C19_exact E tf alpha frame pre t (p1 ++ ShDraw d :: p2) Pp Pq Sp Sq Ht) as (calls & ps0 & H1 & H2 & H3).
  rewrite Hl in H1. injection H1 as ->. unfold trimmed_kept, left_over in H3. rewrite Hc, kept_among_app in H3. cbn [kept_among draws_kept app skipn] in H3.
  apply Forall2_app_inv_l in H3 as (c1 & c2 & _ & H4 & ->). inversion H4 as [|? call ? c3 [Hi Hm] _]; subst. exists call. split; [|split; [exact Hi|]].
  - intros x Hx. apply in_or_app. left. apply in_concat. exists call. split; [|exact Hx]. rewrite <- in_rev. apply in_or_app. right. now left.
  - cbn [snd marks_of flat_map] in Hm. rewrite flat_map_app in Hm || idtac.
    assert (Fst : forall u v, Forall2 (fun m n : path_el * affine => fst m = fst n /\ same_place (snd m) (snd n)) u v -> map fst u = map fst v).
    { intros u v H. induction H as [|x y u v [Hx _] _ IH]; cbn; congruence. }
    apply Fst in Hm. rewrite map_app in Hm. fold (marks_of (flat_map (events_in E frame tf) p1)) in Hm.
    assert (Mk : forall shs, marks_of (flat_map (events_in E frame tf) shs) = flat_map (geometry_in E frame tf) shs).
    { induction shs as [|s shs IH]; [reflexivity|]. cbn [flat_map]. now rewrite marks_app, marks_events, IH. }
    rewrite Mk in Hm.
    assert (Pl : forall tt els, map fst (place tt els) = els) by (intros; unfold place; rewrite map_map; cbn; apply map_id).
    rewrite Pl in Hm. rewrite <- Hm. clear - Pl. induction call as [|x call IH]; [reflexivity|]. cbn [flat_map]. now rewrite map_app, Pl, IH.
Qed.
(** Both cases occur. *)
Definition zero_trim : trim_v := TrFixed (mkTrim f0 f0 f0).
Example C19_stays_applies :
  Forall plain [geo 1; fill] /\ Forall (all_geometry (sound_geometry E0)) [geo 1; fill] /\ trim_normalized (trim_eval E0 zero_trim f0) = None /\
  comes_back (flat_map (events_in E0 f0 affine_identity) [geo 1; fill]) (flat_map (events_in E0 f0 affine_identity) [fixed_group [geo 2; fill]; fill]) = None.
Proof. split; [repeat constructor|]. split; [sound|]. split; vm_compute; reflexivity. Qed.
Example C19_returns_applies :
  Forall plain [geo 1] /\ trim_normalized (trim_eval E0 zero_trim f0) = None /\
  comes_back (flat_map (events_in E0 f0 affine_identity) [geo 1]) (flat_map (events_in E0 f0 affine_identity) [geo 2; fill]) = Some affine_identity.
Proof.
  split; [repeat constructor|]. split; [vm_compute; reflexivity|]. unfold comes_back. cbn [flat_map events_in app undrawn geo fill].
  replace (affine_eqb affine_identity affine_identity) with true by (vm_compute; reflexivity). reflexivity.
Qed.
